(* C124: questions about points of a loaded BSP. *)
From Coq Require Import Reals List ZArith Bool Lra Lia.
From Verif Require Import WindClipModel LightValProofs BspQueryModel BspQueryProofs.
Import ListNotations.
Open Scope R_scope.

(** A file whose nodes come before their children has a tree below every node, no deeper than the
    number of nodes; so length (b_nodes b) is enough for all walks below. *)
Theorem C124_file : forall b num, file_ok b -> (0 <= num < Z.of_nat (length (b_nodes b)))%Z ->
  exists t, tree_at b num t /\ (height t <= length (b_nodes b))%nat.
Proof.
  intros b num OK H. destruct (file_tree b OK (length (b_nodes b)) num ltac:(lia) ltac:(left; exact H)) as (t & T & A & _).
  exists t. split; [exact T|]. specialize (A ltac:(lia)). lia.
Qed.
Print Assumptions C124_file.

(** The leaf found for a point is the only leaf of the tree all of whose planes have the point on
    its side; both searches of the code find it. *)
Theorem C124_leaf : forall b num t fuel p, tree_at b num t -> (height t <= fuel)%nat ->
  exists path i l, In (path, (i, l)) (leafs t) /\ Forall (on_side p) path /\ find_leaf fuel b num p = Got (i, l) /\
    point_in_leaf_r fuel b num p = Got (i, l) /\
    (forall path' x, In (path', x) (leafs t) -> Forall (on_side p) path' -> path' = path /\ x = (i, l)).
Proof.
  intros b num t fuel p T H. destruct (find_leaf_ok b num t T fuel p H) as (path & [i l] & A & B & C & U).
  exists path, i, l. split; [exact A|]. split; [exact B|]. split; [exact C|]. split; [|exact U].
  rewrite (point_in_leaf_r_ok b num t T). exact C.
Qed.
Print Assumptions C124_leaf.

(** A point counts as solid exactly if some solid (or sky) leaf has it on its side of all planes,
    give or take 1/10. *)
Theorem C124_solid : forall b num t fuel p, tree_at b num t -> (height t <= fuel)%nat ->
  exists s, point_in_solid fuel b num p = Got s /\
    (s = true <-> exists path i l, In (path, (i, l)) (leafs t) /\ Forall (near_side p) path /\
       (if b_q2 b then Z.testbit (l_contents l) 0 = true else l_contents l = -2 \/ l_contents l = -6)%Z).
Proof.
  intros b num t fuel p T H. destruct (point_in_solid_ok b num t T fuel p H) as (s & A & B).
  exists s. split; [exact A|]. rewrite B.
  assert (K : forall l, solid_leaf (b_q2 b) l = true <-> (if b_q2 b then Z.testbit (l_contents l) 0 = true else l_contents l = -2 \/ l_contents l = -6)%Z).
  { intro l. unfold solid_leaf. destruct (b_q2 b). { rewrite Z.bit0_odd. reflexivity. } rewrite orb_true_iff, !Z.eqb_eq. reflexivity. }
  split; intros (path & i & l & I & F & S); exists path, i, l; (split; [exact I|]; split; [exact F|]; apply K; exact S).
Qed.
Print Assumptions C124_solid.

(** No solid is missed: a point at most 1/10 away from a point of a solid leaf counts as solid. *)
Theorem C124_solid_near : forall b num t fuel p q i l, tree_at b num t -> (height t <= fuel)%nat ->
  (forall path x h, In (path, x) (leafs t) -> In h path -> plane_ok (fst h)) ->
  len (sub p q) <= 1 / 10 -> find_leaf fuel b num q = Got (i, l) -> solid_leaf (b_q2 b) l = true ->
  point_in_solid fuel b num p = Got true.
Proof.
  intros b num t fuel p q i l T H PO L E S.
  destruct (find_leaf_ok b num t T fuel q H) as (path & x & A & B & C & _).
  rewrite E in C. injection C as <-.
  destruct (point_in_solid_ok b num t T fuel p H) as (s & D & F). rewrite D. f_equal. apply F.
  exists path, i, l. split; [exact A|]. split; [|exact S].
  apply Forall_forall. intros h Ih. rewrite Forall_forall in B. apply (on_near p q h); [exact (PO path _ h A Ih)|exact L|exact (B h Ih)].
Qed.
Print Assumptions C124_solid_near.

(** But a point may count as solid although the nearest point of a solid leaf is a whole unit away:
    the leaf is the sharp wedge between the planes y = 0 and 40x = 399y (about), which has no point
    with a negative x. *)
Definition wedge : bsp := mkBsp false [mkDP (mkV 0 1 0) 0 1; mkDP (mkV (-40/401) (399/401) 0) 0 3]
  [mkDN 0 1 (-2) 0 0; mkDN 1 (-2) (-1) 0 0] [mkDLf (-2) (-1); mkDLf (-1) 0] [] [].
Theorem C124_solid_refuted : exists p, point_in_solid 2 wedge 0 p = Got true /\ file_ok wedge /\
  (forall q i l, find_leaf 2 wedge 0 q = Got (i, l) -> solid_leaf false l = true -> 1 <= len (sub p q)).
Proof.
  exists (mkV (-1) 0 0). split; [|split].
  - assert (T : tree_at wedge 0 (TNode (mkDN 0 1 (-2) 0 0) (mkDP (mkV 0 1 0) 0 1) (TNode (mkDN 1 (-2) (-1) 0 0) (mkDP (mkV (-40/401) (399/401) 0) 0 3) (TLeaf 1 (mkDLf (-1) 0)) (TLeaf 0 (mkDLf (-2) (-1)))) (TLeaf 1 (mkDLf (-1) 0)))).
    { constructor; try reflexivity; try (cbn; lia).
      - constructor; try reflexivity; try (cbn; lia); [apply (TA_leaf wedge (-2))|apply (TA_leaf wedge (-1))]; reflexivity.
      - apply (TA_leaf wedge (-2)); reflexivity. }
    destruct (C124_solid wedge 0 _ 2 (mkV (-1) 0 0) T) as (s & A & B). { cbn. lia. }
    rewrite A. f_equal. apply B. exists [(mkDP (mkV 0 1 0) 0 1, false); (mkDP (mkV (-40/401) (399/401) 0) 0 3, true)], 0%Z, (mkDLf (-2) (-1)).
    split; [right; left; reflexivity|]. split; [|left; reflexivity].
    repeat constructor; unfold near_side, distance_fast, dist_to, dot; cbn; lra.
  - intros i n E. destruct i as [|[|i]]; [| |destruct i; discriminate]; injection E as <-; cbn; (split; [lia|]); intros c [->| ->]; cbn; lia.
  - intros q i l E S.
    assert (E0 : find_leaf 2 wedge 0 q = if Rle_dec 0 (vy q - 0) then
                 (if Rle_dec 0 (dist_to (mkPl (mkV (-40 / 401) (399 / 401) 0) 0) q) then Got (1%Z, mkDLf (-1) 0) else Got (0%Z, mkDLf (-2) (-1)))
                 else Got (1%Z, mkDLf (-1) 0)) by reflexivity.
    rewrite E0 in E. clear E0.
    destruct (Rle_dec 0 (vy q - 0)) as [D1|D1]. 2: { injection E as _ <-. discriminate. }
    destruct (Rle_dec 0 (dist_to (mkPl (mkV (-40 / 401) (399 / 401) 0) 0) q)) as [D2|D2]. { injection E as _ <-. discriminate. }
    unfold dist_to, dot in D2. cbn [p_n p_d vx vy vz] in D2.
    assert (X : 0 < vx q) by lra.
    destruct (comp_le (sub (mkV (-1) 0 0) q)) as (C & _). cbn [sub vx] in C.
    unfold Rabs in C. destruct (Rcase_abs (-1 - vx q)); lra.
Qed.
Print Assumptions C124_solid_refuted.

(** The contents of a hull at a point: those at the only end of the clip tree all of whose planes
    have the point on its side, with the last clip node above and the side of it. *)
Theorem C124_clip : forall b num t fuel p, ctree_at b num t -> (cheight t <= fuel)%nat ->
  exists path c, In (path, c) (cleafs t) /\ Forall (fun h => on_side p (snd h)) path /\
    find_clip fuel b 0 None num p = Got (match rev path with [] => (0%Z, None, c) | (n, (_, s)) :: _ => (n, Some s, c) end) /\
    (forall heads h, nth_error heads (S h) = Some num -> find_contents fuel b (Some (S h)) heads p = Got c) /\
    (forall path' c', In (path', c') (cleafs t) -> Forall (fun h => on_side p (snd h)) path' -> c' = c).
Proof.
  intros b num t fuel p T H. destruct (find_clip_ok b num t T fuel 0 None p H) as (path & c & A & B & C & U).
  exists path, c. split; [exact A|]. split; [exact B|]. split; [|split].
  - rewrite C. f_equal. assert (R := rev_involutive path). destruct (rev path) as [|[n [pl s]] r]; rewrite <- R; [reflexivity|].
    unfold last_of. cbn [rev]. rewrite fold_left_app. reflexivity.
  - intros heads h E. cbn [find_contents]. rewrite E, C. reflexivity.
  - intros path' c' I F. exact (proj2 (U path' c' I F)).
Qed.
Print Assumptions C124_clip.

(** The contents for hull 0 are those of the leaf. *)
Theorem C124_contents : forall b heads head t fuel p, nth_error heads 0 = Some head -> tree_at b head t -> (height t <= fuel)%nat ->
  exists path i l, In (path, (i, l)) (leafs t) /\ Forall (on_side p) path /\
    find_contents fuel b None heads p = Got (l_contents l) /\ find_contents fuel b (Some 0%nat) heads p = Got (l_contents l).
Proof.
  intros b heads head t fuel p E T H. destruct (find_leaf_ok b head t T fuel p H) as (path & [i l] & A & B & C & _).
  exists path, i, l. split; [exact A|]. split; [exact B|]. cbn [find_contents]. rewrite E, C. split; reflexivity.
Qed.
Print Assumptions C124_contents.

(** The faces found at a point: those of the nodes whose plane is at most 1/10 off, below planes
    that have the point on the right side, give or take 1/10, that look the wanted way and whose
    edges have the point on their inner side. *)
Theorem C124_faces : forall b num t want fuel p, tree_at b num t -> (height t <= fuel)%nat ->
  (forall path n pl, In (path, (n, pl)) (nodes t) -> (0 <= dn_num n)%Z /\ faces_ok b (dn_first n) (dn_num n)) ->
  exists l, find_faces fuel b want num p = Got l /\ find_face fuel b want num p = Got (hd_error l) /\
    forall i, In i l <-> exists path n pl, In (path, (n, pl)) (nodes t) /\ Forall (near_side p) path /\
      - (1 / 10) <= distance_fast pl p <= 1 / 10 /\ (dn_first n <= i < dn_first n + dn_num n)%Z /\ face_hit b want p i.
Proof.
  intros b num t want fuel p T H W. destruct (find_faces_ok b num t T W want fuel p H) as (l & A & B).
  exists l. split; [exact A|]. split; [|exact B]. unfold find_face. rewrite A. reflexivity.
Qed.
Print Assumptions C124_faces.

(** A face is found from each point of it that is at most 1/10 away from the part of space its
    node divides. *)
Theorem C124_faces_near : forall b num t want fuel p q i path n pl, tree_at b num t -> (height t <= fuel)%nat ->
  (forall path n pl, In (path, (n, pl)) (nodes t) -> (0 <= dn_num n)%Z /\ faces_ok b (dn_first n) (dn_num n)) ->
  In (path, (n, pl)) (nodes t) -> (forall h, In h path -> plane_ok (fst h)) -> plane_ok pl ->
  Forall (on_side q) path -> distance_fast pl q = 0 -> len (sub p q) <= 1 / 10 ->
  (dn_first n <= i < dn_first n + dn_num n)%Z -> face_hit b want p i ->
  exists l f, find_faces fuel b want num p = Got l /\ In i l /\ find_face fuel b want num p = Got (Some f).
Proof.
  intros b num t want fuel p q i path n pl T H W I PO P F D L R G.
  destruct (C124_faces b num t want fuel p T H W) as (l & A & A2 & B). exists l.
  assert (J : In i l).
  { apply B. exists path, n, pl. split; [exact I|]. split; [|split; [|split; assumption]].
    - apply Forall_forall. intros h Ih. rewrite Forall_forall in F. apply (on_near p q h (PO h Ih) L (F h Ih)).
    - assert (E := distance_lip pl p q P). rewrite D in E. unfold Rabs in E. destruct (Rcase_abs _); lra. }
  destruct l as [|f l]; [destruct J|]. exists f. split; [exact A|]. split; [exact J|exact A2].
Qed.
Print Assumptions C124_faces_near.

(** All leafs are visited from the front to the back, and the map from clusters to leafs has, for
    each cluster but -1, exactly its leafs in that order. *)
Theorem C124_visit : forall b num t fuel, tree_at b num t -> (height t <= fuel)%nat ->
  visit_leafs fuel b num = Got (map snd (leafs t)) /\
  forall c, exists l, cluster_leafs fuel b num c = Got l /\
    (forall i, In i l <-> c <> (-1)%Z /\ exists path lf, In (path, (i, lf)) (leafs t) /\ l_cluster lf = c) /\
    (NoDup (map (fun x => fst (snd x)) (leafs t)) -> NoDup l).
Proof.
  intros b num t fuel T H. assert (V := visit_ok b num t T fuel H). split; [exact V|].
  intro c. unfold cluster_leafs. rewrite V. cbn [abind]. eexists. split; [reflexivity|]. split.
  - intro i. rewrite in_map_iff. split.
    + intros ([j lf] & E & I). cbn [fst] in E. subst j. apply filter_In in I. destruct I as [I J]. cbn [snd] in J.
      apply andb_true_iff in J. destruct J as [J1 J2]. apply negb_true_iff in J1. apply Z.eqb_neq in J1. apply Z.eqb_eq in J2.
      split; [congruence|]. apply in_map_iff in I. destruct I as ([path x] & E & I). cbn [snd] in E. subst x. exists path, lf. split; assumption.
    + intros [N (path & lf & I & E)]. exists (i, lf). split; [reflexivity|]. apply filter_In. split.
      * apply in_map_iff. exists (path, (i, lf)). split; [reflexivity|exact I].
      * cbn [snd]. rewrite E, Z.eqb_refl, andb_true_r. apply negb_true_iff. apply Z.eqb_neq. exact N.
  - rewrite <- (map_map snd fst). generalize (map snd (leafs t)). intros l ND. induction l as [|x l IH]; [constructor|].
    cbn [map] in ND. inversion ND as [|? ? N1 N2]; subst. cbn [filter]. destruct (_ && _)%bool; [|apply IH; exact N2].
    cbn [map]. constructor; [|apply IH; exact N2]. intro I. apply N1. apply in_map_iff in I. destruct I as (y & E & I). apply filter_In in I.
    apply in_map_iff. exists y. split; [exact E|exact (proj1 I)].
Qed.
Print Assumptions C124_visit.

(** Files are not checked for this: a node that is its own child is followed without end, and a
    child that is no node or no leaf is read outside the arrays or stops with an error. *)
Definition loop_bsp : bsp := mkBsp false [mkDP (mkV 1 0 0) 0 0] [mkDN 0 0 (-1) 0 0] [mkDLf (-1) 0] [] [mkDC 0 0 (-1)].
Theorem C124_file_refuted : (forall fuel p, 0 <= vx p -> find_leaf fuel loop_bsp 0 p = Deep /\ point_in_leaf fuel loop_bsp p = Deep /\
    find_clip fuel loop_bsp 0 None 0 p = Deep) /\
  (forall fuel, visit_leafs fuel loop_bsp 0 = Deep) /\
  (forall b fuel num p, (Z.of_nat (length (b_nodes b)) <= num)%Z -> find_leaf (S fuel) b num p = Undef /\ point_in_solid (S fuel) b num p = Undef /\ visit_leafs (S fuel) b num = Throws) /\
  (forall b fuel num p, (num < 0)%Z -> (Z.of_nat (length (b_leafs b)) <= -1 - num)%Z ->
     find_leaf fuel b num p = Throws /\ point_in_solid fuel b num p = Throws /\ point_in_leaf_r fuel b num p = Undef).
Proof.
  split; [|split; [|split]].
  - intros fuel p H. unfold point_in_leaf.
    cut (find_leaf fuel loop_bsp 0 p = Deep /\ point_in_leaf_r fuel loop_bsp 0 p = Deep /\ forall x s, find_clip fuel loop_bsp x s 0 p = Deep).
    { intros (A & B & C). split; [exact A|]. split; [exact B|apply C]. }
    induction fuel as [|k IH]; [repeat split|]. destruct IH as (A & B & C).
    split; [|split].
    + cbn. destruct (Rle_dec 0 (vx p - 0)); [exact A|lra].
    + cbn. destruct (Rlt_dec (vx p - 0) 0); [lra|exact B].
    + intros x s. cbn. destruct (Rle_dec 0 (vx p - 0)); [apply C|lra].
  - induction fuel as [|k IH]; [reflexivity|]. cbn. rewrite IH. reflexivity.
  - intros b fuel num p H.
    assert (E : at_z (b_nodes b) num = None). { rewrite at_z_nth by lia. apply nth_error_None. lia. }
    assert (E2 : node_of b num = Undef). { unfold node_of. rewrite E. reflexivity. }
    cbn [find_leaf point_in_solid visit_leafs]. destruct (Z.ltb_spec num 0); [lia|]. rewrite E2, E. repeat split.
  - intros b fuel num p H L.
    assert (E : at_z (b_leafs b) (-1 - num) = None). { rewrite at_z_nth by lia. apply nth_error_None. lia. }
    assert (E2 : leaf_of b num = Throws). { unfold leaf_of. rewrite E. reflexivity. }
    destruct fuel; cbn [find_leaf point_in_solid point_in_leaf_r]; (destruct (Z.ltb_spec num 0); [|lia]); rewrite E2, E; repeat split.
Qed.
Print Assumptions C124_file_refuted.

(** A light in solid is moved along one axis by the given distance if that gets it out of solid, and
    else stays; a light outside solid stays. *)
Definition aside (d : R) (v : vec) : Prop := exists s, (s = d \/ s = - d) /\ (v = mkV s 0 0 \/ v = mkV 0 s 0 \/ v = mkV 0 0 s).
Lemma aside_nudges d v : aside d v <-> In v (nudges d).
Proof.
  unfold aside, nudges. cbn [In]. split.
  - intros (s & [->| ->] & [->|[->| ->]]); tauto.
  - intros [<-|[<-|[<-|[<-|[<-|[<-|[]]]]]]]; (eexists; split; [|first [left; reflexivity|right; left; reflexivity|right; right; reflexivity]]; auto).
Qed.
Theorem C124_light : forall b head t fuel d p, tree_at b head t -> (height t <= fuel)%nat ->
  exists q ok, fix_light (point_in_solid fuel b head) d p = Got (q, ok) /\
    (point_in_solid fuel b head p = Got false -> q = p /\ ok = true) /\
    (ok = true -> point_in_solid fuel b head q = Got false) /\
    (ok = false -> q = p /\ forall v, aside d v -> point_in_solid fuel b head (add p v) = Got true) /\
    (q = p \/ exists v, aside d v /\ q = add p v).
Proof.
  intros b head t fuel d p T H.
  assert (Tot : forall q, exists s, point_in_solid fuel b head q = Got s).
  { intro q. destruct (point_in_solid_ok b head t T fuel q H) as (s & E & _). exists s. exact E. }
  unfold fix_light. destruct (first_open_spec (point_in_solid fuel b head) (Got (p, false)) (p :: map (add p) (nudges d)) _ eq_refl (fun q _ => Tot q)) as [(pre & q & post & A & B & C & D)|[A B]].
  - exists q, true. split; [exact D|]. split; [|split; [|split]].
    + intro F. destruct pre as [|x pre]. { injection A as -> _. split; reflexivity. }
      injection A as -> _. inversion B as [|? ? B1 _]; subst. rewrite F in B1. discriminate.
    + intros _. exact C.
    + discriminate.
    + assert (I : In q (p :: map (add p) (nudges d))). { rewrite A. apply in_or_app. right. left. reflexivity. }
      destruct I as [->|I]; [left; reflexivity|right]. apply in_map_iff in I. destruct I as (v & <- & I). exists v. split; [apply aside_nudges; exact I|reflexivity].
  - exists p, false. split; [exact B|]. inversion A as [|? ? A1 A2]; subst. split; [|split; [|split]].
    + intro F. rewrite A1 in F. discriminate.
    + discriminate.
    + intros _. split; [reflexivity|]. intros v I. apply aside_nudges in I. rewrite Forall_forall in A2. apply A2. exact (in_map (add p) _ _ I).
    + left. reflexivity.
Qed.
Print Assumptions C124_light.

(** A sample that is not occluded is not in solid, and is the point asked for or half a unit off it
    along each axis; a sample is occluded only if it and the eight points around it are in solid. *)
Theorem C124_sample : forall solid off p, (forall q, exists s, solid q = Got s) ->
  exists r, position_sample solid off p = Got r /\
    (forall q, r = Some q -> solid (add q off) = Got false /\
       (q = p \/ exists j, q = add p j /\ Rabs (vx j) = 1 / 2 /\ Rabs (vy j) = 1 / 2 /\ Rabs (vz j) = 1 / 2)) /\
    (solid (add p off) = Got false -> r = Some p) /\
    (r = None -> forall x y z, (x = 1 / 2 \/ x = - (1 / 2)) -> (y = 1 / 2 \/ y = - (1 / 2)) -> (z = 1 / 2 \/ z = - (1 / 2)) ->
       solid (add (add p (mkV x y z)) off) = Got true).
Proof.
  intros solid off p Tot. unfold position_sample. destruct (Tot (add p off)) as (s & E). rewrite E. cbn [abind]. destruct s.
  - destruct (first_jitter_spec solid off p jitters Tot) as [(j & I & A & B)|[A B]].
    + exists (Some (add p j)). split; [exact B|]. split; [|split; [discriminate|discriminate]].
      intros q Eq. injection Eq as <-. split; [exact A|]. right. exists j. split; [reflexivity|].
      unfold jitters in I. cbn [flat_map map app] in I.
      assert (R1 : Rabs (-1 / 2) = 1 / 2) by (unfold Rabs; destruct (Rcase_abs _); lra).
      assert (R2 : Rabs (1 / 2) = 1 / 2) by (unfold Rabs; destruct (Rcase_abs _); lra).
      destruct I as [<-|[<-|[<-|[<-|[<-|[<-|[<-|[<-|[]]]]]]]]]; cbn [vx vy vz]; rewrite ?R1, ?R2; repeat split.
    + exists None. split; [exact B|]. split; [discriminate|]. split; [discriminate|].
      intros _ x y z X Y Z. rewrite Forall_forall in A. apply (A (mkV x y z)). unfold jitters. cbn [flat_map map app].
      assert (M : (-1) / 2 = - (1 / 2)) by lra.
      destruct X as [-> | ->], Y as [-> | ->], Z as [-> | ->]; rewrite ?M; cbn [In]; tauto.
  - exists (Some p). split; [reflexivity|]. split; [|split; [reflexivity|discriminate]].
    intros q Eq. injection Eq as <-. split; [exact E|left; reflexivity].
Qed.
Print Assumptions C124_sample.

(** A point is in any solid exactly if it is in the solid of the model of the face, of the world (for
    the default channel), or of an opaque shadow caster of the same channel. *)
Theorem C124_any_solid : forall fuel b world self casters p,
  (forall h q, In h (world :: mi_head self :: map mi_head casters) -> exists s, point_in_solid fuel b h q = Got s) ->
  exists s, any_solid fuel b world self casters p = Got s /\
    (s = true <-> point_in_solid fuel b (mi_head self) p = Got true \/
       (mi_channel self = 1%Z /\ point_in_solid fuel b world p = Got true) \/
       exists m, In m casters /\ mi_channel m = mi_channel self /\ mi_opaque m = true /\
         point_in_solid fuel b (mi_head m) (sub p (mi_offset m)) = Got true).
Proof.
  intros fuel b world self casters p Tot. unfold any_solid.
  destruct (Tot (mi_head self) p ltac:(right; left; reflexivity)) as (s1 & E1). rewrite E1. cbn [abind].
  destruct (Tot world p ltac:(left; reflexivity)) as (s2 & E2).
  destruct (in_casters_spec fuel b (mi_channel self) p casters) as (s3 & E3 & S3).
  { intros m I. apply Tot. right. right. apply in_map. exact I. }
  destruct s1. { exists true. split; [reflexivity|]. split; [intros _; left; reflexivity|reflexivity]. }
  destruct (Z.eqb_spec (mi_channel self) 1) as [Ec|Ec].
  - rewrite E2. cbn [abind]. destruct s2.
    + exists true. split; [reflexivity|]. split; [|reflexivity]. intros _. right. left. split; [exact Ec|reflexivity].
    + exists s3. split; [exact E3|]. rewrite S3. split; [intro H; right; right; exact H|].
      intros [F|[[_ F]|F]]; [discriminate|discriminate|exact F].
  - cbn [abind]. exists s3. split; [exact E3|]. rewrite S3. split; [intro H; right; right; exact H|].
    intros [F|[[F _]|F]]; [discriminate|contradiction|exact F].
Qed.
Print Assumptions C124_any_solid.

(** The offset of the model of the face itself is not taken off the point: a sample of a moved model
    (an entity with an origin) that is inside that model is not seen to be in solid, and a sample
    outside of it is. *)
Definition box_bsp : bsp := mkBsp false [mkDP (mkV 1 0 0) 0 0] [mkDN 0 (-2) (-1) 0 0] [mkDLf (-2) (-1); mkDLf (-1) 0] [] [].
Theorem C124_any_solid_refuted : exists self self' p q,
  (* the model is the half space x < 0, moved by 100 along x to one side and to the other *)
  point_in_solid 1 box_bsp (mi_head self) (sub p (mi_offset self)) = Got true /\ any_solid 1 box_bsp (-2) self [] p = Got false /\
  point_in_solid 1 box_bsp (mi_head self') (sub q (mi_offset self')) = Got false /\ any_solid 1 box_bsp (-2) self' [] q = Got true.
Proof.
  exists (mkMI 0 (mkV 100 0 0) true 1), (mkMI 0 (mkV (-100) 0 0) true 1), (mkV 50 0 0), (mkV (-50) 0 0).
  assert (E : forall x y z, 1 / 10 < x -> point_in_solid 1 box_bsp 0 (mkV x y z) = Got false).
  { intros x y z X. cbn. destruct (Rlt_dec (1 / 10) (x - 0)); [reflexivity|lra]. }
  assert (F : forall x y z, x < - (1 / 10) -> point_in_solid 1 box_bsp 0 (mkV x y z) = Got true).
  { intros x y z X. cbn. destruct (Rlt_dec (1 / 10) (x - 0)); [lra|]. destruct (Rlt_dec (x - 0) (- (1 / 10))); [reflexivity|lra]. }
  unfold sub. cbn [mi_head mi_offset vx vy vz]. split; [apply F; lra|]. split.
  { unfold any_solid. cbn [mi_head mi_channel]. rewrite E by lra. reflexivity. }
  split; [apply E; lra|]. unfold any_solid. cbn [mi_head]. rewrite F by lra. reflexivity.
Qed.
Print Assumptions C124_any_solid_refuted.

(** A square face of 64 by 64 units on the plane z = 0 between solid below and air above. *)
Definition floor_bsp : bsp := mkBsp false [mkDP (mkV 0 0 1) 0 2] [mkDN 0 (-2) (-1) 0 1] [mkDLf (-2) (-1); mkDLf (-1) 0]
  [mkDF 0 false [mkV 0 0 0; mkV 0 64 0; mkV 64 64 0; mkV 64 0 0]] [].
Example C124_nontrivial :
  file_ok floor_bsp /\
  find_leaf 1 floor_bsp 0 (mkV 8 8 0) = Got (1%Z, mkDLf (-1) 0) /\
  point_in_solid 1 floor_bsp 0 (mkV 8 8 (1/16)) = Got true /\ point_in_solid 1 floor_bsp 0 (mkV 8 8 1) = Got false /\
  fix_light (point_in_solid 1 floor_bsp 0) 2 (mkV 8 8 0) = Got (add (mkV 8 8 0) (mkV 0 0 2), true) /\
  visit_leafs 1 floor_bsp 0 = Got [(1%Z, mkDLf (-1) 0); (0%Z, mkDLf (-2) (-1))] /\ cluster_leafs 1 floor_bsp 0 0 = Got [1%Z] /\ cluster_leafs 1 floor_bsp 0 (-1) = Got [].
Proof.
  assert (S : forall x y z, z < - (1 / 10) -> point_in_solid 1 floor_bsp 0 (mkV x y z) = Got true).
  { intros x y z X. cbn. destruct (Rlt_dec (1 / 10) (z - 0)); [lra|]. destruct (Rlt_dec (z - 0) (- (1 / 10))); [reflexivity|lra]. }
  assert (M : forall x y z, - (1 / 10) <= z <= 1 / 10 -> point_in_solid 1 floor_bsp 0 (mkV x y z) = Got true).
  { intros x y z X. cbn. destruct (Rlt_dec (1 / 10) (z - 0)); [lra|]. destruct (Rlt_dec (z - 0) (- (1 / 10))); [lra|reflexivity]. }
  assert (A : forall x y z, 1 / 10 < z -> point_in_solid 1 floor_bsp 0 (mkV x y z) = Got false).
  { intros x y z X. cbn. destruct (Rlt_dec (1 / 10) (z - 0)); [reflexivity|lra]. }
  split. { intros i n E. destruct i as [|i]; [|destruct i; discriminate]. injection E as <-. cbn. split; [lia|]. intros c [->| ->]; cbn; lia. }
  split. { cbn. destruct (Rle_dec 0 (0 - 0)); [reflexivity|lra]. }
  split; [apply M; lra|]. split; [apply A; lra|]. split; [|split; [|split]]; try reflexivity.
  unfold fix_light. cbn [map nudges first_open]. rewrite (M 8 8 0) by lra. cbn [abind]. unfold add. cbn [vx vy vz].
  rewrite !(M _ _ _) by lra. cbn [abind]. rewrite S by lra. cbn [abind]. rewrite A by lra. reflexivity.
Qed.

(** The face is found from above and with a normal that looks up, but not with one that looks down,
    not from beside it, and not from a unit above it. *)
Example C124_faces_nontrivial :
  find_face 1 floor_bsp None 0 (mkV 8 8 (1/16)) = Got (Some 0%Z) /\
  find_face 1 floor_bsp (Some (mkV 0 0 1)) 0 (mkV 8 8 0) = Got (Some 0%Z) /\
  find_face 1 floor_bsp (Some (mkV 0 0 (-1))) 0 (mkV 8 8 0) = Got None /\
  find_face 1 floor_bsp None 0 (mkV 65 8 0) = Got None /\ find_face 1 floor_bsp None 0 (mkV 8 8 1) = Got None.
Proof.
  assert (T : tree_at floor_bsp 0 (TNode (mkDN 0 (-2) (-1) 0 1) (mkDP (mkV 0 0 1) 0 2) (TLeaf 1 (mkDLf (-1) 0)) (TLeaf 0 (mkDLf (-2) (-1))))).
  { constructor; try reflexivity; try (cbn; lia); [apply (TA_leaf floor_bsp (-2))|apply (TA_leaf floor_bsp (-1))]; reflexivity. }
  assert (W : forall path n pl, In (path, (n, pl)) (nodes (TNode (mkDN 0 (-2) (-1) 0 1) (mkDP (mkV 0 0 1) 0 2) (TLeaf 1 (mkDLf (-1) 0)) (TLeaf 0 (mkDLf (-2) (-1))))) ->
     (0 <= dn_num n)%Z /\ faces_ok floor_bsp (dn_first n) (dn_num n)).
  { intros path n pl [E|[]]. injection E as <- <- <-. cbn. split; [lia|]. intros i I. assert (i = 0%Z) by lia. subst i.
    eexists _, _. split; [lia|]. split; [reflexivity|]. split; [cbn; lia|reflexivity]. }
  assert (NZ : forall a, len a <> 0 -> normalize a = scale (/ len a) a).
  { intros a H. unfold normalize. destruct (Req_EM_T (len a) 0); [contradiction|reflexivity]. }
  assert (Ln : forall a, dot a a = 64 * 64 -> len a = 64). { intros a H. unfold len. rewrite H. apply sqrt_square. lra. }
  (* the tests of the four edges *)
  assert (IN : forall x y z, (forall e, In e (edges [mkV 0 0 0; mkV 0 64 0; mkV 64 64 0; mkV 64 0 0]) ->
       0 <= dot (sub (mkV x y z) (fst e)) (cross (normalize (sub (snd e) (fst e))) (mkV 0 0 1))) <-> 0 <= x <= 64 /\ 0 <= y <= 64).
  { intros x y z. unfold edges. cbn [combine app].
    assert (Q : forall e, In e [(mkV 0 0 0, mkV 0 64 0); (mkV 0 64 0, mkV 64 64 0); (mkV 64 64 0, mkV 64 0 0); (mkV 64 0 0, mkV 0 0 0)] -> len (sub (snd e) (fst e)) = 64).
    { intros e I. apply Ln. destruct I as [<-|[<-|[<-|[<-|[]]]]]; unfold dot, sub; cbn [fst snd vx vy vz]; lra. }
    split.
    - intro H.
      assert (H1 := H _ (or_introl eq_refl)). assert (H2 := H _ (or_intror (or_introl eq_refl))).
      assert (H3 := H _ (or_intror (or_intror (or_introl eq_refl)))). assert (H4 := H _ (or_intror (or_intror (or_intror (or_introl eq_refl))))).
      rewrite NZ in H1, H2, H3, H4 by (rewrite Q; [lra|cbn [In]; tauto]). rewrite Q in H1, H2, H3, H4 by (cbn [In]; tauto).
      unfold dot, sub, cross, scale in *. cbn [fst snd vx vy vz] in *. lra.
    - intros R e I. rewrite NZ by (rewrite (Q e I); lra). rewrite (Q e I).
      destruct I as [<-|[<-|[<-|[<-|[]]]]]; unfold dot, sub, cross, scale; cbn [fst snd vx vy vz]; lra. }
  assert (HIT : forall want x y z, face_hit floor_bsp want (mkV x y z) 0 <-> (forall w, want = Some w -> 0 <= vz w) /\ 0 <= x <= 64 /\ 0 <= y <= 64).
  { intros want x y z. rewrite <- (IN x y z). split.
    - intros (f & pl & _ & E & _ & E2 & G). injection E as <-. injection E2 as <-. cbn [df_side dp_n df_pts] in G.
      destruct G as [G1 G2]. split; [|exact G2]. intros w Ew. specialize (G1 w Ew). unfold dot in G1. cbn [vx vy vz] in G1. lra.
    - intros [G1 G2]. eexists _, _. split; [lia|]. split; [reflexivity|]. split; [cbn; lia|]. split; [reflexivity|]. cbn [df_side dp_n df_pts].
      split; [|exact G2]. intros w Ew. specialize (G1 w Ew). unfold dot. cbn [vx vy vz]. lra. }
  assert (FI : forall want x y z, (- (1 / 10) <= z <= 1 / 10) -> (forall w, want = Some w -> 0 <= vz w) -> 0 <= x <= 64 -> 0 <= y <= 64 ->
      find_face 1 floor_bsp want 0 (mkV x y z) = Got (Some 0%Z)).
  { intros want x y z Z G X Y. destruct (C124_faces floor_bsp 0 _ want 1 (mkV x y z) T ltac:(cbn; lia) W) as (l & _ & A & B).
    rewrite A. assert (I : In 0%Z l).
    { apply B. exists [], (mkDN 0 (-2) (-1) 0 1), (mkDP (mkV 0 0 1) 0 2). split; [left; reflexivity|]. split; [constructor|].
      split; [cbn; lra|]. split; [cbn; lia|]. apply HIT. split; [exact G|split; assumption]. }
    destruct l as [|i l]; [destruct I|]. cbn [hd_error]. destruct (proj1 (B i) (or_introl eq_refl)) as (path & n & pl & [E|[]] & _ & _ & J & _).
    injection E as <- <- <-. cbn in J. do 2 f_equal. lia. }
  assert (FO : forall want x y z, (z > 1 / 10 \/ (exists w, want = Some w /\ vz w < 0) \/ x > 64) -> find_face 1 floor_bsp want 0 (mkV x y z) = Got None).
  { intros want x y z G. destruct (C124_faces floor_bsp 0 _ want 1 (mkV x y z) T ltac:(cbn; lia) W) as (l & _ & A & B).
    rewrite A. destruct l as [|i l]; [reflexivity|exfalso]. destruct (proj1 (B i) (or_introl eq_refl)) as (path & n & pl & [E|[]] & _ & D & J & H).
    injection E as <- <- <-. cbn in D, J. assert (i = 0%Z) by lia. subst i. apply HIT in H. destruct H as (H1 & H2 & H3).
    destruct G as [G|[(w & E & G)|G]]; try lra. specialize (H1 w E). lra. }
  split; [apply FI; try lra; discriminate|]. split; [apply FI; try lra; intros w E; injection E as <-; cbn; lra|].
  split; [apply FO; right; left; eexists; split; [reflexivity|cbn; lra]|]. split; [apply FO; lra|apply FO; lra].
Qed.
