(* Properties of bevels and of the expansion for hulls (model in BevelModel.v). *)
From Coq Require Import Reals List Bool Arith Lia Lra Permutation.
From Verif Require Import WindClipModel WindClipProofs BevelModel BevelProofs.
Import ListNotations.
Open Scope R_scope.

(* near_plane a b p q: the normals differ by at most a in each component, the distances by at
   most b.  one_norm v = |x| + |y| + |z|. *)

(* Normals of length 1. *)
Definition unit_faces (fs : list face) : Prop := forall f, In f fs -> dot (p_n (f_plane f)) (p_n (f_plane f)) = 1.
(* The table of planes answers with a plane near to the one asked for (C114). *)
Definition table_near (hn hd : R) (ask : list face -> plane -> plane) : Prop := forall fs p, near_plane hn hd (ask fs p) p.
(* p is a vertex of a winding of the faces *)
Definition vertex (fs : list face) (p : vec) : Prop := exists f, In f fs /\ In p (f_winding f).

(* all that AddBrushBevels does, in terms of the lemmas *)
Lemma bevels_all ask mins maxs eps ne de hn hd fs :
  table_near hn hd ask -> hn < 1 -> unit_faces fs ->
  exists fs1 fs2 box edge, add_bevels ask mins maxs eps ne de fs = Some fs2 /\
    Permutation fs1 (fs ++ box) /\ fs2 = fs1 ++ edge /\ (length box <= 6)%nat /\ (6 <= length fs1)%nat /\
    (forall g, In g box -> exists k, (k < 6)%nat /\ box_bevel ask mins maxs fs g k) /\
    (forall k, (k < 6)%nat -> exists f, nth_error fs1 k = Some f /\ slot ask mins maxs fs k box f) /\
    (forall g, In g edge -> edge_bevel ask eps ne de fs1 g) /\
    (length fs1 = 6%nat -> edge = []) /\
    (forall k f a b ad pl, (6 <= k)%nat -> nth_error fs1 k = Some f -> In (a, b) (edges (f_winding f)) ->
       Rltb (len (sub a b)) (1 / 2) = false -> axial_vec (snap ne (normalize (sub a b))) = false ->
       In ad six -> slanted ne a (snap ne (normalize (sub a b))) (fst ad) (snd ad) = Some pl -> covered ask eps ne de fs2 pl).
Proof.
  intros T H U. destruct (axial_loop_inv ask mins maxs hn hd T H fs U) as (fs1 & E & box & P & L1 & L2 & B & Sl).
  unfold add_bevels. rewrite E. destruct (Nat.eqb_spec (length fs1) 6) as [L6|L6].
  - exists fs1, fs1, box, []. rewrite app_nil_r. split; [reflexivity|]. split; [exact P|]. split; [reflexivity|].
    split; [exact L1|]. split; [exact L2|]. split; [exact B|]. split; [exact Sl|]. split; [intros g []|].
    split; [reflexivity|]. intros k f a b ad pl K Nk.
    assert (k < length fs1)%nat by (apply nth_error_Some; congruence). lia.
  - destruct (loop_grows ask eps ne de fs1 (bevel_fuel fs1) 6 fs1) as (fs2 & R1 & (edge & R2 & R3) & R4).
    + exists []. rewrite app_nil_r. split; auto. intros g [].
    + exact L2.
    + unfold bevel_fuel. fold (wsum fs1). pose proof (wsum_app (firstn 6 fs1) (skipn 6 fs1)) as W.
      rewrite firstn_skipn in W. lia.
    + exists fs1, fs2, box, edge. split; [exact R1|]. split; [exact P|]. split; [exact R2|].
      split; [exact L1|]. split; [exact L2|]. split; [exact B|]. split; [exact Sl|]. split; [exact R3|].
      split; [lia|exact R4].
Qed.

(* Snap moves a direction of length 1 onto an axis if its component there is within the epsilon of 1 or
   -1, and leaves every other direction as it is. *)
Theorem C115_snap : forall ne v, 0 < ne <= 1 / 4 -> dot v v = 1 ->
  (forall k d, (k < 3)%nat -> d = 1 \/ d = -1 -> Rabs (vcomp k v - d) < ne -> snap ne v = axis_vec k d) /\
  ((forall k d, (k < 3)%nat -> d = 1 \/ d = -1 -> ne <= Rabs (vcomp k v - d)) -> snap ne v = v).
Proof.
  intros ne [x y z] N U. unfold dot in U; cbn [vx vy vz] in U.
  assert (B : forall a d, d = 1 \/ d = -1 -> Rabs (a - d) < ne -> 9 / 16 < a * a).
  { intros a d [->| ->] H; apply Rabs_def2 in H; nra. }
  assert (F : forall a d b, d = 1 \/ d = -1 -> Rabs (a - d) < ne -> a * a + b * b <= 1 -> forall e, e = 1 \/ e = -1 -> Rltb (Rabs (b - e)) ne = false).
  { intros a d b D H Q e E. unfold Rltb. destruct (Rlt_dec (Rabs (b - e)) ne) as [K|K]; [|reflexivity].
    pose proof (B _ _ D H). pose proof (B _ _ E K). lra. }
  assert (O : forall a d, Rabs (a - d) < ne -> d = 1 \/ d = -1 -> Rltb (Rabs (a - d)) ne = true /\ Rltb (Rabs (a - - d)) ne = false).
  { intros a d H D. unfold Rltb. destruct (Rlt_dec (Rabs (a - d)) ne); [|contradiction]. split; [reflexivity|].
    destruct (Rlt_dec (Rabs (a - - d)) ne) as [K|K]; [|reflexivity]. apply Rabs_def2 in H. apply Rabs_def2 in K.
    destruct D as [->| ->]; lra. }
  pose proof (Rle_0_sqr x) as X. pose proof (Rle_0_sqr y) as Y. pose proof (Rle_0_sqr z) as Z. unfold Rsqr in X, Y, Z.
  split.
  - intros k d K D H. destruct k as [|[|[|k]]]; [| | |lia]; cbn [vcomp vx vy vz] in H; unfold snap; cbn [vx vy vz axis_vec].
    + destruct (O _ _ H D) as [T1 T2]. destruct D as [->| ->].
      * rewrite T1. reflexivity.
      * replace (- -1) with 1 in T2 by ring. rewrite T2, T1. reflexivity.
    + rewrite (F y d x D H) by (lra || auto). rewrite (F y d x D H) by (lra || auto).
      destruct (O _ _ H D) as [T1 T2]. destruct D as [->| ->].
      * rewrite T1. reflexivity.
      * replace (- -1) with 1 in T2 by ring. rewrite T2, T1. reflexivity.
    + rewrite (F z d x D H) by (lra || auto). rewrite (F z d x D H) by (lra || auto).
      rewrite (F z d y D H) by (lra || auto). rewrite (F z d y D H) by (lra || auto).
      destruct (O _ _ H D) as [T1 T2]. destruct D as [->| ->].
      * rewrite T1. reflexivity.
      * replace (- -1) with 1 in T2 by ring. rewrite T2, T1. reflexivity.
  - intros H. unfold snap. cbn [vx vy vz].
    assert (G : forall k d, (k < 3)%nat -> d = 1 \/ d = -1 -> Rltb (Rabs (vcomp k (mkV x y z) - d)) ne = false).
    { intros k d K D. unfold Rltb. destruct (Rlt_dec (Rabs (vcomp k (mkV x y z) - d)) ne) as [L|L]; [|reflexivity].
      specialize (H k d K D). lra. }
    pose proof (G 0%nat 1) as A1; pose proof (G 0%nat (-1)) as A2; pose proof (G 1%nat 1) as A3; pose proof (G 1%nat (-1)) as A4;
    pose proof (G 2%nat 1) as A5; pose proof (G 2%nat (-1)) as A6. cbn [vcomp vx vy vz] in A1, A2, A3, A4, A5, A6.
    rewrite A1, A2, A3, A4, A5, A6 by (auto with arith). reflexivity.
Qed.
Print Assumptions C115_snap.

(* ---- C115 ---- *)

(* AddBrushBevels always ends, stays inside the list of faces and keeps every face; what it adds
   are bevels without a winding.  The first six faces of the result have the normals
   -x, +x, -y, +y, -z, +z: each is a face of the brush with that very normal, or a bevel that
   touches the bounds and was added because no face of the brush has that normal. *)
Theorem C115_faces ask mins maxs eps ne de hn hd fs :
  table_near hn hd ask -> hn < 1 -> unit_faces fs ->
  exists fs2 bevels, add_bevels ask mins maxs eps ne de fs = Some fs2 /\
    Permutation fs2 (fs ++ bevels) /\
    (forall g, In g bevels -> f_bevel g = true /\ f_winding g = [] /\ (fs <> [] -> exists f, In f fs /\ f_tex g = f_tex f)) /\
    (forall axis b, (axis < 3)%nat -> exists f, nth_error fs2 (2 * axis + if b : bool then 1 else 0) = Some f /\
       let dir := if b then 1 else -1 in
       ((In f fs /\ vcomp axis (p_n (f_plane f)) = dir) \/
        (In f bevels /\ (forall h, In h fs -> vcomp axis (p_n (f_plane h)) <> dir) /\
         near_plane hn hd (f_plane f) (mkPl (axis_vec axis dir) (if b then vcomp axis maxs else - vcomp axis mins))))) /\
    ((forall axis b, (axis < 3)%nat -> exists f, In f fs /\ vcomp axis (p_n (f_plane f)) = (if b : bool then 1 else -1)) ->
       length fs = 6%nat -> bevels = []).
Proof.
  intros T H U. destruct (bevels_all ask mins maxs eps ne de hn hd fs T H U)
    as (fs1 & fs2 & box & edge & E & P & E2 & L1 & L2 & B & Sl & Ed & E6 & _).
  assert (Tx1 : forall g, In g box -> fs <> [] -> exists f, In f fs /\ f_tex g = f_tex f).
  { intros g I Z. destruct (B g I) as (k & _ & (_ & _ & [Q|Q] & _)); [contradiction|exact Q]. }
  exists fs2, (box ++ edge). split; [exact E|]. split.
  { rewrite E2, app_assoc. apply Permutation_app_tail. exact P. }
  split.
  { intros g I. apply in_app_or in I as [I|I].
    - destruct (B g I) as (k & _ & ((W & F) & _)). split; [exact F|]. split; [exact W|]. auto.
    - destruct (Ed g I) as ((W & F) & (pre & pl & f & a & b & axis & dir & _ & _ & _ & If & _ & Tx & _)).
      split; [exact F|]. split; [exact W|]. intros Z.
      apply (Permutation_in _ P) in If. apply in_app_or in If as [If|If]; [exists f; auto|].
      destruct (Tx1 f If Z) as (h & H1 & H2). exists h. split; auto. congruence. }
  split.
  { intros axis b Ha.
    assert (K : exists k, (2 * axis + (if b then 1 else 0))%nat = k /\ (k < 6)%nat /\ axis_of k = axis /\ dir_of k = (if b then 1 else -1) /\ Nat.even k = negb b).
    { exists (2 * axis + (if b then 1 else 0))%nat. split; [reflexivity|].
      destruct axis as [|[|[|axis]]]; [| | |lia]; destruct b; simpl; unfold axis_of, dir_of; simpl; repeat split; lia. }
    destruct K as (k & Ek & Lk & Ka & Kd & Ke). rewrite Ek.
    destruct (Sl k Lk) as (f & F1 & F2). exists f. split.
    { rewrite E2, nth_error_app1; [exact F1|]. apply nth_error_Some. congruence. }
    cbv zeta. destruct F2 as [[I C]|[I (_ & (pre & Q) & _ & No)]].
    - left. split; [exact I|]. rewrite <- Ka, C. exact Kd.
    - right. split; [apply in_or_app; left; exact I|]. split.
      + intros h Hh. rewrite <- Ka, <- Kd. apply No. exact Hh.
      + rewrite Q. unfold axial_plane in *. rewrite Ka, Kd, Ke in *.
        pose proof (T pre (mkPl (axis_vec axis (if b then 1 else -1)) (if negb b then - vcomp axis mins else vcomp axis maxs))) as Nr.
        destruct b; exact Nr. }
  intros All L6.
  assert (Zb : box = []).
  { destruct box as [|g box]; [reflexivity|]. exfalso. destruct (B g (or_introl eq_refl)) as (k & Lk & (_ & _ & _ & No)).
    destruct (All (axis_of k) (negb (Nat.even k)) (axis_lt k Lk)) as (f & I & C).
    apply (No f I). rewrite C. unfold dir_of. destruct (Nat.even k); reflexivity. }
  subst box. rewrite E6; [reflexivity|]. rewrite (Permutation_length P), app_nil_r. exact L6.
Qed.
Print Assumptions C115_faces.

Lemma bevel_behind ask mins maxs eps ne de hn hd fs fs2 g :
  table_near hn hd ask -> hn < 1 -> unit_faces fs -> 0 <= eps ->
  (forall v, vertex fs v -> in_hull_box mins maxs v) ->
  add_bevels ask mins maxs eps ne de fs = Some fs2 -> In g fs2 ->
  In g fs \/ forall p, vertex fs p -> dist_to (f_plane g) p <= eps + (hn * one_norm p + hd).
Proof.
  intros T H U E0 Bd E I. destruct (bevels_all ask mins maxs eps ne de hn hd fs T H U)
    as (fs1 & fs2' & box & edge & E' & P & E2 & L1 & L2 & B & Sl & Ed & _ & _).
  rewrite E in E'; injection E' as <-. rewrite E2 in I. apply in_app_or in I as [I|I].
  - apply (Permutation_in _ P) in I. apply in_app_or in I as [I|I]; [left; exact I|]. right; intros p V.
    destruct (B g I) as (k & Lk & (_ & (pre & Q) & _)). rewrite Q.
    pose proof (near_dist hn hd _ _ p (T pre (axial_plane mins maxs k))) as D.
    assert (dist_to (axial_plane mins maxs k) p <= 0); [|lra].
    destruct (Bd p V) as (X & Y & Z0).
    do 6 (destruct k as [|k]; [unfold dist_to, axial_plane, dot, axis_of, dir_of; cbn [Nat.even Nat.div2 axis_vec vcomp p_n p_d vx vy vz]; lra|]).
    lia.
  - right; intros p V. destruct (Ed g I) as (_ & (pre & pl & f & a & b & axis & dir & Q & Inc & Ps & _)). rewrite Q.
    pose proof (near_dist hn hd _ _ p (T pre pl)) as D.
    assert (dist_to pl p <= eps); [|lra].
    destruct V as (h & Hh & Hp).
    assert (Ih : In h pre). { apply Inc. apply (Permutation_in _ (Permutation_sym P)). apply in_or_app; auto. }
    pose proof (proj1 (forallb_forall _ _) Ps h Ih) as Ph. unfold passes in Ph.
    apply andb_true_iff in Ph as [_ Ph]. pose proof (proj1 (forallb_forall _ _) Ph p Hp) as Pp.
    apply negb_true_iff in Pp. apply Rltb_false in Pp. exact Pp.
Qed.

(* Every vertex of the brush is behind every bevel, up to the epsilon and the tolerance of the
   table. *)
Theorem C115_behind ask mins maxs eps ne de hn hd fs fs2 g p :
  table_near hn hd ask -> hn < 1 -> unit_faces fs -> 0 <= eps ->
  (forall v, vertex fs v -> in_hull_box mins maxs v) ->
  add_bevels ask mins maxs eps ne de fs = Some fs2 -> In g fs2 -> ~ In g fs -> vertex fs p ->
  dist_to (f_plane g) p <= eps + (hn * one_norm p + hd).
Proof.
  intros T H U E0 Bd E I Ni V.
  destruct (bevel_behind ask mins maxs eps ne de hn hd fs fs2 g T H U E0 Bd E I) as [X|X]; [contradiction|auto].
Qed.
Print Assumptions C115_behind.

(* A bevel that is not axial was asked for as a plane with unit normal that is parallel to an
   axis, contains an edge of a face of the brush, at least 1/2 long, and is not the plane of a face of the brush up
   to the epsilons. *)
Theorem C115_edges ask mins maxs eps ne de hn hd fs fs2 g :
  table_near hn hd ask -> hn < 1 -> unit_faces fs -> 0 < ne ->
  add_bevels ask mins maxs eps ne de fs = Some fs2 -> In g fs2 -> ~ In g fs ->
  (exists axis b, (axis < 3)%nat /\
     near_plane hn hd (f_plane g) (mkPl (axis_vec axis (if b : bool then 1 else -1)) (if b then vcomp axis maxs else - vcomp axis mins))) \/
  (exists pl f a b axis, near_plane hn hd (f_plane g) pl /\ In f fs /\ In (a, b) (edges (f_winding f)) /\
     f_tex g = f_tex f /\ 1 / 2 <= len (sub a b) /\
     dot (p_n pl) (p_n pl) = 1 /\ dist_to pl a = 0 /\ dist_to pl b = 0 /\ (axis < 3)%nat /\ vcomp axis (p_n pl) = 0 /\
     (forall h, In h fs -> ~ near_plane ne de (f_plane h) pl)).
Proof.
  intros T H U Hne E I Ni. destruct (bevels_all ask mins maxs eps ne de hn hd fs T H U)
    as (fs1 & fs2' & box & edge & E' & P & E2 & L1 & L2 & B & Sl & Ed & _ & _).
  rewrite E in E'; injection E' as <-. rewrite E2 in I. apply in_app_or in I as [I|I].
  - apply (Permutation_in _ P) in I. apply in_app_or in I as [I|I]; [contradiction|]. left.
    destruct (B g I) as (k & Lk & (_ & (pre & Q) & _)). exists (axis_of k), (negb (Nat.even k)).
    split; [apply axis_lt; exact Lk|]. rewrite Q.
    pose proof (T pre (axial_plane mins maxs k)) as Nr. unfold axial_plane, dir_of in *. destruct (Nat.even k); exact Nr.
  - right. destruct (Ed g I) as (_ & (pre & pl & f & a & b & axis & dir & Q & Inc & Ps & If & Ie & Tx & Ln & Ax & I6 & Sx)).
    destruct (slanted_geo ne a b axis dir pl Hne Ln Ax Sx) as (G1 & G2 & G3 & G4).
    assert (If' : In f fs).
    { apply (Permutation_in _ P) in If. apply in_app_or in If as [If|If]; [exact If|].
      destruct (B f If) as (k & _ & ((W & _) & _)). rewrite W in Ie. destruct Ie. }
    exists pl, f, a, b, axis. rewrite Q. split; [apply T|]. split; [exact If'|]. split; [exact Ie|]. split; [exact Tx|].
    split; [apply Rltb_false; exact Ln|]. split; [exact G1|]. split; [exact G2|]. split; [exact G3|].
    assert (A3 : (axis < 3)%nat /\ (dir = 1 \/ dir = -1)).
    { unfold six in I6. simpl in I6. repeat destruct I6 as [I6|I6]; try (injection I6 as <- <-; split; [lia|lra]). destruct I6. }
    destruct A3 as [A3 D]. split; [exact A3|]. split.
    + destruct axis as [|[|[|axis]]]; [| | |lia]; unfold dot in G4; cbn [axis_vec vx vy vz vcomp] in *; destruct D as [-> | ->]; lra.
    + intros h Hh (N1 & N2 & N3 & N4).
      assert (Ih : In h pre). { apply Inc. apply (Permutation_in _ (Permutation_sym P)). apply in_or_app; auto. }
      pose proof (proj1 (forallb_forall _ _) Ps h Ih) as Ph. unfold passes in Ph.
      apply andb_true_iff in Ph as [Ph _]. apply negb_true_iff in Ph. unfold same_plane in Ph.
      assert (X : same_plane ne de (f_plane h) pl = true).
      { unfold same_plane. apply Rleb_true in N1, N2, N3, N4. rewrite N1, N2, N3, N4. reflexivity. }
      unfold same_plane in X. congruence.
Qed.
Print Assumptions C115_edges.

(* Nothing is forgotten: for a slanted face of the brush, an edge of it at least 1/2 long that is
   not nearly parallel to an axis, and an axis direction: if all vertices are behind the plane
   through the edge and along the axis, then a face of the result has that plane. *)
Theorem C115_complete ask mins maxs eps ne de hn hd fs fs2 f a b axis (dir : bool) n :
  table_near hn hd ask -> hn < 1 -> unit_faces fs -> hn <= ne -> hd <= de -> 0 < ne ->
  add_bevels ask mins maxs eps ne de fs = Some fs2 ->
  In f fs -> (forall i, (i < 3)%nat -> vcomp i (p_n (f_plane f)) <> 1 /\ vcomp i (p_n (f_plane f)) <> -1) ->
  In (a, b) (edges (f_winding f)) -> 1 / 2 <= len (sub a b) ->
  (forall i, (i < 3)%nat -> ne <= Rabs (vcomp i (normalize (sub a b)) - 1) /\ ne <= Rabs (vcomp i (normalize (sub a b)) + 1)) ->
  (axis < 3)%nat -> n = cross (normalize (sub a b)) (axis_vec axis (if dir then 1 else -1)) -> ne <= len n ->
  (forall p, vertex fs p -> dot p (normalize n) <= dot a (normalize n) + eps) ->
  exists g, In g fs2 /\ near_plane ne de (f_plane g) (mkPl (normalize n) (dot a (normalize n))).
Proof.
  intros T H U Hn Hd Hne E If Na Ie Ln Nax Hax En Lnn Bh.
  destruct (bevels_all ask mins maxs eps ne de hn hd fs T H U)
    as (fs1 & fs2' & box & edge & E' & P & E2 & L1 & L2 & B & Sl & Ed & _ & Cv).
  rewrite E in E'; injection E' as <-.
  set (pl := mkPl (normalize n) (dot a (normalize n))).
  assert (Sn : snap ne (normalize (sub a b)) = normalize (sub a b)).
  { pose proof (Nax 0%nat ltac:(lia)) as N0. pose proof (Nax 1%nat ltac:(lia)) as N1. pose proof (Nax 2%nat ltac:(lia)) as N2.
    cbn [vcomp] in *. unfold snap.
    assert (F : forall x y, y <= x -> Rltb x y = false) by (intros; apply Rltb_false; assumption).
    replace (vx (normalize (sub a b)) - -1) with (vx (normalize (sub a b)) + 1) by ring.
    replace (vy (normalize (sub a b)) - -1) with (vy (normalize (sub a b)) + 1) by ring.
    replace (vz (normalize (sub a b)) - -1) with (vz (normalize (sub a b)) + 1) by ring.
    rewrite !F by tauto. reflexivity. }
  assert (Ax : axial_vec (snap ne (normalize (sub a b))) = false).
  { rewrite Sn. pose proof (Nax 0%nat ltac:(lia)) as N0. pose proof (Nax 1%nat ltac:(lia)) as N1. pose proof (Nax 2%nat ltac:(lia)) as N2.
    cbn [vcomp] in *.
    assert (F : forall x, ne <= Rabs (x - 1) /\ ne <= Rabs (x + 1) -> Reqb x (-1) || Reqb x 1 = false).
    { intros x [X1 X2]. apply orb_false_iff. split.
      - destruct (Reqb x (-1)) eqn:R; [|reflexivity]. apply Reqb_true in R. subst x.
        replace (-1 + 1) with 0 in X2 by ring. rewrite Rabs_R0 in X2. lra.
      - destruct (Reqb x 1) eqn:R; [|reflexivity]. apply Reqb_true in R. subst x.
        replace (1 - 1) with 0 in X1 by ring. rewrite Rabs_R0 in X1. lra. }
    unfold axial_vec. rewrite (F _ N0), (F _ N1), (F _ N2). reflexivity. }
  assert (S0 : slanted ne a (snap ne (normalize (sub a b))) axis (if dir then 1 else -1) = Some pl).
  { rewrite Sn. unfold slanted. rewrite <- En. destruct (Rltb (len n) ne) eqn:R; [apply Rltb_true in R; lra|reflexivity]. }
  assert (I6 : In (axis, if dir then 1 else -1) six).
  { unfold six. destruct axis as [|[|[|axis]]]; [| | |lia]; destruct dir; simpl; auto 10. }
  assert (Hk : exists k, (6 <= k)%nat /\ nth_error fs1 k = Some f).
  { assert (I1 : In f fs1). { apply (Permutation_in _ (Permutation_sym P)). apply in_or_app; auto. }
    apply In_nth_error in I1 as [k Hk]. exists k. split; [|exact Hk].
    destruct (Nat.lt_ge_cases k 6) as [Lk|Lk]; [|exact Lk]. exfalso.
    destruct (Sl k Lk) as (h & H1 & H2). rewrite Hk in H1; injection H1 as <-.
    destruct H2 as [[_ C]|[_ ((W & _) & _)]].
    - destruct (Na (axis_of k) (axis_lt k Lk)) as [X Y]. destruct (dir_cases k); congruence.
    - rewrite W in Ie. destruct Ie. }
  destruct Hk as (k & K1 & K2).
  assert (L' : Rltb (len (sub a b)) (1 / 2) = false) by (apply Rltb_false; exact Ln).
  pose proof (Cv k f a b (axis, if dir then 1 else -1) pl K1 K2 Ie L' Ax I6 S0) as [(g & G1 & G2)|[(g & p & G1 & G2 & G3)|(g & pre & G1 & G2)]].
  - exists g. split; [exact G1|]. unfold same_plane in G2. rewrite !andb_true_iff, !Rleb_true in G2.
    destruct G2 as (D & X & Y & Z0). repeat split; assumption.
  - exfalso. assert (V : vertex fs p).
    { rewrite E2 in G1. apply in_app_or in G1 as [G1|G1].
      - apply (Permutation_in _ P) in G1. apply in_app_or in G1 as [G1|G1]; [exists g; auto|].
        destruct (B g G1) as (k' & _ & ((W & _) & _)). rewrite W in G2. destruct G2.
      - destruct (Ed g G1) as ((W & _) & _). rewrite W in G2. destruct G2. }
    specialize (Bh p V). unfold dist_to, pl in G3; cbn [p_n p_d] in G3. lra.
  - exists g. split; [exact G1|]. rewrite G2. destruct (T pre pl) as (X & Y & Z0 & D).
    unfold pl in *; cbn [p_n p_d] in *. repeat split; cbn [p_n p_d]; lra.
Qed.
Print Assumptions C115_complete.

(* ---- C116 ---- *)

(* For a clipping hull there is one side for each face.  A side whose texinfo has no_expand keeps
   its plane.  Any other side gets a plane such that a point p behind the face, moved by a vector q
   of the hull, is behind the side, up to the tolerance of the table. *)
Theorem C116_sides ask no_expand hn hd hulls k lo hi fs :
  table_near hn hd ask -> nth_error hulls (S k) = Some (lo, hi) ->
  exists sides, load_sides ask no_expand hulls (S k) fs = Some sides /\
    Forall2 (fun f s => f_tex s = f_tex f /\
      (no_expand (f_tex f) = true -> f_plane s = f_plane f /\ f_bevel s = f_bevel f) /\
      (no_expand (f_tex f) = false -> f_bevel s = false /\
         forall p q, in_hull_box lo hi q ->
           dist_to (f_plane s) (add p q) <= dist_to (f_plane f) p + (hn * one_norm (add p q) + hd))) fs sides.
Proof.
  intros T Hh. unfold load_sides. rewrite Hh.
  destruct (expand_sides_spec ask no_expand lo hi (map side_from fs) []) as (l & E & F).
  exists l. rewrite E. split; [reflexivity|]. clear E Hh hulls k.
  revert l F. induction fs as [|f fs IH]; intros l F; cbn [map] in F; inversion F as [|x s xs ss (pre & Q) F' E1 E2]; subst; constructor.
  - unfold expand_side, side_from; cbn [f_tex f_plane f_bevel f_winding].
    destruct (no_expand (f_tex f)) eqn:Z0; cbn [f_tex f_plane f_bevel]; rewrite ?Z0.
    + split; [reflexivity|]. split; [auto|discriminate].
    + split; [reflexivity|]. split; [discriminate|]. intros _. split; [reflexivity|]. intros p q B.
      pose proof (near_dist hn hd _ _ (add p q) (T pre (expanded lo hi (f_plane f)))) as D.
      pose proof (expand_dist lo hi (f_plane f) p q B). lra.
  - apply IH. exact F'.
Qed.
Print Assumptions C116_sides.

(* The planes are moved no further than that: with an exact table, for every expanded side there
   is a vector q of the hull that carries points of the plane of the face to points of the plane
   of the side. *)
Theorem C116_touches no_expand hulls k lo hi fs sides f s :
  nth_error hulls (S k) = Some (lo, hi) -> in_hull_box lo hi (mkV 0 0 0) ->
  load_sides (fun _ p => p) no_expand hulls (S k) fs = Some sides ->
  In (f, s) (combine fs sides) -> no_expand (f_tex f) = false ->
  p_n (f_plane s) = p_n (f_plane f) /\
  exists q, in_hull_box lo hi q /\ forall p, dist_to (f_plane s) (add p q) = dist_to (f_plane f) p.
Proof.
  intros Hh O E I Z0. unfold load_sides in E. rewrite Hh in E.
  destruct (expand_sides_spec (fun _ p => p) no_expand lo hi (map side_from fs) []) as (l & E' & F).
  rewrite E' in E. injection E as <-. clear E'. cbn [app] in I.
  revert l F I. induction fs as [|h fs IH]; intros l F I; [destruct I|].
  cbn [map] in F. inversion F as [|x y xs ys (pre & Q) F' E1 E2]; subst. destruct I as [I|I].
  - injection I as -> <-. unfold expand_side, side_from. cbn [f_tex f_plane f_bevel]. rewrite Z0. cbn [f_plane]. split; [reflexivity|].
    exists (corner (p_n (f_plane f)) lo hi). split; [apply corner_in; exact O|].
    intros p. unfold dist_to, expanded; cbn [p_n p_d]. unfold dot, add; cbn [vx vy vz]. ring.
  - apply (IH ys); assumption.
Qed.
Print Assumptions C116_touches.

(* The point hull is the brush without its bevels, and a hull that the game does not have stops
   the program. *)
Theorem C116_point ask no_expand hulls fs :
  (exists sides, load_sides ask no_expand hulls 0 fs = Some sides /\
     map f_plane sides = map f_plane (filter (fun f => negb (f_bevel f)) fs) /\
     forall s, In s sides -> f_bevel s = false) /\
  (forall k, (length hulls <= S k)%nat -> load_sides ask no_expand hulls (S k) fs = None).
Proof.
  split.
  - eexists. split; [reflexivity|]. split.
    + rewrite map_map. reflexivity.
    + intros s I. apply in_map_iff in I as (f & <- & I). apply filter_In in I as [_ I]. cbn [side_from f_bevel].
      apply negb_true_iff in I. exact I.
  - intros k L. unfold load_sides. apply nth_error_None in L. rewrite L. reflexivity.
Qed.
Print Assumptions C116_point.

(* An axial box is expanded exactly (exact table): the points behind all sides of the brush for
   the hull are the sums of a point of the box and a vector of the hull. *)
Theorem C116_box no_expand hulls k lo hi mins maxs fs sides x :
  nth_error hulls (S k) = Some (lo, hi) -> in_hull_box lo hi (mkV 0 0 0) -> in_hull_box mins maxs mins ->
  map f_plane fs = map (axial_plane mins maxs) [0; 1; 2; 3; 4; 5]%nat ->
  (forall f, In f fs -> no_expand (f_tex f) = false) ->
  load_sides (fun _ p => p) no_expand hulls (S k) fs = Some sides ->
  ((forall s, In s sides -> dist_to (f_plane s) x <= 0) <->
   exists p q, in_hull_box mins maxs p /\ in_hull_box lo hi q /\ x = add p q).
Proof.
  intros Hh O Mm Ef Z0 E. unfold load_sides in E. rewrite Hh in E.
  destruct (expand_sides_spec (fun _ p => p) no_expand lo hi (map side_from fs) []) as (l & E' & F).
  rewrite E' in E. injection E as <-. clear E'. cbn [app].
  assert (Pl : map f_plane l = map (expanded lo hi) (map f_plane fs)).
  { clear Ef. revert l F Z0. induction fs as [|h fs IH]; intros l F Z0; cbn [map] in F; inversion F as [|y z ys zs (pre & Q) F' E1 E2]; subst; [reflexivity|].
    cbn [map]. f_equal.
    - unfold expand_side, side_from. cbn [f_tex f_plane]. rewrite (Z0 h (or_introl eq_refl)). reflexivity.
    - apply IH; [exact F'|]. intros f I. apply Z0. right; exact I. }
  rewrite Ef in Pl.
  assert (Eq : (forall s, In s l -> dist_to (f_plane s) x <= 0) <-> in_hull_box (add mins lo) (add maxs hi) x).
  { assert (A : (forall s, In s l -> dist_to (f_plane s) x <= 0) <-> (forall p, In p (map f_plane l) -> dist_to p x <= 0)).
    { split.
      - intros A p I. apply in_map_iff in I as (s & <- & I). auto.
      - intros A s I. apply A. apply in_map. exact I. }
    rewrite A, Pl. clear.
    assert (X : forall i, (i < 6)%nat -> (dist_to (expanded lo hi (axial_plane mins maxs i)) x <= 0 <->
       if Nat.even i then vcomp (axis_of i) mins + vcomp (axis_of i) lo <= vcomp (axis_of i) x
       else vcomp (axis_of i) x <= vcomp (axis_of i) maxs + vcomp (axis_of i) hi)).
    { intros i Hi.
      assert (C1 : forall a b, corner1 1 a b = b). { intros; unfold corner1. destruct (Rltb 0 1) eqn:R; [reflexivity|apply Rltb_false in R; lra]. }
      assert (C2 : forall a b, corner1 (-1) a b = a).
      { intros; unfold corner1. destruct (Rltb 0 (-1)) eqn:R; [apply Rltb_true in R; lra|]. destruct (Rltb (-1) 0) eqn:R'; [reflexivity|apply Rltb_false in R'; lra]. }
      assert (C3 : forall a b, corner1 0 a b = 0).
      { intros; unfold corner1. destruct (Rltb 0 0) eqn:R; [apply Rltb_true in R; lra|]. reflexivity. }
      do 6 (destruct i as [|i]; [unfold dist_to, expanded, axial_plane, corner, dot, axis_of, dir_of;
        cbn [Nat.even Nat.div2 axis_vec vcomp p_n p_d vx vy vz]; rewrite ?C1, ?C2, ?C3; split; lra|]). lia. }
    unfold in_hull_box, add; cbn [vx vy vz]. cbn [map]. split.
    - intros A.
      assert (A' : forall i, (i < 6)%nat -> dist_to (expanded lo hi (axial_plane mins maxs i)) x <= 0).
      { intros i Hi. apply A. do 6 (destruct i as [|i]; [simpl; auto 10|]). lia. }
      pose proof (proj1 (X 0%nat ltac:(lia)) (A' 0%nat ltac:(lia))). pose proof (proj1 (X 1%nat ltac:(lia)) (A' 1%nat ltac:(lia))).
      pose proof (proj1 (X 2%nat ltac:(lia)) (A' 2%nat ltac:(lia))). pose proof (proj1 (X 3%nat ltac:(lia)) (A' 3%nat ltac:(lia))).
      pose proof (proj1 (X 4%nat ltac:(lia)) (A' 4%nat ltac:(lia))). pose proof (proj1 (X 5%nat ltac:(lia)) (A' 5%nat ltac:(lia))).
      unfold axis_of in *; cbn [Nat.even Nat.div2 vcomp] in *. lra.
    - intros (B1 & B2 & B3) p I. simpl in I. repeat destruct I as [<-|I]; try (destruct I; fail).
      + apply (proj2 (X 0%nat ltac:(lia))). unfold axis_of; cbn [Nat.even Nat.div2 vcomp]. lra.
      + apply (proj2 (X 1%nat ltac:(lia))). unfold axis_of; cbn [Nat.even Nat.div2 vcomp]. lra.
      + apply (proj2 (X 2%nat ltac:(lia))). unfold axis_of; cbn [Nat.even Nat.div2 vcomp]. lra.
      + apply (proj2 (X 3%nat ltac:(lia))). unfold axis_of; cbn [Nat.even Nat.div2 vcomp]. lra.
      + apply (proj2 (X 4%nat ltac:(lia))). unfold axis_of; cbn [Nat.even Nat.div2 vcomp]. lra.
      + apply (proj2 (X 5%nat ltac:(lia))). unfold axis_of; cbn [Nat.even Nat.div2 vcomp]. lra. }
  rewrite Eq. clear -O Mm.
  assert (D1 : forall a b l h y : R, l <= 0 <= h -> a <= b -> a + l <= y <= b + h -> exists p q, a <= p <= b /\ l <= q <= h /\ y = p + q).
  { intros a b l h y [L1 L2] AB [Y1 Y2]. destruct (Rle_dec y a) as [C|C].
    - exists a, (y - a). repeat split; lra.
    - destruct (Rle_dec y b) as [C'|C'].
      + exists y, 0. repeat split; lra.
      + exists b, (y - b). repeat split; lra. }
  destruct O as (O1 & O2 & O3), Mm as (M1 & M2 & M3). cbn [vx vy vz] in *. split.
  - intros (X1 & X2 & X3). unfold add in *; cbn [vx vy vz] in *.
    destruct (D1 (vx mins) (vx maxs) _ _ _ O1 ltac:(lra) X1) as (p1 & q1 & P1 & Q1 & E1).
    destruct (D1 (vy mins) (vy maxs) _ _ _ O2 ltac:(lra) X2) as (p2 & q2 & P2 & Q2 & E2).
    destruct (D1 (vz mins) (vz maxs) _ _ _ O3 ltac:(lra) X3) as (p3 & q3 & P3 & Q3 & E3).
    exists (mkV p1 p2 p3), (mkV q1 q2 q3). split; [repeat split; cbn [vx vy vz]; tauto|]. split; [repeat split; cbn [vx vy vz]; tauto|].
    destruct x as [x1 x2 x3]; cbn [vx vy vz] in *. congruence.
  - intros (p & q & (P1 & P2 & P3) & (Q1 & Q2 & Q3) & ->). unfold in_hull_box, add; cbn [vx vy vz]. lra.
Qed.
Print Assumptions C116_box.

(* From the faces of a brush to the sides for a hull: a point of the convex hull of the vertices,
   moved by a vector of the hull, is behind every side, up to the epsilon and the tolerance of the
   table, unless the side has no_expand. *)
Theorem C116_contains ask mins maxs eps ne de hn hd no_expand hulls k lo hi fs fs2 M :
  table_near hn hd ask -> 0 <= hn < 1 -> unit_faces fs -> 0 <= eps -> 0 <= hd ->
  (forall v, vertex fs v -> in_hull_box mins maxs v) ->
  (forall v f, vertex fs v -> In f fs -> dist_to (f_plane f) v <= eps) ->
  (forall v, vertex fs v -> one_norm v <= M) ->
  add_bevels ask mins maxs eps ne de fs = Some fs2 ->
  nth_error hulls (S k) = Some (lo, hi) ->
  exists sides, load_sides ask no_expand hulls (S k) fs2 = Some sides /\
    forall s p q, In s sides -> no_expand (f_tex s) = false -> hull (vertex fs) p -> in_hull_box lo hi q ->
      dist_to (f_plane s) (add p q) <= eps + (hn * M + hd) + (hn * one_norm (add p q) + hd).
Proof.
  intros T [Hn0 Hn1] U E0 Hd0 Bd Own Mb E Hh.
  destruct (C116_sides ask no_expand hn hd hulls k lo hi fs2 T Hh) as (sides & L & F).
  exists sides. split; [exact L|]. intros s p q Is Z0 Hp Q.
  assert (X : exists f, In f fs2 /\ f_tex s = f_tex f /\ (no_expand (f_tex f) = false -> f_bevel s = false /\
         forall p q, in_hull_box lo hi q ->
           dist_to (f_plane s) (add p q) <= dist_to (f_plane f) p + (hn * one_norm (add p q) + hd))).
  { clear -F Is. induction F as [|f t fs2 sides (A & _ & B) F IH]; [destruct Is|]. destruct Is as [->|Is].
    - exists f. split; [left; reflexivity|]. split; assumption.
    - destruct (IH Is) as (g & G1 & G2). exists g. split; [right; exact G1|exact G2]. }
  destruct X as (f & If & Tx & X). rewrite Tx in Z0. destruct (X Z0) as [_ X'].
  specialize (X' p q Q).
  assert (Dp : dist_to (f_plane f) p <= eps + (hn * M + hd)).
  { apply (hull_le (f_plane f) (eps + (hn * M + hd)) (vertex fs)); [|exact Hp].
    intros v V. assert (Mv := Mb v V).
    assert (hn * one_norm v <= hn * M) by (apply Rmult_le_compat_l; assumption).
    destruct (bevel_behind ask mins maxs eps ne de hn hd fs fs2 f T Hn1 U E0 Bd E If) as [C|C].
    - pose proof (Own v f V C). assert (0 <= hn * M). { apply Rmult_le_pos; [exact Hn0|]. unfold one_norm in Mv.
        pose proof (Rabs_pos (vx v)). pose proof (Rabs_pos (vy v)). pose proof (Rabs_pos (vz v)). lra. } lra.
    - pose proof (C v V). lra. }
  lra.
Qed.
Print Assumptions C116_contains.

(* A corner of a box: the points with x, y, z >= 0 and x + y + z <= s. *)
Definition third : R := / sqrt 3.
Definition wedge (s : R) : list face :=
  [mkF (mkPl (mkV (-1) 0 0) 0) [mkV 0 0 0; mkV 0 s 0; mkV 0 0 s] false 0;
   mkF (mkPl (mkV 0 (-1) 0) 0) [mkV 0 0 0; mkV 0 0 s; mkV s 0 0] false 0;
   mkF (mkPl (mkV 0 0 (-1)) 0) [mkV 0 0 0; mkV s 0 0; mkV 0 s 0] false 0;
   mkF (mkPl (mkV third third third) (third * s)) [mkV s 0 0; mkV 0 0 s; mkV 0 s 0] false 0].
Definition exact (_ : list face) (p : plane) : plane := p.

Lemma third_pos : 0 < third.
Proof. apply Rinv_0_lt_compat. apply sqrt_lt_R0. lra. Qed.
Lemma third_sq : 3 * (third * third) = 1.
Proof.
  unfold third. assert (0 < sqrt 3) by (apply sqrt_lt_R0; lra). pose proof (sqrt_sqrt 3 ltac:(lra)) as E.
  rewrite <- E at 1. field. lra.
Qed.
Lemma exact_near : table_near 0 0 exact.
Proof. intros fs p. unfold exact, near_plane. rewrite !Rminus_diag_eq, Rabs_R0 by reflexivity. lra. Qed.
Lemma wedge_unit s : unit_faces (wedge s).
Proof.
  intros f I. unfold wedge in I. simpl in I. pose proof third_sq.
  repeat destruct I as [<-|I]; try (destruct I; fail); unfold dot; cbn [f_plane p_n vx vy vz]; lra.
Qed.
Lemma near0 p q : near_plane 0 0 p q -> p = q.
Proof.
  assert (Z0 : forall x y, Rabs (x - y) <= 0 -> x = y).
  { intros x y A. unfold Rabs in A. destruct Rcase_abs; lra. }
  destruct p as [[a b c] d], q as [[a' b' c'] d']. intros (A & B & C & D). cbn [p_n p_d vx vy vz] in *.
  rewrite (Z0 _ _ A), (Z0 _ _ B), (Z0 _ _ C), (Z0 _ _ D). reflexivity.
Qed.

(* The expansion is not exact when an edge is shorter than 1/2: no bevel is made for it, and the
   brush for hull 1 of Quake has a point that no point of the brush reaches. *)
Theorem C116_short_refuted : exists fs fs2 sides x,
  unit_faces fs /\ add_bevels exact (mkV 0 0 0) (mkV (1/4) (1/4) (1/4)) (1/10000) (1/1000000) (1/10000) fs = Some fs2 /\
  load_sides exact (fun _ => false) [(mkV 0 0 0, mkV 0 0 0); (mkV (-16) (-16) (-32), mkV 16 16 24)] 1 fs2 = Some sides /\
  (forall s, In s sides -> dist_to (f_plane s) x < 0) /\
  ~ exists p q, (forall f, In f fs -> dist_to (f_plane f) p <= 0) /\
      in_hull_box (mkV (-16) (-16) (-32)) (mkV 16 16 24) q /\ x = add p q.
Proof.
  set (fs := wedge (1/4)).
  destruct (C115_faces exact (mkV 0 0 0) (mkV (1/4) (1/4) (1/4)) (1/10000) (1/1000000) (1/10000) 0 0 fs exact_near ltac:(lra) (wedge_unit _))
    as (fs2 & bev & E & P & _).
  set (hulls := [(mkV 0 0 0, mkV 0 0 0); (mkV (-16) (-16) (-32), mkV 16 16 24)]).
  destruct (expand_sides_spec exact (fun _ => false) (mkV (-16) (-16) (-32)) (mkV 16 16 24) (map side_from fs2) []) as (sides & L & F).
  exists fs, fs2, sides, (mkV (16 + 15/64) (16 + 15/64) 0).
  split; [apply wedge_unit|]. split; [exact E|]. split; [unfold load_sides; cbn [nth_error hulls]; rewrite L; reflexivity|]. split.
  - intros s Is.
    assert (X : exists g, In g fs2 /\ f_plane s = expanded (mkV (-16) (-16) (-32)) (mkV 16 16 24) (f_plane g)).
    { clear -F Is. revert sides F Is. induction fs2 as [|g fs2 IH]; intros sides F Is; cbn [map] in F; inversion F as [|y z ys zs (pre & Q) F' E1 E2]; subst; [destruct Is|].
      destruct Is as [<-|Is]; [exists g; split; [left; reflexivity|reflexivity]|].
      destruct (IH zs F' Is) as (h & H1 & H2). exists h. split; [right; exact H1|exact H2]. }
    destruct X as (g & Ig & ->).
    assert (C1 : forall n a b, 0 < n -> corner1 n a b = b). { intros n a b Hn; unfold corner1. destruct (Rltb 0 n) eqn:R; [reflexivity|apply Rltb_false in R; lra]. }
    assert (C2 : forall a b, corner1 (-1) a b = a).
    { intros; unfold corner1. destruct (Rltb 0 (-1)) eqn:R; [apply Rltb_true in R; lra|]. destruct (Rltb (-1) 0) eqn:R'; [reflexivity|apply Rltb_false in R'; lra]. }
    assert (C3 : forall a b, corner1 0 a b = 0).
    { intros; unfold corner1. destruct (Rltb 0 0) eqn:R; [apply Rltb_true in R; lra|]. reflexivity. }
    pose proof third_pos as Tp.
    assert (D : In g fs \/ ~ In g fs -> dist_to (expanded (mkV (-16) (-16) (-32)) (mkV 16 16 24) (f_plane g)) (mkV (16 + 15/64) (16 + 15/64) 0) < 0).
    { intros [C|C].
      - unfold fs, wedge in C. simpl in C. repeat destruct C as [<-|C]; try (destruct C; fail);
        unfold dist_to, expanded, corner, dot; cbn [f_plane p_n p_d vx vy vz]; rewrite ?C2, ?C3, ?(C1 third) by assumption; nra.
      - destruct (C115_edges exact (mkV 0 0 0) (mkV (1/4) (1/4) (1/4)) (1/10000) (1/1000000) (1/10000) 0 0 fs fs2 g exact_near ltac:(lra) (wedge_unit _) ltac:(lra) E Ig C)
          as [(axis & b & A3 & Nr)|(pl & f & a & b & axis & _ & If & Ie & _ & Ln & _)].
        + apply near0 in Nr. rewrite Nr.
          destruct axis as [|[|[|axis]]]; [| | |lia]; destruct b; unfold dist_to, expanded, corner, dot; cbn [axis_vec vcomp p_n p_d vx vy vz];
          rewrite ?C2, ?C3, ?(C1 1) by lra; lra.
        + exfalso.
          assert (Q : dot (sub a b) (sub a b) < 1/4).
          { unfold fs, wedge in If. simpl in If.
            repeat destruct If as [<-|If]; try (destruct If; fail); simpl in Ie;
            repeat destruct Ie as [Ie|Ie]; try (destruct Ie; fail); injection Ie as <- <-; unfold dot, sub; cbn [vx vy vz]; lra. }
          pose proof (len_sq (sub a b)). nra. }
    apply D. destruct (C115_faces exact (mkV 0 0 0) (mkV (1/4) (1/4) (1/4)) (1/10000) (1/1000000) (1/10000) 0 0 fs exact_near ltac:(lra) (wedge_unit _))
      as (fs2' & bev' & E' & P' & Bv & _). rewrite E in E'; injection E' as <-.
    apply (Permutation_in _ P') in Ig. apply in_app_or in Ig as [Ig|Ig]; [left; exact Ig|]. right. intros C.
    destruct (Bv g Ig) as (Fb & _). unfold fs, wedge in C. simpl in C. repeat destruct C as [<-|C]; try discriminate. destruct C.
  - intros (p & q & In_ & (Q1 & Q2 & Q3) & Ex). unfold add in Ex. cbn [vx vy vz] in *. injection Ex as E1 E2 E3.
    pose proof (In_ _ (or_intror (or_intror (or_intror (or_introl eq_refl))))) as I4.
    pose proof (In_ _ (or_intror (or_intror (or_introl eq_refl)))) as I3.
    unfold dist_to, dot in I4, I3; cbn [f_plane p_n p_d vx vy vz] in I4, I3. pose proof third_pos. nra.
Qed.
Print Assumptions C116_short_refuted.

(* The wedge of size 64 gets the three missing axial bevels, and a bevel along z through the edge
   from (64, 0, 0) to (0, 64, 0). *)
Example C115_nontrivial : exists fs2,
  add_bevels exact (mkV 0 0 0) (mkV 64 64 64) (1/10000) (1/1000000) (1/10000) (wedge 64) = Some fs2 /\
  (exists g, nth_error fs2 1 = Some g /\ f_bevel g = true /\ f_plane g = mkPl (mkV 1 0 0) 64) /\
  (exists g, nth_error fs2 2 = Some g /\ f_bevel g = false /\ vy (p_n (f_plane g)) = -1) /\
  (exists g, In g fs2 /\ near_plane (1/1000000) (1/10000) (f_plane g) (mkPl (mkV (/ sqrt 2) (/ sqrt 2) 0) (64 * / sqrt 2))).
Proof.
  pose proof third_pos as Tp. pose proof third_sq as Ts. assert (T1 : third < 1) by nra.
  destruct (C115_faces exact (mkV 0 0 0) (mkV 64 64 64) (1/10000) (1/1000000) (1/10000) 0 0 (wedge 64) exact_near ltac:(lra) (wedge_unit _))
    as (fs2 & bev & E & P & Bv & Sl & _).
  exists fs2. split; [exact E|].
  assert (Nm : forall h, In h (wedge 64) -> vx (p_n (f_plane h)) <> 1).
  { intros h I. unfold wedge in I; simpl in I. repeat destruct I as [<-|I]; try (destruct I; fail); cbn [f_plane p_n vx]; lra. }
  split; [|split].
  - destruct (Sl 0%nat true ltac:(lia)) as (g & G1 & [[G2 G3]|(G2 & G3 & G4)]).
    + exfalso. apply (Nm g G2). exact G3.
    + exists g. split; [exact G1|]. split; [apply (Bv g G2)|]. apply near0 in G4. exact G4.
  - destruct (Sl 1%nat false ltac:(lia)) as (g & G1 & [[G2 G3]|(G2 & G3 & G4)]).
    + exists g. split; [exact G1|]. split; [|exact G3].
      unfold wedge in G2; simpl in G2. repeat destruct G2 as [<-|G2]; try reflexivity; destruct G2.
    + exfalso. apply (G3 (mkF (mkPl (mkV 0 (-1) 0) 0) [mkV 0 0 0; mkV 0 0 64; mkV 64 0 0] false 0)); [simpl; auto|reflexivity].
  - assert (S2 : 0 < sqrt 2) by (apply sqrt_lt_R0; lra). pose proof (sqrt_sqrt 2 ltac:(lra)) as Q2.
    set (a := mkV 0 64 0). set (b := mkV 64 0 0).
    set (r := sqrt 2) in *. clearbody r.
    assert (Ln : len (sub a b) = 64 * r).
    { unfold len. apply sqrt_lem_1; [apply dot_nonneg|nra|]. unfold dot, sub, a, b; cbn [vx vy vz].
      replace (64 * r * (64 * r)) with (4096 * (r * r)) by ring. rewrite Q2. ring. }
    assert (Ir : / r * / r = / 2). { rewrite <- Rinv_mult, Q2. reflexivity. }
    assert (Ip : 0 < / r) by (apply Rinv_0_lt_compat; lra).
    assert (Nv : normalize (sub a b) = mkV (- / r) (/ r) 0).
    { unfold normalize. destruct (Req_EM_T (len (sub a b)) 0); [rewrite Ln in *; nra|]. rewrite Ln.
      unfold scale, sub, a, b; cbn [vx vy vz]. f_equal; field; lra. }
    set (n := cross (normalize (sub a b)) (axis_vec 2 1)).
    assert (En : n = mkV (/ r) (/ r) 0).
    { unfold n. rewrite Nv. unfold cross, axis_vec; cbn [vx vy vz]. f_equal; ring. }
    assert (Lnn : len n = 1).
    { rewrite En. unfold len. apply sqrt_lem_1; [apply dot_nonneg|lra|]. unfold dot; cbn [vx vy vz]. lra. }
    assert (Nn : normalize n = mkV (/ r) (/ r) 0).
    { unfold normalize. rewrite Lnn. destruct (Req_EM_T 1 0); [lra|]. rewrite En. unfold scale; cbn [vx vy vz].
      rewrite Rinv_1. f_equal; ring. }
    assert (R1 : / r < 3/4) by nra.
    destruct (C115_complete exact (mkV 0 0 0) (mkV 64 64 64) (1/10000) (1/1000000) (1/10000) 0 0 (wedge 64) fs2
      (mkF (mkPl (mkV third third third) (third * 64)) [mkV 64 0 0; mkV 0 0 64; mkV 0 64 0] false 0) a b 2 true n) as (g & G1 & G2);
      try exact exact_near; try exact (wedge_unit 64); try exact E; try lra; try lia; try reflexivity.
    + simpl; auto 10.
    + intros i Hi. destruct i as [|[|[|i]]]; [| | |lia]; cbn [f_plane p_n vcomp vx vy vz]; lra.
    + simpl; auto 10.
    + rewrite Ln. nra.
    + intros i Hi. rewrite Nv. destruct i as [|[|[|i]]]; [| | |lia]; cbn [vcomp vx vy vz]; unfold Rabs; split; destruct Rcase_abs; lra.
    + rewrite Nn. unfold dot, a; cbn [vx vy vz]. intros p (f & I1 & I2). unfold wedge in I1; simpl in I1.
      repeat destruct I1 as [<-|I1]; try (destruct I1; fail); simpl in I2; repeat destruct I2 as [<-|I2]; try (destruct I2; fail); cbn [vx vy vz]; lra.
    + exists g. split; [exact G1|]. rewrite Nn in G2. unfold dot, a in G2; cbn [vx vy vz] in G2.
      replace (0 * / r + 64 * / r + 0 * 0) with (64 * / r) in G2 by ring. exact G2.
Qed.

(* A cube of size 32 at the origin becomes the box of Quake's hull 1 around it. *)
Example C116_nontrivial : exists sides,
  load_sides exact (fun _ => false) [(mkV 0 0 0, mkV 0 0 0); (mkV (-16) (-16) (-32), mkV 16 16 24)] 1
    (map (fun k => mkF (axial_plane (mkV (-16) (-16) (-16)) (mkV 16 16 16) k) [] false 0) [0; 1; 2; 3; 4; 5]%nat) = Some sides /\
  length sides = 6%nat /\
  (forall s, In s sides -> dist_to (f_plane s) (mkV 32 (-32) 40) <= 0) /\
  ~ (forall s, In s sides -> dist_to (f_plane s) (mkV 0 0 41) <= 0).
Proof.
  eexists. split; [reflexivity|]. split; [reflexivity|].
  set (hulls := [(mkV 0 0 0, mkV 0 0 0); (mkV (-16) (-16) (-32), mkV 16 16 24)]).
  set (fs := map (fun k => mkF (axial_plane (mkV (-16) (-16) (-16)) (mkV 16 16 16) k) [] false 0) [0; 1; 2; 3; 4; 5]%nat).
  assert (G : forall x sides, load_sides exact (fun _ => false) hulls 1 fs = Some sides ->
    ((forall s, In s sides -> dist_to (f_plane s) x <= 0) <->
      exists p q, in_hull_box (mkV (-16) (-16) (-16)) (mkV 16 16 16) p /\ in_hull_box (mkV (-16) (-16) (-32)) (mkV 16 16 24) q /\ x = add p q)).
  { intros x sides E. apply (C116_box (fun _ => false) hulls 0 (mkV (-16) (-16) (-32)) (mkV 16 16 24) (mkV (-16) (-16) (-16)) (mkV 16 16 16) fs sides x);
    [reflexivity|unfold in_hull_box; cbn [vx vy vz]; lra|unfold in_hull_box; cbn [vx vy vz]; lra|reflexivity|reflexivity|exact E]. }
  split.
  - apply (G _ _ eq_refl). exists (mkV 16 (-16) 16), (mkV 16 (-16) 24). unfold in_hull_box, add; cbn [vx vy vz].
    split; [lra|]. split; [lra|]. f_equal; lra.
  - intros H. apply (G _ _ eq_refl) in H as (p & q & (_ & _ & P3) & (_ & _ & Q3) & E). unfold add in E. injection E as _ _ E. cbn [vx vy vz] in *. lra.
Qed.
