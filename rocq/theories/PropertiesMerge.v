(* Properties of merging of faces (C128). *)
From Coq Require Import Reals List ZArith Bool Arith Lia Lra Permutation.
From Verif Require Import WindClipModel LightValProofs MergeModel MergeProofs.
Import ListNotations.
Open Scope R_scope.

(** * C128: merging of faces *)

(** Only faces of one plane, texinfo, lightmap scale and of one side of a border of the sky are merged; with
    -nomergeacrossliquids also only those of one side of a border of a liquid.  The rest is that of the
    first face. *)
Theorem C128_gate : forall nomerge normals f1 f2 g, try_merge nomerge normals f1 f2 = Some g ->
  f_plane f1 = f_plane f2 /\ f_tex f1 = f_tex f2 /\ f_shift f1 = f_shift f2 /\ f_sky f1 = f_sky f2 /\
  (nomerge = true -> f_liquid f1 = f_liquid f2) /\
  f_plane g = f_plane f1 /\ f_tex g = f_tex f1 /\ f_shift g = f_shift f1 /\ f_sky g = f_sky f1 /\
  f_liquid g = f_liquid f1 /\ f_rest g = f_rest f1.
Proof.
  intros nm ns f1 f2 g H. destruct (try_merge_key _ _ _ _ _ H) as (K1 & K2 & R & L & Q). unfold key in K1, K2.
  injection K1 as A1 A2 A3 A4. injection K2 as B1 B2 B3 B4. repeat split; assumption.
Qed.
Print Assumptions C128_gate.

(** Two points count as equal when no coordinate differs by more than 1/10000. *)
Theorem C128_near : forall a b, near a b = true <->
  Rabs (vx a - vx b) <= 1 / 10000 /\ Rabs (vy a - vy b) <= 1 / 10000 /\ Rabs (vz a - vz b) <= 1 / 10000.
Proof.
  intros a b. unfold near, near1. change equal_eps with (1 / 10000). rewrite !andb_true_iff.
  destruct (Rle_dec (Rabs (vx a - vx b)) (1 / 10000)), (Rle_dec (Rabs (vy a - vy b)) (1 / 10000)), (Rle_dec (Rabs (vz a - vz b)) (1 / 10000)); intuition congruence.
Qed.
Print Assumptions C128_near.

(** When faces are not merged: the faces are of different kinds, no edge of one is an edge of the other with
    its ends swapped, or at an end of the first such edge the outline turns outwards by more than 1/2000. *)
Theorem C128_none : forall nomerge normals f1 f2, let w1 := f_w f1 in let w2 := f_w f2 in
  let same i j := near (at_ w1 i) (at_ w2 (j + 1)) = true /\ near (at_ w1 (i + 1)) (at_ w2 j) = true in
  let n := normals (f_plane f1) in
  try_merge nomerge normals f1 f2 = None <->
  (w1 = [] \/ w2 = [] \/ f_plane f1 <> f_plane f2 \/ f_tex f1 <> f_tex f2 \/ f_shift f1 <> f_shift f2 \/ f_sky f1 <> f_sky f2 \/
   (nomerge = true /\ f_liquid f1 <> f_liquid f2)) \/
  (forall i j, (i < length w1)%nat -> (j < length w2)%nat -> ~ same i j) \/
  (exists i j, (i < length w1)%nat /\ (j < length w2)%nat /\ same i j /\
     (forall i' j', (j' < length w2)%nat -> (i' < i \/ (i' = i /\ j' < j))%nat -> ~ same i' j') /\
     (1 / 2000 < off n (at_ w1 (i + length w1 - 1)) (at_ w1 i) (at_ w2 (j + 2)) \/
      1 / 2000 < off n (at_ w1 (i + 1)) (at_ w1 (i + 2)) (at_ w2 (j + length w2 - 1)))).
Proof.
  intros nm ns f1 f2 w1 w2 same n. rewrite try_merge_none. cbv zeta. fold w1 w2 n. unfold prev.
  assert (SM : forall i j, same i j <-> match_at w1 w2 i j = true) by (intros i j; unfold same, match_at; rewrite andb_true_iff; reflexivity).
  assert (CM : compatible nm f1 f2 = false <-> (w1 = [] \/ w2 = [] \/ f_plane f1 <> f_plane f2 \/ f_tex f1 <> f_tex f2 \/ f_shift f1 <> f_shift f2 \/ f_sky f1 <> f_sky f2 \/
   (nm = true /\ f_liquid f1 <> f_liquid f2))).
  { unfold compatible. rewrite !andb_false_iff, orb_false_iff, !negb_false_iff, !Nat.eqb_eq, !length_zero_iff_nil, !Z.eqb_neq, !Bool.eqb_false_iff. fold w1 w2. tauto. }
  rewrite CM. apply or_iff_compat_l. rewrite common_edge_none. change cont_eps with (1 / 2000). split.
  - intros [H|(i & j & E & D)].
    + left. intros i j I J S0. apply SM in S0. rewrite H in S0 by assumption. discriminate.
    + right. destruct (common_edge_some _ _ _ _ E) as (I & J & M & F). exists i, j. refine (conj I (conj J (conj (proj2 (SM i j) M) (conj _ D)))).
      intros i' j' J' L S0. apply SM in S0. rewrite F in S0 by assumption. discriminate.
  - intros [H|(i & j & I & J & S0 & F & D)].
    + left. intros i j I J. destruct (match_at w1 w2 i j) eqn:M; [|reflexivity]. exfalso. apply (H i j I J), SM, M.
    + right. destruct (common_edge w1 w2) as [[i0 j0]|] eqn:E.
      * destruct (common_edge_some _ _ _ _ E) as (I0 & J0 & M & F0). exists i0, j0. split; [reflexivity|].
        assert (i0 = i /\ j0 = j) as [-> ->]; [|exact D]. apply SM in S0.
        assert (X : ~ (i < i0 \/ (i = i0 /\ j < j0))%nat) by (intros L; rewrite (F0 i j J L) in S0; discriminate).
        assert (Y : ~ (i0 < i \/ (i0 = i /\ j0 < j))%nat) by (intros L; apply (F i0 j0 J0 L), SM, M). lia.
      * exfalso. rewrite common_edge_none in E. apply SM in S0. rewrite E in S0 by assumption. discriminate.
Qed.
Print Assumptions C128_none.

(** The outline of the merged face: that of the first face from one end of the common edge to the other,
    then that of the second.  An end is left out where the outline turns by at most 1/2000 there. *)
Theorem C128_shape : forall nomerge normals f1 f2 g, try_merge nomerge normals f1 f2 = Some g ->
  (3 <= length (f_w f1))%nat -> (3 <= length (f_w f2))%nat ->
  exists p1 p2 q1 q2 A B keep1 keep2, let n := normals (f_plane f1) in
    A <> [] /\ B <> [] /\
    (exists l1 l2, f_w f1 = l1 ++ l2 /\ l2 ++ l1 = p1 :: p2 :: A) /\ (exists l1 l2, f_w f2 = l1 ++ l2 /\ l2 ++ l1 = q2 :: q1 :: B) /\
    near p1 q1 = true /\ near p2 q2 = true /\
    f_w g = (if keep2 : bool then [p2] else []) ++ A ++ (if keep1 : bool then [q1] else []) ++ B /\
    (keep1 = true <-> off n (last_ A) p1 (hd_ B) < - (1 / 2000)) /\ off n (last_ A) p1 (hd_ B) <= 1 / 2000 /\
    (keep2 = true <-> off n p2 (hd_ A) (last_ B) < - (1 / 2000)) /\ off n p2 (hd_ A) (last_ B) <= 1 / 2000.
Proof.
  intros nm ns f1 f2 g H L1 L2. destruct (try_merge_spec _ _ _ _ _ H) as (i & j & k1 & k2 & X). cbv zeta in X.
  destruct X as (_ & E & (D1 & K1) & (D2 & K2) & G). destruct (common_edge_some _ _ _ _ E) as (I & J & M & _).
  destruct (rot_decomp i _ I L1) as (A & RA & NA & HA & LA). destruct (rot_decomp j _ J L2) as (B & RB & NB & HB & LB).
  fold (prev (f_w f1) i) in LA. fold (prev (f_w f2) j) in LB. rewrite <- LA, <- HB in D1, K1. rewrite <- HA, <- LB in D2, K2.
  unfold match_at in M. apply andb_prop in M. destruct M as [M1 M2].
  exists (at_ (f_w f1) i), (at_ (f_w f1) (i + 1)), (at_ (f_w f2) (j + 1)), (at_ (f_w f2) j), A, B, k1, k2. cbv zeta.
  refine (conj NA (conj NB (conj _ (conj _ (conj M1 (conj M2 (conj _ (conj K1 (conj D1 (conj K2 D2)))))))))).
  - exists (firstn i (f_w f1)), (skipn i (f_w f1)). split; [symmetry; apply firstn_skipn|exact RA].
  - exists (firstn j (f_w f2)), (skipn j (f_w f2)). split; [symmetry; apply firstn_skipn|exact RB].
  - rewrite G, RA, RB. cbn [f_w]. destruct k1, k2; reflexivity.
Qed.
Print Assumptions C128_shape.

(** Two convex faces whose points are either equal or apart by more than 1/10000, and either on the line
    through two others or off it by more than 1/2000: the merged face is convex, has no three points on a
    line, and covers exactly what the two cover. *)
Theorem C128_exact : forall nomerge normals f1 f2 g, let n := normals (f_plane f1) in
  strict n (f_w f1) -> strict n (f_w f2) -> clean n (f_w f1 ++ f_w f2) -> try_merge nomerge normals f1 f2 = Some g ->
  strict n (f_w g) /\ (forall x, inside n (f_w g) x <-> inside n (f_w f1) x \/ inside n (f_w f2) x) /\
  (forall v, In v (f_w g) -> In v (f_w f1) \/ In v (f_w f2)).
Proof. exact try_merge_exact. Qed.
Print Assumptions C128_exact.

(** Without that: the area of the merged face differs from the sum by at most the length of an edge times
    1/2000, if only the points of the common edge are equal. *)
Theorem C128_area : forall nomerge normals f1 f2 g L, let n := normals (f_plane f1) in dot n n = 1 ->
  (3 <= length (f_w f1))%nat -> (3 <= length (f_w f2))%nat -> (forall a b, In a (f_w f1) -> In b (f_w f2) -> near a b = true -> a = b) ->
  (forall a b, In (a, b) (edges (f_w f1)) -> len (sub b a) <= L) -> try_merge nomerge normals f1 f2 = Some g ->
  Rabs (area2 n (f_w g) / 2 - (area2 n (f_w f1) / 2 + area2 n (f_w f2) / 2)) <= L * (1 / 2000).
Proof.
  intros nm ns f1 f2 g L n U L1 L2 EX LB H. pose proof (try_merge_area nm ns f1 f2 g L U L1 L2 EX LB H) as Q. fold n in Q.
  replace (area2 n (f_w g) / 2 - (area2 n (f_w f1) / 2 + area2 n (f_w f2) / 2)) with ((area2 n (f_w g) - (area2 n (f_w f1) + area2 n (f_w f2))) * / 2) by field.
  rewrite Rabs_mult, (Rabs_right (/ 2)) by lra. change cont_eps with (1 / 2000) in Q. lra.
Qed.
Print Assumptions C128_area.

(** The merging of a list of faces ends, and no face of the result merges with an earlier one of it. *)
Theorem C128_list : forall nomerge normals input, exists result,
  merge_list (try_merge nomerge normals) input [] = Some result /\
  merges (try_merge nomerge normals) input result /\
  (forall l1 a l2 b l3, result = l1 ++ a :: l2 ++ b :: l3 -> try_merge nomerge normals b a = None).
Proof.
  intros nm ns input. destruct (merge_list (try_merge nm ns) input []) as [r|] eqn:E; [|exfalso; apply (merge_list_total _ _ _ E)].
  exists r. refine (conj eq_refl (conj _ _)).
  - apply (merge_list_merges _ _ [] _ E).
  - apply (merge_list_settled _ _ [] _ ltac:(intros [|] ? ? ? ? Q; discriminate Q) E).
Qed.
Print Assumptions C128_list.

(** The faces of each kind cover after it what they covered before. *)
Theorem C128_regions : forall nomerge normals input result,
  (forall f, In f input -> strict (normals (f_plane f)) (f_w f)) -> (forall p, clean (normals p) (verts p input)) ->
  merge_list (try_merge nomerge normals) input [] = Some result ->
  (forall f, In f result -> strict (normals (f_plane f)) (f_w f)) /\
  (forall plane tex shift sky x, let kind f := f_plane f = plane /\ f_tex f = tex /\ f_shift f = shift /\ f_sky f = sky in
     (exists f, In f result /\ kind f /\ inside (normals plane) (f_w f) x) <-> (exists f, In f input /\ kind f /\ inside (normals plane) (f_w f) x)).
Proof.
  intros nm ns input result SS CC E. apply merge_list_merges in E. destruct (merges_region nm ns _ _ E SS CC) as (R1 & R2 & _).
  split; [exact R1|]. intros p t s k x kind. specialize (R2 (p, t, s, k) x).
  assert (Q : forall f, key f = (p, t, s, k) /\ inside (ns (f_plane f)) (f_w f) x <-> kind f /\ inside (ns p) (f_w f) x).
  { intros f. unfold key, kind. split.
    - intros [K I]. injection K as K1 K2 K3 K4. rewrite K1 in I. auto.
    - intros [(K1 & K2 & K3 & K4) I]. subst p. split; [congruence|exact I]. }
  split; intros (f & I & Y); apply Q in Y.
  - destruct (proj1 R2 (ex_intro _ f (conj I Y))) as (f' & I' & Y'). exists f'. split; [exact I'|apply Q, Y'].
  - destruct (proj2 R2 (ex_intro _ f (conj I Y))) as (f' & I' & Y'). exists f'. split; [exact I'|apply Q, Y'].
Qed.
Print Assumptions C128_regions.

(** * Concrete faces *)
Definition pt (x y : R) : vec := mkV x y 0.
Definition up : Z -> vec := fun _ => mkV 0 0 1.
Definition fc (tex : Z) (w : list vec) : face := mkFace 0 tex 4 false false 0 w.
Definition left_ : face := fc 7 [pt 1 1; pt 1 0; pt 0 0; pt 0 1].
Definition right_ (h : R) : face := fc 7 [pt 1 0; pt 1 1; pt 2 h; pt 2 0].
Ltac sides := unfold side, br, dot, cross, sub, pt, up; cbn [vx vy vz].

Lemma left_right h : Rabs (h - 1) <= 1 / 2000 ->
  try_merge false up left_ (right_ h) = Some (fc 7 [pt 0 0; pt 0 1; pt 2 h; pt 2 0]).
Proof.
  intros Hh. apply try_merge_00; [reflexivity|discriminate|discriminate| | |].
  - unfold match_at, at_. cbn [f_w left_ right_ fc length Nat.add Nat.modulo Nat.divmod fst snd Nat.sub nth]. rewrite !near_refl. reflexivity.
  - cbn [f_w left_ right_ fc]. unfold prev, at_. cbn [f_plane length Nat.add Nat.sub Nat.modulo Nat.divmod fst snd nth]. pose proof (off_len (up 0) (pt 0 1) (pt 1 1) (pt 2 h)) as O.
    assert (LC : len (cross (up 0) (sub (pt 1 1) (pt 0 1))) = 1).
    { unfold len. replace (dot _ _) with 1 by (sides; ring). apply sqrt_1. }
    rewrite LC, Rmult_1_r in O. cbn [f_plane fc left_]. rewrite <- O. replace (side (up 0) (pt 0 1) (pt 1 1) (pt 2 h)) with (h - 1) by (sides; ring). exact Hh.
  - cbn [f_w left_ right_ fc]. unfold prev, at_. cbn [f_plane length Nat.add Nat.sub Nat.modulo Nat.divmod fst snd nth].
    destruct (off_side (up 0) (pt 1 0) (pt 0 0)) as (k & _ & O). rewrite O. replace (side _ _ _ _) with 0 by (sides; ring). rewrite Rmult_0_r, Rabs_R0. unfold cont_eps. lra.
Qed.

Ltac in_edges H := cbn in H; repeat (destruct H as [H|H]; [injection H as <- <-|]); try contradiction.

(** Two convex faces with a common edge whose outline turns outwards at an end of it by 0.0004 units: the
    merged face covers a point that neither covers. *)
Theorem C128_exact_refuted : exists nomerge normals f1 f2 g x, let n := normals (f_plane f1) in
  strict n (f_w f1) /\ strict n (f_w f2) /\ try_merge nomerge normals f1 f2 = Some g /\
  inside n (f_w g) x /\ ~ inside n (f_w f1) x /\ ~ inside n (f_w f2) x.
Proof.
  exists false, up, left_, (right_ (1 + 4 / 10000)), (fc 7 [pt 0 0; pt 0 1; pt 2 (1 + 4 / 10000); pt 2 0]), (pt 1 (1 + 1 / 10000)).
  cbv zeta. cbn [f_plane left_ fc]. refine (conj _ (conj _ (conj _ (conj _ (conj _ _))))).
  - refine (conj _ (conj _ _)); [cbn; lia| |].
    + cbn [f_w left_ fc]. unfold pt. repeat constructor; cbn [In]; intros Q; repeat (destruct Q as [Q|Q]; [injection Q; intros; lra|]); exact Q.
    + intros a b v E I NA NB. cbn [f_w left_ fc] in E, I. in_edges E; cbn [In] in I; repeat (destruct I as [<-|I]); try contradiction; try congruence; sides; lra.
  - refine (conj _ (conj _ _)); [cbn; lia| |].
    + cbn [f_w right_ fc]. unfold pt. repeat constructor; cbn [In]; intros Q; repeat (destruct Q as [Q|Q]; [injection Q; intros; lra|]); exact Q.
    + intros a b v E I NA NB. cbn [f_w right_ fc] in E, I. in_edges E; cbn [In] in I; repeat (destruct I as [<-|I]); try contradiction; try congruence; sides; lra.
  - apply left_right. apply Rabs_le. lra.
  - intros a b E. cbn [f_w fc] in E. in_edges E; sides; lra.
  - intros H. assert (Q := H (pt 0 1) (pt 1 1)). cbn in Q. specialize (Q ltac:(tauto)). revert Q. sides. lra.
  - intros H. assert (Q := H (pt 1 1) (pt 2 (1 + 4 / 10000))). cbn in Q. specialize (Q ltac:(tauto)). revert Q. sides. lra.
Qed.
Print Assumptions C128_exact_refuted.

(** Two convex faces with a point in the middle of their common side: the merged face has one point twice. *)
Theorem C128_distinct_refuted : exists nomerge normals f1 f2 g, let n := normals (f_plane f1) in
  NoDup (f_w f1) /\ NoDup (f_w f2) /\ (forall v, In v (f_w f1) -> inside n (f_w f1) v) /\ (forall v, In v (f_w f2) -> inside n (f_w f2) v) /\
  try_merge nomerge normals f1 f2 = Some g /\ ~ NoDup (f_w g).
Proof.
  exists false, up, (fc 7 [pt 2 2; pt 2 1; pt 2 0; pt 0 0; pt 0 2]), (fc 7 [pt 2 1; pt 2 2; pt 4 2; pt 4 0; pt 2 0]), (fc 7 [pt 2 0; pt 0 0; pt 0 2; pt 4 2; pt 4 0; pt 2 0]).
  cbv zeta. cbn [f_plane fc]. refine (conj _ (conj _ (conj _ (conj _ (conj _ _))))).
  - cbn [f_w fc]. unfold pt. repeat constructor; cbn [In]; intros Q; repeat (destruct Q as [Q|Q]; [injection Q; intros; lra|]); exact Q.
  - cbn [f_w fc]. unfold pt. repeat constructor; cbn [In]; intros Q; repeat (destruct Q as [Q|Q]; [injection Q; intros; lra|]); exact Q.
  - intros v I a b E. cbn [f_w fc] in E, I. in_edges E; cbn [In] in I; repeat (destruct I as [<-|I]); try contradiction; sides; lra.
  - intros v I a b E. cbn [f_w fc] in E, I. in_edges E; cbn [In] in I; repeat (destruct I as [<-|I]); try contradiction; sides; lra.
  - apply try_merge_00; [reflexivity|discriminate|discriminate| | |].
    + unfold match_at, at_. cbn [f_w fc length Nat.add Nat.modulo Nat.divmod fst snd Nat.sub nth]. rewrite !near_refl. reflexivity.
    + cbn [f_w fc]. unfold prev, at_. cbn [f_plane length Nat.add Nat.sub Nat.modulo Nat.divmod fst snd nth].
      destruct (off_side (up 0) (pt 0 2) (pt 2 2)) as (k & _ & O). rewrite O. replace (side _ _ _ _) with 0 by (sides; ring). rewrite Rmult_0_r, Rabs_R0. unfold cont_eps. lra.
    + cbn [f_w fc]. unfold prev, at_. cbn [f_plane length Nat.add Nat.sub Nat.modulo Nat.divmod fst snd nth].
      destruct (off_side (up 0) (pt 2 1) (pt 2 0)) as (k & _ & O). rewrite O. replace (side _ _ _ _) with 0 by (sides; ring). rewrite Rmult_0_r, Rabs_R0. unfold cont_eps. lra.
  - intros D. cbn [f_w fc] in D. inversion D as [|? ? Q _]. apply Q. cbn. tauto.
Qed.
Print Assumptions C128_distinct_refuted.

(** Two squares of one texture become a rectangle of four points; a third face of another texture stays. *)
Example C128_nontrivial : let other := fc 8 [pt 2 0; pt 2 1; pt 3 1; pt 3 0] in
  merge_list (try_merge false up) [right_ 1; left_; other] [] = Some [fc 7 [pt 0 0; pt 0 1; pt 2 1; pt 2 0]; other].
Proof.
  intros other. cbn [merge_list fuel_for length Nat.mul Nat.add merge_to app].
  rewrite left_right by (rewrite Rminus_diag_eq, Rabs_R0 by reflexivity; lra).
  assert (N0 : try_merge false up other (fc 7 [pt 0 0; pt 0 1; pt 2 1; pt 2 0]) = None) by reflexivity.
  cbn [merge_to app length Nat.mul Nat.add]. rewrite N0. reflexivity.
Qed.
