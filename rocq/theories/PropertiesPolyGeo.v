(* C133: geometry of the polygons that light works on. *)
From Coq Require Import Reals List Bool Arith Lia Lra Psatz.
From Verif Require Import WindClipModel WindClipProofs PolyGeoModel PolyGeoProofs.
Import ListNotations.
Open Scope R_scope.

(** e1 and e2 are the directions of a plane. *)
Definition frame (e1 e2 : vec) : Prop := dot e1 e1 = 1 /\ dot e2 e2 = 1 /\ dot e1 e2 = 0.
(** A triangle that the code takes as one: its area and its edges reach the epsilons. *)
Definition large (t : vec * vec * vec) : Prop :=
  let '(a, b, c) := t in 1 / 10000 <= tri_area a b c /\ 1 / 20 <= distance b a /\ 1 / 20 <= distance c b /\ 1 / 20 <= distance a c.

(** The point that is found is on the boundary, on the edge of the number that is found, and none of the boundary is closer. *)
Theorem C133_closest : forall l p, l <> [] ->
  exists i q a b t, closest_on_poly l p = Some (i, q) /\ nth_error (edges l) i = Some (a, b) /\ 0 <= t <= 1 /\ q = mix t a b /\
    (forall a' b' s, In (a', b') (edges l) -> 0 <= s <= 1 -> distance p q <= distance p (mix s a' b')).
Proof.
  intros l p H. unfold closest_on_poly. destruct (closest_from 0 None (edges l) p) as [[i q]|] eqn:E.
  - apply closest_from_spec in E as [[A|[a [b [t [_ [N [T ->]]]]]]] [_ D]]; [discriminate|]. rewrite Nat.sub_0_r in N.
    exists i, (mix t a b), a, b, t. auto.
  - exfalso. eapply closest_from_some; [|exact E]. right. intro Z. apply H. apply length_zero_iff_nil. rewrite <- edges_length, Z. reflexivity.
Qed.
Print Assumptions C133_closest.

(** For no point at all the assertion fails. *)
Theorem C133_closest_empty : forall p, closest_on_poly [] p = None.
Proof. reflexivity. Qed.
Print Assumptions C133_closest_empty.

(** A point is inside when it is at most 0.05 outside of each edge that is at least 0.05 long, at any height. *)
Theorem C133_inside : forall o e1 e2 us u h, frame e1 e2 -> convex us -> let l := map (emb o e1 e2) us in
  (exists a b c, In (a, b, c) (fan l) /\ 1 / 10000 <= tri_area a b c) ->
  point_inside (edge_planes l) (add (emb o e1 e2 u) (scale h (cross e2 e1))) = true <->
  (exists a b, In (a, b) (edges2 us) /\ 1 / 20 <= distance (emb o e1 e2 b) (emb o e1 e2 a)) /\
  (forall a b, In (a, b) (edges2 us) -> 1 / 20 <= distance (emb o e1 e2 b) (emb o e1 e2 a) ->
     - (1 / 20) <= o2 a b u / distance (emb o e1 e2 b) (emb o e1 e2 a)).
Proof.
  intros o e1 e2 us u h [E11 [E22 E12]] CV l [a [b [c [I A]]]].
  pose proof (inside_frame o e1 e2 E11 E22 E12 us (a, b, c) u h (convex_fan us CV) I A) as X. unfold nn, POINT_EQUAL_EPSILON in X.
  unfold l. rewrite X. unfold distance. split; intros [G K]; (split; [exact G|]); intros x y H L; specialize (K x y H L).
  - apply (Rmult_le_reg_r (len (sub (emb o e1 e2 y) (emb o e1 e2 x)))); [lra|]. unfold Rdiv at 2. rewrite Rmult_assoc, Rinv_l by lra. lra.
  - apply (Rmult_le_compat_r (len (sub (emb o e1 e2 y) (emb o e1 e2 x)))) in K; [|lra]. unfold Rdiv at 2 in K. rewrite Rmult_assoc, Rinv_l in K by lra. lra.
Qed.
Print Assumptions C133_inside.

(** Each point of a convex polygon of long edges is inside, and a point that is outside of no edge is a point of the polygon. *)
Theorem C133_hull : forall o e1 e2 us h, frame e1 e2 -> convex us -> let l := map (emb o e1 e2) us in
  (exists a b c, In (a, b, c) (fan l) /\ 1 / 10000 <= tri_area a b c) -> (forall a b, In (a, b) (edges l) -> 1 / 20 <= distance b a) ->
  (forall p, hull (pts l) p -> point_inside (edge_planes l) (add p (scale h (cross e2 e1))) = true) /\
  (forall u, (forall pl, In pl (edge_planes l) -> 0 <= dist_to pl (add (emb o e1 e2 u) (scale h (cross e2 e1)))) -> hull (pts l) (emb o e1 e2 u)).
Proof.
  intros o e1 e2 us h [E11 [E22 E12]] CV l [a [b [c [I A]]]] LE.
  assert (L3 : (3 <= length us)%nat) by (destruct us as [|x [|y [|z us]]]; [destruct I..|simpl; lia]).
  assert (LE2 : forall a b, In (a, b) (edges2 us) -> 1 / 20 <= distance (emb o e1 e2 b) (emb o e1 e2 a)).
  { intros x y H. apply LE. unfold l. rewrite edges_map2. apply in_map_iff. exists (x, y). auto. }
  pose proof (convex_fan us CV) as FL.
  assert (NE : exists a b, In (a, b) (edges2 us)) by (destruct us as [|x [|y us]]; [simpl in L3; lia..|exists x, y; left; reflexivity]).
  split.
  - intros p H. destruct (hull_frame o e1 e2 us p H) as [u [-> G]].
    apply (inside_frame o e1 e2 E11 E22 E12 us (a, b, c) u h FL I A). split.
    + destruct NE as [x [y X]]. exists x, y. split; [exact X|]. apply (LE2 _ _ X).
    + intros x y X L. assert (0 <= o2 x y u) by (apply G; intros v V; apply (convex_edges us v CV L3 V _ _ X)).
      unfold POINT_EQUAL_EPSILON in *. lra.
  - intros u H. apply edges_hull; try assumption. intros x y X.
    destruct (edge_plane_of (nn e1 e2) (emb o e1 e2 x) (emb o e1 e2 y)) as [pl|] eqn:E.
    + assert (Y : In pl (edge_planes l)).
      { unfold l. rewrite (edge_planes_frame o e1 e2 E11 E22 E12 us (a, b, c) FL I A). apply in_some_of, in_map_iff. exists (x, y). auto. }
      specialize (H _ Y). destruct (edge_dist o e1 e2 E11 E22 E12 x y u h pl E) as [Q LP]. unfold nn in Q. rewrite Q in H.
      apply (Rmult_le_compat_r (len (sub (emb o e1 e2 y) (emb o e1 e2 x)))) in H; [|lra]. unfold Rdiv in H. rewrite Rmult_assoc, Rinv_l in H by lra. lra.
    + specialize (LE2 _ _ X). unfold edge_plane_of in E. unfold distance in LE2. rewrite (proj2 (ltb_f _ _)) in E by exact LE2. discriminate.
Qed.
Print Assumptions C133_hull.

(** On each point of a convex polygon of large triangles the normal is interpolated: with weights of sum 1 that give the
    point, and the normals of the same three corners.  A weight is negative by at most what 0.05 units make. *)
Theorem C133_interpolate : forall o e1 e2 us l h p, frame e1 e2 -> convex us -> (3 <= length us)%nat -> map fst l = map (emb o e1 e2) us ->
  (forall t, In t (fan (map fst l)) -> large t) -> hull (pts (map fst l)) p ->
  exists p0 n0 p1 n1 p2 n2 w0 w1 w2, In ((p0, n0), (p1, n1), (p2, n2)) (fan l) /\
    interpolate l (add p (scale h (cross e2 e1))) = Some (add (add (scale w0 n0) (scale w1 n1)) (scale w2 n2)) /\
    p = add (add (scale w0 p0) (scale w1 p1)) (scale w2 p2) /\ w0 + w1 + w2 = 1 /\
    - (1 / 20) * distance p2 p1 <= w0 * (2 * tri_area p0 p1 p2) /\ - (1 / 20) * distance p0 p2 <= w1 * (2 * tri_area p0 p1 p2) /\
    - (1 / 20) * distance p1 p0 <= w2 * (2 * tri_area p0 p1 p2).
Proof.
  intros o e1 e2 us l h p [E11 [E22 E12]] CV L3 M LG H. pose proof (convex_fan us CV) as FL.
  rewrite M in H. destruct (hull_frame o e1 e2 us p H) as [u [-> G]].
  assert (GE : forall a b, In (a, b) (edges2 us) -> 0 <= o2 a b u) by (intros x y X; apply G; intros v V; apply (convex_edges us v CV L3 V _ _ X)).
  destruct (fan_tri us u L3 GE) as [a [b [c [I [H1 [H2 H3]]]]]].
  assert (I2 : In (emb o e1 e2 a, emb o e1 e2 b, emb o e1 e2 c) (fan (map fst l))) by (rewrite M, fan_map; apply in_map_iff; exists (a, b, c); auto).
  assert (ST : forall x y z, In (x, y, z) (fan (map fst l)) -> sturdy (x, y, z)) by (intros; apply LG; assumption).
  pose proof (FL _ _ _ I) as K. pose proof (ST _ _ _ I2) as S0.
  pose proof (tri_inside o e1 e2 E11 E22 E12 a b c u h K S0) as [TL TI]. unfold nn in TI.
  assert (IN : point_inside (edge_planes [emb o e1 e2 a; emb o e1 e2 b; emb o e1 e2 c]) (add (emb o e1 e2 u) (scale h (cross e2 e1))) = true).
  { apply TI. unfold POINT_EQUAL_EPSILON, distance. pose proof (len_pos (sub (emb o e1 e2 b) (emb o e1 e2 a))). pose proof (len_pos (sub (emb o e1 e2 c) (emb o e1 e2 b))).
    pose proof (len_pos (sub (emb o e1 e2 a) (emb o e1 e2 c))). repeat apply conj; lra. }
  pose proof (bary_frame o e1 e2 E11 E22 E12 a b c u h K) as BF. unfold nn in BF.
  apply fan_split in I2 as [[q0 m0] [[q1 m1] [[q2 m2] [I3 E]]]]. cbn [fst] in E. injection E as E0 E1 E2.
  rewrite E0, E1, E2 in *. unfold interpolate.
  destruct (interp_fan (fan l) (add (emb o e1 e2 u) (scale h (cross e2 e1)))) as [n|] eqn:EQ;
    [|exfalso; exact (interp_some _ _ _ _ _ _ _ _ _ I3 TL IN BF EQ)].
  apply interp_first in EQ as [pre [p0 [n0 [p1 [n1 [p2 [n2 [post [w [EF [_ [PI [BA ->]]]]]]]]]]]]].
  assert (IT : In ((p0, n0), (p1, n1), (p2, n2)) (fan l)) by (rewrite EF; apply in_or_app; right; left; reflexivity).
  assert (IT2 : In (p0, p1, p2) (fan (map fst l))) by (rewrite fan_map; apply in_map_iff; exists ((p0, n0), (p1, n1), (p2, n2)); auto).
  pose proof (ST _ _ _ IT2) as S1. rewrite M in IT2. apply in_fan_map in IT2 as [x [y [z [I4 E]]]]. injection E as -> -> ->.
  pose proof (FL _ _ _ I4) as K4. pose proof (bary_frame o e1 e2 E11 E22 E12 x y z u h K4) as BF4. unfold nn in BF4. rewrite BF4 in BA. injection BA as <-.
  apply (tri_inside o e1 e2 E11 E22 E12 x y z u h K4 S1) in PI as [P1 [P2 P3]].
  destruct (tri_weights x y z u K4) as [EU W].
  exists (emb o e1 e2 x), n0, (emb o e1 e2 y), n1, (emb o e1 e2 z), n2, (o2 y z u / o2 x y z), (o2 z x u / o2 x y z), (o2 x y u / o2 x y z).
  rewrite (area_emb o e1 e2 E11 E22 E12 x y z) by lra. unfold POINT_EQUAL_EPSILON in *.
  assert (C : forall k, k / o2 x y z * (2 * (1 / 2 * o2 x y z)) = k) by (intro k; field; lra). rewrite !C.
  refine (conj IT (conj eq_refl (conj _ (conj W (conj _ (conj _ _)))))); [|lra|lra|lra].
  change (emb o e1 e2 u = bary_to (o2 y z u / o2 x y z, o2 z x u / o2 x y z, o2 x y u / o2 x y z) (emb o e1 e2 x) (emb o e1 e2 y) (emb o e1 e2 z)).
  rewrite emb_bary by assumption. rewrite <- EU. reflexivity.
Qed.
Print Assumptions C133_interpolate.

(** On an edge of the triangle that the point is found in the normal depends on the ends of the edge alone: faces that
    share the edge and the normals of its ends get the same normal there. *)
Theorem C133_seam : forall o e1 e2 us l pre p0 n0 p1 n1 p2 n2 post x nx y ny s h, frame e1 e2 -> convex us -> map fst l = map (emb o e1 e2) us ->
  fan l = pre ++ ((p0, n0), (p1, n1), (p2, n2)) :: post -> large (p0, p1, p2) ->
  In ((x, nx), (y, ny)) [((p0, n0), (p1, n1)); ((p1, n1), (p2, n2)); ((p2, n2), (p0, n0))] -> 0 <= s <= 1 ->
  (forall q0 m0 q1 m1 q2 m2, In ((q0, m0), (q1, m1), (q2, m2)) pre ->
     point_inside (edge_planes [q0; q1; q2]) (add (mix s x y) (scale h (cross e2 e1))) = false) ->
  interpolate l (add (mix s x y) (scale h (cross e2 e1))) = Some (mix s nx ny).
Proof.
  intros o e1 e2 us l pre p0 n0 p1 n1 p2 n2 post x nx y ny s h [E11 [E22 E12]] CV M EF LG IE SS EX.
  assert (IT : In (p0, p1, p2) (fan (map fst l))) by (rewrite fan_map, EF; apply in_map_iff; exists ((p0, n0), (p1, n1), (p2, n2)); split; [reflexivity|apply in_or_app; right; left; reflexivity]).
  rewrite M in IT. apply in_fan_map in IT as [a [b [c [I4 E]]]]. injection E as -> -> ->. pose proof (convex_fan us CV _ _ _ I4) as K.
  assert (G : exists u, mix s x y = emb o e1 e2 u /\ 0 <= o2 a b u /\ 0 <= o2 b c u /\ 0 <= o2 c a u /\
     bary_to (o2 b c u / o2 a b c, o2 c a u / o2 a b c, o2 a b u / o2 a b c) n0 n1 n2 = mix s nx ny).
  { pose proof (o2_cyc a b c) as Q1. pose proof (o2_cyc b c a) as Q2.
    destruct IE as [IE|[IE|[IE|[]]]]; injection IE as <- <- <- <-.
    - exists (mix2 s a b). rewrite emb_mix, !o2_mix3, o2_aba, o2_abb, o2_abb, o2_aba, <- Q1, <- Q2, <- Q1.
      refine (conj eq_refl (conj _ (conj _ (conj _ _)))); [lra|nra|nra|]. destruct n0, n1, n2. vec. f_equal; field; lra.
    - exists (mix2 s b c). rewrite emb_mix, !o2_mix3, !o2_aba, !o2_abb, <- Q2, <- Q1.
      refine (conj eq_refl (conj _ (conj _ (conj _ _)))); [nra|lra|nra|]. destruct n0, n1, n2. vec. f_equal; field; lra.
    - exists (mix2 s c a). rewrite emb_mix, !o2_mix3, !o2_aba, !o2_abb, <- Q1.
      refine (conj eq_refl (conj _ (conj _ (conj _ _)))); [nra|nra|lra|]. destruct n0, n1, n2. vec. f_equal; field; lra. }
  destruct G as [u [EU [H1 [H2 [H3 EB]]]]]. rewrite EU in *. rewrite <- EB. unfold interpolate. rewrite EF.
  pose proof (tri_inside o e1 e2 E11 E22 E12 a b c u h K LG) as [TL TI]. unfold nn in TI. apply interp_reach.
  - intros q0 m0 q1 m1 q2 m2 Q. right. apply (EX q0 m0 q1 m1 q2 m2 Q).
  - exact TL.
  - apply TI. unfold POINT_EQUAL_EPSILON, distance. pose proof (len_pos (sub (emb o e1 e2 b) (emb o e1 e2 a))). pose proof (len_pos (sub (emb o e1 e2 c) (emb o e1 e2 b))).
    pose proof (len_pos (sub (emb o e1 e2 a) (emb o e1 e2 c))). repeat apply conj; lra.
  - apply (bary_frame o e1 e2 E11 E22 E12 a b c u h K).
Qed.
Print Assumptions C133_seam.

(** Edges of one line overlap when they have a point in common; edges off the line do not. *)
Theorem C133_overlap : forall eps p0 p1, 0 <= eps -> p0 <> p1 ->
  (forall s t, lines_overlap eps p0 p1 (mix s p0 p1) (mix t p0 p1) = true <->
     exists a b, 0 <= a <= 1 /\ 0 <= b <= 1 /\ mix a p0 p1 = mix b (mix s p0 p1) (mix t p0 p1)) /\
  (forall q0 q1, (forall t, eps < distance q0 (mix t p0 p1)) \/ (forall t, eps < distance q1 (mix t p0 p1)) -> lines_overlap eps p0 p1 q0 q1 = false).
Proof.
  intros eps p0 p1 EP D.
  assert (D1 : sub p1 p0 <> zero) by (intro E; apply D; symmetry; apply sub_zero; exact E).
  assert (DP : 0 < dot (sub p1 p0) (sub p1 p0)) by (rewrite <- len_sq; pose proof (len_gt _ D1); nra).
  assert (F : forall s, fraction p0 p1 (mix s p0 p1) = s).
  { intro s. unfold fraction. rewrite (proj2 (is0_f _)) by lra.
    replace (dot (sub (mix s p0 p1) p0) (sub p1 p0)) with (s * dot (sub p1 p0) (sub p1 p0)) by (vec; ring). field. lra. }
  assert (Z : forall s, dist_to_line p0 p1 (mix s p0 p1) = 0).
  { intro s. unfold dist_to_line. rewrite line_mix, F by exact D. apply len_0, sub_zero. reflexivity. }
  split.
  - intros s t. unfold lines_overlap. rewrite !Z, !F. rewrite (proj2 (ltb_f _ _)) by lra.
    assert (MM : forall b, mix b (mix s p0 p1) (mix t p0 p1) = mix (s + b * (t - s)) p0 p1) by (intro b; destruct p0, p1; vec; f_equal; ring).
    assert (INJ : forall x y, mix x p0 p1 = mix y p0 p1 -> x = y) by (intros x y E; rewrite <- (F x), E; apply F).
    split.
    + intro E. destruct (ltb s 0 && ltb t 0) eqn:L1; [discriminate|]. destruct (ltb 1 s && ltb 1 t) eqn:L2; [discriminate|].
      apply andb_false_iff in L1. apply andb_false_iff in L2. rewrite !ltb_f in L1, L2.
      assert (G : exists b, 0 <= b <= 1 /\ 0 <= s + b * (t - s) <= 1).
      { destruct (Rlt_dec s 0) as [S0|S0].
        - destruct (Rle_dec t 1) as [T1|T1]; [exists 1; lra|]. exists (- s / (t - s)).
          assert (0 < t - s) by lra. replace (s + - s / (t - s) * (t - s)) with 0 by (field; lra). split; [|lra]. split.
          + apply Rmult_le_pos; [lra|left; apply Rinv_0_lt_compat; lra].
          + apply (Rmult_le_reg_r (t - s)); [lra|]. unfold Rdiv. rewrite Rmult_assoc, Rinv_l by lra. lra.
        - destruct (Rle_dec s 1) as [S1|S1]; [exists 0; lra|]. destruct (Rle_dec 0 t) as [T0|T0]; [exists 1; lra|].
          exists (s / (s - t)). assert (0 < s - t) by lra. replace (s + s / (s - t) * (t - s)) with 0 by (field; lra). split; [|lra]. split.
          + apply Rmult_le_pos; [lra|left; apply Rinv_0_lt_compat; lra].
          + apply (Rmult_le_reg_r (s - t)); [lra|]. unfold Rdiv. rewrite Rmult_assoc, Rinv_l by lra. lra. }
      destruct G as [b [B1 B2]]. exists (s + b * (t - s)), b. rewrite MM. auto.
    + intros [a [b [A [B E]]]]. rewrite MM in E. apply INJ in E.
      destruct (ltb s 0 && ltb t 0) eqn:L1; [apply andb_true_iff in L1; rewrite !ltb_t in L1; destruct (Rle_dec s t); [assert (0 <= (1 - b) * (t - s)) by (apply Rmult_le_pos; lra); lra|assert (0 <= b * (s - t)) by (apply Rmult_le_pos; lra); lra]|].
      destruct (ltb 1 s && ltb 1 t) eqn:L2; [apply andb_true_iff in L2; rewrite !ltb_t in L2; destruct (Rle_dec s t); [assert (0 <= b * (t - s)) by (apply Rmult_le_pos; lra); lra|assert (0 <= (1 - b) * (s - t)) by (apply Rmult_le_pos; lra); lra]|]. reflexivity.
  - intros q0 q1 H. unfold lines_overlap, dist_to_line. rewrite !line_mix by exact D. destruct H as [H|H].
    + rewrite (proj2 (ltb_t _ _) (H _)). reflexivity.
    + destruct (ltb eps (distance q0 _)); [reflexivity|]. rewrite (proj2 (ltb_t _ _) (H _)). reflexivity.
Qed.
Print Assumptions C133_overlap.

(** "if not colinear, returns false": not for an edge without length, which overlaps every other edge. *)
Theorem C133_overlap_point_refuted : forall eps p q0 q1, 0 <= eps -> lines_overlap eps p p q0 q1 = true.
Proof.
  intros eps p q0 q1 E. assert (Z : sub p p = zero) by (apply sub_zero; reflexivity).
  assert (L0 : len zero = 0) by (apply len_0; reflexivity).
  assert (D : forall q, dist_to_line p p q = 0).
  { intro q. unfold dist_to_line, closest_on_line. rewrite Z. unfold normalize. rewrite L0. destruct (Req_EM_T 0 0) as [_|X]; [|contradiction].
    rewrite (proj2 (empty_exact_t zero) eq_refl). apply len_0, sub_zero. reflexivity. }
  assert (F : forall q, fraction p p q = 0).
  { intro q. unfold fraction. rewrite Z. rewrite (proj2 (is0_t _)); [reflexivity|]. unfold dot, zero. simpl. ring. }
  unfold lines_overlap. rewrite !D, !F. rewrite (proj2 (ltb_f eps 0)) by lra. rewrite (proj2 (ltb_f 0 0)) by lra. rewrite (proj2 (ltb_f 1 0)) by lra. reflexivity.
Qed.
Print Assumptions C133_overlap_point_refuted.

(** The area and the centroid of a convex polygon do not depend on the point that is the first; the area is the one of
    the shoelace formula. *)
Theorem C133_area : forall o e1 e2 us, frame e1 e2 -> convex us -> (3 <= length us)%nat -> let l := map (emb o e1 e2) us in
  poly_area (rot l) = poly_area l /\ poly_centroid (rot l) = poly_centroid l /\ 0 < poly_area l /\
  poly_area l = 1 / 2 * fold_right (fun e acc => (fst (fst e) * snd (snd e) - snd (fst e) * fst (snd e)) + acc) 0 (edges2 us).
Proof.
  intros o e1 e2 us [E11 [E22 E12]] CV L3 l. pose proof (convex_fan us CV) as FL. pose proof (convex_fan _ (convex_rot us CV)) as FR.
  assert (RL : rot l = map (emb o e1 e2) (rot us)) by (unfold l, rot; destruct us; [reflexivity|cbn [map]; rewrite map_app; reflexivity]).
  assert (AR : poly_area (rot l) = poly_area l).
  { rewrite RL. unfold l. rewrite (area_frame o e1 e2 E11 E22 E12 _ FR), (area_frame o e1 e2 E11 E22 E12 _ FL), (fan_rot c2 us c2_anti). reflexivity. }
  assert (AM : poly_moment (rot l) = poly_moment l).
  { rewrite RL. unfold l. rewrite (moment_frame o e1 e2 E11 E22 E12 _ FR), (moment_frame o e1 e2 E11 E22 E12 _ FL),
      (fan_rot c2 us c2_anti), (fan_rot m2x us m2x_anti), (fan_rot m2y us m2y_anti). reflexivity. }
  refine (conj AR (conj _ (conj _ _))).
  - assert (G : forall k, (3 <= length k)%nat -> poly_centroid k = if is0 (poly_area k) then None else Some (scale (/ poly_area k) (poly_moment k))).
    { intros [|x [|y [|z k]]]; simpl length; try lia. reflexivity. }
    rewrite !G, AR, AM; [reflexivity| |].
    + unfold l. rewrite map_length. exact L3.
    + rewrite RL, map_length. destruct us as [|x us]; [exact L3|]. unfold rot. rewrite app_length. cbn [length] in *. lia.
  - apply (area_pos o e1 e2 E11 E22 E12 us CV L3).
  - unfold l. rewrite (area_frame o e1 e2 E11 E22 E12 _ FL), (fan_sum c2 c2_anti).
    destruct us as [|x [|y [|z us]]]; simpl length in L3; try lia. rewrite Rminus_0_r. reflexivity.
Qed.
Print Assumptions C133_area.

(** The centroid is a point of the convex hull; it exists for an area above 0 ... *)
Theorem C133_centroid : forall l, (3 <= length l)%nat -> 0 < poly_area l -> exists c, poly_centroid l = Some c /\ hull (pts l) c.
Proof.
  intros l L A. destruct l as [|x [|y [|z r]]]; simpl length in L; try lia. exists (scale (/ poly_area (x :: y :: z :: r)) (poly_moment (x :: y :: z :: r))).
  unfold poly_centroid. rewrite (proj2 (is0_f _)) by lra. split; [reflexivity|].
  destruct (moment_hull (pts (x :: y :: z :: r)) (fan (x :: y :: z :: r))) as [[E _]|[_ H]].
  - intros a b c H. apply fan_in in H. exact H.
  - unfold poly_area in A. lra.
  - exact H.
Qed.
Print Assumptions C133_centroid.

(** ... and is not a number for three points of a line. *)
Theorem C133_flat_refuted : forall a b s, poly_centroid [a; b; mix s a b] = None.
Proof.
  intros a b s. unfold poly_centroid. rewrite (proj2 (is0_t _)); [reflexivity|]. unfold poly_area. cbn [fan fan_from fold_right tri_area'].
  unfold tri_area. rewrite (proj2 (len_0 _)); [ring|]. destruct a, b. vec. f_equal; ring.
Qed.
Print Assumptions C133_flat_refuted.

(** The centre of a polygon of one or two points is that point or the middle between them. *)
Theorem C133_short : forall a b, poly_centroid [] = None /\ poly_centroid [a] = Some a /\
  exists c, poly_centroid [a; b] = Some c /\ sub c a = sub b c.
Proof.
  intros a b. split; [reflexivity|]. split; [reflexivity|]. eexists. split; [reflexivity|]. destruct a, b. vec. f_equal; field.
Qed.
Print Assumptions C133_short.

(** The two tangents of a normal are perpendicular to it, and form a right-handed system with it ... *)
Theorem C133_tangents : forall n t b, n <> mkV 0 0 0 -> tangents n = (t, b) -> dot t n = 0 /\ dot b n = 0 /\ 0 < dot (cross t b) n.
Proof. exact tangents_spec. Qed.
Print Assumptions C133_tangents.

(** ... but are not perpendicular to each other. *)
Theorem C133_perpendicular_refuted : exists n t b, n <> mkV 0 0 0 /\ tangents n = (t, b) /\ dot t b <> 0.
Proof.
  exists (mkV 1 1 2), (mkV 0 2 (-1)), (mkV (-2) 0 1). split; [intro E; injection E; lra|]. split; [|unfold dot; simpl; lra].
  unfold tangents, axis_of. cbn [vx vy vz]. rewrite (Rabs_right 1) by lra. rewrite (Rabs_right 2) by lra.
  rewrite (proj2 (ltb_t 0 1)) by lra. rewrite (proj2 (ltb_f 1 1)) by lra. rewrite (proj2 (ltb_t 1 2)) by lra.
  change ((2 + 1) mod 3) with 0%nat. change ((2 + 2) mod 3) with 1%nat. cbn [axis_vec].
  rewrite (proj2 (ltb_f _ _)); [|unfold dot, cross; simpl; lra].
  unfold cross. simpl. f_equal; f_equal; ring.
Qed.
Print Assumptions C133_perpendicular_refuted.

(** A point outside of a face: the edge that is chosen is one that the point is behind; when the point is between the
    ends of any edge that it is behind, it is between the ends of the chosen one ... *)
Theorem C133_edge : forall n l p, (exists e, In e (edges l) /\ behind n p e) ->
  exists i a b, option_map fst (choose_edge n l p) = Some i /\ nth_error (edges l) i = Some (a, b) /\ behind n p (a, b) /\
    ((exists a' b', In (a', b') (edges l) /\ behind n p (a', b') /\ 0 <= fraction a' b' p <= 1) -> 0 <= fraction a b p <= 1).
Proof.
  intros n l p H. unfold choose_edge. destruct (choose_from 0 None n (edges l) p) as [[i d]|] eqn:E; [|exfalso; eapply choose_some; [|exact E]; right; exact H].
  apply choose_spec in E as [[A|[a [b [_ [N [B ->]]]]]] [_ D]]; [discriminate|]. rewrite Nat.sub_0_r in N. exists i, a, b.
  refine (conj eq_refl (conj N (conj B _))). intros [a' [b' [I [B' F]]]]. specialize (D _ _ I B').
  assert (Z : edge_past a' b' p = 0) by (unfold edge_past; rewrite (proj2 (ltb_f _ 0)) by lra; rewrite (proj2 (ltb_f 1 _)) by lra; reflexivity).
  rewrite Z in D. destruct B as [pl [EP _]]. apply edge_plane_some in EP. unfold POINT_EQUAL_EPSILON in EP. simpl in EP. unfold edge_past in D.
  destruct (ltb (fraction a b p) 0) eqn:L0.
  - apply ltb_t in L0. rewrite Rabs_left in D by exact L0. nra.
  - apply ltb_f in L0. destruct (ltb 1 (fraction a b p)) eqn:L1; [apply ltb_t in L1; nra|apply ltb_f in L1; lra].
Qed.
Print Assumptions C133_edge.

(** ... but past the corners it is not the one "that the point is least past the endpoints of": beyond the second end
    the length of the edge is counted too. *)
Definition excess (a b p : vec) : R := Rmax 0 (Rmax (- fraction a b p) (fraction a b p - 1)) * len (sub b a).
Lemma len_axis x y k : (x = 0 /\ (y = k \/ y = - k) \/ y = 0 /\ (x = k \/ x = - k)) -> 0 <= k -> len (mkV x y 0) = k.
Proof. intros H K. apply len_eq; [exact K|]. unfold dot. simpl. destruct H as [[-> [->| ->]]|[-> [->| ->]]]; ring. Qed.
Theorem C133_edge_refuted : exists n l p i d a b a' b', choose_edge n l p = Some (i, d) /\ nth_error (edges l) i = Some (a, b) /\
  In (a', b') (edges l) /\ behind n p (a', b') /\ excess a' b' p < excess a b p.
Proof.
  pose (v := fun x y : R => mkV x y 0).
  exists (mkV 0 0 (-1)), [v 0 0; v 10 0; v 10 10; v 0 10], (v 11 (-5)), 1%nat, 5, (v 10 0), (v 10 10), (v 0 0), (v 10 0). unfold v. clear v.
  assert (S1 : forall x y x' y', sub (mkV x y 0) (mkV x' y' 0) = mkV (x - x') (y - y') 0) by (intros; unfold sub; simpl; f_equal; ring).
  assert (L1 : len (mkV (10 - 0) (0 - 0) 0) = 10) by (apply len_axis; lra).
  assert (L2 : len (mkV (10 - 10) (10 - 0) 0) = 10) by (apply len_axis; lra).
  assert (L3 : len (mkV (0 - 10) (10 - 10) 0) = 10) by (apply len_axis; lra).
  assert (L4 : len (mkV (0 - 0) (0 - 10) 0) = 10) by (apply len_axis; lra).
  assert (F1 : fraction (mkV 0 0 0) (mkV 10 0 0) (mkV 11 (-5) 0) = 11 / 10).
  { unfold fraction. rewrite (proj2 (is0_f _)); unfold dot, sub; simpl; [field|lra]. }
  assert (F2 : fraction (mkV 10 0 0) (mkV 10 10 0) (mkV 11 (-5) 0) = - (1 / 2)).
  { unfold fraction. rewrite (proj2 (is0_f _)); unfold dot, sub; simpl; [field|lra]. }
  assert (EP : forall x0 y0 x1 y1, len (mkV (x1 - x0) (y1 - y0) 0) = 10 -> exists pl, edge_plane_of (mkV 0 0 (-1)) (mkV x0 y0 0) (mkV x1 y1 0) = Some pl /\
     dist_to pl (mkV 11 (-5) 0) = / 10 * ((x1 - x0) * (-5 - y0) - (y1 - y0) * (11 - x0))).
  { intros x0 y0 x1 y1 L. unfold edge_plane_of. rewrite S1, L. rewrite (proj2 (ltb_f _ _)) by (unfold POINT_EQUAL_EPSILON; lra).
    eexists. split; [reflexivity|]. unfold dist_to, dot, cross, scale. simpl. ring. }
  destruct (EP 0 0 10 0 L1) as [q1 [Q1 D1]]. destruct (EP 10 0 10 10 L2) as [q2 [Q2 D2]]. destruct (EP 10 10 0 10 L3) as [q3 [Q3 D3]]. destruct (EP 0 10 0 0 L4) as [q4 [Q4 D4]].
  assert (P1 : edge_past (mkV 0 0 0) (mkV 10 0 0) (mkV 11 (-5) 0) = 11).
  { unfold edge_past. rewrite F1, S1, L1. rewrite (proj2 (ltb_f _ _)) by lra. rewrite (proj2 (ltb_t _ _)) by lra. lra. }
  assert (P2 : edge_past (mkV 10 0 0) (mkV 10 10 0) (mkV 11 (-5) 0) = 5).
  { unfold edge_past. rewrite F2, S1, L2. rewrite (proj2 (ltb_t _ _)) by lra. rewrite Rabs_left by lra. lra. }
  refine (conj _ (conj eq_refl (conj (or_introl eq_refl) (conj _ _)))).
  - unfold choose_edge, edges. cbn [combine app choose_from]. rewrite Q1, Q2, Q3, Q4, P1, P2.
    rewrite D1, D2, D3, D4. unfold POINT_EQUAL_EPSILON.
    rewrite (proj2 (ltb_t (/ 10 * ((10 - 0) * (-5 - 0) - (0 - 0) * (11 - 0))) _)) by lra.
    rewrite (proj2 (ltb_t (/ 10 * ((10 - 10) * (-5 - 0) - (10 - 0) * (11 - 10))) _)) by lra.
    rewrite (proj2 (ltb_f (/ 10 * ((0 - 10) * (-5 - 10) - (10 - 10) * (11 - 10))) _)) by lra.
    rewrite (proj2 (ltb_f (/ 10 * ((0 - 0) * (-5 - 10) - (0 - 10) * (11 - 0))) _)) by lra.
    rewrite (proj2 (ltb_t 5 11)) by lra. reflexivity.
  - exists q1. split; [exact Q1|]. rewrite D1. unfold POINT_EQUAL_EPSILON. lra.
  - unfold excess. rewrite F1, F2, !S1, L1, L2. rewrite (Rmax_right (- (11 / 10))) by lra. rewrite (Rmax_right 0) by lra.
    rewrite (Rmax_left (- - (1 / 2))) by lra. rewrite (Rmax_right 0) by lra. lra.
Qed.
Print Assumptions C133_edge_refuted.

(** The frame of the x and y axes. *)
Definition ex : vec := mkV 1 0 0.
Definition ey : vec := mkV 0 1 0.
Lemma frame_xy : frame ex ey.
Proof. unfold frame, dot, ex, ey. simpl. repeat apply conj; ring. Qed.
Definition at2 : pt2 -> vec := emb (mkV 0 0 0) ex ey.
Lemma at2_eq x y : at2 (x, y) = mkV x y 0.
Proof. unfold at2, emb, add, scale, ex, ey. simpl. f_equal; ring. Qed.
Lemma dist_ge a b k : 0 <= k -> k * k <= sq2 a b -> k <= distance (at2 b) (at2 a).
Proof.
  intros K H. unfold distance, at2. destruct frame_xy as [E11 [E22 E12]]. rewrite <- (dot_emb (mkV 0 0 0) ex ey E11 E22 E12) in H. rewrite <- len_sq in H.
  pose proof (len_pos (sub (emb (mkV 0 0 0) ex ey b) (emb (mkV 0 0 0) ex ey a))). nra.
Qed.
Lemma dist_lt a b k : 0 < k -> sq2 a b < k * k -> distance (at2 b) (at2 a) < k.
Proof.
  intros K H. unfold distance, at2. destruct frame_xy as [E11 [E22 E12]]. rewrite <- (dot_emb (mkV 0 0 0) ex ey E11 E22 E12) in H. rewrite <- len_sq in H.
  pose proof (len_pos (sub (emb (mkV 0 0 0) ex ey b) (emb (mkV 0 0 0) ex ey a))). nra.
Qed.

(** "We already know the point is in the face, so this should always succeed": not for a triangle with an edge shorter
    than 0.05.  No point of it gets a normal, and points far beyond the short edge are inside of it. *)
Theorem C133_short_refuted : exists a b c far, 1 / 10000 <= tri_area a b c /\
  (forall na nb nc p, interpolate [(a, na); (b, nb); (c, nc)] p = None) /\
  point_inside (edge_planes [a; b; c]) a = true /\ point_inside (edge_planes [a; b; c]) far = true /\
  (forall p, hull (pts [a; b; c]) p -> 1000 <= distance p far).
Proof.
  destruct frame_xy as [E11 [E22 E12]]. pose (a := (0, 0) : pt2). pose (b := (10, 0) : pt2). pose (c := (0, 1 / 25) : pt2).
  assert (K : 0 < o2 a b c) by (unfold o2, a, b, c; simpl; lra).
  assert (A : ZERO_TRI_AREA_EPSILON <= tri_area' (at2 a, at2 b, at2 c)).
  { unfold at2, tri_area'. rewrite (area_emb _ _ _ E11 E22 E12) by lra. unfold ZERO_TRI_AREA_EPSILON, o2, a, b, c. simpl. lra. }
  assert (F : fan_left [a; b; c]) by (intros x y z [X|[]]; injection X as <- <- <-; exact K).
  assert (I : In (at2 a, at2 b, at2 c) (fan (map at2 [a; b; c]))) by (left; reflexivity).
  assert (L1 : 1 / 20 <= distance (at2 b) (at2 a)) by (apply dist_ge; unfold sq2, a, b; simpl; lra).
  assert (L2 : 1 / 20 <= distance (at2 c) (at2 b)) by (apply dist_ge; unfold sq2, c, b; simpl; lra).
  assert (L3 : distance (at2 a) (at2 c) < 1 / 20) by (apply dist_lt; unfold sq2, c, a; simpl; lra).
  exists (at2 a), (at2 b), (at2 c), (at2 (-1000, 0)). refine (conj A (conj _ (conj _ (conj _ _)))).
  - intros na nb nc p. unfold interpolate. cbn [fan fan_from interp_fan].
    assert (L : length (edge_planes [at2 a; at2 b; at2 c]) = 2%nat).
    { change [at2 a; at2 b; at2 c] with (map at2 [a; b; c]). unfold at2 in *. rewrite (edge_planes_frame _ _ _ E11 E22 E12 [a; b; c] _ F I A).
      unfold edges2. cbn [combine app map fst snd]. unfold edge_plane_of. unfold distance in *.
      rewrite (proj2 (ltb_f _ _)) by exact L1. rewrite (proj2 (ltb_f _ _)) by exact L2. rewrite (proj2 (ltb_t _ _)) by exact L3. reflexivity. }
    rewrite L. reflexivity.
  - change [at2 a; at2 b; at2 c] with (map at2 [a; b; c]). replace (at2 a) with (add (at2 a) (scale 0 (nn ex ey))) by (unfold a; rewrite at2_eq; unfold add, scale, nn, cross, ex, ey; simpl; f_equal; ring).
    unfold at2 in *. apply (inside_frame _ _ _ E11 E22 E12 [a; b; c] _ a 0 F I A). split; [exists a, b; split; [left; reflexivity|exact L1]|].
    assert (CV : convex [a; b; c]). { intros i j k H1 H2 H3. simpl in H3. assert (i = 0%nat) by lia. assert (j = 1%nat) by lia. assert (k = 2%nat) by lia. subst. exact K. }
    intros x y X L. assert (0 <= o2 x y a) by (apply (convex_edges [a; b; c] a CV); [simpl; lia|left; reflexivity|exact X]).
    unfold POINT_EQUAL_EPSILON in *. lra.
  - change [at2 a; at2 b; at2 c] with (map at2 [a; b; c]).
    replace (at2 (-1000, 0)) with (add (at2 (-1000, 0)) (scale 0 (nn ex ey))) by (rewrite at2_eq; unfold add, scale, nn, cross, ex, ey; simpl; f_equal; ring).
    unfold at2 in *. apply (inside_frame _ _ _ E11 E22 E12 [a; b; c] _ (-1000, 0) 0 F I A). split; [exists a, b; split; [left; reflexivity|exact L1]|].
    unfold POINT_EQUAL_EPSILON, distance in *.
    intros x y [X|[X|[X|[]]]] L; injection X as <- <-.
    + match goal with |- _ <= ?z => assert (0 <= z) by (unfold o2, a, b; simpl; lra) end. lra.
    + match goal with |- _ <= ?z => assert (0 <= z) by (unfold o2, c, b; simpl; lra) end. lra.
    + exfalso. lra.
  - intros p H. change [at2 a; at2 b; at2 c] with (map at2 [a; b; c]) in H.
    assert (X : 0 <= vx p).
    { clear - H. change (map at2 [a; b; c]) with [at2 a; at2 b; at2 c] in H. unfold a, b, c in H. rewrite !at2_eq in H.
      induction H as [p H|t x y T _ IHx _ IHy].
      - destruct H as [<-|[<-|[<-|[]]]]; simpl; lra.
      - unfold mix, add, scale, sub. simpl. replace (vx x + t * (vx y - vx x)) with ((1 - t) * vx x + t * vx y) by ring.
        apply Rplus_le_le_0_compat; apply Rmult_le_pos; lra. }
    rewrite at2_eq. unfold distance. assert (Y : 1000 * 1000 <= dot (sub p (mkV (-1000) 0 0)) (sub p (mkV (-1000) 0 0))).
    { destruct p as [x y z]. unfold dot, sub. simpl in *. nra. }
    rewrite <- len_sq in Y. pose proof (len_pos (sub p (mkV (-1000) 0 0))). nra.
Qed.
Print Assumptions C133_short_refuted.

(** "The normal at a corner is the one of the corner": not for a corner that is less than 0.05 outside of an earlier
    triangle of the fan. *)
Theorem C133_vertex_refuted : exists us l v nv n, convex us /\ map fst l = map (emb (mkV 0 0 0) ex ey) us /\ (forall t, In t (fan (map fst l)) -> large t) /\
  In (v, nv) l /\ interpolate l v = Some n /\ n <> nv.
Proof.
  destruct frame_xy as [E11 [E22 E12]]. pose (a := (0, 0) : pt2). pose (b := (5, -10) : pt2). pose (c := (10, 0) : pt2). pose (d := (5, 1 / 25) : pt2).
  assert (CV : convex [a; b; c; d]).
  { intros i j k H1 H2 H3. simpl in H3. assert (C : i = 0%nat /\ j = 1%nat /\ k = 2%nat \/ i = 0%nat /\ j = 1%nat /\ k = 3%nat \/ i = 0%nat /\ j = 2%nat /\ k = 3%nat \/ i = 1%nat /\ j = 2%nat /\ k = 3%nat) by lia.
    destruct C as [[-> [-> ->]]|[[-> [-> ->]]|[[-> [-> ->]]|[-> [-> ->]]]]]; unfold o2, a, b, c, d; simpl; lra. }
  pose (z := mkV 0 0 (-1)). pose (nv := mkV (3 / 5) 0 (- (4 / 5))).
  assert (LG : forall t, In t (fan [at2 a; at2 b; at2 c; at2 d]) -> large t).
  { intros t [<-|[<-|[]]]; unfold large.
    - refine (conj _ (conj _ (conj _ _))).
      + unfold at2. rewrite (area_emb _ _ _ E11 E22 E12) by (unfold o2, a, b, c; simpl; lra). unfold o2, a, b, c. simpl. lra.
      + apply dist_ge; unfold sq2, a, b; simpl; lra.
      + apply dist_ge; unfold sq2, c, b; simpl; lra.
      + apply dist_ge; unfold sq2, c, a; simpl; lra.
    - refine (conj _ (conj _ (conj _ _))).
      + unfold at2. rewrite (area_emb _ _ _ E11 E22 E12) by (unfold o2, a, d, c; simpl; lra). unfold o2, a, d, c. simpl. lra.
      + apply dist_ge; unfold sq2, a, c; simpl; lra.
      + apply dist_ge; unfold sq2, c, d; simpl; lra.
      + apply dist_ge; unfold sq2, d, a; simpl; lra. }
  pose proof (LG _ (or_introl eq_refl)) as S0. assert (K : 0 < o2 a b c) by (unfold o2, a, b, c; simpl; lra).
  exists [a; b; c; d], [(at2 a, z); (at2 b, z); (at2 c, z); (at2 d, nv)], (at2 d), nv, z.
  refine (conj CV (conj eq_refl (conj LG (conj _ (conj _ _))))).
  - simpl. auto.
  - unfold interpolate. cbn [fan fan_from].
    replace (at2 d) with (add (at2 d) (scale 0 (nn ex ey))) at 2 by (unfold d; rewrite at2_eq; unfold add, scale, nn, cross, ex, ey; simpl; f_equal; ring).
    pose proof (tri_inside _ _ _ E11 E22 E12 a b c d 0 K S0) as [TL TI].
    pose proof (bary_frame (mkV 0 0 0) _ _ E11 E22 E12 a b c d 0 K) as BF.
    match goal with |- interp_fan (?t :: ?r) ?p = _ => change (interp_fan ([] ++ t :: r) p = Some z) end.
    erewrite interp_reach; [|intros ? ? ? ? ? ? []|exact TL| |exact BF].
    + f_equal. destruct (tri_weights a b c d K) as [_ W]. revert W. generalize (o2 b c d / o2 a b c), (o2 c a d / o2 a b c), (o2 a b d / o2 a b c). intros x y w W.
      unfold z, bary_to, add, scale. simpl. f_equal; lra.
    + apply TI. unfold POINT_EQUAL_EPSILON in *. destruct S0 as [_ [D1 [D2 D3]]]. unfold at2 in *. refine (conj _ (conj _ _)).
      * match goal with |- _ <= ?q => assert (0 <= q) by (unfold o2, a, b, d; simpl; lra) end. lra.
      * match goal with |- _ <= ?q => assert (0 <= q) by (unfold o2, c, b, d; simpl; lra) end. lra.
      * assert (10 <= distance (at2 a) (at2 c)) as D by (apply dist_ge; unfold sq2, c, a; simpl; lra). unfold at2 in D.
        match goal with |- _ <= ?q => assert (- (2 / 5) <= q) by (unfold o2, c, a, d; simpl; lra) end. lra.
  - unfold z, nv. intro E. injection E. lra.
Qed.
Print Assumptions C133_vertex_refuted.

(** A square: its middle is inside of it, has the mean of opposite normals, and is the centroid; the closest boundary
    point of a point below the bottom edge. *)
Example C133_nontrivial :
  let l := [mkV 0 0 0; mkV 10 0 0; mkV 10 10 0; mkV 0 10 0] in
  convex [(0, 0); (10, 0); (10, 10); (0, 10)] /\ map (emb (mkV 0 0 0) ex ey) [(0, 0); (10, 0); (10, 10); (0, 10)] = l /\
  poly_area l = 100 /\ poly_centroid l = Some (mkV 5 5 0) /\ lines_overlap (1 / 10) (mkV 0 0 0) (mkV 10 0 0) (mkV 4 0 0) (mkV 20 0 0) = true /\
  lines_overlap (1 / 10) (mkV 0 0 0) (mkV 10 0 0) (mkV 14 0 0) (mkV 20 0 0) = false.
Proof.
  cbn zeta. destruct frame_xy as [E11 [E22 E12]]. pose (us := [(0, 0); (10, 0); (10, 10); (0, 10)] : list pt2).
  assert (CV : convex us).
  { intros i j k H1 H2 H3. simpl in H3. assert (C : i = 0%nat /\ j = 1%nat /\ k = 2%nat \/ i = 0%nat /\ j = 1%nat /\ k = 3%nat \/ i = 0%nat /\ j = 2%nat /\ k = 3%nat \/ i = 1%nat /\ j = 2%nat /\ k = 3%nat) by lia.
    destruct C as [[-> [-> ->]]|[[-> [-> ->]]|[[-> [-> ->]]|[-> [-> ->]]]]]; unfold o2; simpl; lra. }
  assert (M : map (emb (mkV 0 0 0) ex ey) us = [mkV 0 0 0; mkV 10 0 0; mkV 10 10 0; mkV 0 10 0]) by (unfold us; cbn [map]; fold at2; rewrite <- !at2_eq; reflexivity).
  assert (A : poly_area [mkV 0 0 0; mkV 10 0 0; mkV 10 10 0; mkV 0 10 0] = 100).
  { rewrite <- M. rewrite (area_frame _ _ _ E11 E22 E12 us (convex_fan _ CV)). unfold us. cbn [fan fan_from sumF fold_right triF]. unfold c2. simpl. lra. }
  refine (conj CV (conj M (conj A (conj _ _)))).
  - unfold poly_centroid. rewrite A. rewrite (proj2 (is0_f _)) by lra. f_equal. rewrite <- M, (moment_frame _ _ _ E11 E22 E12 us (convex_fan _ CV)).
    unfold us. cbn [fan fan_from sumF fold_right triF]. unfold c2, m2x, m2y, c2. unfold add, scale, ex, ey. simpl. f_equal; field.
  - assert (D : mkV 0 0 0 <> mkV 10 0 0) by (intro E; injection E; lra).
    destruct (C133_overlap (1 / 10) _ _ ltac:(lra) D) as [H _].
    assert (G : forall s, mkV (10 * s) 0 0 = mix s (mkV 0 0 0) (mkV 10 0 0)) by (intro s; vec; f_equal; ring).
    assert (MM : forall s t b, mix b (mix s (mkV 0 0 0) (mkV 10 0 0)) (mix t (mkV 0 0 0) (mkV 10 0 0)) = mkV (10 * (s + b * (t - s))) 0 0) by (intros; vec; f_equal; ring).
    replace (mkV 4 0 0) with (mkV (10 * (2 / 5)) 0 0) by (f_equal; lra). replace (mkV 20 0 0) with (mkV (10 * 2) 0 0) by (f_equal; lra).
    replace (mkV 14 0 0) with (mkV (10 * (7 / 5)) 0 0) by (f_equal; lra). rewrite !G. split.
    + apply H. exists (2 / 5), 0. rewrite MM, <- G. repeat apply conj; try lra. f_equal; lra.
    + apply not_true_iff_false. intro E. apply H in E as [a [b [A1 [B1 E]]]]. rewrite MM, <- G in E. injection E as E. nra.
Qed.
