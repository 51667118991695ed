(* Proofs about PolyGeoModel.v. *)
From Coq Require Import Reals List Bool Arith Lia Lra Psatz.
From Verif Require Import WindClipModel WindClipProofs PolyGeoModel.
Import ListNotations.
Open Scope R_scope.

Lemma ltb_t a b : ltb a b = true <-> a < b.
Proof. unfold ltb. destruct (Rlt_dec a b); split; intro; try reflexivity; try discriminate; try assumption; contradiction. Qed.
Lemma ltb_f a b : ltb a b = false <-> b <= a.
Proof. unfold ltb. destruct (Rlt_dec a b); split; intro; try reflexivity; try discriminate; lra. Qed.
Lemma leb_t a b : leb a b = true <-> a <= b.
Proof. unfold leb. rewrite negb_true_iff. apply ltb_f. Qed.
Lemma leb_f a b : leb a b = false <-> b < a.
Proof. unfold leb. rewrite negb_false_iff. apply ltb_t. Qed.
Lemma is0_t a : is0 a = true <-> a = 0.
Proof. unfold is0. destruct (Req_EM_T a 0); split; intro; try reflexivity; try discriminate; try assumption; contradiction. Qed.
Lemma is0_f a : is0 a = false <-> a <> 0.
Proof. unfold is0. destruct (Req_EM_T a 0); split; intro; try reflexivity; try discriminate; try assumption; contradiction. Qed.
Ltac vec := unfold distance, mix, bary_to, emb, sub, add, scale, cross, dot, zero in *; simpl in *.

Lemma dot_pos a : 0 <= dot a a.
Proof. unfold dot. nra. Qed.
Lemma dot_zero a : dot a a = 0 -> a = zero.
Proof. destruct a as [x y z]. unfold dot, zero. simpl. intro H. assert (x = 0 /\ y = 0 /\ z = 0) as [-> [-> ->]] by (repeat apply conj; nra). reflexivity. Qed.
Lemma len_sq a : len a * len a = dot a a.
Proof. apply sqrt_sqrt, dot_pos. Qed.
Lemma len_pos a : 0 <= len a.
Proof. apply sqrt_pos. Qed.
Lemma len_le a b : dot a a <= dot b b -> len a <= len b.
Proof. intro H. apply sqrt_le_1_alt. exact H. Qed.
Lemma len_0 a : len a = 0 <-> a = zero.
Proof.
  split; intro H; [apply dot_zero; rewrite <- len_sq, H; ring|]. rewrite H. unfold len, dot, zero. simpl.
  replace (0 * 0 + 0 * 0 + 0 * 0) with 0 by ring. apply sqrt_0.
Qed.
Lemma len_gt a : a <> zero -> 0 < len a.
Proof. intro H. destruct (len_pos a) as [P|E]; [exact P|]. exfalso. apply H, len_0. symmetry. exact E. Qed.
Lemma len_eq a k : 0 <= k -> dot a a = k * k -> len a = k.
Proof. intros P H. unfold len. rewrite H. apply sqrt_square. exact P. Qed.
Lemma sub_zero a b : sub a b = zero <-> a = b.
Proof. split; [|intros ->; vec; f_equal; ring]. destruct a, b. vec. intro H. injection H as H1 H2 H3. f_equal; lra. Qed.
Lemma empty_exact_t a : empty_exact a = true <-> a = zero.
Proof.
  unfold empty_exact. rewrite !andb_true_iff, !is0_t. split.
  - intros [[X Y] Z]. destruct a. simpl in *. subst. reflexivity.
  - intros ->. repeat apply conj; reflexivity.
Qed.
Lemma normalize_scale a : a <> zero -> normalize a = scale (/ len a) a.
Proof. intro H. unfold normalize. destruct (Req_EM_T (len a) 0) as [E|]; [|reflexivity]. apply len_0 in E. contradiction. Qed.

Lemma scale_zero k a : k <> 0 -> scale k a = zero -> a = zero.
Proof.
  intros K E. destruct a as [x y z]. unfold scale, zero in *. simpl in *. injection E as A B C.
  apply Rmult_integral in A as [A|A]; [contradiction|]. apply Rmult_integral in B as [B|B]; [contradiction|].
  apply Rmult_integral in C as [C|C]; [contradiction|]. subst. reflexivity.
Qed.

(** ** Lines and segments *)
Lemma line_mix v w p : v <> w -> closest_on_line v w p = mix (fraction v w p) v w.
Proof.
  intro D. assert (D1 : sub w v <> zero) by (intro E; apply D; symmetry; apply sub_zero; exact E).
  pose proof (len_gt _ D1) as LP. assert (DP : dot (sub w v) (sub w v) <> 0) by (rewrite <- len_sq; nra).
  unfold closest_on_line, fraction. rewrite normalize_scale by exact D1.
  assert (E : empty_exact (scale (/ len (sub w v)) (sub w v)) = false).
  { apply not_true_iff_false. intro E. apply empty_exact_t in E. apply D1. apply (scale_zero _ _ (Rinv_neq_0_compat _ (Rgt_not_eq _ _ LP)) E). }
  rewrite E. rewrite (proj2 (is0_f _) DP). rewrite <- len_sq. set (l := len (sub w v)) in *. unfold mix. f_equal.
  set (d := sub w v) in *. destruct d as [x y z]. unfold dot, scale. simpl. f_equal; field; lra.
Qed.
Lemma fraction_best v w p t : v <> w -> distance p (mix (fraction v w p) v w) <= distance p (mix t v w).
Proof.
  intro D. assert (D1 : sub w v <> zero) by (intro E; apply D; symmetry; apply sub_zero; exact E).
  pose proof (len_gt _ D1) as LP. assert (DP : dot (sub w v) (sub w v) <> 0) by (rewrite <- len_sq; nra).
  apply len_le. unfold fraction. rewrite (proj2 (is0_f _) DP). set (f := dot (sub p v) (sub w v) / dot (sub w v) (sub w v)).
  assert (F : f * dot (sub w v) (sub w v) = dot (sub p v) (sub w v)) by (unfold f; field; exact DP).
  assert (E : dot (sub p (mix t v w)) (sub p (mix t v w)) = dot (sub p (mix f v w)) (sub p (mix f v w)) + (t - f) * (t - f) * dot (sub w v) (sub w v)
              + 2 * (f - t) * (dot (sub p v) (sub w v) - f * dot (sub w v) (sub w v))) by (vec; ring).
  rewrite E, F. pose proof (Rmult_le_pos _ _ (Rle_0_sqr (t - f)) (dot_pos (sub w v))) as Q. unfold Rsqr in Q. unfold distance. lra.
Qed.
Lemma segment_spec v w p : exists t, 0 <= t <= 1 /\ closest_on_segment v w p = mix t v w /\
  (forall s, 0 <= s <= 1 -> distance p (closest_on_segment v w p) <= distance p (mix s v w)).
Proof.
  unfold closest_on_segment. destruct (Req_EM_T (dot (sub w v) (sub w v)) 0) as [Z|NZ].
  - apply dot_zero in Z. apply (proj1 (sub_zero _ _)) in Z. subst w. assert (F : fraction v v p = 0).
    { unfold fraction. rewrite (proj2 (is0_t _)); [reflexivity|]. vec. ring. }
    rewrite F. rewrite (proj2 (leb_f 1 0)) by lra. rewrite (proj2 (leb_t 0 0)) by lra. exists 0. rewrite mix_0. split; [lra|split; [reflexivity|]].
    intros s _. replace (mix s v v) with v; [lra|]. destruct v. vec. f_equal; ring.
  - assert (D : v <> w) by (intros ->; apply NZ; vec; ring).
    assert (G : forall s, distance p (mix (fraction v w p) v w) <= distance p (mix s v w)) by (intro; apply fraction_best, D).
    assert (E : forall s u, dot (sub p (mix s v w)) (sub p (mix s v w)) = dot (sub p (mix u v w)) (sub p (mix u v w))
              + (s - u) * (s + u - 2 * fraction v w p) * dot (sub w v) (sub w v)).
    { intros s u. assert (F : fraction v w p * dot (sub w v) (sub w v) = dot (sub p v) (sub w v)).
      { unfold fraction. rewrite (proj2 (is0_f _) NZ). field. exact NZ. }
      assert (X : dot (sub p (mix s v w)) (sub p (mix s v w)) = dot (sub p (mix u v w)) (sub p (mix u v w))
              + (s - u) * (s + u) * dot (sub w v) (sub w v) - 2 * (s - u) * dot (sub p v) (sub w v)) by (vec; ring).
      rewrite X, <- F. ring. }
    pose proof (dot_pos (sub w v)) as P.
    destruct (leb 1 (fraction v w p)) eqn:L1.
    + apply leb_t in L1. exists 1. rewrite mix_1. split; [lra|split; [reflexivity|]]. intros s S. apply len_le. rewrite (E s 1), mix_1.
      assert (0 <= (s - 1) * (s + 1 - 2 * fraction v w p)) by nra. nra.
    + apply leb_f in L1. destruct (leb (fraction v w p) 0) eqn:L0.
      * apply leb_t in L0. exists 0. rewrite mix_0. split; [lra|split; [reflexivity|]]. intros s S. apply len_le. rewrite (E s 0), mix_0.
        assert (0 <= (s - 0) * (s + 0 - 2 * fraction v w p)) by nra. nra.
      * apply leb_f in L0. exists (fraction v w p). rewrite line_mix by exact D. split; [lra|split; [reflexivity|]]. intros s _. apply G.
Qed.
Lemma len_sym a b : len (sub a b) = len (sub b a).
Proof. unfold len. f_equal. vec. ring. Qed.
Lemma closest_from_spec p es : forall i best k q, closest_from i best es p = Some (k, q) ->
  (best = Some (k, q) \/ exists a b t, (i <= k)%nat /\ nth_error es (k - i) = Some (a, b) /\ 0 <= t <= 1 /\ q = mix t a b) /\
  (forall j r, best = Some (j, r) -> distance p q <= distance p r) /\
  (forall a b s, In (a, b) es -> 0 <= s <= 1 -> distance p q <= distance p (mix s a b)).
Proof.
  induction es as [|[a b] r IH]; intros i best k q E; simpl in E.
  - subst. refine (conj (or_introl eq_refl) (conj _ _)); [intros j r X; injection X as <- <-; lra|intros ? ? ? []].
  - destruct (segment_spec a b p) as [t [T [C M]]]. set (c := closest_on_segment a b p) in *.
    apply IH in E as [A [B D]]. destruct best as [[j0 q0]|].
    + destruct (ltb (len (sub c p)) (len (sub q0 p))) eqn:L.
      * apply ltb_t in L. rewrite (len_sym c p), (len_sym q0 p) in L. specialize (B _ _ eq_refl). refine (conj _ (conj _ _)).
        -- right. destruct A as [A|[a' [b' [t' [Q1 [Q2 Q3]]]]]].
           ++ injection A as <- <-. exists a, b, t. rewrite Nat.sub_diag. split; [lia|split; [reflexivity|split; assumption]].
           ++ exists a', b', t'. replace (k - i)%nat with (S (k - S i)) by lia. split; [lia|split; [exact Q2|exact Q3]].
        -- intros j r0 X. injection X as <- <-. unfold distance in *. lra.
        -- intros a' b' s [X|X] S0; [injection X as <- <-; specialize (M s S0); unfold distance in *; lra|apply D; assumption].
      * apply ltb_f in L. rewrite (len_sym c p), (len_sym q0 p) in L. specialize (B _ _ eq_refl). refine (conj _ (conj _ _)).
        -- destruct A as [A|[a' [b' [t' [Q1 [Q2 Q3]]]]]]; [left; exact A|]. right. exists a', b', t'.
           replace (k - i)%nat with (S (k - S i)) by lia. split; [lia|split; [exact Q2|exact Q3]].
        -- intros j r0 X. injection X as <- <-. exact B.
        -- intros a' b' s [X|X] S0; [injection X as <- <-; specialize (M s S0); unfold distance in *; lra|apply D; assumption].
    + specialize (B _ _ eq_refl). refine (conj _ (conj _ _)).
      * right. destruct A as [A|[a' [b' [t' [Q1 [Q2 Q3]]]]]].
        -- injection A as <- <-. exists a, b, t. rewrite Nat.sub_diag. split; [lia|split; [reflexivity|split; assumption]].
        -- exists a', b', t'. replace (k - i)%nat with (S (k - S i)) by lia. split; [lia|split; [exact Q2|exact Q3]].
      * discriminate.
      * intros a' b' s [X|X] S0; [injection X as <- <-; specialize (M s S0); lra|apply D; assumption].
Qed.
Lemma closest_from_some p es : forall i best, best <> None \/ es <> [] -> closest_from i best es p <> None.
Proof.
  induction es as [|[a b] r IH]; intros i best H; simpl; [destruct H; [assumption|contradiction]|].
  apply IH. left. destruct best as [[j q]|]; [destruct (ltb _ _)|]; discriminate.
Qed.
Lemma edges_length l : length (edges l) = length l.
Proof. destruct l as [|a l]; [reflexivity|]. unfold edges. rewrite combine_length, app_length. cbn [length]. lia. Qed.

(** ** Polygons in a frame *)
Section Frame.
Context (o e1 e2 : vec) (E11 : dot e1 e1 = 1) (E22 : dot e2 e2 = 1) (E12 : dot e1 e2 = 0).
Notation P := (emb o e1 e2).
Definition nn : vec := cross e2 e1.
Definition sq2 (a b : pt2) : R := (fst b - fst a) * (fst b - fst a) + (snd b - snd a) * (snd b - snd a).

Lemma dot_emb a b : dot (sub (P b) (P a)) (sub (P b) (P a)) = sq2 a b.
Proof.
  assert (E : dot (sub (P b) (P a)) (sub (P b) (P a)) =
    (fst b - fst a) * (fst b - fst a) * dot e1 e1 + 2 * (fst b - fst a) * (snd b - snd a) * dot e1 e2 + (snd b - snd a) * (snd b - snd a) * dot e2 e2)
    by (vec; ring). rewrite E, E11, E22, E12. unfold sq2. ring.
Qed.
Lemma cross_emb a b c : cross (sub (P c) (P a)) (sub (P b) (P a)) = scale (o2 a b c) nn.
Proof. unfold nn, o2. vec. f_equal; ring. Qed.
Lemma len_nn : len nn = 1.
Proof.
  apply len_eq; [lra|]. unfold nn. replace (dot (cross e2 e1) (cross e2 e1)) with (dot e1 e1 * dot e2 e2 - dot e1 e2 * dot e1 e2) by (vec; ring).
  rewrite E11, E22, E12. ring.
Qed.
Lemma nn_nz : nn <> zero.
Proof. intro E. apply len_0 in E. rewrite len_nn in E. lra. Qed.
Lemma len_scale k a : 0 <= k -> len (scale k a) = k * len a.
Proof. intro K. apply len_eq; [apply Rmult_le_pos; [exact K|apply len_pos]|]. pose proof (len_sq a) as L. vec. nra. Qed.
Lemma normalize_nn k : 0 < k -> normalize (scale k nn) = nn.
Proof.
  intro K. assert (N : scale k nn <> zero).
  { intro E. apply len_0 in E. rewrite len_scale, len_nn in E; lra. }
  rewrite normalize_scale by exact N. rewrite len_scale, len_nn by lra. generalize nn. intros [x y z]. vec. f_equal; field; lra.
Qed.
Lemma area_emb a b c : 0 <= o2 a b c -> tri_area (P a) (P b) (P c) = 1 / 2 * o2 a b c.
Proof. intro K. unfold tri_area. rewrite cross_emb, len_scale, len_nn by exact K. ring. Qed.

(** fan commutes with map. *)
Lemma fan_from_map {A B} (f : A -> B) p0 p1 l : fan_from (f p0) (f p1) (map f l) = map (fun t => let '(a, b, c) := t in (f a, f b, f c)) (fan_from p0 p1 l).
Proof. revert p1. induction l as [|x l IH]; intro p1; [reflexivity|]. simpl. rewrite IH. reflexivity. Qed.
Lemma fan_map {A B} (f : A -> B) l : fan (map f l) = map (fun t => let '(a, b, c) := t in (f a, f b, f c)) (fan l).
Proof. destruct l as [|a [|b l]]; try reflexivity. apply fan_from_map. Qed.
Lemma edges_map2 (us : list pt2) : edges (map P us) = map (fun e => (P (fst e), P (snd e))) (match us with [] => [] | a :: l => combine us (l ++ [a]) end).
Proof.
  destruct us as [|a l]; [reflexivity|]. unfold edges. cbn [map]. replace (map P l ++ [P a]) with (map P (l ++ [a])) by (rewrite map_app; reflexivity).
  change (P a :: map P l) with (map P (a :: l)). generalize (l ++ [a]), (a :: l). clear. intros x y. revert x.
  induction y as [|p q IH]; intros [|u v]; try reflexivity. simpl. rewrite IH. reflexivity.
Qed.
Definition edges2 (us : list pt2) : list (pt2 * pt2) := match us with [] => [] | a :: l => combine us (l ++ [a]) end.

Lemma largest_in l : forall best t, largest best l = Some t -> best = Some t \/ In t l.
Proof.
  induction l as [|x l IH]; intros best t E; simpl in E; [left; exact E|]. apply IH in E as [E|E]; [|right; right; exact E].
  destruct best as [b|].
  - destruct (ltb _ _); [injection E as <-; right; left; reflexivity|left; exact E].
  - injection E as <-. right. left. reflexivity.
Qed.
Lemma largest_max l : forall best t, largest best l = Some t ->
  (forall b, best = Some b -> tri_area' b <= tri_area' t) /\ (forall x, In x l -> tri_area' x <= tri_area' t).
Proof.
  induction l as [|x l IH]; intros best t E; simpl in E.
  - subst. split; [intros b X; injection X as <-; lra|intros ? []].
  - apply IH in E as [A B]. destruct best as [b|].
    + destruct (ltb (tri_area' b) (tri_area' x)) eqn:L.
      * apply ltb_t in L. specialize (A _ eq_refl). split; [intros b' X; injection X as <-; lra|intros y [->|Y]; [exact A|apply B, Y]].
      * apply ltb_f in L. specialize (A _ eq_refl). split; [intros b' X; injection X as <-; lra|intros y [->|Y]; [lra|apply B, Y]].
    + specialize (A _ eq_refl). split; [discriminate|intros y [->|Y]; [exact A|apply B, Y]].
Qed.
Lemma largest_none l : forall best, largest best l = None -> best = None /\ l = [].
Proof.
  induction l as [|x l IH]; intros best E; simpl in E; [subst; auto|]. apply IH in E as [E _].
  destruct best; [destruct (ltb _ _)|]; discriminate.
Qed.

(** The normal of a polygon that turns left in the frame. *)
Definition fan_left (us : list pt2) : Prop := forall a b c, In (a, b, c) (fan us) -> 0 < o2 a b c.
Lemma in_fan_map us t : In t (fan (map P us)) -> exists a b c, In (a, b, c) (fan us) /\ t = (P a, P b, P c).
Proof. rewrite fan_map. intro H. apply in_map_iff in H as [[[a b] c] [<- H]]. exists a, b, c. auto. Qed.
Lemma face_normal_frame us t : fan_left us -> In t (fan (map P us)) -> ZERO_TRI_AREA_EPSILON <= tri_area' t -> face_normal (map P us) = nn.
Proof.
  intros F I A. unfold face_normal. destruct (largest None (fan (map P us))) as [[[p0 p1] p2]|] eqn:L.
  - pose proof (proj2 (largest_max _ _ _ L) t I) as M. simpl in M. apply largest_in in L as [L|L]; [discriminate|].
    rewrite (proj2 (ltb_f _ _)) by lra. apply in_fan_map in L as [a [b [c [H E]]]]. injection E as -> -> ->. rewrite cross_emb.
    apply normalize_nn, F, H.
  - apply largest_none in L as [_ L]. rewrite L in I. destruct I.
Qed.

(** The distance to the plane of an edge. *)
Lemma edge_plane_some n v0 v1 pl : edge_plane_of n v0 v1 = Some pl -> POINT_EQUAL_EPSILON <= len (sub v1 v0).
Proof. unfold edge_plane_of. destruct (ltb (len (sub v1 v0)) POINT_EQUAL_EPSILON) eqn:L; [discriminate|]. intros _. apply ltb_f. exact L. Qed.
Lemma edge_dist a b u h pl : edge_plane_of nn (P a) (P b) = Some pl ->
  dist_to pl (add (P u) (scale h nn)) = o2 a b u / len (sub (P b) (P a)) /\ 0 < len (sub (P b) (P a)).
Proof.
  intro E. pose proof (edge_plane_some _ _ _ _ E) as LP. unfold edge_plane_of in E. rewrite (proj2 (ltb_f _ _) LP) in E. injection E as <-.
  unfold POINT_EQUAL_EPSILON in LP. set (l := len (sub (P b) (P a))) in *. split; [|lra]. unfold dist_to. simpl p_n. simpl p_d.
  assert (E : dot (add (P u) (scale h nn)) (cross (scale (/ l) (sub (P b) (P a))) nn) - dot (cross (scale (/ l) (sub (P b) (P a))) nn) (P a)
     = / l * (o2 a b u * (dot e1 e1 * dot e2 e2 - dot e1 e2 * dot e1 e2))) by (unfold nn, o2; vec; ring).
  rewrite E, E11, E22, E12. field. lra.
Qed.

Lemma inside_from m pls p : match inside_dist_from m pls p with
  | Some d => (forall x, m = Some x -> d <= x) /\ (forall pl, In pl pls -> d <= dist_to pl p) /\ (m = Some d \/ exists pl, In pl pls /\ d = dist_to pl p)
  | None => m = None /\ pls = []
  end.
Proof.
  revert m. induction pls as [|pl r IH]; intro m; simpl.
  - destruct m; [refine (conj _ (conj _ (or_introl eq_refl))); [intros x X; injection X as <-; lra|intros ? []]|auto].
  - match goal with |- context [inside_dist_from ?M r p] => set (m' := M) end. specialize (IH m').
    assert (X : exists y, m' = Some y /\ y <= dist_to pl p /\ (forall x, m = Some x -> y <= x) /\ (m = Some y \/ y = dist_to pl p)).
    { subst m'. destruct m as [d|]; [destruct (ltb (dist_to pl p) d) eqn:L|].
      - apply ltb_t in L. exists (dist_to pl p). refine (conj eq_refl (conj _ (conj _ (or_intror eq_refl)))); [lra|intros x X; injection X as <-; lra].
      - apply ltb_f in L. exists d. refine (conj eq_refl (conj _ (conj _ (or_introl eq_refl)))); [lra|intros x X; injection X as <-; lra].
      - exists (dist_to pl p). refine (conj eq_refl (conj _ (conj _ (or_intror eq_refl)))); [lra|discriminate]. }
    destruct X as [y [Y1 [Y2 [Y3 Y4]]]]. destruct (inside_dist_from m' r p) as [d|].
    + destruct IH as [A [B C]]. specialize (A _ Y1). refine (conj _ (conj _ _)).
      * intros x X. specialize (Y3 _ X). lra.
      * intros q [<-|Q]; [lra|apply B, Q].
      * destruct C as [C|[q [Q1 Q2]]]; [|right; exists q; split; [right; exact Q1|exact Q2]]. rewrite Y1 in C. injection C as <-.
        destruct Y4 as [Y4|Y4]; [left; exact Y4|right; exists pl; split; [left; reflexivity|exact Y4]].
    + destruct IH as [A _]. congruence.
Qed.
Lemma point_inside_spec pls p : point_inside pls p = true <-> pls <> [] /\ (forall pl, In pl pls -> - POINT_EQUAL_EPSILON <= dist_to pl p).
Proof.
  unfold point_inside, inside_dist. pose proof (inside_from None pls p) as H. destruct (inside_dist_from None pls p) as [d|].
  - destruct H as [_ [A B]]. rewrite leb_t. destruct B as [B|[q [Q1 Q2]]]; [discriminate|]. split.
    + intro L. split; [intros ->; destruct Q1|]. intros pl X. specialize (A _ X). lra.
    + intros [_ L]. specialize (L _ Q1). lra.
  - destruct H as [_ ->]. split; [discriminate|intros [X _]; contradiction].
Qed.
Lemma in_some_of {A} (l : list (option A)) x : In x (some_of l) <-> In (Some x) l.
Proof.
  induction l as [|[y|] l IH]; simpl; [tauto| |].
  - rewrite IH. split; intros [H|H]; auto; [left; congruence|left; congruence].
  - rewrite IH. split; [auto|intros [H|H]; [discriminate|exact H]].
Qed.
Lemma edge_planes_frame us t : fan_left us -> In t (fan (map P us)) -> ZERO_TRI_AREA_EPSILON <= tri_area' t ->
  edge_planes (map P us) = some_of (map (fun e => edge_plane_of nn (P (fst e)) (P (snd e))) (edges2 us)).
Proof.
  intros F I A. unfold edge_planes. rewrite (face_normal_frame us t F I A).
  assert (L : Nat.ltb (length (map P us)) 3 = false).
  { apply Nat.ltb_ge. rewrite map_length. destruct us as [|x [|y [|z us]]]; [destruct I..|simpl; lia]. }
  rewrite L. assert (E : empty_exact nn = false) by (apply not_true_iff_false; intro E; apply empty_exact_t in E; apply nn_nz, E).
  rewrite E, edges_map2, map_map. reflexivity.
Qed.
Lemma inside_frame us t u h : fan_left us -> In t (fan (map P us)) -> ZERO_TRI_AREA_EPSILON <= tri_area' t ->
  point_inside (edge_planes (map P us)) (add (P u) (scale h nn)) = true <->
  (exists a b, In (a, b) (edges2 us) /\ POINT_EQUAL_EPSILON <= len (sub (P b) (P a))) /\
  (forall a b, In (a, b) (edges2 us) -> POINT_EQUAL_EPSILON <= len (sub (P b) (P a)) -> - (POINT_EQUAL_EPSILON * len (sub (P b) (P a))) <= o2 a b u).
Proof.
  intros F I A. rewrite (edge_planes_frame us t F I A), point_inside_spec.
  assert (M : forall pl, In pl (some_of (map (fun e => edge_plane_of nn (P (fst e)) (P (snd e))) (edges2 us))) <->
     exists a b, In (a, b) (edges2 us) /\ edge_plane_of nn (P a) (P b) = Some pl).
  { intro pl. rewrite in_some_of, in_map_iff. split.
    - intros [[a b] [E H]]. exists a, b. auto.
    - intros [a [b [H E]]]. exists (a, b). auto. }
  split.
  - intros [NE D]. split.
    + match type of NE with ?l <> [] => destruct l as [|pl r] eqn:Q; [contradiction|] end.
      assert (X : In pl (pl :: r)) by (left; reflexivity). apply M in X as [a [b [H E]]].
      exists a, b. split; [exact H|]. apply (edge_plane_some _ _ _ _ E).
    + intros a b H L. destruct (edge_plane_of nn (P a) (P b)) as [pl|] eqn:E.
      * assert (X := proj2 (M pl) (ex_intro _ a (ex_intro _ b (conj H E)))). specialize (D _ X). destruct (edge_dist a b u h pl E) as [Q LP].
        rewrite Q in D. apply (Rmult_le_compat_r (len (sub (P b) (P a)))) in D; [|lra].
        replace (o2 a b u / len (sub (P b) (P a)) * len (sub (P b) (P a))) with (o2 a b u) in D by (field; lra). lra.
      * unfold edge_plane_of in E. rewrite (proj2 (ltb_f _ _) L) in E. discriminate.
  - intros [[a [b [H L]]] D]. split.
    + destruct (edge_plane_of nn (P a) (P b)) as [pl|] eqn:E.
      * intro Z. assert (X := proj2 (M pl) (ex_intro _ a (ex_intro _ b (conj H E)))). rewrite Z in X. destruct X.
      * unfold edge_plane_of in E. rewrite (proj2 (ltb_f _ _) L) in E. discriminate.
    + intros pl X. apply M in X as [a' [b' [H' E]]]. destruct (edge_dist a' b' u h pl E) as [Q LP]. rewrite Q.
      specialize (D _ _ H' (edge_plane_some _ _ _ _ E)). apply (Rmult_le_reg_r (len (sub (P b') (P a')))); [exact LP|].
      replace (o2 a' b' u / len (sub (P b') (P a')) * len (sub (P b') (P a'))) with (o2 a' b' u) by (field; lra). lra.
Qed.

(** Points of a polygon are on the inner side of each edge, and in a triangle of the fan. *)
Lemma nth_edges2 us a b : In (a, b) (edges2 us) -> exists i, (i < length us)%nat /\ a = nth i us (0, 0) /\ b = nth (S i mod length us) us (0, 0).
Proof.
  destruct us as [|x l]; [intros []|]. unfold edges2. intro H. apply (In_nth _ _ ((0, 0), (0, 0))) in H as [i [L E]].
  rewrite combine_length, app_length in L. cbn [length] in L.
  assert (LE : length (x :: l) = length (l ++ [x])) by (rewrite app_length; cbn [length]; lia).
  rewrite (combine_nth _ _ _ _ _ LE) in E. injection E as <- <-.
  exists i. split; [simpl; lia|split; [reflexivity|]]. destruct (Nat.eq_dec i (length l)) as [->|N].
  - rewrite app_nth2, Nat.sub_diag by lia. simpl length. rewrite Nat.mod_same by lia. reflexivity.
  - rewrite app_nth1 by lia. rewrite Nat.mod_small by (simpl; lia). reflexivity.
Qed.
Lemma convex_edges us u : convex us -> (3 <= length us)%nat -> In u us -> forall a b, In (a, b) (edges2 us) -> 0 <= o2 a b u.
Proof.
  intros CV L U a b H. apply nth_edges2 in H as [i [Li [-> ->]]]. apply (@In_nth pt2 _ _ (0, 0)) in U as [k [Lk <-]].
  destruct (Nat.eq_dec (S i) (length us)) as [E|N].
  - rewrite E, Nat.mod_same by lia. destruct (Nat.eq_dec k 0) as [->|K0]; [rewrite o2_abb; lra|].
    destruct (Nat.eq_dec k i) as [->|Ki]; [rewrite o2_aba; lra|]. rewrite o2_cyc. left. apply CV; lia.
  - rewrite Nat.mod_small by lia. destruct (Nat.eq_dec k i) as [->|Ki]; [rewrite o2_aba; lra|].
    destruct (Nat.eq_dec k (S i)) as [->|Kj]; [rewrite o2_abb; lra|]. destruct (Nat.lt_ge_cases k i) as [G|G].
    + rewrite <- o2_cyc. left. apply CV; lia.
    + left. apply CV; lia.
Qed.
Lemma hull_frame us p : hull (pts (map P us)) p -> exists u, p = P u /\ (forall a b, (forall v, In v us -> 0 <= o2 a b v) -> 0 <= o2 a b u).
Proof.
  induction 1 as [p H|t a b T _ [u [-> Hu]] _ [v [-> Hv]]].
  - unfold pts in H. apply in_map_iff in H as [u [<- U]]. exists u. split; [reflexivity|]. intros a b X. apply X, U.
  - exists (mix2 t u v). rewrite emb_mix. split; [reflexivity|]. intros x y X. rewrite o2_mix3. specialize (Hu _ _ X). specialize (Hv _ _ X).
    apply Rplus_le_le_0_compat; apply Rmult_le_pos; lra.
Qed.
Lemma fan_from_tri u0 u : forall r u1 u2, 0 <= o2 u0 u1 u -> (forall a b, In (a, b) (combine (u1 :: u2 :: r) ((u2 :: r) ++ [u0])) -> 0 <= o2 a b u) ->
  exists a b, In (u0, a, b) (fan_from u0 u1 (u2 :: r)) /\ 0 <= o2 u0 a u /\ 0 <= o2 a b u /\ 0 <= o2 b u0 u.
Proof.
  induction r as [|u3 r IH]; intros u1 u2 H0 H.
  - exists u1, u2. refine (conj (or_introl eq_refl) (conj H0 (conj _ _))); apply H; simpl; auto.
  - destruct (Rle_lt_dec 0 (o2 u2 u0 u)) as [L|G].
    + exists u1, u2. refine (conj (or_introl eq_refl) (conj H0 (conj _ L))). apply H. simpl. auto.
    + destruct (IH u2 u3) as [a [b [I K]]].
      * unfold o2 in *. lra.
      * intros a b X. apply H. right. exact X.
      * exists a, b. split; [right; exact I|exact K].
Qed.
Lemma fan_tri us u : (3 <= length us)%nat -> (forall a b, In (a, b) (edges2 us) -> 0 <= o2 a b u) ->
  exists a b c, In (a, b, c) (fan us) /\ 0 <= o2 a b u /\ 0 <= o2 b c u /\ 0 <= o2 c a u.
Proof.
  destruct us as [|u0 [|u1 [|u2 r]]]; simpl length; try lia. intros _ H. unfold edges2 in H.
  destruct (fan_from_tri u0 u r u1 u2) as [a [b K]].
  - apply H. left. reflexivity.
  - intros a b X. apply H. right. exact X.
  - exists u0, a, b. exact K.
Qed.
Lemma fan_nth {A} (l : list A) a b c d : In (a, b, c) (fan l) -> exists i, (2 <= i)%nat /\ (i < length l)%nat /\ a = nth 0 l d /\ b = nth (i - 1) l d /\ c = nth i l d.
Proof.
  destruct l as [|p0 [|p1 l]]; [intros []..|]. simpl fan.
  enough (G : forall q, In (a, b, c) (fan_from p0 q l) -> exists i, (i < length l)%nat /\ a = p0 /\ b = nth i (q :: l) d /\ c = nth i l d).
  { intro H. apply G in H as [i [L [-> [-> ->]]]]. exists (S (S i)). simpl. split; [lia|split; [lia|]]. rewrite ?Nat.sub_0_r.
    refine (conj eq_refl (conj _ eq_refl)). reflexivity. }
  clear. induction l as [|x l IH]; intros q H; [destruct H|]. destruct H as [H|H].
  - injection H as <- <- <-. exists 0%nat. simpl. repeat apply conj; try reflexivity; lia.
  - apply IH in H as [i [L [-> [-> ->]]]]. exists (S i). simpl. repeat apply conj; try reflexivity; lia.
Qed.
Lemma convex_fan us : convex us -> fan_left us.
Proof. intros CV a b c H. apply (@fan_nth pt2 _ _ _ _ (0, 0)) in H as [i [L1 [L2 [-> [-> ->]]]]]. apply CV; lia. Qed.
Lemma tri_weights a b c u : 0 < o2 a b c ->
  u = (o2 b c u / o2 a b c * fst a + o2 c a u / o2 a b c * fst b + o2 a b u / o2 a b c * fst c,
       o2 b c u / o2 a b c * snd a + o2 c a u / o2 a b c * snd b + o2 a b u / o2 a b c * snd c) /\
  o2 b c u / o2 a b c + o2 c a u / o2 a b c + o2 a b u / o2 a b c = 1.
Proof. intro L. destruct u as [x y]. unfold o2 in *. simpl in *. split; [f_equal; field; lra|field; lra]. Qed.
Lemma hull_tri S a b c w0 w1 w2 : hull S a -> hull S b -> hull S c -> 0 <= w0 -> 0 <= w1 -> 0 <= w2 -> w0 + w1 + w2 = 1 ->
  hull S (bary_to (w0, w1, w2) a b c).
Proof.
  intros A B C W0 W1 W2 W. destruct (Req_EM_T w0 1) as [E|N].
  - replace (bary_to (w0, w1, w2) a b c) with a; [exact A|]. assert (w1 = 0) by lra. assert (w2 = 0) by lra. subst. destruct a, b, c. vec. f_equal; ring.
  - assert (N1 : w0 < 1) by lra. assert (N2 : w1 + w2 <> 0) by lra.
    replace (bary_to (w0, w1, w2) a b c) with (mix (w1 + w2) a (mix (w2 / (w1 + w2)) b c)).
    + apply hull_mix; [lra|exact A|]. apply hull_mix; [|exact B|exact C]. split; [apply Rmult_le_pos; [lra|left; apply Rinv_0_lt_compat; lra]|].
      apply (Rmult_le_reg_r (w1 + w2)); [lra|]. replace (w2 / (w1 + w2) * (w1 + w2)) with w2 by (field; lra). lra.
    + replace w0 with (1 - w1 - w2) by lra. destruct a, b, c. vec. f_equal; field; exact N2.
Qed.
Lemma emb_bary a b c w0 w1 w2 : w0 + w1 + w2 = 1 ->
  bary_to (w0, w1, w2) (P a) (P b) (P c) = P (w0 * fst a + w1 * fst b + w2 * fst c, w0 * snd a + w1 * snd b + w2 * snd c).
Proof. intro W. replace w0 with (1 - w1 - w2) by lra. destruct o, e1, e2. vec. f_equal; ring. Qed.
Lemma edges_hull us u : convex us -> (3 <= length us)%nat -> (forall a b, In (a, b) (edges2 us) -> 0 <= o2 a b u) -> hull (pts (map P us)) (P u).
Proof.
  intros CV L H. destruct (fan_tri us u L H) as [a [b [c [I [H1 [H2 H3]]]]]]. pose proof (convex_fan us CV _ _ _ I) as K.
  destruct (tri_weights a b c u K) as [E W]. rewrite E. rewrite <- emb_bary by exact W.
  apply (@fan_nth pt2 _ _ _ _ (0, 0)) in I as [i [L1 [L2 [-> [-> ->]]]]].
  assert (IR := Rinv_0_lt_compat _ K).
  apply hull_tri; try exact W; try (apply hull_pt; unfold pts; apply in_map, nth_In; lia); apply Rmult_le_pos; try assumption; left; exact IR.
Qed.

(** ** Barycentric coordinates *)
Lemma bary_frame a b c u h : 0 < o2 a b c ->
  bary_from (add (P u) (scale h nn)) (P a) (P b) (P c) = Some (o2 b c u / o2 a b c, o2 c a u / o2 a b c, o2 a b u / o2 a b c).
Proof.
  intro K. unfold bary_from.
  assert (D00 : dot (sub (P b) (P a)) (sub (P b) (P a)) = sq2 a b) by apply dot_emb.
  assert (D11 : dot (sub (P c) (P a)) (sub (P c) (P a)) = sq2 a c) by apply dot_emb.
  assert (D01 : dot (sub (P b) (P a)) (sub (P c) (P a)) = (fst b - fst a) * (fst c - fst a) + (snd b - snd a) * (snd c - snd a)).
  { assert (E : dot (sub (P b) (P a)) (sub (P c) (P a)) = (fst b - fst a) * (fst c - fst a) * dot e1 e1
      + ((fst b - fst a) * (snd c - snd a) + (snd b - snd a) * (fst c - fst a)) * dot e1 e2 + (snd b - snd a) * (snd c - snd a) * dot e2 e2) by (vec; ring).
    rewrite E, E11, E22, E12. ring. }
  assert (D2 : forall x, dot (sub (add (P u) (scale h nn)) (P a)) (sub (P x) (P a)) = (fst u - fst a) * (fst x - fst a) + (snd u - snd a) * (snd x - snd a)).
  { intro x. assert (E : dot (sub (add (P u) (scale h nn)) (P a)) (sub (P x) (P a)) = (fst u - fst a) * (fst x - fst a) * dot e1 e1
      + ((fst u - fst a) * (snd x - snd a) + (snd u - snd a) * (fst x - fst a)) * dot e1 e2 + (snd u - snd a) * (snd x - snd a) * dot e2 e2) by (unfold nn; vec; ring).
    rewrite E, E11, E22, E12. ring. }
  rewrite D00, D11, D01, !D2. unfold sq2.
  assert (Z : ((fst b - fst a) * (fst b - fst a) + (snd b - snd a) * (snd b - snd a)) * ((fst c - fst a) * (fst c - fst a) + (snd c - snd a) * (snd c - snd a)) -
     ((fst b - fst a) * (fst c - fst a) + (snd b - snd a) * (snd c - snd a)) * ((fst b - fst a) * (fst c - fst a) + (snd b - snd a) * (snd c - snd a)) = o2 a b c * o2 a b c)
     by (unfold o2; ring).
  rewrite Z. assert (NZ : o2 a b c * o2 a b c <> 0) by nra. rewrite (proj2 (is0_f _) NZ). destruct u as [x y]. simpl fst. simpl snd.
  assert (K1 : o2 a b c <> 0) by lra.
  assert (X1 : (((fst c - fst a) * (fst c - fst a) + (snd c - snd a) * (snd c - snd a)) * ((x - fst a) * (fst b - fst a) + (y - snd a) * (snd b - snd a)) -
       ((fst b - fst a) * (fst c - fst a) + (snd b - snd a) * (snd c - snd a)) * ((x - fst a) * (fst c - fst a) + (y - snd a) * (snd c - snd a))) *
      (1 / (o2 a b c * o2 a b c)) = o2 c a (x, y) / o2 a b c).
  { apply (Rmult_eq_reg_r (o2 a b c * o2 a b c)); [|exact NZ]. unfold Rdiv. rewrite !Rmult_assoc, !Rmult_1_l, Rinv_l, Rmult_1_r by exact NZ.
    replace (/ o2 a b c * (o2 a b c * o2 a b c)) with (o2 a b c) by (field; exact K1). unfold o2. simpl. ring. }
  assert (X2 : (((fst b - fst a) * (fst b - fst a) + (snd b - snd a) * (snd b - snd a)) * ((x - fst a) * (fst c - fst a) + (y - snd a) * (snd c - snd a)) -
       ((fst b - fst a) * (fst c - fst a) + (snd b - snd a) * (snd c - snd a)) * ((x - fst a) * (fst b - fst a) + (y - snd a) * (snd b - snd a))) *
      (1 / (o2 a b c * o2 a b c)) = o2 a b (x, y) / o2 a b c).
  { apply (Rmult_eq_reg_r (o2 a b c * o2 a b c)); [|exact NZ]. unfold Rdiv. rewrite !Rmult_assoc, !Rmult_1_l, Rinv_l, Rmult_1_r by exact NZ.
    replace (/ o2 a b c * (o2 a b c * o2 a b c)) with (o2 a b c) by (field; exact K1). unfold o2. simpl. ring. }
  rewrite X1, X2. f_equal. f_equal. f_equal. destruct (tri_weights a b c (x, y) K) as [_ W]. lra.
Qed.
Definition sturdy (t : vec * vec * vec) : Prop :=
  let '(a, b, c) := t in ZERO_TRI_AREA_EPSILON <= tri_area a b c /\ POINT_EQUAL_EPSILON <= distance b a /\ POINT_EQUAL_EPSILON <= distance c b /\ POINT_EQUAL_EPSILON <= distance a c.
Lemma tri_inside a b c u h : 0 < o2 a b c -> sturdy (P a, P b, P c) ->
  length (edge_planes [P a; P b; P c]) = 3%nat /\
  (point_inside (edge_planes [P a; P b; P c]) (add (P u) (scale h nn)) = true <->
   - (POINT_EQUAL_EPSILON * distance (P b) (P a)) <= o2 a b u /\ - (POINT_EQUAL_EPSILON * distance (P c) (P b)) <= o2 b c u /\
   - (POINT_EQUAL_EPSILON * distance (P a) (P c)) <= o2 c a u).
Proof.
  intros K [A [L1 [L2 L3]]].
  assert (F : fan_left [a; b; c]) by (intros x y z [X|[]]; injection X as <- <- <-; exact K).
  assert (I : In (P a, P b, P c) (fan (map P [a; b; c]))) by (left; reflexivity).
  split.
  - change [P a; P b; P c] with (map P [a; b; c]). rewrite (edge_planes_frame [a; b; c] (P a, P b, P c) F I A). unfold edges2. cbn [combine app map fst snd].
    unfold distance in *. unfold edge_plane_of. rewrite (proj2 (ltb_f _ _) L1), (proj2 (ltb_f _ _) L2), (proj2 (ltb_f _ _) L3). reflexivity.
  - change [P a; P b; P c] with (map P [a; b; c]). rewrite (inside_frame [a; b; c] (P a, P b, P c) u h F I A). unfold edges2. cbn [combine app In].
    unfold distance in *. split.
    + intros [_ H]. repeat apply conj; apply H; auto.
    + intros [H1 [H2 H3]]. split; [exists a, b; auto|]. intros x y [X|[X|[X|[]]]] _; injection X as <- <-; assumption.
Qed.
End Frame.

(** ** Interpolation *)
Lemma fan_split {A B} (l : list (A * B)) t : In t (fan (map fst l)) ->
  exists pn0 pn1 pn2, In (pn0, pn1, pn2) (fan l) /\ t = (fst pn0, fst pn1, fst pn2).
Proof. rewrite fan_map. intro H. apply in_map_iff in H as [[[a b] c] [<- H]]. exists a, b, c. auto. Qed.
Lemma interp_first ts p n : interp_fan ts p = Some n -> exists pre p0 n0 p1 n1 p2 n2 post b,
  ts = pre ++ ((p0, n0), (p1, n1), (p2, n2)) :: post /\ length (edge_planes [p0; p1; p2]) = 3%nat /\ point_inside (edge_planes [p0; p1; p2]) p = true /\
  bary_from p p0 p1 p2 = Some b /\ n = bary_to b n0 n1 n2.
Proof.
  induction ts as [|[[[p0 n0] [p1 n1]] [p2 n2]] r IH]; intro E; [discriminate|]. cbn [interp_fan] in E.
  assert (G : interp_fan r p = Some n -> exists pre q0 m0 q1 m1 q2 m2 post b,
    ((p0, n0), (p1, n1), (p2, n2)) :: r = pre ++ ((q0, m0), (q1, m1), (q2, m2)) :: post /\ length (edge_planes [q0; q1; q2]) = 3%nat /\ point_inside (edge_planes [q0; q1; q2]) p = true /\
    bary_from p q0 q1 q2 = Some b /\ n = bary_to b m0 m1 m2).
  { intro X. apply IH in X as [pre [q0 [m0 [q1 [m1 [q2 [m2 [post [b [-> Y]]]]]]]]]].
    exists (((p0, n0), (p1, n1), (p2, n2)) :: pre), q0, m0, q1, m1, q2, m2, post, b. split; [reflexivity|exact Y]. }
  destruct (Nat.eqb (length (edge_planes [p0; p1; p2])) 3) eqn:L3; cbn [negb] in E; [|apply G, E].
  destruct (point_inside (edge_planes [p0; p1; p2]) p) eqn:I; [|apply G, E].
  destruct (bary_from p p0 p1 p2) as [b|] eqn:B; [|apply G, E]. injection E as <-. apply Nat.eqb_eq in L3.
  exists [], p0, n0, p1, n1, p2, n2, r, b. auto.
Qed.
Lemma interp_reach pre p0 n0 p1 n1 p2 n2 post p b :
  (forall q0 m0 q1 m1 q2 m2, In ((q0, m0), (q1, m1), (q2, m2)) pre -> length (edge_planes [q0; q1; q2]) <> 3%nat \/ point_inside (edge_planes [q0; q1; q2]) p = false) ->
  length (edge_planes [p0; p1; p2]) = 3%nat -> point_inside (edge_planes [p0; p1; p2]) p = true -> bary_from p p0 p1 p2 = Some b ->
  interp_fan (pre ++ ((p0, n0), (p1, n1), (p2, n2)) :: post) p = Some (bary_to b n0 n1 n2).
Proof.
  intros H L I B. induction pre as [|[[[q0 m0] [q1 m1]] [q2 m2]] r IH].
  - cbn [app interp_fan]. rewrite L, I, B. reflexivity.
  - cbn [app interp_fan]. destruct (H q0 m0 q1 m1 q2 m2 (or_introl eq_refl)) as [X|X].
    + apply Nat.eqb_neq in X. rewrite X. cbn [negb]. apply IH. intros x0 y0 x1 y1 x2 y2 Z. apply (H x0 y0 x1 y1 x2 y2). right. exact Z.
    + rewrite X. destruct (negb _); apply IH; intros x0 y0 x1 y1 x2 y2 Z; apply (H x0 y0 x1 y1 x2 y2); right; exact Z.
Qed.
Lemma interp_some ts p p0 n0 p1 n1 p2 n2 b : In ((p0, n0), (p1, n1), (p2, n2)) ts -> length (edge_planes [p0; p1; p2]) = 3%nat ->
  point_inside (edge_planes [p0; p1; p2]) p = true -> bary_from p p0 p1 p2 = Some b -> interp_fan ts p <> None.
Proof.
  intros H L I B. induction ts as [|[[[q0 m0] [q1 m1]] [q2 m2]] r IH]; [destruct H|]. cbn [interp_fan]. destruct H as [H|H].
  - injection H as -> -> -> -> -> ->. rewrite L, I, B. discriminate.
  - specialize (IH H). destruct (negb _); [exact IH|]. destruct (point_inside (edge_planes [q0; q1; q2]) p); [|exact IH]. destruct (bary_from p q0 q1 q2); [discriminate|exact IH].
Qed.

(** ** Area and centroid *)
Section Closed.
Context {A : Type} (f : A -> A -> R) (anti : forall a b, f a b = - f b a).
Definition sumf (l : list (A * A)) : R := fold_right (fun e acc => f (fst e) (snd e) + acc) 0 l.
Definition triF (t : A * A * A) : R := let '(a, b, c) := t in f a b + f b c + f c a.
Definition sumF (l : list (A * A * A)) : R := fold_right (fun t acc => triF t + acc) 0 l.
Definition ring2 (l : list A) : list (A * A) := match l with [] => [] | a :: r => combine l (r ++ [a]) end.
Lemma sumf_app x y : sumf (x ++ y) = sumf x + sumf y.
Proof. induction x as [|a x IH]; [change (sumf y = 0 + sumf y); ring|]. change (f (fst a) (snd a) + sumf (x ++ y) = f (fst a) (snd a) + sumf x + sumf y). rewrite IH. ring. Qed.
Lemma fan_from_sum u0 : forall r u1, sumF (fan_from u0 u1 r) = f u0 u1 + sumf (combine (u1 :: r) (r ++ [u0])).
Proof.
  induction r as [|u2 r IH]; intro u1; simpl.
  - rewrite (anti u0 u1). ring.
  - rewrite IH. simpl. rewrite (anti u2 u0). ring.
Qed.
Lemma fan_sum l : sumF (fan l) = sumf (ring2 l) - match l with [a] => f a a | [a; b] => 0 | _ => 0 end.
Proof.
  destruct l as [|u0 [|u1 r]]; [simpl; ring|simpl; ring|]. unfold fan, ring2. rewrite fan_from_sum. cbn [combine app sumf fold_right fst snd].
  destruct r; unfold sumf; simpl; ring.
Qed.
Lemma combine_app (a b c d : list A) : length a = length c -> combine (a ++ b) (c ++ d) = combine a c ++ combine b d.
Proof. revert c. induction a as [|x a IH]; intros [|y c] L; try discriminate; [reflexivity|]. simpl. rewrite IH; [reflexivity|]. simpl in L. lia. Qed.
Lemma ring_rot a l : sumf (ring2 (l ++ [a])) = sumf (ring2 (a :: l)).
Proof.
  destruct l as [|b l]; [reflexivity|].
  change (ring2 ((b :: l) ++ [a])) with (combine ((b :: l) ++ [a]) ((l ++ [a]) ++ [b])).
  change (ring2 (a :: b :: l)) with ((a, b) :: combine (b :: l) (l ++ [a])).
  rewrite combine_app by (rewrite app_length; cbn [length]; lia). rewrite sumf_app. unfold sumf at 2 3. simpl. unfold sumf. ring.
Qed.
End Closed.
Definition c2 (a b : pt2) : R := fst a * snd b - snd a * fst b.
Definition m2x (a b : pt2) : R := c2 a b * (fst a + fst b).
Definition m2y (a b : pt2) : R := c2 a b * (snd a + snd b).
Definition rot {A} (l : list A) : list A := match l with [] => [] | a :: r => r ++ [a] end.
Lemma convex_rot us : convex us -> convex (rot us).
Proof.
  destruct us as [|a r]; [intros _ i j k _ _ L; simpl in L; lia|]. intros CV i j k H1 H2 L. unfold rot in *. rewrite app_length in L. cbn [length] in L.
  rewrite (app_nth1 r [a] (0, 0) (n := i)) by lia. rewrite (app_nth1 r [a] (0, 0) (n := j)) by lia.
  destruct (Nat.eq_dec k (length r)) as [->|N].
  - rewrite app_nth2, Nat.sub_diag by lia. rewrite <- o2_cyc. apply (CV 0%nat (S i) (S j)); cbn [length]; lia.
  - rewrite app_nth1 by lia. apply (CV (S i) (S j) (S k)); cbn [length]; lia.
Qed.
Section FrameArea.
Context (o e1 e2 : vec) (E11 : dot e1 e1 = 1) (E22 : dot e2 e2 = 1) (E12 : dot e1 e2 = 0).
Notation P := (emb o e1 e2).
Definition shoe (us : list pt2) : R := sumf c2 (edges2 us).
Lemma area_frame us : fan_left us -> poly_area (map P us) = 1 / 2 * sumF c2 (fan us).
Proof.
  intro F. unfold poly_area. rewrite fan_map. unfold fan_left in F. induction (fan us) as [|[[a b] c] l IH]; [simpl; ring|].
  cbn [map fold_right]. rewrite IH by (intros; apply F; right; assumption). unfold tri_area'.
  rewrite (area_emb o e1 e2 E11 E22 E12) by (left; apply F; left; reflexivity). cbn [sumF fold_right triF]. unfold sumF, o2, c2. ring.
Qed.
Lemma moment_frame us : fan_left us -> poly_moment (map P us) =
  add (scale (1 / 2 * sumF c2 (fan us)) o) (add (scale (1 / 6 * sumF m2x (fan us)) e1) (scale (1 / 6 * sumF m2y (fan us)) e2)).
Proof.
  intro F. unfold poly_moment. rewrite fan_map. unfold fan_left in F. induction (fan us) as [|[[a b] c] l IH].
  - cbn [map fold_right sumF]. unfold zero. destruct o, e1, e2. unfold add, scale. simpl. f_equal; ring.
  - cbn [map fold_right]. rewrite IH by (intros; apply F; right; assumption). unfold tri_moment.
    rewrite (area_emb o e1 e2 E11 E22 E12) by (left; apply F; left; reflexivity).
    change (sumF c2 ((a, b, c) :: l)) with (triF c2 (a, b, c) + sumF c2 l).
    change (sumF m2x ((a, b, c) :: l)) with (triF m2x (a, b, c) + sumF m2x l).
    change (sumF m2y ((a, b, c) :: l)) with (triF m2y (a, b, c) + sumF m2y l).
    generalize (sumF c2 l), (sumF m2x l), (sumF m2y l). intros s1 s2 s3. destruct a, b, c. clear. unfold triF, m2x, m2y, c2, o2, emb. destruct o, e1, e2.
    unfold add, scale. simpl. f_equal; field.
Qed.
Lemma c2_anti a b : c2 a b = - c2 b a. Proof. unfold c2. ring. Qed.
Lemma m2x_anti a b : m2x a b = - m2x b a. Proof. unfold m2x, c2. ring. Qed.
Lemma m2y_anti a b : m2y a b = - m2y b a. Proof. unfold m2y, c2. ring. Qed.
Lemma fan_rot (f : pt2 -> pt2 -> R) us : (forall a b, f a b = - f b a) -> sumF f (fan (rot us)) = sumF f (fan us).
Proof.
  intro H. assert (Z : forall a : pt2, f a a = 0) by (intro a; specialize (H a a); lra).
  assert (G : forall l, sumF f (fan l) = sumf f (ring2 l)).
  { intro l. rewrite fan_sum by exact H. destruct l as [|a [|b [|c l]]]; rewrite ?Z; ring. }
  rewrite !G. destruct us as [|a l]; [reflexivity|]. apply ring_rot.
Qed.
Lemma area_pos us : convex us -> (3 <= length us)%nat -> 0 < poly_area (map P us).
Proof.
  intros CV L. destruct us as [|a [|b [|c r]]]; try (simpl in L; lia). pose proof (convex_fan _ CV) as F.
  unfold poly_area. rewrite fan_map. cbn [fan fan_from map fold_right]. unfold tri_area' at 1.
  rewrite (area_emb o e1 e2 E11 E22 E12) by (left; apply F; left; reflexivity).
  assert (K : 0 < o2 a b c) by (apply F; left; reflexivity).
  match goal with |- 0 < _ + ?s => assert (0 <= s) end; [|lra].
  clear. induction (fan_from a c r) as [|[[x y] z] l IH]; simpl; [lra|]. unfold tri_area at 1.
  match goal with |- context [len ?v] => pose proof (len_pos v) end. lra.
Qed.
End FrameArea.
Lemma tri_area_pos t : 0 <= tri_area' t.
Proof. destruct t as [[a b] c]. unfold tri_area', tri_area. match goal with |- context [len ?v] => pose proof (len_pos v) end. lra. Qed.
Lemma moment_hull (S : vec -> Prop) ts : (forall a b c, In (a, b, c) ts -> S a /\ S b /\ S c) ->
  let A := fold_right (fun t acc => tri_area' t + acc) 0 ts in let M := fold_right (fun t acc => add (tri_moment t) acc) zero ts in
  A = 0 /\ M = zero \/ 0 < A /\ hull S (scale (/ A) M).
Proof.
  induction ts as [|[[a b] c] r IH]; intro H; cbn zeta; [left; split; reflexivity|]. cbn [fold_right].
  specialize (IH (fun x y z X => H x y z (or_intror X))). cbn zeta in IH.
  destruct (H a b c (or_introl eq_refl)) as [HA [HB HC]].
  set (A := fold_right (fun t acc => tri_area' t + acc) 0 r) in *. set (M := fold_right (fun t acc => add (tri_moment t) acc) zero r) in *.
  pose proof (tri_area_pos (a, b, c)) as TP. cbn [tri_area' tri_moment] in *. set (k := tri_area a b c) in *.
  assert (HT : hull S (scale (1 / 3) (add (add a b) c))).
  { replace (scale (1 / 3) (add (add a b) c)) with (bary_to (1 / 3, 1 / 3, 1 / 3) a b c) by (destruct a, b, c; vec; f_equal; ring).
    apply hull_tri; try (apply hull_pt; assumption); lra. }
  set (g := scale (1 / 3) (add (add a b) c)) in *. destruct TP as [KP|K0].
  - right. destruct IH as [[E1 E2]|[AP HM]].
    + rewrite E1, E2. split; [lra|]. replace (scale (/ (k + 0)) (add (scale k g) zero)) with g; [exact HT|]. destruct g. vec. f_equal; field; lra.
    + split; [lra|]. replace (scale (/ (k + A)) (add (scale k g) M)) with (mix (A / (k + A)) g (scale (/ A) M)).
      * apply hull_mix; [|exact HT|exact HM]. split; [apply Rmult_le_pos; [lra|left; apply Rinv_0_lt_compat; lra]|].
        apply (Rmult_le_reg_r (k + A)); [lra|]. replace (A / (k + A) * (k + A)) with A by (field; lra). lra.
      * destruct g, M. vec. f_equal; field; lra.
  - rewrite <- K0. replace (add (scale 0 g) M) with M by (destruct g, M; vec; f_equal; ring). rewrite Rplus_0_l. exact IH.
Qed.
Lemma fan_in {A} (l : list A) a b c : In (a, b, c) (fan l) -> In a l /\ In b l /\ In c l.
Proof. intro H. pose proof H as H0. apply (fan_nth _ _ _ _ a) in H as [i [L1 [L2 [E1 [E2 E3]]]]]. rewrite E1 at 1. rewrite E2, E3. repeat apply conj; apply nth_In; lia. Qed.

(** ** Tangents *)
Lemma axis_big n : n <> zero -> match axis_of n with 0%nat => vx n <> 0 | 1%nat => vy n <> 0 | 2%nat => vz n <> 0 | _ => False end.
Proof.
  intro H. unfold axis_of. destruct (ltb 0 (Rabs (vx n))) eqn:L0; cbn zeta.
  - apply ltb_t in L0. destruct (ltb (Rabs (vx n)) (Rabs (vy n))) eqn:L1.
    + apply ltb_t in L1. destruct (ltb (Rabs (vy n)) (Rabs (vz n))) eqn:L2.
      * apply ltb_t in L2. intro E. rewrite E, Rabs_R0 in L2. lra.
      * intro E. rewrite E, Rabs_R0 in L1. lra.
    + destruct (ltb (Rabs (vx n)) (Rabs (vz n))) eqn:L2.
      * apply ltb_t in L2. intro E. rewrite E, Rabs_R0 in L2. lra.
      * intro E. rewrite E, Rabs_R0 in L0. lra.
  - apply ltb_f in L0. assert (X : vx n = 0).
    { pose proof (Rabs_pos (vx n)). destruct (Req_EM_T (vx n) 0) as [E|E]; [exact E|]. apply Rabs_pos_lt in E. lra. }
    destruct (ltb 0 (Rabs (vy n))) eqn:L1.
    + apply ltb_t in L1. destruct (ltb (Rabs (vy n)) (Rabs (vz n))) eqn:L2.
      * apply ltb_t in L2. intro E. rewrite E, Rabs_R0 in L2. lra.
      * intro E. rewrite E, Rabs_R0 in L1. lra.
    + apply ltb_f in L1. assert (Y : vy n = 0).
      { pose proof (Rabs_pos (vy n)). destruct (Req_EM_T (vy n) 0) as [E|E]; [exact E|]. apply Rabs_pos_lt in E. lra. }
      destruct (ltb 0 (Rabs (vz n))) eqn:L2.
      * apply ltb_t in L2. intro E. rewrite E, Rabs_R0 in L2. lra.
      * apply ltb_f in L2. exfalso. apply H. assert (Z : vz n = 0).
        { pose proof (Rabs_pos (vz n)). destruct (Req_EM_T (vz n) 0) as [E|E]; [exact E|]. apply Rabs_pos_lt in E. lra. }
        destruct n. simpl in *. subst. reflexivity.
Qed.
Lemma tangents_spec n t b : n <> zero -> tangents n = (t, b) -> dot t n = 0 /\ dot b n = 0 /\ 0 < dot (cross t b) n.
Proof.
  intros H E. pose proof (axis_big n H) as B. pose proof (dot_pos n) as DP.
  assert (NP : 0 < dot n n) by (destruct DP as [D|D]; [exact D|exfalso; apply H, dot_zero; symmetry; exact D]).
  unfold tangents in E. cbn zeta in E.
  destruct (axis_of n) as [|[|[|?]]]; [..|contradiction]; cbn [Nat.add] in E;
    [change (1 mod 3) with 1%nat in E; change (2 mod 3) with 2%nat in E|change (2 mod 3) with 2%nat in E; change (3 mod 3) with 0%nat in E|
     change (3 mod 3) with 0%nat in E; change (4 mod 3) with 1%nat in E]; cbn [axis_vec] in E;
    match type of E with (if ltb ?x 0 then _ else _) = _ => destruct (ltb x 0) eqn:L end; injection E as <- <-;
    [apply ltb_t in L|apply ltb_f in L|apply ltb_t in L|apply ltb_f in L|apply ltb_t in L|apply ltb_f in L];
    destruct n as [x y z]; unfold dot, cross in *; simpl in *; (refine (conj _ (conj _ _)); [ring|ring|]); nra.
Qed.

(** ** The choice of an edge *)
Lemma edge_past_pos a b p : 0 <= edge_past a b p.
Proof.
  unfold edge_past. pose proof (len_pos (sub b a)). destruct (ltb _ 0) eqn:L0; [apply Rmult_le_pos; [apply Rabs_pos|assumption]|].
  destruct (ltb 1 _) eqn:L1; [|lra]. apply ltb_t in L1. apply Rmult_le_pos; lra.
Qed.
Definition behind (n : vec) (p : vec) (e : vec * vec) : Prop :=
  exists pl, edge_plane_of n (fst e) (snd e) = Some pl /\ dist_to pl p < POINT_EQUAL_EPSILON.
Lemma choose_spec n p es : forall i best k d, choose_from i best n es p = Some (k, d) ->
  (best = Some (k, d) \/ exists a b, (i <= k)%nat /\ nth_error es (k - i) = Some (a, b) /\ behind n p (a, b) /\ d = edge_past a b p) /\
  (forall j x, best = Some (j, x) -> d <= x) /\ (forall a b, In (a, b) es -> behind n p (a, b) -> d <= edge_past a b p).
Proof.
  induction es as [|[a b] r IH]; intros i best k d E; cbn [choose_from] in E.
  - subst. refine (conj (or_introl eq_refl) (conj _ _)); [intros j x X; injection X as <- <-; lra|intros ? ? []].
  - apply IH in E as [A [B C]]. clear IH.
    assert (SH : forall m, m = best -> (m = Some (k, d) \/ (exists a0 b0, (S i <= k)%nat /\ nth_error r (k - S i) = Some (a0, b0) /\ behind n p (a0, b0) /\ d = edge_past a0 b0 p)) ->
        best = Some (k, d) \/ exists a0 b0, (i <= k)%nat /\ nth_error ((a, b) :: r) (k - i) = Some (a0, b0) /\ behind n p (a0, b0) /\ d = edge_past a0 b0 p).
    { intros m -> [X|[x [y [X1 X2]]]]; [left; exact X|right; exists x, y]. replace (k - i)%nat with (S (k - S i)) by lia. split; [lia|exact X2]. }
    assert (SG : behind n p (a, b) -> (Some (i, edge_past a b p) = Some (k, d) \/ (exists a0 b0, (S i <= k)%nat /\ nth_error r (k - S i) = Some (a0, b0) /\ behind n p (a0, b0) /\ d = edge_past a0 b0 p)) ->
        best = Some (k, d) \/ exists a0 b0, (i <= k)%nat /\ nth_error ((a, b) :: r) (k - i) = Some (a0, b0) /\ behind n p (a0, b0) /\ d = edge_past a0 b0 p).
    { intros BH [X|[x [y [X1 X2]]]]; right; [injection X as <- <-; exists a, b; rewrite Nat.sub_diag; split; [lia|split; [reflexivity|split; [exact BH|reflexivity]]]|exists x, y].
      replace (k - i)%nat with (S (k - S i)) by lia. split; [lia|exact X2]. }
    destruct (edge_plane_of n a b) as [pl|] eqn:EP.
    + destruct (ltb (dist_to pl p) POINT_EQUAL_EPSILON) eqn:L.
      * apply ltb_t in L. assert (BH : behind n p (a, b)) by (exists pl; auto).
        destruct best as [[j x]|]; [destruct (ltb (edge_past a b p) x) eqn:LX|].
        -- apply ltb_t in LX. specialize (B _ _ eq_refl). refine (conj (SG BH A) (conj _ _)); [intros j' x' X; injection X as <- <-; lra|].
           intros a' b' [X|X] Y; [injection X as <- <-; lra|apply C; assumption].
        -- apply ltb_f in LX. specialize (B _ _ eq_refl). refine (conj (SH _ eq_refl A) (conj _ _)); [intros j' x' X; injection X as <- <-; lra|].
           intros a' b' [X|X] Y; [injection X as <- <-; lra|apply C; assumption].
        -- specialize (B _ _ eq_refl). refine (conj (SG BH A) (conj _ _)); [discriminate|].
           intros a' b' [X|X] Y; [injection X as <- <-; lra|apply C; assumption].
      * apply ltb_f in L. refine (conj (SH _ eq_refl A) (conj B _)). intros a' b' [X|X] Y; [|apply C; assumption]. injection X as <- <-.
        destruct Y as [pl' [Y1 Y2]]. simpl in Y1. rewrite EP in Y1. injection Y1 as <-. lra.
    + refine (conj (SH _ eq_refl A) (conj B _)). intros a' b' [X|X] Y; [|apply C; assumption]. injection X as <- <-.
      destruct Y as [pl' [Y1 Y2]]. simpl in Y1. congruence.
Qed.
Lemma choose_some n p es : forall i best, (best <> None \/ exists e, In e es /\ behind n p e) -> choose_from i best n es p <> None.
Proof.
  induction es as [|[a b] r IH]; intros i best H; cbn [choose_from]; [destruct H as [H|[e [[] _]]]; exact H|]. apply IH.
  destruct H as [H|[e [[<-|H] Y]]].
  - left. destruct best as [[j x]|]; [|contradiction]. destruct (edge_plane_of n a b); [destruct (ltb _ _); [destruct (ltb _ _)|]|]; discriminate.
  - left. destruct Y as [pl [Y1 Y2]]. simpl in Y1. rewrite Y1. rewrite (proj2 (ltb_t _ _) Y2). destruct best as [[j x]|]; [destruct (ltb _ _)|]; discriminate.
  - right. exists e. auto.
Qed.
