(* Lemmas about transformations of the brushes of a map. *)
From Coq Require Import Reals List ZArith Bool Arith Lra Lia Psatz.
From Verif Require Import WindClipModel SideOutModel SideOutProofs XformModel.
Import ListNotations.
Open Scope R_scope.

Definition det (m : mat) : R := dot (cross (r0 m) (r1 m)) (r2 m).
Definition iso (m : mat) : Prop := forall u v, dot (mul m u) (mul m v) = dot u v.

Ltac vs := unfold mul, mmul, col, diag, det, dot, cross, sub, add, scale in *; cbn [vx vy vz r0 r1 r2] in *.

Lemma mul_mmul a b v : mul (mmul a b) v = mul a (mul b v).
Proof. destruct a as [[] [] []], b as [[] [] []], v. vs. f_equal; ring. Qed.
Lemma det_mmul a b : det (mmul a b) = det a * det b.
Proof. destruct a as [[] [] []], b as [[] [] []]. vs. ring. Qed.
Lemma iso_mmul a b : iso a -> iso b -> iso (mmul a b).
Proof. intros A B u v. rewrite !mul_mmul. rewrite A. apply B. Qed.
Lemma sc t : cos t * cos t = 1 - sin t * sin t.
Proof. pose proof (sin2_cos2 t) as H. unfold Rsqr in H. lra. Qed.
Lemma about_x_ok t : iso (about_x t) /\ det (about_x t) = 1.
Proof.
  pose proof (sin2_cos2 t) as H. unfold Rsqr in H. unfold about_x. set (s := sin t) in *. set (c := cos t) in *. clearbody s c. split; [intros [u1 u2 u3] [v1 v2 v3]|]; vs.
  - replace (u1 * v1 + u2 * v2 + u3 * v3) with (u1 * v1 + (s * s + c * c) * (u2 * v2 + u3 * v3)) by (rewrite H; ring). ring.
  - transitivity (s * s + c * c); [ring|exact H].
Qed.
Lemma about_y_ok t : iso (about_y t) /\ det (about_y t) = 1.
Proof.
  pose proof (sin2_cos2 t) as H. unfold Rsqr in H. unfold about_y. set (s := sin t) in *. set (c := cos t) in *. clearbody s c. split; [intros [u1 u2 u3] [v1 v2 v3]|]; vs.
  - replace (u1 * v1 + u2 * v2 + u3 * v3) with (u2 * v2 + (s * s + c * c) * (u1 * v1 + u3 * v3)) by (rewrite H; ring). ring.
  - transitivity (s * s + c * c); [ring|exact H].
Qed.
Lemma about_z_ok t : iso (about_z t) /\ det (about_z t) = 1.
Proof.
  pose proof (sin2_cos2 t) as H. unfold Rsqr in H. unfold about_z. set (s := sin t) in *. set (c := cos t) in *. clearbody s c. split; [intros [u1 u2 u3] [v1 v2 v3]|]; vs.
  - replace (u1 * v1 + u2 * v2 + u3 * v3) with (u3 * v3 + (s * s + c * c) * (u1 * v1 + u2 * v2)) by (rewrite H; ring). ring.
  - transitivity (s * s + c * c); [ring|exact H].
Qed.
Definition turns (m : mat) : Prop := forall u v, mul m (cross u v) = cross (mul m u) (mul m v).
Lemma turns_mmul a b : turns a -> turns b -> turns (mmul a b).
Proof. intros A B u v. rewrite !mul_mmul, B. apply A. Qed.
Lemma about_turns t : turns (about_x t) /\ turns (about_y t) /\ turns (about_z t).
Proof.
  pose proof (sin2_cos2 t) as H. unfold Rsqr in H. unfold about_x, about_y, about_z. set (s := sin t) in *. set (c := cos t) in *. clearbody s c.
  split; [|split]; intros [u1 u2 u3] [v1 v2 v3]; vs; f_equal; try ring.
  - transitivity ((s * s + c * c) * (u2 * v3 - u3 * v2)); [rewrite H|]; ring.
  - transitivity ((s * s + c * c) * (u3 * v1 - u1 * v3)); [rewrite H|]; ring.
  - transitivity ((s * s + c * c) * (u1 * v2 - u2 * v1)); [rewrite H|]; ring.
Qed.
Lemma rotation_turns a : turns (rotation a).
Proof. unfold rotation. apply turns_mmul; [apply turns_mmul|]; apply about_turns. Qed.
Lemma rotation_ok a : iso (rotation a) /\ det (rotation a) = 1.
Proof.
  unfold rotation. destruct (about_z_ok (deg2rad (vy a))), (about_y_ok (deg2rad (vx a))), (about_x_ok (deg2rad (vz a))). split.
  - apply iso_mmul; [apply iso_mmul|]; assumption.
  - rewrite !det_mmul. rewrite H0, H2, H4. ring.
Qed.

(** The normal of three points before it is normalized. *)
Definition spanned (p : vec * vec * vec) : vec := let '(a, b, c) := p in cross (sub a b) (sub c b).
Definition zero : vec := mkV 0 0 0.

(** Moving the three points by a linear map and an offset multiplies the distance by the determinant. *)
Lemma moved_plane m o pts p : spanned pts <> zero -> det m <> 0 ->
  let T := fun q => add (mul m q) o in
  spanned (map_pts T pts) <> zero /\
  exists k, 0 < k /\ dist_to (points_plane (map_pts T pts)) (T p) = det m * k * dist_to (points_plane pts) p.
Proof.
  intros N D T. destruct pts as [[a b] c]. unfold spanned in *. cbn [map_pts].
  set (n := cross (sub a b) (sub c b)) in *. set (n' := cross (sub (T a) (T b)) (sub (T c) (T b))).
  assert (E : forall w, dot n' (mul m w) = det m * dot n w).
  { intros w. unfold n', n, T. destruct m as [[] [] []], a, b, c, o, w. vs. ring. }
  assert (N' : n' <> zero).
  { intros Z. assert (dot n n = 0).
    { apply (Rmult_eq_reg_l (det m)); [|exact D]. rewrite <- E, Z. unfold zero. vs. ring. }
    apply N. apply len_zero. unfold len. rewrite H. apply sqrt_0. }
  split; [exact N'|].
  pose proof (len_nonzero n N) as L. pose proof (len_nonzero n' N') as L'.
  exists (len n / len n'). split; [apply Rdiv_lt_0_compat; assumption|].
  unfold points_plane. fold n n'. unfold dist_to. cbn [p_n p_d].
  rewrite (proj2 (normalize_one n N)), (proj2 (normalize_one n' N')).
  assert (X : forall q k w, dot q (scale k w) = k * dot q w) by (intros q k w; destruct q, w; vs; ring).
  assert (S1 : forall q r w, dot q w - dot r w = dot w (sub q r)) by (intros q r w; destruct q, r, w; vs; ring).
  rewrite !X. replace (/ len n' * dot (T p) n' - / len n' * dot (T b) n') with (/ len n' * (dot (T p) n' - dot (T b) n')) by ring.
  replace (/ len n * dot p n - / len n * dot b n) with (/ len n * (dot p n - dot b n)) by ring. rewrite !S1.
  replace (sub (T p) (T b)) with (mul m (sub p b)) by (unfold T; destruct m as [[] [] []], p, b, o; vs; f_equal; ring).
  rewrite E. field. lra.
Qed.

Lemma det_diag s : det (diag s) = vx s * vy s * vz s.
Proof. destruct s. vs. ring. Qed.
