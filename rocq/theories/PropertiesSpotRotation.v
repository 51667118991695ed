(* Statements: the rotations of projected textures (C150). *)
From Coq Require Import Reals Nsatz Lra.
From Verif Require Import SpotModel.
Open Scope R_scope.
(** The matrix of a rotation keeps its axis, lengths and angles, and turns what is perpendicular to the axis by the angle. *)
Definition dot4 (a b : v4) : R := let '(x, y, z, w) := a in let '(x', y', z', w') := b in x * x' + y * y' + z * z' + w * w'.
Theorem C150_rotation : forall a x y z, x * x + y * y + z * z = 1 ->
  app4 (rotation a x y z) (x, y, z, 0) = (x, y, z, 0) /\
  (forall v w, dot4 (app4 (rotation a x y z) v) (app4 (rotation a x y z) w) = dot4 v w) /\
  (forall p q r, p * x + q * y + r * z = 0 -> dot4 (p, q, r, 0) (app4 (rotation a x y z) (p, q, r, 0)) = cos (a * PI / 180) * (p * p + q * q + r * r)).
Proof.
  intros a x y z U. unfold rotation, app4, add4, scale4, dot4. set (t := a * PI / 180). pose proof (sin2_cos2 t) as SC. unfold Rsqr in SC. set (c := cos t) in *. set (s := sin t) in *. split; [|split].
  - f_equal; [f_equal; [f_equal|]|]; nsatz.
  - intros (((p, q), r), k) (((p', q'), r'), k'). nsatz.
  - intros p q r O. nsatz.
Qed.
Print Assumptions C150_rotation.

Example C150_rotation_nontrivial : app4 (rotation 0 0 0 1) (1, 2, 3, 0) = (1, 2, 3, 0).
Proof. unfold rotation, app4, add4, scale4. replace (0 * PI / 180) with 0 by field. rewrite cos_0, sin_0. f_equal; [f_equal; [f_equal|]|]; ring. Qed.
