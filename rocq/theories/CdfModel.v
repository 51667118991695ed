(* Model of MakeCDF and SampleCDF (common/mathlib.cc:94-135), which choose a triangle of a polygon for a random point (286-323).
   Numbers are rational, without rounding; a quotient by zero is not a number and is None. *)
From Coq Require Import List Arith QArith Bool.
Import ListNotations.
Local Open Scope Q_scope.

(** NormalizePDF (94-108): the sum, and each value divided by it. *)
Definition total (pdf : list Q) : Q := fold_left Qplus pdf 0.
Definition normalize (pdf : list Q) : option (list Q) :=
  if Qeq_bool (total pdf) 0 then match pdf with [] => Some [] | _ => None end else Some (map (fun v => v / total pdf) pdf).
(** MakeCDF (110-121): the sums so far. *)
Fixpoint sums (acc : Q) (l : list Q) : list Q :=
  match l with [] => [] | v :: l => (acc + v) :: sums (acc + v) l end.
Definition make_cdf (pdf : list Q) : option (list Q) := match normalize pdf with None => None | Some l => Some (sums 0 l) end.
(** SampleCDF (123-135); None: Q_assert_unreachable. *)
Fixpoint sample_from (i : nat) (cdf : list Q) (s : Q) : option nat :=
  match cdf with [] => None | c :: cdf => if Qle_bool s c then Some i else sample_from (S i) cdf s end.
Definition sample_cdf (cdf : list Q) (s : Q) : option nat := sample_from 0 cdf s.

(** qv::Barycentric_Random (include/common/qvec.hh:676-684); the square root of the first number is given. *)
Definition bary (root r : Q) : Q * Q * Q := let a := 1 - root in let b := r * root in (a, b, 1 - a - b).
Definition pt : Type := Q * Q * Q.
Definition scale (p : pt) (s : Q) : pt := let '(x, y, z) := p in (x * s, y * s, z * s).
Definition plus (p q : pt) : pt := let '(x, y, z) := p in let '(x', y', z') := q in (x + x', y + y', z + z').
(** Barycentric_ToPoint (include/common/qvec.hh:687-692). *)
Definition to_point (w : Q * Q * Q) (t0 t1 t2 : pt) : pt := let '(a, b, c) := w in plus (plus (scale t0 a) (scale t1 b)) (scale t2 c).
(** PolyRandomPoint (common/mathlib.cc:312-327), with the table of the areas of the triangles; None: an assertion or at() fails. *)
Definition random_point (points : list pt) (cdf : list Q) (r1 root r3 : Q) : option pt :=
  match sample_cdf cdf r1 with
  | None => None
  | Some k =>
      match nth_error points 0, nth_error points (1 + k), nth_error points (2 + k) with
      | Some t0, Some t1, Some t2 => Some (to_point (bary root r3) t0 t1 t2)
      | _, _, _ => None
      end
  end.
