(* Model of DivideBounds (qbsp/brushbsp.cc:783-834) and SplitPlaneMetric (837-846): the bounds of the two sides of a plane in a box, and how
   different their volumes are.  Numbers are rational, without rounding; a quotient by zero, which is not a number, is None. *)
From Coq Require Import List Arith QArith Qabs Bool.
Import ListNotations.
Local Open Scope Q_scope.

Definition ltb (a b : Q) : bool := negb (Qle_bool b a).
(** std::min and std::max. *)
Definition min2 (a b : Q) : Q := if ltb b a then b else a.
Definition max2 (a b : Q) : Q := if ltb a b then b else a.
Definition vec : Type := nat -> Q.
Definition dot (n x : vec) : Q := n 0%nat * x 0%nat + n 1%nat * x 1%nat + n 2%nat * x 2%nat.
(** mins and maxs; in_bounds[0] and in_bounds[1] (792, 812-820). *)
Definition box : Type := vec * vec.
Definition side (b : box) (i : bool) : vec := if i then snd b else fst b.
Definition set (v : vec) (a : nat) (x : Q) : vec := fun k => if Nat.eqb k a then x else v k.
(** The corner with the given coordinates on the axes a, b and c (807-808, 813-820). *)
Definition corner (a : nat) (va vb vc : Q) : vec := fun k => if Nat.eqb k a then va else if Nat.eqb k ((a + 1) mod 3) then vb else vc.

Section Divide.
Variables (n : vec) (d : Q) (eps : Q) (bx : box).

(** Where the plane meets an edge along the axis a (817-825); dist1 - dist2 is zero if the box is flat. *)
Definition mid (a : nat) (ij : bool * bool) : option Q :=
  let at_ v := dot n (corner a v (side bx (fst ij) ((a + 1) mod 3)) (side bx (snd ij) ((a + 2) mod 3))) - d in
  let dist1 := at_ (fst bx a) in
  let dist2 := at_ (snd bx a) in
  if Qeq_bool (dist1 - dist2) 0 then None
  else Some ((snd bx a - fst bx a) * (dist1 / (dist1 - dist2)) + fst bx a).
Definition corners : list (bool * bool) := [(false, false); (false, true); (true, false); (true, true)].
(** split_mins and split_maxs (810-830). *)
Definition cut (a : nat) : option (Q * Q) :=
  fold_left (fun s ij => match s, mid a ij with
    | Some (s1, s2), Some m => Some (max2 (min2 m s1) (fst bx a), min2 (max2 m s2) (snd bx a))
    | _, _ => None
    end) corners (Some (snd bx a, fst bx a)).
(** One turn of the loop over the axes (802-833): the bounds in front of the plane and behind it. *)
Definition turn (s : option (box * box)) (a : nat) : option (box * box) :=
  match s with
  | None => None
  | Some (f, b) =>
      if ltb (Qabs (n a)) eps then s
      else match cut a with
        | None => None
        | Some (s1, s2) => if ltb 0 (n a) then Some ((set (fst f) a s1, snd f), (fst b, set (snd b) a s2))
                           else Some ((fst f, set (snd f) a s2), (set (fst b) a s1, snd b))
        end
  end.
(** DivideBounds; the axis of an axial plane (791-795). *)
Definition divide (axial : option nat) : option (box * box) :=
  match axial with
  | Some t => Some ((set (fst bx) t d, snd bx), (fst bx, set (snd bx) t d))
  | None => fold_left turn [0; 1; 2]%nat (Some (bx, bx))
  end.
End Divide.

(** aabb3d::volume (include/common/aabb.hh). *)
Definition volume (b : box) : Q := (snd b 0%nat - fst b 0%nat) * (snd b 1%nat - fst b 1%nat) * (snd b 2%nat - fst b 2%nat).
(** SplitPlaneMetric (837-846). *)
Definition metric (n : vec) (d eps : Q) (bx : box) (axial : option nat) : option Q :=
  match divide n d eps bx axial with Some (f, b) => Some (Qabs (volume f - volume b)) | None => None end.
