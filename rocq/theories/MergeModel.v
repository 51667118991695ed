(* Merging of faces: qbsp/merge.cc:54-212, qbsp/csg.cc:49-62 (NewFaceFromFace).  Real numbers stand for
   double (no rounding). *)
From Coq Require Import Reals List ZArith Bool Arith.
From Verif Require Import WindClipModel.
Import ListNotations.
Open Scope R_scope.

(** face_t: planenum, texinfo, original_side->lmshift, whether contents[0] is a liquid and sky, the
    other fields of contents and original_side, and the winding.  origin and radius are not modelled
    (UpdateFaceSphere computes them anew). *)
Record face := mkFace { f_plane : Z; f_tex : Z; f_shift : Z; f_liquid : bool; f_sky : bool; f_rest : Z; f_w : list vec }.

(** QBSP_EQUAL_EPSILON is DIST_EPSILON, CONTINUOUS_EPSILON (include/common/mathlib.hh:55, 68-69). *)
Definition equal_eps : R := 1 / 10000.
Definition cont_eps : R := 1 / 2000.

Definition vzero : vec := mkV 0 0 0.
Definition at_ (w : list vec) (i : nat) : vec := nth (i mod length w) w vzero.

(** The comparison of the components of two points (merge.cc:98-101). *)
Definition near1 (a b : R) : bool := if Rle_dec (Rabs (a - b)) equal_eps then true else false.
Definition near (a b : vec) : bool := near1 (vx a) (vx b) && near1 (vy a) (vy b) && near1 (vz a) (vz b).

(** The search for a common edge: the first j for i, then the first i (merge.cc:91-109). *)
Definition match_at (w1 w2 : list vec) (i j : nat) : bool := near (at_ w1 i) (at_ w2 (j + 1)) && near (at_ w1 (i + 1)) (at_ w2 j).
Fixpoint first {A} (f : nat -> option A) (l : list nat) : option A :=
  match l with [] => None | i :: r => match f i with Some x => Some x | None => first f r end end.
Definition common_edge (w1 w2 : list vec) : option (nat * nat) :=
  first (fun i => first (fun j => if match_at w1 w2 i j then Some (i, j) else None) (seq 0 (length w2))) (seq 0 (length w1)).

(** How far a point is outside of the line through a and b of a polygon with the normal (merge.cc:119-122,
    128-133). *)
Definition bend (normal delta from : vec) : R := dot from (normalize (cross normal delta)).

(** The loops that copy the points from k up to, without, stop (merge.cc:146-148, 155-157). *)
Fixpoint walk (fuel : nat) (w : list vec) (k stop : nat) : list vec :=
  match fuel with
  | O => []
  | S fuel => if (k =? stop)%nat then [] else nth k w vzero :: walk fuel w ((k + 1) mod length w) stop
  end.

(** TryMerge (merge.cc:64-162); nomerge: -nomergeacrossliquids; normals: the table of planes. *)
Definition compatible (nomerge : bool) (f1 f2 : face) : bool :=
  negb (length (f_w f1) =? 0)%nat && negb (length (f_w f2) =? 0)%nat &&
  (f_plane f1 =? f_plane f2)%Z && (f_tex f1 =? f_tex f2)%Z && (f_shift f1 =? f_shift f2)%Z &&
  (negb nomerge || Bool.eqb (f_liquid f1) (f_liquid f2)) && Bool.eqb (f_sky f1) (f_sky f2).
Definition try_merge (nomerge : bool) (normals : Z -> vec) (f1 f2 : face) : option face :=
  let w1 := f_w f1 in let w2 := f_w f2 in let n1 := length w1 in let n2 := length w2 in
  if negb (compatible nomerge f1 f2) then None
  else match common_edge w1 w2 with
  | None => None
  | Some (i, j) =>
      let n := normals (f_plane f1) in
      let p1 := at_ w1 i in let p2 := at_ w1 (i + 1) in
      let d1 := bend n (sub p1 (at_ w1 (i + n1 - 1))) (sub (at_ w2 (j + 2)) p1) in
      if Rlt_dec cont_eps d1 then None
      else let d2 := bend n (sub (at_ w1 (i + 2)) p2) (sub (at_ w2 (j + n2 - 1)) p2) in
      if Rlt_dec cont_eps d2 then None
      else let k := if Rlt_dec d2 (- cont_eps) then ((i + 1) mod n1)%nat else ((i + 2) mod n1)%nat in
           let l := if Rlt_dec d1 (- cont_eps) then ((j + 1) mod n2)%nat else ((j + 2) mod n2)%nat in
           Some (mkFace (f_plane f1) (f_tex f1) (f_shift f1) (f_liquid f1) (f_sky f1) (f_rest f1)
                        (walk n1 w1 k i ++ walk n2 w2 l j))
  end.

(** MergeFaceToList (merge.cc:169-193): before and after it.  None: out of fuel. *)
Fixpoint merge_to (fuel : nat) (tm : face -> face -> option face) (f : face) (before after : list face) : option (list face) :=
  match fuel with
  | O => None
  | S fuel =>
      match after with
      | [] => Some (before ++ [f])
      | g :: r => match tm f g with
                  | Some h => merge_to fuel tm h [] (before ++ r)
                  | None => merge_to fuel tm f (before ++ [g]) r
                  end
      end
  end.
Definition fuel_for (l : list face) : nat := S (length l) * S (length l).
(** MergeFaceList (merge.cc:200-212). *)
Fixpoint merge_list (tm : face -> face -> option face) (input result : list face) : option (list face) :=
  match input with
  | [] => Some result
  | f :: r => match merge_to (fuel_for result) tm f [] result with Some l => merge_list tm r l | None => None end
  end.
