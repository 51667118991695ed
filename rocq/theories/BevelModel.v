(* Bevels of brushes and expansion of brushes for the clipping hulls: qbsp/map.cc:2043-2182
   (AddBrushBevels), qbsp/brush.cc:551-632 (LoadBrush up to the windings),
   include/common/qvec.hh:694-712 (Snap).  Real numbers stand for double (no rounding).
   The counters numboxbevels and numedgebevels and the fields contents and texname (copied
   together with texinfo) are left out. *)
From Coq Require Import Reals List Bool Arith.
From Verif Require Import WindClipModel.
Import ListNotations.
Open Scope R_scope.

(** mapface_t (include/qbsp/map.hh:60-100) and side_t: the plane of planenum, the winding, the
    flag bevel and the index of the texinfo. *)
Record face := mkF { f_plane : plane; f_winding : list vec; f_bevel : bool; f_tex : nat }.

(** operator[] of a vector, indices 0, 1, 2. *)
Definition vcomp (i : nat) (v : vec) : R := match i with O => vx v | 1%nat => vy v | _ => vz v end.
(** plane.normal = {}; plane.normal[axis] = dir (map.cc:2065-2066, 2128-2129). *)
Definition axis_vec (axis : nat) (dir : R) : vec :=
  match axis with O => mkV dir 0 0 | 1%nat => mkV 0 dir 0 | _ => mkV 0 0 dir end.

(** std::swap(b.faces[a], b.faces[b]); None: an index is out of range. *)
Fixpoint upd (l : list face) (n : nat) (x : face) : list face :=
  match l, n with
  | [], _ => []
  | _ :: r, O => x :: r
  | y :: r, S n => y :: upd r n x
  end.
Definition swap (l : list face) (a b : nat) : option (list face) :=
  match nth_error l a, nth_error l b with
  | Some x, Some y => Some (upd (upd l a y) b x)
  | _, _ => None
  end.

(** The first index that satisfies P, or the length (map.cc:2054-2060). *)
Fixpoint find_face (P : face -> bool) (l : list face) : nat :=
  match l with [] => O | f :: r => if P f then O else S (find_face P r) end.

Definition Reqb (a b : R) : bool := if Req_EM_T a b then true else false.
Definition Rltb (a b : R) : bool := if Rlt_dec a b then true else false.
Definition Rleb (a b : R) : bool := if Rle_dec a b then true else false.

Section Bevels.
(** map.add_or_find_plane followed by get_plane: the plane that the table gives for a plane; it
    may depend on all that happened before, here on the faces. *)
Variable ask : list face -> plane -> plane.
Variable mins maxs : vec.     (* b.bounds *)
Variable eps : R.             (* qbsp_options.epsilon *)
Variable ne de : R.           (* NORMAL_EPSILON (= ANGLEEPSILON), DIST_EPSILON *)

(** One pass of the double loop over axis and dir (map.cc:2049-2089); order is 2 * axis for
    dir = -1 and 2 * axis + 1 for dir = 1. *)
Definition axis_of (order : nat) : nat := Nat.div2 order.
Definition dir_of (order : nat) : R := if Nat.even order then -1 else 1.
Definition axial_plane (order : nat) : plane :=
  mkPl (axis_vec (axis_of order) (dir_of order))
       (if Nat.even order then - vcomp (axis_of order) mins else vcomp (axis_of order) maxs).
Definition axial_step (order : nat) (fs : list face) : option (list face) :=
  let i := find_face (fun f => Reqb (vcomp (axis_of order) (p_n (f_plane f))) (dir_of order)) fs in
  let fs1 := if Nat.eqb i (length fs)
             then fs ++ [mkF (ask fs (axial_plane order)) [] true (match fs with f :: _ => f_tex f | [] => O end)]
             else fs in
  if Nat.eqb i order then Some fs1 else swap fs1 order i.
Fixpoint axial_loop (orders : list nat) (fs : list face) : option (list face) :=
  match orders with
  | [] => Some fs
  | o :: r => match axial_step o fs with Some fs1 => axial_loop r fs1 | None => None end
  end.

(** qv::Snap with NORMAL_EPSILON (qvec.hh:694-712). *)
Definition snap (v : vec) : vec :=
  if Rltb (Rabs (vx v - 1)) ne then mkV 1 0 0 else if Rltb (Rabs (vx v - -1)) ne then mkV (-1) 0 0
  else if Rltb (Rabs (vy v - 1)) ne then mkV 0 1 0 else if Rltb (Rabs (vy v - -1)) ne then mkV 0 (-1) 0
  else if Rltb (Rabs (vz v - 1)) ne then mkV 0 0 1 else if Rltb (Rabs (vz v - -1)) ne then mkV 0 0 (-1)
  else v.
(** The loop over k (map.cc:2112-2120). *)
Definition axial_vec (v : vec) : bool :=
  (Reqb (vx v) (-1) || Reqb (vx v) 1) || (Reqb (vy v) (-1) || Reqb (vy v) 1) || (Reqb (vz v) (-1) || Reqb (vz v) 1).

(** qv::epsilonEqual of planes (qbsp.cc:407-437).  The shortcut for two axial planes gives the
    same answer, since the normals of axial planes differ by 0 or by 2 in a component. *)
Definition same_plane (p q : plane) : bool :=
  Rleb (Rabs (p_d p - p_d q)) de && (Rleb (Rabs (vx (p_n p) - vx (p_n q))) ne &&
  (Rleb (Rabs (vy (p_n p) - vy (p_n q))) ne && Rleb (Rabs (vz (p_n p) - vz (p_n q))) ne)).

(** The slanted plane through point a along v (map.cc:2127-2137); None: almost parallel. *)
Definition slanted (a v : vec) (axis : nat) (dir : R) : option plane :=
  let n := cross v (axis_vec axis dir) in
  if Rltb (len n) ne then None else Some (mkPl (normalize n) (dot a (normalize n))).
(** A face does not reject the plane (map.cc:2142-2163). *)
Definition passes (pl : plane) (g : face) : bool :=
  negb (same_plane (f_plane g) pl) && forallb (fun p => negb (Rltb eps (dist_to pl p))) (f_winding g).
(** map.cc:2125-2178 for one axis and dir; f is b.faces[i]. *)
Definition bevel_try (f : face) (a v : vec) (fs : list face) (ad : nat * R) : list face :=
  match slanted a v (fst ad) (snd ad) with
  | None => fs
  | Some pl => if forallb (passes pl) fs then fs ++ [mkF (ask fs pl) [] true (f_tex f)] else fs
  end.
Definition six : list (nat * R) := [(0%nat, -1); (0%nat, 1); (1%nat, -1); (1%nat, 1); (2%nat, -1); (2%nat, 1)].
(** One edge (map.cc:2102-2180). *)
Definition bevel_edge (f : face) (fs : list face) (e : vec * vec) : list face :=
  let d := sub (fst e) (snd e) in
  if Rltb (len d) (1 / 2) then fs
  else let v := snap (normalize d) in
       if axial_vec v then fs else fold_left (bevel_try f (fst e) v) six fs.
(** The edges of one face (map.cc:2098-2180). *)
Definition bevel_face (f : face) (fs : list face) : list face := fold_left (bevel_edge f) (edges (f_winding f)) fs.
(** The loop over i up to the growing size (map.cc:2097-2181); None: fuel. *)
Fixpoint bevel_loop (fuel i : nat) (fs : list face) : option (list face) :=
  match fuel with
  | O => None
  | S k => match nth_error fs i with
           | None => Some fs
           | Some f => bevel_loop k (S i) (bevel_face f fs)
           end
  end.
Definition bevel_fuel (fs : list face) : nat := S (length fs + 6 * list_sum (map (fun f => length (f_winding f)) fs)).
(** AddBrushBevels (map.cc:2043-2182). *)
Definition add_bevels (fs : list face) : option (list face) :=
  match axial_loop [0; 1; 2; 3; 4; 5]%nat fs with
  | None => None
  | Some fs1 => if Nat.eqb (length fs1) 6 then Some fs1 else bevel_loop (bevel_fuel fs1) 6 fs1
  end.

(** The corner of the hull in the direction of the normal (brush.cc:612-619). *)
Definition corner1 (n lo hi : R) : R := if Rltb 0 n then hi else if Rltb n 0 then lo else 0.
Definition corner (n lo hi : vec) : vec :=
  mkV (corner1 (vx n) (vx lo) (vx hi)) (corner1 (vy n) (vy lo) (vy hi)) (corner1 (vz n) (vz lo) (vz hi)).
(** The plane asked for (brush.cc:620-621). *)
Definition expanded (lo hi : vec) (pl : plane) : plane := mkPl (p_n pl) (p_d pl + dot (corner (p_n pl) lo hi) (p_n pl)).
Variable no_expand : nat -> bool.    (* get_texinfo().flags.no_expand *)
Definition expand_side (lo hi : vec) (fs : list face) (f : face) : face :=
  if no_expand (f_tex f) then f
  else mkF (ask fs (expanded lo hi (f_plane f))) (f_winding f) false (f_tex f).
(** The loop over the sides (brush.cc:608-624); done are the sides already expanded. *)
Fixpoint expand_sides (lo hi : vec) (done fs : list face) : list face :=
  match fs with
  | [] => done
  | f :: r => expand_sides lo hi (done ++ [expand_side lo hi (done ++ fs) f]) r
  end.
(** A side made from a face (brush.cc:595-600). *)
Definition side_from (f : face) : face := mkF (f_plane f) [] (f_bevel f) (f_tex f).
(** LoadBrush (brush.cc:564-632): the sides of the brush for a hull before CreateBrushWindings.
    None: Q_assert(hullnum < hulls.size()). *)
Definition load_sides (hulls : list (vec * vec)) (hullnum : nat) (fs : list face) : option (list face) :=
  match hullnum with
  | O => Some (map side_from (filter (fun f => negb (f_bevel f)) fs))
  | S _ => match nth_error hulls hullnum with
           | Some (lo, hi) => Some (expand_sides lo hi [] (map side_from fs))
           | None => None
           end
  end.
End Bevels.
