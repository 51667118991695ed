(* Geometry of the polygons that light works on: common/mathlib.cc:166-275, 329-405, 441-494, 597-623, include/common/qvec.hh:536-685,
   light/ltface.cc:129-265.  Real numbers stand for float and double (no rounding; the running minima that start with
   FLT_MAX are options, so distances are taken to be below FLT_MAX). *)
From Coq Require Import Reals List Bool Arith.
From Verif Require Import WindClipModel.
Import ListNotations.
Open Scope R_scope.

Definition zero : vec := mkV 0 0 0.
(** The comparisons of the code, as booleans. *)
Definition ltb (a b : R) : bool := if Rlt_dec a b then true else false.
Definition leb (a b : R) : bool := negb (ltb b a).
Definition is0 (a : R) : bool := if Req_EM_T a 0 then true else false.
(** qv::emptyExact. *)
Definition empty_exact (a : vec) : bool := is0 (vx a) && is0 (vy a) && is0 (vz a).
Definition distance (a b : vec) : R := len (sub a b).

(** mathlib.hh:51-52, 57. *)
Definition ZERO_TRI_AREA_EPSILON : R := 1 / 10000.
Definition POINT_EQUAL_EPSILON : R := 1 / 20.

(** TriangleArea (qvec.hh:594-598). *)
Definition tri_area (a b c : vec) : R := 1 / 2 * len (cross (sub c a) (sub b a)).
(** The triangles (p0, p[i-1], p[i]) for i = 2 .. N-1 that the loops over a polygon visit. *)
Fixpoint fan_from {A} (p0 p1 : A) (l : list A) : list (A * A * A) :=
  match l with [] => [] | p2 :: r => (p0, p1, p2) :: fan_from p0 p2 r end.
Definition fan {A} (l : list A) : list (A * A * A) := match l with p0 :: p1 :: r => fan_from p0 p1 r | _ => [] end.

(** FaceNormal (mathlib.cc:166-192).  The first of the largest triangles; -FLT_MAX is the absent best. *)
Definition tri_area' (t : vec * vec * vec) : R := let '(a, b, c) := t in tri_area a b c.
Fixpoint largest (best : option (vec * vec * vec)) (l : list (vec * vec * vec)) : option (vec * vec * vec) :=
  match l with
  | [] => best
  | t :: r => largest (match best with Some b => if ltb (tri_area' b) (tri_area' t) then Some t else best | None => Some t end) r
  end.
Definition face_normal (l : list vec) : vec :=
  match largest None (fan l) with
  | Some (p0, p1, p2) =>
      if ltb (tri_area p0 p1 p2) ZERO_TRI_AREA_EPSILON then zero else normalize (cross (sub p2 p0) (sub p1 p0))
  | None => zero
  end.

(** MakeInwardFacingEdgePlane (mathlib.cc:201-212); None for the pair with false. *)
Definition edge_plane_of (n v0 v1 : vec) : option plane :=
  let l := len (sub v1 v0) in
  if ltb l POINT_EQUAL_EPSILON then None
  else let en := cross (scale (/ l) (sub v1 v0)) n in Some (mkPl en (dot en v0)).
Fixpoint some_of {A} (l : list (option A)) : list A :=
  match l with [] => [] | Some x :: r => x :: some_of r | None :: r => some_of r end.
(** MakeInwardFacingEdgePlanes (mathlib.cc:214-242). *)
Definition edge_planes (l : list vec) : list plane :=
  if Nat.ltb (length l) 3 then []
  else if empty_exact (face_normal l) then []
  else some_of (map (fun e => edge_plane_of (face_normal l) (fst e) (snd e)) (edges l)).
(** EdgePlanes_PointInsideDist (mathlib.cc:244-255); None is FLT_MAX. *)
Fixpoint inside_dist_from (m : option R) (pls : list plane) (p : vec) : option R :=
  match pls with
  | [] => m
  | pl :: r => inside_dist_from (match m with Some d => if ltb (dist_to pl p) d then Some (dist_to pl p) else m | None => Some (dist_to pl p) end) r p
  end.
Definition inside_dist (pls : list plane) (p : vec) : option R := inside_dist_from None pls p.
(** EdgePlanes_PointInside (mathlib.cc:257-264). *)
Definition point_inside (pls : list plane) (p : vec) : bool :=
  match inside_dist pls p with Some d => leb (- POINT_EQUAL_EPSILON) d | None => false end.

(** FractionOfLine (mathlib.cc:443-455). *)
Definition fraction (v w p : vec) : R :=
  let vw := sub w v in if is0 (dot vw vw) then 0 else dot (sub p v) vw / dot vw vw.
(** ClosestPointOnLine (mathlib.cc:463-477). *)
Definition closest_on_line (v w p : vec) : vec :=
  let d := normalize (sub w v) in if empty_exact d then p else add v (scale (dot (sub p v) d) d).
(** DistToLine (mathlib.cc:457-461). *)
Definition dist_to_line (v w p : vec) : R := distance p (closest_on_line v w p).
(** ClosestPointOnLineSegment (mathlib.cc:485-494). *)
Definition closest_on_segment (v w p : vec) : vec :=
  let f := fraction v w p in if leb 1 f then w else if leb f 0 then v else closest_on_line v w p.
(** ClosestPointOnPolyBoundary (mathlib.cc:329-354); None: the assertion bestI != -1 fails. *)
Fixpoint closest_from (i : nat) (best : option (nat * vec)) (es : list (vec * vec)) (p : vec) : option (nat * vec) :=
  match es with
  | [] => best
  | (a, b) :: r =>
      let c := closest_on_segment a b p in
      closest_from (S i) (match best with
                          | Some (_, q) => if ltb (len (sub c p)) (len (sub q p)) then Some (i, c) else best
                          | None => Some (i, c)
                          end) r p
  end.
Definition closest_on_poly (l : list vec) (p : vec) : option (nat * vec) := closest_from 0 None (edges l) p.

(** LinesOverlap (mathlib.cc:597-623). *)
Definition lines_overlap (eps : R) (p0 p1 q0 q1 : vec) : bool :=
  if ltb eps (dist_to_line p0 p1 q0) then false
  else if ltb eps (dist_to_line p0 p1 q1) then false
  else if ltb (fraction p0 p1 q0) 0 && ltb (fraction p0 p1 q1) 0 then false
  else if ltb 1 (fraction p0 p1 q0) && ltb 1 (fraction p0 p1 q1) then false
  else true.

(** Barycentric_FromPoint (qvec.hh:650-672); None: the division by 0, whose results are not finite. *)
Definition bary_from (p t0 t1 t2 : vec) : option (R * R * R) :=
  let v0 := sub t1 t0 in let v1 := sub t2 t0 in let v2 := sub p t0 in
  let den := dot v0 v0 * dot v1 v1 - dot v0 v1 * dot v0 v1 in
  if is0 den then None
  else let b1 := (dot v1 v1 * dot v2 v0 - dot v0 v1 * dot v2 v1) * (1 / den) in
       let b2 := (dot v0 v0 * dot v2 v1 - dot v0 v1 * dot v2 v0) * (1 / den) in
       Some (1 - b1 - b2, b1, b2).
(** Barycentric_ToPoint (qvec.hh:685-691). *)
Definition bary_to (b : R * R * R) (t0 t1 t2 : vec) : vec :=
  let '(b0, b1, b2) := b in add (add (scale b0 t0) (scale b1 t1)) (scale b2 t2).
(** InterpolateNormal (mathlib.cc:367-405); None: (false, 0).  Each point comes with its normal, so that the assertion of
    equal sizes holds. *)
Fixpoint interp_fan (ts : list ((vec * vec) * (vec * vec) * (vec * vec))) (p : vec) : option vec :=
  match ts with
  | [] => None
  | ((p0, n0), (p1, n1), (p2, n2)) :: r =>
      let pls := edge_planes [p0; p1; p2] in
      if negb (Nat.eqb (length pls) 3) then interp_fan r p
      else if point_inside pls p then
        match bary_from p p0 p1 p2 with Some b => Some (bary_to b n0 n1 n2) | None => interp_fan r p end
      else interp_fan r p
  end.
Definition interpolate (l : list (vec * vec)) (p : vec) : option vec := interp_fan (fan l) p.

(** PolyArea (qvec.hh:632-648). *)
Definition poly_area (l : list vec) : R := fold_right (fun t acc => tri_area' t + acc) 0 (fan l).
(** PolyCentroid (qvec.hh:600-630).  None: NaN (no point, or the division by an area of 0). *)
Definition tri_moment (t : vec * vec * vec) : vec :=
  let '(a, b, c) := t in scale (tri_area a b c) (scale (1 / 3) (add (add a b) c)).
Definition poly_moment (l : list vec) : vec := fold_right (fun t acc => add (tri_moment t) acc) zero (fan l).
Definition poly_centroid (l : list vec) : option vec :=
  match l with
  | [] => None
  | [a] => Some a
  | [a; b] => Some (scale (1 / 2) (add a b))
  | _ => if is0 (poly_area l) then None else Some (scale (/ poly_area l) (poly_moment l))
  end.

(** indexOfLargestMagnitudeComponent and MakeTangentAndBitangentUnnormalized (qvec.hh:536-592). *)
Definition axis_of (n : vec) : nat :=
  let '(m, i) := if ltb 0 (Rabs (vx n)) then (Rabs (vx n), 0%nat) else (0, 0%nat) in
  let '(m, i) := if ltb m (Rabs (vy n)) then (Rabs (vy n), 1%nat) else (m, i) in
  if ltb m (Rabs (vz n)) then 2%nat else i.
Definition axis_vec (i : nat) : vec := match i with 0%nat => mkV 1 0 0 | 1%nat => mkV 0 1 0 | _ => mkV 0 0 1 end.
Definition tangents (n : vec) : vec * vec :=
  let a := axis_of n in
  let t := cross n (axis_vec ((a + 1) mod 3)) in
  let b := cross n (axis_vec ((a + 2) mod 3)) in
  if ltb (dot (cross t b) n) 0 then (b, t) else (t, b).

(** The choice of an edge for a point outside of a face (light/ltface.cc:191-232): the edge and the distance past its ends;
    None: bestplane is -1. *)
Definition edge_past (v0 v1 p : vec) : R :=
  let t := fraction v0 v1 p in
  if ltb t 0 then Rabs t * len (sub v1 v0) else if ltb 1 t then t * len (sub v1 v0) else 0.
Fixpoint choose_from (i : nat) (best : option (nat * R)) (n : vec) (es : list (vec * vec)) (p : vec) : option (nat * R) :=
  match es with
  | [] => best
  | (a, b) :: r =>
      choose_from (S i) (match edge_plane_of n a b with
                         | None => best
                         | Some pl =>
                             if ltb (dist_to pl p) POINT_EQUAL_EPSILON then
                               match best with
                               | Some (_, d) => if ltb (edge_past a b p) d then Some (i, edge_past a b p) else best
                               | None => Some (i, edge_past a b p)
                               end
                             else best
                         end) n r p
  end.
Definition choose_edge (n : vec) (l : list vec) (p : vec) : option (nat * R) := choose_from 0 None n (edges l) p.
