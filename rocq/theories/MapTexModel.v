(* Texture projections of .map sides and conversions between their styles: include/common/mapfile.hh:73-110,
   common/mapfile.cc:210-366, 524-878.  Real numbers stand for float and double (no rounding). *)
From Coq Require Import Reals List.
Import ListNotations.
Open Scope R_scope.

Record vec := mkV { vx : R; vy : R; vz : R }.
Definition dot (a b : vec) : R := vx a * vx b + vy a * vy b + vz a * vz b.
Definition vsub (a b : vec) : vec := mkV (vx a - vx b) (vy a - vy b) (vz a - vz b).
Definition vscale (k : R) (a : vec) : vec := mkV (k * vx a) (k * vy a) (k * vz a).
Definition vdiv (a : vec) (k : R) : vec := mkV (vx a / k) (vy a / k) (vz a / k).
Definition comp (a : vec) (i : nat) : R := match i with O => vx a | S O => vy a | _ => vz a end.
(** texvecf: a row is the vector and the offset. *)
Record row := mkRow { rv : vec; ro : R }.
Record texvecs := mkTV { row0 : row; row1 : row }.
(** The texture coordinate of a point in one row. *)
Definition coord (r : row) (p : vec) : R := dot (rv r) p + ro r.

(** The texture definitions (mapfile.hh:48-62).  The rotation of quaked is given by its cosine and sine. *)
Record quaked := mkQ { q_s0 : R; q_s1 : R; q_cos : R; q_sin : R; q_k0 : R; q_k1 : R }.
Record valve := mkVa { va_a0 : vec; va_a1 : vec; va_s0 : R; va_s1 : R; va_k0 : R; va_k1 : R }.

(** texture_axis_t (mapfile.hh:80-109), use_new_axis false: the axis with the largest dot product, the first of equal
    ones; a zero normal gives the floor.  Result: number of the axis. *)
Definition axes : list vec := [mkV 0 0 1; mkV 0 0 (-1); mkV 1 0 0; mkV (-1) 0 0; mkV 0 1 0; mkV 0 (-1) 0].
Fixpoint best_axis (n : vec) (l : list vec) (i : nat) (best : R) (arg : nat) : nat :=
  match l with
  | [] => arg
  | a :: l => if Rlt_dec best (dot n a) then best_axis n l (S i) (dot n a) i else best_axis n l (S i) best arg
  end.
Definition axis_of (n : vec) : nat := best_axis n axes 0 0 0.
(** The components xv and yv point along: (sv, tv) of set_texinfo (mapfile.cc:225-239) and getSTAxes (548-557). *)
Definition st_axes (a : nat) : nat * nat :=
  match a with 0%nat | 1%nat => (0, 1)%nat | 2%nat | 3%nat => (1, 2)%nat | _ => (0, 2)%nat end.
(** A vector with the given components [s] and [t]. *)
Definition in_axes (a : nat) (s t : R) : vec :=
  match st_axes a with
  | (0%nat, 1%nat) => mkV s t 0
  | (1%nat, 2%nat) => mkV 0 s t
  | _ => mkV s 0 t
  end.
(** Zero scale is no scaling (mapfile.cc:251). *)
Definition scale_or_1 (k : R) : R := if Req_EM_T k 0 then 1 else k.
(** set_texinfo(texdef_quake_ed_t) (mapfile.cc:210-257): xv is (1, 0) and yv is (0, -1) in the components (sv, tv) of
    all six axes, rotated. *)
Definition set_quaked (normal : vec) (q : quaked) : texvecs :=
  let a := axis_of normal in
  mkTV (mkRow (vdiv (in_axes a (q_cos q * 1 - q_sin q * 0) (q_sin q * 1 + q_cos q * 0)) (scale_or_1 (q_k0 q))) (q_s0 q))
       (mkRow (vdiv (in_axes a (q_cos q * 0 - q_sin q * -1) (q_sin q * 0 + q_cos q * -1)) (scale_or_1 (q_k1 q))) (q_s1 q)).

(** set_texinfo(texdef_valve_t) (mapfile.cc:299-308).  None: a division by zero, the vectors are not finite. *)
Definition set_valve (t : valve) : option texvecs :=
  if Req_EM_T (va_k0 t) 0 then None else if Req_EM_T (va_k1 t) 0 then None
  else Some (mkTV (mkRow (vdiv (va_a0 t) (va_k0 t)) (va_s0 t)) (mkRow (vdiv (va_a1 t) (va_k1 t)) (va_s1 t))).
(** qv::normalizeInPlace (qvec.hh:463-470): the vector and its length. *)
Definition len (v : vec) : R := sqrt (dot v v).
Definition normalize (v : vec) : vec := if Req_EM_T (len v) 0 then v else vdiv v (len v).
(** TexDef_BSPToValve (mapfile.cc:851-878). *)
Definition inv_len (v : vec) : R := if Req_EM_T (len v) 0 then 0 else 1 / len v.
Definition to_valve (t : texvecs) : valve :=
  mkVa (normalize (rv (row0 t))) (normalize (rv (row1 t))) (ro (row0 t)) (ro (row1 t)) (inv_len (rv (row0 t))) (inv_len (rv (row1 t))).

(** set_texinfo(texdef_etp_t) (mapfile.cc:310-366): only the plane points and tx2 count. *)
Definition ZERO_EPSILON : R := 1 / 10000.
Definition set_etp (p0 p1 p2 : vec) (tx2 : bool) : texvecs :=
  let v0 := vscale (1 / 128) (vsub (if tx2 then p1 else p2) p0) in
  let v1 := vscale (1 / 128) (vsub (if tx2 then p2 else p1) p0) in
  let a := dot v0 v0 in let b := dot v0 v1 in let d := dot v1 v1 in
  let det := a * d - b * b in
  let '(r0, r1) :=
    if Rlt_dec (Rabs det) ZERO_EPSILON then (mkV 0 0 0, mkV 0 0 0)
    else (vdiv (vsub (vscale d v0) (vscale b v1)) det, vdiv (vscale (-1) (vsub (vscale a v1) (vscale b v0))) det) in
  mkTV (mkRow r0 (- dot r0 p0)) (mkRow r1 (- dot r1 p0)).

(** ** Conversion to quaked *)
Record mat := mkM { m00 : R; m01 : R; m10 : R; m11 : R }.
Definition proj (a : nat) (p : vec) : R * R := (comp p (fst (st_axes a)), comp p (snd (st_axes a))).
(** The matrix that takes the differences of the projected plane points to those of their texture coordinates
    (mapfile.cc:763-821); the 4x4 inverse consists of two blocks with this inverse.  None: it is singular. *)
Definition plane_matrix (a : nat) (t : texvecs) (p0 p1 p2 : vec) : option mat :=
  let '(x1, y1) := proj a (vsub p1 p0) in let '(x2, y2) := proj a (vsub p2 p0) in
  let u1 := coord (row0 t) p1 - coord (row0 t) p0 in let u2 := coord (row0 t) p2 - coord (row0 t) p0 in
  let w1 := coord (row1 t) p1 - coord (row1 t) p0 in let w2 := coord (row1 t) p2 - coord (row1 t) p0 in
  let det := x1 * y2 - y1 * x2 in
  if Req_EM_T det 0 then None
  else Some (mkM ((u1 * y2 - u2 * y1) / det) ((x1 * u2 - x2 * u1) / det) ((w1 * y2 - w2 * y1) / det) ((x1 * w2 - x2 * w1) / det)).
(** Removal of shear with preserveX false (mapfile.cc:593-644): if the cosine of the angle between the rows is more than
    0.001 the first row becomes its projection on the perpendicular of the second (the sign of newXdir cancels). *)
Definition dot2 (a b c d : R) : R := a * c + b * d.
Definition unshear (m : mat) : mat :=
  let xx := dot2 (m00 m) (m01 m) (m00 m) (m01 m) in let yy := dot2 (m10 m) (m11 m) (m10 m) (m11 m) in let xy := dot2 (m00 m) (m01 m) (m10 m) (m11 m) in
  if Req_EM_T xx 0 then m else if Req_EM_T yy 0 then m
  else if Rlt_dec (1 / 1000) (Rabs (xy / (sqrt xx * sqrt yy))) then mkM (m00 m - xy / yy * m10 m) (m01 m - xy / yy * m11 m) (m10 m) (m11 m)
  else m.
(** One guess of the signs (mapfile.cc:646-700).  axisFlipsM is diag(1, -1) for all axes; extractRotation and
    rotation2x2_deg give the first column of the guessed rotation divided by its length. *)
Definition guess (m : mat) (gx gy : R) : option quaked :=
  let ax := sqrt (dot2 (m00 m) (m01 m) (m00 m) (m01 m)) in let ay := sqrt (dot2 (m10 m) (m11 m) (m10 m) (m11 m)) in
  let c0 := gx * (m00 m / ax) in let s0 := gy * (m10 m / ay) in
  let l := sqrt (c0 * c0 + s0 * s0) in let c := c0 / l in let s := s0 / l in
  let g := mkM (gx * ax * c) (gx * ax * s) (gy * ay * s) (- (gy * ay * c)) in
  if Rlt_dec (Rabs (m00 m - m00 g)) (1 / 1000) then if Rlt_dec (Rabs (m10 m - m10 g)) (1 / 1000) then
  if Rlt_dec (Rabs (m01 m - m01 g)) (1 / 1000) then if Rlt_dec (Rabs (m11 m - m11 g)) (1 / 1000) then
    Some (mkQ 0 0 c s (gx / ax) (gy / ay)) else None else None else None else None.
(** Reverse_QuakeEd (mapfile.cc:591-707).  A row of length zero makes the comparisons false; without a match all
    numbers are 0 (angle 0). *)
Definition reverse (m0 : mat) : quaked :=
  let none := mkQ 0 0 1 0 0 0 in
  let m := unshear m0 in
  if Req_EM_T (dot2 (m00 m) (m01 m) (m00 m) (m01 m)) 0 then none else if Req_EM_T (dot2 (m10 m) (m11 m) (m10 m) (m11 m)) 0 then none
  else match guess m (-1) (-1) with
       | Some q => q
       | None => match guess m (-1) 1 with
                 | Some q => q
                 | None => match guess m 1 (-1) with
                           | Some q => q
                           | None => match guess m 1 1 with Some q => q | None => none end
                           end
                 end
       end.
(** TexDef_BSPToQuakeEd (mapfile.cc:757-845) without texture size.  evalTexDefAtPoint (725-733) computes with a local
    side whose plane is never set, so the axes are those of an indeterminate normal [junk]. *)
Definition to_quaked (junk normal : vec) (t : texvecs) (p0 p1 p2 : vec) : option quaked :=
  match plane_matrix (axis_of normal) t p0 p1 p2 with
  | None => None
  | Some m =>
    let q := reverse m in
    let e := set_quaked junk q in
    Some (mkQ (coord (row0 t) p0 - coord (row0 e) p0) (coord (row1 t) p0 - coord (row1 e) p0) (q_cos q) (q_sin q) (q_k0 q) (q_k1 q))
  end.
