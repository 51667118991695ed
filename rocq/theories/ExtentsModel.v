(* Coordinates of lightmaps: common/bsputils.cc:808-1085 (WorldToTexCoord, WorldToTexSpace,
   TexSpaceToWorld, the three constructors of faceextents_t and its conversions), common/qvec.cc:75-134
   (the inverse of a matrix), include/common/qvec.hh:537-590 (MakeTangentAndBitangentUnnormalized),
   light/ltface.cc:417-457 (the points of CalcPoints), light/trace.cc:42-70 (clamp_texcoord,
   SampleTexture).  Real numbers stand for float, double and long double (no rounding). *)
From Coq Require Import Reals List ZArith Bool.
From Verif Require Import WindClipModel.
Import ListNotations.
Open Scope R_scope.

(** qmat4x4: m_values, column after column: the entry in row r and column c is m (4 c + r). *)
Definition mat := nat -> R.
Definition ident : mat := fun i => match i with 0%nat | 5%nat | 10%nat | 15%nat => 1 | _ => 0 end.
(** A matrix from its rows. *)
Definition rows (a b c d : R * R * R * R) : mat := fun i =>
  let row := match (i mod 4)%nat with 0%nat => a | 1%nat => b | 2%nat => c | _ => d end in
  let '(x, y, z, w) := row in match (i / 4)%nat with 0%nat => x | 1%nat => y | 2%nat => z | _ => w end.
(** qmat::operator* for matrices and for a column (qvec.hh:960-990). *)
Definition mul (a b : mat) : mat := fun i => let r := (i mod 4)%nat in let c := (i / 4)%nat in
  a r * b (4 * c)%nat + a (4 + r)%nat * b (4 * c + 1)%nat + a (8 + r)%nat * b (4 * c + 2)%nat + a (12 + r)%nat * b (4 * c + 3)%nat.
Definition mulv (m : mat) (x y z w : R) (r : nat) : R := m r * x + m (4 + r)%nat * y + m (8 + r)%nat * z + m (12 + r)%nat * w.

(** gluInvertMatrixd (common/qvec.cc:75-123): inv, det and the result. *)
Definition adj (m : mat) : mat := fun i => match i with
  | 0%nat => m 5%nat * m 10%nat * m 15%nat - m 5%nat * m 11%nat * m 14%nat - m 9%nat * m 6%nat * m 15%nat + m 9%nat * m 7%nat * m 14%nat + m 13%nat * m 6%nat * m 11%nat - m 13%nat * m 7%nat * m 10%nat
  | 1%nat => -m 1%nat * m 10%nat * m 15%nat + m 1%nat * m 11%nat * m 14%nat + m 9%nat * m 2%nat * m 15%nat - m 9%nat * m 3%nat * m 14%nat - m 13%nat * m 2%nat * m 11%nat + m 13%nat * m 3%nat * m 10%nat
  | 2%nat => m 1%nat * m 6%nat * m 15%nat - m 1%nat * m 7%nat * m 14%nat - m 5%nat * m 2%nat * m 15%nat + m 5%nat * m 3%nat * m 14%nat + m 13%nat * m 2%nat * m 7%nat - m 13%nat * m 3%nat * m 6%nat
  | 3%nat => -m 1%nat * m 6%nat * m 11%nat + m 1%nat * m 7%nat * m 10%nat + m 5%nat * m 2%nat * m 11%nat - m 5%nat * m 3%nat * m 10%nat - m 9%nat * m 2%nat * m 7%nat + m 9%nat * m 3%nat * m 6%nat
  | 4%nat => -m 4%nat * m 10%nat * m 15%nat + m 4%nat * m 11%nat * m 14%nat + m 8%nat * m 6%nat * m 15%nat - m 8%nat * m 7%nat * m 14%nat - m 12%nat * m 6%nat * m 11%nat + m 12%nat * m 7%nat * m 10%nat
  | 5%nat => m 0%nat * m 10%nat * m 15%nat - m 0%nat * m 11%nat * m 14%nat - m 8%nat * m 2%nat * m 15%nat + m 8%nat * m 3%nat * m 14%nat + m 12%nat * m 2%nat * m 11%nat - m 12%nat * m 3%nat * m 10%nat
  | 6%nat => -m 0%nat * m 6%nat * m 15%nat + m 0%nat * m 7%nat * m 14%nat + m 4%nat * m 2%nat * m 15%nat - m 4%nat * m 3%nat * m 14%nat - m 12%nat * m 2%nat * m 7%nat + m 12%nat * m 3%nat * m 6%nat
  | 7%nat => m 0%nat * m 6%nat * m 11%nat - m 0%nat * m 7%nat * m 10%nat - m 4%nat * m 2%nat * m 11%nat + m 4%nat * m 3%nat * m 10%nat + m 8%nat * m 2%nat * m 7%nat - m 8%nat * m 3%nat * m 6%nat
  | 8%nat => m 4%nat * m 9%nat * m 15%nat - m 4%nat * m 11%nat * m 13%nat - m 8%nat * m 5%nat * m 15%nat + m 8%nat * m 7%nat * m 13%nat + m 12%nat * m 5%nat * m 11%nat - m 12%nat * m 7%nat * m 9%nat
  | 9%nat => -m 0%nat * m 9%nat * m 15%nat + m 0%nat * m 11%nat * m 13%nat + m 8%nat * m 1%nat * m 15%nat - m 8%nat * m 3%nat * m 13%nat - m 12%nat * m 1%nat * m 11%nat + m 12%nat * m 3%nat * m 9%nat
  | 10%nat => m 0%nat * m 5%nat * m 15%nat - m 0%nat * m 7%nat * m 13%nat - m 4%nat * m 1%nat * m 15%nat + m 4%nat * m 3%nat * m 13%nat + m 12%nat * m 1%nat * m 7%nat - m 12%nat * m 3%nat * m 5%nat
  | 11%nat => -m 0%nat * m 5%nat * m 11%nat + m 0%nat * m 7%nat * m 9%nat + m 4%nat * m 1%nat * m 11%nat - m 4%nat * m 3%nat * m 9%nat - m 8%nat * m 1%nat * m 7%nat + m 8%nat * m 3%nat * m 5%nat
  | 12%nat => -m 4%nat * m 9%nat * m 14%nat + m 4%nat * m 10%nat * m 13%nat + m 8%nat * m 5%nat * m 14%nat - m 8%nat * m 6%nat * m 13%nat - m 12%nat * m 5%nat * m 10%nat + m 12%nat * m 6%nat * m 9%nat
  | 13%nat => m 0%nat * m 9%nat * m 14%nat - m 0%nat * m 10%nat * m 13%nat - m 8%nat * m 1%nat * m 14%nat + m 8%nat * m 2%nat * m 13%nat + m 12%nat * m 1%nat * m 10%nat - m 12%nat * m 2%nat * m 9%nat
  | 14%nat => -m 0%nat * m 5%nat * m 14%nat + m 0%nat * m 6%nat * m 13%nat + m 4%nat * m 1%nat * m 14%nat - m 4%nat * m 2%nat * m 13%nat - m 12%nat * m 1%nat * m 6%nat + m 12%nat * m 2%nat * m 5%nat
  | 15%nat => m 0%nat * m 5%nat * m 10%nat - m 0%nat * m 6%nat * m 9%nat - m 4%nat * m 1%nat * m 10%nat + m 4%nat * m 2%nat * m 9%nat + m 8%nat * m 1%nat * m 6%nat - m 8%nat * m 2%nat * m 5%nat
  | _ => 0
  end.
Definition det (m : mat) : R := m 0%nat * adj m 0%nat + m 1%nat * adj m 4%nat + m 2%nat * adj m 8%nat + m 3%nat * adj m 12%nat.
(** qv::inverse (qvec.cc:125-134); None: all entries are not numbers. *)
Definition inverse (m : mat) : option mat := if Req_EM_T (det m) 0 then None else Some (fun i => adj m i * (1 / det m)).

(** texvecf: the vectors and offsets of s and t.  texvecf::uvs (include/common/bspfile_common.hh:490-495). *)
Record texvec := mkTV { tv_s : vec; tv_so : R; tv_t : vec; tv_to : R }.
Definition uvs (tv : texvec) (p : vec) : R * R :=
  (vx p * vx (tv_s tv) + vy p * vy (tv_s tv) + vz p * vz (tv_s tv) + tv_so tv,
   vx p * vx (tv_t tv) + vy p * vy (tv_t tv) + vz p * vz (tv_t tv) + tv_to tv).

(** A matrix with the given vectors and offsets, the plane, and the last row 0 0 0 1. *)
Definition vrow (v : vec) (w : R) : R * R * R * R := (vx v, vy v, vz v, w).
Definition plane_mat (s : vec) (so : R) (t : vec) (to : R) (pl : plane) : mat :=
  rows (vrow s so) (vrow t to) (vrow (p_n pl) (- p_d pl)) (0, 0, 0, 1).
(** WorldToTexSpace (bsputils.cc:838-858) for a face with a texinfo. *)
Definition world_to_tex (tv : texvec) (pl : plane) : mat := plane_mat (tv_s tv) (tv_so tv) (tv_t tv) (tv_to tv) pl.

(** floor, ceil, and static_cast<int> of a whole double: None where int cannot hold the value. *)
Definition floor (x : R) : Z := Int_part x.
Definition ceil (x : R) : Z := (- Int_part (- x))%Z.
Definition to_int (z : Z) : option Z := if ((-2147483648 <=? z) && (z <=? 2147483647))%Z then Some z else None.

(** The least and greatest of the coordinates (aabb +=; for no points min is above max). *)
Definition lo (l : list R) : R := match l with [] => 0 | x :: r => fold_left Rmin r x end.
Definition hi (l : list R) : R := match l with [] => 0 | x :: r => fold_left Rmax r x end.

(** lm_mins and lm_extents for one coordinate with bounds a and b (bsputils.cc:893-897, 994-999). *)
Definition extent (a b : R) : option (Z * Z) :=
  match to_int (floor a), to_int (ceil b - floor a) with Some m, Some e => Some (m, e) | _, _ => None end.

(** faceextents_t: lm_extents, worldToLMMatrix and lmToWorldMatrix (None: not numbers). *)
Record extents := mkEx { ex_w : Z; ex_h : Z; ex_to_lm : mat; ex_to_world : option mat }.

(** faceextents_t(face, bsp, lightmapshift) (bsputils.cc:868-924) for a face with points pts.  None: a
    conversion to int is undefined (for no points or shift 0 it converts an infinite number). *)
Definition lm_to_tex (shift : R) (ms mt : Z) : mat :=
  rows (shift, 0, 0, IZR ms * shift) (0, shift, 0, IZR mt * shift) (0, 0, 1, 0) (0, 0, 0, 1).
Definition extents_shift (tv : texvec) (pl : plane) (pts : list vec) (shift : R) : option extents :=
  let us := map (fun p => fst (uvs tv p)) pts in let vs := map (fun p => snd (uvs tv p)) pts in
  match pts with [] => None | _ :: _ =>
    if Req_EM_T shift 0 then None
    else match extent (lo us / shift) (hi us / shift), extent (lo vs / shift) (hi vs / shift) with
         | Some (ms, w), Some (mt, h) =>
             match inverse (lm_to_tex shift ms mt) with
             | None => None
             | Some inv => Some (mkEx w h (mul inv (world_to_tex tv pl))
                            (option_map (fun m => mul m (lm_to_tex shift ms mt)) (inverse (world_to_tex tv pl))))
             end
         | _, _ => None
         end
  end.

(** The axis of a normal (qv::indexOfLargestMagnitudeComponent), and the tangents of the unit vector
    along it (qvec.hh:537-580): cross products with the other two axes, in the order that makes their
    cross product look along it. *)
Definition axis (n : vec) : nat :=
  if Rlt_dec (Rabs (vx n)) (Rabs (vy n)) then (if Rlt_dec (Rabs (vy n)) (Rabs (vz n)) then 2 else 1)%nat
  else if Rlt_dec (Rabs (vx n)) (Rabs (vz n)) then 2%nat else 0%nat.
Definition comp (a : nat) (v : vec) : R := match a with 0%nat => vx v | 1%nat => vy v | _ => vz v end.
Definition unit_axis (a : nat) (k : R) : vec := match a with 0%nat => mkV k 0 0 | 1%nat => mkV 0 k 0 | _ => mkV 0 0 k end.
Definition snapped (n : vec) : vec := unit_axis (axis n) (if Rlt_dec 0 (comp (axis n) n) then 1 else -1).
Definition tangents (n : vec) : vec * vec :=
  let a := axis n in
  let t := cross n (unit_axis ((a + 1) mod 3) 1) in let b := cross n (unit_axis ((a + 2) mod 3) 1) in
  if Rlt_dec (dot (cross t b) n) 0 then (b, t) else (t, b).

(** faceextents_t(face, bsp, world_units_per_luxel) (bsputils.cc:958-1031); for 0 units the coordinates
    are infinite and converted to int. *)
Definition extents_units (pl : plane) (pts : list vec) (units : R) : option extents :=
  let '(t, b) := tangents (snapped (p_n pl)) in
  let t := scale (1 / units) t in let b := scale (1 / units) b in
  match pts with [] => None | _ :: _ =>
    if Req_EM_T units 0 then None
    else match extent (lo (map (dot t) pts)) (hi (map (dot t) pts)), extent (lo (map (dot b) pts)) (hi (map (dot b) pts)) with
         | Some (ms, w), Some (mt, h) =>
             let m := plane_mat t (- IZR ms) b (- IZR mt) pl in Some (mkEx w h m (inverse m))
         | _, _ => None
         end
  end.

(** faceextents_t(face, bsp, lmwidth, lmheight, world_to_lm_space) (bsputils.cc:926-956) for a width and
    a height above 0 (else lm_extents is left as it is). *)
Definition extents_given (pl : plane) (w h : Z) (tv : texvec) : extents :=
  let m := plane_mat (tv_s tv) (tv_so tv) (tv_t tv) (tv_to tv) pl in mkEx (w - 1) (h - 1) m (inverse m).

(** worldToLMCoord and LMCoordToWorld (bsputils.cc:1073-1085). *)
Definition to_lm (e : extents) (p : vec) : R * R :=
  (mulv (ex_to_lm e) (vx p) (vy p) (vz p) 1 0, mulv (ex_to_lm e) (vx p) (vy p) (vz p) 1 1).
Definition to_world (e : extents) (lm : R * R) : option vec :=
  match ex_to_world e with
  | None => None
  | Some m => Some (mkV (mulv m (fst lm) (snd lm) 0 1 0) (mulv m (fst lm) (snd lm) 0 1 1) (mulv m (fst lm) (snd lm) 0 1 2))
  end.
(** width(), height() (bsputils.cc:1033-1041). *)
Definition width (e : extents) : Z := (ex_w e + 1)%Z.
Definition height (e : extents) : Z := (ex_h e + 1)%Z.

(** The sphere around a face (bsputils.cc:912-916). *)
Definition vlo (pts : list vec) : vec := mkV (lo (map vx pts)) (lo (map vy pts)) (lo (map vz pts)).
Definition vhi (pts : list vec) : vec := mkV (hi (map vx pts)) (hi (map vy pts)) (hi (map vz pts)).
Definition sphere (pts : list vec) : vec * R :=
  let r := scale (1 / 2) (sub (vhi pts) (vlo pts)) in (add (vlo pts) r, len r).

(** The points of CalcPoints (light/ltface.cc:423-447): coordinate s of extra per luxel, and the
    point one unit in front of the face. *)
Definition sample_coord (extra : nat) (s : nat) : R := - (1 / 2) + 1 / 2 / INR extra + INR s * (1 / INR extra).
Definition sample_count (e : extents) (extra : nat) : Z * Z := (width e * Z.of_nat extra, height e * Z.of_nat extra)%Z.
Definition sample_point (e : extents) (pl : plane) (extra s t : nat) : option vec :=
  option_map (fun p => add p (p_n pl)) (to_world e (sample_coord extra s, sample_coord extra t)).

(** clamp_texcoord (light/trace.cc:46-55); None: the cast to uint32_t or the division is undefined. *)
Definition to_u32 (z : Z) : option Z := if ((0 <=? z) && (z <? 2 ^ 32))%Z then Some z else None.
Definition clamp_texcoord (x : R) (w : Z) : option Z :=
  if (w =? 0)%Z then None
  else if Rle_dec 0 x then option_map (fun z => z mod w)%Z (to_u32 (floor x))
  else option_map (fun z => (w - z mod w) mod w)%Z (to_u32 (ceil (Rabs x))).
(** SampleTexture (trace.cc:57-70): the number of the pixel; scale: width_scale and height_scale.
    Some None: no texture or a width of 0, which gives no colour. *)
Definition sample_texture (w h : Z) (sx sy : R) (tv : texvec) (p : vec) : option (option Z) :=
  if (w =? 0)%Z then Some None
  else match clamp_texcoord (fst (uvs tv p) * sx) w, clamp_texcoord (snd (uvs tv p) * sy) h with
       | Some x, Some y => Some (Some (w * y + x)%Z)
       | _, _ => None
       end.
