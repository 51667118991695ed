(* Transformations of the brushes of a map by qbsp: misc_external_map, origin brushes and -scale
   (qbsp/map.cc:1892-1926, 2791-2886, 2931-2987, 3175-3185, 3276-3316).  Real numbers stand for float and double. *)
From Coq Require Import Reals List ZArith Bool Arith.
From Verif Require Import WindClipModel SideOutModel.
Import ListNotations.
Open Scope R_scope.

(** qmat3x3d by its rows; operator* (include/common/qvec.hh:962-990). *)
Record mat := mkM { r0 : vec; r1 : vec; r2 : vec }.
Definition mul (m : mat) (v : vec) : vec := mkV (dot (r0 m) v) (dot (r1 m) v) (dot (r2 m) v).
Definition col (m : mat) (k : nat) : vec :=
  match k with
  | O => mkV (vx (r0 m)) (vx (r1 m)) (vx (r2 m))
  | S O => mkV (vy (r0 m)) (vy (r1 m)) (vy (r2 m))
  | _ => mkV (vz (r0 m)) (vz (r1 m)) (vz (r2 m))
  end.
Definition mmul (a b : mat) : mat :=
  let row r := mkV (dot r (col b 0)) (dot r (col b 1)) (dot r (col b 2)) in mkM (row (r0 a)) (row (r1 a)) (row (r2 a)).

(** RotateAboutX, Y and Z (common/mathlib.cc:31-67), given there by columns. *)
Definition about_x (t : R) : mat := mkM (mkV 1 0 0) (mkV 0 (cos t) (- sin t)) (mkV 0 (sin t) (cos t)).
Definition about_y (t : R) : mat := mkM (mkV (cos t) 0 (sin t)) (mkV 0 1 0) (mkV (- sin t) 0 (cos t)).
Definition about_z (t : R) : mat := mkM (mkV (cos t) (- sin t) 0) (mkV (sin t) (cos t) 0) (mkV 0 0 1).
Definition deg2rad (a : R) : R := a * (PI / 180).
(** map.cc:2830-2834; the angles are pitch, yaw and roll. *)
Definition rotation (angles : vec) : mat :=
  mmul (mmul (about_z (deg2rad (vy angles))) (about_y (deg2rad (vx angles)))) (about_x (deg2rad (vz angles))).
Definition diag (s : vec) : mat := mkM (mkV (vx s) 0 0) (mkV 0 (vy s) 0) (mkV 0 0 (vz s)).

(** mapface_t: planepts, the plane of planenum, the texture vectors of texinfo, bevel.  The table of planes gives
    back the plane that is asked for (C114), the table of texinfos the vectors. *)
Record mface := mkMF { mf_pts : vec * vec * vec; mf_plane : plane; mf_st : (vec * R) * (vec * R); mf_bevel : bool }.
Definition map_pts (f : vec -> vec) (p : vec * vec * vec) : vec * vec * vec := let '(a, b, c) := p in (f a, f b, f c).
Definition map_rows (f : vec * R -> vec * R) (st : (vec * R) * (vec * R)) : (vec * R) * (vec * R) := (f (fst st), f (snd st)).

(** set_planepts and set_texvecs (map.cc:1892-1907, 1919-1926); the returned bool is not used here. *)
Definition set_planepts (f : mface) (p : vec * vec * vec) : mface := mkMF p (points_plane p) (mf_st f) (mf_bevel f).
Definition set_texvecs (f : mface) (st : (vec * R) * (vec * R)) : mface := mkMF (mf_pts f) (mf_plane f) st (mf_bevel f).

(** ScaleMapFace (2791-2826) for factors that are not 0, RotateMapFace (2828-2857), TranslateMapFace (2859-2881). *)
Definition scale_face (s : vec) (f : mface) : mface :=
  set_texvecs (set_planepts f (map_pts (mul (diag s)) (mf_pts f)))
    (map_rows (fun r => (mul (diag (mkV (1 / vx s) (1 / vy s) (1 / vz s))) (fst r), snd r)) (mf_st f)).
Definition rotate_face (angles : vec) (f : mface) : mface :=
  set_texvecs (set_planepts f (map_pts (mul (rotation angles)) (mf_pts f)))
    (map_rows (fun r => (mul (rotation angles) (fst r), snd r)) (mf_st f)).
Definition translate_face (o : vec) (f : mface) : mface :=
  set_texvecs (set_planepts f (map_pts (fun p => add p o) (mf_pts f)))
    (map_rows (fun r => (fst r, snd r + dot (fst r) (scale (-1) o))) (mf_st f)).

(** The keys of a misc_external_map (2953-2972): what get_vector returns for _external_map_angles and
    _external_map_scale, and get_float for _external_map_angle.  qv::epsilonEmpty compares each component with
    QBSP_EQUAL_EPSILON (include/common/qvec.hh:488-506, mathlib.hh:55, 68). *)
Definition angle_eps : R := 1 / 10000.
Definition near0 (x : R) : bool := if Rle_dec (Rabs x) angle_eps then true else false.
Definition angles_of (angles : vec) (angle : R) : vec :=
  if near0 (vx angles) && near0 (vy angles) && near0 (vz angles) then mkV (vx angles) angle (vz angles) else angles.
Definition scale_of (n : nat) (s : vec) : vec :=
  if (n <? 3)%nat then (if Req_EM_T (vx s) 0 then mkV 1 1 1 else mkV (vx s) (vx s) (vx s)) else s.
(** 2974-2980. *)
Definition place (s angles o : vec) (f : mface) : mface := translate_face o (rotate_face angles (scale_face s f)).

(** The faces of a model with an origin brush at o, or that rotates (3281-3295, without -oldrottex): planepts stay. *)
Definition origin_face (o : vec) (f : mface) : mface :=
  mkMF (mf_pts f) (origin_plane o (mf_plane f)) (map_rows (origin_row o) (mf_st f)) (mf_bevel f).
(** The side of AddBrushBevels (2071-2086, 2168-2174): planepts is not set. *)
Definition bevel_face (pl : plane) (st : (vec * R) * (vec * R)) : mface := mkMF (mkV 0 0 0, mkV 0 0 0, mkV 0 0 0) pl st true.
(** -scale (3304-3311): the faces of a brush, after bevels and origin. *)
Definition global_scale (k : R) (f : mface) : mface := if Req_EM_T k 1 then f else scale_face (mkV k k k) f.

(** lmshift from _lmscale (3179-3187), i being the converted value of 16 times the key. *)
Fixpoint shift_loop (fuel : nat) (i : Z) : nat :=
  match fuel with
  | O => O
  | S fuel => if (1 <? i)%Z then S (shift_loop fuel (i / 2)) else O
  end.
Definition lmshift (i : Z) : nat := let i := if (i =? 0)%Z then 16%Z else i in shift_loop (Z.to_nat i) i.
