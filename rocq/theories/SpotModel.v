(* Targets, cones and projected textures of lights: light/entities.cc:211-227 (MatchTargets), 258-303 (SetupSpotlights), 694-868
   (projection matrices, CalcFov), 1003-1049 (LoadEntities), include/common/qvec.hh:1218-1223 (vec_from_mangle),
   common/mathlib.cc:45-67, light/ltface.cc:890-957 (Matrix4x4_CM_Project, LightFace_SampleMipTex).
   Real numbers stand for float and double (no rounding, no NaN). *)
From Coq Require Import String Reals ZArith NArith List Bool.
From Verif Require Import Base CmdlibModel NumCastModel ParserModel EntModel MapMergeModel WindClipModel LightValModel.
Import ListNotations.
Open Scope string_scope.
Open Scope list_scope.
Open Scope R_scope.

(** MatchTargets for one light: the entity found. *)
Definition match_target (target : bytes) (ents : list entdict) : option entdict :=
  match target with [] => None | _ => find (fun d => iequals target (ed_get (mtext "targetname") d)) ents end.

(** vec_from_mangle: RotateAboutZ(yaw) * RotateAboutY(-pitch) * (1 0 0); matrices by columns. *)
Definition zero : vec := mkV 0 0 0.
Definition mat3 := (vec * vec * vec)%type.
Definition rot_y (t : R) : mat3 := (mkV (cos t) 0 (- sin t), mkV 0 1 0, mkV (sin t) 0 (cos t)).
Definition rot_z (t : R) : mat3 := (mkV (cos t) (sin t) 0, mkV (- sin t) (cos t) 0, mkV 0 0 1).
Definition app3 (m : mat3) (v : vec) : vec :=
  let '(a, b, c) := m in add (add (scale (vx v) a) (scale (vy v) b)) (scale (vz v) c).
Definition mul3 (m n : mat3) : mat3 := let '(a, b, c) := n in (app3 m a, app3 m b, app3 m c).
Definition vec_from_mangle (m : vec) : vec := app3 (mul3 (rot_z (vx m * (PI / 180))) (rot_y (- (vy m * (PI / 180))))) (mkV 1 0 0).

(** The keys of a light: mangle, project_mangle, _cone, angle (None: not given), angles, whether _project_texture is given,
    softangle, falloff, origin, the origin of the target. *)
Record lamp := mkLamp { p_mangle : option vec; p_projangle : option vec; p_angles : vec; p_texture : bool;
                        p_cone : option R; p_angle : option R; p_soft : R; p_fall : R; p_origin : vec; p_target : option vec }.
(** LoadEntities: spotlight and spotvec, projangle. *)
Definition loaded (l : lamp) : bool * vec :=
  match p_mangle l with
  | Some m => (true, vec_from_mangle m)
  | None => (p_texture l && match p_projangle l with None => true | Some _ => false end, zero)
  end.
Definition projangle (l : lamp) : vec :=
  match p_projangle l, p_mangle l with
  | Some a, _ => a
  | None, Some m => m
  | None, None => if p_texture l then mkV (vy (p_angles l)) (- vx (p_angles l)) (vz (p_angles l)) else mkV 20 0 0
  end.
(** SetupSpotlights: the cone, spotvec and the distance of the target; tan of 90 degrees is not modelled. *)
Definition cone_angle (q2 : bool) (l : lamp) : R :=
  let b := match p_cone l, p_angle l with Some c, _ => c * 2 | None, Some a => a | None, None => 0 end in
  if Req_EM_T b 0 then (if q2 then 10 * 2 else 40) else b.
Definition aimed (l : lamp) : bool * vec * R :=
  match p_target l with
  | Some t => let d := sub t (p_origin l) in (true, if Req_EM_T (len d) 0 then d else scale (/ len d) d, len d)
  | None => (loaded l, 0)
  end.
Definition spot_of (q2 : bool) (l : lamp) : option spot :=
  let '(on, v, _) := aimed l in
  if on then let f := spot_falls (cone_angle q2 l) (p_soft l) in Some (mkSpot v (fst f) (snd f)) else None.
(** set_value clamps to numbers that are not negative. *)
Definition fall_of (q2 auto : bool) (l : lamp) : R :=
  let '(on, _, d) := aimed l in
  if on && auto && (if Rlt_dec 0 d then true else false) && (if Req_EM_T (p_fall l) 0 then true else false)
  then Rmax 0 (d + d * tan (cone_angle q2 l / 2 * PI / 180)) else p_fall l.

(** ** Projection.  Matrices have 16 numbers, by columns. *)
Definition v4 := (R * R * R * R)%type.
Definition mat := (v4 * v4 * v4 * v4)%type.
Definition add4 (a b : v4) : v4 := let '(x, y, z, w) := a in let '(x', y', z', w') := b in (x + x', y + y', z + z', w + w').
Definition scale4 (k : R) (a : v4) : v4 := let '(x, y, z, w) := a in (k * x, k * y, k * z, k * w).
(** Matrix4x4_CM_Transform4, Matrix4_Multiply *)
Definition app4 (m : mat) (v : v4) : v4 :=
  let '(a, b, c, d) := m in let '(x, y, z, w) := v in add4 (add4 (add4 (scale4 x a) (scale4 y b)) (scale4 z c)) (scale4 w d).
Definition mul4 (m n : mat) : mat := let '(a, b, c, d) := n in (app4 m a, app4 m b, app4 m c, app4 m d).
(** Matrix4x4_CM_NewRotation, NewTranslation, Projection_Inf (near plane 4, nudge 1). *)
Definition rotation (a x y z : R) : mat :=
  let c := cos (a * PI / 180) in let s := sin (a * PI / 180) in
  ((x * x * (1 - c) + c, y * x * (1 - c) + z * s, x * z * (1 - c) - y * s, 0),
   (x * y * (1 - c) - z * s, y * y * (1 - c) + c, y * z * (1 - c) + x * s, 0),
   (x * z * (1 - c) + y * s, y * z * (1 - c) - x * s, z * z * (1 - c) + c, 0),
   (0, 0, 0, 1)).
Definition translation (x y z : R) : mat := ((1, 0, 0, 0), (0, 1, 0, 0), (0, 0, 1, 0), (x, y, z, 1)).
Definition projection (fovx fovy near : R) : mat :=
  let ymax := near * tan (fovy * PI / 360) in let ymin := - ymax in
  let xmax := if Req_EM_T fovx fovy then ymax else near * tan (fovx * PI / 360) in
  let xmin := if Req_EM_T fovx fovy then ymin else - xmax in
  ((2 * near / (xmax - xmin), 0, 0, 0), (0, 2 * near / (ymax - ymin), 0, 0),
   ((xmax + xmin) / (xmax - xmin), (ymax + ymin) / (ymax - ymin), -1 * (1 / 2), -1), (0, 0, -2 * near * 1, 0)).
(** Matrix4x4_CM_ModelViewMatrix, MakeModelViewProj *)
Definition crazy : mat := ((0, 0, -1, 0), (-1, 0, 0, 0), (0, 1, 0, 0), (0, 0, 0, 1)).
Definition modelview (ang org : vec) : mat :=
  mul4 (mul4 (mul4 (mul4 crazy (rotation (- vz ang) 1 0 0)) (rotation (vy ang) 0 1 0)) (rotation (- vx ang) 0 0 1))
       (translation (- vx org) (- vy org) (- vz org)).
Definition viewproj (ang org : vec) (fovx fovy : R) : mat := mul4 (projection fovx fovy 4) (modelview ang org).
(** CalcFov: None is the FError; the matrix of a light (1037-1049) for a texture of w by h. *)
Definition calc_fov (fov w h : R) : option R :=
  if Rlt_dec fov 1 then None else if Rlt_dec 179 fov then None else Some (atan (h / (w / tan (fov / 360 * PI))) * 360 / PI).
Definition light_fovs (fov : R) (w h : Z) : option (R * R) :=
  if (h <? w)%Z then option_map (fun f => (fov, f)) (calc_fov fov (IZR w) (IZR h)) else option_map (fun f => (f, fov)) (calc_fov fov (IZR h) (IZR w)).

(** Matrix4x4_CM_Project: None for false.  The point is not divided by 0 where true is returned for the matrices here. *)
Definition project (m : mat) (p : vec) : option vec :=
  let '(x, y, z, w) := app4 m (vx p, vy p, vz p, 1) in
  if Rlt_dec z 0 then None
  else let o := mkV ((1 + x / w) / 2) ((1 + y / w) / 2) ((1 + z / w) / 2) in if Rlt_dec 1 (vz o) then None else Some o.
(** LightFace_SampleMipTex: None is a read outside of the pixels; the colour is black outside of the texture. *)
Definition pixel (w h : Z) (px : list vec) (s t : Z) : option vec := nth_error px (Z.to_nat (s mod w + w * (t mod h))).
Definition sample_tex (w h : Z) (px : list vec) (m : mat) (p : vec) : option vec :=
  match project m p with
  | None => Some zero
  | Some c =>
    if Rle_dec (vx c) 0 then Some zero else if Rle_dec 1 (vx c) then Some zero
    else if Rle_dec (vy c) 0 then Some zero else if Rle_dec 1 (vy c) then Some zero
    else
      let s := vx c * IZR (w - 1) in let sb := Int_part s in let sf := s - IZR sb in
      let t := (1 - vy c) * IZR (h - 1) in let tb := Int_part t in let tf := t - IZR tb in
      match pixel w h px sb tb, pixel w h px (sb + 1) tb, pixel w h px sb (tb + 1), pixel w h px (sb + 1) (tb + 1) with
      | Some a, Some b, Some c, Some d =>
        Some (scale 2 (add (add (add (scale ((1 - sf) * (1 - tf)) a) (scale (sf * (1 - tf)) b)) (scale ((1 - sf) * tf) c)) (scale (sf * tf) d)))
      | _, _, _, _ => None
      end
  end.
