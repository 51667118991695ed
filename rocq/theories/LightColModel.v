(* From the light of a sample to bytes: light/write.cc:535-585 (LightFace_ScaleAndClamp; the same
   steps without lightcolorscale are LightPoint_ScaleAndClamp, light/ltface.cc:2430-2464),
   402-457 (the bytes of WriteSingleLightmap), 467-531 (WriteSingleLightmap_FromDecoupled),
   include/common/mathlib.hh:115-119 (mix).  Real numbers stand for float (no rounding). *)
From Coq Require Import Reals List Bool ZArith.
From Verif Require Import NumCastModel WindClipModel.
Import ListNotations.
Open Scope R_scope.

(** qv::max of a vector and qv::max with {0}. *)
Definition vmax (c : vec) : R := Rmax (vx c) (Rmax (vy c) (vz c)).
Definition vpos (c : vec) : vec := mkV (Rmax (vx c) 0) (Rmax (vy c) 0) (Rmax (vz c) 0).
(** mix (mathlib.hh:115-119). *)
Definition mix (a b : vec) (f : R) : vec := add (scale (1 - f) a) (scale f b).

(** c = pow(c / 255, 1 / gamma) * 255 (write.cc:566-570).  None: gamma is 0, or c is negative (not
    a number unless 1 / gamma is an integer). *)
Definition gamma1 (gamma c : R) : option R :=
  if Req_EM_T gamma 0 then None
  else if Rlt_dec c 0 then None
  else if Req_EM_T c 0 then Some 0
  else Some (Rpower (c / 255) (1 / gamma) * 255).
Definition gamma3 (gamma : R) (c : vec) : option vec :=
  match gamma1 gamma (vx c), gamma1 gamma (vy c), gamma1 gamma (vz c) with
  | Some x, Some y, Some z => Some (mkV x y z)
  | _, _, _ => None
  end.

(** LightFace_ScaleAndClamp for one sample (write.cc:543-582).  maxlight: that of the surface or
    else of worldspawn, 0 for none; s: lightcolorscale.  None: a component is not a number. *)
Definition apply_maxlight (maxlight : R) (c : vec) : option vec :=
  if Req_EM_T maxlight 0 then Some c
  else if Rlt_dec (maxlight * 2) (vmax c)
       then if Req_EM_T (vmax c) 0 then None else Some (scale (maxlight * 2 / vmax c) c)
       else Some c.
Definition apply_colorscale (s : R) (c : vec) : vec :=
  if Req_EM_T s 1 then c else mix (mkV (vmax c) (vmax c) (vmax c)) c s.
Definition apply_gamma (gamma : R) (c : vec) : option vec :=
  if Req_EM_T gamma 1 then Some c else gamma3 gamma c.
Definition apply_clamp (c : vec) : vec := if Rlt_dec 255 (vmax c) then scale (255 / vmax c) c else c.
Definition scale_clamp (maxlight s range gamma : R) (c : vec) : option vec :=
  match apply_maxlight maxlight (vpos c) with
  | None => None
  | Some c1 =>
    match apply_gamma gamma (scale range (apply_colorscale s c1)) with
    | None => None
    | Some c2 => Some (apply_clamp c2)
    end
  end.

(** Conversion of a floating-point number to int: towards zero. *)
Definition trunc (x : R) : Z := if Rlt_dec x 0 then (- Int_part (- x))%Z else Int_part x.
(** Conversion to uint8_t: undefined when the truncated value is no byte. *)
Definition to_byte (x : R) : res Z :=
  let z := trunc x in if ((0 <=? z) && (z <=? 255))%Z then ROk z else RUB.

(** The bytes of one luxel in the .lit file (write.cc:418-422, 509-513) and in the .bsp
    (write.cc:424-439). *)
Definition lit_bytes (c : vec) : res (Z * Z * Z) :=
  rbind (to_byte (vx c)) (fun r => rbind (to_byte (vy c)) (fun g => rbind (to_byte (vz c)) (fun b => ROk (r, g, b)))).
Definition bsp_byte (c : vec) : res Z :=
  let l := vmax c in
  let l := if Rlt_dec l 0 then 0 else l in
  let l := if Rlt_dec 255 l then 255 else l in
  to_byte l.

(** The bytes of the .lux file (write.cc:442-456): sn, tn and n are snormal, tnormal and the normal
    of the plane.  The int is cut at 255 and then narrowed to a byte (modulo 256). *)
Definition lux_byte (t : R) : Z :=
  let v := trunc ((t + 1) * 128) in Z.modulo (if (255 <? v)%Z then 255 else v) 256.
Definition lux_bytes (sn tn n dir : vec) : Z * Z * Z :=
  let t := mkV (dot dir sn) (dot dir tn) (dot dir n) in
  let t := if Req_EM_T (len t) 0 then mkV 0 0 1 else normalize t in
  (lux_byte (vx t), lux_byte (vy t), lux_byte (vz t)).

(** WriteSingleLightmap_FromDecoupled for one luxel (write.cc:479-529): im gives the colour at an
    integer position of the lightmap of w by h samples, (x, y) is the position of the luxel in it. *)
Definition tex (im : Z -> Z -> vec) (w h x y : Z) : vec :=
  im (Z.max 0 (Z.min x (w - 1))) (Z.max 0 (Z.min y (h - 1))).
Definition bilinear (im : Z -> Z -> vec) (w h : Z) (x y : R) : vec :=
  let ix := trunc x in let iy := trunc y in
  let fx := x - IZR ix in let fy := y - IZR iy in
  mix (mix (tex im w h ix iy) (tex im w h (ix + 1) iy) fx)
      (mix (tex im w h ix (iy + 1)) (tex im w h (ix + 1) (iy + 1)) fx) fy.
Definition decoupled_lit (im : Z -> Z -> vec) (w h : Z) (x y : R) : res (Z * Z * Z) :=
  lit_bytes (bilinear im w h x y).
Definition decoupled_bsp (im : Z -> Z -> vec) (w h : Z) (x y : R) : Z := 0%Z.

(** IntegerDownsampleImage for colours without transparency (C99 has the whole function): the
    average of the oversampled colours of a luxel. *)
Definition vsum (l : list vec) : vec := fold_right add (mkV 0 0 0) l.
Definition average (l : list vec) : vec := scale (/ INR (length l)) (vsum l).
