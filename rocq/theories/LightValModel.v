(* The light that a point light entity gives to a sample: light/ltface.cc:809-890 (GetLightValue,
   GetLightValueWithAngle), 955-990 (GetLightContrib), 1015-1024 (fraction), 1033-1110
   (Dirt_GetScaleFactor), 1120-1146 (CullLight without the test of bounds of -visapprox rays),
   1175-1246 (the tests of LightFace_Entity before rays are traced), include/light/light.hh:51-54
   (LightSample_Brightness), light/entities.cc:255-317 (spotlight cones, CheckEntityFields).
   Real numbers stand for float (no rounding). *)
From Coq Require Import Reals List Bool.
From Verif Require Import WindClipModel.
Import ListNotations.
Open Scope R_scope.

(** light_formula_t (include/light/entities.hh:47-58). *)
Inductive formula := Linear | Inverse | Inverse2 | Infinite | LocalMin | Inverse2A.

(** LF_SCALE (entities.hh:45). *)
Definition lf_scale : R := 128.

(** light_t (include/light/entities.hh, light/entities.cc:90-125): the keys that the code here
    reads.  e_spot: None for a light that is no spotlight, else spotvec, spotfalloff and
    spotfalloff2. *)
Record spot := mkSpot { s_vec : vec; s_fall : R; s_fall2 : R }.
Record light := mkL { e_light : R; e_fall : R; e_formula : formula; e_atten : R; e_anglescale : R; e_bleed : bool;
                      e_origin : vec; e_color : vec; e_spot : option spot }.

(** GetLightValue (ltface.cc:809-842); sd is cfg.scaledist.  None: the result is infinite or not a
    number, since the divisor is 0. *)
Definition ndiv (a b : R) : option R := if Req_EM_T b 0 then None else Some (a / b).
Definition light_value (sd : R) (e : light) (dist : R) : option R :=
  match (if Rlt_dec 0 (e_fall e) then match e_formula e with Linear => true | _ => false end else false) with
  | true => if Rlt_dec dist (e_fall e) then Some (e_light e * (1 - dist / e_fall e)) else Some 0
  | false =>
    let value := sd * e_atten e * dist in
    match e_formula e with
    | Infinite | LocalMin => Some (e_light e)
    | Inverse => ndiv (e_light e) (value / lf_scale)
    | Inverse2A => ndiv (e_light e) ((value + lf_scale) * (value + lf_scale) / (lf_scale * lf_scale))
    | Inverse2 => ndiv (e_light e) (value * value / (lf_scale * lf_scale))
    | Linear =>
      if Rlt_dec 0 (e_light e)
      then Some (if Rlt_dec 0 (e_light e - value) then e_light e - value else 0)
      else Some (if Rlt_dec (e_light e + value) 0 then e_light e + value else 0)
    end
  end.

(** The cone of a spotlight (ltface.cc:871-884): None for a sample outside of it. *)
Definition spot_scale (sp : option spot) (dir : vec) : option R :=
  match sp with
  | None => Some 1
  | Some s =>
    let f := dot (s_vec s) dir in
    if Rlt_dec (s_fall s) f then None
    else if Rlt_dec (s_fall2 s) f then Some (1 - (f - s_fall2 s) / (s_fall s - s_fall2 s))
    else Some 1
  end.

(** GetLightValueWithAngle (ltface.cc:844-890) with use_surfnorm, as all calls have it. *)
Definition light_angle (sd : R) (e : light) (norm dir : vec) (dist : R) (twosided : bool) : option R :=
  let a0 := dot dir norm in
  let a := if e_bleed e || twosided then (if Rlt_dec a0 0 then - a0 else a0) else a0 in
  if Rlt_dec a 0 then Some 0
  else
    match spot_scale (e_spot e) dir with
    | None => Some 0
    | Some ss => option_map (fun v => v * ((1 - e_anglescale e) + e_anglescale e * a) * ss) (light_value sd e dist)
    end.

(** GetDir (include/light/ltface.hh, vec of the light minus the sample, normalized; the length),
    with the replacement for samples at the light (ltface.cc:959-965). *)
Definition light_dir (e : light) (p : vec) : vec * R :=
  let d := len (sub (e_origin e) p) in
  if Rlt_dec d (1 / 10) then (mkV 0 0 1, 1 / 10) else (normalize (sub (e_origin e) p), d).

(** GetLightContrib (ltface.cc:955-990); mip: the colour of the projected texture at the sample
    (already doubled by LightFace_SampleMipTex, and 0 outside of the texture), None when the light
    projects none. *)
Definition mulc (a b : vec) : vec := mkV (vx a * vx b) (vy a * vy b) (vz a * vz b).
Definition light_contrib (sd : R) (e : light) (mip : option vec) (norm p : vec) (twosided : bool) : option (vec * R) :=
  let '(dir, dist) := light_dir e p in
  let col := match mip with None => e_color e | Some m => mulc m (scale (1 / 255) (e_color e)) end in
  option_map (fun a => (scale (1 / 255) (scale a col), dist)) (light_angle sd e norm dir dist twosided).

(** fraction (ltface.cc:1015-1024). *)
Definition fraction (mn v mx : R) : R :=
  if Rle_dec mx v then 1 else if Rle_dec v mn then 0 else (v - mn) / (mx - mn).

(** Dirt_GetScaleFactor (ltface.cc:1033-1110) after the choice of the settings: use stands for
    dirt_in_use and usedirt and not nodirt, gain and dscale for the values that apply, radii for
    dirt_off_radius and dirt_on_radius if both were given.  pow of a positive number. *)
Definition dirt_factor (use : bool) (gain dscale : R) (radii : option (R * R)) (occ dist : R) : R :=
  if use then
    if Rle_dec occ 0 then 1
    else
      let o1 := let o := Rpower occ gain in if Rlt_dec 1 o then 1 else o in
      let o2 := let o := o1 * dscale in if Rlt_dec 1 o then 1 else o in
      let o3 := match radii with
                | None => o2
                | Some (off, on) =>
                  if Rlt_dec dist off then 0
                  else if Rlt_dec dist on then fraction off dist on * o2 else o2
                end in
      1 - o3
  else 1.

(** Dirt_GetScaleFactor: the choice of the settings (ltface.cc:1036-1073).  A light's own gain or
    scale counts unless it is 0. *)
Record dirtcfg := mkD { d_inuse : bool; d_world : bool; d_gain : R; d_scale : R }.
Record dirtlight := mkDL { dl_dirt : Z; dl_gain : R; dl_scale : R; dl_radii : option (R * R) }.
Definition pick (own all : R) : R := if Req_EM_T own 0 then all else own.
Definition dirt_scale (c : dirtcfg) (dl : dirtlight) (nodirt : bool) (occ dist : R) : R :=
  let use := if Z.eqb (dl_dirt dl) (-1) then false else if Z.eqb (dl_dirt dl) 1 then true else d_world c in
  dirt_factor (d_inuse c && negb nodirt && use) (pick (dl_gain dl) (d_gain c)) (pick (dl_scale dl) (d_scale c))
              (dl_radii dl) occ dist.

(** LightSample_Brightness (light.hh:51-54). *)
Definition brightness (c : vec) : R := (vx c + vy c + vz c) / 3.

(** fabs(x) <= gate; a comparison with an infinite or undefined number fails. *)
Definition within (gate : R) (x : option R) : bool :=
  match x with Some x => if Rle_dec (Rabs x) gate then true else false | None => false end.

(** CullLight (ltface.cc:1120-1146): c and r are extents.origin and extents.radius. *)
Definition cull (sd gate : R) (e : light) (c : vec) (r : R) : bool :=
  let d := len (sub (e_origin e) c) - r in
  if Rlt_dec d 0 then false else within gate (light_value sd e d).

(** The test for lights behind a flat surface (ltface.cc:1190-1202). *)
Definition behind (e : light) (pl : plane) (curved twosided : bool) : bool :=
  (if Rlt_dec (dist_to pl (e_origin e)) 0 then true else false) && negb (e_bleed e) && negb curved && negb twosided.

(** One sample of the loop (ltface.cc:1220-1246): None when it is skipped by the gate, else the
    colour of the ray (None inside: infinite or undefined). *)
Definition sample_ray (sd gate : R) (e : light) (mip : option vec) (norm p : vec) (twosided : bool)
                      (dirt : R -> R) : option (option vec) :=
  match light_contrib sd e mip norm p twosided with
  | None => Some None
  | Some (col, dist) =>
    let c := scale (dirt dist) col in
    if within gate (Some (brightness c)) then None else Some (Some c)
  end.

(** spotfalloff and spotfalloff2 (entities.cc:286-294) for a cone of base degrees and the inner
    angle of the key softangle. *)
Definition spot_falls (base soft : R) : R * R :=
  let a2 := if Rle_dec soft 0 then base else if Rlt_dec base soft then base else soft in
  (- cos (base / 2 * PI / 180), - cos (a2 / 2 * PI / 180)).

(** CheckEntityFields (entities.cc:310-321): the keys wait, anglescale and falloff. *)
Definition check_fields (global_anglescale : R) (e : light) : light :=
  mkL (e_light e)
      (if Rlt_dec 0 (e_fall e) then match e_formula e with Linear => e_fall e | _ => 0 end else e_fall e)
      (e_formula e)
      (if Rle_dec (e_atten e) 0 then 1 else e_atten e)
      (if Rlt_dec (e_anglescale e) 0 then global_anglescale
       else if Rlt_dec 1 (e_anglescale e) then global_anglescale else e_anglescale e)
      (e_bleed e) (e_origin e) (e_color e) (e_spot e).
