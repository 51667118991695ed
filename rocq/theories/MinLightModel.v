(* Minimum light: the settings of a surface (light/ltface.cc:583-680, Lightsurf_Init), the lightmaps
   by style (733-800), Light_ClampMin (999-1014), Mottle (1547-1643), LightFace_Min (1650-1684),
   LightFace_LocalMin (1686-1771), LightFace_AutoMin (1773-1841), PostProcessLightFace (2693-2757) and
   the scale for minlight of surface lights (light/entities.cc:346-354, qbsp/map.cc:711-716).
   Real numbers stand for float (no rounding). *)
From Coq Require Import Reals List Bool ZArith.
From Verif Require Import NumCastModel WindClipModel LightValModel LightColModel.
Import ListNotations.
Open Scope R_scope.

(** ** Settings of a surface *)

(** A key of the model that was given counts, else the flag of the texinfo, else the third. *)
Definition prefer {A} (key flag : option A) (other : A) : A :=
  match key with Some x => x | None => match flag with Some x => x | None => other end end.
(** lightsurf.minlight (ltface.cc:607-628): Quake II counts from 0 to 1. *)
Definition surf_minlight (q2 : bool) (key flag : option R) (world : R) : R :=
  let m := prefer key flag world in if q2 then m * 128 else m.
(** lightsurf.minlight_color (ltface.cc:649-656): black in the flags stands for none. *)
Definition surf_mincolor (key : option vec) (flag : vec) (world : vec) : vec :=
  match key with
  | Some c => c
  | None => if Req_EM_T (vx flag) 0 then if Req_EM_T (vy flag) 0 then if Req_EM_T (vz flag) 0 then world else flag
            else flag else flag
  end.
(** lightsurf.minlightMottle (ltface.cc:616-623): the option is a number. *)
Definition surf_mottle (key : option bool) (world : option R) : bool :=
  match key with
  | Some b => b
  | None => match world with Some r => if Req_EM_T r 0 then false else true | None => false end
  end.
(** lightsurf.maxlight and lightcolorscale (ltface.cc:630-647). *)
Definition surf_maxlight (q2 : bool) (key : option R) (flag : R) : R :=
  let m := prefer key None flag in if q2 then m * 128 else m.
Definition surf_colorscale (key : option R) (flag : R) : R := prefer key None flag.
(** lightsurf.nodirt and twosided (ltface.cc:585, 594-604, 658-667): dirt is the key _dirt of the model. *)
Definition surf_nodirt (dirt : option Z) (flag translucent : bool) : bool :=
  if translucent then true else match dirt with Some d => (d =? -1)%Z | None => flag end.
Definition surf_twosided (translucent : bool) (flag : option bool) (alpha : R) : bool :=
  if Rlt_dec alpha 1 then true else match flag with Some b => b | None => translucent end.
(** lightsurf.object_channel_mask (ltface.cc:669-674): here the flag counts first. *)
Definition surf_channels (flag : option Z) (model : Z) : Z := match flag with Some m => m | None => model end.

(** The minimum light PostProcessLightFace applies to style 0 (ltface.cc:2704-2718). *)
Definition face_level (surf : R) (surfcolor : vec) (world : R) (worldcolor : vec) : R * vec :=
  if Rlt_dec world surf then (surf, surfcolor) else (world, worldcolor).

(** ** Lightmaps of a face by style *)

(** lightmapdict_t: style and the colours of the samples.  Directions are left out. *)
Definition dict := list (Z * list vec).
Definition INVALID_STYLE : Z := 65535.
Definition black : vec := mkV 0 0 0.
Fixpoint index_of (s : Z) (d : dict) : option nat :=
  match d with
  | [] => None
  | (t, _) :: r => if (t =? s)%Z then Some O else option_map S (index_of s r)
  end.
Fixpoint put {A} (i : nat) (x : A) (l : list A) : list A :=
  match l, i with
  | [], _ => []
  | _ :: t, O => x :: t
  | a :: t, S j => a :: put j x t
  end.
(** Lightmap_ForStyle (ltface.cc:763-783): the position in the dictionary. *)
Definition for_style (d : dict) (s : Z) (n : nat) : nat * dict :=
  match index_of s d with
  | Some i => (i, d)
  | None =>
    match index_of INVALID_STYLE d with
    | Some i => (i, put i (INVALID_STYLE, repeat black n) d)
    | None => (length d, d ++ [(INVALID_STYLE, repeat black n)])
    end
  end.
(** Lightmap_Save (ltface.cc:791-800). *)
Definition save (d : dict) (i : nat) (s : Z) : dict :=
  let m := nth i d (INVALID_STYLE, []) in
  if (fst m =? INVALID_STYLE)%Z then put i (s, snd m) d else d.
(** All of the functions below: find the map, change its samples, save it if f says so. *)
Definition on_style (d : dict) (s : Z) (n : nat) (f : list vec -> list vec * bool) : dict :=
  let (i, d1) := for_style d s n in
  let m := nth i d1 (INVALID_STYLE, []) in
  let (x, hit) := f (snd m) in
  let d2 := put i (fst m, x) d1 in
  if hit then save d2 i s else d2.

(** ** Minimum light *)

(** The sample points of a face: position, dirt (occlusion) and whether it is inside solid. *)
Record sample := mkS { sp_point : vec; sp_occ : R; sp_occluded : bool }.
(** A change of the colours of all samples; saved if one was changed. *)
Fixpoint each (f : sample -> vec -> vec * bool) (ss : list sample) (cs : list vec) : list vec * bool :=
  match ss, cs with
  | s :: ss, c :: cs =>
    let (c', h) := f s c in let (r, h') := each f ss cs in (c' :: r, h || h')
  | _, _ => (cs, false)
  end.
(** Light_ClampMin (ltface.cc:999-1014). *)
Definition clamp1 (light col c : R) : R * bool :=
  let m := col * (light / 255) in if Rlt_dec c m then (m, true) else (c, false).
Definition clamp_min (light : R) (col c : vec) : vec * bool :=
  let (x, a) := clamp1 light (vx col) (vx c) in
  let (y, b) := clamp1 light (vy col) (vy c) in
  let (z, e) := clamp1 light (vz col) (vz c) in
  (mkV x y z, a || b || e).

(** MottlePermutation256. *)
Definition mottle_table : list Z :=
  [11; 255; 250; 82; 217; 9; 144; 93; 136; 153; 55; 71; 73; 204; 96; 180; 126; 8; 50; 46; 113; 91; 238; 143;
   30; 215; 191; 243; 65; 58; 208; 33; 86; 1; 182; 118; 83; 115; 207; 52; 94; 112; 205; 48; 99; 254; 117; 101;
   157; 140; 72; 242; 244; 154; 10; 135; 155; 168; 125; 183; 148; 116; 187; 166; 25; 156; 177; 231; 165; 57; 221; 105;
   28; 211; 127; 41; 142; 253; 146; 87; 122; 229; 162; 137; 194; 174; 167; 15; 220; 26; 235; 3; 39; 80; 88; 42;
   202; 12; 97; 53; 70; 123; 170; 110; 214; 192; 173; 84; 169; 188; 64; 102; 147; 158; 100; 69; 213; 193; 43; 20;
   13; 237; 171; 103; 32; 190; 223; 150; 131; 206; 85; 124; 163; 18; 139; 132; 79; 29; 216; 232; 178; 74; 24; 141;
   201; 181; 152; 4; 7; 159; 134; 212; 226; 245; 164; 239; 47; 66; 27; 40; 197; 81; 78; 219; 228; 241; 121; 23;
   120; 230; 76; 252; 199; 184; 45; 203; 161; 89; 16; 21; 119; 5; 209; 196; 68; 130; 195; 176; 225; 233; 128; 22;
   248; 179; 249; 61; 108; 138; 145; 31; 49; 107; 56; 172; 224; 210; 6; 160; 189; 104; 200; 44; 175; 133; 77; 62;
   106; 92; 186; 227; 14; 38; 247; 37; 17; 222; 36; 75; 129; 185; 251; 240; 54; 151; 2; 98; 149; 0; 63; 218;
   60; 198; 19; 59; 90; 246; 234; 67; 51; 109; 95; 236; 35; 34; 114; 111]%Z.
(** mod_round_to_neg_inf (ltface.cc:1547-1556), as written. *)
Definition mod_neg (x y : Z) : Z := if (0 <=? x)%Z then Z.rem x y else (y - Z.rem (- x) y)%Z.
Definition noise (x y z : Z) : Z :=
  let t i := nth (Z.to_nat (i mod 256)) mottle_table 0%Z in
  (t (t (t x + y) + z))%Z.
(** mix (mathlib.hh:115-119) of two uint8_t is a uint8_t: every step drops the fraction. *)
Definition mixb (a b : Z) (f : R) : Z := trunc (IZR a * (1 - f) + IZR b * f).
Definition mixed (x y z : Z) (fx fy fz : R) : Z :=
  mixb (mixb (mixb (noise x y z) (noise (x + 1) y z) fx) (mixb (noise x (y + 1) z) (noise (x + 1) (y + 1) z) fx) fy)
       (mixb (mixb (noise x y (z + 1)) (noise (x + 1) y (z + 1)) fx)
             (mixb (noise x (y + 1) (z + 1)) (noise (x + 1) (y + 1) (z + 1)) fx) fy) fz.
(** Mottle (ltface.cc:1585-1642).  RUB: a coordinate does not fit int; RThrow: an assertion of a
    debug build fails. *)
Definition int_ok (z : Z) : bool := ((- 2147483648 <=? z) && (z <=? 2147483647))%Z.
Definition mottle (debug : bool) (p : vec) : res R :=
  let q := scale (1 / 16) p in
  let fx := Int_part (vx q) in let fy := Int_part (vy q) in let fz := Int_part (vz q) in
  if int_ok fx && int_ok fy && int_ok fz then
    let x := mod_neg fx 256 in let y := mod_neg fy 256 in let z := mod_neg fz 256 in
    if debug && negb ((x <? 256) && (y <? 256) && (z <? 256))%Z then RThrow
    else ROk (IZR (mixed x y z (vx q - IZR fx) (vy q - IZR fy) (vz q - IZR fz)) / 255 * 48)
  else RUB.

(** What worldspawn and the surface say about minimum light: addmin, _minlight_dirt, the dirt of
    worldspawn, nodirt of the surface. *)
Record mincfg := mkM { m_add : bool; m_dirt : bool; m_cfg : dirtcfg; m_nodirt : bool }.
(** Dirt_GetScaleFactor without an entity. *)
Definition min_dirt (g : mincfg) (s : sample) : R :=
  dirt_factor (d_inuse (m_cfg g) && negb (m_nodirt g)) (d_gain (m_cfg g)) (d_scale (m_cfg g)) None (sp_occ s) 0.
(** LightFace_Min for one sample (ltface.cc:1666-1680); mot: the noise of the points if the surface
    is mottled. *)
Definition min_sample (g : mincfg) (mot : option (vec -> R)) (light : R) (col : vec) (s : sample) (c : vec) : vec * bool :=
  let value := if m_dirt g then light * min_dirt g s else light in
  if m_add g then (add c (scale (value / 255) col), true)
  else clamp_min (match mot with Some f => value + f (sp_point s) | None => value end) col c.
(** LightFace_Min; excluded: no_minlight of the texinfo. *)
Definition face_min (excluded : bool) (g : mincfg) (mot : option (vec -> R)) (ss : list sample)
    (light : R) (col : vec) (style : Z) (d : dict) : dict :=
  if excluded then d else on_style d style (length ss) (each (min_sample g mot light col) ss).

(** A local minimum light (formula 4): lm_skip stands for nostaticlight or CullLight, lm_sees for
    the rays from the points to the light. *)
Record localmin := mkLM { lm_skip : bool; lm_style : Z; lm_light : R; lm_color : vec; lm_dirt : dirtlight; lm_sees : vec -> bool }.
(** LightFace_LocalMin for one sample (ltface.cc:1719-1762). *)
Definition local_sample (g : mincfg) (e : localmin) (s : sample) (c : vec) : vec * bool :=
  if sp_occluded s then (c, false)
  else if m_add g || (if Rlt_dec (brightness c) (lm_light e) then true else false) then
    if lm_sees e (sp_point s) then
      let value := lm_light e * dirt_scale (m_cfg g) (lm_dirt e) (m_nodirt g) (sp_occ s) 0 in
      if m_add g then (add c (scale (value / 255) (lm_color e)), true) else clamp_min value (lm_color e) c
    else (c, false)
  else (c, false).
Definition local_min (excluded ignore : bool) (g : mincfg) (ss : list sample) (es : list localmin) (d : dict) : dict :=
  if excluded then d else if ignore then d
  else fold_left (fun d e => if lm_skip e then d else on_style d (lm_style e) (length ss) (each (local_sample g e) ss)) es d.

(** LightFace_AutoMin (ltface.cc:1773-1841): key is autominlight of the model, grid the used styles
    and colours at the centre (None: the point is in solid). *)
Definition vmax2 (a b : vec) : vec := mkV (Rmax (vx a) (vx b)) (Rmax (vy a) (vy b)) (Rmax (vz a) (vz b)).
Definition auto_min (key : option bool) (grid : option (list (Z * vec))) (ss : list sample) (d : dict) : dict * list sample :=
  let go (all : bool) :=
    match grid with
    | None => (d, ss)
    | Some l =>
      (fold_left (fun d g => on_style d (fst g) (length ss)
                   (fun cs => (fst (each (fun s c => (if all || sp_occluded s then vmax2 (snd g) c else c, true)) ss cs), true))) l d,
       map (fun s => mkS (sp_point s) (sp_occ s) false) ss)
    end in
  match key with
  | None => if existsb sp_occluded ss then go false else (d, ss)
  | Some false => (d, ss)
  | Some true => go true
  end.

(** _surflight_minlight_scale: of a surface light (entities.cc:346-354; own: its key, world: the key
    of worldspawn), of a brush (map.cc:711-716, ltface.cc:676-680), and of a face (ltface.cc:2721-2726;
    light: None for a Quake II surface without a template). *)
Definition light_minscale (q2 : bool) (own world : option R) : R :=
  match own with Some x => x | None => match world with Some x => x | None => if q2 then 64 else 1 end end.
Definition brush_minscale (own world : option R) : R :=
  match own with Some x => x | None => match world with Some x => x | None => 1 end end.
Definition face_minscale (q2 : bool) (light : option (option R)) (brush world : option R) : R :=
  (match light with Some own => light_minscale q2 own world | None => 1 end) * brush_minscale brush world.

(** PostProcessLightFace without negative lights (ltface.cc:2704-2742).  surflight: intensity, style,
    colour and scale if the face emits light; world: the face belongs to the world. *)
Definition post_min (excluded : bool) (g : mincfg) (mot : option (vec -> R)) (level : R * vec)
    (surflight : option (R * Z * vec * R)) (world : bool) (key : option bool) (grid : option (list (Z * vec)))
    (ss : list sample) (d : dict) : dict * list sample :=
  let d1 := if Req_EM_T (fst level) 0 then d else face_min excluded g mot ss (fst level) (snd level) 0 d in
  let d2 := match surflight with
            | Some (i, st, col, sc) =>
              if Rlt_dec 0 sc then face_min excluded g mot ss (i * sc) col st d1 else d1
            | None => d1
            end in
  if world then (d2, ss) else auto_min key grid ss d2.
