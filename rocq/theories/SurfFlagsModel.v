(* Keys of brush entities, names of textures and surface information that become the flags of a side:
   qbsp/map.cc:525-577, 635-841, 1766-1872, 2000-2005, 2699-2712. *)
From Coq Require Import String List Arith NArith ZArith QArith Bool.
Import ListNotations.
From Verif Require Import Base NumCastModel ParserModel EntModel CmdlibModel ContentsModel EntOutModel DecompEntModel.
Local Open Scope list_scope.

(** ** Numbers: what atof and sscanf deliver, a NaN or a number.  Infinities are not modelled, and neither is the
    rounding to float (it keeps the order, and the limits below are floats). *)
Inductive num := NaN | Num (q : Q).
Definition q_lt (a b : Q) : bool := negb (Qle_bool b a).
Definition lt (a b : num) : bool := match a, b with Num x, Num y => q_lt x y | _, _ => false end.
Definition le (a b : num) : bool := match a, b with Num x, Num y => Qle_bool x y | _, _ => false end.
Definition is_zero (a : num) : bool := match a with Num x => Qeq_bool x 0 | NaN => false end.
Definition is_one (a : num) : bool := match a with Num x => Qeq_bool x 1 | NaN => false end.
(** std::clamp and std::max(0., v) *)
Definition clamp (v lo hi : num) : num := if lt v lo then lo else if lt hi v then hi else v.
Definition max0 (v : num) : num := if lt (Num 0) v then v else Num 0.
Definition times255 (v : num) : num := match v with Num x => Num (x * 255)%Q | NaN => NaN end.
(** (uint8_t)v of a float: undefined if the number without its fraction does not fit. *)
Definition to_byte (v : num) : res Z :=
  match v with
  | NaN => RUB
  | Num q => let z := Z.quot (Qnum q) (Zpos (Qden q)) in if (0 <=? z)%Z && (z <=? 255)%Z then ROk z else RUB
  end.
Definition bytes3 (v : list num) : res (list Z) := fold_right (fun x r => rbind (to_byte x) (fun b => rbind r (fun l => ROk (b :: l)))) (ROk []) v.
(** qv::epsilonEmpty with QBSP_EQUAL_EPSILON = 0.0001, qv::normalize_color_format (qvec.hh:736-743) *)
Definition small (v : list num) : bool := forallb (fun x => le (Num (-1 # 10000)) x && le x (Num (1 # 10000))) v.
Definition normalize_color (v : list num) : list num :=
  if forallb (fun x => le (Num 0) x && le x (Num 1)) v then map times255 v else v.

(** ** Names *)
Record opts := mkO { o_game : game; o_noskip : bool; o_splitturb : bool; o_splitsky : bool }.
Definition named (l : list string) (name : bytes) : bool := existsb (fun s => iequals name (txt s)) l.
Definition begins (s : string) (name : bytes) : bool := iequals (firstn (List.length (txt s)) name) (txt s).
(** IsSkipName, IsNoExpandName, IsSpecialName, IsHintName (525-577) *)
Definition skip_name (o : opts) (name : bytes) : bool :=
  negb (o_noskip o) && named ["skip"; "*waterskip"; "*slimeskip"; "*lavaskip"; "bevel"; "null"; "__TB_empty"]%string name.
Definition noexpand_name (name : bytes) : bool := named ["bevel"]%string name.
Definition star (name : bytes) : bool := match name with c :: _ => (c =? 42)%N | [] => false end.
Definition special_name (o : opts) (litwater : bool) (name : bytes) : bool :=
  (star name && negb litwater) || (begins "sky" name && negb (o_splitsky o)).
Definition hint_name (name : bytes) : bool := named ["hint"; "hintskip"]%string name.
(** FindMiptex of other games than Quake II drops the path of a name (437-439). *)
Fixpoint base_name (name acc : bytes) : bytes :=
  match name with
  | [] => acc
  | c :: t => if (c =? 47)%N then base_name t t else base_name t acc
  end.
Definition miptex_name (g : game) (name : bytes) : bytes := match g with Q1 => base_name name name | Q2 => name end.
(** face_get_contents of Quake (common/bspfile.cc:571-596) looks at the whole name. *)
Definition classify (name : bytes) : texclass :=
  if named ["origin"]%string name then TOrigin
  else if hint_name name then THint
  else if named ["clip"]%string name then TClip
  else if star name then
    (if begins "lava" (tl name) then TLava else if begins "slime" (tl name) then TSlime else TWater)
  else if begins "sky" name then TSky
  else TOther.

(** ** The Quake II part of ParseTextureDef (1778-1836), on the bits of contents and flags: TRANSLUCENT is removed and
    becomes DETAIL without TRANS33 and TRANS66; SKY and NODRAW: NODRAW is removed; more than one kind of visible contents
    and monsters are errors. *)
Definition S_SKY : N := 4.      Definition S_TRANS : N := 48.   Definition S_NODRAW : N := 128.
Definition S_HINT : N := 256.   Definition S_SKIP : N := 512.   Definition S_ALPHA : N := 33554432.
Definition q2_fix (c f : N) : res (N * N) :=
  let c1 := if N.testbit c 28 then (let c0 := N.ldiff c (2 ^ 28) in if tst f S_TRANS then c0 else N.lor c0 (2 ^ 27)) else c in
  let f1 := if tst f S_SKY && tst f S_NODRAW then N.ldiff f S_NODRAW else f in
  let vis := N.land c1 127 in
  if existsb (fun i => N.testbit vis i && negb (vis =? 2 ^ i)%N) [0; 1; 2; 3; 4; 5; 6]%N then RThrow
  else if tst c1 (2 ^ 25 + 2 ^ 26) then RThrow
  else ROk (c1, f1).
(** face_get_contents of Quake II for these bits (ContentsModel has the function on native contents). *)
Definition q2_face (c f : N) : N := q2_face_contents (tst f (N.lor S_HINT S_SKIP)) (tst f (N.lor S_TRANS S_ALPHA)) (Z.of_N c).

(** ** SurfFlagsForEntity (635-841) *)
Record flags := mkF {
  f_native : N; f_nodraw : bool; f_hint : bool; f_no_expand : bool; f_no_dirt : bool; f_no_bounce : bool; f_no_minlight : bool;
  f_ignore : bool; f_no_shadow : bool; f_rescale : option bool; f_color : option (list Z); f_style : option Z; f_target : option bytes;
  f_mlscale : option num; f_phong : num; f_concave : num; f_pgroup : Z; f_minlight : option num; f_maxlight : num; f_colorscale : num;
  f_group : Z; f_luxel : option num; f_channel : option Z; f_mlcolor : list Z; f_alpha : option num; f_twosided : option bool }.

Section entity.
Context (atof : bytes -> num) (scan3 : bytes -> list num).

Definition get_int (k : string) (e : entdict) : Z := atoi (ed_get (txt k) e).
Definition has (k : string) (e : entdict) : bool := ed_has (txt k) e.
(** get_float: 0 for an empty value *)
Definition get_float (k : string) (e : entdict) : num := match ed_get (txt k) e with [] => Num 0 | v => atof v end.
(** get_vector: how many numbers there are, and zeroes for the others *)
Definition get_vector (k : string) (e : entdict) : nat * list num :=
  let l := firstn 3 (scan3 (ed_get (txt k) e)) in (List.length l, l ++ repeat (Num 0) (3 - List.length l)).
Definition when {A} (b : bool) (x : A) : option A := if b then Some x else None.

(** 647-654: lit water *)
Definition litwater (o : opts) (e : entdict) : bool :=
  if has "_litwater" e then (0 <? get_int "_litwater" e)%Z
  else if has "_splitturb" e then (0 <? get_int "_splitturb" e)%Z
  else o_splitturb o.
(** 693-706: the colour *)
Definition surflight_color (e : entdict) : res (option (list Z)) :=
  let (n, v) := get_vector "_surflight_color" e in
  if has "_surflight_color" e && (n =? 3)%nat then
    rbind (bytes3 (if forallb (fun x => le x (Num 1)) v then map times255 v else v)) (fun l => ROk (Some l))
  else ROk None.
(** 718-729: _minlight_exclude, _minlight_exclude1, ... _minlight_exclude9 *)
Definition exclude_keys : list string :=
  ["_minlight_exclude"; "_minlight_exclude1"; "_minlight_exclude2"; "_minlight_exclude3"; "_minlight_exclude4";
   "_minlight_exclude5"; "_minlight_exclude6"; "_minlight_exclude7"; "_minlight_exclude8"; "_minlight_exclude9"]%string.
Definition excluded (name : bytes) (e : entdict) : bool :=
  existsb (fun k => match ed_get (txt k) e with [] => false | v => iequals name v end) exclude_keys.
(** 748-774: phong shading; w is worldspawn *)
Definition inherited {A} (get : string -> entdict -> A) (k : string) (e w : entdict) : A :=
  if negb (has k e) && has k w then get k w else get k e.
Definition phong_angle (e w : entdict) : num :=
  let a := inherited get_float "_phong_angle" e w in
  let p := inherited get_int "_phong" e w in
  let a := if negb (p =? 0)%Z && is_zero a then Num 89 else a in
  if is_zero a then Num 0 else clamp a (Num 0) (Num 360).
(** 814-829: _mincolor, _minlight_color *)
Definition mincolor (e : entdict) : res (list Z) :=
  let v := snd (get_vector "_mincolor" e) in
  let v := normalize_color (if small v then snd (get_vector "_minlight_color" e) else v) in
  if small v then ROk [0; 0; 0]%Z else bytes3 (map (fun x => clamp x (Num 0) (Num 255)) v).

(** name is the name of the miptex, native and contents those of the face ([q2_fix]); in Quake both are 0. *)
Definition surf_flags (o : opts) (name : bytes) (native contents : N) (e w : entdict) : res flags :=
  let shadow := get_int "_shadow" e in
  let q2 := match o_game o with Q2 => true | Q1 => false end in
  let translucent := q2 && tst native S_TRANS in
  rbind (surflight_color e) (fun color =>
  rbind (mincolor e) (fun mlcolor =>
  ROk (mkF
    (if q2 then native else if special_name o (litwater o e) name then 1 else 0)%N
    ((q2 && tst native S_NODRAW) || skip_name o name)
    ((q2 && tst native S_HINT) || hint_name name)
    (noexpand_name name)
    (get_int "_dirt" e =? -1)%Z
    (get_int "_bounce" e =? -1)%Z
    ((get_int "_minlight" e =? -1)%Z || excluded name e)
    (get_int "_lightignore" e =? 1)%Z
    ((shadow =? -1)%Z || (iequals (txt "func_detail_illusionary") (ed_get (txt "classname") e) && negb (shadow =? 1)%Z)
     || (is_liquid (o_game o) contents && negb translucent && negb (shadow =? 1)%Z))
    (when (has "_surflight_rescale" e) (get_int "_surflight_rescale" e =? 1)%Z)
    color
    (when (has "_surflight_style" e && negb (get_int "_surflight_style" e =? 0)%Z) (get_int "_surflight_style" e))
    (when (has "_surflight_targetname" e) (ed_get (txt "_surflight_targetname") e))
    (when (has "_surflight_minlight_scale" e || has "_surflight_minlight_scale" w) (inherited get_float "_surflight_minlight_scale" e w))
    (phong_angle e w)
    (clamp (get_float "_phong_angle_concave" e) (Num 0) (Num 360))
    (get_int "_phong_group" e)
    (when (has "_minlight" e) (max0 (get_float "_minlight" e)))
    (if lt (Num 0) (get_float "_maxlight" e) then clamp (get_float "_maxlight" e) (Num 0) (Num 510) else Num 0)
    (if has "_lightcolorscale" e && negb (is_one (get_float "_lightcolorscale" e)) then clamp (get_float "_lightcolorscale" e) (Num 0) (Num 1) else Num 1)
    (if has "_surflight_group" e then get_int "_surflight_group" e else 0%Z)
    (when (has "_world_units_per_luxel" e) (get_float "_world_units_per_luxel" e))
    (when (has "_object_channel_mask" e) (get_int "_object_channel_mask" e))
    mlcolor
    (when (has "_light_alpha" e) (clamp (get_float "_light_alpha" e) (Num 0) (Num 1)))
    (when (has "_light_twosided" e) (negb (get_int "_light_twosided" e =? 0)%Z))))).

(** ** Faces, brushes and entities in the order of the file *)
Record face := mkFace { fc_name : bytes; fc_contents : N; fc_flags : N }.
(** ParseTextureDef and ParseBrushFace (1773-1775, 1858-1862, 2004): surface information means nothing outside of
    Quake II; the contents given to SurfFlagsForEntity are those of this information. *)
Definition face_flags (o : opts) (e w : entdict) (f : face) : res flags :=
  match o_game o with
  | Q1 => surf_flags o (miptex_name Q1 (fc_name f)) 0 0 e w
  | Q2 => rbind (q2_fix (fc_contents f) (fc_flags f)) (fun cf =>
          surf_flags o (fc_name f) (snd cf) (q2_from_native (Z.of_N (fst cf))) e w)
  end.
(** texinfo_is_hintskip (common/bspfile.cc:194-198, 845-849) and the sides marked as hintskip (map.cc:2699-2712) *)
Definition not_hint (g : game) (name : bytes) (f : flags) : bool :=
  match g with Q1 => negb (iequals name (txt "hint")) | Q2 => negb (tst (f_native f) S_HINT) end.
Definition hintskips (g : game) (l : list (bytes * flags)) : list bool :=
  if existsb (fun p => f_hint (snd p)) l then map (fun p => not_hint g (fst p) (snd p)) l else map (fun _ => false) l.

(** The keys and brushes of an entity: a face is given the keys read so far (ParseEntity, 2723-2789).  The world is
    the first entity, which is the entity itself while it is read. *)
Inductive item := IPair (k v : bytes) | IBrush (fs : list face).
Fixpoint read_items (o : opts) (w : option entdict) (l : list item) (e : entdict) (out : list (list (res flags))) : entdict * list (list (res flags)) :=
  match l with
  | [] => (e, out)
  | IPair k v :: l => read_items o w l (ed_set k v e) out
  | IBrush fs :: l => read_items o w l e (out ++ [map (face_flags o e (match w with Some w => w | None => e end)) fs])
  end.
End entity.
