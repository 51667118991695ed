(* The .texinfo.json file: qbsp/writebsp.cc writes the extended surface flags of the exported
   texinfos, light/light.cc reads them. *)
From Coq Require Import List NArith ZArith Bool String Ascii.
From Verif Require Import NumCastModel ParserModel StreamModel.
Import ListNotations.
Local Open Scope string_scope.
Local Open Scope list_scope.

(** ** Floats

    A float is its 32 bits. *)
Definition fbits := N.
Definition f_exp (f : fbits) : N := N.land (N.shiftr f 23) 255.
Definition f_man (f : fbits) : N := N.land f 8388607.
(** Neither an infinity nor a NaN. *)
Definition f_finite (f : fbits) : bool := negb (N.eqb (f_exp f) 255).
Definition f_zero : fbits := 0%N.
Definition f_one : fbits := 1065353216%N.   (* 0x3F800000 *)
Definition f_minus_zero : fbits := 2147483648%N.
Definition f_is_zero (f : fbits) : bool := N.eqb f f_zero || N.eqb f f_minus_zero.
Definition f_nan (f : fbits) : bool := N.eqb (f_exp f) 255 && negb (N.eqb (f_man f) 0).
(** operator== of floats. *)
Definition f_eq (a b : fbits) : bool :=
  negb (f_nan a) && negb (f_nan b) && (N.eqb a b || (f_is_zero a && f_is_zero b)).

(** ** surfflags_t (include/common/bspfile_common.hh:219-316)

    surflight_targetname is a byte string; a qvec3b is a list of three bytes. *)
Record sflags := mkSF {
  sf_native : Z;
  sf_nodraw : bool; sf_hint : bool; sf_hintskip : bool; sf_no_dirt : bool; sf_no_shadow : bool;
  sf_no_bounce : bool; sf_no_minlight : bool; sf_no_expand : bool; sf_no_phong : bool; sf_ignore : bool;
  sf_rescale : option bool; sf_style : option Z; sf_target : option bytes; sf_color : option (list Z);
  sf_mlscale : option fbits;
  sf_phong : fbits; sf_phong_concave : fbits; sf_phong_group : Z;
  sf_minlight : option fbits; sf_mlcolor : list Z; sf_alpha : option fbits; sf_twosided : option bool;
  sf_maxlight : fbits; sf_colorscale : fbits; sf_group : Z; sf_luxel : option fbits; sf_channel : option Z }.

(** A value-initialised surfflags_t: zeroes, except lightcolorscale. *)
Definition sf_default : sflags :=
  mkSF 0 false false false false false false false false false false
       None None None None None f_zero f_zero 0 None [0;0;0]%Z None None f_zero f_one 0 None None.

(** All bytes zero (the memset of light.cc:965). *)
Definition sf_zeroed : sflags :=
  mkSF 0 false false false false false false false false false false
       None None None None None f_zero f_zero 0 None [0;0;0]%Z None None f_zero f_zero 0 None None.

(** Equality of two optional floats as std::tuple compares them. *)
Definition of_eq (a b : option fbits) : bool :=
  match a, b with Some x, Some y => f_eq x y | None, None => true | _, _ => false end.
Definition oz_eq (a b : option Z) : bool :=
  match a, b with Some x, Some y => Z.eqb x y | None, None => true | _, _ => false end.
Definition ob_eq (a b : option bool) : bool :=
  match a, b with Some x, Some y => Bool.eqb x y | None, None => true | _, _ => false end.
Definition is_none {A} (a : option A) : bool := match a with None => true | Some _ => false end.
Fixpoint zs_eq (a b : list Z) : bool :=
  match a, b with x :: a', y :: b' => Z.eqb x y && zs_eq a' b' | [], [] => true | _, _ => false end.

(** surfflags_t::needs_write (common/bspfile_common.cc:180-193): some field differs from the
    default.  Optional fields default to empty, so comparing them is asking for a value. *)
Definition needs_write (f : sflags) : bool :=
  negb (Z.eqb (sf_native f) 0 && negb (sf_nodraw f) && negb (sf_hintskip f) && negb (sf_hint f)
        && negb (sf_no_dirt f) && negb (sf_no_shadow f) && negb (sf_no_bounce f) && negb (sf_no_minlight f)
        && negb (sf_no_expand f) && negb (sf_no_phong f) && negb (sf_ignore f)
        && is_none (sf_rescale f) && is_none (sf_style f) && is_none (sf_color f) && is_none (sf_mlscale f)
        && is_none (sf_target f) && f_eq (sf_phong f) f_zero && f_eq (sf_phong_concave f) f_zero
        && Z.eqb (sf_phong_group f) 0 && is_none (sf_minlight f) && zs_eq (sf_mlcolor f) [0;0;0]%Z
        && is_none (sf_alpha f) && is_none (sf_twosided f) && f_eq (sf_maxlight f) f_zero
        && f_eq (sf_colorscale f) f_one && Z.eqb (sf_group f) 0 && is_none (sf_luxel f) && is_none (sf_channel f)).

(** ** JSON values of the file

    nlohmann::json writes a number that is not finite as null, and otherwise prints floats so that
    reading gives them back; those two facts about the library are assumed. *)
Inductive jval := JNull | JBool (b : bool) | JInt (z : Z) | JFloat (f : fbits) | JStr (s : bytes) | JArr (l : list Z).
Definition jobj := list (string * jval).

(** Well-formed UTF-8 (nlohmann's dump throws type_error.316 on anything else): the first byte
    gives the number of continuation bytes and the range of the second byte. *)
Definition cont (b : N) : bool := N.leb 128 b && N.leb b 191.
Definition between (lo hi b : N) : bool := N.leb lo b && N.leb b hi.
Fixpoint utf8_ok (fuel : nat) (s : bytes) : bool :=
  match fuel with
  | O => false
  | S fuel =>
      match s with
      | [] => true
      | a :: s1 =>
          if N.ltb a 128 then utf8_ok fuel s1
          else if between 194 223 a then
            match s1 with b :: s2 => cont b && utf8_ok fuel s2 | _ => false end
          else if between 224 239 a then
            match s1 with
            | b :: c :: s3 =>
                between (if N.eqb a 224 then 160 else 128) (if N.eqb a 237 then 159 else 191) b && cont c && utf8_ok fuel s3
            | _ => false end
          else if between 240 244 a then
            match s1 with
            | b :: c :: d :: s4 =>
                between (if N.eqb a 240 then 144 else 128) (if N.eqb a 244 then 143 else 191) b && cont c && cont d && utf8_ok fuel s4
            | _ => false end
          else false
      end
  end.
Definition utf8 (s : bytes) : bool := utf8_ok (S (List.length s)) s.

(** [if (c) t[k] = v;] *)
Definition put (k : string) (c : bool) (v : jval) : jobj := if c then [(k, v)] else [].
Definition puto {A} (k : string) (o : option A) (v : A -> jval) : jobj :=
  match o with Some a => [(k, v a)] | None => [] end.

(** The object of one texinfo (qbsp/writebsp.cc:376-452), in the order of the code; all keys are
    different, so the order in the sorted object does not matter. *)
Definition write_obj (f : sflags) : jobj :=
  put "is_nodraw" (sf_nodraw f) (JBool (sf_nodraw f))
  ++ put "is_hint" (sf_hint f) (JBool (sf_hint f))
  ++ put "no_dirt" (sf_no_dirt f) (JBool (sf_no_dirt f))
  ++ put "no_shadow" (sf_no_shadow f) (JBool (sf_no_shadow f))
  ++ put "no_bounce" (sf_no_bounce f) (JBool (sf_no_bounce f))
  ++ put "no_minlight" (sf_no_minlight f) (JBool (sf_no_minlight f))
  ++ put "no_expand" (sf_no_expand f) (JBool (sf_no_expand f))
  ++ put "no_phong" (sf_no_phong f) (JBool (sf_no_phong f))
  ++ put "light_ignore" (sf_ignore f) (JBool (sf_ignore f))
  ++ puto "surflight_rescale" (sf_rescale f) JBool
  ++ puto "surflight_style" (sf_style f) JInt
  ++ puto "surflight_targetname" (sf_target f) JStr
  ++ puto "surflight_color" (sf_color f) JArr
  ++ puto "surflight_minlight_scale" (sf_mlscale f) JFloat
  ++ put "phong_angle" (negb (f_is_zero (sf_phong f))) (JFloat (sf_phong f))
  ++ put "phong_angle_concave" (negb (f_is_zero (sf_phong_concave f))) (JFloat (sf_phong_concave f))
  ++ put "phong_group" (negb (Z.eqb (sf_phong_group f) 0)) (JInt (sf_phong_group f))
  ++ puto "minlight" (sf_minlight f) JFloat
  ++ put "maxlight" (negb (f_is_zero (sf_maxlight f))) (JFloat (sf_maxlight f))
  ++ put "minlight_color" (negb (zs_eq (sf_mlcolor f) [0;0;0]%Z)) (JArr (sf_mlcolor f))
  ++ puto "light_alpha" (sf_alpha f) JFloat
  ++ puto "light_twosided" (sf_twosided f) JBool
  ++ put "lightcolorscale" (negb (f_eq (sf_colorscale f) f_one)) (JFloat (sf_colorscale f))
  ++ put "surflight_group" (negb (Z.eqb (sf_group f) 0)) (JInt (sf_group f))
  ++ puto "world_units_per_luxel" (sf_luxel f) JFloat
  ++ puto "object_channel_mask" (sf_channel f) JInt.

(** Serialising a value: a string that is not UTF-8 throws, a number that is not finite becomes
    null. *)
Definition dump_val (v : jval) : res jval :=
  match v with
  | JStr s => if utf8 s then ROk v else RThrow
  | JFloat f => ROk (if f_finite f then v else JNull)
  | _ => ROk v
  end.
Fixpoint dump_obj (o : jobj) : res jobj :=
  match o with
  | [] => ROk []
  | (k, v) :: r => rbind (dump_val v) (fun v' => rbind (dump_obj r) (fun r' => ROk ((k, v') :: r')))
  end.

(** A texinfo as far as the file is concerned: where it was exported, and its flags. *)
Record mtex := mkMT { mt_out : option nat; mt_flags : sflags }.

(** std::to_string of the number, and the file: one object per exported texinfo that needs it.
    The texinfos are written by increasing number, then sorted by key text by the JSON object;
    the model keeps the order of the list, and the reader's result is shown not to depend on it. *)
Definition jfile := list (bytes * jobj).
Fixpoint write_file (txs : list mtex) : res jfile :=
  match txs with
  | [] => ROk []
  | t :: r =>
      match mt_out t with
      | Some n =>
          if needs_write (mt_flags t) then
            rbind (dump_obj (write_obj (mt_flags t))) (fun o =>
            rbind (write_file r) (fun r' => ROk ((print_nat n, o) :: r')))
          else write_file r
      | None => write_file r
      end
  end.

(** WriteExtendedTexinfoFlags (qbsp/writebsp.cc:342-455): what is on disk afterwards; [None] no
    file.  An old file is removed first. *)
Definition write_texflags (noextended : bool) (txs : list mtex) : res (option jfile) :=
  if negb (existsb (fun t => needs_write (mt_flags t)) txs) || noextended then ROk None
  else rbind (write_file txs) (fun j => ROk (Some j)).

(** ** Reading *)

Fixpoint jget (k : string) (o : jobj) : option jval :=
  match o with [] => None | (k', v) :: r => if String.eqb k k' then Some v else jget k r end.

(** [if (val.contains(k)) x = val.at(k).get<T>();] for each T used. A JSON number converts to any
    arithmetic type; the integers of this file were written from integers. *)
Definition rd {A} (conv : jval -> res A) (k : string) (o : jobj) (d : A) : res A :=
  match jget k o with None => ROk d | Some v => conv v end.
Definition c_bool (v : jval) : res bool := match v with JBool b => ROk b | _ => RThrow end.
Definition c_int (v : jval) : res Z := match v with JInt z => ROk z | _ => RThrow end.
Definition c_float (v : jval) : res fbits := match v with JFloat f => ROk f | _ => RThrow end.
Definition c_str (v : jval) : res bytes := match v with JStr s => ROk s | _ => RThrow end.
Definition c_arr (v : jval) : res (list Z) := match v with JArr l => ROk l | _ => RThrow end.
Definition c_some {A} (c : jval -> res A) (v : jval) : res (option A) := rbind (c v) (fun a => ROk (Some a)).

Notation "'do' x <- e ; f" := (rbind e (fun x => f)) (at level 200, x name, e at level 100, f at level 200).

(** The body of the loop of LoadExtendedTexinfoFlags (light/light.cc:969-1061) over the flags [d]
    read so far.  "no_phong" is stored into no_expand (light.cc:995-997); no_phong itself is never
    assigned. *)
Definition read_obj (o : jobj) (d : sflags) : res sflags :=
  do nodraw <- rd c_bool "is_nodraw" o (sf_nodraw d);
  do hint <- rd c_bool "is_hint" o (sf_hint d);
  do hintskip <- rd c_bool "is_hintskip" o (sf_hintskip d);
  do no_dirt <- rd c_bool "no_dirt" o (sf_no_dirt d);
  do no_shadow <- rd c_bool "no_shadow" o (sf_no_shadow d);
  do no_bounce <- rd c_bool "no_bounce" o (sf_no_bounce d);
  do no_minlight <- rd c_bool "no_minlight" o (sf_no_minlight d);
  do no_expand1 <- rd c_bool "no_expand" o (sf_no_expand d);
  do no_expand <- rd c_bool "no_phong" o no_expand1;
  do ignore <- rd c_bool "light_ignore" o (sf_ignore d);
  do rescale <- rd (c_some c_bool) "surflight_rescale" o (sf_rescale d);
  do style <- rd (c_some c_int) "surflight_style" o (sf_style d);
  do target <- rd (c_some c_str) "surflight_targetname" o (sf_target d);
  do color <- rd (c_some c_arr) "surflight_color" o (sf_color d);
  do mlscale1 <- rd (c_some c_float) "surflight_minlight_scale" o (sf_mlscale d);
  do phong <- rd c_float "phong_angle" o (sf_phong d);
  do concave <- rd c_float "phong_angle_concave" o (sf_phong_concave d);
  do pgroup <- rd c_int "phong_group" o (sf_phong_group d);
  do minlight <- rd (c_some c_float) "minlight" o (sf_minlight d);
  do maxlight <- rd c_float "maxlight" o (sf_maxlight d);
  do mlcolor <- rd c_arr "minlight_color" o (sf_mlcolor d);
  do alpha <- rd (c_some c_float) "light_alpha" o (sf_alpha d);
  do twosided <- rd (c_some c_bool) "light_twosided" o (sf_twosided d);
  do colorscale <- rd c_float "lightcolorscale" o (sf_colorscale d);
  do group <- rd c_int "surflight_group" o (sf_group d);
  do luxel <- rd (c_some c_float) "world_units_per_luxel" o (sf_luxel d);
  do channel <- rd (c_some c_int) "object_channel_mask" o (sf_channel d);
  do mlscale <- rd (c_some c_float) "surflight_minlight_scale" o mlscale1;
  ROk (mkSF (sf_native d) nodraw hint hintskip no_dirt no_shadow no_bounce no_minlight no_expand
            (sf_no_phong d) ignore rescale style target color mlscale phong concave pgroup minlight
            mlcolor alpha twosided maxlight colorscale group luxel channel).

(** std::stoull of a key: it skips white space and takes the leading digits; without digits it
    throws std::invalid_argument, and std::out_of_range above 2^64-1.  A sign is left out (the
    keys of this file are digits). *)
Definition stoull (k : bytes) : res N :=
  match take_digits (drop_ws k) with
  | ([], _) => RThrow
  | (d, _) => if N.ltb (dec_value d) (2 ^ 64) then ROk (dec_value d) else RThrow
  end.

Fixpoint upd {A} (l : list A) (i : nat) (a : A) : list A :=
  match l, i with
  | [], _ => []
  | _ :: r, O => a :: r
  | x :: r, S i => x :: upd r i a
  end.

(** The loop (light/light.cc:958-1062) over the flags of the texinfos of the BSP. *)
Fixpoint read_loop (j : jfile) (fl : list sflags) : res (list sflags) :=
  match j with
  | [] => ROk fl
  | (k, o) :: r =>
      do i <- stoull k;
      if N.leb (N.of_nat (List.length fl)) i then ROk (map (fun _ => sf_zeroed) fl)
      else do f <- read_obj o (nth (N.to_nat i) fl sf_default);
           read_loop r (upd fl (N.to_nat i) f)
  end.

(** LoadExtendedTexinfoFlags (light/light.cc:940-1063) for a BSP with [n] texinfos. *)
Definition read_texflags (j : option jfile) (n : nat) : res (list sflags) :=
  let fl := repeat sf_default n in
  match j with None => ROk fl | Some j => read_loop j fl end.
