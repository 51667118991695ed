(* include/common/numeric_cast.hh: checked conversions between arithmetic types. *)
From Coq Require Import List NArith ZArith Bool.
Import ListNotations.
Local Open Scope Z_scope.

(** What a conversion can do: give a value, throw std::overflow_error, or have undefined
    behaviour (a floating value whose truncation the destination type cannot hold). *)
Inductive res (A : Type) : Type :=
| ROk (a : A)
| RThrow
| RUB.
Arguments ROk {A} _. Arguments RThrow {A}. Arguments RUB {A}.

Definition rbind {A B} (x : res A) (f : A -> res B) : res B :=
  match x with ROk a => f a | RThrow => RThrow | RUB => RUB end.

(** ** Integer types *)

(** An integer type: its width in bits and its signedness. *)
Record ity := mkIty { it_bits : Z; it_signed : bool }.
Definition i8 := mkIty 8 true.    Definition u8 := mkIty 8 false.
Definition i16 := mkIty 16 true.  Definition u16 := mkIty 16 false.
Definition i32 := mkIty 32 true.  Definition u32 := mkIty 32 false.
Definition i64 := mkIty 64 true.  Definition u64 := mkIty 64 false.
Definition all_ity : list ity := [i8; u8; i16; u16; i32; u32; i64; u64].

(** std::numeric_limits<T>::lowest() and max(). *)
Definition it_lo (t : ity) : Z := if it_signed t then - 2 ^ (it_bits t - 1) else 0.
Definition it_hi (t : ity) : Z := if it_signed t then 2 ^ (it_bits t - 1) - 1 else 2 ^ it_bits t - 1.
Definition it_in (t : ity) (v : Z) : bool := (it_lo t <=? v) && (v <=? it_hi t).

(** static_cast to an integer type: reduction modulo 2^bits (C++20, [conv.integral]). *)
Definition it_wrap (t : ity) (v : Z) : Z :=
  let r := v mod 2 ^ it_bits t in
  if it_signed t && (it_hi t <? r) then r - 2 ^ it_bits t else r.

(** Integral promotion and the usual arithmetic conversions ([expr.arith.conv]): the type in
    which [a < b] is evaluated.  [int] has 32 bits. *)
Definition promote (t : ity) : ity := if it_bits t <? 32 then i32 else t.
Definition common_ity (a b : ity) : ity :=
  let a := promote a in let b := promote b in
  if Bool.eqb (it_signed a) (it_signed b) then (if it_bits a <? it_bits b then b else a)
  else let '(u, s) := if it_signed a then (b, a) else (a, b) in
       if it_bits s <=? it_bits u then u else s.

(** [a < b] for a value [va] of type [a] and [vb] of type [b]. *)
Definition c_lt (a : ity) (va : Z) (b : ity) (vb : Z) : bool :=
  let c := common_ity a b in it_wrap c va <? it_wrap c vb.

(** numeric_cast_will_overflow (include/common/numeric_cast.hh:25-80) for integer types.
    The literal 0 is an [int]. *)
Definition will_overflow (dst src : ity) (value : Z) : bool :=
  let positive_overflow_possible := c_lt dst (it_hi dst) src (it_hi src) in
  let negative_overflow_possible := it_signed src || c_lt src (it_lo src) dst (it_lo dst) in
  if negb (it_signed dst) && negb (it_signed src) then
    positive_overflow_possible && c_lt dst (it_hi dst) src value
  else if negb (it_signed dst) && it_signed src then
    (positive_overflow_possible && c_lt dst (it_hi dst) src value)
    || (negative_overflow_possible && c_lt src value i32 0)
  else if it_signed dst && negb (it_signed src) then
    positive_overflow_possible && c_lt dst (it_hi dst) src value
  else
    (positive_overflow_possible && c_lt dst (it_hi dst) src value)
    || (negative_overflow_possible && c_lt src value dst (it_lo dst)).

(** numeric_cast (82-90). *)
Definition numeric_cast (dst src : ity) (value : Z) : res Z :=
  if will_overflow dst src value then RThrow else ROk (it_wrap dst value).

(** ** Floating types *)

(** A floating value: NaN, an infinity (true: negative), or m * 2^e.  Zero's sign is not kept. *)
Inductive fl := FNaN | FInf (neg : bool) | FFin (m e : Z).

(** [FFin m e <= FFin m' e'] as rationals. *)
Definition dle (m e m' e' : Z) : bool :=
  let k := Z.min e e' in m * 2 ^ (e - k) <=? m' * 2 ^ (e' - k).

(** The IEEE comparison <=; false when a NaN is involved. *)
Definition fl_le (x y : fl) : bool :=
  match x, y with
  | FNaN, _ | _, FNaN => false
  | FInf true, _ => true
  | _, FInf true => false
  | _, FInf false => true
  | FInf false, _ => false
  | FFin m e, FFin m' e' => dle m e m' e'
  end.
(** IEEE <: also false on NaN. *)
Definition fl_lt (x y : fl) : bool :=
  match x, y with FNaN, _ | _, FNaN => false | _, _ => negb (fl_le y x) end.

(** Conversion of an integer to a floating type with [p] significand bits, rounding to
    nearest, ties to even. *)
Definition round_int (p : Z) (z : Z) : Z :=
  let a := Z.abs z in
  let s := Z.log2 a + 1 - p in
  if s <=? 0 then z
  else let u := 2 ^ s in
       let q := a / u in let r := a mod u in
       let q' := if (u <? 2 * r) || ((2 * r =? u) && Z.odd q) then q + 1 else q in
       Z.sgn z * (q' * u).
Definition fl_of_int (p : Z) (z : Z) : fl := FFin (round_int p z) 0.

(** Truncation, floor and ceil of m * 2^e. *)
Definition dtrunc (m e : Z) : Z := if 0 <=? e then m * 2 ^ e else Z.quot m (2 ^ (- e)).
Definition dfloor (m e : Z) : Z := if 0 <=? e then m * 2 ^ e else m / 2 ^ (- e).
Definition dceil (m e : Z) : Z := - dfloor (- m) e.

(** static_cast from a floating to an integer type ([conv.fpint]). *)
Definition trunc_cast (dst : ity) (x : fl) : res Z :=
  match x with
  | FFin m e => if it_in dst (dtrunc m e) then ROk (dtrunc m e) else RUB
  | _ => RUB
  end.

(** numeric_cast_will_overflow (25-80) from a floating type, which numeric_limits calls signed.
    max() of any integer type is below max() of float and double, so both checks are made; the
    destination's limits are converted to the floating type for the comparison. *)
Definition f_will_overflow (p : Z) (dst : ity) (x : fl) : bool :=
  fl_lt (fl_of_int p (it_hi dst)) x
  || fl_lt x (if it_signed dst then fl_of_int p (it_lo dst) else FFin 0 0).

Definition f_numeric_cast (p : Z) (dst : ity) (x : fl) : res Z :=
  if f_will_overflow p dst x then RThrow else trunc_cast dst x.

(** C floor() and ceil(); both return values of the floating type. *)
Definition fl_floor (x : fl) : fl := match x with FFin m e => FFin (dfloor m e) 0 | _ => x end.
Definition fl_ceil (x : fl) : fl := match x with FFin m e => FFin (dceil m e) 0 | _ => x end.

(** One component of aabb_mins_cast and aabb_maxs_cast (94-114) from float to an integer. *)
Definition mins_cast1 (p : Z) (dst : ity) (x : fl) : res Z := f_numeric_cast p dst (fl_floor x).
Definition maxs_cast1 (p : Z) (dst : ity) (x : fl) : res Z := f_numeric_cast p dst (fl_ceil x).

(** ** IEEE binary32 patterns *)

(** The value of a 32-bit float pattern (sign, 8 exponent bits, 23 fraction bits). *)
Definition f32_val (b : N) : fl :=
  let z := Z.of_N b in
  let sgn := (z / 2 ^ 31) mod 2 =? 1 in
  let ex := (z / 2 ^ 23) mod 2 ^ 8 in
  let fr := z mod 2 ^ 23 in
  if ex =? 255 then (if fr =? 0 then FInf sgn else FNaN)
  else let m := if ex =? 0 then fr else 2 ^ 23 + fr in
       let e := if ex =? 0 then -149 else ex - 150 in
       FFin (if sgn then - m else m) e.

(** Conversion of a 16-bit integer to float: exact. *)
Definition f32_of_i16 (z : Z) : N :=
  if z =? 0 then 0%N
  else let a := Z.abs z in
       let k := Z.log2 a in
       Z.to_N ((if z <? 0 then 2 ^ 31 else 0) + (k + 127) * 2 ^ 23 + (a * 2 ^ (23 - k) - 2 ^ 23)).
