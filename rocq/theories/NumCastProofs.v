From Coq Require Import List NArith ZArith Bool Lia ZifyBool.
Import ListNotations.
From Verif Require Import NumCastModel.
Local Open Scope Z_scope.
Ltac Zify.zify_post_hook ::= Z.div_mod_to_equations.

Lemma wrap_id : forall t v, In t all_ity -> it_in t v = true -> it_wrap t v = v.
Proof.
  intros t v H I. unfold all_ity in H. cbn [In] in H.
  unfold it_in, it_wrap, it_lo, it_hi in *.
  decompose [or] H; try contradiction; subst t;
    cbn [it_bits it_signed i8 u8 i16 u16 i32 u32 i64 u64] in *;
    rewrite andb_true_iff, !Z.leb_le in I;
    cbn -[Z.modulo Z.ltb] in *;
    match goal with |- context [?a mod ?b] => generalize (Z.div_mod a b); generalize (Z.mod_pos_bound a b); generalize (a mod b) end;
    intros r; generalize (v / 256) (v / 65536) (v / 4294967296) (v / 18446744073709551616); intros; 
    match goal with |- context [if ?c then _ else _] => destruct c eqn:?  | _ => idtac end; try lia.
Qed.

Lemma common_in : forall a b, In a all_ity -> In b all_ity -> In (common_ity a b) all_ity.
Proof.
  intros a b Ha Hb. unfold all_ity in *. cbn [In] in Ha, Hb.
  decompose [or] Ha; try contradiction; subst a;
    decompose [or] Hb; try contradiction; subst b; vm_compute; auto 10.
Qed.

Lemma c_lt_exact : forall a va b vb, In a all_ity -> In b all_ity ->
  it_in (common_ity a b) va = true -> it_in (common_ity a b) vb = true ->
  c_lt a va b vb = (va <? vb).
Proof.
  intros. unfold c_lt. rewrite !wrap_id by (auto using common_in). reflexivity.
Qed.

(** Exact or refused, for every pair of integer types. *)
Lemma numeric_cast_exact : forall dst src v, In dst all_ity -> In src all_ity -> it_in src v = true ->
  numeric_cast dst src v = if it_in dst v then ROk v else RThrow.
Proof.
  intros dst src v Hd Hs I.
  assert (W : will_overflow dst src v = negb (it_in dst v)).
  { pose proof (c_lt_exact dst (it_hi dst) src v Hd Hs) as E1.
    pose proof (c_lt_exact src v i32 0 Hs (or_intror (or_intror (or_intror (or_intror (or_introl eq_refl)))))) as E2.
    pose proof (c_lt_exact src v dst (it_lo dst) Hs Hd) as E3.
    unfold will_overflow.
    unfold all_ity in Hd, Hs. cbn [In] in Hd, Hs.
    decompose [or] Hd; try contradiction; subst dst; clear Hd;
    decompose [or] Hs; try contradiction; subst src; clear Hs;
    match goal with |- context [c_lt ?a (it_hi ?a) ?b (it_hi ?b)] =>
      let x := eval vm_compute in (c_lt a (it_hi a) b (it_hi b)) in
      change (c_lt a (it_hi a) b (it_hi b)) with x end;
    match goal with |- context [c_lt ?b (it_lo ?b) ?a (it_lo ?a)] =>
      let x := eval vm_compute in (c_lt b (it_lo b) a (it_lo a)) in
      change (c_lt b (it_lo b) a (it_lo a)) with x end;
    repeat match goal with |- context [common_ity ?a ?b] => let x := eval vm_compute in (common_ity a b) in
      change (common_ity a b) with x end;
    cbn [it_signed i8 u8 i16 u16 i32 u32 i64 u64 negb andb orb];
    try (rewrite E1; [|vm_compute; reflexivity|unfold it_in, it_lo, it_hi in *; cbn in I |- *; lia]);
    try (rewrite E2; [|unfold it_in, it_lo, it_hi in *; cbn in I |- *; lia|vm_compute; reflexivity]);
    try (rewrite E3; [|unfold it_in, it_lo, it_hi in *; cbn in I |- *; lia|vm_compute; reflexivity]);
    unfold it_in, it_lo, it_hi in *; cbn in I |- *; clear E1 E2 E3; lia. }
  unfold numeric_cast. rewrite W. destruct (it_in dst v) eqn:E; cbn [negb]; [|reflexivity].
  rewrite wrap_id by assumption. reflexivity.
Qed.

(** ** Floating types *)
Lemma dle_int_r : forall m e z,
  dle m e z 0 = if 0 <=? e then m * 2 ^ e <=? z else m <=? z * 2 ^ (- e).
Proof.
  intros. unfold dle. destruct (0 <=? e) eqn:E.
  - rewrite Z.min_r by lia. rewrite !Z.sub_0_r.
    rewrite Z.pow_0_r, Z.mul_1_r. reflexivity.
  - rewrite Z.min_l by lia. rewrite Z.sub_diag. rewrite Z.pow_0_r, Z.mul_1_r.
    replace (0 - e) with (- e) by lia. reflexivity.
Qed.

Lemma dle_int_l : forall m e z,
  dle z 0 m e = if 0 <=? e then z <=? m * 2 ^ e else z * 2 ^ (- e) <=? m.
Proof.
  intros. unfold dle. destruct (0 <=? e) eqn:E.
  - rewrite Z.min_l by lia. rewrite !Z.sub_0_r.
    rewrite Z.pow_0_r, Z.mul_1_r. reflexivity.
  - rewrite Z.min_r by lia. rewrite Z.sub_diag. rewrite Z.pow_0_r, Z.mul_1_r.
    replace (0 - e) with (- e) by lia. reflexivity.
Qed.

Lemma round_int_exact : forall p z, Z.abs z < 2 ^ p -> round_int p z = z.
Proof.
  intros p z H. unfold round_int.
  destruct (Z.eq_dec z 0) as [->|NZ].
  - destruct (Z.log2 (Z.abs 0) + 1 - p <=? 0) eqn:E; [reflexivity|].
    cbn [Z.abs Z.sgn]. rewrite Z.mul_0_l. reflexivity.
  - assert (0 <= p) by (destruct (Z_lt_ge_dec p 0); [rewrite Z.pow_neg_r in H by lia; lia|lia]).
    assert (Z.log2 (Z.abs z) < p) by (apply Z.log2_lt_pow2; lia).
    destruct (Z.log2 (Z.abs z) + 1 - p <=? 0) eqn:E; [reflexivity|lia].
Qed.

Lemma lims_exact : forall p t, In t all_ity -> it_bits t <= p ->
  round_int p (it_hi t) = it_hi t /\ round_int p (it_lo t) = it_lo t.
Proof.
  intros p t H L.
  assert (P : 2 ^ it_bits t <= 2 ^ p).
  { apply Z.pow_le_mono_r; lia. }
  split; apply round_int_exact; unfold it_hi, it_lo;
  unfold all_ity in H; cbn [In] in H; decompose [or] H; try contradiction; subst t; cbn in *; lia.
Qed.

Lemma dtrunc_mono : forall m e lo hi, dle lo 0 m e = true -> dle m e hi 0 = true ->
  lo <= dtrunc m e <= hi.
Proof.
  intros m e lo hi H1 H2. rewrite dle_int_l in H1. rewrite dle_int_r in H2. unfold dtrunc.
  destruct (0 <=? e) eqn:E; [lia|].
  assert (P : 0 < 2 ^ (- e)) by (apply Z.pow_pos_nonneg; lia).
  split.
  - rewrite <- (Z.quot_mul lo (2 ^ (- e))) by lia. apply Z.quot_le_mono; lia.
  - rewrite <- (Z.quot_mul hi (2 ^ (- e))) by lia. apply Z.quot_le_mono; lia.
Qed.

(** [x] lies within the destination's range. *)
Definition f_in (t : ity) (x : fl) : bool := fl_le (FFin (it_lo t) 0) x && fl_le x (FFin (it_hi t) 0).

Lemma f_numeric_cast_exact : forall p t x, In t all_ity -> it_bits t <= p -> x <> FNaN ->
  (f_in t x = true -> exists m e, x = FFin m e /\ it_in t (dtrunc m e) = true /\
                      f_numeric_cast p t x = ROk (dtrunc m e)) /\
  (f_in t x = false -> f_numeric_cast p t x = RThrow).
Proof.
  intros p t x H L NN. destruct (lims_exact p t H L) as [RH RL].
  assert (OV : f_will_overflow p t x = negb (f_in t x)).
  { unfold f_will_overflow, f_in, fl_of_int. rewrite RH, RL.
    replace (if it_signed t then FFin (it_lo t) 0 else FFin 0 0) with (FFin (it_lo t) 0)
      by (unfold it_lo; destruct (it_signed t); reflexivity).
    destruct x as [|n|m e]; [congruence|destruct n; reflexivity|].
    unfold fl_lt, fl_le. rewrite negb_andb. apply orb_comm. }
  split; intros F.
  - destruct x as [|n|m e]; [congruence|destruct n; unfold f_in in F; cbn in F; try discriminate F;
      try (rewrite andb_false_r in F; discriminate)|].
    assert (IT : it_in t (dtrunc m e) = true).
    { unfold f_in, fl_le in F. apply andb_true_iff in F. destruct F as [F1 F2].
      pose proof (dtrunc_mono m e _ _ F1 F2). unfold it_in. lia. }
    exists m, e. split; [reflexivity|]. split; [assumption|].
    unfold f_numeric_cast. rewrite OV, F. cbn [negb]. unfold trunc_cast. rewrite IT. reflexivity.
  - unfold f_numeric_cast. rewrite OV, F. reflexivity.
Qed.

Lemma dfloor_spec : forall m e, dle (dfloor m e) 0 m e = true /\
  (forall z, dle z 0 m e = true -> z <= dfloor m e).
Proof.
  intros m e. split.
  - rewrite dle_int_l. unfold dfloor. destruct (0 <=? e) eqn:E; [apply Z.leb_refl|].
    assert (P : 0 < 2 ^ (- e)) by (apply Z.pow_pos_nonneg; lia).
    apply Z.leb_le. rewrite Z.mul_comm. apply Z.mul_div_le. assumption.
  - intros z. rewrite dle_int_l. unfold dfloor. destruct (0 <=? e) eqn:E; intros H; apply Z.leb_le in H; [assumption|].
    assert (P : 0 < 2 ^ (- e)) by (apply Z.pow_pos_nonneg; lia).
    apply Z.div_le_lower_bound; lia.
Qed.

Lemma dle_opp : forall m e m' e', dle (- m') e' (- m) e = dle m e m' e'.
Proof.
  intros. unfold dle. rewrite (Z.min_comm e' e). lia.
Qed.

Lemma dceil_spec : forall m e, dle m e (dceil m e) 0 = true /\
  (forall z, dle m e z 0 = true -> dceil m e <= z).
Proof.
  intros m e. unfold dceil. destruct (dfloor_spec (- m) e) as [A B]. split.
  - rewrite <- dle_opp, Z.opp_involutive. assumption.
  - intros z Hz. rewrite <- dle_opp in Hz. apply B in Hz. lia.
Qed.

Lemma dtrunc_int : forall z, dtrunc z 0 = z.
Proof. intros. unfold dtrunc. cbn. lia. Qed.

Lemma mins_cast1_spec : forall p t x, In t all_ity -> it_bits t <= p ->
  match mins_cast1 p t x with
  | ROk z => it_in t z = true /\ fl_le (FFin z 0) x = true /\
             (forall y, fl_le (FFin y 0) x = true -> y <= z)
  | RThrow => forall z, it_in t z = true ->
      ~ (fl_le (FFin z 0) x = true /\ (forall y, fl_le (FFin y 0) x = true -> y <= z))
  | RUB => x = FNaN
  end.
Proof.
  intros p t x H L. unfold mins_cast1.
  destruct x as [|n|m e].
  - cbn. reflexivity.
  - destruct (f_numeric_cast_exact p t (FInf n) H L) as [A B]; [discriminate|].
    cbn [fl_floor]. rewrite B by (unfold f_in; destruct n; cbn; try reflexivity; apply andb_false_r).
    intros z Hz [C D]. destruct n; cbn in C; [discriminate|].
    specialize (D (z + 1) eq_refl). lia.
  - cbn [fl_floor]. destruct (dfloor_spec m e) as [F1 F2].
    destruct (f_numeric_cast_exact p t (FFin (dfloor m e) 0) H L) as [A B]; [discriminate|].
    destruct (f_in t (FFin (dfloor m e) 0)) eqn:FI.
    + destruct (A eq_refl) as (m' & e' & E1 & E2 & E3). injection E1 as <- <-. rewrite E3.
      rewrite dtrunc_int in *. auto.
    + rewrite (B eq_refl). intros z Hz [C D]. cbn in C.
      apply F2 in C. specialize (D (dfloor m e) F1).
      assert (z = dfloor m e) by lia. subst z.
      unfold f_in, fl_le in FI. rewrite dle_int_l, dle_int_r in FI. cbn in FI.
      unfold it_in in Hz. lia.
Qed.

Lemma maxs_cast1_spec : forall p t x, In t all_ity -> it_bits t <= p ->
  match maxs_cast1 p t x with
  | ROk z => it_in t z = true /\ fl_le x (FFin z 0) = true /\
             (forall y, fl_le x (FFin y 0) = true -> z <= y)
  | RThrow => forall z, it_in t z = true ->
      ~ (fl_le x (FFin z 0) = true /\ (forall y, fl_le x (FFin y 0) = true -> z <= y))
  | RUB => x = FNaN
  end.
Proof.
  intros p t x H L. unfold maxs_cast1.
  destruct x as [|n|m e].
  - cbn. reflexivity.
  - destruct (f_numeric_cast_exact p t (FInf n) H L) as [A B]; [discriminate|].
    cbn [fl_ceil]. rewrite B by (unfold f_in; destruct n; cbn; try reflexivity; apply andb_false_r).
    intros z Hz [C D]. destruct n; cbn in C; [|discriminate].
    specialize (D (z - 1) eq_refl). lia.
  - cbn [fl_ceil]. destruct (dceil_spec m e) as [F1 F2].
    destruct (f_numeric_cast_exact p t (FFin (dceil m e) 0) H L) as [A B]; [discriminate|].
    destruct (f_in t (FFin (dceil m e) 0)) eqn:FI.
    + destruct (A eq_refl) as (m' & e' & E1 & E2 & E3). injection E1 as <- <-. rewrite E3.
      rewrite dtrunc_int in *. auto.
    + rewrite (B eq_refl). intros z Hz [C D]. cbn in C.
      apply F2 in C. specialize (D (dceil m e) F1).
      assert (z = dceil m e) by lia. subst z.
      unfold f_in, fl_le in FI. rewrite dle_int_l, dle_int_r in FI. cbn in FI.
      unfold it_in in Hz. lia.
Qed.

(** Transitivity of <= through an integer. *)
Lemma f32_of_i16_range : forall z, -32768 <= z <= 32767 -> (f32_of_i16 z < 2 ^ 32)%N.
Proof.
  intros z H. unfold f32_of_i16. destruct (z =? 0) eqn:Z0; [cbn; lia|].
  assert (A : 0 < Z.abs z) by lia.
  pose proof (Z.log2_spec _ A) as [L1 L2].
  assert (K : 0 <= Z.log2 (Z.abs z) <= 15).
  { split; [apply Z.log2_nonneg|].
    assert (Z.log2 (Z.abs z) < 16) by (apply Z.log2_lt_pow2; lia). lia. }
  set (k := Z.log2 (Z.abs z)) in *. set (a := Z.abs z) in *.
  assert (P : a * 2 ^ (23 - k) < 2 ^ 24).
  { replace (2 ^ 24) with (2 ^ Z.succ k * 2 ^ (23 - k)) by (rewrite <- Z.pow_add_r by lia; f_equal; lia).
    apply Z.mul_lt_mono_pos_r; [apply Z.pow_pos_nonneg; lia|assumption]. }
  assert (P2 : 2 ^ 23 <= a * 2 ^ (23 - k)).
  { replace (2 ^ 23) with (2 ^ k * 2 ^ (23 - k)) by (rewrite <- Z.pow_add_r by lia; f_equal; lia).
    apply Z.mul_le_mono_nonneg_r; [apply Z.pow_nonneg; lia|assumption]. }
  clearbody k a. generalize dependent (a * 2 ^ (23 - k)). intros w P P2.
  cbn in *. destruct (z <? 0); lia.
Qed.

(** The float made from an integer has the integer's value. *)
Lemma f32_of_i16_val : forall z, -32768 <= z <= 32767 ->
  fl_le (f32_val (f32_of_i16 z)) (FFin z 0) = true /\ fl_le (FFin z 0) (f32_val (f32_of_i16 z)) = true.
Proof.
  intros z H. destruct (Z.eq_dec z 0) as [->|NZ]; [vm_compute; auto|].
  assert (A : 0 < Z.abs z) by lia.
  pose proof (Z.log2_spec _ A) as [L1 L2].
  assert (K : 0 <= Z.log2 (Z.abs z) <= 15).
  { split; [apply Z.log2_nonneg|].
    assert (Z.log2 (Z.abs z) < 16) by (apply Z.log2_lt_pow2; lia). lia. }
  assert (VAL : f32_val (f32_of_i16 z) =
    FFin (Z.sgn z * (Z.abs z * 2 ^ (23 - Z.log2 (Z.abs z)))) (Z.log2 (Z.abs z) - 23)).
  { unfold f32_of_i16. destruct (z =? 0) eqn:Z0; [lia|].
    set (k := Z.log2 (Z.abs z)) in *. set (a := Z.abs z) in *.
    assert (P : a * 2 ^ (23 - k) < 2 ^ 24).
    { replace (2 ^ 24) with (2 ^ Z.succ k * 2 ^ (23 - k)) by (rewrite <- Z.pow_add_r by lia; f_equal; lia).
      apply Z.mul_lt_mono_pos_r; [apply Z.pow_pos_nonneg; lia|assumption]. }
    assert (P2 : 2 ^ 23 <= a * 2 ^ (23 - k)).
    { replace (2 ^ 23) with (2 ^ k * 2 ^ (23 - k)) by (rewrite <- Z.pow_add_r by lia; f_equal; lia).
      apply Z.mul_le_mono_nonneg_r; [apply Z.pow_nonneg; lia|assumption]. }
    assert (SG : Z.sgn z = if z <? 0 then -1 else 1) by (destruct (z <? 0) eqn:Q; lia).
    rewrite SG. clearbody k a. generalize dependent (a * 2 ^ (23 - k)). intros w P P2.
    unfold f32_val.
    change (2 ^ 31) with 2147483648 in *. change (2 ^ 24) with 16777216 in *.
    change (2 ^ 23) with 8388608 in *. change (2 ^ 8) with 256 in *. cbv zeta.
    set (s := if z <? 0 then 1 else 0) in *.
    replace (if z <? 0 then 2147483648 else 0) with (s * 2147483648) by (subst s; destruct (z <? 0); reflexivity).
    assert (S01 : s = 0 \/ s = 1) by (subst s; destruct (z <? 0); auto).
    assert (ES : (if z <? 0 then -1 else 1) = 1 - 2 * s) by (subst s; destruct (z <? 0); reflexivity).
    rewrite ES. clearbody s.
    rewrite Z2N.id by lia.
    set (v := s * 2147483648 + (k + 127) * 8388608 + (w - 8388608)).
    assert (V1 : (v / 2147483648) mod 2 = s) by (subst v; lia).
    assert (V2 : (v / 8388608) mod 256 = k + 127).
    { assert (v / 8388608 = s * 256 + (k + 127)) by (subst v; lia). lia. }
    assert (V3 : v mod 8388608 = w - 8388608) by (subst v; lia).
    rewrite V1, V2, V3. clear V1 V2 V3. clearbody v.
    replace (k + 127 =? 255) with false by lia. replace (k + 127 =? 0) with false by lia.
    f_equal; [|lia].
    destruct S01; subst s; cbn -[Z.mul Z.add]; lia. }
  rewrite VAL. unfold fl_le. rewrite dle_int_l, dle_int_r.
  set (k := Z.log2 (Z.abs z)) in *. assert (B : 0 <=? k - 23 = false) by lia. rewrite B.
  replace (- (k - 23)) with (23 - k) by lia.
  assert (M : Z.sgn z * (Z.abs z * 2 ^ (23 - k)) = z * 2 ^ (23 - k)).
  { rewrite Z.mul_assoc, (Z.mul_comm (Z.sgn z)), Z.abs_sgn. reflexivity. }
  rewrite M. split; apply Z.leb_refl.
Qed.
