From Coq Require Import List Arith NArith ZArith Bool Lia ZifyBool ZifyNat ZifyN.
Import ListNotations.
From Verif Require Import Base Codec LeafBitsModel LeafBitsProofs VisStateModel.
Ltac Zify.zify_post_hook ::= Z.div_mod_to_equations.

(** ** Bytes of a block array *)
Lemma land255 : forall w, N.land w 255 = (w mod 256)%N.
Proof. intro w. change 255%N with (N.ones 8). rewrite N.land_ones. reflexivity. Qed.

Lemma byte_at_byte : forall b i v, byte_at b i = Some v -> is_byte v.
Proof.
  intros b i v H. unfold byte_at in H. destruct (nth_error _ _); inversion H.
  rewrite land255. unfold is_byte. lia.
Qed.

Lemma byte_testbit : forall b i v w k, nth_error (lb_bits b) (i / 4) = Some w -> byte_at b i = Some v ->
  (k < 8)%N -> N.testbit v k = N.testbit w (N.of_nat ((8 * i) mod 32) + k)%N.
Proof.
  intros b i v w k Hw H Hk. unfold byte_at in H. rewrite Hw in H. inversion H.
  change 255%N with (N.ones 8). rewrite N.land_spec, N.shiftr_spec', N.ones_spec_low by lia.
  rewrite andb_true_r, N.add_comm. reflexivity.
Qed.

Lemma byte_at_some : forall b i, i < 4 * length (lb_bits b) -> exists v, byte_at b i = Some v.
Proof.
  intros b i H. unfold byte_at. destruct (nth_error (lb_bits b) (i / 4)) eqn:E; [eauto|].
  apply nth_error_None in E. lia.
Qed.

Lemma mod_8_32 : forall i, (8 * (i / 8)) mod 32 + i mod 8 = i mod 32.
Proof.
  intro i. rewrite (Nat.div_mod i 8) at 3 by lia. set (q := i / 8). assert (i mod 8 < 8) by (apply Nat.mod_upper_bound; lia).
  set (r := i mod 8) in *. clearbody q r.
  rewrite (Nat.div_mod q 4) by lia. assert (q mod 4 < 4) by (apply Nat.mod_upper_bound; lia).
  set (a := q / 4). set (b := q mod 4) in *. clearbody a b.
  replace (8 * (4 * a + b)) with (8 * b + a * 32) by lia. rewrite Nat.mod_add by lia.
  replace (8 * b + a * 32 + r) with ((8 * b + r) + a * 32) by lia. rewrite Nat.mod_add by lia.
  rewrite !Nat.mod_small by lia. reflexivity.
Qed.

Lemma lb_get_byte : forall b i, lb_get b i =
  option_map (fun v => N.testbit v (N.of_nat (i mod 8))) (byte_at b (i / 8)).
Proof.
  intros b i. assert (Hd : i / 8 / 4 = i / 32) by (rewrite Nat.div_div by lia; reflexivity).
  destruct (nth_error (lb_bits b) (i / 32)) as [w|] eqn:E.
  - rewrite (lb_get_testbit _ _ _ E).
    destruct (byte_at b (i / 8)) as [v|] eqn:Ev.
    + cbn [option_map]. f_equal. rewrite (byte_testbit b (i / 8) v w).
      * rewrite <- Nat2N.inj_add, mod_8_32. reflexivity.
      * rewrite Hd. assumption.
      * assumption.
      * clear. lia.
    + unfold byte_at in Ev. rewrite Hd, E in Ev. discriminate.
  - unfold lb_get, byte_at. rewrite Hd, E. reflexivity.
Qed.

Lemma byte_ext : forall a b, is_byte a -> is_byte b ->
  (forall k, (k < 8)%N -> N.testbit a k = N.testbit b k) -> a = b.
Proof.
  intros a b Ha Hb H. apply N.bits_inj. intro k.
  destruct (N.lt_ge_cases k 8); [auto|].
  assert (T : forall x, is_byte x -> N.testbit x k = false).
  { intros x Hx. destruct (N.eq_dec x 0) as [->|]; [apply N.bits_0|].
    apply N.bits_above_log2. apply N.log2_lt_pow2; [lia|].
    unfold is_byte in Hx. apply N.lt_le_trans with (1 := Hx). change 256%N with (2 ^ 8)%N.
    apply N.pow_le_mono_r; lia. }
  rewrite !T by assumption. reflexivity.
Qed.

Lemma or_byte_spec : forall b i v, is_byte v -> i < 4 * length (lb_bits b) ->
  exists b', or_byte b i v = Some b' /\ lb_size b' = lb_size b /\
    length (lb_bits b') = length (lb_bits b) /\
    forall j, byte_at b' j = if Nat.eqb j i then option_map (fun o => N.lor o v) (byte_at b j) else byte_at b j.
Proof.
  intros b i v Hv Hi. unfold or_byte.
  destruct (nth_error (lb_bits b) (i / 4)) as [w|] eqn:Ew.
  2:{ apply nth_error_None in Ew. lia. }
  set (w' := N.lor w (N.shiftl v (N.of_nat ((8 * i) mod 32)))).
  destruct (upd_some _ (lb_bits b) (i / 4) w') as [l El]; [lia|].
  rewrite El. eexists. split; [reflexivity|]. split; [reflexivity|].
  split; [apply (upd_length _ _ _ _ _ El)|].
  intro j. destruct (Nat.eqb_spec (j / 4) (i / 4)) as [E|E].
  - assert (Hj : nth_error l (j / 4) = Some w').
    { rewrite (upd_nth_error _ _ _ _ _ _ El). rewrite E, Nat.eqb_refl. reflexivity. }
    assert (Hj' : nth_error (lb_bits b) (j / 4) = Some w) by (rewrite E; assumption).
    set (b2 := {| lb_size := lb_size b; lb_bits := l |}).
    assert (Hb2 : nth_error (lb_bits b2) (j / 4) = Some w') by exact Hj.
    destruct (byte_at_some b j) as [o Ho].
    { assert (j / 4 < length (lb_bits b)) by (apply nth_error_Some; congruence). lia. }
    destruct (byte_at_some b2 j) as [o2 Ho2].
    { assert (j / 4 < length (lb_bits b2)) by (apply nth_error_Some; congruence). lia. }
    rewrite Ho, Ho2. destruct (Nat.eqb_spec j i) as [->|Hne].
    + simpl. f_equal. apply byte_ext.
      * eapply byte_at_byte; eassumption.
      * unfold is_byte. apply byte_at_byte in Ho.
        assert (Hlo : (N.lor o v < 2 ^ 8)%N).
        { destruct (N.eq_dec (N.lor o v) 0) as [->|Hz]; [lia|].
          apply N.log2_lt_pow2; [lia|]. rewrite N.log2_lor.
          unfold is_byte in *. apply N.max_lub_lt.
          - destruct (N.eq_dec o 0) as [->|]; [simpl; lia|]. apply N.log2_lt_pow2; simpl; lia.
          - destruct (N.eq_dec v 0) as [->|]; [simpl; lia|]. apply N.log2_lt_pow2; simpl; lia. }
        exact Hlo.
      * intros k Hk. rewrite (byte_testbit b2 i o2 w' k Hb2 Ho2 Hk).
        rewrite N.lor_spec, (byte_testbit b i o w k Hj' Ho Hk).
        unfold w'. rewrite N.lor_spec. f_equal.
        rewrite N.shiftl_spec_high' by lia. f_equal. lia.
    + f_equal. apply byte_ext.
      * eapply byte_at_byte; eassumption.
      * eapply byte_at_byte; eassumption.
      * intros k Hk. rewrite (byte_testbit b2 j o2 w' k Hb2 Ho2 Hk).
        rewrite (byte_testbit b j o w k Hj' Ho Hk).
        unfold w'. rewrite N.lor_spec.
        replace (N.testbit (N.shiftl v (N.of_nat ((8 * i) mod 32))) (N.of_nat ((8 * j) mod 32) + k)) with false.
        { apply orb_false_r. }
        symmetry.
        destruct (N.lt_ge_cases (N.of_nat ((8 * j) mod 32) + k) (N.of_nat ((8 * i) mod 32))) as [Hlt|Hge].
        -- apply N.shiftl_spec_low. assumption.
        -- rewrite N.shiftl_spec_high' by assumption.
           set (m := (N.of_nat ((8 * j) mod 32) + k - N.of_nat ((8 * i) mod 32))%N).
           assert (8 <= m)%N by (unfold m; lia).
           destruct (N.eq_dec v 0) as [->|]; [apply N.bits_0|].
           apply N.bits_above_log2. apply N.log2_lt_pow2; [lia|].
           unfold is_byte in Hv. apply N.lt_le_trans with (1 := Hv).
           change 256%N with (2 ^ 8)%N. apply N.pow_le_mono_r; lia.
  - unfold byte_at. cbn [lb_bits]. rewrite (upd_nth_error _ _ _ _ _ _ El).
    replace (Nat.eqb (j / 4) (i / 4)) with false by (symmetry; apply Nat.eqb_neq; assumption).
    replace (Nat.eqb j i) with false; [reflexivity|].
    symmetry. apply Nat.eqb_neq. intro. subst. congruence.
Qed.

Lemma bytes_from_spec : forall k b i, i + k <= 4 * length (lb_bits b) ->
  exists l, bytes_from b i k = Some l /\ length l = k /\ Forall is_byte l /\
    forall j, j < k -> nth_error l j = byte_at b (i + j).
Proof.
  induction k as [|k IH]; intros b i H; simpl.
  - exists []. repeat split; [constructor|intros; lia].
  - destruct (byte_at_some b i) as [v Ev]; [lia|].
    destruct (IH b (S i)) as (l & El & Hl & HF & Hn); [lia|].
    rewrite Ev, El. exists (v :: l). repeat split.
    + simpl. lia.
    + constructor; [eapply byte_at_byte; eassumption|assumption].
    + intros j Hj. destruct j as [|j]; simpl.
      * rewrite Nat.add_0_r. auto.
      * rewrite Hn by lia. f_equal. lia.
Qed.

Lemma numbytes_blocks : forall n, numbytes n <= 4 * block_size n.
Proof. intros. unfold numbytes, block_size. lia. Qed.

Lemma leaf_bytes_spec : forall n b, lb_wf b -> lb_size b = n ->
  exists l, leaf_bytes n b = Some l /\ length l = numbytes n /\ Forall is_byte l /\
    forall j, j < numbytes n -> nth_error l j = byte_at b j.
Proof.
  intros n b [Hlen _] Hs. unfold leaf_bytes.
  destruct (bytes_from_spec (numbytes n) b 0) as (l & H1 & H2 & H3 & H4).
  { rewrite Hlen, Hs. apply numbytes_blocks. }
  exists l. repeat split; auto.
Qed.

(** ** The decoder invariant: the bytes decoded so far, zeros behind them. *)
Definition holds (b : leafbits) (n : nat) (done : list N) : Prop :=
  lb_size b = n /\ length (lb_bits b) = block_size n /\
  forall j, j < 4 * block_size n -> byte_at b j = Some (nth j done 0%N).

Lemma holds_make : forall n, holds (lb_make n) n [].
Proof.
  intro n. split; [reflexivity|]. split; [apply repeat_length|].
  intros j Hj. unfold byte_at. cbn [lb_make lb_bits].
  rewrite nth_error_repeat by lia. rewrite N.shiftr_0_l. destruct j; reflexivity.
Qed.

Lemma holds_or : forall b n done v, holds b n done -> is_byte v -> length done < numbytes n ->
  exists b', or_byte b (length done) v = Some b' /\ holds b' n (done ++ [v]).
Proof.
  intros b n done v (H1 & H2 & H3) Hv Hd.
  pose proof (numbytes_blocks n) as Hnb.
  destruct (or_byte_spec b (length done) v Hv) as (b' & E & S & L & G); [lia|].
  exists b'. split; [assumption|]. split; [congruence|]. split; [congruence|].
  intros j Hj. rewrite G, H3 by assumption.
  destruct (Nat.eqb_spec j (length done)) as [->|Hne].
  - simpl. rewrite nth_overflow by lia. rewrite N.lor_0_l.
    rewrite app_nth2 by lia. rewrite Nat.sub_diag. reflexivity.
  - f_equal. destruct (le_lt_dec (length done) j).
    + rewrite !nth_overflow; [reflexivity| rewrite app_length; simpl; lia | lia].
    + rewrite app_nth1 by lia. reflexivity.
Qed.

Lemma rep_loop_spec : forall k fuel b n done v, holds b n (done ++ [v]) -> is_byte v -> k <= fuel ->
  length done + S k <= numbytes n ->
  exists b', rep_loop fuel (Z.of_nat (S k)) (length done) b v = inl (length done + k, b') /\
    holds b' n (done ++ repeat v (S k)).
Proof.
  induction k as [|k IH]; intros fuel b n done v Hb Hv Hf Hd.
  - exists b. split; [|exact Hb].
    destruct fuel; simpl; rewrite Nat.add_0_r; reflexivity.
  - destruct fuel as [|f]; [lia|]. cbn [rep_loop].
    replace (Z.of_nat (S (S k)) - 1 =? 0)%Z with false by lia.
    destruct (holds_or b n (done ++ [v]) v Hb Hv) as (b1 & E1 & H1).
    { rewrite app_length. simpl. lia. }
    rewrite app_length in E1. simpl in E1. rewrite Nat.add_1_r in E1. rewrite E1.
    replace (Z.of_nat (S (S k)) - 1)%Z with (Z.of_nat (S k)) by lia.
    destruct (IH f b1 n (done ++ [v]) v H1 Hv) as (b2 & E2 & H2); [lia|rewrite app_length; simpl; lia|].
    rewrite app_length in E2. simpl length in E2. rewrite Nat.add_1_r in E2. exists b2. split.
    + rewrite E2. f_equal. f_equal. lia.
    + rewrite <- app_assoc in H2. exact H2.
Qed.

Lemma same_run_spec : forall l val rep rep' rest,
  same_run val rep l = (rep', rest) -> (rep <= 255)%N ->
  exists k, l = repeat val k ++ rest /\ rep' = (rep + N.of_nat k)%N /\ (rep' <= 255)%N.
Proof.
  induction l as [|b t IH]; intros val rep rep' rest H Hr; simpl in H.
  - inversion H; subst. exists 0. simpl. split; [reflexivity|]. lia.
  - destruct (negb (b =? val)%N || (rep =? 255)%N) eqn:E.
    + inversion H; subst. exists 0. simpl. split; [reflexivity|]. lia.
    + apply orb_false_iff in E. destruct E as [E1 E2].
      destruct (IH _ _ _ _ H) as (k & Hk1 & Hk2 & Hk3); [lia|].
      exists (S k). assert (b = val) by lia. subst b t. simpl. split; [reflexivity|]. lia.
Qed.

(** The encoder: never out of fuel, never beyond [nb] bytes. *)
Lemma encode_bound : forall fuel nb l out, length l <= fuel -> length out <= nb ->
  exists o, encode_f fuel nb l out = Some o /\ length o <= nb /\ (exists e, o = out ++ e).
Proof.
  induction fuel as [|f IH]; intros nb l out Hl Ho.
  - destruct l; simpl in *; [|lia]. exists out. split; [reflexivity|]. split; [assumption|]. exists []. rewrite app_nil_r. reflexivity.
  - destruct l as [|v t]; cbn [encode_f].
    { exists out. split; [reflexivity|]. split; [assumption|]. exists []. rewrite app_nil_r. reflexivity. }
    destruct (Nat.ltb_spec (length out) nb) as [Hlt|Hge].
    2:{ exists out. split; [reflexivity|]. split; [assumption|]. exists []. rewrite app_nil_r. reflexivity. }
    assert (Hl1 : length (out ++ [v]) = S (length out)) by (rewrite app_length; simpl; lia).
    simpl in Hl.
    destruct (negb (v =? 0)%N && negb (v =? 255)%N).
    + destruct (IH nb t (out ++ [v])) as (o & E & B & (e & P)); [lia|lia|].
      exists o. split; [assumption|]. split; [assumption|]. exists (v :: e). rewrite P, <- app_assoc. reflexivity.
    + destruct (Nat.leb_spec nb (length (out ++ [v]))) as [Hle|Hgt].
      * exists (out ++ [v]). split; [reflexivity|]. split; [lia|]. eauto.
      * destruct (same_run v 1 t) as [rep rest] eqn:Es.
        destruct (same_run_spec _ _ _ _ _ Es) as (k & Hk & _ & _); [lia|].
        assert (length rest <= length t) by (subst t; rewrite app_length; lia).
        destruct (IH nb rest ((out ++ [v]) ++ [rep])) as (o & E & B & (e & P)); [lia| rewrite !app_length in *; simpl in *; lia|].
        exists o. split; [assumption|]. split; [assumption|].
        exists (v :: rep :: e). rewrite P, <- !app_assoc. reflexivity.
Qed.

Lemma encode_extends : forall f nb t o1 o, encode_f f nb t o1 = Some o -> exists e, o = o1 ++ e.
Proof.
  induction f as [|f IHf]; intros nb t o1 o He; destruct t as [|u t]; cbn [encode_f] in He.
  - inversion He; subst. exists []. rewrite app_nil_r. reflexivity.
  - destruct (Nat.ltb _ _); [discriminate|]. inversion He; subst. exists []. rewrite app_nil_r. reflexivity.
  - inversion He; subst. exists []. rewrite app_nil_r. reflexivity.
  - destruct (Nat.ltb _ _).
    + destruct (_ && _).
      * destruct (IHf _ _ _ _ He) as (e & ->). exists (u :: e). rewrite <- app_assoc. reflexivity.
      * destruct (Nat.leb _ _); [inversion He; subst; exists [u]; reflexivity|].
        destruct (same_run u 1 t) as [r q]. destruct (IHf _ _ _ _ He) as (e & ->).
        exists (u :: r :: e). rewrite <- !app_assoc. reflexivity.
    + inversion He; subst. exists []. rewrite app_nil_r. reflexivity.
Qed.

(** Decoding a finished encoding. *)
Lemma decode_encode : forall fuel nb l out o, encode_f fuel nb l out = Some o -> length o < nb ->
  Forall is_byte l ->
  forall n dfuel done b junk, nb = numbytes n -> holds b n done -> length done + length l = nb -> length l < dfuel ->
  exists b', dec_loop dfuel nb (o ++ junk) (length out) (length done) b = Dec_ok b' /\ holds b' n (done ++ l).
Proof.
  induction fuel as [|f IH]; intros nb l out o He Ho HF n dfuel done b junk Hnb Hh Hlen Hdf.
  - destruct l as [|v t]; cbn [encode_f] in He.
    + simpl in Hlen. exists b. rewrite app_nil_r. split; [|assumption].
      destruct dfuel; cbn [dec_loop]; replace (Nat.ltb (length done) nb) with false by (symmetry; apply Nat.ltb_ge; lia); reflexivity.
    + destruct (Nat.ltb (length out) nb) eqn:E; [discriminate|]. inversion He; subst o. apply Nat.ltb_ge in E. lia.
  - destruct l as [|v t].
    { simpl in Hlen. exists b. rewrite app_nil_r. split; [|assumption].
      destruct dfuel; cbn [dec_loop]; replace (Nat.ltb (length done) nb) with false by (symmetry; apply Nat.ltb_ge; lia); reflexivity. }
    cbn [encode_f] in He.
    destruct (Nat.ltb (length out) nb) eqn:Elt.
    2:{ inversion He; subst o. apply Nat.ltb_ge in Elt. lia. }
    apply Nat.ltb_lt in Elt. inversion HF as [|? ? Hv Ht]; subst.
    destruct dfuel as [|df]; [simpl in Hdf; lia|].
    simpl in Hlen, Hdf.
    destruct (holds_or b n done v Hh Hv) as (b1 & Eor & H1); [lia|].
    destruct (negb (v =? 0)%N && negb (v =? 255)%N) eqn:Ev.
    + destruct (encode_extends _ _ _ _ _ He) as (e & P).
      cbn [dec_loop].
      replace (Nat.ltb (length done) (numbytes n)) with true by (symmetry; apply Nat.ltb_lt; lia).
      assert (Es0 : nth_error (o ++ junk) (length out) = Some v).
      { rewrite P, <- !app_assoc. simpl app. apply nth_error_app_here. }
      rewrite Es0, Eor, Ev.
      replace (S (length out)) with (length (out ++ [v])) by (rewrite app_length; simpl; lia).
      replace (S (length done)) with (length (done ++ [v])) by (rewrite app_length; simpl; lia).
      destruct (IH _ _ _ _ He Ho Ht n df (done ++ [v]) b1 junk eq_refl H1) as (b' & D & Hh');
        [rewrite app_length; simpl; lia|lia|].
      exists b'. split; [assumption|]. rewrite <- app_assoc in Hh'. exact Hh'.
    + destruct (Nat.leb (numbytes n) (length (out ++ [v]))) eqn:El.
      { inversion He; subst o. apply Nat.leb_le in El. lia. }
      destruct (same_run v 1 t) as [rep rest] eqn:Es.
      destruct (same_run_spec _ _ _ _ _ Es) as (k & Hk & Hrep & Hle); [lia|].
      destruct (encode_extends _ _ _ _ _ He) as (e & P).
      assert (Hlt : length t = k + length rest) by (subst t; rewrite app_length, repeat_length; lia).
      cbn [dec_loop].
      replace (Nat.ltb (length done) (numbytes n)) with true by (symmetry; apply Nat.ltb_lt; lia).
      assert (Es0 : nth_error (o ++ junk) (length out) = Some v).
      { rewrite P, <- !app_assoc. simpl app. apply nth_error_app_here. }
      assert (Es1 : nth_error (o ++ junk) (S (length out)) = Some rep).
      { rewrite P. rewrite <- (app_assoc _ e junk). rewrite <- (app_assoc (out ++ [v])). simpl app.
        replace (S (length out)) with (length (out ++ [v])) by (rewrite app_length; simpl; lia).
        apply nth_error_app_here. }
      rewrite Es0, Eor, Ev, Es1.
      replace (Z.of_nat (numbytes n) <? Z.of_nat (length done) + Z.of_N rep)%Z with false by lia.
      replace (Z.of_N rep) with (Z.of_nat (S k)) by lia.
      destruct (rep_loop_spec k (S (4 * length (lb_bits b1))) b1 n done v H1 Hv) as (b2 & E2 & H2).
      { destruct H1 as (_ & HL & _). rewrite HL. pose proof (numbytes_blocks n). lia. }
      { lia. }
      rewrite E2.
      replace (S (S (length out))) with (length ((out ++ [v]) ++ [rep])) by (rewrite !app_length; simpl; lia).
      replace (S (length done + k)) with (length (done ++ repeat v (S k))) by (rewrite app_length, repeat_length; lia).
      assert (Hrest : Forall is_byte rest) by (subst t; apply Forall_app in Ht; tauto).
      destruct (IH _ _ _ _ He Ho Hrest n df (done ++ repeat v (S k)) b2 junk eq_refl H2) as (b' & D & Hh').
      { rewrite app_length, repeat_length. lia. }
      { lia. }
      exists b'. split; [assumption|]. subst t. rewrite <- app_assoc in Hh'. exact Hh'.
Qed.

Lemma copy_loop_spec : forall l done n b junk, holds b n done -> Forall is_byte l ->
  length done + length l = numbytes n ->
  exists b', copy_loop (length l) ((done ++ l) ++ junk) (length done) b = Dec_ok b' /\ holds b' n (done ++ l).
Proof.
  induction l as [|v t IH]; intros done n b junk Hh HF Hlen; simpl length.
  - exists b. rewrite app_nil_r. split; [reflexivity|assumption].
  - inversion HF; subst. simpl in Hlen.
    destruct (holds_or b n done v Hh) as (b1 & E & H1'); [assumption|lia|].
    cbn [copy_loop].
    replace (nth_error ((done ++ v :: t) ++ junk) (length done)) with (Some v)
      by (rewrite <- app_assoc; symmetry; apply nth_error_app_here).
    rewrite E. rewrite (app_cons_assoc _ done v t).
    replace (S (length done)) with (length (done ++ [v])) by (rewrite app_length; simpl; lia).
    apply IH; [assumption|assumption|]. rewrite app_length. simpl. lia.
Qed.

(** ** Round trip of one bit set, whatever junk the shared buffer holds behind it. *)
Lemma compress_bits_spec : forall bytes, exists c, compress_bits bytes = Some c /\ length c <= length bytes /\
  (Forall is_byte bytes -> forall n junk, length bytes = numbytes n -> length c + length junk = length bytes ->
   exists b, decode_bits n (length c) (c ++ junk) = Dec_ok b /\ holds b n bytes).
Proof.
  intro bytes. unfold compress_bits.
  destruct (encode_bound (length bytes) (length bytes) bytes []) as (o & E & B & _); [lia|simpl; lia|].
  rewrite E. destruct (Nat.ltb_spec (length o) (length bytes)) as [Hlt|Hge].
  - exists o. split; [reflexivity|]. split; [lia|]. intros HF n junk Hn Hj.
    unfold decode_bits. replace (Nat.ltb (length o) (numbytes n)) with true by (symmetry; apply Nat.ltb_lt; lia).
    unfold decompress_bits.
    destruct (decode_encode _ _ _ _ _ E Hlt HF n (S (numbytes n)) [] (lb_make n) junk Hn (holds_make n))
      as (b & D & H); [simpl; lia|lia|].
    exists b. rewrite <- Hn. split; [|assumption]. rewrite <- Hn in D. simpl in D. exact D.
  - exists bytes. split; [reflexivity|]. split; [lia|]. intros HF n junk Hn Hj.
    unfold decode_bits. replace (Nat.ltb (length bytes) (numbytes n)) with false by (symmetry; apply Nat.ltb_ge; lia).
    unfold copy_leaf_bits.
    destruct (copy_loop_spec bytes [] n (lb_make n) junk (holds_make n) HF) as (b & D & H); [simpl; lia|].
    exists b. simpl in D. rewrite <- Hn. split; assumption.
Qed.

Lemma compress_nonempty : forall l c, compress_bits l = Some c -> l <> [] -> c <> [].
Proof.
  intros [|v t] c H Hl; [congruence|]. unfold compress_bits in H.
  destruct (encode_f (length (v :: t)) (length (v :: t)) (v :: t) []) as [o|] eqn:E; [|discriminate].
  destruct (Nat.ltb (length o) (length (v :: t))); inversion H; subst; [|discriminate].
  cbn [length encode_f Nat.ltb Nat.leb app] in E.
  destruct (negb (v =? 0)%N && negb (v =? 255)%N).
  - destruct (encode_extends _ _ _ _ _ E) as (e & ->). discriminate.
  - destruct (Nat.leb _ _); [inversion E; discriminate|].
    destruct (same_run v 1 t) as [r q].
    destruct (encode_extends _ _ _ _ _ E) as (e & ->). discriminate.
Qed.

(** Same bits: what the user of a bit set observes. *)
Definition same_bits (n : nat) (a b : leafbits) : Prop :=
  lb_size b = n /\ length (lb_bits b) = block_size n /\
  forall i, i < n -> lb_get b i = lb_get a i.

Lemma holds_same : forall n a l b, leaf_bytes n a = Some l -> lb_wf a -> lb_size a = n -> holds b n l -> same_bits n a b.
Proof.
  intros n a l b Hl Hwf Hs (H1 & H2 & H3).
  destruct (leaf_bytes_spec n a Hwf Hs) as (l' & E & L & _ & Hn). rewrite Hl in E. inversion E; subst l'.
  split; [assumption|]. split; [assumption|].
  intros i Hi. rewrite !lb_get_byte.
  assert (Hi8 : i / 8 < numbytes n) by (unfold numbytes; lia).
  pose proof (numbytes_blocks n).
  rewrite H3 by lia. rewrite <- Hn by assumption.
  rewrite (nth_error_nth' l 0%N) by lia. reflexivity.
Qed.

Lemma bits_roundtrip : forall n a, lb_wf a -> lb_size a = n ->
  exists l c, leaf_bytes n a = Some l /\ compress_bits l = Some c /\ length c <= numbytes n /\
   forall junk, length c + length junk = numbytes n ->
   exists b, decode_bits n (length c) (c ++ junk) = Dec_ok b /\ same_bits n a b.
Proof.
  intros n a Hwf Hs. destruct (leaf_bytes_spec n a Hwf Hs) as (l & E & L & HF & Hn).
  destruct (compress_bits_spec l) as (c & Ec & Lc & D).
  exists l, c. split; [assumption|]. split; [assumption|]. split; [lia|].
  intros junk Hj. destruct (D HF n junk L) as (b & Db & Hb); [lia|].
  exists b. split; [assumption|]. eapply holds_same; eassumption.
Qed.

(** ** The whole file *)
Definition wf_portal (n : nat) (p : vportal) : Prop :=
  lb_wf (vp_might p) /\ lb_size (vp_might p) = n /\ lb_wf (vp_vis p) /\ lb_size (vp_vis p) = n /\
  urange 4 (vp_status p) /\ urange 4 (vp_nummight p) /\ urange 4 (vp_numcan p).

(** What survives a save and a load. *)
Definition resumed (n : nat) (p q : vportal) : Prop :=
  vp_status q = (if (vp_status p =? 1)%N then 0%N else vp_status p) /\
  same_bits n (vp_might p) (vp_might q) /\
  (if (vp_status p =? 2)%N then same_bits n (vp_vis p) (vp_vis q) else vp_vis q = lb_make n) /\
  vp_nummight q = vp_nummight p /\ vp_numcan q = vp_numcan p.

Lemma header5_ok : forall a b c d e rest, urange 4 a -> urange 4 b -> urange 4 c -> urange 4 d -> urange 4 e ->
  get_header5 (put_le 4 a ++ put_le 4 b ++ put_le 4 c ++ put_le 4 d ++ put_le 4 e ++ rest) =
  Some ((a, (b, (c, (d, e)))), rest).
Proof.
  intros. unfold get_header5, get_pair.
  repeat rewrite le_ok by assumption. reflexivity.
Qed.

Lemma load_bits_ok : forall n c a buf rest, length c <= numbytes n -> length buf = numbytes n ->
  (forall junk, length c + length junk = numbytes n ->
     exists b, decode_bits n (length c) (c ++ junk) = Dec_ok b /\ same_bits n a b) ->
  exists b buf', load_bits n (N.of_nat (length c)) buf (c ++ rest) = L_ok (b, buf', rest) /\
    same_bits n a b /\ length buf' = numbytes n.
Proof.
  intros n c a buf rest Hc Hb HD. unfold load_bits.
  replace (N.of_nat (length buf) <? N.of_nat (length c))%N with false by lia.
  rewrite Nat2N.id. rewrite raw_ok by reflexivity.
  destruct (HD (skipn (length c) buf)) as (b & D & S).
  { rewrite skipn_length. lia. }
  rewrite D. do 2 eexists. split; [reflexivity|]. split; [assumption|].
  rewrite app_length, skipn_length. lia.
Qed.

Lemma numbytes_small : forall n, urange 4 (N.of_nat n) -> forall k, k <= numbytes n -> urange 4 (N.of_nat k).
Proof. intros n H k Hk. unfold urange, numbytes in *. lia. Qed.

Lemma portal_roundtrip : forall n p buf rest, urange 4 (N.of_nat n) -> wf_portal n p -> length buf = numbytes n ->
  exists bytes, save_portal n p = Some bytes /\
  exists q buf', load_portal n buf (bytes ++ rest) = L_ok (q, buf', rest) /\ resumed n p q /\
     length buf' = numbytes n.
Proof.
  intros n p buf rest Hn (W1 & S1 & W2 & S2 & R1 & R2 & R3) Hbuf.
  destruct (bits_roundtrip n (vp_might p) W1 S1) as (ml & mc & Eml & Emc & Lmc & Dm).
  destruct (bits_roundtrip n (vp_vis p) W2 S2) as (vl & vc & Evl & Evc & Lvc & Dv).
  unfold save_portal. rewrite Eml, Emc.
  destruct (load_bits_ok n mc (vp_might p) buf
     ((if (vp_status p =? 2)%N then vc else []) ++ rest) Lmc Hbuf Dm) as (b1 & buf1 & E1 & Sb1 & Lb1).
  destruct (vp_status p =? 2)%N eqn:Est.
  - rewrite Evl, Evc. eexists. split; [reflexivity|].
    rewrite <- !app_assoc. unfold load_portal.
    rewrite header5_ok; try assumption; try (eapply numbytes_small; eassumption).
    rewrite E1.
    destruct (N.of_nat (length vc) =? 0)%N eqn:Ez.
    + assert (length vc = 0) by lia. destruct vc; [|discriminate]. simpl.
      do 2 eexists. split; [reflexivity|]. split; [|assumption].
      repeat split; cbn; try reflexivity; try apply Sb1. rewrite Est.
      (* a zero-length encoding only exists for an empty set *)
      destruct (leaf_bytes_spec n (vp_vis p) W2 S2) as (vl' & E' & L' & _ & _).
      rewrite Evl in E'. inversion E'; subst vl'.
      assert (Hn0 : numbytes n = 0).
      { destruct (Nat.eq_dec (numbytes n) 0) as [|Hne]; [assumption|].
        destruct vl as [|v t]; [simpl in L'; lia|]. exfalso.
        apply (compress_nonempty _ _ Evc); [discriminate|reflexivity]. }
      assert (n = 0) by (unfold numbytes in Hn0; lia).
      split; [reflexivity|]. split; [apply repeat_length|]. intros; lia.
    + destruct (load_bits_ok n vc (vp_vis p) buf1 rest Lvc Lb1 Dv) as (b2 & buf2 & E2 & Sb2 & Lb2).
      rewrite E2. do 2 eexists. split; [reflexivity|]. split; [|assumption].
      repeat split; cbn; try reflexivity; try apply Sb1. rewrite Est. assumption.
  - eexists. split; [reflexivity|]. rewrite <- !app_assoc. unfold load_portal.
    rewrite header5_ok; try assumption; try (eapply numbytes_small; eassumption).
    2:{ unfold urange. simpl. lia. }
    simpl app in *. rewrite E1. cbn [length N.of_nat N.eqb].
    do 2 eexists. split; [reflexivity|]. split; [|assumption].
    repeat split; cbn; try reflexivity; try apply Sb1. rewrite Est. reflexivity.
Qed.

Lemma portals_roundtrip : forall n ps, urange 4 (N.of_nat n) -> Forall (wf_portal n) ps ->
  exists bytes, save_portals n ps = Some bytes /\
  forall buf rest, length buf = numbytes n ->
  exists qs, load_portals n (length ps) buf (bytes ++ rest) = L_ok qs /\ Forall2 (resumed n) ps qs.
Proof.
  intros n ps Hn. induction ps as [|p t IH]; intro HF; simpl.
  - exists []. split; [reflexivity|]. intros. exists []. split; [reflexivity|constructor].
  - inversion HF as [|? ? Hp Ht]; subst. destruct (IH Ht) as (bt & Et & Lt).
    destruct (portal_roundtrip n p (repeat 0%N (numbytes n)) [] Hn Hp (repeat_length _ _)) as (bp & Ep & _).
    rewrite Ep, Et. exists (bp ++ bt). split; [reflexivity|]. intros buf rest Hb.
    destruct (portal_roundtrip n p buf (bt ++ rest) Hn Hp Hb) as (bp' & Ep' & q & buf' & Lp & Rq & Lb).
    rewrite Ep in Ep'. inversion Ep'; subst bp'.
    rewrite <- app_assoc, Lp.
    destruct (Lt buf' rest Lb) as (qs & Lq & Fq). rewrite Lq.
    exists (q :: qs). split; [reflexivity|]. constructor; assumption.
Qed.

Lemma state_roundtrip : forall n numportals testlevel time ps,
  urange 4 (N.of_nat n) -> urange 4 numportals -> urange 4 testlevel -> urange 4 time ->
  Forall (wf_portal n) ps ->
  exists bytes, save_state n numportals testlevel time ps = Some bytes /\
  exists qs, load_state n numportals (length ps) bytes = L_ok (time, qs) /\ Forall2 (resumed n) ps qs.
Proof.
  intros n np tl tm ps Hn Hnp Htl Htm HF. unfold save_state.
  destruct (portals_roundtrip n ps Hn HF) as (body & E & L). rewrite E.
  eexists. split; [reflexivity|]. unfold load_state.
  rewrite header5_ok; try assumption.
  2:{ unfold urange, VIS_STATE_VERSION. simpl. lia. }
  rewrite !N.eqb_refl. simpl negb. cbn [orb].
  destruct (L (repeat 0%N (numbytes n)) [] (repeat_length _ _)) as (qs & Lq & Fq).
  rewrite app_nil_r in Lq. rewrite Lq. exists qs. split; [reflexivity|assumption].
Qed.

(** ** Crash safety *)
Lemma crash_prefix : forall img f k,
  fold_left do_step (map W_byte img) {| fs_state := f; fs_tmp := Some k |} =
  {| fs_state := f; fs_tmp := Some (k ++ img) |}.
Proof.
  induction img as [|b t IH]; intros f k; simpl; [rewrite app_nil_r; reflexivity|].
  rewrite IH, <- app_assoc. reflexivity.
Qed.

Lemma crash_cases : forall k img f,
  let g := crash_after k img f in
  g = f \/
  (exists pre post, img = pre ++ post /\ g = {| fs_state := fs_state f; fs_tmp := Some pre |}) \/
  g = {| fs_state := None; fs_tmp := Some img |} \/
  g = {| fs_state := Some img; fs_tmp := None |}.
Proof.
  intros k img f. unfold crash_after, save_steps. cbn zeta.
  destruct k as [|k]; [left; reflexivity|]. cbn [firstn fold_left do_step].
  rewrite firstn_app, map_length.
  destruct (le_lt_dec k (length img)) as [Hk|Hk].
  - right; left. exists (firstn k img), (skipn k img). split; [symmetry; apply firstn_skipn|].
    replace (k - length img) with 0 by lia. rewrite app_nil_r.
    rewrite firstn_map. apply crash_prefix.
  - right; right. rewrite firstn_all2 by (rewrite map_length; lia).
    rewrite fold_left_app, crash_prefix. simpl.
    destruct (k - length img) as [|m] eqn:E; [lia|]. destruct m as [|m]; simpl.
    + left. reflexivity.
    + right. rewrite firstn_nil. reflexivity.
Qed.

Lemma save_complete : forall img f, fold_left do_step (save_steps img) f = {| fs_state := Some img; fs_tmp := None |}.
Proof.
  intros. unfold save_steps. cbn [fold_left do_step]. rewrite fold_left_app, crash_prefix. reflexivity.
Qed.

(** What the next run may find, given that [img0] was the state found by the first run. *)
Inductive found_after : list N -> list vrun -> list N -> Prop :=
| found_none : forall img, found_after img [] img
| found_last : forall img0 r rs img, found_after (last (r_saves r) img0) rs img -> found_after img0 (r :: rs) img
| found_new : forall img0 r rs k new img, r_end r = E_crash k new -> found_after new rs img ->
    found_after img0 (r :: rs) img.

Lemma last_cons : forall (t : list (list N)) i d, last (i :: t) d = last t i.
Proof.
  induction t as [|j t IH]; intros i d; [reflexivity|].
  change (last (i :: j :: t) d) with (last (j :: t) d). rewrite !IH. reflexivity.
Qed.

Lemma save_all_state : forall imgs f img0, fs_state f = Some img0 ->
  fs_state (save_all imgs f) = Some (last imgs img0).
Proof.
  induction imgs as [|i t IH]; intros f img0 H; [assumption|].
  rewrite last_cons. change (save_all (i :: t) f) with (save_all t (fold_left do_step (save_steps i) f)).
  apply IH. rewrite save_complete. reflexivity.
Qed.

Lemma runs_found : forall rs f img0, snd (recover false f) = Some img0 ->
  Forall (fun r => r_nostate r = false /\ r_end r <> E_clean) rs ->
  exists img, snd (recover false (fold_left do_run rs f)) = Some img /\ found_after img0 rs img.
Proof.
  induction rs as [|r rs IH]; intros f img0 Hf HF; cbn [fold_left].
  - exists img0. split; [assumption|constructor].
  - inversion HF as [|? ? [Hn He] HF']; subst.
    assert (Hs : fs_state (fst (recover (r_nostate r) f)) = Some img0).
    { rewrite Hn. unfold recover in *. destruct (fs_state f) eqn:E; [cbn in *; congruence|].
      destruct (fs_tmp f); cbn in *; congruence. }
    pose proof (save_all_state (r_saves r) _ _ Hs) as H2.
    assert (Hr : forall g, fs_state g = Some (last (r_saves r) img0) -> snd (recover false g) = Some (last (r_saves r) img0)).
    { intros g Hg. unfold recover. rewrite Hg. reflexivity. }
    unfold do_run at 2. destruct (r_end r) as [|k new|] eqn:Er; [| |congruence].
    + destruct (IH _ _ (Hr _ H2) HF') as (img & E & F). exists img. split; [assumption|]. apply found_last. assumption.
    + set (f2 := save_all (r_saves r) (fst (recover (r_nostate r) f))) in *.
      assert (Hc : snd (recover false (crash_after k new f2)) = Some (last (r_saves r) img0) \/
                   snd (recover false (crash_after k new f2)) = Some new).
      { destruct (crash_cases k new f2) as [->|[(pre & post & _ & ->)|[->| ->]]].
        - left. apply Hr. assumption.
        - left. apply Hr. assumption.
        - right. reflexivity.
        - right. reflexivity. }
      destruct Hc as [Hc|Hc]; destruct (IH _ _ Hc HF') as (img & E & F); exists img; (split; [assumption|]).
      * apply found_last. assumption.
      * eapply found_new; eassumption.
Qed.

(** ** Decoding arbitrary bytes *)
(** Every run in the stream has a count of at least one. *)
Inductive runs_counted : list N -> Prop :=
| rc_nil : runs_counted []
| rc_lit : forall v t, v <> 0%N -> v <> 255%N -> runs_counted t -> runs_counted (v :: t)
| rc_cut : forall v, runs_counted [v]
| rc_run : forall v rep t, (v = 0 \/ v = 255)%N -> (1 <= rep)%N -> runs_counted t -> runs_counted (v :: rep :: t).

Lemma skipn_nth : forall A (l : list A) k v, nth_error l k = Some v -> skipn k l = v :: skipn (S k) l.
Proof.
  induction l as [|h t IH]; intros [|k] v H; simpl in *; try discriminate; [congruence|]. apply IH. assumption.
Qed.

Lemma or_byte_len : forall b i v b', or_byte b i v = Some b' -> length (lb_bits b') = length (lb_bits b).
Proof.
  intros b i v b' H. unfold or_byte in H. destruct (nth_error _ _); [|discriminate].
  destruct (upd _ _ _) eqn:E; inversion H; subst. cbn. apply (upd_length _ _ _ _ _ E).
Qed.

Lemma or_byte_some : forall b i v, i < 4 * length (lb_bits b) -> exists b', or_byte b i v = Some b'.
Proof.
  intros b i v H. unfold or_byte. destruct (nth_error (lb_bits b) (i / 4)) eqn:E.
  2:{ apply nth_error_None in E. lia. }
  destruct (upd_some _ (lb_bits b) (i / 4) (N.lor n (N.shiftl v (N.of_nat ((8 * i) mod 32))))) as [l El]; [lia|].
  rewrite El. eauto.
Qed.

Lemma rep_loop_safe : forall k fuel b i v nb, nb <= 4 * length (lb_bits b) -> k <= fuel -> i + S k <= nb ->
  exists b', rep_loop fuel (Z.of_nat (S k)) i b v = inl (i + k, b') /\ length (lb_bits b') = length (lb_bits b).
Proof.
  induction k as [|k IH]; intros fuel b i v nb Hb Hf Hi.
  - exists b. split; [|reflexivity]. destruct fuel; simpl; rewrite Nat.add_0_r; reflexivity.
  - destruct fuel as [|f]; [lia|]. cbn [rep_loop].
    replace (Z.of_nat (S (S k)) - 1 =? 0)%Z with false by lia.
    destruct (or_byte_some b (S i) v) as [b1 E1]; [lia|]. rewrite E1.
    replace (Z.of_nat (S (S k)) - 1)%Z with (Z.of_nat (S k)) by lia.
    destruct (IH f b1 (S i) v nb) as (b2 & E2 & L2); [rewrite (or_byte_len _ _ _ _ E1); lia|lia|lia|].
    exists b2. split.
    + rewrite E2. f_equal. f_equal. lia.
    + rewrite L2. apply (or_byte_len _ _ _ _ E1).
Qed.

Lemma dec_loop_safe : forall fuel nb src k i b, nb - i < fuel -> nb <= 4 * length (lb_bits b) ->
  k + 2 * (nb - i) <= length src -> runs_counted (skipn k src) ->
  (exists b', dec_loop fuel nb src k i b = Dec_ok b') \/ dec_loop fuel nb src k i b = Dec_error.
Proof.
  induction fuel as [|f IH]; intros nb src k i b Hf Hb Hk Hr; [lia|]. cbn [dec_loop].
  destruct (Nat.ltb_spec i nb) as [Hi|Hi]; [|left; eauto].
  destruct (nth_error src k) as [v|] eqn:Ev.
  2:{ apply nth_error_None in Ev. lia. }
  destruct (or_byte_some b i v) as [b1 E1]; [lia|]. rewrite E1.
  pose proof (or_byte_len _ _ _ _ E1) as L1.
  destruct (nth_error src (S k)) as [rep|] eqn:Er.
  2:{ apply nth_error_None in Er. lia. }
  rewrite (skipn_nth _ _ _ _ Ev) in Hr.
  destruct (negb (v =? 0)%N && negb (v =? 255)%N) eqn:Ec.
  - apply IH; try lia. remember (skipn (S k) src) as tl eqn:Et.
    clear Et. inversion Hr; subst; try assumption; try lia. constructor.
  - rewrite (skipn_nth _ _ _ _ Er) in Hr.
    destruct (Z.of_nat nb <? Z.of_nat i + Z.of_N rep)%Z eqn:Ez; [right; reflexivity|].
    inversion Hr; subst; [lia|].
    destruct (rep_loop_safe (N.to_nat rep - 1) (S (4 * length (lb_bits b1))) b1 i v nb) as (b2 & E2 & L2); [lia|lia|lia|].
    replace (Z.of_nat (S (N.to_nat rep - 1))) with (Z.of_N rep) in E2 by lia.
    rewrite E2. apply IH; try lia. assumption.
Qed.

Lemma decompress_counted_safe : forall n src, 2 * numbytes n <= length src -> runs_counted src ->
  (exists b, decompress_bits n src = Dec_ok b) \/ decompress_bits n src = Dec_error.
Proof.
  intros n src Hl Hr. unfold decompress_bits. apply dec_loop_safe; [lia| |lia|assumption].
  cbn [lb_make lb_bits]. rewrite repeat_length. apply numbytes_blocks.
Qed.
