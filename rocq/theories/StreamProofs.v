(* Lemmas about the text stream model. *)
From Coq Require Import List Arith NArith ZArith Bool Lia.
Import ListNotations.
From Verif Require Import Base ParserModel StreamModel.
Local Open Scope N_scope.

Lemma dec_value_app : forall a b, dec_value (a ++ b) = fold_left (fun x c => 10 * x + (c - 48)) b (dec_value a).
Proof. intros. unfold dec_value. rewrite fold_left_app. reflexivity. Qed.

Lemma fold_dec : forall d a, fold_left (fun x c => 10 * x + (c - 48)) d a =
  a * 10 ^ N.of_nat (length d) + dec_value d.
Proof.
  unfold dec_value. induction d as [|c d IH]; intro a; cbn [fold_left length].
  - change (N.of_nat 0) with 0. rewrite N.pow_0_r. lia.
  - rewrite IH, (IH (10 * 0 + (c - 48))). rewrite Nat2N.inj_succ, N.pow_succ_r'. lia.
Qed.

Lemma dec_digits_spec : forall fuel n acc, n < 2 ^ N.of_nat fuel -> fuel <> O ->
  Forall (fun c => digit c = true) acc ->
  Forall (fun c => digit c = true) (dec_digits fuel n acc) /\
  dec_value (dec_digits fuel n acc) = n * 10 ^ N.of_nat (length acc) + dec_value acc /\
  exists c r, dec_digits fuel n acc = c :: r.
Proof.
  induction fuel as [|fuel IH]; intros n acc B NE F; [contradiction|]. cbn [dec_digits].
  destruct (n <? 10) eqn:E.
  - apply N.ltb_lt in E. split; [|split; [|eauto]].
    + constructor; [|exact F]. unfold digit. apply andb_true_iff. split; apply N.leb_le; lia.
    + unfold dec_value at 1. cbn [fold_left]. rewrite fold_dec. f_equal. f_equal. lia.
  - apply N.ltb_ge in E. rewrite Nat2N.inj_succ, N.pow_succ_r' in B.
    assert (D : n / 10 < 2 ^ N.of_nat fuel) by (apply N.div_lt_upper_bound; lia).
    assert (M : n mod 10 < 10) by (apply N.mod_lt; lia).
    assert (DM : n = 10 * (n / 10) + n mod 10) by (apply N.div_mod; lia).
    assert (FN : fuel <> O).
    { intro; subst fuel. change (2 ^ N.of_nat 0) with 1 in *. lia. }
    destruct (IH (n / 10) ((48 + n mod 10) :: acc) D FN) as [A [C X]].
    { constructor; [|exact F]. unfold digit. apply andb_true_iff. clear - M. revert M. generalize (n mod 10).
      intros m M. split; apply N.leb_le; lia. }
    split; [exact A|]. split; [|exact X].
    rewrite C. cbn [length]. rewrite Nat2N.inj_succ, N.pow_succ_r'.
    unfold dec_value at 1. cbn [fold_left]. rewrite fold_dec.
    assert (Q : forall m, 10 * 0 + (48 + m - 48) = m) by (intro; lia). rewrite Q.
    clear - DM. generalize dependent (n mod 10). generalize (n / 10). intros q m DM. rewrite DM. nia.
Qed.

Lemma size_bound : forall n, n < 2 ^ N.of_nat (S (N.size_nat n)).
Proof.
  intro n. rewrite Nat2N.inj_succ, N.pow_succ_r'.
  destruct n as [|p]; [simpl; lia|].
  assert (H : forall q, Npos q < 2 ^ N.of_nat (Pos.size_nat q)).
  { induction q as [q IH|q IH|]; cbn [Pos.size_nat].
    - rewrite Nat2N.inj_succ, N.pow_succ_r'. lia.
    - rewrite Nat2N.inj_succ, N.pow_succ_r'. lia.
    - reflexivity. }
  specialize (H p). simpl N.size_nat. lia.
Qed.

Lemma print_nat_spec : forall n, Forall (fun c => digit c = true) (print_nat n) /\
  dec_value (print_nat n) = N.of_nat n /\ exists c r, print_nat n = c :: r.
Proof.
  intro n. unfold print_nat.
  destruct (dec_digits_spec (S (N.size_nat (N.of_nat n))) (N.of_nat n) [] (size_bound _) ltac:(discriminate) (Forall_nil _)) as [A [B C]].
  split; [exact A|]. split; [|exact C]. rewrite B. cbn [length]. change (N.of_nat 0) with 0. rewrite N.pow_0_r.
  change (dec_value []) with 0. lia.
Qed.

Lemma take_digits_app : forall d r, Forall (fun c => digit c = true) d ->
  (forall c r', r = c :: r' -> digit c = false) -> take_digits (d ++ r) = (d, r).
Proof.
  induction 1 as [|c d H _ IH]; intro R; cbn [app take_digits].
  - destruct r as [|c r]; [reflexivity|]. cbn [take_digits]. rewrite (R c r eq_refl). reflexivity.
  - rewrite H. rewrite (IH R). reflexivity.
Qed.

Lemma digit_not_space : forall c, digit c = true -> isspace c = false.
Proof.
  intros c H. unfold digit in H. apply andb_true_iff in H. destruct H as [H1 H2].
  apply N.leb_le in H1. apply N.leb_le in H2. unfold isspace.
  apply orb_false_iff. split; [|apply N.eqb_neq; lia].
  apply andb_false_iff. right. apply N.leb_gt. lia.
Qed.

Lemma digit_cases : forall c, digit c = true -> c <> 45 /\ c <> 43.
Proof.
  intros c H. unfold digit in H. apply andb_true_iff in H. destruct H as [H1 H2].
  apply N.leb_le in H1. split; lia.
Qed.

Lemma drop_ws_app : forall w r, Forall (fun c => isspace c = true) w -> drop_ws (w ++ r) = drop_ws r.
Proof. induction 1 as [|c w H _ IH]; cbn [app drop_ws]; [reflexivity|]. rewrite H. exact IH. Qed.

(** Reading back a printed number, after blanks and before a non-digit. *)
Lemma get_int_print : forall w n c r, Forall (fun x => isspace x = true) w -> (Z.of_nat n <= INT_MAX)%Z ->
  digit c = false ->
  get_int (mkIS (w ++ print_nat n ++ c :: r) false false) = (mkIS (c :: r) false false, Some (Z.of_nat n)).
Proof.
  intros w n c r W B C. unfold get_int, sentry. cbn [is_eof is_fail is_rest orb].
  destruct (print_nat_spec n) as [F [V [d0 [d E]]]].
  rewrite drop_ws_app by exact W.
  assert (D0 : digit d0 = true) by (rewrite E in F; inversion F; assumption).
  rewrite E. cbn [app drop_ws]. rewrite (digit_not_space d0 D0). cbn [negb is_rest].
  destruct (digit_cases d0 D0) as [N1 N2].
  apply N.eqb_neq in N1. apply N.eqb_neq in N2. rewrite N1, N2.
  cbn beta iota. change (d0 :: d ++ c :: r) with ((d0 :: d) ++ c :: r).
  rewrite take_digits_app; [|rewrite <- E; exact F|intros x y X; injection X as X _; subst; exact C].
  rewrite E in V. cbn beta iota. rewrite V. rewrite nat_N_Z.
  replace (Z.of_nat n >? INT_MAX)%Z with false by (symmetry; rewrite Z.gtb_ltb; apply Z.ltb_ge; exact B).
  replace (Z.of_nat n <? INT_MIN)%Z with false by (symmetry; apply Z.ltb_ge; unfold INT_MIN; lia).
  reflexivity.
Qed.

Lemma get_int_minus_one : forall w c r, Forall (fun x => isspace x = true) w -> digit c = false ->
  get_int (mkIS (w ++ 45 :: 49 :: c :: r) false false) = (mkIS (c :: r) false false, Some (-1)%Z).
Proof.
  intros w c r W C. unfold get_int, sentry. cbn [is_eof is_fail is_rest orb].
  rewrite drop_ws_app by exact W. cbn [drop_ws]. change (isspace 45) with false. cbn [negb is_rest].
  cbn beta iota. change (45 =? 45) with true. cbn beta iota.
  change (49 :: c :: r) with ([49] ++ c :: r).
  rewrite take_digits_app; [reflexivity|repeat constructor|intros x y X; injection X as X _; subst; exact C].
Qed.

(** Texts of finite numbers as fmt prints them: optional minus, digits, optional fraction,
    optional exponent with sign. *)
Definition number_text (t : bytes) : Prop :=
  exists sg d1 fr ex, t = sg ++ d1 ++ fr ++ ex /\ (sg = [] \/ sg = [45]) /\
    d1 <> [] /\ Forall (fun c => digit c = true) d1 /\
    (fr = [] \/ exists d, fr = 46 :: d /\ Forall (fun c => digit c = true) d) /\
    (ex = [] \/ exists s d, ex = 101 :: s :: d /\ (s = 43 \/ s = 45) /\ d <> [] /\ Forall (fun c => digit c = true) d).

Definition number_end (c : N) : Prop := c = 32 \/ c = 41.

Lemma take_exp_end : forall c r, number_end c -> take_exp (c :: r) = ([], c :: r, true).
Proof. intros c r [H|H]; subst; reflexivity. Qed.

Lemma number_end_digit : forall c, number_end c -> digit c = false.
Proof. intros c [H|H]; subst; reflexivity. Qed.

Lemma take_exp_text : forall s d c r, s = 43 \/ s = 45 -> d <> [] -> Forall (fun c => digit c = true) d ->
  number_end c -> take_exp (101 :: s :: d ++ c :: r) = (101 :: s :: d, c :: r, true).
Proof.
  intros s d c r S D F C. unfold take_exp. change ((101 =? 101) || (101 =? 69)) with true. cbn beta iota.
  cbn [take_sign]. replace ((s =? 43) || (s =? 45)) with true by (destruct S; subst; reflexivity). cbn beta iota.
  rewrite take_digits_app; [|exact F|intros x y X; injection X as X _; subst; apply number_end_digit; exact C].
  destruct d; [contradiction|]. reflexivity.
Qed.

Lemma take_real_text : forall t c r, number_text t -> number_end c -> take_real (t ++ c :: r) = (t, c :: r, true).
Proof.
  intros t c r [sg [d1 [fr [ex [E [S [D [F [FR EX]]]]]]]]] C. subst t.
  assert (EXT : forall r', take_exp (ex ++ c :: r') = (ex, c :: r', true)).
  { intro r'. destruct EX as [EX|[s [d [EX [S1 [S2 S3]]]]]]; subst ex; cbn [app].
    - apply take_exp_end. exact C.
    - apply take_exp_text; assumption. }
  assert (EXD : forall x y, ex ++ c :: r = x :: y -> digit x = false /\ x <> 46).
  { intros x y X. destruct EX as [EX|[s [d [EX _]]]]; subst ex; cbn [app] in X; injection X as X _; subst x.
    - split; [apply number_end_digit; exact C|destruct C; subst; discriminate].
    - split; [reflexivity|discriminate]. }
  unfold take_real.
  assert (SG : take_sign ((sg ++ d1 ++ fr ++ ex) ++ c :: r) = (sg, d1 ++ fr ++ ex ++ c :: r)).
  { destruct S as [S|S]; subst sg; cbn [app].
    - rewrite <- !app_assoc. destruct d1 as [|x d1]; [contradiction|]. cbn [app take_sign].
      inversion F as [|? ? X _]. subst. destruct (digit_cases x X) as [N1 N2].
      apply N.eqb_neq in N1. apply N.eqb_neq in N2. rewrite N1, N2. reflexivity.
    - rewrite <- !app_assoc. reflexivity. }
  rewrite SG.
  assert (FRD : forall x y, fr ++ ex ++ c :: r = x :: y -> digit x = false).
  { intros x y X. destruct FR as [FR|[d [FR _]]]; subst fr; cbn [app] in X.
    - apply (EXD x y X).
    - injection X as X _. subst. reflexivity. }
  rewrite (take_digits_app d1 (fr ++ ex ++ c :: r) F FRD).
  assert (FRT : take_frac (fr ++ ex ++ c :: r) = (fr, ex ++ c :: r)).
  { destruct FR as [FR|[d [FR FD]]]; subst fr; cbn [app].
    - destruct (ex ++ c :: r) as [|x y] eqn:X; [destruct ex; discriminate|].
      destruct (EXD x y eq_refl) as [_ N]. cbn [take_frac]. apply N.eqb_neq in N. rewrite N. reflexivity.
    - cbn [take_frac]. change (46 =? 46) with true. cbn beta iota.
      rewrite take_digits_app; [reflexivity|exact FD|]. intros x y X. apply (EXD x y X). }
  rewrite FRT. destruct d1 as [|x d1]; [contradiction|]. cbn beta iota. rewrite EXT.
  rewrite <- ?app_assoc. reflexivity.
Qed.

Lemma number_text_head : forall t, number_text t -> exists c r, t = c :: r /\ isspace c = false.
Proof.
  intros t [sg [d1 [fr [ex [E [S [D [F _]]]]]]]]. destruct S as [S|S]; subst.
  - destruct d1 as [|c d1]; [contradiction|]. inversion F. subst. exists c, (d1 ++ fr ++ ex). split; [reflexivity|].
    apply digit_not_space. assumption.
  - exists 45, (d1 ++ fr ++ ex). split; reflexivity.
Qed.

Lemma get_real_text : forall w t c r, Forall (fun x => isspace x = true) w -> number_text t -> number_end c ->
  get_real (mkIS (w ++ t ++ c :: r) false false) = (mkIS (c :: r) false false, Some t).
Proof.
  intros w t c r W T C. unfold get_real, sentry. cbn [is_eof is_fail is_rest orb].
  rewrite drop_ws_app by exact W. destruct (number_text_head t T) as [x [y [E S]]].
  assert (DW : drop_ws (t ++ c :: r) = t ++ c :: r) by (subst t; cbn [app drop_ws]; rewrite S; reflexivity).
  rewrite DW. subst t. cbn [app negb is_rest]. change (x :: y ++ c :: r) with ((x :: y) ++ c :: r).
  rewrite take_real_text by assumption. reflexivity.
Qed.
