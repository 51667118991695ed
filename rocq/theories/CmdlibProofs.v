(* Proofs about cmdlib helpers and the progress lock. *)
From Coq Require Import List Arith NArith ZArith Bool Lia.
Import ListNotations.
From Verif Require Import ParserModel CmdlibModel.
Local Open Scope N_scope.

(** ** CRC *)

(** Eight shifts of a 16-bit register with the polynomial 0x1021. *)
Definition crc_shift (x : N) : N :=
  if N.testbit x 15 then N.lxor (N.shiftl x 1 mod 65536) 4129 else N.shiftl x 1 mod 65536.
Definition crc_spec_byte (crc data : N) : N :=
  let x := N.lxor crc (N.shiftl data 8) in
  crc_shift (crc_shift (crc_shift (crc_shift (crc_shift (crc_shift (crc_shift (crc_shift x))))))).
Definition crc_spec (l : list N) : N := fold_left crc_spec_byte l 65535.

Definition crc_check (x : N) : bool :=
  crc_shift (crc_shift (crc_shift (crc_shift (crc_shift (crc_shift (crc_shift (crc_shift x)))))))
  =? N.lxor ((x * 256) mod 65536) (nth (N.to_nat (x / 256)) crctable 0).
Fixpoint all_below (n : nat) (f : N -> bool) : bool :=
  match n with O => true | S n => f (N.of_nat n) && all_below n f end.
Lemma all_below_spec : forall n f, all_below n f = true -> forall x, (N.to_nat x < n)%nat -> f x = true.
Proof.
  induction n as [|n IH]; intros f H x L; [lia|]. cbn [all_below] in H. apply andb_true_iff in H. destruct H as [A B].
  destruct (Nat.eq_dec (N.to_nat x) n) as [E|E]; [|apply (IH f B); lia].
  rewrite <- E, N2Nat.id in A. exact A.
Qed.
(** The shift is linear, so bytes can be checked separately. *)
Lemma crc_shift_lxor : forall a b, crc_shift (N.lxor a b) = N.lxor (crc_shift a) (crc_shift b).
Proof.
  intros a b. unfold crc_shift. rewrite N.lxor_spec, N.shiftl_lxor. change 65536 with (2 ^ 16). rewrite <- !N.land_ones.
  set (u := N.shiftl a 1). set (v := N.shiftl b 1).
  assert (E : N.land (N.lxor u v) (N.ones 16) = N.lxor (N.land u (N.ones 16)) (N.land v (N.ones 16))).
  { apply N.bits_inj. intro k. rewrite ?N.land_spec, ?N.lxor_spec, ?N.land_spec.
    destruct (N.testbit u k), (N.testbit v k), (N.testbit (N.ones 16) k); reflexivity. }
  rewrite E. set (x := N.land u _). set (y := N.land v _). clearbody x y.
  apply N.bits_inj. intro k.
  destruct (N.testbit a 15), (N.testbit b 15); cbn [xorb]; rewrite ?N.lxor_spec;
    destruct (N.testbit x k), (N.testbit y k), (N.testbit 4129 k); reflexivity.
Qed.
Definition shift8 (x : N) : N :=
  crc_shift (crc_shift (crc_shift (crc_shift (crc_shift (crc_shift (crc_shift (crc_shift x))))))).
Lemma shift8_lxor : forall a b, shift8 (N.lxor a b) = N.lxor (shift8 a) (shift8 b).
Proof. intros. unfold shift8. rewrite !crc_shift_lxor. reflexivity. Qed.
Lemma check_high : all_below 256 (fun h => shift8 (h * 256) =? nth (N.to_nat h) crctable 0) = true.
Proof. vm_compute. reflexivity. Qed.
Lemma check_low : all_below 256 (fun l => shift8 l =? l * 256) = true.
Proof. vm_compute. reflexivity. Qed.
Lemma crc_check_ok : forall x, x < 65536 -> crc_check x = true.
Proof.
  intros x H. unfold crc_check. apply N.eqb_eq. fold (shift8 x).
  assert (Hd : x / 256 < 256) by (apply N.div_lt_upper_bound; lia).
  assert (Hm : x mod 256 < 256) by (apply N.mod_lt; lia).
  assert (Sp : x = N.lxor (x / 256 * 256) (x mod 256)).
  { change 256 with (2 ^ 8). rewrite <- N.shiftr_div_pow2, <- N.shiftl_mul_pow2, <- N.land_ones.
    apply N.bits_inj. intro k. rewrite N.lxor_spec, N.land_spec. destruct (N.ltb_spec k 8) as [L|L].
    - rewrite N.shiftl_spec_low, N.ones_spec_low by exact L. rewrite andb_true_r. destruct (N.testbit x k); reflexivity.
    - rewrite N.shiftl_spec_high', N.shiftr_spec', N.ones_spec_high by exact L. rewrite andb_false_r, xorb_false_r.
      f_equal. lia. }
  pose proof (all_below_spec _ _ check_high (x / 256) ltac:(lia)) as A. cbv beta in A. apply N.eqb_eq in A.
  pose proof (all_below_spec _ _ check_low (x mod 256) ltac:(lia)) as B. cbv beta in B. apply N.eqb_eq in B.
  rewrite Sp at 1. rewrite shift8_lxor, A, B, N.lxor_comm. f_equal.
  symmetry. change 65536 with (256 * 256). apply N.mul_mod_distr_r; lia.
Qed.

Lemma table_bound : forall i, nth i crctable 0 < 65536.
Proof.
  intro i. destruct (nth_in_or_default i crctable 0) as [I|E]; [|rewrite E; reflexivity].
  revert I. generalize (nth i crctable 0). apply Forall_forall. unfold crctable. repeat constructor.
Qed.

Lemma lxor_bound : forall a b n, a < 2 ^ n -> b < 2 ^ n -> N.lxor a b < 2 ^ n.
Proof.
  intros a b n A B. destruct (N.eq_dec (N.lxor a b) 0) as [E|E]; [rewrite E; apply N.neq_0_lt_0, N.pow_nonzero; lia|].
  apply N.log2_lt_pow2; [lia|].
  eapply N.le_lt_trans; [apply N.log2_lxor|].
  assert (X : forall c, c < 2 ^ n -> N.lxor a b <> 0 -> c = 0 \/ N.log2 c < n).
  { intros c C _. destruct (N.eq_dec c 0); [left; assumption|right]. apply N.log2_lt_pow2; lia. }
  destruct (N.eq_dec n 0) as [->|Nz]; [simpl in A, B; exfalso; apply E; replace a with 0 by lia; replace b with 0 by lia; reflexivity|].
  apply N.max_lub_lt.
  - destruct (X a A E) as [->|L]; [simpl; lia|exact L].
  - destruct (X b B E) as [->|L]; [simpl; lia|exact L].
Qed.

Lemma crc_byte_spec : forall crc data, crc < 65536 -> data < 256 -> crc_byte crc data = crc_spec_byte crc data.
Proof.
  intros crc data C D. unfold crc_spec_byte, crc_byte.
  set (x := N.lxor crc (N.shiftl data 8)).
  assert (X : x < 65536).
  { subst x. change 65536 with (2 ^ 16). apply lxor_bound; [exact C|].
    rewrite N.shiftl_mul_pow2. change (2 ^ 8) with 256. change (2 ^ 16) with 65536. lia. }
  pose proof (crc_check_ok x X) as K. unfold crc_check in K. apply N.eqb_eq in K. rewrite K. clear K.
  assert (Hi : x / 256 = N.lxor (N.shiftr crc 8) data).
  { change 256 with (2 ^ 8). rewrite <- N.shiftr_div_pow2. subst x. rewrite N.shiftr_lxor. f_equal.
    rewrite N.shiftr_shiftl_l by lia. rewrite N.sub_diag. apply N.shiftl_0_r. }
  rewrite Hi. set (t := nth _ crctable 0).
  assert (T : t < 65536) by (subst t; apply table_bound). clearbody t.
  change 65536 with (2 ^ 16). change 256 with (2 ^ 8).
  rewrite <- !N.land_ones. rewrite <- N.shiftl_mul_pow2. subst x. rewrite N.shiftl_lxor.
  apply N.bits_inj. intro k. rewrite ?N.land_spec, ?N.lxor_spec, ?N.land_spec, ?N.lxor_spec.
  destruct (N.ltb_spec k 16) as [L|L].
  - rewrite N.ones_spec_low by exact L. rewrite !andb_true_r.
    replace (N.testbit (N.shiftl (N.shiftl data 8) 8) k) with false.
    + rewrite xorb_false_r. reflexivity.
    + symmetry. rewrite N.shiftl_shiftl. rewrite N.shiftl_spec_low by lia. reflexivity.
  - rewrite N.ones_spec_high by exact L. rewrite !andb_false_r.
    replace (N.testbit t k) with false; [reflexivity|]. symmetry.
    destruct (N.eq_dec t 0) as [->|Z]; [apply N.bits_0|]. apply N.bits_above_log2.
    apply N.lt_le_trans with 16; [|exact L]. apply N.log2_lt_pow2; [lia|]. change (2 ^ 16) with 65536. exact T.
Qed.
Lemma crc_byte_bound : forall crc data, crc_byte crc data < 65536.
Proof. intros. unfold crc_byte. apply N.mod_lt. lia. Qed.

(** ** Natural comparison *)

Fixpoint lexcmp (a b : list Z) : comparison :=
  match a, b with
  | x :: a, y :: b => match Z.compare x y with Eq => lexcmp a b | c => c end
  | [], [] => Eq
  | [], _ => Lt
  | _, [] => Gt
  end.
Lemma lexcmp_eq : forall a b, lexcmp a b = Eq <-> a = b.
Proof.
  induction a as [|x a IH]; intros [|y b]; simpl; try (split; intro H; discriminate H); [split; reflexivity|].
  destruct (Z.compare_spec x y) as [E|L|G]; [subst y; rewrite IH; split; intro H; [subst b; reflexivity|injection H as <-; reflexivity]| |];
    (split; intro H; [discriminate H|injection H as -> ->; lia]).
Qed.
Lemma lexcmp_opp : forall a b, lexcmp b a = CompOpp (lexcmp a b).
Proof.
  induction a as [|x a IH]; intros [|y b]; simpl; try reflexivity.
  rewrite (Z.compare_antisym x y). destruct (Z.compare x y); simpl; [apply IH|reflexivity|reflexivity].
Qed.
Lemma lexcmp_trans : forall a b c, lexcmp a b = Lt -> lexcmp b c = Lt -> lexcmp a c = Lt.
Proof.
  induction a as [|x a IH]; intros [|y b] [|z c] A B; simpl in *; try discriminate; try reflexivity.
  destruct (Z.compare_spec x y) as [E1|L1|G1]; destruct (Z.compare_spec y z) as [E2|L2|G2]; try discriminate;
    destruct (Z.compare_spec x z) as [E3|L3|G3]; try reflexivity; try lia.
  apply (IH b c A B).
Qed.
Definition lexlt (a b : list Z) : bool := match lexcmp a b with Lt => true | _ => false end.

(** A strict weak order. *)
Definition strict_weak (P : bytes -> Prop) (lt : bytes -> bytes -> bool) : Prop :=
  (forall a, P a -> lt a a = false) /\
  (forall a b c, P a -> P b -> P c -> lt a b = true -> lt b c = true -> lt a c = true) /\
  (forall a b c, P a -> P b -> P c -> lt a b = false -> lt b a = false -> lt b c = false -> lt c b = false ->
     lt a c = false /\ lt c a = false).

Lemma strict_weak_key : forall (P : bytes -> Prop) lt (key : bytes -> list Z),
  (forall a b, P a -> P b -> lt a b = lexlt (key a) (key b)) -> strict_weak P lt.
Proof.
  intros P lt key H.
  assert (R : forall x, lexcmp x x = Eq) by (intro; apply lexcmp_eq; reflexivity).
  assert (I : forall x y, lexlt x y = false -> lexlt y x = false -> x = y).
  { intros x y A B. unfold lexlt in *. rewrite (lexcmp_opp x y) in B.
    destruct (lexcmp x y) eqn:E; [apply lexcmp_eq; exact E|discriminate A|discriminate B]. }
  split; [|split].
  - intros a A. rewrite H by assumption. unfold lexlt. rewrite R. reflexivity.
  - intros a b c A B C X Y. rewrite H in * by assumption. unfold lexlt in *.
    destruct (lexcmp (key a) (key b)) eqn:E1; try discriminate X.
    destruct (lexcmp (key b) (key c)) eqn:E2; try discriminate Y. rewrite (lexcmp_trans _ _ _ E1 E2). reflexivity.
  - intros a b c A B C X Y Z W. rewrite H in * by assumption.
    rewrite (H c a) by assumption. rewrite (I _ _ X Y), (I _ _ Z W). unfold lexlt. rewrite R. split; reflexivity.
Qed.

Lemma digits_spec : forall s d r, digits s = (d, r) ->
  s = d ++ r /\ Forall (fun c => t_digit c = true) d /\ (match r with c :: _ => t_digit c = false | [] => True end).
Proof.
  induction s as [|c s IH]; intros d r H; [injection H as <- <-; auto|].
  cbn [digits] in H. destruct (t_digit c) eqn:T.
  - destruct (digits s) as [d' r'] eqn:E. injection H as <- <-. destruct (IH d' r' eq_refl) as [A [B C]].
    subst s. split; [reflexivity|]. split; [constructor; assumption|exact C].
  - injection H as <- <-. split; [reflexivity|]. split; [constructor|exact T].
Qed.
Lemma zeros_spec : forall s n r, zeros s = (n, r) -> s = repeat 48 n ++ r.
Proof.
  induction s as [|c s IH]; intros n r H; [injection H as <- <-; reflexivity|].
  cbn [zeros] in H. destruct (N.eqb_spec c 48) as [->|Ne].
  - destruct (zeros s) as [n' r'] eqn:E. injection H as <- <-. rewrite (IH n' r' eq_refl). reflexivity.
  - injection H as <- <-. reflexivity.
Qed.
Lemma skip_zeros_spec : forall c s n p, t_digit c = true -> skip_zeros (c :: s) = (n, p) ->
  (length p <= length (c :: s))%nat /\ exists x q, p = x :: q /\ t_digit x = true.
Proof.
  intros c s n p T H. unfold skip_zeros in H. destruct (zeros (c :: s)) as [m r] eqn:Z.
  assert (Zs := zeros_spec _ _ _ Z). assert (L : length (c :: s) = (m + length r)%nat) by (rewrite Zs, app_length, repeat_length; reflexivity).
  destruct r as [|x r].
  - injection H as <- <-. split; [cbn [length] in *; lia|]. exists 48, []. split; reflexivity.
  - destruct (t_digit x) eqn:X; injection H as <- <-.
    + split; [rewrite L; lia|]. exists x, r. auto.
    + split; [|exists 48, (x :: r); auto]. rewrite L. cbn [length]. destruct m; [|lia].
      cbn [repeat app] in Zs. injection Zs as -> ->. congruence.
Qed.
Lemma digits_shorter : forall p d r x q, digits p = (d, r) -> p = x :: q -> t_digit x = true -> (length r < length p)%nat /\ d <> [].
Proof.
  intros p d r x q H E T. destruct (digits_spec _ _ _ H) as [A [B C]]. subst p.
  destruct d as [|y d]; [simpl in A; subst r; congruence|].
  split; [|discriminate]. rewrite A, app_length. cbn [length]. lia.
Qed.

Lemma natlt_fuel : forall cs f1 f2 s1 s2 z1 z2,
  (Nat.min (length s1) (length s2) < f1)%nat -> (Nat.min (length s1) (length s2) < f2)%nat ->
  natlt_go f1 cs s1 s2 z1 z2 = natlt_go f2 cs s1 s2 z1 z2.
Proof.
  intro cs. induction f1 as [|f1 IH]; intros f2 s1 s2 z1 z2 A B; [lia|]. destruct f2 as [|f2]; [lia|].
  destruct s1 as [|c1 t1]; [reflexivity|]. destruct s2 as [|c2 t2]; [reflexivity|].
  cbn [natlt_go]. destruct (t_digit c1) eqn:T1; destruct (t_digit c2) eqn:T2; cbn [negb andb]; try reflexivity.
  - destruct (skip_zeros (c1 :: t1)) as [n1 p1] eqn:K1. destruct (skip_zeros (c2 :: t2)) as [n2 p2] eqn:K2.
    destruct (skip_zeros_spec _ _ _ _ T1 K1) as [L1 [x1 [q1 [E1 X1]]]].
    destruct (skip_zeros_spec _ _ _ _ T2 K2) as [L2 [x2 [q2 [E2 X2]]]].
    destruct (if Nat.eqb _ _ then _ else _) as [y1 y2].
    destruct (digits p1) as [d1 r1] eqn:D1. destruct (digits p2) as [d2 r2] eqn:D2.
    destruct (digits_shorter _ _ _ _ _ D1 E1 X1) as [M1 _]. destruct (digits_shorter _ _ _ _ _ D2 E2 X2) as [M2 _].
    destruct (cmp_run d1 d2); try reflexivity. apply IH; lia.
  - destruct (key_char cs c1 =? key_char cs c2)%Z; [|reflexivity]. cbn [length] in A, B. apply IH; lia.
Qed.

Lemma cmp_digits_opp : forall a b, cmp_digits b a = CompOpp (cmp_digits a b).
Proof.
  induction a as [|x a IH]; intros [|y b]; simpl; try reflexivity.
  rewrite (N.compare_antisym x y). destruct (N.compare x y); simpl; [apply IH|reflexivity|reflexivity].
Qed.
Lemma cmp_run_opp : forall a b, cmp_run b a = CompOpp (cmp_run a b).
Proof.
  intros. unfold cmp_run. rewrite (Nat.compare_antisym (length a) (length b)).
  destruct (Nat.compare (length a) (length b)); simpl; [apply cmp_digits_opp|reflexivity|reflexivity].
Qed.

Lemma natlt_asym : forall cs f s1 s2 z1 z2,
  natlt_go f cs s1 s2 z1 z2 = true -> natlt_go f cs s2 s1 z2 z1 = true -> False.
Proof.
  intro cs. induction f as [|f IH]; intros s1 s2 z1 z2 A B; [discriminate A|].
  destruct s1 as [|c1 t1]; destruct s2 as [|c2 t2]; cbn [natlt_go] in A, B;
    try (destruct (Nat.ltb_spec z1 z2); destruct (Nat.ltb_spec z2 z1); try lia; discriminate).
  destruct (t_digit c1) eqn:T1; destruct (t_digit c2) eqn:T2; cbn [negb andb] in A, B; try discriminate.
  - destruct (skip_zeros (c1 :: t1)) as [n1 p1] eqn:K1. destruct (skip_zeros (c2 :: t2)) as [n2 p2] eqn:K2.
    rewrite (Nat.eqb_sym (match z2 with O => n2 | _ => z2 end)) in B.
    destruct (Nat.eqb (match z1 with O => n1 | _ => z1 end) (match z2 with O => n2 | _ => z2 end));
    destruct (digits p1) as [d1 r1]; destruct (digits p2) as [d2 r2]; rewrite (cmp_run_opp d1 d2) in B;
    destruct (cmp_run d1 d2); cbn [CompOpp] in B; try discriminate; apply (IH _ _ _ _ A B).
  - rewrite (Z.eqb_sym (key_char cs c2)) in B.
    destruct (Z.eqb_spec (key_char cs c1) (key_char cs c2)) as [E|E]; [apply (IH _ _ _ _ A B)|].
    apply Z.ltb_lt in A. apply Z.ltb_lt in B. lia.
Qed.

(** Strings whose numbers have no leading zeros. *)
Definition no_leading_zero (s : bytes) : Prop :=
  forall u c v, s = u ++ 48 :: c :: v -> t_digit c = true -> u <> [] /\ t_digit (last u 0) = true.

Lemma nlz_alpha : forall c t, t_digit c = false -> no_leading_zero (c :: t) -> no_leading_zero t.
Proof.
  intros c t T H u x v E X. subst t. destruct (H (c :: u) x v eq_refl X) as [_ L].
  destruct u as [|y u]; [simpl in L; congruence|]. split; [discriminate|]. exact L.
Qed.
Lemma last_app_ne : forall (d u : bytes) x, u <> [] -> last (d ++ u) x = last u x.
Proof.
  induction d as [|a d IH]; intros u x H; [reflexivity|]. rewrite <- app_comm_cons.
  destruct (d ++ u) as [|b l] eqn:E; [apply app_eq_nil in E; destruct E; contradiction|].
  change (last (a :: b :: l) x) with (last (b :: l) x). rewrite <- E. apply IH. exact H.
Qed.
Lemma nlz_digits : forall s d r, digits s = (d, r) -> no_leading_zero s -> no_leading_zero r.
Proof.
  intros s d r D H u x v E X. destruct (digits_spec _ _ _ D) as [A [_ C]]. subst s.
  destruct u as [|y u].
  - subst r. cbn [app] in C. discriminate C.
  - split; [discriminate|]. destruct (H (d ++ y :: u) x v ltac:(rewrite E, <- app_assoc; reflexivity) X) as [_ L].
    rewrite last_app_ne in L by discriminate. exact L.
Qed.
Lemma nlz_skip : forall c t, t_digit c = true -> no_leading_zero (c :: t) ->
  skip_zeros (c :: t) = (if c =? 48 then 1%nat else 0%nat, c :: t).
Proof.
  intros c t T H. unfold skip_zeros. cbn [zeros]. destruct (N.eqb_spec c 48) as [->|Ne].
  - destruct t as [|x t]; [reflexivity|].
    assert (X : t_digit x = false).
    { destruct (t_digit x) eqn:X; [|reflexivity]. destruct (H [] x t eq_refl X) as [Q _]. contradiction. }
    cbn [zeros]. destruct (N.eqb_spec x 48) as [->|Nx]; [discriminate X|]. rewrite X. reflexivity.
  - rewrite T. reflexivity.
Qed.

(** The key by which such strings are ordered. *)
Fixpoint enc (fuel : nat) (cs : bool) (s : bytes) : list Z :=
  match fuel with
  | O => []
  | S fuel =>
    match s with
    | [] => []
    | c :: t => if t_digit c then let (d, r) := digits s in
                  (0 :: Z.of_nat (length d) :: map Z.of_N d)%Z ++ enc fuel cs r
                else (1 :: key_char cs c :: enc fuel cs t)%Z
    end
  end.
Lemma enc_fuel : forall cs f1 f2 s, (length s < f1)%nat -> (length s < f2)%nat -> enc f1 cs s = enc f2 cs s.
Proof.
  intro cs. induction f1 as [|f1 IH]; intros f2 s A B; [lia|]. destruct f2 as [|f2]; [lia|].
  destruct s as [|c t]; [reflexivity|]. cbn [enc]. destruct (t_digit c) eqn:T.
  - destruct (digits (c :: t)) as [d r] eqn:D.
    destruct (digits_shorter _ _ _ _ _ D eq_refl T) as [L _]. rewrite (IH f2 r) by lia. reflexivity.
  - rewrite (IH f2 t) by (cbn [length] in *; lia). reflexivity.
Qed.

Lemma lexcmp_digits : forall a b x y, length a = length b ->
  lexcmp (map Z.of_N a ++ x) (map Z.of_N b ++ y) = match cmp_digits a b with Eq => lexcmp x y | c => c end.
Proof.
  induction a as [|u a IH]; intros [|v b] x y L; try discriminate L; [reflexivity|].
  cbn [map app lexcmp cmp_digits]. rewrite N2Z.inj_compare. destruct (N.compare u v); try reflexivity.
  apply IH. injection L as L. exact L.
Qed.
Lemma cmp_digits_eq : forall a b, cmp_digits a b = Eq -> a = b.
Proof.
  induction a as [|x a IH]; intros [|y b] H; simpl in H; try discriminate H; [reflexivity|].
  destruct (N.compare_spec x y) as [E|L|G]; [subst y; f_equal; apply IH; exact H|discriminate H|discriminate H].
Qed.

Lemma natlt_enc : forall cs f s1 s2, (length s1 < f)%nat -> (length s2 < f)%nat ->
  no_leading_zero s1 -> no_leading_zero s2 ->
  natlt_go f cs s1 s2 0 0 = lexlt (enc f cs s1) (enc f cs s2).
Proof.
  intro cs. induction f as [|f IH]; intros s1 s2 L1 L2 H1 H2; [lia|].
  destruct s1 as [|c1 t1]; destruct s2 as [|c2 t2]; [reflexivity| | |].
  - cbn [natlt_go enc]. unfold lexlt. destruct (t_digit c2); [destruct (digits (c2 :: t2))|]; reflexivity.
  - cbn [natlt_go enc]. unfold lexlt. destruct (t_digit c1); [destruct (digits (c1 :: t1))|]; reflexivity.
  - cbn [natlt_go enc]. destruct (t_digit c1) eqn:T1; destruct (t_digit c2) eqn:T2; cbn [negb andb].
    + rewrite (nlz_skip _ _ T1 H1), (nlz_skip _ _ T2 H2).
      destruct (digits (c1 :: t1)) as [d1 r1] eqn:D1. destruct (digits (c2 :: t2)) as [d2 r2] eqn:D2.
      destruct (digits_shorter _ _ _ _ _ D1 eq_refl T1) as [M1 N1]. destruct (digits_shorter _ _ _ _ _ D2 eq_refl T2) as [M2 N2].
      unfold lexlt. rewrite <- !app_comm_cons. cbn [lexcmp Z.compare]. rewrite Nat2Z.inj_compare.
      assert (Run : match cmp_run d1 d2 with Eq => d1 = d2 | _ => True end).
      { unfold cmp_run. destruct (Nat.compare (length d1) (length d2)) eqn:Q; try exact I.
        destruct (cmp_digits d1 d2) eqn:R; try exact I. apply cmp_digits_eq. exact R. }
      unfold cmp_run in *. destruct (Nat.compare (length d1) (length d2)) eqn:Q.
      * apply Nat.compare_eq in Q. rewrite (lexcmp_digits d1 d2 _ _ Q).
        destruct (cmp_digits d1 d2) eqn:R.
        -- destruct (digits_spec _ _ _ D1) as [A1 _]. destruct (digits_spec _ _ _ D2) as [A2 _].
           assert (C : c1 = c2).
           { subst d2. destruct d1 as [|y d1]; [contradiction|]. injection A1 as -> _. injection A2 as -> _. reflexivity. }
           subst c2. rewrite Nat.eqb_refl.
           cbv iota beta.
           change (match lexcmp (enc f cs r1) (enc f cs r2) with Lt => true | _ => false end) with (lexlt (enc f cs r1) (enc f cs r2)).
           apply IH; try lia; [exact (nlz_digits _ _ _ D1 H1)|exact (nlz_digits _ _ _ D2 H2)].
        -- destruct (if Nat.eqb _ _ then _ else _). reflexivity.
        -- destruct (if Nat.eqb _ _ then _ else _). reflexivity.
      * destruct (if Nat.eqb _ _ then _ else _). reflexivity.
      * destruct (if Nat.eqb _ _ then _ else _). reflexivity.
    + destruct (digits (c1 :: t1)). reflexivity.
    + destruct (digits (c2 :: t2)). reflexivity.
    + unfold lexlt. cbn [lexcmp Z.compare]. destruct (Z.compare_spec (key_char cs c1) (key_char cs c2)) as [E|L|G].
      * rewrite E, Z.eqb_refl. cbn [length] in L1, L2.
        change (match lexcmp (enc f cs t1) (enc f cs t2) with Lt => true | _ => false end) with (lexlt (enc f cs t1) (enc f cs t2)).
        apply IH; try lia; [exact (nlz_alpha _ _ T1 H1)|exact (nlz_alpha _ _ T2 H2)].
      * destruct (Z.eqb_spec (key_char cs c1) (key_char cs c2)); [lia|]. apply Z.ltb_lt. exact L.
      * destruct (Z.eqb_spec (key_char cs c1) (key_char cs c2)); [lia|]. apply Z.ltb_ge. lia.
Qed.

(** ** Case-insensitive comparison *)

Lemma casecmp_lex : forall a b, casecmp a b = lexcmp (map (fun c => Z.of_N (lower c)) a) (map (fun c => Z.of_N (lower c)) b).
Proof.
  induction a as [|x a IH]; intros [|y b]; simpl; try reflexivity.
  rewrite N2Z.inj_compare. destruct (N.compare _ _); try reflexivity. apply IH.
Qed.
Lemma cstr_id : forall s, ~ In 0 s -> cstr s = s.
Proof.
  induction s as [|c s IH]; intro H; [reflexivity|]. cbn [cstr]. destruct (N.eqb_spec c 0) as [->|Ne].
  - exfalso. apply H. left. reflexivity.
  - rewrite IH; [reflexivity|]. intro X. apply H. right. exact X.
Qed.
Lemma casecmp_eq : forall a b, casecmp a b = Eq <-> map lower a = map lower b.
Proof.
  induction a as [|x a IH]; intros [|y b]; simpl; try (split; intro H; discriminate H); [split; reflexivity|].
  destruct (N.compare_spec (lower x) (lower y)) as [E|L|G].
  - rewrite IH, E. split; intro H; [rewrite H; reflexivity|injection H as H; exact H].
  - split; intro H; [discriminate H|injection H as A _; lia].
  - split; intro H; [discriminate H|injection H as A _; lia].
Qed.
Lemma lower_high : forall c, lower c < 128 <-> c < 128.
Proof.
  intro c. unfold lower. destruct ((65 <=? c) && (c <=? 90)) eqn:E; [|reflexivity].
  apply andb_true_iff in E. destruct E as [A B]. apply N.leb_le in A. apply N.leb_le in B. lia.
Qed.
Lemma hash_char_lower : forall x y, lower x = lower y -> hash_char x = hash_char y.
Proof.
  intros x y H. unfold hash_char. assert (A := lower_high x). assert (B := lower_high y). rewrite H in A.
  destruct (N.ltb_spec x 128) as [P|P]; destruct (N.ltb_spec y 128) as [Q|Q].
  - exact H.
  - assert (lower y < 128) by tauto. assert (y < 128) by tauto. lia.
  - assert (lower y < 128) by tauto. assert (x < 128) by tauto. lia.
  - f_equal. unfold lower in H.
    destruct ((65 <=? x) && (x <=? 90)) eqn:E1; [apply andb_true_iff in E1; destruct E1 as [_ E1]; apply N.leb_le in E1; lia|].
    destruct ((65 <=? y) && (y <=? 90)) eqn:E2; [apply andb_true_iff in E2; destruct E2 as [_ E2]; apply N.leb_le in E2; lia|].
    exact H.
Qed.
Lemma hash_lower : forall a b h, map lower a = map lower b ->
  fold_left (fun h c => (N.lxor h (hash_char c) * 16777619) mod 2 ^ 64) a h =
  fold_left (fun h c => (N.lxor h (hash_char c) * 16777619) mod 2 ^ 64) b h.
Proof.
  induction a as [|x a IH]; intros [|y b] h H; try discriminate H; [reflexivity|].
  cbn [map] in H. injection H as A B. cbn [fold_left]. rewrite (hash_char_lower _ _ A). apply IH. exact B.
Qed.
Lemma iequals_iff : forall a b, iequals a b = true <-> map lower a = map lower b.
Proof.
  induction a as [|x a IH]; intros [|y b]; simpl; try (split; intro H; discriminate H); [split; reflexivity|].
  rewrite andb_true_iff, IH. split.
  - intros [A B]. apply N.eqb_eq in A. congruence.
  - intro H. injection H as A B. rewrite A, N.eqb_refl. auto.
Qed.

(** ** The lock *)

Lemma upd_length : forall l i x, length (upd l i x) = length l.
Proof.
  intros. unfold upd. rewrite <- (firstn_skipn i l) at 3. rewrite !app_length. f_equal.
  destruct (skipn i l); reflexivity.
Qed.
Lemma upd_nth : forall l i x j, (i < length l)%nat ->
  nth_error (upd l i x) j = if Nat.eqb i j then Some x else nth_error l j.
Proof.
  induction l as [|y l IH]; intros i x j H; [simpl in H; lia|].
  destruct i as [|i].
  - unfold upd. simpl. destruct j; reflexivity.
  - unfold upd in *. cbn [firstn skipn]. destruct j as [|j]; [reflexivity|].
    rewrite <- app_comm_cons. cbn [nth_error Nat.eqb]. apply IH. simpl in H. lia.
Qed.

Definition inside (p : pc) : bool := match p with PIn _ => true | _ => false end.
Definition finishing_call (p : pc) : bool := match p with PTry _ f | PIn f => f | PIdle => false end.
(** A finishing call does not overlap any other. *)
Definition no_overlap (st : plock) (f : bool) : Prop :=
  if f then Forall (eq PIdle) (p_threads st) else Forall (fun p => finishing_call p = false) (p_threads st).

(** At most one thread inside, and only while locked; attempts expect the lock to be free; a
    finishing call is alone. *)
Definition linv (st : plock) : Prop :=
  (forall i j p q, nth_error (p_threads st) i = Some p -> nth_error (p_threads st) j = Some q ->
     inside p = true -> inside q = true -> i = j) /\
  (p_locked st = true <-> exists i p, nth_error (p_threads st) i = Some p /\ inside p = true) /\
  (forall i e f, nth_error (p_threads st) i = Some (PTry e f) -> e = false) /\
  (forall i j p q, nth_error (p_threads st) i = Some p -> nth_error (p_threads st) j = Some q ->
     finishing_call p = true -> i = j \/ q = PIdle).

Lemma nth_lt : forall A (l : list A) i x, nth_error l i = Some x -> (i < length l)%nat.
Proof. intros A l i x H. apply nth_error_Some. rewrite H. discriminate. Qed.

Lemma linv_step : forall st st', linv st -> pstep no_overlap st st' -> linv st'.
Proof.
  intros st st' [I1 [I2 [I3 I4]]] S. inversion S as
    [s i f E O | s i e f E L | s i e E | s i e E | s i f E]; subst s st'; unfold linv; cbn [p_locked p_threads];
    assert (Lt := nth_lt _ _ _ _ E).
  - (* begin *)
    assert (Q : forall j p, nth_error (upd (p_threads st) i (PTry false f)) j = Some p ->
      (j = i /\ p = PTry false f) \/ (j <> i /\ nth_error (p_threads st) j = Some p)).
    { intros j p H. rewrite upd_nth in H by exact Lt. destruct (Nat.eqb_spec i j) as [Y|Y];
        [left; injection H as <-; auto|right; auto]. }
    split; [|split; [|split]].
    + intros a b p q A B X Y. destruct (Q _ _ A) as [[-> ->]|[A1 A2]]; [discriminate X|].
      destruct (Q _ _ B) as [[-> ->]|[B1 B2]]; [discriminate Y|]. apply (I1 a b p q A2 B2 X Y).
    + rewrite I2. split; intros [a [p [A X]]].
      * exists a, p. rewrite upd_nth by exact Lt. destruct (Nat.eqb_spec i a) as [Y|Y]; [subst a; rewrite E in A; injection A as <-; discriminate X|auto].
      * destruct (Q _ _ A) as [[-> ->]|[A1 A2]]; [discriminate X|]. exists a, p. auto.
    + intros a e g A. destruct (Q _ _ A) as [[_ H]|[_ H]]; [injection H as -> _; reflexivity|apply (I3 _ _ _ H)].
    + intros a b p q A B X. destruct (Q _ _ A) as [[-> ->]|[A1 A2]]; destruct (Q _ _ B) as [[-> ->]|[B1 B2]].
      * left; reflexivity.
      * cbn [finishing_call] in X. subst f. unfold no_overlap in O. rewrite Forall_forall in O. right. symmetry. apply O.
        eapply nth_error_In; exact B2.
      * destruct f.
        -- unfold no_overlap in O. rewrite Forall_forall in O. rewrite <- (O p (nth_error_In _ _ A2)) in X. discriminate X.
        -- unfold no_overlap in O. rewrite Forall_forall in O. rewrite (O p (nth_error_In _ _ A2)) in X. discriminate X.
      * apply (I4 a b p q A2 B2 X).
  - (* acquire *)
    assert (e = false) by (apply (I3 _ _ _ E)). subst e.
    assert (No : forall j p, nth_error (p_threads st) j = Some p -> inside p = false).
    { intros j p H'. destruct (inside p) eqn:X; [|reflexivity]. assert (p_locked st = true) by (apply I2; eauto). congruence. }
    assert (Q : forall j p, nth_error (upd (p_threads st) i (PIn f)) j = Some p ->
      (j = i /\ p = PIn f) \/ (j <> i /\ nth_error (p_threads st) j = Some p)).
    { intros j p H'. rewrite upd_nth in H' by exact Lt. destruct (Nat.eqb_spec i j) as [Y|Y];
        [left; injection H' as <-; auto|right; auto]. }
    split; [|split; [|split]].
    + intros a b p q A B X Y. destruct (Q _ _ A) as [[-> ->]|[A1 A2]]; [|rewrite (No _ _ A2) in X; discriminate X].
      destruct (Q _ _ B) as [[-> ->]|[B1 B2]]; [reflexivity|rewrite (No _ _ B2) in Y; discriminate Y].
    + split; [intros _|reflexivity]. exists i, (PIn f). rewrite upd_nth, Nat.eqb_refl by exact Lt. auto.
    + intros a e g A. destruct (Q _ _ A) as [[_ H']|[_ H']]; [discriminate H'|apply (I3 _ _ _ H')].
    + intros a b p q A B X. destruct (Q _ _ A) as [[-> ->]|[A1 A2]]; destruct (Q _ _ B) as [[-> ->]|[B1 B2]].
      * left; reflexivity.
      * apply (I4 i b _ q E B2). exact X.
      * destruct (I4 a i p _ A2 E X) as [Y|Y]; [left; exact Y|discriminate Y].
      * apply (I4 a b p q A2 B2 X).
  - (* failed, waits *)
    assert (e = false) by (apply (I3 _ _ _ E)). subst e.
    assert (Un : p_locked st = false).
    { destruct (p_locked st); [|reflexivity]. exfalso. destruct (proj1 I2 eq_refl) as [a [p [A X]]].
      destruct (I4 i a _ p E A eq_refl) as [Y|Y]; [subst a; rewrite E in A; injection A as <-; discriminate X|subst p; discriminate X]. }
    rewrite Un in *.
    assert (Q : forall j p, nth_error (upd (p_threads st) i (PTry false true)) j = Some p -> nth_error (p_threads st) j = Some p).
    { intros j p H'. rewrite upd_nth in H' by exact Lt. destruct (Nat.eqb_spec i j) as [Y|Y];
        [subst j; rewrite E; exact H'|exact H']. }
    split; [|split; [|split]].
    + intros a b p q A B X Y. apply (I1 a b p q (Q _ _ A) (Q _ _ B) X Y).
    + split; [discriminate|]. intros [a [p [A X]]]. apply I2. exists a, p. auto.
    + intros a e g A. apply (I3 _ _ _ (Q _ _ A)).
    + intros a b p q A B X. apply (I4 a b p q (Q _ _ A) (Q _ _ B) X).
  - (* failed, returns *)
    assert (Q : forall j p, nth_error (upd (p_threads st) i PIdle) j = Some p ->
      (j = i /\ p = PIdle) \/ (j <> i /\ nth_error (p_threads st) j = Some p)).
    { intros j p H'. rewrite upd_nth in H' by exact Lt. destruct (Nat.eqb_spec i j) as [Y|Y];
        [left; injection H' as <-; auto|right; auto]. }
    split; [|split; [|split]].
    + intros a b p q A B X Y. destruct (Q _ _ A) as [[-> ->]|[A1 A2]]; [discriminate X|].
      destruct (Q _ _ B) as [[-> ->]|[B1 B2]]; [discriminate Y|]. apply (I1 a b p q A2 B2 X Y).
    + rewrite I2. split; intros [a [p [A X]]].
      * exists a, p. rewrite upd_nth by exact Lt. destruct (Nat.eqb_spec i a) as [Y|Y]; [subst a; rewrite E in A; injection A as <-; discriminate X|auto].
      * destruct (Q _ _ A) as [[-> ->]|[A1 A2]]; [discriminate X|]. exists a, p. auto.
    + intros a e' g A. destruct (Q _ _ A) as [[_ H']|[_ H']]; [discriminate H'|apply (I3 _ _ _ H')].
    + intros a b p q A B X. destruct (Q _ _ A) as [[-> ->]|[A1 A2]]; [discriminate X|].
      destruct (Q _ _ B) as [[-> ->]|[B1 B2]]; [right; reflexivity|]. apply (I4 a b p q A2 B2 X).
  - (* unlock *)
    assert (Q : forall j p, nth_error (upd (p_threads st) i PIdle) j = Some p ->
      (j = i /\ p = PIdle) \/ (j <> i /\ nth_error (p_threads st) j = Some p)).
    { intros j p H'. rewrite upd_nth in H' by exact Lt. destruct (Nat.eqb_spec i j) as [Y|Y];
        [left; injection H' as <-; auto|right; auto]. }
    split; [|split; [|split]].
    + intros a b p q A B X Y. destruct (Q _ _ A) as [[-> ->]|[A1 A2]]; [discriminate X|].
      destruct (Q _ _ B) as [[-> ->]|[B1 B2]]; [discriminate Y|]. apply (I1 a b p q A2 B2 X Y).
    + split; [discriminate|]. intros [a [p [A X]]]. destruct (Q _ _ A) as [[-> ->]|[A1 A2]]; [discriminate X|].
      exfalso. apply A1. apply (I1 a i p _ A2 E X eq_refl).
    + intros a e' g A. destruct (Q _ _ A) as [[_ H']|[_ H']]; [discriminate H'|apply (I3 _ _ _ H')].
    + intros a b p q A B X. destruct (Q _ _ A) as [[-> ->]|[A1 A2]]; [discriminate X|].
      destruct (Q _ _ B) as [[-> ->]|[B1 B2]]; [right; reflexivity|]. apply (I4 a b p q A2 B2 X).
Qed.

Lemma linv_init : forall n, linv (mkP false (repeat PIdle n)).
Proof.
  intro n. assert (Q : forall i p, nth_error (repeat PIdle n) i = Some p -> p = PIdle).
  { intros i p H. apply nth_error_In in H. apply repeat_spec in H. exact H. }
  unfold linv. cbn [p_locked p_threads]. split; [|split; [|split]].
  - intros i j p q A B X Y. rewrite (Q _ _ A) in X. discriminate X.
  - split; [discriminate|]. intros [i [p [A X]]]. rewrite (Q _ _ A) in X. discriminate X.
  - intros i e f A. discriminate (Q _ _ A).
  - intros i j p q A B X. rewrite (Q _ _ A) in X. discriminate X.
Qed.
Lemma linv_star : forall st st', linv st -> star (pstep no_overlap) st st' -> linv st'.
Proof. intros st st' H S. induction S; [exact H|]. eapply linv_step; [apply IHS; exact H|exact H0]. Qed.

Lemma pstep_weaken : forall (P Q : plock -> bool -> Prop) st st', (forall s f, P s f -> Q s f) -> pstep P st st' -> pstep Q st st'.
Proof.
  intros P Q st st' H S. destruct S.
  - apply StBegin; auto.
  - eapply StAcquire; eauto.
  - eapply StFailWait; eauto.
  - eapply StFailReturn; eauto.
  - eapply StUnlock; eauto.
Qed.

(** While items remain or run, no finishing call is in progress. *)
Definition pfinv (len : nat) (s : pfor) : Prop :=
  linv (pf_lock s) /\ (pf_progress s <= len)%nat /\
  (pf_done s = false -> Forall (fun p => finishing_call p = false) (p_threads (pf_lock s))).

Lemma no_finishing_run : forall st st', pstep (fun _ _ => False) st st' ->
  Forall (fun p => finishing_call p = false) (p_threads st) -> Forall (fun p => finishing_call p = false) (p_threads st').
Proof.
  intros st st' S F.
  assert (G : forall i x, finishing_call x = false -> Forall (fun p => finishing_call p = false) (upd (p_threads st) i x)).
  { intros i x X. unfold upd. rewrite <- (firstn_skipn i (p_threads st)) in F. apply Forall_app in F. destruct F as [F1 F2].
    apply Forall_app. split; [exact F1|]. destruct (skipn i (p_threads st)); [constructor|].
    inversion F2; subst. constructor; assumption. }
  rewrite Forall_forall in F.
  inversion S as [s i f E O | s i e f E L | s i e E | s i e E | s i f E]; subst s st'; cbn [p_threads];
    [contradiction| | | |]; apply G; try reflexivity; assert (X := F _ (nth_error_In _ _ E)); cbn [finishing_call] in X; try exact X; discriminate X.
Qed.

Lemma pfinv_step : forall len s s', pfinv len s -> pfstep len s s' -> pfinv len s'.
Proof.
  intros len s s' [I1 [I2 I3]] S. inversion S as [p st i L E | st i A L | p d st l' R]; subst s s'; unfold pfinv in *;
    cbn [pf_lock pf_progress pf_done] in *.
  - replace (Nat.eqb p len) with false by (symmetry; apply Nat.eqb_neq; lia).
    split; [|split; [lia|]].
    + apply (linv_step st _ I1). apply (StBegin no_overlap st i false E). unfold no_overlap. apply I3. reflexivity.
    + intros _. specialize (I3 eq_refl). unfold upd. cbn [p_threads].
      rewrite <- (firstn_skipn i (p_threads st)) in I3. apply Forall_app in I3. destruct I3 as [F1 F2].
      apply Forall_app. split; [exact F1|]. destruct (skipn i (p_threads st)); [constructor|].
      inversion F2; subst. constructor; [reflexivity|assumption].
  - split; [|split; [lia|discriminate]].
    destruct (nth_error (p_threads st) i) as [x|] eqn:E; [|apply nth_error_None in E; lia].
    assert (x = PIdle) by (rewrite Forall_forall in A; symmetry; apply A; eapply nth_error_In; exact E). subst x.
    apply (linv_step st _ I1). apply (StBegin no_overlap st i true E). exact A.
  - split; [|split; [exact I2|]].
    + apply (linv_step st _ I1). eapply pstep_weaken; [|exact R]. intros ? ? [].
    + intro D. apply (no_finishing_run _ _ R). apply I3. exact D.
Qed.
