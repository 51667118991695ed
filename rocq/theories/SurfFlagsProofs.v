(* Lemmas on the flags of brush entities. *)
From Coq Require Import String List Arith NArith ZArith QArith Bool Lia Lqa.
Import ListNotations.
From Verif Require Import Base NumCastModel ParserModel EntModel EntProofs CmdlibModel CmdlibProofs ContentsModel ContentsProofs EntOutModel DecompEntModel SurfFlagsModel.
Local Open Scope list_scope.

(** ** Numbers *)
Definition nonan (v : num) : Prop := v <> NaN.
Definition between (lo hi : Q) (v : num) : Prop := exists q, v = Num q /\ (lo <= q <= hi)%Q.
Lemma q_lt_iff : forall a b, q_lt a b = true <-> (a < b)%Q.
Proof. intros a b. unfold q_lt. rewrite negb_true_iff. split; intro H; [apply Qnot_le_lt; intro X; apply Qle_bool_iff in X; congruence|destruct (Qle_bool b a) eqn:E; [apply Qle_bool_iff in E; apply Qlt_not_le in H; contradiction|reflexivity]]. Qed.
Lemma q_ge_iff : forall a b, q_lt a b = false <-> (b <= a)%Q.
Proof. intros a b. unfold q_lt. rewrite negb_false_iff. apply Qle_bool_iff. Qed.
Lemma clamp_between : forall v lo hi, (lo <= hi)%Q -> nonan v -> between lo hi (clamp v (Num lo) (Num hi)).
Proof.
  intros v lo hi L N. destruct v as [|q]; [destruct (N eq_refl)|]. unfold clamp. cbn [lt]. destruct (q_lt q lo) eqn:A.
  - exists lo. split; [reflexivity|]. split; [apply Qle_refl|exact L].
  - apply q_ge_iff in A. destruct (q_lt hi q) eqn:B.
    + exists hi. split; [reflexivity|]. split; [exact L|apply Qle_refl].
    + apply q_ge_iff in B. exists q. split; [reflexivity|]. split; assumption.
Qed.
Lemma clamp_id : forall q lo hi, (lo <= q <= hi)%Q -> clamp (Num q) (Num lo) (Num hi) = Num q.
Proof. intros q lo hi (A & B). unfold clamp. cbn [lt]. apply q_ge_iff in A. rewrite A. apply q_ge_iff in B. rewrite B. reflexivity. Qed.

(** (uint8_t): defined exactly above -1 and below 256 *)
Lemma quot_bounds : forall n d, (0 < d)%Z -> (-1 < Z.quot n d <-> - d < n)%Z /\ (Z.quot n d < 256 <-> n < 256 * d)%Z.
Proof.
  intros n d D. pose proof (Z.quot_rem' n d) as E. destruct (Z_le_dec 0 n) as [P|P].
  - pose proof (Z.rem_bound_pos n d P D) as R. split; split; intro H; nia.
  - pose proof (Z.rem_bound_pos (- n) d ltac:(lia) D) as R. rewrite Z.rem_opp_l in R by lia. split; split; intro H; nia.
Qed.
Lemma to_byte_ok : forall q, (-1 < q)%Q /\ (q < 256)%Q <-> exists b, to_byte (Num q) = ROk b /\ (0 <= b <= 255)%Z.
Proof.
  intros [n d]. unfold to_byte. cbn [Qnum Qden]. destruct (quot_bounds n (Zpos d) ltac:(lia)) as (A & B).
  assert (QA : (-1 < n # d)%Q <-> (- Zpos d < n)%Z) by (unfold Qlt; cbn [Qnum Qden]; lia).
  assert (QB : ((n # d) < 256)%Q <-> (n < 256 * Zpos d)%Z) by (unfold Qlt; cbn [Qnum Qden]; lia).
  rewrite QA, QB, <- A, <- B. set (z := Z.quot n (Zpos d)). destruct ((0 <=? z)%Z && (z <=? 255)%Z) eqn:E.
  - apply andb_true_iff in E. destruct E as (E1 & E2). apply Z.leb_le in E1, E2. split; intros _; [exists z; split; [reflexivity|lia]|lia].
  - split; [|intros (b & X & _); discriminate X]. intros (X & Y). apply andb_false_iff in E. destruct E as [E|E]; apply Z.leb_gt in E; lia.
Qed.
Lemma to_byte_cases : forall v, (exists b, to_byte v = ROk b /\ (0 <= b <= 255)%Z) \/ to_byte v = RUB.
Proof. intros [|q]; [right; reflexivity|]. unfold to_byte. cbv zeta. destruct (_ && _) eqn:E; [left|right; reflexivity]. apply andb_true_iff in E. destruct E as (E1 & E2). apply Z.leb_le in E1, E2. eexists. split; [reflexivity|lia]. Qed.
Lemma bytes3_cases : forall l, (exists b, bytes3 l = ROk b /\ List.length b = List.length l /\ Forall (fun x => 0 <= x <= 255)%Z b /\ Forall (fun v => exists x, to_byte v = ROk x) l) \/
  (bytes3 l = RUB /\ exists v, In v l /\ to_byte v = RUB).
Proof.
  induction l as [|v l IH]; [left; exists []; repeat split; constructor|]. cbn [bytes3 fold_right]. fold (bytes3 l).
  destruct (to_byte_cases v) as [(x & E & R)|E]; rewrite E; cbn [rbind].
  - destruct IH as [(b & E2 & L & F & G)|(E2 & u & I & U)]; rewrite E2; cbn [rbind].
    + left. exists (x :: b). repeat split; [cbn [List.length]; lia|constructor; assumption|constructor; [exists x; exact E|exact G]].
    + right. split; [reflexivity|]. exists u. split; [right; exact I|exact U].
  - right. split; [reflexivity|]. exists v. split; [left; reflexivity|exact E].
Qed.

(** ** Quake II: the bits of contents *)
Lemma low_bits : forall c k, (k < 32)%N -> N.testbit (u32_of (Z.of_N c)) k = N.testbit c k.
Proof.
  intros c k K. unfold u32_of. change (2 ^ 32)%Z with (Z.of_N (2 ^ 32)). rewrite <- N2Z.inj_mod, N2Z.id. apply N.mod_pow2_bits_low. exact K.
Qed.
Ltac bit_of := intro c; unfold q2_from_native; rewrite map_bits_spec; unfold q2_from_table; cbn [existsb fst snd N.eqb Pos.eqb]; rewrite ?andb_false_r, ?andb_true_r, ?orb_false_r, ?orb_false_l; cbn [orb].
Lemma from0 : forall c, N.testbit (q2_from_native (Z.of_N c)) 0 = N.testbit c 0. Proof. bit_of. apply low_bits. reflexivity. Qed.
Lemma from1 : forall c, N.testbit (q2_from_native (Z.of_N c)) 1 = false. Proof. bit_of. reflexivity. Qed.
Lemma from2 : forall c, N.testbit (q2_from_native (Z.of_N c)) 2 = false. Proof. bit_of. reflexivity. Qed.
Lemma from3 : forall c, N.testbit (q2_from_native (Z.of_N c)) 3 = N.testbit c 1. Proof. bit_of. apply low_bits. reflexivity. Qed.
Lemma from4 : forall c, N.testbit (q2_from_native (Z.of_N c)) 4 = N.testbit c 2. Proof. bit_of. apply low_bits. reflexivity. Qed.
Lemma from5 : forall c, N.testbit (q2_from_native (Z.of_N c)) 5 = N.testbit c 3. Proof. bit_of. apply low_bits. reflexivity. Qed.
Lemma from6 : forall c, N.testbit (q2_from_native (Z.of_N c)) 6 = N.testbit c 4. Proof. bit_of. apply low_bits. reflexivity. Qed.
Lemma from7 : forall c, N.testbit (q2_from_native (Z.of_N c)) 7 = N.testbit c 5. Proof. bit_of. apply low_bits. reflexivity. Qed.
Lemma from8 : forall c, N.testbit (q2_from_native (Z.of_N c)) 8 = N.testbit c 6. Proof. bit_of. apply low_bits. reflexivity. Qed.

Lemma tst_bit : forall c k, tst c (2 ^ k) = N.testbit c k.
Proof.
  intros c k. unfold tst. destruct (N.testbit c k) eqn:E.
  - apply negb_true_iff, N.eqb_neq. intro X. assert (Y : N.testbit (N.land c (2 ^ k)) k = true) by (rewrite N.land_spec, E, N.pow2_bits_true; reflexivity). rewrite X, N.bits_0 in Y. discriminate Y.
  - apply negb_false_iff, N.eqb_eq. apply N.bits_inj. intro j. rewrite N.land_spec, N.bits_0. destruct (N.eq_dec k j) as [<-|D]; [rewrite E; reflexivity|rewrite N.pow2_bits_false by exact D; apply andb_false_r].
Qed.
Lemma tst_or : forall c a b, tst c (N.lor a b) = tst c a || tst c b.
Proof.
  intros c a b. unfold tst. rewrite N.land_lor_distr_r. destruct (N.eqb_spec (N.land c a) 0) as [->|A].
  - rewrite N.lor_0_l. reflexivity.
  - cbn [negb orb]. apply negb_true_iff, N.eqb_neq. intro X. apply N.lor_eq_0_iff in X. tauto.
Qed.
(** At most one kind of visible contents. *)
Definition one_visible (c : N) : Prop := forall i j, (i < 9)%N -> (j < 9)%N -> N.testbit c i = true -> N.testbit c j = true -> i = j.
Lemma vis_one : forall c, existsb (fun i => N.testbit (N.land c 127) i && negb (N.land c 127 =? 2 ^ i)%N) [0; 1; 2; 3; 4; 5; 6]%N = false ->
  forall i j, (i < 7)%N -> (j < 7)%N -> N.testbit c i = true -> N.testbit c j = true -> i = j.
Proof.
  intros c H i j Li Lj I J.
  assert (M : forall k, (k < 7)%N -> N.testbit (N.land c 127) k = N.testbit c k).
  { intros k K. rewrite N.land_spec. change 127%N with (N.ones 7). rewrite N.ones_spec_low by exact K. apply andb_true_r. }
  assert (IN : In i [0; 1; 2; 3; 4; 5; 6]%N). { destruct i as [|p]; [left; reflexivity|]. do 3 (destruct p as [p|p|]; try (cbn; tauto); try lia). }
  assert (E : (N.land c 127 = 2 ^ i)%N).
  { destruct (N.eqb_spec (N.land c 127) (2 ^ i)) as [X|X]; [exact X|]. exfalso. assert (Y : existsb (fun i => N.testbit (N.land c 127) i && negb (N.land c 127 =? 2 ^ i)%N) [0; 1; 2; 3; 4; 5; 6]%N = true).
    { apply existsb_exists. exists i. split; [exact IN|]. rewrite M by exact Li. rewrite I. apply N.eqb_neq in X. rewrite X. reflexivity. }
    rewrite H in Y. discriminate Y. }
  destruct (N.eq_dec i j) as [X|X]; [exact X|]. exfalso. assert (Y : N.testbit (N.land c 127) j = false) by (rewrite E; apply N.pow2_bits_false; exact X).
  rewrite M in Y by exact Lj. congruence.
Qed.
Lemma nine : forall i, (i < 9)%N -> i = 0%N \/ i = 1%N \/ i = 2%N \/ i = 3%N \/ i = 4%N \/ i = 5%N \/ i = 6%N \/ i = 7%N \/ i = 8%N.
Proof. intros i L. destruct i as [|p]; [tauto|]. do 4 (destruct p as [p|p|]; try tauto; try lia). Qed.
Lemma ctz_bits : forall c, content_type c = 0%N -> forall j, (j < 9)%N -> N.testbit c j = false.
Proof.
  intros c H j J. assert (X : N.testbit (content_type c) j = N.testbit c j).
  { unfold content_type. rewrite N.land_spec. replace (N.testbit (N.lor ALL_VISIBLE ALL_INVIS) j) with true; [apply andb_true_r|]. destruct (nine j J) as [->|[->|[->|[->|[->|[->|[->|[->| ->]]]]]]]]; reflexivity. }
  rewrite <- X, H. apply N.bits_0.
Qed.
Lemma face_one : forall c f, (forall i j, (i < 7)%N -> (j < 7)%N -> N.testbit c i = true -> N.testbit c j = true -> i = j) -> one_visible (q2_face c f).
Proof.
  intros c f H. unfold q2_face, q2_face_contents. destruct (tst f (N.lor S_HINT S_SKIP)); [intros i j _ _ X; rewrite N.bits_0 in X; discriminate X|].
  set (c0 := q2_from_native (Z.of_N c)). cbv zeta.
  assert (D : forall (b : bool) s j, (j < 9)%N -> N.testbit (if b then N.lor s DETAIL else s) j = N.testbit s j).
  { intros [|] s j J; [|reflexivity]. rewrite N.lor_spec. replace (N.testbit DETAIL j) with false; [apply orb_false_r|]. destruct (nine j J) as [->|[->|[->|[->|[->|[->|[->|[->| ->]]]]]]]]; reflexivity. }
  assert (D2 : forall (a b : bool) s j, (j < 9)%N -> N.testbit (if a then N.lor s DETAIL else if b then N.lor s DETAIL else s) j = N.testbit s j).
  { intros [|] b s j J; [exact (D true s j J)|exact (D b s j J)]. }
  intros i j Li Lj. rewrite !D, !D2 by assumption.
  assert (U : one_visible c0).
  { intros a b La Lb. subst c0. destruct (nine a La) as [->|[->|[->|[->|[->|[->|[->|[->| ->]]]]]]]]; rewrite ?from0, ?from1, ?from2, ?from3, ?from4, ?from5, ?from6, ?from7, ?from8;
    (destruct (nine b Lb) as [->|[->|[->|[->|[->|[->|[->|[->| ->]]]]]]]]; rewrite ?from0, ?from1, ?from2, ?from3, ?from4, ?from5, ?from6, ?from7, ?from8); intros X Y; try discriminate X; try discriminate Y; try reflexivity;
    exfalso; match type of X with N.testbit _ ?k = _ => match type of Y with N.testbit _ ?l = _ => pose proof (H k l ltac:(reflexivity) ltac:(reflexivity) X Y) as Z; discriminate Z end end. }
  assert (S : one_visible (if (content_type c0 =? 0)%N then N.lor c0 SOLID else c0)).
  { destruct (N.eqb_spec (content_type c0) 0) as [Z|Z]; [|exact U]. intros a b La Lb. rewrite !N.lor_spec, !(ctz_bits c0 Z) by assumption. cbn [orb]. change SOLID with (2 ^ 0)%N. rewrite !N.pow2_bits_eqb. intros X Y. apply N.eqb_eq in X, Y. congruence. }
  revert S. generalize (if (content_type c0 =? 0)%N then N.lor c0 SOLID else c0). intros s S. clear U D D2 H c0.
  destruct (tst f (N.lor S_TRANS S_ALPHA)); [|exact (S i j Li Lj)].
  assert (T : forall k, (k < 9)%N -> N.testbit (N.lor s TRANSLUCENT) k = N.testbit s k).
  { intros k K. rewrite N.lor_spec. replace (N.testbit TRANSLUCENT k) with false; [apply orb_false_r|]. destruct (nine k K) as [->|[->|[->|[->|[->|[->|[->|[->| ->]]]]]]]]; reflexivity. }
  destruct (tst (N.lor s TRANSLUCENT) SOLID) eqn:E.
  - change SOLID with (2 ^ 0)%N in E. rewrite tst_bit in E. rewrite T in E by reflexivity. rewrite !N.lor_spec, !N.ldiff_spec. rewrite !T by assumption. change WINDOW with (2 ^ 3)%N. change SOLID with (2 ^ 0)%N. rewrite !N.pow2_bits_eqb.
    assert (Z : forall k, (k < 9)%N -> N.testbit s k && negb (0 =? k)%N || (3 =? k)%N = true -> k = 3%N).
    { intros k K X. apply orb_true_iff in X. destruct X as [X|X]; [|apply N.eqb_eq in X; congruence]. apply andb_true_iff in X. destruct X as (X & Y). pose proof (S k 0%N K ltac:(reflexivity) X E) as W. subst k. discriminate Y. }
    intros X Y. apply Z in X; [|exact Li]. apply Z in Y; [|exact Lj]. congruence.
  - rewrite !T by assumption. exact (S i j Li Lj).
Qed.

(** ** Names *)
Lemma existsb_named : forall l name, named l name = true <-> exists s, In s l /\ iequals name (txt s) = true.
Proof. intros. unfold named. rewrite existsb_exists. reflexivity. Qed.
Lemma base_no_path : forall name acc, ~ In 47%N name -> base_name name acc = acc.
Proof. induction name as [|c t IH]; intros acc H; [reflexivity|]. cbn [base_name]. destruct (N.eqb_spec c 47) as [->|D]; [destruct (H (or_introl eq_refl))|]. apply IH. intro I. apply H. right. exact I. Qed.
Lemma first_char : forall s name, iequals name (txt s) = true -> match name, txt s with c :: _, d :: _ => lower c = lower d | [], [] => True | _, _ => False end.
Proof. intros s name H. destruct name, (txt s); cbn [iequals] in H; try discriminate H; [exact I|]. apply andb_true_iff in H. apply N.eqb_eq. tauto. Qed.
