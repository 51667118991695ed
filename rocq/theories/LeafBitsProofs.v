From Coq Require Import List Arith NArith ZArith Bool Lia ZifyBool ZifyNat ZifyN.
Import ListNotations.
From Verif Require Import Base LeafBitsModel.
Ltac Zify.zify_post_hook ::= Z.div_mod_to_equations.

Definition lb_wf (b : leafbits) : Prop :=
  length (lb_bits b) = block_size (lb_size b) /\ Forall (fun w => (w < 2 ^ 32)%N) (lb_bits b).

Lemma block_index : forall n i, i < n -> i / 32 < block_size n.
Proof. intros. unfold block_size. lia. Qed.

Lemma land_mask_testbit : forall w k, negb (N.land w (N.shiftl 1 k) =? 0)%N = N.testbit w k.
Proof.
  intros w k. rewrite N.shiftl_1_l.
  destruct (N.testbit w k) eqn:E.
  - apply negb_true_iff. apply N.eqb_neq. intro H.
    assert (Ht : N.testbit (N.land w (2 ^ k)) k = true).
    { rewrite N.land_spec, E, N.pow2_bits_true. reflexivity. }
    rewrite H, N.bits_0 in Ht. discriminate.
  - apply negb_false_iff. apply N.eqb_eq. apply N.bits_inj. intro m.
    rewrite N.land_spec, N.bits_0. destruct (N.eq_dec m k) as [->|Hm].
    + rewrite E. reflexivity.
    + rewrite N.pow2_bits_false by congruence. apply andb_false_r.
Qed.

Lemma lb_get_testbit : forall b i w, nth_error (lb_bits b) (i / 32) = Some w ->
  lb_get b i = Some (N.testbit w (N.of_nat (i mod 32))).
Proof. intros b i w H. unfold lb_get, bit_mask. rewrite H, land_mask_testbit. reflexivity. Qed.

Lemma wf_make : forall n, lb_wf (lb_make n).
Proof.
  intro n. split; simpl; [apply repeat_length|].
  apply Forall_forall. intros x Hx. apply repeat_spec in Hx. subst. lia.
Qed.

Lemma wf_setall : forall b, lb_wf b -> lb_wf (lb_setall b).
Proof.
  intros b _. split; simpl; [apply repeat_length|].
  apply Forall_forall. intros x Hx. apply repeat_spec in Hx. subst. lia.
Qed.

Lemma testbit_lt : forall w k, (w < 2 ^ 32)%N -> (32 <= k)%N -> N.testbit w k = false.
Proof.
  intros w k H Hk. destruct (N.eq_dec w 0) as [->|Hw]; [apply N.bits_0|].
  apply N.bits_above_log2. apply N.log2_lt_pow2; [lia|].
  apply N.lt_le_trans with (1 := H). apply N.pow_le_mono_r; lia.
Qed.

Lemma lt_pow2_bits : forall w, (forall k, (32 <= k)%N -> N.testbit w k = false) -> (w < 2 ^ 32)%N.
Proof.
  intros w H. destruct (N.eq_dec w 0) as [->|Hw]; [lia|].
  apply N.log2_lt_pow2; [lia|].
  destruct (N.lt_ge_cases (N.log2 w) 32) as [|Hge]; [assumption|].
  specialize (H _ Hge). rewrite N.bit_log2 in H by assumption. discriminate.
Qed.

Lemma mask_bits : forall i k, N.testbit (bit_mask i) k = (k =? N.of_nat (i mod 32))%N.
Proof.
  intros. unfold bit_mask. rewrite N.shiftl_1_l.
  destruct (N.eqb_spec k (N.of_nat (i mod 32))) as [->|H].
  - apply N.pow2_bits_true. - apply N.pow2_bits_false. congruence.
Qed.

Lemma Forall_upd : forall A (P : A -> Prop) l i x l', Forall P l -> P x -> upd l i x = Some l' -> Forall P l'.
Proof.
  induction l as [|h t IH]; intros i x l' HF Hx H; simpl in H; [discriminate|].
  inversion HF; subst. destruct i as [|j].
  - inversion H; subst. constructor; assumption.
  - destruct (upd t j x) eqn:E; inversion H; subst. constructor; [assumption|]. apply (IH j x); assumption.
Qed.

Lemma lb_set_spec : forall b i v, lb_wf b -> i < lb_size b ->
  exists b', lb_set b i v = Some b' /\ lb_wf b' /\ lb_size b' = lb_size b /\
    forall j, lb_get b' j = if Nat.eqb j i then Some v else lb_get b j.
Proof.
  intros b i v [Hlen HF] Hi. unfold lb_set.
  destruct (nth_error (lb_bits b) (i / 32)) as [w|] eqn:Ew.
  2:{ apply nth_error_None in Ew. pose proof (block_index _ _ Hi). lia. }
  set (w' := if v then N.lor w (bit_mask i) else N.ldiff w (bit_mask i)).
  destruct (upd_some _ (lb_bits b) (i / 32) w') as [l El].
  { rewrite Hlen. apply block_index. assumption. }
  rewrite El. eexists. split; [reflexivity|].
  assert (Hw : (w < 2 ^ 32)%N).
  { rewrite Forall_forall in HF. apply HF. eapply nth_error_In; eassumption. }
  assert (Hw' : (w' < 2 ^ 32)%N).
  { apply lt_pow2_bits. intros k Hk. unfold w'. destruct v.
    - rewrite N.lor_spec, (testbit_lt w k Hw Hk), mask_bits. apply N.eqb_neq. lia.
    - rewrite N.ldiff_spec, (testbit_lt w k Hw Hk). reflexivity. }
  split; [|split; [reflexivity|]].
  - split; simpl; [rewrite (upd_length _ _ _ _ _ El); assumption|].
    eapply Forall_upd; eassumption.
  - intro j. unfold lb_get. cbn [lb_bits]. rewrite (upd_nth_error _ _ _ _ _ _ El).
    destruct (Nat.eqb_spec (j / 32) (i / 32)) as [Eb|Eb].
    + rewrite Eb, Ew. unfold bit_mask at 1. rewrite land_mask_testbit. unfold bit_mask at 1. rewrite land_mask_testbit.
      destruct (Nat.eqb_spec j i) as [->|Hj].
      * unfold w'. destruct v.
        -- rewrite N.lor_spec, mask_bits, N.eqb_refl, orb_true_r. reflexivity.
        -- rewrite N.ldiff_spec, mask_bits, N.eqb_refl, andb_false_r. reflexivity.
      * assert (N.of_nat (j mod 32) <> N.of_nat (i mod 32)) by lia.
        unfold w'. destruct v.
        -- rewrite N.lor_spec, mask_bits. replace (_ =? _)%N with false by (symmetry; apply N.eqb_neq; assumption).
           rewrite orb_false_r. reflexivity.
        -- rewrite N.ldiff_spec, mask_bits. replace (_ =? _)%N with false by (symmetry; apply N.eqb_neq; assumption).
           rewrite andb_true_r. reflexivity.
    + replace (Nat.eqb j i) with false; [reflexivity|]. symmetry. apply Nat.eqb_neq. intro. subst. congruence.
Qed.

Lemma lb_make_get : forall n i, i < n -> lb_get (lb_make n) i = Some false.
Proof.
  intros n i H. pose proof (block_index _ _ H).
  rewrite lb_get_testbit with (w := 0%N); [rewrite N.bits_0; reflexivity|].
  simpl. apply nth_error_repeat. assumption.
Qed.

Lemma lb_clear_get : forall b i, i < lb_size b -> lb_get (lb_clear b) i = Some false.
Proof. intros b i H. apply (lb_make_get (lb_size b) i H). Qed.

Lemma lb_setall_get : forall b i, i < lb_size b -> lb_get (lb_setall b) i = Some true.
Proof.
  intros b i H. pose proof (block_index _ _ H).
  rewrite lb_get_testbit with (w := 4294967295%N).
  - change 4294967295%N with (N.ones 32). rewrite N.ones_spec_low by lia. reflexivity.
  - simpl. apply nth_error_repeat. assumption.
Qed.

Lemma or_blocks_length : forall a b, length (or_blocks a b) = length a.
Proof. induction a; intros [|y b]; simpl; auto. Qed.

Lemma or_blocks_nth : forall a b i x y, nth_error a i = Some x -> nth_error b i = Some y ->
  nth_error (or_blocks a b) i = Some (N.lor x y).
Proof.
  induction a as [|h t IH]; intros [|h' b] i x y Ha Hb; destruct i; simpl in *; try discriminate.
  - congruence. - eauto.
Qed.

Lemma or_blocks_bound : forall a b, Forall (fun w => (w < 2 ^ 32)%N) a -> Forall (fun w => (w < 2 ^ 32)%N) b ->
  Forall (fun w => (w < 2 ^ 32)%N) (or_blocks a b).
Proof.
  induction a as [|h t IH]; intros [|h' b] Ha Hb; simpl; auto.
  inversion Ha; inversion Hb; subst. constructor; [|auto].
  apply lt_pow2_bits. intros k Hk. rewrite N.lor_spec, !testbit_lt by assumption. reflexivity.
Qed.

Lemma lb_or_spec : forall a b, lb_wf a -> lb_wf b -> lb_size b = lb_size a ->
  lb_wf (lb_or a b) /\ lb_size (lb_or a b) = lb_size a /\
  forall i, i < lb_size a -> exists x y, lb_get a i = Some x /\ lb_get b i = Some y /\
    lb_get (lb_or a b) i = Some (x || y).
Proof.
  intros a b [La Fa] [Lb Fb] Hs. split; [|split; [reflexivity|]].
  - split; simpl; [rewrite or_blocks_length; assumption|]. apply or_blocks_bound; assumption.
  - intros i Hi. pose proof (block_index _ _ Hi) as Hb.
    destruct (nth_error (lb_bits a) (i / 32)) as [w|] eqn:Ea; [|apply nth_error_None in Ea; lia].
    destruct (nth_error (lb_bits b) (i / 32)) as [w'|] eqn:Eb; [|apply nth_error_None in Eb; rewrite Lb, Hs in Eb; lia].
    exists (N.testbit w (N.of_nat (i mod 32))), (N.testbit w' (N.of_nat (i mod 32))).
    rewrite (lb_get_testbit _ _ _ Ea), (lb_get_testbit _ _ _ Eb).
    rewrite (lb_get_testbit (lb_or a b) i (N.lor w w')).
    + rewrite N.lor_spec. auto.
    + simpl. apply or_blocks_nth; assumption.
Qed.

(** ** Histories against an abstract set *)
Definition lb_valid_op (n : nat) (o : lb_op) : Prop :=
  match o with
  | Op_set i _ => i < n
  | Op_or s => lb_wf s /\ lb_size s = n
  | _ => True
  end.

Lemma lb_step_ok : forall b o (m : nat -> bool), lb_wf b -> lb_valid_op (lb_size b) o ->
  (forall i, i < lb_size b -> lb_get b i = Some (m i)) ->
  exists b', lb_step (Some b) o = Some b' /\ lb_wf b' /\
    lb_size b' = match o with Op_resize n => n | _ => lb_size b end /\
    forall i, i < lb_size b' -> lb_get b' i = Some
      (match o with
       | Op_resize _ | Op_clear => false
       | Op_setall => true
       | Op_set k v => if Nat.eqb i k then v else m i
       | Op_or s => m i || match lb_get s i with Some x => x | None => false end
       end).
Proof.
  intros b o m Hwf Hv Hm. destruct o as [n| | |k v|s]; cbn [lb_step].
  - exists (lb_make n). repeat split; try apply wf_make. intros i Hi. apply lb_make_get. exact Hi.
  - exists (lb_clear b). split; [reflexivity|]. split; [apply (wf_make (lb_size b))|]. split; [reflexivity|].
    intros i Hi. apply lb_clear_get. exact Hi.
  - exists (lb_setall b). split; [reflexivity|]. split; [apply wf_setall; assumption|]. split; [reflexivity|].
    intros i Hi. apply lb_setall_get. exact Hi.
  - destruct (lb_set_spec b k v Hwf Hv) as (b' & E & W & S & G). exists b'.
    split; [assumption|]. split; [assumption|]. split; [assumption|].
    intros i Hi. rewrite G. destruct (Nat.eqb i k); [reflexivity|]. apply Hm. lia.
  - destruct Hv as [Hs1 Hs2]. destruct (lb_or_spec b s Hwf Hs1 Hs2) as (W & S & G).
    exists (lb_or b s). split; [reflexivity|]. split; [assumption|]. split; [assumption|].
    intros i Hi. destruct (G i Hi) as (x & y & G1 & G2 & G3).
    rewrite G3, G2. rewrite Hm in G1 by exact Hi. inversion G1. reflexivity.
Qed.
