(* CRC, string ordering and hashing, the progress lock. *)
From Coq Require Import List Arith NArith ZArith Bool Lia.
Import ListNotations.
From Verif Require Import ParserModel CmdlibModel CmdlibProofs.
Local Open Scope N_scope.

(** ** C55: progress printing *)

(** parallel_for over any number of items on any number of threads, under any interleaving and any
    spurious failures: at most one thread is inside the printing section; the lock is held exactly
    while one is; so when all calls have returned it is free for the next loop. *)
Theorem C55_parallel_for : forall len threads s,
  star (pfstep len) (mkPF 0 false (mkP false (repeat PIdle threads))) s ->
  (forall i j f g, nth_error (p_threads (pf_lock s)) i = Some (PIn f) ->
     nth_error (p_threads (pf_lock s)) j = Some (PIn g) -> i = j) /\
  (p_locked (pf_lock s) = true <-> exists i f, nth_error (p_threads (pf_lock s)) i = Some (PIn f)) /\
  (pf_progress s <= len)%nat.
Proof.
  intros len threads s S.
  assert (I : pfinv len s).
  { set (s0 := mkPF 0 false (mkP false (repeat PIdle threads))) in S.
    assert (I0 : pfinv len s0).
    { split; [apply linv_init|]. split; [simpl; lia|]. intros _. apply Forall_forall. intros x X.
      apply repeat_spec in X. subst x. reflexivity. }
    clearbody s0. induction S; [exact I0|]. eapply pfinv_step; [apply IHS; exact I0|exact H]. }
  destruct I as [[I1 [I2 _]] [I3 _]]. split; [|split; [|exact I3]].
  - intros i j f g A B. apply (I1 i j _ _ A B); reflexivity.
  - rewrite I2. split.
    + intros [i [p [A X]]]. destruct p as [| |f]; try discriminate X. exists i, f. exact A.
    + intros [i [f A]]. exists i, (PIn f). auto.
Qed.
Print Assumptions C55_parallel_for.

(** The same whenever no finishing call (count == max) overlaps another call. *)
Theorem C55_exclusive_partial : forall threads s,
  star (pstep no_overlap) (mkP false (repeat PIdle threads)) s ->
  forall i j f g, nth_error (p_threads s) i = Some (PIn f) -> nth_error (p_threads s) j = Some (PIn g) -> i = j.
Proof.
  intros threads s S i j f g A B. destruct (linv_star _ _ (linv_init threads) S) as [I1 _].
  apply (I1 i j _ _ A B); reflexivity.
Qed.
Print Assumptions C55_exclusive_partial.

(** A finishing call that finds the lock taken enters on its second attempt, because the failed
    exchange left [expected] true: two threads are then inside. *)
Theorem C55_finishing_overlap_refuted : exists s,
  star (pstep (fun _ _ => True)) (mkP false [PIdle; PIdle]) s /\
  nth_error (p_threads s) 0 = Some (PIn false) /\ nth_error (p_threads s) 1 = Some (PIn true).
Proof.
  exists (mkP true [PIn false; PIn true]). split; [|split; reflexivity].
  eapply star_step; [eapply star_step; [eapply star_step; [eapply star_step; [eapply star_step; [apply star_refl|]|]|]|]|].
  - apply (StBegin _ (mkP false [PIdle; PIdle]) 0 false); [reflexivity|exact I].
  - apply (StAcquire _ (mkP false [PTry false false; PIdle]) 0 false false); reflexivity.
  - apply (StBegin _ (mkP true [PIn false; PIdle]) 1 true); [reflexivity|exact I].
  - apply (StFailWait _ (mkP true [PIn false; PTry false true]) 1 false). reflexivity.
  - apply (StAcquire _ (mkP true [PIn false; PTry true true]) 1 true true); reflexivity.
Qed.
Print Assumptions C55_finishing_overlap_refuted.

(* Two items on two threads, the second finding the lock taken; then the finishing call. *)
Example C55_nontrivial : exists s,
  star (pfstep 2) (mkPF 0 false (mkP false (repeat PIdle 2))) s /\
  pf_done s = true /\ nth_error (p_threads (pf_lock s)) 0 = Some (PIn true).
Proof.
  exists (mkPF 2 true (mkP true [PIn true; PIdle])). split; [|split; reflexivity].
  eapply star_step; [eapply star_step; [eapply star_step; [eapply star_step; [eapply star_step; [eapply star_step;
    [eapply star_step; [apply star_refl|]|]|]|]|]|]|].
  - apply (PfItem 2 0 (mkP false [PIdle; PIdle]) 0); [lia|reflexivity].
  - apply (PfItem 2 1 (mkP false [PTry false false; PIdle]) 1); [lia|reflexivity].
  - apply PfRun. apply (StAcquire _ (mkP false [PTry false false; PTry false false]) 0 false false); reflexivity.
  - apply PfRun. apply (StFailReturn _ (mkP true [PIn false; PTry false false]) 1 false). reflexivity.
  - apply PfRun. apply (StUnlock _ (mkP true [PIn false; PIdle]) 0 false). reflexivity.
  - apply (PfFinish 2 (mkP false [PIdle; PIdle]) 0); [repeat constructor|simpl; lia].
  - apply PfRun. apply (StAcquire _ (mkP false [PTry false true; PIdle]) 0 false true); reflexivity.
Qed.

(** ** C56: CRC *)

(** CRC_Block is the bit-by-bit CRC-16 with polynomial 0x1021 and initial value 0xffff. *)
Theorem C56_ccitt : forall l, Forall (fun b => b < 256) l ->
  crc_block l =
  fold_left (fun crc b =>
    Nat.iter 8 (fun x => let y := (2 * x) mod 65536 in if 32768 <=? x then N.lxor y 4129 else y)
      (N.lxor crc (b * 256))) l 65535.
Proof.
  intros l F. unfold crc_block, CRC_INIT_VALUE.
  assert (B : 65535 < 65536) by reflexivity. revert B. generalize 65535.
  induction l as [|b l IH]; intros crc C; [reflexivity|]. inversion F as [|? ? A F']; subst.
  cbn [fold_left]. rewrite IH by (try exact F'; apply crc_byte_bound). f_equal.
  rewrite crc_byte_spec by assumption. unfold crc_spec_byte.
  assert (Sh : forall x, x < 65536 ->
    crc_shift x = (let y := (2 * x) mod 65536 in if 32768 <=? x then N.lxor y 4129 else y) /\ crc_shift x < 65536).
  { intros x X. unfold crc_shift. rewrite N.shiftl_mul_pow2. change (2 ^ 1) with 2. rewrite (N.mul_comm x 2).
    assert (M : (2 * x) mod 65536 < 65536) by (apply N.mod_lt; discriminate).
    assert (T : N.testbit x 15 = (32768 <=? x)).
    { rewrite N.testbit_odd, N.shiftr_div_pow2. change (2 ^ 15) with 32768. destruct (N.leb_spec 32768 x) as [L|L].
      - replace (x / 32768) with 1; [reflexivity|]. apply N.div_unique with (x - 32768); lia.
      - rewrite N.div_small by exact L. reflexivity. }
    rewrite T. cbv zeta. destruct (32768 <=? x); split; try reflexivity; [|exact M].
    change 65536 with (2 ^ 16). apply lxor_bound; [exact M|reflexivity]. }
  set (x0 := N.lxor crc (N.shiftl b 8)).
  assert (X0 : x0 < 65536).
  { subst x0. change 65536 with (2 ^ 16). apply lxor_bound; [exact C|].
    rewrite N.shiftl_mul_pow2. change (2 ^ 8) with 256. change (2 ^ 16) with 65536. lia. }
  replace (N.lxor crc (b * 256)) with x0 by (subst x0; rewrite N.shiftl_mul_pow2; reflexivity).
  clearbody x0.
  set (g := fun x : N => let y := (2 * x) mod 65536 in if 32768 <=? x then N.lxor y 4129 else y).
  assert (It : forall n, Nat.iter n g x0 = Nat.iter n crc_shift x0 /\ Nat.iter n crc_shift x0 < 65536).
  { induction n as [|n [E L]]; [split; [reflexivity|exact X0]|]. 
    change (Nat.iter (S n) g x0) with (g (Nat.iter n g x0)).
    change (Nat.iter (S n) crc_shift x0) with (crc_shift (Nat.iter n crc_shift x0)).
    destruct (Sh _ L) as [S1 S2]. split; [|exact S2]. rewrite E, S1. reflexivity. }
  symmetry. exact (proj1 (It 8%nat)).
Qed.
Print Assumptions C56_ccitt.

(** It can be computed piece by piece. *)
Theorem C56_incremental : forall a b,
  crc_block (a ++ b) = fold_left crc_byte b (crc_block a).
Proof. intros. apply fold_left_app. Qed.
Print Assumptions C56_incremental.

(* The check value of CRC-16/CCITT-FALSE for "123456789" is 0x29B1. *)
Example C56_nontrivial : crc_block [49;50;51;52;53;54;55;56;57] = 10673.
Proof. vm_compute. reflexivity. Qed.

(** ** C58: ordering *)

(** natural_less and natural_case_insensitive_less never hold both ways, so never for a string and itself. *)
Theorem C58_asymmetric : forall cs a b, natstrlt cs a b = true -> natstrlt cs b a = false.
Proof.
  intros cs a b H. destruct (natstrlt cs b a) eqn:E; [|reflexivity]. exfalso. unfold natstrlt in *.
  rewrite (natlt_fuel cs _ (S (length (cstr a)))) in E by lia.
  apply (natlt_asym cs _ _ _ _ _ H E).
Qed.
Print Assumptions C58_asymmetric.

(** Among strings whose numbers are written without leading zeros they are strict weak orders. *)
Theorem C58_no_leading_zeros_partial : forall cs,
  strict_weak (fun s => no_leading_zero (cstr s)) (natstrlt cs).
Proof.
  intro cs. apply (strict_weak_key _ _ (fun s => enc (S (length (cstr s))) cs (cstr s))).
  intros a b A B. unfold natstrlt. set (f := S (length (cstr a) + length (cstr b))).
  rewrite (natlt_fuel cs _ f) by (subst f; lia).
  rewrite (enc_fuel cs _ f (cstr a)) by (subst f; lia). rewrite (enc_fuel cs _ f (cstr b)) by (subst f; lia).
  apply natlt_enc; try assumption; subst f; lia.
Qed.
Print Assumptions C58_no_leading_zeros_partial.

(** With leading zeros there is a cycle: "00a" < "0b" < "00" < "00a". *)
Theorem C58_transitive_refuted : forall cs,
  natstrlt cs [48;48;97] [48;98] = true /\ natstrlt cs [48;98] [48;48] = true /\
  natstrlt cs [48;48] [48;48;97] = true /\ natstrlt cs [48;48;97] [48;48] = false.
Proof. intros []; vm_compute; repeat split; reflexivity. Qed.
Print Assumptions C58_transitive_refuted.

(** case_insensitive_less is a strict weak order on all strings. *)
Theorem C58_case_insensitive_less : strict_weak (fun _ => True) ci_less.
Proof.
  apply (strict_weak_key _ _ (fun s => map (fun c => Z.of_N (lower c)) (cstr s))).
  intros a b _ _. unfold ci_less, lexlt. rewrite casecmp_lex. reflexivity.
Qed.
Print Assumptions C58_case_insensitive_less.

(* "map2" < "map10" < "MAP10a", and "Map10" equivalent to "mAP10". *)
Example C58_nontrivial :
  natstrlt false [109;97;112;50] [109;97;112;49;48] = true /\
  natstrlt false [109;97;112;49;48] [77;65;80;49;48;97] = true /\
  natstrlt false [77;97;112;49;48] [109;65;80;49;48] = false /\
  natstrlt false [109;65;80;49;48] [77;97;112;49;48] = false.
Proof. vm_compute. repeat split; reflexivity. Qed.

(** ** C59: hash and equality *)

Theorem C59_hash_agrees : forall a b, ~ In 0 a -> ~ In 0 b -> ci_equal a b = true -> ci_hash a = ci_hash b.
Proof.
  intros a b A B H. unfold ci_equal in H. rewrite !cstr_id in H by assumption.
  destruct (casecmp a b) eqn:E; try discriminate H. apply casecmp_eq in E. apply hash_lower. exact E.
Qed.
Print Assumptions C59_hash_agrees.

(** The equality is the equality up to case that string_iequals computes. *)
Theorem C59_equality_is_up_to_case : forall a b, ~ In 0 a -> ~ In 0 b ->
  ci_equal a b = iequals a b /\ (iequals a b = true <-> map lower a = map lower b).
Proof.
  intros a b A B. split; [|apply iequals_iff]. unfold ci_equal. rewrite !cstr_id by assumption.
  destruct (casecmp a b) eqn:E; destruct (iequals a b) eqn:Q; try reflexivity;
    first [apply casecmp_eq in E; apply iequals_iff in E; congruence | apply iequals_iff in Q; apply casecmp_eq in Q; congruence].
Qed.
Print Assumptions C59_equality_is_up_to_case.

(** A NUL inside the name ends the comparison but not the hash. *)
Theorem C59_embedded_nul_refuted : exists a b, ci_equal a b = true /\ ci_hash a <> ci_hash b.
Proof. exists [97; 0; 98], [65; 0; 99]. split; [reflexivity|]. vm_compute. discriminate. Qed.
Print Assumptions C59_embedded_nul_refuted.

Example C59_nontrivial : ci_equal [84;69;88;51;200] [116;101;88;51;200] = true /\
  ci_hash [84;69;88;51;200] = ci_hash [116;101;88;51;200] /\ ci_hash [97] <> ci_hash [98].
Proof. split; [reflexivity|]. split; [vm_compute; reflexivity|]. vm_compute. discriminate. Qed.
