From Coq Require Import List Arith NArith ZArith Bool Lia ZifyBool ZifyNat ZifyN.
Import ListNotations.
From Verif Require Import Base Codec VisSchedModel.

Definition nm_ok (n : nat) (nm : list Z) : Prop := length nm = n /\ Forall (fun m => 0 <= m < Z.of_N INT_MAX)%Z nm.

Lemma to_unsigned_small : forall m, (0 <= m < Z.of_N INT_MAX)%Z -> to_unsigned 4 m = Z.to_N m.
Proof.
  intros m H. unfold to_unsigned. rewrite Z.mod_small; [reflexivity|]. unfold INT_MAX in H. simpl. lia.
Qed.

Lemma scan_spec : forall stat nm i min ret, length nm = length stat ->
  Forall (fun m => 0 <= m < Z.of_N INT_MAX)%Z nm ->
  (scan stat nm i min ret = ret \/ exists k, scan stat nm i min ret = Some (i + k) /\ nth_error stat k = Some 0%N) /\
  (ret = None -> min = INT_MAX -> scan stat nm i min ret = None -> countb (fun s => (s =? 0)%N) stat = 0) /\
  (ret <> None -> scan stat nm i min ret <> None).
Proof.
  induction stat as [|st stat IH]; intros [|m nm] i min ret HL HF; simpl in HL; try discriminate.
  - simpl. auto.
  - inversion HF as [|? ? Hm HF']; subst. cbn [scan countb].
    destruct ((to_unsigned 4 m <? min) && (st =? 0))%N eqn:E.
    + destruct (IH nm (S i) (to_unsigned 4 m) (Some i)) as (A & B & C); [lia|assumption|].
      split; [|split].
      * destruct A as [A|(k & A & K)].
        -- right. exists 0. rewrite A, Nat.add_0_r. split; [reflexivity|]. simpl. f_equal. lia.
        -- right. exists (S k). rewrite A. split; [f_equal; lia|]. exact K.
      * intros _ _ H. exfalso. apply C; [discriminate|assumption].
      * intros _. apply C. discriminate.
    + destruct (IH nm (S i) min ret) as (A & B & C); [lia|assumption|].
      split; [|split; [|assumption]].
      * destruct A as [A|(k & A & K)]; [left; assumption|].
        right. exists (S k). rewrite A. split; [f_equal; lia|]. exact K.
      * intros H1 H2 H3. rewrite (B H1 H2 H3). subst min. rewrite to_unsigned_small in E by assumption.
        replace (st =? 0)%N with false by lia. reflexivity.
Qed.

Lemma next_portal_some : forall stat nm p, nm_ok (length stat) nm -> next_portal stat nm = Some p ->
  nth_error stat p = Some 0%N.
Proof.
  intros stat nm p [HL HF] H. destruct (scan_spec stat nm 0 INT_MAX None HL HF) as ([A|(k & A & K)] & _).
  - unfold next_portal in H. congruence.
  - unfold next_portal in H. rewrite H in A. inversion A; subst. exact K.
Qed.

Lemma next_portal_none : forall stat nm, nm_ok (length stat) nm -> next_portal stat nm = None ->
  countb (fun s => (s =? 0)%N) stat = 0.
Proof.
  intros stat nm [HL HF] H. destruct (scan_spec stat nm 0 INT_MAX None HL HF) as (_ & B & _). apply B; auto.
Qed.

Lemma countb_upd : forall A (f : A -> bool) l i x y l', nth_error l i = Some y -> upd l i x = Some l' ->
  countb f l' + (if f y then 1 else 0) = countb f l + (if f x then 1 else 0).
Proof.
  intros A f. induction l as [|h t IH]; intros [|i] x y l' Hn Hu; simpl in *; try discriminate.
  - inversion Hn; subst. inversion Hu; subst. simpl. lia.
  - destruct (upd t i x) as [t'|] eqn:E; [|discriminate]. inversion Hu; subst. simpl. specialize (IH _ _ _ _ Hn E). lia.
Qed.

Lemma countb_zero : forall A (f : A -> bool) l i y, countb f l = 0 -> nth_error l i = Some y -> f y = false.
Proof.
  intros A f. induction l as [|h t IH]; intros [|i] y H Hn; simpl in *; try discriminate.
  - inversion Hn; subst. destruct (f y); [discriminate|reflexivity].
  - eapply IH; [|eassumption]. lia.
Qed.

Definition is_ready (t : task) : bool := match t with T_ready => true | _ => false end.
Definition works_on (t : task) (p : nat) : Prop := t = T_got p \/ t = T_flow p.

Record sched_inv (stat0 : list N) (s : sstate) : Prop := {
  si_len : length (ss_stat s) = length stat0;
  si_nm : nm_ok (length (ss_stat s)) (ss_nm s);
  si_range : Forall (fun x => x <= 2)%N (ss_stat s);
  si_ready : countb is_ready (ss_tasks s) = countb (fun x => (x =? 0)%N) (ss_stat s);
  si_work : forall p, nth_error (ss_stat s) p = Some 1%N <-> exists t k, nth_error (ss_tasks s) t = Some k /\ works_on k p;
  si_one : forall p t1 t2 k1 k2, nth_error (ss_tasks s) t1 = Some k1 -> nth_error (ss_tasks s) t2 = Some k2 ->
     works_on k1 p -> works_on k2 p -> t1 = t2;
  si_log : forall p, In p (ss_log s) <->
     p < length stat0 /\ nth_error stat0 p <> Some 2%N /\
       (nth_error (ss_stat s) p = Some 2%N \/ exists t, nth_error (ss_tasks s) t = Some (T_flow p));
  si_nodup : NoDup (ss_log s);
  si_done0 : forall p, nth_error stat0 p = Some 2%N -> nth_error (ss_stat s) p = Some 2%N
}.

Lemma works_on_inj : forall k p q, works_on k p -> works_on k q -> p = q.
Proof. intros k p q [->| ->] [H|H]; inversion H; reflexivity. Qed.

Lemma upd_cases : forall A (l : list A) i x l' k y, upd l i x = Some l' -> nth_error l' k = Some y ->
  (k = i /\ y = x) \/ (k <> i /\ nth_error l k = Some y).
Proof.
  intros A l i x l' k y Hu Hn. rewrite (upd_nth_error _ _ _ _ _ _ Hu) in Hn.
  destruct (Nat.eqb_spec k i); [left|right]; split; congruence.
Qed.
Lemma upd_same : forall A (l : list A) i x l', upd l i x = Some l' -> nth_error l' i = Some x.
Proof. intros A l i x l' Hu. rewrite (upd_nth_error _ _ _ _ _ _ Hu), Nat.eqb_refl. reflexivity. Qed.
Lemma upd_other : forall A (l : list A) i x l' k, upd l i x = Some l' -> k <> i -> nth_error l' k = nth_error l k.
Proof. intros A l i x l' k Hu Hk. rewrite (upd_nth_error _ _ _ _ _ _ Hu). destruct (Nat.eqb_spec k i); congruence. Qed.

Lemma Forall_upd_le : forall l i x l', Forall (fun v => v <= 2)%N l -> (x <= 2)%N -> upd l i x = Some l' ->
  Forall (fun v => v <= 2)%N l'.
Proof.
  intros l i x l' HF Hx Hu. apply Forall_forall. intros v Hv. apply In_nth_error in Hv. destruct Hv as [k Hk].
  destruct (upd_cases _ _ _ _ _ _ _ Hu Hk) as [[_ ->]|[_ H]]; [assumption|].
  rewrite Forall_forall in HF. apply HF. eapply nth_error_In; eassumption.
Qed.

Lemma sched_step_ok : forall stat0 s t nm', sched_inv stat0 s -> nm_ok (length stat0) nm' ->
  exists s', sched_step s (t, nm') = Some s' /\ sched_inv stat0 s'.
Proof.
  intros stat0 s t nm' I Hnm. pose proof I as [I1 I2 I3 I4 I5 I6 I7 I8 I9].
  unfold sched_step. destruct (nth_error (ss_tasks s) t) as [[|p|p|]|] eqn:Et; try (exists s; auto; fail).
  - (* fetch *)
    assert (Ht : t < length (ss_tasks s)) by (apply nth_error_Some; congruence).
    destruct (next_portal (ss_stat s) (ss_nm s)) as [p|] eqn:En.
    2:{ exfalso. pose proof (next_portal_none _ _ I2 En) as Hz. rewrite Hz in I4.
        pose proof (countb_zero _ _ _ _ _ I4 Et). discriminate. }
    pose proof (next_portal_some _ _ _ I2 En) as Hp.
    destruct (upd_some _ (ss_stat s) p 1%N) as [st Est]; [apply nth_error_Some; congruence|].
    destruct (upd_some _ (ss_tasks s) t (T_got p) Ht) as [ts Ets].
    rewrite Est, Ets. eexists. split; [reflexivity|].
    assert (Hnot : forall t1 k1, nth_error (ss_tasks s) t1 = Some k1 -> works_on k1 p -> False).
    { intros t1 k1 H1 H2. assert (nth_error (ss_stat s) p = Some 1%N) by (apply I5; eauto). congruence. }
    constructor; cbn [ss_stat ss_nm ss_tasks ss_log].
    + rewrite (upd_length _ _ _ _ _ Est). assumption.
    + rewrite (upd_length _ _ _ _ _ Est). assumption.
    + eapply Forall_upd_le; [eassumption| |eassumption]. lia.
    + pose proof (countb_upd _ (fun x => (x =? 0)%N) _ _ _ _ _ Hp Est).
      pose proof (countb_upd _ is_ready _ _ _ _ _ Et Ets). simpl in *. lia.
    + intro q. split.
      * intro Hq. destruct (upd_cases _ _ _ _ _ _ _ Est Hq) as [[-> _]|[Hne Hq']].
        -- exists t, (T_got p). split; [eapply upd_same; eassumption|left; reflexivity].
        -- apply I5 in Hq'. destruct Hq' as (t1 & k1 & H1 & H2). exists t1, k1. split; [|assumption].
           rewrite (upd_other _ _ _ _ _ _ Ets); [assumption|]. intro; subst. rewrite Et in H1. inversion H1; subst.
           destruct H2; discriminate.
      * intros (t1 & k1 & H1 & H2). destruct (upd_cases _ _ _ _ _ _ _ Ets H1) as [[-> ->]|[Hne H1']].
        -- assert (q = p) by (apply (works_on_inj (T_got p)); [assumption|left; reflexivity]). subst q.
           eapply upd_same; eassumption.
        -- rewrite (upd_other _ _ _ _ _ _ Est); [apply I5; eauto|]. intro; subst. eapply Hnot; eassumption.
    + intros q t1 t2 k1 k2 H1 H2 W1 W2.
      destruct (upd_cases _ _ _ _ _ _ _ Ets H1) as [[-> ->]|[Hne1 H1']];
      destruct (upd_cases _ _ _ _ _ _ _ Ets H2) as [[-> ->]|[Hne2 H2']].
      * reflexivity.
      * exfalso. assert (q = p) by (apply (works_on_inj (T_got p)); [assumption|left; reflexivity]). subst q. eapply Hnot; eassumption.
      * exfalso. assert (q = p) by (apply (works_on_inj (T_got p)); [assumption|left; reflexivity]). subst q. eapply Hnot; eassumption.
      * eapply I6; eassumption.
    + intro q. rewrite I7. split; intros (A & B & C); (split; [assumption|]; split; [assumption|]).
      * destruct C as [C|(t1 & C)].
        -- left. rewrite (upd_other _ _ _ _ _ _ Est); [assumption|]. congruence.
        -- right. exists t1. rewrite (upd_other _ _ _ _ _ _ Ets); [assumption|]. congruence.
      * destruct C as [C|(t1 & C)].
        -- left. destruct (upd_cases _ _ _ _ _ _ _ Est C) as [[_ Hx]|[_ C']]; [discriminate|assumption].
        -- right. exists t1. destruct (upd_cases _ _ _ _ _ _ _ Ets C) as [[_ Hx]|[_ C']]; [discriminate|assumption].
    + assumption.
    + intros q Hq. rewrite (upd_other _ _ _ _ _ _ Est); [auto|]. intro; subst. rewrite (I9 _ Hq) in Hp. discriminate.
  - (* enter PortalFlow *)
    assert (Ht : t < length (ss_tasks s)) by (apply nth_error_Some; congruence).
    assert (Hp : nth_error (ss_stat s) p = Some 1%N) by (apply I5; exists t, (T_got p); split; [assumption|left; reflexivity]).
    destruct (upd_some _ (ss_tasks s) t (T_flow p) Ht) as [ts Ets].
    rewrite Hp, Ets. eexists. split; [reflexivity|].
    assert (HW : forall t1 q, (exists k, nth_error ts t1 = Some k /\ works_on k q) <-> (exists k, nth_error (ss_tasks s) t1 = Some k /\ works_on k q)).
    { intros t1 q. split; intros (k & H1 & H2).
      - destruct (upd_cases _ _ _ _ _ _ _ Ets H1) as [[-> ->]|[Hne H1']]; [|eauto].
        exists (T_got p). split; [assumption|]. destruct H2 as [H2|H2]; inversion H2; left; reflexivity.
      - destruct (Nat.eq_dec t1 t) as [->|Hne].
        + rewrite Et in H1. inversion H1; subst. exists (T_flow p). split; [eapply upd_same; eassumption|].
          destruct H2 as [H2|H2]; inversion H2; right; reflexivity.
        + exists k. rewrite (upd_other _ _ _ _ _ _ Ets) by assumption. auto. }
    constructor; cbn [ss_stat ss_nm ss_tasks ss_log]; try assumption.
    + pose proof (countb_upd _ is_ready _ _ _ _ _ Et Ets). simpl in *. lia.
    + intro q. rewrite I5. split; intros (t1 & k & H1 & H2).
      * destruct (proj2 (HW t1 q)) as (k' & A & B); [eauto|]. eauto.
      * destruct (proj1 (HW t1 q)) as (k' & A & B); [eauto|]. eauto.
    + intros q t1 t2 k1 k2 H1 H2 W1 W2.
      destruct (proj1 (HW t1 q)) as (k1' & A1 & B1); [eauto|].
      destruct (proj1 (HW t2 q)) as (k2' & A2 & B2); [eauto|]. eapply I6; eassumption.
    + assert (Hp0 : p < length stat0 /\ nth_error stat0 p <> Some 2%N).
      { split; [rewrite <- I1; apply nth_error_Some; congruence|]. intro H. apply I9 in H. congruence. }
      intro q. cbn [In]. rewrite I7. split.
      * intros [<-|(A & B & C)].
        -- split; [tauto|]. split; [tauto|]. right. exists t. eapply upd_same; eassumption.
        -- split; [assumption|]. split; [assumption|]. destruct C as [C|(t1 & C)]; [left; assumption|].
           right. exists t1. rewrite (upd_other _ _ _ _ _ _ Ets); [assumption|]. congruence.
      * intros (A & B & C). destruct C as [C|(t1 & C)]; [right; auto|].
        destruct (upd_cases _ _ _ _ _ _ _ Ets C) as [[_ Hx]|[_ C']]; [left; congruence|right; eauto].
    + constructor; [|assumption]. rewrite I7. intros (_ & _ & [C|(t1 & C)]); [congruence|].
      assert (t1 = t). { apply (I6 p t1 t _ _ C Et); [right|left]; reflexivity. } subst. congruence.
  - (* complete *)
    assert (Ht : t < length (ss_tasks s)) by (apply nth_error_Some; congruence).
    assert (Hp : nth_error (ss_stat s) p = Some 1%N) by (apply I5; exists t, (T_flow p); split; [assumption|right; reflexivity]).
    destruct (upd_some _ (ss_stat s) p 2%N) as [st Est]; [apply nth_error_Some; congruence|].
    destruct (upd_some _ (ss_tasks s) t T_over Ht) as [ts Ets].
    rewrite Est, Ets. eexists. split; [reflexivity|].
    assert (Honly : forall t1 k1, nth_error (ss_tasks s) t1 = Some k1 -> works_on k1 p -> t1 = t).
    { intros t1 k1 H1 H2. eapply I6; try eassumption. right. reflexivity. }
    constructor; cbn [ss_stat ss_nm ss_tasks ss_log].
    + rewrite (upd_length _ _ _ _ _ Est). assumption.
    + rewrite (upd_length _ _ _ _ _ Est), I1. assumption.
    + eapply Forall_upd_le; [eassumption| |eassumption]. lia.
    + pose proof (countb_upd _ (fun x => (x =? 0)%N) _ _ _ _ _ Hp Est).
      pose proof (countb_upd _ is_ready _ _ _ _ _ Et Ets). simpl in *. lia.
    + intro q. split.
      * intro Hq. destruct (upd_cases _ _ _ _ _ _ _ Est Hq) as [[_ Hx]|[Hne Hq']]; [discriminate|].
        apply I5 in Hq'. destruct Hq' as (t1 & k1 & H1 & H2). exists t1, k1. split; [|assumption].
        rewrite (upd_other _ _ _ _ _ _ Ets); [assumption|]. intro; subst. rewrite Et in H1. inversion H1; subst.
        destruct H2 as [H2|H2]; inversion H2; congruence.
      * intros (t1 & k1 & H1 & H2). destruct (upd_cases _ _ _ _ _ _ _ Ets H1) as [[_ ->]|[Hne H1']]; [destruct H2; discriminate|].
        rewrite (upd_other _ _ _ _ _ _ Est); [apply I5; eauto|]. intro; subst. apply Hne. eapply Honly; eassumption.
    + intros q t1 t2 k1 k2 H1 H2 W1 W2.
      destruct (upd_cases _ _ _ _ _ _ _ Ets H1) as [[_ ->]|[Hne1 H1']]; [destruct W1; discriminate|].
      destruct (upd_cases _ _ _ _ _ _ _ Ets H2) as [[_ ->]|[Hne2 H2']]; [destruct W2; discriminate|].
      eapply I6; eassumption.
    + intro q. rewrite I7. split; intros (A & B & C); (split; [assumption|]; split; [assumption|]).
      * destruct C as [C|(t1 & C)].
        -- left. destruct (Nat.eq_dec q p) as [->|]; [eapply upd_same; eassumption|].
           rewrite (upd_other _ _ _ _ _ _ Est); assumption.
        -- destruct (Nat.eq_dec q p) as [->|Hne]; [left; eapply upd_same; eassumption|].
           right. exists t1. rewrite (upd_other _ _ _ _ _ _ Ets); [assumption|]. congruence.
      * destruct C as [C|(t1 & C)].
        -- destruct (upd_cases _ _ _ _ _ _ _ Est C) as [[-> _]|[_ C']]; [right; eauto|left; assumption].
        -- right. exists t1. destruct (upd_cases _ _ _ _ _ _ _ Ets C) as [[_ Hx]|[_ C']]; [discriminate|assumption].
    + assumption.
    + intros q Hq. rewrite (upd_other _ _ _ _ _ _ Est); [auto|]. intro; subst. rewrite (I9 _ Hq) in Hp. discriminate.
Qed.

Lemma sched_run_ok : forall es stat0 s, sched_inv stat0 s -> Forall (fun e => nm_ok (length stat0) (snd e)) es ->
  exists s', sched_run s es = Some s' /\ sched_inv stat0 s'.
Proof.
  induction es as [|[t nm'] es IH]; intros stat0 s I HF; cbn [sched_run].
  - exists s. auto.
  - inversion HF as [|? ? H1 H2]; subst. destruct (sched_step_ok stat0 s t nm' I H1) as (s' & E & I'). rewrite E. auto.
Qed.

Lemma countb_repeat : forall n, countb is_ready (repeat T_ready n) = n.
Proof. induction n; simpl; lia. Qed.

Lemma countb_split : forall l, Forall (fun x => x = 0 \/ x = 2)%N l ->
  countb (fun x => (x =? 0)%N) l + countb (fun x => (x =? 2)%N) l = length l.
Proof. induction 1 as [|x l [->| ->] _ IH]; simpl; lia. Qed.

Lemma sched_init_ok : forall stat nm, Forall (fun x => x = 0 \/ x = 2)%N stat -> nm_ok (length stat) nm ->
  sched_inv stat (sched_init stat nm).
Proof.
  intros stat nm HF Hnm. assert (Hready : forall t k, nth_error (ss_tasks (sched_init stat nm)) t = Some k -> k = T_ready).
  { intros t k H. simpl in H. apply nth_error_In, repeat_spec in H. assumption. }
  constructor; cbn [sched_init ss_stat ss_nm ss_log]; try assumption; try reflexivity.
  - eapply Forall_impl; [|exact HF]. simpl. intros; lia.
  - cbn [ss_tasks]. unfold sched_init. cbn [ss_tasks]. rewrite countb_repeat. pose proof (countb_split _ HF). lia.
  - intro p. split.
    + intro H. apply nth_error_In in H. rewrite Forall_forall in HF. destruct (HF _ H); discriminate.
    + intros (t & k & H & W). apply Hready in H. subst. destruct W; discriminate.
  - intros p t1 t2 k1 k2 H1 _ W. apply Hready in H1. subst. destruct W; discriminate.
  - intro p. split; [intros []|]. intros (_ & B & [C|(t & C)]); [contradiction|]. apply Hready in C. discriminate.
  - constructor.
  - auto.
Qed.

Lemma sched_final : forall stat0 s, sched_inv stat0 s -> Forall (fun t => t = T_over) (ss_tasks s) ->
  Forall (fun x => x = 2%N) (ss_stat s) /\ NoDup (ss_log s) /\
  forall p, In p (ss_log s) <-> p < length stat0 /\ nth_error stat0 p <> Some 2%N.
Proof.
  intros stat0 s [I1 I2 I3 I4 I5 I6 I7 I8 I9] HF.
  assert (Hno : forall t k, nth_error (ss_tasks s) t = Some k -> k = T_over).
  { intros t k H. rewrite Forall_forall in HF. apply HF. eapply nth_error_In; eassumption. }
  assert (Hz : countb is_ready (ss_tasks s) = 0).
  { clear - HF. induction HF as [|x l -> _ IH]; simpl; auto. }
  assert (Hall : forall p, p < length (ss_stat s) -> nth_error (ss_stat s) p = Some 2%N).
  { intros p Hp. destruct (nth_error (ss_stat s) p) as [x|] eqn:E.
    2:{ apply nth_error_None in E. lia. }
    rewrite I4 in Hz. pose proof (countb_zero _ _ _ _ _ Hz E) as H0. simpl in H0.
    assert (x <> 1%N). { intro; subst. apply I5 in E. destruct E as (t & k & H & W). apply Hno in H. subst. destruct W; discriminate. }
    rewrite Forall_forall in I3. pose proof (I3 x (nth_error_In _ _ E)). simpl in *. f_equal. lia. }
  split; [|split; [assumption|]].
  - apply Forall_forall. intros x Hx. apply In_nth_error in Hx. destruct Hx as [k Hk].
    assert (k < length (ss_stat s)) by (apply nth_error_Some; congruence). rewrite Hall in Hk by assumption. congruence.
  - intro p. rewrite I7. split; [tauto|]. intros (A & B). split; [assumption|]. split; [assumption|]. left.
    apply Hall. lia.
Qed.

(** The portal fetched is the first of those that might see least. *)
Lemma scan_least : forall stat nm i min ret, length nm = length stat ->
  Forall (fun m => 0 <= m < Z.of_N INT_MAX)%Z nm ->
  (scan stat nm i min ret = ret /\
     forall j m, nth_error stat j = Some 0%N -> nth_error nm j = Some m -> (min <= Z.to_N m)%N) \/
  exists k m, scan stat nm i min ret = Some (i + k) /\ nth_error stat k = Some 0%N /\ nth_error nm k = Some m /\
     (Z.to_N m < min)%N /\
     (forall j m', nth_error stat j = Some 0%N -> nth_error nm j = Some m' -> (m <= m')%Z) /\
     (forall j m', j < k -> nth_error stat j = Some 0%N -> nth_error nm j = Some m' -> (m < m')%Z).
Proof.
  induction stat as [|st stat IH]; intros [|m nm] i min ret HL HF; simpl in HL; try discriminate.
  - left. split; [reflexivity|]. intros [|j] m H; discriminate.
  - inversion HF as [|? ? Hm HF']; subst. cbn [scan]. rewrite to_unsigned_small by assumption.
    assert (HF2 : forall j m', nth_error nm j = Some m' -> (0 <= m')%Z).
    { intros j m' Hj. rewrite Forall_forall in HF'. apply HF'. eapply nth_error_In; eassumption. }
    destruct ((Z.to_N m <? min) && (st =? 0))%N eqn:E.
    + right. destruct (IH nm (S i) (Z.to_N m) (Some i)) as [(A & B)|(k & m1 & A & B & C & D & F & G)]; [lia|assumption| |].
      * exists 0, m. rewrite A, Nat.add_0_r. split; [reflexivity|]. split; [simpl; f_equal; lia|]. split; [reflexivity|].
        split; [lia|]. split; [|intros; lia].
        intros [|j] m' H1 H2; simpl in H1, H2; [inversion H2; lia|]. pose proof (B j m' H1 H2). pose proof (HF2 _ _ H2). lia.
      * exists (S k), m1. rewrite A. split; [f_equal; lia|]. split; [assumption|]. split; [assumption|].
        pose proof (HF2 _ _ C).
        split; [lia|]. split.
        -- intros [|j] m' H1 H2; simpl in H1, H2; [inversion H2; lia|]. eapply F; eassumption.
        -- intros [|j] m' Hj H1 H2; simpl in H1, H2; [inversion H2; lia|]. eapply G; try eassumption. lia.
    + destruct (IH nm (S i) min ret) as [(A & B)|(k & m1 & A & B & C & D & F & G)]; [lia|assumption| |].
      * left. split; [assumption|]. intros [|j] m' H1 H2; simpl in H1, H2; [|eapply B; eassumption].
        inversion H1; inversion H2; subst. lia.
      * right. exists (S k), m1. rewrite A. split; [f_equal; lia|]. split; [assumption|]. split; [assumption|].
        pose proof (HF2 _ _ C).
        split; [lia|]. split.
        -- intros [|j] m' H1 H2; simpl in H1, H2; [inversion H1; inversion H2; subst; lia|]. eapply F; eassumption.
        -- intros [|j] m' Hj H1 H2; simpl in H1, H2; [inversion H1; inversion H2; subst; lia|]. eapply G; try eassumption. lia.
Qed.

Lemma next_portal_least : forall stat nm p, nm_ok (length stat) nm -> next_portal stat nm = Some p ->
  exists m, nth_error stat p = Some 0%N /\ nth_error nm p = Some m /\
    (forall j m', nth_error stat j = Some 0%N -> nth_error nm j = Some m' -> (m <= m')%Z) /\
    (forall j m', j < p -> nth_error stat j = Some 0%N -> nth_error nm j = Some m' -> (m < m')%Z).
Proof.
  intros stat nm p [HL HF] H. unfold next_portal in H.
  destruct (scan_least stat nm 0 INT_MAX None HL HF) as [(A & _)|(k & m & A & B & C & _ & F & G)]; [congruence|].
  rewrite H in A. inversion A; subst. exists m. auto.
Qed.
