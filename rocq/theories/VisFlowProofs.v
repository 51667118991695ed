From Coq Require Import List Arith Bool Lia.
Import ListNotations.
From Verif Require Import Base Dfs VisFloodModel VisFloodProofs VisFlowModel.

Definition sub (a b : list bool) : Prop := forall y, on a y -> on b y.

Lemma band_length : forall a b, length (band a b) = length a.
Proof. induction a as [|x a IH]; intros [|y b]; simpl; auto. Qed.

Lemma band_sub : forall a b, sub (band a b) a.
Proof.
  unfold sub, on. induction a as [|x a IH]; intros [|z b] [|y] H; simpl in *; try discriminate; auto.
  - destruct x; simpl in *; congruence.
  - eapply IH. eassumption.
Qed.

(** Frames of the right length, each inside [base]. *)
Definition frames_ok (n : nat) (base : list bool) (stk : list (list bool)) : Prop :=
  Forall (fun b => length b = n /\ sub b base) stk.

Lemma apply_masks_ok : forall n base stk masks, frames_ok n base stk -> frames_ok n base (apply_masks stk masks).
Proof.
  intros n base. induction stk as [|s t IH]; intros [|m u] H; simpl; try assumption.
  inversion H as [|? ? [H1 H2] H3]; subst. constructor.
  - rewrite band_length. split; [reflexivity|]. intros y Hy. apply H2. eapply band_sub; eassumption.
  - apply IH. assumption.
Qed.

Lemma apply_masks_length : forall stk masks, length (apply_masks stk masks) = length stk.
Proof. induction stk as [|s t IH]; intros [|m u]; simpl; auto. Qed.

(** A walk from leaf to leaf through portals, entering only leafs of [base]. *)
Inductive walk_in (g : vgraph) (base : list bool) : nat -> nat -> Prop :=
| win_here : forall x, walk_in g base x x
| win_portal : forall x ps p y z, walk_in g base x y -> nth_error (g_leafs g) y = Some ps -> In p ps ->
    nth_error (g_dest g) p = Some z -> on base z -> walk_in g base x z.

Record flow_ok (g : vgraph) (base : list bool) (src : nat) (s : fstate) : Prop := {
  fo_frames : frames_ok (length (g_leafs g)) base (f_stk s);
  fo_vis : length (f_vis s) = length (g_leafs g);
  fo_walk : forall y, on (f_vis s) y -> walk_in g base src y;
  fo_cnt : f_cnt s = count_true (f_vis s)
}.

Lemma count_true_upd : forall l x v, nth_error l x = Some false -> upd l x true = Some v -> count_true v = S (count_true l).
Proof.
  intros l x v Hn Hu. pose proof (count_upd _ _ _ Hn Hu). pose proof (upd_length _ _ _ _ _ Hu).
  pose proof (count_tf l). pose proof (count_tf v). lia.
Qed.

Lemma flow_spec : forall fuel g orc path pp s leafnum base src, wf_graph g -> flow_ok g base src s ->
  f_stk s <> [] -> NoDup path -> (forall x, In x path -> on (f_vis s) x) -> walk_in g base src leafnum ->
  leafnum < length (g_leafs g) -> length (g_leafs g) < fuel + length path ->
  exists s', flow fuel g orc path pp s leafnum = Some s' /\ flow_ok g base src s' /\
    length (f_stk s') = length (f_stk s) /\ sub (f_vis s) (f_vis s') /\ on (f_vis s') leafnum.
Proof.
  induction fuel as [|f IH]; intros g orc path pp s leafnum base src W Ok Hne ND HP HW HL HF.
  - (* the path would hold more leafs than there are *)
    exfalso. assert (length path <= length (g_leafs g)); [|simpl in HF; lia].
    rewrite <- (seq_length (length (g_leafs g)) 0). apply NoDup_incl_length; [assumption|].
    intros x Hx. apply in_seq. split; [lia|]. rewrite <- (fo_vis _ _ _ _ Ok). simpl. apply on_lt. auto.
  - cbn [flow]. destruct (existsb (Nat.eqb leafnum) path) eqn:Ep.
    { exists s. split; [reflexivity|]. split; [assumption|]. split; [reflexivity|]. split; [intros y; auto|].
      apply existsb_exists in Ep. destruct Ep as (x & Hx & He). apply Nat.eqb_eq in He. subst. auto. }
    assert (Hnp : ~ In leafnum path).
    { intro Hi. assert (existsb (Nat.eqb leafnum) path = true); [|congruence].
      apply existsb_exists. exists leafnum. split; [assumption|apply Nat.eqb_refl]. }
    destruct Ok as [O1 O2 O3 O4].
    destruct (nth_error (f_vis s) leafnum) as [b|] eqn:Eb.
    2:{ apply nth_error_None in Eb. lia. }
    destruct (nth_error (g_leafs g) leafnum) as [ps|] eqn:Eps.
    2:{ apply nth_error_None in Eps. lia. }
    set (cnt := if b then f_cnt s else S (f_cnt s)).
    assert (HV : exists vis, (if b then Some (f_vis s) else upd (f_vis s) leafnum true) = Some vis /\
       length vis = length (g_leafs g) /\ sub (f_vis s) vis /\ on vis leafnum /\
       (forall y, on vis y -> y = leafnum \/ on (f_vis s) y) /\ cnt = count_true vis).
    { destruct b.
      - exists (f_vis s). split; [reflexivity|]. split; [assumption|]. split; [intros y; auto|].
        split; [assumption|]. split; [auto|assumption].
      - destruct (upd_some _ (f_vis s) leafnum true) as [v Ev]; [lia|]. exists v.
        split; [assumption|]. split; [rewrite (upd_length _ _ _ _ _ Ev); assumption|].
        assert (Hv : forall y, on v y <-> y = leafnum \/ on (f_vis s) y).
        { intro y. unfold on. rewrite (upd_nth_error _ _ _ _ _ _ Ev).
          destruct (Nat.eqb_spec y leafnum); split; auto. intros [H|H]; [contradiction|assumption]. }
        split; [intros y Hy; apply Hv; auto|]. split; [apply Hv; auto|]. split; [apply Hv|].
        unfold cnt. rewrite O4. symmetry. eapply count_true_upd; eassumption. }
    destruct HV as (vis & Ev & Lv & Sv & Onv & Inv & Cv). rewrite Ev.
    match goal with |- exists s', fold_left ?fn ps (Some ?s1) = _ /\ _ =>
      assert (Hfold : forall l a, incl l ps -> flow_ok g base src a -> length (f_stk a) = length (f_stk s) ->
        sub (f_vis s) (f_vis a) -> on (f_vis a) leafnum ->
        exists s', fold_left fn l (Some a) = Some s' /\ flow_ok g base src s' /\
           length (f_stk s') = length (f_stk s) /\ sub (f_vis s) (f_vis s') /\ on (f_vis s') leafnum) end.
    { induction l as [|p l IHl]; intros a Hi Oa La Sa Na; cbn [fold_left].
      { exists a. auto. }
      assert (Hil : incl l ps) by (intros x Hx; apply Hi; right; assumption).
      destruct (f_stk a) as [|prev st] eqn:Estk.
      { simpl in La. destruct (f_stk s); [contradiction|discriminate]. }
      assert (Hp : p < length (g_dest g)).
      { destruct W as [W1 _]. rewrite Forall_forall in W1. pose proof (W1 _ (nth_error_In _ _ Eps)) as W1'.
        rewrite Forall_forall in W1'. apply W1'. apply Hi. left. reflexivity. }
      destruct (nth_error (g_dest g) p) as [dest|] eqn:Ed.
      2:{ apply nth_error_None in Ed. lia. }
      assert (Hd : dest < length (g_leafs g)).
      { destruct W as [_ W2]. rewrite Forall_forall in W2. apply W2. eapply nth_error_In; eassumption. }
      pose proof (fo_frames _ _ _ _ Oa) as Fa. rewrite Estk in Fa. inversion Fa as [|? ? [Lp Sp] Fst]; subst.
      assert (Ost : forall n st', frames_ok (length (g_leafs g)) base st' ->
        flow_ok g base src {| f_step := n; f_stk := st'; f_vis := f_vis a; f_cnt := f_cnt a |}).
      { intros n st' Hst. destruct Oa as [A1 A2 A3 A4]. constructor; auto. }
      destruct (nth_error prev dest) as [pb|] eqn:Epb.
      2:{ apply nth_error_None in Epb. lia. }
      destruct pb.
      2:{ apply IHl; auto. rewrite Estk. exact La. }
      match goal with |- context [negb (any_new ?m ?v)] => destruct (negb (any_new m v)) end.
      { apply IHl; auto. apply Ost. assumption. }
      match goal with |- context [negb (d_go ?d)] => destruct (negb (d_go d)) end.
      { apply IHl; auto. apply Ost. assumption. }
      destruct (IH g orc (leafnum :: path) (p :: pp)
        (ask a (band prev (d_test (orc (f_step a) (p :: pp))) :: prev :: st)) dest base src) as (s4 & E4 & O4' & L4 & S4 & N4).
      - assumption.
      - apply Ost. constructor; [|assumption]. rewrite band_length. split; [assumption|].
        intros y Hy. apply Sp. eapply band_sub; eassumption.
      - discriminate.
      - constructor; assumption.
      - intros x [<-|Hx]; [assumption|]. apply Sa. auto.
      - eapply win_portal; [exact HW|exact Eps|apply Hi; left; reflexivity|exact Ed|]. apply Sp. exact Epb.
      - assumption.
      - simpl. lia.
      - rewrite E4. cbn [ask f_stk] in L4.
        destruct (f_stk s4) as [|top rest] eqn:Es4; [discriminate|].
        destruct O4' as [P1 P2 P3 P4]. rewrite Es4 in P1.
        apply IHl; [assumption| | | |].
        + constructor; auto. inversion P1; assumption.
        + cbn [ask f_stk]. simpl in L4. simpl in La. lia.
        + cbn [ask f_vis]. intros y Hy. apply S4. apply Sa. assumption.
        + cbn [ask f_vis]. apply S4. assumption. }
    apply Hfold.
    + apply incl_refl.
    + constructor; cbn [f_stk f_vis f_cnt]; auto.
      * apply apply_masks_ok. assumption.
      * intros y Hy. destruct (Inv y Hy) as [->|Hy']; auto.
    + cbn [f_stk]. apply apply_masks_length.
    + assumption.
    + assumption.
Qed.

Lemma portal_flow_spec : forall g orc might leaf, wf_graph g -> length might = length (g_leafs g) ->
  leaf < length (g_leafs g) ->
  exists s, portal_flow g orc might leaf = Some s /\ length (f_vis s) = length (g_leafs g) /\
    on (f_vis s) leaf /\ (forall y, on (f_vis s) y -> walk_in g might leaf y) /\ f_cnt s = count_true (f_vis s).
Proof.
  intros g orc might leaf W HL Hl. unfold portal_flow.
  destruct (flow_spec (S (length (g_leafs g))) g orc [] []
    {| f_step := 0; f_stk := [might]; f_vis := repeat false (length (g_leafs g)); f_cnt := 0 |} leaf might leaf)
    as (s & E & [A B C D] & _ & _ & N); auto.
  - constructor; cbn [f_stk f_vis f_cnt].
    + constructor; [|constructor]. split; [assumption|]. intros y; auto.
    + apply repeat_length.
    + intros y Hy. unfold on in Hy. apply nth_error_In, repeat_spec in Hy. discriminate.
    + symmetry. apply count_true_repeat.
  - discriminate.
  - constructor.
  - intros x [].
  - constructor.
  - simpl. lia.
  - exists s. auto.
Qed.

Lemma walk_in_end : forall g base x y, walk_in g base x y -> y = x \/ on base y.
Proof. intros g base x y H. destruct H; auto. Qed.
