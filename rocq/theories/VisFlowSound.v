(* The recursive portal flow loses no line of sight that the geometric tests accept. *)
From Coq Require Import List Arith Bool Lia.
Import ListNotations.
From Verif Require Import Base Dfs VisFloodModel VisFloodProofs VisFlowModel VisFlowProofs.

Section Sound.
Variable g : vgraph.
(** The leaf the source portal leads into. *)
Variable src : nat.

(** A chain: the portals passed after the source portal, the latest first; the leaf it ends in, and
    the leafs it passes, the latest first. *)
Definition ends (c : list nat) (y : nat) : Prop :=
  match c with [] => y = src | p :: _ => nth_error (g_dest g) p = Some y end.
Fixpoint passes (c : list nat) : list nat :=
  match c with [] => [src] | p :: t => nth p (g_dest g) 0 :: passes t end.

(** [T]: the chains along which something is visible from the source portal. *)
Variable T : list nat -> Prop.

Record sightlines : Prop := {
  sl_tail : forall p c, T (p :: c) -> T c;
  sl_step : forall p c, T (p :: c) -> exists y ps z, ends c y /\ nth_error (g_leafs g) y = Some ps /\ In p ps /\ nth_error (g_dest g) p = Some z;
  sl_simple : forall c, T c -> NoDup (passes c)
}.

(** The set keeps leaf [y]; a missing entry leaves it unchanged. *)
Definition keeps (m : list bool) (y : nat) : Prop := nth_error m y <> Some false.

(** The tests refuse no chain of [T], and the sets they work with hold the leafs the chains lead to. *)
Record accepts (orc : nat -> list nat -> decision) : Prop := {
  ac_go : forall n p c, T (p :: c) -> d_go (orc n (p :: c)) = true;
  ac_test : forall n e p c y, T (e ++ p :: c) -> ends (e ++ p :: c) y -> keeps (d_test (orc n (p :: c))) y;
  ac_mask : forall n u c m p e y, T (p :: e ++ c) -> ends (p :: e ++ c) y ->
    nth_error (d_masks (orc n (u ++ c))) (length u) = Some m -> keeps m y
}.

Lemma band_on : forall a b y, on (band a b) y <-> on a y /\ keeps b y.
Proof.
  unfold on, keeps. induction a as [|x a IH]; intros b y.
  - cbn [band]. destruct y; cbn [nth_error]; split; intros H; try discriminate H; destruct H as [H _]; discriminate H.
  - destruct b as [|z b]; destruct y as [|y]; cbn [band nth_error].
    + split; [intros H; split; [exact H|discriminate]|intros [H _]; exact H].
    + split; [intros H; split; [exact H|discriminate]|intros [H _]; exact H].
    + destruct x, z; cbn [andb]; split; intros H; try discriminate H; try (split; [reflexivity|discriminate]); try reflexivity; destruct H as [H1 H2]; try discriminate H1; congruence.
    + apply IH.
Qed.

Lemma apply_masks_nth : forall stk masks i fr, nth_error stk i = Some fr ->
  nth_error (apply_masks stk masks) i = Some (match nth_error masks i with Some m => band fr m | None => fr end).
Proof.
  induction stk as [|s t IH]; intros [|m u] [|i] fr H; cbn [apply_masks nth_error] in *; try discriminate; try (injection H as <-; reflexivity); try exact H.
  apply IH. exact H.
Qed.

Lemma any_new_false : forall m v, length m = length v -> any_new m v = false -> forall y, on m y -> on v y.
Proof.
  unfold on. induction m as [|x m IH]; intros [|b v] L H [|y] Y; cbn [any_new nth_error length] in *; try discriminate.
  - apply orb_false_iff in H. destruct H as [H _]. injection Y as ->. destruct b; [reflexivity|discriminate H].
  - apply orb_false_iff in H. destruct H as [_ H]. apply (IH v ltac:(lia) H y Y).
Qed.

(** Each frame holds the leafs of the chains that go on from it. *)
Definition safe_frames (stk : list (list bool)) (c : list nat) : Prop :=
  forall u c', c = u ++ c' -> exists fr, nth_error stk (length u) = Some fr /\
    forall p e y, T (p :: e ++ c') -> ends (p :: e ++ c') y -> on fr y.

Hypothesis SL : sightlines.

Lemma tails : forall e c, T (e ++ c) -> T c.
Proof. induction e as [|p e IH]; intros c H; [exact H|]. apply IH. exact (sl_tail SL p (e ++ c) H). Qed.

Lemma ends_passes : forall c y, ends c y -> hd 0 (passes c) = y.
Proof. intros [|p c] y H; cbn in *; [congruence|]. apply nth_error_nth. exact H. Qed.

Lemma flow_sound : forall fuel orc, accepts orc -> wf_graph g -> forall path pp s leafnum s', path = tl (passes pp) -> ends pp leafnum ->
  safe_frames (f_stk s) pp -> Forall (fun f => length f = length (g_leafs g)) (f_stk s) -> length (f_vis s) = length (g_leafs g) ->
  flow fuel g orc path pp s leafnum = Some s' ->
  safe_frames (f_stk s') pp /\ Forall (fun f => length f = length (g_leafs g)) (f_stk s') /\ length (f_vis s') = length (g_leafs g) /\
  sub (f_vis s) (f_vis s') /\ (forall e y, T (e ++ pp) -> ends (e ++ pp) y -> on (f_vis s') y).
Proof.
  induction fuel as [|f IH]; intros orc A W path pp s leafnum s' HP HE HS HL HV H; cbn [flow] in H.
  - destruct (existsb (Nat.eqb leafnum) path) eqn:Ep; [|discriminate H]. injection H as <-. 
    split; [exact HS|]. split; [exact HL|]. split; [exact HV|]. split; [intros y Hy; exact Hy|].
    intros e y Ht _. exfalso. apply tails in Ht. apply existsb_exists in Ep. destruct Ep as [x [X1 X2]]. apply Nat.eqb_eq in X2. subst x path.
    pose proof (sl_simple SL pp Ht) as ND. rewrite <- (ends_passes pp leafnum HE) in X1. destruct (passes pp) as [|a t] eqn:E; [destruct X1|]. cbn in X1. inversion ND; contradiction.
  - destruct (existsb (Nat.eqb leafnum) path) eqn:Ep.
    { injection H as <-. split; [exact HS|]. split; [exact HL|]. split; [exact HV|]. split; [intros y Hy; exact Hy|].
      intros e y Ht _. exfalso. apply tails in Ht. apply existsb_exists in Ep. destruct Ep as [x [X1 X2]]. apply Nat.eqb_eq in X2. subst x path.
      pose proof (sl_simple SL pp Ht) as ND. rewrite <- (ends_passes pp leafnum HE) in X1. destruct (passes pp) as [|a t] eqn:E; [destruct X1|]. cbn in X1. inversion ND; contradiction. }
    destruct (nth_error (f_vis s) leafnum) as [b|] eqn:Eb; [|discriminate H].
    destruct (if b then Some (f_vis s) else upd (f_vis s) leafnum true) as [vis|] eqn:Ev; [|discriminate H].
    destruct (nth_error (g_leafs g) leafnum) as [ps|] eqn:Eps; [|discriminate H].
    assert (VV : length vis = length (g_leafs g) /\ sub (f_vis s) vis /\ on vis leafnum).
    { destruct b.
      - injection Ev as <-. split; [exact HV|]. split; [intros y Hy; exact Hy|exact Eb].
      - split; [rewrite (upd_length _ _ _ _ _ Ev); exact HV|]. assert (Hv : forall y, on vis y <-> y = leafnum \/ on (f_vis s) y).
        { intro y. unfold on. rewrite (upd_nth_error _ _ _ _ _ _ Ev). destruct (Nat.eqb_spec y leafnum); split; auto. intros [X|X]; [contradiction|assumption]. }
        split; [intros y Hy; apply Hv; auto|apply Hv; auto]. }
    destruct VV as [LV [SV OV]].
    match type of H with fold_left ?fn ps (Some ?s1) = _ => set (fn0 := fn) in H end.
    assert (HF : forall l a s', (forall p, In p l -> In p ps) -> safe_frames (f_stk a) pp -> Forall (fun f => length f = length (g_leafs g)) (f_stk a) ->
        length (f_vis a) = length (g_leafs g) -> fold_left fn0 l (Some a) = Some s' ->
        safe_frames (f_stk s') pp /\ Forall (fun f => length f = length (g_leafs g)) (f_stk s') /\ length (f_vis s') = length (g_leafs g) /\ sub (f_vis a) (f_vis s') /\
        (forall p e y, In p l -> T (e ++ p :: pp) -> ends (e ++ p :: pp) y -> on (f_vis s') y)).
    { assert (NN : forall l, fold_left fn0 l None = None) by (induction l as [|p l IHl]; [reflexivity|exact IHl]).
      induction l as [|p l IHl]; intros a r Hi Sa La Va Hf; cbn [fold_left] in Hf.
      { injection Hf as <-. repeat (split; [first [assumption | intros y Hy; exact Hy]|]). intros p e y []. }
      assert (Hil : forall q, In q l -> In q ps) by (intros q Hq; apply Hi; right; exact Hq).
      unfold fn0 at 2 in Hf.
      destruct (f_stk a) as [|prev st] eqn:Estk; [rewrite NN in Hf; discriminate Hf|].
      destruct (nth_error (g_dest g) p) as [dest|] eqn:Ed; [|rewrite NN in Hf; discriminate Hf].
      destruct (nth_error prev dest) as [pb|] eqn:Epb; [|rewrite NN in Hf; discriminate Hf].
      assert (PV : forall q e y, T (q :: e ++ pp) -> ends (q :: e ++ pp) y -> on prev y).
      { destruct (Sa [] pp eq_refl) as [fr [F1 F2]]. cbn [length nth_error] in F1. injection F1 as ->. exact F2. }
      inversion La as [|? ? Lp Lst]; subst.
      (* what [p] leads to, given that all of [m] is visible or is flowed to *)
      assert (REST : forall a', safe_frames (f_stk a') pp -> Forall (fun f => length f = length (g_leafs g)) (f_stk a') -> length (f_vis a') = length (g_leafs g) ->
        sub (f_vis a) (f_vis a') -> (forall e y, T (e ++ p :: pp) -> ends (e ++ p :: pp) y -> on (f_vis a') y) ->
        fold_left fn0 l (Some a') = Some r -> 
        safe_frames (f_stk r) pp /\ Forall (fun f => length f = length (g_leafs g)) (f_stk r) /\ length (f_vis r) = length (g_leafs g) /\ sub (f_vis a) (f_vis r) /\
        (forall q e y, In q (p :: l) -> T (e ++ q :: pp) -> ends (e ++ q :: pp) y -> on (f_vis r) y)).
      { intros a' S1 L1 V1 M1 C1 Hf'. destruct (IHl a' r Hil S1 L1 V1 Hf') as [R1 [R2 [R3 [R4 R5]]]].
        split; [exact R1|]. split; [exact R2|]. split; [exact R3|]. split; [intros y Hy; apply R4, M1; exact Hy|].
        intros q e y [<-|Q] Ht Hy; [apply R4; exact (C1 e y Ht Hy)|exact (R5 q e y Q Ht Hy)]. }
      assert (CH : forall e q, exists q' e', e ++ q :: pp = q' :: e' ++ pp).
      { intros [|q' e] q; [exists q, []; reflexivity|]. exists q', (e ++ [q]). cbn [app]. rewrite <- app_assoc. reflexivity. }
      destruct pb.
      2: { apply (REST a); auto.
           - rewrite Estk. exact Sa.
           - rewrite Estk. exact La.
           - intros y Hy; exact Hy.
           - intros e y Ht _. exfalso. pose proof (tails e (p :: pp) Ht) as Tp. pose proof (PV p [] dest Tp Ed) as O. unfold on in O. congruence. }
      set (d := orc (f_step a) (p :: pp)) in *. set (might := band prev (d_test d)) in *.
      assert (MS : forall e y, T (e ++ p :: pp) -> ends (e ++ p :: pp) y -> on might y).
      { intros e y Ht Hy. unfold might. apply band_on. split; [|exact (ac_test orc A (f_step a) e p pp y Ht Hy)].
        destruct (CH e p) as [q' [e' E']]. rewrite E' in Ht, Hy. exact (PV q' e' y Ht Hy). }
      assert (LM : length might = length (g_leafs g)) by (unfold might; rewrite band_length; exact Lp).
      destruct (any_new might (f_vis a)) eqn:AN; cbn [negb] in Hf.
      2: { apply (REST (ask a (prev :: st))); cbn [ask f_stk f_vis]; auto.
           - intros y Hy; exact Hy.
           - intros e y Ht Hy. apply (any_new_false might (f_vis a)); [congruence|exact AN|exact (MS e y Ht Hy)]. }
      destruct (d_go d) eqn:GO; cbn [negb] in Hf.
      2: { apply (REST (ask a (prev :: st))); cbn [ask f_stk f_vis]; auto.
           - intros y Hy; exact Hy.
           - intros e y Ht _. exfalso. pose proof (ac_go orc A (f_step a) p pp (tails e (p :: pp) Ht)) as G. fold d in G. congruence. }
      destruct (flow f g orc (leafnum :: tl (passes pp)) (p :: pp) (ask a (might :: prev :: st)) dest) as [s4|] eqn:E4; [|rewrite NN in Hf; discriminate Hf].
      destruct (IH orc A W (leafnum :: tl (passes pp)) (p :: pp) (ask a (might :: prev :: st)) dest s4) as [Q1 [Q2 [Q3 [Q4 Q5]]]].
      - cbn [passes tl]. rewrite <- (ends_passes pp leafnum HE). destruct pp; reflexivity.
      - exact Ed.
      - intros u c' E. destruct u as [|q u]; cbn [app] in E.
        + subst c'. exists might. split; [reflexivity|]. intros q e y Ht Hy. change (q :: e ++ p :: pp) with ((q :: e) ++ p :: pp) in Ht, Hy. exact (MS (q :: e) y Ht Hy).
        + injection E as <- E. destruct (Sa u c' E) as [fr [F1 F2]]. exists fr. split; [exact F1|exact F2].
      - cbn [ask f_stk]. constructor; [exact LM|exact La].
      - exact Va.
      - exact E4.
      - destruct (f_stk s4) as [|top rest] eqn:Es4; [rewrite NN in Hf; discriminate Hf|].
        apply (REST (ask s4 rest)); cbn [ask f_stk f_vis]; auto.
        + intros u c' E. destruct (Q1 (p :: u) c') as [fr [F1 F2]]; [cbn [app]; congruence|]. exists fr. split; [exact F1|exact F2].
        + inversion Q2; assumption. }
    match type of H with fold_left fn0 ps (Some ?s1) = _ => destruct (HF ps s1 s' (fun p Hp => Hp)) as [R1 [R2 [R3 [R4 R5]]]]; cbn [f_stk f_vis] end.
    + intros u c' E. destruct (HS u c' E) as [fr [F1 F2]]. eexists. split; [exact (apply_masks_nth _ _ _ _ F1)|].
      intros p e y Ht Hy. destruct (nth_error (d_masks (orc (f_step s) pp)) (length u)) as [m|] eqn:Em; [|exact (F2 p e y Ht Hy)].
      apply band_on. split; [exact (F2 p e y Ht Hy)|]. rewrite E in Em. exact (ac_mask orc A (f_step s) u c' m p e y Ht Hy Em).
    + clear - HL. revert HL. generalize (d_masks (orc (f_step s) pp)). generalize (f_stk s). induction l as [|x t IHt]; intros [|m u] F; cbn [apply_masks]; auto.
      inversion F; subst. constructor; [rewrite band_length; assumption|apply IHt; assumption].
    + exact LV.
    + exact H.
    + split; [exact R1|]. split; [exact R2|]. split; [exact R3|]. split; [intros y Hy; apply R4, SV; exact Hy|].
      intros e y Ht Hy. destruct e as [|q e] using rev_ind.
      * cbn [app] in Hy, Ht. apply R4. cbn [f_vis]. replace y with leafnum; [exact OV|]. apply ends_passes in Hy. apply ends_passes in HE. congruence.
      * rewrite <- app_assoc in Ht, Hy. cbn [app] in Ht, Hy. clear IHe. apply (R5 q e y); [|exact Ht|exact Hy].
        destruct (sl_step SL q pp (tails e (q :: pp) Ht)) as [y1 [ps1 [z [X1 [X2 [X3 _]]]]]]. apply ends_passes in X1. apply ends_passes in HE.
        assert (y1 = leafnum) by congruence. subst y1. congruence.
Qed.
End Sound.
