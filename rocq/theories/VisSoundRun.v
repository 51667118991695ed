(* Whole runs of the full visibility pass: starts, flows and completions in any order. *)
From Coq Require Import List Arith NArith ZArith Bool Lia.
Import ListNotations.
From Verif Require Import Base Dfs LeafBitsModel LeafBitsProofs VisFloodModel VisFloodProofs VisFlowModel VisFlowProofs VisFlowSound VisSchedProofs
  VisMightModel VisMightProofs VisMightHistory.

Section Run.
Variable g : vgraph.
Let n := length (g_leafs g).
(** [T s]: the chains of portals along which something is visible through portal [s]. *)
Variable T : nat -> list nat -> Prop.

Definition target (s : nat) (c : list nat) (y : nat) : Prop :=
  exists src, nth_error (g_dest g) s = Some src /\ ends g src c y.
(** Leaf [y] is visible through portal [s]. *)
Definition truly (s y : nat) : Prop := exists c, T s c /\ target s c y.

(** Lines of sight: they pass through portals of the leafs they cross, enter no leaf twice, their
    later part is a line of sight of each portal on them, and they can be followed backwards. *)
Record sight : Prop := {
  si_lines : forall s src, nth_error (g_dest g) s = Some src -> sightlines g src (T s);
  si_part : forall s e p c, T s (e ++ p :: c) -> T p e;
  si_back : forall x l qs my, nth_error (g_leafs g) l = Some qs -> In x qs -> truly x my ->
    exists mine p, nth_error (g_leafs g) my = Some mine /\ In p mine /\ truly p l
}.

Definition as_bools (b : leafbits) : list bool := map (has b) (seq 0 n).

(** The flow of portal [q] in a run with the states [hist] so far: its tests refuse no line of sight,
    and each bit it reads of another portal had that value in one of the states. *)
Definition flows (hist : list (list mportal)) (ps : list mportal) (q : nat) (v : leafbits) : Prop :=
  exists p src orc s, nth_error ps q = Some p /\ nth_error (g_dest g) q = Some src /\
    portal_flow g orc (as_bools (mp_might p)) src = Some s /\
    set_ok n v /\ (forall y, has v y = true <-> nth_error (f_vis s) y = Some true) /\
    (forall k x c, T q (x :: c) -> d_go (orc k (x :: c)) = true) /\
    (forall k u c m x e y, T q (x :: e ++ c) -> target q (x :: e ++ c) y ->
       nth_error (d_masks (orc k (u ++ c))) (length u) = Some m -> nth_error m y <> Some false) /\
    (forall k x c y, nth_error (d_test (orc k (x :: c))) y = Some false ->
       exists h px, In h hist /\ nth_error h x = Some px /\ sees px y = false).

(** Runs: the states so far, the latest first. *)
Inductive run (ps0 : list mportal) : list (list mportal) -> Prop :=
| run_init : run ps0 [ps0]
| run_start : forall ps h q ps', run ps0 (ps :: h) -> q < length ps ->
    mstep n (g_leafs g) (g_dest g) ps (E_start q) = Some ps' -> run ps0 (ps' :: ps :: h)
| run_finish : forall ps h q v ps', run ps0 (ps :: h) -> flows (ps :: h) ps q v ->
    mstep n (g_leafs g) (g_dest g) ps (E_finish q v) = Some ps' -> run ps0 (ps' :: ps :: h).

Definition holds (ps : list mportal) : Prop := length ps = length (g_dest g) /\
  forall s p y, nth_error ps s = Some p -> truly s y -> has (mp_might p) y = true /\ (mp_status p = 2%N -> has (mp_vis p) y = true).

Hypothesis SI : sight.
Hypothesis WG : wf_graph g.
Hypothesis LO : leafs_ok n (length (g_dest g)) (g_leafs g).

Lemma as_bools_on : forall b y, y < n -> (on (as_bools b) y <-> has b y = true).
Proof.
  intros b y H. unfold on, as_bools. rewrite nth_error_map. rewrite (nth_error_nth' _ 0) by (rewrite seq_length; exact H).
  rewrite seq_nth by exact H. cbn [option_map Nat.add]. split; [intro E; injection E as E; exact E|intros ->; reflexivity].
Qed.

Lemma truly_lt : forall s y, truly s y -> y < n.
Proof.
  intros s y [c [Ht [src [Hs He]]]]. destruct WG as [_ W2]. rewrite Forall_forall in W2. destruct c as [|p c]; cbn [ends] in He.
  - subst y. apply W2. eapply nth_error_In. exact Hs.
  - apply W2. eapply nth_error_In. exact He.
Qed.

Lemma flow_keeps : forall hist ps q v p, Forall holds hist -> holds ps -> nth_error ps q = Some p -> flows hist ps q v ->
  forall y, truly q y -> has v y = true.
Proof.
  intros hist ps q v p HH [HL HI] Hp (p' & src & orc & s & E1 & E2 & E3 & _ & E4 & E5 & E6 & E7) y Hy.
  rewrite Hp in E1. injection E1 as <-. apply E4.
  assert (A : accepts g src (T q) orc).
  { constructor.
    - exact E5.
    - intros k e x c z Ht Hz F. destruct (E7 k x c z F) as (h & px & H1 & H2 & H3).
      rewrite Forall_forall in HH. destruct (HH h H1) as [_ HT].
      assert (TR : truly x z).
      { exists e. split; [exact (si_part SI q e x c Ht)|]. 
        destruct (sl_step g src (T q) (si_lines SI q src E2) x c (tails g src (T q) (si_lines SI q src E2) e (x :: c) Ht)) as (_ & _ & w & _ & _ & _ & Ex).
        exists w. split; [exact Ex|]. destruct e as [|a e]; cbn [app ends] in *; congruence. }
      destruct (HT x px z H2 TR) as [M V]. unfold sees in H3. destruct (mp_status px =? 2)%N eqn:S2; [apply N.eqb_eq in S2; rewrite (V S2) in H3|rewrite M in H3]; discriminate.
    - intros k u c m x e z Ht Hz Hm. apply (E6 k u c m x e z Ht); [exists src; auto|exact Hm]. }
  unfold portal_flow in E3.
  match type of E3 with flow ?fu _ _ _ _ ?st _ = _ => destruct (flow_sound g src (T q) (si_lines SI q src E2) fu orc A WG [] [] st src s eq_refl eq_refl) as (_ & _ & _ & _ & R); cbn [f_stk f_vis] end.
  - intros u c' E. destruct u; [|discriminate E]. cbn [app] in E. subst c'. cbn [length nth_error]. eexists. split; [reflexivity|].
    intros x e z Ht Hz. rewrite app_nil_r in Ht, Hz. assert (TR : truly q z) by (exists (x :: e); split; [exact Ht|exists src; auto]).
    apply as_bools_on; [exact (truly_lt q z TR)|]. exact (proj1 (HI q p z Hp TR)).
  - constructor; [|constructor]. unfold as_bools. rewrite map_length, seq_length. reflexivity.
  - apply repeat_length.
  - exact E3.
  - destruct Hy as [c [Ht [src' [Hs He]]]]. rewrite E2 in Hs. injection Hs as <-. specialize (R c y). rewrite app_nil_r in R. exact (R Ht He).
Qed.

(** No state of a run loses a line of sight. *)
Theorem run_holds : forall ps0 hist, holds ps0 -> Forall (portal_ok n) ps0 -> run ps0 hist ->
  Forall holds hist /\ Forall (Forall (portal_ok n)) hist.
Proof.
  intros ps0 hist H0 P0 R. induction R as [|ps h q ps' R IH Q E|ps h q v ps' R IH F E].
  - split; constructor; auto.
  - destruct IH as [IH1 IH2]. inversion IH1 as [|? ? Hh Ht]; subst. inversion IH2 as [|? ? Ph Pt]; subst. pose proof Hh as Hh0. destruct Hh as [HL HI]. cbn [mstep] in E.
    destruct (nth_error ps q) as [p|] eqn:Ep; [|discriminate E]. destruct (mp_status p =? 0)%N eqn:S0.
    2: { injection E as <-. split; constructor; auto. }
    split; constructor; auto.
    + split; [rewrite (upd_length _ _ _ _ _ E); exact HL|]. intros s p2 y Hs Ht2.
      destruct (upd_cases _ _ _ _ _ _ _ E Hs) as [(X1 & X2)|(_ & X2)].
      * subst. cbn [mp_might mp_status]. split; [exact (proj1 (HI q p y Ep Ht2))|discriminate].
      * exact (HI s p2 y X2 Ht2).
    + refine (upd_Forall _ _ _ _ _ Ph _ E). rewrite Forall_forall in Ph. exact (Ph p (nth_error_In _ _ Ep)).
  - destruct IH as [IH1 IH2]. inversion IH1 as [|? ? Hh Ht]; subst. inversion IH2 as [|? ? Ph Pt]; subst. pose proof Hh as Hh0. destruct Hh as [HL HI]. cbn [mstep] in E.
    destruct (nth_error ps q) as [p|] eqn:Ep; [|discriminate E]. destruct (nth_error (g_dest g) q) as [my|] eqn:Ed; [|discriminate E].
    destruct (mp_status p =? 1)%N eqn:S1.
    2: { injection E as <-. split; constructor; auto. }
    destruct (upd ps q _) as [ps1|] eqn:Hu1 in E; [|discriminate E].
    set (p1 := {| mp_status := 1; mp_vis := v; mp_might := mp_might p; mp_num := mp_num p |}) in *.
    pose proof (flow_keeps (ps :: h) ps q v p IH1 Hh0 Ep F) as KV.
    assert (SV : set_ok n v) by (destruct F as (? & ? & ? & ? & _ & _ & _ & X & _); exact X).
    pose proof (upd_length _ _ _ _ _ Hu1) as L1.
    assert (Pp : portal_ok n p) by (rewrite Forall_forall in Ph; exact (Ph p (nth_error_In _ _ Ep))).
    assert (Hp1 : portal_ok n p1) by (split; [exact SV|apply Pp]).
    pose proof (upd_Forall _ _ _ _ _ Ph Hp1 Hu1) as HP1. pose proof (upd_same _ _ _ _ _ Hu1) as Eq1.
    destruct (upd_some _ ps1 q (set_done p1)) as (ps2 & Hu0); [apply nth_error_Some; congruence|].
    pose proof (upd_length _ _ _ _ _ Hu0) as L0.
    destruct (nth_error (g_leafs g) my) as [mine|] eqn:Em.
    2: { unfold portal_completed in E. rewrite Eq1, Hu0, Em in E. discriminate E. }
    assert (LO1 : leafs_ok n (length ps1) (g_leafs g)) by (rewrite L1, HL; exact LO).
    destruct (completed_effect n (g_leafs g) ps1 q my mine p1 ps2 LO1 HP1 Eq1 Em Hu0) as (psr & E' & L' & HE).
    rewrite E in E'. injection E' as <-.
    (* the state with [q] done keeps everything *)
    assert (H2 : forall s p3 y, nth_error ps2 s = Some p3 -> truly s y -> has (mp_might p3) y = true /\ (mp_status p3 = 2%N -> has (mp_vis p3) y = true)).
    { intros s p3 y Hs Ht2. destruct (upd_cases _ _ _ _ _ _ _ Hu0 Hs) as [(X1 & X2)|(X1 & X2)].
      - subst. cbn [set_done mp_might mp_vis p1]. split; [exact (proj1 (HI q p y Ep Ht2))|intros _; exact (KV y Ht2)].
      - destruct (upd_cases _ _ _ _ _ _ _ Hu1 X2) as [(Y1 & Y2)|(Y1 & Y2)]; [contradiction|]. exact (HI s p3 y Y2 Ht2). }
    split; constructor; auto.
    + split; [congruence|]. intros s p3 y Hs Ht2.
      destruct (nth_error ps2 s) as [p2|] eqn:E2.
      2: { apply nth_error_None in E2. assert (s < length ps') by (apply nth_error_Some; congruence). lia. }
      destruct (HE s p2 E2) as (p3' & A & B & C & D & M & _). rewrite Hs in A. injection A as <-.
      destruct (H2 s p2 y E2 Ht2) as [M2 V2]. split.
      * apply M. split; [exact M2|]. intros (Ey & St & l & qs & El & Iq & [_ EL]). subst y.
        destruct (si_back SI s l qs my El Iq Ht2) as (mine' & x & Em' & Ix & Tx). rewrite Em in Em'. injection Em' as <-.
        destruct (nth_error ps2 x) as [px|] eqn:Ex.
        2: { apply nth_error_None in Ex. destruct WG as [W1 _]. rewrite Forall_forall in W1. pose proof (W1 _ (nth_error_In _ _ Em)) as W1'. rewrite Forall_forall in W1'. specialize (W1' x Ix). lia. }
        destruct (H2 x px l Ex Tx) as [Mx Vx]. specialize (EL x px Ix Ex). unfold sees in EL.
        destruct (mp_status px =? 2)%N eqn:S2; [apply N.eqb_eq in S2; rewrite (Vx S2) in EL|rewrite Mx in EL]; discriminate.
      * rewrite B, C. exact V2.
    + apply Forall_forall. intros y Hy. apply In_nth_error in Hy. destruct Hy as (k & Hk).
      destruct (nth_error ps2 k) as [pk|] eqn:Ek.
      2: { apply nth_error_None in Ek. assert (k < length ps') by (apply nth_error_Some; congruence). lia. }
      destruct (HE k pk Ek) as (p3' & A & _ & _ & D & _). rewrite Hk in A. injection A as <-. exact D.
Qed.
End Run.
