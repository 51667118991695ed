(* Histories of portal starts and completions over the model of PortalCompleted. *)
From Coq Require Import List Arith NArith ZArith Bool Lia.
Import ListNotations.
From Verif Require Import Base LeafBitsModel LeafBitsProofs VisSchedProofs VisMightModel VisMightProofs.

(** Start: vis/vis.cc:248-252 (GetNextPortal marks the portal as working). Finish: PortalFlow
    fills visbits (vis/flow.cc:522-543; any set here), then vis/vis.cc:294-347 runs. Events
    on a portal in another state do not occur in the code and are ignored. *)
Inductive mevent := E_start (q : nat) | E_finish (q : nat) (vis : leafbits).

Definition mstep (n : nat) (leafs : list (list nat)) (dests : list nat) (ps : list mportal) (e : mevent)
  : option (list mportal) :=
  match e with
  | E_start q =>
    match nth_error ps q with
    | None => None
    | Some p => if (mp_status p =? 0)%N
                then upd ps q {| mp_status := 1; mp_vis := mp_vis p; mp_might := mp_might p; mp_num := mp_num p |}
                else Some ps
    end
  | E_finish q v =>
    match nth_error ps q, nth_error dests q with
    | Some p, Some my =>
      if (mp_status p =? 1)%N
      then match upd ps q {| mp_status := 1; mp_vis := v; mp_might := mp_might p; mp_num := mp_num p |} with
           | Some ps1 => portal_completed n leafs ps1 q my
           | None => None
           end
      else Some ps
    | _, _ => None
    end
  end.
Fixpoint mrun (n : nat) (leafs : list (list nat)) (dests : list nat) (ps : list mportal) (es : list mevent)
  : option (list mportal) :=
  match es with
  | [] => Some ps
  | e :: t => match mstep n leafs dests ps e with Some ps' => mrun n leafs dests ps' t | None => None end
  end.

Definition event_ok (n np : nat) (e : mevent) : Prop :=
  match e with E_start q => q < np | E_finish q v => q < np /\ set_ok n v end.

Definition counted (n : nat) (p : mportal) : Prop := mp_num p = Z.of_nat (card (mp_might p) n).

(** One step: portals that have started keep their might-see set, the others only lose
    members. *)
Definition shrinks (ps ps' : list mportal) : Prop :=
  length ps' = length ps /\
  forall x p, nth_error ps x = Some p -> exists p', nth_error ps' x = Some p' /\
    (mp_status p <= mp_status p')%N /\
    (forall m, has (mp_might p') m = true -> has (mp_might p) m = true) /\
    (mp_status p <> 0%N -> mp_might p' = mp_might p \/ forall m, has (mp_might p') m = has (mp_might p) m).

Lemma shrinks_refl : forall ps, shrinks ps ps.
Proof. intro ps. split; [reflexivity|]. intros x p H. exists p. split; [assumption|]. split; [lia|]. auto. Qed.

Lemma shrinks_trans : forall a b c, shrinks a b -> shrinks b c -> shrinks a c.
Proof.
  intros a b c [L1 H1] [L2 H2]. split; [congruence|]. intros x p Hp.
  destruct (H1 x p Hp) as (p1 & A & B & C & D). destruct (H2 x p1 A) as (p2 & E & F & G & I).
  exists p2. split; [assumption|]. split; [lia|]. split; [auto|]. intro Hn. right. intro m.
  destruct (D Hn) as [D'|D'], (I ltac:(lia)) as [I'|I']; rewrite ?I', ?D'; auto.
Qed.

Lemma upd_shrinks : forall ps q p p' ps', nth_error ps q = Some p -> upd ps q p' = Some ps' ->
  (mp_status p <= mp_status p')%N -> mp_might p' = mp_might p -> shrinks ps ps'.
Proof.
  intros ps q p p' ps' Hp Hu Hs Hm. split; [apply (upd_length _ _ _ _ _ Hu)|]. intros x p1 Hx.
  destruct (Nat.eq_dec x q) as [->|Hne].
  - rewrite Hp in Hx. inversion Hx; subst. exists p'. split; [apply (upd_same _ _ _ _ _ Hu)|]. split; [assumption|].
    rewrite Hm. auto.
  - exists p1. rewrite (upd_other _ _ _ _ _ _ Hu Hne). split; [assumption|]. split; [lia|]. auto.
Qed.

Lemma upd_Forall : forall (P : mportal -> Prop) ps q p' ps', Forall P ps -> P p' -> upd ps q p' = Some ps' -> Forall P ps'.
Proof.
  intros P ps q p' ps' HF HP Hu. rewrite Forall_forall in *. intros y Hy. apply In_nth_error in Hy. destruct Hy as (k & Hk).
  destruct (upd_cases _ _ _ _ _ _ _ Hu Hk) as [(_ & <-)|(_ & H)]; [assumption|]. apply HF. eapply nth_error_In; eassumption.
Qed.

Lemma mstep_ok : forall n leafs dests ps e, leafs_ok n (length ps) leafs -> length dests = length ps ->
  Forall (fun l => l < n) dests -> Forall (portal_ok n) ps -> Forall (counted n) ps -> event_ok n (length ps) e ->
  exists ps', mstep n leafs dests ps e = Some ps' /\ shrinks ps ps' /\ Forall (portal_ok n) ps' /\ Forall (counted n) ps'.
Proof.
  intros n leafs dests ps e HL HD HDn HP HC He. destruct e as [q|q v]; cbn [mstep event_ok] in *.
  - destruct (nth_error ps q) as [p|] eqn:Ep; [|apply nth_error_None in Ep; lia].
    pose proof HP as HP'. pose proof HC as HC'. rewrite Forall_forall in HP', HC'.
    pose proof (HP' _ (nth_error_In _ _ Ep)) as Hp. pose proof (HC' _ (nth_error_In _ _ Ep)) as Hc.
    destruct (mp_status p =? 0)%N eqn:E0.
    + destruct (upd_some _ ps q {| mp_status := 1; mp_vis := mp_vis p; mp_might := mp_might p; mp_num := mp_num p |} He) as (ps' & Hu).
      exists ps'. split; [assumption|].
      split; [apply (upd_shrinks ps q p _ ps' Ep Hu); [simpl; lia|reflexivity]|].
      split; [refine (upd_Forall _ _ _ _ _ HP _ Hu); exact Hp|refine (upd_Forall _ _ _ _ _ HC _ Hu); exact Hc].
    + exists ps. split; [reflexivity|]. split; [apply shrinks_refl|]. auto.
  - destruct He as [Hq Hv]. destruct (nth_error ps q) as [p|] eqn:Ep; [|apply nth_error_None in Ep; lia].
    destruct (nth_error dests q) as [my|] eqn:Ed; [|apply nth_error_None in Ed; lia].
    rewrite Forall_forall in HDn. pose proof (HDn _ (nth_error_In _ _ Ed)) as Hmy.
    pose proof HP as HP'. pose proof HC as HC'. rewrite Forall_forall in HP', HC'.
    pose proof (HP' _ (nth_error_In _ _ Ep)) as Hp. pose proof (HC' _ (nth_error_In _ _ Ep)) as Hc.
    destruct (mp_status p =? 1)%N eqn:E1.
    2:{ exists ps. split; [reflexivity|]. split; [apply shrinks_refl|]. auto. }
    set (p1 := {| mp_status := 1; mp_vis := v; mp_might := mp_might p; mp_num := mp_num p |}).
    destruct (upd_some _ ps q p1 Hq) as (ps1 & Hu1). rewrite Hu1.
    pose proof (upd_length _ _ _ _ _ Hu1) as L1.
    assert (Hp1 : portal_ok n p1) by (split; [exact Hv|apply Hp]).
    pose proof (upd_Forall _ _ _ _ _ HP Hp1 Hu1) as HP1. assert (HC1 : Forall (counted n) ps1) by (refine (upd_Forall _ _ _ _ _ HC _ Hu1); exact Hc).
    pose proof (upd_same _ _ _ _ _ Hu1) as Eq1.
    destruct (upd_some _ ps1 q (set_done p1)) as (ps0 & Hu0); [lia|].
    pose proof (upd_length _ _ _ _ _ Hu0) as L0.
    assert (exists mine, nth_error leafs my = Some mine) as (mine & Hmine).
    { destruct (nth_error leafs my) eqn:E; [eauto|]. apply nth_error_None in E. destruct HL as (L & _). lia. }
    rewrite <- L1 in HL.
    destruct (completed_effect n leafs ps1 q my mine p1 ps0 HL HP1 Eq1 Hmine Hu0) as (ps' & E & L' & H).
    exists ps'. split; [assumption|].
    assert (S1 : shrinks ps ps1) by (apply (upd_shrinks ps q p _ ps1 Ep Hu1); [simpl; lia|reflexivity]).
    assert (S2 : shrinks ps1 ps0) by (apply (upd_shrinks ps1 q p1 _ ps0 Eq1 Hu0); [simpl; lia|reflexivity]).
    assert (S3 : shrinks ps0 ps').
    { split; [congruence|]. intros x px Hx. destruct (H x px Hx) as (p2 & A & B & C & D & F & G).
      exists p2. split; [assumption|]. split; [lia|]. split; [intros m Hm; apply F in Hm; tauto|].
      intro Hs. right. intro m. destruct (has (mp_might p2) m) eqn:Em.
      - apply F in Em. symmetry. tauto.
      - destruct (has (mp_might px) m) eqn:Em'; [|reflexivity]. rewrite <- Em. apply F. split; [assumption|].
        intros (_ & Hs' & _). contradiction. }
    split; [apply (shrinks_trans _ _ _ S1), (shrinks_trans _ _ _ S2), S3|].
    assert (HC0 : Forall (counted n) ps0) by (refine (upd_Forall _ _ _ _ _ HC1 _ Hu0); exact Hc).
    split; apply Forall_forall; intros y Hy; apply In_nth_error in Hy; destruct Hy as (k & Hk).
    + destruct (nth_error ps0 k) as [pk|] eqn:Ek.
      2:{ apply nth_error_None in Ek. assert (k < length ps') by (apply nth_error_Some; congruence). lia. }
      destruct (H k pk Ek) as (p2 & A & B & C & D & F & G). rewrite Hk in A. inversion A; subst. assumption.
    + destruct (nth_error ps0 k) as [pk|] eqn:Ek.
      2:{ apply nth_error_None in Ek. assert (k < length ps') by (apply nth_error_Some; congruence). lia. }
      destruct (H k pk Ek) as (p2 & A & B & C & D & F & G). rewrite Hk in A. inversion A; subst. apply G.
      rewrite Forall_forall in HC0. apply HC0. eapply nth_error_In; eassumption.
Qed.

Lemma mrun_ok : forall es n leafs dests ps, leafs_ok n (length ps) leafs -> length dests = length ps ->
  Forall (fun l => l < n) dests -> Forall (portal_ok n) ps -> Forall (counted n) ps -> Forall (event_ok n (length ps)) es ->
  exists ps', mrun n leafs dests ps es = Some ps' /\ shrinks ps ps' /\ Forall (portal_ok n) ps' /\ Forall (counted n) ps'.
Proof.
  induction es as [|e es IH]; intros n leafs dests ps HL HD HDn HP HC HE; cbn [mrun].
  - exists ps. split; [reflexivity|]. split; [apply shrinks_refl|]. auto.
  - inversion HE as [|? ? He HE']; subst.
    destruct (mstep_ok n leafs dests ps e HL HD HDn HP HC He) as (ps1 & E & S & P & C). rewrite E.
    destruct S as [L S0]. assert (S : shrinks ps ps1) by (split; assumption). rewrite <- L in HL, HD, HE'.
    destruct (IH n leafs dests ps1 HL HD HDn P C HE') as (ps2 & A & B & D). exists ps2.
    split; [assumption|]. split; [eapply shrinks_trans; eassumption|assumption].
Qed.
