(* Statements: options that follow from others, for qbsp (C153). *)
From Coq Require Import List Arith NArith ZArith Bool Lia Permutation.
Import ListNotations.
From Verif Require Import SettingsModel LmLumpsModel OptionsModel.
Local Open Scope Z_scope.

(** * C153: qbsp *)

(** The last time an option is given, by qbsp.ini or by the command line after it; and that it is never given. *)
Definition gives {A} (l : list (A * Z)) (x : A) (z : Z) : Prop := exists a b, l = a ++ (x, z) :: b /\ forall p, In p b -> fst p <> x.
Definition silent {A} (l : list (A * Z)) (x : A) : Prop := forall z, ~ In (x, z) l.
Definition on {A} (l : list (A * Z)) (x : A) : Prop := exists z, gives l x z /\ z <> 0.

Lemma qopt_eqb_iff a b : qopt_eqb a b = true <-> a = b. Proof. split; [destruct a, b; intros H; try reflexivity; discriminate H|intros ->; destruct b; reflexivity]. Qed.
Lemma q_given_snoc l x z : q_given (l ++ [(x, z)]) = q_set (q_given l) x (set_val (q_given l x) z SCmd).
Proof. unfold q_given. rewrite fold_left_app. reflexivity. Qed.
Lemma q_given_def l x : s_def (q_given l x) = q_def x.
Proof.
  induction l as [|[y z] l IH] using rev_ind; [reflexivity|]. rewrite q_given_snoc. unfold q_set. destruct (qopt_eqb y x) eqn:E; [|exact IH].
  apply qopt_eqb_iff in E. subst y. unfold set_val. destruct (src_ge _ _); exact IH.
Qed.
Lemma snoc_gives {A} (l : list (A * Z)) y w x z : gives (l ++ [(y, w)]) x z <-> (y = x /\ w = z) \/ (y <> x /\ gives l x z).
Proof.
  split.
  - intros (a & b & E & N). destruct b as [|p b _] using rev_ind.
    + change (a ++ (x, z) :: nil) with (a ++ [(x, z)]) in E. apply app_inj_tail in E. destruct E as [_ E]. injection E as -> ->. left. split; reflexivity.
    + rewrite app_comm_cons, app_assoc in E. apply app_inj_tail in E. destruct E as [-> <-]. right. split; [apply (N (y, w)), in_or_app; right; left; reflexivity|].
      exists a, b. split; [reflexivity|]. intros p I. apply N, in_or_app. left. exact I.
  - intros [[-> ->]|[D (a & b & -> & N)]].
    + exists l, []. split; [reflexivity|intros p []].
    + exists a, (b ++ [(y, w)]). split; [rewrite <- app_assoc; reflexivity|]. intros p I. apply in_app_or in I. destruct I as [I|[<-|[]]]; [apply N, I|exact D].
Qed.
Lemma snoc_silent {A} (l : list (A * Z)) y w x : silent (l ++ [(y, w)]) x <-> y <> x /\ silent l x.
Proof.
  split; intros H.
  - split; [intros ->; apply (H w), in_or_app; right; left; reflexivity|]. intros z I. apply (H z), in_or_app. left. exact I.
  - intros z I. apply in_app_or in I. destruct H as [D S]. destruct I as [I|[E|[]]]; [apply (S z), I|]. injection E as -> _. apply D. reflexivity.
Qed.
Lemma q_given_at l x : (exists z, gives l x z /\ q_given l x = mkS z SCmd (q_def x)) \/ (silent l x /\ q_given l x = mkS (q_def x) SDefault (q_def x)).
Proof.
  induction l as [|[y w] l IH] using rev_ind; [right; split; [intros z []|reflexivity]|]. rewrite q_given_snoc. unfold q_set. destruct (qopt_eqb y x) eqn:E.
  - apply qopt_eqb_iff in E. subst y. left. exists w. split; [apply snoc_gives; left; split; reflexivity|]. unfold set_val.
    destruct IH as [(z & _ & ->)|[_ ->]]; reflexivity.
  - assert (D : y <> x) by (intros ->; rewrite (proj2 (qopt_eqb_iff x x) eq_refl) in E; discriminate).
    destruct IH as [(z & G & ->)|[S ->]]; [left; exists z; split; [apply snoc_gives; right; split; assumption|reflexivity]|right; split; [apply snoc_silent; split; assumption|reflexivity]].
Qed.
Lemma gives_fun {A} (l : list (A * Z)) x z z' : gives l x z -> gives l x z' -> z = z'.
Proof.
  induction l as [|[y w] l IH] using rev_ind; [intros (a & b & E & _); destruct a; discriminate|].
  rewrite !snoc_gives. intros [[-> ->]|[D G]] [[E2 E3]|[D2 G2]]; [exact E3|contradiction (D2 eq_refl)|contradiction|exact (IH G G2)].
Qed.
Lemma silent_gives {A} (l : list (A * Z)) x z : silent l x -> ~ gives l x z.
Proof. intros S (a & b & -> & _). apply (S z), in_or_app. right. left. reflexivity. Qed.
Definition flag (x : qopt) : Prop := q_def x = 0.
Lemma q_on_iff l x : flag x -> q_on (q_given l) x = true <-> on l x.
Proof.
  intros F. unfold q_on. rewrite negb_true_iff, Z.eqb_neq. destruct (q_given_at l x) as [(z & G & ->)|[S ->]]; cbn [s_val].
  - split; [intros N; exists z; split; assumption|intros (z' & G' & N); rewrite (gives_fun _ _ _ _ G G'); exact N].
  - rewrite F. split; [intros H; contradiction|intros (z' & G' & _); contradiction (silent_gives _ _ _ S G')].
Qed.
Lemma q_changed_iff l x : changed (q_given l x) = false <-> silent l x.
Proof.
  destruct (q_given_at l x) as [(z & G & ->)|[S ->]]; cbn.
  - split; [discriminate|intros S; contradiction (silent_gives _ _ _ S G)].
  - split; [intros _; exact S|reflexivity].
Qed.
Definition wants_q2 (l : list (qopt * Z)) : Prop := on l Q2bsp \/ (on l Q2rtx /\ silent l Q2bsp /\ silent l Qbism).
Lemma wants_q2_iff l : q_on (q_given l) Q2bsp || (q_on (q_given l) Q2rtx && negb (changed (q_given l Q2bsp)) && negb (changed (q_given l Qbism))) = true <-> wants_q2 l.
Proof. unfold wants_q2. rewrite orb_true_iff, !andb_true_iff, !negb_true_iff, !q_changed_iff, !q_on_iff by reflexivity. tauto. Qed.

(** What each format asks for. *)
Definition asks (l : list (qopt * Z)) (v : version) : Prop :=
  match v with VHL => on l Hlbsp | VQ2 => wants_q2 l | VQbism => on l Qbism | VBsp2 => on l Bsp2 | VPsb2 => on l Psb2 | _ => False end.
Definition asksb (l : list (qopt * Z)) (v : version) : bool :=
  match v with
  | VHL => q_on (q_given l) Hlbsp | VQbism => q_on (q_given l) Qbism | VBsp2 => q_on (q_given l) Bsp2 | VPsb2 => q_on (q_given l) Psb2
  | VQ2 => q_on (q_given l) Q2bsp || (q_on (q_given l) Q2rtx && negb (changed (q_given l Q2bsp)) && negb (changed (q_given l Qbism)))
  | _ => false
  end.
Lemma asksb_iff l v : asksb l v = true <-> asks l v.
Proof. destruct v; cbn [asksb asks]; try (apply q_on_iff; reflexivity); try (split; [discriminate|intros []]). apply wants_q2_iff. Qed.
Lemma target_eq l : target (q_given l) =
  match set_version (asksb l VPsb2) VPsb2 (set_version (asksb l VBsp2) VBsp2 (set_version (asksb l VQbism) VQbism (set_version (asksb l VQ2) VQ2 (set_version (asksb l VHL) VHL (Some None))))) with
  | None => None
  | Some o => let v := match o with Some v => v | None => VQ1 end in
    Some (if q_on (q_given l) Hexen2 then match v with VBsp2 => VH2Bsp2 | VPsb2 => VH2Psb2 | _ => VH2 end else v)
  end.
Proof. reflexivity. Qed.
Lemma options_iff l : forall v s, qbsp_options l = Some (v, s) <-> target (q_given l) = Some v /\ s = q_effects v (q_given l).
Proof. intros v s. unfold qbsp_options. destruct (target (q_given l)); split; [intros H; injection H as <- <-; split; reflexivity|intros [H ->]; injection H as ->; reflexivity|discriminate|intros [H _]; discriminate]. Qed.

(** The run stops exactly if two formats are asked for; -hexen2 is none of them. *)
Theorem C153_error : forall l, qbsp_options l = None <-> exists v w, v <> w /\ asks l v /\ asks l w.
Proof.
  intros l. assert (E : qbsp_options l = None <-> target (q_given l) = None) by (unfold qbsp_options; destruct (target (q_given l)); split; intros H; try discriminate H; reflexivity).
  rewrite E, target_eq. assert (A : forall v, asksb l v = true <-> asks l v) by (apply asksb_iff).
  split.
  - intros H. destruct (asksb l VHL) eqn:E1, (asksb l VQ2) eqn:E2, (asksb l VQbism) eqn:E3, (asksb l VBsp2) eqn:E4, (asksb l VPsb2) eqn:E5; cbn in H; try discriminate H;
    repeat match goal with H : asksb l _ = true |- _ => apply A in H end;
    match goal with H1 : asks l ?v, H2 : asks l ?w |- _ => exists v, w; split; [discriminate|split; assumption] end.
  - intros (v & w & N & Av & Aw). apply A in Av. apply A in Aw. revert Av Aw.
    destruct (asksb l VHL) eqn:E1, (asksb l VQ2) eqn:E2, (asksb l VQbism) eqn:E3, (asksb l VBsp2) eqn:E4, (asksb l VPsb2) eqn:E5; cbn [set_version]; try reflexivity; intros Av Aw; exfalso;
    destruct v, w; try (contradiction (N eq_refl)); try congruence; try discriminate Av; try discriminate Aw.
Qed.
Print Assumptions C153_error.
(** Without -hexen2 the format is the one asked for, Quake's if none is. *)
Theorem C153_format : forall l v s, qbsp_options l = Some (v, s) -> ~ on l Hexen2 ->
  (v <> VQ1 -> asks l v) /\ (forall w, asks l w -> v = w).
Proof.
  intros l v s H N. apply options_iff in H. destruct H as [H _]. rewrite target_eq in H.
  destruct (q_on (q_given l) Hexen2) eqn:Q; [exfalso; apply N, q_on_iff; [reflexivity|exact Q]|].
  split.
  - intros D. rewrite <- asksb_iff. destruct (asksb l VHL) eqn:E1, (asksb l VQ2) eqn:E2, (asksb l VQbism) eqn:E3, (asksb l VBsp2) eqn:E4, (asksb l VPsb2) eqn:E5;
    cbn in H; try discriminate H; injection H as <-; first [assumption|contradiction (D eq_refl)].
  - intros w W. apply asksb_iff in W. destruct (asksb l VHL) eqn:E1, (asksb l VQ2) eqn:E2, (asksb l VQbism) eqn:E3, (asksb l VBsp2) eqn:E4, (asksb l VPsb2) eqn:E5;
    cbn in H; try discriminate H; injection H as <-; destruct w; try reflexivity; try congruence; discriminate W.
Qed.
Print Assumptions C153_format.
(** With it, always one of Hexen II: the extended ones only by -bsp2 and -2psb. *)
Theorem C153_hexen : forall l v s, qbsp_options l = Some (v, s) -> on l Hexen2 ->
  (v = VH2Bsp2 /\ on l Bsp2) \/ (v = VH2Psb2 /\ on l Psb2) \/ (v = VH2 /\ ~ on l Bsp2 /\ ~ on l Psb2).
Proof.
  intros l v s H O. apply options_iff in H. destruct H as [H _]. rewrite target_eq in H. rewrite (proj2 (q_on_iff l Hexen2 eq_refl) O) in H.
  rewrite <- !(q_on_iff l) by reflexivity. change (q_on (q_given l) Bsp2) with (asksb l VBsp2). change (q_on (q_given l) Psb2) with (asksb l VPsb2).
  destruct (asksb l VHL), (asksb l VQ2), (asksb l VQbism), (asksb l VBsp2), (asksb l VPsb2); cbn in H; try discriminate H; injection H as <-;
  first [left; split; reflexivity|right; left; split; reflexivity|right; right; repeat split; intros X; discriminate X].
Qed.
Print Assumptions C153_hexen.
(** Thus a map for Quake II or Half-Life becomes one of Hexen II without an error. *)
Theorem C153_hexen_refuted : forall x, In x [Q2bsp; Qbism; Hlbsp; Q2rtx] ->
  exists s, qbsp_options [(Hexen2, 1); (x, 1)] = Some (VH2, s) /\ s_val (s Chop) = 0 /\ s_val (s MaxEdges) = 64.
Proof. intros x I. destruct I as [<-|[<-|[<-|[<-|[]]]]]; eexists; (split; [reflexivity|split; reflexivity]). Qed.
Print Assumptions C153_hexen_refuted.

(** Every option in the end: what was given last stays whatever the format is; otherwise the format decides. *)
Theorem C153_values : forall l v s, qbsp_options l = Some (v, s) ->
  (forall x z, gives l x z -> s_val (s x) = z) /\
  forall x, silent l x ->
    match x with
    | IncludeSkip => (on l Q2rtx -> s_val (s x) = 1) /\ (~ on l Q2rtx -> s_val (s x) = 0)
    | Software => ((on l Q2rtx \/ v = VQbism) -> s_val (s x) = 0) /\ (~ on l Q2rtx -> v <> VQbism -> s_val (s x) = 1)
    | MaxEdges => s_val (s x) = if is_q2 v then 0 else 64
    | Chop => s_val (s x) = if is_q2 v then 1 else 0
    | Subdivide => (is_q2 v = true /\ s_val (s Software) = 0 -> s_val (s x) = 496) /\ (is_q2 v = false \/ s_val (s Software) <> 0 -> s_val (s x) = 240)
    | _ => s_val (s x) = 0
    end.
Proof.
  intros l v s H. apply options_iff in H. destruct H as [_ ->].
  assert (R : q_on (q_given l) Q2rtx = true <-> on l Q2rtx) by (apply q_on_iff; reflexivity).
  set (g := q_given l) in *.
  assert (G : forall x z, gives l x z -> g x = mkS z SCmd (q_def x)).
  { intros x z X. destruct (q_given_at l x) as [(z' & G' & E)|[S _]]; [|contradiction (silent_gives _ _ _ S X)]. unfold g. rewrite E, (gives_fun _ _ _ _ X G'). reflexivity. }
  assert (Q : forall x, silent l x -> g x = mkS (q_def x) SDefault (q_def x)).
  { intros x S. destruct (q_given_at l x) as [(z' & G' & _)|[_ E]]; [contradiction (silent_gives _ _ _ S G')|exact E]. }
  assert (C : forall x, (exists z, g x = mkS z SCmd (q_def x)) \/ g x = mkS (q_def x) SDefault (q_def x)).
  { intros x. destruct (q_given_at l x) as [(z & _ & E)|[_ E]]; [left; exists z; exact E|right; exact E]. }
  clearbody g. split.
  - intros x z X. apply G in X. unfold q_effects.
    assert (P : forall s y w, s x = mkS z SCmd (q_def x) -> q_set s y (unless (s y) w SGame) x = mkS z SCmd (q_def x)).
    { intros s y w E. unfold q_set. destruct (qopt_eqb y x) eqn:Y; [|exact E]. apply qopt_eqb_iff in Y. subst y. unfold unless. rewrite E. reflexivity. }
    set (d := fun y w s => q_set s y (unless (s y) w SGame)) in *.
    assert (P' : forall y w s, s x = mkS z SCmd (q_def x) -> d y w s x = mkS z SCmd (q_def x)) by (intros; apply P; assumption).
    set (s1 := if q_on g Q2rtx then _ else _). assert (E1 : s1 x = mkS z SCmd (q_def x)) by (unfold s1; destruct (q_on g Q2rtx); [apply P', P', X|exact X]). clearbody s1.
    destruct (is_q2 v); [|rewrite E1; reflexivity].
    set (s2 := match v with VQbism => _ | _ => _ end). assert (E2 : s2 x = mkS z SCmd (q_def x)) by (unfold s2; destruct v; repeat apply P'; exact E1). clearbody s2.
    change (s_val (d Chop 1 (if negb (q_on s2 Software) then d Subdivide 496 s2 else s2) x) = z). rewrite P'; [reflexivity|]. destruct (negb _); [apply P'|]; exact E2.
  - intros x S. apply Q in S. unfold q_effects, q_on in *.
    destruct (negb (s_val (g Q2rtx) =? 0)) eqn:ER.
    + assert (RR : on l Q2rtx) by (apply R; reflexivity). clear R.
      destruct x; cbn [q_def] in S; (destruct (C Software) as [[zs ES]|ES]; cbn [q_def] in ES; destruct v; cbn [is_q2]; unfold q_set, unless, changed, set_val; cbn [qopt_eqb]; rewrite ?S, ?ES; cbn [s_src src_ge rank Nat.leb s_val negb s_def Z.eqb Pos.eqb qopt_eqb]; rewrite ?S, ?ES;
        cbn [s_src src_ge rank Nat.leb s_val negb s_def Z.eqb Pos.eqb qopt_eqb]; try (destruct (zs =? 0) eqn:ZS; [apply Z.eqb_eq in ZS|apply Z.eqb_neq in ZS]; cbn [negb qopt_eqb]; rewrite ?S, ?ES; cbn [s_src src_ge rank Nat.leb s_val negb s_def Z.eqb Pos.eqb qopt_eqb]);
        first [reflexivity|(split; intros; first [reflexivity|contradiction|discriminate|tauto|lia|intuition (try discriminate; try lia)])]).
    + assert (RR : ~ on l Q2rtx) by (intros X; apply R in X; discriminate X). clear R.
      destruct x; cbn [q_def] in S; (destruct (C Software) as [[zs ES]|ES]; cbn [q_def] in ES; destruct v; cbn [is_q2]; unfold q_set, unless, changed, set_val; cbn [qopt_eqb]; rewrite ?S, ?ES; cbn [s_src src_ge rank Nat.leb s_val negb s_def Z.eqb Pos.eqb qopt_eqb]; rewrite ?S, ?ES;
        cbn [s_src src_ge rank Nat.leb s_val negb s_def Z.eqb Pos.eqb qopt_eqb]; try (destruct (zs =? 0) eqn:ZS; [apply Z.eqb_eq in ZS|apply Z.eqb_neq in ZS]; cbn [negb qopt_eqb]; rewrite ?S, ?ES; cbn [s_src src_ge rank Nat.leb s_val negb s_def Z.eqb Pos.eqb qopt_eqb]);
        first [reflexivity|(split; intros; first [reflexivity|contradiction|discriminate|tauto|lia|intuition (try discriminate; try lia)])]).
Qed.
Print Assumptions C153_values.
(** The order of different options does not matter. *)
Theorem C153_order : forall l l' v s, Permutation l l' -> NoDup (map fst l) -> qbsp_options l = Some (v, s) ->
  exists s', qbsp_options l' = Some (v, s') /\ forall x, s' x = s x.
Proof.
  intros l l' v s P N H.
  assert (E : forall x, q_given l' x = q_given l x).
  { intros x. assert (N' : NoDup (map fst l')) by (eapply Permutation_NoDup; [apply Permutation_map, P|exact N]).
    assert (U : forall l (N : NoDup (map fst l)) z, In (x, z) l -> gives l x z).
    { clear. intros l N z I. apply in_split in I. destruct I as (a & b & ->). exists a, b. split; [reflexivity|]. intros p I Ep. rewrite map_app in N. cbn [map fst] in N.
      apply NoDup_remove_2 in N. apply N, in_or_app. right. rewrite <- Ep. apply in_map, I. }
    assert (J : forall l z, gives l x z -> In (x, z) l) by (intros l0 z (a & b & -> & _); apply in_or_app; right; left; reflexivity).
    destruct (q_given_at l x) as [(z & G & ->)|[S ->]], (q_given_at l' x) as [(z' & G' & ->)|[S' ->]]; try reflexivity.
    - assert (G2 : gives l' x z) by (apply U; [exact N'|]; apply (Permutation_in _ P), J, G). rewrite (gives_fun _ _ _ _ G' G2). reflexivity.
    - exfalso. apply (S' z), (Permutation_in _ P), J, G.
    - exfalso. apply (S z'), (Permutation_in _ (Permutation_sym P)), J, G'. }
  apply options_iff in H. destruct H as [T ->]. exists (q_effects v (q_given l')). split.
  - apply options_iff. split; [|reflexivity]. rewrite <- T. unfold target, q_on. rewrite !E. reflexivity.
  - revert E. generalize (q_given l'), (q_given l). clear. intros s' s E.
    assert (D : forall x z s' s, (forall y, s' y = s y) -> forall y, q_set s' x (unless (s' x) z SGame) y = q_set s x (unless (s x) z SGame) y).
    { clear. intros x z s' s E y. unfold q_set. rewrite !E. reflexivity. }
    assert (O : forall x s' s, (forall y, s' y = s y) -> q_on s' x = q_on s x) by (clear; intros x s' s E; unfold q_on; rewrite E; reflexivity).
    unfold q_effects. rewrite (O _ _ _ E).
    set (a' := if q_on s Q2rtx then _ else s'). set (a := if q_on s Q2rtx then _ else s).
    assert (A : forall y, a' y = a y) by (unfold a', a; destruct (q_on s Q2rtx); [apply D, D, E|exact E]). clearbody a a'. destruct (is_q2 v); [|exact A].
    set (b' := match v with VQbism => _ | _ => q_set a' _ _ end). set (b := match v with VQbism => _ | _ => q_set a _ _ end).
    assert (B : forall y, b' y = b y) by (unfold b', b; destruct v; repeat apply D; exact A). clearbody b b'. cbv zeta. apply D. rewrite (O _ _ _ B). destruct (negb _); [apply D|]; exact B.
Qed.
Print Assumptions C153_order.
(** -q2rtx with a format of Quake II switched off is a map for Quake, compiled as for Q2RTX; with -bsp2 it is an error. *)
Theorem C153_rtx_refuted : (forall x, In x [Q2bsp; Qbism] -> exists s, qbsp_options [(Q2rtx, 1); (x, 0)] = Some (VQ1, s) /\ s_val (s IncludeSkip) = 1 /\ s_val (s Software) = 0 /\ s_val (s Subdivide) = 240) /\
  qbsp_options [(Q2rtx, 1); (Bsp2, 1)] = None.
Proof. split; [|reflexivity]. intros x [<-|[<-|[]]]; eexists; (split; [reflexivity|repeat split]). Qed.
Print Assumptions C153_rtx_refuted.
Example C153_nontrivial :
  (exists s, qbsp_options [] = Some (VQ1, s) /\ s_val (s Subdivide) = 240 /\ s_val (s MaxEdges) = 64) /\
  (exists s, qbsp_options [(Qbism, 1)] = Some (VQbism, s) /\ map (fun x => s_val (s x)) [Software; Subdivide; MaxEdges; Chop] = [0; 496; 0; 1]) /\
  (exists s, qbsp_options [(Software, 1); (Qbism, 1); (Chop, 0)] = Some (VQbism, s) /\ map (fun x => s_val (s x)) [Software; Subdivide; MaxEdges; Chop] = [1; 240; 0; 0]) /\
  (exists s, qbsp_options [(Q2rtx, 1); (Subdivide, 0)] = Some (VQ2, s) /\ map (fun x => s_val (s x)) [Software; Subdivide; IncludeSkip] = [0; 0; 1]) /\
  qbsp_options [(Q2bsp, 1); (Qbism, 1)] = None.
Proof. repeat split; try reflexivity; eexists; repeat split. Qed.
