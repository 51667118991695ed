(* Statements: options of light that follow from others, from worldspawn and from the game (C154). *)
From Coq Require Import List Arith NArith ZArith Bool Lia.
Import ListNotations.
From Verif Require Import SettingsModel LmLumpsModel OptionsModel PropertiesOptions.
Local Open Scope Z_scope.

(** The values a list of words gives; -bspxonly gives -novanilla. *)
Definition opts (l : list word) : list (lopt * Z) := flat_map (fun w => match w with WOpt x v => [(x, v)] | WBspxOnly => [(NoVanilla, 1)] | _ => [] end) l.
Lemma l_set_at s x v src y : l_opt (l_set s x v src) y = if lopt_eq x y then set_val (l_opt s y) (limit y v) src else l_opt s y.
Proof. cbn [l_set l_opt]. destruct (lopt_eq x y) as [->|]; reflexivity. Qed.
Lemma say_opt src s w s' x : say src s w = Some s' ->
  l_opt s' x = fold_left (fun t p => if lopt_eq (fst p) x then set_val t (limit x (snd p)) src else t) (opts [w]) (l_opt s x).
Proof.
  intros H. destruct w; [..|cbn [say] in H; destruct (l_debug s); [discriminate H|injection H as <-; reflexivity]];
    cbn [say] in H; injection H as <-; cbn [opts flat_map app fold_left fst snd l_opt]; try reflexivity; first [apply l_set_at|rewrite l_set_at; reflexivity].
Qed.
Lemma say_all_opt src l : forall s s' x, say_all src s l = Some s' ->
  l_opt s' x = fold_left (fun t p => if lopt_eq (fst p) x then set_val t (limit x (snd p)) src else t) (opts l) (l_opt s x).
Proof.
  induction l as [|w l IH]; intros s s' x H; cbn [say_all] in H; [injection H as <-; reflexivity|].
  destruct (say src s w) as [s1|] eqn:E; [|discriminate H]. rewrite (IH _ _ _ H), (say_opt _ _ _ _ x E).
  change (opts (w :: l)) with ((match w with WOpt x v => [(x, v)] | WBspxOnly => [(NoVanilla, 1)] | _ => [] end) ++ opts l). rewrite fold_left_app. f_equal. unfold opts. cbn [flat_map]. rewrite app_nil_r. reflexivity.
Qed.
Lemma fold_at src x (l : list (lopt * Z)) t : src_ge src (s_src t) = true ->
  let r := fold_left (fun t p => if lopt_eq (fst p) x then set_val t (limit x (snd p)) src else t) l t in
  (exists z, gives l x z /\ r = mkS (limit x z) src (s_def t)) \/ (silent l x /\ r = t).
Proof.
  intros G. induction l as [|[y w] l IH] using rev_ind; [right; split; [intros z []|reflexivity]|]. cbv zeta in IH |- *. rewrite fold_left_app. cbn [fold_left fst snd].
  destruct (lopt_eq y x) as [->|D].
  - left. exists w. split; [apply snoc_gives; left; split; reflexivity|]. destruct IH as [(z & _ & ->)|[_ ->]]; unfold set_val; cbn [s_src s_def]; [|rewrite G; reflexivity].
    unfold src_ge. rewrite Nat.leb_refl. reflexivity.
  - destruct IH as [(z & G' & ->)|[S ->]]; [left; exists z; split; [apply snoc_gives; right; split; assumption|reflexivity]|right; split; [apply snoc_silent; split; assumption|reflexivity]].
Qed.
Lemma fold_weak src x (l : list (lopt * Z)) t : src_ge src (s_src t) = false ->
  fold_left (fun t p => if lopt_eq (fst p) x then set_val t (limit x (snd p)) src else t) l t = t.
Proof. intros G. induction l as [|[y w] l IH]; [reflexivity|]. cbn [fold_left fst snd]. destruct (lopt_eq y x); [|exact IH]. unfold set_val. rewrite G. exact IH. Qed.
Lemma unless_at y v src s x : l_opt (l_unless y v src s) x = if lopt_eq y x then (if changed (l_opt s x) then l_opt s x else set_val (l_opt s x) (limit x v) src) else l_opt s x.
Proof. unfold l_unless. destruct (changed (l_opt s y)) eqn:C; [destruct (lopt_eq y x) as [->|]; [rewrite C|]; reflexivity|]. rewrite l_set_at. destruct (lopt_eq y x) as [->|]; [rewrite C|]; reflexivity. Qed.

Lemma unless_same y v src s x : y <> x \/ changed (l_opt s x) = true -> l_opt (l_unless y v src s) x = l_opt s x.
Proof. intros H. rewrite unless_at. destruct (lopt_eq y x) as [->|]; [|reflexivity]. destruct H as [H|H]; [contradiction (H eq_refl)|rewrite H; reflexivity]. Qed.
Lemma unless_own x v src s : changed (l_opt s x) = false -> l_opt (l_unless x v src s) x = set_val (l_opt s x) (limit x v) src.
Proof. intros H. rewrite unless_at, H. destruct (lopt_eq x x) as [_|N]; [reflexivity|contradiction (N eq_refl)]. Qed.
Lemma game_changed q2 s x : changed (l_opt s x) = true -> l_opt (l_game q2 s) x = l_opt s x.
Proof. intros H. unfold l_game. destruct q2; [|reflexivity]. repeat (rewrite unless_same; [|right]); try reflexivity; try exact H; repeat (rewrite unless_same; [|right]); exact H. Qed.
(** Where the value of an option comes from before the side effects: the command line, else worldspawn, else the game. *)
Definition from (cmd keys : list word) (x : lopt) (z : Z) : Prop := gives (opts cmd) x z \/ (silent (opts cmd) x /\ gives (opts keys) x z).
Definition untold (cmd keys : list word) (x : lopt) : Prop := silent (opts cmd) x /\ silent (opts keys) x.
Definition game_value (q2 hasvis : bool) (x : lopt) : Z :=
  match x with
  | Range => if q2 then 1000 else 500 | BounceColor => if q2 then 500 else 0 | SurfScale | SurfSky => if q2 then 650 else 1000
  | BounceScale => if q2 then 850 else 1000 | Bounce | SurfRad | BounceStyled => if q2 then 1 else 0
  | VisApprox => if hasvis then 2 else 3 | Extra => 1 | FaceStyles => 4 | StyleMax => 64 | _ => 0
  end.
Lemma vis_at hasvis s x : l_opt (l_vis hasvis s) x = if lopt_eq VisApprox x then (if s_val (l_opt s x) =? 1 then set_val (l_opt s x) (if hasvis then 2 else 3) SDefault else l_opt s x) else l_opt s x.
Proof.
  unfold l_vis, l_val. destruct (s_val (l_opt s VisApprox) =? 1) eqn:E.
  - rewrite l_set_at. destruct (lopt_eq VisApprox x) as [<-|]; [rewrite E|]; reflexivity.
  - destruct (lopt_eq VisApprox x) as [<-|]; [rewrite E|]; reflexivity.
Qed.
Definition game_of (x : lopt) : option Z :=
  match x with Range => Some 1000 | BounceColor => Some 500 | SurfScale | SurfSky => Some 650 | BounceScale => Some 850 | Bounce | SurfRad | BounceStyled => Some 1 | _ => None end.
Lemma game_at q2 s x : changed (l_opt s x) = false ->
  l_opt (l_game q2 s) x = match game_of x with Some z => if q2 then set_val (l_opt s x) z SGame else l_opt s x | None => l_opt s x end.
Proof.
  intros H. unfold l_game. destruct q2; [|destruct (game_of x); reflexivity].
  assert (O : forall y v s, y <> x -> l_opt (l_unless y v SGame s) x = l_opt s x) by (intros; apply unless_same; left; assumption).
  destruct x; cbn [game_of]; repeat (rewrite O by discriminate); try reflexivity;
  (rewrite unless_own; [repeat (rewrite O by discriminate); reflexivity|repeat (rewrite O by discriminate); exact H]).
Qed.
Lemma read_at q2 hasvis cmd keys s1 s2 x : say_all SCmd l_init cmd = Some s1 -> say_all SMap (l_vis hasvis (l_game q2 s1)) keys = Some s2 ->
  (exists z, from cmd keys x z /\ s_val (l_opt s2 x) = limit x z /\ changed (l_opt s2 x) = true /\ src_ge SCmd (s_src (l_opt s2 x)) = true) \/
  (untold cmd keys x /\ s_val (l_opt s2 x) = game_value q2 hasvis x /\ src_ge SCmd (s_src (l_opt s2 x)) = true /\
   (s_src (l_opt s2 x) = SDefault \/ (q2 = true /\ s_src (l_opt s2 x) = SGame /\ In x [Range; BounceColor; SurfScale; SurfSky; BounceScale; Bounce; SurfRad; BounceStyled]))).
Proof.
  intros H1 H2. rewrite (say_all_opt _ _ _ _ x H2). assert (E1 := say_all_opt _ _ _ _ x H1). cbn [l_init l_opt] in E1.
  assert (G1 := fold_at SCmd x (opts cmd) (mkS (l_def x) SDefault (l_def x)) eq_refl). cbv zeta in G1. rewrite <- E1 in G1. clear E1.
  set (t := l_opt (l_vis hasvis (l_game q2 s1)) x).
  destruct G1 as [(z & G & E)|[S E]]; cbn [s_def] in E.
  - assert (T : t = mkS (limit x z) SCmd (l_def x)).
    { unfold t. rewrite vis_at. rewrite game_changed by (rewrite E; reflexivity). rewrite E. destruct (lopt_eq VisApprox x); [destruct (_ =? 1)|]; reflexivity. }
    left. exists z. split; [left; exact G|]. rewrite T, fold_weak by reflexivity. repeat split.
  - assert (T : s_val t = game_value q2 hasvis x /\ s_def t = l_def x /\ (s_src t = SDefault \/ (q2 = true /\ s_src t = SGame /\ In x [Range; BounceColor; SurfScale; SurfSky; BounceScale; Bounce; SurfRad; BounceStyled]))).
    { unfold t. rewrite vis_at. assert (GA := game_at q2 s1 x). rewrite E in GA. specialize (GA eq_refl). destruct x; cbn [game_of] in GA; rewrite GA; (destruct q2; [destruct hasvis|destruct hasvis]; cbn; (split; [reflexivity|split; [reflexivity|]]); first [left; reflexivity|right; split; [reflexivity|split; [reflexivity|tauto]]]). }
    clearbody t. destruct T as (V & D & C).
    assert (G : src_ge SMap (s_src t) = true) by (destruct C as [->|(_ & -> & _)]; reflexivity).
    destruct (fold_at SMap x (opts keys) t G) as [(z & Gk & ->)|[Sk ->]].
    + left. exists z. split; [right; split; assumption|]. repeat split.
    + right. split; [split; assumption|]. split; [exact V|]. split; [destruct C as [->|(_ & -> & _)]; reflexivity|exact C].
Qed.
(** Runs of light_options, taken apart. *)
Lemma light_cases q2 hasvis cmd keys s : light_options q2 hasvis cmd keys = Some s ->
  exists s1 s2, say_all SCmd l_init cmd = Some s1 /\ say_all SMap (l_vis hasvis (l_game q2 s1)) keys = Some s2 /\ l_post (l_fixup s2) = Some s.
Proof.
  unfold light_options. intros H. destruct (say_all SCmd l_init cmd) as [s1|] eqn:E1; [|discriminate H]. destruct (say_all SMap _ keys) as [s2|] eqn:E2; [|discriminate H].
  exists s1, s2. repeat split; assumption.
Qed.
Lemma unless_rest y v src s : l_debug (l_unless y v src s) = l_debug s /\ l_lux (l_unless y v src s) = l_lux s /\ l_lit (l_unless y v src s) = l_lit s.
Proof. unfold l_unless. destruct (changed (l_opt s y)); split; [reflexivity|split; reflexivity|reflexivity|split; reflexivity]. Qed.
Definition is_debug (s : lstate) (m : dmode) : Prop := l_debug s = Some m.
Definition post_of (a : lstate) (x : lopt) : setting Z :=
  match x with
  | Soft => if l_val a Soft =? (-1) then set_val (l_opt a Soft) (if l_val a Extra =? 2 then 1 else if l_val a Extra =? 4 then 2 else 0) SCmd else l_opt a Soft
  | Dirt => match l_debug a with Some DDirt => set_val (l_opt a Dirt) 1 SCmd | _ => l_opt a Dirt end
  | Bounce => match l_debug a with Some DBounce | Some DBounceLights => set_val (l_opt a Bounce) 1 SCmd | _ => l_opt a Bounce end
  | NoLighting | Normals => if l_on a Rtx then unless (l_opt a x) 1 SGame else l_opt a x
  | StyleMax => if 4 <? l_val a FaceStyles then unless (l_opt a x) 65535 SCmd else l_opt a x
  | _ => l_opt a x
  end.
Lemma post_at a s : l_post a = Some s ->
  l_debug s = l_debug a /\ l_lux s = l_lux a /\
  l_lit s = (if (match l_debug a with Some _ => true | None => false end) || l_on a LitOnly then or_ext (l_lit a) else l_lit a) /\
  (l_debug a = Some DNeighbours -> changed (l_opt a DebugFace) = true) /\ forall x, l_opt s x = post_of a x.
Proof.
  unfold l_post.
  set (sa := if l_val a Soft =? (-1) then _ else a).
  assert (A : (l_debug sa = l_debug a /\ l_lux sa = l_lux a /\ l_lit sa = l_lit a) /\ forall x, l_opt sa x = if lopt_eq Soft x then post_of a x else l_opt a x).
  { unfold sa. split; [destruct (l_val a Soft =? -1); repeat split|]. intros x. destruct (lopt_eq Soft x) as [<-|N].
    - cbn [post_of]. destruct (l_val a Soft =? -1); [|reflexivity]. rewrite l_set_at. destruct (lopt_eq Soft Soft) as [_|N]; [|contradiction (N eq_refl)]. destruct (l_val a Extra =? 2); [reflexivity|]. destruct (l_val a Extra =? 4); reflexivity.
    - destruct (l_val a Soft =? -1); [|reflexivity]. rewrite l_set_at. destruct (lopt_eq Soft x); [contradiction|reflexivity]. }
  clearbody sa. destruct A as [(A1 & A2 & A3) A4]. cbv zeta.
  set (sb := if match l_debug sa with Some _ => true | None => false end then _ else sa).
  assert (B : l_debug sb = l_debug a /\ l_lux sb = l_lux a /\ l_lit sb = (if match l_debug a with Some _ => true | None => false end then or_ext (l_lit a) else l_lit a) /\ l_opt sb = l_opt sa).
  { unfold sb. rewrite A1. destruct (l_debug a) eqn:D; cbn [l_debug l_lux l_lit l_opt]; rewrite ?A1, ?A2, ?A3; repeat split. }
  clearbody sb. destruct B as (B1 & B2 & B3 & B4).
  assert (LO : l_on sb LitOnly = l_on a LitOnly) by (unfold l_on, l_val; rewrite B4, A4; reflexivity). rewrite LO. clear LO.
  set (sc := if l_on a LitOnly then _ else sb).
  assert (C : l_debug sc = l_debug a /\ l_lux sc = l_lux a /\ l_lit sc = (if match l_debug a with Some _ => true | None => false end || l_on a LitOnly then or_ext (l_lit a) else l_lit a) /\ l_opt sc = l_opt sa).
  { unfold sc. destruct (l_on a LitOnly); cbn [l_debug l_lux l_lit l_opt]; rewrite ?B1, ?B2, ?B3, ?B4; (split; [reflexivity|split; [reflexivity|split; [|reflexivity]]]); destruct (l_debug a); reflexivity. }
  clearbody sc. destruct C as (C1 & C2 & C3 & C4). rewrite C1.
  set (o := match l_debug a with Some DDirt => _ | _ => _ end).
  assert (D : match o with None => l_debug a = Some DNeighbours /\ changed (l_opt a DebugFace) = false
    | Some sd => (l_debug sd = l_debug a /\ l_lux sd = l_lux a /\ l_lit sd = l_lit sc /\ (l_debug a = Some DNeighbours -> changed (l_opt a DebugFace) = true)) /\
       forall x, l_opt sd x = match x with Soft | Dirt | Bounce => post_of a x | _ => l_opt a x end end).
  { assert (X : forall x, l_opt sc x = if lopt_eq Soft x then post_of a x else l_opt a x) by (intros x; rewrite C4; apply A4).
    assert (F : changed (l_opt sc DebugFace) = changed (l_opt a DebugFace)) by (rewrite X; reflexivity).
    unfold o. clear o. destruct (l_debug a) as [[]|] eqn:DB; try (rewrite F; destruct (changed (l_opt a DebugFace)) eqn:CF; [|split; reflexivity]);
    cbn [l_debug l_lux l_lit l_set]; (split; [split; [assumption|split; [assumption|split; [reflexivity|intros; first [discriminate|assumption|reflexivity]]]]|]);
    intros x; rewrite ?l_set_at, X; destruct x; cbn; rewrite ?DB; reflexivity. }
  destruct o as [sd|]; [|discriminate]. destruct D as [(D1 & D2 & D3 & D4) D5].
  assert (E : forall x, (x = Rtx \/ x = FaceStyles) -> l_val sd x = l_val a x) by (intros x [->| ->]; unfold l_val; rewrite D5; reflexivity).
  assert (ER : l_on sd Rtx = l_on a Rtx) by (unfold l_on; rewrite (E Rtx) by (left; reflexivity); reflexivity). rewrite ER.
  set (se := if l_on a Rtx then _ else sd).
  assert (F : (l_debug se = l_debug a /\ l_lux se = l_lux a /\ l_lit se = l_lit sc) /\ forall x, l_opt se x = match x with StyleMax => l_opt a x | _ => post_of a x end).
  { assert (K := fun y v s => unless_rest y v SGame s).
    unfold se. split.
    - destruct (l_on a Rtx); [|repeat split; assumption]. destruct (K Normals 1 (l_unless NoLighting 1 SGame sd)) as (-> & -> & ->), (K NoLighting 1 sd) as (-> & -> & ->). repeat split; assumption.
    - intros x. destruct (l_on a Rtx) eqn:R.
      + rewrite unless_at. destruct (lopt_eq Normals x) as [<-|N1].
        * rewrite unless_same by (left; discriminate). rewrite D5. cbn [post_of]. rewrite R. reflexivity.
        * rewrite unless_at. destruct (lopt_eq NoLighting x) as [<-|N2]; [rewrite D5; cbn [post_of]; rewrite R; reflexivity|]. rewrite D5. destruct x; try reflexivity; contradiction.
      + rewrite D5. destruct x; try reflexivity; cbn [post_of]; rewrite R; reflexivity. }
  clearbody se. destruct F as [(F1 & F2 & F3) F4].
  assert (FS : l_val se FaceStyles = l_val a FaceStyles) by (unfold l_val; rewrite F4; reflexivity). rewrite FS.
  intros H. assert (H' : s = if 4 <? l_val a FaceStyles then l_unless StyleMax 65535 SCmd se else se) by (apply (f_equal (fun o => match o with Some z => z | None => s end)) in H; symmetry; exact H). subst s.
  assert (K := fun y v s => unless_rest y v SCmd s).
  destruct (4 <? l_val a FaceStyles) eqn:L.
  - destruct (K StyleMax 65535 se) as (-> & -> & ->). split; [exact F1|split; [exact F2|split; [rewrite F3; exact C3|split; [exact D4|]]]].
    intros x. rewrite unless_at. destruct (lopt_eq StyleMax x) as [<-|N]; [rewrite F4; cbn [post_of]; rewrite L; reflexivity|]. rewrite F4. destruct x; try reflexivity; contradiction.
  - split; [exact F1|split; [exact F2|split; [rewrite F3; exact C3|split; [exact D4|]]]]. intros x. rewrite F4. destruct x; try reflexivity. cbn [post_of]. rewrite L. reflexivity.
Qed.
Lemma fixup_at s x : l_opt (l_fixup s) x = match x with MinDirt | SunDirt | Sun2Dirt => if l_on s Dirt then unless (l_opt s x) 1 SCmd else l_opt s x | _ => l_opt s x end.
Proof.
  unfold l_fixup. destruct (l_on s Dirt); [|destruct x; reflexivity].
  assert (O : forall y v s, y <> x -> l_opt (l_unless y v SCmd s) x = l_opt s x) by (intros; apply unless_same; left; assumption).
  assert (W : forall s, l_opt (l_unless x 1 SCmd s) x = if changed (l_opt s x) then l_opt s x else set_val (l_opt s x) (limit x 1) SCmd) by (intros s0; rewrite unless_at; destruct (lopt_eq x x) as [_|N]; [reflexivity|contradiction (N eq_refl)]).
  destruct x; repeat (rewrite O by discriminate); try reflexivity; rewrite W; repeat (rewrite O by discriminate); reflexivity.
Qed.
Lemma fixup_rest s : l_debug (l_fixup s) = l_debug s /\ l_lux (l_fixup s) = l_lux s /\ l_lit (l_fixup s) = l_lit s.
Proof. unfold l_fixup, l_unless. repeat match goal with |- context[if ?b then _ else _] => destruct b end; repeat split. Qed.

(** What the command line says holds, then what worldspawn says, each within its limits; but for a debug mode of dirt or
    bounced light, and for -soft without a number. *)
Definition spoiled (m : option dmode) (x : lopt) (z : Z) : Prop :=
  (x = Dirt /\ m = Some DDirt) \/ (x = Bounce /\ (m = Some DBounce \/ m = Some DBounceLights)) \/ (x = Soft /\ limit Soft z = -1) .
Theorem C154_given : forall q2 hasvis cmd keys s x z, light_options q2 hasvis cmd keys = Some s -> from cmd keys x z -> ~ spoiled (l_debug s) x z -> l_val s x = limit x z.
Proof.
  intros q2 hasvis cmd keys s x z H F N. destruct (light_cases _ _ _ _ _ H) as (s1 & s2 & H1 & H2 & H3). clear H.
  destruct (read_at q2 hasvis cmd keys s1 s2 x H1 H2) as [(z' & F' & V & C & _)|[[U1 U2] _]].
  2: { exfalso. destruct F as [F|[_ F]]; [exact (silent_gives _ _ _ U1 F)|exact (silent_gives _ _ _ U2 F)]. }
  assert (E : z' = z).
  { destruct F as [F|[S F]], F' as [F'|[S' F']]; try (exfalso; eapply silent_gives; eassumption); eapply gives_fun; eassumption. }
  subst z'. destruct (post_at _ _ H3) as (D & _ & _ & _ & P). rewrite (proj1 (fixup_rest s2)) in D. unfold l_val. rewrite P.
  unfold post_of. rewrite (proj1 (fixup_rest s2)). rewrite D in N. unfold l_val, unless. clear - N V C F.
  assert (FX : l_opt (l_fixup s2) x = l_opt s2 x) by (rewrite fixup_at; unfold unless; rewrite C; destruct x; try reflexivity; destruct (l_on s2 Dirt); reflexivity).
  destruct x; rewrite ?FX, ?C; try exact V; try (destruct (l_on _ Rtx); exact V).
  - destruct (l_debug s2) as [[]|]; try exact V; exfalso; apply N; right; left; split; [reflexivity|tauto|reflexivity|tauto].
  - destruct (l_debug s2) as [[]|]; try exact V; exfalso; apply N; left; split; reflexivity.
  - rewrite V. destruct (Z.eqb_spec (limit Soft z) (-1)) as [E|E]; [exfalso; apply N; right; right; split; [reflexivity|exact E]|exact V].
  - destruct (4 <? _); exact V.
Qed.
Print Assumptions C154_given.
(** What nothing speaks of: the defaults of the game, then what other options imply. *)
Definition dirty (cmd keys : list word) : Prop := exists z, from cmd keys Dirt z /\ z <> 0.
Theorem C154_defaults : forall q2 hasvis cmd keys s x, light_options q2 hasvis cmd keys = Some s -> untold cmd keys x ->
  match x with
  | MinDirt | SunDirt | Sun2Dirt => (dirty cmd keys -> l_val s x = 1) /\ (~ dirty cmd keys -> l_val s x = 0)
  | NoLighting | Normals => l_val s x = if l_on s Rtx then 1 else 0
  | StyleMax => l_val s x = if 4 <? l_val s FaceStyles then 65535 else 64
  | Dirt => (is_debug s DDirt -> l_val s x = 1) /\ (~ is_debug s DDirt -> l_val s x = 0)
  | Bounce => (is_debug s DBounce \/ is_debug s DBounceLights -> l_val s x = 1) /\ (~ is_debug s DBounce /\ ~ is_debug s DBounceLights -> l_val s x = if q2 then 1 else 0)
  | Range => l_val s x = if q2 then 1000 else 500
  | BounceColor => l_val s x = if q2 then 500 else 0
  | SurfScale | SurfSky => l_val s x = if q2 then 650 else 1000
  | BounceScale => l_val s x = if q2 then 850 else 1000
  | SurfRad | BounceStyled => l_val s x = if q2 then 1 else 0
  | VisApprox => l_val s x = if hasvis then 2 else 3
  | Extra => l_val s x = 1 | FaceStyles => l_val s x = 4
  | _ => l_val s x = 0
  end.
Proof.
  intros q2 hasvis cmd keys s x H U. destruct (light_cases _ _ _ _ _ H) as (s1 & s2 & H1 & H2 & H3). clear H.
  assert (RA := fun y => read_at q2 hasvis cmd keys s1 s2 y H1 H2). assert (RD := RA Dirt). specialize (RA x). destruct U as [U1 U2].
  destruct RA as [(z' & [F'|[_ F']] & _)|[_ (V & C & S)]]; [contradiction (silent_gives _ _ _ U1 F')|contradiction (silent_gives _ _ _ U2 F')|].
  destruct (post_at _ _ H3) as (D & _ & _ & _ & P). assert (FR := proj1 (fixup_rest s2)). rewrite FR in D.
  assert (ON : l_on s2 Dirt = true <-> dirty cmd keys).
  { unfold l_on, l_val. rewrite negb_true_iff, Z.eqb_neq. destruct RD as [(z & F & E & _)|[[X1 X2] (E & _)]]; rewrite E.
    - cbn [limit]. split; [intros N; exists z; split; assumption|]. intros (z2 & F2 & N). replace z with z2; [exact N|].
      destruct F as [F|[S1 F]], F2 as [F2|[S2 F2]]; try (exfalso; eapply silent_gives; eassumption); eapply gives_fun; eassumption.
    - cbn [game_value]. split; [intros N; contradiction|]. intros (z2 & [F2|[_ F2]] & _); exfalso; eapply silent_gives; [exact X1|exact F2|exact X2|exact F2]. }
  assert (KEEP : forall y, match y with MinDirt | SunDirt | Sun2Dirt | Soft | Dirt | Bounce | NoLighting | Normals | StyleMax => True | _ => l_opt s y = l_opt s2 y end).
  { intros y. rewrite P. destruct y; try exact I; cbn [post_of]; rewrite fixup_at; reflexivity. }
  assert (RT := KEEP Rtx). assert (FS := KEEP FaceStyles). cbn beta iota in RT, FS.
  assert (EX : forall y, match y with MinDirt | SunDirt | Sun2Dirt => True | _ => l_opt (l_fixup s2) y = l_opt s2 y end) by (intros y; rewrite fixup_at; destruct y; try exact I; reflexivity).
  unfold l_on, l_val in *. rewrite RT, FS.
  assert (SD : s_src (l_opt s2 x) = SDefault \/ In x [Range; BounceColor; SurfScale; SurfSky; BounceScale; Bounce; SurfRad; BounceStyled]) by (destruct S as [S|(_ & _ & S)]; [left; exact S|right; exact S]).
  assert (KX := KEEP x). destruct x; cbn [game_value] in V; cbn beta iota in KX; try (rewrite KX; exact V); rewrite P; unfold post_of; rewrite ?FR; unfold is_debug; rewrite ?D.
  - (* Bounce *) rewrite (EX Bounce). destruct (l_debug s2) as [[]|]; (split; [intros X|intros [X1 X2]]); try exact V; try (exfalso; tauto); try (destruct X as [X|X]; discriminate X); unfold set_val; rewrite C; reflexivity.
  - (* Dirt *) rewrite (EX Dirt). destruct (l_debug s2) as [[]|]; (split; intros X); try exact V; try (exfalso; tauto); try discriminate X; unfold set_val; rewrite C; reflexivity.
  - rewrite fixup_at. unfold l_on, l_val. destruct (negb (s_val (l_opt s2 Dirt) =? 0)) eqn:E.
    + split; [intros _|intros X; exfalso; apply X, ON; reflexivity]. destruct SD as [SD|SD]; [|exfalso; repeat (destruct SD as [SD|SD]; [discriminate SD|]); exact SD]. unfold unless, changed, set_val. rewrite SD. reflexivity.
    + split; [intros X; apply ON in X; discriminate X|intros _; exact V].
  - rewrite fixup_at. unfold l_on, l_val. destruct (negb (s_val (l_opt s2 Dirt) =? 0)) eqn:E.
    + split; [intros _|intros X; exfalso; apply X, ON; reflexivity]. destruct SD as [SD|SD]; [|exfalso; repeat (destruct SD as [SD|SD]; [discriminate SD|]); exact SD]. unfold unless, changed, set_val. rewrite SD. reflexivity.
    + split; [intros X; apply ON in X; discriminate X|intros _; exact V].
  - rewrite fixup_at. unfold l_on, l_val. destruct (negb (s_val (l_opt s2 Dirt) =? 0)) eqn:E.
    + split; [intros _|intros X; exfalso; apply X, ON; reflexivity]. destruct SD as [SD|SD]; [|exfalso; repeat (destruct SD as [SD|SD]; [discriminate SD|]); exact SD]. unfold unless, changed, set_val. rewrite SD. reflexivity.
    + split; [intros X; apply ON in X; discriminate X|intros _; exact V].
  - (* Soft *) unfold l_val. rewrite (EX Soft), V. exact V.
  - (* StyleMax *) unfold l_val. rewrite (EX FaceStyles), (EX StyleMax). destruct (4 <? _); [|exact V]. destruct SD as [SD|SD]; [|exfalso; repeat (destruct SD as [SD|SD]; [discriminate SD|]); exact SD]. unfold unless, changed, set_val. rewrite SD. reflexivity.
  - unfold l_on, l_val. rewrite (EX Rtx), (EX NoLighting). destruct (negb (s_val (l_opt s2 Rtx) =? 0)); [|exact V]. destruct SD as [SD|SD]; [|exfalso; repeat (destruct SD as [SD|SD]; [discriminate SD|]); exact SD]. unfold unless, changed, set_val. rewrite SD. reflexivity.
  - unfold l_on, l_val. rewrite (EX Rtx), (EX Normals). destruct (negb (s_val (l_opt s2 Rtx) =? 0)); [|exact V]. destruct SD as [SD|SD]; [|exfalso; repeat (destruct SD as [SD|SD]; [discriminate SD|]); exact SD]. unfold unless, changed, set_val. rewrite SD. reflexivity.
Qed.
Print Assumptions C154_defaults.
(** -soft without a number follows -extra; the radius that is used is never negative. *)
Theorem C154_soft : forall q2 hasvis cmd keys s, light_options q2 hasvis cmd keys = Some s ->
  0 <= l_val s Soft /\ forall z, from cmd keys Soft z -> z <= -1 -> l_val s Soft = if l_val s Extra =? 2 then 1 else if l_val s Extra =? 4 then 2 else 0.
Proof.
  intros q2 hasvis cmd keys s H. destruct (light_cases _ _ _ _ _ H) as (s1 & s2 & H1 & H2 & H3).
  destruct (post_at _ _ H3) as (_ & _ & _ & _ & P).
  assert (EE : l_val s Extra = l_val (l_fixup s2) Extra) by (unfold l_val; rewrite P; reflexivity).
  assert (ES : l_opt (l_fixup s2) Soft = l_opt s2 Soft) by (rewrite fixup_at; reflexivity).
  assert (W : l_val s Soft = if s_val (l_opt s2 Soft) =? -1 then (if l_val s Extra =? 2 then 1 else if l_val s Extra =? 4 then 2 else 0) else s_val (l_opt s2 Soft)).
  { unfold l_val at 1. rewrite P. cbn [post_of]. rewrite <- EE. unfold l_val at 1. rewrite ES. destruct (s_val (l_opt s2 Soft) =? -1); [|reflexivity].
    unfold set_val. destruct (read_at q2 hasvis cmd keys s1 s2 Soft H1 H2) as [(z & _ & _ & _ & ->)|[_ (_ & -> & _)]]; reflexivity. }
  rewrite W. split.
  - destruct (Z.eqb_spec (s_val (l_opt s2 Soft)) (-1)) as [E|E]; [destruct (_ =? 2); [lia|destruct (_ =? 4); lia]|].
    destruct (read_at q2 hasvis cmd keys s1 s2 Soft H1 H2) as [(z & _ & V & _)|[_ (V & _)]]; rewrite V in *; [|cbn; lia].
    cbn [limit] in *. unfold clampz in *. destruct (Z.ltb_spec z (-1)); [lia|]. destruct (Z.ltb_spec (2 ^ 31 - 1) z); lia.
  - intros z F L. destruct (read_at q2 hasvis cmd keys s1 s2 Soft H1 H2) as [(z' & F' & V & _)|[[U1 U2] _]].
    + assert (E : z' = z) by (destruct F as [F|[S F]], F' as [F'|[S' F']]; try (exfalso; eapply silent_gives; eassumption); eapply gives_fun; eassumption). subst z'.
      rewrite V. cbn [limit]. unfold clampz. destruct (Z.ltb_spec z (-1)); [reflexivity|]. replace z with (-1) by lia. reflexivity.
    + exfalso. destruct F as [F|[_ F]]; [exact (silent_gives _ _ _ U1 F)|exact (silent_gives _ _ _ U2 F)].
Qed.
Print Assumptions C154_soft.
(** Values of options at the end of a run. *)
Definition ends_with (o : option lstate) (l : list (lopt * Z)) : Prop := option_map (fun s => map (fun p => l_val s (fst p)) l) o = Some (map snd l).
(** "auto" asked for is not the auto that is the default: it stays as it is, and neither of the two kinds is used. *)
Theorem C154_vis_refuted : forall q2 hasvis, ends_with (light_options q2 hasvis [WOpt VisApprox 1] []) [(VisApprox, 1)] /\
  ends_with (light_options q2 hasvis [] []) [(VisApprox, if hasvis then 2 else 3)] /\ ends_with (light_options q2 hasvis [] [WOpt VisApprox 1]) [(VisApprox, 1)].
Proof. intros [] []; (split; [|split]); vm_compute; reflexivity. Qed.
Print Assumptions C154_vis_refuted.
(** The debug modes: the number of bounces is lost, and dirt is not given to the minimum light and the sun as -dirt would. *)
Theorem C154_debug_refuted : forall q2 hasvis,
  ends_with (light_options q2 hasvis [WOpt Bounce 4; WDebug DBounce] []) [(Bounce, 1)] /\ ends_with (light_options q2 hasvis [WOpt Bounce 4] []) [(Bounce, 4)] /\
  ends_with (light_options q2 hasvis [WDebug DDirt] []) [(Dirt, 1); (MinDirt, 0); (SunDirt, 0); (Sun2Dirt, 0)] /\
  ends_with (light_options q2 hasvis [WOpt Dirt 1] []) [(Dirt, 1); (MinDirt, 1); (SunDirt, 1); (Sun2Dirt, 1)].
Proof. intros [] []; (split; [|split; [|split]]); vm_compute; reflexivity. Qed.
Print Assumptions C154_debug_refuted.

(** The files.  Without the options that set them anew every wish is met whatever the order. *)
Definition plain_word (w : word) : Prop := match w with WLit2 | WBspx | WBspxOnly => False | _ => True end.
Lemma say_files src l : forall s s', say_all src s l = Some s' -> Forall plain_word l ->
  (fl_ext (l_lit s') = true <-> fl_ext (l_lit s) = true \/ In WLit l) /\ (fl_bspx (l_lit s') = true <-> fl_bspx (l_lit s) = true \/ In WBspxLit l) /\
  (fl_ext (l_lux s') = true <-> fl_ext (l_lux s) = true \/ In WLux l) /\ (fl_bspx (l_lux s') = true <-> fl_bspx (l_lux s) = true \/ In WBspxLux l) /\
  fl_lit2 (l_lit s') = fl_lit2 (l_lit s) /\ ((exists m, l_debug s' = Some m) <-> (exists m, l_debug s = Some m) \/ exists m, In (WDebug m) l).
Proof.
  induction l as [|w l IH]; intros s s' H F; cbn [say_all] in H.
  - injection H as <-. cbn [In]. repeat split; intros X; try tauto; (destruct X as [X|[m []]]; exact X).
  - inversion F as [|? ? Fw Fl]; subst. destruct (say src s w) as [s1|] eqn:E; [|discriminate H]. destruct (IH _ _ H Fl) as (A & B & C & D & G & K).
    rewrite A, B, C, D, G, K. clear A B C D G K IH H. cbn [In].
    assert (KK : (exists m, w = WDebug m \/ In (WDebug m) l) <-> (exists m, w = WDebug m) \/ exists m, In (WDebug m) l) by (split; [intros (m & [X|X]); [left|right]; exists m; exact X|intros [(m & X)|(m & X)]; exists m; tauto]).
    rewrite KK. clear KK.
    destruct w; try contradiction; cbn [say] in E; [..|destruct (l_debug s) eqn:DS; [discriminate E|]]; injection E as <-; cbn [l_lit l_lux l_debug l_set or_ext or_bspx fl_ext fl_bspx fl_lit2];
    (split; [|split; [|split; [|split; [|split]]]]); try reflexivity;
    try (match goal with |- context[exists _, _] => fail 1 | _ => split; intros X; repeat destruct X as [X|X]; try discriminate X; intuition auto end);
    (split; [intros [X|X]; [first [left; exact X|right; left; exists m; reflexivity]|right; right; exact X]|intros [X|[X|X]]; [first [left; exact X|destruct X as [? X]; discriminate X]|first [destruct X as [? X]; discriminate X|left; exists m; reflexivity]|right; exact X]]).
Qed.
(** Both lists of words, whatever their order: what is written is what is asked for; a debug mode and -litonly ask for .lit. *)
Theorem C154_files : forall q2 hasvis cmd keys s, light_options q2 hasvis cmd keys = Some s -> Forall plain_word (cmd ++ keys) ->
  (fl_ext (l_lit s) = true <-> In WLit (cmd ++ keys) \/ (exists m, In (WDebug m) (cmd ++ keys)) \/ l_on s LitOnly = true) /\
  (fl_bspx (l_lit s) = true <-> In WBspxLit (cmd ++ keys)) /\ (fl_ext (l_lux s) = true <-> In WLux (cmd ++ keys)) /\
  (fl_bspx (l_lux s) = true <-> In WBspxLux (cmd ++ keys)) /\ fl_lit2 (l_lit s) = false.
Proof.
  intros q2 hasvis cmd keys s H F. apply Forall_app in F. destruct F as [F1 F2]. destruct (light_cases _ _ _ _ _ H) as (s1 & s2 & H1 & H2 & H3).
  destruct (post_at _ _ H3) as (_ & P2 & P3 & _ & P5). destruct (fixup_rest s2) as (X1 & X2 & X3). rewrite X1, X3 in P3. rewrite X2 in P2.
  destruct (say_files _ _ _ _ H1 F1) as (A1 & B1 & C1 & D1 & E1 & G1), (say_files _ _ _ _ H2 F2) as (A2 & B2 & C2 & D2 & E2 & G2).
  assert (Y : l_lit (l_vis hasvis (l_game q2 s1)) = l_lit s1 /\ l_lux (l_vis hasvis (l_game q2 s1)) = l_lux s1 /\ l_debug (l_vis hasvis (l_game q2 s1)) = l_debug s1).
  { assert (Z1 : l_lit (l_game q2 s1) = l_lit s1 /\ l_lux (l_game q2 s1) = l_lux s1 /\ l_debug (l_game q2 s1) = l_debug s1).
    { unfold l_game. destruct q2; [|repeat split]. assert (K := fun y v s => unless_rest y v SGame s).
      repeat match goal with |- context[l_lit (l_unless ?y ?v SGame ?s)] => destruct (K y v s) as (-> & -> & ->) end. repeat split. }
    destruct Z1 as (<- & <- & <-). unfold l_vis. destruct (_ =? 1); repeat split. }
  destruct Y as (Y1 & Y2 & Y3). rewrite Y1 in A2, B2, E2. rewrite Y2 in C2, D2. rewrite Y3 in G2.
  rewrite P2. cbn [l_init no_file l_lit l_lux l_debug fl_ext fl_bspx fl_lit2] in *.
  assert (LO : l_on s LitOnly = l_on (l_fixup s2) LitOnly) by (unfold l_on, l_val; rewrite P5; reflexivity). rewrite LO. clear LO.
  assert (DD : (exists m, In (WDebug m) (cmd ++ keys)) <-> (match l_debug s2 with Some _ => true | None => false end) = true).
  { assert (Q : (exists m, l_debug s2 = Some m) <-> (match l_debug s2 with Some _ => true | None => false end) = true) by (destruct (l_debug s2) as [m|]; split; intros X; try reflexivity; try discriminate X; [exists m; reflexivity|destruct X; discriminate]).
    rewrite <- Q, G2, G1. split.
    - intros (m & I). apply in_app_or in I. destruct I as [I|I]; [left; right|right]; exists m; exact I.
    - intros [[[? X]|(m & I)]|(m & I)]; [discriminate X|exists m; apply in_or_app; left; exact I|exists m; apply in_or_app; right; exact I]. }
  assert (N : forall b : Prop, (false = true \/ b) <-> b) by (intros b; split; [intros [X|X]; [discriminate X|exact X]|right; assumption]). rewrite N in A1, B1, C1, D1.
  rewrite P3, DD. rewrite !in_app_iff, C2, D2, C1, D1. split; [|split; [|split; [reflexivity|split; [reflexivity|]]]].
  - destruct (match l_debug s2 with Some _ => true | None => false end), (l_on (l_fixup s2) LitOnly); cbn [orb or_ext fl_ext]; rewrite ?A2, ?A1; split; intros X; try tauto; try reflexivity. destruct X as [X|[X|X]]; [exact X|discriminate X|discriminate X].
  - destruct (_ || _); cbn [or_ext fl_bspx]; rewrite B2, B1; reflexivity.
  - destruct (_ || _); cbn [or_ext fl_lit2]; rewrite E2; exact E1.
Qed.
Print Assumptions C154_files.
(** Those options make the order matter: -bspx after -lit takes the .lit file away, -lit after -lit2 the .lit2 file. *)
Definition lit_of (o : option lstate) : option flags := option_map l_lit o.
Theorem C154_order_refuted : forall q2 hasvis,
  lit_of (light_options q2 hasvis [WLit; WBspx] []) = Some (mkFlags false true false) /\ lit_of (light_options q2 hasvis [WBspx; WLit] []) = Some (mkFlags true true false) /\
  option_map only_lit2 (lit_of (light_options q2 hasvis [WLit; WLit2] [])) = Some true /\ option_map only_lit2 (lit_of (light_options q2 hasvis [WLit2; WLit] [])) = Some false /\
  option_map only_lit2 (lit_of (light_options q2 hasvis [WLit2; WOpt LitOnly 1] [])) = Some false.
Proof. intros [] []; (split; [|split; [|split; [|split]]]); vm_compute; reflexivity. Qed.
Print Assumptions C154_order_refuted.
(** The words that replace what was asked for before: exactly these files and lumps are written. *)
Theorem C154_replaced : forall q2 hasvis,
  option_map (fun s => (l_lit s, l_lux s)) (light_options q2 hasvis [WLit; WLux; WBspx] []) = Some (mkFlags false true false, mkFlags false true false) /\
  option_map (fun s => (l_lit s, l_lux s, l_val s NoVanilla)) (light_options q2 hasvis [WLit; WLux; WBspxOnly] []) = Some (mkFlags false true false, mkFlags false true false, 1) /\
  option_map (fun s => (l_lit s, l_lux s)) (light_options q2 hasvis [WLit; WLux; WLit2] []) = Some (mkFlags false false true, mkFlags true false false).
Proof. intros [] []; (split; [|split]); vm_compute; reflexivity. Qed.
Print Assumptions C154_replaced.
(** A key of worldspawn does the same, over the command line: -bspx and -lit of the map ignore their value and the rank of
    their source. *)
Theorem C154_keys_refuted : forall q2 hasvis, lit_of (light_options q2 hasvis [WLit] [WBspx]) = Some (mkFlags false true false) /\
  lit_of (light_options q2 hasvis [] [WLit]) = Some (mkFlags true false false) /\ light_options q2 hasvis [WDebug DPhong] [WDebug DPhong] = None.
Proof. intros [] []; (split; [|split]); vm_compute; reflexivity. Qed.
Print Assumptions C154_keys_refuted.

(** The .lit file that colours ask for, in games without coloured lightmaps. *)
Theorem C154_colour : forall rgb coloured s, any (l_lit s) = false ->
  (fl_ext (lit_needed rgb coloured s) = true <-> rgb = false /\ (coloured = true \/ l_val s BounceColor <> 0) /\ l_val s NoVanilla = 0) /\
  (fl_bspx (lit_needed rgb coloured s) = true <-> rgb = false /\ (coloured = true \/ l_val s BounceColor <> 0) /\ l_val s NoVanilla <> 0).
Proof.
  intros rgb coloured s A. assert (Z : fl_ext (l_lit s) = false /\ fl_bspx (l_lit s) = false) by (unfold any in A; destruct (fl_ext (l_lit s)), (fl_bspx (l_lit s)); try discriminate A; split; reflexivity).
  destruct Z as [Z1 Z2]. unfold lit_needed, l_on. rewrite A.
  destruct (Z.eqb_spec (l_val s BounceColor) 0) as [B|B], (Z.eqb_spec (l_val s NoVanilla) 0) as [C|C], rgb, coloured; cbn [negb andb orb fl_ext fl_bspx]; rewrite ?Z1, ?Z2;
  (split; split; [intros X|intros (X & Y & W)|intros X|intros (X & Y & W)]); try discriminate; try reflexivity; try tauto; try (destruct Y as [Y|Y]; [discriminate Y|contradiction]); split; try reflexivity; tauto.
Qed.
Print Assumptions C154_colour.
(** -novanilla by itself ("implies -bspxlit") writes no coloured light into the BSP file and drops no grey one. *)
Theorem C154_novanilla_refuted : forall q2 hasvis s, light_options q2 hasvis [WOpt NoVanilla 1] [] = Some s ->
  fl_bspx (lit_needed true true s) = false /\ no_grey s (lit_needed true true s) = false /\ (q2 = false -> fl_bspx (lit_needed false false s) = false).
Proof.
  intros q2 hasvis s H. assert (G : l_lit s = no_file /\ l_on s NoVanilla = true /\ (q2 = false -> l_on s BounceColor = false)).
  { assert (E : option_map (fun s => (l_lit s, l_on s NoVanilla, if q2 then false else l_on s BounceColor)) (light_options q2 hasvis [WOpt NoVanilla 1] []) = Some (no_file, true, false)) by (destruct q2, hasvis; vm_compute; reflexivity).
    rewrite H in E. cbn [option_map] in E. apply (f_equal (fun o => match o with Some p => p | None => (no_file, false, true) end)) in E.
    split; [exact (f_equal (fun p => fst (fst p)) E)|]. split; [exact (f_equal (fun p => snd (fst p)) E)|]. intros ->. exact (f_equal snd E). }
  destruct G as (G1 & G2 & G3). unfold no_grey, lit_needed. cbn [negb andb]. rewrite G1. split; [reflexivity|]. split; [apply andb_false_r|]. intros Q. rewrite (G3 Q). reflexivity.
Qed.
Print Assumptions C154_novanilla_refuted.

(** The errors: two debug modes, or that of neighbours without a face. *)
Theorem C154_debug : forall q2 hasvis cmd keys, (forall m, ~ In (WDebug m) (cmd ++ keys)) -> exists s, light_options q2 hasvis cmd keys = Some s /\ l_debug s = None.
Proof.
  intros q2 hasvis cmd keys N. assert (S : forall src l s, l_debug s = None -> (forall m, ~ In (WDebug m) l) -> exists s', say_all src s l = Some s' /\ l_debug s' = None).
  { clear. intros src l. induction l as [|w l IH]; intros s D N; [exists s; split; [reflexivity|exact D]|]. cbn [say_all].
    assert (X : exists s1, say src s w = Some s1 /\ l_debug s1 = None) by (destruct w; try (eexists; split; [reflexivity|exact D]); exfalso; apply (N m); left; reflexivity).
    destruct X as (s1 & -> & D1). apply IH; [exact D1|]. intros m I. apply (N m). right. exact I. }
  destruct (S SCmd cmd l_init eq_refl) as (s1 & E1 & D1); [intros m I; apply (N m), in_or_app; left; exact I|].
  assert (D2 : l_debug (l_vis hasvis (l_game q2 s1)) = None).
  { unfold l_vis. destruct (_ =? 1); cbn [l_debug l_set]; unfold l_game; (destruct q2; [|exact D1]); rewrite !(fun y v s => proj1 (unless_rest y v SGame s)); exact D1. }
  destruct (S SMap keys _ D2) as (s2 & E2 & D3); [intros m I; apply (N m), in_or_app; right; exact I|].
  unfold light_options. rewrite E1, E2. destruct (fixup_rest s2) as (D4 & _). rewrite D3 in D4.
  destruct (l_post (l_fixup s2)) as [s|] eqn:P; [exists s; split; [reflexivity|]; rewrite (proj1 (post_at _ _ P)); exact D4|].
  exfalso. revert P. unfold l_post. set (sa := if _ =? (-1) then _ else _). assert (Da : l_debug sa = None) by (unfold sa; destruct (_ =? (-1)); exact D4). clearbody sa. cbv zeta. rewrite Da.
  destruct (l_on sa LitOnly); cbn [l_debug]; rewrite ?Da; discriminate.
Qed.
Print Assumptions C154_debug.
Example C154_nontrivial :
  ends_with (light_options true true [WOpt Range 700; WOpt Bounce 300] [WOpt Range 900; WOpt SurfScale 200; WOpt Dirt 1; WOpt SunDirt (-1)])
    [(Range, 700); (Bounce, 100); (SurfScale, 200); (SurfSky, 650); (VisApprox, 2); (MinDirt, 1); (SunDirt, -1)] /\
  ends_with (light_options false false [WOpt Extra 4; WOpt Soft (-1); WOpt FaceStyles 8; WOpt Rtx 1] []) [(Soft, 2); (StyleMax, 65535); (NoLighting, 1); (Range, 500)] /\
  light_options true true [WDebug DNeighbours] [] = None.
Proof. (split; [|split]); vm_compute; reflexivity. Qed.
