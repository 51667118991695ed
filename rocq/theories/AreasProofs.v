(* Proofs about AreasModel.v. *)
From Coq Require Import List Arith Bool Lia.
Import ListNotations.
From Verif Require Import AreasModel.

Lemma touch_idem : forall c p, c <> 0 -> touch c (touch c p) = touch c p.
Proof.
  intros c [x y] C. unfold touch. cbn [fst snd].
  destruct (x =? c) eqn:E1; cbn [orb]; [cbn [fst snd]; rewrite E1; reflexivity|].
  destruct (y =? c) eqn:E2; [cbn [fst snd]; rewrite E1, E2; reflexivity|].
  destruct (y =? 0) eqn:E3; cbn [negb]; [|cbn [fst snd]; rewrite E1, E2, E3; reflexivity].
  destruct (x =? 0) eqn:E4; cbn [negb fst snd]; rewrite Nat.eqb_refl; [reflexivity|]. rewrite orb_true_r. reflexivity.
Qed.

Section Flood.
Context (lf : nat -> aleaf) (nbr : nat -> list nat) (c : nat) (C0 : c <> 0).
Definition free (v : nat) : Prop := al_ap (lf v) = false.

(** Leafs that [b] has and [a] has not. *)
Definition new (a b : astate) (u : nat) : Prop := a_area a u = 0 /\ a_area b u <> 0.
(** Paths through leafs that are no area portals. *)
Inductive conn : nat -> nat -> Prop :=
| cn_self : forall v, free v -> conn v v
| cn_step : forall u v w, conn u v -> In w (nbr v) -> free w -> conn u w.
Definition touched (a b : astate) (e : nat) : Prop :=
  exists u w, new a b u /\ In w (nbr u) /\ al_ap (lf w) = true /\ al_ent (lf w) = Some e.

Lemma conn_free : forall u v, conn u v -> free u /\ free v.
Proof. intros u v H. induction H as [v F|u v w H IH I F]; [auto|]. split; [apply IH|exact F]. Qed.
Lemma conn_left : forall u v w, free u -> In v (nbr u) -> conn v w -> conn u w.
Proof.
  intros u v w FU I H. induction H as [v F|v x w H IH J F].
  - eapply cn_step; [apply cn_self, FU|exact I|exact F].
  - eapply cn_step; [apply IH, I|exact J|exact F].
Qed.
Lemma conn_trans : forall u v w, conn u v -> conn v w -> conn u w.
Proof. intros u v w H K. induction K as [v F|v x w K IH J F]; [exact H|]. eapply cn_step; [apply IH, H|exact J|exact F]. Qed.
Lemma conn_sym : (forall u v, In v (nbr u) -> In u (nbr v)) -> forall u v, conn u v -> conn v u.
Proof.
  intros SY u v H. induction H as [v F|u v w H IH I F]; [apply cn_self, F|].
  eapply conn_left; [exact F|apply SY, I|exact IH].
Qed.

Record step (a b : astate) (v : nat) : Prop := {
  st_mono : forall u, a_area a u <> 0 -> a_area b u = a_area a u;
  st_new : forall u, new a b u -> a_area b u = c /\ conn v u;
  st_self : free v -> a_area b v <> 0;
  st_closed : forall u w, new a b u -> In w (nbr u) -> free w -> a_area b w <> 0;
  st_pa : forall e, a_pa b e = a_pa a e \/ (a_pa b e = touch c (a_pa a e) /\ (touched a b e \/ al_ap (lf v) = true /\ al_ent (lf v) = Some e));
  st_touch : forall e, touched a b e \/ (al_ap (lf v) = true /\ al_ent (lf v) = Some e) -> a_pa b e = touch c (a_pa a e)
}.

(** The neighbours of [v] handled so far are [done]; [a] is the state before [v], with [v] not marked. *)
Record part (a b : astate) (v : nat) (done : list nat) : Prop := {
  pt_mono : forall u, a_area a u <> 0 -> a_area b u = a_area a u;
  pt_new : forall u, new a b u -> a_area b u = c /\ conn v u;
  pt_self : new a b v;
  pt_closed : forall u w, new a b u -> u <> v -> In w (nbr u) -> free w -> a_area b w <> 0;
  pt_done : forall w, In w done -> free w -> a_area b w <> 0;
  pt_pa : forall e, a_pa b e = a_pa a e \/ (a_pa b e = touch c (a_pa a e) /\ touched a b e);
  pt_touch : forall e, (exists u w, new a b u /\ u <> v /\ In w (nbr u) /\ al_ap (lf w) = true /\ al_ent (lf w) = Some e) \/
                       (exists w, In w done /\ al_ap (lf w) = true /\ al_ent (lf w) = Some e) -> a_pa b e = touch c (a_pa a e)
}.

Lemma part_step : forall a b d v done w, free v -> part a b v done -> In w (nbr v) -> step b d w -> part a d v (done ++ [w]).
Proof.
  intros a b d v done w FV P I S.
  assert (NEW : forall u, new a d u -> new a b u \/ new b d u).
  { intros u (Z & N). destruct (Nat.eq_dec (a_area b u) 0) as [E|E]; [right; split; assumption|left; split; assumption]. }
  assert (KEEP : forall u, a_area b u <> 0 -> a_area d u <> 0) by (intros u H; rewrite (st_mono _ _ _ S u H); exact H).
  assert (LIFT : forall u, new a b u -> new a d u) by (intros u (Z & N); split; [exact Z|apply KEEP, N]).
  assert (LIFT2 : forall u, new b d u -> new a d u).
  { intros u (Z & N). split; [|exact N]. destruct (Nat.eq_dec (a_area a u) 0) as [E|E]; [exact E|]. rewrite (pt_mono _ _ _ _ P u E) in Z. congruence. }
  assert (IDEM : forall e, touch c (touch c (a_pa a e)) = touch c (a_pa a e)) by (intro e; apply touch_idem, C0).
  constructor.
  - intros u H. pose proof (pt_mono _ _ _ _ P u H) as E. rewrite (st_mono _ _ _ S u); [exact E|rewrite E; exact H].
  - intros u N. destruct (NEW u N) as [N1|N2].
    + destruct (pt_new _ _ _ _ P u N1) as (E & K). split; [|exact K]. rewrite (st_mono _ _ _ S u); [exact E|apply N1].
    + destruct (st_new _ _ _ S u N2) as (E & K). split; [exact E|]. eapply conn_left; eassumption.
  - apply LIFT, (pt_self _ _ _ _ P).
  - intros u x N NV J F. destruct (NEW u N) as [N1|N2]; [apply KEEP, (pt_closed _ _ _ _ P u x N1 NV J F)|apply (st_closed _ _ _ S u x N2 J F)].
  - intros x IX F. apply in_app_or in IX. destruct IX as [IX|[<-|[]]]; [apply KEEP, (pt_done _ _ _ _ P x IX F)|apply (st_self _ _ _ S F)].
  - intro e. destruct (st_pa _ _ _ S e) as [E|(E & T)].
    + rewrite E. destruct (pt_pa _ _ _ _ P e) as [E2|(E2 & u & x & N & R)]; [left; exact E2|right; split; [exact E2|]]. exists u, x. split; [apply LIFT, N|exact R].
    + right. split.
      * rewrite E. destruct (pt_pa _ _ _ _ P e) as [-> |(-> & _)]; [reflexivity|apply IDEM].
      * destruct T as [(u & x & N & R)|(AP & EN)]; [exists u, x; split; [apply LIFT2, N|exact R]|]. exists v, w. split; [apply LIFT, (pt_self _ _ _ _ P)|]. auto.
  - intros e H.
    assert (CASE : touched b d e \/ (al_ap (lf w) = true /\ al_ent (lf w) = Some e) \/ a_pa b e = touch c (a_pa a e)).
    { destruct H as [(u & x & N & NV & R)|(x & IX & R)].
      - destruct (NEW u N) as [N1|N2]; [right; right; apply (pt_touch _ _ _ _ P); left; exists u, x; auto|left; exists u, x; auto].
      - apply in_app_or in IX. destruct IX as [IX|[<-|[]]]; [right; right; apply (pt_touch _ _ _ _ P); right; exists x; auto|right; left; exact R]. }
    assert (B : a_pa b e = a_pa a e \/ a_pa b e = touch c (a_pa a e)) by (destruct (pt_pa _ _ _ _ P e) as [X|(X & _)]; auto).
    destruct CASE as [T|[T|E]].
    + rewrite (st_touch _ _ _ S e (or_introl T)). destruct B as [-> | ->]; [reflexivity|apply IDEM].
    + rewrite (st_touch _ _ _ S e (or_intror T)). destruct B as [-> | ->]; [reflexivity|apply IDEM].
    + destruct (st_pa _ _ _ S e) as [->|(-> & _)]; [exact E|]. rewrite E. apply IDEM.
Qed.

Lemma flood_step : forall fuel a v b, flood lf nbr c fuel a v = Some b -> step a b v.
Proof.
  induction fuel as [|fuel IH]; intros a v b H; [discriminate|]. cbn [flood] in H.
  destruct (al_ap (lf v)) eqn:AP.
  { injection H as <-.
    assert (NN : forall st, a_area st = a_area a -> forall u, ~ new a st u) by (intros st E u (Z & N); rewrite E in N; auto).
    set (st := match al_ent (lf v) with Some e => mkA (a_area a) (upd (a_pa a) e (touch c (a_pa a e))) | None => a end).
    assert (EA : a_area st = a_area a) by (unfold st; destruct (al_ent (lf v)); reflexivity).
    assert (PA : forall e, a_pa st e = if match al_ent (lf v) with Some k => e =? k | None => false end then touch c (a_pa a e) else a_pa a e).
    { intro e. unfold st. destruct (al_ent (lf v)) as [k|]; [|reflexivity]. cbn [a_pa]. unfold upd. destruct (Nat.eqb_spec e k); [subst k|]; reflexivity. }
    clearbody st. constructor.
    - intros u _. rewrite EA. reflexivity.
    - intros u N. destruct (NN st EA u N).
    - intro F. unfold free in F. congruence.
    - intros u w N. destruct (NN st EA u N).
    - intro e. rewrite PA. destruct (al_ent (lf v)) as [k|] eqn:EN; [|left; reflexivity]. destruct (Nat.eqb_spec e k); [right|left; reflexivity]. subst k. auto.
    - intros e [(u & w & N & _)|(_ & EN)]; [destruct (NN st EA u N)|]. rewrite PA, EN, Nat.eqb_refl. reflexivity. }
  destruct (Nat.eqb_spec (a_area a v) 0) as [Z|Z]; cbn [negb] in H.
  2: { injection H as <-. assert (NN : forall u, ~ new a a u) by (intros u (X & Y); auto). constructor.
    - reflexivity.
    - intros u N. destruct (NN u N).
    - intros _. exact Z.
    - intros u w N. destruct (NN u N).
    - intro e. left. reflexivity.
    - intros e [(u & w & N & _)|(X & _)]; [destruct (NN u N)|congruence]. }
  assert (FV : free v) by exact AP.
  assert (P0 : part a (mkA (upd (a_area a) v c) (a_pa a)) v []).
  { assert (NW : forall u, new a (mkA (upd (a_area a) v c) (a_pa a)) u -> u = v).
    { intros u (X & Y). cbn [a_area] in Y. unfold upd in Y. destruct (Nat.eqb_spec u v); [assumption|congruence]. }
    constructor; cbn [a_area a_pa].
    - intros u N. unfold upd. destruct (Nat.eqb_spec u v); [congruence|reflexivity].
    - intros u N. pose proof (NW u N) as ->. unfold upd. rewrite Nat.eqb_refl. split; [reflexivity|]. apply cn_self, FV.
    - split; [exact Z|]. cbn [a_area]. unfold upd. rewrite Nat.eqb_refl. exact C0.
    - intros u w N NV. destruct (NV (NW u N)).
    - intros w [].
    - left. reflexivity.
    - intros e [(u & w & N & NV & _)|(w & [] & _)]. destruct (NV (NW u N)). }
  assert (G : forall l done st, (forall w, In w l -> In w (nbr v)) -> part a st v done ->
    fold_left (fun o w => match o with None => None | Some s => flood lf nbr c fuel s w end) l (Some st) = Some b -> part a b v (done ++ l)).
  { induction l as [|w l IHL]; intros done st SUB P K; cbn [fold_left] in K; [injection K as <-; rewrite app_nil_r; exact P|].
    destruct (flood lf nbr c fuel st w) as [st1|] eqn:E.
    - replace (done ++ w :: l) with ((done ++ [w]) ++ l) by (rewrite <- app_assoc; reflexivity).
      apply (IHL (done ++ [w]) st1); [intros x I; apply SUB; right; exact I| |exact K].
      eapply part_step; [exact FV|exact P|apply SUB; left; reflexivity|apply IH, E].
    - exfalso. clear - K. induction l; [discriminate|]. apply IHl. exact K. }
  specialize (G (nbr v) [] _ (fun w I => I) P0 H). cbn [app] in G. constructor.
  - apply (pt_mono _ _ _ _ G).
  - apply (pt_new _ _ _ _ G).
  - intros _. apply (pt_self _ _ _ _ G).
  - intros u w N I F. destruct (Nat.eq_dec u v) as [->|NV]; [apply (pt_done _ _ _ _ G w I F)|apply (pt_closed _ _ _ _ G u w N NV I F)].
  - intro e. destruct (pt_pa _ _ _ _ G e) as [E|(E & T)]; [left; exact E|right; split; [exact E|left; exact T]].
  - intros e [(u & w & N & I & R)|(X & _)]; [|congruence]. apply (pt_touch _ _ _ _ G). destruct (Nat.eq_dec u v) as [->|NV]; [right; exists w; auto|left; exists u, w; auto].
Qed.

(** The recursion never goes deeper than the number of leafs without area. *)
Definition blank (n : nat) (a : astate) : nat := length (filter (fun u => a_area a u =? 0) (seq 0 n)).
Lemma filter_le : forall A (f g : A -> bool) l, (forall x, In x l -> g x = true -> f x = true) -> length (filter g l) <= length (filter f l).
Proof.
  intros A f g. induction l as [|x l IH]; intro H; [apply le_n|]. cbn [filter]. specialize (IH (fun y I => H y (or_intror I))).
  destruct (g x) eqn:G; [rewrite (H x (or_introl eq_refl) G); cbn; lia|]. destruct (f x); cbn; lia.
Qed.
Lemma filter_lt : forall A (f g : A -> bool) l x, (forall y, In y l -> g y = true -> f y = true) -> In x l -> f x = true -> g x = false ->
  length (filter g l) < length (filter f l).
Proof.
  intros A f g. induction l as [|y l IH]; intros x H I F G; [destruct I|]. destruct I as [->|I].
  - cbn [filter]. rewrite F, G. pose proof (filter_le A f g l (fun z J => H z (or_intror J))). cbn. lia.
  - specialize (IH x (fun z J => H z (or_intror J)) I F G). cbn [filter]. destruct (g y) eqn:GY; [rewrite (H y (or_introl eq_refl) GY); cbn; lia|]. destruct (f y); cbn; lia.
Qed.
Lemma blank_step : forall n a b v, step a b v -> blank n b <= blank n a.
Proof.
  intros n a b v S. unfold blank. apply filter_le. intros u _ E. apply Nat.eqb_eq in E. destruct (Nat.eqb_spec (a_area a u) 0) as [X|X]; [reflexivity|].
  rewrite (st_mono _ _ _ S u X) in E. congruence.
Qed.
Lemma flood_ends : forall n, (forall u w, In w (nbr u) -> w < n) -> forall fuel a v, v < n -> blank n a < fuel -> exists b, flood lf nbr c fuel a v = Some b.
Proof.
  intros n BND. induction fuel as [|fuel IH]; intros a v V L; [lia|]. cbn [flood].
  destruct (al_ap (lf v)); [eauto|]. destruct (Nat.eqb_spec (a_area a v) 0) as [Z|Z]; cbn [negb]; [|eauto].
  assert (LB : blank n (mkA (upd (a_area a) v c) (a_pa a)) < fuel).
  { eapply Nat.lt_le_trans; [|apply Nat.lt_succ_r, L]. unfold blank. cbn [a_area]. apply filter_lt with (x := v).
    - intros y _ E. unfold upd in E. cbv beta in E. destruct (y =? v) eqn:Q; [apply Nat.eqb_eq in E; congruence|exact E].
    - apply in_seq. lia.
    - apply Nat.eqb_eq, Z.
    - unfold upd. rewrite Nat.eqb_refl. apply Nat.eqb_neq, C0. }
  generalize dependent (mkA (upd (a_area a) v c) (a_pa a)). assert (SUB : forall w, In w (nbr v) -> w < n) by (intros w I; eapply BND, I). clear - IH SUB C0.
  induction (nbr v) as [|w l IHL]; intros st LB; cbn [fold_left]; [eauto|].
  destruct (IH st w (SUB w (or_introl eq_refl)) LB) as (b & E). rewrite E. apply IHL; [intros x I; apply SUB; right; exact I|].
  pose proof (blank_step n st b w (flood_step _ _ _ _ E)). lia.
Qed.
End Flood.

(** ** All areas *)

Definition eligible (lf : nat -> aleaf) (v : nat) : Prop := al_solid (lf v) = false /\ al_occ (lf v) = true /\ al_ap (lf v) = false.
(** Area [i] has a leaf with a portal into a leaf of area portal [e]. *)
Definition touches (lf : nat -> aleaf) (nbr : nat -> list nat) (st : astate) (e i : nat) : Prop :=
  exists u w, a_area st u = i /\ In w (nbr u) /\ al_ap (lf w) = true /\ al_ent (lf w) = Some e.

(** [p] are the two smallest of the areas 1..c that satisfy [T]; 0 stands for none. *)
Definition first_two (T : nat -> Prop) (c : nat) (p : nat * nat) : Prop :=
  (fst p = 0 -> forall i, 1 <= i <= c -> ~ T i) /\
  (fst p <> 0 -> fst p <= c /\ T (fst p) /\ forall i, 1 <= i < fst p -> ~ T i) /\
  (snd p = 0 -> forall i, 1 <= i <= c -> T i -> i = fst p) /\
  (snd p <> 0 -> fst p <> 0 /\ fst p < snd p <= c /\ T (snd p) /\ forall i, 1 <= i < snd p -> T i -> i = fst p).

Record inv (lf : nat -> aleaf) (nbr : nat -> list nat) (c : nat) (st : astate) (seen : list nat) : Prop := {
  in_le : forall u, a_area st u <= c;
  in_free : forall u, a_area st u <> 0 -> al_ap (lf u) = false;
  in_conn : forall u v, a_area st u = a_area st v -> a_area st u <> 0 -> conn lf nbr u v;
  in_closed : forall u v, conn lf nbr u v -> a_area st u = a_area st v;
  in_start : forall i, 1 <= i <= c -> exists u, eligible lf u /\ In u seen /\ a_area st u = i;
  in_seen : forall u, In u seen -> eligible lf u -> a_area st u <> 0;
  in_pa : forall e, first_two (touches lf nbr st e) c (a_pa st e)
}.

Lemma inv_start : forall lf nbr, inv lf nbr 0 (mkA (fun _ => 0) (fun _ => (0, 0))) [].
Proof.
  intros. constructor; cbn [a_area a_pa].
  - intro u. apply le_n.
  - congruence.
  - congruence.
  - reflexivity.
  - intros i H. lia.
  - intros u [].
  - intro e. unfold first_two. cbn [fst snd]. split; [intros; lia|]. split; [congruence|]. split; [intros; lia|congruence].
Qed.
Lemma first_two_touch : forall (T T2 : nat -> Prop) c p, (forall i, 1 <= i <= c -> (T2 i <-> T i)) -> T2 (S c) -> first_two T c p -> first_two T2 (S c) (touch (S c) p).
Proof.
  intros T T2 c [x y] E TN (A & B & D & F). unfold touch. cbn [fst snd] in *.
  destruct (Nat.eqb_spec x 0) as [X|X].
  - subst x. destruct (Nat.eqb_spec y 0) as [Y|Y]; [|destruct (F Y) as (Q & _); congruence]. subst y. cbn [Nat.eqb orb negb].
    unfold first_two. cbn [fst snd]. split; [discriminate|]. split; [|split; [|congruence]].
    + intros _. split; [apply le_n|]. split; [exact TN|]. intros i I T3. apply (A eq_refl i); [lia|]. apply E; [lia|exact T3].
    + intros _ i I T3. destruct (Nat.eq_dec i (S c)) as [->|NE]; [reflexivity|]. exfalso. apply (A eq_refl i); [lia|]. apply E; [lia|exact T3].
  - destruct (B X) as (B1 & B2 & B3). destruct (Nat.eqb_spec x (S c)) as [W|W]; [lia|]. cbn [orb].
    assert (BB : x <= S c /\ T2 x /\ forall i, 1 <= i < x -> ~ T2 i).
    { split; [lia|]. split; [apply E; [lia|exact B2]|]. intros i I. rewrite E by lia. apply B3. exact I. }
    destruct (Nat.eqb_spec y 0) as [Y|Y].
    + subst y. cbn [Nat.eqb negb]. unfold first_two. cbn [fst snd]. split; [congruence|]. split; [intros _; exact BB|]. split; [discriminate|].
      intros _. split; [exact X|]. split; [lia|]. split; [exact TN|]. intros i I T3. apply D; [reflexivity|lia|]. apply E; [lia|exact T3].
    + destruct (F Y) as (F1 & F2 & F3 & F4). destruct (Nat.eqb_spec y (S c)) as [W2|W2]; [lia|]. cbn [negb].
      unfold first_two. cbn [fst snd]. split; [congruence|]. split; [intros _; exact BB|]. split; [congruence|].
      intros _. split; [exact X|]. split; [lia|]. split; [apply E; [lia|exact F3]|]. intros i I T3. apply F4; [lia|]. apply E; [lia|exact T3].
Qed.
(** If the new area does not touch, or two areas are known already, nothing changes. *)
Lemma first_two_keep : forall (T T2 : nat -> Prop) c p, (forall i, 1 <= i <= c -> (T2 i <-> T i)) -> ((fst p = 0 \/ snd p = 0) -> ~ T2 (S c)) ->
  first_two T c p -> first_two T2 (S c) p.
Proof.
  intros T T2 c [x y] E K (A & B & D & F). unfold first_two. cbn [fst snd] in *. split; [|split; [|split]].
  - intros X i I T3. destruct (Nat.eq_dec i (S c)) as [->|NE]; [exact (K (or_introl X) T3)|]. apply (A X i); [lia|]. apply E; [lia|exact T3].
  - intro X. destruct (B X) as (B1 & B2 & B3). split; [lia|]. split; [apply E; [lia|exact B2]|]. intros i I. rewrite E by lia. apply B3. exact I.
  - intros Y i I T3. destruct (Nat.eq_dec i (S c)) as [->|NE]; [destruct (K (or_intror Y) T3)|]. apply D; [exact Y|lia|]. apply E; [lia|exact T3].
  - intro Y. destruct (F Y) as (F1 & F2 & F3 & F4). split; [exact F1|]. split; [lia|]. split; [apply E; [lia|exact F3]|].
    intros i I T3. apply F4; [lia|]. apply E; [lia|exact T3].
Qed.
Lemma inv_flood : forall lf nbr c st seen v b fuel, (forall u w, In w (nbr u) -> In u (nbr w)) -> inv lf nbr c st seen ->
  a_area st v = 0 -> eligible lf v -> flood lf nbr (S c) fuel st v = Some b -> inv lf nbr (S c) b (seen ++ [v]).
Proof.
  intros lf nbr c st seen v b fuel SY I Z EL H. pose proof (flood_step lf nbr (S c) (Nat.neq_succ_0 c) _ _ _ _ H) as ST.
  assert (FV : al_ap (lf v) = false) by apply EL.
  assert (ALL : forall u, conn lf nbr v u -> a_area b u = S c).
  { intros u K. assert (N : new st b u).
    { induction K as [v F|v x w K IH J F].
      - split; [exact Z|]. apply (st_self _ _ _ _ _ _ ST FV).
      - specialize (IH Z EL H ST FV). split.
        + rewrite <- (in_closed _ _ _ _ _ I v w); [exact Z|]. eapply cn_step; eassumption.
        + eapply (st_closed _ _ _ _ _ _ ST); eassumption. }
    apply (st_new _ _ _ _ _ _ ST u N). }
  assert (OTHER : forall u, a_area b u = S c -> conn lf nbr v u).
  { intros u E. destruct (Nat.eq_dec (a_area st u) 0) as [X|X].
    - apply (st_new _ _ _ _ _ _ ST u). split; [exact X|]. rewrite E. discriminate.
    - rewrite (st_mono _ _ _ _ _ _ ST u X) in E. pose proof (in_le _ _ _ _ _ I u). lia. }
  assert (SAME : forall u, a_area b u <> S c -> a_area b u = a_area st u).
  { intros u E. destruct (Nat.eq_dec (a_area st u) 0) as [X|X]; [|apply (st_mono _ _ _ _ _ _ ST u X)].
    destruct (Nat.eq_dec (a_area b u) 0) as [Y|Y]; [congruence|]. destruct (st_new _ _ _ _ _ _ ST u (conj X Y)) as (W & _). congruence. }
  assert (OLD : forall u, a_area st u <> 0 -> a_area b u <> S c /\ a_area b u = a_area st u).
  { intros u X. pose proof (st_mono _ _ _ _ _ _ ST u X) as E. pose proof (in_le _ _ _ _ _ I u). split; [lia|exact E]. }
  assert (TOLD : forall e i, 1 <= i <= c -> (touches lf nbr b e i <-> touches lf nbr st e i)).
  { intros e i B. split; intros (u & w & E & R); exists u, w; (split; [|exact R]).
    - rewrite <- SAME; [exact E|lia].
    - rewrite <- E. apply OLD. lia. }
  constructor.
  - intro u. destruct (Nat.eq_dec (a_area b u) (S c)) as [->|N]; [apply le_n|]. rewrite (SAME u N). pose proof (in_le _ _ _ _ _ I u). lia.
  - intros u N. destruct (Nat.eq_dec (a_area b u) (S c)) as [E|E]; [apply (conn_free lf nbr v u (OTHER u E))|].
    rewrite (SAME u E) in N. apply (in_free _ _ _ _ _ I u N).
  - intros u w E N. destruct (Nat.eq_dec (a_area b u) (S c)) as [X|X].
    + rewrite X in E. eapply conn_trans; [apply conn_sym; [exact SY|apply OTHER, X]|]. apply OTHER. congruence.
    + assert (a_area b w <> S c) by congruence. rewrite (SAME u X) in E, N. rewrite (SAME w H0) in E. apply (in_conn _ _ _ _ _ I u w E N).
  - intros u w K. destruct (Nat.eq_dec (a_area b u) (S c)) as [X|X].
    + rewrite X. symmetry. apply ALL. eapply conn_trans; [apply OTHER, X|exact K].
    + destruct (Nat.eq_dec (a_area b w) (S c)) as [Y|Y].
      * exfalso. apply X. apply ALL. eapply conn_trans; [apply OTHER, Y|]. apply conn_sym; [exact SY|exact K].
      * rewrite (SAME u X), (SAME w Y). apply (in_closed _ _ _ _ _ I u w K).
  - intros i B. destruct (Nat.eq_dec i (1 + c)) as [->|N].
    + exists v. split; [exact EL|]. split; [apply in_or_app; right; left; reflexivity|]. apply ALL. apply cn_self, FV.
    + destruct (in_start _ _ _ _ _ I i) as (u & E1 & E2 & E3); [lia|]. exists u. split; [exact E1|]. split; [apply in_or_app; left; exact E2|].
      rewrite <- E3. apply OLD. lia.
  - intros u IU E. apply in_app_or in IU. destruct IU as [IU|[<-|[]]].
    + pose proof (in_seen _ _ _ _ _ I u IU E) as X. destruct (OLD u X) as (_ & ->). exact X.
    + apply (st_self _ _ _ _ _ _ ST FV).
  - intro e. pose proof (in_pa _ _ _ _ _ I e) as P.
    assert (TNEW : touches lf nbr b e (1 + c) <-> touched lf nbr st b e).
    { split; intros (u & w & E & R); exists u, w; (split; [|exact R]).
      - destruct (Nat.eq_dec (a_area st u) 0) as [X|X]; [split; [exact X|rewrite E; discriminate]|]. destruct (OLD u X) as (Y & _). lia.
      - apply (st_new _ _ _ _ _ _ ST u E). }
    destruct (st_pa _ _ _ _ _ _ ST e) as [EQ|(EQ & [T|(AP & _)])]; [| |congruence].
    + rewrite EQ. apply first_two_keep with (T := touches lf nbr st e); [apply TOLD| |exact P].
      intros D T. apply TNEW in T. pose proof (st_touch _ _ _ _ _ _ ST e (or_introl T)) as W. rewrite EQ in W.
      destruct (a_pa st e) as [x y] eqn:EP in *. clear EQ. cbn [fst snd] in D. unfold touch in W. cbn [fst snd] in W.
      destruct P as (_ & B & _ & F). cbn [fst snd] in B, F.
      destruct (Nat.eqb_spec x (S c)) as [X|X]; [destruct (B ltac:(lia)); lia|].
      destruct (Nat.eqb_spec y (S c)) as [Y|Y]; [destruct (F ltac:(lia)); lia|]. cbn [orb] in W.
      destruct (Nat.eqb_spec y 0) as [Y0|Y0]; cbn [negb] in W.
      * destruct (Nat.eqb_spec x 0); cbn [negb] in W; apply (f_equal (fun q => fst q + snd q)) in W; cbn [fst snd] in W; lia.
      * destruct (F Y0) as (F1 & _). destruct D; congruence.
    + rewrite EQ. apply first_two_touch with (T := touches lf nbr st e); [apply TOLD|apply TNEW, T|exact P].
Qed.

Lemma find_inv : forall lf nbr fuel, (forall u w, In w (nbr u) -> In u (nbr w)) -> forall ls c st c2 st2 seen, inv lf nbr c st seen ->
  find_areas lf nbr fuel ls (c, st) = Some (c2, st2) -> inv lf nbr c2 st2 (seen ++ ls).
Proof.
  intros lf nbr fuel SY. induction ls as [|v ls IH]; intros c st c2 st2 seen I H; cbn [find_areas fst snd] in H.
  - injection H as <- <-. rewrite app_nil_r. exact I.
  - replace (seen ++ v :: ls) with ((seen ++ [v]) ++ ls) by (rewrite <- app_assoc; reflexivity).
    match type of H with (if ?x then _ else _) = _ => destruct x eqn:E end.
    + apply (IH c st); [|exact H]. destruct I as [I1 I2 I3 I4 I5 I6 I7]. constructor; auto.
      * intros i B. destruct (I5 i B) as (u & X & Y & W). exists u. split; [exact X|]. split; [apply in_or_app; left; exact Y|exact W].
      * intros u IU (S1 & S2 & S3). apply in_app_or in IU. destruct IU as [IU|[<-|[]]]; [apply I6; [exact IU|repeat split; assumption]|].
        rewrite S1, S2, S3, !orb_false_r in E. apply negb_true_iff, Nat.eqb_neq in E. exact E.
    + apply orb_false_iff in E. destruct E as (E & E4). apply orb_false_iff in E. destruct E as (E & E3). apply orb_false_iff in E. destruct E as (E1 & E2).
      apply negb_false_iff in E1, E3. apply Nat.eqb_eq in E1.
      destruct (flood lf nbr (S c) fuel st v) as [b|] eqn:F; [|discriminate].
      apply (IH (S c) b); [|exact H]. eapply inv_flood; [exact SY|exact I|exact E1| |exact F]. repeat split; assumption.
Qed.
Lemma blank_le : forall n a, blank n a <= n.
Proof. intros n a. unfold blank. rewrite <- (seq_length n 0) at 2. induction (seq 0 n) as [|x l IH]; [apply le_n|]. cbn [filter]. destruct (a_area a x =? 0); cbn; lia. Qed.
Lemma find_ends : forall lf nbr fuel n, (forall u w, In w (nbr u) -> w < n) -> n < fuel -> forall ls r, (forall v, In v ls -> v < n) ->
  exists r2, find_areas lf nbr fuel ls r = Some r2.
Proof.
  intros lf nbr fuel n BND L. induction ls as [|v ls IH]; intros r B; cbn [find_areas]; [eauto|].
  match goal with |- context[if ?x then _ else _] => destruct x end; [apply IH; intros w I; apply B; right; exact I|].
  destruct (flood_ends lf nbr (S (fst r)) (Nat.neq_succ_0 _) n BND fuel (snd r) v) as (b & E); [apply B; left; reflexivity|pose proof (blank_le n (snd r)); lia|].
  rewrite E. apply IH. intros w I. apply B. right. exact I.
Qed.

(** ** Areas of the leafs of area portals *)
Lemma set_areas_pa : forall lf ls st, a_pa (set_areas lf ls st) = a_pa st.
Proof.
  intros lf. induction ls as [|v ls IH]; intro st; cbn [set_areas]; [reflexivity|].
  match goal with |- context[if ?x then _ else _] => destruct x end; [apply IH|]. destruct (al_ent (lf v)); rewrite IH; reflexivity.
Qed.
Lemma set_areas_keep : forall lf v ls st, (al_only (lf v) = false \/ al_ent (lf v) = None \/ a_area st v <> 0) -> a_area (set_areas lf ls st) v = a_area st v.
Proof.
  intros lf v. induction ls as [|w ls IH]; intros st H; cbn [set_areas]; [reflexivity|].
  match goal with |- context[if ?x then _ else _] => destruct x eqn:E end; [apply IH, H|]. destruct (al_ent (lf w)) as [e|] eqn:EN; [|apply IH, H].
  apply orb_false_iff in E. destruct E as (E1 & E2). apply negb_false_iff in E1, E2. apply Nat.eqb_eq in E2.
  assert (NE : v <> w) by (intros ->; destruct H as [H|[H|H]]; congruence).
  rewrite IH; cbn [a_area]; unfold upd; destruct (Nat.eqb_spec v w) as [Q|_]; try contradiction; [reflexivity|exact H].
Qed.
Lemma set_areas_other : forall lf v ls st, ~ In v ls -> a_area (set_areas lf ls st) v = a_area st v.
Proof.
  intros lf v. induction ls as [|w ls IH]; intros st J; cbn [set_areas]; [reflexivity|].
  assert (J2 : ~ In v ls) by (intro Q; apply J; right; exact Q). assert (JX : v <> w) by (intros ->; apply J; left; reflexivity).
  match goal with |- context[if ?q then _ else _] => destruct q end; [apply IH, J2|].
  destruct (al_ent (lf w)); rewrite IH by exact J2; [|reflexivity]. cbn [a_area]. unfold upd. destruct (Nat.eqb_spec v w); [contradiction|reflexivity].
Qed.
Lemma set_areas_set : forall lf v e ls st, al_only (lf v) = true -> al_ent (lf v) = Some e -> a_area st v = 0 -> In v ls ->
  a_area (set_areas lf ls st) v = fst (a_pa st e).
Proof.
  intros lf v e. induction ls as [|w ls IH]; intros st O EN Z I; [destruct I|]. cbn [set_areas].
  destruct (Nat.eq_dec w v) as [->|NE].
  - rewrite O, Z, EN. cbn [negb orb Nat.eqb].
    destruct (Nat.eq_dec (fst (a_pa st e)) 0) as [P|P].
    + destruct (in_dec Nat.eq_dec v ls) as [J|J].
      * rewrite IH; [reflexivity|assumption|assumption|cbn [a_area]; unfold upd; rewrite Nat.eqb_refl; exact P|exact J].
      * rewrite set_areas_other by exact J. cbn [a_area]. unfold upd. rewrite Nat.eqb_refl. reflexivity.
    + rewrite set_areas_keep; cbn [a_area]; unfold upd; rewrite Nat.eqb_refl; [reflexivity|]. right; right. exact P.
  - destruct I as [I|I]; [contradiction|].
    match goal with |- context[if ?x then _ else _] => destruct x end; [apply IH; assumption|].
    destruct (al_ent (lf w)); [|apply IH; assumption]. rewrite IH; [reflexivity|assumption|assumption| |exact I].
    cbn [a_area]. unfold upd. destruct (Nat.eqb_spec v w); [congruence|exact Z].
Qed.

(** ** The area portal lump *)
(** The portals of area [i]: number and area on the other side of every area portal that [i] touches. *)
Definition slice (i : nat) (es : list aent) : list (nat * nat) :=
  flat_map (fun e => if fst e =? 0 then [] else if (fst (snd e) =? i) || (snd (snd e) =? i) then [dp_of i e] else []) es.
Definition dp_from (is : list nat) (es : list aent) (d : nat * nat) : Prop := exists i e, In i is /\ In e es /\ fst e <> 0 /\ (fst (snd e) = i \/ snd (snd e) = i) /\ d = dp_of i e.

Lemma dp_eqb_eq : forall a b, dp_eqb a b = true <-> a = b.
Proof.
  intros [a1 a2] [b1 b2]. unfold dp_eqb. cbn [fst snd]. rewrite andb_true_iff, !Nat.eqb_eq. split; [intros (-> & ->); reflexivity|intro H; injection H; auto].
Qed.
Definition ents_ok (es : list aent) : Prop :=
  (forall e, In e es -> fst (snd e) = snd (snd e) -> snd (snd e) = 0) /\
  (forall a b, In a es -> In b es -> fst a <> 0 -> fst a = fst b -> a = b).

Lemma emit_ents_slice : forall all i es dps, i <> 0 -> ents_ok all -> (forall e, In e es -> In e all) -> In (0, 0) dps ->
  NoDup (map fst (filter (fun e => negb (fst e =? 0)) es)) ->
  (forall e, In e es -> fst e <> 0 -> fst (snd e) = i \/ snd (snd e) = i -> ~ In (dp_of i e) dps) ->
  emit_ents i es dps = dps ++ slice i es.
Proof.
  intros all i. induction es as [|e es IH]; intros dps I0 OK SUB Z ND FR; [symmetry; apply app_nil_r|]. cbn [emit_ents slice flat_map].
  assert (SUB2 : forall x, In x es -> In x all) by (intros x J; apply SUB; right; exact J).
  cbn [filter] in ND. destruct (Nat.eqb_spec (fst e) 0) as [E|E]; cbn [negb] in ND.
  { cbn [app]. apply IH; auto. intros x J. apply FR. right. exact J. }
  cbn [map] in ND. apply NoDup_cons_iff in ND. destruct ND as (ND1 & ND2).
  destruct ((fst (snd e) =? i) || (snd (snd e) =? i)) eqn:T.
  - apply orb_true_iff in T. rewrite !Nat.eqb_eq in T.
    assert (NI : existsb (dp_eqb (dp_of i e)) dps = false).
    { destruct (existsb (dp_eqb (dp_of i e)) dps) eqn:X; [|reflexivity]. apply existsb_exists in X. destruct X as (d & D & Q). apply dp_eqb_eq in Q. subst d.
      destruct (FR e (or_introl eq_refl) E T D). }
    rewrite NI, IH; auto.
    + rewrite <- app_assoc. reflexivity.
    + apply in_or_app. left. exact Z.
    + intros x J X TX D. apply in_app_or in D. destruct D as [D|[D|[]]]; [apply (FR x (or_intror J) X TX D)|].
      apply ND1. apply in_map_iff. exists x. split; [|apply filter_In; split; [exact J|apply negb_true_iff, Nat.eqb_neq, X]].
      apply (f_equal fst) in D. unfold dp_of in D.
      repeat match type of D with context[if ?q then _ else _] => destruct q eqn:? end; cbn [fst] in D; try (symmetry; exact D);
      repeat match goal with H : (_ =? _) = false |- _ => apply Nat.eqb_neq in H end; destruct T, TX; congruence.
  - apply orb_false_iff in T. destruct T as (T1 & T2). unfold dp_of at 1. rewrite T1, T2.
    assert (X : existsb (dp_eqb (0, 0)) dps = true) by (apply existsb_exists; exists (0, 0); split; [exact Z|apply dp_eqb_eq; reflexivity]).
    rewrite X. cbn [app]. apply IH; auto. intros x J. apply FR. right. exact J.
Qed.
Lemma slice_from : forall i es d, In d (slice i es) <-> exists e, In e es /\ fst e <> 0 /\ (fst (snd e) = i \/ snd (snd e) = i) /\ d = dp_of i e.
Proof.
  intros i es d. unfold slice. rewrite in_flat_map. split.
  - intros (e & J & D). exists e. destruct (Nat.eqb_spec (fst e) 0); [destruct D|].
    destruct ((fst (snd e) =? i) || (snd (snd e) =? i)) eqn:T; [|destruct D]. apply orb_true_iff in T. rewrite !Nat.eqb_eq in T. destruct D as [<-|[]]. auto.
  - intros (e & J & E & T & ->). exists e. split; [exact J|]. destruct (Nat.eqb_spec (fst e) 0); [contradiction|].
    assert (X : (fst (snd e) =? i) || (snd (snd e) =? i) = true) by (apply orb_true_iff; rewrite !Nat.eqb_eq; exact T). rewrite X. left. reflexivity.
Qed.
Lemma dp_num : forall i e, fst (snd e) = i \/ snd (snd e) = i -> fst (dp_of i e) = fst e.
Proof. intros i e [<-|<-]; unfold dp_of; rewrite Nat.eqb_refl; [reflexivity|]. destruct (_ =? _); reflexivity. Qed.
Lemma dp_inj : forall es i j e f, ents_ok es -> i <> 0 -> j <> 0 -> In e es -> In f es -> fst e <> 0 -> fst f <> 0 ->
  (fst (snd e) = i \/ snd (snd e) = i) -> (fst (snd f) = j \/ snd (snd f) = j) -> dp_of i e = dp_of j f -> i = j.
Proof.
  intros es i j e f (OK1 & OK2) I0 J0 IE IF E F TE TF D.
  assert (e = f). { apply OK2; auto. rewrite <- (dp_num i e TE), <- (dp_num j f TF), D. reflexivity. } subst f.
  apply (f_equal snd) in D. specialize (OK1 e IE). destruct e as [n [x y]]. unfold dp_of in D. cbn [fst snd] in *.
  repeat match type of D with context[?a =? ?b] => destruct (Nat.eqb_spec a b) end; cbn [snd] in D; intuition congruence.
Qed.

Definition from_areas (is : list nat) (es : list aent) : list (nat * nat) := flat_map (fun i => slice i es) is.
Lemma emit_areas_gen : forall es, ents_ok es -> NoDup (map fst (filter (fun e => negb (fst e =? 0)) es)) ->
  forall is past areas dps, NoDup (past ++ is) -> (forall i, In i (past ++ is) -> i <> 0) -> dps = (0, 0) :: from_areas past es ->
  snd (emit_areas is es areas dps) = (0, 0) :: from_areas (past ++ is) es /\
  length (fst (emit_areas is es areas dps)) = length areas + length is /\
  (forall k, k < length areas -> nth k (fst (emit_areas is es areas dps)) (0, 0) = nth k areas (0, 0)) /\
  forall k, k < length is -> nth (length areas + k) (fst (emit_areas is es areas dps)) (0, 0) =
     (1 + length (from_areas (past ++ firstn k is) es), length (slice (nth k is 0) es)).
Proof.
  intros es OK NN. induction is as [|i is IH]; intros past areas dps ND P0 D; cbn [emit_areas fst snd].
  - rewrite app_nil_r. split; [exact D|]. split; [cbn; lia|]. split; [reflexivity|]. cbn. lia.
  - assert (E : emit_ents i es dps = dps ++ slice i es).
    { apply emit_ents_slice with (all := es); auto.
      - apply P0. apply in_or_app. right. left. reflexivity.
      - rewrite D. left. reflexivity.
      - intros e IE E T IN. rewrite D in IN. destruct IN as [IN|IN].
        + apply (f_equal fst) in IN. rewrite (dp_num i e T) in IN. cbn in IN. congruence.
        + apply in_flat_map in IN. destruct IN as (j & J & IN). apply slice_from in IN. destruct IN as (f & F1 & F2 & F3 & F4).
          assert (i = j). { eapply (dp_inj es i j e f); eauto; apply P0; apply in_or_app; [right; left; reflexivity|left; exact J]. } subst j.
          apply NoDup_remove_2 in ND. apply ND. apply in_or_app. left. exact J. }
    cbv zeta. rewrite E. replace (past ++ i :: is) with ((past ++ [i]) ++ is) in * by (rewrite <- app_assoc; reflexivity).
    rewrite app_length. replace (length dps + length (slice i es) - length dps) with (length (slice i es)) by lia.
    destruct (IH (past ++ [i]) (areas ++ [(length dps, length (slice i es))]) (dps ++ slice i es)) as (A & L & B & K); auto.
    { rewrite D. unfold from_areas. rewrite flat_map_app. cbn [flat_map app]. rewrite app_nil_r. reflexivity. }
    rewrite app_length in L, B, K. cbn [length] in L, B, K.
    split; [exact A|]. split; [rewrite L; cbn; lia|]. split.
    + intros k Q. rewrite B by lia. apply app_nth1. exact Q.
    + intros [|k] Q.
      * rewrite Nat.add_0_r, B by lia. rewrite app_nth2, Nat.sub_diag by lia. cbn [nth firstn]. rewrite app_nil_r, D. reflexivity.
      * replace (length areas + S k) with (length areas + 1 + k) by lia. rewrite K by (cbn in Q; lia). cbn [nth firstn]. rewrite <- app_assoc. reflexivity.
Qed.
Lemma firstn_app_l : forall A (a b : list A), firstn (length a) (a ++ b) = a.
Proof. intros A a b. induction a as [|x a IH]; cbn; [reflexivity|]. rewrite IH. reflexivity. Qed.
Lemma skipn_app_l : forall A (a b : list A), skipn (length a) (a ++ b) = b.
Proof. intros A a b. induction a as [|x a IH]; cbn; [reflexivity|]. exact IH. Qed.
Lemma emit_areas_slices : forall es c, ents_ok es -> NoDup (map fst (filter (fun e => negb (fst e =? 0)) es)) ->
  let r := emit_areas (seq 1 c) es [(0, 0)] [(0, 0)] in
  length (fst r) = S c /\ nth 0 (fst r) (0, 0) = (0, 0) /\ nth 0 (snd r) (0, 0) = (0, 0) /\
  forall i, 1 <= i <= c -> firstn (snd (nth i (fst r) (0, 0))) (skipn (fst (nth i (fst r) (0, 0))) (snd r)) = slice i es.
Proof.
  intros es c OK NN r. destruct (emit_areas_gen es OK NN (seq 1 c) [] [(0, 0)] [(0, 0)]) as (A & L & B & K); auto.
  { apply seq_NoDup. }
  { intros i I. apply in_seq in I. lia. }
  fold r in A, L, B, K. clearbody r. cbn [length app] in *. rewrite seq_length in L, K. split; [exact L|]. split; [apply B; lia|]. split; [rewrite A; reflexivity|].
  intros i I. specialize (K (i - 1) ltac:(lia)). replace (1 + (i - 1)) with i in K by lia. rewrite K. cbn [fst snd]. rewrite seq_nth by lia. replace (1 + (i - 1)) with i by lia.
  assert (SP : seq 1 c = firstn (i - 1) (seq 1 c) ++ i :: skipn i (seq 1 c)).
  { rewrite <- (firstn_skipn (i - 1) (seq 1 c)) at 1. f_equal. clear - I. revert i I. assert (G : forall c s k, k < c -> skipn k (seq s c) = s + k :: skipn (S k) (seq s c)).
    { induction c0 as [|c0 IH]; intros s k Q; [lia|]. destruct k as [|k]; [cbn; f_equal; lia|]. cbn [seq skipn]. rewrite IH by lia. f_equal. lia. }
    intros i I. rewrite G by lia. f_equal; [lia|]. f_equal. lia. }
  rewrite A. rewrite SP at 2. unfold from_areas. rewrite flat_map_app. cbn [flat_map].
  set (p := flat_map _ (firstn (i - 1) (seq 1 c))). cbn [Nat.add skipn]. rewrite skipn_app_l. apply firstn_app_l.
Qed.
