(* Proofs about QMapModel.v. *)
From Coq Require Import List Arith NArith ZArith Bool Lia.
Import ListNotations.
From Verif Require Import Base ParserModel ParserProofs EntModel EntProofs DecompEntModel MapFileModel MapFileProofs QMapModel.
Local Open Scope N_scope.

(** ** The parser stays before a text *)
Definition okr {A} (r : mres A) : Prop := match r with M_ok _ p => exists t, at_ t p | _ => True end.
Lemma okr_bind : forall {A B} (r : mres A) (k : A -> pstate -> mres B), okr r -> (forall x p t, at_ t p -> okr (k x p)) -> okr (mbind r k).
Proof. intros A B [x p| | |] k H K; cbn in *; auto. destruct H as (t & H). eauto. Qed.
Lemma mtok_at : forall f p t, at_ t p -> okr (mtok f p).
Proof.
  intros f p t (M & L). unfold mtok. assert (NP : forall f, f_peek f = false -> match parse_token f p with T_ret _ q => exists v, at_ v q | _ => True end).
  { intros g P. destruct (parse_token_ok g p t []) as [-> | (b & q & u & v & -> & -> & M2 & L2 & _)]; [split; [exact M|lia]|exact P|exact I|].
    exists v. split; [exact M2|]. rewrite L2, L, app_length. lia. }
  destruct (f_peek f) eqn:P.
  - rewrite peek_spec by exact P. destruct (f_bits_ldiff f) as (_ & _ & _ & B4). specialize (NP _ B4). destruct (parse_token _ p); cbn; auto. exists t. split; assumption.
  - specialize (NP f P). destruct (parse_token f p); cbn; auto.
Qed.
Ltac tk := eapply okr_bind; [eapply mtok_at; eassumption|intros; cbv beta].

(** ** Comments *)
Definition follows (p q : pstate) : Prop := parse_token PARSE_NORMAL p = parse_token PARSE_NORMAL q.
Lemma follows_tok : forall p q, follows p q -> mtok PARSE_NORMAL p = mtok PARSE_NORMAL q.
Proof. intros p q F. unfold mtok. rewrite F. reflexivity. Qed.
Lemma comment_skip : forall t n line acc tok rest lft, n = length t -> take_comment (t ++ [0]) n acc = Some (tok, rest, lft) ->
  (match t ++ [0] with [] => T_UB | d :: _ => if d =? 0 then T_ret false (mkPS [] false (t ++ [0]) n line) else skip PARSE_NORMAL true (t ++ [0]) n line end)
  = skip PARSE_NORMAL false rest lft line.
Proof.
  induction t as [|c t IH]; intros n line acc tok rest lft -> H.
  - cbn in H. injection H as <- <- <-. cbn. reflexivity.
  - cbn [app take_comment length] in *. destruct (N.eqb_spec c 0) as [->|N0].
    + cbn [orb] in H. injection H as <- <- <-. reflexivity.
    + destruct (N.eqb_spec c 10) as [->|N1]; cbn [orb] in H.
      * injection H as <- <- <-. reflexivity.
      * rewrite <- (IH (length t) line _ _ _ _ eq_refl H). cbn [skip pred]. destruct (N.eqb_spec c 10); [contradiction|]. destruct (t ++ [0]); reflexivity.
Qed.
(** Looking for a comment takes nothing but blanks and that comment. *)
Lemma comment_follows : forall t line b q, skip COMMENT_OPTIONAL false (t ++ [0]) (length t) line = T_ret b q ->
  skip PARSE_NORMAL false (ps_mem q) (ps_left q) (ps_line q) = skip PARSE_NORMAL false (t ++ [0]) (length t) line /\
  (b = true -> hd 0 (ps_mem q) = 10 \/ hd 0 (ps_mem q) = 0).
Proof.
  induction t as [|c t IH]; intros line b q H.
  - cbn in H. injection H as <- <-. split; [reflexivity|discriminate].
  - cbn [app length skip pred] in H |- *. destruct (blank c) eqn:B.
    + destruct (N.eqb_spec c 0) as [->|N0]; [cbn in H; injection H as <- <-; split; [reflexivity|discriminate]|].
      destruct (N.eqb_spec c 10) as [->|N1]; [cbn in H; injection H as <- <-; split; [reflexivity|discriminate]|].
      exact (IH line b q H).
    + destruct (if c =? 47 then _ else _) as [[|]|] eqn:CM; [| |discriminate].
      * change (f_comment COMMENT_OPTIONAL) with true in H. cbn beta iota in H.
        destruct (take_comment (c :: t ++ [0]) (S (length t)) []) as [[[tok rest] lft]|] eqn:TC; [|discriminate]. injection H as <- <-. cbn [ps_mem ps_left ps_line].
        cbn [take_comment pred] in TC. destruct (N.eqb_spec c 0) as [->|N0]; [discriminate|]. destruct (N.eqb_spec c 10) as [->|N1]; [discriminate|]. cbn [orb] in TC.
        split; [rewrite <- (comment_skip t (length t) line _ _ _ _ eq_refl TC); reflexivity|]. intros _.
        clear -TC. revert TC. generalize (length t) as n, ([] ++ [c]) as acc. generalize (t ++ [0]) as s. induction s as [|x s IH]; intros n acc H; [discriminate|]. cbn [take_comment] in H.
        destruct (N.eqb_spec x 0) as [->|]; [injection H as <- <- <-; right; reflexivity|]. destruct (N.eqb_spec x 10) as [->|]; [injection H as <- <- <-; left; reflexivity|]. exact (IH _ _ H).
      * unfold copy_token in H. change (f_comment COMMENT_OPTIONAL) with true in H. injection H as <- <-. cbn [ps_mem ps_left ps_line skip]. rewrite B, CM. split; [reflexivity|discriminate].
Qed.
Lemma mtok_comment : forall t p b q, at_ t p -> mtok COMMENT_OPTIONAL p = M_ok b q -> follows q p /\ (b = true -> exists q2, mtok PARSE_OPTIONAL q = M_ok false q2 /\ follows q2 q).
Proof.
  intros t p b q A H. pose proof (mtok_at COMMENT_OPTIONAL p t A) as X. rewrite H in X. destruct X as (v & MV & LV). destruct A as (M & L).
  unfold mtok, parse_token in H. change (f_peek COMMENT_OPTIONAL) with false in H. cbn beta iota in H. rewrite M, L in H.
  destruct (skip _ _ _ _ _) as [b2 q2| |] eqn:E; try discriminate. injection H as -> ->. destruct (comment_follows t _ _ _ E) as (F & C).
  split; [unfold follows, parse_token; change (f_peek PARSE_NORMAL) with false; cbn beta iota; rewrite M, L; exact F|].
  intros ->. specialize (C eq_refl). unfold mtok, parse_token. change (f_peek PARSE_OPTIONAL) with false. cbn beta iota.
  rewrite MV, LV in *. destruct v as [|c v]; cbn [app hd length skip] in *.
  - eexists. split; [reflexivity|]. unfold follows, parse_token. cbn [ps_mem ps_left ps_line]. rewrite MV, LV. reflexivity.
  - destruct C as [-> | ->]; (eexists; split; [reflexivity|]; unfold follows, parse_token; cbn [ps_mem ps_left ps_line]; rewrite MV, LV; reflexivity).
Qed.

Lemma tx_cases : forall tok : list N, (exists d tl, tok = 47 :: 47 :: 84 :: 88 :: d :: tl) \/
  (forall A (f : N -> list N -> A) g, (match tok with 47 :: 47 :: 84 :: 88 :: d :: tl => f d tl | _ => g end) = g).
Proof.
  intro tok. destruct tok as [|c1 tok]; [right; reflexivity|].
  destruct (N.eq_dec c1 47) as [->|N1]; [|right; intros; destruct c1 as [|c]; [reflexivity|]; do 6 (destruct c as [c|c|]; try reflexivity); congruence].
  destruct tok as [|c2 tok]; [right; reflexivity|].
  destruct (N.eq_dec c2 47) as [->|N2]; [|right; intros; destruct c2 as [|c]; [reflexivity|]; do 6 (destruct c as [c|c|]; try reflexivity); congruence].
  destruct tok as [|c3 tok]; [right; reflexivity|].
  destruct (N.eq_dec c3 84) as [->|N3]; [|right; intros; destruct c3 as [|c]; [reflexivity|]; do 7 (destruct c as [c|c|]; try reflexivity); congruence].
  destruct tok as [|c4 tok]; [right; reflexivity|].
  destruct (N.eq_dec c4 88) as [->|N4]; [|right; intros; destruct c4 as [|c]; [reflexivity|]; do 7 (destruct c as [c|c|]; try reflexivity); congruence].
  destruct tok as [|d tok]; [right; reflexivity|]. left. eauto.
Qed.

Definition txd (tok : bytes) : option N := match tok with 47 :: 47 :: 84 :: 88 :: d :: _ => Some d | _ => None end.
Lemma quark_eq : forall {num} (raw : @texdef num) p, quark raw p =
  do (b, p) <- mtok COMMENT_OPTIONAL p;
  if b then match txd (ps_token p) with
            | Some d => match raw with TQuake l => if d =? 49 then M_ok (Some (TEtp l false)) p else if d =? 50 then M_ok (Some (TEtp l true)) p else M_ok None p | _ => M_error end
            | None => M_ok None p
            end
  else M_ok None p.
Proof.
  intros num raw p. unfold quark. destruct (mtok COMMENT_OPTIONAL p) as [b q| | |]; try reflexivity. cbn [mbind]. destruct b; [|reflexivity]. unfold txd.
  destruct (tx_cases (ps_token q)) as [(d & tl & E)|E]; [rewrite E; reflexivity|]. rewrite (E _ (fun d _ => Some d) None).
  exact (E _ (fun d _ => match raw with TQuake l => if d =? 49 then M_ok (Some (TEtp l false)) q else if d =? 50 then M_ok (Some (TEtp l true)) q else M_ok None q | _ => M_error end) (M_ok None q)).
Qed.
Lemma q_tx_eq : forall {num} (raw : @qtex num) tok, q_tx raw tok =
  match txd tok with Some d => match raw with QT (TQuake l) => if d =? 49 then QT (TEtp l false) else if d =? 50 then QT (TEtp l true) else raw | _ => raw end | None => raw end.
Proof.
  intros num raw tok. unfold txd, q_tx. destruct (tx_cases tok) as [(d & tl & E)|E]; [rewrite E; reflexivity|]. rewrite (E _ (fun d _ => Some d) None).
  exact (E _ (fun d _ => match raw with QT (TQuake l) => if d =? 49 then QT (TEtp l false) else if d =? 50 then QT (TEtp l true) else raw | _ => raw end) raw).
Qed.

Section Agree.
Context {num int : Type} (stod : bytes -> option num) (stoul stoi : bytes -> option int) (zero : int).
Local Notation qside := (@qside num int). Local Notation side := (@side num int).
Definition of_ext (x : option (@extinfo int)) : option (@qext int) :=
  option_map (fun e => (fst (fst e), match snd (fst e) with Some f => f | None => zero end, match snd e with Some v => v | None => zero end)) x.
(** A side as qbsp has it: //TX behind surface information is not looked at, numbers that are missing are 0. *)
Definition of_side (s : side) : qside :=
  mkQS (sd_pts s) (sd_tex s) (QT (match sd_raw s, sd_ext s with TEtp l _, Some _ => TQuake l | r, _ => r end)) (of_ext (sd_ext s)).
Definition of_brush (b : @brush num int) : @qbrush num int := mkQB (br_bp b) (map of_side (br_sides b)).
Definition of_ent (e : @ment num int) : @qent num int := mkQE (me_pairs e) (map of_brush (me_brushes e)).

Lemma nums_okr : forall n p t, at_ t p -> okr (nums stod n p).
Proof.
  induction n as [|n IH]; intros p t A; cbn [nums]; [exists t; exact A|]. tk. destruct (stod _); [|exact I]. eapply okr_bind; [eapply IH; eassumption|]. intros. cbn. eauto.
Qed.
Lemma expect_okr : forall f c p t, at_ t p -> okr (expect f c p).
Proof. intros f c p t A. unfold expect. tk. destruct (beq _ _); cbn; eauto. Qed.
Ltac ex := eapply okr_bind; [eapply expect_okr; eassumption|intros; cbv beta].
Ltac nm := eapply okr_bind; [eapply nums_okr; eassumption|intros; cbv beta].
Lemma plane_okr : forall p t, at_ t p -> okr (plane_def stod p).
Proof. intros p t A. unfold plane_def. destruct (beq _ _); [|exact I]. nm. ex. ex. nm. ex. ex. nm. ex. cbn. eauto. Qed.
Lemma valve_okr : forall p t, at_ t p -> okr (valve_def stod p).
Proof. intros p t A. unfold valve_def. ex. nm. ex. ex. nm. ex. nm. cbn. eauto. Qed.
Lemma bp_okr : forall p t, at_ t p -> okr (bp_def stod p).
Proof. intros p t A. unfold bp_def. ex. ex. nm. ex. ex. nm. ex. ex. cbn. eauto. Qed.
Lemma opt_okr : forall (st : bytes -> option int) p t, at_ t p -> okr (opt_int st p).
Proof. intros st p t A. unfold opt_int. tk. destruct x; [destruct (st _)|]; cbn; eauto. Qed.

Hypothesis ul : forall w x, stoi w = Some x -> stoul w = Some x.
Lemma extended_agree : forall (raw : @texdef num) p t raw2 ext p1, (match raw with TEtp _ _ => False | _ => True end) -> at_ t p -> extended stoi raw p = M_ok (raw2, ext) p1 ->
  exists p2, q_extended stoul stoi zero (QT raw) p = M_ok (QT (match raw2, ext with TEtp l _, Some _ => TQuake l | r, _ => r end), of_ext ext) p2 /\ follows p1 p2.
Proof.
  intros raw p t raw2 ext p1 NE A H. unfold extended in H. rewrite quark_eq in H. unfold q_extended.
  pose proof (mtok_comment t p) as MC. pose proof (mtok_at COMMENT_OPTIONAL p t A) as OK.
  destruct (mtok COMMENT_OPTIONAL p) as [b q| | |]; cbn [mbind] in *; try discriminate. destruct (MC b q A eq_refl) as (FQ & MO). destruct OK as (v & AV). clear MC.
  destruct b.
  - destruct (MO eq_refl) as (q2 & E2 & F2). clear MO. rewrite q_tx_eq.
    assert (ND : mbind (@M_ok (option texdef) None q) (fun q p => match q with Some r => M_ok (r, None) p | None => do (c, p) <- opt_int stoi p;
         match c with None => M_ok (raw, None) p | Some c => do (f, p) <- opt_int stoi p; do (v, p) <- opt_int stoi p; do (q, p) <- quark raw p; M_ok (match q with Some r => r | None => raw end, Some (c, f, v)) p end end) = M_ok (raw2, ext) p1 ->
       raw2 = raw /\ ext = None /\ p1 = q2).
    { cbn [mbind]. unfold opt_int at 1. rewrite E2. cbn [mbind]. intro X. injection X as <- <- <-. auto. }
    destruct (txd (ps_token q)) as [d|].
    + destruct raw as [l|l|]; cbn [mbind] in H; [|discriminate|contradiction].
      destruct (d =? 49); [cbn [mbind] in H; injection H as <- <- <-; exists q; split; [reflexivity|reflexivity]|].
      destruct (d =? 50); [cbn [mbind] in H; injection H as <- <- <-; exists q; split; [reflexivity|reflexivity]|].
      destruct (ND H) as (-> & -> & ->). exists q. split; [reflexivity|exact F2].
    + destruct (ND H) as (-> & -> & ->). exists q. split; [destruct raw; reflexivity|exact F2].
  - cbn [mbind] in H. unfold opt_int at 1 in H. unfold opt_int at 1. pose proof (mtok_at PARSE_OPTIONAL q v AV) as OK.
    destruct (mtok PARSE_OPTIONAL q) as [b2 q2| | |]; cbn [mbind] in *; try discriminate. destruct OK as (v2 & A2).
    destruct b2; cbn [mbind] in *.
    2:{ injection H as <- <- <-. exists q2. split; [destruct raw; reflexivity|reflexivity]. }
    destruct (stoi (ps_token q2)) as [c|] eqn:SI; [|discriminate]. rewrite (ul _ _ SI). cbn [mbind] in *.
    pose proof (opt_okr stoi q2 v2 A2) as OK. destruct (opt_int stoi q2) as [f q3| | |]; cbn [mbind] in *; try discriminate. destruct OK as (v3 & A3).
    pose proof (opt_okr stoi q3 v3 A3) as OK. destruct (opt_int stoi q3) as [u q4| | |]; cbn [mbind] in *; try discriminate. destruct OK as (v4 & A4).
    rewrite quark_eq in H. pose proof (mtok_comment v4 q4) as MC. destruct (mtok COMMENT_OPTIONAL q4) as [b5 q5| | |]; cbn [mbind] in *; try discriminate. destruct (MC b5 q5 A4 eq_refl) as (F5 & _).
    assert (G : exists x, (x = None \/ exists l z, raw = TQuake l /\ x = Some (TEtp l z)) /\ @M_ok (texdef * option extinfo) (match x with Some r => r | None => raw end, Some (c, f, u)) q5 = M_ok (raw2, ext) p1).
    { destruct b5; [|exists None; split; [left; reflexivity|exact H]]. destruct (txd (ps_token q5)) as [d|]; [|exists None; split; [left; reflexivity|exact H]].
      destruct raw as [l|l|]; [|discriminate H|discriminate H].
      destruct (d =? 49); [eexists; split; [right; exists l, false; split; reflexivity|exact H]|]. destruct (d =? 50); [eexists; split; [right; exists l, true; split; reflexivity|exact H]|].
      exists None. split; [left; reflexivity|exact H]. }
    destruct G as (x & X & G). injection G as <- <- <-. exists q4. split; [|exact F5].
    destruct X as [-> | (l & z & -> & ->)]; [destruct raw; try contradiction; reflexivity|reflexivity].
Qed.

(** ** Faces, brushes, entities *)
Context (tdef : bytes -> option (bytes * option (@qext int))) (bad : qside -> bool) (keepp : list (list num) -> list num -> bool).
Context (shell : @qbrush num int -> list (@qbrush num int)) (alias : bytes -> option entdict).
Definition mkeep (l : list side) (s : side) : bool := keepp (map sd_pts l) (sd_pts s).
Definition qkeep (l : list qside) (s : qside) : bool := keepp (map qs_pts l) (qs_pts s).
Hypothesis no_tdef : forall w, tdef w = None.
Hypothesis not_bad : forall s, bad s = false.
Lemma quark_okr : forall (raw : @texdef num) p t, at_ t p -> okr (quark raw p).
Proof.
  intros raw p t A. rewrite quark_eq. tk. destruct x; [|cbn; eauto]. destruct (txd _); [|cbn; eauto]. destruct raw; cbn; auto. destruct (_ =? 49); [cbn; eauto|]. destruct (_ =? 50); cbn; eauto.
Qed.
Lemma extended_okr : forall (raw : @texdef num) p t, at_ t p -> okr (extended stoi raw p).
Proof.
  intros raw p t A. unfold extended. eapply okr_bind; [eapply quark_okr; eassumption|]. intros [r|] p1 t1 A1; [cbn; eauto|].
  eapply okr_bind; [eapply opt_okr; eassumption|]. intros [c|] p2 t2 A2; [|cbn; eauto].
  eapply okr_bind; [eapply opt_okr; eassumption|]. intros f p3 t3 A3. eapply okr_bind; [eapply opt_okr; eassumption|]. intros v p4 t4 A4.
  eapply okr_bind; [eapply quark_okr; eassumption|]. intros x p5 t5 A5. cbn. eauto.
Qed.
Lemma raw_okr : forall p t, at_ t p -> okr (if beq (ps_token p) [91] then do (l, p) <- valve_def stod p; M_ok (TValve l) p else do (l, p) <- nums stod 5 p; M_ok (TQuake l) p).
Proof. intros p t A. destruct (beq _ _); (eapply okr_bind; [eapply valve_okr + eapply nums_okr; eassumption|intros; cbn; eauto]). Qed.
Lemma texture_okr : forall p t, at_ t p -> okr (texture_def stod stoi p).
Proof. intros p t A. unfold texture_def. tk. tk. eapply okr_bind; [eapply raw_okr; eassumption|]. intros. eapply okr_bind; [eapply extended_okr; eassumption|]. intros. cbn. eauto. Qed.
Lemma face_okr : forall bp sides p t, at_ t p -> okr (brush_face stod stoi mkeep bp sides p).
Proof. intros bp sides p t A. unfold brush_face. destruct bp; [exact I|]. eapply okr_bind; [eapply plane_okr; eassumption|]. intros. eapply okr_bind; [eapply texture_okr; eassumption|]. intros. cbn. eauto. Qed.
Lemma texture_agree : forall p t x p1, at_ t p -> texture_def stod stoi p = M_ok x p1 ->
  exists p2, q_texture stod stoul stoi zero false p = M_ok (fst (fst x), qs_raw (of_side (mkSide [] [] (snd (fst x)) (snd x))), of_ext (snd x)) p2 /\ follows p1 p2.
Proof.
  intros p t x p1 A H. unfold texture_def in H. unfold q_texture.
  pose proof (mtok_at PARSE_SAMELINE p t A) as OK. destruct (mtok PARSE_SAMELINE p) as [b q1| | |]; cbn [mbind] in *; try discriminate. destruct OK as (t1 & A1).
  pose proof (mtok_at SAMELINE_PEEK q1 t1 A1) as OK. destruct (mtok SAMELINE_PEEK q1) as [b2 q2| | |]; cbn [mbind] in *; try discriminate. destruct OK as (t2 & A2).
  pose proof (raw_okr q2 t2 A2) as OK.
  assert (NE : match (if beq (ps_token q2) [91] then do (l, p) <- valve_def stod q2; M_ok (TValve l) p else do (l, p) <- nums stod 5 q2; M_ok (TQuake l) p) with M_ok (TEtp _ _) _ => False | _ => True end).
  { destruct (beq _ _); [destruct (valve_def stod q2)|destruct (nums stod 5 q2)]; exact I. }
  destruct (if beq (ps_token q2) [91] then _ else _) as [raw q3| | |]; cbn [mbind] in *; try discriminate. destruct OK as (t3 & A3).
  destruct (extended stoi raw q3) as [[raw2 ext] q4| | |] eqn:E; cbn [mbind] in *; try discriminate. injection H as <- <-. cbn [fst snd].
  destruct (extended_agree raw q3 t3 raw2 ext q4 ltac:(destruct raw; auto) A3 E) as (p2 & E2 & F). rewrite E2. cbn [mbind fst snd]. exists p2. split; [destruct raw2, ext; reflexivity|exact F].
Qed.
Lemma face_agree : forall bp sides p t s2 p1, at_ t p -> brush_face stod stoi mkeep bp sides p = M_ok s2 p1 ->
  bp = false /\ exists p2, q_face stod stoul stoi zero tdef bad qkeep false (map of_side sides) p = M_ok (map of_side s2) p2 /\ follows p1 p2.
Proof.
  intros bp sides p t s2 p1 A H. unfold brush_face in H. destruct bp; [discriminate|]. split; [reflexivity|]. unfold q_face.
  pose proof (plane_okr p t A) as OK. destruct (plane_def stod p) as [pts q1| | |]; cbn [mbind] in *; try discriminate. destruct OK as (t1 & A1).
  destruct (texture_def stod stoi q1) as [x q2| | |] eqn:E; cbn [mbind] in *; try discriminate. injection H as <- <-.
  destruct (texture_agree q1 t1 x q2 A1 E) as (p2 & E2 & F). rewrite E2. cbn [mbind fst snd]. unfold q_remap. cbn [qs_tex]. rewrite no_tdef, not_bad.
  exists p2. split; [|exact F]. f_equal. unfold qkeep, mkeep. cbn [qs_pts sd_pts]. rewrite map_map. cbn [of_side qs_pts].
  destruct (keepp (map (fun x => sd_pts x) sides) pts); [rewrite map_app; reflexivity|reflexivity].
Qed.
Local Notation qfaces := (q_faces stod stoul stoi zero tdef bad qkeep).
Lemma faces_agree : forall fuel bp sides p q t s2 p1, at_ t p -> follows p q -> faces_loop stod stoi mkeep fuel bp sides p = M_ok s2 p1 ->
  qfaces fuel bp (map of_side sides) q = M_ok (map of_side s2) p1 /\ exists t1, at_ t1 p1.
Proof.
  induction fuel as [|fuel IH]; intros bp sides p q t s2 p1 A F H; [discriminate|]. cbn [faces_loop] in H. cbn [q_faces]. rewrite <- (follows_tok p q F).
  pose proof (mtok_at PARSE_NORMAL p t A) as OK. destruct (mtok PARSE_NORMAL p) as [b q1| | |]; cbn [mbind] in *; try discriminate. destruct OK as (t1 & A1).
  destruct (negb b); [injection H as <- <-; split; [reflexivity|eauto]|]. destruct (beq (ps_token q1) [125]); [injection H as <- <-; split; [reflexivity|eauto]|].
  pose proof (face_okr bp sides q1 t1 A1) as OK. destruct (brush_face stod stoi mkeep bp sides q1) as [s3 q3| | |] eqn:E; cbn [mbind] in *; try discriminate. destruct OK as (t3 & A3).
  destruct (face_agree bp sides q1 t1 s3 q3 A1 E) as (-> & p2 & E2 & F2). rewrite E2. cbn [mbind]. exact (IH false s3 q3 p2 t3 s2 p1 A3 F2 H).
Qed.
Local Notation qbrush_ := (q_brush stod stoul stoi zero tdef bad qkeep shell).
Lemma brush_agree : forall fuel world bs rg p t bs2 p1, at_ t p -> parse_brush stod stoi mkeep fuel bs p = M_ok bs2 p1 ->
  (forall b, In b bs2 -> kind_of (map of_side (br_sides b)) = BPlain) ->
  qbrush_ fuel world (map of_brush bs, rg) p = M_ok (map of_brush bs2, rg) p1 /\ exists t1, at_ t1 p1.
Proof.
  intros fuel world bs rg p t bs2 p1 A H K. unfold parse_brush in H. unfold q_brush.
  pose proof (mtok_at PARSE_PEEK p t A) as OK. destruct (mtok PARSE_PEEK p) as [b q1| | |]; cbn [mbind] in *; try discriminate. destruct OK as (t1 & A1).
  destruct (negb b); [discriminate|].
  assert (OK : okr (if beq (ps_token q1) [40] || beq (ps_token q1) [125] then M_ok false q1
                 else do (_, p) <- mtok PARSE_NORMAL q1;
                      do (_, p) <- (if beq (ps_token p) brushDef then do (b, p) <- mtok PARSE_NORMAL p; if b then M_ok tt p else M_error else M_ok tt p);
                      if beq (ps_token p) [123] then M_ok true p else M_error)).
  { destruct (_ || _); [cbn; eauto|]. tk. eapply okr_bind.
    - destruct (beq _ _); [|cbn; eauto]. tk. destruct x0; cbn; eauto.
    - intros. cbv beta. destruct (beq _ _); cbn; eauto. }
  match type of OK with okr ?r => destruct r as [bp q2| | |] end; cbn [mbind] in *; try discriminate. destruct OK as (t2 & A2).
  destruct (faces_loop stod stoi mkeep fuel bp [] q2) as [sides q3| | |] eqn:E; cbn [mbind] in *; try discriminate.
  destruct (faces_agree fuel bp [] q2 q2 t2 sides q3 A2 eq_refl E) as (E3 & t3 & A3). cbn [map] in E3. rewrite E3. cbn [mbind].
  assert (OK : okr (if bp then do (b, p) <- mtok PARSE_NORMAL q3; if b && beq (ps_token p) [125] then M_ok tt p else M_error else M_ok tt q3)).
  { destruct bp; [|cbn; eauto]. tk. destruct (_ && _); cbn; eauto. }
  match type of OK with okr ?r => destruct r as [u q4| | |] end; cbn [mbind] in *; try discriminate. destruct OK as (t4 & A4). injection H as <- <-. cbn [fst snd].
  assert (KP : kind_of (map of_side sides) = BPlain).
  { destruct sides as [|s0 sides]; [reflexivity|]. apply (K (mkBrush bp (s0 :: sides))). apply in_or_app. right. left. reflexivity. }
  rewrite KP. split; [|eauto]. f_equal. f_equal. destruct sides as [|s0 sides]; [reflexivity|]. rewrite map_app. reflexivity.
Qed.
Lemma brush_grows : forall fuel bs p bs2 p1, parse_brush stod stoi mkeep fuel bs p = M_ok bs2 p1 -> exists l, bs2 = bs ++ l.
Proof.
  intros fuel bs p bs2 p1 H. unfold parse_brush in H. destruct (mtok PARSE_PEEK p) as [b q1| | |]; cbn [mbind] in H; try discriminate. destruct (negb b); [discriminate|].
  match type of H with mbind ?r _ = _ => destruct r as [bp q2| | |] end; cbn [mbind] in H; try discriminate.
  match type of H with mbind ?r _ = _ => destruct r as [sides q3| | |] end; cbn [mbind] in H; try discriminate.
  match type of H with mbind ?r _ = _ => destruct r as [u q4| | |] end; cbn [mbind] in H; try discriminate.
  injection H as <- _. destruct sides; [exists []; rewrite app_nil_r; reflexivity|eexists; reflexivity].
Qed.
Lemma find_set : forall k k2 v d, ed_has k (ed_set k2 v d) = false -> ed_has k d = false.
Proof.
  intros k k2 v d. unfold ed_has, ed_set. destruct (ed_find k2 d) as [i|] eqn:E.
  - assert (X : forall d i, ed_find k (set_value d i v) = ed_find k d).
    { clear. induction d as [|[a b] d IH]; intro i; [destruct i; reflexivity|]. destruct i; cbn [set_value ed_find]; [reflexivity|]. rewrite IH. reflexivity. }
    rewrite X. auto.
  - assert (X : forall d l, ed_find k (d ++ l) = None -> ed_find k d = None).
    { clear. induction d as [|[a b] d IH]; intros l; [reflexivity|]. cbn [app ed_find]. destruct (beq k a); [discriminate|]. specialize (IH l). destruct (ed_find k (d ++ l)); [discriminate|]. intros _. rewrite IH; reflexivity. }
    specialize (X d [(k2, v)]). destruct (ed_find k (d ++ [(k2, v)])); [discriminate|]. intros _. rewrite X; reflexivity.
Qed.
Lemma dict_okr : forall d p t, at_ t p -> okr (entity_dict d p).
Proof. intros d p t A. unfold entity_dict. destruct (trim_end _ _); [|exact I]. tk. cbn. eauto. Qed.
Lemma entity_grows : forall fuel e p e2 p1, entity_loop stod stoi mkeep fuel e p = M_ok e2 p1 ->
  (forall k, ed_has k (me_pairs e2) = false -> ed_has k (me_pairs e) = false) /\ exists l, me_brushes e2 = me_brushes e ++ l.
Proof.
  induction fuel as [|fuel IH]; intros e p e2 p1 H; [discriminate|]. cbn [entity_loop] in H.
  destruct (mtok PARSE_NORMAL p) as [b q1| | |]; cbn [mbind] in *; try discriminate. destruct (negb b); [discriminate|].
  destruct (beq (ps_token q1) [125]); [injection H as <- <-; split; [auto|exists []; rewrite app_nil_r; reflexivity]|]. destruct (beq (ps_token q1) [123]).
  - destruct (parse_brush _ _ _ _ _ _) as [bs q2| | |] eqn:E; cbn [mbind] in H; try discriminate. destruct (brush_grows _ _ _ _ _ E) as (l & ->).
    destruct (IH _ _ _ _ H) as (G & l2 & ->). cbn [me_pairs me_brushes] in *. split; [exact G|]. exists (l ++ l2). rewrite app_assoc. reflexivity.
  - unfold entity_dict in H. destruct (trim_end _ _); [|discriminate]. destruct (mtok PARSE_SAMELINE q1) as [b2 q2| | |]; cbn [mbind] in H; try discriminate.
    destruct (IH _ _ _ _ H) as (G & l2 & E2). cbn [me_pairs me_brushes] in *. split; [|exists l2; exact E2]. intros k0 X. apply G in X. eapply find_set; exact X.
Qed.
(** What is asked of an entity of a map without regions. *)
Definition plain_ent (e : @ment num int) : Prop := forall b, In b (me_brushes e) -> kind_of (map of_side (br_sides b)) = BPlain.
Lemma no_omit : forall d, ed_has k_omit d = false -> negb (atoi (ed_get k_omit d) =? 0)%Z = false.
Proof. intros d. unfold ed_has, ed_get. destruct (ed_find k_omit d); [discriminate|]. reflexivity. Qed.
Local Notation qentity := (q_entity stod stoul stoi zero tdef bad qkeep shell).
Lemma entity_agree : forall fuel world e o rg p t e2 p1, at_ t p -> entity_loop stod stoi mkeep fuel e p = M_ok e2 p1 -> plain_ent e2 ->
  o = Some false \/ (o = None /\ ed_has k_omit (me_pairs e2) = false) ->
  qentity fuel world o (of_ent e) rg p = M_ok (of_ent e2, rg) p1 /\ exists t1, at_ t1 p1.
Proof.
  induction fuel as [|fuel IH]; intros world e o rg p t e2 p1 A H PE O; [discriminate|].
  pose proof (entity_grows _ _ _ _ _ H) as (GH & _). cbn [entity_loop] in H. cbn [q_entity].
  pose proof (mtok_at PARSE_NORMAL p t A) as OK. destruct (mtok PARSE_NORMAL p) as [b q1| | |]; cbn [mbind] in *; try discriminate. destruct OK as (t1 & A1).
  destruct (negb b); [discriminate|]. destruct (beq (ps_token q1) [125]); [injection H as <- <-; split; [reflexivity|eauto]|]. destruct (beq (ps_token q1) [123]).
  - replace (match o with Some o => o | None => negb (atoi (ed_get k_omit (qe_pairs (of_ent e))) =? 0)%Z end) with false.
    2:{ destruct O as [-> | (-> & O)]; [reflexivity|]. symmetry. apply no_omit. cbn [of_ent qe_pairs]. apply GH. exact O. }
    cbv zeta. destruct (parse_brush _ _ _ _ _ _) as [bs q2| | |] eqn:E; cbn [mbind] in H; try discriminate.
    destruct (brush_agree fuel world (me_brushes e) rg q1 t1 bs q2 A1 E) as (E2 & t2 & A2).
    { intros b0 I0. apply PE. destruct (entity_grows _ _ _ _ _ H) as (_ & l & ->). cbn [me_brushes]. apply in_or_app. left. exact I0. }
    cbn [of_ent qe_brushes qe_pairs]. rewrite E2. cbn [mbind fst snd]. exact (IH world (mkEnt (me_pairs e) bs) (Some false) rg q2 t2 e2 p1 A2 H PE (or_introl eq_refl)).
  - cbn [of_ent qe_pairs qe_brushes]. pose proof (dict_okr (me_pairs e) q1 t1 A1) as OK. destruct (entity_dict (me_pairs e) q1) as [d q2| | |]; cbn [mbind] in *; try discriminate. destruct OK as (t2 & A2).
    exact (IH world (mkEnt d (me_brushes e)) o rg q2 t2 e2 p1 A2 H PE O).
Qed.
Definition accepted (e : @ment num int) : Prop := plain_ent e /\ ed_has k_omit (me_pairs e) = false.
Local Notation qloop := (q_loop stod stoul stoi zero tdef bad qkeep shell alias).
Lemma loop_grows : forall fuel es p es2 p1, map_loop stod stoi mkeep fuel es p = M_ok es2 p1 -> exists l, es2 = es ++ l.
Proof.
  induction fuel as [|fuel IH]; intros es p es2 p1 H; [discriminate|]. cbn [map_loop] in H. destruct (mtok PARSE_NORMAL p) as [b q1| | |]; cbn [mbind] in H; try discriminate.
  destruct (negb b); [injection H as <- <-; exists []; rewrite app_nil_r; reflexivity|]. destruct (beq _ _); [|discriminate].
  destruct (entity_loop _ _ _ _ _ _) as [e q2| | |]; cbn [mbind] in H; try discriminate. destruct (IH _ _ _ _ H) as (l & ->). exists (e :: l). rewrite <- app_assoc. reflexivity.
Qed.
Lemma loop_agree : forall fuel add es qs rg p t es2 p1, at_ t p -> map_loop stod stoi mkeep fuel es p = M_ok es2 p1 ->
  exists l, es2 = es ++ l /\ (Forall accepted l ->
  qloop fuel add qs rg p = M_ok (qs ++ map (fun e => let e := aliased alias (of_ent e) in if add : bool then add_class e else e) l, rg) p1).
Proof.
  induction fuel as [|fuel IH]; intros add es qs rg p t es2 p1 A H; [discriminate|]. cbn [map_loop] in H. cbn [q_loop].
  pose proof (mtok_at PARSE_NORMAL p t A) as OK. destruct (mtok PARSE_NORMAL p) as [b q1| | |]; cbn [mbind] in *; try discriminate. destruct OK as (t1 & A1).
  destruct (negb b); [injection H as <- <-; exists []; rewrite app_nil_r; split; [reflexivity|intros _; cbn [map]; rewrite app_nil_r; reflexivity]|]. destruct (beq _ _); [|discriminate].
  destruct (entity_loop _ _ _ _ _ _) as [e q2| | |] eqn:E; cbn [mbind] in H; try discriminate.
  assert (A2 : exists t2, at_ t2 q2).
  { assert (G : forall fuel e p t, at_ t p -> okr (entity_loop stod stoi mkeep fuel e p)).
    { clear -stod. induction fuel as [|fuel IH]; intros e p t A; [exact I|]. cbn [entity_loop]. tk. destruct (negb x); [exact I|]. destruct (beq _ _); [cbn; eauto|]. destruct (beq _ _).
      - eapply okr_bind; [|intros; eapply IH; eassumption]. unfold parse_brush. tk. destruct (negb x0); [exact I|]. eapply okr_bind.
        + destruct (_ || _); [cbn; eauto|]. tk. eapply okr_bind; [destruct (beq _ _); [|cbn; eauto]; tk; destruct x2; cbn; eauto|]. intros. cbv beta. destruct (beq _ _); cbn; eauto.
        + intros bp p3 t3 A3. eapply okr_bind.
          * assert (FO : forall fuel sides p t, at_ t p -> okr (faces_loop stod stoi mkeep fuel bp sides p)).
            { clear -stod. induction fuel as [|fuel IH]; intros sides p t A; [exact I|]. cbn [faces_loop]. tk. destruct (negb x); [cbn; eauto|]. destruct (beq _ _); [cbn; eauto|].
              eapply okr_bind; [eapply face_okr; eassumption|]. intros. eapply IH; eassumption. }
            eapply FO; eassumption.
          * intros. cbv beta. eapply okr_bind; [destruct bp; [|cbn; eauto]; tk; destruct (_ && _); cbn; eauto|]. intros. cbn. eauto.
      - eapply okr_bind; [eapply dict_okr; eassumption|]. intros. eapply IH; eassumption. }
    pose proof (G fuel (mkEnt [] []) q1 t1 A1) as X. rewrite E in X. exact X. }
  destruct A2 as (t2 & A2). destruct (loop_grows _ _ _ _ _ H) as (l & EL). exists (e :: l). split; [rewrite EL, <- app_assoc; reflexivity|]. intro F.
  inversion F as [|? ? (PE & HO) F2]. subst.
  destruct (entity_agree fuel (match qs with [] => true | _ => false end) (mkEnt [] []) None rg q1 t1 e q2 A1 E PE (or_intror (conj eq_refl HO))) as (E2 & _).
  change (of_ent (mkEnt [] [])) with (@mkQE num int [] []) in E2. rewrite E2. cbn [mbind fst snd].
  destruct (IH add (es ++ [e]) (qs ++ [let e := aliased alias (of_ent e) in if add then add_class e else e]) rg q2 t2 _ p1 A2 H) as (l2 & EL2 & G).
  apply app_inv_head in EL2. subst l2. cbv zeta in *. rewrite (G F2). rewrite <- app_assoc. reflexivity.
Qed.
Local Notation qload := (load stod stoul stoi zero tdef bad qkeep shell alias).
Lemma start_at : forall t, at_ t (start t). Proof. intro t. split; reflexivity. Qed.
Theorem load_agree : forall t es p, map_parse stod stoi mkeep t = M_ok es p -> Forall accepted es ->
  qload t None = M_ok (map (fun e => aliased alias (of_ent e)) es, mkR None []) p.
Proof.
  intros t es p H F. unfold load. destruct (loop_agree (S (length t)) false [] [] (mkR None []) (start t) t es p (start_at t) H) as (l & -> & G).
  cbn [app] in *. rewrite (G F). reflexivity.
Qed.
Theorem load_add : forall t u es es2 p p2, map_parse stod stoi mkeep t = M_ok es p -> map_parse stod stoi mkeep u = M_ok es2 p2 -> Forall accepted es -> Forall accepted es2 ->
  qload t (Some u) = M_ok (map (fun e => aliased alias (of_ent e)) es ++ map (fun e => add_class (aliased alias (of_ent e))) es2, mkR None []) p2.
Proof.
  intros t u es es2 p p2 H H2 F F2. unfold load. destruct (loop_agree (S (length t)) false [] [] (mkR None []) (start t) t es p (start_at t) H) as (l & -> & G).
  cbn [app] in *. rewrite (G F). cbn [mbind fst snd].
  destruct (loop_agree (S (length u)) true [] (map (fun e => aliased alias (of_ent e)) l) (mkR None []) (start u) u es2 p2 (start_at u) H2) as (l2 & -> & G2). cbn [app] in *. exact (G2 F2).
Qed.
End Agree.

(** ** Entities with _omitbrushes *)
Definition skipped (w : bytes) : Prop := word w /\ w <> [125].
Lemma skip_words : forall ws r p fuel, Forall skipped ws -> at_ (lead ws ++ 10 :: r) p ->
  exists p2, q_skip (length ws + fuel) p = q_skip fuel p2 /\ at_ (10 :: r) p2.
Proof.
  induction ws as [|w ws IH]; intros r p fuel F A; [exists p; split; [reflexivity|exact A]|]. inversion F as [|? ? (W & NB) F2]. subst.
  destruct (tok_next PARSE_NORMAL w ws r p ltac:(split; reflexivity) W A) as (p2 & E & A2 & T). cbn [length Nat.add q_skip]. rewrite E. cbn [mbind negb]. rewrite T.
  apply beq_neq in NB. rewrite NB. exact (IH r p2 fuel F2 A2).
Qed.
Lemma skip_line : forall ws r p fuel, ws <> [] -> Forall skipped ws -> at_ (10 :: join ws ++ 10 :: r) p ->
  exists p2, q_skip (length ws + fuel) p = q_skip fuel p2 /\ at_ (10 :: r) p2.
Proof.
  intros [|w ws] r p fuel NE F A; [congruence|]. inversion F as [|? ? (W & NB) F2]. subst. rewrite join_lead, <- app_assoc in A.
  destruct (lead_end ws r) as (c & s & LE & BL). rewrite LE in A.
  destruct (at_word PARSE_NORMAL [10] w c s p ltac:(split; reflexivity) (gap_newline _ ok_normal) W BL A) as (p2 & E & A2 & T). rewrite <- LE in A2.
  cbn [length Nat.add q_skip]. rewrite E. cbn [mbind negb]. rewrite T. apply beq_neq in NB. rewrite NB. exact (skip_words ws r p2 fuel F2 A2).
Qed.
Lemma skip_lines : forall wss r p fuel, Forall (fun ws => ws <> [] /\ Forall skipped ws) wss -> (length (concat wss) < fuel)%nat -> at_ (10 :: lines wss ++ 125 :: 10 :: r) p ->
  exists p2, q_skip fuel p = M_ok tt p2 /\ at_ (10 :: r) p2.
Proof.
  induction wss as [|ws wss IH]; intros r p fuel F L A.
  - destruct fuel as [|fuel]; [lia|]. destruct (brace_at [10] 125 r p (gap_newline _ ok_normal) (or_intror eq_refl) A) as (p2 & E & A2 & T).
    cbn [q_skip]. rewrite E. cbn [mbind negb]. rewrite T, beq_refl. exists p2. split; [reflexivity|exact A2].
  - inversion F as [|? ? (NE & FW) F2]. subst. cbn [concat] in L. rewrite app_length in L.
    unfold lines in A. cbn [map concat] in A. rewrite <- !app_assoc in A. cbn [app] in A.
    destruct (skip_line ws _ p (fuel - length ws) NE FW A) as (p2 & E & A2). replace (length ws + (fuel - length ws))%nat with fuel in E by lia. rewrite E.
    apply (IH r p2); [exact F2|lia|exact A2].
Qed.
Lemma words_len : forall wss, Forall (fun ws => ws <> [] /\ Forall skipped ws) wss -> (length (concat wss) <= length (lines wss))%nat.
Proof.
  assert (J : forall ws, Forall skipped ws -> (length ws <= length (join ws))%nat).
  { intros [|w ws] F; [cbn; lia|]. inversion F as [|? ? ((NE & _) & _) F2]. subst. rewrite join_lead, app_length. cbn [length]. assert (1 <= length w)%nat by (destruct w; [congruence|cbn; lia]).
    assert (length ws <= length (lead ws))%nat; [|lia]. clear. unfold lead. induction ws; cbn [map concat length]; [lia|]. rewrite app_length. cbn [length]. lia. }
  unfold lines. induction 1 as [|ws wss (_ & FW) F IH]; cbn [map concat length]; [lia|]. rewrite !app_length. specialize (J ws FW). cbn [length]. lia.
Qed.

Section Omit.
Context {num int : Type} (stod : bytes -> option num) (stoul stoi : bytes -> option int) (zero : int) (fmt : num -> bytes) (fmti : int -> bytes) (dec : nat -> bytes).
Context (tdef : bytes -> option (bytes * option (@qext int))) (bad : @qside num int -> bool) (keepp : list (list num) -> list num -> bool).
Context (shell : @qbrush num int -> list (@qbrush num int)) (alias : bytes -> option entdict).
Hypothesis ul : forall w x, stoi w = Some x -> stoul w = Some x.
Hypothesis no_tdef : forall w, tdef w = None.
Hypothesis not_bad : forall s, bad s = false.
Hypothesis stod_bracket : stod [91] = None.
Hypothesis stod_brace : stod [125] = None.
Hypothesis stoi_brace : stoi [125] = None.
Hypothesis dec_line : forall n, ~ In 10 (dec n) /\ ~ In 0 (dec n).
Local Notation mkp := (@mkeep num int keepp). Local Notation qkp := (@qkeep num int keepp).
Local Notation qentity := (q_entity stod stoul stoi zero tdef bad qkp shell).
Local Notation usable := (usable_ment stod stoi fmt fmti mkp).

Lemma q_pairs_at : forall todo done bs fuel world rg r p, Forall good_pair todo -> NoDup (keys (done ++ todo)) -> at_ (10 :: pairs_text todo ++ r) p ->
  exists p2, qentity (length todo + fuel) world None (mkQE done bs) rg p = qentity fuel world None (mkQE (done ++ todo) bs) rg p2 /\ at_ (10 :: r) p2.
Proof.
  intros todo done bs fuel world rg r p F. revert done p. induction F as [|[k v] todo (Q1 & Q2 & N1 & N2 & TR) F IH]; intros done p ND A; cbn [fst snd] in *.
  - rewrite app_nil_r. exists p. split; [reflexivity|exact A].
  - assert (W : 10 :: pairs_text ((k, v) :: todo) ++ r = [10] ++ 34 :: k ++ 34 :: 32 :: 34 :: v ++ 34 :: 10 :: pairs_text todo ++ r).
    { unfold pairs_text. cbn [map concat]. unfold write_pair at 1. cbn [fst snd app]. rewrite <- !app_assoc. cbn [app]. rewrite <- !app_assoc. reflexivity. }
    rewrite W in A.
    destruct (at_quoted PARSE_NORMAL [10] k 32 (34 :: v ++ 34 :: 10 :: pairs_text todo ++ r) p ltac:(split; reflexivity) (gap_newline _ ok_normal) Q1 A) as (p1 & E1 & A1 & T1).
    cbn [length Nat.add q_entity]. rewrite E1. cbn [mbind negb]. rewrite T1. apply beq_neq in N1, N2. rewrite N1, N2. unfold entity_dict. rewrite T1, trim_id_end by exact TR.
    destruct (at_quoted PARSE_SAMELINE [32] v 10 (pairs_text todo ++ r) p1 ltac:(split; reflexivity) (gap_space _) Q2 A1) as (p2 & E2 & A2 & T2).
    rewrite E2. cbn [mbind qe_pairs qe_brushes]. rewrite T2.
    assert (NI : ~ In k (keys done)).
    { rewrite keys_app in ND. cbn [keys map fst] in ND. apply NoDup_remove_2 in ND. intro I. apply ND. apply in_or_app. left. exact I. }
    rewrite (set_new k v done NI). destruct (IH (done ++ [(k, v)]) p2) as (p3 & E3 & A3); [rewrite <- app_assoc; exact ND|exact A2|].
    exists p3. rewrite E3. rewrite <- app_assoc. split; [reflexivity|exact A3].
Qed.
(** No word of the text of a side is "}". *)
Definition no_brace (e : @ment num int) : Prop := forall b s, In b (me_brushes e) -> In s (br_sides b) -> sd_tex s <> [125].
Definition omits (e : @ment num int) : bool := negb (atoi (ed_get k_omit (me_pairs e)) =? 0)%Z.
Lemma reads_skipped : forall ws s, reads_side stod stoi ws s -> sd_tex s <> [125] -> ws <> [] /\ Forall skipped ws.
Proof.
  intros ws s (a & b & c & xa & xb & xc & wr & we & -> & _ & Fa & Fb & Fc & _ & _ & _ & WT & RT & RE) NB. split; [discriminate|].
  assert (RS : forall w x, reads stod w x -> skipped w) by (intros w x (W & S1); split; [exact W|intros ->; congruence]).
  assert (RL : forall ws xs, Forall2 (reads stod) ws xs -> Forall skipped ws) by (induction 1; constructor; eauto).
  destruct wparen as (W1 & W2 & W3 & W4 & _).
  assert (P : forall l, Forall skipped l -> Forall skipped (paren l)).
  { intros l H. unfold paren. apply Forall_app. split; [constructor; [split; [exact W1|discriminate]|constructor]|]. apply Forall_app. split; [exact H|]. constructor; [split; [exact W2|discriminate]|constructor]. }
  assert (B : forall l, Forall skipped l -> Forall skipped (bracket l)).
  { intros l H. unfold bracket. apply Forall_app. split; [constructor; [split; [exact W3|discriminate]|constructor]|]. apply Forall_app. split; [exact H|]. constructor; [split; [exact W4|discriminate]|constructor]. }
  do 3 (apply Forall_app; split; [apply P; eapply RL; eassumption|]). apply Forall_app. split; [|apply Forall_app; split].
  - constructor; [split; [exact WT|exact NB]|constructor].
  - destruct (sd_raw s) as [l|l|]; cbn [reads_tex] in RT; [eapply RL; exact (proj1 RT)| |contradiction].
    destruct RT as (a0 & b0 & c0 & ya & yb & yc & -> & _ & F1 & F2 & F3 & _). do 2 (apply Forall_app; split; [apply B; eapply RL; eassumption|]). eapply RL; eassumption.
  - destruct we as [|w1 [|w2 [|w3 [|]]]], (sd_ext s) as [[[x1 [x2|]] [x3|]]|]; cbn in RE; try contradiction; [constructor|].
    assert (RI : forall w x, readsi stoi w x -> skipped w) by (intros w x (W & S1); split; [exact W|intros ->; congruence]).
    destruct RE as (R1 & R2 & R3). constructor; [eauto|]. constructor; [eauto|]. constructor; [eauto|constructor].
Qed.
Lemma q_omit_at : forall todo id fuel world o d bs rg r p, Forall (usable_brush stod stoi fmt fmti mkp) todo -> (forall b s, In b todo -> In s (br_sides b) -> sd_tex s <> [125]) ->
  o = Some true \/ (o = None /\ negb (atoi (ed_get k_omit d) =? 0)%Z = true) ->
  exists t, brushes_text fmt fmti dec id todo = Some t /\ (length todo <= length t)%nat /\
  (at_ (10 :: t ++ r) p -> (length t < length todo + fuel)%nat ->
  exists p2 o2, qentity (length todo + fuel) world o (mkQE d bs) rg p = qentity fuel world o2 (mkQE d bs) rg p2 /\ at_ (10 :: r) p2).
Proof.
  intros todo id fuel world o d bs rg r p F. revert id o p. induction F as [|b todo U F IH]; intros id o p NB O.
  - exists []. split; [reflexivity|]. split; [cbn; lia|]. intros A L. exists p, o. split; [reflexivity|exact A].
  - destruct (brush_text_words stod stoi fmt fmti mkp b U) as (wss & E & R). cbn [brushes_text].
    assert (NB2 : forall b s, In b todo -> In s (br_sides b) -> sd_tex s <> [125]) by (intros b0 s0 I0; apply NB; right; exact I0).
    destruct (IH (S id) o p NB2 O) as (t & TE & TL & _). rewrite E, TE. eexists. split; [reflexivity|]. split; [rewrite !app_length; cbn [length app]; lia|].
    intros A L.
    assert (W : 10 :: (c_brush ++ dec id ++ [10] ++ ([123; 10] ++ lines wss ++ [125; 10]) ++ t) ++ r =
                ([10] ++ (47 :: 47 :: ([32; 98; 114; 117; 115; 104; 32] ++ dec id) ++ [10])) ++ 123 :: 10 :: lines wss ++ 125 :: 10 :: t ++ r).
    { unfold c_brush. cbn [app]. rewrite <- !app_assoc. cbn [app]. rewrite <- !app_assoc. reflexivity. }
    rewrite W in A. clear W.
    destruct (brace_at _ 123 _ p (gap_app _ _ _ (gap_newline _ ok_normal) (gap_numbered stoi dec dec_line [32; 98; 114; 117; 115; 104; 32] id ltac:(cbn; intuition discriminate) ltac:(cbn; intuition discriminate))) (or_introl eq_refl) A)
      as (p1 & E1 & A1 & T1).
    cbn [length Nat.add q_entity]. rewrite E1. cbn [mbind negb]. rewrite T1. change (beq [123] [125]) with false. rewrite beq_refl. cbn beta iota. cbn [qe_brushes qe_pairs].
    replace (match o with Some o => o | None => negb (atoi (ed_get k_omit d) =? 0)%Z end) with true by (destruct O as [-> | (-> & ->)]; reflexivity). cbv zeta.
    assert (SK : Forall (fun ws => ws <> [] /\ Forall skipped ws) wss).
    { assert (NT : forall s, In s (map readback (br_sides b)) -> sd_tex s <> [125]).
      { intros s I0. apply in_map_iff in I0. destruct I0 as (s0 & <- & I0). apply (NB b s0 (or_introl eq_refl) I0). }
      revert R NT. clear -stod_brace stoi_brace. generalize (map readback (br_sides b)) as l. intros l R. induction R as [|ws s wss l R1 R IH]; intro NT; constructor.
      - eapply reads_skipped; [exact R1|apply NT; left; reflexivity].
      - apply IH. intros s0 I0. apply NT. right. exact I0. }
    pose proof (words_len wss SK) as WL. rewrite !app_length in L. cbn [length] in L.
    destruct (skip_lines wss (t ++ r) p1 (length todo + fuel)) as (p2 & E2 & A2); [exact SK|lia|exact A1|].
    rewrite E2. cbn [mbind]. destruct (IH (S id) (Some true) p2 NB2 (or_introl eq_refl)) as (t2 & TE2 & _ & G). rewrite TE in TE2. injection TE2 as <-.
    destruct (G A2) as (p3 & o3 & E3 & A3); [lia|]. exists p3, o3. split; [exact E3|exact A3].
Qed.
Lemma q_brushes_at : forall todo id fuel world o d bs rg r p, Forall (usable_brush stod stoi fmt fmti mkp) todo -> (forall b, In b todo -> kind_of (map (of_side zero) (map readback (br_sides b))) = BPlain) ->
  (forall b, In b bs -> kind_of (map (of_side zero) (br_sides b)) = BPlain) ->
  o = Some false \/ (o = None /\ negb (atoi (ed_get k_omit d) =? 0)%Z = false) ->
  exists t, brushes_text fmt fmti dec id todo = Some t /\ (length todo <= length t)%nat /\
  (at_ (10 :: t ++ r) p -> (length t < length todo + fuel)%nat ->
  exists p2 o2, qentity (length todo + fuel) world o (mkQE d (map (of_brush zero) bs)) rg p = qentity fuel world o2 (mkQE d (map (of_brush zero) (bs ++ map readback_brush todo))) rg p2 /\ at_ (10 :: r) p2).
Proof.
  intros todo id fuel world o d bs rg r p F. revert id o bs p. induction F as [|b todo U F IH]; intros id o bs p KT KB O.
  - exists []. split; [reflexivity|]. split; [cbn; lia|]. intros A L. exists p, o. cbn [map]. rewrite app_nil_r. split; [reflexivity|exact A].
  - destruct (brush_text_words stod stoi fmt fmti mkp b U) as (wss & E & R). cbn [brushes_text].
    assert (KT2 : forall b, In b todo -> kind_of (map (of_side zero) (map readback (br_sides b))) = BPlain) by (intros b0 I0; apply KT; right; exact I0).
    destruct (IH (S id) o bs p KT2 KB O) as (t & TE & TL & _). rewrite E, TE. eexists. split; [reflexivity|]. split; [rewrite !app_length; cbn [length app]; lia|].
    intros A L.
    assert (W : 10 :: (c_brush ++ dec id ++ [10] ++ ([123; 10] ++ lines wss ++ [125; 10]) ++ t) ++ r =
                ([10] ++ (47 :: 47 :: ([32; 98; 114; 117; 115; 104; 32] ++ dec id) ++ [10])) ++ 123 :: 10 :: lines wss ++ 125 :: 10 :: t ++ r).
    { unfold c_brush. cbn [app]. rewrite <- !app_assoc. cbn [app]. rewrite <- !app_assoc. reflexivity. }
    rewrite W in A. clear W.
    destruct (brace_at _ 123 _ p (gap_app _ _ _ (gap_newline _ ok_normal) (gap_numbered stoi dec dec_line [32; 98; 114; 117; 115; 104; 32] id ltac:(cbn; intuition discriminate) ltac:(cbn; intuition discriminate))) (or_introl eq_refl) A)
      as (p1 & E1 & A1 & T1).
    cbn [length Nat.add q_entity]. rewrite E1. cbn [mbind negb]. rewrite T1. change (beq [123] [125]) with false. rewrite beq_refl. cbn beta iota. cbn [qe_brushes qe_pairs].
    replace (match o with Some o => o | None => negb (atoi (ed_get k_omit d) =? 0)%Z end) with false by (destruct O as [-> | (-> & ->)]; reflexivity). cbv zeta.
    pose proof U as (BP & NE & FS & K).
    destruct (parse_brush_at stod stoi mkp stod_bracket (map readback (br_sides b)) wss bs (length todo + fuel) (t ++ r) p1 R K) as (p2 & E2 & A2).
    { destruct (br_sides b); [congruence|discriminate]. }
    { rewrite <- (F2_len _ _ _ R). pose proof (lines_len wss). rewrite !app_length in L. cbn [length] in L. lia. }
    { exact A1. }
    assert (KB2 : forall b0, In b0 (bs ++ [mkBrush false (map readback (br_sides b))]) -> kind_of (map (of_side zero) (br_sides b0)) = BPlain).
    { intros b0 I0. apply in_app_or in I0. destruct I0 as [I0|[<- | []]]; [apply KB; exact I0|]. apply KT. left. reflexivity. }
    destruct (brush_agree stod stoul stoi zero ul tdef bad keepp shell no_tdef not_bad (length todo + fuel) world bs rg p1 _ _ p2 A1 E2 KB2) as (E3 & _).
    rewrite E3. cbn [mbind fst snd]. destruct (IH (S id) (Some false) (bs ++ [mkBrush false (map readback (br_sides b))]) p2 KT2 KB2 (or_introl eq_refl)) as (t2 & TE2 & _ & G).
    rewrite TE in TE2. injection TE2 as <-. rewrite !app_length in L. cbn [length] in L.
    destruct (G A2) as (p3 & o3 & E4 & A4); [lia|]. exists p3, o3. rewrite E4. split; [|exact A4].
    rewrite <- app_assoc. cbn [map app]. unfold readback_brush at 2. rewrite BP. reflexivity.
Qed.
Definition with_omit (e : @ment num int) : @ment num int := if omits e then mkEnt (me_pairs e) [] else readback_ent e.
Lemma q_entity_at : forall e, usable e -> no_brace e -> (omits e = false -> plain_ent zero (readback_ent e)) ->
  exists t, ent_text fmt fmti dec e = Some ([123; 10] ++ t ++ [125; 10]) /\
  forall fuel r p world rg, (length t < fuel)%nat -> at_ (10 :: t ++ 125 :: 10 :: r) p ->
  exists p2, qentity fuel world None (mkQE [] []) rg p = M_ok (of_ent zero (with_omit e), rg) p2 /\ at_ (10 :: r) p2.
Proof.
  intros e U NB PL. destruct (entity_at stod stoi fmt fmti mkp dec stod_bracket dec_line e U) as (t & ET & G). exists t. split; [exact ET|].
  intros fuel r p world rg L A. unfold with_omit. destruct (omits e) eqn:O.
  - destruct U as (FP & ND & FB). destruct (q_omit_at (me_brushes e) 0 0 world None (me_pairs e) [] rg [] (new_parser [] 0) FB NB (or_intror (conj eq_refl O))) as (t2 & TE & TL & _).
    unfold ent_text in ET. rewrite TE in ET. cbn [option_map] in ET. injection ET as ET. rewrite app_assoc in ET. apply app_inv_tail in ET.
    fold (pairs_text (me_pairs e)) in ET. subst t. rewrite <- app_assoc in A. rewrite app_length in L. pose proof (pairs_len (me_pairs e)) as PLn.
    destruct (Nat.le_exists_sub (length (me_pairs e) + (length (me_brushes e) + 1)) fuel) as (k & -> & _); [lia|].
    replace (k + (length (me_pairs e) + (length (me_brushes e) + 1)))%nat with (length (me_pairs e) + (length (me_brushes e) + S k))%nat in * by lia.
    destruct (q_pairs_at (me_pairs e) [] [] (length (me_brushes e) + S k) world rg (t2 ++ 125 :: 10 :: r) p FP ND A) as (p1 & E1 & A1). rewrite E1. cbn [app].
    destruct (q_omit_at (me_brushes e) 0 (S k) world None (me_pairs e) [] rg (125 :: 10 :: r) p1 FB NB (or_intror (conj eq_refl O))) as (t3 & TE3 & _ & G3). rewrite TE in TE3. injection TE3 as <-.
    destruct (G3 A1) as (p2 & o2 & E2 & A2); [lia|]. rewrite E2. cbn [q_entity].
    destruct (brace_at [10] 125 r p2 (gap_newline _ ok_normal) (or_intror eq_refl) A2) as (p3 & E3 & A3 & T3). rewrite E3. cbn [mbind negb]. rewrite T3, beq_refl.
    exists p3. split; [reflexivity|exact A3].
  - specialize (PL eq_refl). assert (KT : forall b, In b (me_brushes e) -> kind_of (map (of_side zero) (map readback (br_sides b))) = BPlain).
    { intros b I0. apply (PL (readback_brush b)). cbn [readback_ent me_brushes]. apply in_map. exact I0. }
    destruct U as (FP & ND & FB). destruct (q_brushes_at (me_brushes e) 0 0 world None (me_pairs e) [] rg [] (new_parser [] 0) FB KT ltac:(intros ? []) (or_intror (conj eq_refl O))) as (t2 & TE & TL & _).
    unfold ent_text in ET. rewrite TE in ET. cbn [option_map] in ET. injection ET as ET. rewrite app_assoc in ET. apply app_inv_tail in ET.
    fold (pairs_text (me_pairs e)) in ET. subst t. rewrite <- app_assoc in A. rewrite app_length in L. pose proof (pairs_len (me_pairs e)) as PLn.
    destruct (Nat.le_exists_sub (length (me_pairs e) + (length (me_brushes e) + 1)) fuel) as (k & -> & _); [lia|].
    replace (k + (length (me_pairs e) + (length (me_brushes e) + 1)))%nat with (length (me_pairs e) + (length (me_brushes e) + S k))%nat in * by lia.
    destruct (q_pairs_at (me_pairs e) [] [] (length (me_brushes e) + S k) world rg (t2 ++ 125 :: 10 :: r) p FP ND A) as (p1 & E1 & A1). rewrite E1. cbn [app].
    destruct (q_brushes_at (me_brushes e) 0 (S k) world None (me_pairs e) [] rg (125 :: 10 :: r) p1 FB KT ltac:(intros ? []) (or_intror (conj eq_refl O))) as (t3 & TE3 & _ & G3). rewrite TE in TE3. injection TE3 as <-.
    destruct (G3 A1) as (p2 & o2 & E2 & A2); [lia|]. cbn [map] in E2. rewrite E2. cbn [q_entity app].
    destruct (brace_at [10] 125 r p2 (gap_newline _ ok_normal) (or_intror eq_refl) A2) as (p3 & E3 & A3 & T3). rewrite E3. cbn [mbind negb]. rewrite T3, beq_refl.
    exists p3. split; [reflexivity|exact A3].
Qed.
Definition qusable (e : @ment num int) : Prop := usable e /\ no_brace e /\ (omits e = false -> plain_ent zero (readback_ent e)).
Local Notation qloop := (q_loop stod stoul stoi zero tdef bad qkp shell alias).
Lemma q_map_at : forall es id, Forall qusable es -> exists t, map_text fmt fmti dec id es = Some t /\
  forall done fuel b rg p, (length t < fuel)%nat -> at_ ((if b : bool then [10] else []) ++ t) p ->
  exists p2, qloop fuel false done rg p = M_ok (done ++ map (fun e => aliased alias (of_ent zero (with_omit e))) es, rg) p2.
Proof.
  intros es id F. revert id. induction F as [|e es (U & NB & PL) F IH]; intro id; cbn [map_text].
  - exists []. split; [reflexivity|]. intros done fuel b rg p L A. destruct fuel as [|fuel]; [cbn [length] in L; lia|]. cbn [q_loop map]. rewrite app_nil_r.
    assert (X : exists p2, mtok PARSE_NORMAL p = M_ok false p2) by (destruct b; [apply at_end|apply at_end0]; exact A).
    destruct X as (p2 & E). rewrite E. cbn [mbind negb]. exists p2. reflexivity.
  - destruct (q_entity_at e U NB PL) as (t & ET & G). destruct (IH (S id)) as (u & EU & H). rewrite ET, EU. eexists. split; [reflexivity|].
    intros done fuel b rg p L A. destruct fuel as [|fuel]; [lia|]. cbn [q_loop]. rewrite !app_length in L. cbn [length] in L.
    assert (W : (if b then [10] else []) ++ c_entity ++ dec id ++ [10] ++ ([123; 10] ++ t ++ [125; 10]) ++ u =
                ((if b then [10] else []) ++ (47 :: 47 :: ([32; 101; 110; 116; 105; 116; 121; 32] ++ dec id) ++ [10])) ++ 123 :: 10 :: t ++ 125 :: 10 :: u).
    { unfold c_entity. destruct b; cbn [app]; repeat (rewrite <- !app_assoc; cbn [app]); reflexivity. }
    rewrite W in A. clear W.
    assert (GP : gap PARSE_NORMAL (if b then [10] else [])) by (destruct b; [apply gap_newline, ok_normal|apply gap_nil]).
    destruct (brace_at _ 123 _ p (gap_app _ _ _ GP (gap_numbered stoi dec dec_line [32; 101; 110; 116; 105; 116; 121; 32] id ltac:(cbn; intuition discriminate) ltac:(cbn; intuition discriminate))) (or_introl eq_refl) A)
      as (p1 & E1 & A1 & T1).
    rewrite E1. cbn [mbind negb]. rewrite T1, beq_refl.
    destruct (G fuel u p1 (match done with [] => true | _ => false end) rg) as (p2 & E2 & A2); [lia|exact A1|]. rewrite E2. cbn [mbind fst snd]. cbv zeta.
    destruct (H (done ++ [aliased alias (of_ent zero (with_omit e))]) fuel true rg p2) as (p3 & E3); [lia|exact A2|]. exists p3. rewrite E3, <- app_assoc. reflexivity.
Qed.
Theorem load_written : forall es, Forall qusable es -> exists t p, map_text fmt fmti dec 0 es = Some t /\
  load stod stoul stoi zero tdef bad qkp shell alias t None = M_ok (map (fun e => aliased alias (of_ent zero (with_omit e))) es, mkR None []) p.
Proof.
  intros es F. destruct (q_map_at es 0 F) as (t & E & H). destruct (H [] (S (length t)) false (mkR None []) (start t)) as (p & P); [lia|split; reflexivity|].
  exists t, p. split; [exact E|]. unfold load. rewrite P. reflexivity.
Qed.
End Omit.

(** ** Reading ends *)
Section QEnds.
Context {num int : Type} (stod : bytes -> option num) (stoul stoi : bytes -> option int) (zero : int).
Context (tdef : bytes -> option (bytes * option (@qext int))) (bad : @qside num int -> bool) (keep : list (@qside num int) -> @qside num int -> bool).
Context (shell : @qbrush num int -> list (@qbrush num int)) (alias : bytes -> option entdict).
Ltac tokstep := eapply bind_ok; [apply mtok_res; [reflexivity|reflexivity|eassumption]|intros; cbv beta].
Ltac exstep := eapply bind_ok; [apply expect_ok; [reflexivity|reflexivity|eassumption]|intros; cbv beta].
Ltac nstep := eapply bind_ok; [apply nums_ok; eassumption|intros; cbv beta].
Lemma bp_ok : forall q p n, tin q p n -> res_ok q n (bp_def stod p).
Proof. intros q p n T. unfold bp_def. exstep. exstep. nstep. exstep. exstep. nstep. exstep. exstep. cbn. assumption. Qed.
Lemma q_extended_ok : forall q raw p n, tin q p n -> res_ok q n (@q_extended num int stoul stoi zero raw p).
Proof.
  intros q raw p n T. unfold q_extended. eapply bind_ok; [apply mtok_comment_ok; eassumption|]. intros b p1 T1. destruct b; [exact T1|].
  eapply bind_ok; [apply opt_int_ok; eassumption|]. intros [c|] p2 T2; [|exact T2].
  eapply bind_ok; [apply opt_int_ok; eassumption|]. intros f p3 T3. eapply bind_ok; [apply opt_int_ok; eassumption|]. intros v p4 T4. exact T4.
Qed.
Lemma q_texture_ok : forall q bp p n, tin q p n -> res_ok q n (q_texture stod stoul stoi zero bp p).
Proof.
  intros q bp p n T. unfold q_texture. destruct bp.
  - eapply bind_ok; [apply bp_ok; eassumption|]. intros l p1 T1. tokstep. eapply bind_ok; [apply q_extended_ok; eassumption|]. intros. cbn. assumption.
  - tokstep. eapply bind_ok; [apply mtok_peek_ok; [reflexivity|reflexivity|eassumption]|]. intros b p1 T1. eapply bind_ok.
    + destruct (beq (ps_token p1) [91]); (eapply bind_ok; [apply valve_ok + apply nums_ok; eassumption|intros; cbn; eassumption]).
    + intros raw p2 T2. eapply bind_ok; [apply q_extended_ok; eassumption|]. intros. cbn. assumption.
Qed.
Lemma q_face_ok : forall bp sides q p n, tin q p n -> res_ok q n (q_face stod stoul stoi zero tdef bad keep bp sides p).
Proof.
  intros bp sides q p n T. unfold q_face. eapply bind_ok; [apply plane_ok; eassumption|]. intros pts p1 T1.
  eapply bind_ok; [apply q_texture_ok; eassumption|]. intros t p2 T2. cbv zeta. destruct (bad _); [exact I|]. exact T2.
Qed.
Lemma q_faces_ok : forall fuel bp sides q p n, tin q p n -> (n < fuel)%nat -> res_ok q n (q_faces stod stoul stoi zero tdef bad keep fuel bp sides p).
Proof.
  induction fuel as [|fuel IH]; intros bp sides q p n T L; [lia|]. cbn [q_faces]. pose proof (mtok_ok q PARSE_NORMAL p n eq_refl eq_refl T) as H.
  destruct (mtok PARSE_NORMAL p) as [b p1| | |]; cbn [mbind]; try contradiction; [|exact Logic.I]. destruct H as (T1 & H).
  destruct b; cbn [negb]; [|exact T1]. destruct (H eq_refl) as (T2 & N0 & _). destruct (beq (ps_token p1) [125]); [exact T1|].
  eapply bind_ok; [apply q_face_ok; exact T2|]. intros s2 p2 T3. apply (res_le q (pred n)); [|lia]. apply IH; [exact T3|lia].
Qed.
Lemma q_brush_ok : forall fuel world st q p n, tin q p n -> (n < fuel)%nat -> res_ok q n (q_brush stod stoul stoi zero tdef bad keep shell fuel world st p).
Proof.
  intros fuel world st q p n T L. unfold q_brush. eapply bind_ok; [apply mtok_peek_ok; [reflexivity|reflexivity|eassumption]|]. intros b p1 T1.
  destruct (negb b); [exact Logic.I|]. eapply bind_ok.
  - match goal with |- context [if ?c then _ else _] => destruct c end; [exact T1|]. tokstep. eapply bind_ok.
    + destruct (beq (ps_token p0) brushDef); [|cbn; eassumption]. tokstep. destruct x0; cbn; auto.
    + intros u p2 T2. destruct (beq (ps_token p2) [123]); cbn; auto.
  - intros bp p2 T2. eapply bind_ok; [apply q_faces_ok; eassumption|]. intros s2 p3 T3. cbv beta zeta.
    assert (C : forall st' : list (@qbrush num int) * @regs num int, res_ok q n (do (_, p) <- (if bp then do (b, p) <- mtok PARSE_NORMAL p3; if b && beq (ps_token p) [125] then M_ok tt p else M_error else M_ok tt p3); M_ok st' p)).
    { intro st'. eapply bind_ok; [|intros u p4 T4; exact T4]. destruct bp; [|exact T3]. tokstep. destruct (_ && _); cbn; auto. }
    destruct (kind_of s2); [apply C| |].
    + destruct world; [|exact Logic.I]. destruct (rg_region (snd st)); [exact Logic.I|exact T3].
    + destruct world; [apply C|exact Logic.I].
Qed.
Lemma q_skip_ok : forall fuel q p n, tin q p n -> (n < fuel)%nat -> res_ok q n (q_skip fuel p).
Proof.
  induction fuel as [|fuel IH]; intros q p n T L; [lia|]. cbn [q_skip]. pose proof (mtok_ok q PARSE_NORMAL p n eq_refl eq_refl T) as H.
  destruct (mtok PARSE_NORMAL p) as [b p1| | |]; cbn [mbind]; try contradiction; [|exact Logic.I]. destruct H as (T1 & H).
  destruct b; cbn [negb]; [|exact Logic.I]. destruct (H eq_refl) as (T2 & N0 & _). destruct (beq (ps_token p1) [125]); [exact T1|].
  apply (res_le q (pred n)); [|lia]. apply IH; [exact T2|lia].
Qed.
Lemma q_entity_ok : forall fuel world o e rg q p n, tin q p n -> (n < fuel)%nat -> res_ok q n (q_entity stod stoul stoi zero tdef bad keep shell fuel world o e rg p).
Proof.
  induction fuel as [|fuel IH]; intros world o e rg q p n T L; [lia|]. cbn [q_entity]. pose proof (mtok_ok q PARSE_NORMAL p n eq_refl eq_refl T) as H.
  destruct (mtok PARSE_NORMAL p) as [b p1| | |]; cbn [mbind]; try contradiction; [|exact Logic.I]. destruct H as (T1 & H).
  destruct b; cbn [negb]; [|exact Logic.I]. destruct (H eq_refl) as (T2 & N0 & W). destruct (beq (ps_token p1) [125]); [exact T1|].
  assert (G : forall o x rg p2, tin q p2 (pred n) -> res_ok q n (q_entity stod stoul stoi zero tdef bad keep shell fuel world o x rg p2)) by (intros; apply (res_le q (pred n)); [apply IH; [assumption|lia]|lia]).
  destruct (beq (ps_token p1) [123]); [cbv zeta; destruct (match o with Some o => o | None => _ end)|].
  - eapply bind_ok; [apply q_skip_ok; [exact T2|lia]|]. intros. apply G. assumption.
  - eapply bind_ok; [apply q_brush_ok; [exact T2|lia]|]. intros. apply G. assumption.
  - unfold entity_dict. destruct (trim_end _ _) as [k|] eqn:E.
    + eapply bind_ok; [eapply bind_ok; [apply mtok_res; [reflexivity|reflexivity|exact T2]|]|]; intros; [cbn; eassumption|apply G; assumption].
    + cbn. destruct q; [reflexivity|]. destruct (W eq_refl) as (NE & F). rewrite (trim_word) in E by assumption. discriminate.
Qed.
Lemma q_loop_ok : forall fuel add es rg q p n, tin q p n -> (n < fuel)%nat -> res_ok q n (q_loop stod stoul stoi zero tdef bad keep shell alias fuel add es rg p).
Proof.
  induction fuel as [|fuel IH]; intros add es rg q p n T L; [lia|]. cbn [q_loop]. pose proof (mtok_ok q PARSE_NORMAL p n eq_refl eq_refl T) as H.
  destruct (mtok PARSE_NORMAL p) as [b p1| | |]; cbn [mbind]; try contradiction; [|exact Logic.I]. destruct H as (T1 & H).
  destruct b; cbn [negb]; [|exact T1]. destruct (H eq_refl) as (T2 & N0 & W). destruct (beq (ps_token p1) [123]); [|exact Logic.I].
  eapply bind_ok; [apply q_entity_ok; [exact T2|lia]|]. intros. cbv zeta. apply (res_le q (pred n)); [apply IH; [assumption|lia]|lia].
Qed.
Lemma start_tin : forall q t, (q = false -> ~ In 34 t) -> tin q (start t) (length t).
Proof. intros q t Q. exists t. split; [split; [reflexivity|cbn; lia]|]. split; [lia|exact Q]. Qed.
Theorem load_ends : forall t add,
  load stod stoul stoi zero tdef bad keep shell alias t add <> M_fuel /\
  (~ In 34 t -> match add with Some u => ~ In 34 u | None => True end -> load stod stoul stoi zero tdef bad keep shell alias t add <> M_UB).
Proof.
  intros t add.
  assert (G : forall q, (q = false -> ~ In 34 t) -> (q = false -> match add with Some u => ~ In 34 u | None => True end) ->
    match load stod stoul stoi zero tdef bad keep shell alias t add with M_fuel => False | M_UB => q = true | _ => True end).
  { intros q Q1 Q2. unfold load. pose proof (q_loop_ok (S (length t)) false [] (mkR None []) q (start t) (length t) (start_tin q t Q1) ltac:(lia)) as H.
    destruct (q_loop _ _ _ _ _ _ _ _ _ (S (length t)) false _ _ _) as [[es rg] p| | |]; cbn [res_ok mbind] in *; try exact H; auto.
    destruct add as [u|]; [|exact I]. cbn [fst snd].
    pose proof (q_loop_ok (S (length u)) true es rg q (start u) (length u) (start_tin q u Q2) ltac:(lia)) as H2.
    destruct (q_loop _ _ _ _ _ _ _ _ _ (S (length u)) true _ _ _); cbn [res_ok] in *; auto. }
  split.
  - specialize (G true). intro E. rewrite E in G. apply G; discriminate.
  - intros N1 N2 E. specialize (G false). rewrite E in G. assert (X : false = true) by (apply G; auto). discriminate.
Qed.
End QEnds.

(** ** Brush primitives *)
Section Prims.
Context {num int : Type} (stod : bytes -> option num) (stoul stoi : bytes -> option int) (zero : int).
Context (tdef : bytes -> option (bytes * option (@qext int))) (bad : @qside num int -> bool) (keep : list (@qside num int) -> @qside num int -> bool).
Context (shell : @qbrush num int -> list (@qbrush num int)) (alias : bytes -> option entdict).
Hypothesis no_tdef : forall w, tdef w = None.
Hypothesis not_bad : forall s, bad s = false.
Local Notation reads := (reads stod).
Definition reads_qext (ws : list bytes) (e : option (@qext int)) : Prop :=
  match ws, e with
  | [], None => True
  | [wc; wf; wv], Some (c, f, v) => (word wc /\ stoul wc = Some c) /\ (word wf /\ stoi wf = Some f) /\ (word wv /\ stoi wv = Some v)
  | _, _ => False
  end.
Lemma q_extended_at : forall (raw : @qtex num) ws e r p, reads_qext ws e -> at_ (lead ws ++ 10 :: r) p ->
  exists p2, q_extended stoul stoi zero raw p = M_ok (raw, e) p2 /\ at_ (10 :: r) p2.
Proof.
  intros raw ws e r p R A. unfold q_extended. destruct ws as [|wc [|wf [|wv [|]]]]; destruct e as [[[c f] v]|]; cbn in R; try contradiction.
  - destruct (at_eol COMMENT_OPTIONAL r p eq_refl eq_refl A) as (p1 & E1 & A1). rewrite E1. cbn [mbind].
    unfold opt_int. destruct (at_eol PARSE_OPTIONAL r p1) as (p2 & E2 & A2); auto. rewrite E2. cbn [mbind]. eexists. split; [reflexivity|exact A2].
  - destruct R as ((Wc & Sc) & (Wf & Sf) & (Wv & Sv)).
    assert (AA : at_ ([32] ++ wc ++ (lead [wf; wv] ++ 10 :: r)) p). { unfold lead in *. cbn [map concat app] in *. rewrite <- app_assoc in A. exact A. }
    destruct (lead_end [wf; wv] r) as (x & y & LE & BL). rewrite LE in AA.
    destruct (at_nocomment [32] wc x y p (gap_space _) Wc BL AA) as (p1 & E1 & A1). rewrite E1. cbn [mbind]. rewrite <- LE in A1.
    unfold opt_int at 1. destruct (tok_lead PARSE_OPTIONAL false wc [wf; wv] r p1) as (p2 & E2 & A2 & T2); auto; [split; reflexivity|]. rewrite E2. cbn [mbind]. rewrite T2, Sc. cbn [mbind].
    unfold opt_int at 1. destruct (tok_next PARSE_OPTIONAL wf [wv] r p2) as (p3 & E3 & A3 & T3); auto; [split; reflexivity|]. rewrite E3. cbn [mbind]. rewrite T3, Sf. cbn [mbind].
    unfold opt_int at 1. destruct (tok_next PARSE_OPTIONAL wv [] r p3) as (p4 & E4 & A4 & T4); auto; [split; reflexivity|]. rewrite E4. cbn [mbind]. rewrite T4, Sv. cbn [mbind].
    eexists. split; [reflexivity|exact A4].
Qed.
Lemma bp_def_at : forall a b xa xb rest r p, Forall2 reads a xa -> Forall2 reads b xb -> length xa = 3%nat -> length xb = 3%nat ->
  at_ (lead (paren (paren a ++ paren b) ++ rest) ++ 10 :: r) p ->
  exists p2, bp_def stod p = M_ok (xa ++ xb) p2 /\ at_ (lead rest ++ 10 :: r) p2.
Proof.
  intros a b xa xb rest r p Fa Fb La Lb A. unfold bp_def. destruct wparen as (W1 & W2 & _). unfold paren in A. rewrite <- !app_assoc in A. cbn [app] in A.
  destruct (expect_at PARSE_SAMELINE 40 _ r p ltac:(split; reflexivity) W1 A) as (p0 & E0 & A0). rewrite E0. cbn [mbind]. clear E0 A.
  destruct (expect_at PARSE_SAMELINE 40 _ r p0 ltac:(split; reflexivity) W1 A0) as (p1 & E1 & A1). rewrite E1. cbn [mbind]. clear E1 A0.
  destruct (nums_at stod a xa _ r p1 Fa A1) as (p2 & E2 & A2). rewrite La in E2. rewrite E2. cbn [mbind]. clear E2 A1.
  destruct (expect_at PARSE_SAMELINE 41 _ r p2 ltac:(split; reflexivity) W2 A2) as (p3 & E3 & A3). rewrite E3. cbn [mbind]. clear E3 A2.
  destruct (expect_at PARSE_SAMELINE 40 _ r p3 ltac:(split; reflexivity) W1 A3) as (p4 & E4 & A4). rewrite E4. cbn [mbind]. clear E4 A3.
  destruct (nums_at stod b xb _ r p4 Fb A4) as (p5 & E5 & A5). rewrite Lb in E5. rewrite E5. cbn [mbind]. clear E5 A4.
  destruct (expect_at PARSE_SAMELINE 41 _ r p5 ltac:(split; reflexivity) W2 A5) as (p6 & E6 & A6). rewrite E6. cbn [mbind]. clear E6 A5.
  destruct (expect_at PARSE_SAMELINE 41 _ r p6 ltac:(split; reflexivity) W2 A6) as (p7 & E7 & A7). rewrite E7. cbn [mbind].
  exists p7. split; [reflexivity|exact A7].
Qed.
(** The words [ws] of a line stand for the side [s] in brush primitives. *)
Definition reads_bp (ws : list bytes) (s : @qside num int) : Prop :=
  exists a b c m n xa xb xc xm xn we, ws = paren a ++ paren b ++ paren c ++ paren (paren m ++ paren n) ++ [qs_tex s] ++ we /\
    qs_pts s = xa ++ xb ++ xc /\ qs_raw s = QBp (xm ++ xn) /\
    Forall2 reads a xa /\ Forall2 reads b xb /\ Forall2 reads c xc /\ Forall2 reads m xm /\ Forall2 reads n xn /\
    length xa = 3%nat /\ length xb = 3%nat /\ length xc = 3%nat /\ length xm = 3%nat /\ length xn = 3%nat /\
    word (qs_tex s) /\ reads_qext we (qs_ext s).
Lemma q_face_at : forall ws s sides r p, reads_bp ws s -> keep sides s = true -> at_ (10 :: join ws ++ 10 :: r) p ->
  exists p1 p2, mtok PARSE_NORMAL p = M_ok true p1 /\ ps_token p1 = [40] /\ q_face stod stoul stoi zero tdef bad keep true sides p1 = M_ok (sides ++ [s]) p2 /\ at_ (10 :: r) p2.
Proof.
  intros ws s sides r p (a & b & c & m & n & xa & xb & xc & xm & xn & we & -> & PT & RW & Fa & Fb & Fc & Fm & Fn & La & Lb & Lc & Lm & Ln & WT & RE) K A. destruct wparen as (W1 & _).
  change (paren a ++ paren b ++ paren c ++ paren (paren m ++ paren n) ++ [qs_tex s] ++ we) with ([40] :: (a ++ [[41]]) ++ paren b ++ paren c ++ paren (paren m ++ paren n) ++ [qs_tex s] ++ we) in A.
  rewrite join_lead in A. rewrite <- app_assoc in A.
  destruct (lead_end ((a ++ [[41]]) ++ paren b ++ paren c ++ paren (paren m ++ paren n) ++ [qs_tex s] ++ we) r) as (x & y & LE & BL). rewrite LE in A.
  destruct (at_word PARSE_NORMAL [10] [40] x y p ltac:(split; reflexivity) (gap_newline _ ok_normal) W1 BL A) as (p1 & E1 & A1 & T1).
  rewrite <- LE in A1. exists p1. unfold q_face.
  destruct (plane_def_at stod a b c xa xb xc _ r p1 Fa Fb Fc La Lb Lc T1 A1) as (p2 & E2 & A2). rewrite E2. cbn [mbind].
  unfold q_texture. destruct (bp_def_at m n xm xn _ r p2 Fm Fn Lm Ln A2) as (p3 & E3 & A3). rewrite E3. cbn [mbind].
  destruct (tok_next PARSE_SAMELINE (qs_tex s) we r p3 ltac:(split; reflexivity) WT A3) as (p4 & E4 & A4 & T4). rewrite E4. cbn [mbind]. rewrite T4.
  destruct (q_extended_at (QBp (xm ++ xn)) we (qs_ext s) r p4 RE A4) as (p5 & E5 & A5). rewrite E5. cbn [mbind fst snd]. unfold q_remap. cbn [qs_tex]. rewrite no_tdef, not_bad.
  rewrite <- PT, <- RW. replace (mkQS (qs_pts s) (qs_tex s) (qs_raw s) (qs_ext s)) with s by (destruct s; reflexivity). rewrite K.
  exists p5. split; [exact E1|]. split; [exact T1|]. split; [reflexivity|exact A5].
Qed.
Fixpoint qkept (done todo : list (@qside num int)) : Prop :=
  match todo with [] => True | s :: todo => keep done s = true /\ qkept (done ++ [s]) todo end.
Lemma q_faces_at : forall todo wss done fuel r p, Forall2 reads_bp wss todo -> qkept done todo -> (length todo < fuel)%nat ->
  at_ (10 :: lines wss ++ 125 :: 10 :: r) p ->
  exists p2, q_faces stod stoul stoi zero tdef bad keep fuel true done p = M_ok (done ++ todo) p2 /\ at_ (10 :: r) p2.
Proof.
  intros todo wss done fuel r p F. revert done fuel p. induction F as [|ws s wss todo R F IH]; intros done fuel p K L A; destruct fuel as [|fuel]; [cbn [length] in L; lia| |cbn [length] in L; lia|].
  - destruct (brace_at [10] 125 r p (gap_newline _ ok_normal) (or_intror eq_refl) A) as (p2 & E & A2 & T).
    cbn [q_faces]. rewrite E. cbn [mbind negb]. rewrite T, beq_refl. rewrite app_nil_r. eexists. split; [reflexivity|exact A2].
  - destruct K as (K1 & K2). unfold lines in A. cbn [map concat] in A. rewrite <- !app_assoc in A. cbn [app] in A.
    destruct (q_face_at ws s done _ p R K1 A) as (p1 & p2 & E1 & T1 & E2 & A2).
    cbn [q_faces]. rewrite E1. cbn [mbind negb]. rewrite T1. change (beq [40] [125]) with false. cbn beta iota. rewrite E2. cbn [mbind].
    destruct (IH (done ++ [s]) fuel p2 K2) as (p3 & E3 & A3); [cbn [length] in L; lia|exact A2|].
    exists p3. rewrite E3. rewrite <- app_assoc. split; [reflexivity|exact A3].
Qed.
(** Text of a brush behind its first brace. *)
Definition bp_text (wss : list (list bytes)) : bytes := 10 :: brushDef ++ 10 :: 123 :: 10 :: lines wss ++ [125; 10; 125; 10].
Lemma q_brush_at : forall sides wss fuel world bs rg r p, Forall2 reads_bp wss sides -> qkept [] sides -> sides <> [] -> (length sides < fuel)%nat ->
  at_ (bp_text wss ++ r) p ->
  (kind_of sides = BPlain -> exists p2, q_brush stod stoul stoi zero tdef bad keep shell fuel world (bs, rg) p = M_ok (bs ++ [mkQB true sides], rg) p2 /\ at_ (10 :: r) p2) /\
  (kind_of sides = BRegion -> rg_region rg = None ->
     exists p2, q_brush stod stoul stoi zero tdef bad keep shell fuel true (bs, rg) p = M_ok (bs ++ shell (mkQB true sides), mkR (Some (mkQB true sides)) (rg_anti rg)) p2 /\ at_ (10 :: 125 :: 10 :: r) p2).
Proof.
  intros sides wss fuel world bs rg r p F K NE L A. unfold bp_text in A.
  assert (WB : word brushDef). { unfold word, brushDef. split; [discriminate|]. split; [repeat constructor|]. cbn. split; [discriminate|]. split; [discriminate|]. intros (X & _). discriminate X. }
  cbn [app] in A. rewrite <- app_assoc in A. cbn [app] in A. rewrite <- app_assoc in A. cbn [app] in A.
  assert (PRE : exists p1 p2 p3, mtok PARSE_PEEK p = M_ok true p1 /\ ps_token p1 = brushDef /\ mtok PARSE_NORMAL p1 = M_ok true p2 /\ ps_token p2 = brushDef /\
    mtok PARSE_NORMAL p2 = M_ok true p3 /\ ps_token p3 = [123] /\ at_ (10 :: lines wss ++ 125 :: 10 :: 125 :: 10 :: r) p3).
  { destruct (at_peek PARSE_PEEK [10] brushDef 10 (123 :: 10 :: lines wss ++ 125 :: 10 :: 125 :: 10 :: r) p eq_refl eq_refl (gap_newline _ ok_peek) WB eq_refl A) as (p1 & E1 & A1 & T1).
    destruct (at_word PARSE_NORMAL [10] brushDef 10 (123 :: 10 :: lines wss ++ 125 :: 10 :: 125 :: 10 :: r) p1 ltac:(split; reflexivity) (gap_newline _ ok_normal) WB eq_refl A1) as (p2 & E2 & A2 & T2).
    destruct (brace_at [10] 123 (lines wss ++ 125 :: 10 :: 125 :: 10 :: r) p2 (gap_newline _ ok_normal) (or_introl eq_refl) A2) as (p3 & E3 & A3 & T3).
    exists p1, p2, p3. repeat split; auto; exact (proj1 A3) || exact (proj2 A3). }
  destruct PRE as (p1 & p2 & p3 & E1 & T1 & E2 & T2 & E3 & T3 & A3).
  destruct (q_faces_at sides wss [] fuel (125 :: 10 :: r) p3 F K L A3) as (p4 & E4 & A4). cbn [app] in E4.
  unfold q_brush. rewrite E1. cbn [mbind negb]. rewrite T1. change (beq brushDef [40] || beq brushDef [125]) with false. cbn beta iota. rewrite E2. cbn [mbind]. rewrite T2, beq_refl.
  rewrite E3. cbn [mbind]. rewrite T3, beq_refl. cbn [mbind]. rewrite E4. cbn [mbind]. cbv zeta.
  split; intro KD; rewrite KD; cbn beta iota.
  - destruct (brace_at [10] 125 r p4 (gap_newline _ ok_normal) (or_intror eq_refl) A4) as (p5 & E5 & A5 & T5). rewrite E5. cbn [mbind]. rewrite T5, beq_refl. cbn [andb mbind fst snd].
    destruct sides; [congruence|]. exists p5. split; [reflexivity|exact A5].
  - intro RN. cbn [snd]. rewrite RN. exists p4. split; [reflexivity|exact A4].
Qed.
End Prims.
