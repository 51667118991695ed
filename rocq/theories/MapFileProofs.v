(* Proofs about MapFileModel.v. *)
From Coq Require Import List Arith NArith Bool Lia.
Import ListNotations.
From Verif Require Import Base ParserModel ParserProofs EntModel EntProofs MapFileModel.
Local Open Scope N_scope.

(** The parser stands before the text [s]. *)
Definition at_ (s : bytes) (p : pstate) : Prop := ps_mem p = s ++ [0] /\ ps_left p = length s.
(** A word that is read back as it is. *)
Definition word (w : bytes) : Prop :=
  w <> [] /\ Forall (fun c => blank c = false) w /\ hd 0 w <> 34 /\ hd 0 w <> 59 /\ ~ (hd 0 w = 47 /\ hd 0 (tl w) = 47).
(** Text that is skipped before a token. *)
Definition gap (f : N) (g : bytes) : Prop := forall s n line, exists line2, skip f false (g ++ s) (length g + n) line = skip f false s n line2.

Lemma gap_nil : forall f, gap f []. Proof. intros f s n line. exists line. reflexivity. Qed.
Lemma gap_app : forall f a b, gap f a -> gap f b -> gap f (a ++ b).
Proof.
  intros f a b A B s n line. rewrite <- app_assoc, app_length, <- Nat.add_assoc. destruct (A (b ++ s) (length b + n)%nat line) as [l1 E].
  rewrite E. apply B.
Qed.
Lemma gap_space : forall f, gap f [32]. Proof. intros f s n line. exists line. reflexivity. Qed.
Lemma gap_newline : forall f, ok_flags f -> gap f [10]. Proof. intros f O s n line. exists (S line). cbn [app length Nat.add]. apply skip_newline. exact O. Qed.
Lemma skip_in : forall f c s n line, ~ In 10 c -> ~ In 0 c -> c <> [] -> skip f true (c ++ 10 :: s) (length c + S n) line = skip f false s n (S line).
Proof.
  induction c as [|x c IH]; intros s n line A B NE; [congruence|]. cbn [app skip length Nat.add].
  destruct (N.eqb_spec x 10) as [->|]; [exfalso; apply A; left; reflexivity|].
  destruct c as [|y c]; cbn [app].
  - change (10 =? 0) with false. cbn [pred length Nat.add]. reflexivity.
  - destruct (N.eqb_spec y 0) as [->|]; [exfalso; apply B; right; left; reflexivity|]. cbn [pred].
    change (y :: c ++ 10 :: s) with ((y :: c) ++ 10 :: s). apply IH; [intro; apply A; right; assumption|intro; apply B; right; assumption|discriminate].
Qed.
Lemma gap_comment : forall f c, ok_flags f -> ~ In 10 c -> ~ In 0 c -> gap f (47 :: 47 :: c ++ [10]).
Proof.
  intros f c (A & B & C) N1 N2 s n line. exists (S line). rewrite <- skip_in with (f := f) (c := 47 :: c); [|intros [|]; [discriminate|contradiction]|intros [|]; [discriminate|contradiction]|discriminate].
  cbn [app length]. rewrite app_length, <- app_assoc. cbn [length app Nat.add skip]. change (blank 47) with false. change (47 =? 47) with true. cbn beta iota. unfold eol. rewrite A, B, C.
  replace (length c + 1 + n)%nat with (length c + S n)%nat by lia. reflexivity.
Qed.

(** ** Single tokens *)
Lemma take_word_word : forall w c r n acc, Forall (fun c => blank c = false) w -> blank c = true ->
  take_word (w ++ c :: r) n acc = Some (acc ++ w, c :: r, (n - length w)%nat).
Proof.
  induction w as [|x w IH]; intros c r n acc F B; cbn [take_word app].
  - rewrite B, app_nil_r, Nat.sub_0_r. reflexivity.
  - inversion F as [|? ? X F2]. subst. rewrite X, IH by assumption. rewrite <- app_assoc. cbn [app length].
    replace (n - S (length w))%nat with (pred n - length w)%nat by lia. reflexivity.
Qed.
Lemma word_char : forall w c r, word w -> blank c = true -> exists x w2, w = x :: w2 /\ blank x = false /\ (x =? 34) = false /\
  (if x =? 47 then match w2 ++ c :: r with [] => None | d :: _ => Some (d =? 47) end else Some (x =? 59)) = Some false.
Proof.
  intros w c r (NE & F & Q & SC & SL) B. destruct w as [|x w]; [congruence|]. inversion F as [|? ? X F2]. subst. cbn [hd tl] in *.
  exists x, w. split; [reflexivity|]. split; [exact X|]. split; [apply N.eqb_neq; exact Q|].
  destruct (N.eqb_spec x 47) as [->|N1].
  - destruct w as [|y w]; cbn [app hd] in *.
    + destruct (N.eqb_spec c 47) as [->|]; [discriminate|reflexivity].
    + destruct (N.eqb_spec y 47) as [->|]; [tauto|reflexivity].
  - destruct (N.eqb_spec x 59); [contradiction|reflexivity].
Qed.
Lemma skip_word : forall f g w c r line, f_comment f = false -> gap f g -> word w -> blank c = true ->
  exists line2, skip f false ((g ++ w ++ c :: r) ++ [0]) (length (g ++ w ++ c :: r)) line = T_ret true (mkPS w false ((c :: r) ++ [0]) (length (c :: r)) line2).
Proof.
  intros f g w c r line FC G W B. rewrite <- app_assoc, app_length. destruct (G ((w ++ c :: r) ++ [0]) (length (w ++ c :: r)) line) as [l2 E]. rewrite E. clear E G.
  exists l2. destruct (word_char w c (r ++ [0]) W B) as (x & w2 & -> & X & Q & CM). destruct W as (_ & F & _).
  rewrite <- app_assoc. cbn [app length skip]. rewrite X, CM. unfold copy_token. rewrite FC, Q.
  change (x :: w2 ++ c :: r ++ [0]) with ((x :: w2) ++ c :: (r ++ [0])). rewrite take_word_word by assumption. cbn [app length]. rewrite app_length. cbn [length].
  replace (S (length w2 + S (length r)) - S (length w2))%nat with (S (length r)) by lia. reflexivity.
Qed.
Definition plain (f : N) : Prop := f_comment f = false /\ f_peek f = false.
Lemma at_word : forall f g w c r p, plain f -> gap f g -> word w -> blank c = true -> at_ (g ++ w ++ c :: r) p ->
  exists p2, mtok f p = M_ok true p2 /\ at_ (c :: r) p2 /\ ps_token p2 = w.
Proof.
  intros f g w c r p (FC & FP) G W B (M & L). unfold mtok, parse_token. rewrite FP, M, L.
  destruct (skip_word f g w c r (ps_line p) FC G W B) as (l2 & E). rewrite E. eexists. split; [reflexivity|]. split; [split; reflexivity|reflexivity].
Qed.
Lemma at_peek : forall f g w c r p, f_comment f = false -> f_peek f = true -> gap f g -> word w -> blank c = true -> at_ (g ++ w ++ c :: r) p ->
  exists p2, mtok f p = M_ok true p2 /\ at_ (g ++ w ++ c :: r) p2 /\ ps_token p2 = w.
Proof.
  intros f g w c r p FC FP G W B (M & L). unfold mtok, parse_token. rewrite FP, M, L.
  destruct (skip_word f g w c r (ps_line p) FC G W B) as (l2 & E). rewrite E. eexists. split; [reflexivity|]. split; [split; reflexivity|reflexivity].
Qed.
Lemma at_quoted : forall f g v nx r p, plain f -> gap f g -> quotable nx v = true -> at_ (g ++ 34 :: v ++ 34 :: nx :: r) p ->
  exists p2, mtok f p = M_ok true p2 /\ at_ (nx :: r) p2 /\ ps_token p2 = v.
Proof.
  intros f g v nx r p (FC & FP) G Q (M & L). unfold mtok, parse_token. rewrite FP, M, L.
  rewrite <- app_assoc, app_length. destruct (G ((34 :: v ++ 34 :: nx :: r) ++ [0]) (length (34 :: v ++ 34 :: nx :: r)) (ps_line p)) as [l2 E]. rewrite E. clear E.
  cbn [app length]. rewrite <- app_assoc. cbn [app skip]. change (blank 34) with false. change (34 =? 47) with false. change (34 =? 59) with false.
  cbn beta iota. unfold copy_token. rewrite FC. change (34 =? 34) with true. cbn beta iota. cbn [pred].
  rewrite (take_quoted_quotable (length v)) by (auto; rewrite app_length; cbn [length]; lia). cbn [pred app]. rewrite app_length. cbn [length].
  replace (length v + S (S (length r)) - length v - 1)%nat with (S (length r)) by lia. eexists. split; [reflexivity|]. split; [split; reflexivity|reflexivity].
Qed.
(** No comment, and no more words, in the line. *)
Lemma at_nocomment : forall g w c r p, gap COMMENT_OPTIONAL g -> word w -> blank c = true -> at_ (g ++ w ++ c :: r) p ->
  exists p2, mtok COMMENT_OPTIONAL p = M_ok false p2 /\ at_ (w ++ c :: r) p2.
Proof.
  intros g w c r p G W B (M & L). unfold mtok, parse_token. change (f_peek COMMENT_OPTIONAL) with false. rewrite M, L. cbn beta iota.
  rewrite <- app_assoc, app_length. destruct (G ((w ++ c :: r) ++ [0]) (length (w ++ c :: r)) (ps_line p)) as [l2 E]. rewrite E. clear E G M L.
  destruct (word_char w c (r ++ [0]) W B) as (x & w2 & -> & X & Q & CM).
  rewrite <- app_assoc. cbn [app length skip]. rewrite X, CM. unfold copy_token. change (f_comment COMMENT_OPTIONAL) with true. cbn beta iota.
  eexists. split; [reflexivity|]. split; cbn [ps_mem ps_left app length]; [rewrite <- app_assoc|]; reflexivity.
Qed.
Lemma at_eol : forall f r p, f_optional f = true -> f_peek f = false -> at_ (10 :: r) p -> exists p2, mtok f p = M_ok false p2 /\ at_ (10 :: r) p2.
Proof.
  intros f r p FO FP (M & L). unfold mtok, parse_token. rewrite FP, M, L. cbn [app length skip]. change (blank 10) with true. change (10 =? 0) with false. change (10 =? 10) with true.
  cbn beta iota. unfold eol. rewrite FO. eexists. split; [reflexivity|]. split; reflexivity.
Qed.
Lemma at_end : forall p, at_ [10] p -> exists p2, mtok PARSE_NORMAL p = M_ok false p2.
Proof. intros p (M & L). unfold mtok, parse_token. rewrite M, L. eexists. reflexivity. Qed.
Lemma at_end0 : forall p, at_ [] p -> exists p2, mtok PARSE_NORMAL p = M_ok false p2.
Proof. intros p (M & L). unfold mtok, parse_token. rewrite M, L. eexists. reflexivity. Qed.

(** ** Words of a line *)
Definition lead (ws : list bytes) : bytes := concat (map (cons 32) ws).
Lemma join_lead : forall w ws, join (w :: ws) = w ++ lead ws.
Proof.
  intros w ws. revert w. induction ws as [|v ws IH]; intro w; [cbn; rewrite app_nil_r; reflexivity|].
  change (join (w :: v :: ws)) with (w ++ 32 :: join (v :: ws)). rewrite IH. reflexivity.
Qed.
Lemma lead_app : forall a b, lead (a ++ b) = lead a ++ lead b.
Proof. intros. unfold lead. rewrite map_app, concat_app. reflexivity. Qed.
Lemma lead_end : forall ws r, exists c s, lead ws ++ 10 :: r = c :: s /\ blank c = true.
Proof. intros [|w ws] r; cbn; eexists; eexists; split; reflexivity. Qed.
Lemma tok_lead : forall f b w ws r p, plain f -> word w -> at_ ((if b : bool then [32] else []) ++ w ++ lead ws ++ 10 :: r) p ->
  exists p2, mtok f p = M_ok true p2 /\ at_ (lead ws ++ 10 :: r) p2 /\ ps_token p2 = w.
Proof.
  intros f b w ws r p P W A. destruct (lead_end ws r) as (c & s & E & B). rewrite E in *. apply (at_word f (if b then [32] else [])); auto.
  destruct b; [apply gap_space|apply gap_nil].
Qed.
Lemma tok_next : forall f w ws r p, plain f -> word w -> at_ (lead (w :: ws) ++ 10 :: r) p ->
  exists p2, mtok f p = M_ok true p2 /\ at_ (lead ws ++ 10 :: r) p2 /\ ps_token p2 = w.
Proof. intros f w ws r p P W A. apply (tok_lead f true); auto. unfold lead in *. cbn [map concat] in A. cbn [app] in *. rewrite <- app_assoc in A. exact A. Qed.

Ltac step H := let p := fresh "p" in let E := fresh "E" in let A := fresh "A" in let T := fresh "T" in
  destruct H as (p & E & A & T); rewrite E; cbn [mbind].

Section MapFile.
Context {num int : Type} (stod : bytes -> option num) (stoi : bytes -> option int) (fmt : num -> bytes) (fmti : int -> bytes).
Context (keep : list (@side num int) -> @side num int -> bool) (dec : nat -> bytes).
Local Notation side := (@side num int).
Local Notation nums := (nums stod).

Definition reads (w : bytes) (x : num) : Prop := word w /\ stod w = Some x.
Definition readsi (w : bytes) (x : int) : Prop := word w /\ stoi w = Some x.

Lemma nums_at : forall ws xs rest r p, Forall2 reads ws xs -> at_ (lead (ws ++ rest) ++ 10 :: r) p ->
  exists p2, nums (length xs) p = M_ok xs p2 /\ at_ (lead rest ++ 10 :: r) p2.
Proof.
  intros ws xs rest r p F. revert p. induction F as [|w x ws xs (W & S1) F IH]; intros p A; cbn [MapFileModel.nums length].
  - exists p. split; [reflexivity|exact A].
  - cbn [app] in A. destruct (tok_next PARSE_SAMELINE w (ws ++ rest) r p) as (p2 & E & A2 & T); auto; [split; reflexivity|].
    rewrite E. cbn [mbind]. rewrite T, S1. destruct (IH p2 A2) as (p3 & E3 & A3). rewrite E3. cbn [mbind]. eexists. split; [reflexivity|exact A3].
Qed.
Lemma word1 : forall c, blank c = false -> c <> 34 -> c <> 59 -> word [c].
Proof.
  intros c B Q S1. split; [discriminate|]. split; [repeat constructor; exact B|]. cbn [hd tl]. split; [exact Q|]. split; [exact S1|]. intros [_ X]. discriminate X.
Qed.
Lemma expect_at : forall f c rest r p, plain f -> word [c] -> at_ (lead ([c] :: rest) ++ 10 :: r) p ->
  exists p2, expect f c p = M_ok tt p2 /\ at_ (lead rest ++ 10 :: r) p2.
Proof.
  intros f c rest r p P W A. unfold expect. destruct (tok_next f [c] rest r p P W A) as (p2 & E & A2 & T). rewrite E. cbn [mbind]. rewrite T, beq_refl.
  eexists. split; [reflexivity|exact A2].
Qed.
Lemma wparen : word [40] /\ word [41] /\ word [91] /\ word [93] /\ word [123] /\ word [125].
Proof. repeat split; try discriminate; try (repeat constructor); cbn; intros [? ?]; discriminate. Qed.

Lemma plane_def_at : forall a b c xa xb xc rest r p, Forall2 reads a xa -> Forall2 reads b xb -> Forall2 reads c xc -> length xa = 3%nat -> length xb = 3%nat -> length xc = 3%nat ->
  ps_token p = [40] -> at_ (lead ((a ++ [[41]]) ++ paren b ++ paren c ++ rest) ++ 10 :: r) p ->
  exists p2, plane_def stod p = M_ok (xa ++ xb ++ xc) p2 /\ at_ (lead rest ++ 10 :: r) p2.
Proof.
  intros a b c xa xb xc rest r p Fa Fb Fc La Lb Lc T A. unfold plane_def. rewrite T, beq_refl. destruct wparen as (W1 & W2 & _).
  unfold paren in A. rewrite <- !app_assoc in A. cbn [app] in A.
  destruct (nums_at a xa _ r p Fa A) as (p1 & E1 & A1). rewrite La in E1. rewrite E1. cbn [mbind]. clear E1 A.
  destruct (expect_at PARSE_SAMELINE 41 _ r p1 ltac:(split; reflexivity) W2 A1) as (p2 & E2 & A2). rewrite E2. cbn [mbind]. clear E2 A1.
  destruct (expect_at PARSE_NORMAL 40 _ r p2 ltac:(split; reflexivity) W1 A2) as (p3 & E3 & A3). rewrite E3. cbn [mbind]. clear E3 A2.
  destruct (nums_at b xb _ r p3 Fb A3) as (p4 & E4 & A4). rewrite Lb in E4. rewrite E4. cbn [mbind]. clear E4 A3.
  destruct (expect_at PARSE_SAMELINE 41 _ r p4 ltac:(split; reflexivity) W2 A4) as (p5 & E5 & A5). rewrite E5. cbn [mbind]. clear E5 A4.
  destruct (expect_at PARSE_NORMAL 40 _ r p5 ltac:(split; reflexivity) W1 A5) as (p6 & E6 & A6). rewrite E6. cbn [mbind]. clear E6 A5.
  destruct (nums_at c xc _ r p6 Fc A6) as (p7 & E7 & A7). rewrite Lc in E7. rewrite E7. cbn [mbind]. clear E7 A6.
  destruct (expect_at PARSE_SAMELINE 41 _ r p7 ltac:(split; reflexivity) W2 A7) as (p8 & E8 & A8). rewrite E8. cbn [mbind].
  eexists. split; [reflexivity|exact A8].
Qed.
Lemma valve_def_at : forall a b c xa xb xc rest r p, Forall2 reads a xa -> Forall2 reads b xb -> Forall2 reads c xc -> length xa = 4%nat -> length xb = 4%nat -> length xc = 3%nat ->
  at_ (lead (bracket a ++ bracket b ++ c ++ rest) ++ 10 :: r) p ->
  exists p2, valve_def stod p = M_ok (xa ++ xb ++ xc) p2 /\ at_ (lead rest ++ 10 :: r) p2.
Proof.
  intros a b c xa xb xc rest r p Fa Fb Fc La Lb Lc A. unfold valve_def. destruct wparen as (_ & _ & W1 & W2 & _).
  unfold bracket in A. rewrite <- !app_assoc in A. cbn [app] in A.
  destruct (expect_at PARSE_SAMELINE 91 _ r p ltac:(split; reflexivity) W1 A) as (p0 & E0 & A0). rewrite E0. cbn [mbind]. clear E0 A.
  destruct (nums_at a xa _ r p0 Fa A0) as (p1 & E1 & A1). rewrite La in E1. rewrite E1. cbn [mbind]. clear E1 A0.
  destruct (expect_at PARSE_SAMELINE 93 _ r p1 ltac:(split; reflexivity) W2 A1) as (p2 & E2 & A2). rewrite E2. cbn [mbind]. clear E2 A1.
  destruct (expect_at PARSE_SAMELINE 91 _ r p2 ltac:(split; reflexivity) W1 A2) as (p3 & E3 & A3). rewrite E3. cbn [mbind]. clear E3 A2.
  destruct (nums_at b xb _ r p3 Fb A3) as (p4 & E4 & A4). rewrite Lb in E4. rewrite E4. cbn [mbind]. clear E4 A3.
  destruct (expect_at PARSE_SAMELINE 93 _ r p4 ltac:(split; reflexivity) W2 A4) as (p5 & E5 & A5). rewrite E5. cbn [mbind]. clear E5 A4.
  destruct (nums_at c xc _ r p5 Fc A5) as (p7 & E7 & A7). rewrite Lc in E7. rewrite E7. cbn [mbind].
  eexists. split; [reflexivity|exact A7].
Qed.
(** Surface information: no word, or three. *)
Lemma extended_none : forall (raw : @texdef num) r p, at_ (10 :: r) p -> exists p2, extended stoi raw p = M_ok (raw, None) p2 /\ at_ (10 :: r) p2.
Proof.
  intros raw r p A. unfold extended, quark. destruct (at_eol COMMENT_OPTIONAL r p) as (p1 & E1 & A1); auto. rewrite E1. cbn [mbind].
  unfold opt_int. destruct (at_eol PARSE_OPTIONAL r p1) as (p2 & E2 & A2); auto. rewrite E2. cbn [mbind]. eexists. split; [reflexivity|exact A2].
Qed.
Lemma extended_some : forall (raw : @texdef num) wc wf wv c f v r p, readsi wc c -> readsi wf f -> readsi wv v -> at_ (lead [wc; wf; wv] ++ 10 :: r) p ->
  exists p2, extended stoi raw p = M_ok (raw, Some (c, Some f, Some v)) p2 /\ at_ (10 :: r) p2.
Proof.
  intros raw wc wf wv c f v r p (Wc & Sc) (Wf & Sf) (Wv & Sv) A. unfold extended, quark.
  assert (AA : at_ ([32] ++ wc ++ (lead [wf; wv] ++ 10 :: r)) p). { unfold lead in *. cbn [map concat app] in *. rewrite <- app_assoc in A. exact A. }
  destruct (lead_end [wf; wv] r) as (x & y & LE & BL). rewrite LE in AA.
  destruct (at_nocomment [32] wc x y p (gap_space _) Wc BL AA) as (p1 & E1 & A1). rewrite E1. cbn [mbind]. rewrite <- LE in A1.
  unfold opt_int at 1. destruct (tok_lead PARSE_OPTIONAL false wc [wf; wv] r p1) as (p2 & E2 & A2 & T2); auto; [split; reflexivity|]. rewrite E2. cbn [mbind]. rewrite T2, Sc. cbn [mbind].
  unfold opt_int at 1. destruct (tok_next PARSE_OPTIONAL wf [wv] r p2) as (p3 & E3 & A3 & T3); auto; [split; reflexivity|]. rewrite E3. cbn [mbind]. rewrite T3, Sf. cbn [mbind].
  unfold opt_int at 1. destruct (tok_next PARSE_OPTIONAL wv [] r p3) as (p4 & E4 & A4 & T4); auto; [split; reflexivity|]. rewrite E4. cbn [mbind]. rewrite T4, Sv. cbn [mbind].
  destruct (at_eol COMMENT_OPTIONAL r p4) as (p5 & E5 & A5); auto. rewrite E5. cbn [mbind]. eexists. split; [reflexivity|exact A5].
Qed.
(** The words [ws] of surface information stand for [e]. *)
Definition reads_ext (ws : list bytes) (e : option (@extinfo int)) : Prop :=
  match ws, e with
  | [], None => True
  | [wc; wf; wv], Some (c, Some f, Some v) => readsi wc c /\ readsi wf f /\ readsi wv v
  | _, _ => False
  end.
Lemma extended_at : forall (raw : @texdef num) ws e r p, reads_ext ws e -> at_ (lead ws ++ 10 :: r) p -> exists p2, extended stoi raw p = M_ok (raw, e) p2 /\ at_ (10 :: r) p2.
Proof.
  intros raw ws e r p R A. destruct ws as [|w1 [|w2 [|w3 [|]]]]; destruct e as [[[c [f|]] [v|]]|]; cbn in R; try contradiction.
  - apply extended_none. exact A.
  - destruct R as (R1 & R2 & R3). eapply extended_some; eauto.
Qed.

(** The words [ws] of a texture projection stand for [t]. *)
Definition reads_tex (ws : list bytes) (t : @texdef num) : Prop :=
  match t with
  | TQuake l => Forall2 reads ws l /\ length l = 5%nat
  | TValve l => exists a b c xa xb xc, ws = bracket a ++ bracket b ++ c /\ l = xa ++ xb ++ xc /\ Forall2 reads a xa /\ Forall2 reads b xb /\ Forall2 reads c xc /\
      length xa = 4%nat /\ length xb = 4%nat /\ length xc = 3%nat
  | TEtp _ _ => False
  end.
Hypothesis stod_bracket : stod [91] = None.
Lemma texture_def_at : forall wt wr we raw e r p, word wt -> reads_tex wr raw -> reads_ext we e -> at_ (lead (wt :: wr ++ we) ++ 10 :: r) p ->
  exists p2, texture_def stod stoi p = M_ok (wt, raw, e) p2 /\ at_ (10 :: r) p2.
Proof.
  intros wt wr we raw e r p W R X A. unfold texture_def. destruct wparen as (_ & _ & W1 & _).
  destruct (tok_next PARSE_SAMELINE wt (wr ++ we) r p ltac:(split; reflexivity) W A) as (p1 & E1 & A1 & T1). rewrite E1. cbn [mbind]. rewrite T1.
  assert (PK : forall w rest, wr ++ we = w :: rest -> word w -> exists p2, mtok SAMELINE_PEEK p1 = M_ok true p2 /\ at_ (lead (wr ++ we) ++ 10 :: r) p2 /\ ps_token p2 = w).
  { intros w rest EQ WW. rewrite EQ in *. unfold lead in *. cbn [map concat] in *. rewrite <- app_assoc in *. cbn [app] in *.
    destruct (lead_end rest r) as (c & s & LE & BL). unfold lead in LE. rewrite <- app_assoc in *. rewrite LE in *.
    apply (at_peek SAMELINE_PEEK [32]); auto. apply gap_space. }
  destruct raw as [l|l|]; cbn [reads_tex] in R; [| |contradiction].
  - destruct R as (F & L). destruct l as [|x l]; [discriminate|]. inversion F as [|w ? ws ? (WW & SW) F2]. subst.
    destruct (PK w (ws ++ we) eq_refl WW) as (p2 & E2 & A2 & T2). rewrite E2. cbn [mbind]. rewrite T2.
    destruct (beq w [91]) eqn:BE; [apply beq_eq in BE; subst w; congruence|].
    destruct (nums_at (w :: ws) (x :: l) we r p2 F A2) as (p3 & E3 & A3). rewrite L in E3. rewrite E3. cbn [mbind].
    destruct (extended_at (TQuake (x :: l)) we e r p3 X A3) as (p4 & E4 & A4). rewrite E4. cbn [mbind fst snd]. eexists. split; [reflexivity|exact A4].
  - destruct R as (a & b & c & xa & xb & xc & -> & -> & Fa & Fb & Fc & La & Lb & Lc).
    destruct (PK [91] ((a ++ [[93]]) ++ bracket b ++ c ++ we)) as (p2 & E2 & A2 & T2); [unfold bracket; rewrite <- !app_assoc; reflexivity|exact W1|].
    rewrite E2. cbn [mbind]. rewrite T2, beq_refl. rewrite <- !app_assoc in A2.
    destruct (valve_def_at a b c xa xb xc we r p2 Fa Fb Fc La Lb Lc A2) as (p3 & E3 & A3). rewrite E3. cbn [mbind].
    destruct (extended_at (TValve (xa ++ xb ++ xc)) we e r p3 X A3) as (p4 & E4 & A4). rewrite E4. cbn [mbind fst snd]. eexists. split; [reflexivity|exact A4].
Qed.

(** The words [ws] of a line stand for the side [s]. *)
Definition reads_side (ws : list bytes) (s : side) : Prop :=
  exists a b c xa xb xc wr we, ws = paren a ++ paren b ++ paren c ++ [sd_tex s] ++ wr ++ we /\ sd_pts s = xa ++ xb ++ xc /\
    Forall2 reads a xa /\ Forall2 reads b xb /\ Forall2 reads c xc /\ length xa = 3%nat /\ length xb = 3%nat /\ length xc = 3%nat /\
    word (sd_tex s) /\ reads_tex wr (sd_raw s) /\ reads_ext we (sd_ext s).
Lemma brush_face_at : forall ws s sides r p, reads_side ws s -> keep sides s = true -> at_ (10 :: join ws ++ 10 :: r) p ->
  exists p1 p2, mtok PARSE_NORMAL p = M_ok true p1 /\ ps_token p1 = [40] /\ brush_face stod stoi keep false sides p1 = M_ok (sides ++ [s]) p2 /\ at_ (10 :: r) p2.
Proof.
  intros ws s sides r p (a & b & c & xa & xb & xc & wr & we & -> & PT & Fa & Fb & Fc & La & Lb & Lc & WT & RT & RE) K A. destruct wparen as (W1 & _).
  change (paren a ++ paren b ++ paren c ++ [sd_tex s] ++ wr ++ we) with ([40] :: (a ++ [[41]]) ++ paren b ++ paren c ++ [sd_tex s] ++ wr ++ we) in A.
  rewrite join_lead in A. rewrite <- app_assoc in A.
  destruct (lead_end ((a ++ [[41]]) ++ paren b ++ paren c ++ [sd_tex s] ++ wr ++ we) r) as (x & y & LE & BL). rewrite LE in A.
  destruct (at_word PARSE_NORMAL [10] [40] x y p ltac:(split; reflexivity) (gap_newline _ ok_normal) W1 BL A) as (p1 & E1 & A1 & T1).
  rewrite <- LE in A1. exists p1. unfold brush_face.
  destruct (plane_def_at a b c xa xb xc _ r p1 Fa Fb Fc La Lb Lc T1 A1) as (p2 & E2 & A2). rewrite E2. cbn [mbind].
  destruct (texture_def_at (sd_tex s) wr we (sd_raw s) (sd_ext s) r p2 WT RT RE A2) as (p3 & E3 & A3). rewrite E3. cbn [mbind fst snd].
  rewrite <- PT. replace (mkSide (sd_pts s) (sd_tex s) (sd_raw s) (sd_ext s)) with s by (destruct s; reflexivity). rewrite K.
  exists p3. split; [exact E1|]. split; [exact T1|]. split; [reflexivity|exact A3].
Qed.
(** All sides are kept when they are met again in order. *)
Fixpoint kept (done todo : list side) : Prop :=
  match todo with [] => True | s :: todo => keep done s = true /\ kept (done ++ [s]) todo end.
Definition lines (wss : list (list bytes)) : bytes := concat (map (fun ws => join ws ++ [10]) wss).
Lemma brace_at : forall g c r p, gap PARSE_NORMAL g -> c = 123 \/ c = 125 -> at_ (g ++ c :: 10 :: r) p ->
  exists p2, mtok PARSE_NORMAL p = M_ok true p2 /\ at_ (10 :: r) p2 /\ ps_token p2 = [c].
Proof.
  intros g c r p G C A. destruct wparen as (_ & _ & _ & _ & W1 & W2). apply (at_word PARSE_NORMAL g [c] 10 r p); auto; [split; reflexivity|].
  destruct C as [-> | ->]; assumption.
Qed.
Lemma faces_at : forall todo wss done fuel r p, Forall2 reads_side wss todo -> kept done todo -> (length todo < fuel)%nat ->
  at_ (10 :: lines wss ++ 125 :: 10 :: r) p ->
  exists p2, faces_loop stod stoi keep fuel false done p = M_ok (done ++ todo) p2 /\ at_ (10 :: r) p2.
Proof.
  intros todo wss done fuel r p F. revert done fuel p. induction F as [|ws s wss todo R F IH]; intros done fuel p K L A; destruct fuel as [|fuel]; [cbn [length] in L; lia| |cbn [length] in L; lia|].
  - destruct (brace_at [10] 125 r p (gap_newline _ ok_normal) (or_intror eq_refl) A) as (p2 & E & A2 & T).
    cbn [faces_loop]. rewrite E. cbn [mbind negb]. rewrite T, beq_refl. rewrite app_nil_r. eexists. split; [reflexivity|exact A2].
  - destruct K as (K1 & K2). unfold lines in A. cbn [map concat] in A. rewrite <- !app_assoc in A. cbn [app] in A.
    destruct (brush_face_at ws s done _ p R K1 A) as (p1 & p2 & E1 & T1 & E2 & A2).
    cbn [faces_loop]. rewrite E1. cbn [mbind negb]. rewrite T1. change (beq [40] [125]) with false. cbn beta iota. rewrite E2. cbn [mbind].
    destruct (IH (done ++ [s]) fuel p2 K2) as (p3 & E3 & A3); [cbn [length] in L; lia|exact A2|].
    exists p3. rewrite E3. rewrite <- app_assoc. split; [reflexivity|exact A3].
Qed.
Lemma parse_brush_at : forall sides wss brushes fuel r p, Forall2 reads_side wss sides -> kept [] sides -> sides <> [] -> (length sides < fuel)%nat ->
  at_ (10 :: lines wss ++ 125 :: 10 :: r) p ->
  exists p2, parse_brush stod stoi keep fuel brushes p = M_ok (brushes ++ [mkBrush false sides]) p2 /\ at_ (10 :: r) p2.
Proof.
  intros sides wss brushes fuel r p F K NE L A. unfold parse_brush.
  assert (PK : exists p2, mtok PARSE_PEEK p = M_ok true p2 /\ at_ (10 :: lines wss ++ 125 :: 10 :: r) p2 /\ ps_token p2 = [40]).
  { destruct F as [|ws s wss sides R F]; [congruence|]. destruct R as (a & b & c & xa & xb & xc & wr & we & -> & _). destruct wparen as (W1 & _).
    unfold lines in *. cbn [map concat] in *. rewrite <- !app_assoc in *.
    change (paren a ++ paren b ++ paren c ++ [sd_tex s] ++ wr ++ we) with ([40] :: (a ++ [[41]]) ++ paren b ++ paren c ++ [sd_tex s] ++ wr ++ we) in *.
    rewrite join_lead in *. rewrite <- app_assoc in *. cbn [app] in *.
    match type of A with at_ (10 :: 40 :: lead ?l ++ 10 :: ?z) p => destruct (lead_end l z) as (x & y & LE & BL) end. rewrite LE in *.
    apply (at_peek PARSE_PEEK [10] [40]); auto. apply gap_newline. apply ok_peek. }
  destruct PK as (p1 & E1 & A1 & T1). rewrite E1. cbn [mbind negb]. rewrite T1, beq_refl. cbn [orb mbind].
  destruct (faces_at sides wss [] fuel r p1 F K L A1) as (p2 & E2 & A2). rewrite E2. cbn [mbind app]. destruct sides as [|s0 sides]; [congruence|].
  exists p2. split; [reflexivity|exact A2].
Qed.

(** ** Entities *)
Lemma trim_id_end : forall k, trimmed k -> trim_end (trim_front k) (S (length k)) = Some k.
Proof. intros k (c & k2 & -> & B1 & B2). cbn [trim_front]. rewrite B1. cbn [trim_end]. rewrite B2. reflexivity. Qed.
(** A key and value that can be written: what [usable_pair] and [trimmed] ask, and the key is not "{". *)
Definition good_pair (kv : bytes * bytes) : Prop :=
  quotable 32 (fst kv) = true /\ quotable 10 (snd kv) = true /\ fst kv <> [125] /\ fst kv <> [123] /\ trimmed (fst kv).
Definition pairs_text (l : entdict) : bytes := concat (map write_pair l).
Local Notation eloop := (entity_loop stod stoi keep).
Lemma pairs_at : forall todo done bs fuel r p, Forall good_pair todo -> NoDup (keys (done ++ todo)) -> at_ (10 :: pairs_text todo ++ r) p ->
  exists p2, eloop (length todo + fuel) (mkEnt done bs) p = eloop fuel (mkEnt (done ++ todo) bs) p2 /\ at_ (10 :: r) p2.
Proof.
  intros todo done bs fuel r p F. revert done p. induction F as [|[k v] todo (Q1 & Q2 & N1 & N2 & TR) F IH]; intros done p ND A; cbn [fst snd] in *.
  - rewrite app_nil_r. exists p. split; [reflexivity|exact A].
  - assert (W : 10 :: pairs_text ((k, v) :: todo) ++ r = [10] ++ 34 :: k ++ 34 :: 32 :: 34 :: v ++ 34 :: 10 :: pairs_text todo ++ r).
    { unfold pairs_text. cbn [map concat]. unfold write_pair at 1. cbn [fst snd app]. rewrite <- !app_assoc. cbn [app]. rewrite <- !app_assoc. reflexivity. }
    rewrite W in A.
    destruct (at_quoted PARSE_NORMAL [10] k 32 (34 :: v ++ 34 :: 10 :: pairs_text todo ++ r) p ltac:(split; reflexivity) (gap_newline _ ok_normal) Q1 A) as (p1 & E1 & A1 & T1).
    cbn [length Nat.add entity_loop]. rewrite E1. cbn [mbind negb]. rewrite T1. apply beq_neq in N1, N2. rewrite N1, N2. unfold entity_dict. rewrite T1, trim_id_end by exact TR.
    destruct (at_quoted PARSE_SAMELINE [32] v 10 (pairs_text todo ++ r) p1 ltac:(split; reflexivity) (gap_space _) Q2 A1) as (p2 & E2 & A2 & T2).
    rewrite E2. cbn [mbind me_pairs me_brushes]. rewrite T2.
    assert (NI : ~ In k (keys done)).
    { rewrite keys_app in ND. cbn [keys map fst] in ND. apply NoDup_remove_2 in ND. intro I. apply ND. apply in_or_app. left. exact I. }
    rewrite (set_new k v done NI). destruct (IH (done ++ [(k, v)]) p2) as (p3 & E3 & A3); [rewrite <- app_assoc; exact ND|exact A2|].
    exists p3. rewrite E3. rewrite <- app_assoc. split; [reflexivity|exact A3].
Qed.

(** ** From what is written to words *)
Definition gnum (x : num) : Prop := reads (fmt x) x.
Definition gint (x : int) : Prop := readsi (fmti x) x.
(** The side as it is read back: an ETP side comes back as a plain one. *)
Definition readback (s : side) : side :=
  mkSide (sd_pts s) (sd_tex s) (match sd_raw s with TEtp l _ => TQuake l | t => t end) (sd_ext s).
Definition usable_side (s : side) : Prop :=
  length (sd_pts s) = 9%nat /\ Forall gnum (sd_pts s) /\ word (sd_tex s) /\
  match sd_raw s with
  | TQuake l => Forall gnum l /\ length l = 5%nat
  | TValve l => Forall gnum l /\ length l = 11%nat
  | TEtp l t => Forall gnum l /\ length l = 5%nat /\ (forall x, In x l -> reads (fmt x ++ TX t) x) /\
                match sd_ext s with Some (_, _, Some v) => readsi (fmti v ++ TX t) v | _ => True end
  end /\
  match sd_ext s with None => True | Some (c, Some f, Some v) => gint c /\ gint f /\ gint v | _ => False end.

Lemma reads_map : forall l, Forall gnum l -> Forall2 reads (map fmt l) l.
Proof. induction 1; cbn; constructor; auto. Qed.
Lemma F2_firstn : forall n a b, Forall2 reads a b -> Forall2 reads (firstn n a) (firstn n b).
Proof. induction n; intros a b H; [constructor|]. inversion H; subst; cbn; constructor; auto. Qed.
Lemma F2_skipn : forall n a b, Forall2 reads a b -> Forall2 reads (skipn n a) (skipn n b).
Proof. induction n; intros a b H; [exact H|]. inversion H; subst; cbn; [constructor|auto]. Qed.
Lemma join_last : forall a w x, join (a ++ [w]) ++ x = join (a ++ [w ++ x]).
Proof.
  induction a as [|v a IH]; intros w x; [reflexivity|]. cbn [app].
  destruct (a ++ [w]) as [|b1 l1] eqn:E1; [destruct a; discriminate|]. destruct (a ++ [w ++ x]) as [|b2 l2] eqn:E2; [destruct a; discriminate|].
  change (join (v :: b1 :: l1)) with (v ++ 32 :: join (b1 :: l1)). change (join (v :: b2 :: l2)) with (v ++ 32 :: join (b2 :: l2)).
  rewrite <- E1, <- E2, <- IH, <- app_assoc. reflexivity.
Qed.
Lemma thirds : forall {A} (l : list A), length l = 9%nat -> l = firstn 3 l ++ firstn 3 (skipn 3 l) ++ skipn 6 l /\
  length (firstn 3 l) = 3%nat /\ length (firstn 3 (skipn 3 l)) = 3%nat /\ length (skipn 6 l) = 3%nat.
Proof. intros A l L. do 9 (destruct l as [|? l]; [discriminate|]). destruct l; [|discriminate]. cbn. auto. Qed.
Lemma valve_parts : forall {A} (l : list A), length l = 11%nat -> l = firstn 4 l ++ firstn 4 (skipn 4 l) ++ skipn 8 l /\
  length (firstn 4 l) = 4%nat /\ length (firstn 4 (skipn 4 l)) = 4%nat /\ length (skipn 8 l) = 3%nat.
Proof. intros A l L. do 11 (destruct l as [|? l]; [discriminate|]). destruct l; [|discriminate]. cbn. auto. Qed.

Lemma side_text_words : forall s, usable_side s -> exists ws, side_text fmt fmti s = Some (join ws ++ [10]) /\ reads_side ws (readback s).
Proof.
  intros s (L9 & FP & WT & RT & RE). unfold side_text, side_words.
  assert (EX : exists we, ext_words fmti (sd_ext s) = Some we /\ reads_ext we (sd_ext s) /\
    (forall t, match sd_ext s with Some (_, _, Some v) => readsi (fmti v ++ TX t) v | _ => True end -> we = [] \/ exists c d, we = c ++ [d] /\ reads_ext (c ++ [d ++ TX t]) (sd_ext s))).
  { unfold gint in RE. destruct (sd_ext s) as [[[c [f|]] [v|]]|]; cbn in RE |- *; try contradiction.
    - eexists. split; [reflexivity|]. split; [exact RE|]. intros t X. right. exists [fmti c; fmti f], (fmti v). split; [reflexivity|]. cbn. tauto.
    - eexists. split; [reflexivity|]. split; [exact I|]. intros. left. reflexivity. }
  destruct EX as (we & EW & RW & TW). rewrite EW.
  destruct (thirds (sd_pts s) L9) as (E9 & L1 & L2 & L3). pose proof (reads_map _ FP) as FM.
  assert (HD : forall wr we2 raw2, reads_tex wr raw2 -> reads_ext we2 (sd_ext s) ->
    reads_side (paren (firstn 3 (map fmt (sd_pts s))) ++ paren (firstn 3 (skipn 3 (map fmt (sd_pts s)))) ++ paren (skipn 6 (map fmt (sd_pts s))) ++ [sd_tex s] ++ wr ++ we2)
      (mkSide (sd_pts s) (sd_tex s) raw2 (sd_ext s))).
  { intros wr we2 raw2 R1 R2. exists (firstn 3 (map fmt (sd_pts s))), (firstn 3 (skipn 3 (map fmt (sd_pts s)))), (skipn 6 (map fmt (sd_pts s))).
    exists (firstn 3 (sd_pts s)), (firstn 3 (skipn 3 (sd_pts s))), (skipn 6 (sd_pts s)), wr, we2. cbn [sd_pts sd_tex sd_raw sd_ext].
    split; [reflexivity|]. split; [exact E9|]. split; [apply F2_firstn; exact FM|]. split; [apply F2_firstn, F2_skipn; exact FM|]. split; [apply F2_skipn; exact FM|].
    split; [exact L1|]. split; [exact L2|]. split; [exact L3|]. split; [exact WT|]. split; [exact R1|exact R2]. }
  unfold readback. destruct (sd_raw s) as [l|l|l t]; cbn [option_map].
  - destruct RT as (Fl & L). eexists. split; [rewrite <- !app_assoc; reflexivity|]. apply HD; [|exact RW]. split; [apply reads_map; exact Fl|exact L].
  - destruct RT as (Fl & L). destruct (valve_parts l L) as (E11 & M1 & M2 & M3). pose proof (reads_map _ Fl) as Fm.
    exists (paren (firstn 3 (map fmt (sd_pts s))) ++ paren (firstn 3 (skipn 3 (map fmt (sd_pts s)))) ++ paren (skipn 6 (map fmt (sd_pts s))) ++ [sd_tex s] ++
      (bracket (firstn 4 (map fmt l)) ++ bracket (firstn 4 (skipn 4 (map fmt l))) ++ skipn 8 (map fmt l)) ++ we).
    split; [rewrite <- !app_assoc; reflexivity|]. apply HD; [|exact RW].
    exists (firstn 4 (map fmt l)), (firstn 4 (skipn 4 (map fmt l))), (skipn 8 (map fmt l)), (firstn 4 l), (firstn 4 (skipn 4 l)), (skipn 8 l).
    split; [reflexivity|]. split; [exact E11|]. split; [apply F2_firstn; exact Fm|]. split; [apply F2_firstn, F2_skipn; exact Fm|]. split; [apply F2_skipn; exact Fm|]. auto.
  - destruct RT as (Fl & L & TL & TE). destruct (TW t TE) as [-> | (c & d & -> & R2)].
    + (* the comment is stuck to the last number of the projection *)
      destruct (exists_last (l := l)) as (l2 & x & ->); [intros ->; discriminate|].
      exists (paren (firstn 3 (map fmt (sd_pts s))) ++ paren (firstn 3 (skipn 3 (map fmt (sd_pts s)))) ++ paren (skipn 6 (map fmt (sd_pts s))) ++ [sd_tex s] ++ (map fmt l2 ++ [fmt x ++ TX t]) ++ []).
      split.
      * rewrite !app_nil_r, map_app. cbn [map]. rewrite !app_assoc. rewrite join_last. reflexivity.
      * apply HD; [|exact RW]. split; [|exact L]. apply Forall_app in Fl. destruct Fl as (F1 & F2). apply Forall2_app; [apply reads_map; exact F1|]. constructor; [|constructor].
        apply TL. apply in_or_app. right. left. reflexivity.
    + exists (paren (firstn 3 (map fmt (sd_pts s))) ++ paren (firstn 3 (skipn 3 (map fmt (sd_pts s)))) ++ paren (skipn 6 (map fmt (sd_pts s))) ++ [sd_tex s] ++ map fmt l ++ (c ++ [d ++ TX t])).
      split.
      * rewrite !app_assoc. rewrite join_last. reflexivity.
      * apply HD; [|exact R2]. split; [apply reads_map; exact Fl|exact L].
Qed.

Definition usable_brush (b : @brush num int) : Prop := br_bp b = false /\ br_sides b <> [] /\ Forall usable_side (br_sides b) /\ kept [] (map readback (br_sides b)).
Definition readback_brush (b : @brush num int) : @brush num int := mkBrush (br_bp b) (map readback (br_sides b)).
Lemma sides_text_words : forall l, Forall usable_side l -> exists wss, concat_opt (map (side_text fmt fmti) l) = Some (lines wss) /\ Forall2 reads_side wss (map readback l).
Proof.
  induction 1 as [|s l U F (wss & E & R)]; cbn [map concat_opt]; [exists []; split; [reflexivity|constructor]|].
  destruct (side_text_words s U) as (ws & E2 & R2). rewrite E2, E. exists (ws :: wss). split; [reflexivity|constructor; assumption].
Qed.
Lemma brush_text_words : forall b, usable_brush b -> exists wss, brush_text fmt fmti b = Some ([123; 10] ++ lines wss ++ [125; 10]) /\ Forall2 reads_side wss (map readback (br_sides b)).
Proof.
  intros b (BP & NE & F & K). unfold brush_text. rewrite BP. destruct (sides_text_words _ F) as (wss & E & R). rewrite E. exists wss. split; [reflexivity|exact R].
Qed.
Hypothesis dec_line : forall n, ~ In 10 (dec n) /\ ~ In 0 (dec n).
Lemma gap_numbered : forall k n, ~ In 10 k -> ~ In 0 k -> gap PARSE_NORMAL (47 :: 47 :: (k ++ dec n) ++ [10]).
Proof.
  intros k n A B. destruct (dec_line n) as (D1 & D2). apply gap_comment; [apply ok_normal|intro I; apply in_app_or in I; tauto..].
Qed.
Lemma lines_len : forall wss, (length wss <= length (lines wss))%nat.
Proof. unfold lines. induction wss as [|ws wss IH]; cbn [map concat length]; [lia|]. rewrite !app_length. cbn [length]. lia. Qed.
Lemma F2_len : forall {A B} (R : A -> B -> Prop) a b, Forall2 R a b -> length a = length b.
Proof. induction 1; cbn; congruence. Qed.
Lemma brushes_at : forall todo id done d fuel r p, Forall usable_brush todo -> exists t, brushes_text fmt fmti dec id todo = Some t /\ (length todo <= length t)%nat /\
  (at_ (10 :: t ++ r) p -> (length t < length todo + fuel)%nat ->
  exists p2, eloop (length todo + fuel) (mkEnt d done) p = eloop fuel (mkEnt d (done ++ map readback_brush todo)) p2 /\ at_ (10 :: r) p2).
Proof.
  intros todo id done d fuel r p F. revert id done p. induction F as [|b todo U F IH]; intros id done p.
  - exists []. split; [reflexivity|]. split; [cbn; lia|]. intros A L. cbn [map length Nat.add]. rewrite app_nil_r. exists p. split; [reflexivity|exact A].
  - destruct (brush_text_words b U) as (wss & E & R). cbn [brushes_text].
    (* the text does not depend on where the parser is *)
    destruct (IH (S id) done p) as (t & TE & TL & _). rewrite E, TE. eexists. split; [reflexivity|]. split; [rewrite !app_length; cbn [length app]; lia|].
    intros A L. 
    assert (W : 10 :: (c_brush ++ dec id ++ [10] ++ ([123; 10] ++ lines wss ++ [125; 10]) ++ t) ++ r =
                ([10] ++ (47 :: 47 :: ([32; 98; 114; 117; 115; 104; 32] ++ dec id) ++ [10])) ++ 123 :: 10 :: lines wss ++ 125 :: 10 :: t ++ r).
    { unfold c_brush. cbn [app]. rewrite <- !app_assoc. cbn [app]. rewrite <- !app_assoc. reflexivity. }
    rewrite W in A. clear W.
    destruct (brace_at _ 123 _ p (gap_app _ _ _ (gap_newline _ ok_normal) (gap_numbered [32; 98; 114; 117; 115; 104; 32] id ltac:(cbn; intuition discriminate) ltac:(cbn; intuition discriminate))) (or_introl eq_refl) A)
      as (p1 & E1 & A1 & T1).
    cbn [length Nat.add entity_loop]. rewrite E1. cbn [mbind negb]. rewrite T1. change (beq [123] [125]) with false. rewrite beq_refl. cbn beta iota. cbn [me_brushes me_pairs].
    destruct U as (BP & NE & FS & K).
    destruct (parse_brush_at (map readback (br_sides b)) wss done (length todo + fuel) (t ++ r) p1 R K) as (p2 & E2 & A2).
    { destruct (br_sides b); [congruence|discriminate]. }
    { rewrite <- (F2_len _ _ _ R). pose proof (lines_len wss). rewrite !app_length in L. cbn [length] in L. lia. }
    { exact A1. }
    rewrite E2. cbn [mbind]. destruct (IH (S id) (done ++ [mkBrush false (map readback (br_sides b))]) p2) as (t2 & TE2 & _ & G). rewrite TE in TE2. injection TE2 as <-.
    destruct (G A2) as (p3 & E3 & A3); [rewrite !app_length in L; cbn [length] in L; lia|]. exists p3. rewrite E3. split; [|exact A3].
    rewrite <- app_assoc. cbn [map app]. unfold readback_brush at 2. rewrite BP. reflexivity.
Qed.
Definition usable_ment (e : @ment num int) : Prop := Forall good_pair (me_pairs e) /\ NoDup (keys (me_pairs e)) /\ Forall usable_brush (me_brushes e).
Definition readback_ent (e : @ment num int) : @ment num int := mkEnt (me_pairs e) (map readback_brush (me_brushes e)).
Lemma pairs_len : forall l, (length l <= length (pairs_text l))%nat.
Proof. unfold pairs_text. induction l as [|kv l IH]; cbn [map concat length]; [lia|]. rewrite app_length. unfold write_pair at 1. cbn [length]. lia. Qed.
Lemma entity_at : forall e, usable_ment e -> exists t, ent_text fmt fmti dec e = Some ([123; 10] ++ t ++ [125; 10]) /\
  forall fuel r p, (length t < fuel)%nat -> at_ (10 :: t ++ 125 :: 10 :: r) p ->
  exists p2, eloop fuel (mkEnt [] []) p = M_ok (readback_ent e) p2 /\ at_ (10 :: r) p2.
Proof.
  intros e (FP & ND & FB). destruct (brushes_at (me_brushes e) 0 [] (me_pairs e) 0 [] (new_parser [] 0) FB) as (t & TE & TL & _).
  exists (pairs_text (me_pairs e) ++ t). split; [unfold ent_text; rewrite TE; cbn [option_map]; rewrite <- !app_assoc; reflexivity|].
  intros fuel r p L A. rewrite <- app_assoc in A. rewrite app_length in L.
  pose proof (pairs_len (me_pairs e)) as PL.
  destruct (Nat.le_exists_sub (length (me_pairs e) + (length (me_brushes e) + 1)) fuel) as (k & -> & _); [lia|].
  replace (k + (length (me_pairs e) + (length (me_brushes e) + 1)))%nat with (length (me_pairs e) + (length (me_brushes e) + S k))%nat in * by lia.
  destruct (pairs_at (me_pairs e) [] [] (length (me_brushes e) + S k) (t ++ 125 :: 10 :: r) p FP ND A) as (p1 & E1 & A1). rewrite E1. cbn [app].
  destruct (brushes_at (me_brushes e) 0 [] (me_pairs e) (S k) (125 :: 10 :: r) p1 FB) as (t2 & TE2 & _ & G). rewrite TE in TE2. injection TE2 as <-.
  destruct (G A1) as (p2 & E2 & A2); [lia|]. rewrite E2. cbn [app entity_loop].
  destruct (brace_at [10] 125 r p2 (gap_newline _ ok_normal) (or_intror eq_refl) A2) as (p3 & E3 & A3 & T3). rewrite E3. cbn [mbind negb]. rewrite T3, beq_refl.
  exists p3. split; [reflexivity|exact A3].
Qed.
Lemma map_at : forall es id, Forall usable_ment es -> exists t, map_text fmt fmti dec id es = Some t /\
  forall done fuel b p, (length t < fuel)%nat -> at_ ((if b : bool then [10] else []) ++ t) p ->
  exists p2, map_loop stod stoi keep fuel done p = M_ok (done ++ map readback_ent es) p2.
Proof.
  intros es id F. revert id. induction F as [|e es U F IH]; intro id; cbn [map_text].
  - exists []. split; [reflexivity|]. intros done fuel b p L A. destruct fuel as [|fuel]; [cbn [length] in L; lia|]. cbn [map_loop map]. rewrite app_nil_r.
    assert (X : exists p2, mtok PARSE_NORMAL p = M_ok false p2) by (destruct b; [apply at_end|apply at_end0]; exact A).
    destruct X as (p2 & E). rewrite E. cbn [mbind negb]. exists p2. reflexivity.
  - destruct (entity_at e U) as (t & ET & G). destruct (IH (S id)) as (u & EU & H). rewrite ET, EU. eexists. split; [reflexivity|].
    intros done fuel b p L A. destruct fuel as [|fuel]; [lia|]. cbn [map_loop]. rewrite !app_length in L. cbn [length] in L.
    assert (W : (if b then [10] else []) ++ c_entity ++ dec id ++ [10] ++ ([123; 10] ++ t ++ [125; 10]) ++ u =
                ((if b then [10] else []) ++ (47 :: 47 :: ([32; 101; 110; 116; 105; 116; 121; 32] ++ dec id) ++ [10])) ++ 123 :: 10 :: t ++ 125 :: 10 :: u).
    { unfold c_entity. destruct b; cbn [app]; repeat (rewrite <- !app_assoc; cbn [app]); reflexivity. }
    rewrite W in A. clear W.
    assert (GP : gap PARSE_NORMAL (if b then [10] else [])) by (destruct b; [apply gap_newline, ok_normal|apply gap_nil]).
    destruct (brace_at _ 123 _ p (gap_app _ _ _ GP (gap_numbered [32; 101; 110; 116; 105; 116; 121; 32] id ltac:(cbn; intuition discriminate) ltac:(cbn; intuition discriminate))) (or_introl eq_refl) A)
      as (p1 & E1 & A1 & T1).
    rewrite E1. cbn [mbind negb]. rewrite T1, beq_refl.
    destruct (G fuel u p1) as (p2 & E2 & A2); [lia|exact A1|]. rewrite E2. cbn [mbind].
    destruct (H (done ++ [readback_ent e]) fuel true p2) as (p3 & E3); [lia|exact A2|]. exists p3. rewrite E3, <- app_assoc. reflexivity.
Qed.
Theorem map_round_trip : forall es, Forall usable_ment es -> exists t p, map_text fmt fmti dec 0 es = Some t /\ map_parse stod stoi keep t = M_ok (map readback_ent es) p.
Proof.
  intros es F. destruct (map_at es 0 F) as (t & E & H). destruct (H [] (S (length t)) false (new_parser (t ++ [0]) (length t))) as (p & P); [lia|split; reflexivity|].
  exists t, p. split; [exact E|exact P].
Qed.
End MapFile.

(** ** Reading ends *)
(** At most [n] bytes are left; with [q] false none of them is a quote. *)
Definition tin (q : bool) (p : pstate) (n : nat) : Prop :=
  exists t, in_text p t [] /\ (length t <= n)%nat /\ (q = false -> ~ In 34 t).
Definition res_ok {A} (q : bool) (n : nat) (r : mres A) : Prop :=
  match r with M_ok _ p => tin q p n | M_error => True | M_UB => q = true | M_fuel => False end.
Lemma bind_ok : forall {A B} q n m (r : mres A) (k : A -> pstate -> mres B), res_ok q n r -> (forall x p, tin q p n -> res_ok q m (k x p)) -> res_ok q m (mbind r k).
Proof. intros A B q n m [x p| | |] k H K; cbn in *; auto. Qed.
Lemma tin_le : forall q p n m, tin q p n -> (n <= m)%nat -> tin q p m.
Proof. intros q p n m (t & I & L & Q) LE. exists t. split; [exact I|]. split; [lia|exact Q]. Qed.
Lemma res_le : forall {A} q n m (r : mres A), res_ok q n r -> (n <= m)%nat -> res_ok q m r.
Proof. intros A q n m [x p| | |] H LE; cbn in *; auto. eapply tin_le; eauto. Qed.
Lemma mtok_ok : forall q f p n, f_peek f = false -> f_comment f = false -> tin q p n ->
  match mtok f p with
  | M_ok b p2 => tin q p2 n /\ (b = true -> tin q p2 (pred n) /\ n <> O /\ (q = false -> ps_token p2 <> [] /\ Forall (fun c => blank c = false) (ps_token p2)))
  | M_error => True | M_UB => False | M_fuel => False
  end.
Proof.
  intros q f p n FP FC (t & I & L & Q). unfold mtok. destruct (parse_token_ok f p t [] I FP) as [-> | (b & p2 & u & v & -> & -> & M & LF & S1)]; [exact Logic.I|].
  rewrite app_length in L.
  assert (IN : in_text p2 v []). { split; [exact M|]. destruct I as (_ & L2). rewrite app_length in L2. lia. }
  assert (QV : q = false -> ~ In 34 v) by (intros E X; apply (Q E), in_or_app; right; exact X).
  split; [exists v; split; [exact IN|]; split; [lia|exact QV]|].
  intros ->. pose proof (token_text_nonempty _ _ _ _ _ _ _ S1) as NE. assert (length u <> O) by (destruct u; [congruence|discriminate]).
  split; [exists v; split; [exact IN|]; split; [lia|exact QV]|]. split; [lia|]. intro E.
  destruct S1 as (g & _ & _ & [(_ & _ & U)|[(_ & _ & _ & TN & _ & F & _)|(_ & X & _)]]).
  - exfalso. apply (Q E). apply in_or_app. left. rewrite U. apply in_or_app. right. left. reflexivity.
  - split; assumption.
  - congruence.
Qed.
Lemma mtok_comment_ok : forall q p n, tin q p n -> res_ok q n (mtok COMMENT_OPTIONAL p).
Proof.
  intros q p n (t & I & L & Q). unfold mtok. destruct (parse_token_cases COMMENT_OPTIONAL p t [] I eq_refl) as [-> | (b & p2 & u & v & -> & -> & IN & _)]; [exact Logic.I|].
  rewrite app_length in L. exists v. split; [exact IN|]. split; [lia|]. intros E X. apply (Q E), in_or_app. right. exact X.
Qed.
Lemma mtok_res : forall q f p n, f_peek f = false -> f_comment f = false -> tin q p n -> res_ok q n (mtok f p).
Proof. intros q f p n A B T. pose proof (mtok_ok q f p n A B T) as H. destruct (mtok f p); cbn; tauto. Qed.
Lemma mtok_peek_ok : forall q f p n, f_peek f = true -> f_comment f = false -> tin q p n -> res_ok q n (mtok f p).
Proof.
  intros q f p n FP FC T. destruct (f_bits_ldiff f) as (_ & B2 & _ & B4). pose proof (mtok_res q (N.ldiff f PARSE_PEEK) p n B4) as H. rewrite B2 in H. specialize (H FC T).
  unfold mtok in *. rewrite peek_spec by exact FP. destruct (parse_token (N.ldiff f PARSE_PEEK) p); cbn in *; auto.
Qed.
Lemma trim_word : forall k, k <> [] -> Forall (fun c => blank c = false) k -> trim_end (trim_front k) (S (length k)) = Some k.
Proof.
  intros k NE F. apply trim_id_end. assert (NB : forall c, blank c = false -> isspace c = false).
  { intros c. unfold blank, isspace. intro H. destruct (9 <=? c) eqn:E1, (c <=? 13) eqn:E2, (c =? 32) eqn:E3; cbn; try reflexivity; exfalso;
    apply orb_false_iff in H || idtac; revert H; rewrite ?N.leb_le, ?N.leb_gt, ?N.eqb_eq in *; try (destruct H); try lia. }
  destruct k as [|c k]; [congruence|]. exists c, k. split; [reflexivity|]. inversion F. subst. split; [auto|].
  apply NB. rewrite Forall_forall in F. apply F. destruct (exists_last (l := c :: k)) as (l & x & E); [discriminate|]. rewrite E, last_last. apply in_or_app. right. left. reflexivity.
Qed.
Section Ends.
Context {num int : Type} (stod : bytes -> option num) (stoi : bytes -> option int) (keep : list (@side num int) -> @side num int -> bool).
Ltac tokstep := eapply bind_ok; [apply mtok_res; [reflexivity|reflexivity|eassumption]|intros; cbv beta].
Lemma nums_ok : forall k q p n, tin q p n -> res_ok q n (nums stod k p).
Proof.
  induction k as [|k IH]; intros q p n T; cbn [nums]; [exact T|]. tokstep. destruct (stod _); [|exact Logic.I].
  eapply bind_ok; [apply IH; eassumption|]. intros. cbn. assumption.
Qed.
Lemma expect_ok : forall f c q p n, f_peek f = false -> f_comment f = false -> tin q p n -> res_ok q n (expect f c p).
Proof. intros f c q p n A B T. unfold expect. eapply bind_ok; [apply mtok_res; eassumption|]. intros b p2 T2. destruct (beq (ps_token p2) [c]); cbn; auto. Qed.
Ltac exstep := eapply bind_ok; [apply expect_ok; [reflexivity|reflexivity|eassumption]|intros; cbv beta].
Ltac nstep := eapply bind_ok; [apply nums_ok; eassumption|intros; cbv beta].
Lemma plane_ok : forall q p n, tin q p n -> res_ok q n (plane_def stod p).
Proof.
  intros q p n T. unfold plane_def. destruct (beq (ps_token p) [40]); [|exact Logic.I]. nstep. exstep. exstep. nstep. exstep. exstep. nstep. exstep. cbn. assumption.
Qed.
Lemma valve_ok : forall q p n, tin q p n -> res_ok q n (valve_def stod p).
Proof. intros q p n T. unfold valve_def. exstep. nstep. exstep. exstep. nstep. exstep. nstep. cbn. assumption. Qed.
Lemma quark_ok : forall q (raw : @texdef num) p n, tin q p n -> res_ok q n (quark raw p).
Proof.
  intros q raw p n T. unfold quark. eapply bind_ok; [apply mtok_comment_ok; eassumption|]. intros b p2 T2. destruct b; [|exact T2].
  repeat match goal with |- res_ok _ _ (match ?x with _ => _ end) => destruct x end; cbn; auto.
Qed.
Lemma opt_int_ok : forall q p n, tin q p n -> res_ok q n (opt_int stoi p).
Proof. intros q p n T. unfold opt_int. tokstep. destruct x; [|cbn; assumption]. destruct (stoi _); cbn; auto. Qed.
Lemma extended_ok : forall q (raw : @texdef num) p n, tin q p n -> res_ok q n (extended stoi raw p).
Proof.
  intros q raw p n T. unfold extended. eapply bind_ok; [apply quark_ok; eassumption|]. intros [r|] p1 T1; [exact T1|].
  eapply bind_ok; [apply opt_int_ok; eassumption|]. intros [c|] p2 T2; [|exact T2].
  eapply bind_ok; [apply opt_int_ok; eassumption|]. intros f p3 T3. eapply bind_ok; [apply opt_int_ok; eassumption|]. intros v p4 T4.
  eapply bind_ok; [apply quark_ok; eassumption|]. intros x p5 T5. exact T5.
Qed.
Lemma texture_ok : forall q p n, tin q p n -> res_ok q n (texture_def stod stoi p).
Proof.
  intros q p n T. unfold texture_def. tokstep. eapply bind_ok; [apply mtok_peek_ok; [reflexivity|reflexivity|eassumption]|]. intros b p1 T1. eapply bind_ok.
  - destruct (beq (ps_token p1) [91]); (eapply bind_ok; [apply valve_ok + apply nums_ok; eassumption|intros; cbn; eassumption]).
  - intros raw p2 T2. eapply bind_ok; [apply extended_ok; eassumption|]. intros. cbn. assumption.
Qed.
Lemma face_ok : forall bp sides q p n, tin q p n -> res_ok q n (brush_face stod stoi keep bp sides p).
Proof.
  intros bp sides q p n T. unfold brush_face. destruct bp; [exact Logic.I|]. eapply bind_ok; [apply plane_ok; eassumption|]. intros pts p1 T1.
  eapply bind_ok; [apply texture_ok; eassumption|]. intros. cbn. assumption.
Qed.
Lemma faces_ok : forall fuel bp sides q p n, tin q p n -> (n < fuel)%nat -> res_ok q n (faces_loop stod stoi keep fuel bp sides p).
Proof.
  induction fuel as [|fuel IH]; intros bp sides q p n T L; [lia|]. cbn [faces_loop]. pose proof (mtok_ok q PARSE_NORMAL p n eq_refl eq_refl T) as H.
  destruct (mtok PARSE_NORMAL p) as [b p1| | |]; cbn [mbind]; try contradiction; [|exact Logic.I]. destruct H as (T1 & H).
  destruct b; cbn [negb]; [|exact T1]. destruct (H eq_refl) as (T2 & N0 & _). destruct (beq (ps_token p1) [125]); [exact T1|].
  eapply bind_ok; [apply face_ok; exact T2|]. intros s2 p2 T3. apply (res_le q (pred n)); [|lia]. apply IH; [exact T3|lia].
Qed.
Lemma brush_ok : forall fuel bs q p n, tin q p n -> (n < fuel)%nat -> res_ok q n (parse_brush stod stoi keep fuel bs p).
Proof.
  intros fuel bs q p n T L. unfold parse_brush. eapply bind_ok; [apply mtok_peek_ok; [reflexivity|reflexivity|eassumption]|]. intros b p1 T1.
  destruct (negb b); [exact Logic.I|]. eapply bind_ok.
  - match goal with |- context [if ?c then _ else _] => destruct c end; [exact T1|]. tokstep. eapply bind_ok.
    + destruct (beq (ps_token p0) brushDef); [|cbn; eassumption]. tokstep. destruct x0; cbn; auto.
    + intros u p2 T2. destruct (beq (ps_token p2) [123]); cbn; auto.
  - intros bp p2 T2. eapply bind_ok; [apply faces_ok; eassumption|]. intros s2 p3 T3. eapply bind_ok.
    + destruct bp; [|exact T3]. tokstep. destruct (_ && _); cbn; auto.
    + intros u p4 T4. exact T4.
Qed.
Lemma entity_ok : forall fuel e q p n, tin q p n -> (n < fuel)%nat -> res_ok q n (entity_loop stod stoi keep fuel e p).
Proof.
  induction fuel as [|fuel IH]; intros e q p n T L; [lia|]. cbn [entity_loop]. pose proof (mtok_ok q PARSE_NORMAL p n eq_refl eq_refl T) as H.
  destruct (mtok PARSE_NORMAL p) as [b p1| | |]; cbn [mbind]; try contradiction; [|exact Logic.I]. destruct H as (T1 & H).
  destruct b; cbn [negb]; [|exact Logic.I]. destruct (H eq_refl) as (T2 & N0 & W). destruct (beq (ps_token p1) [125]); [exact T1|].
  assert (G : forall x p2, tin q p2 (pred n) -> res_ok q n (entity_loop stod stoi keep fuel x p2)) by (intros; apply (res_le q (pred n)); [apply IH; [assumption|lia]|lia]).
  destruct (beq (ps_token p1) [123]).
  - eapply bind_ok; [apply brush_ok; [exact T2|lia]|]. intros. apply G. assumption.
  - unfold entity_dict. destruct (trim_end _ _) as [k|] eqn:E.
    + eapply bind_ok; [eapply bind_ok; [apply mtok_res; [reflexivity|reflexivity|exact T2]|]|]; intros; [cbn; eassumption|apply G; assumption].
    + cbn. destruct q; [reflexivity|]. destruct (W eq_refl) as (NE & F). rewrite trim_word in E by assumption. discriminate.
Qed.
Lemma map_ok : forall fuel es q p n, tin q p n -> (n < fuel)%nat -> res_ok q n (map_loop stod stoi keep fuel es p).
Proof.
  induction fuel as [|fuel IH]; intros es q p n T L; [lia|]. cbn [map_loop]. pose proof (mtok_ok q PARSE_NORMAL p n eq_refl eq_refl T) as H.
  destruct (mtok PARSE_NORMAL p) as [b p1| | |]; cbn [mbind]; try contradiction; [|exact Logic.I]. destruct H as (T1 & H).
  destruct b; cbn [negb]; [|exact T1]. destruct (H eq_refl) as (T2 & N0 & W). destruct (beq (ps_token p1) [123]); [|exact Logic.I].
  eapply bind_ok; [apply entity_ok; [exact T2|lia]|]. intros. apply (res_le q (pred n)); [apply IH; [assumption|lia]|lia].
Qed.
Theorem map_parse_ends : forall t, map_parse stod stoi keep t <> M_fuel /\ (~ In 34 t -> map_parse stod stoi keep t <> M_UB).
Proof.
  intro t. unfold map_parse.
  assert (I : in_text (new_parser (t ++ [0]) (length t)) t []) by (split; [reflexivity|cbn; lia]).
  split.
  - pose proof (map_ok (S (length t)) [] true (new_parser (t ++ [0]) (length t)) (length t)) as H. destruct (map_loop _ _ _ _ _ _); try discriminate.
    exfalso. apply H; [|lia]. exists t. split; [exact I|]. split; [lia|discriminate].
  - intro NQ. pose proof (map_ok (S (length t)) [] false (new_parser (t ++ [0]) (length t)) (length t)) as H. destruct (map_loop _ _ _ _ _ _); try discriminate.
    exfalso. cbn in H. assert (X : false = true); [|discriminate]. apply H; [|lia]. exists t. split; [exact I|]. split; [lia|auto].
Qed.
End Ends.
