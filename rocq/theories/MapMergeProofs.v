(* Reading a map: proofs for C141. *)
From Coq Require Import String Ascii List Arith NArith ZArith Bool Lia.
Import ListNotations.
From Verif Require Import Base NumCastModel ParserModel EntModel EntProofs MapMergeModel.
Local Open Scope list_scope.
Local Open Scope N_scope.

(** ** Progress of the parser *)
Lemma take_word_len : forall s n acc tok rest k, take_word s n acc = Some (tok, rest, k) -> (List.length rest <= List.length s)%nat.
Proof. induction s as [|c s IH]; intros n acc tok rest k H; [discriminate H|]. cbn [take_word] in H. destruct (blank c); [injection H as _ <- _; lia|]. apply IH in H. cbn [List.length]. lia. Qed.
Lemma take_quoted_len : forall m s n acc tok rest k, (List.length s <= m)%nat -> take_quoted s n acc = Q_ok tok rest k -> (List.length rest < List.length s)%nat.
Proof.
  induction m as [|m IH]; intros s n acc tok rest k L H; (destruct s as [|c s]; [discriminate H|]); cbn [List.length] in L; [lia|].
  cbn [take_quoted] in H. destruct (c =? 34); [injection H as _ <- _; cbn [List.length]; lia|]. destruct (c =? 0); [discriminate H|].
  destruct (c =? 92).
  - destruct s as [|d s]; [discriminate H|]. cbn [List.length] in *. destruct (esc_pair d); [apply IH in H; lia|].
    destruct (d =? 34).
    + destruct s as [|e s]; [discriminate H|]. destruct ((e =? 13) || (e =? 10)); apply IH in H; cbn [List.length] in *; lia.
    + apply IH in H; cbn [List.length] in *; lia.
  - apply IH in H; cbn [List.length] in *; lia.
Qed.
Lemma copy_token_len : forall f s n line r q, f_comment f = false -> blank (hd 0 s) = false -> copy_token f s n line = T_ret r q -> (List.length (ps_mem q) < List.length s)%nat.
Proof.
  intros f s n line r q F B H. unfold copy_token in H. rewrite F in H. destruct s as [|c s]; [discriminate H|]. cbn [hd] in B. destruct (c =? 34) eqn:C.
  - destruct (take_quoted s (pred n) []) as [tok rest lft| |] eqn:T; try discriminate H. injection H as _ <-. cbn [ps_mem List.length]. apply (take_quoted_len (List.length s)) in T; lia.
  - cbn [take_word] in H. rewrite B in H. destruct (take_word s (pred n) ([] ++ [c])) as [[[tok rest] lft]|] eqn:T; [|discriminate H]. injection H as _ <-. cbn [ps_mem List.length].
    apply take_word_len in T. lia.
Qed.
Lemma skip_len : forall f s ic n line r q, f_comment f = false -> skip f ic s n line = T_ret r q ->
  (List.length (ps_mem q) <= List.length s)%nat /\ (r = true -> (List.length (ps_mem q) < List.length s)%nat).
Proof.
  intros f s. induction s as [|c s IH]; intros ic n line r q F H.
  - cbn [skip] in H. destruct ic; [discriminate H|]. destruct n; [|discriminate H]. unfold eol in H.
    destruct (f_optional f); [|destruct (f_sameline f); [discriminate H|]]; injection H as <- <-; cbn; split; (lia || discriminate).
  - assert (EOL : forall z, match eol f (c :: s) n line with Some r0 => r0 | None => z end = T_ret r q -> (z = T_ret r q) \/ (r = false /\ q = mkPS [] false (c :: s) n line)).
    { intros z X. unfold eol in X. destruct (f_optional f); [right; injection X as <- <-; auto|]. destruct (f_sameline f); [discriminate X|left; exact X]. }
    assert (FIN : forall n' l', r = false /\ q = mkPS [] false (c :: s) n' l' -> (List.length (ps_mem q) <= List.length (c :: s))%nat /\ (r = true -> (List.length (ps_mem q) < List.length (c :: s))%nat)).
    { intros n' l' [-> ->]. cbn [ps_mem]. split; [lia|discriminate]. }
    assert (REC : forall ic n line, skip f ic s n line = T_ret r q -> (List.length (ps_mem q) <= List.length (c :: s))%nat /\ (r = true -> (List.length (ps_mem q) < List.length (c :: s))%nat)).
    { intros ic' n' l' X. apply IH in X; [|exact F]. cbn [List.length]. split; [lia|]. intros R. apply X in R. lia. }
    assert (FIN2 : forall n' l', T_ret false (mkPS [] false s n' l') = T_ret r q -> (List.length (ps_mem q) <= List.length (c :: s))%nat /\ (r = true -> (List.length (ps_mem q) < List.length (c :: s))%nat)).
    { intros n' l' X. injection X as <- <-. cbn [ps_mem List.length]. split; [lia|discriminate]. }
    cbn [skip] in H. destruct ic.
    + destruct (c =? 10); [eapply REC; exact H|]. destruct s as [|d s']; [discriminate H|]. destruct (d =? 0).
      * destruct (f_sameline f); [discriminate H|]. eapply FIN2. exact H.
      * eapply REC. exact H.
    + destruct n as [|n].
      * apply EOL in H. destruct H as [H|H]; [injection H as <- <-; apply (FIN O line); auto|apply (FIN _ _ H)].
      * destruct (blank c) eqn:B.
        -- destruct (c =? 0); [apply EOL in H; destruct H as [H|H]; [injection H as <- <-; apply (FIN (S n) line); auto|apply (FIN _ _ H)]|].
           destruct (c =? 10); [apply EOL in H; destruct H as [H|H]; [eapply REC; exact H|apply (FIN _ _ H)]|]. eapply REC. exact H.
        -- destruct (if c =? 47 then match s with [] => None | d :: _ => Some (d =? 47) end else Some (c =? 59)) as [[|]|]; [| |discriminate H].
           ++ rewrite F in H. apply EOL in H. destruct H as [H|H]; [|apply (FIN _ _ H)]. destruct s as [|d s']; [discriminate H|]. destruct (d =? 0); [eapply FIN2; exact H|eapply REC; exact H].
           ++ apply copy_token_len in H; [|exact F|exact B]. split; lia.
Qed.
Lemma token_len : forall f p r q, f = PARSE_NORMAL \/ f = PARSE_SAMELINE -> parse_token f p = T_ret r q ->
  (List.length (ps_mem q) <= List.length (ps_mem p))%nat /\ (r = true -> (List.length (ps_mem q) < List.length (ps_mem p))%nat).
Proof. intros f p r q F H. destruct F; subst f; unfold parse_token in H; cbv [f_peek PARSE_NORMAL PARSE_SAMELINE N.testbit] in H; eapply skip_len; try exact H; reflexivity. Qed.

Lemma skip_block_fuel : forall fuel p, (List.length (ps_mem p) < fuel)%nat -> skip_block fuel p <> E_fuel /\ forall q, skip_block fuel p = E_ok q -> (List.length (ps_mem q) < List.length (ps_mem p))%nat.
Proof.
  induction fuel as [|fuel IH]; intros p L; [lia|]. cbn [skip_block]. destruct (parse_token PARSE_NORMAL p) as [[|] p1| |] eqn:T; try (split; [discriminate|intros q X; discriminate X]).
  apply token_len in T; [|left; reflexivity]. destruct T as [_ T]. specialize (T eq_refl). destruct (beq (ps_token p1) [125]).
  - split; [discriminate|]. intros q X. injection X as <-. exact T.
  - destruct (IH p1 ltac:(lia)) as [A B]. split; [exact A|]. intros q X. apply B in X. lia.
Qed.
Lemma ent_loop_fuel : forall fuel e p, (List.length (ps_mem p) < fuel)%nat -> ent_loop fuel e p <> E_fuel /\ forall e' q, ent_loop fuel e p = E_ok (e', q) -> (List.length (ps_mem q) < List.length (ps_mem p))%nat.
Proof.
  induction fuel as [|fuel IH]; intros e p L; [lia|]. cbn [ent_loop]. destruct (parse_token PARSE_NORMAL p) as [[|] p1| |] eqn:T; try (split; [discriminate|intros ? q X; discriminate X]).
  apply token_len in T; [|left; reflexivity]. destruct T as [_ T]. specialize (T eq_refl). destruct (beq (ps_token p1) [125]).
  - split; [discriminate|]. intros ? q X. injection X as _ <-. exact T.
  - destruct (beq (ps_token p1) [123]).
    + destruct (skip_block_fuel (S (List.length (ps_mem p1))) p1 ltac:(lia)) as [A B]. destruct (skip_block (S (List.length (ps_mem p1))) p1) as [p2| | |] eqn:SB; try (split; [discriminate|intros ? q X; discriminate X]); [|congruence].
      specialize (B p2 eq_refl). cbn zeta.
      match goal with |- context [ent_loop fuel ?E p2] => destruct (IH E p2 ltac:(lia)) as [C D] end. split; [exact C|]. intros e' q X. apply D in X. lia.
    + destruct (trim_key (ps_token p1)) as [k|]; [|split; [discriminate|intros ? q X; discriminate X]].
      destruct (parse_token PARSE_SAMELINE p1) as [r p2| |] eqn:T2; try (split; [discriminate|intros ? q X; discriminate X]).
      apply token_len in T2; [|right; reflexivity]. destruct T2 as [T2 _].
      match goal with |- context [ent_loop fuel ?E p2] => destruct (IH E p2 ltac:(lia)) as [C D] end. split; [exact C|]. intros e' q X. apply D in X. lia.
Qed.
Lemma load_loop_fuel : forall fuel acc p, (List.length (ps_mem p) < fuel)%nat -> load_loop fuel acc p <> E_fuel.
Proof.
  induction fuel as [|fuel IH]; intros acc p L; [lia|]. cbn [load_loop]. destruct (parse_token PARSE_NORMAL p) as [[|] p1| |] eqn:T; try discriminate.
  apply token_len in T; [|left; reflexivity]. destruct T as [_ T]. specialize (T eq_refl). destruct (beq (ps_token p1) [123]); [|discriminate].
  destruct (ent_loop_fuel (S (List.length (ps_mem p1))) (mkEnt [] []) p1 ltac:(lia)) as [A B]. destruct (ent_loop (S (List.length (ps_mem p1))) (mkEnt [] []) p1) as [[e p2]| | |]; try discriminate; [|congruence].
  specialize (B e p2 eq_refl). apply IH. lia.
Qed.
Lemma load_total : forall t, load t <> E_fuel.
Proof. intros t. unfold load. apply load_loop_fuel. cbn. lia. Qed.

(** ** What is written is read back *)

(** A token of a brush: no blank in it, no quote or semicolon first, no comment, no closing brace alone. *)
Definition wordok (w : bytes) : Prop :=
  w <> [] /\ Forall (fun c => blank c = false) w /\ hd 0 w <> 34 /\ hd 0 w <> 59 /\ firstn 2 w <> [47; 47] /\ w <> [125].
Definition sepok (c : N) : Prop := c = 32 \/ c = 9 \/ c = 10 \/ c = 13.
Definition wordsok (ws : list (bytes * N)) : Prop := Forall (fun p => wordok (fst p) /\ sepok (snd p)) ws.
Definition body (ws : list (bytes * N)) : bytes := concat (map (fun p => fst p ++ [snd p]) ws).
(** A brush: lines of tokens between braces. *)
Definition block (ws : list (bytes * N)) : bytes := 123 :: 10 :: body ws ++ [125; 10].

Lemma take_word_app : forall w c s n acc, Forall (fun c => blank c = false) w -> blank c = true ->
  take_word (w ++ c :: s) (List.length w + n) acc = Some (acc ++ w, c :: s, n).
Proof.
  induction w as [|x w IH]; intros c s n acc F B; cbn [app take_word List.length Nat.add pred].
  - rewrite B. rewrite app_nil_r. reflexivity.
  - inversion F as [|? ? X F']; subst. rewrite X. rewrite IH by assumption. rewrite <- app_assoc. reflexivity.
Qed.
Lemma sep_blank : forall c, sepok c -> blank c = true /\ c <> 0 /\ (c =? 47) = false.
Proof. intros c [->|[->|[->| ->]]]; repeat split; discriminate. Qed.
Lemma skip_word : forall w c s n line, wordok w -> sepok c ->
  skip PARSE_NORMAL false (w ++ c :: s) (List.length w + n) line = T_ret true (mkPS w false (c :: s) n line).
Proof.
  intros w c s n line (NE & F & Q & SC & CM & _) SP. destruct (sep_blank c SP) as (B & _ & C47).
  destruct w as [|x w]; [congruence|]. pose proof (Forall_inv F) as X. cbn [hd] in *. cbn beta in X.
  change (List.length (x :: w) + n)%nat with (S (List.length w + n)). change ((x :: w) ++ c :: s) with (x :: w ++ c :: s). cbn [skip]. rewrite X.
  assert (E : (if x =? 47 then match w ++ c :: s with [] => None | d :: _ => Some (d =? 47) end else Some (x =? 59)) = Some false).
  { destruct (x =? 47) eqn:X47.
    - apply N.eqb_eq in X47. subst x. destruct w as [|y w]; cbn [app]; [rewrite C47; reflexivity|]. f_equal. apply N.eqb_neq. intros ->. apply CM. reflexivity.
    - f_equal. apply N.eqb_neq. exact SC. }
  rewrite E. unfold copy_token. change (f_comment PARSE_NORMAL) with false. cbv iota. apply N.eqb_neq in Q. rewrite Q.
  change (x :: w ++ c :: s) with ((x :: w) ++ c :: s). change (S (List.length w + n)) with (List.length (x :: w) + n)%nat.
  rewrite take_word_app by assumption. reflexivity.
Qed.
Lemma skip_sep : forall c s n line, sepok c -> exists line', skip PARSE_NORMAL false (c :: s) (S n) line = skip PARSE_NORMAL false s n line'.
Proof. intros c s n line [->|[->|[->| ->]]]; eexists; reflexivity. Qed.

Lemma tok_block : forall ws fuel tok q c s n line, wordsok ws -> sepok c -> (List.length ws < fuel)%nat ->
  exists line', skip_block fuel (mkPS tok q (c :: body ws ++ 125 :: 10 :: s) (S (List.length (body ws) + S n)) line) = E_ok (mkPS [125] false (10 :: s) n line').
Proof.
  induction ws as [|[w d] ws IH]; intros fuel tok q c s n line WS SP L; (destruct fuel as [|fuel]; [cbn [List.length] in L; lia|]).
  - cbn [body map concat app List.length Nat.add skip_block]. unfold parse_token. change (f_peek PARSE_NORMAL) with false. cbn beta iota. cbn [ps_mem ps_left ps_line].
    destruct (skip_sep c (125 :: 10 :: s) (S n) line SP) as [l' ->]. rewrite (skip_brace PARSE_NORMAL 125 s n l' ok_normal) by auto.
    cbn [ps_token]. change (beq [125] [125]) with true. eexists. reflexivity.
  - inversion WS as [|? ? [W D] WS']; subst. cbn [fst snd] in W, D. cbn [body map concat fst snd]. rewrite <- !app_assoc. cbn [app skip_block]. unfold parse_token. change (f_peek PARSE_NORMAL) with false. cbn beta iota. cbn [ps_mem ps_left ps_line].
    match goal with |- context [skip PARSE_NORMAL false (c :: ?S0) (Datatypes.S ?N0) line] => destruct (skip_sep c S0 N0 line SP) as [l' ->] end.
    change (concat (map (fun p => fst p ++ [snd p]) ws)) with (body ws).
    match goal with |- context [skip PARSE_NORMAL false _ ?N0 l'] => replace N0 with (List.length w + S (List.length (body ws) + S n))%nat by (rewrite !app_length; cbn [List.length]; lia) end.
    rewrite skip_word by assumption. cbn [ps_token]. destruct W as (_ & _ & _ & _ & _ & W). apply beq_neq in W. rewrite W.
    apply IH; [exact WS'|exact D|cbn [List.length] in L; lia].
Qed.

(** Keys and values of an entity of a map. *)
Definition pairok (kv : bytes * bytes) : Prop :=
  quotable 32 (fst kv) = true /\ quotable 10 (snd kv) = true /\ fst kv <> [125] /\ fst kv <> [123] /\ trimmed (fst kv).
Definition entok (e : ment) : Prop :=
  NoDup (keys (me_keys e)) /\ Forall pairok (me_keys e) /\ exists bs, Forall wordsok bs /\ me_brushes e = concat (map block bs).

Lemma trimmed_key : forall k, trimmed k -> trim_key k = Some k.
Proof.
  intros k (c & k' & -> & A & B). unfold trim_key. cbn [trim_front]. rewrite A.
  destruct (exists_last (l := c :: k')) as (i & z & E); [discriminate|]. rewrite E in B |- *. rewrite last_last in B. rewrite rev_app_distr. cbn [rev app trim_front]. rewrite B.
  cbn [rev]. rewrite rev_involutive. reflexivity.
Qed.
Lemma skip_quoted_any : forall f v nx r n line, f_comment f = false -> quotable nx v = true ->
  skip f false (34 :: v ++ 34 :: nx :: r) (List.length v + 2 + n) line = T_ret true (mkPS v true (nx :: r) n line).
Proof.
  intros f v nx r n line C Q. replace (List.length v + 2 + n)%nat with (S (List.length v + 1 + n)) by lia.
  cbn [skip]. change (blank 34) with false. change (34 =? 47) with false. change (34 =? 59) with false.
  cbn beta iota. unfold copy_token. rewrite C. change (34 =? 34) with true. cbn beta iota.
  rewrite (take_quoted_quotable (List.length v)) by auto. cbn [pred app].
  replace (List.length v + 1 + n - List.length v - 1)%nat with n by lia. reflexivity.
Qed.
Lemma firstn_app_len : forall (a b : bytes), firstn (List.length (a ++ b) - List.length b) (a ++ b) = a.
Proof. intros. rewrite app_length. replace (List.length a + List.length b - List.length b)%nat with (List.length a) by lia. rewrite firstn_app, Nat.sub_diag, firstn_all. cbn. apply app_nil_r. Qed.
Lemma body_length : forall ws, (List.length ws <= List.length (body ws))%nat.
Proof. induction ws as [|p ws IH]; [apply le_n|]. unfold body in *. cbn [map concat List.length]. rewrite !app_length. cbn [List.length]. lia. Qed.

Lemma blocks_read : forall bs fuel e tok q s n line, Forall wordsok bs -> (List.length bs < fuel)%nat ->
  exists line', ent_loop fuel e (mkPS tok q (10 :: concat (map block bs) ++ 125 :: 10 :: s) (S (List.length (concat (map block bs)) + S n)) line)
    = E_ok (mkEnt (me_keys e) (me_brushes e ++ concat (map block bs)), mkPS [125] false (10 :: s) n line').
Proof.
  induction bs as [|ws bs IH]; intros fuel e tok q s n line F L; (destruct fuel as [|fuel]; [cbn [List.length] in L; lia|]).
  - cbn [map concat app List.length Nat.add ent_loop]. unfold parse_token. change (f_peek PARSE_NORMAL) with false. cbn beta iota. cbn [ps_mem ps_left ps_line].
    rewrite skip_newline by apply ok_normal. rewrite (skip_brace PARSE_NORMAL 125 s n _ ok_normal) by auto. cbn [ps_token]. change (beq [125] [125]) with true. cbn iota.
    rewrite app_nil_r. destruct e. eexists. reflexivity.
  - inversion F as [|? ? W F']; subst. cbn [map concat ent_loop]. unfold parse_token. change (f_peek PARSE_NORMAL) with false. cbn beta iota. cbn [ps_mem ps_left ps_line].
    rewrite skip_newline by apply ok_normal. set (R := concat (map block bs) ++ 125 :: 10 :: s).
    assert (E1 : (block ws ++ concat (map block bs)) ++ 125 :: 10 :: s = 123 :: 10 :: body ws ++ 125 :: 10 :: R).
    { unfold block, R. rewrite <- !app_assoc. cbn [app]. rewrite <- !app_assoc. reflexivity. }
    rewrite E1. set (m := (List.length (concat (map block bs)) + S n)%nat).
    assert (E2 : (List.length (block ws ++ concat (map block bs)) + S n)%nat = S (S (List.length (body ws) + S (S m)))).
    { rewrite app_length. unfold m. unfold block at 1. cbn [List.length]. rewrite app_length. cbn [List.length]. lia. }
    rewrite E2. rewrite (skip_brace PARSE_NORMAL 123 _ _ _ ok_normal) by auto. cbn [ps_token]. change (beq [123] [125]) with false. change (beq [123] [123]) with true. cbn iota. cbn [ps_mem ps_quoted].
    destruct (tok_block ws (S (List.length (10 :: body ws ++ 125 :: 10 :: R))) [123] false 10 R (S m) (S line) W) as [l' TB]; [right; right; left; reflexivity|pose proof (body_length ws); cbn [List.length]; rewrite app_length; lia|].
    rewrite TB. cbn zeta. cbn [ps_mem].
    assert (E3 : 10 :: body ws ++ 125 :: 10 :: R = (10 :: body ws ++ [125]) ++ 10 :: R) by (cbn [app]; rewrite <- app_assoc; reflexivity).
    rewrite E3, firstn_app_len. unfold R, m.
    destruct (IH fuel (mkEnt (me_keys e) (me_brushes e ++ (123 :: 10 :: body ws ++ [125]) ++ [10])) [125] false s n l' F') as [l2 X]; [cbn [List.length] in L; lia|].
    rewrite X. cbn [me_keys me_brushes]. eexists. f_equal. f_equal. f_equal. unfold block at 2. rewrite <- !app_assoc. cbn [app]. rewrite <- !app_assoc. reflexivity.
Qed.

Lemma pairs_read : forall d fuel acc bs tok q s n line, NoDup (keys (acc ++ d)) -> Forall pairok d -> Forall wordsok bs -> (List.length d + List.length bs < fuel)%nat ->
  exists line', ent_loop fuel (mkEnt acc []) (mkPS tok q (10 :: concat (map write_pair d) ++ concat (map block bs) ++ 125 :: 10 :: s) (S (List.length (concat (map write_pair d)) + (List.length (concat (map block bs)) + S n))) line)
    = E_ok (mkEnt (acc ++ d) (concat (map block bs)), mkPS [125] false (10 :: s) n line').
Proof.
  induction d as [|[k v] d IH]; intros fuel acc bs tok q s n line ND P B L.
  - cbn [map concat app List.length Nat.add] in *. rewrite app_nil_r. destruct (blocks_read bs fuel (mkEnt acc []) tok q s n line B L) as [l' X]. exists l'. exact X.
  - destruct fuel as [|fuel]; [lia|]. inversion P as [|? ? (Q1 & Q2 & N1 & N2 & T) P']; subst. cbn [fst snd] in *. cbn [map concat ent_loop]. unfold parse_token. change (f_peek PARSE_NORMAL) with false. cbn beta iota. cbn [ps_mem ps_left ps_line].
    rewrite skip_newline by apply ok_normal. set (R := concat (map write_pair d) ++ concat (map block bs) ++ 125 :: 10 :: s). set (m := (List.length (concat (map write_pair d)) + (List.length (concat (map block bs)) + S n))%nat).
    assert (E1 : (write_pair (k, v) ++ concat (map write_pair d)) ++ concat (map block bs) ++ 125 :: 10 :: s = 34 :: k ++ 34 :: 32 :: 34 :: v ++ 34 :: 10 :: R).
    { unfold write_pair at 1, R. cbn [fst snd]. cbn [app]. rewrite <- !app_assoc. cbn [app]. rewrite <- !app_assoc. reflexivity. }
    assert (E2 : (List.length (write_pair (k, v) ++ concat (map write_pair d)) + (List.length (concat (map block bs)) + S n))%nat = (List.length k + 2 + S (List.length v + 2 + S m))%nat).
    { rewrite app_length. unfold write_pair at 1, m. cbn [fst snd List.length]. rewrite !app_length. cbn [List.length]. lia. }
    rewrite E1, E2. rewrite skip_quoted_any by (try exact Q1; reflexivity). cbn [ps_token]. apply beq_neq in N1. rewrite N1. apply beq_neq in N2. rewrite N2. rewrite (trimmed_key k T).
    change (f_peek PARSE_SAMELINE) with false. cbn iota. cbn [ps_mem ps_left ps_line]. rewrite skip_space. rewrite skip_quoted_any by (try exact Q2; reflexivity). cbn [ps_token me_keys me_brushes].
    assert (NK : ~ In k (keys acc)).
    { rewrite keys_app in ND. cbn [keys map fst] in ND. apply NoDup_remove_2 in ND. intro X. apply ND. apply in_or_app. left. exact X. }
    rewrite set_new by exact NK. unfold R, m.
    destruct (IH fuel (acc ++ [(k, v)]) bs v true s n (S line)) as [l' X]; [rewrite <- app_assoc; exact ND|exact P'|exact B|cbn [List.length] in L; lia|].
    rewrite X. rewrite <- app_assoc. exists l'. reflexivity.
Qed.

Lemma block_length : forall bs, (List.length bs <= List.length (concat (map block bs)))%nat.
Proof. induction bs as [|b bs IH]; [reflexivity|]. cbn [map concat]. rewrite app_length. unfold block at 1. cbn [List.length]. lia. Qed.

Lemma load_written : forall l fuel acc tok q pre line, Forall entok l -> pre = [] \/ pre = [10] -> (List.length l < fuel)%nat ->
  load_loop fuel acc (mkPS tok q (pre ++ concat (map ent_text l)) (List.length (pre ++ concat (map ent_text l))) line) = E_ok (acc ++ l).
Proof.
  induction l as [|e l IH]; intros fuel acc tok q pre line F PRE L; (destruct fuel as [|fuel]; [lia|]).
  - cbn [map concat load_loop]. rewrite !app_nil_r. destruct PRE; subst pre; cbn; reflexivity.
  - inversion F as [|? ? (ND & P & bs & B & EB) F']; subst. cbn [map concat load_loop]. unfold parse_token. change (f_peek PARSE_NORMAL) with false. cbn beta iota. cbn [ps_mem ps_left ps_line].
    destruct e as [d br]. cbn [me_keys me_brushes] in *. subst br. set (R := concat (map ent_text l)).
    assert (E1 : ent_text (mkEnt d (concat (map block bs))) ++ R = 123 :: 10 :: concat (map write_pair d) ++ concat (map block bs) ++ 125 :: 10 :: R).
    { unfold ent_text. cbn [me_keys me_brushes]. change (mtext "{") with [123]. change (mtext "}") with [125]. cbn [app]. rewrite <- !app_assoc. cbn [app]. reflexivity. }
    rewrite E1. set (M := 10 :: concat (map write_pair d) ++ concat (map block bs) ++ 125 :: 10 :: R).
    assert (SK : exists l', skip PARSE_NORMAL false (pre ++ 123 :: M) (List.length (pre ++ 123 :: M)) line = T_ret true (mkPS [123] false M (List.length M) l')).
    { destruct PRE; subst pre; cbn [app List.length]; unfold M.
      - rewrite (skip_brace PARSE_NORMAL 123 _ _ _ ok_normal) by auto. eexists. reflexivity.
      - rewrite skip_newline by apply ok_normal. rewrite (skip_brace PARSE_NORMAL 123 _ _ _ ok_normal) by auto. eexists. reflexivity. }
    destruct SK as [l' ->]. cbn [ps_token]. change (beq [123] [123]) with true. cbn iota. cbn [ps_mem].
    assert (LM : List.length M = S (List.length (concat (map write_pair d)) + (List.length (concat (map block bs)) + S (S (List.length R))))).
    { unfold M. cbn [List.length]. rewrite !app_length. cbn [List.length]. lia. }
    rewrite LM. unfold M.
    match goal with |- context [ent_loop ?FU _ _] => destruct (pairs_read d FU [] bs [123] false R (S (List.length R)) l') as [l2 X]; [exact ND|exact P|exact B|pose proof (write_ent_length d); pose proof (block_length bs); lia|] end.
    rewrite X. cbn [app]. pose proof (IH fuel (acc ++ [mkEnt d (concat (map block bs))]) [125] false [10] l2 F' (or_intror eq_refl) ltac:(cbn [List.length] in L; lia)) as Y.
    rewrite <- app_assoc in Y. exact Y.
Qed.
Lemma ent_text_length : forall l, (List.length l <= List.length (concat (map ent_text l)))%nat.
Proof. induction l as [|e l IH]; [reflexivity|]. cbn [map concat]. rewrite app_length. unfold ent_text at 1. rewrite !app_length. cbn [List.length]. lia. Qed.
Lemma load_ent_text : forall l, Forall entok l -> load (concat (map ent_text l)) = E_ok l.
Proof. intros l F. unfold load, new_parser. apply (load_written l _ [] [] false [] 1%nat F); [left; reflexivity|]. pose proof (ent_text_length l). lia. Qed.
