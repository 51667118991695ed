(* C16-C21, C60-C62: common/parser.cc and common/entdata.cc. *)
From Coq Require Import List Arith NArith Bool Lia.
Import ListNotations.
From Verif Require Import Base ParserModel ParserProofs EntModel EntProofs.
Local Open Scope N_scope.

(** C16. In NUL-terminated text (the terminator after [t], the nominal end not beyond it) a
    call with any flags never reads past the terminator; it throws or leaves the position
    inside the text. *)
Theorem C16_tokenizer_in_bounds : forall f p t r,
  ps_mem p = t ++ 0 :: r -> (ps_left p <= length t)%nat ->
  parse_token f p = T_error \/
  exists b q u v, parse_token f p = T_ret b q /\ t = u ++ v /\ ps_mem q = v ++ 0 :: r /\
    (ps_left q <= length v)%nat /\ (b = true -> f_peek f = false -> u <> []).
Proof.
  intros f p t r M L. destruct (f_peek f) eqn:P.
  - rewrite (peek_spec f p P).
    destruct (parse_token_cases (N.ldiff f PARSE_PEEK) p t r (conj M L) (proj2 (proj2 (proj2 (f_bits_ldiff f)))))
      as [H|[b [q [u [v [H _]]]]]].
    + rewrite H. auto.
    + right. rewrite H. exists b, (mkPS (ps_token q) (ps_quoted q) (ps_mem p) (ps_left p) (ps_line p)), [], t.
      simpl. split; [reflexivity|]. split; [reflexivity|]. split; [exact M|]. split; [exact L|]. discriminate.
  - destruct (parse_token_cases f p t r (conj M L) P) as [H|[b [q [u [v [H [E [[M2 L2] U]]]]]]]]; [auto|].
    right. exists b, q, u, v. auto 8.
Qed.
Print Assumptions C16_tokenizer_in_bounds.

(** C16. There are at most as many tokens as characters, so any loop that reads tokens until
    none is left stops. *)
Theorem C16_tokenizer_progress : forall p k s t r,
  ps_mem p = t ++ 0 :: r -> (ps_left p <= length t)%nat -> tokens_run p k s -> (k <= length t)%nat.
Proof.
  intros p k s t r M L R. destruct (tokens_run_bound p k s R t r (conj M L)) as [u [v [E [_ K]]]].
  subst t. rewrite app_length. lia.
Qed.
Print Assumptions C16_tokenizer_progress.

(** C16. A plain call returns no token only at the end of the text or at a NUL, after
    consuming blanks and comments. *)
Theorem C16_false_only_at_end : forall p t r q,
  ps_mem p = t ++ 0 :: r -> (ps_left p <= length t)%nat ->
  parse_token PARSE_NORMAL p = T_ret false q -> ps_left q = O \/ hd 0 (ps_mem q) = 0.
Proof.
  intros p t r q M L H. destruct (parse_token_ok PARSE_NORMAL p t r (conj M L) eq_refl) as [X|[b [q' [u [v [X [E [M2 [L2 S]]]]]]]]];
    rewrite X in H; [discriminate|]. injection H as H1 H2. subst b q'.
  destruct S as [_ [_ [g [_ [_ [[_ S]|[[_ S]|[[c [_ [_ S]]]|[[_ [S _]]|[_ S]]]]]]]]]].
  - auto.
  - rewrite M2. auto.
  - rewrite M2. auto.
  - discriminate.
  - discriminate.
Qed.
Print Assumptions C16_false_only_at_end.

(* " ab //x" newline "cd": two tokens, then none; with PARSE_OPTIONAL none on the line. *)
Example C16_nontrivial :
  let m := [32; 97; 98; 32; 47; 47; 120; 10; 99; 100]%N ++ [0] in
  let p0 := new_parser m 10 in
  exists p1 p2, parse_token PARSE_NORMAL p0 = T_ret true p1 /\ ps_token p1 = [97; 98] /\
    parse_token PARSE_NORMAL p1 = T_ret true p2 /\ ps_token p2 = [99; 100] /\ ps_line p2 = 2%nat /\
    (exists p3, parse_token PARSE_NORMAL p2 = T_ret false p3) /\
    (exists p3, parse_token PARSE_OPTIONAL p1 = T_ret false p3) /\
    parse_token PARSE_SAMELINE p1 = T_error /\
    parse_token PARSE_NORMAL (new_parser ([34; 97] ++ [0]) 2) = T_error.
Proof.
  eexists. eexists. cbn zeta. split; [vm_compute; reflexivity|]. split; [reflexivity|].
  split; [vm_compute; reflexivity|]. split; [reflexivity|]. split; [reflexivity|].
  split; [eexists; vm_compute; reflexivity|]. split; [eexists; vm_compute; reflexivity|].
  split; vm_compute; reflexivity.
Qed.

(** C17. PEEK changes neither position, end nor line number, and reports exactly the result,
    token and quoting of the call without PEEK. *)
Theorem C17_peek : forall f p b q, f_peek f = true -> parse_token f p = T_ret b q ->
  ps_mem q = ps_mem p /\ ps_left q = ps_left p /\ ps_line q = ps_line p /\
  exists q', parse_token (N.ldiff f PARSE_PEEK) p = T_ret b q' /\
    ps_token q' = ps_token q /\ ps_quoted q' = ps_quoted q.
Proof.
  intros f p b q P H. rewrite (peek_spec f p P) in H.
  destruct (parse_token (N.ldiff f PARSE_PEEK) p) as [b' q'| |]; try discriminate.
  injection H as H1 H2. subst b' q. simpl. repeat split; auto. exists q'. auto.
Qed.
Print Assumptions C17_peek.

(** C17. What an ordinary call returns does not depend on earlier peeks. *)
Theorem C17_peek_then_parse : forall f g p b q, f_peek f = true -> parse_token f p = T_ret b q ->
  parse_token g q = parse_token g p.
Proof.
  intros f g p b q P H. destruct (C17_peek f p b q P H) as [A [B [C _]]].
  unfold parse_token. rewrite A, B, C. destruct (f_peek g); reflexivity.
Qed.
Print Assumptions C17_peek_then_parse.

(** C17, for the command line's token list. *)
Theorem C17_peek_command_line : forall f p b q, f_peek f = true -> tparse_token f p = (b, q) ->
  ts_tokens q = ts_tokens p /\ ts_cur q = ts_cur p /\
  exists q', tparse_token (N.ldiff f PARSE_PEEK) p = (b, q') /\
    ts_token q' = ts_token q /\ ts_quoted q' = ts_quoted q.
Proof.
  intros f p b q P H. unfold tparse_token in *. rewrite P in H.
  replace (f_peek (N.ldiff f PARSE_PEEK)) with false by (symmetry; apply f_bits_ldiff).
  destruct (nth_error (ts_tokens p) (ts_cur p)); injection H as H1 H2; subst; simpl; eauto 6.
Qed.
Print Assumptions C17_peek_command_line.

Example C17_nontrivial :
  let p := new_parser ([10; 34; 97; 34] ++ [0]) 4 in
  exists q q', parse_token PARSE_PEEK p = T_ret true q /\ ps_token q = [97] /\ ps_quoted q = true /\
    ps_mem q = ps_mem p /\ parse_token PARSE_NORMAL q = T_ret true q' /\ ps_token q' = [97] /\ ps_line q' = 2%nat.
Proof. eexists. eexists. cbn zeta. repeat split; vm_compute; reflexivity. Qed.

(** C18. Entities with distinct non-blank-edged keys round-trip through text, for every list
    of entities whose strings hold no quote and no NUL, whose keys do not end in a backslash,
    and that do not contain the bare string [}]. Newlines and backslashes in values are fine. *)
Definition plain_ent (d : entdict) : Prop :=
  NoDup (map fst d) /\
  Forall (fun kv =>
    ~ In 34 (fst kv) /\ ~ In 0 (fst kv) /\ ~ In 34 (snd kv) /\ ~ In 0 (snd kv) /\
    fst kv <> [125] /\ snd kv <> [125] /\ fst kv <> [] /\
    isspace (hd 0 (fst kv)) = false /\ isspace (last (fst kv) 0) = false /\ last (fst kv) 0 <> 92) d.

Theorem C18_entity_text_roundtrip : forall ds, Forall plain_ent ds -> ents_parse (ents_write ds) = E_ok ds.
Proof.
  intros ds F. apply ents_roundtrip. revert F. apply Forall_impl. intros d [ND F]. split; [exact ND|].
  revert F. apply Forall_impl. intros [k v] [A [B [C [D [E [G [H [I [J K]]]]]]]]]. cbn [fst snd] in *.
  split.
  - split; [|split; [|split]]; cbn [fst snd]; auto.
    + apply (quotable_plain (length k)); auto.
    + apply (quotable_plain (length v)); auto.
  - destruct k as [|c k]; [contradiction|]. exists c, k. auto.
Qed.
Print Assumptions C18_entity_text_roundtrip.

(** C18, with escapes: the strings may also contain escaped quotes and backslash pairs. *)
Theorem C18_entity_text_roundtrip_escapes : forall ds, Forall usable_ent ds ->
  ents_parse (ents_write ds) = E_ok ds.
Proof. exact ents_roundtrip. Qed.
Print Assumptions C18_entity_text_roundtrip_escapes.

Example C18_nontrivial :
  let d1 := [([99; 108; 97; 115; 115], [97; 32; 92; 110; 98]); ([107; 10; 107], [])]%N in
  let d2 := [([119], [99; 58; 92]); ([109], [115; 92; 34; 113; 92; 34])]%N in
  plain_ent d1 /\ usable_ent d2 /\ ents_parse (ents_write [d1; []; d2]) = E_ok [d1; []; d2] /\
  ents_parse (ents_write [[([97; 92], [98])]]) = E_UB.
Proof.
  cbn zeta. split; [|split; [|split; vm_compute; reflexivity]].
  - split; [repeat constructor; simpl; intuition discriminate|].
    repeat constructor; simpl; intuition discriminate.
  - split; [repeat constructor; simpl; intuition discriminate|].
    constructor; [|constructor; [|constructor]]; (split; [repeat split; discriminate|]);
      eexists; eexists; split; [reflexivity|split; reflexivity|reflexivity|split; reflexivity].
Qed.

(** C19. After any history of sets and removals the dictionary has no duplicate key, its keys
    are in order of insertion, and has/get answer what the last operation on the key says. *)
Theorem C19_ordered_map : forall ops,
  NoDup (map fst (ed_run ops)) /\ map fst (ed_run ops) = spec_keys ops [] /\
  (forall k, ed_has k (ed_run ops) = match spec_get ops k None with Some _ => true | None => false end) /\
  (forall k, ed_get k (ed_run ops) = match spec_get ops k None with Some v => v | None => [] end).
Proof. exact ed_history. Qed.
Print Assumptions C19_ordered_map.

Example C19_nontrivial :
  let d := ed_run [Ed_set [1] [2]; Ed_set [3] [4]; Ed_set [1] [5]; Ed_remove [3]; Ed_set [3] [6]; Ed_set [7] []]%N in
  d = [([1], [5]); ([3], [6]); ([7], [])]%N /\ ed_has [7] d = true /\ ed_get [8] d = [].
Proof. repeat split; vm_compute; reflexivity. Qed.

(** C20. Renaming to a free key (or to itself) moves the value and disturbs nothing else. *)
Theorem C20_rename_partial : forall from to d w, NoDup (map fst d) -> ed_has from d = true ->
  ed_get from d = w -> (to = from \/ ed_has to d = false) ->
  let d' := ed_rename from to d in
  NoDup (map fst d') /\ ed_has to d' = true /\ ed_get to d' = w /\ (to <> from -> ed_has from d' = false) /\
  (forall k, k <> from -> k <> to -> ed_has k d' = ed_has k d /\ ed_get k d' = ed_get k d).
Proof.
  intros from to d w ND H G T d'. subst d'. rewrite has_assoc in H. rewrite get_assoc in G.
  destruct (assoc from d) as [x|] eqn:A; [|discriminate]. subst x.
  destruct (rename_spec from to d w ND A) as [S1 [S2 [S3 [S4 _]]]].
  { destruct T as [T|T]; [auto|]. right. rewrite has_assoc in T. apply assoc_none. destruct (assoc to d); [discriminate|reflexivity]. }
  split; [exact S1|]. rewrite !has_assoc, get_assoc, S2. split; [reflexivity|]. split; [reflexivity|]. split.
  - intro NE. rewrite (S3 NE). reflexivity.
  - intros k K1 K2. rewrite !has_assoc, !get_assoc, (S4 k K1 K2). auto.
Qed.
Print Assumptions C20_rename_partial.

(** C20 as stated is false: renaming onto an existing key keeps the old value and leaves a
    duplicate key. *)
Theorem C20_rename_onto_existing_refuted : exists from to d,
  NoDup (map fst d) /\ ed_has from d = true /\ ed_get to (ed_rename from to d) <> ed_get from d /\
  ~ NoDup (map fst (ed_rename from to d)).
Proof.
  exists [97], [98], [([97], [1]); ([98], [2])]%N. split; [|split; [|split]].
  - repeat constructor; simpl; intuition discriminate.
  - reflexivity.
  - vm_compute. discriminate.
  - vm_compute. intro H. inversion H as [|x l N _]. apply N. left. reflexivity.
Qed.
Print Assumptions C20_rename_onto_existing_refuted.

Example C20_nontrivial :
  ed_rename [97] [99] [([97], [1]); ([98], [2])]%N = [([98], [2]); ([99], [1])]%N.
Proof. reflexivity. Qed.

(** C21. Leading blanks of a key are dropped. *)
Theorem C21_leading_blanks_partial : forall sp k v,
  Forall (fun c => isspace c = true) sp -> trimmed k -> quotable 32 (sp ++ k) = true -> quotable 10 v = true ->
  sp ++ k <> [125] -> v <> [125] ->
  ents_parse (ents_write [[(sp ++ k, v)]]) = E_ok [[(k, v)]].
Proof.
  intros sp k v S T Q1 Q2 N1 N2. rewrite parse_one_pair by (split; [|split; [|split]]; assumption).
  rewrite (trim_leading sp k S T). reflexivity.
Qed.
Print Assumptions C21_leading_blanks_partial.

(** C21 as stated is false: a key that is empty or ends in a blank is never trimmed; the loop
    of entdata.cc:175-177 erases from the front until the string is empty and then reads
    before its first character. *)
Theorem C21_trailing_blank_refuted : forall k v,
  quotable 32 k = true -> quotable 10 v = true -> k <> [125] -> v <> [125] ->
  k = [] \/ isspace (last k 0) = true ->
  ents_parse (ents_write [[(k, v)]]) = E_UB.
Proof.
  intros k v Q1 Q2 N1 N2 H. rewrite parse_one_pair by (split; [|split; [|split]]; assumption).
  rewrite (trim_trailing_ub k H). reflexivity.
Qed.
Print Assumptions C21_trailing_blank_refuted.

Example C21_nontrivial :
  ents_parse (ents_write [[([32; 9; 97], [98])]]%N) = E_ok [[([97], [98])]]%N /\
  ents_parse (ents_write [[([97; 32], [98])]]%N) = E_UB /\
  ents_parse (ents_write [[([], [98])]]%N) = E_UB.
Proof. repeat split; vm_compute; reflexivity. Qed.

(** C60. A file image without a terminator that ends in a newline: a call reads outside the
    image only where the terminated text would be rejected with an error (unclosed quote);
    otherwise both agree. *)
Theorem C60_newline_terminated_file_partial : forall f s n line, (n <= length (s ++ [10%N]))%nat ->
  skip f false ((s ++ [10]) ++ [0]) n line =
  match skip f false (s ++ [10]) n line with
  | T_UB => T_error
  | T_error => T_error
  | T_ret b q => T_ret b (mkPS (ps_token q) (ps_quoted q) (ps_mem q ++ [0]) (ps_left q) (ps_line q))
  end.
Proof. intros f s n line H. rewrite (proj1 (skip_nl f s) n line H). destruct (skip f false (s ++ [10]) n line); reflexivity. Qed.
Print Assumptions C60_newline_terminated_file_partial.

(** C60 is false as stated: a file whose last byte is a brace, and one with an unclosed quote,
    are read beyond their end. *)
Theorem C60_unterminated_file_refuted :
  parse_token PARSE_NORMAL (new_parser [125] 1) = T_UB /\
  parse_token PARSE_NORMAL (new_parser [34; 97; 10] 3) = T_UB /\
  parse_token PARSE_NORMAL (new_parser [59; 97] 2) = T_UB.
Proof. repeat split; vm_compute; reflexivity. Qed.
Print Assumptions C60_unterminated_file_refuted.

(** C61. A token is a verbatim piece of the text: what is between the quotes, a maximal run of
    non-blanks, or (on request) a comment; only blanks and comments are skipped before it and
    the line number grows by the newlines skipped. *)
Theorem C61_token_is_verbatim_partial : forall f p t r q,
  ps_mem p = t ++ 0 :: r -> (ps_left p <= length t)%nat -> f_peek f = false ->
  parse_token f p = T_ret true q ->
  exists u v, t = u ++ v /\ ps_mem q = v ++ 0 :: r /\
    token_text f u (ps_token q) (ps_quoted q) (hd 0 (v ++ 0 :: r)) (ps_line p) (ps_line q).
Proof.
  intros f p t r q M L P H. destruct (parse_token_ok f p t r (conj M L) P) as [X|[b [q' [u [v [X [E [M2 [L2 S]]]]]]]]];
    rewrite X in H; [discriminate|]. injection H as H1 H2. subst b q'. exists u, v. auto.
Qed.
Print Assumptions C61_token_is_verbatim_partial.

(** C61: the line number does not count newlines inside a quoted token, and a byte from 128
    on separates unquoted tokens. *)
Theorem C61_line_numbers_refuted : exists m p1 p2,
  parse_token PARSE_NORMAL (new_parser (m ++ [0]) (length m)) = T_ret true p1 /\
  parse_token PARSE_NORMAL p1 = T_ret true p2 /\
  newlines m = 1%nat /\ ps_mem p2 = [0] /\ ps_line p2 = 1%nat.
Proof.
  exists [34; 10; 34; 97]%N. eexists. eexists. split; [vm_compute; reflexivity|].
  split; [vm_compute; reflexivity|]. repeat split.
Qed.
Print Assumptions C61_line_numbers_refuted.

Example C61_nontrivial :
  let m := [32; 10; 59; 120; 10; 34; 92; 34; 113; 34; 44] in
  exists q, parse_token PARSE_NORMAL (new_parser (m ++ [0]) 11) = T_ret true q /\
    ps_token q = [92; 34; 113]%N /\ ps_line q = 3%nat /\ ps_mem q = [44; 0]%N /\
  (exists q1, parse_token PARSE_NORMAL (new_parser [97; 195; 98; 0]%N 3) = T_ret true q1 /\ ps_token q1 = [97]).
Proof.
  eexists. cbn zeta. split; [vm_compute; reflexivity|]. split; [reflexivity|]. split; [reflexivity|].
  split; [reflexivity|]. eexists. split; vm_compute; reflexivity.
Qed.

(** C62. Parsing entities from any string terminates. *)
Theorem C62_entity_parser_terminates : forall text, ents_parse text <> E_fuel.
Proof. exact ents_parse_total. Qed.
Print Assumptions C62_entity_parser_terminates.

Example C62_nontrivial :
  ents_parse [123; 32; 97; 32; 98; 32; 125; 123; 10; 125]%N = E_error /\
  ents_parse [123; 32; 97; 32; 98; 32; 125; 10; 123; 10; 125]%N = E_ok [[([97], [98])]; []]%N /\
  ents_parse [123; 32; 97; 32; 125]%N = E_error.
Proof. repeat split; vm_compute; reflexivity. Qed.
