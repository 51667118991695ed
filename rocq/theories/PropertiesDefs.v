(* C155: files of texture and entity definitions. *)
From Coq Require Import String Ascii List Arith NArith ZArith Bool Lia.
Import ListNotations.
From Verif Require Import Base ParserModel ParserProofs EntModel EntProofs SettingsModel MapFileModel MapFileProofs DefsModel.
Local Open Scope N_scope.

(** ** What is between definitions: empty lines and comments *)
Inductive filler := Empty | Comment (c : bytes).
Definition filler_text (b : filler) : bytes := match b with Empty => [10] | Comment c => 47 :: 47 :: c ++ [10] end.
Definition good_filler (b : filler) : Prop := match b with Empty => True | Comment c => ~ In 10 c /\ ~ In 0 c end.
Definition fillers (l : list filler) : bytes := concat (map filler_text l).

Lemma fillers_gap : forall f l, ok_flags f -> Forall good_filler l -> gap f (fillers l).
Proof.
  intros f l O F. unfold fillers. induction F as [|b l G F IH]; [apply gap_nil|]. cbn [map concat]. apply gap_app; [|exact IH].
  destruct b as [|c]; cbn [filler_text]; [apply gap_newline; exact O|]. destruct G as (A & B). apply gap_comment; assumption.
Qed.

(** The parser stands before the text [s], which is the rest of the memory. *)
Definition here (s : bytes) (p : pstate) : Prop := ps_mem p = s /\ ps_left p = List.length s.
Lemma here_word : forall f g w c r p, plain f -> gap f g -> word w -> blank c = true -> here (g ++ w ++ c :: r) p ->
  exists p2, dtok f p = D_ok (true, p2) /\ here (c :: r) p2 /\ ps_token p2 = w.
Proof.
  intros f g w c r p (FC & FP) G W B (M & L). unfold dtok, parse_token. rewrite FP, M, L, app_length.
  destruct (G (w ++ c :: r) (List.length (w ++ c :: r)) (ps_line p)) as (l2 & E). rewrite E. clear E.
  destruct (word_char w c r W B) as (x & w2 & -> & X & Q & CM). destruct W as (_ & F & _).
  cbn [app List.length skip]. rewrite X, CM. unfold copy_token. rewrite FC, Q.
  change (x :: w2 ++ c :: r) with ((x :: w2) ++ c :: r). rewrite take_word_word by assumption. cbn [app List.length]. rewrite app_length. cbn [List.length].
  eexists. split; [reflexivity|]. split; [split; [reflexivity|cbn [ps_left List.length]; lia]|reflexivity].
Qed.
Lemma here_peek : forall g w c r p, gap PARSE_PEEK g -> word w -> blank c = true -> here (g ++ w ++ c :: r) p ->
  exists p2, dtok PARSE_PEEK p = D_ok (true, p2) /\ here (g ++ w ++ c :: r) p2 /\ ps_token p2 = w.
Proof.
  intros g w c r p G W B (M & L). unfold dtok, parse_token. change (f_peek PARSE_PEEK) with true. cbn beta iota. rewrite M, L, app_length.
  destruct (G (w ++ c :: r) (List.length (w ++ c :: r)) (ps_line p)) as (l2 & E). rewrite E. clear E.
  destruct (word_char w c r W B) as (x & w2 & -> & X & Q & CM). destruct W as (_ & F & _).
  cbn [app List.length skip]. rewrite X, CM. unfold copy_token. change (f_comment PARSE_PEEK) with false. cbn beta iota. rewrite Q.
  change (x :: w2 ++ c :: r) with ((x :: w2) ++ c :: r). rewrite take_word_word by assumption.
  eexists. split; [reflexivity|]. split; [split; [reflexivity|cbn [ps_left]; rewrite (app_length g); reflexivity]|reflexivity].
Qed.
Lemma here_eol : forall r p, here (10 :: r) p -> exists p2, dtok SAMELINE_OPTIONAL p = D_ok (false, p2) /\ here (10 :: r) p2.
Proof. intros r p (M & L). unfold dtok, parse_token. rewrite M, L. eexists. split; [reflexivity|]. split; reflexivity. Qed.
Lemma here_end : forall g p, gap PARSE_NORMAL g -> here g p -> exists p2, dtok PARSE_NORMAL p = D_ok (false, p2).
Proof.
  intros g p G (M & L). unfold dtok, parse_token. rewrite M, L. change (f_peek PARSE_NORMAL) with false. cbn beta iota.
  destruct (G [] O (ps_line p)) as (l2 & E). rewrite app_nil_r, Nat.add_0_r in E. rewrite E. eexists. reflexivity.
Qed.
Lemma here_next : forall f w ws r p, plain f -> word w -> here (lead (w :: ws) ++ 10 :: r) p ->
  exists p2, dtok f p = D_ok (true, p2) /\ here (lead ws ++ 10 :: r) p2 /\ ps_token p2 = w.
Proof.
  intros f w ws r p P W A. destruct (lead_end ws r) as (c & s & E & B). unfold lead in *. cbn [map concat app] in A. rewrite <- app_assoc in A. rewrite E in *.
  apply (here_word f [32]); auto. apply gap_space.
Qed.

(** ** Texture definitions *)
(** A line: what is before it, the names, and up to three numbers; what it means. *)
Record tline := mkL { l_before : list filler; l_from : bytes; l_to : bytes; l_nums : list bytes }.
Definition tline_text (l : tline) : bytes := fillers (l_before l) ++ l_from l ++ lead (l_to l :: l_nums l) ++ [10].
Definition nums_mean (ws : list bytes) (i : option tinfo) : Prop :=
  match ws with
  | [] => i = None
  | [c] => exists zc, stou32 c = Some zc /\ i = Some (mkTI zc 0 0)
  | [c; f] => exists zc zf, stou32 c = Some zc /\ stoi f = Some zf /\ i = Some (mkTI zc zf 0)
  | [c; f; v] => exists zc zf zv, stou32 c = Some zc /\ stoi f = Some zf /\ stoi v = Some zv /\ i = Some (mkTI zc zf zv)
  | _ => False
  end.
Definition tline_means (l : tline) (d : bytes * (bytes * option tinfo)) : Prop :=
  Forall good_filler (l_before l) /\ word (l_from l) /\ word (l_to l) /\ Forall word (l_nums l) /\
  fst d = l_from l /\ fst (snd d) = l_to l /\ nums_mean (l_nums l) (snd (snd d)).

Lemma space_blank : forall c, isspace c = true -> blank c = true.
Proof.
  intros c. unfold isspace, blank. rewrite !orb_true_iff, andb_true_iff, !N.leb_le, N.eqb_eq. intros [[A B]|A]; left; lia.
Qed.
Lemma trim_word : forall w, word w -> trim_to w = Some w.
Proof.
  intros w (NE & F & _). unfold trim_to. destruct (rev w) as [|c r] eqn:R.
  - exfalso. apply NE. rewrite <- (rev_involutive w), R. reflexivity.
  - cbn [trim_rev]. destruct (isspace c) eqn:S.
    + apply space_blank in S. assert (I : In c w) by (apply in_rev; rewrite R; left; reflexivity). rewrite Forall_forall in F. rewrite (F c I) in S. discriminate S.
    + cbn [option_map]. rewrite <- R, rev_involutive. reflexivity.
Qed.
Lemma opt_int_some : forall d w z ws r p, word w -> stoi w = Some z -> here (lead (w :: ws) ++ 10 :: r) p ->
  exists p2, opt_int d p = D_ok (z, p2) /\ here (lead ws ++ 10 :: r) p2.
Proof.
  intros d w z ws r p W S H. destruct (here_next SAMELINE_OPTIONAL w ws r p ltac:(split; reflexivity) W H) as (p2 & E & A & T).
  exists p2. unfold opt_int. rewrite E. cbn [dbind]. rewrite T, S. split; [reflexivity|exact A].
Qed.
Lemma opt_int_none : forall d r p, here (10 :: r) p -> exists p2, opt_int d p = D_ok (d, p2) /\ here (10 :: r) p2.
Proof. intros d r p H. destruct (here_eol r p H) as (p2 & E & A). exists p2. unfold opt_int. rewrite E. split; [reflexivity|exact A]. Qed.

Lemma texture_line_at : forall to ws i r p, word to -> Forall word ws -> nums_mean ws i -> here (lead (to :: ws) ++ 10 :: r) p ->
  exists p2, texture_line p = D_ok (Some (to, i), p2) /\ here (10 :: r) p2.
Proof.
  intros to ws i r p W F M H. destruct (here_next PARSE_SAMELINE to ws r p ltac:(split; reflexivity) W H) as (p1 & E1 & A1 & T1).
  unfold texture_line. rewrite E1. cbn [dbind negb]. rewrite T1, (trim_word to W).
  destruct ws as [|c ws].
  - cbn [nums_mean] in M. subst i. cbn in A1. destruct (here_eol r p1 A1) as (p2 & E2 & A2). rewrite E2. cbn [dbind negb]. exists p2. split; [reflexivity|exact A2].
  - inversion F as [|? ? Wc F2]. subst. destruct (here_next SAMELINE_OPTIONAL c ws r p1 ltac:(split; reflexivity) Wc A1) as (p2 & E2 & A2 & T2).
    rewrite E2. cbn [dbind negb]. rewrite T2. destruct ws as [|f ws].
    + destruct M as (zc & C & ->). rewrite C. destruct (opt_int_none 0 r p2 A2) as (p3 & E3 & A3). rewrite E3. cbn [dbind].
      destruct (opt_int_none 0 r p3 A3) as (p4 & E4 & A4). rewrite E4. exists p4. split; [reflexivity|exact A4].
    + inversion F2 as [|? ? Wf F3]. subst. destruct ws as [|v ws].
      * destruct M as (zc & zf & C & Cf & ->). rewrite C. destruct (opt_int_some 0 f zf [] r p2 Wf Cf A2) as (p3 & E3 & A3). rewrite E3. cbn [dbind].
        destruct (opt_int_none 0 r p3 A3) as (p4 & E4 & A4). rewrite E4. exists p4. split; [reflexivity|exact A4].
      * destruct ws as [|? ws]; [|destruct M]. inversion F3 as [|? ? Wv _]. subst. destruct M as (zc & zf & zv & C & Cf & Cv & ->). rewrite C.
        destruct (opt_int_some 0 f zf [v] r p2 Wf Cf A2) as (p3 & E3 & A3). rewrite E3. cbn [dbind].
        destruct (opt_int_some 0 v zv [] r p3 Wv Cv A3) as (p4 & E4 & A4). rewrite E4. exists p4. split; [reflexivity|exact A4].
Qed.

Lemma texture_loop_at : forall ls ds fin, Forall2 tline_means ls ds -> Forall good_filler fin ->
  forall fuel m pre p, (List.length ls < fuel)%nat -> pre = [] \/ pre = [10] -> here (pre ++ concat (map tline_text ls) ++ fillers fin) p ->
  texture_loop fuel m p = D_ok (rev ds ++ m).
Proof.
  intros ls ds fin F FF. induction F as [|l d ls ds ML F IH]; intros fuel m pre p L P H; (destruct fuel as [|fuel]; [cbn in L; lia|]); cbn [texture_loop].
  - cbn [map concat app] in H. assert (G : gap PARSE_NORMAL (pre ++ fillers fin)).
    { apply gap_app; [destruct P as [->| ->]; [apply gap_nil|apply gap_newline; apply ok_normal]|apply fillers_gap; [apply ok_normal|exact FF]]. }
    destruct (here_end _ p G H) as (p2 & E). rewrite E. reflexivity.
  - destruct ML as (GF & W1 & W2 & W3 & D1 & D2 & D3). destruct d as [from [to i]]. cbn [fst snd] in D1, D2, D3. subst from to.
    cbn [map concat] in H. unfold tline_text at 1 in H. rewrite <- !app_assoc in H.
    assert (G : gap PARSE_NORMAL (pre ++ fillers (l_before l))).
    { apply gap_app; [destruct P as [->| ->]; [apply gap_nil|apply gap_newline; apply ok_normal]|apply fillers_gap; [apply ok_normal|exact GF]]. }
    rewrite app_assoc in H. set (R := concat (map tline_text ls) ++ fillers fin) in *. change ([10] ++ R) with (10 :: R) in H.
    destruct (lead_end (l_to l :: l_nums l) R) as (c & s & E & B).
    assert (H0 := H). rewrite E in H0. destruct (here_word PARSE_NORMAL _ _ c s p ltac:(split; reflexivity) G W1 B H0) as (p1 & E1 & A1 & T1).
    rewrite E1. cbn [dbind negb orb]. assert (NZ : Nat.eqb (ps_left p1) 0 = false) by (destruct A1 as (_ & ->); reflexivity). rewrite NZ.
    rewrite <- E in A1. destruct (texture_line_at _ _ _ R p1 W2 W3 D3 A1) as (p2 & E2 & A2). rewrite E2. cbn [dbind]. rewrite T1.
    rewrite (IH fuel ((l_from l, (l_to l, i)) :: m) [10] p2); [|cbn in L; lia|right; reflexivity|exact A2].
    cbn [rev]. rewrite <- app_assoc. reflexivity.
Qed.

(** What is known of a name after reading definitions: the last one, else what was known before. *)
Definition latest {A} (name : bytes) (before : option A) (ds : list (bytes * A)) : option A :=
  fold_left (fun acc d => if list_eq_dec N.eq_dec (fst d) name then Some (snd d) else acc) ds before.
Lemma lookup_app : forall {A} name (a b : list (bytes * A)), lookup name (a ++ b) = match lookup name a with Some x => Some x | None => lookup name b end.
Proof. intros A name a b. induction a as [|[k x] a IH]; cbn [lookup app]; [reflexivity|]. destruct (beq k name); [reflexivity|exact IH]. Qed.
Lemma lookup_latest : forall {A} name (ds m : list (bytes * A)), lookup name (rev ds ++ m) = latest name (lookup name m) ds.
Proof.
  intros A name ds. unfold latest. induction ds as [|[k x] ds IH]; intros m; [reflexivity|]. cbn [rev fold_left fst snd]. rewrite <- app_assoc. cbn [app]. rewrite IH. cbn [lookup].
  destruct (list_eq_dec N.eq_dec k name) as [->|N]; [rewrite beq_refl; reflexivity|]. apply beq_neq in N. rewrite N. reflexivity.
Qed.

(** Every file of definitions, comments and empty lines is read as written. *)
Theorem C155_textures_partial : forall ls ds fin m, Forall2 tline_means ls ds -> Forall good_filler fin ->
  exists m2, load_texture_def m (concat (map tline_text ls) ++ fillers fin) = D_ok m2 /\ forall name, lookup name m2 = latest name (lookup name m) ds.
Proof.
  intros ls ds fin m F FF. exists (rev ds ++ m). split; [|intros name; apply lookup_latest]. unfold load_texture_def.
  apply (texture_loop_at ls ds fin F FF) with (pre := []); [|left; reflexivity|split; reflexivity].
  rewrite app_length. assert (LL : (List.length ls <= List.length (concat (map tline_text ls)))%nat).
  { clear F. induction ls as [|l ls IH]; [cbn; lia|]. cbn [map concat List.length]. rewrite app_length. unfold tline_text at 1. rewrite !app_length. cbn [List.length]. specialize (IH). lia. }
  lia.
Qed.
Print Assumptions C155_textures_partial.

(** ** Entity definitions *)
Record eline := mkE { e_before : list filler; e_class : bytes; e_dict : entdict }.
Definition eline_text (l : eline) : bytes := fillers (e_before l) ++ e_class l ++ [10] ++ write_ent (e_dict l).
Definition good_eline (l : eline) : Prop := Forall good_filler (e_before l) /\ word (e_class l) /\ usable_ent (e_dict l).
Lemma pair_step : forall fuel acc tok q k v rest line,
  usable_pair (k, v) -> trimmed k ->
  parse_pairs (S fuel) acc (mkPS tok q (10 :: write_pair (k, v) ++ rest) (1 + List.length (write_pair (k, v) ++ rest)) line) =
  parse_pairs fuel (ed_set k v acc) (mkPS v true (10 :: rest) (1 + List.length rest) (S line)).
Proof.
  intros fuel acc tok q k v rest line [Q1 [Q2 [N1 N2]]] TR. cbn [fst snd] in *.
  cbn [parse_pairs]. unfold parse_token. change (f_peek PARSE_NORMAL) with false. cbn beta iota.
  cbn [ps_mem ps_left ps_line].
  assert (W : write_pair (k, v) ++ rest = 34 :: k ++ 34 :: 32 :: 34 :: v ++ 34 :: 10 :: rest).
  { unfold write_pair. cbn [fst snd app]. rewrite <- !app_assoc. cbn [app]. rewrite <- !app_assoc. reflexivity. }
  assert (WL : List.length (write_pair (k, v) ++ rest) = (List.length k + List.length v + 6 + List.length rest)%nat).
  { unfold write_pair. cbn [fst snd]. rewrite app_length. cbn [List.length]. rewrite !app_length. simpl. lia. }
  rewrite WL, W. change (1 + (List.length k + List.length v + 6 + List.length rest))%nat with (S (List.length k + List.length v + 6 + List.length rest)).
  rewrite skip_newline by apply ok_normal.
  rewrite skip_quoted by (auto using ok_normal; lia). cbn [ps_token ps_mem ps_left ps_line].
  apply beq_neq in N1. rewrite N1.
  replace (List.length k + List.length v + 6 + List.length rest - (List.length k + 2))%nat with (S (List.length v + 3 + List.length rest)) by lia.
  rewrite EntProofs.skip_space. rewrite skip_quoted by (auto using ok_normal; lia). cbn [ps_token ps_mem ps_left ps_line].
  apply beq_neq in N2. rewrite N2, (trim_id k TR).
  replace (List.length v + 3 + List.length rest - (List.length v + 2))%nat with (1 + List.length rest)%nat by lia. reflexivity.
Qed.
Lemma pairs_written : forall d fuel acc tok q rest line,
  NoDup (keys (acc ++ d)) -> Forall (fun kv => usable_pair kv /\ trimmed (fst kv)) d -> (List.length d < fuel)%nat ->
  exists line2, parse_pairs fuel acc (mkPS tok q (10 :: concat (map write_pair d) ++ 125 :: 10 :: rest) (1 + List.length (concat (map write_pair d) ++ 125%N :: 10%N :: rest)) line) =
  E_ok (acc ++ d, mkPS [125] false (10 :: rest) (1 + List.length rest) line2).
Proof.
  induction d as [|[k v] d IH]; intros fuel acc tok q rest line ND F L; (destruct fuel as [|fuel]; [cbn in L; lia|]).
  - exists (S line). rewrite app_nil_r. reflexivity.
  - inversion F as [|x l [U T] F2]. subst x l. cbn [map concat]. rewrite <- app_assoc. rewrite pair_step by assumption.
    assert (NK : ~ In k (keys acc)).
    { rewrite keys_app in ND. simpl in ND. apply NoDup_remove_2 in ND. intro X. apply ND. apply in_or_app. auto. }
    rewrite set_new by exact NK. destruct (IH fuel (acc ++ [(k, v)]) v true rest (S line)) as (l2 & E); [rewrite <- app_assoc; exact ND|exact F2|cbn in L; lia|].
    exists l2. rewrite E, <- app_assoc. reflexivity.
Qed.
Lemma dict_at : forall d rest p, usable_ent d -> here (10 :: write_ent d ++ rest) p ->
  exists p2, ed_parse (S (List.length (ps_mem p))) [] p = E_ok (d, p2) /\ here (10 :: rest) p2.
Proof.
  intros d rest p (ND & F) (M & L). unfold ed_parse, parse_token. change (f_peek PARSE_NORMAL) with false. cbn beta iota.
  assert (W : write_ent d ++ rest = 123 :: 10 :: concat (map write_pair d) ++ 125 :: 10 :: rest).
  { unfold write_ent. cbn [app]. rewrite <- app_assoc. reflexivity. }
  rewrite M, L, W. cbn [List.length]. rewrite skip_newline by apply ok_normal. rewrite skip_brace by (auto using ok_normal). cbn [ps_token]. rewrite beq_refl.
  destruct (pairs_written d (S (S (S (S (List.length (concat (map write_pair d) ++ 125%N :: 10%N :: rest)))))) [] [123] false rest (S (ps_line p)) ND F) as (l2 & E).
  { rewrite app_length. pose proof (write_ent_length d). lia. }
  change (1 + List.length (concat (map write_pair d) ++ 125%N :: 10%N :: rest))%nat with (S (List.length (concat (map write_pair d) ++ 125%N :: 10%N :: rest))) in E.
  rewrite E. eexists. split; [reflexivity|]. split; reflexivity.
Qed.
Lemma entity_loop_at : forall ls fin, Forall good_eline ls -> Forall good_filler fin ->
  forall fuel m pre p, (List.length ls < fuel)%nat -> pre = [] \/ pre = [10] -> here (pre ++ concat (map eline_text ls) ++ fillers fin) p ->
  DefsModel.entity_loop fuel m p = D_ok (rev (map (fun l => (e_class l, e_dict l)) ls) ++ m).
Proof.
  intros ls fin F FF. induction F as [|l ls (GF & W & U) F IH]; intros fuel m pre p L P H; (destruct fuel as [|fuel]; [cbn in L; lia|]); cbn [DefsModel.entity_loop].
  - cbn [map concat app] in H. assert (G : gap PARSE_NORMAL (pre ++ fillers fin)).
    { apply gap_app; [destruct P as [->| ->]; [apply gap_nil|apply gap_newline; apply ok_normal]|apply fillers_gap; [apply ok_normal|exact FF]]. }
    destruct (here_end _ p G H) as (p2 & E). rewrite E. reflexivity.
  - cbn [map concat] in H. unfold eline_text at 1 in H. rewrite <- !app_assoc in H.
    assert (G : gap PARSE_NORMAL (pre ++ fillers (e_before l))).
    { apply gap_app; [destruct P as [->| ->]; [apply gap_nil|apply gap_newline; apply ok_normal]|apply fillers_gap; [apply ok_normal|exact GF]]. }
    rewrite app_assoc in H. set (R := concat (map eline_text ls) ++ fillers fin) in *. change ([10] ++ write_ent (e_dict l) ++ R) with (10 :: write_ent (e_dict l) ++ R) in H.
    destruct (here_word PARSE_NORMAL _ _ 10 _ p ltac:(split; reflexivity) G W eq_refl H) as (p1 & E1 & A1 & T1).
    rewrite E1. cbn [dbind negb orb]. assert (NZ : Nat.eqb (ps_left p1) 0 = false) by (destruct A1 as (_ & ->); reflexivity). rewrite NZ.
    assert (W2 : 10 :: write_ent (e_dict l) ++ R = [10] ++ [123] ++ 10 :: (concat (map write_pair (e_dict l)) ++ [125; 10]) ++ R).
    { unfold write_ent. cbn [app]. reflexivity. }
    assert (A1b := A1). rewrite W2 in A1b.
    assert (WB : word [123]) by (split; [discriminate|]; split; [repeat constructor|]; split; [discriminate|]; split; [discriminate|]; intros [X _]; discriminate X).
    destruct (here_peek [10] [123] 10 ((concat (map write_pair (e_dict l)) ++ [125; 10]) ++ R) p1 (gap_newline _ ok_peek) WB eq_refl A1b) as (p2 & E2 & A2 & T2).
    rewrite E2. cbn [dbind negb]. rewrite T2, beq_refl. cbn [negb]. rewrite <- W2 in A2.
    destruct (dict_at (e_dict l) R p2 U A2) as (p3 & E3 & A3). rewrite E3. cbn [of_eres dbind]. rewrite T1.
    rewrite (IH fuel ((e_class l, e_dict l) :: m) [10] p3); [|cbn in L; lia|right; reflexivity|exact A3].
    cbn [map rev]. rewrite <- app_assoc. reflexivity.
Qed.
Theorem C155_entities_partial : forall ls fin m, Forall good_eline ls -> Forall good_filler fin ->
  exists m2, load_entity_def m (concat (map eline_text ls) ++ fillers fin) = D_ok m2 /\
  forall name, lookup name m2 = latest name (lookup name m) (map (fun l => (e_class l, e_dict l)) ls).
Proof.
  intros ls fin m F FF. eexists. split; [|intros name; apply lookup_latest]. unfold load_entity_def.
  apply (entity_loop_at ls fin F FF) with (pre := []); [|left; reflexivity|split; reflexivity].
  rewrite app_length. assert (LL : (List.length ls <= List.length (concat (map eline_text ls)))%nat).
  { clear F. induction ls as [|l ls IH]; [cbn; lia|]. cbn [map concat List.length]. rewrite app_length. unfold eline_text at 1. rewrite !app_length. cbn [List.length]. specialize (IH). lia. }
  lia.
Qed.
Print Assumptions C155_entities_partial.

(** ** Both loops end, whatever the file holds *)
Lemma take_word_len : forall s n acc tok rest k, take_word s n acc = Some (tok, rest, k) -> (List.length rest <= List.length s)%nat.
Proof.
  induction s as [|c s IH]; intros n acc tok rest k H; cbn [take_word] in H; [discriminate H|]. destruct (blank c); [injection H as <- <- <-; lia|].
  apply IH in H. cbn [List.length]. lia.
Qed.
Lemma take_comment_len : forall s n acc tok rest k, take_comment s n acc = Some (tok, rest, k) -> (List.length rest <= List.length s)%nat.
Proof.
  induction s as [|c s IH]; intros n acc tok rest k H; cbn [take_comment] in H; [discriminate H|]. destruct ((c =? 0) || (c =? 10)); [injection H as <- <- <-; lia|].
  apply IH in H. cbn [List.length]. lia.
Qed.
Lemma take_quoted_len : forall m s n acc tok rest k, (List.length s <= m)%nat -> take_quoted s n acc = Q_ok tok rest k -> (List.length rest < List.length s)%nat.
Proof.
  induction m as [|m IH]; intros s n acc tok rest k L H; (destruct s as [|c s]; [discriminate H|]); cbn [List.length] in L; [lia|]. cbn [take_quoted] in H.
  destruct (c =? 34); [injection H as <- <- <-; cbn [List.length]; lia|]. destruct (c =? 0); [discriminate H|]. destruct (c =? 92).
  - destruct s as [|d s]; [discriminate H|]. cbn [List.length] in L. destruct (esc_pair d); [apply IH in H; cbn [List.length] in *; lia|].
    destruct (d =? 34); [|apply IH in H; cbn [List.length] in *; lia]. destruct s as [|e s]; [discriminate H|].
    destruct ((e =? 13) || (e =? 10)); apply IH in H; cbn [List.length] in *; lia.
  - apply IH in H; cbn [List.length] in *; lia.
Qed.
Lemma copy_token_len : forall f s n line b q, blank (hd 0 s) = false -> copy_token f s n line = T_ret b q ->
  (List.length (ps_mem q) <= List.length s)%nat /\ (b = true -> (List.length (ps_mem q) < List.length s)%nat).
Proof.
  intros f s n line b q B H. unfold copy_token in H. destruct (f_comment f); [injection H as <- <-; split; [cbn; lia|discriminate]|].
  destruct s as [|c s]; [discriminate H|]. destruct (c =? 34).
  - destruct (take_quoted s (pred n) []) as [tok rest k| |] eqn:Q; try discriminate H. injection H as <- <-. apply take_quoted_len with (m := List.length s) in Q; [|lia]. cbn [ps_mem List.length]. split; intros; lia.
  - cbn [hd] in B. cbn [take_word] in H. rewrite B in H. destruct (take_word s (pred n) ([] ++ [c])) as [[[tok rest] k]|] eqn:Q; [|discriminate H]. injection H as <- <-. apply take_word_len in Q. cbn [ps_mem List.length]. split; intros; lia.
Qed.
Lemma skip_len : forall f s cm n line b q, skip f cm s n line = T_ret b q ->
  f_comment f = false -> (List.length (ps_mem q) <= List.length s)%nat /\ (b = true -> (List.length (ps_mem q) < List.length s)%nat).
Proof.
  intros f. induction s as [|c s IH]; intros cm n line b q H FC.
  - destruct cm; [discriminate H|]. destruct n; [|discriminate H]. cbn [skip] in H. unfold eol in H. destruct (f_optional f); [injection H as <- <-; split; [cbn; lia|discriminate]|].
    destruct (f_sameline f); [discriminate H|injection H as <- <-; split; [cbn; lia|discriminate]].
  - assert (Q : forall x, T_ret false (mkPS [] false (c :: s) x line) = T_ret b q -> (List.length (ps_mem q) <= List.length (c :: s))%nat /\ (b = true -> (List.length (ps_mem q) < List.length (c :: s))%nat)) by (intros x X; injection X as <- <-; split; [cbn; lia|discriminate]).
    assert (Q2 : forall x, T_ret false (mkPS [] false s x line) = T_ret b q -> (List.length (ps_mem q) <= List.length (c :: s))%nat /\ (b = true -> (List.length (ps_mem q) < List.length (c :: s))%nat)) by (intros x X; injection X as <- <-; split; [cbn; lia|discriminate]).
    assert (I : forall cm2 n2 l2, skip f cm2 s n2 l2 = T_ret b q -> (List.length (ps_mem q) <= List.length (c :: s))%nat /\ (b = true -> (List.length (ps_mem q) < List.length (c :: s))%nat)).
    { intros cm2 n2 l2 X. destruct (IH cm2 n2 l2 b q X FC) as (A & B). cbn [List.length]. split; [lia|]. intros Y. specialize (B Y). lia. }
    cbn [skip] in H. destruct cm.
    + destruct (c =? 10); [apply (I _ _ _ H)|]. destruct s as [|d s]; [discriminate H|]. destruct (d =? 0); [destruct (f_sameline f); [discriminate H|apply (Q2 _ H)]|apply (I _ _ _ H)].
    + destruct n as [|n].
      { unfold eol in H. destruct (f_optional f); [apply (Q _ H)|]. destruct (f_sameline f); [discriminate H|apply (Q _ H)]. }
      destruct (blank c) eqn:BC.
      * unfold eol in H. destruct (c =? 0); [destruct (f_optional f); [apply (Q _ H)|]; destruct (f_sameline f); [discriminate H|apply (Q _ H)]|].
        destruct (c =? 10); [destruct (f_optional f); [apply (Q _ H)|]; destruct (f_sameline f); [discriminate H|apply (I _ _ _ H)]|apply (I _ _ _ H)].
      * destruct (if c =? 47 then match s with [] => None | d :: _ => Some (d =? 47) end else Some (c =? 59)) as [[|]|]; [| |discriminate H].
        -- rewrite FC in H. unfold eol in H. destruct (f_optional f); [apply (Q _ H)|]. destruct (f_sameline f); [discriminate H|]. destruct s as [|d s]; [discriminate H|]. destruct (d =? 0); [apply (Q2 _ H)|apply (I _ _ _ H)].
        -- apply (copy_token_len f (c :: s) (S n) line b q); [exact BC|exact H].
Qed.
Lemma dtok_len : forall f p b q, plain f -> dtok f p = D_ok (b, q) -> (List.length (ps_mem q) <= List.length (ps_mem p))%nat /\ (b = true -> (List.length (ps_mem q) < List.length (ps_mem p))%nat).
Proof.
  intros f p b q (FC & FP) H. unfold dtok, parse_token in H. rewrite FP in H. destruct (skip f false (ps_mem p) (ps_left p) (ps_line p)) as [b2 q2| |] eqn:S; try discriminate H. injection H as <- <-.
  apply (skip_len f _ _ _ _ _ _ S FC).
Qed.
Lemma dtok_nofuel : forall f p, dtok f p <> D_fuel.
Proof. intros f p. unfold dtok. destruct (parse_token f p); discriminate. Qed.
Lemma opt_int_len : forall d p, opt_int d p <> D_fuel /\ forall z q, opt_int d p = D_ok (z, q) -> (List.length (ps_mem q) <= List.length (ps_mem p))%nat.
Proof.
  intros d p. unfold opt_int. pose proof (dtok_nofuel SAMELINE_OPTIONAL p) as NF. destruct (dtok SAMELINE_OPTIONAL p) as [[b q]| | |] eqn:E; cbn [dbind]; try (split; [discriminate|intros; discriminate]); [|congruence].
  destruct (dtok_len SAMELINE_OPTIONAL p b q ltac:(split; reflexivity) E) as (L & _). destruct b; [destruct (stoi (ps_token q))|]; (split; [discriminate|]); intros z2 q2 X; try discriminate X; injection X as _ <-; exact L.
Qed.
Lemma texture_line_len : forall p, texture_line p <> D_fuel /\ forall r q, texture_line p = D_ok (r, q) -> (List.length (ps_mem q) <= List.length (ps_mem p))%nat.
Proof.
  intros p. unfold texture_line. pose proof (dtok_nofuel PARSE_SAMELINE p) as NF. destruct (dtok PARSE_SAMELINE p) as [[b p1]| | |] eqn:E1; cbn [dbind]; try (split; [discriminate|intros; discriminate]); [|congruence].
  destruct (dtok_len PARSE_SAMELINE p b p1 ltac:(split; reflexivity) E1) as (L1 & _). destruct b; cbn [negb]; [|split; [discriminate|]; intros r q X; injection X as <- <-; exact L1].
  destruct (trim_to (ps_token p1)) as [to|]; [|split; [discriminate|intros; discriminate]].
  pose proof (dtok_nofuel SAMELINE_OPTIONAL p1) as NF2. destruct (dtok SAMELINE_OPTIONAL p1) as [[b2 p2]| | |] eqn:E2; cbn [dbind]; try (split; [discriminate|intros; discriminate]); [|congruence].
  destruct (dtok_len SAMELINE_OPTIONAL p1 b2 p2 ltac:(split; reflexivity) E2) as (L2 & _). destruct b2; cbn [negb]; [|split; [discriminate|]; intros r q X; injection X as <- <-; lia].
  destruct (stou32 (ps_token p2)) as [c|]; [|split; [discriminate|intros; discriminate]].
  destruct (opt_int_len 0 p2) as (NF3 & L3). destruct (opt_int 0 p2) as [[f p3]| | |] eqn:E3; cbn [dbind]; try (split; [discriminate|intros; discriminate]); [|congruence].
  destruct (opt_int_len 0 p3) as (NF4 & L4). destruct (opt_int 0 p3) as [[v p4]| | |] eqn:E4; cbn [dbind]; try (split; [discriminate|intros; discriminate]); [|congruence].
  split; [discriminate|]. intros r q X. injection X as <- <-. specialize (L3 _ _ eq_refl). specialize (L4 _ _ eq_refl). lia.
Qed.
Lemma texture_loop_total : forall fuel m p, (List.length (ps_mem p) < fuel)%nat -> texture_loop fuel m p <> D_fuel.
Proof.
  induction fuel as [|fuel IH]; intros m p L; [lia|]. cbn [texture_loop]. pose proof (dtok_nofuel PARSE_NORMAL p) as NF. destruct (dtok PARSE_NORMAL p) as [[b p1]| | |] eqn:E1; cbn [dbind]; try discriminate; [|congruence].
  destruct (dtok_len PARSE_NORMAL p b p1 ltac:(split; reflexivity) E1) as (_ & L1). destruct b; cbn [negb orb]; [|discriminate]. specialize (L1 eq_refl). destruct (Nat.eqb (ps_left p1) 0); [discriminate|].
  destruct (texture_line_len p1) as (NF2 & L2). destruct (texture_line p1) as [[[d|] p2]| | |] eqn:E2; cbn [dbind]; try discriminate; [|congruence]. specialize (L2 _ _ eq_refl). apply IH. lia.
Qed.
Lemma parse_len : forall p b q, parse_token PARSE_NORMAL p = T_ret b q -> (List.length (ps_mem q) <= List.length (ps_mem p))%nat /\ (b = true -> (List.length (ps_mem q) < List.length (ps_mem p))%nat).
Proof. intros p b q H. apply (dtok_len PARSE_NORMAL); [split; reflexivity|]. unfold dtok. rewrite H. reflexivity. Qed.
Lemma parse_pairs_total : forall fuel d p, (List.length (ps_mem p) < fuel)%nat -> parse_pairs fuel d p <> E_fuel /\
  forall d2 p2, parse_pairs fuel d p = E_ok (d2, p2) -> (List.length (ps_mem p2) <= List.length (ps_mem p))%nat.
Proof.
  induction fuel as [|fuel IH]; intros d p L; [lia|]. cbn [parse_pairs]. destruct (parse_token PARSE_NORMAL p) as [[|] p1| |] eqn:E1; try (split; [discriminate|intros; discriminate]).
  destruct (parse_len _ _ _ E1) as (_ & L1). specialize (L1 eq_refl). destruct (beq (ps_token p1) [125]); [split; [discriminate|]; intros d2 p2 X; injection X as <- <-; lia|].
  destruct (parse_token PARSE_NORMAL p1) as [[|] p2| |] eqn:E2; try (split; [discriminate|intros; discriminate]).
  destruct (parse_len _ _ _ E2) as (_ & L2). specialize (L2 eq_refl). destruct (beq (ps_token p2) [125]); [split; [discriminate|intros; discriminate]|].
  destruct (trim_back (trim_front (ps_token p1))) as [k|]; [|split; [discriminate|intros; discriminate]].
  destruct (IH (ed_set k (ps_token p2) d) p2 ltac:(lia)) as (A & B). split; [exact A|]. intros d3 p3 X. specialize (B _ _ X). lia.
Qed.
Lemma ed_parse_total : forall d p, of_eres (ed_parse (S (List.length (ps_mem p))) d p) <> D_fuel /\
  forall d2 p2, of_eres (ed_parse (S (List.length (ps_mem p))) d p) = D_ok (d2, p2) -> (List.length (ps_mem p2) <= List.length (ps_mem p))%nat.
Proof.
  intros d p. unfold ed_parse. destruct (parse_token PARSE_NORMAL p) as [[|] p1| |] eqn:E1; cbn [of_eres]; try (split; [discriminate|intros; discriminate]).
  - destruct (parse_len _ _ _ E1) as (_ & L1). specialize (L1 eq_refl). destruct (beq (ps_token p1) [123]); [|split; [discriminate|intros; discriminate]].
    destruct (parse_pairs_total (S (List.length (ps_mem p))) d p1 ltac:(lia)) as (A & B). destruct (parse_pairs (S (List.length (ps_mem p))) d p1) as [[d3 p3]| | |]; cbn [of_eres]; try (split; [discriminate|intros; discriminate]); [|congruence].
    split; [discriminate|]. intros d2 p2 X. injection X as <- <-. specialize (B _ _ eq_refl). lia.
  - destruct (parse_len _ _ _ E1) as (L1 & _). split; [discriminate|]. intros d2 p2 X. injection X as <- <-. exact L1.
Qed.
Lemma entity_loop_total : forall fuel m p, (List.length (ps_mem p) < fuel)%nat -> DefsModel.entity_loop fuel m p <> D_fuel.
Proof.
  induction fuel as [|fuel IH]; intros m p L; [lia|]. cbn [DefsModel.entity_loop]. pose proof (dtok_nofuel PARSE_NORMAL p) as NF. destruct (dtok PARSE_NORMAL p) as [[b p1]| | |] eqn:E1; cbn [dbind]; try discriminate; [|congruence].
  destruct (dtok_len PARSE_NORMAL p b p1 ltac:(split; reflexivity) E1) as (_ & L1). destruct b; cbn [negb orb]; [|discriminate]. specialize (L1 eq_refl). destruct (Nat.eqb (ps_left p1) 0); [discriminate|].
  unfold dtok at 1. destruct (parse_token PARSE_PEEK p1) as [[|] p2| |] eqn:E2; cbn [dbind negb]; try discriminate. destruct (beq (ps_token p2) [123]); cbn [negb]; [|discriminate].
  assert (M2 : ps_mem p2 = ps_mem p1).
  { unfold parse_token in E2. change (f_peek PARSE_PEEK) with true in E2. cbn beta iota in E2. destruct (skip PARSE_PEEK false (ps_mem p1) (ps_left p1) (ps_line p1)); try discriminate E2. injection E2 as _ <-. reflexivity. }
  destruct (ed_parse_total [] p2) as (A & B). destruct (of_eres (ed_parse (S (List.length (ps_mem p2))) [] p2)) as [[d p3]| | |]; cbn [dbind]; try discriminate; [|congruence].
  specialize (B _ _ eq_refl). apply IH. rewrite M2 in B. lia.
Qed.
Theorem C155_ends : forall mt me file, load_texture_def mt file <> D_fuel /\ load_entity_def me file <> D_fuel.
Proof. intros mt me file. split; [apply texture_loop_total|apply entity_loop_total]; cbn; lia. Qed.
Print Assumptions C155_ends.

(** ** Wrong lines *)
(** One name alone in its line, and a name before something that is no brace, are errors, and so is a number that is none;
    what was right before does not help. *)
Lemma texture_loop_after : forall ls ds, Forall2 tline_means ls ds ->
  forall fuel m pre p r, (List.length ls < fuel)%nat -> pre = [] \/ pre = [10] -> here (pre ++ concat (map tline_text ls) ++ r) p ->
  exists fuel2 m2 pre2 p2, texture_loop fuel m p = texture_loop fuel2 m2 p2 /\ (0 < fuel2)%nat /\ (pre2 = [] \/ pre2 = [10]) /\ here (pre2 ++ r) p2.
Proof.
  intros ls ds F. induction F as [|l d ls ds ML F IH]; intros fuel m pre p r L P H.
  - exists fuel, m, pre, p. split; [reflexivity|]. split; [cbn in L; lia|]. split; [exact P|exact H].
  - destruct fuel as [|fuel]; [cbn in L; lia|]. destruct ML as (GF & W1 & W2 & W3 & D1 & D2 & D3). destruct d as [from [to i]]. cbn [fst snd] in D1, D2, D3. subst from to.
    cbn [map concat] in H. unfold tline_text at 1 in H. rewrite <- !app_assoc in H.
    assert (G : gap PARSE_NORMAL (pre ++ fillers (l_before l))).
    { apply gap_app; [destruct P as [->| ->]; [apply gap_nil|apply gap_newline; apply ok_normal]|apply fillers_gap; [apply ok_normal|exact GF]]. }
    rewrite app_assoc in H. set (R := concat (map tline_text ls) ++ r) in *. change ([10] ++ R) with (10 :: R) in H.
    destruct (lead_end (l_to l :: l_nums l) R) as (c & s & E & B).
    assert (H0 := H). rewrite E in H0. destruct (here_word PARSE_NORMAL _ _ c s p ltac:(split; reflexivity) G W1 B H0) as (p1 & E1 & A1 & T1).
    cbn [texture_loop]. rewrite E1. cbn [dbind negb orb]. assert (NZ : Nat.eqb (ps_left p1) 0 = false) by (destruct A1 as (_ & ->); reflexivity). rewrite NZ.
    rewrite <- E in A1. destruct (texture_line_at _ _ _ R p1 W2 W3 D3 A1) as (p2 & E2 & A2). rewrite E2. cbn [dbind].
    apply (IH fuel _ [10] p2 r); [cbn in L; lia|right; reflexivity|exact A2].
Qed.
Theorem C155_errors : forall ls ds m from rest, Forall2 tline_means ls ds -> word from ->
  load_texture_def m (concat (map tline_text ls) ++ from ++ 10 :: rest) = D_error /\
  (forall to c, word to -> word c -> stou32 c = None -> load_texture_def m (concat (map tline_text ls) ++ from ++ lead [to; c] ++ 10 :: rest) = D_error) /\
  (forall to c zc f, word to -> word c -> word f -> stou32 c = Some zc -> stoi f = None -> load_texture_def m (concat (map tline_text ls) ++ from ++ lead [to; c; f] ++ 10 :: rest) = D_error).
Proof.
  intros ls ds m from rest F W.
  assert (ST : forall w t, (exists c s, w = c :: s /\ blank c = true) -> t = from ++ w -> (forall p, here w p -> texture_line p = D_error) -> load_texture_def m (concat (map tline_text ls) ++ t) = D_error).
  { intros w t (c & s & E & B) -> K. unfold load_texture_def.
    destruct (texture_loop_after ls ds F (S (List.length (concat (map tline_text ls) ++ from ++ w))) m [] (new_parser (concat (map tline_text ls) ++ from ++ w) (List.length (concat (map tline_text ls) ++ from ++ w))) (from ++ w)) as (fuel2 & m2 & pre2 & p2 & E2 & L2 & P2 & H2); [|left; reflexivity|split; reflexivity|].
    { rewrite app_length. assert (LL : (List.length ls <= List.length (concat (map tline_text ls)))%nat).
      { clear. induction ls as [|l ls IH]; [cbn; lia|]. cbn [map concat List.length]. rewrite app_length. unfold tline_text at 1. rewrite !app_length. cbn [List.length]. specialize (IH). lia. }
      lia. }
    rewrite E2. destruct fuel2 as [|fuel2]; [lia|]. cbn [texture_loop]. rewrite E in H2.
    destruct (here_word PARSE_NORMAL pre2 from c s p2 ltac:(split; reflexivity)) as (p1 & E1 & A1 & T1); [destruct P2 as [->| ->]; [apply gap_nil|apply gap_newline; apply ok_normal]|exact W|exact B|exact H2|].
    rewrite E1. cbn [dbind negb orb]. assert (NZ : Nat.eqb (ps_left p1) 0 = false) by (destruct A1 as (_ & ->); reflexivity). rewrite NZ. rewrite (K p1); [reflexivity|]. rewrite E. exact A1. }
  split; [|split].
  - apply (ST (10 :: rest)); [exists 10, rest; split; reflexivity|reflexivity|]. intros p (M & L). unfold texture_line, dtok, parse_token. rewrite M, L. reflexivity.
  - intros to c Wt Wc C. apply (ST (lead [to; c] ++ 10 :: rest)); [apply lead_end|reflexivity|]. intros p H.
    destruct (here_next PARSE_SAMELINE to [c] rest p ltac:(split; reflexivity) Wt H) as (p1 & E1 & A1 & T1). unfold texture_line. rewrite E1. cbn [dbind negb]. rewrite T1, (trim_word to Wt).
    destruct (here_next SAMELINE_OPTIONAL c [] rest p1 ltac:(split; reflexivity) Wc A1) as (p2 & E2 & A2 & T2). rewrite E2. cbn [dbind negb]. rewrite T2, C. reflexivity.
  - intros to c zc f Wt Wc Wf C Cf. apply (ST (lead [to; c; f] ++ 10 :: rest)); [apply lead_end|reflexivity|]. intros p H.
    destruct (here_next PARSE_SAMELINE to [c; f] rest p ltac:(split; reflexivity) Wt H) as (p1 & E1 & A1 & T1). unfold texture_line. rewrite E1. cbn [dbind negb]. rewrite T1, (trim_word to Wt).
    destruct (here_next SAMELINE_OPTIONAL c [f] rest p1 ltac:(split; reflexivity) Wc A1) as (p2 & E2 & A2 & T2). rewrite E2. cbn [dbind negb]. rewrite T2, C.
    unfold opt_int. destruct (here_next SAMELINE_OPTIONAL f [] rest p2 ltac:(split; reflexivity) Wf A2) as (p3 & E3 & A3 & T3). rewrite E3. cbn [dbind]. rewrite T3, Cf. reflexivity.
Qed.
Print Assumptions C155_errors.

Fixpoint txt (s : string) : bytes := match s with EmptyString => [] | String a r => N_of_ascii a :: txt r end.
(** A class before anything but a brace is an error. *)
Theorem C155_brace : forall m fs class w c rest, Forall good_filler fs -> word class -> word w -> blank c = true -> w <> [123] ->
  load_entity_def m (fillers fs ++ class ++ 10 :: w ++ c :: rest) = D_error.
Proof.
  intros m fs class w c rest FF WC WW B NB. unfold load_entity_def. cbn [DefsModel.entity_loop].
  destruct (here_word PARSE_NORMAL (fillers fs) class 10 (w ++ c :: rest) (new_parser (fillers fs ++ class ++ 10 :: w ++ c :: rest) (List.length (fillers fs ++ class ++ 10 :: w ++ c :: rest)))) as (p1 & E1 & A1 & T1);
    [split; reflexivity|apply fillers_gap; [apply ok_normal|exact FF]|exact WC|reflexivity|split; reflexivity|].
  rewrite E1. cbn [dbind negb orb]. assert (NZ : Nat.eqb (ps_left p1) 0 = false) by (destruct A1 as (_ & ->); reflexivity). rewrite NZ.
  destruct (here_peek [10] w c rest p1 (gap_newline _ ok_peek) WW B A1) as (p2 & E2 & A2 & T2). rewrite E2. cbn [dbind negb]. rewrite T2. apply beq_neq in NB. rewrite NB. reflexivity.
Qed.
Print Assumptions C155_brace.

(** ** What goes wrong *)
(** A last line without an end of line, a name of blanks and a quote that is not closed make qbsp read outside the file or
    the name; a quoted name at the very end is dropped; "-1" and numbers beyond 32 bits are taken modulo 2^32. *)
Theorem C155_bounds_refuted :
  load_texture_def [] (txt "a b") = D_UB /\
  load_texture_def [] (txt "a """"" ++ [10]) = D_UB /\
  load_texture_def [] (txt "a "" """ ++ [10]) = D_UB /\
  load_texture_def [] (txt "a ""b" ++ [10]) = D_UB /\
  load_entity_def [] (txt "a { ""k"" ""v"" }") = D_UB /\
  load_entity_def [] (txt "a { "" "" ""v"" }" ++ [10]) = D_UB.
Proof. repeat split; vm_compute; reflexivity. Qed.
Print Assumptions C155_bounds_refuted.
Theorem C155_silent_refuted :
  load_texture_def [] (txt "a b" ++ [10] ++ txt """c""") = D_ok [(txt "a", (txt "b", None))] /\
  load_entity_def [] (txt """c""") = D_ok [] /\
  load_texture_def [] (txt "a b -1" ++ [10]) = D_ok [(txt "a", (txt "b", Some (mkTI 4294967295 0 0)))] /\
  load_texture_def [] (txt "a b 4294967297 2" ++ [10]) = D_ok [(txt "a", (txt "b", Some (mkTI 1 2 0)))] /\
  load_texture_def [] (txt "a b 0x10" ++ [10]) = D_ok [(txt "a", (txt "b", Some (mkTI 0 0 0)))].
Proof. repeat split; vm_compute; reflexivity. Qed.
Print Assumptions C155_silent_refuted.

(** ** Use *)
(** A side gets the name of the definition of its own name, once: what the new name is defined as does not matter.  A
    definition without numbers keeps those of the map; one with numbers replaces all three. *)
Theorem C155_remap : forall m name info,
  (lookup name m = None -> remap m name info = (name, info)) /\
  (forall to, lookup name m = Some (to, None) -> remap m name info = (to, info)) /\
  (forall to i, lookup name m = Some (to, Some i) -> remap m name info = (to, Some i)).
Proof. intros m name info. unfold remap. split; [|split]; [intros H|intros to H|intros to i H]; rewrite H; reflexivity. Qed.
Print Assumptions C155_remap.
(** Names of textures are the same in upper and lower case elsewhere, not here. *)
Theorem C155_case_refuted : exists m, load_texture_def [] (txt "Brick stone" ++ [10]) = D_ok m /\
  remap m (txt "Brick") None = (txt "stone", None) /\ remap m (txt "brick") None = (txt "brick", None).
Proof. eexists. split; [vm_compute; reflexivity|]. split; vm_compute; reflexivity. Qed.
Print Assumptions C155_case_refuted.

Example C155_nontrivial :
  load_texture_def [] (txt "// old names" ++ [10; 10] ++ txt "brick stone 1 128 300" ++ [10] ++ txt "sky1 *sky // up" ++ [10] ++ txt "brick ""wet stone "" 2" ++ [10]) =
    D_ok [(txt "brick", (txt "wet stone", Some (mkTI 2 0 0))); (txt "sky1", (txt "*sky", None)); (txt "brick", (txt "stone", Some (mkTI 1 128 300)))] /\
  load_texture_def [] (txt "brick" ++ [10] ++ txt "stone" ++ [10]) = D_error /\
  load_texture_def [] (txt "brick stone wet" ++ [10]) = D_error /\
  load_texture_def [] (txt "brick stone 1 99999999999" ++ [10]) = D_error /\
  load_entity_def [] (txt "torch" ++ [10] ++ txt "{" ++ [10] ++ txt """light"" ""200""" ++ [10] ++ txt "}" ++ [10]) = D_ok [(txt "torch", [(txt "light", txt "200")])] /\
  load_entity_def [] (txt "torch" ++ [10] ++ txt "lamp { }" ++ [10]) = D_error /\
  word (txt "brick") /\ word (txt "*sky").
Proof.
  split; [vm_compute; reflexivity|]. split; [vm_compute; reflexivity|]. split; [vm_compute; reflexivity|]. split; [vm_compute; reflexivity|]. split; [vm_compute; reflexivity|]. split; [vm_compute; reflexivity|].
  split; (split; [discriminate|]; split; [repeat constructor|]; split; [discriminate|]; split; [discriminate|]; intros [X _]; discriminate X).
Qed.
