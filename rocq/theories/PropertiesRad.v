(* C161: files of surface lights. *)
From Coq Require Import String Ascii List Arith NArith Bool Lia.
Import ListNotations.
From Verif Require Import Base ParserModel ParserProofs EntModel EntProofs MapFileModel MapFileProofs DefsModel RadModel.
Local Open Scope N_scope.

(** The words of a line: separated by blanks, in quotes or not, up to a comment or the end. *)
Definition blanks (s : bytes) : Prop := Forall (fun c => blank c = true /\ c <> 0 /\ c <> 10) s.
Definition on_line (s : bytes) : Prop := Forall (fun c => c <> 0 /\ c <> 10) s.
Inductive row : bytes -> list bytes -> Prop :=
| row_end s : blanks s -> row s []
| row_slashes s c : blanks s -> on_line c -> row (s ++ 47 :: 47 :: c) []
| row_semicolon s c : blanks s -> on_line c -> row (s ++ 59 :: c) []
| row_word s w t ws : blanks s -> word w -> match t with [] => True | c :: _ => blank c = true end -> row t ws -> row (s ++ w ++ t) (w :: ws)
| row_quoted s q t ws : blanks s -> on_line q -> ~ In 34 q -> ~ In 92 q -> row t ws -> row (s ++ 34 :: q ++ 34 :: t) (q :: ws).

Definition at_end_of (l : bytes) (p : pstate) : Prop := ps_mem p = l ++ [0] /\ ps_left p = List.length l.

Lemma skip_blanks : forall s r n line, blanks s -> skip PARSE_NORMAL false (s ++ r) (List.length s + n) line = skip PARSE_NORMAL false r n line.
Proof.
  induction s as [|c s IH]; intros r n line F; [reflexivity|]. inversion F as [|? ? (B & Z & T) F2]. subst.
  cbn [app List.length Nat.add]. rewrite skip_eq_blank by (auto; lia). cbn [pred]. apply IH. exact F2.
Qed.
Lemma comment_end : forall c n line, on_line c -> c <> [] -> skip PARSE_NORMAL true (c ++ [0]) n line = T_ret false (mkPS [] false [0] (n - List.length c)%nat line).
Proof.
  induction c as [|x c IH]; intros n line F NE; [congruence|]. inversion F as [|? ? (Z & T) F2]. subst. cbn [app skip].
  rewrite (proj2 (N.eqb_neq x 10)) by exact T. destruct c as [|y c].
  - cbn [app List.length]. change (0 =? 0) with true. cbn beta iota. change (f_sameline PARSE_NORMAL) with false. cbn beta iota. f_equal. f_equal. lia.
  - cbn [app]. inversion F2 as [|? ? (Z2 & _) _]. subst. rewrite (proj2 (N.eqb_neq y 0)) by exact Z2.
    change (y :: c ++ [0]) with ((y :: c) ++ [0]). rewrite IH by (auto; discriminate). f_equal. f_equal. cbn [List.length]. lia.
Qed.
Lemma quoted_plain : forall q r n acc, on_line q -> ~ In 34 q -> ~ In 92 q -> take_quoted (q ++ 34 :: r) n acc = Q_ok (acc ++ q) r (n - List.length q - 1)%nat.
Proof.
  induction q as [|c q IH]; intros r n acc F A B.
  - cbn. rewrite app_nil_r. f_equal. lia.
  - inversion F as [|? ? (Z & T) F2]. subst. cbn [app take_quoted]. rewrite (proj2 (N.eqb_neq c 34)), (proj2 (N.eqb_neq c 0)), (proj2 (N.eqb_neq c 92));
      [|intro; subst; apply B; left; reflexivity|exact Z|intro; subst; apply A; left; reflexivity].
    rewrite IH; [|exact F2|intro; apply A; right; assumption|intro; apply B; right; assumption].
    rewrite <- app_assoc. cbn [app List.length]. f_equal. lia.
Qed.

Lemma next : forall l ws p, row l ws -> at_end_of l p ->
  match ws with
  | [] => exists p2, dtok PARSE_NORMAL p = D_ok (false, p2) /\ ps_token p2 = [] /\ at_end_of [] p2
  | w :: ws2 => exists p2 l2, dtok PARSE_NORMAL p = D_ok (true, p2) /\ ps_token p2 = w /\ row l2 ws2 /\ at_end_of l2 p2
  end.
Proof.
  intros l ws p R (M & L). unfold dtok, parse_token. change (f_peek PARSE_NORMAL) with false. cbn beta iota. rewrite M, L.
  destruct R as [s B|s c B C|s c B C|s w t ws B W T R|s q t ws B O Q1 Q2 R].
  - replace (List.length s) with (List.length s + 0)%nat by lia. rewrite skip_blanks by exact B. eexists. split; [reflexivity|]. split; [reflexivity|]. split; reflexivity.
  - rewrite <- app_assoc, app_length, skip_blanks by exact B. cbn [app List.length].
    change (skip PARSE_NORMAL false (47 :: 47 :: c ++ [0]) (S (S (List.length c))) (ps_line p)) with (skip PARSE_NORMAL true ((47 :: 47 :: c) ++ [0]) (List.length (47 :: 47 :: c)) (ps_line p)).
    rewrite comment_end; [|constructor; [split; discriminate|constructor; [split; discriminate|exact C]]|discriminate]. rewrite Nat.sub_diag.
    eexists. split; [reflexivity|]. split; [reflexivity|]. split; reflexivity.
  - rewrite <- app_assoc, app_length, skip_blanks by exact B. cbn [app List.length skip]. change (blank 59) with false. change (59 =? 47) with false. change (59 =? 59) with true. cbn beta iota.
    change (f_comment PARSE_NORMAL) with false. cbn beta iota. unfold eol. change (f_optional PARSE_NORMAL) with false. change (f_sameline PARSE_NORMAL) with false. cbn beta iota. cbn [pred].
    destruct c as [|x c].
    + cbn [app List.length]. change (0 =? 0) with true. cbn beta iota. eexists. split; [reflexivity|]. split; [reflexivity|]. split; reflexivity.
    + cbn [app]. inversion C as [|? ? (Z & _) _]. subst. rewrite (proj2 (N.eqb_neq x 0)) by exact Z. change (x :: c ++ [0]) with ((x :: c) ++ [0]).
      rewrite comment_end by (auto; discriminate). rewrite Nat.sub_diag. eexists. split; [reflexivity|]. split; [reflexivity|]. split; reflexivity.
  - rewrite <- !app_assoc, app_length, skip_blanks by exact B.
    assert (K : exists c r, t ++ [0] = c :: r /\ blank c = true) by (destruct t as [|c t]; [exists 0, []; split; reflexivity|exists c, (t ++ [0]); split; [reflexivity|exact T]]).
    destruct K as (c & r & E & BC). rewrite E.
    destruct (word_char w c r W BC) as (x & w2 & -> & X & Q & CM). destruct W as (_ & F & _).
    cbn [app List.length skip]. rewrite X, CM. unfold copy_token. change (f_comment PARSE_NORMAL) with false. cbn beta iota. rewrite Q.
    change (x :: w2 ++ c :: r) with ((x :: w2) ++ c :: r). rewrite take_word_word by assumption.
    eexists. exists t. split; [reflexivity|]. split; [reflexivity|]. split; [exact R|]. split; cbn [ps_mem ps_left]; [symmetry; exact E|].
    cbn [List.length app]. rewrite app_length. lia.
  - rewrite <- app_assoc, app_length, skip_blanks by exact B. cbn [app List.length skip]. change (blank 34) with false. change (34 =? 47) with false. change (34 =? 59) with false. cbn beta iota.
    unfold copy_token. change (f_comment PARSE_NORMAL) with false. change (34 =? 34) with true. cbn beta iota. rewrite <- app_assoc. cbn [app].
    rewrite quoted_plain by assumption. cbn [pred app].
    eexists. exists t. split; [reflexivity|]. split; [reflexivity|]. split; [exact R|]. split; cbn [ps_mem ps_left]; [reflexivity|].
    rewrite app_length. cbn [List.length]. lia.
Qed.

(** The light of a line: name, red, green, blue, value. *)
Definition light_of (name r g b v : bytes) : entdict :=
  [(key "_surface", name); (key "_color", r ++ [32] ++ g ++ [32] ++ b); (key "light", v)].
(** What the words of a line say. *)
Inductive says (num : bytes -> option bytes) : list bytes -> list entdict -> Prop :=
| says_nothing : says num [] []
| says_light name r g b rest r' g' b' : num r = Some r' -> num g = Some g' -> num b = Some b' ->
    says num (name :: r :: g :: b :: rest) [light_of name r' g' b' (hd [] rest)].
(** A line with a name but with a word among the next three that is no number, or is not there. *)
Definition bad (num : bytes -> option bytes) (ws : list bytes) : Prop :=
  exists name rest i, ws = name :: rest /\ (i < 3)%nat /\ num (nth i rest []) = None.

Lemma number_next : forall num l ws p, row l ws -> at_end_of l p ->
  exists p2 l2, number num p = match num (hd [] ws) with Some x => D_ok (x, p2) | None => D_error end /\ row l2 (tl ws) /\ at_end_of l2 p2.
Proof.
  intros num l ws p R A. pose proof (next l ws p R A) as H. unfold number. destruct ws as [|w ws].
  - destruct H as (p2 & E & T & A2). rewrite E. cbn [dbind]. rewrite T. exists p2, []. split; [reflexivity|]. split; [apply row_end; constructor|exact A2].
  - destruct H as (p2 & l2 & E & T & R2 & A2). rewrite E. cbn [dbind]. rewrite T. exists p2, l2. auto.
Qed.
Lemma last_next : forall l ws p, row l ws -> at_end_of l p -> exists b p2, dtok PARSE_NORMAL p = D_ok (b, p2) /\ ps_token p2 = hd [] ws.
Proof.
  intros l ws p R A. pose proof (next l ws p R A) as H. destruct ws as [|w ws].
  - destruct H as (p2 & E & T & _). exists false, p2. auto.
  - destruct H as (p2 & l2 & E & T & _). exists true, p2. auto.
Qed.
Lemma line_eq : forall num l ws, row l ws -> rad_line num l =
  match ws with
  | [] => D_ok None
  | name :: t => match num (nth 0 t []), num (nth 1 t []), num (nth 2 t []) with
                 | Some r, Some g, Some b => D_ok (Some (light_of name r g b (nth 3 t [])))
                 | _, _, _ => D_error
                 end
  end.
Proof.
  intros num l ws R. unfold rad_line. pose proof (next l ws (new_parser (l ++ [0]) (List.length l)) R (conj eq_refl eq_refl)) as H.
  destruct ws as [|w ws].
  - destruct H as (p2 & E & _). rewrite E. reflexivity.
  - destruct H as (p2 & l2 & E & T & R2 & A2). rewrite E. cbn [dbind negb]. rewrite T. clear E T.
    assert (N0 : nth 0 ws [] = hd [] ws) by (destruct ws; reflexivity). assert (N1 : nth 1 ws [] = hd [] (tl ws)) by (destruct ws as [|? [|? ?]]; reflexivity).
    assert (N2 : nth 2 ws [] = hd [] (tl (tl ws))) by (destruct ws as [|? [|? [|? ?]]]; reflexivity). assert (N3 : nth 3 ws [] = hd [] (tl (tl (tl ws)))) by (destruct ws as [|? [|? [|? [|? ?]]]]; reflexivity).
    rewrite N0, N1, N2, N3.
    destruct (number_next num _ _ _ R2 A2) as (p3 & l3 & E3 & R3 & A3). rewrite E3. destruct (num (hd [] ws)) as [r|]; [|reflexivity]. cbn [dbind].
    destruct (number_next num _ _ _ R3 A3) as (p4 & l4 & E4 & R4 & A4). rewrite E4. destruct (num (hd [] (tl ws))) as [g|]; [|reflexivity]. cbn [dbind].
    destruct (number_next num _ _ _ R4 A4) as (p5 & l5 & E5 & R5 & A5). rewrite E5. destruct (num (hd [] (tl (tl ws)))) as [b|]; [|reflexivity]. cbn [dbind].
    destruct (last_next _ _ _ R5 A5) as (bb & p6 & E6 & T6). rewrite E6. cbn [dbind]. rewrite T6. reflexivity.
Qed.
Lemma says_line : forall num l ws d, row l ws -> says num ws d -> rad_line num l = D_ok (hd_error d) /\ (List.length d <= 1)%nat.
Proof.
  intros num l ws d R S. rewrite (line_eq num l ws R). destruct S as [|name r g b rest r' g' b' E1 E2 E3]; [split; [reflexivity|cbn; lia]|].
  cbn [nth]. rewrite E1, E2, E3. split; [|cbn; lia]. destruct rest; reflexivity.
Qed.

(** Lines with newlines between them. *)
Fixpoint join (ls : list bytes) : bytes :=
  match ls with [] => [] | l :: r => match r with [] => l | _ => l ++ 10 :: join r end end.
Lemma lines_one : forall l, ~ In 10 l -> lines l = [l].
Proof.
  induction l as [|c l IH]; intro N; [reflexivity|]. cbn [lines]. rewrite (proj2 (N.eqb_neq c 10)) by (intro; subst; apply N; left; reflexivity).
  rewrite IH by (intro; apply N; right; assumption). reflexivity.
Qed.
Lemma lines_cons : forall l t, ~ In 10 l -> lines (l ++ 10 :: t) = l :: lines t.
Proof.
  induction l as [|c l IH]; intros t N; [reflexivity|]. cbn [app lines]. rewrite (proj2 (N.eqb_neq c 10)) by (intro; subst; apply N; left; reflexivity).
  rewrite IH by (intro; apply N; right; assumption). reflexivity.
Qed.
Lemma lines_join : forall ls, ls <> [] -> Forall (fun l => ~ In 10 l) ls -> lines (join ls) = ls.
Proof.
  induction ls as [|l ls IH]; intros NE F; [congruence|]. inversion F as [|? ? N F2]. subst. cbn [join]. destruct ls as [|l2 ls]; [apply lines_one; exact N|].
  rewrite lines_cons by exact N. rewrite IH by (auto; discriminate). reflexivity.
Qed.
Lemma blanks_nl : forall s, blanks s -> ~ In 10 s. Proof. intros s F I. unfold blanks in F. rewrite Forall_forall in F. destruct (F _ I) as (_ & _ & H). congruence. Qed.
Lemma on_line_nl : forall s, on_line s -> ~ In 10 s. Proof. intros s F I. unfold on_line in F. rewrite Forall_forall in F. destruct (F _ I) as (_ & H). congruence. Qed.
Lemma row_nl : forall l ws, row l ws -> ~ In 10 l.
Proof.
  intros l ws R. induction R as [s B|s c B C|s c B C|s w t ws B W T R IH|s q t ws B O Q1 Q2 R IH]; intro I.
  - exact (blanks_nl _ B I).
  - apply in_app_or in I as [I|[I|[I|I]]]; try discriminate; [exact (blanks_nl _ B I)|exact (on_line_nl _ C I)].
  - apply in_app_or in I as [I|[I|I]]; try discriminate; [exact (blanks_nl _ B I)|exact (on_line_nl _ C I)].
  - apply in_app_or in I as [I|I]; [exact (blanks_nl _ B I)|]. apply in_app_or in I as [I|I]; [|exact (IH I)]. destruct W as (_ & F & _). rewrite Forall_forall in F. discriminate (F _ I).
  - apply in_app_or in I as [I|[I|I]]; try discriminate; [exact (blanks_nl _ B I)|]. apply in_app_or in I as [I|[I|I]]; try discriminate; [exact (on_line_nl _ O I)|exact (IH I)].
Qed.
Lemma rows_nl : forall ls wss, Forall2 row ls wss -> Forall (fun l => ~ In 10 l) ls.
Proof. intros ls wss F. induction F; constructor; [eapply row_nl; eassumption|assumption]. Qed.

(** A file of lights gives the lights of its lines, in their order, behind the lights there were: of each line with a name
    and three numbers one, with the word behind them as its value; empty lines and comments give none.  The last line may be
    empty: it is what is behind a newline at the end. *)
Theorem C161_file : forall num ls wss ds v, ls <> [] -> Forall2 row ls wss -> Forall2 (says num) wss ds ->
  lights_file num false (Some (join ls)) v = D_ok (true, v ++ concat ds).
Proof.
  intros num ls wss ds v NE F S. unfold lights_file. rewrite lines_join by (auto; eapply rows_nl; eassumption). clear NE.
  assert (K : rad_lines num ls v = D_ok (v ++ concat ds)); [|rewrite K; reflexivity].
  revert ds v S. induction F as [|l ws ls wss R F IH]; intros ds v S; inversion S as [|? d ? ds2 S1 S2]; subst; cbn [rad_lines concat]; [rewrite app_nil_r; reflexivity|].
  destruct (says_line num l ws d R S1) as (E & L). rewrite E. cbn [dbind]. destruct d as [|d [|? ?]]; cbn [List.length hd_error] in *; try lia; rewrite (IH ds2 _ S2); [reflexivity|].
  rewrite <- app_assoc. reflexivity.
Qed.
Print Assumptions C161_file.

(** One line for which this is not so ends the program: nothing of the file is used, and no message names the line. *)
Theorem C161_bad_line_refuted : forall num ls wss v, ls <> [] -> Forall2 row ls wss -> (exists ws, In ws wss /\ bad num ws) ->
  lights_file num false (Some (join ls)) v = D_error.
Proof.
  intros num ls wss v NE F (ws & I & B). unfold lights_file. rewrite lines_join by (auto; eapply rows_nl; eassumption). clear NE.
  assert (K : rad_lines num ls v = D_error); [|rewrite K; reflexivity].
  revert v. induction F as [|l w ls wss R F IH]; intros v; [destruct I|]. cbn [rad_lines]. rewrite (line_eq num l w R).
  destruct I as [->|I].
  - destruct B as (name & rest & i & -> & L & E). destruct i as [|[|[|i]]]; [| | |lia]; rewrite E; repeat match goal with |- context [match num ?x with _ => _ end] => destruct (num x) end; reflexivity.
  - destruct w as [|name t]; [apply IH; exact I|]. destruct (num (nth 0 t [])), (num (nth 1 t [])), (num (nth 2 t [])); try reflexivity. apply IH. exact I.
Qed.
Print Assumptions C161_bad_line_refuted.
(** Such a line is one with a name and fewer than three words behind it, as an empty word is no number. *)
Theorem C161_short_line_refuted : forall num ls wss v name rest, ls <> [] -> Forall2 row ls wss -> num [] = None ->
  In (name :: rest) wss -> (List.length rest < 3)%nat -> lights_file num false (Some (join ls)) v = D_error.
Proof.
  intros num ls wss v name rest NE F Z I L. apply (C161_bad_line_refuted num ls wss v NE F). exists (name :: rest). split; [exact I|].
  exists name, rest, (List.length rest). split; [reflexivity|]. split; [exact L|]. rewrite nth_overflow by lia. exact Z.
Qed.
Print Assumptions C161_short_line_refuted.

(** A file of entities gives its entities; a file that is not there changes nothing. *)
Theorem C161_entities : forall num ds v, Forall usable_ent ds -> lights_file num true (Some (ents_write ds)) v = D_ok (true, v ++ ds).
Proof. intros num ds v F. unfold lights_file. rewrite ents_roundtrip by exact F. reflexivity. Qed.
Print Assumptions C161_entities.
Theorem C161_missing : forall num ent v, lights_file num ent None v = D_ok (false, v).
Proof. reflexivity. Qed.
Print Assumptions C161_missing.

(** What the file of a name holds. *)
Inductive holds (num : bytes -> option bytes) (disk : bytes -> option bytes) (ent : bytes -> bool) (n : bytes) : list entdict -> Prop :=
| holds_none : disk n = None -> holds num disk ent n []
| holds_lines ls wss ds : ent n = false -> disk n = Some (join ls) -> ls <> [] -> Forall2 row ls wss -> Forall2 (says num) wss ds -> holds num disk ent n (concat ds)
| holds_entities ds : ent n = true -> disk n = Some (ents_write ds) -> Forall usable_ent ds -> holds num disk ent n ds.
Lemma holds_read : forall num disk ent n ds v, holds num disk ent n ds -> read num disk ent n v = D_ok (v ++ ds).
Proof.
  intros num disk ent n ds v H. unfold read. destruct H as [E|ls wss ds E1 E2 NE F S|ds E1 E2 F].
  - rewrite E, C161_missing, app_nil_r. reflexivity.
  - rewrite E1, E2, (C161_file num ls wss ds v NE F S). reflexivity.
  - rewrite E1, E2, C161_entities by exact F. reflexivity.
Qed.

(** The surface lights of a run are those of the file of -radlights, then those of lights.rad, then those of the file of the
    map; with no option the first are missing, and a map named lights has its file read once. *)
Theorem C161_order : forall num disk ent first opts m a b c, let lr := key "lights.rad" in
  holds num disk ent lr b -> holds num disk ent m c ->
  (all_lights num disk ent first [] m = D_ok ((if beq m lr then [] else b) ++ c)) /\
  (opts <> [] -> holds num disk ent (first opts) a -> all_lights num disk ent first opts m = D_ok (a ++ (if beq m lr then [] else b) ++ c)).
Proof.
  intros num disk ent first opts m a b c lr B C. unfold all_lights. fold lr. split.
  - cbn [dbind]. destruct (beq m lr); cbn [dbind]; [|rewrite (holds_read _ _ _ _ _ _ B); cbn [dbind]]; rewrite (holds_read _ _ _ _ _ _ C); reflexivity.
  - intros NE A. destruct opts as [|o opts]; [congruence|]. rewrite (holds_read _ _ _ _ _ _ A). cbn [dbind app].
    destruct (beq m lr); cbn [dbind app]; [|rewrite (holds_read _ _ _ _ _ _ B); cbn [dbind]]; rewrite (holds_read _ _ _ _ _ _ C); rewrite ?app_assoc; reflexivity.
Qed.
Print Assumptions C161_order.

(** Of two files given with -radlights one is not read, whatever is in it. *)
Theorem C161_options_refuted : forall num ent first m a b, a <> b -> (first [a; b] = a \/ first [a; b] = b) ->
  ~ In (key "lights.rad") [a; b] -> ~ In m [a; b] ->
  exists n, In n [a; b] /\ forall disk disk2, (forall k, k <> n -> disk k = disk2 k) -> all_lights num disk ent first [a; b] m = all_lights num disk2 ent first [a; b] m.
Proof.
  intros num ent first m a b AB H L M.
  assert (K : exists n, In n [a; b] /\ n <> first [a; b]) by (destruct H as [-> | ->]; [exists b|exists a]; cbn; intuition congruence).
  destruct K as (n & I & N). exists n. split; [exact I|]. intros disk disk2 E. unfold all_lights, read.
  rewrite <- (E (first [a; b])) by congruence. rewrite <- (E (key "lights.rad")) by (intro X; subst n; contradiction). rewrite <- (E m) by (intro X; subst n; contradiction). reflexivity.
Qed.
Print Assumptions C161_options_refuted.
(** A file given with -radlights that is read anyway has its lights twice. *)
Theorem C161_twice_refuted : forall num disk ent first m b c, let lr := key "lights.rad" in
  first [lr] = lr -> m <> lr -> holds num disk ent lr b -> holds num disk ent m c ->
  all_lights num disk ent first [lr] m = D_ok (b ++ b ++ c).
Proof.
  intros num disk ent first m b c lr F N B C. destruct (C161_order num disk ent first [lr] m b b c B C) as (_ & H).
  rewrite H; [|discriminate|rewrite F; exact B]. apply beq_neq in N. fold lr. rewrite N. reflexivity.
Qed.
Print Assumptions C161_twice_refuted.

(** A file with a comment, two lights, one of them with a name in quotes, and a newline at the end; then with a line cut off. *)
Example C161_nontrivial :
  let num := fun w => if beq w [] then None else Some w in let nl := [10] in
  let good := key "// lights" ++ nl ++ key "lamp 255 128 0 300 ; warm" ++ nl ++ nl ++ key " ""sky 1"" 1 2 3 4 5" ++ nl in
  lights_file num false (Some good) [] = D_ok (true, [light_of (key "lamp") (key "255") (key "128") (key "0") (key "300"); light_of (key "sky 1") (key "1") (key "2") (key "3") (key "4")]) /\
  lights_file num false (Some (key "lamp 255 128 0 // 300")) [] = D_ok (true, [light_of (key "lamp") (key "255") (key "128") (key "0") []]) /\
  lights_file num false (Some (good ++ key "slime 0 255")) [] = D_error /\
  row (key "lamp 255 ; warm") [key "lamp"; key "255"].
Proof.
  cbv zeta. refine (conj _ (conj _ (conj _ _))); try (vm_compute; reflexivity).
  apply (row_word [] (key "lamp") (key " 255 ; warm")); [constructor|repeat split; try discriminate; [repeat constructor|intros (? & _); discriminate]|reflexivity|].
  apply (row_word (key " ") (key "255") (key " ; warm")); [repeat constructor; discriminate|repeat split; try discriminate; [repeat constructor|intros (? & _); discriminate]|reflexivity|].
  apply (row_semicolon (key " ") (key " warm")); repeat constructor; discriminate.
Qed.
