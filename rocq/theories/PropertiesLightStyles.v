(* Statements: styles of switchable lights, escape sequences in entity values (C106, C107). *)
From Coq Require Import List ZArith Bool Lia.
Import ListNotations.
From Verif Require Import LightStylesModel LightStylesProofs.
Open Scope Z_scope.

(** ** C106: styles of targetnames *)

(** Calls one after the other: two calls give the same style exactly if they are for the same nonempty name; all
    styles are in the configured range; a style leads back to its name. *)
Theorem C106_styles : forall start max names ss t, styles_for start max [] names = Some (ss, t) ->
  length ss = length names /\
  (forall i j, (i < j < length names)%nat -> (nth i ss 0 = nth j ss 0 <-> nth i names [] = nth j names [] /\ nth i names [] <> [])) /\
  (forall i, (i < length names)%nat -> start <= nth i ss 0 < max /\ name_for t (nth i ss 0) = nth i names []).
Proof.
  intros start max names ss t H. destruct (styles_for_spec start max names [] ss t (tab_nil start) H) as (OK & L & _ & A & _ & C). split; [exact L|]. split.
  - intros i j B. pose proof (A i ltac:(lia)) as AI. pose proof (A j ltac:(lia)) as AJ. split.
    + intro E. pose proof (tab_same_num start t _ _ OK AI AJ E) as Q. injection Q as Q1 Q2. split; [exact Q1|]. intro Z. rewrite Z in Q1. symmetry in Q1.
      pose proof (C i j B Q1). lia.
    + intros (E & NE). pose proof (tab_same_name start t _ _ OK AI AJ E NE) as Q. injection Q as Q1 Q2. exact Q2.
  - intros i B. pose proof (A i B) as AI. pose proof (tab_range start t _ OK AI) as R. cbn [snd] in R.
    pose proof (table_bound start max names [] ss t (fun p (I : In p []) => match I with end) (tab_nil start) H _ AI) as M. cbn [snd] in M. split; [lia|].
    assert (G : forall u, (forall p, In p u -> In p t) -> In (nth i names [], nth i ss 0) u -> name_for u (nth i ss 0) = nth i names []).
    { induction u as [|p u IH]; intros SUB I; [destruct I|]. cbn [name_for]. destruct (Z.eqb_spec (snd p) (nth i ss 0)) as [E|E].
      - pose proof (tab_same_num start t p _ OK (SUB p (or_introl eq_refl)) AI E) as ->. reflexivity.
      - destruct I as [->|I]; [cbn [snd] in E; congruence|]. apply IH; [intros q J; apply SUB; right; exact J|exact I]. }
    apply G; auto.
Qed.
Print Assumptions C106_styles.

(** The error is raised exactly if the names need more styles than there are, counting every call without a name and
    every different name once; otherwise the styles are the first ones of the range. *)
Theorem C106_full : forall start max names, start <= max ->
  let n := (length (filter is_empty names) + length (nodup bytes_dec (filter (fun m => negb (is_empty m)) names)))%nat in
  (styles_for start max [] names = None <-> max - start < Z.of_nat n) /\
  forall ss t, styles_for start max [] names = Some (ss, t) -> length t = n /\ map snd t = map (fun k => start + Z.of_nat k) (seq 0 n).
Proof.
  intros start max names LE n. pose proof (styles_for_needed start max names [] (tab_nil start)) as Q. cbn [length map] in Q. specialize (Q ltac:(lia)).
  pose proof (needed_count names [] (NoDup_nil _)) as C. cbn [filter length app] in C. change (needed [] names = n) in C. rewrite C in Q.
  split.
  - destruct (styles_for start max [] names) as [(ss & t)|]; split; intro X; try discriminate; try reflexivity; lia.
  - intros ss t H. rewrite H in Q. destruct Q as (Q1 & Q2). split; [exact Q1|]. destruct (styles_for_spec start max names [] ss t (tab_nil start) H) as (OK & _).
    apply nth_ext with (d := 0) (d' := start + Z.of_nat 0); [rewrite !map_length, seq_length; exact Q1|]. intros k K. rewrite map_length in K.
    rewrite (map_nth (fun k => start + Z.of_nat k) (seq 0 n) 0%nat k), seq_nth by lia.
    change 0 with (snd (@nil Z, 0)). rewrite map_nth. apply (tk_num _ _ OK k). apply nth_error_nth'. exact K.
Qed.
Print Assumptions C106_full.

(** The pass over the entities: lights with a name get the style of the name, shadows the style of theirs, shadows
    without a name one of their own; everything else keeps its keys. *)
Definition style_of (e : sent) : Z := match se_style e with Some s => s | None => 0 end.
Theorem C106_entities : forall start max es es2 t, pass start max [] es = Some (es2, t) ->
  length es2 = length es /\
  (forall i, (i < length es)%nat -> let e := nth i es e0 in let e2 := nth i es2 e0 in
     se_light e2 = se_light e /\ se_shadow e2 = se_shadow e /\
     (if lit e then se_style e2 = Some (style_of e2) /\ start <= style_of e2 < max else se_style e2 = se_style e) /\
     (if se_shadow e then se_shadstyle e2 = Some (shad e2) /\ start <= shad e2 < max else se_shadstyle e2 = se_shadstyle e)) /\
  (forall i j, (i < length es)%nat -> (j < length es)%nat -> lit (nth i es e0) = true -> lit (nth j es e0) = true ->
     (style_of (nth i es2 e0) = style_of (nth j es2 e0) <-> se_name (nth i es e0) = se_name (nth j es e0))) /\
  (forall i j, (i < length es)%nat -> (j < length es)%nat -> lit (nth i es e0) = true -> se_shadow (nth j es e0) = true ->
     (style_of (nth i es2 e0) = shad (nth j es2 e0) <-> se_name (nth i es e0) = se_name (nth j es e0))) /\
  (forall i j, (i < j < length es)%nat -> se_shadow (nth i es e0) = true -> se_shadow (nth j es e0) = true ->
     (shad (nth i es2 e0) = shad (nth j es2 e0) <-> se_name (nth i es e0) = se_name (nth j es e0) /\ se_name (nth i es e0) <> [])).
Proof.
  intros start max es es2 t H. destruct (pass_ok start max es [] es2 t (tab_nil start) H) as [OK _ MX LEN EACH _ ORD].
  assert (MX2 : forall p, In p t -> start <= snd p < max).
  { intros p I. split; [apply (tab_range start t p OK I)|]. apply MX; [intros q []|exact I]. }
  assert (ST : forall i, (i < length es)%nat -> lit (nth i es e0) = true -> se_style (nth i es2 e0) = Some (style_of (nth i es2 e0)) /\ In (se_name (nth i es e0), style_of (nth i es2 e0)) t).
  { intros i B L. destruct (EACH i B) as (_ & X & _). rewrite L in X. destruct X as (s & X1 & X2). unfold style_of. rewrite X1. auto. }
  assert (SH : forall i, (i < length es)%nat -> se_shadow (nth i es e0) = true -> se_shadstyle (nth i es2 e0) = Some (shad (nth i es2 e0)) /\ In (se_name (nth i es e0), shad (nth i es2 e0)) t).
  { intros i B L. destruct (EACH i B) as (_ & _ & X). rewrite L in X. destruct X as (s & X1 & X2). unfold shad. rewrite X1. auto. }
  assert (NE : forall e, lit e = true -> se_name e <> []) by (intros e L Z; unfold lit in L; rewrite Z, andb_false_r in L; discriminate).
  split; [exact LEN|]. split; [|split; [|split]].
  - intros i B. destruct (EACH i B) as ((K1 & K2 & _) & X & Y). split; [exact K1|]. split; [exact K2|]. split.
    + destruct (lit (nth i es e0)) eqn:L; [|exact X]. destruct (ST i B L) as (S1 & S2). split; [exact S1|]. apply (MX2 _ S2).
    + destruct (se_shadow (nth i es e0)) eqn:L; [|exact Y]. destruct (SH i B L) as (S1 & S2). split; [exact S1|]. apply (MX2 _ S2).
  - intros i j BI BJ LI LJ. destruct (ST i BI LI) as (_ & II), (ST j BJ LJ) as (_ & IJ). split; intro E.
    + pose proof (tab_same_num start t _ _ OK II IJ E) as Q. congruence.
    + pose proof (tab_same_name start t _ _ OK II IJ E (NE _ LI)) as Q. congruence.
  - intros i j BI BJ LI LJ. destruct (ST i BI LI) as (_ & II), (SH j BJ LJ) as (_ & IJ). split; intro E.
    + pose proof (tab_same_num start t _ _ OK II IJ E) as Q. congruence.
    + pose proof (tab_same_name start t _ _ OK II IJ E (NE _ LI)) as Q. congruence.
  - intros i j B LI LJ. destruct (SH i ltac:(lia) LI) as (_ & II), (SH j ltac:(lia) LJ) as (_ & IJ). split.
    + intro E. pose proof (tab_same_num start t _ _ OK II IJ E) as Q. injection Q as Q1 Q2. split; [exact Q1|]. intro Z. rewrite Z in Q1. symmetry in Q1.
      pose proof (ORD i j B LI LJ Q1). lia.
    + intros (E & N1). pose proof (tab_same_name start t _ _ OK II IJ E N1) as Q. congruence.
Qed.
Print Assumptions C106_entities.

(** Lighting the written map again gives the same styles, if no name has an escape sequence. *)
Theorem C106_again : forall start max es es2 t, (forall e, In e es -> has_esc (se_name e) = false) ->
  pass start max [] es = Some (es2, t) -> pass start max [] es2 = Some (es2, t).
Proof.
  intros start max es. generalize (@nil (bytes * Z)). induction es as [|e es IH]; intros u es2 t NE H; cbn [pass] in H; [injection H as <- <-; reflexivity|].
  destruct (pass_one start max u e) as [(e2 & u1)|] eqn:E; [|discriminate]. destruct (pass start max u1 es) as [(r & u2)|] eqn:F; [|discriminate]. injection H as <- <-.
  cbn [pass]. rewrite (pass_one_again start max u e e2 u1 (NE e (or_introl eq_refl)) E), (IH u1 r u2 (fun x I => NE x (or_intror I)) F). reflexivity.
Qed.
Print Assumptions C106_again.

(** Three lights, two of them named "a", a shadow without a name. *)
Definition lamp (n : bytes) := mkS true n false None None.
Example C106_nontrivial :
  styles_for 32 64 [] [[97]; [98]; []; [97]; []] = Some ([32; 33; 34; 32; 35], [([97], 32); ([98], 33); ([], 34); ([], 35)]) /\
  styles_for 32 34 [] [[97]; [98]; [97]; [99]] = None /\
  (exists t, pass 32 64 [] [lamp [97]; lamp []; mkS false [97] true None None; mkS false [] true None (Some 5); lamp [98]] =
    Some ([mkS true [97] false (Some 32) None; lamp []; mkS false [97] true None (Some 32); mkS false [] true None (Some 33); mkS true [98] false (Some 34) None], t)).
Proof. split; [vm_compute; reflexivity|]. split; [vm_compute; reflexivity|]. eexists. vm_compute. reflexivity. Qed.

(** Surface lights with a targetname ask for styles from several threads without a lock.  Two threads between
    whose searches no append happens give two names the same style, or one name two entries; and even if calls do not
    overlap, which name gets which number depends on the order of the threads. *)
Theorem C106_threads_refuted : exists a b, a <> b /\
  run_halves 32 64 [] (fun _ => None) [Search 0 a; Search 1 b; Append 0 a; Append 1 b] = [(0%nat, 32); (1%nat, 32)] /\
  run_halves 32 64 [] (fun _ => None) [Search 0 a; Append 0 a; Search 1 b; Append 1 b] = [(0%nat, 32); (1%nat, 33)] /\
  run_halves 32 64 [] (fun _ => None) [Search 1 b; Append 1 b; Search 0 a; Append 0 a] = [(1%nat, 32); (0%nat, 33)].
Proof. exists [97], [98]. split; [congruence|]. repeat split; vm_compute; reflexivity. Qed.
Print Assumptions C106_threads_refuted.

(** ** C107: escape sequences *)

Definition glow (bold : bool) (c : Z) : Z := if bold then Z.lor c 128 else c.
Lemma parse_esc_plain : forall a bold, has_esc a = false -> parse_esc bold a = map (glow bold) a.
Proof.
  induction a as [|c a IH]; intros bold H; [reflexivity|]. destruct a as [|d a]; [reflexivity|].
  change (has_esc (c :: d :: a)) with (((c =? 92) && (d =? 98)) || has_esc (d :: a)) in H. apply orb_false_iff in H. destruct H as (H1 & H2).
  change (parse_esc bold (c :: d :: a)) with (if (c =? 92) && (d =? 98) then parse_esc (negb bold) a else glow bold c :: parse_esc bold (d :: a)).
  rewrite H1, (IH bold H2). reflexivity.
Qed.
(** Up to the first "\b" bytes are copied, then bit 7 is switched and the rest is handled in the same way. *)
Theorem C107_escape : forall a b bold, has_esc a = false ->
  parse_esc bold a = map (glow bold) a /\ parse_esc bold (a ++ [92; 98] ++ b) = map (glow bold) a ++ parse_esc (negb bold) b.
Proof.
  intros a b bold H. split; [apply parse_esc_plain, H|]. revert bold H. induction a as [|c a IH]; intros bold H; [reflexivity|].
  assert (H2 : has_esc a = false).
  { destruct a as [|d a]; [reflexivity|]. change (has_esc (c :: d :: a)) with (((c =? 92) && (d =? 98)) || has_esc (d :: a)) in H. apply orb_false_iff in H. apply H. }
  specialize (IH bold H2). cbn [map]. destruct a as [|d a].
  - cbn [app map]. cbn [app map] in IH. rewrite <- IH. cbn [parse_esc]. change (92 =? 98) with false. rewrite andb_false_r. reflexivity.
  - change (has_esc (c :: d :: a)) with (((c =? 92) && (d =? 98)) || has_esc (d :: a)) in H. apply orb_false_iff in H. destruct H as (H1 & _).
    change ((c :: d :: a) ++ [92; 98] ++ b) with (c :: d :: (a ++ [92; 98] ++ b)).
    change ((d :: a) ++ [92; 98] ++ b) with (d :: (a ++ [92; 98] ++ b)) in IH.
    change (parse_esc bold (c :: d :: (a ++ [92; 98] ++ b))) with (if (c =? 92) && (d =? 98) then parse_esc (negb bold) (a ++ [92; 98] ++ b) else glow bold c :: parse_esc bold (d :: (a ++ [92; 98] ++ b))).
    rewrite H1, IH. reflexivity.
Qed.
Print Assumptions C107_escape.

(** A value without "\b" is kept; no value gets longer. *)
Theorem C107_kept : forall s, (has_esc s = false -> parse_esc false s = s) /\ forall bold, (length (parse_esc bold s) <= length s)%nat.
Proof.
  intro s. split; [apply parse_esc_id|].
  assert (G : forall n s bold, (length s <= n)%nat -> (length (parse_esc bold s) <= length s)%nat).
  { induction n as [|n IH]; intros [|c [|d r]] bold L; cbn [length] in *; try (cbn; lia).
    change (parse_esc bold (c :: d :: r)) with (if (c =? 92) && (d =? 98) then parse_esc (negb bold) r else glow bold c :: parse_esc bold (d :: r)).
    destruct ((c =? 92) && (d =? 98)).
    - specialize (IH r (negb bold) ltac:(lia)). lia.
    - specialize (IH (d :: r) bold ltac:(cbn [length]; lia)). cbn [length] in *. lia. }
  intro bold. apply (G (length s)). lia.
Qed.
Print Assumptions C107_kept.
Example C107_nontrivial : parse_esc false [104; 92; 98; 105; 92; 98; 33] = [104; 233; 33].
Proof. vm_compute. reflexivity. Qed.

(** Running light on its own output is not the identity on values: "\\b\bb" becomes "\b", which then vanishes. *)
Theorem C107_again_refuted : exists s, parse_esc false (parse_esc false s) <> parse_esc false s.
Proof. exists [92; 92; 98; 92; 98; 98]. vm_compute. congruence. Qed.
Print Assumptions C107_again_refuted.
(** Backslashes in file names are taken for escapes: the value "c:\base.wad" is not kept. *)
Theorem C107_path_refuted : parse_esc false [99; 58; 92; 98; 97; 115; 101; 46; 119; 97; 100] = [99; 58; 225; 243; 229; 174; 247; 225; 228].
Proof. vm_compute. reflexivity. Qed.
Print Assumptions C107_path_refuted.
