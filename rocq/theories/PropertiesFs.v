(* Property theorems about archives and file lookup: C86 to C88. *)
From Coq Require Import List Arith NArith ZArith Bool Lia Ascii String.
Import ListNotations.
From Verif Require Import Base Codec NumCastModel ParserModel CmdlibModel CmdlibProofs FsModel FsProofs.

(** ** C86: files in archives *)

(** An image in one of the two formats, with the constructor that reads it. *)
Definition archive_image (open : list N -> res (ftable * fstr)) (img : list N) (es : list entry) : Prop :=
  (open = pak_open /\ is_pak img es) \/ (open = wad_open /\ is_wad img es).
(** The results of loading names one after the other. *)
Fixpoint load_all (t : ftable) (s : fstr) (names : list (list N)) : list (option (list N)) :=
  match names with
  | [] => []
  | n :: names => let '(d, s') := arc_load t s n in d :: load_all t s' names
  end.
(** [e] is the last entry of the name. *)
Definition last_of (es : list entry) (name : list N) (e : entry) : Prop :=
  exists a b, es = a ++ e :: b /\ same_name (e_name e) name /\ Forall (fun x => ~ same_name (e_name x) name) b.
Definition absent (es : list entry) (name : list N) : Prop := Forall (fun x => ~ same_name (e_name x) name) es.

Lemma last_of_lookup : forall es name e, ~ In 0%N name -> last_of es name e -> lookup_last es name = Some e.
Proof.
  intros es name e Z0 (a & b & -> & S & F). apply lookup_last_some; rewrite (cstr_id name Z0); assumption.
Qed.
Lemma lookup_last_of : forall es name e, ~ In 0%N name -> lookup_last es name = Some e -> last_of es name e.
Proof.
  intros es name e Z0. induction es as [|x es IH]; simpl; [discriminate|].
  destruct (lookup_last es name) eqn:L; intro H.
  - destruct (IH H) as (a & b & -> & S & F). exists (x :: a), b. auto.
  - destruct (ci_equal (e_name x) name) eqn:C; inversion H; subst. exists [], es. repeat split.
    + apply ci_equal_iff in C. unfold e_name in *. rewrite cstr_idem, (cstr_id name Z0) in C. exact C.
    + apply lookup_last_none in L. rewrite (cstr_id name Z0) in L. exact L.
Qed.
Lemma absent_lookup : forall es name, ~ In 0%N name -> (lookup_last es name = None <-> absent es name).
Proof. intros. rewrite lookup_last_none, (cstr_id name H). reflexivity. Qed.
Lemma image_open : forall open img es, archive_image open img es ->
  exists t p, open img = ROk (t, mkFStr img p false) /\ table_of es t.
Proof. intros open img es [[-> H]|[-> H]]; [apply pak_open_ok|apply wad_open_ok]; assumption. Qed.

(** Opening a well-formed archive succeeds, and any sequence of loads returns, for each name, exactly
    the bytes of its last entry, or nothing for a name that is not there. *)
Theorem C86_archives_partial : forall open img es, archive_image open img es ->
  exists t s, open img = ROk (t, s) /\
  (forall name, ~ In 0%N name -> (arc_contains t name = false <-> absent es name)) /\
  (Forall (inside img) es -> forall names, Forall (fun n => ~ In 0%N n) names ->
     Forall2 (fun name r => (exists e, last_of es name e /\ r = Some (data_of img e)) \/ (absent es name /\ r = None))
             names (load_all t s names)).
Proof.
  intros open img es H. destruct (image_open _ _ _ H) as (t & p & O & T). exists t, (mkFStr img p false).
  split; [exact O|]. split.
  - intros name Z0. unfold arc_contains. rewrite T, <- (absent_lookup es name Z0).
    destruct (lookup_last es name); split; congruence.
  - intros I names F. clear O. revert p. induction F as [|name names Z0 F IH]; intro p; cbn [load_all]; [constructor|].
    destruct (lookup_last es name) as [e|] eqn:L.
    + rewrite (arc_load_ok img t es p name e T L).
      2:{ rewrite Forall_forall in I. apply I. eapply lookup_last_in. eassumption. }
      constructor; [|apply IH]. left. exists e. split; [apply lookup_last_of; assumption|reflexivity].
    + unfold arc_load. rewrite T, L. constructor; [|apply IH]. right. split; [apply absent_lookup; assumption|reflexivity].
Qed.
Print Assumptions C86_archives_partial.

(** Loading an entry that reaches past the end of the file delivers its data filled up with zeros, and
    from then on every file of the archive is delivered as zeros only. *)
Theorem C86_overrun_refuted : forall open img es, archive_image open img es ->
  exists t s, open img = ROk (t, s) /\
  forall name e names, ~ In 0%N name -> last_of es name e -> ~ inside img e -> Forall (fun n => ~ In 0%N n) names ->
  exists later,
    load_all t s (name :: names)
      = Some (data_of img e ++ repeat 0%N (N.to_nat (e_size e) - List.length (data_of img e))) :: later /\
    Forall2 (fun n r => forall e', last_of es n e' -> r = Some (repeat 0%N (N.to_nat (e_size e')))) names later.
Proof.
  intros open img es H. destruct (image_open _ _ _ H) as (t & p & O & T). exists t, (mkFStr img p false).
  split; [exact O|]. intros name e names Z0 L NI F. cbn [load_all].
  destruct (arc_load_overrun img t es p name e T (last_of_lookup _ _ _ Z0 L) NI) as [q E]. rewrite E.
  eexists. split; [reflexivity|]. clear E. induction F as [|n names Zn F IH]; cbn [load_all]; [constructor|].
  destruct (arc_load t (mkFStr img q true) n) as [d s'] eqn:A.
  assert (K : s' = mkFStr img q true /\ forall e', last_of es n e' -> d = Some (repeat 0%N (N.to_nat (e_size e')))).
  { unfold arc_load in A. rewrite T in A. destruct (lookup_last es n) as [x|] eqn:X.
    - cbn in A. inversion A; subst. split; [reflexivity|]. intros e' L'. apply last_of_lookup in L'; [|assumption].
      assert (x = e') by congruence. subst. rewrite Nat.sub_0_r. reflexivity.
    - inversion A; subst. split; [reflexivity|]. intros e' L'. apply last_of_lookup in L'; [congruence|assumption]. }
  destruct K as [-> K]. constructor; [exact K|exact IH].
Qed.
Print Assumptions C86_overrun_refuted.

(** A PAK with two entries: "A" holds two bytes, "B" claims four where one is left. *)
Definition pad56 (n : list N) : list N := n ++ repeat 0%N (56 - List.length n).
Definition pak_ex : list N :=
  PACK ++ put_le 4 12 ++ put_le 4 128 ++
  pad56 [65%N] ++ put_le 4 140 ++ put_le 4 2 ++ pad56 [66%N] ++ put_le 4 142 ++ put_le 4 4 ++ [7; 8; 9]%N.
Definition es_ex : list entry := [mkEntry (pad56 [65%N]) 140 2; mkEntry (pad56 [66%N]) 142 4].
Example C86_nontrivial :
  archive_image pak_open pak_ex es_ex /\ ~ Forall (inside pak_ex) es_ex /\ Forall (inside pak_ex) (firstn 1 es_ex) /\
  (exists t s, pak_open pak_ex = ROk (t, s) /\
     load_all t s [[97]; [66]; [65]; [67]]%N = [Some [7; 8]; Some [9; 0; 0; 0]; Some [0; 0]; None]%N).
Proof.
  assert (A : is_pak pak_ex es_ex).
  { split.
    - apply Forall_cons; [|apply Forall_cons; [|constructor]]; (split; [reflexivity|]; split; [right; left; reflexivity|split; reflexivity]).
    - exists 12%N, 128%N. repeat split; reflexivity. }
  split; [left; split; [reflexivity|exact A]|]. split; [|split].
  - intro F. inversion F as [|? ? ? F']; subst. inversion F' as [|? ? I ?]; subst.
    unfold inside in I. vm_compute in I. destruct I as [I|I]; [discriminate|lia].
  - apply Forall_cons; [right; vm_compute; lia|constructor].
  - eexists. eexists. split; vm_compute; reflexivity.
Qed.

(** ** C87: malformed archives *)

Definition name_field (d : list N) (ofs n : nat) : list N := slice d ofs n.

(** A file of at least twelve bytes with another magic is refused: nothing is added. *)
Theorem C87_refused_partial : forall img,
  (pak_open img = RThrow <-> (12 <= List.length img)%nat /\ firstn 4 img <> PACK) /\
  (wad_open img = RThrow <-> (12 <= List.length img)%nat /\ firstn 4 img <> WAD2 /\ firstn 4 img <> WAD3).
Proof.
  intro img. rewrite pak_open_cases, wad_open_cases.
  destruct (List.length img <? 12)%nat eqn:E; [apply Nat.ltb_lt in E|apply Nat.ltb_ge in E].
  { split; split; (discriminate || intros [? _]; lia). }
  split.
  - destruct (leqb (firstn 4 img) PACK) eqn:M.
    + apply leqb_iff in M. split; [|tauto].
      destruct (read_dir_cases 64 pak_entry img (N.to_nat (word_at img 8 / 64)) [] (N.to_nat (word_at img 4))) as [[-> _]|[[r ->] _]];
        [lia|discriminate|discriminate].
    + split; [|reflexivity]. intros _. split; [assumption|]. intro C. apply leqb_iff in C. congruence.
  - destruct (leqb (firstn 4 img) WAD2) eqn:M; [|destruct (leqb (firstn 4 img) WAD3) eqn:M3]; cbn [orb].
    + apply leqb_iff in M. split; [|tauto].
      destruct (read_dir_cases 32 wad_entry img (N.to_nat (word_at img 4)) [] (N.to_nat (word_at img 8))) as [[-> _]|[[r ->] _]];
        [lia|discriminate|discriminate].
    + apply leqb_iff in M3. split; [|tauto].
      destruct (read_dir_cases 32 wad_entry img (N.to_nat (word_at img 4)) [] (N.to_nat (word_at img 8))) as [[-> _]|[[r ->] _]];
        [lia|discriminate|discriminate].
    + split; [|reflexivity]. intros _. split; [assumption|].
      split; intro C; apply leqb_iff in C; congruence.
Qed.
Print Assumptions C87_refused_partial.

(** The same for adding it: no archive and an unchanged state. *)
Theorem C87_not_added : forall w p st,
  p_empty p = false -> w_exists w p = true -> w_isdir w p = false ->
  Forall (fun a => w_equiv w (ar_path a) p = false) (ss_archives st) ->
  (w_ext w p = dotpak /\ (12 <= List.length (w_read w p))%nat /\ firstn 4 (w_read w p) <> PACK \/
   w_ext w p = dotwad /\ (12 <= List.length (w_read w p))%nat /\ firstn 4 (w_read w p) <> WAD2 /\ firstn 4 (w_read w p) <> WAD3) ->
  add_archive w p st = ROk (None, st).
Proof.
  intros w p st E X D F B. unfold add_archive. rewrite E, X. cbn [negb]. unfold add_internal. rewrite D.
  assert (Q : find (fun a => w_equiv w (ar_path a) p) (ss_archives st) = None).
  { clear - F. induction F as [|a l H F IH]; simpl; [reflexivity|]. rewrite H. exact IH. }
  rewrite Q. unfold open_file. destruct B as [(-> & L & M)|(-> & L & M)].
  - replace (iequals dotpak dotpak) with true by reflexivity.
    destruct (C87_refused_partial (w_read w p)) as [H _]. rewrite (proj2 H (conj L M)). reflexivity.
  - replace (iequals dotwad dotpak) with false by reflexivity. replace (iequals dotwad dotwad) with true by reflexivity.
    destruct (C87_refused_partial (w_read w p)) as [_ H]. rewrite (proj2 H (conj L M)). reflexivity.
Qed.
Print Assumptions C87_not_added.

(** The text of a literal, as bytes. *)
Definition text (s : string) : list N := map N_of_ascii (list_ascii_of_string s).

(** Only files with the extension .pak or .wad, in any case of letters, are opened as archives, and only
    those starting with PACK, or WAD2 or WAD3. *)
Theorem C87_opened : forall w p k, open_file w p = ROk (Some k) ->
  (12 <= List.length (w_read w p))%nat /\ exists t s, k = AArc t s /\
  (same_name (w_ext w p) (text ".pak"%string) /\ firstn 4 (w_read w p) = text "PACK"%string /\ pak_open (w_read w p) = ROk (t, s) \/
   same_name (w_ext w p) (text ".wad"%string) /\ (firstn 4 (w_read w p) = text "WAD2"%string \/ firstn 4 (w_read w p) = text "WAD3"%string) /\
   wad_open (w_read w p) = ROk (t, s)).
Proof.
  intros w p k. unfold open_file.
  destruct (iequals (w_ext w p) dotpak) eqn:E; [|destruct (iequals (w_ext w p) dotwad) eqn:E2; [|discriminate]].
  - apply iequals_iff in E. destruct (pak_open (w_read w p)) as [[t s]| |] eqn:O; try discriminate. intro H. injection H as <-.
    pose proof O as O'. rewrite pak_open_cases in O'.
    destruct (List.length (w_read w p) <? 12)%nat eqn:L; [discriminate|]. apply Nat.ltb_ge in L.
    destruct (leqb (firstn 4 (w_read w p)) PACK) eqn:M; [|discriminate]. apply leqb_iff in M.
    split; [exact L|]. exists t, s. split; [reflexivity|]. left. auto.
  - apply iequals_iff in E2. destruct (wad_open (w_read w p)) as [[t s]| |] eqn:O; try discriminate. intro H. injection H as <-.
    pose proof O as O'. rewrite wad_open_cases in O'.
    destruct (List.length (w_read w p) <? 12)%nat eqn:L; [discriminate|]. apply Nat.ltb_ge in L.
    split; [exact L|]. exists t, s. split; [reflexivity|]. right. split; [exact E2|]. split; [|reflexivity].
    destruct (leqb (firstn 4 (w_read w p)) WAD2) eqn:M; [apply leqb_iff in M; left; exact M|].
    destruct (leqb (firstn 4 (w_read w p)) WAD3) eqn:M3; [apply leqb_iff in M3; right; exact M3|]. discriminate.
Qed.
Print Assumptions C87_opened.

(** And a file with such an extension is opened whenever its constructor succeeds. *)
Theorem C87_opens : forall w p t s,
  (same_name (w_ext w p) (text ".pak"%string) -> pak_open (w_read w p) = ROk (t, s) -> open_file w p = ROk (Some (AArc t s))) /\
  (same_name (w_ext w p) (text ".wad"%string) -> wad_open (w_read w p) = ROk (t, s) -> open_file w p = ROk (Some (AArc t s))).
Proof.
  intros w p t s. unfold open_file. split; intros E O.
  - replace (iequals (w_ext w p) dotpak) with true by (symmetry; apply iequals_iff; exact E). rewrite O. reflexivity.
  - replace (iequals (w_ext w p) dotpak) with false.
    + replace (iequals (w_ext w p) dotwad) with true by (symmetry; apply iequals_iff; exact E). rewrite O. reflexivity.
    + symmetry. apply not_true_iff_false. intro Q. apply iequals_iff in Q. unfold same_name in E. rewrite E in Q. discriminate.
Qed.
Print Assumptions C87_opens.

(** Otherwise the constructors use memory they never initialised, or read past an array, exactly when
    the file is shorter than its header, or the directory reaches past the end of the file, or a name
    of the directory has no NUL; the checks that would refuse such files are missing. *)
Theorem C87_malformed_refuted : forall img,
  (pak_open img = RUB <->
    (List.length img < 12)%nat \/
    firstn 4 img = PACK /\ exists i, (i < N.to_nat (word_at img 8 / 64))%nat /\
      let at_ := (N.to_nat (word_at img 4) + 64 * i)%nat in
      (List.length img < at_ + 64)%nat \/ ~ In 0%N (name_field img at_ 56)) /\
  (wad_open img = RUB <->
    (List.length img < 12)%nat \/
    (firstn 4 img = WAD2 \/ firstn 4 img = WAD3) /\ exists i, (i < N.to_nat (word_at img 4))%nat /\
      let at_ := (N.to_nat (word_at img 8) + 32 * i)%nat in
      (List.length img < at_ + 32)%nat \/ ~ In 0%N (name_field img (at_ + 16) 16)).
Proof.
  assert (FP : forall img a, fst (pak_entry (slice img a 64)) = name_field img a 56).
  { intros. unfold pak_entry, name_field, slice. cbn [fst]. rewrite firstn_firstn. reflexivity. }
  assert (FW : forall img a, fst (wad_entry (slice img a 32)) = name_field img (a + 16) 16).
  { intros. unfold wad_entry, name_field, slice. cbn [fst].
    rewrite skipn_firstn_comm, firstn_firstn, skipn_skipn. rewrite (Nat.add_comm 16 a). reflexivity. }
  intro img. rewrite pak_open_cases, wad_open_cases.
  destruct (List.length img <? 12)%nat eqn:E; [apply Nat.ltb_lt in E|apply Nat.ltb_ge in E].
  { tauto. }
  split.
  - destruct (leqb (firstn 4 img) PACK) eqn:M.
    + apply leqb_iff in M.
      destruct (read_dir_cases 64 pak_entry img (N.to_nat (word_at img 8 / 64)) [] (N.to_nat (word_at img 4)))
        as [[-> (i & I & B)]|[[r ->] B]]; [lia| |].
      * split; [|reflexivity]. intros _. right. split; [assumption|]. exists i. split; [assumption|].
        unfold bad_entry in B. rewrite FP in B. exact B.
      * split; [discriminate|]. intros [L|(_ & i & I & Q)]; [lia|]. exfalso. apply (B i I).
        unfold bad_entry. rewrite FP. exact Q.
    + split; [discriminate|]. intros [L|(C & _)]; [lia|]. apply leqb_iff in C. congruence.
  - destruct (leqb (firstn 4 img) WAD2 || leqb (firstn 4 img) WAD3) eqn:M.
    + assert (M' : firstn 4 img = WAD2 \/ firstn 4 img = WAD3).
      { apply orb_true_iff in M. rewrite !leqb_iff in M. exact M. }
      destruct (read_dir_cases 32 wad_entry img (N.to_nat (word_at img 4)) [] (N.to_nat (word_at img 8)))
        as [[-> (i & I & B)]|[[r ->] B]]; [lia| |].
      * split; [|reflexivity]. intros _. right. split; [assumption|]. exists i. split; [assumption|].
        unfold bad_entry in B. rewrite FW in B. exact B.
      * split; [discriminate|]. intros [L|(_ & i & I & Q)]; [lia|]. exfalso. apply (B i I).
        unfold bad_entry. rewrite FW. exact Q.
    + split; [discriminate|]. intros [L|(C & _)]; [lia|]. rewrite <- !leqb_iff in C. apply orb_true_iff in C. congruence.
Qed.
Print Assumptions C87_malformed_refuted.

Example C87_nontrivial :
  pak_open (PACK ++ repeat 0%N 7) = RUB /\
  wad_open (WAD2 ++ put_le 4 1 ++ put_le 4 12 ++ repeat 0%N 31) = RUB /\
  wad_open (WAD2 ++ put_le 4 1 ++ put_le 4 12 ++ repeat 0%N 16 ++ repeat 65%N 16) = RUB /\
  pak_open (repeat 65%N 12) = RThrow /\ wad_open PACK = RUB /\
  wad_open (WAD3 ++ put_le 4 1 ++ put_le 4 12 ++ repeat 0%N 16 ++ repeat 65%N 15 ++ [0%N]) <> RUB.
Proof. repeat split; try reflexivity. vm_compute. discriminate. Qed.

(** ** C88: which file is used *)

(** Unless the path names a file inside an archive, the first place in the documented order that has
    it is used: with loose priority the working directory, then the directories, then the archives;
    otherwise archives, directories, working directory; absolute paths only as they are. *)
Theorem C88_order : forall w st p b, reached w st -> split_path w p = None ->
  exists r, where_is w p b st = ROk (r, st) /\
  match r with
  | None => Forall (fun s => ~ has w st s p) (places st p b)
  | Some (s, q) => q = p /\ exists before after, places st p b = before ++ s :: after /\
                   has w st s p /\ Forall (fun s => ~ has w st s p) before
  end.
Proof.
  intros w st p b R S. apply reached_ids in R. unfold where_is. rewrite S. rewrite (passes_find w st p b R).
  eexists. split; [reflexivity|]. pose proof (find_split _ (hasb w st p) (places st p b)) as F.
  assert (NH : forall l, Forall (fun y => hasb w st p y = false) l -> Forall (fun s => ~ has w st s p) l).
  { intros l G. eapply Forall_impl; [|exact G]. intros a H C. apply hasb_iff in C. congruence. }
  destruct (find (hasb w st p) (places st p b)).
  - destruct F as (x & y & E & H & G). split; [reflexivity|]. exists x, y. split; [exact E|].
    split; [apply hasb_iff; exact H|apply NH; exact G].
  - apply NH. exact F.
Qed.
Print Assumptions C88_order.

Lemma load_in_at : forall w l a p, NoDup (map ar_id l) -> In a l -> fst (load_in w l (ar_id a) p) = fst (a_load w a p).
Proof.
  induction l as [|x l IH]; intros a p ND I; [destruct I|]. cbn [load_in]. inversion ND; subst.
  destruct (ar_id x =? ar_id a) eqn:E.
  - apply Nat.eqb_eq in E. destruct I as [->|I].
    + destruct (a_load w a p). reflexivity.
    + exfalso. apply H1. rewrite E. apply in_map. assumption.
  - apply Nat.eqb_neq in E. destruct I as [->|I]; [congruence|].
    specialize (IH a p H2 I). destruct (load_in w l (ar_id a) p). exact IH.
Qed.

(** What is loaded comes from the place found: the file itself, the file below the directory, or the
    entry of the archive. *)
Theorem C88_load : forall w st p,
  reached w st ->
  fst (load_at w (Some (SCwd, p)) st) = (if w_exists w p && w_isreg w p then Some (w_read w p) else None) /\
  forall a, In a (ss_archives st ++ ss_dirs st) ->
    fst (load_at w (Some (SArch (ar_id a), p)) st) =
    match ar_kind a with
    | ADir => let q := if p_empty (ar_path a) then p else p_join (ar_path a) p in
              if w_exists w q && w_isreg w q then Some (w_read w q) else None
    | AArc t s => fst (arc_load t s (p_string p))
    end.
Proof.
  intros w st p R. apply reached_ids in R. destruct R as [ND _].
  assert (DL : forall q, dir_load w q = if w_exists w q && w_isreg w q then Some (w_read w q) else None).
  { intro q. unfold dir_load. destruct (w_exists w q), (w_isreg w q); reflexivity. }
  split; [apply DL|]. intros a I.
  transitivity (fst (a_load w a p)).
  - unfold load_at. rewrite map_app in ND.
    destruct (existsb (fun a0 => ar_id a0 =? ar_id a) (ss_archives st)) eqn:E.
    + assert (J : In a (ss_archives st)).
      { apply existsb_exists in E. destruct E as (b & B & Q). apply Nat.eqb_eq in Q.
        assert (b = a); [|subst; assumption].
        eapply (nodup_id (ss_archives st ++ ss_dirs st)); [rewrite map_app; exact ND| |exact I|exact Q].
        apply in_or_app. auto. }
      assert (ND' : NoDup (map ar_id (ss_archives st))).
      { clear - ND. induction (map ar_id (ss_archives st)); [constructor|]. inversion ND; subst. constructor; auto.
        intro. apply H1. apply in_or_app. auto. }
      pose proof (load_in_at w (ss_archives st) a p ND' J) as L.
      destruct (load_in w (ss_archives st) (ar_id a) p). exact L.
    + assert (J : In a (ss_dirs st)).
      { apply in_app_or in I. destruct I as [I|I]; [|assumption]. exfalso.
        assert (existsb (fun a0 => ar_id a0 =? ar_id a) (ss_archives st) = true); [|congruence].
        apply existsb_exists. exists a. split; [assumption|apply Nat.eqb_refl]. }
      assert (ND' : NoDup (map ar_id (ss_dirs st))).
      { clear - ND. induction (map ar_id (ss_archives st)); [exact ND|]. inversion ND; subst. auto. }
      pose proof (load_in_at w (ss_dirs st) a p ND' J) as L.
      destruct (load_in w (ss_dirs st) (ar_id a) p). exact L.
  - unfold a_load. destruct (ar_kind a); [apply DL|]. destruct (arc_load t s (p_string p)). reflexivity.
Qed.
Print Assumptions C88_load.

(** A newly added archive or directory is searched before those of its kind added earlier; adding one
    that is already there changes nothing. *)
Theorem C88_add : forall w p st r st', add_archive w p st = ROk (r, st') ->
  (st' = st /\ match r with
               | None => True
               | Some a => In a (ss_archives st ++ ss_dirs st) /\
                           (w_equiv w (ar_path a) p = true \/ w_equiv w (ar_path a) (p_filename p) = true)
               end) \/
  (exists a, r = Some a /\ (ar_path a = p \/ ar_path a = p_filename p /\ w_exists w p = false) /\
     ((w_isdir w (ar_path a) = true /\ ss_dirs st' = a :: ss_dirs st /\ ss_archives st' = ss_archives st /\
       Forall (fun x => w_equiv w (ar_path x) (ar_path a) = false) (ss_dirs st)) \/
      (w_isdir w (ar_path a) = false /\ ss_archives st' = a :: ss_archives st /\ ss_dirs st' = ss_dirs st /\
       Forall (fun x => w_equiv w (ar_path x) (ar_path a) = false) (ss_archives st)))).
Proof.
  intros w p st r st' H. unfold add_archive in H.
  destruct (p_empty p); [inversion H; subst; auto|].
  assert (A : forall q, (q = p \/ q = p_filename p /\ w_exists w p = false) -> add_internal w q st = ROk (r, st') ->
    (st' = st /\ match r with
               | None => True
               | Some a => In a (ss_archives st ++ ss_dirs st) /\
                           (w_equiv w (ar_path a) p = true \/ w_equiv w (ar_path a) (p_filename p) = true)
               end) \/
    (exists a, r = Some a /\ (ar_path a = p \/ ar_path a = p_filename p /\ w_exists w p = false) /\
     ((w_isdir w (ar_path a) = true /\ ss_dirs st' = a :: ss_dirs st /\ ss_archives st' = ss_archives st /\
       Forall (fun x => w_equiv w (ar_path x) (ar_path a) = false) (ss_dirs st)) \/
      (w_isdir w (ar_path a) = false /\ ss_archives st' = a :: ss_archives st /\ ss_dirs st' = ss_dirs st /\
       Forall (fun x => w_equiv w (ar_path x) (ar_path a) = false) (ss_archives st))))).
  { intros q Q G. unfold add_internal in G. destruct (w_isdir w q) eqn:D.
    - pose proof (find_split _ (fun a => w_equiv w (ar_path a) q) (ss_dirs st)) as F.
      destruct (find _ (ss_dirs st)) as [a|].
      + inversion G; subst. left. split; [reflexivity|]. destruct F as (x & y & E & V & _). split.
        * rewrite E. apply in_or_app. right. apply in_or_app. right. left. reflexivity.
        * destruct Q as [->|[-> _]]; auto.
      + inversion G; subst. right. eexists. split; [reflexivity|]. cbn [ar_path]. split; [exact Q|]. left. auto.
    - pose proof (find_split _ (fun a => w_equiv w (ar_path a) q) (ss_archives st)) as F.
      destruct (find _ (ss_archives st)) as [a|].
      + inversion G; subst. left. split; [reflexivity|]. destruct F as (x & y & E & V & _). split.
        * rewrite E. rewrite <- app_assoc. apply in_or_app. right. left. reflexivity.
        * destruct Q as [->|[-> _]]; auto.
      + destruct (open_file w q) as [k| |]; try discriminate. cbn [rbind] in G.
        destruct k as [k|]; inversion G; subst; [|left; auto].
        right. eexists. split; [reflexivity|]. cbn [ar_path]. split; [exact Q|]. right. auto. }
  destruct (w_exists w p) eqn:X; cbn [negb] in H.
  - apply (A p); auto.
  - destruct (w_exists w (p_filename p)); cbn [negb] in H; [|inversion H; subst; auto].
    apply (A (p_filename p)); auto.
Qed.
Print Assumptions C88_add.

(** A path into an archive is split at its longest proper prefix that is a regular file; the two parts
    make up the path. *)
Theorem C88_split : forall w src,
  match split_path w src with
  | Some (a, f) => w_isreg w a = true /\ p_abs a = p_abs src /\ p_abs f = false /\
      p_comps src = p_comps a ++ p_comps f /\ p_comps a <> [] /\ p_comps f <> [] /\
      forall x y, p_comps src = x ++ y -> (List.length (p_comps a) < List.length x)%nat -> y <> [] ->
        w_isreg w (mkPath (p_abs src) x) = false
  | None => forall x y, p_comps src = x ++ y -> x <> [] -> y <> [] -> w_isreg w (mkPath (p_abs src) x) = false
  end.
Proof.
  intros w src. unfold split_path. pose proof (split_go_spec w src (List.length (p_comps src) - 1)) as G.
  assert (FX : forall x y : list (list N), firstn (List.length x) (x ++ y) = x).
  { intros. rewrite firstn_app, Nat.sub_diag, firstn_all. apply app_nil_r. }
  destruct (split_go w src (List.length (p_comps src) - 1)) as [[a f]|].
  - destruct G as (j & J & -> & -> & R & G); [lia|]. cbn [p_abs p_comps].
    split; [exact R|]. split; [reflexivity|]. split; [reflexivity|]. split; [symmetry; apply firstn_skipn|].
    assert (LJ : List.length (firstn j (p_comps src)) = j) by (rewrite firstn_length; lia).
    split; [intro E; rewrite E in LJ; simpl in LJ; lia|]. split.
    { intro E. assert (List.length (skipn j (p_comps src)) = 0%nat) by (rewrite E; reflexivity). rewrite skipn_length in H. lia. }
    intros x y E L Y. rewrite LJ in L. specialize (G (List.length x)). rewrite E in G. rewrite FX in G. apply G.
    assert (List.length (p_comps src) = List.length x + List.length y)%nat by (rewrite E; apply app_length).
    destruct y; [congruence|]. simpl in H. rewrite E in J. rewrite app_length in *. simpl in *. lia.
  - intros x y E X Y. assert (G' := G ltac:(lia) (List.length x)). rewrite E in G'. rewrite FX in G'. apply G'.
    rewrite app_length. destruct x; [congruence|]. destruct y; [congruence|]. simpl. lia.
Qed.
Print Assumptions C88_split.

(** Such a path is only looked for in that archive, once it could be opened: the result names the archive
    whether or not it has the file, and the archive stays in the search list. *)
Theorem C88_direct : forall w st p b a f, split_path w p = Some (a, f) ->
  forall ar st', add_archive w a st = ROk (Some ar, st') ->
  where_is w p b st = ROk (Some (SArch (ar_id ar), f), st').
Proof. intros w st p b a f S ar st' A. unfold where_is. rewrite S, A. reflexivity. Qed.
Print Assumptions C88_direct.

(** A directory called like the file hides it: with loose priority a directory "base" that contains a
    directory "light" hides the texture "light" of a WAD, which is found when the directory is not there. *)
Definition p_of (s : list N) : path := mkPath false [s].
Definition wad_ex : list N :=
  WAD2 ++ put_le 4 1 ++ put_le 4 12 ++ put_le 4 44 ++ put_le 4 2 ++ repeat 0%N 8 ++ [108; 105; 103; 104; 116]%N ++ repeat 0%N 11 ++ [7; 8]%N.
Definition light_name : list N := [108; 105; 103; 104; 116]%N.
Definition path_eqb (a b : path) : bool :=
  Bool.eqb (p_abs a) (p_abs b) && if list_eq_dec (list_eq_dec N.eq_dec) (p_comps a) (p_comps b) then true else false.
Definition base_name : list N := [98; 97; 115; 101]%N.
Definition wad_name : list N := [119; 46; 119; 97; 100]%N.
Definition world_ex (with_dir : bool) : world :=
  let dirs := p_of base_name :: if with_dir then [mkPath false [base_name; light_name]] else [] in
  let isdir p := existsb (path_eqb p) dirs in
  mkWorld (fun p => isdir p || path_eqb p (p_of wad_name)) isdir (fun p => path_eqb p (p_of wad_name)) path_eqb
          (fun p => if path_eqb p (p_of wad_name) then dotwad else []) (fun _ => wad_ex).
Definition load_light (with_dir : bool) : res (option (list N)) :=
  let w := world_ex with_dir in
  rbind (add_archive w (p_of wad_name) (mkSS [] [] 0)) (fun '(_, st) =>
  rbind (add_archive w (p_of base_name) st) (fun '(_, st) =>
  rbind (fs_load w (p_of light_name) true st) (fun '(d, _) => ROk d))).
Theorem C88_directory_hides_refuted :
  load_light false = ROk (Some [7; 8]%N) /\ load_light true = ROk None.
Proof. split; vm_compute; reflexivity. Qed.
Print Assumptions C88_directory_hides_refuted.

Example C88_nontrivial :
  exists st, reached (world_ex true) st /\ List.length (ss_archives st) = 1%nat /\ List.length (ss_dirs st) = 1%nat /\
    places st (p_of light_name) true = [SCwd; SArch 1; SArch 0] /\
    places st (p_of light_name) false = [SArch 0; SArch 1; SCwd] /\
    where_is (world_ex true) (p_of light_name) false st = ROk (Some (SArch 0, p_of light_name), st) /\
    split_path (world_ex true) (mkPath false [wad_name; light_name]) = Some (p_of wad_name, p_of light_name) /\
    where_is (world_ex true) (mkPath false [wad_name; light_name]) false st = ROk (Some (SArch 0, p_of light_name), st).
Proof.
  destruct (add_archive (world_ex true) (p_of wad_name) (mkSS [] [] 0)) as [[r1 s1]| |] eqn:E1;
    [|vm_compute in E1; discriminate|vm_compute in E1; discriminate].
  destruct (add_archive (world_ex true) (p_of base_name) s1) as [[r2 s2]| |] eqn:E2;
    [|vm_compute in E1; inversion E1; subst; vm_compute in E2; discriminate
     |vm_compute in E1; inversion E1; subst; vm_compute in E2; discriminate].
  exists s2. split.
  - eapply re_add; [|exact E2]. eapply re_add; [|exact E1]. constructor.
  - vm_compute in E1. inversion E1; subst. vm_compute in E2. inversion E2; subst. vm_compute. repeat split; reflexivity.
Qed.
