(* Lemmas about archives and file lookup. *)
From Coq Require Import List Arith NArith ZArith Bool Lia.
Import ListNotations.
From Verif Require Import Base Codec NumCastModel ParserModel CmdlibModel FsModel.

(** ** Specification of archive images *)

(** [slice img ofs n]: the [n] bytes of the file at offset [ofs]. *)
Definition slice (img : list N) (ofs n : nat) : list N := firstn n (skipn ofs img).
(** An entry of a directory: its name field as stored, and where its data is. *)
Record entry := mkEntry { e_field : list N; e_ofs : N; e_size : N }.
(** The name: the bytes of the field before the first NUL. *)
Definition e_name (e : entry) : list N := cstr (e_field e).
Definition entry_ok (n : nat) (e : entry) : Prop :=
  length (e_field e) = n /\ In 0%N (e_field e) /\ (e_ofs e < 2 ^ 32)%N /\ (e_size e < 2 ^ 32)%N.
Definition pak_record (e : entry) : list N := e_field e ++ put_le 4 (e_ofs e) ++ put_le 4 (e_size e).
(** size, type, compression and padding are arbitrary. *)
Definition is_wad_record (e : entry) (r : list N) : Prop :=
  exists other, length other = 8 /\ r = put_le 4 (e_ofs e) ++ put_le 4 (e_size e) ++ other ++ e_field e.
(** A PAK file with the directory [es], wherever the directory is. *)
Definition is_pak (img : list N) (es : list entry) : Prop :=
  Forall (entry_ok 56) es /\
  exists ofs dsize, (ofs < 2 ^ 32)%N /\ (dsize < 2 ^ 32)%N /\
    slice img 0 12 = PACK ++ put_le 4 ofs ++ put_le 4 dsize /\
    N.to_nat (dsize / 64) = length es /\
    slice img (N.to_nat ofs) (64 * length es) = concat (map pak_record es).
(** A WAD file with the directory [es]. *)
Definition is_wad (img : list N) (es : list entry) : Prop :=
  Forall (entry_ok 16) es /\
  exists magic ofs recs, (magic = WAD2 \/ magic = WAD3) /\ (ofs < 2 ^ 32)%N /\ (N.of_nat (length es) < 2 ^ 32)%N /\
    slice img 0 12 = magic ++ put_le 4 (N.of_nat (length es)) ++ put_le 4 ofs /\
    Forall2 is_wad_record es recs /\
    slice img (N.to_nat ofs) (32 * length es) = concat recs.
(** The data of an entry lies inside the file. *)
Definition inside (img : list N) (e : entry) : Prop :=
  e_size e = 0%N \/ (N.to_nat (e_ofs e) + N.to_nat (e_size e) <= length img)%nat.
Definition data_of (img : list N) (e : entry) : list N := slice img (N.to_nat (e_ofs e)) (N.to_nat (e_size e)).
(** Names that differ in the case of ASCII letters only. *)
Definition same_name (a b : list N) : Prop := map lower a = map lower b.

(** ** The table *)

Lemma slice_length : forall img ofs n, (ofs + n <= length img)%nat -> length (slice img ofs n) = n.
Proof. intros. unfold slice. rewrite firstn_length, skipn_length. lia. Qed.

Lemma casecmp_iff : forall a b, casecmp a b = Eq <-> same_name a b.
Proof.
  unfold same_name. induction a as [|x a IH]; intros [|y b]; simpl; split; intro H; try reflexivity; try discriminate.
  - destruct (N.compare_spec (lower x) (lower y)) as [E|E|E]; try discriminate.
    apply IH in H. congruence.
  - inversion H as [[E1 E2]]. rewrite N.compare_refl. apply IH. assumption.
Qed.

Lemma cstr_id : forall a, ~ In 0%N a -> cstr a = a.
Proof.
  induction a as [|x a IH]; intro H; simpl; [reflexivity|].
  destruct (N.eqb_spec x 0) as [->|E]; [exfalso; apply H; left; reflexivity|].
  f_equal. apply IH. intro. apply H. right. assumption.
Qed.
Lemma cstr_no_nul : forall a, ~ In 0%N (cstr a).
Proof.
  induction a as [|x a IH]; simpl; [tauto|].
  destruct (N.eqb_spec x 0) as [->|E]; simpl; [tauto|]. intros [H|H]; [congruence|tauto].
Qed.
Lemma cstr_idem : forall a, cstr (cstr a) = cstr a.
Proof. intro. apply cstr_id. apply cstr_no_nul. Qed.

Lemma ci_equal_iff : forall a b, ci_equal a b = true <-> same_name (cstr a) (cstr b).
Proof.
  intros. unfold ci_equal. rewrite <- casecmp_iff. destruct (casecmp (cstr a) (cstr b)); split; congruence.
Qed.
Lemma ci_equal_sym : forall a b, ci_equal a b = ci_equal b a.
Proof.
  intros. apply eq_true_iff_eq. rewrite !ci_equal_iff. unfold same_name. split; congruence.
Qed.
Lemma ci_equal_trans : forall a b c, ci_equal a b = true -> ci_equal b c = ci_equal a c.
Proof.
  intros a b c H. apply ci_equal_iff in H. apply eq_true_iff_eq. rewrite !ci_equal_iff.
  unfold same_name in *. split; congruence.
Qed.

Lemma ft_find_set : forall t k v k', ft_find (ft_set t k v) k' = if ci_equal k k' then Some v else ft_find t k'.
Proof.
  induction t as [|[k0 v0] t IH]; intros k v k'; simpl; [reflexivity|].
  destruct (ci_equal k0 k) eqn:E; simpl.
  - rewrite <- (ci_equal_trans _ _ k' E). destruct (ci_equal k k'); reflexivity.
  - rewrite IH. destruct (ci_equal k0 k') eqn:E1; [|reflexivity].
    destruct (ci_equal k k') eqn:E2; [|reflexivity].
    rewrite ci_equal_sym in E2. rewrite <- (ci_equal_trans _ _ k E1) in E. congruence.
Qed.

(** The last entry of a name wins. *)
Fixpoint lookup_last (es : list entry) (name : list N) : option entry :=
  match es with
  | [] => None
  | e :: es => match lookup_last es name with
               | Some e' => Some e'
               | None => if ci_equal (e_name e) name then Some e else None
               end
  end.

Lemma lookup_last_none : forall es name,
  lookup_last es name = None <-> Forall (fun e => ~ same_name (e_name e) (cstr name)) es.
Proof.
  induction es as [|e es IH]; intro name; simpl; [split; auto|].
  destruct (lookup_last es name) eqn:E.
  - split; [discriminate|]. intro H. inversion H; subst. apply IH in H3. congruence.
  - destruct (ci_equal (e_name e) name) eqn:C.
    + split; [discriminate|]. intro H. inversion H; subst. exfalso. apply H2.
      apply ci_equal_iff in C. unfold e_name in C. rewrite cstr_idem in C. exact C.
    + split; [|reflexivity]. intros _. constructor; [|apply IH; assumption].
      intro S. assert (ci_equal (e_name e) name = true); [|congruence].
      apply ci_equal_iff. unfold e_name in *. rewrite cstr_idem. exact S.
Qed.
Lemma lookup_last_some : forall es1 e es2 name,
  same_name (e_name e) (cstr name) -> Forall (fun e => ~ same_name (e_name e) (cstr name)) es2 ->
  lookup_last (es1 ++ e :: es2) name = Some e.
Proof.
  intros es1 e es2 name H1 H2. apply lookup_last_none in H2.
  induction es1 as [|x es1 IH]; simpl.
  - rewrite H2. assert (C : ci_equal (e_name e) name = true); [|rewrite C; reflexivity].
    apply ci_equal_iff. unfold e_name in *. rewrite cstr_idem. exact H1.
  - rewrite IH. reflexivity.
Qed.
Lemma lookup_last_in : forall es name e, lookup_last es name = Some e -> In e es.
Proof.
  induction es as [|x es IH]; intros name e H; simpl in *; [discriminate|].
  destruct (lookup_last es name) eqn:E; [inversion H; subst; right; eapply IH; eassumption|].
  destruct (ci_equal (e_name x) name); inversion H; subst. left. reflexivity.
Qed.

(** ** Reading the directory *)

Lemma name_of_ok : forall a, In 0%N a -> name_of a = ROk (cstr a).
Proof.
  intros a H. unfold name_of. assert (E : existsb (N.eqb 0) a = true); [|rewrite E; reflexivity].
  apply existsb_exists. exists 0%N. split; [assumption|reflexivity].
Qed.

Lemma read_entry_ok : forall img pos n d rest, length d = n -> skipn pos img = d ++ rest ->
  read_entry n (mkFStr img pos false) = ROk (d, mkFStr img (pos + n) false) /\ skipn (pos + n) img = rest.
Proof.
  intros img pos n d rest L E. unfold read_entry, fread. cbn [fs_fail fs_pos fs_bytes].
  rewrite E. replace n with (length d) by assumption. rewrite firstn_app, Nat.sub_diag, firstn_all. simpl firstn.
  rewrite app_nil_r. rewrite Nat.ltb_irrefl. split; [reflexivity|].
  rewrite Nat.add_comm, <- skipn_skipn, E. rewrite skipn_app, Nat.sub_diag, skipn_all. reflexivity.
Qed.

Lemma le32_put : forall v rest, (v < 2 ^ 32)%N -> le32 (put_le 4 v ++ rest) = v.
Proof. intros. unfold le32. rewrite le_ok; [reflexivity|]. exact H. Qed.

Lemma skip_app : forall A (a b : list A) n, length a = n -> skipn n (a ++ b) = b.
Proof. intros. subst. rewrite skipn_app, Nat.sub_diag, skipn_all. reflexivity. Qed.
Lemma first_app : forall A (a b : list A) n, length a = n -> firstn n (a ++ b) = a.
Proof. intros. subst. rewrite firstn_app, Nat.sub_diag, firstn_all. simpl. apply app_nil_r. Qed.

Lemma pak_entry_ok : forall e, entry_ok 56 e -> pak_entry (pak_record e) = (e_field e, (e_ofs e, e_size e)).
Proof.
  intros e (L & Z0 & O & Z1). unfold pak_entry, pak_record.
  rewrite first_app by assumption. rewrite skip_app by assumption.
  rewrite le32_put by assumption.
  replace (skipn 60 _) with (put_le 4 (e_size e) ++ []); [rewrite le32_put by assumption; reflexivity|].
  rewrite app_assoc. rewrite skip_app; [apply app_nil_r|]. rewrite app_length, put_le_length. lia.
Qed.
Lemma pak_record_length : forall e, entry_ok 56 e -> length (pak_record e) = 64.
Proof. intros e (L & _). unfold pak_record. rewrite !app_length, !put_le_length. lia. Qed.

Lemma wad_entry_ok : forall e r, entry_ok 16 e -> is_wad_record e r ->
  wad_entry r = (e_field e, (e_ofs e, e_size e)) /\ length r = 32.
Proof.
  intros e r (L & Z0 & O & Z1) (other & LO & ->). split.
  - unfold wad_entry. rewrite le32_put by assumption.
    assert (A : skipn 4 (put_le 4 (e_ofs e) ++ put_le 4 (e_size e) ++ other ++ e_field e)
                = put_le 4 (e_size e) ++ other ++ e_field e) by (apply skip_app, put_le_length).
    assert (B : skipn 16 (put_le 4 (e_ofs e) ++ put_le 4 (e_size e) ++ other ++ e_field e) = e_field e).
    { replace (put_le 4 (e_ofs e) ++ put_le 4 (e_size e) ++ other ++ e_field e)
        with ((put_le 4 (e_ofs e) ++ put_le 4 (e_size e) ++ other) ++ e_field e) by (rewrite <- !app_assoc; reflexivity).
      apply skip_app. rewrite !app_length, !put_le_length. lia. }
    rewrite A, B, le32_put by assumption. rewrite <- L, firstn_all. reflexivity.
  - rewrite !app_length, !put_le_length. lia.
Qed.

Definition table_of (es : list entry) (t : ftable) : Prop :=
  forall name, ft_find t name = match lookup_last es name with Some e => Some (e_ofs e, e_size e) | None => None end.

Lemma read_dir_ok : forall len entry (img : list N) fl es recs t pos done,
  Forall2 (fun e r => length r = len /\ entry r = (e_field e, (e_ofs e, e_size e)) /\ In 0%N (e_field e)) es recs ->
  skipn pos img = concat recs ++ fl ->
  table_of done t ->
  exists t', read_dir len entry (length es) t (mkFStr img pos false)
             = ROk (t', mkFStr img (pos + len * length es) false) /\ table_of (done ++ es) t'.
Proof.
  intros len entry img fl es recs t pos done F. revert t pos done.
  induction F as [|e r es recs (L & E & Z0) F IH]; intros t pos done S T.
  - exists t. simpl. rewrite Nat.mul_0_r, Nat.add_0_r, app_nil_r. auto.
  - simpl in S. rewrite <- app_assoc in S.
    destruct (read_entry_ok img pos len r (concat recs ++ fl) L S) as [R S'].
    cbn [length read_dir]. rewrite R. cbn [rbind]. rewrite E. cbn [fst snd].
    rewrite name_of_ok by assumption. cbn [rbind].
    destruct (IH (ft_set t (cstr (e_field e)) (e_ofs e, e_size e)) (pos + len) (done ++ [e])) as (t' & R' & T'); auto.
    + intro name. rewrite ft_find_set, T. unfold e_name in *.
      assert (A : forall l, lookup_last (l ++ [e]) name =
                  if ci_equal (cstr (e_field e)) name then Some e else lookup_last l name).
      { induction l as [|x l IHl]; simpl; [reflexivity|]. rewrite IHl.
        unfold e_name. destruct (ci_equal (cstr (e_field e)) name); reflexivity. }
      rewrite A. destruct (ci_equal (cstr (e_field e)) name); reflexivity.
    + exists t'. rewrite R'. rewrite <- app_assoc in T'. split; [|exact T'].
      f_equal. f_equal. f_equal. lia.
Qed.

Lemma slice_skip : forall img ofs n d, slice img ofs n = d -> skipn ofs img = d ++ skipn n (skipn ofs img).
Proof. intros. subst. unfold slice. symmetry. apply firstn_skipn. Qed.

Lemma leqb_refl : forall a, leqb a a = true.
Proof. intro. unfold leqb. destruct (list_eq_dec N.eq_dec a a); congruence. Qed.
Lemma leqb_iff : forall a b, leqb a b = true <-> a = b.
Proof. intros. unfold leqb. destruct (list_eq_dec N.eq_dec a b); split; congruence. Qed.

Lemma pak_open_ok : forall img es, is_pak img es ->
  exists t p, pak_open img = ROk (t, mkFStr img p false) /\ table_of es t.
Proof.
  intros img es (F & ofs & dsize & O & D & H & NE & S).
  unfold pak_open. apply slice_skip in H. rewrite skipn_O in H.
  destruct (read_entry_ok img 0 12 (PACK ++ put_le 4 ofs ++ put_le 4 dsize) (skipn 12 img)) as [R _];
    [rewrite !app_length, !put_le_length; reflexivity|exact H|].
  rewrite R. cbn [rbind]. rewrite first_app by reflexivity. rewrite leqb_refl.
  replace (skipn 4 (PACK ++ put_le 4 ofs ++ put_le 4 dsize)) with (put_le 4 ofs ++ put_le 4 dsize)
    by (symmetry; apply skip_app; reflexivity).
  replace (skipn 8 (PACK ++ put_le 4 ofs ++ put_le 4 dsize)) with (put_le 4 dsize ++ []).
  2:{ rewrite app_assoc, skip_app; [apply app_nil_r|]. rewrite app_length, put_le_length. reflexivity. }
  rewrite !le32_put by assumption. rewrite NE. unfold fseek. cbn [fs_fail fs_bytes].
  apply slice_skip in S.
  destruct (read_dir_ok 64 pak_entry img (skipn (64 * length es) (skipn (N.to_nat ofs) img)) es (map pak_record es) [] (N.to_nat ofs) [])
    as (t & R' & T).
  - clear - F. induction F as [|e es H F IH]; simpl; constructor; auto.
    repeat split; [apply pak_record_length|apply pak_entry_ok|apply H]; assumption.
  - exact S.
  - intro name. reflexivity.
  - exists t. eexists. split; [exact R'|exact T].
Qed.

Lemma wad_open_ok : forall img es, is_wad img es ->
  exists t p, wad_open img = ROk (t, mkFStr img p false) /\ table_of es t.
Proof.
  intros img es (F & magic & ofs & recs & M & O & D & H & W & S).
  unfold wad_open. apply slice_skip in H. rewrite skipn_O in H.
  assert (LM : length magic = 4) by (destruct M; subst; reflexivity).
  destruct (read_entry_ok img 0 12 (magic ++ put_le 4 (N.of_nat (length es)) ++ put_le 4 ofs) (skipn 12 img)) as [R _];
    [rewrite !app_length, !put_le_length; lia|exact H|].
  rewrite R. cbn [rbind]. rewrite first_app by assumption.
  replace (leqb magic WAD2 || leqb magic WAD3) with true by (destruct M; subst; reflexivity).
  replace (skipn 4 (magic ++ put_le 4 (N.of_nat (length es)) ++ put_le 4 ofs))
    with (put_le 4 (N.of_nat (length es)) ++ put_le 4 ofs) by (symmetry; apply skip_app; assumption).
  replace (skipn 8 (magic ++ put_le 4 (N.of_nat (length es)) ++ put_le 4 ofs)) with (put_le 4 ofs ++ []).
  2:{ rewrite app_assoc, skip_app; [apply app_nil_r|]. rewrite app_length, put_le_length. lia. }
  rewrite !le32_put by assumption. rewrite Nat2N.id. unfold fseek. cbn [fs_fail fs_bytes].
  apply slice_skip in S.
  destruct (read_dir_ok 32 wad_entry img (skipn (32 * length es) (skipn (N.to_nat ofs) img)) es recs [] (N.to_nat ofs) [])
    as (t & R' & T).
  - clear - F W. induction W as [|e r es recs H W IH]; constructor.
    + inversion F; subst. destruct (wad_entry_ok e r) as [A B]; auto. repeat split; auto. apply H2.
    + inversion F; subst. auto.
  - exact S.
  - intro name. reflexivity.
  - exists t. eexists. split; [exact R'|exact T].
Qed.

(** ** Loading *)

Lemma arc_load_ok : forall img t es p name e, table_of es t -> lookup_last es name = Some e -> inside img e ->
  arc_load t (mkFStr img p false) name = (Some (data_of img e), mkFStr img (N.to_nat (e_ofs e) + N.to_nat (e_size e)) false).
Proof.
  intros img t es p name e T L I. unfold arc_load. rewrite T, L. unfold fseek, fread. cbn [fs_fail fs_bytes fs_pos].
  fold (slice img (N.to_nat (e_ofs e)) (N.to_nat (e_size e))). unfold data_of.
  assert (LS : length (slice img (N.to_nat (e_ofs e)) (N.to_nat (e_size e))) = N.to_nat (e_size e)).
  { destruct I as [Z0|I]; [rewrite Z0; reflexivity|apply slice_length; exact I]. }
  rewrite LS. rewrite Nat.sub_diag. simpl repeat. rewrite app_nil_r, Nat.ltb_irrefl. reflexivity.
Qed.

Lemma arc_load_overrun : forall img t es p name e, table_of es t -> lookup_last es name = Some e -> ~ inside img e ->
  exists q, arc_load t (mkFStr img p false) name =
    (Some (data_of img e ++ repeat 0%N (N.to_nat (e_size e) - length (data_of img e))), mkFStr img q true).
Proof.
  intros img t es p name e T L I. unfold arc_load. rewrite T, L. unfold fseek, fread. cbn [fs_fail fs_bytes fs_pos].
  fold (slice img (N.to_nat (e_ofs e)) (N.to_nat (e_size e))). unfold data_of.
  eexists. f_equal. f_equal. apply Nat.ltb_lt. unfold slice. rewrite firstn_length, skipn_length.
  unfold inside in I. lia.
Qed.

(** ** Outcomes of opening *)

(** The little-endian number at offset [k] of a file. *)
Definition word_at (img : list N) (k : nat) : N :=
  (nth k img 0 + 256 * nth (k + 1) img 0 + 65536 * nth (k + 2) img 0 + 16777216 * nth (k + 3) img 0)%N.

Lemma le32_word : forall l, (4 <= length l)%nat -> le32 l = word_at l 0.
Proof.
  intros l H. destruct l as [|a [|b [|c [|d l]]]]; simpl in H; try lia.
  unfold le32, word_at. cbn [get_le nth Nat.add]. lia.
Qed.
Lemma word_skip : forall l k, word_at (skipn k l) 0 = word_at l k.
Proof.
  assert (A : forall (l : list N) k i, nth i (skipn k l) 0%N = nth (k + i) l 0%N).
  { intros l k. revert l. induction k as [|k IH]; intros l i; [reflexivity|]. destruct l as [|x l]; simpl.
    - destruct i; reflexivity.
    - apply IH. }
  intros. unfold word_at. rewrite !A. rewrite !Nat.add_0_r. reflexivity.
Qed.
Lemma word_first : forall l n k, (k + 4 <= n)%nat -> word_at (firstn n l) k = word_at l k.
Proof.
  assert (A : forall (l : list N) n i, (i < n)%nat -> nth i (firstn n l) 0%N = nth i l 0%N).
  { induction l as [|x l IH]; intros n i H; [rewrite firstn_nil; reflexivity|].
    destruct n; [lia|]. destruct i; [reflexivity|]. simpl. apply IH. lia. }
  intros. unfold word_at. rewrite !A by lia. reflexivity.
Qed.

Lemma read_entry_cases : forall img pos n, (0 < n)%nat ->
  read_entry n (mkFStr img pos false) =
  if (length img <? pos + n)%nat then RUB else ROk (slice img pos n, mkFStr img (pos + n) false).
Proof.
  intros img pos n P. unfold read_entry, fread. cbn [fs_fail fs_pos fs_bytes]. fold (slice img pos n).
  destruct (length img <? pos + n)%nat eqn:E; [apply Nat.ltb_lt in E|apply Nat.ltb_ge in E].
  - assert (length (slice img pos n) < n)%nat by (unfold slice; rewrite firstn_length, skipn_length; lia).
    apply Nat.ltb_lt in H. rewrite H. reflexivity.
  - rewrite slice_length by assumption. rewrite Nat.ltb_irrefl. reflexivity.
Qed.

Lemma name_of_cases : forall a, name_of a = if in_dec N.eq_dec 0%N a then ROk (cstr a) else RUB.
Proof.
  intro a. destruct (in_dec N.eq_dec 0%N a) as [H|H]; [apply name_of_ok; assumption|].
  unfold name_of. destruct (existsb (N.eqb 0) a) eqn:E; [|reflexivity].
  apply existsb_exists in E. destruct E as (x & I & Q). apply N.eqb_eq in Q. subst. contradiction.
Qed.

(** Entry [i] of a directory at [pos] is missing or has no terminated name. *)
Definition bad_entry (len : nat) (field : list N -> list N) (img : list N) (pos i : nat) : Prop :=
  (length img < pos + len * i + len)%nat \/ ~ In 0%N (field (slice img (pos + len * i) len)).

Lemma read_dir_cases : forall len entry img n t pos, (0 < len)%nat ->
  (read_dir len entry n t (mkFStr img pos false) = RUB /\
     exists i, (i < n)%nat /\ bad_entry len (fun d => fst (entry d)) img pos i) \/
  ((exists r, read_dir len entry n t (mkFStr img pos false) = ROk r) /\
     forall i, (i < n)%nat -> ~ bad_entry len (fun d => fst (entry d)) img pos i).
Proof.
  intros len entry img n. induction n as [|n IH]; intros t pos P.
  - right. split; [eexists; reflexivity|]. intros; lia.
  - cbn [read_dir]. rewrite read_entry_cases by assumption.
    destruct (length img <? pos + len)%nat eqn:E; [apply Nat.ltb_lt in E|apply Nat.ltb_ge in E]; cbn [rbind].
    + left. split; [reflexivity|]. exists 0. split; [lia|]. left. lia.
    + rewrite name_of_cases. destruct (in_dec N.eq_dec 0%N (fst (entry (slice img pos len)))) as [I|I]; cbn [rbind].
      * destruct (IH (ft_set t (cstr (fst (entry (slice img pos len)))) (snd (entry (slice img pos len)))) (pos + len)%nat P)
          as [[A (i & L & B)]|[[r A] B]].
        -- left. split; [exact A|]. exists (S i). split; [lia|].
           unfold bad_entry in *. replace (pos + len * S i)%nat with (pos + len + len * i)%nat by lia. exact B.
        -- right. split; [exists r; exact A|]. intros i L. destruct i as [|i].
           ++ unfold bad_entry. rewrite Nat.mul_0_r, Nat.add_0_r. intros [Q|Q]; [lia|contradiction].
           ++ unfold bad_entry in *. replace (pos + len * S i)%nat with (pos + len + len * i)%nat by lia.
              apply B. lia.
      * left. split; [reflexivity|]. exists 0. split; [lia|]. right. rewrite Nat.mul_0_r, Nat.add_0_r. exact I.
Qed.

Lemma firstn_slice : forall img k n, (k <= n)%nat -> firstn k (slice img 0 n) = firstn k img.
Proof. intros. unfold slice. rewrite skipn_O, firstn_firstn. f_equal. lia. Qed.
Lemma header_word : forall img k, (k + 4 <= 12)%nat -> (12 <= length img)%nat ->
  le32 (skipn k (slice img 0 12)) = word_at img k.
Proof.
  intros img k K L. rewrite le32_word.
  - rewrite word_skip. unfold slice. rewrite skipn_O. apply word_first. assumption.
  - rewrite skipn_length, slice_length by lia. lia.
Qed.

Lemma pak_open_cases : forall img,
  pak_open img =
  if (length img <? 12)%nat then RUB
  else if leqb (firstn 4 img) PACK then
    read_dir 64 pak_entry (N.to_nat (word_at img 8 / 64)) [] (mkFStr img (N.to_nat (word_at img 4)) false)
  else RThrow.
Proof.
  intro img. unfold pak_open. rewrite read_entry_cases by lia.
  destruct (length img <? 0 + 12)%nat eqn:E; cbn [Nat.add] in E; rewrite E; [reflexivity|].
  apply Nat.ltb_ge in E. cbn [rbind]. rewrite firstn_slice by lia. rewrite !header_word by lia.
  unfold fseek. cbn [fs_fail fs_bytes]. reflexivity.
Qed.
Lemma wad_open_cases : forall img,
  wad_open img =
  if (length img <? 12)%nat then RUB
  else if leqb (firstn 4 img) WAD2 || leqb (firstn 4 img) WAD3 then
    read_dir 32 wad_entry (N.to_nat (word_at img 4)) [] (mkFStr img (N.to_nat (word_at img 8)) false)
  else RThrow.
Proof.
  intro img. unfold wad_open. rewrite read_entry_cases by lia.
  destruct (length img <? 0 + 12)%nat eqn:E; cbn [Nat.add] in E; rewrite E; [reflexivity|].
  apply Nat.ltb_ge in E. cbn [rbind]. rewrite firstn_slice by lia. rewrite !header_word by lia.
  unfold fseek. cbn [fs_fail fs_bytes]. reflexivity.
Qed.

(** ** Lookup *)

(** States the program can reach: archives are added, files looked up and loaded, lists cleared. *)
Inductive reached (w : world) : sstate -> Prop :=
| re_init : reached w (mkSS [] [] 0)
| re_clear : forall st, reached w st -> reached w (mkSS [] [] (ss_next st))
| re_add : forall st p r st', reached w st -> add_archive w p st = ROk (r, st') -> reached w st'
| re_where : forall st p b r st', reached w st -> where_is w p b st = ROk (r, st') -> reached w st'
| re_load : forall st r d st', reached w st -> load_at w r st = (d, st') -> reached w st'.

Definition ids_ok (st : sstate) : Prop :=
  NoDup (map ar_id (ss_archives st ++ ss_dirs st)) /\
  Forall (fun a => (ar_id a < ss_next st)%nat) (ss_archives st ++ ss_dirs st).

Lemma ids_fresh : forall l n, Forall (fun a => (ar_id a < n)%nat) l -> ~ In n (map ar_id l).
Proof.
  intros l n F I. apply in_map_iff in I. destruct I as (a & E & I). rewrite Forall_forall in F.
  specialize (F a I). simpl in F. lia.
Qed.

Lemma add_internal_ids : forall w p st r st', add_internal w p st = ROk (r, st') -> ids_ok st -> ids_ok st'.
Proof.
  intros w p st r st' H (ND & F). unfold add_internal in H.
  destruct (w_isdir w p).
  - destruct (find _ (ss_dirs st)); inversion H; subst; [split; assumption|].
    split; simpl.
    + rewrite map_app. simpl. apply NoDup_Add with (a := ss_next st) (l := map ar_id (ss_archives st ++ ss_dirs st)).
      * rewrite map_app. apply Add_app.
      * split; [assumption|]. apply ids_fresh. assumption.
    + apply Forall_app in F. destruct F as [F1 F2]. apply Forall_app. split; [|constructor; [simpl; lia|]];
        eapply Forall_impl; try eassumption; simpl; intros; lia.
  - destruct (find _ (ss_archives st)); [inversion H; subst; split; assumption|].
    destruct (open_file w p) as [k| |]; try discriminate. cbn [rbind] in H.
    destruct k as [k|]; inversion H; subst; [|split; assumption].
    split; simpl.
    + constructor; [apply ids_fresh; assumption|assumption].
    + constructor; [simpl; lia|]. eapply Forall_impl; [|eassumption]. simpl; intros; lia.
Qed.
Lemma add_archive_ids : forall w p st r st', add_archive w p st = ROk (r, st') -> ids_ok st -> ids_ok st'.
Proof.
  intros w p st r st' H I. unfold add_archive in H. destruct (p_empty p); [inversion H; subst; assumption|].
  destruct (negb (w_exists w p)); [destruct (negb (w_exists w (p_filename p))); [inversion H; subst; assumption|]|];
    eapply add_internal_ids; eassumption.
Qed.
Lemma where_ids : forall w p b st r st', where_is w p b st = ROk (r, st') -> ids_ok st -> ids_ok st'.
Proof.
  intros w p b st r st' H I. unfold where_is in H. destruct (split_path w p) as [[a f]|]; [|inversion H; subst; assumption].
  destruct (add_archive w a st) as [[o s1]| |] eqn:A; try discriminate. cbn [rbind] in H.
  apply add_archive_ids in A; [|assumption]. destruct o; inversion H; subst; assumption.
Qed.
Lemma load_in_ids : forall w l id p d l', load_in w l id p = (d, l') -> map ar_id l' = map ar_id l.
Proof.
  induction l as [|a l IH]; intros id p d l' H; simpl in H; [inversion H; reflexivity|].
  destruct (ar_id a =? id) eqn:E.
  - unfold a_load in H. destruct (ar_kind a); [inversion H; reflexivity|].
    destruct (arc_load t s (p_string p)). inversion H; reflexivity.
  - destruct (load_in w l id p) eqn:L. inversion H; subst. simpl. f_equal. eapply IH. eassumption.
Qed.
Lemma load_ids : forall w r st d st', load_at w r st = (d, st') -> ids_ok st -> ids_ok st'.
Proof.
  intros w r st d st' H (ND & F).
  assert (K : map ar_id (ss_archives st' ++ ss_dirs st') = map ar_id (ss_archives st ++ ss_dirs st)
              /\ ss_next st' = ss_next st).
  { unfold load_at in H. destruct r as [[[|id] p]|]; try (inversion H; subst; split; reflexivity).
    destruct (existsb _ _).
    - destruct (load_in w (ss_archives st) id p) eqn:L. inversion H; subst. apply load_in_ids in L.
      simpl. rewrite !map_app, L. split; reflexivity.
    - destruct (load_in w (ss_dirs st) id p) eqn:L. inversion H; subst. apply load_in_ids in L.
      simpl. rewrite !map_app, L. split; reflexivity. }
  destruct K as [K1 K2]. split; [rewrite K1; assumption|]. rewrite K2.
  apply Forall_forall. intros a I. assert (J : In (ar_id a) (map ar_id (ss_archives st' ++ ss_dirs st'))) by (apply in_map; assumption).
  rewrite K1 in J. apply in_map_iff in J. destruct J as (b & E & J). rewrite Forall_forall in F. rewrite <- E. apply F. assumption.
Qed.
Lemma reached_ids : forall w st, reached w st -> ids_ok st.
Proof.
  induction 1.
  - split; constructor.
  - split; constructor.
  - eapply add_archive_ids; eassumption.
  - eapply where_ids; eassumption.
  - eapply load_ids; eassumption.
Qed.

(** The places searched for a path, in order. *)
Definition places (st : sstate) (p : path) (prefer_loose : bool) : list source :=
  let ids l := map (fun a => SArch (ar_id a)) l in
  if p_abs p then [SCwd]
  else if prefer_loose then SCwd :: ids (ss_dirs st) ++ ids (ss_archives st)
  else ids (ss_archives st) ++ ids (ss_dirs st) ++ [SCwd].
(** The place has the path: the working directory a file of the name; a directory anything of the
    name; an archive an entry of the name. *)
Definition has (w : world) (st : sstate) (s : source) (p : path) : Prop :=
  match s with
  | SCwd => w_exists w p = true /\ w_isdir w p = false
  | SArch id => exists a, In a (ss_archives st ++ ss_dirs st) /\ ar_id a = id /\
                match ar_kind a with
                | ADir => w_exists w (if p_empty (ar_path a) then p else p_join (ar_path a) p) = true
                | AArc t _ => exists v, ft_find t (p_string p) = Some v
                end
  end.

Lemma a_contains_iff : forall w a p, a_contains w a p = true <->
  match ar_kind a with
  | ADir => w_exists w (if p_empty (ar_path a) then p else p_join (ar_path a) p) = true
  | AArc t _ => exists v, ft_find t (p_string p) = Some v
  end.
Proof.
  intros. unfold a_contains, arc_contains. destruct (ar_kind a); [tauto|].
  destruct (ft_find t (p_string p)) eqn:E; split; intro H; eauto; try discriminate. destruct H. discriminate.
Qed.
Lemma nodup_id : forall (l : list arch) a b, NoDup (map ar_id l) -> In a l -> In b l -> ar_id a = ar_id b -> a = b.
Proof.
  induction l as [|x l IH]; intros a b ND A B E; [destruct A|]. inversion ND; subst.
  destruct A as [<-|A], B as [<-|B]; auto.
  - exfalso. apply H1. rewrite E. apply in_map. assumption.
  - exfalso. apply H1. rewrite <- E. apply in_map. assumption.
Qed.
Lemma has_arch : forall w st a p, ids_ok st -> In a (ss_archives st ++ ss_dirs st) ->
  (has w st (SArch (ar_id a)) p <-> a_contains w a p = true).
Proof.
  intros w st a p (ND & _) I. rewrite a_contains_iff. unfold has. split.
  - intros (b & J & E & H). assert (b = a) by (eapply nodup_id; eassumption). subst. exact H.
  - intro H. exists a. auto.
Qed.
Definition hasb (w : world) (st : sstate) (p : path) (s : source) : bool :=
  match s with
  | SCwd => w_exists w p && negb (w_isdir w p)
  | SArch id => existsb (fun a => (ar_id a =? id) && a_contains w a p) (ss_archives st ++ ss_dirs st)
  end.
Lemma hasb_iff : forall w st p s, hasb w st p s = true <-> has w st s p.
Proof.
  intros. destruct s; simpl.
  - rewrite andb_true_iff, negb_true_iff. tauto.
  - rewrite existsb_exists. split; intros (a & I & H); exists a.
    + apply andb_true_iff in H. destruct H as [H1 H2]. apply Nat.eqb_eq in H1. rewrite a_contains_iff in H2. auto.
    + destruct H as [H1 H2]. split; [assumption|]. apply andb_true_iff. rewrite Nat.eqb_eq, a_contains_iff. auto.
Qed.
Lemma find_app : forall A (f : A -> bool) a b, find f (a ++ b) = orelse (find f a) (find f b).
Proof. induction a as [|x a IH]; intro b; simpl; [reflexivity|]. destruct (f x); [reflexivity|apply IH]. Qed.
Lemma scan_find : forall w st l p, ids_ok st -> incl l (ss_archives st ++ ss_dirs st) ->
  scan w l p = match find (hasb w st p) (map (fun a => SArch (ar_id a)) l) with Some s => Some (s, p) | None => None end.
Proof.
  intros w st l p I. unfold scan. induction l as [|a l IH]; intro C; simpl; [reflexivity|].
  fold (hasb w st p (SArch (ar_id a))).
  assert (E : hasb w st p (SArch (ar_id a)) = a_contains w a p).
  { apply eq_true_iff_eq. rewrite hasb_iff. apply has_arch; [assumption|]. apply C. left. reflexivity. }
  rewrite E. destruct (a_contains w a p); [reflexivity|]. apply IH. intros x X. apply C. right. assumption.
Qed.
Lemma find_split : forall A (f : A -> bool) l,
  match find f l with
  | None => Forall (fun x => f x = false) l
  | Some x => exists a b, l = a ++ x :: b /\ f x = true /\ Forall (fun y => f y = false) a
  end.
Proof.
  induction l as [|x l IH]; simpl; [constructor|]. destruct (f x) eqn:E.
  - exists [], l. auto.
  - destruct (find f l).
    + destruct IH as (p & q & -> & F & G). exists (x :: p), q. auto.
    + constructor; assumption.
Qed.

Lemma passes_find : forall w st p b, ids_ok st ->
  orelse (where_pass w st p b false) (where_pass w st p b true) =
  match find (hasb w st p) (places st p b) with Some s => Some (s, p) | None => None end.
Proof.
  intros w st p b I. unfold where_pass, places.
  assert (A : incl (ss_archives st) (ss_archives st ++ ss_dirs st)) by (intros x X; apply in_or_app; auto).
  assert (D : incl (ss_dirs st) (ss_archives st ++ ss_dirs st)) by (intros x X; apply in_or_app; auto).
  assert (L : loose w p = match find (hasb w st p) [SCwd] with Some s => Some (s, p) | None => None end).
  { unfold loose. simpl. destruct (w_exists w p && negb (w_isdir w p)); reflexivity. }
  destruct (p_abs p), b; cbn [xorb negb].
  - rewrite L. destruct (find _ _); reflexivity.
  - cbn [orelse]. rewrite L. reflexivity.
  - rewrite !(scan_find w st) by assumption. rewrite L.
    cbn [find]. destruct (hasb w st p SCwd); [reflexivity|]. cbn [orelse]. rewrite find_app.
    destruct (find (hasb w st p) (map (fun a => SArch (ar_id a)) (ss_dirs st))); reflexivity.
  - rewrite !(scan_find w st) by assumption. rewrite L. rewrite !find_app.
    destruct (find (hasb w st p) (map (fun a => SArch (ar_id a)) (ss_archives st))); [reflexivity|]. cbn [orelse].
    destruct (find (hasb w st p) (map (fun a => SArch (ar_id a)) (ss_dirs st))); reflexivity.
Qed.

Lemma split_go_spec : forall w src k, (k <= length (p_comps src))%nat ->
  match split_go w src k with
  | Some (a, f) => exists j, (0 < j <= k)%nat /\ a = mkPath (p_abs src) (firstn j (p_comps src)) /\
      f = mkPath false (skipn j (p_comps src)) /\ w_isreg w a = true /\
      forall i, (j < i <= k)%nat -> w_isreg w (mkPath (p_abs src) (firstn i (p_comps src))) = false
  | None => forall i, (0 < i <= k)%nat -> w_isreg w (mkPath (p_abs src) (firstn i (p_comps src))) = false
  end.
Proof.
  intros w src. induction k as [|k IH]; intro L; cbn [split_go]; [intros; lia|].
  destruct (w_isreg w _) eqn:E.
  - exists (S k). repeat split; auto; lia.
  - destruct (split_go w src k) as [[a f]|].
    + destruct IH as (j & J & A & F & R & G); [lia|]. exists j. repeat split; auto; try lia.
      intros i H. destruct (Nat.eq_dec i (S k)) as [->|]; [assumption|apply G; lia].
    + intros i H. destruct (Nat.eq_dec i (S k)) as [->|]; [assumption|apply IH; lia].
Qed.
