(* Proofs about exported WAD files. *)
From Coq Require Import List Arith NArith ZArith Bool Lia.
From Verif Require Import Base Codec ParserModel CmdlibModel CmdlibProofs FsModel FsProofs WadOutModel.
Import ListNotations.

(** A texture whose data is as long as its size says: four mipmaps behind the header. *)
Definition regular (t : tex) : Prop :=
  ~ In 0%N (t_name t) /\ (t_w t * t_h t < 2 ^ 32)%N /\ N.of_nat (length (t_data t)) = (40 + t_w t * t_h t / 64 * 85)%N.
Definition total (l : list tex) : nat := length (concat (map t_data l)).

Lemma put_name_length prev name : length prev = 16 -> length (put_name prev name) = 16.
Proof. intros L. unfold put_name. rewrite app_length. cbn [length]. rewrite skipn_length, L. pose proof (firstn_le_length 15 name). lia. Qed.
Lemma put_name_cstr prev name : ~ In 0%N name -> cstr (put_name prev name) = firstn 15 name.
Proof.
  intros Z0. unfold put_name. assert (Z1 : ~ In 0%N (firstn 15 name)).
  { intros I. apply Z0. rewrite <- (firstn_skipn 15 name). apply in_or_app. left. exact I. }
  clear Z0. generalize (skipn (length (firstn 15 name) + 1) prev). intros r.
  induction (firstn 15 name) as [|c k IH]; [reflexivity|]. cbn [app cstr]. destruct (N.eqb_spec c 0) as [->|NZ]; [exfalso; apply Z1; left; reflexivity|].
  f_equal. apply IH. intros I. apply Z1. right. exact I.
Qed.
Lemma record_length f s name : length name = 16 -> length (record f s name) = 32.
Proof. intros L. unfold record. rewrite !app_length, !put_le_length, L. reflexivity. Qed.
Lemma lump_size_regular t : regular t -> (N.of_nat (length (t_data t)) < 2 ^ 32)%N -> lump_size t = N.of_nat (length (t_data t)).
Proof.
  intros (_ & W & L) B. unfold lump_size. rewrite (N.mod_small (t_w t * t_h t)) by exact W. rewrite L in *.
  rewrite (N.mod_small (t_w t * t_h t / 64 * 85)) by lia. change (N.of_nat mip_header) with 40%N. apply N.mod_small. exact B.
Qed.
Lemma directory_valid p name l : directory p name l = directory p name (filter valid l).
Proof.
  revert p name. induction l as [|t l IH]; intros p name; [reflexivity|]. cbn [directory filter]. destruct (valid t) eqn:V; cbn [negb].
  - cbn [directory]. rewrite V. cbn [negb]. f_equal. apply IH.
  - apply IH.
Qed.
Lemma data_valid l : concat (map (fun t => if valid t then t_data t else []) l) = concat (map t_data (filter valid l)).
Proof. induction l as [|t l IH]; [reflexivity|]. cbn [map concat filter]. destruct (valid t); cbn [map concat]; rewrite IH; reflexivity. Qed.

Lemma Forall2_len {A B} (P : A -> B -> Prop) l m : Forall2 P l m -> length l = length m.
Proof. induction 1; cbn; congruence. Qed.

(** The entries of the directory. *)
Fixpoint entries (p : nat) (name : list N) (l : list tex) : list entry :=
  match l with
  | [] => []
  | t :: l => let name := put_name name (t_name t) in mkEntry name (N.of_nat p) (N.of_nat (length (t_data t))) :: entries (p + length (t_data t)) name l
  end.
Lemma entries_length p name l : length (entries p name l) = length l.
Proof. revert p name. induction l as [|t l IH]; intros p name; cbn [entries length]; [reflexivity|]. rewrite IH. reflexivity. Qed.
Lemma directory_entries l : forall p name, Forall regular l -> Forall (fun t => valid t = true) l -> length name = 16 -> (N.of_nat (p + total l) < 2 ^ 32)%N ->
  exists recs, Forall2 is_wad_record (entries p name l) recs /\ directory (N.of_nat p) name l = concat recs /\ Forall (entry_ok 16) (entries p name l) /\
    Forall (fun r => length r = 32) recs.
Proof.
  induction l as [|t l IH]; intros p name R V L B; cbn [entries directory].
  - exists []. repeat split; constructor.
  - inversion R as [|? ? Rt Rl]; inversion V as [|? ? Vt Vl]; subst. rewrite Vt. cbn [negb]. cbv zeta.
    unfold total in B. cbn [map concat] in B. rewrite app_length in B. fold (total l) in B.
    assert (LN := put_name_length name (t_name t) L). rewrite (lump_size_regular t Rt) by lia.
    destruct (IH (p + length (t_data t)) (put_name name (t_name t)) Rl Vl LN) as (recs & F & D & O & LR); [lia|].
    exists (record (N.of_nat p) (N.of_nat (length (t_data t))) (put_name name (t_name t)) :: recs). refine (conj _ (conj _ (conj _ _))).
    + constructor; [|exact F]. exists (put_le 4 (N.of_nat (length (t_data t))) ++ [68; 0; 0; 0]%N). split; [rewrite app_length, put_le_length; reflexivity|].
      unfold record. cbn [e_ofs e_size e_field]. rewrite <- !app_assoc. reflexivity.
    + cbn [concat]. f_equal. rewrite N.mod_small by lia. rewrite <- Nat2N.inj_add. exact D.
    + constructor; [|exact O]. split; [exact LN|]. split; [unfold e_field, put_name; apply in_or_app; right; left; reflexivity|]. cbn [e_ofs e_size]. lia.
    + constructor; [apply record_length, LN|exact LR].
Qed.
Lemma concat_32 (recs : list (list N)) : Forall (fun r => length r = 32) recs -> length (concat recs) = 32 * length recs.
Proof. induction 1 as [|r recs L F IH]; cbn [concat length]; [reflexivity|]. rewrite app_length, L, IH. lia. Qed.
Lemma slice_at (a b c : list N) p n : length a = p -> length b = n -> slice (a ++ b ++ c) p n = b.
Proof. intros <- <-. unfold slice. rewrite skipn_app, skipn_all, Nat.sub_diag. cbn [app skipn]. rewrite firstn_app, firstn_all, Nat.sub_diag. cbn [firstn]. apply app_nil_r. Qed.
Lemma entries_data img l : forall pre p name, Forall regular l -> img = pre ++ concat (map t_data l) -> length pre = p ->
  Forall2 (fun t e => e_name e = firstn 15 (t_name t) /\ data_of img e = t_data t /\ inside img e) l (entries p name l).
Proof.
  induction l as [|t l IH]; intros pre p name R E L; cbn [entries]; constructor.
  - inversion R as [|? ? (Z0 & _) _]; subst. cbn [map concat]. refine (conj _ (conj _ _)).
    + unfold e_name. cbn [e_field]. apply put_name_cstr, Z0.
    + unfold data_of. cbn [e_ofs e_size]. rewrite !Nat2N.id. apply slice_at; reflexivity.
    + unfold inside. cbn [e_ofs e_size]. right. rewrite !Nat2N.id, !app_length. lia.
  - inversion R as [|? ? _ Rl]; subst. apply (IH (pre ++ t_data t)); [exact Rl|cbn [map concat]; rewrite app_assoc; reflexivity|rewrite app_length; reflexivity].
Qed.
Theorem export_is_wad l : let ex := filter valid l in Forall regular ex -> (N.of_nat (12 + length ex * 32 + total ex) < 2 ^ 31)%N ->
  exists es, is_wad (export_wad l) es /\ Forall2 (fun t e => e_name e = firstn 15 (t_name t) /\ data_of (export_wad l) e = t_data t /\ inside (export_wad l) e) ex es.
Proof.
  intros ex R B. unfold export_wad. rewrite directory_valid, data_valid. fold ex.
  assert (V : Forall (fun t => valid t = true) ex) by (apply Forall_forall; intros t I; apply filter_In in I; apply I).
  rewrite (N.mod_small (N.of_nat (length ex))), (N.mod_small (N.of_nat (12 + length ex * 32))) by lia.
  destruct (directory_entries ex (12 + length ex * 32) (repeat 0%N 16) R V (repeat_length _ _)) as (recs & F & D & O & LR); [lia|].
  exists (entries (12 + length ex * 32) (repeat 0%N 16) ex). rewrite D.
  assert (LRE : length recs = length ex) by (apply Forall2_len in F; rewrite entries_length in F; congruence).
  assert (LD : length (concat recs) = 32 * length ex) by (rewrite concat_32, LRE by exact LR; reflexivity).
  assert (LH : length (WAD2 ++ put_le 4 (N.of_nat (length ex)) ++ put_le 4 12) = 12) by (rewrite !app_length, !put_le_length; reflexivity).
  split.
  - split; [exact O|]. exists WAD2, 12%N, recs. rewrite entries_length.
    refine (conj (or_introl eq_refl) (conj _ (conj _ (conj _ (conj F _))))); [reflexivity|lia| |].
    + rewrite (app_assoc (put_le 4 (N.of_nat (length ex)))), (app_assoc WAD2). apply (slice_at [] _ _ 0 12); [reflexivity|exact LH].
    + rewrite (app_assoc (put_le 4 (N.of_nat (length ex)))), (app_assoc WAD2). apply slice_at; [exact LH|exact LD].
  - apply (entries_data _ ex (WAD2 ++ put_le 4 (N.of_nat (length ex)) ++ put_le 4 12 ++ concat recs)); [exact R| |].
    + rewrite <- !app_assoc. reflexivity.
    + rewrite (app_assoc (put_le 4 (N.of_nat (length ex)))), (app_assoc WAD2), app_length, LH, LD. lia.
Qed.
