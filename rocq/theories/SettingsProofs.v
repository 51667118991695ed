(* Proofs about settings. *)
From Coq Require Import List Arith NArith ZArith Bool Lia.
Import ListNotations.
From Verif Require Import NumCastModel NumCastProofs ParserModel EntModel EntProofs SettingsModel.
Local Open Scope N_scope.

Lemma src_ge_iff : forall a b, src_ge a b = true <-> (rank b <= rank a)%nat.
Proof. intros. unfold src_ge. apply Nat.leb_le. Qed.
Lemma rank_inj : forall a b, rank a = rank b -> a = b.
Proof. intros [] [] H; try discriminate; reflexivity. Qed.

Definition sets {T} (s : setting T) (l : list (T * source)) : setting T :=
  fold_left (fun s p => set_val s (fst p) (snd p)) l s.

Lemma sets_weak : forall T (l : list (T * source)) s,
  Forall (fun p => (rank (snd p) < rank (s_src s))%nat) l -> sets s l = s.
Proof.
  induction l as [|p l IH]; intros s F; [reflexivity|].
  inversion F as [|? ? A B]; subst. unfold sets in *. cbn [fold_left].
  assert (E : set_val s (fst p) (snd p) = s).
  { unfold set_val. destruct (src_ge (snd p) (s_src s)) eqn:G; [|reflexivity]. apply src_ge_iff in G. lia. }
  rewrite E. apply IH. exact B.
Qed.
Lemma sets_src_le : forall T (l : list (T * source)) s n,
  (rank (s_src s) <= n)%nat -> Forall (fun p => (rank (snd p) <= n)%nat) l -> (rank (s_src (sets s l)) <= n)%nat.
Proof.
  induction l as [|p l IH]; intros s n A F; [exact A|].
  inversion F as [|? ? B C]; subst. unfold sets in *. cbn [fold_left]. apply IH; [|exact C].
  unfold set_val. destruct (src_ge _ _); [exact B|exact A].
Qed.
Lemma sets_app : forall T (l1 l2 : list (T * source)) s, sets s (l1 ++ l2) = sets (sets s l1) l2.
Proof. intros. unfold sets. apply fold_left_app. Qed.
Lemma sets_def : forall T (l : list (T * source)) s, s_def (sets s l) = s_def s.
Proof.
  induction l as [|p l IH]; intro s; [reflexivity|]. unfold sets in *. cbn [fold_left]. rewrite IH.
  unfold set_val. destruct (src_ge _ _); reflexivity.
Qed.

(** Either nothing is strong enough, or there is a last assignment of maximal strength. *)
Lemma strongest_split : forall T (l : list (T * source)) n,
  Forall (fun p => (rank (snd p) < n)%nat) l \/
  exists pre v src post, l = pre ++ (v, src) :: post /\ (n <= rank src)%nat /\
    Forall (fun p => (rank (snd p) <= rank src)%nat) pre /\ Forall (fun p => (rank (snd p) < rank src)%nat) post.
Proof.
  intros T. induction l as [|[v src] l IH]; intro n; [left; constructor|].
  destruct (IH (rank src)) as [A|[pre [w [s2 [post [E [G [P Q]]]]]]]].
  - destruct (le_lt_dec n (rank src)) as [L|L].
    + right. exists [], v, src, l. split; [reflexivity|]. split; [exact L|]. split; [constructor|exact A].
    + left. constructor; [exact L|]. eapply Forall_impl; [|exact A]. simpl. intros a X. lia.
  - destruct (le_lt_dec n (rank s2)) as [L|L].
    + right. exists ((v, src) :: pre), w, s2, post. subst l. split; [reflexivity|]. split; [exact L|].
      split; [constructor; [exact G|exact P]|exact Q].
    + left. constructor; [simpl; lia|]. subst l. apply Forall_app. split.
      * eapply Forall_impl; [|exact P]. simpl. intros a X. lia.
      * constructor; [exact L|]. eapply Forall_impl; [|exact Q]. simpl. intros a X. lia.
Qed.

Lemma sets_last : forall T (s : setting T) pre v src post,
  (rank (s_src s) <= rank src)%nat ->
  Forall (fun p => (rank (snd p) <= rank src)%nat) pre -> Forall (fun p => (rank (snd p) < rank src)%nat) post ->
  sets s (pre ++ (v, src) :: post) = mkS v src (s_def s).
Proof.
  intros T s pre v src post A P Q. rewrite sets_app.
  assert (L := sets_src_le T pre s (rank src) A P).
  change (sets (sets s pre) ((v, src) :: post)) with (sets (set_val (sets s pre) v src) post).
  assert (E : set_val (sets s pre) v src = mkS v src (s_def s)).
  { unfold set_val. replace (src_ge src (s_src (sets s pre))) with true by (symmetry; apply src_ge_iff; exact L).
    rewrite sets_def. reflexivity. }
  rewrite E. apply sets_weak. exact Q.
Qed.

(** ** The container *)

Lemma update_length : forall f c i, length (update c i f) = length c.
Proof.
  intros f c i. unfold update. rewrite <- (firstn_skipn i c) at 3. rewrite !app_length. f_equal.
  destruct (skipn i c); reflexivity.
Qed.
Lemma update_nth : forall f c i j,
  nth_error (update c i f) j = if Nat.eqb i j then option_map f (nth_error c j) else nth_error c j.
Proof.
  induction c as [|e c IH]; intros i j.
  - unfold update. rewrite firstn_nil, skipn_nil. simpl. destruct j; destruct (Nat.eqb i _); reflexivity.
  - destruct i as [|i].
    + unfold update. simpl. destruct j; reflexivity.
    + unfold update in *. cbn [firstn skipn]. destruct j as [|j]; [reflexivity|].
      rewrite <- app_comm_cons. cbn [nth_error]. rewrite IH. reflexivity.
Qed.

Lemma assign_weak : forall e v src, (rank src < rank (s_src (e_set e)))%nat -> assign e v src = e.
Proof.
  intros e v src L. unfold assign, set_val. destruct (src_ge src (s_src (e_set e))) eqn:G.
  - apply src_ge_iff in G. lia.
  - destruct e; reflexivity.
Qed.
Lemma assign_kind : forall e v src, e_kind (assign e v src) = e_kind e /\ e_names (assign e v src) = e_names e.
Proof. intros. split; reflexivity. Qed.
Lemma assign_src : forall e v src, (rank (s_src (e_set e)) <= rank (s_src (e_set (assign e v src))))%nat.
Proof.
  intros. unfold assign. cbn [e_set]. unfold set_val. destruct (src_ge _ _) eqn:G; [|lia].
  apply src_ge_iff in G. cbn [s_src]. exact G.
Qed.

(** What one assignment may do to an entry. *)
Definition step_ok (src : source) (e e' : entry) : Prop := e' = e \/ exists v, e' = assign e v src.

Lemma parse_one_spec : forall stod lt src name c i toks c' rest,
  parse_one stod lt src name c i toks = Some (c', rest) ->
  exists e v, nth_error c i = Some e /\ parse_kind stod lt (e_kind e) name toks = Some (v, rest) /\
    c' = update c i (fun e => assign e v src).
Proof.
  intros stod lt src name c i toks c' rest H. unfold parse_one in H.
  destruct (nth_error c i) as [e|] eqn:E; [|discriminate H].
  destruct (parse_kind stod lt (e_kind e) name toks) as [[v r]|] eqn:P; [|discriminate H].
  injection H as <- <-. exists e, v. auto.
Qed.

(** An entry outside [l] is untouched; one inside keeps names and kind, and is untouched when its
    source is stronger. *)
Definition frame (src : source) (l : list nat) (c c' : container) : Prop :=
  length c' = length c /\
  (forall i, ~ In i l -> nth_error c' i = nth_error c i) /\
  (forall i e, nth_error c i = Some e -> exists e', nth_error c' i = Some e' /\
     e_kind e' = e_kind e /\ e_names e' = e_names e /\
     (rank (s_src (e_set e)) <= rank (s_src (e_set e')))%nat /\
     ((rank src < rank (s_src (e_set e)))%nat -> e' = e)).

Lemma frame_refl : forall src l c, frame src l c c.
Proof. intros. split; [reflexivity|]. split; [reflexivity|]. intros i e E. exists e. auto. Qed.
Lemma frame_trans : forall src l1 l2 a b c, frame src l1 a b -> frame src l2 b c -> frame src (l1 ++ l2) a c.
Proof.
  intros src l1 l2 a b c [A1 [A2 A3]] [B1 [B2 B3]]. split; [congruence|]. split.
  - intros i H. rewrite B2, A2; [reflexivity| |]; intro X; apply H; apply in_app_iff; auto.
  - intros i e E. destruct (A3 i e E) as [e1 [E1 [K1 [N1 [S1 W1]]]]].
    destruct (B3 i e1 E1) as [e2 [E2 [K2 [N2 [S2 W2]]]]]. exists e2.
    split; [exact E2|]. split; [congruence|]. split; [congruence|]. split; [lia|].
    intro L. rewrite W2; [apply W1; exact L|]. lia.
Qed.
Lemma frame_mono : forall src l l' c c', incl l l' -> frame src l c c' -> frame src l' c c'.
Proof.
  intros src l l' c c' I [A [B C]]. split; [exact A|]. split; [|exact C].
  intros i H. apply B. intro X. apply H, I, X.
Qed.

Lemma update_frame : forall src v c i, frame src [i] c (update c i (fun e => assign e v src)).
Proof.
  intros src v c i. split; [apply update_length|]. split.
  - intros j H. rewrite update_nth. destruct (Nat.eqb i j) eqn:Q; [|reflexivity].
    apply Nat.eqb_eq in Q. subst j. exfalso. apply H. left. reflexivity.
  - intros j e E. rewrite update_nth, E. destruct (Nat.eqb i j).
    + exists (assign e v src). split; [reflexivity|]. split; [reflexivity|]. split; [reflexivity|].
      split; [apply assign_src|apply assign_weak].
    + exists e. auto.
Qed.

Lemma parse_one_frame : forall stod lt src name c i toks c' rest,
  parse_one stod lt src name c i toks = Some (c', rest) -> frame src [i] c c'.
Proof.
  intros stod lt src name c i toks c' rest H. apply parse_one_spec in H. destruct H as [e [v [E [P ->]]]].
  apply update_frame.
Qed.

Lemma parse_many_frame : forall stod lt src name l c toks c' rest,
  parse_many stod lt src name c l toks = Some (c', rest) -> frame src l c c'.
Proof.
  intros stod lt src name. induction l as [|i l IH]; intros c toks c' rest H.
  - injection H as <- <-. apply frame_refl.
  - destruct l as [|j l].
    + apply (parse_one_frame _ _ _ _ _ _ _ _ _ H).
    + change (match parse_one stod lt src name c i toks with
              | Some (c1, _) => parse_many stod lt src name c1 (j :: l) toks | None => None end = Some (c', rest)) in H.
      destruct (parse_one stod lt src name c i toks) as [[c1 r1]|] eqn:E; [|discriminate H].
      apply (frame_trans src [i] (j :: l) c c1 c'); [apply (parse_one_frame _ _ _ _ _ _ _ _ _ E)|apply (IH _ _ _ _ H)].
Qed.

(** The entries a name stands for. *)
Definition targets (c : container) (i : nat) : list nat :=
  match nth_error c i with
  | Some e => match e_kind e with KRedirect l => l | _ => [i] end
  | None => []
  end.
Lemma parse_entry_frame : forall stod lt src name c i toks c' rest,
  parse_entry stod lt src name c i toks = Some (c', rest) -> frame src (targets c i) c c'.
Proof.
  intros stod lt src name c i toks c' rest H. unfold parse_entry in H. unfold targets.
  destruct (nth_error c i) as [e|] eqn:E; [|discriminate H].
  destruct (e_kind e); try (apply (parse_one_frame _ _ _ _ _ _ _ _ _ H)).
  apply (parse_many_frame _ _ _ _ _ _ _ _ _ H).
Qed.

Lemma frame_targets : forall src l c c' i, frame src l c c' -> targets c' i = targets c i.
Proof.
  intros src l c c' i [A [_ C]]. unfold targets. destruct (nth_error c i) as [e|] eqn:E.
  - destruct (C i e E) as [e' [E' [K _]]]. rewrite E', K. reflexivity.
  - apply nth_error_None in E. rewrite <- A in E. apply nth_error_None in E. rewrite E. reflexivity.
Qed.
Lemma find_ix_names : forall n c c', map e_names c = map e_names c' -> find_ix n c = find_ix n c'.
Proof.
  induction c as [|e c IH]; intros [|e' c'] H; try discriminate H; [reflexivity|].
  cbn [map] in H. injection H as A B. cbn [find_ix]. unfold has_name. rewrite A, (IH c' B). reflexivity.
Qed.
Lemma frame_names : forall src l c c', frame src l c c' -> map e_names c = map e_names c'.
Proof.
  intros src l c. intros c' [A [_ C]].
  assert (X : forall i, nth_error (map e_names c) i = nth_error (map e_names c') i).
  { intro i. rewrite !nth_error_map. destruct (nth_error c i) as [e|] eqn:E.
    - destruct (C i e E) as [e' [E' [_ [Nn _]]]]. rewrite E'. simpl. congruence.
    - apply nth_error_None in E. rewrite <- A in E. apply nth_error_None in E. rewrite E. reflexivity. }
  revert X. generalize (map e_names c) (map e_names c'). clear.
  induction l as [|a l IH]; intros [|b m] X; [reflexivity|specialize (X 0%nat); discriminate X|specialize (X 0%nat); discriminate X|].
  assert (Y := X 0%nat). injection Y as ->. f_equal. apply IH. intro i. apply (X (S i)).
Qed.
Lemma frame_find : forall src l c c' n, frame src l c c' -> find_setting n c' = find_setting n c.
Proof. intros src l c c' n F. unfold find_setting. symmetry. apply find_ix_names. eapply frame_names; exact F. Qed.

(** ** Tokens consumed *)

Definition suffix {A} (l m : list A) : Prop := exists p, m = p ++ l.
Lemma suffix_refl : forall A (l : list A), suffix l l. Proof. intros. exists []. reflexivity. Qed.
Lemma suffix_trans : forall A (a b c : list A), suffix a b -> suffix b c -> suffix a c.
Proof. intros A a b c [p ->] [q ->]. exists (q ++ p). rewrite app_assoc. reflexivity. Qed.
Lemma suffix_cons : forall A (x : A) l, suffix l (x :: l). Proof. intros. exists [x]. reflexivity. Qed.
Lemma suffix_length : forall A (a b : list A), suffix a b -> (length a <= length b)%nat.
Proof. intros A a b [p ->]. rewrite app_length. lia. Qed.

Lemma parse_bool_suffix : forall toks t v r, parse_bool toks t = (v, r) -> suffix r toks.
Proof.
  intros toks t v r H. unfold parse_bool in H. destruct toks as [|x l].
  - injection H as <- <-. apply suffix_refl.
  - destruct (beq x txt_true); [injection H as <- <-; apply suffix_cons|].
    destruct (beq x txt_false || beq x txt_minus); injection H as <- <-; [apply suffix_cons|apply suffix_refl].
Qed.
Lemma parse_kind_suffix : forall stod lt k name toks v r,
  parse_kind stod lt k name toks = Some (v, r) -> suffix r toks.
Proof.
  intros stod lt k name toks v r H. unfold parse_kind in H.
  destruct k.
  - injection H as H. apply (parse_bool_suffix _ _ _ _ H).
  - injection H as H. apply (parse_bool_suffix _ _ _ _ H).
  - destruct toks as [|t l]; [|destruct (stoull t)]; cbn [option_map] in H;
      [| injection H as <- <-; apply suffix_cons |];
      (destruct omit; [injection H as <- <-; apply suffix_refl|discriminate H]).
  - destruct toks as [|t l]; [|destruct (stod t)]; cbn [option_map] in H;
      [| injection H as <- <-; apply suffix_cons |];
      (destruct omit; [injection H as <- <-; apply suffix_refl|discriminate H]).
  - destruct toks as [|t l]; [discriminate H|].
    destruct (find_label lt t labels); [injection H as <- <-; apply suffix_cons|].
    destruct (stoi t); [injection H as <- <-; apply suffix_cons|discriminate H].
  - destruct toks as [|t l]; [discriminate H|]. injection H as <- <-. apply suffix_cons.
  - destruct toks as [|t l]; [discriminate H|]. injection H as <- <-. apply suffix_cons.
  - discriminate H.
Qed.
Lemma parse_one_suffix : forall stod lt src name c i toks c' rest,
  parse_one stod lt src name c i toks = Some (c', rest) -> suffix rest toks.
Proof.
  intros stod lt src name c i toks c' rest H. apply parse_one_spec in H. destruct H as [e [v [_ [P _]]]].
  apply (parse_kind_suffix _ _ _ _ _ _ _ P).
Qed.
Lemma parse_many_suffix : forall stod lt src name l c toks c' rest,
  parse_many stod lt src name c l toks = Some (c', rest) -> suffix rest toks.
Proof.
  intros stod lt src name. induction l as [|i l IH]; intros c toks c' rest H.
  - injection H as <- <-. apply suffix_refl.
  - destruct l as [|j l].
    + apply (parse_one_suffix _ _ _ _ _ _ _ _ _ H).
    + change (match parse_one stod lt src name c i toks with
              | Some (c1, _) => parse_many stod lt src name c1 (j :: l) toks | None => None end = Some (c', rest)) in H.
      destruct (parse_one stod lt src name c i toks) as [[c1 r1]|] eqn:E; [|discriminate H].
      apply (IH _ _ _ _ H).
Qed.
Lemma parse_entry_suffix : forall stod lt src name c i toks c' rest,
  parse_entry stod lt src name c i toks = Some (c', rest) -> suffix rest toks.
Proof.
  intros stod lt src name c i toks c' rest H. unfold parse_entry in H.
  destruct (nth_error c i) as [e|] eqn:E; [|discriminate H].
  destruct (e_kind e); try (apply (parse_one_suffix _ _ _ _ _ _ _ _ _ H)).
  apply (parse_many_suffix _ _ _ _ _ _ _ _ _ H).
Qed.

(** ** Command lines *)

Definition is_option (t : bytes) : bool := match t with c :: _ => c =? 45 | [] => false end.
Definition option_name (t : bytes) : bytes := strip_hyphens t.

Lemma parse_args_eq : forall fuel stod lt c toks,
  parse_args (S fuel) stod lt c toks =
  match toks with
  | [] => COk c []
  | t :: rest =>
    if is_option t then
      match option_name t with
      | [] => CUB
      | _ => if is_help (option_name t) then CThrow
             else match find_setting (option_name t) c with
                  | None => CThrow
                  | Some i => match parse_entry stod lt SCmd (option_name t) c i rest with
                              | None => CThrow
                              | Some (c', rest') => parse_args fuel stod lt c' rest'
                              end
                  end
      end
    else COk c toks
  end.
Proof.
  intros. cbn [parse_args]. destruct toks as [|t rest]; [reflexivity|].
  destruct t as [|x t]; [reflexivity|]. unfold is_option.
  destruct (N.eqb_spec x 45) as [->|Ne]; [reflexivity|].
  destruct x as [|p]; [reflexivity|].
  do 6 (destruct p as [p|p|]; try reflexivity). exfalso. apply Ne. reflexivity.
Qed.

Lemma parse_args_fuel : forall stod lt f1 f2 c toks,
  (length toks < f1)%nat -> (length toks < f2)%nat -> parse_args f1 stod lt c toks = parse_args f2 stod lt c toks.
Proof.
  intros stod lt. induction f1 as [|f1 IH]; intros f2 c toks A B; [lia|].
  destruct f2 as [|f2]; [lia|]. rewrite !parse_args_eq. destruct toks as [|t rest]; [reflexivity|].
  destruct (is_option t); [|reflexivity]. destruct (option_name t) eqn:O; [reflexivity|]. rewrite <- O.
  destruct (is_help _); [reflexivity|]. destruct (find_setting _ c) as [i|]; [|reflexivity].
  destruct (parse_entry _ _ _ _ _ _ _) as [[c' rest']|] eqn:P; [|reflexivity].
  apply parse_entry_suffix in P. apply suffix_length in P. cbn [length] in A, B. apply IH; lia.
Qed.

Lemma parse_args_spec : forall stod lt fuel c toks c' rest,
  parse_args fuel stod lt c toks = COk c' rest ->
  suffix rest toks /\ match rest with [] => True | t :: _ => is_option t = false end /\
  exists used, Forall (fun t => is_option t = true /\ In t toks) used /\
    frame SCmd (flat_map (fun t => match find_setting (option_name t) c with Some i => targets c i | None => [] end) used) c c'.
Proof.
  intros stod lt. induction fuel as [|fuel IH]; intros c toks c' rest H; [discriminate H|].
  rewrite parse_args_eq in H. destruct toks as [|t l].
  - injection H as <- <-. split; [apply suffix_refl|]. split; [exact I|].
    exists []. split; [constructor|apply frame_refl].
  - destruct (is_option t) eqn:O.
    2:{ injection H as <- <-. split; [apply suffix_refl|]. split; [exact O|].
        exists []. split; [constructor|apply frame_refl]. }
    destruct (option_name t) as [|x y] eqn:Nm; [discriminate H|]. rewrite <- Nm in H.
    destruct (is_help _); [discriminate H|].
    destruct (find_setting (option_name t) c) as [i|] eqn:F; [|discriminate H].
    destruct (parse_entry stod lt SCmd (option_name t) c i l) as [[c1 r1]|] eqn:P; [|discriminate H].
    assert (Sx := parse_entry_suffix _ _ _ _ _ _ _ _ _ P). assert (Fr := parse_entry_frame _ _ _ _ _ _ _ _ _ P).
    destruct (IH _ _ _ _ H) as [A [B [used [U Fr2]]]].
    split; [apply (suffix_trans _ _ r1); [exact A|]; apply (suffix_trans _ _ l); [exact Sx|apply suffix_cons]|].
    split; [exact B|]. exists (t :: used). split.
    + constructor; [split; [exact O|left; reflexivity]|].
      eapply Forall_impl; [|exact U]. simpl. intros a [Q1 Q2]. split; [exact Q1|]. right.
      destruct Sx as [p ->]. apply in_app_iff. auto.
    + cbn [flat_map]. rewrite F. apply (frame_trans SCmd _ _ c c1 c'); [exact Fr|].
      eapply frame_mono; [|exact Fr2]. intros j J. apply in_flat_map in J. destruct J as [u [U1 U2]].
      apply in_flat_map. exists u. split; [exact U1|]. rewrite (frame_find _ _ _ _ _ Fr) in U2.
      destruct (find_setting (option_name u) c) as [k|]; [|exact U2].
      rewrite (frame_targets _ _ _ _ _ Fr) in U2. exact U2.
Qed.

(** ** Numbers *)

Lemma clampz_range : forall v lo hi, (lo <= hi)%Z -> (lo <= clampz v lo hi <= hi)%Z.
Proof. intros. unfold clampz. destruct (Z.ltb_spec v lo); [lia|]. destruct (Z.ltb_spec hi v); lia. Qed.
Lemma clampz_id : forall v lo hi, (lo <= v <= hi)%Z -> clampz v lo hi = v.
Proof. intros. unfold clampz. destruct (Z.ltb_spec v lo); [lia|]. destruct (Z.ltb_spec hi v); lia. Qed.

Lemma fl_le_refl : forall x, x <> FNaN -> fl_le x x = true.
Proof.
  intros [| |m e] H; [contradiction|destruct neg; reflexivity|]. simpl. unfold dle.
  rewrite Z.min_id. apply Z.leb_refl.
Qed.
Lemma not_lt_le : forall x y, x <> FNaN -> y <> FNaN -> fl_lt x y = false -> fl_le y x = true.
Proof.
  intros x y A B H. unfold fl_lt in H. destruct x as [| |m e]; [contradiction| |];
    (destruct y as [| |m' e']; [contradiction| |]); apply negb_false_iff in H; exact H.
Qed.
Lemma clampf_range : forall v lo hi, fl_le lo hi = true -> v <> FNaN ->
  fl_le lo (clampf v lo hi) = true /\ fl_le (clampf v lo hi) hi = true.
Proof.
  intros v lo hi L V.
  assert (A : lo <> FNaN) by (intros ->; discriminate L).
  assert (B : hi <> FNaN) by (intros ->; destruct lo as [|[]|]; discriminate L).
  unfold clampf. destruct (fl_lt v lo) eqn:E1; [split; [apply fl_le_refl; exact A|exact L]|].
  destruct (fl_lt hi v) eqn:E2; [split; [exact L|apply fl_le_refl; exact B]|].
  split; apply not_lt_le; assumption.
Qed.

Definition dec (ds : list N) : bytes := map (fun d => 48 + d) ds.
Definition dec_val (ds : list N) : Z := fold_left (fun a d => 10 * a + Z.of_N d)%Z ds 0%Z.

Lemma digits_val_dec : forall ds a, Forall (fun d => d < 10) ds ->
  digits_val (dec ds) a = fold_left (fun a d => 10 * a + Z.of_N d)%Z ds a.
Proof.
  induction ds as [|d ds IH]; intros a F; [reflexivity|]. inversion F as [|? ? A B]; subst.
  cbn [dec map digits_val]. unfold is_digit.
  replace (48 <=? 48 + d) with true by (symmetry; apply N.leb_le; lia).
  replace (48 + d <=? 57) with true by (symmetry; apply N.leb_le; lia).
  cbn [andb]. change (map (fun d => 48 + d) ds) with (dec ds). rewrite IH by exact B. cbn [fold_left].
  f_equal. replace (48 + d - 48) with d by lia. lia.
Qed.
Lemma dec_val_nonneg : forall ds a, (0 <= a)%Z -> (0 <= fold_left (fun a d => 10 * a + Z.of_N d)%Z ds a)%Z.
Proof. induction ds as [|d ds IH]; intros a H; [exact H|]. cbn [fold_left]. apply IH. lia. Qed.

Lemma starts_digit_dec : forall ds, ds <> [] -> Forall (fun d => d < 10) ds -> starts_digit (dec ds) = true.
Proof.
  intros [|d ds] H F; [contradiction|]. inversion F as [|? ? A B]; subst. cbn [dec map starts_digit]. unfold is_digit.
  apply andb_true_iff. split; apply N.leb_le; lia.
Qed.
Lemma sign_dec : forall ds, ds <> [] -> Forall (fun d => d < 10) ds -> sign (skip_space (dec ds)) = (false, dec ds).
Proof.
  intros [|d ds] H F; [contradiction|]. inversion F as [|? ? A B]; subst. cbn [dec map skip_space].
  replace (isspace (48 + d)) with false.
  2:{ symmetry. unfold isspace. apply orb_false_iff. split; [apply andb_false_iff; right; apply N.leb_gt; lia|apply N.eqb_neq; lia]. }
  unfold sign. replace (48 + d =? 45) with false by (symmetry; apply N.eqb_neq; lia).
  replace (48 + d =? 43) with false by (symmetry; apply N.eqb_neq; lia). reflexivity.
Qed.

Lemma stoull_dec : forall ds, ds <> [] -> Forall (fun d => d < 10) ds -> (dec_val ds < 2 ^ 64)%Z ->
  stoull (dec ds) = Some (dec_val ds) /\ stoull (45 :: dec ds) = Some ((- dec_val ds) mod 2 ^ 64)%Z.
Proof.
  intros ds H F L. unfold stoull. rewrite (sign_dec ds H F), (starts_digit_dec ds H F), (digits_val_dec ds 0%Z F).
  change (sign (skip_space (45 :: dec ds))) with (true, dec ds). cbv iota beta.
  rewrite (starts_digit_dec ds H F), (digits_val_dec ds 0%Z F).
  fold (dec_val ds). apply Z.ltb_lt in L. rewrite L. split; reflexivity.
Qed.
Lemma stoull_big : forall ds, ds <> [] -> Forall (fun d => d < 10) ds -> (2 ^ 64 <= dec_val ds)%Z ->
  stoull (dec ds) = None.
Proof.
  intros ds H F L. unfold stoull. rewrite (sign_dec ds H F), (starts_digit_dec ds H F), (digits_val_dec ds 0%Z F).
  fold (dec_val ds). apply Z.ltb_ge in L. rewrite L. reflexivity.
Qed.

Lemma wrap_mod : forall z, it_wrap i32 (z mod 2 ^ 64) = it_wrap i32 z.
Proof.
  intro z. unfold it_wrap. change (it_bits i32) with 32%Z.
  assert (E : ((z mod 2 ^ 64) mod 2 ^ 32 = z mod 2 ^ 32)%Z).
  { symmetry. change (2 ^ 64)%Z with (2 ^ 32 * 2 ^ 32)%Z.
    rewrite Z.rem_mul_r by lia. rewrite Z.mul_comm, Z_mod_plus_full, Z.mod_mod by lia. reflexivity. }
  rewrite E. reflexivity.
Qed.

Lemma strip_hyphens_eq : forall k n, (match n with 45 :: _ => False | _ => True end) ->
  strip_hyphens (repeat 45 k ++ n) = n.
Proof.
  induction k as [|k IH]; intros n H; [|exact (IH n H)]. simpl repeat. rewrite app_nil_l.
  destruct n as [|x n]; [reflexivity|]. cbn [strip_hyphens].
  destruct x as [|p]; [reflexivity|]. do 6 (destruct p as [p|p|]; try reflexivity). contradiction.
Qed.
Lemma strip_us_eq : forall k n, (match n with 95 :: _ => False | _ => True end) ->
  strip_us (repeat 95 k ++ n) = n.
Proof.
  induction k as [|k IH]; intros n H; [|exact (IH n H)]. simpl repeat. rewrite app_nil_l.
  destruct n as [|x n]; [reflexivity|]. cbn [strip_us].
  destruct x as [|p]; [reflexivity|]. do 7 (destruct p as [p|p|]; try reflexivity). contradiction.
Qed.
