(* Lemmas about the entity dictionary, parser and writer. *)
From Coq Require Import List Arith NArith Bool Lia.
Import ListNotations.
From Verif Require Import Base ParserModel ParserProofs EntModel.
Local Open Scope N_scope.

Lemma beq_eq : forall a b, beq a b = true <-> a = b.
Proof.
  induction a as [|x a IH]; intros [|y b]; simpl; split; intro H; try discriminate; try reflexivity.
  - apply andb_true_iff in H. destruct H as [H1 H2]. apply N.eqb_eq in H1. apply IH in H2. congruence.
  - injection H as H1 H2. subst. rewrite N.eqb_refl. simpl. apply IH. reflexivity.
Qed.

Lemma beq_neq : forall a b, beq a b = false <-> a <> b.
Proof.
  intros. destruct (beq a b) eqn:E.
  - split; intro H; [discriminate|]. exfalso. apply H. apply beq_eq. exact E.
  - split; intro H; [|reflexivity]. intro X. apply beq_eq in X. congruence.
Qed.

Lemma beq_refl : forall a, beq a a = true. Proof. intro. apply beq_eq. reflexivity. Qed.

(** ** Dictionary laws *)

(** The value associated with a key: specification by the first pair. *)
Fixpoint assoc (k : bytes) (d : entdict) : option bytes :=
  match d with
  | [] => None
  | (k', v) :: d' => if list_eq_dec N.eq_dec k k' then Some v else assoc k d'
  end.

Definition keys (d : entdict) : list bytes := map fst d.

Lemma find_assoc : forall k d,
  match ed_find k d with
  | Some i => exists v, nth_error d i = Some (k, v) /\ assoc k d = Some v
  | None => assoc k d = None
  end.
Proof.
  intros k d. induction d as [|[k' v] d IH]; simpl; [reflexivity|].
  destruct (beq k k') eqn:E.
  - apply beq_eq in E. subst k'. exists v. simpl. destruct (list_eq_dec N.eq_dec k k); [auto|contradiction].
  - apply beq_neq in E. destruct (list_eq_dec N.eq_dec k k'); [contradiction|].
    destruct (ed_find k d) as [i|]; simpl; exact IH.
Qed.

Lemma get_assoc : forall k d, ed_get k d = match assoc k d with Some v => v | None => [] end.
Proof.
  intros. unfold ed_get. assert (H := find_assoc k d). destruct (ed_find k d).
  - destruct H as [v [H1 H2]]. rewrite H1, H2. reflexivity.
  - rewrite H. reflexivity.
Qed.

Lemma has_assoc : forall k d, ed_has k d = match assoc k d with Some _ => true | None => false end.
Proof.
  intros. unfold ed_has. assert (H := find_assoc k d). destruct (ed_find k d).
  - destruct H as [v [H1 H2]]. rewrite H2. reflexivity.
  - rewrite H. reflexivity.
Qed.

Lemma assoc_none : forall k d, assoc k d = None <-> ~ In k (keys d).
Proof.
  intros k d. induction d as [|[k' v] d IH]; simpl; [tauto|].
  destruct (list_eq_dec N.eq_dec k k').
  - split; [discriminate|]. intro H. exfalso. apply H. auto.
  - rewrite IH. split; intro H; [intros [X|X]; [congruence|contradiction]|tauto].
Qed.

Lemma assoc_app : forall k a b, assoc k (a ++ b) = match assoc k a with Some v => Some v | None => assoc k b end.
Proof.
  intros k a b. induction a as [|[k' v] a IH]; simpl; [reflexivity|].
  destruct (list_eq_dec N.eq_dec k k'); [reflexivity|apply IH].
Qed.

Lemma set_new : forall k v d, ~ In k (keys d) -> ed_set k v d = d ++ [(k, v)].
Proof.
  intros k v d H. unfold ed_set. assert (F := find_assoc k d). destruct (ed_find k d); [|reflexivity].
  destruct F as [w [_ F]]. apply assoc_none in H. congruence.
Qed.

Lemma set_cases : forall k v d,
  (~ In k (keys d) /\ ed_set k v d = d ++ [(k, v)]) \/
  (In k (keys d) /\ exists a w b, d = a ++ (k, w) :: b /\ ~ In k (keys a) /\ ed_set k v d = a ++ (k, v) :: b).
Proof.
  intros k v d. unfold ed_set. induction d as [|[k' w] d IH]; simpl.
  - left. auto.
  - destruct (beq k k') eqn:E.
    + apply beq_eq in E. subst k'. right. split; [auto|]. exists [], w, d. simpl. auto.
    + apply beq_neq in E. destruct (ed_find k d) as [i|]; simpl.
      * destruct IH as [[H1 H2]|[H1 [a [x [b [H2 [H3 H4]]]]]]].
        -- exfalso. apply (f_equal (@length _)) in H2. rewrite app_length in H2. simpl in H2.
           assert (L : forall i d, length (set_value d i v) = length d).
           { intro j. induction j; intros [|[? ?] ?]; simpl; auto. }
           rewrite L in H2. lia.
        -- right. split; [auto|]. exists ((k', w) :: a), x, b. subst d. rewrite H4. simpl.
           split; [reflexivity|]. split; [|reflexivity]. intros [X|X]; [congruence|contradiction].
      * destruct IH as [[H1 H2]|[H1 [a [x [b [H2 [H3 H4]]]]]]].
        -- left. split; [|reflexivity]. intros [X|X]; [congruence|contradiction].
        -- exfalso. subst d. apply (f_equal (@length _)) in H4. rewrite !app_length in H4. simpl in H4. lia.
Qed.

Lemma keys_app : forall a b, keys (a ++ b) = keys a ++ keys b.
Proof. intros. unfold keys. apply map_app. Qed.

Lemma assoc_set : forall k v k' d, assoc k' (ed_set k v d) = if list_eq_dec N.eq_dec k' k then Some v else assoc k' d.
Proof.
  intros k v k' d. destruct (set_cases k v d) as [[H1 H2]|[H1 [a [w [b [H2 [H3 H4]]]]]]].
  - rewrite H2, assoc_app. simpl. destruct (list_eq_dec N.eq_dec k' k).
    + subst. apply assoc_none in H1. rewrite H1. reflexivity.
    + destruct (assoc k' d); reflexivity.
  - rewrite H4, H2, !assoc_app. simpl. destruct (list_eq_dec N.eq_dec k' k); [|reflexivity].
    subst. apply assoc_none in H3. rewrite H3. reflexivity.
Qed.

Lemma keys_set : forall k v d, keys (ed_set k v d) = if in_dec (list_eq_dec N.eq_dec) k (keys d) then keys d else keys d ++ [k].
Proof.
  intros k v d. destruct (set_cases k v d) as [[H1 H2]|[H1 [a [w [b [H2 [H3 H4]]]]]]];
  destruct (in_dec (list_eq_dec N.eq_dec) k (keys d)); try contradiction.
  - rewrite H2, keys_app. reflexivity.
  - rewrite H4, H2, !keys_app. reflexivity.
Qed.

Lemma remove_cases : forall k d,
  (~ In k (keys d) /\ ed_remove k d = d) \/
  exists a w b, d = a ++ (k, w) :: b /\ ~ In k (keys a) /\ ed_remove k d = a ++ b /\ assoc k d = Some w.
Proof.
  intros k d. unfold ed_remove. assert (F := find_assoc k d).
  destruct (ed_find k d) as [i|] eqn:E.
  - right. destruct F as [v [F1 F2]]. clear F2.
    revert i E F1. induction d as [|[k' w] d IH]; intros i E F1; [discriminate|].
    simpl in E. destruct (beq k k') eqn:B.
    + injection E as E. subst i. apply beq_eq in B. subst k'. exists [], w, d. simpl.
      destruct (list_eq_dec N.eq_dec k k); [|contradiction]. auto.
    + destruct (ed_find k d) as [j|] eqn:F; [|discriminate]. injection E as E. subst i. simpl in F1.
      destruct (IH j eq_refl F1) as [a [x [b [H1 [H2 [H3 H4]]]]]].
      exists ((k', w) :: a), x, b. subst d. apply beq_neq in B.
      split; [reflexivity|]. split; [|split].
      * simpl. intros [X|X]; [congruence|contradiction].
      * unfold erase in *. change (skipn (S (S j)) ((k', w) :: a ++ (k, x) :: b)) with (skipn (S j) (a ++ (k, x) :: b)).
        cbn [firstn app]. rewrite H3. reflexivity.
      * cbn [app assoc]. destruct (list_eq_dec N.eq_dec k k'); [contradiction|exact H4].
  - left. split; [apply assoc_none; exact F|reflexivity].
Qed.

Lemma assoc_remove : forall k k' d, NoDup (keys d) ->
  assoc k' (ed_remove k d) = if list_eq_dec N.eq_dec k' k then None else assoc k' d.
Proof.
  intros k k' d ND. destruct (remove_cases k d) as [[H1 H2]|[a [w [b [H1 [H2 [H3 H4]]]]]]].
  - rewrite H2. destruct (list_eq_dec N.eq_dec k' k); [|reflexivity]. subst. apply assoc_none. exact H1.
  - rewrite H3. subst d. rewrite !assoc_app. simpl. destruct (list_eq_dec N.eq_dec k' k); [|reflexivity].
    subst k'. rewrite keys_app in ND. simpl in ND. apply NoDup_remove_2 in ND.
    assert (A : ~ In k (keys a)) by (intro; apply ND; apply in_or_app; auto).
    assert (B : ~ In k (keys b)) by (intro; apply ND; apply in_or_app; auto).
    apply assoc_none in A. apply assoc_none in B. rewrite A, B. reflexivity.
Qed.

Lemma filter_all : forall A (f : A -> bool) l, Forall (fun x => f x = true) l -> filter f l = l.
Proof. induction 1; simpl; [reflexivity|]. rewrite H, IHForall. reflexivity. Qed.

Lemma filter_neq : forall k (l : list bytes), ~ In k l -> filter (fun x => negb (beq x k)) l = l.
Proof.
  intros k l H. apply filter_all. apply Forall_forall. intros x X. apply negb_true_iff. apply beq_neq.
  intro; subst; contradiction.
Qed.

Lemma keys_remove : forall k d, NoDup (keys d) ->
  keys (ed_remove k d) = filter (fun x => negb (beq x k)) (keys d).
Proof.
  intros k d ND. destruct (remove_cases k d) as [[H1 H2]|[a [w [b [H1 [H2 [H3 H4]]]]]]].
  - rewrite H2, filter_neq; auto.
  - rewrite H3. subst d. rewrite !keys_app in *. simpl in *. rewrite filter_app. simpl. rewrite beq_refl. simpl.
    apply NoDup_remove_2 in ND.
    rewrite !filter_neq; [reflexivity| |]; intro; apply ND; apply in_or_app; auto.
Qed.

Lemma nodup_set : forall k v d, NoDup (keys d) -> NoDup (keys (ed_set k v d)).
Proof.
  intros k v d H. rewrite keys_set. destruct (in_dec (list_eq_dec N.eq_dec) k (keys d)); [exact H|].
  replace (keys d ++ [k]) with (keys d ++ k :: []) by reflexivity.
  apply (NoDup_Add (a := k) (l := keys d)); [|auto].
  rewrite <- (app_nil_r (keys d)) at 1. apply Add_app.
Qed.

Lemma nodup_remove : forall k d, NoDup (keys d) -> NoDup (keys (ed_remove k d)).
Proof. intros k d H. rewrite keys_remove by exact H. apply NoDup_filter. exact H. Qed.

(** Histories of dictionary operations, against finite maps. *)
Inductive ed_op := Ed_set (k v : bytes) | Ed_remove (k : bytes).

Definition ed_apply (d : entdict) (o : ed_op) : entdict :=
  match o with Ed_set k v => ed_set k v d | Ed_remove k => ed_remove k d end.

Definition ed_run (ops : list ed_op) : entdict := fold_left ed_apply ops [].

(** The specification: the last operation that names the key decides. *)
Fixpoint spec_get (ops : list ed_op) (k : bytes) (cur : option bytes) : option bytes :=
  match ops with
  | [] => cur
  | Ed_set k' v :: ops' => spec_get ops' k (if list_eq_dec N.eq_dec k k' then Some v else cur)
  | Ed_remove k' :: ops' => spec_get ops' k (if list_eq_dec N.eq_dec k k' then None else cur)
  end.

(** Insertion order: a key keeps its place until it is removed. *)
Fixpoint spec_keys (ops : list ed_op) (cur : list bytes) : list bytes :=
  match ops with
  | [] => cur
  | Ed_set k _ :: ops' => spec_keys ops' (if in_dec (list_eq_dec N.eq_dec) k cur then cur else cur ++ [k])
  | Ed_remove k :: ops' => spec_keys ops' (filter (fun x => negb (beq x k)) cur)
  end.

Lemma ed_history_gen : forall ops d, NoDup (keys d) ->
  let d' := fold_left ed_apply ops d in
  NoDup (keys d') /\ keys d' = spec_keys ops (keys d) /\ (forall k, assoc k d' = spec_get ops k (assoc k d)).
Proof.
  induction ops as [|[k v|k] ops IH]; intros d ND; simpl.
  - auto.
  - destruct (IH (ed_set k v d) (nodup_set k v d ND)) as [A [B C]]. split; [exact A|]. split.
    + rewrite B, keys_set. reflexivity.
    + intro k'. rewrite C, assoc_set. reflexivity.
  - destruct (IH (ed_remove k d) (nodup_remove k d ND)) as [A [B C]]. split; [exact A|]. split.
    + rewrite B, keys_remove by exact ND. reflexivity.
    + intro k'. rewrite C, assoc_remove by exact ND. reflexivity.
Qed.

Lemma ed_history : forall ops, NoDup (keys (ed_run ops)) /\ keys (ed_run ops) = spec_keys ops [] /\
  (forall k, ed_has k (ed_run ops) = match spec_get ops k None with Some _ => true | None => false end) /\
  (forall k, ed_get k (ed_run ops) = match spec_get ops k None with Some v => v | None => [] end).
Proof.
  intro ops. destruct (ed_history_gen ops [] (NoDup_nil _)) as [A [B C]]. split; [exact A|]. split; [exact B|].
  unfold ed_run. split; intro k; [rewrite has_assoc|rewrite get_assoc]; rewrite C; reflexivity.
Qed.

(** Rename. *)
Lemma rename_cases : forall from to d,
  (~ In from (keys d) /\ ed_rename from to d = d) \/
  exists a w b, d = a ++ (from, w) :: b /\ ~ In from (keys a) /\ ed_rename from to d = a ++ b ++ [(to, w)] /\ assoc from d = Some w.
Proof.
  intros from to d. destruct (remove_cases from d) as [[H1 H2]|[a [w [b [H1 [H2 [H3 H4]]]]]]].
  - left. split; [exact H1|]. unfold ed_rename. assert (F := find_assoc from d). destruct (ed_find from d); [|reflexivity].
    destruct F as [v [_ F]]. apply assoc_none in H1. congruence.
  - right. exists a, w, b. split; [exact H1|]. split; [exact H2|]. split; [|exact H4].
    unfold ed_rename. unfold ed_remove in H3. assert (F := find_assoc from d). destruct (ed_find from d) as [i|].
    + destruct F as [v [F1 F2]]. rewrite F1, H3. rewrite F2 in H4. injection H4 as H4. subst. simpl.
      rewrite <- app_assoc. reflexivity.
    + congruence.
Qed.

Lemma rename_spec : forall from to d w, NoDup (keys d) -> assoc from d = Some w -> (to = from \/ ~ In to (keys d)) ->
  let d' := ed_rename from to d in
  NoDup (keys d') /\ assoc to d' = Some w /\ (to <> from -> assoc from d' = None) /\
  (forall k, k <> from -> k <> to -> assoc k d' = assoc k d) /\
  keys d' = filter (fun x => negb (beq x from)) (keys d) ++ [to].
Proof.
  intros from to d w ND A T d'. subst d'.
  destruct (rename_cases from to d) as [[H1 _]|[a [w' [b [H1 [H2 [H3 H4]]]]]]].
  { apply assoc_none in H1. congruence. }
  rewrite A in H4. injection H4 as H4. subst w'. rewrite H3. subst d.
  rewrite keys_app in *. simpl in *.
  assert (NF : ~ In from (keys a ++ keys b)) by (apply NoDup_remove_2; exact ND).
  assert (NT : ~ In to (keys a ++ keys b)).
  { destruct T as [T|T]; [subst; exact NF|]. intro X. apply T. apply in_app_iff in X. apply in_or_app. simpl. tauto. }
  assert (NA : forall k, ~ In k (keys a ++ keys b) -> assoc k a = None /\ assoc k b = None).
  { intros k X. split; apply assoc_none; intro; apply X; apply in_or_app; auto. }
  assert (FK : filter (fun x => negb (beq x from)) (keys a ++ from :: keys b) = keys a ++ keys b).
  { rewrite filter_app. simpl. rewrite beq_refl. simpl. rewrite !filter_neq; [reflexivity| |];
    intro; apply NF; apply in_or_app; auto. }
  split; [|split; [|split; [|split]]].
  - rewrite !keys_app. simpl. rewrite app_assoc. apply (NoDup_Add (a := to) (l := keys a ++ keys b)).
    + rewrite <- (app_nil_r (keys a ++ keys b)) at 1. apply Add_app.
    + split; [apply (NoDup_remove_1 _ _ _ ND)|exact NT].
  - destruct (NA to NT) as [X Y]. rewrite !assoc_app, X, Y. simpl. destruct (list_eq_dec N.eq_dec to to); [reflexivity|contradiction].
  - intro NE. destruct (NA from NF) as [X Y]. rewrite !assoc_app, X, Y. simpl.
    destruct (list_eq_dec N.eq_dec from to); [congruence|reflexivity].
  - intros k K1 K2. rewrite !assoc_app. simpl. destruct (list_eq_dec N.eq_dec k from); [contradiction|].
    destruct (list_eq_dec N.eq_dec k to); [contradiction|]. destruct (assoc k a); [reflexivity|]. destruct (assoc k b); reflexivity.
  - rewrite !keys_app. simpl. rewrite FK. rewrite app_assoc. reflexivity.
Qed.

(** ** Entity text *)

(** Strings that survive between quotes, [nx] being the byte after the closing quote: no NUL,
    no unescaped quote, no escaped quote before a line end, no backslash before the closing
    quote unless a line end follows it. *)
Definition is_eol (c : N) : bool := (c =? 13) || (c =? 10).

Fixpoint quotable (nx : N) (v : bytes) : bool :=
  match v with
  | [] => true
  | c :: v1 =>
    if (c =? 34) || (c =? 0) then false
    else if c =? 92 then
      match v1 with
      | [] => is_eol nx
      | d :: v2 =>
        if esc_pair d then quotable nx v2
        else if d =? 34 then
          match v2 with [] => true | e :: _ => negb (is_eol e) && quotable nx v2 end
        else quotable nx v1
      end
    else quotable nx v1
  end.

Lemma take_quoted_quotable : forall m v nx r n acc, (length v <= m)%nat -> quotable nx v = true ->
  take_quoted (v ++ 34 :: nx :: r) n acc = Q_ok (acc ++ v) (nx :: r) (n - length v - 1)%nat.
Proof.
  induction m as [|m IH]; intros v nx r n acc Hm H.
  - destruct v; [|simpl in Hm; lia]. simpl. rewrite app_nil_r. f_equal. lia.
  - destruct v as [|c v]; [simpl; rewrite app_nil_r; f_equal; lia|]. simpl in Hm.
    cbn [quotable] in H. cbn [app take_quoted].
    destruct (c =? 34) eqn:E34; [discriminate|]. destruct (c =? 0) eqn:E0; [discriminate|]. cbn [orb] in H.
    assert (One : quotable nx v = true -> take_quoted (v ++ 34 :: nx :: r) (pred n) (acc ++ [c])
        = Q_ok (acc ++ c :: v) (nx :: r) (n - length (c :: v) - 1)%nat).
    { intro Q. rewrite IH by (auto; lia). rewrite <- app_assoc. simpl. f_equal. lia. }
    destruct (c =? 92) eqn:E92; [|apply One; exact H].
    destruct v as [|d v].
    + cbn [app]. change (esc_pair 34) with false. change (34 =? 34) with true. cbn beta iota.
      unfold is_eol in H. rewrite H. apply One. reflexivity.
    + cbn [app]. assert (Two : quotable nx v = true -> take_quoted (v ++ 34 :: nx :: r) (pred (pred n)) (acc ++ [c; d])
        = Q_ok (acc ++ c :: d :: v) (nx :: r) (n - length (c :: d :: v) - 1)%nat).
      { intro Q. simpl in Hm. rewrite IH by (auto; lia). rewrite <- app_assoc. simpl. f_equal. lia. }
      destruct (esc_pair d); [apply Two; exact H|].
      destruct (d =? 34) eqn:D34; [|cbn [app] in One; apply One; exact H].
      destruct v as [|e v].
      * cbn [app]. change ((34 =? 13) || (34 =? 10)) with false. cbn beta iota. apply Two. exact H.
      * cbn [app]. apply andb_true_iff in H. destruct H as [H1 H2]. apply negb_true_iff in H1.
        unfold is_eol in H1. rewrite H1. apply Two. exact H2.
Qed.

(** A string without quotes, NULs and final backslash survives anywhere; without quotes and
    NULs it survives before a line end. *)
Lemma quotable_plain : forall m v nx, (length v <= m)%nat -> ~ In 34 v -> ~ In 0 v ->
  (is_eol nx = true \/ last v 0 <> 92) -> quotable nx v = true.
Proof.
  induction m as [|m IH]; intros v nx Hm Q Z L; (destruct v as [|c v]; [reflexivity|]); simpl in Hm; [lia|].
  cbn [quotable].
  assert (c <> 34) as C1 by (intro; subst; apply Q; left; reflexivity).
  assert (c <> 0) as C2 by (intro; subst; apply Z; left; reflexivity).
  apply N.eqb_neq in C1. apply N.eqb_neq in C2. rewrite C1, C2. cbn [orb].
  assert (Q' : ~ In 34 v) by (intro; apply Q; right; assumption).
  assert (Z' : ~ In 0 v) by (intro; apply Z; right; assumption).
  assert (Tail : is_eol nx = true \/ last v 0 <> 92).
  { destruct L as [L|L]; [auto|]. destruct v as [|d v]; [right; discriminate|]. auto. }
  destruct (c =? 92) eqn:E92; [|apply IH; auto; lia].
  destruct v as [|d v].
  - destruct L as [L|L]; [exact L|]. simpl in L. apply N.eqb_eq in E92. contradiction.
  - assert (d <> 34) as D1 by (intro; subst; apply Q'; left; reflexivity). apply N.eqb_neq in D1.
    destruct (esc_pair d).
    + simpl in Hm. apply IH; [lia| | |].
      * intro; apply Q'; right; assumption.
      * intro; apply Z'; right; assumption.
      * destruct Tail as [T|T]; [auto|]. destruct v as [|e v]; [right; discriminate|]. auto.
    + rewrite D1. apply IH; auto. lia.
Qed.

(** Single tokens. *)
Definition ok_flags (f : N) : Prop := f_sameline f = false /\ f_optional f = false /\ f_comment f = false.

Lemma ok_normal : ok_flags PARSE_NORMAL. Proof. repeat split. Qed.
Lemma ok_peek : ok_flags PARSE_PEEK. Proof. repeat split. Qed.

Lemma skip_newline : forall f s n line, ok_flags f -> skip f false (10 :: s) (S n) line = skip f false s n (S line).
Proof.
  intros f s n line [A [B C]]. cbn [skip]. change (blank 10) with true. change (10 =? 0) with false.
  change (10 =? 10) with true. cbn beta iota. unfold eol. rewrite A, B. reflexivity.
Qed.

Lemma skip_space : forall f s n line, skip f false (32 :: s) (S n) line = skip f false s n line.
Proof. intros. reflexivity. Qed.

Lemma skip_brace : forall f b s n line, ok_flags f -> b = 123 \/ b = 125 ->
  skip f false (b :: 10 :: s) (S n) line = T_ret true (mkPS [b] false (10 :: s) n line).
Proof.
  intros f b s n line [A [B C]] [E|E]; subst b; cbn; unfold copy_token; rewrite C; reflexivity.
Qed.

Lemma skip_quoted : forall f v nx r n line, ok_flags f -> quotable nx v = true -> (length v + 2 <= n)%nat ->
  skip f false (34 :: v ++ 34 :: nx :: r) n line = T_ret true (mkPS v true (nx :: r) (n - (length v + 2))%nat line).
Proof.
  intros f v nx r n line [A [B C]] Q L. destruct n as [|n]; [lia|].
  cbn [skip]. change (blank 34) with false. change (34 =? 47) with false. change (34 =? 59) with false.
  cbn beta iota. unfold copy_token. rewrite C. change (34 =? 34) with true. cbn beta iota.
  rewrite (take_quoted_quotable (length v)) by auto. cbn [pred app].
  replace (n - length v - 1)%nat with (S n - (length v + 2))%nat by lia. reflexivity.
Qed.

Definition usable_pair (kv : bytes * bytes) : Prop :=
  quotable 32 (fst kv) = true /\ quotable 10 (snd kv) = true /\ fst kv <> [125] /\ snd kv <> [125].

(** One key/value pair of written text. *)
Lemma parse_pair_step : forall fuel acc tok q k v rest line,
  usable_pair (k, v) ->
  parse_pairs (S fuel) acc (mkPS tok q (10 :: write_pair (k, v) ++ rest ++ [0]) (1 + length (write_pair (k, v) ++ rest)) line) =
  match trim_back (trim_front k) with
  | None => E_UB
  | Some k' => parse_pairs fuel (ed_set k' v acc) (mkPS v true (10 :: rest ++ [0]) (1 + length rest) (S line))
  end.
Proof.
  intros fuel acc tok q k v rest line [Q1 [Q2 [N1 N2]]]. cbn [fst snd] in *.
  cbn [parse_pairs]. unfold parse_token. change (f_peek PARSE_NORMAL) with false. cbn beta iota.
  cbn [ps_mem ps_left ps_line].
  assert (W : write_pair (k, v) ++ rest ++ [0] = 34 :: k ++ 34 :: 32 :: 34 :: v ++ 34 :: 10 :: rest ++ [0]).
  { unfold write_pair. cbn [fst snd app]. rewrite <- !app_assoc. cbn [app]. rewrite <- !app_assoc. reflexivity. }
  assert (WL : length (write_pair (k, v) ++ rest) = (length k + length v + 6 + length rest)%nat).
  { unfold write_pair. cbn [fst snd]. rewrite app_length. cbn [length]. rewrite !app_length. simpl. lia. }
  rewrite W, WL. change (1 + (length k + length v + 6 + length rest))%nat with (S (length k + length v + 6 + length rest)).
  rewrite skip_newline by apply ok_normal.
  rewrite skip_quoted by (auto using ok_normal; lia). cbn [ps_token ps_mem ps_left ps_line].
  apply beq_neq in N1. rewrite N1.
  replace (length k + length v + 6 + length rest - (length k + 2))%nat with (S (length v + 3 + length rest)) by lia.
  rewrite skip_space. rewrite skip_quoted by (auto using ok_normal; lia). cbn [ps_token ps_mem ps_left ps_line].
  apply beq_neq in N2. rewrite N2.
  replace (length v + 3 + length rest - (length v + 2))%nat with (1 + length rest)%nat by lia. reflexivity.
Qed.

(** Keys whose ends are not blanks are left alone by the trimming loops. *)
Definition trimmed (k : bytes) : Prop := exists c k', k = c :: k' /\ isspace c = false /\ isspace (last k 0) = false.

Lemma trim_id : forall k, trimmed k -> trim_back (trim_front k) = Some k.
Proof.
  intros k [c [k' [E [H1 H2]]]]. subst k. cbn [trim_front]. rewrite H1. cbn [trim_back]. rewrite H2. reflexivity.
Qed.

Lemma trim_leading : forall sp k, Forall (fun c => isspace c = true) sp -> trimmed k ->
  trim_back (trim_front (sp ++ k)) = Some k.
Proof.
  intros sp k H T. induction H as [|c sp H _ IH]; cbn [app]; [apply trim_id; exact T|].
  cbn [trim_front]. rewrite H. exact IH.
Qed.

Lemma last_cons2 : forall (c d : N) k, last (c :: d :: k) 0 = last (d :: k) 0.
Proof. reflexivity. Qed.

Lemma trim_back_ub : forall k, isspace (last k 0) = true -> trim_back k = None.
Proof.
  induction k as [|c k IH]; intro H; [reflexivity|]. cbn [trim_back]. rewrite H.
  destruct k as [|d k]; [reflexivity|]. apply IH. exact H.
Qed.

Lemma trim_trailing_ub : forall k, k = [] \/ isspace (last k 0) = true -> trim_back (trim_front k) = None.
Proof.
  intros k [H|H]; [subst; reflexivity|].
  induction k as [|c k IH]; [reflexivity|]. cbn [trim_front]. destruct (isspace c) eqn:E.
  - destruct k as [|d k]; [reflexivity|]. apply IH. exact H.
  - apply trim_back_ub. exact H.
Qed.

Definition usable_ent (d : entdict) : Prop :=
  NoDup (keys d) /\ Forall (fun kv => usable_pair kv /\ trimmed (fst kv)) d.

Lemma parse_pairs_written : forall d fuel acc tok q rest line,
  NoDup (keys (acc ++ d)) -> Forall (fun kv => usable_pair kv /\ trimmed (fst kv)) d ->
  (length d < fuel)%nat ->
  parse_pairs fuel acc (mkPS tok q (10 :: concat (map write_pair d) ++ 125 :: 10 :: rest ++ [0])
     (1 + length (concat (map write_pair d) ++ 125%N :: 10%N :: rest)) line) =
  E_ok (acc ++ d, mkPS [125] false (10 :: rest ++ [0]) (1 + length rest) (S (line + length d))).
Proof.
  induction d as [|[k v] d IH]; intros fuel acc tok q rest line ND F L.
  - destruct fuel as [|fuel]; [simpl in L; lia|]. cbn [map concat app length parse_pairs].
    unfold parse_token. change (f_peek PARSE_NORMAL) with false. cbn beta iota. cbn [ps_mem ps_left ps_line].
    change (1 + S (S (length rest)))%nat with (S (S (S (length rest)))).
    rewrite skip_newline by apply ok_normal. rewrite skip_brace by (auto using ok_normal).
    cbn [ps_token ps_mem ps_left ps_line]. change (beq [125] [125]) with true. cbn beta iota.
    rewrite app_nil_r. replace (line + 0)%nat with line by lia. reflexivity.
  - destruct fuel as [|fuel]; [simpl in L; lia|]. inversion F as [|x l [U T] F']. subst x l.
    cbn [map concat]. rewrite <- app_assoc.
    set (R := concat (map write_pair d) ++ 125 :: 10 :: rest).
    assert (RE : concat (map write_pair d) ++ 125 :: 10 :: rest ++ [0] = R ++ [0]).
    { unfold R. rewrite <- app_assoc. reflexivity. }
    rewrite RE. rewrite <- app_assoc. fold R.
    rewrite parse_pair_step by exact U. cbn [fst] in T. rewrite (trim_id k T).
    assert (NK : ~ In k (keys acc)).
    { rewrite keys_app in ND. simpl in ND. apply NoDup_remove_2 in ND. intro X. apply ND. apply in_or_app. auto. }
    rewrite set_new by exact NK. unfold R. rewrite <- app_assoc. cbn [app].
    rewrite IH; [|rewrite <- app_assoc; exact ND|exact F'|simpl in L; lia].
    rewrite <- app_assoc. cbn [app length]. replace (S line + length d)%nat with (line + S (length d))%nat by lia. reflexivity.
Qed.

Lemma write_ent_length : forall d, (length d <= length (concat (map write_pair d)))%nat.
Proof.
  induction d as [|kv d IH]; [simpl; lia|]. cbn [map concat length]. rewrite app_length.
  unfold write_pair at 1. cbn [length]. lia.
Qed.

(** One written entity, read at its opening brace. *)
Lemma ed_parse_written : forall d fuel tok q pre rest line,
  usable_ent d -> (length d < fuel)%nat -> pre = [] \/ pre = [10] ->
  exists line', ed_parse fuel [] (mkPS tok q (pre ++ write_ent d ++ rest ++ [0]) (length pre + length (write_ent d ++ rest)) line) =
  E_ok (d, mkPS [125] false (10 :: rest ++ [0]) (1 + length rest) line').
Proof.
  intros d fuel tok q pre rest line [ND F] L P.
  assert (W : write_ent d ++ rest ++ [0] = 123 :: 10 :: concat (map write_pair d) ++ 125 :: 10 :: rest ++ [0]).
  { unfold write_ent. cbn [app]. rewrite <- app_assoc. reflexivity. }
  assert (WL : length (write_ent d ++ rest) = S (1 + length (concat (map write_pair d) ++ 125%N :: 10%N :: rest))%nat).
  { unfold write_ent. cbn [app length]. rewrite <- app_assoc. reflexivity. }
  assert (P1 : exists l1, parse_token PARSE_NORMAL (mkPS tok q (pre ++ write_ent d ++ rest ++ [0]) (length pre + length (write_ent d ++ rest)) line) =
     T_ret true (mkPS [123] false (10 :: concat (map write_pair d) ++ 125 :: 10 :: rest ++ [0]) (1 + length (concat (map write_pair d) ++ 125%N :: 10%N :: rest)) l1)).
  { unfold parse_token. change (f_peek PARSE_NORMAL) with false. cbn beta iota. cbn [ps_mem ps_left ps_line].
    rewrite W, WL. destruct P as [P|P]; subst pre.
    - exists line. cbn [app length Nat.add]. rewrite skip_brace by (auto using ok_normal). reflexivity.
    - exists (S line). cbn [app length Nat.add]. rewrite skip_newline by apply ok_normal.
      rewrite skip_brace by (auto using ok_normal). reflexivity. }
  destruct P1 as [l1 P1]. unfold ed_parse. rewrite P1. cbn [ps_token]. change (beq [123] [123]) with true. cbn beta iota.
  exists (S (l1 + length d)). rewrite parse_pairs_written; [reflexivity|exact ND|exact F|exact L].
Qed.

Lemma peek_written : forall d rest tok q pre line, pre = [] \/ pre = [10] ->
  parse_token PARSE_PEEK (mkPS tok q (pre ++ write_ent d ++ rest ++ [0]) (length pre + length (write_ent d ++ rest)) line) =
  T_ret true (mkPS [123] false (pre ++ write_ent d ++ rest ++ [0]) (length pre + length (write_ent d ++ rest)) line).
Proof.
  intros d rest tok q pre line P. unfold parse_token. change (f_peek PARSE_PEEK) with true. cbn beta iota. cbn [ps_mem ps_left ps_line].
  assert (W : exists x, write_ent d ++ rest ++ [0] = 123 :: 10 :: x) by (unfold write_ent; cbn [app]; eauto).
  assert (WL : exists m, length (write_ent d ++ rest) = S m) by (unfold write_ent; cbn [app length]; eauto).
  destruct W as [x W]. destruct WL as [m WL]. rewrite W, WL. destruct P as [P|P]; subst pre; cbn [app length Nat.add].
  - rewrite skip_brace by (auto using ok_peek). reflexivity.
  - rewrite skip_newline by apply ok_peek. rewrite skip_brace by (auto using ok_peek). reflexivity.
Qed.

Lemma ents_parse_written : forall ds fuel acc tok q pre line,
  Forall usable_ent ds -> (length ds < fuel)%nat -> pre = [] \/ pre = [10] ->
  exists p, ents_parse_into fuel acc (mkPS tok q (pre ++ ents_write ds ++ [0]) (length pre + length (ents_write ds)) line)
   = E_ok (acc ++ ds, p).
Proof.
  induction ds as [|d ds IH]; intros fuel acc tok q pre line F L P.
  - destruct fuel as [|fuel]; [simpl in L; lia|]. rewrite app_nil_r. destruct P as [P|P]; subst pre.
    + eexists. reflexivity.
    + eexists. reflexivity.
  - destruct fuel as [|fuel]; [simpl in L; lia|]. inversion F as [|x l U F']. subst x l.
    assert (EW : ents_write (d :: ds) = write_ent d ++ ents_write ds) by reflexivity.
    rewrite EW, <- app_assoc. cbn [ents_parse_into]. cbn [ps_left].
    destruct (length pre + length (write_ent d ++ ents_write ds))%nat as [|m] eqn:EL.
    { unfold write_ent in EL. cbn [app length] in EL. lia. }
    rewrite <- EL. rewrite peek_written by exact P. cbn [ps_mem].
    destruct (ed_parse_written d (S (length (pre ++ write_ent d ++ ents_write ds ++ [0]))) [123] false pre (ents_write ds) line U) as [l' H].
    { assert (X := write_ent_length d). rewrite !app_length. unfold write_ent. rewrite !app_length. lia. }
    { exact P. }
    rewrite H. destruct (IH fuel (acc ++ [d]) [125] false [10] l' F' ltac:(simpl in L; lia) (or_intror eq_refl)) as [p Hp].
    exists p. cbn [app length] in Hp. rewrite Hp. rewrite <- app_assoc. reflexivity.
Qed.

Lemma ents_length : forall ds, (length ds <= length (ents_write ds))%nat.
Proof.
  induction ds as [|d ds IH]; [simpl; lia|]. unfold ents_write in *. cbn [map concat length]. rewrite app_length.
  unfold write_ent at 1. cbn [app length]. lia.
Qed.

Lemma ents_roundtrip : forall ds, Forall usable_ent ds -> ents_parse (ents_write ds) = E_ok ds.
Proof.
  intros ds F. unfold ents_parse, new_parser.
  destruct (ents_parse_written ds (S (length (ents_write ds) + 1)) [] [] false [] 1 F) as [p H].
  - assert (X := ents_length ds). lia.
  - auto.
  - cbn [app length Nat.add] in H. rewrite H. reflexivity.
Qed.

(** ** Termination of the entity parser on any text *)

Lemma parse_pairs_fuel : forall fuel d p t r, in_text p t r -> (length t < fuel)%nat ->
  parse_pairs fuel d p <> E_fuel /\
  forall d' p', parse_pairs fuel d p = E_ok (d', p') -> exists u v, t = u ++ v /\ u <> [] /\ in_text p' v r.
Proof.
  induction fuel as [|fuel IH]; intros d p t r I L; [lia|]. cbn [parse_pairs].
  destruct (parse_token_cases PARSE_NORMAL p t r I eq_refl) as [H|[b [q [u [v [H [E [I2 U]]]]]]]]; rewrite H.
  { split; [discriminate|intros; discriminate]. }
  destruct b; [|split; [discriminate|intros; discriminate]]. specialize (U eq_refl).
  destruct (beq (ps_token q) [125]).
  { split; [discriminate|]. intros d' p' X. injection X as X1 X2. subst. exists u, v. auto. }
  destruct (parse_token_cases PARSE_NORMAL q v r I2 eq_refl) as [H2|[b2 [q2 [u2 [v2 [H2 [E2 [I3 U2]]]]]]]]; rewrite H2.
  { split; [discriminate|intros; discriminate]. }
  destruct b2; [|split; [discriminate|intros; discriminate]]. specialize (U2 eq_refl).
  destruct (beq (ps_token q2) [125]); [split; [discriminate|intros; discriminate]|].
  destruct (trim_back (trim_front (ps_token q))) as [k|]; [|split; [discriminate|intros; discriminate]].
  subst t v. destruct (IH (ed_set k (ps_token q2) d) q2 v2 r I3) as [N S].
  { rewrite !app_length in L. destruct u; [contradiction|]. simpl in L. lia. }
  split; [exact N|]. intros d' p' X. destruct (S d' p' X) as [u3 [v3 [E3 [U3 I4]]]].
  exists (u ++ u2 ++ u3), v3. subst v2. rewrite <- !app_assoc. split; [reflexivity|].
  split; [|exact I4]. intro Y. destruct u; [contradiction|discriminate].
Qed.

Lemma ents_parse_fuel : forall fuel v p t r, in_text p t r -> (length t < fuel)%nat ->
  ents_parse_into fuel v p <> E_fuel.
Proof.
  induction fuel as [|fuel IH]; intros v p t r I L; [lia|]. cbn [ents_parse_into].
  destruct (ps_left p) eqn:PL; [discriminate|].
  destruct (parse_token PARSE_PEEK p) as [b p1| |] eqn:P; try discriminate.
  destruct b; [|discriminate].
  assert (I1 : in_text p1 t r).
  { unfold parse_token in P. change (f_peek PARSE_PEEK) with true in P. cbn beta iota in P.
    destruct (skip PARSE_PEEK false (ps_mem p) (ps_left p) (ps_line p)); try discriminate.
    injection P as P1 P2. subst p1. exact I. }
  unfold ed_parse.
  destruct (parse_token_cases PARSE_NORMAL p1 t r I1 eq_refl) as [H|[b [q [u [w [H [E [I2 U]]]]]]]]; rewrite H; [discriminate|].
  destruct b.
  - specialize (U eq_refl). destruct (beq (ps_token q) [123]); [|discriminate].
    assert (F : (length w < S (length (ps_mem p1)))%nat).
    { destruct I1 as [M _]. rewrite M. subst t. rewrite !app_length. lia. }
    destruct (parse_pairs_fuel (S (length (ps_mem p1))) [] q w r I2 F) as [NF SS].
    destruct (parse_pairs (S (length (ps_mem p1))) [] q) as [[d p2]| | |] eqn:PP; try discriminate; [|contradiction].
    destruct (SS d p2 eq_refl) as [u3 [v3 [E3 [U3 I3]]]].
    apply (IH _ p2 v3 r I3). subst t w. rewrite !app_length in L. destruct u; [contradiction|]. simpl in L. lia.
  - (* the token that was peeked is there *)
    exfalso.
    assert (K := peek_spec PARSE_PEEK p eq_refl). rewrite P in K. change (N.ldiff PARSE_PEEK PARSE_PEEK) with PARSE_NORMAL in K.
    destruct (parse_token PARSE_NORMAL p) as [b2 q2| |] eqn:P2; try discriminate. injection K as K1 K2. subst b2.
    assert (X : parse_token PARSE_NORMAL p1 = parse_token PARSE_NORMAL p) by (subst p1; reflexivity).
    rewrite X, P2 in H. discriminate.
Qed.

Lemma ents_parse_total : forall text, ents_parse text <> E_fuel.
Proof.
  intro text. unfold ents_parse. 
  assert (H := ents_parse_fuel (S (length text + 1)) [] (new_parser (text ++ [0]) (length text)) text []).
  destruct (ents_parse_into (S (length text + 1)) [] (new_parser (text ++ [0]) (length text))) as [[d p]| | |]; try discriminate.
  exfalso. apply H; [|lia|reflexivity]. split; [reflexivity|]. simpl. lia.
Qed.

(** An entity with one pair, written and read back. *)
Lemma parse_one_pair : forall k v, usable_pair (k, v) ->
  ents_parse (ents_write [[(k, v)]]) =
  match trim_back (trim_front k) with None => E_UB | Some k' => E_ok [[(k', v)]] end.
Proof.
  intros k v U. unfold ents_parse, new_parser, ents_write. cbn [map concat]. rewrite app_nil_r.
  assert (W : write_ent [(k, v)] = 123 :: 10 :: write_pair (k, v) ++ [125; 10]).
  { unfold write_ent. cbn [map concat app]. rewrite app_nil_r. reflexivity. }
  rewrite W. set (text := 123 :: 10 :: write_pair (k, v) ++ [125; 10]).
  assert (TL : length text = S (S (length (write_pair (k, v) ++ [125; 10]%N)))) by reflexivity.
  rewrite TL. cbn [ents_parse_into ps_left Nat.add].
  assert (PK : parse_token PARSE_PEEK (mkPS [] false (text ++ [0]) (S (S (length (write_pair (k, v) ++ [125; 10]%N)))) 1)
    = T_ret true (mkPS [123] false (text ++ [0]) (S (S (length (write_pair (k, v) ++ [125; 10]%N)))) 1)).
  { unfold parse_token. change (f_peek PARSE_PEEK) with true. cbn beta iota. cbn [ps_mem ps_left ps_line].
    unfold text. cbn [app]. rewrite skip_brace by (auto using ok_peek). reflexivity. }
  rewrite PK. unfold ed_parse.
  assert (PN : parse_token PARSE_NORMAL (mkPS [123] false (text ++ [0]) (S (S (length (write_pair (k, v) ++ [125; 10]%N)))) 1)
    = T_ret true (mkPS [123] false (10 :: write_pair (k, v) ++ [125; 10] ++ [0]) (1 + length (write_pair (k, v) ++ [125; 10]%N)) 1)).
  { unfold parse_token. change (f_peek PARSE_NORMAL) with false. cbn beta iota. cbn [ps_mem ps_left ps_line].
    unfold text. cbn [app]. rewrite skip_brace by (auto using ok_normal). rewrite <- app_assoc. reflexivity. }
  rewrite PN. cbn [ps_token]. change (beq [123] [123]) with true. cbn beta iota. cbn [ps_mem].
  rewrite parse_pair_step by exact U. destruct (trim_back (trim_front k)) as [k'|]; [|reflexivity].
  destruct (length (text ++ [0])) as [|m] eqn:EL; [unfold text in EL; discriminate|].
  rewrite (set_new k' v []) by (simpl; tauto). cbn [app].
  destruct (length (write_pair (k, v) ++ [125; 10]%N)) as [|m2]; reflexivity.
Qed.
