From Coq Require Import List Arith Bool Lia.
From Verif Require Import WindStoreModel.
Import ListNotations.

Section P.
Context {A : Type} (cap : nat) (zero : A).

(** What the programs mean: lists of points, None for indeterminate ones.  The number is the length of the vector of
    the object, whose elements are left over if there are at most cap points. *)
Definition spec := (list (option A) * nat)%type.
Fixpoint sput (l : list (option A)) (i : nat) (x : A) : list (option A) :=
  match l, i with [], _ => [] | _ :: l, O => Some x :: l | y :: l, S i => y :: sput l i x end.
Definition sp_step (e : nat -> spec) (o : op A) : nat -> spec :=
  match o with
  | ONew i n _ => upd e i (repeat None n, n - cap)
  | ORange i l _ => upd e i (map Some l, length l - cap)
  | OSet i k x => upd e i (sput (fst (e i)) k x, snd (e i))
  | OPush i x => upd e i (fst (e i) ++ [Some x], if cap <? S (length (fst (e i))) then S (snd (e i)) else snd (e i))
  | OResize i n => upd e i (firstn n (fst (e i)) ++ repeat None (n - length (fst (e i))), if cap <? n then n - cap else snd (e i))
  | OClear i => upd e i ([], snd (e i))
  | OCopy i j _ => upd e i (fst (e j), length (fst (e j)) - cap)
  | OMove i j _ => upd (upd e j ([], if cap <? length (fst (e j)) then 0 else snd (e j))) i (fst (e j), length (fst (e j)) - cap)
  | OAssign i j => upd e i (fst (e j), if cap <? length (fst (e j)) then length (fst (e j)) - cap else snd (e i))
  | OMoveAssign i j => upd (upd e j ([], if cap <? length (fst (e j)) then 0 else snd (e j))) i
                         (fst (e j), if cap <? length (fst (e j)) then length (fst (e j)) - cap else snd (e i))
  end.
(** Valid steps.  The last point that fits into the array may only be followed by another one if the vector is empty. *)
Definition step_ok (e : nat -> spec) (o : op A) : Prop :=
  match o with
  | ONew _ _ junk | ORange _ _ junk => length junk = cap
  | OSet i k _ => k < length (fst (e i))
  | OPush i _ => length (fst (e i)) = cap -> snd (e i) = 0
  | OResize _ _ | OClear _ => True
  | OCopy i j junk | OMove i j junk => length junk = cap /\ i <> j
  | OAssign _ _ => True
  | OMoveAssign i j => i <> j
  end.

Definition rel (s : hyb A) (p : spec) : Prop :=
  length (s_arr s) = cap /\ length (s_vec s) = snd p /\ s_cnt s = length (fst p) /\
  (cap < length (fst p) -> snd p = length (fst p) - cap) /\
  forall k x, nth_error (fst p) k = Some (Some x) -> h_get cap s k = Some x.

Lemma put_len (l : list A) i x : length (put l i x) = length l.
Proof. revert i. induction l; intros [|i]; simpl; auto. Qed.
Lemma put_get (l : list A) i x k : i < length l -> nth_error (put l i x) k = if k =? i then Some x else nth_error l k.
Proof.
  revert i k. induction l as [|a l IH]; intros i k L; simpl in L; [lia|]. destruct i, k; simpl; auto. apply IH. lia.
Qed.
Lemma sput_len l i x : length (sput l i x) = length l.
Proof. revert i. induction l; intros [|i]; simpl; auto. Qed.
Lemma sput_get l i x k : i < length l -> nth_error (sput l i x) k = if k =? i then Some (Some x) else nth_error l k.
Proof.
  revert i k. induction l as [|a l IH]; intros i k L; simpl in L; [lia|]. destruct i, k; simpl; auto. apply IH. lia.
Qed.
Lemma nth_repeat_none n k x : nth_error (repeat (@None A) n) k <> Some (Some x).
Proof. intro H. apply nth_error_In in H. apply repeat_spec in H. discriminate. Qed.
Lemma nth_firstn (B : Type) (l : list B) n k : nth_error (firstn n l) k = if k <? n then nth_error l k else None.
Proof.
  revert n k. induction l as [|a l IH]; intros [|n] [|k]; simpl; auto.
  - destruct (S k <? S n); reflexivity.
  - rewrite IH. reflexivity.
Qed.
Lemma nth_skipn (B : Type) (l : list B) n k : nth_error (skipn n l) k = nth_error l (n + k).
Proof. revert l. induction n as [|n IH]; intros [|a l]; simpl; auto. destruct k; reflexivity. Qed.
Lemma nth_lt (B : Type) (l : list B) k y : nth_error l k = Some y -> k < length l.
Proof. intro H. apply nth_error_Some. congruence. Qed.
Lemma blit_len n (dst src : list A) : length dst = cap -> n <= length src \/ cap <= length src -> length (blit cap n dst src) = cap.
Proof. intros D L. unfold blit. rewrite app_length, firstn_length, skipn_length. lia. Qed.
Lemma blit_get n (dst src : list A) k : k < min n cap -> min n cap <= length src -> nth_error (blit cap n dst src) k = nth_error src k.
Proof.
  intros K L. unfold blit. rewrite nth_error_app1 by (rewrite firstn_length; lia). rewrite nth_firstn.
  replace (k <? min n cap) with true by (symmetry; apply Nat.ltb_lt; lia). reflexivity.
Qed.
Ltac bcase := match goal with |- context [if ?a <? ?b then _ else _] => destruct (Nat.ltb_spec a b) end.
Ltac lecase := match goal with |- context [if ?a <=? ?b then _ else _] => destruct (Nat.leb_spec a b) end.

Lemma rel_push s p x : rel s p -> (length (fst p) = cap -> snd p = 0) ->
  rel (h_push cap s x) (fst p ++ [Some x], if cap <? S (length (fst p)) then S (snd p) else snd p).
Proof.
  intros (LA & LV & C & V & G) OK. unfold rel, h_push. rewrite C. cbn [fst snd]. rewrite app_length. cbn [length].
  bcase; cbn [s_arr s_vec s_cnt].
  - split; [exact LA|]. split; [rewrite app_length; simpl; lia|]. split; [lia|]. split; [lia|]. intros k y E.
    assert (SV : snd p = length (fst p) - cap) by (destruct (Nat.eq_dec (length (fst p)) cap); [rewrite OK; lia|apply V; lia]).
    destruct (Nat.lt_ge_cases k (length (fst p))) as [LT|GE].
    + rewrite nth_error_app1 in E by exact LT. specialize (G k y E). unfold h_get in *. cbn [s_arr s_vec].
      destruct (cap <=? k) eqn:CK; [|exact G]. rewrite nth_error_app1; [exact G|]. eapply nth_lt; eauto.
    + rewrite nth_error_app2 in E by exact GE. destruct (k - length (fst p)) as [|m] eqn:K; [|destruct m; discriminate E].
      inversion E; subst y. unfold h_get. cbn [s_arr s_vec]. replace (cap <=? k) with true by (symmetry; apply Nat.leb_le; lia).
      rewrite nth_error_app2 by lia. replace (k - cap - length (s_vec s)) with 0 by lia. reflexivity.
  - split; [rewrite put_len; exact LA|]. split; [exact LV|]. split; [lia|]. split; [lia|]. intros k y E.
    unfold h_get. cbn [s_arr s_vec]. pose proof (nth_lt _ _ _ _ E) as KL. rewrite app_length in KL. simpl in KL.
    replace (cap <=? k) with false by (symmetry; apply Nat.leb_gt; lia). rewrite put_get by lia.
    destruct (k =? length (fst p)) eqn:K.
    + apply Nat.eqb_eq in K. subst k. rewrite nth_error_app2, Nat.sub_diag in E by lia. simpl in E. congruence.
    + apply Nat.eqb_neq in K. rewrite nth_error_app1 in E by lia. specialize (G k y E). unfold h_get in G.
      replace (cap <=? k) with false in G by (symmetry; apply Nat.leb_gt; lia). exact G.
Qed.
Lemma rel_set s p i x : rel s p -> i < length (fst p) -> rel (h_set cap s i x) (sput (fst p) i x, snd p).
Proof.
  intros (LA & LV & C & V & G) L. unfold rel, h_set. cbn [fst snd]. rewrite sput_len.
  lecase; cbn [s_arr s_vec s_cnt]; (split; [rewrite ?put_len; exact LA|]); (split; [rewrite ?put_len; exact LV|]); (split; [exact C|]); (split; [exact V|]);
    intros k y E; rewrite sput_get in E by exact L; unfold h_get; cbn [s_arr s_vec]; destruct (k =? i) eqn:K.
  - apply Nat.eqb_eq in K. subst k. replace (cap <=? i) with true by (symmetry; apply Nat.leb_le; lia).
    rewrite put_get by lia. rewrite Nat.eqb_refl. congruence.
  - apply Nat.eqb_neq in K. specialize (G k y E). unfold h_get in G. destruct (Nat.leb_spec cap k); [|exact G].
    rewrite put_get by lia. replace (k - cap =? i - cap) with false by (symmetry; apply Nat.eqb_neq; lia). exact G.
  - apply Nat.eqb_eq in K. subst k. replace (cap <=? i) with false by (symmetry; apply Nat.leb_gt; lia).
    rewrite put_get by lia. rewrite Nat.eqb_refl. congruence.
  - apply Nat.eqb_neq in K. specialize (G k y E). unfold h_get in G. destruct (Nat.leb_spec cap k); [exact G|].
    rewrite put_get by lia. replace (k =? i) with false by (symmetry; apply Nat.eqb_neq; lia). exact G.
Qed.
Lemma v_resize_len (l : list A) n : length (v_resize zero l n) = n.
Proof. unfold v_resize. rewrite app_length, firstn_length, repeat_length. lia. Qed.
Lemma rel_resize s p n : rel s p ->
  rel (h_resize cap zero s n) (firstn n (fst p) ++ repeat None (n - length (fst p)), if cap <? n then n - cap else snd p).
Proof.
  intros (LA & LV & C & V & G). unfold rel, h_resize. cbn [fst snd s_arr s_vec s_cnt].
  assert (LN : length (firstn n (fst p) ++ repeat None (n - length (fst p))) = n) by (rewrite app_length, firstn_length, repeat_length; lia).
  rewrite LN. split; [exact LA|]. split; [bcase; [apply v_resize_len|exact LV]|]. split; [reflexivity|]. split; [intro; bcase; lia|].
  intros k y E. pose proof (nth_lt _ _ _ _ E) as KN. rewrite LN in KN.
  assert (KL : k < length (fst p)).
  { destruct (Nat.lt_ge_cases k (length (fst p))); [assumption|]. exfalso. rewrite nth_error_app2 in E by (rewrite firstn_length; lia).
    exact (nth_repeat_none _ _ _ E). }
  rewrite nth_error_app1 in E by (rewrite firstn_length; lia). rewrite nth_firstn in E. replace (k <? n) with true in E by (symmetry; apply Nat.ltb_lt; lia).
  specialize (G k y E). unfold h_get in *. cbn [s_arr s_vec]. destruct (Nat.leb_spec cap k); [|exact G].
  replace (cap <? n) with true by (symmetry; apply Nat.ltb_lt; lia). unfold v_resize. pose proof (nth_lt _ _ _ _ G).
  rewrite nth_error_app1 by (rewrite firstn_length; lia). rewrite nth_firstn. replace (k - cap <? n - cap) with true by (symmetry; apply Nat.ltb_lt; lia). exact G.
Qed.
Lemma rel_empty s p v : rel s p -> forall a, length a = cap -> length v = snd p -> rel (mkH a v 0) ([], snd p).
Proof.
  intros _ a LA LV. unfold rel. cbn [fst snd s_arr s_vec s_cnt length]. repeat (split; [assumption || reflexivity || lia|]).
  intros k x E. destruct k; discriminate E.
Qed.
Lemma get_blit s p a v n : rel s p -> length a = cap -> n = length (fst p) -> (cap < length (fst p) -> firstn (length (fst p) - cap) (s_vec s) = firstn (length (fst p) - cap) v /\ length (fst p) - cap <= length v) ->
  forall k y, nth_error (fst p) k = Some (Some y) -> h_get cap (mkH (blit cap n a (s_arr s)) v n) k = Some y.
Proof.
  intros (LA & LV & C & V & G) L -> HV k y E. pose proof (nth_lt _ _ _ _ E) as KL. specialize (G k y E). unfold h_get in *. cbn [s_arr s_vec].
  destruct (Nat.leb_spec cap k).
  - destruct (HV ltac:(lia)) as [H1 H2]. assert (X : nth_error (firstn (length (fst p) - cap) (s_vec s)) (k - cap) = Some y).
    { rewrite nth_firstn. replace (k - cap <? length (fst p) - cap) with true by (symmetry; apply Nat.ltb_lt; lia). exact G. }
    rewrite H1, nth_firstn in X. destruct (k - cap <? length (fst p) - cap); [exact X|discriminate].
  - rewrite blit_get by lia. exact G.
Qed.

Lemma step_rel (e : nat -> hyb A) (p : nat -> spec) o : (forall i, rel (e i) (p i)) -> step_ok p o ->
  forall i, rel (h_step cap zero e o i) (sp_step p o i).
Proof.
  intros R OK q.
  assert (U : forall (e' : nat -> hyb A) (p' : nat -> spec) i s t, (forall k, rel (e' k) (p' k)) -> rel s t -> rel (upd e' i s q) (upd p' i t q)).
  { intros e' p' i s t R' H. unfold upd. destruct (q =? i); auto. }
  assert (U2 : forall i j s t s' t', rel s t -> rel s' t' -> rel (upd (upd e j s') i s q) (upd (upd p j t') i t q)).
  { intros i j s t s' t' H H'. apply U; [|exact H]. intro k. unfold upd. destruct (k =? j); auto. }
  destruct o as [i n junk|i l junk|i k x|i x|i n|i|i j junk|i j junk|i j|i j]; simpl in OK |- *.
  - apply U; [exact R|]. unfold rel, h_new. cbn [fst snd s_arr s_vec s_cnt]. rewrite !repeat_length.
    repeat (split; [assumption || reflexivity|]). intros k x E. exfalso. exact (nth_repeat_none _ _ _ E).
  - apply U; [exact R|]. unfold rel, h_range. cbn [fst snd s_arr s_vec s_cnt]. rewrite !map_length.
    split; [apply blit_len; [exact OK|lia]|]. split; [rewrite skipn_length; reflexivity|]. repeat (split; [reflexivity|]).
    intros k x E. rewrite nth_error_map in E. destruct (nth_error l k) as [y|] eqn:Y; [|discriminate]. inversion E; subst y.
    pose proof (nth_lt _ _ _ _ Y). unfold h_get. cbn [s_arr s_vec]. lecase.
    + rewrite nth_skipn. replace (cap + (k - cap)) with k by lia. exact Y.
    + rewrite blit_get by lia. exact Y.
  - apply U; [exact R|]. apply rel_set; auto.
  - apply U; [exact R|]. apply rel_push; auto.
  - apply U; [exact R|]. apply rel_resize; auto.
  - apply U; [exact R|]. destruct (R i) as (LA & LV & _). apply (rel_empty (e i) (p i)); auto.
  - apply U; [exact R|]. destruct OK as [LJ NE]. destruct (R j) as (LA & LV & C & V & G) eqn:RJ. clear RJ. unfold h_copy. rewrite C.
    unfold rel. cbn [fst snd s_arr s_vec s_cnt]. split; [apply blit_len; [exact LJ|lia]|]. split.
    + bcase; [rewrite firstn_length, LV, V by lia; lia|simpl; lia].
    + split; [reflexivity|]. split; [reflexivity|]. apply (get_blit (e j) (p j)); auto.
      intro H. replace (cap <? length (fst (p j))) with true by (symmetry; apply Nat.ltb_lt; lia).
      rewrite firstn_firstn, Nat.min_id. rewrite firstn_length, LV, (V H). split; [reflexivity|lia].
  - destruct OK as [LJ NE]. pose proof (R j) as (LA & LV & C & V & G). unfold h_move. rewrite C. bcase.
    + apply U2.
      * unfold rel. cbn [fst snd s_arr s_vec s_cnt]. split; [apply blit_len; [exact LJ|lia]|]. split; [rewrite LV, V; auto|].
        split; [reflexivity|]. split; [reflexivity|]. apply (get_blit (e j) (p j)); auto. intro H0. split; [reflexivity|]. rewrite LV, V; auto.
      * apply (rel_empty (mkH (s_arr (e j)) [] 0) ([], 0)); auto. unfold rel. cbn. repeat (split; [assumption || reflexivity || lia|]). intros [|k] x E; discriminate E.
    + apply U2.
      * unfold rel. cbn [fst snd s_arr s_vec s_cnt]. split; [apply blit_len; [exact LJ|lia]|]. split; [simpl; lia|].
        split; [reflexivity|]. split; [reflexivity|]. apply (get_blit (e j) (p j)); auto. intro H0. lia.
      * apply (rel_empty (e j) (p j)); auto.
  - apply U; [exact R|]. pose proof (R j) as (LA & LV & C & V & G). pose proof (R i) as (LAi & LVi & _). unfold h_assign. rewrite C.
    unfold rel. cbn [fst snd s_arr s_vec s_cnt]. split; [apply blit_len; [exact LAi|lia]|]. split.
    + bcase; [rewrite firstn_length, LV, V by lia; lia|exact LVi].
    + split; [reflexivity|]. split; [intro; bcase; lia|]. apply (get_blit (e j) (p j)); auto.
      intro H. replace (cap <? length (fst (p j))) with true by (symmetry; apply Nat.ltb_lt; lia).
      rewrite firstn_firstn, Nat.min_id. rewrite firstn_length, LV, (V H). split; [reflexivity|lia].
  - pose proof (R j) as (LA & LV & C & V & G). pose proof (R i) as (LAi & LVi & _). unfold h_move_assign. rewrite C. bcase.
    + apply U2.
      * unfold rel. cbn [fst snd s_arr s_vec s_cnt]. split; [apply blit_len; [exact LAi|lia]|]. split; [rewrite LV, V; auto|].
        split; [reflexivity|]. split; [reflexivity|]. apply (get_blit (e j) (p j)); auto. intro H0. split; [reflexivity|]. rewrite LV, V; auto.
      * apply (rel_empty (mkH (s_arr (e j)) [] 0) ([], 0)); auto. unfold rel. cbn. repeat (split; [assumption || reflexivity || lia|]). intros [|k] x E; discriminate E.
    + apply U2.
      * unfold rel. cbn [fst snd s_arr s_vec s_cnt]. split; [apply blit_len; [exact LAi|lia]|]. split; [exact LVi|].
        split; [reflexivity|]. split; [lia|]. apply (get_blit (e j) (p j)); auto. intro H0. lia.
      * apply (rel_empty (e j) (p j)); auto.
Qed.

Fixpoint run_ok (p : nat -> spec) (l : list (op A)) : Prop :=
  match l with [] => True | o :: l => step_ok p o /\ run_ok (sp_step p o) l end.
Lemma run_rel l : forall (e : nat -> hyb A) p, (forall i, rel (e i) (p i)) -> run_ok p l ->
  forall i, rel (fold_left (h_step cap zero) l e i) (fold_left sp_step l p i).
Proof.
  induction l as [|o l IH]; intros e p R OK i; simpl; [apply R|]. destruct OK as [O1 O2]. apply IH; [|exact O2]. apply step_rel; assumption.
Qed.

Lemma nth_seq_map (B : Type) (f : nat -> B) n k : nth_error (map f (seq 0 n)) k = if k <? n then Some (f k) else None.
Proof.
  rewrite nth_error_map. destruct (Nat.ltb_spec k n).
  - rewrite (nth_error_nth' _ 0) by (rewrite seq_length; lia). rewrite seq_nth by lia. reflexivity.
  - replace (nth_error (seq 0 n) k) with (@None nat); [reflexivity|]. symmetry. apply nth_error_None. rewrite seq_length. lia.
Qed.
Lemma rel_view s p : rel s p -> length (h_view cap s) = length (fst p) /\
  forall k, k < length (fst p) -> exists a, nth_error (h_view cap s) k = Some (Some a) /\
    (nth_error (fst p) k = Some None \/ nth_error (fst p) k = Some (Some a)).
Proof.
  intros (LA & LV & C & V & G). unfold h_view. rewrite map_length, seq_length. split; [exact C|]. intros k K.
  rewrite nth_seq_map, C. replace (k <? length (fst p)) with true by (symmetry; apply Nat.ltb_lt; lia).
  assert (D : exists a, h_get cap s k = Some a).
  { unfold h_get. destruct (Nat.leb_spec cap k).
    - destruct (nth_error (s_vec s) (k - cap)) eqn:N; [eauto|]. apply nth_error_None in N. rewrite LV, V in N; lia.
    - destruct (nth_error (s_arr s) k) eqn:N; [eauto|]. apply nth_error_None in N. lia. }
  destruct D as (a & D). exists a. split; [congruence|]. destruct (nth_error (fst p) k) as [[b|]|] eqn:E; [|auto|].
  - right. specialize (G k b E). congruence.
  - apply nth_error_None in E. lia.
Qed.
End P.
