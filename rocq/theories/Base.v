(* Utilities shared by the models: array updates on lists, ranges.
   Nothing here models the code base. *)
From Coq Require Import List Arith NArith ZArith Lia Bool.
Import ListNotations.

(** [upd l i x] is [l] with element [i] replaced; [None] when [i] is out of range. *)
Fixpoint upd {A} (l : list A) (i : nat) (x : A) : option (list A) :=
  match l, i with
  | [], _ => None
  | _ :: t, O => Some (x :: t)
  | h :: t, S j => match upd t j x with Some t' => Some (h :: t') | None => None end
  end.

Lemma upd_length : forall A (l : list A) i x l', upd l i x = Some l' -> length l' = length l.
Proof.
  induction l as [|h t IH]; intros i x l' H; simpl in H; [discriminate|].
  destruct i as [|j]; [inversion H; reflexivity|].
  destruct (upd t j x) eqn:E; inversion H; subst. simpl. rewrite (IH _ _ _ E). reflexivity.
Qed.

Lemma upd_some : forall A (l : list A) i x, i < length l -> exists l', upd l i x = Some l'.
Proof.
  induction l as [|h t IH]; intros i x H; simpl in H; [lia|].
  destruct i as [|j]; simpl; [eauto|].
  destruct (IH j x) as [t' E]; [lia|]. rewrite E. eauto.
Qed.

Lemma upd_none : forall A (l : list A) i x, length l <= i -> upd l i x = None.
Proof.
  induction l as [|h t IH]; intros i x H; simpl in *; [reflexivity|].
  destruct i as [|j]; [lia|]. rewrite IH by lia. reflexivity.
Qed.

Lemma upd_nth_error : forall A (l : list A) i x l' k, upd l i x = Some l' ->
  nth_error l' k = if Nat.eqb k i then Some x else nth_error l k.
Proof.
  induction l as [|h t IH]; intros i x l' k H; simpl in H; [discriminate|].
  destruct i as [|j].
  - inversion H; subst. destruct k; reflexivity.
  - destruct (upd t j x) eqn:E; inversion H; subst.
    destruct k; simpl; [reflexivity|]. apply IH; assumption.
Qed.

Lemma upd_app : forall A (a b : list A) x y, upd (a ++ y :: b) (length a) x = Some (a ++ x :: b).
Proof.
  induction a as [|h t IH]; intros; simpl; [reflexivity|]. rewrite IH. reflexivity.
Qed.

Lemma nth_error_ext : forall A (l l' : list A),
  (forall i, nth_error l i = nth_error l' i) -> l = l'.
Proof.
  induction l as [|h t IH]; intros [|h' t'] H.
  - reflexivity.
  - specialize (H 0); discriminate.
  - specialize (H 0); discriminate.
  - f_equal. + specialize (H 0). simpl in H. congruence.
    + apply IH. intro i. apply (H (S i)).
Qed.

Definition is_byte (b : N) : Prop := (b < 256)%N.

Lemma app_cons_assoc : forall A (a : list A) x b, a ++ x :: b = (a ++ [x]) ++ b.
Proof. intros. rewrite <- app_assoc. reflexivity. Qed.

Lemma nth_error_app_here : forall A (a : list A) x b, nth_error (a ++ x :: b) (length a) = Some x.
Proof. intros. rewrite nth_error_app2 by lia. rewrite Nat.sub_diag. reflexivity. Qed.

Lemma repeat_snoc : forall A (x : A) n, repeat x n ++ [x] = repeat x (S n).
Proof. induction n; simpl; [reflexivity|]. rewrite IHn. reflexivity. Qed.

Lemma skipn_skipn : forall A x y (l : list A), skipn x (skipn y l) = skipn (x + y) l.
Proof.
  intros A x y. revert x. induction y as [|y IH]; intros x l; simpl.
  - rewrite Nat.add_0_r. reflexivity.
  - rewrite Nat.add_succ_r. destruct l; simpl; [apply skipn_nil|]. apply IH.
Qed.
