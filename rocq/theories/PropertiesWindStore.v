(* C111: windings store their points like a list. *)
From Coq Require Import List Arith Bool Lia.
From Verif Require Import WindStoreModel WindStoreProofs.
Import ListNotations.

(** Whatever is done with some windings, each has the points of the corresponding list, unless a point is added to cap
    points of a winding whose vector has left-over elements. *)
Theorem C111_list {A : Type} (cap : nat) (zero : A) (l : list (op A)) (e : nat -> hyb A) i :
  (forall k, s_cnt (e k) = 0 /\ s_vec (e k) = [] /\ length (s_arr (e k)) = cap) ->
  run_ok cap (fun _ => ([], 0)) l ->
  let s := fold_left (h_step cap zero) l e i in
  let p := fst (fold_left (sp_step cap) l (fun _ => ([], 0)) i) in
  length (h_view cap s) = length p /\
  forall k, k < length p -> exists a, nth_error (h_view cap s) k = Some (Some a) /\ (nth_error p k = Some None \/ nth_error p k = Some (Some a)).
Proof.
  intros E OK s p. apply rel_view. apply run_rel; [|exact OK]. intro k. destruct (E k) as (C & V & L). unfold rel.
  cbn [fst snd]. rewrite V. split; [exact L|]. split; [reflexivity|]. split; [exact C|]. split; [simpl; lia|]. intros [|m] x H; discriminate H.
Qed.

(** Nothing is left over as long as windings are not shrunk or assigned. *)
Definition grows {A} (cap : nat) (p : nat -> @spec A) (o : op A) : Prop :=
  match o with
  | OClear _ | OResize _ _ | OAssign _ _ | OMoveAssign _ _ => False
  | OSet i k _ => k < length (fst (p i))
  | ONew _ _ junk | ORange _ _ junk => length junk = cap
  | OCopy i j junk | OMove i j junk => length junk = cap /\ i <> j
  | OPush _ _ => True
  end.
Fixpoint all_grow {A} (cap : nat) (p : nat -> @spec A) (l : list (op A)) : Prop :=
  match l with [] => True | o :: l => grows cap p o /\ all_grow cap (sp_step cap p o) l end.
Theorem C111_grow {A : Type} (cap : nat) (l : list (op A)) : all_grow cap (fun _ => ([], 0)) l -> run_ok cap (fun _ => ([], 0)) l.
Proof.
  assert (G : forall l (p : nat -> @spec A), (forall i, snd (p i) = length (fst (p i)) - cap) -> all_grow cap p l -> run_ok cap p l).
  { clear l. induction l as [|o l IH]; intros p I H; [exact Logic.I|]. destruct H as [O H]. split.
    - destruct o; simpl in O |- *; try tauto. intro E. rewrite I, E. lia.
    - apply IH; [|exact H]. intro q. destruct o; simpl in O |- *; try tauto; unfold upd;
        repeat match goal with |- context [if ?a =? ?b then _ else _] => destruct (a =? b) end; cbn [fst snd]; auto.
      + rewrite repeat_length. reflexivity.
      + rewrite map_length. reflexivity.
      + rewrite sput_len. apply I.
      + rewrite app_length. simpl. rewrite I. destruct (Nat.ltb_spec cap (S (length (fst (p i))))); lia.
      + simpl. rewrite I. destruct (Nat.ltb_spec cap (length (fst (p j)))); lia. }
  intro H. apply G; [|exact H]. intro i. simpl. lia.
Qed.

(** Otherwise a winding shows an old point: after cap + 1 points a, making the winding empty in any of four ways, and
    adding cap + 1 points b, the last point is a. *)
Lemma push_small {A} cap zero (b : A) n : forall (e : nat -> hyb A), length (s_arr (e 0)) = cap -> s_cnt (e 0) + n <= cap ->
  let e' := fold_left (h_step cap zero) (repeat (OPush 0 b) n) e in
  s_vec (e' 0) = s_vec (e 0) /\ s_cnt (e' 0) = s_cnt (e 0) + n.
Proof.
  induction n as [|n IH]; intros e L C; simpl; [split; [reflexivity|lia]|].
  assert (E : upd e 0 (h_push cap (e 0) b) 0 = mkH (put (s_arr (e 0)) (s_cnt (e 0)) b) (s_vec (e 0)) (S (s_cnt (e 0)))).
  { unfold upd, h_push. simpl. replace (cap <? S (s_cnt (e 0))) with false by (symmetry; apply Nat.ltb_ge; lia). reflexivity. }
  destruct (IH (upd e 0 (h_push cap (e 0) b))) as [V1 C1]; rewrite E in *; cbn [s_arr s_vec s_cnt] in *.
  - rewrite put_len. exact L.
  - lia.
  - split; [exact V1|lia].
Qed.
Theorem C111_left_over_refuted {A : Type} (cap : nat) (zero a b : A) (junk : list A) (shrink : op A) (e : nat -> hyb A) :
  length junk = cap -> In shrink [OClear 0; OResize 0 0; OAssign 0 1; OMoveAssign 0 1] ->
  s_cnt (e 1) = 0 -> length (s_arr (e 1)) = cap ->
  let s := fold_left (h_step cap zero) ([ORange 0 (repeat a (S cap)) junk; shrink] ++ repeat (OPush 0 b) (S cap)) e 0 in
  s_cnt s = S cap /\ nth_error (h_view cap s) cap = Some (Some a).
Proof.
  intros J SH C1 L1. cbv zeta. rewrite fold_left_app.
  set (e1 := fold_left (h_step cap zero) [ORange 0 (repeat a (S cap)) junk; shrink] e).
  assert (E1 : length (s_arr (e1 0)) = cap /\ s_vec (e1 0) = [a] /\ s_cnt (e1 0) = 0).
  { assert (R : e1 0 = h_step cap zero (upd e 0 (h_range cap junk (repeat a (S cap)))) shrink 0) by reflexivity. rewrite R. clear R e1.
    set (s0 := h_range cap junk (repeat a (S cap))).
    assert (S0 : length (s_arr s0) = cap /\ s_vec s0 = [a]).
    { unfold s0, h_range. cbn [s_arr s_vec]. split.
      - apply blit_len; [exact J|]. rewrite repeat_length. lia.
      - clear. induction cap as [|n IH]; [reflexivity|]. exact IH. }
    clearbody s0. destruct S0 as [SA SV].
    destruct SH as [<-|[<-|[<-|[<-|[]]]]]; cbn [h_step]; unfold upd at 1; cbn [Nat.eqb].
    - unfold h_clear, upd. cbn. auto.
    - unfold h_resize, upd. cbn. auto.
    - unfold h_assign, upd. cbn. rewrite C1. cbn. auto.
    - unfold h_move_assign, upd. cbn [Nat.eqb]. rewrite C1. cbn. auto. }
  clearbody e1. destruct E1 as (LA & V & C).
  replace (S cap) with (cap + 1) by lia. rewrite repeat_app, fold_left_app.
  destruct (push_small cap zero b cap e1 LA ltac:(lia)) as [V2 C2].
  set (e2 := fold_left (h_step cap zero) (repeat (OPush 0 b) cap) e1) in *. clearbody e2.
  cbn [repeat fold_left h_step]. unfold upd. cbn [Nat.eqb]. unfold h_push. rewrite C2, C, V2, V.
  replace (cap <? S (0 + cap)) with true by (symmetry; apply Nat.ltb_lt; lia). cbn [s_cnt]. split; [lia|].
  unfold h_view. cbn [s_cnt]. rewrite nth_seq_map. replace (cap <? S (0 + cap)) with true by (symmetry; apply Nat.ltb_lt; lia).
  unfold h_get. cbn [s_vec]. rewrite Nat.leb_refl, Nat.sub_diag. reflexivity.
Qed.

(** A full winding on the stack counts a point that it refused. *)
Theorem C111_stack_refuted {A : Type} (cap : nat) (s : stk A) (x : A) : length (k_arr s) = cap -> k_cnt s = cap ->
  snd (k_push cap s x) = true /\ nth_error (k_view (fst (k_push cap s x))) cap = Some None.
Proof.
  intros L C. unfold k_push. rewrite C. replace (cap <? S cap) with true by (symmetry; apply Nat.ltb_lt; lia). cbn [fst snd]. split; [reflexivity|].
  unfold k_view. cbn [k_arr k_cnt]. rewrite nth_seq_map. replace (cap <? S cap) with true by (symmetry; apply Nat.ltb_lt; lia).
  f_equal. apply nth_error_None. lia.
Qed.
(** Below that it is a list as well. *)
Theorem C111_stack {A : Type} (cap : nat) (s : stk A) (x : A) : length (k_arr s) = cap -> k_cnt s < cap ->
  snd (k_push cap s x) = false /\ k_view (fst (k_push cap s x)) = k_view s ++ [Some x].
Proof.
  intros L C. unfold k_push. replace (cap <? S (k_cnt s)) with false by (symmetry; apply Nat.ltb_ge; lia). cbn [fst snd]. split; [reflexivity|].
  unfold k_view. cbn [k_arr k_cnt]. rewrite seq_S, map_app. cbn [map Nat.add]. f_equal.
  - apply map_ext_in. intros k K. apply in_seq in K. rewrite put_get by lia. replace (k =? k_cnt s) with false by (symmetry; apply Nat.eqb_neq; lia). reflexivity.
  - rewrite put_get by lia. rewrite Nat.eqb_refl. reflexivity.
Qed.
(** Changing the size refuses more points than the capacity and leaves the winding as it was; otherwise the points at
    the front stay. *)
Theorem C111_stack_resize {A : Type} (cap : nat) (s : stk A) n :
  (cap < n -> k_resize cap s n = (s, true)) /\
  (n <= cap -> snd (k_resize cap s n) = false /\ length (k_view (fst (k_resize cap s n))) = n /\
     forall i, i < n -> i < k_cnt s -> nth_error (k_view (fst (k_resize cap s n))) i = nth_error (k_view s) i).
Proof.
  unfold k_resize. split; intros H.
  - apply Nat.ltb_lt in H. rewrite H. reflexivity.
  - replace (cap <? n) with false by (symmetry; apply Nat.ltb_ge; lia). cbn [fst snd]. split; [reflexivity|].
    unfold k_view. cbn [k_arr k_cnt]. split; [rewrite map_length, seq_length; reflexivity|].
    intros i H1 H2. rewrite !nth_seq_map.
    replace (i <? n) with true by (symmetry; apply Nat.ltb_lt; lia).
    replace (i <? k_cnt s) with true by (symmetry; apply Nat.ltb_lt; lia). reflexivity.
Qed.
(** Copy assignment of windings on the heap. *)
Theorem C111_heap {A : Type} (zero : A) s c : v_assign zero s c = c.
Proof.
  unfold v_assign. rewrite firstn_all. rewrite <- (v_resize_len zero s (length c)) at 1. rewrite skipn_all. apply app_nil_r.
Qed.

Example C111_nontrivial :
  let l := [ORange 0 [1; 2; 3; 4; 5] [9; 9; 9]; OMove 1 0 [8; 8; 8]; OPush 0 6; OPush 1 7; OSet 1 3 44; OResize 1 5; OAssign 2 1; OPush 2 70; OResize 2 2] in
  run_ok 3 (fun _ => ([], 0)) l /\
  map (fun i => h_view 3 (fold_left (h_step 3 0) l (fun _ => mkH [0; 0; 0] [] 0) i)) [0; 1; 2] =
  [[Some 6]; [Some 1; Some 2; Some 3; Some 44; Some 5]; [Some 1; Some 2]] /\
  h_view 3 (fold_left (h_step 3 0) (l ++ [OPush 2 10; OPush 2 20]) (fun _ => mkH [0; 0; 0] [] 0) 2) = [Some 1; Some 2; Some 10; Some 44].
Proof. vm_compute. intuition lia. Qed.

Print Assumptions C111_list.
Print Assumptions C111_grow.
Print Assumptions C111_left_over_refuted.
Print Assumptions C111_stack_refuted.
Print Assumptions C111_stack_resize.
Print Assumptions C111_stack.
Print Assumptions C111_heap.
