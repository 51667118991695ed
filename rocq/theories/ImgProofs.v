(* Lemmas about texture files. *)
From Coq Require Import List Arith NArith ZArith Bool Lia.
Import ListNotations.
From Verif Require Import Base Codec NumCastModel BspRecModel BspFileModel ParserModel CmdlibModel FsModel FsProofs ImgModel.
Local Open Scope Z_scope.

Definition bslice := BspFileModel.slice.

(** The value of type [t] stored at offset [p]. *)
Definition field_at (b : list N) (t : ity) (p : Z) : Z :=
  match get_field t (bslice b p (Z.of_nat (it_bytes t))) with Some (v, _) => v | None => 0 end.
Fixpoint fields_at (b : list N) (ts : list ity) (p : Z) : list Z :=
  match ts with [] => [] | t :: ts => field_at b t p :: fields_at b ts (p + Z.of_nat (it_bytes t)) end.
Fixpoint bytes_of (ts : list ity) : Z := match ts with [] => 0 | t :: ts => Z.of_nat (it_bytes t) + bytes_of ts end.

Lemma bytes_of_nonneg : forall ts, 0 <= bytes_of ts.
Proof. induction ts; simpl; lia. Qed.

Lemma bslice_length : forall b p n, 0 <= p -> 0 <= n -> p + n <= size b -> length (bslice b p n) = Z.to_nat n.
Proof. intros. unfold bslice, BspFileModel.slice, size in *. rewrite firstn_length, skipn_length. lia. Qed.

Lemma get_le_some : forall n l, (n <= length l)%nat -> exists v r, get_le n l = Some (v, r).
Proof.
  induction n as [|n IH]; intros l H; [eexists; eexists; reflexivity|].
  destruct l as [|x l]; simpl in H; [lia|]. cbn [get_le]. destruct (IH l) as (v & r & E); [lia|]. rewrite E. eauto.
Qed.

Lemma mread_inside : forall b p n, 0 <= p -> 0 < n -> p + n <= size b ->
  mread b n (mkM p true) = ROk (Some (bslice b p n), mkM (p + n) true).
Proof.
  intros b p n P Q L. unfold mread, xsgetn. cbn [m_ok m_pos negb].
  replace (p =? size b) with false by (symmetry; apply Z.eqb_neq; lia).
  replace ((p <? 0) || (size b <? p + n)) with false by (symmetry; apply orb_false_iff; split; apply Z.ltb_ge; lia).
  rewrite andb_false_r. cbn [rbind]. replace (Z.min (size b - p) n) with n by lia. rewrite Z.eqb_refl. reflexivity.
Qed.
Lemma mread_at_end : forall b n, 0 <= n -> mread b n (mkM (size b) true) = ROk (None, mkM (size b) false).
Proof.
  intros b n Q. unfold mread, xsgetn. cbn [m_ok m_pos negb]. rewrite Z.eqb_refl. cbn [rbind].
  replace (-1 =? n) with false by (symmetry; apply Z.eqb_neq; lia). reflexivity.
Qed.
Lemma mread_overrun : forall b p n, p <> size b -> 0 < n -> p < 0 \/ size b < p + n -> mread b n (mkM p true) = RUB.
Proof.
  intros b p n P Q L. unfold mread, xsgetn. cbn [m_ok m_pos negb].
  replace (p =? size b) with false by (symmetry; apply Z.eqb_neq; lia).
  replace ((p <? 0) || (size b <? p + n)) with true by (symmetry; apply orb_true_iff; rewrite !Z.ltb_lt; lia).
  replace (0 <? n) with true by (symmetry; apply Z.ltb_lt; lia). reflexivity.
Qed.

Definition types_ok (ts : list ity) : Prop := Forall (fun t => In t all_ity) ts.

Lemma mfields_inside : forall b ts p, types_ok ts -> 0 <= p -> p + bytes_of ts <= size b ->
  mfields b ts (mkM p true) = ROk (Some (fields_at b ts p), mkM (p + bytes_of ts) true).
Proof.
  intros b ts. induction ts as [|t ts IH]; intros p T P L.
  - cbn. rewrite Z.add_0_r. reflexivity.
  - inversion T; subst. cbn [mfields fields_at bytes_of] in *. pose proof (bytes_of_nonneg ts).
    assert (B : (1 <= it_bytes t)%nat).
    { clear - H1. simpl in H1. repeat (destruct H1 as [<-|H1]; [vm_compute; lia|]). contradiction. }
    rewrite mread_inside by lia. cbn [rbind fst snd]. unfold field_at at 1, get_field.
    destruct (get_le_some (it_bytes t) (bslice b p (Z.of_nat (it_bytes t)))) as (v & r & E).
    { rewrite bslice_length by lia. lia. }
    rewrite E. rewrite IH by (assumption || lia). cbn [rbind fst snd]. rewrite Z.add_assoc. reflexivity.
Qed.

(** Whether the stream ends between two of the fields. *)
Fixpoint boundary (ts : list ity) (left : Z) : bool :=
  match ts with
  | [] => false
  | t :: ts => (left =? 0) || boundary ts (left - Z.of_nat (it_bytes t))
  end.

Lemma mfields_short : forall b ts p, types_ok ts -> 0 <= p <= size b -> size b < p + bytes_of ts ->
  if boundary ts (size b - p) then exists st, mfields b ts (mkM p true) = ROk (None, st) /\ m_ok st = false
  else mfields b ts (mkM p true) = RUB.
Proof.
  intros b ts. induction ts as [|t ts IH]; intros p T P L; cbn [bytes_of] in L; [lia|].
  inversion T; subst. cbn [boundary mfields].
  assert (B : (1 <= it_bytes t)%nat).
  { clear - H1. simpl in H1. repeat (destruct H1 as [<-|H1]; [vm_compute; lia|]). contradiction. }
  destruct (Z.eq_dec p (size b)) as [->|NE].
  - rewrite Z.sub_diag. cbn [Z.eqb orb]. rewrite mread_at_end by lia. cbn [rbind fst snd].
    eexists. split; reflexivity.
  - replace (size b - p =? 0) with false by (symmetry; apply Z.eqb_neq; lia). cbn [orb].
    destruct (Z_lt_ge_dec (size b) (p + Z.of_nat (it_bytes t))) as [O|I].
    + rewrite mread_overrun by lia. cbn [rbind].
      assert (NB : forall ts k, types_ok ts -> k < 0 -> boundary ts k = false).
      { clear. induction ts as [|t ts IH]; intros k T K; [reflexivity|]. inversion T; subst. cbn [boundary].
        rewrite IH by (assumption || lia). destruct (k =? 0) eqn:E; [apply Z.eqb_eq in E; lia|reflexivity]. }
      rewrite NB by (assumption || lia). reflexivity.
    + rewrite mread_inside by lia. cbn [rbind fst snd]. unfold get_field.
      destruct (get_le_some (it_bytes t) (bslice b p (Z.of_nat (it_bytes t)))) as (v & r & E).
      { rewrite bslice_length by lia. lia. }
      rewrite E. specialize (IH (p + Z.of_nat (it_bytes t)) H2 ltac:(lia) ltac:(lia)).
      replace (size b - p - Z.of_nat (it_bytes t)) with (size b - (p + Z.of_nat (it_bytes t))) by lia.
      destruct (boundary ts (size b - (p + Z.of_nat (it_bytes t)))).
      * destruct IH as (st & -> & K). cbn [rbind fst snd]. exists st. split; [reflexivity|exact K].
      * rewrite IH. reflexivity.
Qed.

(** ** Fields of a file *)

Lemma field_u32 : forall b p, 0 <= p -> p + 4 <= size b -> field_at b u32 p = Z.of_N (word_at b (Z.to_nat p)).
Proof.
  intros b p P L. unfold field_at, get_field. cbn [it_signed u32].
  change (it_bytes u32) with 4%nat. unfold bslice, BspFileModel.slice. change (Z.to_nat (Z.of_nat 4)) with 4%nat.
  assert (K : (4 <= length (skipn (Z.to_nat p) b))%nat) by (rewrite skipn_length; unfold size in L; lia).
  pose proof (le32_word (firstn 4 (skipn (Z.to_nat p) b))) as W. rewrite firstn_length in W.
  specialize (W ltac:(lia)). rewrite word_first in W by lia. rewrite word_skip in W.
  unfold le32 in W. destruct (get_le 4 (firstn 4 (skipn (Z.to_nat p) b))) as [[v r]|] eqn:E.
  - rewrite W. reflexivity.
  - destruct (get_le_some 4 (firstn 4 (skipn (Z.to_nat p) b))) as (v & r & E'); [rewrite firstn_length; lia|congruence].
Qed.
(** A signed number. *)
Definition sword_at (b : list N) (k : nat) : Z :=
  let v := Z.of_N (word_at b k) in if v <? 2 ^ 31 then v else v - 2 ^ 32.
Lemma field_i32 : forall b p, 0 <= p -> p + 4 <= size b -> field_at b i32 p = sword_at b (Z.to_nat p).
Proof.
  intros b p P L. unfold sword_at. rewrite <- field_u32 by assumption. unfold field_at, get_field. cbn [it_signed u32 i32].
  change (it_bytes u32) with 4%nat. change (it_bytes i32) with 4%nat.
  destruct (get_le 4 (bslice b p (Z.of_nat 4))) as [[v r]|]; [|reflexivity].
  unfold of_unsigned. change (256 ^ Z.of_nat 4) with (2 ^ 32).
  destruct (2 ^ 32 <=? 2 * Z.of_N v) eqn:E, (Z.of_N v <? 2 ^ 31) eqn:F; try reflexivity; lia.
Qed.
Lemma field_u8 : forall b p, 0 <= p -> p + 1 <= size b -> field_at b u8 p = Z.of_N (nth (Z.to_nat p) b 0%N).
Proof.
  intros b p P L. unfold field_at, get_field. cbn [it_signed u8]. change (it_bytes u8) with 1%nat.
  unfold bslice, BspFileModel.slice. change (Z.to_nat (Z.of_nat 1)) with 1%nat.
  assert (A : forall (l : list N) k i, nth i (skipn k l) 0%N = nth (k + i) l 0%N).
  { intros l k. revert l. induction k as [|k IH]; intros l i; [reflexivity|]. destruct l as [|x l]; simpl.
    - destruct i; reflexivity.
    - apply IH. }
  assert (K : (1 <= length (skipn (Z.to_nat p) b))%nat) by (rewrite skipn_length; unfold size in L; lia).
  specialize (A b (Z.to_nat p) 0%nat). rewrite Nat.add_0_r in A. rewrite <- A.
  destruct (skipn (Z.to_nat p) b) as [|x l]; [simpl in K; lia|]. cbn [firstn get_le nth]. f_equal. lia.
Qed.
Lemma field_u16 : forall b p, 0 <= p -> p + 2 <= size b ->
  field_at b u16 p = Z.of_N (nth (Z.to_nat p) b 0 + 256 * nth (Z.to_nat p + 1) b 0)%N.
Proof.
  intros b p P L. unfold field_at, get_field. cbn [it_signed u16]. change (it_bytes u16) with 2%nat.
  unfold bslice, BspFileModel.slice. change (Z.to_nat (Z.of_nat 2)) with 2%nat.
  assert (A : forall (l : list N) k i, nth i (skipn k l) 0%N = nth (k + i) l 0%N).
  { intros l k. revert l. induction k as [|k IH]; intros l i; [reflexivity|]. destruct l as [|x l]; simpl.
    - destruct i; reflexivity.
    - apply IH. }
  assert (K : (2 <= length (skipn (Z.to_nat p) b))%nat) by (rewrite skipn_length; unfold size in L; lia).
  pose proof (A b (Z.to_nat p) 0%nat) as A0. rewrite Nat.add_0_r in A0. pose proof (A b (Z.to_nat p) 1%nat) as A1.
  rewrite <- A0, <- A1.
  destruct (skipn (Z.to_nat p) b) as [|x [|y l]]; simpl in K; try lia. cbn [firstn get_le nth]. f_equal. lia.
Qed.

Lemma bytes_fields : forall b n p, 0 <= p -> p + Z.of_nat n <= size b ->
  map Z.to_N (fields_at b (repeat u8 n) p) = FsProofs.slice b (Z.to_nat p) n.
Proof.
  intros b n. induction n as [|n IH]; intros p P L; [reflexivity|].
  cbn [repeat fields_at map]. change (Z.of_nat (it_bytes u8)) with 1. rewrite IH by lia.
  rewrite field_u8 by lia. rewrite N2Z.id. unfold FsProofs.slice.
  replace (Z.to_nat (p + 1)) with (S (Z.to_nat p)) by lia.
  assert (Q : (Z.to_nat p < length b)%nat) by (unfold size in L; lia).
  clear - Q. revert Q. generalize (Z.to_nat p). intros k. revert b. induction k as [|k IH]; intros b Q.
  - destruct b as [|x b]; [simpl in Q; lia|]. reflexivity.
  - destruct b as [|x b]; [simpl in Q; lia|]. cbn [nth skipn]. apply IH. simpl in Q. lia.
Qed.

(** ** Palettes *)

Lemma to_rgba_ok : forall pal px, length pal = 256%nat -> Forall (fun i => (i < 256)%N) px ->
  exists l, to_rgba pal px = ROk l /\
  Forall2 (fun i c => exists r g b, nth_error pal (N.to_nat i) = Some (r, g, b) /\ c = (r, g, b, if (i =? 255)%N then 0%N else 255%N)) px l.
Proof.
  intros pal px P F. induction F as [|i px I F (l & E & G)]; [exists []; split; [reflexivity|constructor]|].
  cbn [to_rgba]. destruct (nth_error pal (N.to_nat i)) as [[[r g] b]|] eqn:X.
  - rewrite E. cbn [rbind]. eexists. split; [reflexivity|]. constructor; [|exact G]. exists r, g, b. auto.
  - apply nth_error_None in X. lia.
Qed.

Lemma triples_length : forall n l, length l = (3 * n)%nat -> length (triples l) = n.
Proof.
  induction n as [|n IH]; intros l H.
  - destruct l; [reflexivity|simpl in H; lia].
  - destruct l as [|a [|b [|c l]]]; simpl in H; try lia. cbn [triples length]. rewrite IH; [reflexivity|]. lia.
Qed.

Lemma slice_bytes : forall b p n, Forall (fun i => (i < 256)%N) b -> Forall (fun i => (i < 256)%N) (bslice b p n).
Proof.
  intros b p n F. unfold bslice, BspFileModel.slice. apply Forall_forall. intros x I. rewrite Forall_forall in F. apply F.
  assert (In x (skipn (Z.to_nat p) b)).
  { rewrite <- (firstn_skipn (Z.to_nat n)). apply in_or_app. auto. }
  rewrite <- (firstn_skipn (Z.to_nat p) b). apply in_or_app. auto.
Qed.
