From Coq Require Import List Arith NArith ZArith Bool Lia.
Import ListNotations.
From Verif Require Import Base Codec VisRleModel VisRleProofs VisSchedProofs VisLumpModel VisLumpProofs VisPhsModel.
Ltac Zify.zify_post_hook ::= Z.div_mod_to_equations.

Lemma or_prefix_length : forall m d s, length (or_prefix m d s) = length d.
Proof. induction m as [|m IH]; intros [|x d] [|y s]; simpl; auto. Qed.

Lemma or_prefix_nth : forall m d s i, length s = length d ->
  nth i (or_prefix m d s) 0%N = if Nat.ltb i m then N.lor (nth i d 0%N) (nth i s 0%N) else nth i d 0%N.
Proof.
  induction m as [|m IH]; intros [|x d] [|y s] i H; simpl in H; try discriminate; try reflexivity.
  - destruct (Nat.ltb i (S m)), i; reflexivity.
  - destruct i; [reflexivity|]. simpl nth. rewrite IH by lia. reflexivity.
Qed.

Lemma or_prefix_bit : forall m d s k, length s = length d ->
  row_bit (or_prefix m d s) k = row_bit d k || (Nat.ltb (k / 8) m && row_bit s k).
Proof.
  intros. unfold row_bit. rewrite or_prefix_nth by assumption.
  destruct (Nat.ltb (k / 8) m); [rewrite N.lor_spec; reflexivity|rewrite orb_false_r; reflexivity].
Qed.

(** The rows as stored: offset [ofs] of cluster [i] is where [rows i] was compressed to. *)
Definition stored (n : nat) (rows : nat -> list N) (bits : list N) (pvs : list Z) : Prop :=
  length pvs = n /\
  forall i, i < n -> length (rows i) = (n + 7) / 8 /\ (forall k, row_bit (rows i) k = true -> k < n) /\
    exists pre comp rest, bits = pre ++ comp ++ rest /\ compress_row (rows i) = Some comp /\
      nth_error pvs i = Some (Z.of_nat (length pre)).

Lemma stored_read : forall n rows bits pvs i buf, stored n rows bits pvs -> i < n -> length buf = (n + 7) / 8 ->
  exists ofs, nth_error pvs i = Some ofs /\ dres_buffer (decompress_vis bits (Z.to_nat ofs) buf) = Some (rows i).
Proof.
  intros n rows bits pvs i buf [_ H] Hi Hb. destruct (H i Hi) as (L & _ & pre & comp & rest & -> & C & O).
  eexists. split; [exact O|]. rewrite Nat2Z.id. rewrite (roundtrip (rows i) comp pre rest buf C) by congruence. reflexivity.
Qed.

Lemma stored_app : forall n rows bits pvs more, stored n rows bits pvs -> stored n rows (bits ++ more) pvs.
Proof.
  intros n rows bits pvs more [L H]. split; [assumption|]. intros i Hi. destruct (H i Hi) as (A & B & pre & comp & rest & -> & C & D).
  split; [assumption|]. split; [assumption|]. exists pre, comp, (rest ++ more). rewrite <- !app_assoc. auto.
Qed.

Lemma phs_bits_ok : forall m n rows bits pvs scan ks acc b2, stored n rows bits pvs ->
  length acc = (n + 7) / 8 -> length b2 = (n + 7) / 8 -> length scan = (n + 7) / 8 ->
  (forall k, row_bit scan k = true -> k < n) -> Forall (fun k => k < (n + 7) / 8 * 8) ks ->
  exists acc' b2', phs_bits m n bits pvs scan (acc, b2) ks = Phs_ok (acc', b2') /\
    length acc' = (n + 7) / 8 /\ length b2' = (n + 7) / 8 /\
    forall k, row_bit acc' k = true <-> row_bit acc k = true \/
      (k / 8 < m /\ exists j, In j ks /\ row_bit scan j = true /\ row_bit (rows j) k = true).
Proof.
  intros m n rows bits pvs scan. induction ks as [|j ks IH]; intros acc b2 HS La Lb Ls Hp HF; cbn [phs_bits].
  - exists acc, b2. split; [reflexivity|]. split; [assumption|]. split; [assumption|]. intro k. split; [auto|].
    intros [H|(_ & j & [] & _)]. assumption.
  - inversion HF as [|? ? Hj HF']; subst.
    destruct (nth_error scan (j / 8)) as [b|] eqn:Eb; [|apply nth_error_None in Eb; lia].
    assert (Hbit : row_bit scan j = N.testbit b (N.of_nat (j mod 8))) by (unfold row_bit; rewrite (nth_of_error _ _ _ _ 0%N Eb); reflexivity).
    destruct (N.testbit b (N.of_nat (j mod 8))).
    + pose proof (Hp j Hbit) as Hjn. destruct (Nat.leb_spec n j); [lia|]. unfold phs_or. cbn [fst snd].
      destruct (stored_read n rows bits pvs j b2 HS Hjn Lb) as (ofs & O1 & O2). rewrite O1, O2.
      destruct HS as [HS1 HS2]. destruct (HS2 j Hjn) as (Lr & _).
      destruct (IH (or_prefix m acc (rows j)) (rows j) (conj HS1 HS2)) as (acc' & b2' & A & B & C & D).
      { rewrite or_prefix_length. assumption. } { assumption. } { assumption. } { assumption. } { assumption. }
      exists acc', b2'. split; [assumption|]. split; [assumption|]. split; [assumption|]. intro k. rewrite D.
      rewrite or_prefix_bit by congruence. rewrite orb_true_iff, andb_true_iff, Nat.ltb_lt. simpl. split.
      * intros [[H1|(H1 & H2)]|(H1 & x & H2 & H3)]; [auto|right; split; [assumption|]; exists j; auto|right; split; [assumption|]; exists x; auto].
      * intros [H1|(H1 & x & [<-|H2] & H3 & H4)]; [auto|auto|]. right. split; [assumption|]. exists x. auto.
    + destruct (IH acc b2 HS La Lb Ls Hp HF') as (acc' & b2' & A & B & C & D).
      exists acc', b2'. split; [assumption|]. split; [assumption|]. split; [assumption|]. intro k. rewrite D. simpl. split.
      * intros [H1|(H1 & x & H2 & H3)]; [auto|]. right. split; [assumption|]. exists x. auto.
      * intros [H1|(H1 & x & [<-|H2] & H3 & H4)]; [auto|congruence|]. right. split; [assumption|]. exists x. auto.
Qed.

(** Bit [k] of cluster [i]'s PHS row as the code computes it. *)
Definition phs_bit (m : nat) (rows : nat -> list N) (i k : nat) : Prop :=
  row_bit (rows i) k = true \/ (k / 8 < m /\ exists j, row_bit (rows i) j = true /\ row_bit (rows j) k = true).

Record phs_inv (n m : nat) (rows : nat -> list N) (pvs : list Z) (len0 : nat) (done : nat) (s : phs_state) : Prop := {
  pi_pvs : stored n rows (ph_bits s) pvs;
  pi_b1 : length (fst (ph_bufs s)) = (n + 7) / 8;
  pi_b2 : length (snd (ph_bufs s)) = (n + 7) / 8;
  pi_phs : length (ph_phs s) = n;
  pi_len : length (ph_bits s) <= len0 + done * (2 * ((n + 7) / 8));
  pi_row : forall i, i < done -> exists row pre comp rest, length row = (n + 7) / 8 /\
     (forall k, row_bit row k = true <-> phs_bit m rows i k) /\
     compress_row row = Some comp /\ ph_bits s = pre ++ comp ++ rest /\ nth_error (ph_phs s) i = Some (Z.of_nat (length pre))
}.

Lemma row_bit_high : forall row k, length row <= k / 8 -> row_bit row k = false.
Proof. intros. unfold row_bit. rewrite nth_overflow by assumption. apply N.bits_0. Qed.

Lemma phs_cluster_ok : forall w n rows pvs len0 i s, w <> 0 -> i < n ->
  phs_inv n ((n + 7) / 8 / w * w) rows pvs len0 i s ->
  (Z.of_nat (len0 + n * (2 * ((n + 7) / 8))) < 2 ^ 31)%Z ->
  exists s', phs_cluster w n pvs s i = Phs_ok s' /\ phs_inv n ((n + 7) / 8 / w * w) rows pvs len0 (S i) s'.
Proof.
  intros w n rows pvs len0 i s Hw Hi Inv Hsz. unfold phs_cluster.
  destruct (stored_read n rows (ph_bits s) pvs i (fst (ph_bufs s)) (pi_pvs _ _ _ _ _ _ _ Inv) Hi (pi_b1 _ _ _ _ _ _ _ Inv)) as (ofs & O1 & O2).
  rewrite O1, O2.
  destruct (proj2 (pi_pvs _ _ _ _ _ _ _ Inv) i Hi) as (Lr & Hpad & _).
  destruct (phs_bits_ok ((n + 7) / 8 / w * w) n rows (ph_bits s) pvs (rows i) (seq 0 ((n + 7) / 8 * 8)) (rows i) (snd (ph_bufs s)))
    as (acc & b2 & A & B & C & D).
  { apply (pi_pvs _ _ _ _ _ _ _ Inv). } { assumption. } { apply (pi_b2 _ _ _ _ _ _ _ Inv). } { assumption. } { assumption. }
  { apply Forall_forall. intros k Hk. apply in_seq in Hk. lia. }
  rewrite A. destruct (compress_row_total acc) as (comp & Hc). rewrite Hc.
  destruct (upd_some _ (ph_phs s) i (of_unsigned 4 (N.of_nat (length (ph_bits s)) mod 2 ^ 32))) as (phs & Hu).
  { rewrite (pi_phs _ _ _ _ _ _ _ Inv). assumption. }
  rewrite Hu. eexists. split; [reflexivity|].
  pose proof (pi_len _ _ _ _ _ _ _ Inv) as HL.
  assert (Hv : of_unsigned 4 (N.of_nat (length (ph_bits s)) mod 2 ^ 32) = Z.of_nat (length (ph_bits s))).
  { assert (length (ph_bits s) <= len0 + n * (2 * ((n + 7) / 8))) by nia.
    rewrite N.mod_small by lia. unfold of_unsigned. change (256 ^ Z.of_nat 4)%Z with 4294967296%Z.
    destruct (Z.leb_spec 4294967296 (2 * Z.of_N (N.of_nat (length (ph_bits s))))); lia. }
  rewrite Hv in *. pose proof (compress_size acc comp Hc) as (_ & Hcl & _).
  constructor; cbn [ph_bits ph_phs ph_bufs fst snd].
  - apply stored_app. apply (pi_pvs _ _ _ _ _ _ _ Inv).
  - assumption.
  - assumption.
  - rewrite (upd_length _ _ _ _ _ Hu). apply (pi_phs _ _ _ _ _ _ _ Inv).
  - rewrite app_length. nia.
  - intros j Hj. destruct (Nat.eq_dec j i) as [->|Hji].
    + exists acc, (ph_bits s), comp, []. split; [assumption|]. split; [|split; [assumption|split; [rewrite app_nil_r; reflexivity|apply (upd_same _ _ _ _ _ Hu)]]].
      intro k. rewrite D. unfold phs_bit. split.
      * intros [H|(H1 & x & _ & H2 & H3)]; [auto|]. right. split; [assumption|]. exists x. auto.
      * intros [H|(H1 & x & H2 & H3)]; [auto|]. right. split; [assumption|]. exists x. split; [|auto].
        apply in_seq. pose proof (Hpad x H2). lia.
    + destruct (pi_row _ _ _ _ _ _ _ Inv j ltac:(lia)) as (row & pre & comp' & rest & R1 & R2 & R3 & R4 & R5).
      exists row, pre, comp', (rest ++ comp). split; [assumption|]. split; [assumption|]. split; [assumption|].
      split; [rewrite R4, <- !app_assoc; reflexivity|]. rewrite (upd_other _ _ _ _ _ _ Hu Hji). assumption.
Qed.

Lemma phs_clusters_ok : forall k w n rows pvs len0 i s, w <> 0 -> i + k = n ->
  phs_inv n ((n + 7) / 8 / w * w) rows pvs len0 i s ->
  (Z.of_nat (len0 + n * (2 * ((n + 7) / 8))) < 2 ^ 31)%Z ->
  exists s', phs_clusters w n pvs s (seq i k) = Phs_ok s' /\ phs_inv n ((n + 7) / 8 / w * w) rows pvs len0 n s'.
Proof.
  induction k as [|k IH]; intros w n rows pvs len0 i s Hw Hik Inv Hsz; cbn [seq phs_clusters].
  - exists s. split; [reflexivity|]. assert (E : i = n) by lia. rewrite E in Inv. exact Inv.
  - destruct (phs_cluster_ok w n rows pvs len0 i s Hw ltac:(lia) Inv Hsz) as (s1 & A & B). rewrite A.
    apply (IH w n rows pvs len0 (S i) s1 Hw ltac:(lia) B Hsz).
Qed.

Lemma calc_phs_ok : forall w n rows bits pvs, w <> 0 -> stored n rows bits pvs ->
  (Z.of_nat (length bits + n * (2 * ((n + 7) / 8))) < 2 ^ 31)%Z ->
  exists s, calc_phs w n bits pvs = Phs_ok s /\ stored n rows (ph_bits s) pvs /\
    forall i, i < n -> exists ofs row, nth_error (ph_phs s) i = Some (Z.of_nat ofs) /\
      (forall outb, length outb = (n + 7) / 8 -> decompress_vis (ph_bits s) ofs outb = D_done row) /\
      forall k, row_bit row k = true <-> phs_bit ((n + 7) / 8 / w * w) rows i k.
Proof.
  intros w n rows bits pvs Hw HS Hsz. unfold calc_phs.
  destruct (phs_clusters_ok n w n rows pvs (length bits) 0
     {| ph_bits := bits; ph_phs := repeat 0%Z n; ph_bufs := (repeat 0%N ((n + 7) / 8), repeat 0%N ((n + 7) / 8)) |} Hw eq_refl) as (s & A & B).
  { constructor; cbn [ph_bits ph_phs ph_bufs fst snd]; try rewrite repeat_length; try reflexivity; try assumption; try lia. }
  { assumption. }
  exists s. split; [assumption|]. split; [apply (pi_pvs _ _ _ _ _ _ _ B)|].
  intros i Hi. destruct (pi_row _ _ _ _ _ _ _ B i Hi) as (row & pre & comp & rest & R1 & R2 & R3 & R4 & R5).
  exists (length pre), row. split; [assumption|]. split; [|assumption].
  intros outb Ho. rewrite R4. apply roundtrip; [assumption|congruence].
Qed.
