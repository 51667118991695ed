From Coq Require Import List Arith NArith ZArith Bool Lia ZifyBool ZifyNat ZifyN.
Import ListNotations.
From Verif Require Import Base VisRleModel.

Lemma zero_run_spec : forall l rep rep' rest,
  zero_run rep l = (rep', rest) -> (rep <= 255)%N ->
  exists k, l = repeat 0%N k ++ rest /\ rep' = (rep + N.of_nat k)%N /\ (rep' <= 255)%N.
Proof.
  induction l as [|b t IH]; intros rep rep' rest H Hr; simpl in H.
  - inversion H; subst. exists 0. simpl. split; [reflexivity|]. lia.
  - destruct (negb (b =? 0)%N || (rep =? 255)%N) eqn:E.
    + inversion H; subst. exists 0. simpl. split; [reflexivity|]. lia.
    + apply orb_false_iff in E. destruct E as [E1 E2].
      destruct (IH _ _ _ H) as (k & Hk1 & Hk2 & Hk3); [lia|].
      exists (S k). assert (b = 0%N) by lia. subst b t. simpl. split; [reflexivity|]. lia.
Qed.

Lemma compress_row_f_total : forall fuel l, length l <= fuel -> exists c, compress_row_f fuel l = Some c.
Proof.
  induction fuel as [|f IH]; intros l H.
  - destruct l; simpl in *; [eauto|lia].
  - destruct l as [|b t]; simpl in *; [eauto|].
    destruct (negb (b =? 0)%N).
    + destruct (IH t) as [c E]; [lia|]. rewrite E. simpl. eauto.
    + destruct (zero_run 1 t) as [rep rest] eqn:E.
      destruct (zero_run_spec _ _ _ _ E) as (k & Hk & _ & _); [lia|].
      destruct (IH rest) as [c E2].
      { subst t. rewrite app_length in H. lia. }
      rewrite E2. simpl. eauto.
Qed.

Lemma compress_row_total : forall l, exists c, compress_row l = Some c.
Proof. intros. apply compress_row_f_total. lia. Qed.

Lemma zero_fill_ok : forall c done rem, c <= length rem ->
  zero_fill c (done ++ rem) (length done) =
  inl (done ++ repeat 0%N c ++ skipn c rem, length done + c).
Proof.
  induction c as [|c IH]; intros done rem H; simpl.
  - rewrite Nat.add_0_r. reflexivity.
  - destruct rem as [|x rem]; simpl in H; [lia|].
    rewrite app_length. simpl.
    replace (Nat.eqb (length done) (length done + S (length rem))) with false
      by (symmetry; apply Nat.eqb_neq; lia).
    rewrite upd_app. rewrite app_cons_assoc.
    replace (S (length done)) with (length (done ++ [0%N])) by (rewrite app_length; simpl; lia).
    rewrite IH by lia. rewrite <- app_assoc. simpl. rewrite app_length. simpl.
    f_equal. f_equal. lia.
Qed.

(** Whatever the room, zero filling stays in the buffer. *)
Lemma zero_fill_any : forall c done rem,
  (c <= length rem /\ zero_fill c (done ++ rem) (length done) =
     inl (done ++ repeat 0%N c ++ skipn c rem, length done + c)) \/
  (length rem < c /\ zero_fill c (done ++ rem) (length done) =
     inr (D_overrun (done ++ repeat 0%N (length rem)))).
Proof.
  intros c done rem. destruct (le_lt_dec c (length rem)) as [H|H].
  - left. split; [assumption|]. apply zero_fill_ok; assumption.
  - right. split; [assumption|]. revert done rem H.
    induction c as [|c IH]; intros done rem H; [lia|].
    simpl. destruct rem as [|x rem].
    + rewrite app_nil_r. simpl. rewrite Nat.eqb_refl, app_nil_r. reflexivity.
    + rewrite app_length. simpl.
      replace (Nat.eqb (length done) (length done + S (length rem))) with false
        by (symmetry; apply Nat.eqb_neq; lia).
      rewrite upd_app. rewrite app_cons_assoc.
      replace (S (length done)) with (length (done ++ [0%N])) by (rewrite app_length; simpl; lia).
      rewrite IH by (simpl in H; lia). rewrite <- app_assoc. reflexivity.
Qed.

Lemma decompress_f_done : forall fuel inb pos outb o,
  length outb <= o -> decompress_f fuel inb pos outb o = D_done outb.
Proof.
  intros. destruct fuel; simpl;
  replace (Nat.ltb o (length outb)) with false by (symmetry; apply Nat.ltb_ge; lia); reflexivity.
Qed.

Lemma decompress_f_lit : forall f inb pos done x rem c,
  nth_error inb pos = Some c -> (c <> 0)%N ->
  decompress_f (S f) inb pos (done ++ x :: rem) (length done) =
  decompress_f f inb (S pos) ((done ++ [c]) ++ rem) (length (done ++ [c])).
Proof.
  intros f inb pos done x rem c Hn Hc. cbn [decompress_f].
  assert (pos < length inb) by (apply nth_error_Some; congruence).
  rewrite app_length. simpl length.
  replace (Nat.ltb (length done) (length done + S (length rem))) with true
    by (symmetry; apply Nat.ltb_lt; lia).
  replace (Nat.eqb pos (length inb)) with false by (symmetry; apply Nat.eqb_neq; lia).
  rewrite Hn. replace (negb (c =? 0)%N) with true by lia.
  rewrite upd_app, app_length. simpl length. rewrite <- app_assoc. simpl.
  replace (length done + 1) with (S (length done)) by lia. reflexivity.
Qed.

Lemma decompress_f_run : forall f inb pos done rem r,
  rem <> [] -> nth_error inb pos = Some 0%N -> nth_error inb (S pos) = Some r -> (r <> 0)%N ->
  N.to_nat r <= length rem ->
  decompress_f (S f) inb pos (done ++ rem) (length done) =
  decompress_f f inb (S (S pos)) ((done ++ repeat 0%N (N.to_nat r)) ++ skipn (N.to_nat r) rem)
     (length (done ++ repeat 0%N (N.to_nat r))).
Proof.
  intros f inb pos done rem r Hne H0 H1 Hr Hle. cbn [decompress_f].
  assert (S pos < length inb) by (apply nth_error_Some; congruence).
  destruct rem as [|x rem]; [congruence|].
  replace (Nat.ltb (length done) (length (done ++ x :: rem))) with true
    by (symmetry; apply Nat.ltb_lt; rewrite app_length; simpl; lia).
  replace (Nat.eqb pos (length inb)) with false by (symmetry; apply Nat.eqb_neq; lia).
  rewrite H0. cbn [N.eqb negb].
  replace (Nat.eqb (S pos) (length inb)) with false by (symmetry; apply Nat.eqb_neq; lia).
  rewrite H1. replace (r =? 0)%N with false by lia.
  rewrite zero_fill_ok by assumption.
  rewrite <- app_assoc. f_equal. rewrite app_length, repeat_length. reflexivity.
Qed.

Lemma skipn_len_app : forall A (l : list A) n, n <= length l -> length (skipn n l) = length l - n.
Proof. intros. apply skipn_length. Qed.

(** Core of the round trip, generalised over everything around the row. *)
Lemma roundtrip_gen : forall fuel row c, compress_row_f fuel row = Some c ->
  forall dfuel pre rest done rem, length rem = length row -> length c <= dfuel ->
  decompress_f dfuel (pre ++ c ++ rest) (length pre) (done ++ rem) (length done) = D_done (done ++ row).
Proof.
  induction fuel as [|f IH]; intros row c Hc dfuel pre rest done rem Hl Hf.
  - destruct row; simpl in Hc; [|discriminate]. destruct rem; [|discriminate].
    apply decompress_f_done. rewrite app_length. simpl. lia.
  - destruct row as [|b t].
    { destruct rem; [|discriminate]. apply decompress_f_done. rewrite app_length. simpl. lia. }
    destruct rem as [|x rem]; [discriminate|]. simpl in Hl.
    cbn [compress_row_f] in Hc.
    destruct (negb (b =? 0)%N) eqn:Eb.
    + destruct (compress_row_f f t) as [c'|] eqn:E; [|discriminate].
      cbn in Hc. inversion Hc; subst c. clear Hc. cbn in Hf.
      destruct dfuel as [|df]; [lia|].
      rewrite decompress_f_lit with (c := b).
      2:{ cbn. apply nth_error_app_here. }
      2:{ lia. }
      cbn. replace (pre ++ b :: c' ++ rest) with ((pre ++ [b]) ++ c' ++ rest)
        by (rewrite <- app_assoc; reflexivity).
      replace (S (length pre)) with (length (pre ++ [b])) by (rewrite app_length; simpl; lia).
      rewrite (IH _ _ E) by lia. rewrite <- app_assoc. reflexivity.
    + assert (b = 0%N) by lia. subst b.
      destruct (zero_run 1 t) as [rep rt] eqn:Ez.
      destruct (compress_row_f f rt) as [c'|] eqn:E; [|discriminate].
      cbn in Hc. inversion Hc; subst c. clear Hc. cbn in Hf.
      destruct (zero_run_spec _ _ _ _ Ez) as (k & Hk & Hrep & Hle); [lia|].
      destruct dfuel as [|df]; [lia|].
      assert (Hrn : N.to_nat rep = S k) by lia.
      assert (Ht : length t = k + length rt) by (subst t; rewrite app_length, repeat_length; lia).
      rewrite decompress_f_run with (r := rep).
      2:{ discriminate. }
      2:{ cbn. apply nth_error_app_here. }
      2:{ cbn [app]. rewrite app_cons_assoc.
          replace (S (length pre)) with (length (pre ++ [0%N])) by (rewrite app_length; simpl; lia).
          apply nth_error_app_here. }
      2:{ lia. }
      2:{ simpl. lia. }
      cbn. replace (pre ++ 0%N :: rep :: c' ++ rest) with ((pre ++ [0%N; rep]) ++ c' ++ rest)
        by (rewrite <- app_assoc; reflexivity).
      replace (S (S (length pre))) with (length (pre ++ [0%N; rep])) by (rewrite app_length; simpl; lia).
      rewrite (IH _ _ E).
      * rewrite Hrn. subst t. rewrite <- app_assoc. reflexivity.
      * rewrite Hrn. simpl. rewrite skipn_length. lia.
      * lia.
Qed.

Lemma roundtrip : forall row c pre rest outb,
  compress_row row = Some c -> length outb = length row ->
  decompress_vis (pre ++ c ++ rest) (length pre) outb = D_done row.
Proof.
  intros row c pre rest outb Hc Hl. unfold decompress_vis.
  pose proof (roundtrip_gen _ _ _ Hc (S (length (pre ++ c ++ rest))) pre rest [] outb Hl) as H.
  simpl in H. apply H. rewrite !app_length. lia.
Qed.

(** ** Safety *)

Definition prefix_written (old new : list N) : Prop :=
  exists w, length w <= length old /\ new = w ++ skipn (length w) old.

Lemma decompress_f_safe : forall fuel inb pos done old,
  pos <= length inb -> length inb - pos < fuel ->
  exists w, length w <= length old /\
   dres_buffer (decompress_f fuel inb pos (done ++ old) (length done)) =
     Some (done ++ w ++ skipn (length w) old) /\
   (Forall (fun b => (b < 256)%N) inb -> Forall (fun b => (b < 256)%N) w).
Proof.
  induction fuel as [|f IH]; intros inb pos done old Hp Hf; [lia|].
  destruct old as [|x old].
  { exists []. rewrite decompress_f_done by (rewrite app_length; simpl; lia).
    simpl. split; [lia|]. split; [reflexivity|constructor]. }
  assert (Hlt : Nat.ltb (length done) (length (done ++ x :: old)) = true)
    by (apply Nat.ltb_lt; rewrite app_length; simpl; lia).
  destruct (Nat.eqb pos (length inb)) eqn:Epos.
  { exists []. cbn [decompress_f]. rewrite Hlt, Epos. simpl.
    split; [lia|]. split; [reflexivity|constructor]. }
  apply Nat.eqb_neq in Epos.
  destruct (nth_error inb pos) as [c|] eqn:En.
  2:{ apply nth_error_None in En. lia. }
  destruct (N.eq_dec c 0) as [Hc|Hc].
  - subst c. destruct (Nat.eqb (S pos) (length inb)) eqn:Epos2.
    { exists []. cbn [decompress_f]. rewrite Hlt.
      replace (Nat.eqb pos (length inb)) with false by (symmetry; apply Nat.eqb_neq; lia).
      rewrite En. cbn [N.eqb negb]. rewrite Epos2. simpl.
      split; [lia|]. split; [reflexivity|constructor]. }
    apply Nat.eqb_neq in Epos2.
    destruct (nth_error inb (S pos)) as [r|] eqn:En2.
    2:{ apply nth_error_None in En2. lia. }
    destruct (N.eq_dec r 0) as [Hr|Hr].
    { subst r. exists []. cbn [decompress_f]. rewrite Hlt.
      replace (Nat.eqb pos (length inb)) with false by (symmetry; apply Nat.eqb_neq; lia).
      rewrite En. cbn [N.eqb negb].
      replace (Nat.eqb (S pos) (length inb)) with false by (symmetry; apply Nat.eqb_neq; lia).
      rewrite En2. simpl. split; [lia|]. split; [reflexivity|constructor]. }
    destruct (zero_fill_any (N.to_nat r) done (x :: old)) as [[Hle Hz]|[Hgt Hz]].
    + rewrite decompress_f_run with (r := r); try assumption; try discriminate.
      destruct (IH inb (S (S pos)) (done ++ repeat 0%N (N.to_nat r)) (skipn (N.to_nat r) (x :: old)))
        as (w & Hw1 & Hw2 & Hw3); [lia|lia|].
      exists (repeat 0%N (N.to_nat r) ++ w).
      rewrite Hw2. rewrite skipn_length in Hw1. rewrite !app_length, repeat_length.
      split; [lia|]. split.
      * rewrite <- !app_assoc. do 3 f_equal.
        rewrite skipn_skipn. rewrite Nat.add_comm. reflexivity.
      * intro HF. apply Forall_app. split; [|auto].
        apply Forall_forall. intros z Hz'. apply repeat_spec in Hz'. subst. lia.
    + exists (repeat 0%N (length (x :: old))). cbn [decompress_f]. rewrite Hlt.
      replace (Nat.eqb pos (length inb)) with false by (symmetry; apply Nat.eqb_neq; lia).
      rewrite En. cbn [N.eqb negb].
      replace (Nat.eqb (S pos) (length inb)) with false by (symmetry; apply Nat.eqb_neq; lia).
      rewrite En2. replace (r =? 0)%N with false by lia. rewrite Hz. cbn [dres_buffer].
      rewrite repeat_length. split; [lia|]. split.
      * rewrite skipn_all2 by lia. rewrite app_nil_r. reflexivity.
      * intro. apply Forall_forall. intros z Hz'. apply repeat_spec in Hz'. subst. lia.
  - rewrite decompress_f_lit with (c := c); try assumption.
    destruct (IH inb (S pos) (done ++ [c]) old) as (w & Hw1 & Hw2 & Hw3); [lia|lia|].
    exists (c :: w). rewrite Hw2. simpl. split; [lia|]. split.
    + rewrite <- app_assoc. reflexivity.
    + intro HF. constructor; [|auto]. rewrite Forall_forall in HF. apply HF.
      eapply nth_error_In; eassumption.
Qed.

Lemma decompress_safe : forall inb pos old, pos <= length inb ->
  exists new, dres_buffer (decompress_vis inb pos old) = Some new /\ prefix_written old new /\
   length new = length old /\
   (Forall is_byte inb -> Forall is_byte old -> Forall is_byte new).
Proof.
  intros inb pos old Hp. unfold decompress_vis.
  destruct (decompress_f_safe (S (length inb)) inb pos [] old Hp) as (w & H1 & H2 & H3); [lia|].
  simpl in H2. exists (w ++ skipn (length w) old). split; [assumption|]. split; [|split].
  - exists w. auto.
  - rewrite app_length, skipn_length. lia.
  - intros Hi Ho. apply Forall_app. split; [apply H3; assumption|].
    rewrite <- (firstn_skipn (length w) old) in Ho. apply Forall_app in Ho. tauto.
Qed.

(** ** Size *)
Definition zeros (l : list N) : nat := count_occ N.eq_dec l 0%N.

Lemma zeros_app : forall a b, zeros (a ++ b) = zeros a + zeros b.
Proof. intros. unfold zeros. apply count_occ_app. Qed.

Lemma zeros_repeat : forall k, zeros (repeat 0%N k) = k.
Proof. intros. unfold zeros. induction k; simpl; [reflexivity|]. rewrite IHk. reflexivity. Qed.

Lemma compress_size_f : forall fuel row c, compress_row_f fuel row = Some c ->
  length c <= length row + zeros row.
Proof.
  induction fuel as [|f IH]; intros row c H.
  - destruct row; simpl in H; inversion H; subst. simpl. lia.
  - destruct row as [|b t]; [inversion H; subst; simpl; lia|].
    cbn [compress_row_f] in H.
    destruct (negb (b =? 0)%N) eqn:Eb.
    + destruct (compress_row_f f t) as [c'|] eqn:E; [|discriminate].
      cbn in H. inversion H; subst c. specialize (IH _ _ E).
      unfold zeros in *. simpl. destruct (N.eq_dec b 0); lia.
    + assert (b = 0%N) by lia. subst b.
      destruct (zero_run 1 t) as [rep rt] eqn:Ez.
      destruct (compress_row_f f rt) as [c'|] eqn:E; [|discriminate].
      cbn in H. inversion H; subst c. specialize (IH _ _ E).
      destruct (zero_run_spec _ _ _ _ Ez) as (k & Hk & _ & _); [lia|].
      subst t. change (zeros (0%N :: repeat 0%N k ++ rt)) with (S (zeros (repeat 0%N k ++ rt))).
      rewrite zeros_app, zeros_repeat. simpl. rewrite app_length, repeat_length. lia.
Qed.

Lemma zeros_le : forall l, zeros l <= length l.
Proof. induction l; unfold zeros in *; simpl; [lia|]. destruct (N.eq_dec a 0); lia. Qed.

Lemma compress_bytes_f : forall fuel row c, compress_row_f fuel row = Some c ->
  Forall is_byte row -> Forall is_byte c.
Proof.
  induction fuel as [|f IH]; intros row c H HF.
  - destruct row; simpl in H; inversion H; subst. constructor.
  - destruct row as [|b t]; [inversion H; subst; constructor|].
    cbn [compress_row_f] in H. inversion HF as [|? ? Hb Ht]; subst.
    destruct (negb (b =? 0)%N) eqn:Eb.
    + destruct (compress_row_f f t) as [c'|] eqn:E; [|discriminate].
      cbn in H. inversion H; subst c. constructor; eauto.
    + destruct (zero_run 1 t) as [rep rt] eqn:Ez.
      destruct (compress_row_f f rt) as [c'|] eqn:E; [|discriminate].
      cbn in H. inversion H; subst c.
      destruct (zero_run_spec _ _ _ _ Ez) as (k & Hk & _ & Hle); [lia|].
      constructor; [assumption|]. constructor; [unfold is_byte; lia|].
      apply (IH _ _ E). subst t. apply Forall_app in Ht. tauto.
Qed.

Lemma compress_verbatim : forall fuel row, length row <= fuel -> ~ In 0%N row -> compress_row_f fuel row = Some row.
Proof.
  induction fuel as [|f IH]; intros row Hl Hn.
  - destruct row; simpl in *; [reflexivity|lia].
  - destruct row as [|b t]; [reflexivity|]. cbn [compress_row_f].
    assert (b <> 0%N) by (intro; apply Hn; left; congruence).
    replace (negb (b =? 0)%N) with true by lia.
    rewrite IH; [reflexivity| simpl in Hl; lia | intro; apply Hn; right; assumption].
Qed.

Lemma compress_size : forall row c, compress_row row = Some c ->
  length c <= length row + zeros row /\ length c <= 2 * length row /\
  (Forall is_byte row -> Forall is_byte c) /\ (~ In 0%N row -> c = row).
Proof.
  intros row c H. pose proof (compress_size_f _ _ _ H). pose proof (zeros_le row).
  split; [assumption|]. split; [lia|]. split; [eapply compress_bytes_f; eassumption|].
  intro Hn. unfold compress_row in H. rewrite compress_verbatim in H by auto. congruence.
Qed.

(** ** DecompressAllVis never leaves its buffers *)
Lemma decompress_all_q1_safe : forall visofs bits size acc,
  exists m, decompress_all_q1 bits size visofs acc = Some m /\
    (forall e, In e acc -> In e m) /\
    (Forall (fun e => length (snd e) = size) acc -> Forall (fun e => length (snd e) = size) m) /\
    (forall v, In v visofs -> (0 <= v < Z.of_nat (length bits))%Z -> In v (map fst m)).
Proof.
  induction visofs as [|v rest IH]; intros bits size acc; simpl.
  { exists acc. repeat split; auto. intros v []. }
  destruct (v <? 0)%Z eqn:E1.
  { destruct (IH bits size acc) as (m & H1 & H2 & H3 & H4).
    exists m. repeat split; auto. intros w [Hw|Hw] Hr; [lia|auto]. }
  destruct (existsb _ acc) eqn:E2.
  { destruct (IH bits size acc) as (m & H1 & H2 & H3 & H4).
    exists m. repeat split; auto. intros w [Hw|Hw] Hr; [|auto].
    apply existsb_exists in E2. destruct E2 as (e & He & Hev).
    apply in_map_iff. exists e. split; [lia|auto]. }
  destruct (Z.of_nat (length bits) <=? v)%Z eqn:E3.
  { destruct (IH bits size acc) as (m & H1 & H2 & H3 & H4).
    exists m. repeat split; auto. intros w [Hw|Hw] Hr; [lia|auto]. }
  destruct (decompress_safe bits (Z.to_nat v) (repeat 0%N size)) as (new & Hn & _ & Hlen & _); [lia|].
  rewrite Hn.
  destruct (IH bits size (acc ++ [(v, new)])) as (m & H1 & H2 & H3 & H4).
  exists m. split; [assumption|]. split; [|split].
  - intros e He. apply H2. apply in_or_app. auto.
  - intro Hacc. apply H3. apply Forall_app. split; [assumption|]. constructor; [|constructor].
    simpl. rewrite Hlen. apply repeat_length.
  - intros w [Hw|Hw] Hr; [|auto]. subst w. apply in_map_iff. exists (v, new).
    split; [reflexivity|]. apply H2. apply in_or_app. right. left. reflexivity.
Qed.

Lemma decompress_all_q2_safe : forall offsets bits size c,
  exists m, decompress_all_q2 bits size c offsets = Some m /\
    Forall (fun e => length (snd e) = size) m.
Proof.
  induction offsets as [|v rest IH]; intros bits size c; simpl; [eauto|].
  destruct ((v <? 0)%Z || (Z.of_nat (length bits) <=? v)%Z) eqn:E; [apply IH|].
  destruct (decompress_safe bits (Z.to_nat v) (repeat 0%N size)) as (new & Hn & _ & Hlen & _); [lia|].
  rewrite Hn. destruct (IH bits size (S c)) as (m & Hm & HF). rewrite Hm.
  eexists. split; [reflexivity|]. constructor; [|assumption]. simpl. rewrite Hlen. apply repeat_length.
Qed.
