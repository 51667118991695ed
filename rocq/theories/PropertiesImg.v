(* Property theorems about texture files: C89 to C91 and C100. *)
From Coq Require Import List Arith NArith ZArith Bool Lia.
Import ListNotations.
From Verif Require Import Base Codec NumCastModel BspRecModel BspFileModel ParserModel CmdlibModel FsModel FsProofs ImgModel ImgProofs.
Local Open Scope Z_scope.

Definition slice := FsProofs.slice.
Definition all_bytes (b : list N) : Prop := Forall (fun x => (x < 256)%N) b.

(** The pixels are the bytes at [ofs], row by row, looked up in the palette; index 255 is transparent. *)
Definition decoded (b : list N) (ofs n : nat) (pal : list rgb) (px : list rgba) : Prop :=
  length px = n /\
  forall i, (i < n)%nat -> exists r g bl, nth_error pal (N.to_nat (nth (ofs + i) b 0%N)) = Some (r, g, bl) /\
    nth_error px i = Some (r, g, bl, if (nth (ofs + i) b 0 =? 255)%N then 0%N else 255%N).

Lemma nth_skipn : forall (l : list N) k i, nth i (skipn k l) 0%N = nth (k + i) l 0%N.
Proof.
  intros l k. revert l. induction k as [|k IH]; intros l i; [reflexivity|]. destruct l as [|x l]; simpl.
  - destruct i; reflexivity.
  - apply IH.
Qed.
Lemma nth_firstn : forall (l : list N) n i, (i < n)%nat -> nth i (firstn n l) 0%N = nth i l 0%N.
Proof.
  induction l as [|x l IH]; intros n i H; [rewrite firstn_nil; reflexivity|].
  destruct n; [lia|]. destruct i; [reflexivity|]. simpl. apply IH. lia.
Qed.

Lemma forall2_len : forall A B (R : A -> B -> Prop) a b, Forall2 R a b -> length a = length b.
Proof. induction 1; simpl; congruence. Qed.

Lemma decode_slice : forall b pal ofs n, all_bytes b -> length pal = 256%nat -> (ofs + n <= length b)%nat ->
  exists px, to_rgba pal (slice b ofs n) = ROk px /\ decoded b ofs n pal px.
Proof.
  intros b pal ofs n B P L.
  destruct (to_rgba_ok pal (slice b ofs n) P) as (px & E & F).
  { pose proof (slice_bytes b (Z.of_nat ofs) (Z.of_nat n) B) as S. unfold bslice, BspFileModel.slice in S.
    rewrite !Nat2Z.id in S. exact S. }
  exists px. split; [exact E|].
  assert (LS : length (slice b ofs n) = n) by (apply slice_length; assumption).
  pose proof (forall2_len _ _ _ _ _ F) as FL. split; [exact (eq_trans (eq_sym FL) LS)|].
  intros i I.
  assert (N1 : nth_error (slice b ofs n) i = Some (nth (ofs + i) b 0%N)).
  { rewrite (nth_error_nth' _ 0%N) by lia. f_equal. unfold slice, FsProofs.slice. rewrite nth_firstn by assumption. apply nth_skipn. }
  revert N1. generalize (nth (ofs + i) b 0%N). intros v N1. clear - F N1. revert i N1. induction F as [|x c l l' H F IH]; intros i N1; [destruct i; discriminate|].
  destruct i as [|i].
  - simpl in N1. inversion N1; subst. destruct H as (r & g & bl & E & ->). exists r, g, bl. auto.
  - apply IH. exact N1.
Qed.

Lemma wal_head : forall b, (100 <= length b)%nat ->
  mfields b wal_types (mkM 0 true) = ROk (Some (fields_at b wal_types 0), mkM 100 true).
Proof.
  intros b L. rewrite mfields_inside; [reflexivity| |lia|].
  - unfold types_ok. rewrite Forall_forall. intros t I. unfold wal_types in I. rewrite !in_app_iff in I.
    unfold all_ity. destruct I as [I|[I|[I|[I|I]]]];
      try (apply repeat_spec in I; subst; simpl; tauto); simpl in I; simpl; intuition (subst; tauto).
  - change (bytes_of wal_types) with 100. unfold size. lia.
Qed.
Lemma wal_fields : forall b, (100 <= length b)%nat -> let vs := fields_at b wal_types 0 in
  nth 32 vs 0 = Z.of_N (word_at b 32) /\ nth 33 vs 0 = Z.of_N (word_at b 36) /\ nth 34 vs 0 = Z.of_N (word_at b 40) /\
  map Z.to_N (firstn 32 (skipn 38 vs)) = slice b 56 32 /\
  nth 70 vs 0 = sword_at b 88 /\ nth 71 vs 0 = sword_at b 92 /\ nth 72 vs 0 = sword_at b 96.
Proof.
  intros b L vs. assert (S : 100 <= size b) by (unfold size; lia).
  change (nth 32 vs 0) with (field_at b u32 32). change (nth 33 vs 0) with (field_at b u32 36).
  change (nth 34 vs 0) with (field_at b u32 40).
  change (firstn 32 (skipn 38 vs)) with (fields_at b (repeat u8 32) 56).
  change (nth 70 vs 0) with (field_at b i32 88). change (nth 71 vs 0) with (field_at b i32 92).
  change (nth 72 vs 0) with (field_at b i32 96).
  rewrite !field_u32, !field_i32 by lia. rewrite bytes_fields by lia. repeat split; reflexivity.
Qed.
Lemma word_u32 : forall b k, all_bytes b -> (word_at b k < 2 ^ 32)%N.
Proof.
  intros b k B. unfold word_at.
  assert (A : forall i, (nth i b 0 < 256)%N).
  { intro i. destruct (nth_in_or_default i b 0%N) as [I| ->]; [|lia]. unfold all_bytes in B. rewrite Forall_forall in B. apply B. assumption. }
  pose proof (A k). pose proof (A (k + 1)%nat). pose proof (A (k + 2)%nat). pose proof (A (k + 3)%nat). lia.
Qed.
Lemma wrap_sword : forall b k, all_bytes b -> it_wrap u32 (sword_at b k) = Z.of_N (word_at b k).
Proof.
  intros b k B. pose proof (word_u32 b k B). unfold it_wrap, sword_at. cbn [it_bits it_signed u32 andb].
  destruct (Z.of_N (word_at b k) <? 2 ^ 31) eqn:E.
  - apply Z.mod_small. lia.
  - rewrite Z.mod_eq by lia. replace ((Z.of_N (word_at b k) - 2 ^ 32) / 2 ^ 32) with (-1); [lia|].
    apply Z.div_unique with (r := Z.of_N (word_at b k)); lia.
Qed.

(** ** C89: a well-formed texture is decoded exactly *)

(** A WAL whose header, animation name and first image lie inside the file. *)
Definition wal_ok (b : list N) : Prop :=
  (100 <= length b)%nat /\ In 0%N (slice b 56 32) /\ (word_at b 32 * word_at b 36 < 2 ^ 32)%N /\
  (N.to_nat (word_at b 40) + N.to_nat (word_at b 32 * word_at b 36) <= length b)%nat.

Theorem C89_wal : forall b pal, all_bytes b -> length pal = 256%nat -> wal_ok b ->
  exists t, load_wal b false pal = ROk t /\
  tx_w t = Z.of_N (word_at b 32) /\ tx_h t = Z.of_N (word_at b 36) /\
  tx_flags t = sword_at b 88 /\ tx_contents t = Z.of_N (word_at b 92) /\ tx_value t = sword_at b 96 /\
  tx_anim t = cstr (slice b 56 32) /\
  decoded b (N.to_nat (word_at b 40)) (N.to_nat (word_at b 32 * word_at b 36)) pal (tx_pixels t).
Proof.
  intros b pal B P (L & Z0 & M & I). unfold load_wal. rewrite wal_head by assumption. cbn [rbind fst snd].
  destruct (wal_fields b L) as (F1 & F2 & F3 & F4 & F5 & F6 & F7). cbv zeta in F1, F2, F3, F4, F5, F6, F7.
  rewrite F1, F2, F3, F4, F5, F6, F7. rewrite (name_of_ok (slice b 56 32) Z0). cbn [rbind].
  unfold mseek. cbn [m_ok negb].
  replace (Z.of_N (word_at b 40) =? -1) with false by (symmetry; apply Z.eqb_neq; lia). cbn [negb].
  set (n := mul32 (Z.of_N (word_at b 32)) (Z.of_N (word_at b 36))).
  assert (EN : n = Z.of_N (word_at b 32 * word_at b 36)).
  { unfold n, mul32. rewrite <- N2Z.inj_mul. apply Z.mod_small. lia. }
  destruct (decode_slice b pal _ _ B P I) as (px & E & D).
  assert (R : exists st, mread_zeros b n (mkM (Z.of_N (word_at b 40)) true)
      = ROk (slice b (N.to_nat (word_at b 40)) (N.to_nat (word_at b 32 * word_at b 36)), st)).
  { unfold mread_zeros. clearbody n. rewrite EN. generalize dependent (word_at b 32 * word_at b 36)%N. intros m M EN I E D.
    destruct (N.eq_dec m 0) as [->|NZ].
    - unfold mread. cbn [m_ok m_pos negb]. unfold xsgetn. change (Z.of_N 0) with 0.
      destruct (Z.of_N (word_at b 40) =? size b); cbn [andb Z.ltb Z.compare rbind fst snd].
      + cbn. eexists. reflexivity.
      + destruct (Z.min (size b - Z.of_N (word_at b 40)) 0 =? 0); cbn [rbind fst snd]; eexists; reflexivity.
    - rewrite mread_inside; [|lia|lia|unfold size; lia]. cbn [rbind fst snd]. eexists. f_equal. f_equal.
      unfold bslice, BspFileModel.slice, slice, FsProofs.slice. f_equal; [lia|f_equal; lia]. }
  destruct R as [st R]. rewrite R. cbn [rbind fst]. rewrite E. cbn [rbind].
  eexists. split; [reflexivity|]. cbn. repeat split; try reflexivity; try apply D. apply wrap_sword. assumption.
Qed.
Print Assumptions C89_wal.

Lemma mip_head : forall b, (40 <= length b)%nat ->
  mfields b mip_types (mkM 0 true) = ROk (Some (fields_at b mip_types 0), mkM 40 true).
Proof.
  intros b L. rewrite mfields_inside; [reflexivity| |lia|].
  - unfold types_ok. rewrite Forall_forall. intros t I. unfold mip_types in I. rewrite !in_app_iff in I.
    unfold all_ity. destruct I as [I|[I|I]];
      try (apply repeat_spec in I; subst; simpl; tauto); simpl in I; simpl; intuition (subst; tauto).
  - change (bytes_of mip_types) with 40. unfold size. lia.
Qed.
Lemma mip_fields : forall b, (40 <= length b)%nat -> let vs := fields_at b mip_types 0 in
  nth 16 vs 0 = Z.of_N (word_at b 16) /\ nth 17 vs 0 = Z.of_N (word_at b 20) /\ nth 18 vs 0 = sword_at b 24 /\
  nth 21 vs 0 = sword_at b 36.
Proof.
  intros b L vs. assert (S : 40 <= size b) by (unfold size; lia).
  change (nth 16 vs 0) with (field_at b u32 16). change (nth 17 vs 0) with (field_at b u32 20).
  change (nth 18 vs 0) with (field_at b i32 24). change (nth 21 vs 0) with (field_at b i32 36).
  rewrite !field_u32, !field_i32 by lia. repeat split; reflexivity.
Qed.

(** A miptex whose header and first image lie inside the file. *)
Definition mip_ok (b : list N) : Prop :=
  (40 <= length b)%nat /\ 0 < sword_at b 24 /\
  sword_at b 24 + Z.of_N (word_at b 16) * Z.of_N (word_at b 20) <= size b /\ size b < 2 ^ 32.
(** The palette of a Half-Life texture: after the fourth image, the count 256 and 256 colours. *)
Definition hl_at (b : list N) : Z := sword_at b 36 + Z.of_N (word_at b 16) / 8 * (Z.of_N (word_at b 20) / 8).
Definition hl_ok (b : list N) : Prop :=
  0 < sword_at b 36 /\ hl_at b + 770 <= size b /\ size b < 2 ^ 31 /\
  nth (Z.to_nat (hl_at b)) b 0%N = 0%N /\ nth (Z.to_nat (hl_at b) + 1) b 0%N = 1%N.
Definition hl_colours (b : list N) : list rgb := triples (slice b (Z.to_nat (hl_at b) + 2) 768).

Lemma read_image : forall b ofs n, 0 < ofs -> 0 <= n -> ofs + n <= size b ->
  exists st, mread_zeros b n (mkM ofs true) = ROk (slice b (Z.to_nat ofs) (Z.to_nat n), st) /\
             (ofs < size b -> m_ok st = true).
Proof.
  intros b ofs n O NN I. unfold mread_zeros. destruct (Z.eq_dec n 0) as [->|NZ].
  - unfold mread. cbn [m_ok m_pos negb]. unfold xsgetn.
    destruct (ofs =? size b) eqn:Q; cbn [andb Z.ltb Z.compare rbind fst snd].
    + cbn. eexists. split; [reflexivity|]. lia.
    + replace (Z.min (size b - ofs) 0) with 0 by (apply Z.eqb_neq in Q; lia). cbn. eexists. split; reflexivity.
  - rewrite mread_inside by lia. cbn [rbind fst snd]. eexists. split; [reflexivity|reflexivity].
Qed.

Theorem C89_mip : forall b pal hl, all_bytes b -> length pal = 256%nat -> mip_ok b ->
  let n := (N.to_nat (word_at b 16 * word_at b 20)) in
  let from p := exists px, load_mip b false hl pal = ROk (Some (mkTexture (Z.of_N (word_at b 16)) (Z.of_N (word_at b 20)) 0 0 0 [] px))
                           /\ decoded b (Z.to_nat (sword_at b 24)) n p px in
  (hl = false -> from pal) /\ (hl = true -> sword_at b 24 < size b -> hl_ok b -> from (hl_colours b)).
Proof.
  intros b pal hl B P (L & O & I & S) n from.
  assert (H : exists st, (sword_at b 24 < size b -> m_ok st = true) /\ load_mip b false hl pal =
    rbind (if hl then hl_palette b (Z.of_N (word_at b 16)) (Z.of_N (word_at b 20)) (sword_at b 36) st else ROk None) (fun p =>
    rbind (to_rgba (match p with Some p => p | None => pal end) (slice b (Z.to_nat (sword_at b 24)) n)) (fun px =>
    ROk (Some (mkTexture (Z.of_N (word_at b 16)) (Z.of_N (word_at b 20)) 0 0 0 [] px))))).
  { unfold load_mip. rewrite mip_head by assumption. cbn [rbind fst snd].
    destruct (mip_fields b L) as (F1 & F2 & F3 & F4). cbv zeta in F1, F2, F3, F4. rewrite F1, F2, F3, F4.
    replace (sword_at b 24 <=? 0) with false by (symmetry; apply Z.leb_gt; lia).
    assert (E : mul32 (Z.of_N (word_at b 16)) (Z.of_N (word_at b 20)) = Z.of_N (word_at b 16) * Z.of_N (word_at b 20)).
    { apply Z.mod_small. lia. }
    rewrite E. replace (size b <? (sword_at b 24 + Z.of_N (word_at b 16) * Z.of_N (word_at b 20)) mod 2 ^ 32) with false.
    2:{ symmetry. apply Z.ltb_ge. rewrite Z.mod_small; lia. }
    unfold mseek. cbn [m_ok negb]. replace (sword_at b 24 =? -1) with false by (symmetry; apply Z.eqb_neq; lia). cbn [negb].
    destruct (read_image b (sword_at b 24) (Z.of_N (word_at b 16) * Z.of_N (word_at b 20))) as (st & R & K); try lia.
    exists st. split; [exact K|]. rewrite R. cbn [rbind fst snd].
    replace (Z.to_nat (Z.of_N (word_at b 16) * Z.of_N (word_at b 20))) with n by (unfold n; lia). reflexivity. }
  assert (D : forall p, length p = 256%nat -> exists px, to_rgba p (slice b (Z.to_nat (sword_at b 24)) n) = ROk px /\
    decoded b (Z.to_nat (sword_at b 24)) n p px).
  { intros p PL. apply decode_slice; [assumption|assumption|]. unfold n. unfold size in I. lia. }
  destruct H as (st & K & H). split.
  - intros ->. unfold from. rewrite H. cbn [rbind]. destruct (D pal P) as (px & E & G). rewrite E. cbn [rbind]. eauto.
  - intros -> LT (H3 & HI & HS & HC0 & HC1). unfold from. rewrite H.
    destruct (D (hl_colours b)) as (px & E & G).
    { unfold hl_colours. apply triples_length. apply slice_length. unfold size in HI. unfold hl_at in *. lia. }
    exists px. split; [|exact G]. unfold hl_palette.
    replace (sword_at b 36 <=? 0) with false by (symmetry; apply Z.leb_gt; lia).
    assert (NN : 0 <= Z.of_N (word_at b 16) / 8 * (Z.of_N (word_at b 20) / 8)).
    { apply Z.mul_nonneg_nonneg; apply Z.div_pos; lia. }
    assert (E3 : it_wrap i32 (mul32 (Z.of_N (word_at b 16) / 8) (Z.of_N (word_at b 20) / 8))
                 = Z.of_N (word_at b 16) / 8 * (Z.of_N (word_at b 20) / 8)).
    { unfold mul32. unfold hl_at in *. rewrite (Z.mod_small _ (2 ^ 32)) by lia. unfold it_wrap.
      cbn [it_bits it_signed i32]. rewrite Z.mod_small by lia.
      replace (it_hi i32 <? _) with false; [reflexivity|]. symmetry. apply Z.ltb_ge. change (it_hi i32) with 2147483647. lia. }
    rewrite E3. fold (hl_at b).
    replace (it_in i32 (hl_at b)) with true.
    2:{ symmetry. unfold it_in. change (it_lo i32) with (-2147483648). change (it_hi i32) with 2147483647.
        apply andb_true_iff. rewrite !Z.leb_le. unfold hl_at in *. lia. }
    cbn [negb]. replace (size b <? (hl_at b + 770) mod 2 ^ 64) with false.
    2:{ symmetry. apply Z.ltb_ge. rewrite Z.mod_small; unfold hl_at in *; lia. }
    unfold mseek. rewrite (K LT). cbn [negb].
    replace (hl_at b =? -1) with false by (symmetry; apply Z.eqb_neq; unfold hl_at; lia). cbn [negb].
    assert (P0 : 0 < hl_at b) by (unfold hl_at; lia).
    rewrite mfields_inside; [|constructor; [simpl; tauto|constructor]|lia|change (bytes_of [u16]) with 2; lia].
    cbn [rbind fst snd fields_at]. rewrite field_u16 by lia. rewrite HC0, HC1. cbn [N.add N.mul Pos.mul Z.of_N Z.eqb Pos.eqb].
    change (bytes_of [u16]) with 2.
    destruct (read_image b (hl_at b + 2) 768) as (st' & R' & _); try lia. rewrite R'. cbn [rbind fst].
    replace (Z.to_nat (hl_at b + 2)) with (Z.to_nat (hl_at b) + 2)%nat by lia. change (Z.to_nat 768) with 768%nat.
    fold (hl_colours b). rewrite E. reflexivity.
Qed.
Print Assumptions C89_mip.

(** A WAL of two by one pixels, and a grey palette. *)
Definition grey : list rgb := map (fun i => (N.of_nat i, N.of_nat i, N.of_nat i)) (seq 0 256).
Definition wal_ex : list N :=
  repeat 65%N 32 ++ put_le 4 2 ++ put_le 4 1 ++ put_le 4 100 ++ put_le 4 0 ++ put_le 4 0 ++ put_le 4 0 ++
  [98; 0]%N ++ repeat 7%N 30 ++ put_le 4 5 ++ put_le 4 6 ++ put_le 4 4294967295 ++ [9; 255]%N.
Definition mip_ex : list N :=
  repeat 65%N 16 ++ put_le 4 2 ++ put_le 4 1 ++ put_le 4 40 ++ put_le 4 0 ++ put_le 4 0 ++ put_le 4 42 ++ [9; 255]%N ++
  [0; 1]%N ++ concat (map (fun i => [N.of_nat i; 1; 2]%N) (seq 0 256)).
Example C89_nontrivial :
  length grey = 256%nat /\ wal_ok wal_ex /\
  load_wal wal_ex false grey = ROk (mkTexture 2 1 5 6 (-1) [98%N] [(9, 9, 9, 255); (255, 255, 255, 0)]%N) /\
  mip_ok mip_ex /\ hl_ok mip_ex /\
  load_mip mip_ex false false grey = ROk (Some (mkTexture 2 1 0 0 0 [] [(9, 9, 9, 255); (255, 255, 255, 0)]%N)) /\
  load_mip mip_ex false true grey = ROk (Some (mkTexture 2 1 0 0 0 [] [(9, 1, 2, 255); (255, 1, 2, 0)]%N)).
Proof.
  split; [reflexivity|]. split.
  { split; [apply Nat.leb_le; vm_compute; reflexivity|]. split; [right; left; reflexivity|].
    split; [vm_compute; reflexivity|apply Nat.leb_le; vm_compute; reflexivity]. }
  split; [vm_compute; reflexivity|]. split.
  { split; [apply Nat.leb_le; vm_compute; reflexivity|]. repeat split; vm_compute; (reflexivity || discriminate). }
  split; [repeat split; vm_compute; (reflexivity || discriminate)|]. split; vm_compute; reflexivity.
Qed.

(** ** C90: malformed textures *)

Lemma to_rgba_total : forall pal px, length pal = 256%nat -> Forall (fun i => (i < 256)%N) px ->
  exists l, to_rgba pal px = ROk l /\ length l = length px.
Proof.
  intros pal px P F. destruct (to_rgba_ok pal px P F) as (l & E & G). exists l. split; [exact E|].
  exact (eq_sym (forall2_len _ _ _ _ _ G)).
Qed.
Lemma zeros_bytes : forall n, Forall (fun i => (i < 256)%N) (repeat 0%N n).
Proof. induction n; simpl; constructor; auto. lia. Qed.

(** What reading [n] bytes at a position that was not checked does. *)
Lemma read_unchecked : forall b ofs n, all_bytes b -> 0 <= ofs -> 0 <= n ->
  (mread_zeros b n (mkM ofs true) = RUB /\ 0 < n /\ ofs <> size b /\ size b < ofs + n) \/
  (exists d st, mread_zeros b n (mkM ofs true) = ROk (d, st) /\ length d = Z.to_nat n /\ Forall (fun i => (i < 256)%N) d /\
     (n = 0 \/ ofs = size b /\ d = repeat 0%N (Z.to_nat n) \/ ofs + n <= size b /\ ofs <> size b)).
Proof.
  intros b ofs n B O NN. unfold mread_zeros. destruct (Z.eq_dec n 0) as [->|NZ].
  - right. unfold mread. cbn [m_ok m_pos negb]. unfold xsgetn. change (0 <? 0) with false.
    destruct (ofs =? size b); cbn [andb rbind fst snd].
    + cbn. exists [], (mkM ofs false). repeat split; auto.
    + destruct (Z.min (size b - ofs) 0 =? 0); cbn [rbind fst snd]; eexists; eexists; (split; [reflexivity|]);
        (split; [reflexivity|split; [constructor|auto]]).
  - destruct (Z.eq_dec ofs (size b)) as [->|NE].
    + right. rewrite mread_at_end by lia. cbn [rbind fst snd]. exists (repeat 0%N (Z.to_nat n)). eexists.
      split; [reflexivity|]. split; [apply repeat_length|]. split; [apply zeros_bytes|]. auto.
    + destruct (Z_lt_ge_dec (size b) (ofs + n)) as [G|G].
      * left. rewrite mread_overrun by lia. cbn [rbind]. repeat split; auto; lia.
      * right. rewrite mread_inside by lia. cbn [rbind fst snd]. eexists. eexists. split; [reflexivity|].
        split; [apply bslice_length; lia|]. split; [apply slice_bytes; assumption|]. right. right. lia.
Qed.

(** No WAL file is refused.  Undefined behaviour (reading outside the file, or using what was never read)
    happens exactly when the header is cut short, the animation name has no NUL, or the image
    (width * height modulo 2^32 bytes) reaches past the end of the file. *)
Theorem C90_wal_refuted : forall b pal meta_only, all_bytes b -> length pal = 256%nat ->
  let n := Z.of_N ((word_at b 32 * word_at b 36) mod 2 ^ 32) in let ofs := Z.of_N (word_at b 40) in
  load_wal b meta_only pal <> RThrow /\
  (load_wal b meta_only pal = RUB <->
     (length b < 100)%nat \/ ~ In 0%N (slice b 56 32) \/
     meta_only = false /\ 0 < n /\ ofs <> size b /\ size b < ofs + n).
Proof.
  intros b pal meta B P n ofs.
  destruct (Nat.lt_ge_cases (length b) 100) as [S|L].
  - assert (U : load_wal b meta pal = RUB).
    { unfold load_wal. pose proof (mfields_short b wal_types 0) as M.
      assert (T : types_ok wal_types).
      { unfold types_ok. rewrite Forall_forall. intros t I. unfold wal_types in I. rewrite !in_app_iff in I.
        unfold all_ity. destruct I as [I|[I|[I|[I|I]]]];
          try (apply repeat_spec in I; subst; simpl; tauto); simpl in I; simpl; intuition (subst; tauto). }
      specialize (M T). change (bytes_of wal_types) with 100 in M. unfold size in M. specialize (M ltac:(lia) ltac:(lia)).
      destruct (boundary wal_types (Z.of_nat (length b) - 0)).
      - destruct M as (st & E & _). rewrite E. reflexivity.
      - rewrite M. reflexivity. }
    rewrite U. split; [discriminate|]. tauto.
  - unfold load_wal. rewrite wal_head by assumption. cbn [rbind fst snd].
    destruct (wal_fields b L) as (F1 & F2 & F3 & F4 & F5 & F6 & F7). cbv zeta in F1, F2, F3, F4, F5, F6, F7.
    rewrite F1, F2, F3, F4, F5, F6, F7. rewrite name_of_cases.
    destruct (in_dec N.eq_dec 0%N (slice b 56 32)) as [I|I]; cbn [rbind]; [|split; [discriminate|tauto]].
    destruct meta; cbn [rbind].
    { split; [discriminate|]. split; [discriminate|]. intros [H|[H|[H _]]]; [lia|tauto|discriminate]. }
    unfold mseek. cbn [m_ok negb].
    replace (Z.of_N (word_at b 40) =? -1) with false by (symmetry; apply Z.eqb_neq; lia). cbn [negb].
    assert (EN : mul32 (Z.of_N (word_at b 32)) (Z.of_N (word_at b 36)) = n).
    { unfold n, mul32. rewrite N2Z.inj_mod, N2Z.inj_mul. reflexivity. }
    rewrite EN. fold ofs.
    destruct (read_unchecked b ofs n B) as [(R & Q)|(d & st & R & LD & BD & Q)]; [lia|lia| |].
    + rewrite R. cbn [rbind]. split; [discriminate|]. split; [|reflexivity]. intros _. right. right. split; [reflexivity|]. lia.
    + rewrite R. cbn [rbind fst]. destruct (to_rgba_total pal d P BD) as (l & E & _). rewrite E. cbn [rbind].
      split; [discriminate|]. split; [discriminate|]. intros [H|[H|(_ & H)]]; [lia|tauto|lia].
Qed.
Print Assumptions C90_wal_refuted.

(** A miptex is refused when it ends between two fields of the header, and read past its end when it ends
    inside one.  With a whole header, the image is read outside the file exactly when offset + width *
    height passes 2^32 and the reduced value passes the check against the size of the file. *)
Theorem C90_mip_partial : forall b pal, all_bytes b -> length pal = 256%nat ->
  let n := Z.of_N ((word_at b 16 * word_at b 20) mod 2 ^ 32) in let ofs := sword_at b 24 in
  load_mip b false false pal <> RThrow /\
  (load_mip b false false pal = ROk None <-> (length b <= 16)%nat \/ (length b < 40)%nat /\ (length b mod 4 = 0)%nat) /\
  (load_mip b false false pal = RUB <->
     ((16 < length b < 40)%nat /\ (length b mod 4 <> 0)%nat) \/
     (40 <= length b)%nat /\ 0 < ofs /\ 0 < n /\ ofs <> size b /\ size b < ofs + n /\ (ofs + n) mod 2 ^ 32 <= size b).
Proof.
  intros b pal B P n ofs.
  destruct (Nat.lt_ge_cases (length b) 40) as [S|L].
  - assert (T : types_ok mip_types).
    { unfold types_ok. rewrite Forall_forall. intros t I. unfold mip_types in I. rewrite !in_app_iff in I.
      unfold all_ity. destruct I as [I|[I|I]];
        try (apply repeat_spec in I; subst; simpl; tauto); simpl in I; simpl; intuition (subst; tauto). }
    pose proof (mfields_short b mip_types 0 T) as M. change (bytes_of mip_types) with 40 in M. unfold size in M.
    specialize (M ltac:(lia) ltac:(lia)). rewrite Z.sub_0_r in M.
    assert (K : boundary mip_types (Z.of_nat (length b)) = ((length b <=? 16)%nat || (length b mod 4 =? 0)%nat)).
    { clear - S. revert S. generalize (length b). intros m S.
      do 40 (destruct m as [|m]; [reflexivity|]). lia. }
    rewrite K in M. unfold load_mip.
    destruct ((length b <=? 16)%nat || (length b mod 4 =? 0)%nat) eqn:E.
    + destruct M as (st & M & _). rewrite M. cbn [rbind fst].
      apply orb_true_iff in E. rewrite Nat.leb_le, Nat.eqb_eq in E.
      split; [discriminate|]. split; [split; [intros _; lia|reflexivity]|]. split; [discriminate|]. lia.
    + rewrite M. cbn [rbind]. apply orb_false_iff in E. rewrite Nat.leb_gt, Nat.eqb_neq in E.
      split; [discriminate|]. split; [split; [discriminate|lia]|]. split; [intros _; lia|reflexivity].
  - unfold load_mip. rewrite mip_head by assumption. cbn [rbind fst snd].
    destruct (mip_fields b L) as (F1 & F2 & F3 & F4). cbv zeta in F1, F2, F3, F4. rewrite F1, F2, F3.
    assert (EN : mul32 (Z.of_N (word_at b 16)) (Z.of_N (word_at b 20)) = n).
    { unfold n, mul32. rewrite N2Z.inj_mod, N2Z.inj_mul. reflexivity. }
    rewrite EN. fold ofs.
    destruct (ofs <=? 0) eqn:O; [apply Z.leb_le in O|apply Z.leb_gt in O].
    { split; [discriminate|]. split; [split; [discriminate|lia]|]. split; [discriminate|lia]. }
    destruct (size b <? (ofs + n) mod 2 ^ 32) eqn:C; [apply Z.ltb_lt in C|apply Z.ltb_ge in C].
    { split; [discriminate|]. split; [split; [discriminate|lia]|]. split; [discriminate|lia]. }
    unfold mseek. cbn [m_ok negb]. replace (ofs =? -1) with false by (symmetry; apply Z.eqb_neq; lia). cbn [negb].
    destruct (read_unchecked b ofs n B) as [(R & Q)|(d & st & R & LD & BD & Q)]; [lia|lia| |].
    + rewrite R. cbn [rbind]. split; [discriminate|]. split; [split; [discriminate|lia]|]. split; [intros _; lia|reflexivity].
    + rewrite R. cbn [rbind fst]. destruct (to_rgba_total pal d P BD) as (l & E & _). rewrite E. cbn [rbind].
      split; [discriminate|]. split; [split; [discriminate|lia]|]. split; [discriminate|lia].
Qed.
Print Assumptions C90_mip_partial.

(** The number of pixels of an accepted texture can be smaller than width times height: a header of
    2147483649 by 2 and two bytes of image. *)
Definition mip_wide : list N :=
  repeat 65%N 16 ++ put_le 4 2147483649 ++ put_le 4 2 ++ put_le 4 40 ++ repeat 0%N 12 ++ [9; 8]%N.
Theorem C90_pixel_count_refuted :
  exists t, load_mip mip_wide false false grey = ROk (Some t) /\ tx_w t = 2147483649 /\ tx_h t = 2 /\ length (tx_pixels t) = 2%nat.
Proof. eexists. split; [vm_compute; reflexivity|]. repeat split; reflexivity. Qed.
Print Assumptions C90_pixel_count_refuted.

Example C90_nontrivial :
  load_wal (firstn 101 wal_ex) false grey = RUB /\ load_wal (firstn 101 wal_ex) true grey <> RUB /\
  load_wal (firstn 100 wal_ex) false grey = ROk (mkTexture 2 1 5 6 (-1) [98%N] [(0, 0, 0, 255); (0, 0, 0, 255)]%N) /\
  load_mip (firstn 38 mip_ex) false false grey = RUB /\ load_mip (firstn 36 mip_ex) false false grey = ROk None /\
  load_mip (firstn 41 mip_ex) false false grey = ROk (Some (mkTexture 2 1 0 0 0 [] [])).
Proof. repeat split; vm_compute; (reflexivity || discriminate). Qed.

(** ** C91: average colours *)

Definition red (p : rgba) : N := let '(r, _, _, _) := p in r.
Definition green (p : rgba) : N := let '(_, g, _, _) := p in g.
Definition blue (p : rgba) : N := let '(_, _, b, _) := p in b.
Definition alpha (p : rgba) : N := let '(_, _, _, a) := p in a.
Definition sum_of (f : rgba -> N) (px : list rgba) : N := fold_right (fun p s => f p + s)%N 0%N px.
(** The pixels that count: alpha at least 127. *)
Definition visible_px (px : list rgba) : list rgba := filter (fun p => (127 <=? alpha p)%N) px.

Lemma sum_cons : forall f p l, sum_of f (p :: l) = (f p + sum_of f l)%N.
Proof. reflexivity. Qed.
Lemma avg_sums_eq : forall px,
  avg_sums px = (sum_of red (visible_px px), sum_of green (visible_px px), sum_of blue (visible_px px), N.of_nat (length (visible_px px))).
Proof.
  assert (A : forall px a b c n, fold_left (fun acc p => let '(sr, sg, sb, n) := acc in let '(r, g, b, _) := p in
      if opaque p then (sr + r, sg + g, sb + b, n + 1)%N else acc) px (a, b, c, n)
    = (a + sum_of red (visible_px px), b + sum_of green (visible_px px), c + sum_of blue (visible_px px), n + N.of_nat (length (visible_px px)))%N).
  { induction px as [|[[[r g] bl] al] px IH]; intros a b c n; cbn [fold_left].
    - cbn. rewrite !N.add_0_r. reflexivity.
    - unfold visible_px in *. cbn [filter alpha opaque]. destruct (127 <=? al)%N; rewrite IH; [|reflexivity].
      rewrite !sum_cons. cbn [red green blue length]. rewrite Nat2N.inj_succ, !N.add_assoc, <- N.add_1_r, !N.add_assoc. rewrite <- (N.add_assoc n 1), (N.add_comm 1), N.add_assoc. reflexivity. }
  intro px. unfold avg_sums. rewrite A. rewrite !N.add_0_l. reflexivity.
Qed.

(** With a visible pixel, each component of the average is the mean of the visible pixels rounded down;
    it lies between the smallest and the largest. *)
Theorem C91_average_partial : forall px, visible_px px <> [] ->
  let n := N.of_nat (length (visible_px px)) in
  average px = ROk (sum_of red (visible_px px) / n, sum_of green (visible_px px) / n, sum_of blue (visible_px px) / n)%N /\
  forall f lo hi, Forall (fun p => (lo <= f p <= hi)%N) (visible_px px) -> (lo <= sum_of f (visible_px px) / n <= hi)%N.
Proof.
  intros px V n. assert (NZ : (n <> 0)%N) by (unfold n; destruct (visible_px px); [congruence|cbn [length]; lia]).
  split.
  - unfold average. rewrite avg_sums_eq. fold n. destruct (N.eqb_spec n 0); [contradiction|reflexivity].
  - intros f lo hi F.
    assert (A : forall l, Forall (fun p => (lo <= f p <= hi)%N) l ->
      (lo * N.of_nat (length l) <= sum_of f l <= hi * N.of_nat (length l))%N).
    { induction 1 as [|p l H G IH]; [cbn; lia|]. cbn [sum_of fold_right length]. fold (sum_of f l). rewrite Nat2N.inj_succ. lia. }
    specialize (A _ F). fold n in A. split.
    + apply N.div_le_lower_bound; [assumption|lia].
    + apply N.lt_succ_r. apply N.div_lt_upper_bound; [assumption|]. lia.
Qed.
Print Assumptions C91_average_partial.

(** Without one - in particular for a Quake II texture whose image is missing, which has no pixels - the
    mean is 0/0 and converting it to bytes is undefined behaviour. *)
Theorem C91_no_pixel_refuted : forall px, average px = RUB <-> visible_px px = [].
Proof.
  intro px. unfold average. rewrite avg_sums_eq. destruct (visible_px px) as [|p l]; [split; reflexivity|].
  cbn [length]. destruct (N.eqb_spec (N.of_nat (S (length l))) 0); [lia|]. split; discriminate.
Qed.
Print Assumptions C91_no_pixel_refuted.

Example C91_nontrivial :
  average [(10, 20, 30, 255); (0, 0, 0, 0); (13, 20, 40, 127)]%N = ROk (11, 20, 35)%N /\
  average [] = RUB /\ average [(1, 2, 3, 126)]%N = RUB.
Proof. repeat split; reflexivity. Qed.

(** ** C100: the palette of Quake II *)

Definition sbyte (x : N) : Z := if (x <? 128)%N then Z.of_N x else Z.of_N x - 256.
Lemma field_i8 : forall b p, all_bytes b -> 0 <= p -> p + 1 <= size b -> field_at b i8 p = sbyte (nth (Z.to_nat p) b 0%N).
Proof.
  intros b p B P L. unfold field_at, get_field. cbn [it_signed i8]. change (it_bytes i8) with 1%nat.
  unfold bslice, BspFileModel.slice. change (Z.to_nat (Z.of_nat 1)) with 1%nat.
  assert (K : (1 <= length (skipn (Z.to_nat p) b))%nat) by (rewrite skipn_length; unfold size in L; lia).
  pose proof (nth_skipn b (Z.to_nat p) 0) as E. rewrite Nat.add_0_r in E. rewrite <- E.
  destruct (skipn (Z.to_nat p) b) as [|x l] eqn:S; [simpl in K; lia|]. cbn [firstn get_le nth].
  assert (X : (x < 256)%N).
  { unfold all_bytes in B. rewrite Forall_forall in B. apply B. rewrite <- (firstn_skipn (Z.to_nat p) b), S. apply in_or_app. right. left. reflexivity. }
  unfold sbyte. replace (x + 256 * 0)%N with x by lia. unfold of_unsigned.
  change (256 ^ Z.of_nat 1) with 256. destruct (N.ltb_spec x 128), (Z.leb_spec 256 (2 * Z.of_N x)); lia.
Qed.
Lemma triples_nth : forall n l i, length l = (3 * n)%nat -> (i < n)%nat ->
  nth_error (triples l) i = Some (nth (3 * i) l 0%N, nth (3 * i + 1) l 0%N, nth (3 * i + 2) l 0%N).
Proof.
  induction n as [|n IH]; intros l i L I; [lia|]. destruct l as [|a [|b [|c l]]]; simpl in L; try lia.
  destruct i as [|i]; [reflexivity|]. cbn [triples nth_error]. rewrite IH by lia.
  replace (3 * S i)%nat with (S (S (S (3 * i))))%nat by lia. reflexivity.
Qed.

(** The first four bytes of a PCX file of version 5 with run length encoding and 8 bits per pixel. *)
Definition pcx_head (b : list N) : Prop := firstn 4 b = [10; 5; 1; 8]%N.

Ltac pcx_types := unfold types_ok; cbn [app repeat]; repeat (apply Forall_cons || apply Forall_nil); unfold all_ity; simpl; repeat (first [left; reflexivity | right]).
Lemma pcx_prefix : forall b, all_bytes b -> (70 <= length b)%nat -> exists p ok,
  (pcx_head b -> pcx_palette b = rbind (mread_zeros b 768 (mseek (size b - 768) (mkM p ok))) (fun d => ROk (Some (triples (fst d))))) /\
  (~ pcx_head b -> pcx_palette b = ROk None) /\ ok = true.
Proof.
  intros b B L. unfold pcx_palette. assert (S : 70 <= size b) by (unfold size; lia).
  rewrite mfields_inside; [|pcx_types|lia|change (bytes_of ([i8; i8; i8; i8] ++ repeat u16 6)) with 16; lia].
  cbn [rbind fst snd]. change (0 + bytes_of ([i8; i8; i8; i8] ++ repeat u16 6)) with 16.
  change (mskip 49 (mkM 16 true)) with (mkM 65 true).
  rewrite mfields_inside; [|pcx_types|lia|change (bytes_of [i8; u16; u16]) with 5; lia].
  cbn [rbind fst snd]. change (mskip 58 (mkM (65 + bytes_of [i8; u16; u16]) true)) with (mkM 128 true).
  set (vs := fields_at b ([i8; i8; i8; i8] ++ repeat u16 6) 0).
  assert (V : forall k, (k < 4)%nat -> nth k vs 0 = sbyte (nth k b 0%N)).
  { intros k K. pose proof (field_i8 b (Z.of_nat k) B ltac:(lia) ltac:(lia)) as F. rewrite Nat2Z.id in F. rewrite <- F.
    destruct k as [|[|[|[|k]]]]; [reflexivity..|lia]. }
  assert (BY : forall k, (nth k b 0 < 256)%N).
  { intro i. destruct (nth_in_or_default i b 0%N) as [I| ->]; [|lia]. unfold all_bytes in B. rewrite Forall_forall in B. apply B. assumption. }
  assert (E : forall x c, (x < 256)%N -> (c < 128)%N -> (sbyte x =? Z.of_N c) = (x =? c)%N).
  { intros x c X C. unfold sbyte. destruct (N.ltb_spec x 128), (N.eqb_spec x c); try (apply Z.eqb_eq; lia); apply Z.eqb_neq; lia. }
  rewrite !V by lia.
  change 10 with (Z.of_N 10). change 5 with (Z.of_N 5). change 8 with (Z.of_N 8). change (sbyte (nth 2 b 0%N) =? 1) with (sbyte (nth 2 b 0%N) =? Z.of_N 1).
  rewrite !E by (apply BY || lia). clear V E vs.
  exists 128, true. unfold pcx_head. do 4 (destruct b as [|? b]; [simpl in L; lia|]). cbn [nth firstn]. split; [|split; [|reflexivity]].
  - intro H. injection H as -> -> -> ->. reflexivity.
  - intro H. destruct ((n =? 10)%N && (n0 =? 5)%N && (n1 =? 1)%N && (n2 =? 8)%N) eqn:T; [|reflexivity]. exfalso. apply H.
    repeat (apply andb_true_iff in T; destruct T as [T ?]). repeat match goal with X : (_ =? _)%N = true |- _ => apply N.eqb_eq in X; subst end. reflexivity.
Qed.

(** A colour map of 768 bytes or more in that format gives the 256 colours at its end; any other file of
    that size, a missing file and an empty file leave the built-in palette. *)
Theorem C100_palette_partial : forall b builtin, all_bytes b -> (768 <= length b)%nat ->
  (pcx_head b -> exists pal, init_palette true (Some b) builtin = ROk pal /\ length pal = 256%nat /\
     forall i, (i < 256)%nat -> let at_ k := nth (length b - 768 + 3 * i + k) b 0%N in
       nth_error pal i = Some (at_ 0, at_ 1, at_ 2)%nat) /\
  (~ pcx_head b -> init_palette true (Some b) builtin = ROk builtin) /\
  init_palette true None builtin = ROk builtin /\ init_palette true (Some []) builtin = ROk builtin /\
  (forall f, init_palette false f builtin = ROk builtin).
Proof.
  intros b builtin B L. destruct (pcx_prefix b B ltac:(lia)) as (p & ok & G & R & OK).
  assert (I : init_palette true (Some b) builtin = rbind (pcx_palette b) (fun p => ROk (match p with Some p => p | None => builtin end))).
  { destruct b; [simpl in L; lia|reflexivity]. }
  split; [|split; [|split; [|split; [|intros []; reflexivity]]]]; try reflexivity.
  - intro H. rewrite I, (G H). subst ok. unfold mseek. cbn [m_ok negb].
    replace (size b - 768 =? -1) with false by (symmetry; apply Z.eqb_neq; unfold size; lia). cbn [negb]. unfold mread_zeros.
    rewrite mread_inside by (unfold size; lia). cbn [rbind fst snd].
    assert (LB : length (bslice b (size b - 768) 768) = (3 * 256)%nat) by (rewrite bslice_length by (unfold size; lia); reflexivity).
    eexists. split; [reflexivity|]. split; [exact (triples_length 256 _ LB)|].
    cbv zeta. intros i H1. set (at_ k := nth (length b - 768 + 3 * i + k) b 0%N). rewrite (triples_nth 256 _ i LB H1).
    assert (AT : forall k, (k < 3)%nat -> nth (3 * i + k) (bslice b (size b - 768) 768) 0%N = at_ k).
    { intros k K. unfold bslice, BspFileModel.slice. change (Z.to_nat 768) with (3 * 256)%nat. rewrite nth_firstn by lia. rewrite nth_skipn.
      unfold at_. f_equal. unfold size. lia. }
    pose proof (AT 0%nat ltac:(lia)) as A0. rewrite Nat.add_0_r in A0. rewrite A0, !AT by lia. reflexivity.
  - intro H. rewrite I, (R H). reflexivity.
Qed.
Print Assumptions C100_palette_partial.

(** The size is not checked: a shorter file with the right first bytes is read from before its start, but
    for 767 bytes, where the seek fails and all colours are black. *)
Theorem C100_short_refuted : forall b builtin, all_bytes b -> (70 <= length b < 768)%nat -> pcx_head b ->
  init_palette true (Some b) builtin = if (length b =? 767)%nat then ROk (repeat (0, 0, 0)%N 256) else RUB.
Proof.
  intros b builtin B L H. destruct (pcx_prefix b B ltac:(lia)) as (p & ok & G & _ & ->).
  assert (I : init_palette true (Some b) builtin = rbind (pcx_palette b) (fun p => ROk (match p with Some p => p | None => builtin end))).
  { destruct b; [simpl in L; lia|reflexivity]. }
  rewrite I, (G H). unfold mseek. cbn [m_ok negb]. destruct (Nat.eqb_spec (length b) 767) as [E|E].
  - replace (size b - 768) with (-1) by (unfold size; lia). reflexivity.
  - replace (size b - 768 =? -1) with false by (symmetry; apply Z.eqb_neq; unfold size; lia). cbn [negb]. unfold mread_zeros.
    rewrite mread_overrun; [reflexivity|unfold size; lia|lia|unfold size; lia].
Qed.
Print Assumptions C100_short_refuted.

(** A file that ends inside the fields before the first padding leaves them uninitialised. *)
Theorem C100_header_refuted : forall b builtin, all_bytes b -> (0 < length b < 16)%nat -> init_palette true (Some b) builtin = RUB.
Proof.
  intros b builtin B L. destruct b as [|x l]; [simpl in L; lia|]. set (b := x :: l) in *.
  change (init_palette true (Some b) builtin) with (rbind (pcx_palette b) (fun p => ROk (match p with Some p => p | None => builtin end))).
  unfold pcx_palette.
  pose proof (mfields_short b ([i8; i8; i8; i8] ++ repeat u16 6) 0) as M.
  specialize (M ltac:(pcx_types) ltac:(unfold size; lia)).
  change (bytes_of ([i8; i8; i8; i8] ++ repeat u16 6)) with 16 in M. specialize (M ltac:(unfold size; lia)).
  destruct (boundary ([i8; i8; i8; i8] ++ repeat u16 6) (size b - 0)).
  - destruct M as (st & -> & _). reflexivity.
  - rewrite M. reflexivity.
Qed.
Print Assumptions C100_header_refuted.

Example C100_nontrivial :
  let b := [10; 5; 1; 8]%N ++ repeat 7%N 66 ++ [1; 2; 3; 4; 5; 6]%N ++ repeat 9%N 762 in
  match init_palette true (Some b) [(1, 1, 1)%N] with ROk pal => firstn 3 pal = [(1, 2, 3); (4, 5, 6); (9, 9, 9)]%N | _ => False end /\
  init_palette true (Some (10%N :: 6%N :: skipn 2 b)) [(1, 1, 1)%N] = ROk [(1, 1, 1)%N] /\
  init_palette true (Some (firstn 766 b)) [] = RUB /\
  match init_palette true (Some (firstn 767 b)) [] with ROk pal => nth_error pal 255 = Some (0, 0, 0)%N | _ => False end.
Proof. vm_compute. repeat split; reflexivity. Qed.
