(* Exact values and outcomes that the more general statements leave open, continued. *)
From Coq Require Import List Arith NArith ZArith Bool Lia.
Import ListNotations.
From Verif Require Import Base Codec NumCastModel NumCastProofs BspRecModel BspRecProofs BspFileModel.
From Verif Require VisPoolModel.
Local Open Scope Z_scope.

(** ** C70: when a file is taken for a Hexen II one *)

(** The signed little-endian integer at offset [o]. *)
Definition i32_at (f : list N) (o : Z) : Z :=
  let b k := Z.of_N (nth (Z.to_nat (o + k)) f 0%N) in
  let u := b 0 + 256 * b 1 + 65536 * b 2 + 16777216 * b 3 in
  if 2147483648 <=? u then u - 4294967296 else u.

(** Read as a Hexen II model, the record refers to existing faces, nodes, clipnodes and leafs. *)
Definition h2_plausible (f : list N) (o faces nodes leafs clips : Z) : Prop :=
  0 <= i32_at f (o + 68) <= leafs /\ 0 <= i32_at f (o + 76) /\ 0 <= i32_at f (o + 72) /\
  i32_at f (o + 72) + i32_at f (o + 76) <= faces /\ i32_at f (o + 36) < nodes /\
  forall k, 1 <= k <= 7 -> i32_at f (o + 36 + 4 * k) < clips.

Lemma raw_at : forall f o, 0 <= o -> o + 4 <= size f -> raw_i32 f o = ROk (i32_at f o).
Proof.
  intros f o A B. unfold raw_i32. replace ((o <? 0) || (size f <? o + 4)) with false by (symmetry; apply orb_false_iff; rewrite !Z.ltb_ge; lia).
  unfold slice, get_field, i32_at, size in *. change (it_bytes i32) with 4%nat. change (it_signed i32) with true. change (Z.to_nat 4) with 4%nat.
  rewrite Z.add_0_r. rewrite !Z2Nat.inj_add by lia. change (Z.to_nat 1) with 1%nat. change (Z.to_nat 2) with 2%nat. change (Z.to_nat 3) with 3%nat.
  set (n := Z.to_nat o). assert (L : (n + 4 <= length f)%nat) by lia. clearbody n. clear A B.
  pose proof (skipn_length n f) as SL.
  assert (E : forall k, nth (n + k) f 0%N = nth k (skipn n f) 0%N).
  { intro k. rewrite <- (firstn_skipn n f) at 1. rewrite app_nth2; rewrite firstn_length; [f_equal; lia|lia]. }
  pose proof (E 0%nat) as E0. rewrite Nat.add_0_r in E0. rewrite E0, !E. clear E E0. destruct (skipn n f) as [|a [|b [|c [|d r]]]]; cbn [length] in SL; try lia.
  cbn [firstn get_le nth]. unfold of_unsigned. change (256 ^ Z.of_nat 4) with 4294967296.
  replace (Z.of_N (a + 256 * (b + 256 * (c + 256 * (d + 256 * 0))))) with (Z.of_N a + 256 * Z.of_N b + 65536 * Z.of_N c + 16777216 * Z.of_N d) by lia.
  set (u := Z.of_N a + 256 * Z.of_N b + 65536 * Z.of_N c + 16777216 * Z.of_N d).
  destruct (Z.leb_spec 4294967296 (2 * u)), (Z.leb_spec 2147483648 u); try lia; reflexivity.
Qed.

Lemma heads_at : forall f n o lim, 0 <= o -> o + 4 * Z.of_nat n <= size f ->
  exists b, heads_ok f o n lim = ROk b /\ (b = true <-> forall k, 0 <= k < Z.of_nat n -> i32_at f (o + 4 * k) < lim).
Proof.
  intros f. induction n as [|n IH]; intros o lim A B.
  - exists true. split; [reflexivity|]. split; [intros _ k K; lia|reflexivity].
  - cbn [heads_ok]. rewrite raw_at by lia. cbn [rbind]. destruct (Z.leb_spec lim (i32_at f o)) as [L|L].
    + exists false. split; [reflexivity|]. split; [discriminate|]. intro H. specialize (H 0 ltac:(lia)). rewrite Z.mul_0_r, Z.add_0_r in H. lia.
    + destruct (IH (o + 4) lim ltac:(lia) ltac:(lia)) as (b & E & S'). exists b. split; [exact E|]. rewrite S'. split; intros H k K.
      * destruct (Z.eq_dec k 0) as [->|]; [rewrite Z.mul_0_r, Z.add_0_r; exact L|]. specialize (H (k - 1) ltac:(lia)). replace (o + 4 + 4 * (k - 1)) with (o + 4 * k) in H by lia. exact H.
      * specialize (H (k + 1) ltac:(lia)). replace (o + 4 + 4 * k) with (o + 4 * (k + 1)) by lia. exact H.
Qed.

Lemma model_at : forall f o faces nodes leafs clips, 0 <= o -> o + 80 <= size f -> faces <= 2147483647 ->
  (h2_model_ok f o faces nodes leafs clips = ROk true <-> h2_plausible f o faces nodes leafs clips) /\
  (h2_model_ok f o faces nodes leafs clips = RUB -> 2147483647 < i32_at f (o + 72) + i32_at f (o + 76)) /\
  h2_model_ok f o faces nodes leafs clips <> RThrow.
Proof.
  intros f o faces nodes leafs clips A B F. unfold h2_model_ok, h2_plausible. rewrite !raw_at by lia. cbn [rbind].
  set (vl := i32_at f (o + 68)). set (ff := i32_at f (o + 72)). set (nf := i32_at f (o + 76)). set (h0 := i32_at f (o + 36)).
  destruct (Z.ltb_spec vl 0); cbn [orb]; [repeat split; try discriminate; lia|].
  destruct (Z.ltb_spec leafs vl); [repeat split; try discriminate; lia|].
  destruct (Z.ltb_spec nf 0); [repeat split; try discriminate; lia|].
  destruct (Z.ltb_spec ff 0); [repeat split; try discriminate; lia|].
  unfold it_in. change (it_lo i32) with (-2147483648). change (it_hi i32) with 2147483647.
  destruct (Z.leb_spec (-2147483648) (ff + nf)); [|lia]. cbn [andb].
  destruct (Z.leb_spec (ff + nf) 2147483647); cbn [negb]; [|repeat split; try discriminate; lia].
  destruct (Z.ltb_spec faces (ff + nf)); [repeat split; try discriminate; lia|].
  destruct (Z.leb_spec nodes h0); [repeat split; try discriminate; lia|].
  destruct (heads_at f 7 (o + 40) clips ltac:(lia) ltac:(cbn; lia)) as (b & E & S'). rewrite E. change (Z.of_nat 7) with 7 in S'. split; [|split; [discriminate|discriminate]]. split.
  - intro X. injection X as ->. pose proof (proj1 S' eq_refl) as H'. repeat split; try lia. intros k K.
    specialize (H' (k - 1) ltac:(lia)). replace (o + 40 + 4 * (k - 1)) with (o + 36 + 4 * k) in H' by lia. exact H'.
  - intros (_ & _ & _ & _ & _ & X). f_equal. apply S'. intros k K. specialize (X (k + 1) ltac:(lia)). replace (o + 36 + 4 * (k + 1)) with (o + 40 + 4 * k) in X by lia. exact X.
Qed.

Lemma models_at : forall f n o faces nodes leafs clips, 0 <= o -> o + 80 * Z.of_nat n <= size f -> faces <= 2147483647 ->
  (h2_models_ok f o n faces nodes leafs clips = ROk true <-> forall i, 0 <= i < Z.of_nat n -> h2_plausible f (o + 80 * i) faces nodes leafs clips) /\
  h2_models_ok f o n faces nodes leafs clips <> RThrow /\
  (h2_models_ok f o n faces nodes leafs clips = RUB -> exists i, 0 <= i < Z.of_nat n /\ 2147483647 < i32_at f (o + 80 * i + 72) + i32_at f (o + 80 * i + 76)).
Proof.
  intros f. induction n as [|n IH]; intros o faces nodes leafs clips A B F; cbn [h2_models_ok].
  - split; [split; [intros _ i I; lia|reflexivity]|split; discriminate].
  - destruct (model_at f o faces nodes leafs clips A ltac:(lia) F) as (M1 & M2 & M3).
    destruct (IH (o + 80) faces nodes leafs clips ltac:(lia) ltac:(lia) F) as (I1 & I2 & I3).
    assert (SH : forall i, o + 80 + 80 * (i - 1) = o + 80 * i) by (intro; lia).
    destruct (h2_model_ok f o faces nodes leafs clips) as [[]| |] eqn:E; cbn [rbind].
    + split; [|split].
      * rewrite I1. split; intros H i K.
        -- destruct (Z.eq_dec i 0) as [->|]; [rewrite Z.mul_0_r, Z.add_0_r; apply M1; reflexivity|]. rewrite <- SH. apply H. lia.
        -- replace (o + 80 + 80 * i) with (o + 80 * (i + 1)) by lia. apply H. lia.
      * exact I2.
      * intro X. destruct (I3 X) as (i & K & Q). exists (i + 1). split; [lia|]. replace (o + 80 * (i + 1)) with (o + 80 + 80 * i) by lia. exact Q.
    + split; [|split; discriminate]. split; [discriminate|]. intro H. specialize (H 0 ltac:(lia)). rewrite Z.mul_0_r, Z.add_0_r in H. apply M1 in H. discriminate H.
    + contradiction M3. reflexivity.
    + split; [|split; [discriminate|]].
      * split; [discriminate|]. intro H. specialize (H 0 ltac:(lia)). rewrite Z.mul_0_r, Z.add_0_r in H. apply M1 in H. discriminate H.
      * intros _. exists 0. split; [lia|]. rewrite Z.mul_0_r, Z.add_0_r. apply M2. reflexivity.
Qed.

(** C70. A file with the header of a Quake file is taken for a Hexen II file when its model lump
    is made of whole Hexen II models and either not of whole Quake models, or, if it could be
    both, exactly when every record makes sense as a Hexen II model. *)
Theorem C70_hexen2_guess : forall f v lu,
  let ofs := lu_ofs (lu 14%nat) in let len := lu_len (lu 14%nat) in
  let count i := Z.quot (lu_len (lu i)) (spec_size v i) in
  0 <= len <= 2147483647 -> 0 <= ofs -> ofs + len <= size f -> count 7%nat <= 2147483647 ->
  (is_hexen2 f v lu = ROk true <->
     len mod 80 = 0 /\ (len mod 64 = 0 ->
       forall i, 0 <= i < len / 80 -> h2_plausible f (ofs + 80 * i) (count 7%nat) (count 5%nat) (count 10%nat) (count 9%nat))) /\
  is_hexen2 f v lu <> RThrow /\
  (is_hexen2 f v lu = RUB ->
     exists i, 0 <= i < len / 80 /\ 2147483647 < i32_at f (ofs + 80 * i + 72) + i32_at f (ofs + 80 * i + 76)).
Proof.
  intros f v lu ofs len count L O E F. unfold is_hexen2. fold ofs len. change (fun i => Z.quot (lu_len (lu i)) (spec_size v i)) with count.
  replace (it_wrap u64 len) with len by (symmetry; unfold it_wrap; change (it_signed u64) with false; cbn [andb]; change (it_bits u64) with 64; apply Z.mod_small; lia).
  destruct (Z.eqb_spec (len mod 80) 0) as [M|M]; cbn [negb]; [|split; [split; [discriminate|intros [X _]; contradiction]|split; discriminate]].
  destruct (Z.eqb_spec (len mod 64) 0) as [M2|M2]; cbn [negb]; [|split; [split; [intros _; split; [exact M|intro X; contradiction]|reflexivity]|split; discriminate]].
  assert (D : len = 80 * (len / 80)) by (pose proof (Z.div_mod len 80 ltac:(lia)); lia).
  assert (Q : 0 <= len / 80 <= 26843546) by (split; [apply Z.div_pos; lia|]; pose proof (Z.div_le_mono len 2147483647 80 ltac:(lia) ltac:(lia)); change (2147483647 / 80) with 26843545 in *; lia).
  assert (WR : it_wrap i32 (len / 80) = len / 80).
  { unfold it_wrap. change (it_signed i32) with true. change (it_bits i32) with 32. cbn [andb]. change (2 ^ 32) with 4294967296. change (it_hi i32) with 2147483647.
    rewrite Z.mod_small by lia. destruct (Z.ltb_spec 2147483647 (len / 80)); [lia|]. reflexivity. }
  cbv zeta. rewrite WR.
  pose proof (models_at f (Z.to_nat (len / 80)) ofs (count 7%nat) (count 5%nat) (count 10%nat) (count 9%nat) O) as X.
  rewrite Z2Nat.id in X by lia. specialize (X ltac:(lia) F). destruct X as (X1 & X2 & X3).
  split; [|split; assumption]. split.
  - intro H. split; [exact M|]. intros _. apply X1. exact H.
  - intros [_ H]. apply X1. exact (H M2).
Qed.
Print Assumptions C70_hexen2_guess.

(** ** C15: what a plane does to a winding *)
Theorem C15_clip_outcome : forall q s w n, VisPoolModel.q_sphere q = VisPoolModel.Sph_cut ->
  VisPoolModel.wsize s w = Some n -> (n <= VisPoolModel.MAX_WINDING)%nat ->
  let side := VisPoolModel.q_side q in
  let front := exists i, (i < n)%nat /\ side i = VisPoolModel.S_front in
  let back := exists i, (i < n)%nat /\ side i = VisPoolModel.S_back in
  (~ back -> front \/ (forall i, (i < n)%nat -> side i = VisPoolModel.S_on) -> VisPoolModel.clip_winding q s w = VisPoolModel.P_ok (Some w, s)) /\
  (~ front -> back -> VisPoolModel.clip_winding q s w = VisPoolModel.pbind (VisPoolModel.free_winding s w) (fun s' => VisPoolModel.P_ok (None, s'))).
Proof.
  intros q s w n Q W L side front back. unfold VisPoolModel.clip_winding. rewrite Q, W.
  replace (Nat.ltb VisPoolModel.MAX_WINDING n) with false by (symmetry; apply Nat.ltb_ge; exact L). cbv zeta. fold side.
  assert (EX : forall d, existsb (VisPoolModel.side_eqb d) (map side (seq 0 n)) = true <-> exists i, (i < n)%nat /\ side i = d).
  { intro d. rewrite existsb_exists. split.
    - intros (x & I & H). apply in_map_iff in I. destruct I as (i & <- & I). apply in_seq in I. exists i. split; [lia|]. destruct d, (side i); try discriminate H; reflexivity.
    - intros (i & I & H). exists (side i). split; [apply in_map; apply in_seq; lia|]. rewrite H. destruct d; reflexivity. }
  assert (AL : forallb (VisPoolModel.side_eqb VisPoolModel.S_on) (map side (seq 0 n)) = true <-> forall i, (i < n)%nat -> side i = VisPoolModel.S_on).
  { rewrite forallb_forall. split.
    - intros H i I. specialize (H (side i) ltac:(apply in_map; apply in_seq; lia)). destruct (side i); try discriminate H; reflexivity.
    - intros H x I. apply in_map_iff in I. destruct I as (i & <- & I). apply in_seq in I. rewrite (H i ltac:(lia)). reflexivity. }
  split.
  - intros NB FO. destruct (forallb (VisPoolModel.side_eqb VisPoolModel.S_on) (map side (seq 0 n))) eqn:E; [reflexivity|].
    destruct FO as [FO|FO]; [|apply AL in FO; congruence]. apply EX in FO. rewrite FO. cbn [negb].
    destruct (existsb (VisPoolModel.side_eqb VisPoolModel.S_back) (map side (seq 0 n))) eqn:B; [apply EX in B; contradiction|]. reflexivity.
  - intros NF BA. destruct (forallb (VisPoolModel.side_eqb VisPoolModel.S_on) (map side (seq 0 n))) eqn:E.
    + destruct BA as (i & I & H). rewrite (proj1 AL eq_refl i I) in H. discriminate H.
    + destruct (existsb (VisPoolModel.side_eqb VisPoolModel.S_front) (map side (seq 0 n))) eqn:B; [apply EX in B; contradiction|]. reflexivity.
Qed.
Print Assumptions C15_clip_outcome.
