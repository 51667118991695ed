(* What an accepted file satisfies: record lumps are whole and lie in the file. *)
From Coq Require Import List Arith NArith ZArith Bool Lia.
Import ListNotations.
From Verif Require Import Base Codec NumCastModel NumCastProofs BspRecModel BspRecProofs BspFileModel
  BspReadProofs BspTexProofs BspWriteProofs BspLoadProofs.
Local Open Scope Z_scope.

Lemma rbind_ok : forall A B (r : res A) (k : A -> res B) b, rbind r k = ROk b -> exists a, r = ROk a /\ k a = ROk b.
Proof. intros A B r k b H. destruct r; cbn [rbind] in H; try discriminate. eauto. Qed.

Lemma mread_inv : forall f n st b st', 0 < n -> mread f n st = ROk (Some b, st') ->
  m_ok st = true /\ st' = mkM (m_pos st + n) true /\ 0 <= m_pos st /\ m_pos st + n <= size f.
Proof.
  intros f n [p k] b st' P H. unfold mread in H. cbn [m_ok m_pos] in *. destruct k; cbn [negb] in H; [|discriminate].
  unfold xsgetn in H. destruct (p =? size f) eqn:E.
  - cbn [rbind] in H. destruct (-1 =? n) eqn:E2; [|discriminate]. apply Z.eqb_eq in E2. lia.
  - replace (0 <? n) with true in H by (symmetry; apply Z.ltb_lt; lia). cbn [andb] in H.
    destruct ((p <? 0) || (size f <? p + n)) eqn:E2; cbn [rbind] in H; [discriminate|].
    apply orb_false_iff in E2. destruct E2 as [E2 E3]. apply Z.ltb_ge in E2. apply Z.ltb_ge in E3.
    destruct (Z.min (size f - p) n =? n); [|discriminate]. injection H as _ <-. repeat split; lia.
Qed.

Lemma mfields_inv : forall f ts st vs st', forallb (fun t => (1 <=? it_bytes t)%nat) ts = true ->
  mfields f ts st = ROk (Some vs, st') ->
  let k := Z.of_nat (list_sum (map it_bytes ts)) in
  m_pos st' = m_pos st + k /\ m_ok st' = m_ok st /\ (0 < k -> 0 <= m_pos st /\ m_pos st + k <= size f) /\
  (0 < k -> m_ok st = true).
Proof.
  intros f ts. induction ts as [|t ts IH]; intros st vs st' T H; cbn [mfields] in H.
  - injection H as _ <-. cbn [map list_sum fold_right Z.of_nat]. repeat split; lia.
  - cbn [forallb] in T. apply andb_true_iff in T. destruct T as [B T2]. apply Nat.leb_le in B.
    destruct (mread f (Z.of_nat (it_bytes t)) st) as [[o st1]| |] eqn:M; cbn [rbind fst snd] in H; try discriminate.
    destruct o as [b|]; [|discriminate].
    apply mread_inv in M; [|lia]. destruct M as (M1 & -> & M2 & M3).
    destruct (get_field t b) as [[v r]|]; [|discriminate].
    destruct (mfields f ts (mkM (m_pos st + Z.of_nat (it_bytes t)) true)) as [[q st2]| |] eqn:E; cbn [rbind fst snd] in H; try discriminate.
    destruct q as [ws|]; [|discriminate]. injection H as _ <-.
    destruct (IH _ _ _ T2 E) as (A & A2 & A3 & _). cbn [m_pos m_ok] in *.
    change (list_sum (map it_bytes (t :: ts))) with (it_bytes t + list_sum (map it_bytes ts))%nat.
    cbv zeta. rewrite A, A2, M1. repeat split; lia.
Qed.

Definition fields_known {A} (c : rcodec A) : Prop := forallb (fun t => (1 <=? it_bytes t)%nat) (rc_types c) = true.

Lemma mrecs_inv : forall A (c : rcodec A) n f st l st', fields_known c ->
  mrecs f c n st = ROk (Some l, st') -> let k := Z.of_nat (rc_size c * n) in
  length l = n /\ m_pos st' = m_pos st + k /\ (0 < k -> 0 <= m_pos st /\ m_pos st + k <= size f).
Proof.
  intros A c n. induction n as [|n IH]; intros f st l st' K H; cbn [mrecs] in H.
  - injection H as <- <-. rewrite Nat.mul_0_r. cbn. repeat split; lia.
  - destruct (mrec f c st) as [[o st1]| |] eqn:M; cbn [rbind fst snd] in H; try discriminate.
    destruct o as [a|]; [|discriminate].
    destruct (mrecs f c n st1) as [[q st2]| |] eqn:E; cbn [rbind fst snd] in H; try discriminate.
    destruct q as [w|]; [|discriminate]. injection H as <- <-.
    destruct (IH f st1 w st2 K E) as (A1 & A2 & A3).
    unfold mrec in M. destruct (mfields f (rc_types c) st) as [[vs st3]| |] eqn:F; cbn [rbind fst snd] in M; try discriminate.
    destruct vs as [vs|]; [|discriminate]. destruct (rc_build c vs) as [a'|]; [|discriminate]. injection M as <- <-.
    destruct (mfields_inv f _ _ _ _ K F) as (B1 & _ & B3 & _). fold (rc_size c) in B1, B3.
    cbv zeta. cbn [length]. rewrite A1, A2, B1. split; [reflexivity|]. split; [lia|]. intros P.
    destruct (rc_size c) as [|z]; [lia|]. destruct n as [|n]; [destruct B3; lia|]. destruct B3; [lia|]. destruct A3; lia.
Qed.

(** A lump of records: whole records, in the file. *)
Definition lump_fits (f : list N) (lu : lump) (spec : Z) (n : nat) : Prop :=
  lu_len lu = spec * Z.of_nat n /\ (n <> 0%nat -> 0 <= lu_ofs lu /\ lu_ofs lu + lu_len lu <= size f).

Lemma read_records_inv : forall A f v i (c : rcodec A) lu l, fields_known c -> spec_ok v i c ->
  read_records f (spec_size v i) c lu = ROk l -> lump_fits f lu (spec_size v i) (length l).
Proof.
  intros A f v i c lu l K (S1 & S2 & S3) H. unfold read_records in H. rewrite S1 in H. rewrite <- S2 in H.
  rewrite Z.eqb_refl in H. cbn [negb] in H.
  destruct (lu_len lu <? 0) eqn:E1; [discriminate|]. apply Z.ltb_ge in E1.
  destruct (lu_len lu mod spec_size v i =? 0) eqn:E2; cbn [negb] in H; [|discriminate]. apply Z.eqb_eq in E2.
  destruct (lu_len lu =? 0) eqn:E3.
  - apply Z.eqb_eq in E3. injection H as <-. cbn [length]. split; [lia|]. intros X. contradiction.
  - apply Z.eqb_neq in E3. pose proof (Z.div_mod (lu_len lu) (spec_size v i) ltac:(lia)) as DM. rewrite E2 in DM.
    assert (0 <= lu_len lu / spec_size v i) by (apply Z.div_pos; lia).
    set (n := Z.to_nat (lu_len lu / spec_size v i)) in *.
    assert (Hn : Z.of_nat n = lu_len lu / spec_size v i) by (unfold n; rewrite Z2Nat.id by lia; reflexivity).
    apply rbind_ok in H. destruct H as ([o st] & M & H). unfold asserted in H. cbn [fst snd] in H.
    destruct o as [l'|]; [|discriminate]. destruct (m_ok st); [|discriminate]. injection H as ->.
    destruct (mrecs_inv A c n f _ l st K M) as (L & P1 & P2).
    cbv zeta in P2. rewrite Nat2Z.inj_mul, <- S2, Hn in P2.
    unfold lump_fits. rewrite L. split; [lia|]. intros _.
    unfold mseek in P2. cbn [m_ok negb m_pos] in P2. destruct P2; lia.
Qed.

Lemma read_raw_inv : forall f lu l, read_raw f lu = ROk l -> lump_fits f lu 1 (length l).
Proof.
  intros f lu l H. unfold read_raw in H. destruct (lu_len lu <? 0) eqn:E1; [discriminate|]. apply Z.ltb_ge in E1.
  destruct (lu_len lu =? 0) eqn:E3.
  - apply Z.eqb_eq in E3. injection H as <-. cbn [length]. split; [lia|]. intros X. contradiction.
  - apply Z.eqb_neq in E3. apply rbind_ok in H. destruct H as ([o st] & M & H). unfold asserted in H. cbn [fst snd] in H.
    destruct o as [l'|]; [|discriminate]. destruct (m_ok st); [|discriminate]. injection H as ->.
    unfold mseek in M. cbn [m_ok negb] in M. pose proof M as M'.
    apply mread_inv in M; [|lia]. destruct M as (_ & _ & M1 & M2). cbn [m_pos] in *.
    assert (length l = Z.to_nat (lu_len lu)).
    { unfold mread in M'. cbn [m_ok m_pos] in M'. destruct (negb (lu_ofs lu =? -1)); cbn [negb] in M'; [|discriminate].
      unfold xsgetn in M'. destruct (lu_ofs lu =? size f) eqn:E.
      - cbn [rbind] in M'. destruct (-1 =? lu_len lu) eqn:E2; [lia|discriminate].
      - destruct ((0 <? lu_len lu) && _); cbn [rbind] in M'; [discriminate|].
        destruct (Z.min (size f - lu_ofs lu) (lu_len lu) =? lu_len lu); [|discriminate]. injection M' as <- _.
        unfold slice. rewrite firstn_length, skipn_length. unfold size in M2. lia. }
    unfold lump_fits. split; [lia|]. intros _. lia.
Qed.

Lemma dead_read : forall f n p, mread f n (mkM p false) = ROk (None, mkM p false).
Proof. reflexivity. Qed.

(** ** Accepted files *)

Ltac spec_tac2 := match goal with v : ver, Q : is_q2 _ = _ |- _ => revert Q; clear; destruct v; intros Q; try discriminate Q end;
  vm_compute; repeat split; reflexivity.
Ltac known := match goal with v : ver |- _ => destruct v end; vm_compute; reflexivity.

Definition q1_fits (f : list N) (v : ver) (lu : nat -> lump) (b : q1bsp (list rmip)) : Prop :=
  let fits i n := lump_fits f (lu i) (spec_size v i) n in
  fits 1%nat (length (b1_planes b)) /\ fits 3%nat (length (b1_verts b)) /\ fits 4%nat (length (b1_vis b)) /\
  fits 5%nat (length (b1_nodes b)) /\ fits 6%nat (length (b1_texinfo b)) /\ fits 7%nat (length (b1_faces b)) /\
  fits 8%nat (length (b1_light b)) /\ fits 9%nat (length (b1_clips b)) /\ fits 10%nat (length (b1_leafs b)) /\
  fits 11%nat (length (b1_marks b)) /\ fits 12%nat (length (b1_edges b)) /\ fits 13%nat (length (b1_surfedges b)) /\
  fits 14%nat (length (b1_models b)).
Definition q2_fits (f : list N) (v : ver) (lu : nat -> lump) (b : q2bsp) : Prop :=
  let fits i n := lump_fits f (lu i) (spec_size v i) n in
  fits 1%nat (length (b2_planes b)) /\ fits 2%nat (length (b2_verts b)) /\
  fits 4%nat (length (b2_nodes b)) /\ fits 5%nat (length (b2_texinfo b)) /\ fits 6%nat (length (b2_faces b)) /\
  fits 7%nat (length (b2_light b)) /\ fits 8%nat (length (b2_leafs b)) /\ fits 9%nat (length (b2_leaffaces b)) /\
  fits 10%nat (length (b2_leafbrushes b)) /\ fits 11%nat (length (b2_edges b)) /\ fits 12%nat (length (b2_surfedges b)) /\
  fits 13%nat (length (b2_models b)) /\ fits 14%nat (length (b2_brushes b)) /\ fits 15%nat (length (b2_sides b)) /\
  fits 17%nat (length (b2_areas b)) /\ fits 18%nat (length (b2_areaportals b)).

Ltac step H x E := apply rbind_ok in H; destruct H as (x & E & H).

Lemma read_q1_inv : forall f v lu b, is_q2 v = false -> read_q1 f v lu = ROk b -> q1_fits f v lu b.
Proof.
  intros f v lu b Q H. unfold read_q1 in H.
  step H x0 R0. step H x1 R1. step H x2 R2. step H x3 R3. step H x4 R4. step H x5 R5. step H x6 R6. step H x7 R7.
  step H x8 R8. step H x9 R9. step H x10 R10. step H x11 R11. step H x12 R12. step H x13 R13. step H x14 R14.
  injection H as <-. unfold q1_fits. cbn [b1_planes b1_verts b1_vis b1_nodes b1_texinfo b1_faces b1_light b1_clips b1_leafs b1_marks b1_edges b1_surfedges b1_models].
  replace (spec_size v 4) with 1 by (destruct v; try discriminate Q; reflexivity).
  replace (spec_size v 8) with 1 by (destruct v; try discriminate Q; reflexivity).
  cbv zeta. repeat match goal with |- _ /\ _ => split end.
  - refine (read_records_inv _ _ _ _ _ _ _ _ _ R1); [known|spec_tac2].
  - refine (read_records_inv _ _ _ _ _ _ _ _ _ R3); [known|spec_tac2].
  - exact (read_raw_inv _ _ _ R4).
  - refine (read_records_inv _ _ _ _ _ _ _ _ _ R5); [known|spec_tac2].
  - refine (read_records_inv _ _ _ _ _ _ _ _ _ R6); [known|spec_tac2].
  - refine (read_records_inv _ _ _ _ _ _ _ _ _ R7); [known|spec_tac2].
  - exact (read_raw_inv _ _ _ R8).
  - refine (read_records_inv _ _ _ _ _ _ _ _ _ R9); [known|spec_tac2].
  - refine (read_records_inv _ _ _ _ _ _ _ _ _ R10); [known|spec_tac2].
  - refine (read_records_inv _ _ _ _ _ _ _ _ _ R11); [known|spec_tac2].
  - refine (read_records_inv _ _ _ _ _ _ _ _ _ R12); [known|spec_tac2].
  - refine (read_records_inv _ _ _ _ _ _ _ _ _ R13); [known|spec_tac2].
  - refine (read_records_inv _ _ _ _ _ _ _ _ _ R14); [known|spec_tac2].
Qed.
Lemma read_q2_inv : forall f v lu b, is_q2 v = true -> read_q2 f v lu = ROk b -> q2_fits f v lu b.
Proof.
  intros f v lu b Q H. unfold read_q2 in H.
  step H x0 R0. step H x1 R1. step H x2 R2. step H x3 R3. step H x4 R4. step H x5 R5. step H x6 R6. step H x7 R7.
  step H x8 R8. step H x9 R9. step H x10 R10. step H x11 R11. step H x12 R12. step H x13 R13. step H x14 R14.
  step H x15 R15. step H x17 R17. step H x18 R18.
  injection H as <-. unfold q2_fits. cbn [b2_planes b2_verts b2_nodes b2_texinfo b2_faces b2_light b2_leafs b2_leaffaces b2_leafbrushes b2_edges b2_surfedges b2_models b2_brushes b2_sides b2_areas b2_areaportals].
  replace (spec_size v 7) with 1 by (destruct v; try discriminate Q; reflexivity).
  cbv zeta. repeat match goal with |- _ /\ _ => split end.
  - refine (read_records_inv _ _ _ _ _ _ _ _ _ R1); [known|spec_tac2].
  - refine (read_records_inv _ _ _ _ _ _ _ _ _ R2); [known|spec_tac2].
  - refine (read_records_inv _ _ _ _ _ _ _ _ _ R4); [known|spec_tac2].
  - refine (read_records_inv _ _ _ _ _ _ _ _ _ R5); [known|spec_tac2].
  - refine (read_records_inv _ _ _ _ _ _ _ _ _ R6); [known|spec_tac2].
  - exact (read_raw_inv _ _ _ R7).
  - refine (read_records_inv _ _ _ _ _ _ _ _ _ R8); [known|spec_tac2].
  - refine (read_records_inv _ _ _ _ _ _ _ _ _ R9); [known|spec_tac2].
  - refine (read_records_inv _ _ _ _ _ _ _ _ _ R10); [known|spec_tac2].
  - refine (read_records_inv _ _ _ _ _ _ _ _ _ R11); [known|spec_tac2].
  - refine (read_records_inv _ _ _ _ _ _ _ _ _ R12); [known|spec_tac2].
  - refine (read_records_inv _ _ _ _ _ _ _ _ _ R13); [known|spec_tac2].
  - refine (read_records_inv _ _ _ _ _ _ _ _ _ R14); [known|spec_tac2].
  - refine (read_records_inv _ _ _ _ _ _ _ _ _ R15); [known|spec_tac2].
  - refine (read_records_inv _ _ _ _ _ _ _ _ _ R17); [known|spec_tac2].
  - refine (read_records_inv _ _ _ _ _ _ _ _ _ R18); [known|spec_tac2].
Qed.

Lemma nth_skipn_add : forall n A (l : list A) i d, nth (n + i) l d = nth i (skipn n l) d.
Proof. induction n as [|n IH]; intros A [|a l] i d; cbn [skipn Nat.add]; try reflexivity; [destruct i; reflexivity|apply IH]. Qed.

(** ** The header as bytes *)

(** The int32 at offset [o]. *)
Definition word (f : list N) (o : Z) : option Z :=
  if size f <? o + 4 then None
  else match get_field i32 (slice f o 4) with Some (v, _) => Some v | None => None end.

Lemma mread_bytes : forall f n st b st', 0 < n -> mread f n st = ROk (Some b, st') -> b = slice f (m_pos st) n.
Proof.
  intros f n [p k] b st' P H. unfold mread in H. cbn [m_ok m_pos] in *. destruct k; cbn [negb] in H; [|discriminate].
  unfold xsgetn in H. destruct (p =? size f) eqn:E.
  - cbn [rbind] in H. destruct (-1 =? n) eqn:E2; [|discriminate]. apply Z.eqb_eq in E2. lia.
  - destruct ((0 <? n) && _); cbn [rbind] in H; [discriminate|].
    destruct (Z.min (size f - p) n =? n); [|discriminate]. injection H as <- _. reflexivity.
Qed.

Lemma mfields_words : forall f n p st vs st', st = mkM p true -> mfields f (repeat i32 n) st = ROk (Some vs, st') ->
  length vs = n /\ forall k, (k < n)%nat -> word f (p + 4 * Z.of_nat k) = Some (nth k vs 0).
Proof.
  intros f n. induction n as [|n IH]; intros p st vs st' -> H; cbn [repeat mfields] in H.
  - injection H as <- _. split; [reflexivity|lia].
  - change (Z.of_nat (it_bytes i32)) with 4 in H.
    destruct (mread f 4 (mkM p true)) as [[o st1]| |] eqn:M; cbn [rbind fst snd] in H; try discriminate.
    destruct o as [b|]; [|discriminate].
    pose proof (mread_bytes f 4 _ _ _ ltac:(lia) M) as MB. cbn [m_pos] in MB.
    apply mread_inv in M; [|lia]. destruct M as (_ & -> & M2 & M3). cbn [m_pos] in M2, M3.
    destruct (get_field i32 b) as [[v r]|] eqn:G; [|discriminate].
    destruct (mfields f (repeat i32 n) (mkM (m_pos (mkM p true) + 4) true)) as [[q st2]| |] eqn:E; cbn [rbind fst snd] in H; try discriminate.
    destruct q as [ws|]; [|discriminate]. injection H as <- _.
    destruct (IH _ _ _ _ eq_refl E) as [A B]. cbn [m_pos] in B. split; [cbn [length]; rewrite A; reflexivity|].
    intros [|k] Hk.
    + cbn [nth Z.of_nat]. rewrite Z.mul_0_r, Z.add_0_r. unfold word.
      replace (size f <? p + 4) with false by (symmetry; apply Z.ltb_ge; lia). rewrite <- MB, G. reflexivity.
    + cbn [nth]. rewrite <- B by lia. f_equal. lia.
Qed.

Lemma nth_lumps_of : forall i l, (2 * i + 1 < length l)%nat ->
  nth i (lumps_of l) (mkLump 0 0) = mkLump (nth (2 * i) l 0) (nth (2 * i + 1) l 0).
Proof.
  induction i as [|i IH]; intros [|a [|c l]] H; cbn [length] in H; try lia.
  - reflexivity.
  - change (nth (S i) (lumps_of (a :: c :: l)) (mkLump 0 0)) with (nth i (lumps_of l) (mkLump 0 0)).
    rewrite IH by lia. replace (2 * S i)%nat with (S (S (2 * i))) by lia. reflexivity.
Qed.

(** Directory entry [i] of a file whose directory starts at [base]. *)
Definition entry_is (f : list N) (base i : nat) (lu : lump) : Prop :=
  word f (Z.of_nat (base + 8 * i)) = Some (lu_ofs lu) /\ word f (Z.of_nat (base + 8 * i + 4)) = Some (lu_len lu).
Definition dir_base (v : ver) : nat := if is_q2 v then 8%nat else 4%nat.

Lemma load_file_inv : forall f v b x, load_file f = ROk (v, b, x) ->
  exists lu, (forall i, (i < nlumps v)%nat -> entry_is f (dir_base v) i (lu i)) /\
    word f 0 = Some (ver_ident v) /\
    match b with B1 b => is_q2 v = false /\ read_q1 f v lu = ROk b
               | B2 b => is_q2 v = true /\ read_q2 f v lu = ROk b /\ word f 4 = ver_num v end.
Proof.
  intros f v b x H. unfold load_file in H. step H i0 E0.
  set (ident := match fst i0 with Some vs => nth 0 vs 0 | None => 0 end) in *.
  destruct ((ident =? ver_ident VQ2) || (ident =? ver_ident VQbism)) eqn:EQ.
  - step H h EH. destruct h as [o st]. cbn [fst snd] in H. destruct o as [vs|]; [|discriminate].
    destruct i0 as [o0 st0]. cbn [fst snd] in *.
    assert (OK : m_ok st0 = true).
    { destruct (m_ok st0) eqn:K; [reflexivity|]. unfold mseek in EH. rewrite K in EH. cbn [negb] in EH.
      cbn [repeat mfields] in EH. unfold mread in EH. rewrite K in EH. cbn [negb rbind fst] in EH. discriminate. }
    unfold mseek in EH. rewrite OK in EH. cbn [negb] in EH. change (0 =? -1) with false in EH. cbn [negb] in EH.
    destruct (mfields_words f 40 0 _ _ _ eq_refl EH) as [L W].
    destruct o0 as [v0|].
    2:{ unfold ident in EQ. discriminate EQ. }
    assert (ID : ident = nth 0 vs 0).
    { unfold ident. destruct (mfields_words f 1 0 _ _ _ eq_refl E0) as [_ W0].
      specialize (W0 0%nat ltac:(lia)). specialize (W 0%nat ltac:(lia)). rewrite W in W0. injection W0 as <-. reflexivity. }
    destruct (version_supported ident (Some (nth 1 vs 0))) as [v'|] eqn:VS; [|discriminate].
    step H b' RB. step H x' RX. injection H as <- <- <-.
    unfold version_supported in VS. apply find_some in VS. destruct VS as [VI VE]. apply andb_true_iff in VE.
    destruct VE as [V1 V2]. apply Z.eqb_eq in V1.
    assert (NQ : ver_num v' = Some (nth 1 vs 0)).
    { destruct (ver_num v') as [n|]; [|discriminate]. apply Z.eqb_eq in V2. rewrite V2. reflexivity. }
    assert (Q : is_q2 v' = true) by (destruct v'; try reflexivity; discriminate NQ).
    exists (fun i => nth i (lumps_of (skipn 2 vs)) (mkLump 0 0)). split; [|split; [|split; [assumption|split; [assumption|]]]].
    + intros i Hi. assert (NL : nlumps v' = 19%nat) by (destruct v'; try discriminate Q; reflexivity). rewrite NL in Hi.
      unfold dir_base. rewrite Q. rewrite nth_lumps_of by (rewrite skipn_length; lia).
      rewrite <- !(nth_skipn_add 2). unfold entry_is. cbn [lu_ofs lu_len]. split.
      * rewrite <- W by lia. f_equal. lia.
      * rewrite <- W by lia. f_equal. lia.
    + rewrite V1, ID. specialize (W 0%nat ltac:(lia)). cbn in W. exact W.
    + rewrite NQ. specialize (W 1%nat ltac:(lia)). cbn in W. exact W.
  - step H h EH. destruct h as [o st]. cbn [fst snd] in H.
    destruct (version_supported ident None) as [v'|] eqn:VS; [|discriminate]. destruct o as [vs|]; [|discriminate].
    destruct i0 as [o0 st0]. cbn [fst snd] in *.
    assert (OK : m_ok st0 = true).
    { destruct (m_ok st0) eqn:K; [reflexivity|]. unfold mseek in EH. rewrite K in EH. cbn [negb] in EH.
      cbn [repeat mfields] in EH. unfold mread in EH. rewrite K in EH. cbn [negb rbind fst] in EH. discriminate. }
    unfold mseek in EH. rewrite OK in EH. cbn [negb] in EH. change (0 =? -1) with false in EH. cbn [negb] in EH.
    destruct (mfields_words f 31 0 _ _ _ eq_refl EH) as [L W].
    step H h2 E2. step H b' RB. step H x' RX. injection H as <- <- <-.
    apply find_some in VS. destruct VS as [VI VE]. apply andb_true_iff in VE.
    destruct VE as [V1 V2]. apply Z.eqb_eq in V1.
    assert (NQ : ver_num v' = None) by (destruct (ver_num v'); [discriminate|reflexivity]).
    set (v2 := if h2 then to_h2 v' else v') in *.
    assert (Q : is_q2 v2 = false) by (unfold v2; destruct h2, v'; try reflexivity; discriminate NQ).
    assert (ID : ident = nth 0 vs 0).
    { destruct o0 as [v0|].
      - unfold ident. destruct (mfields_words f 1 0 _ _ _ eq_refl E0) as [_ W0].
        specialize (W0 0%nat ltac:(lia)). specialize (W 0%nat ltac:(lia)). rewrite W in W0. injection W0 as <-. reflexivity.
      - unfold ident in V1. destruct v'; discriminate V1. }
    exists (fun i => nth i (lumps_of (skipn 1 vs)) (mkLump 0 0)). split; [|split; [|split; assumption]].
    + intros i Hi. assert (NL : nlumps v2 = 15%nat) by (clearbody v2; destruct v2; try discriminate Q; reflexivity). rewrite NL in Hi.
      unfold dir_base. rewrite Q. rewrite nth_lumps_of by (rewrite skipn_length; lia).
      rewrite <- !(nth_skipn_add 1). unfold entry_is. cbn [lu_ofs lu_len]. split.
      * rewrite <- W by lia. f_equal. lia.
      * rewrite <- W by lia. f_equal. lia.
    + assert (V3 : ver_ident v2 = ver_ident v') by (unfold v2; destruct h2, v'; reflexivity).
      rewrite V3, V1, ID. specialize (W 0%nat ltac:(lia)). cbn in W. exact W.
Qed.
