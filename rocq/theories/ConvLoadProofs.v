(* What is loaded from a file has the types of its format; what conversions from the generic form keep. *)
From Coq Require Import List Arith NArith ZArith Bool Lia.
Import ListNotations.
From Verif Require Import Base Codec NumCastModel NumCastProofs BspRecModel BspRecProofs BspConvProofs
  BspFileModel BspReadProofs BspTexProofs BspWriteProofs BspLoadProofs BspAcceptProofs ConvModel ConvProofs.
Local Open Scope Z_scope.

(** ** What was loaded has the types of its format *)
Definition typed (ts : list ity) (vs : list Z) : Prop := Forall2 (fun t v => it_in t v = true) ts vs.
Definition rc_sound {A} (c : rcodec A) (wf : A -> bool) : Prop :=
  Forall (fun t => In t all_ity) (rc_types c) /\
  forall vs a, typed (rc_types c) vs -> rc_build c vs = Some a -> wf a = true.

Lemma get_le_range : forall n l v r, Forall is_byte l -> get_le n l = Some (v, r) -> urange n v.
Proof.
  induction n as [|n IH]; intros l v r F H; cbn [get_le] in H.
  - injection H as <- <-. unfold urange. cbn. lia.
  - destruct l as [|b t]; [discriminate|]. destruct (get_le n t) as [[w q]|] eqn:E; [|discriminate].
    assert (X : v = (b + 256 * w)%N) by congruence. inversion F as [|? ? Hb Ht]; subst. pose proof (IH t w q Ht E) as U.
    unfold urange, is_byte in *. rewrite Nat2N.inj_succ, N.pow_succ_r'. lia.
Qed.
Lemma get_field_in : forall t l v r, In t all_ity -> Forall is_byte l -> get_field t l = Some (v, r) -> it_in t v = true.
Proof.
  intros t l v r T F H. unfold get_field in H. destruct (get_le (it_bytes t) l) as [[w q]|] eqn:E; [|discriminate].
  pose proof (get_le_range _ _ _ _ F E) as U. injection H as <- _.
  pose proof (it_pow t T) as P. destruct (it_half t T) as [H1 H2].
  assert (U2 : 0 <= Z.of_N w < 256 ^ Z.of_nat (it_bytes t)).
  { unfold urange in U. split; [lia|]. replace (256 ^ Z.of_nat (it_bytes t)) with (Z.of_N (256 ^ N.of_nat (it_bytes t))); [lia|].
    rewrite N2Z.inj_pow, nat_N_Z. reflexivity. }
  rewrite P in U2. unfold it_in, it_lo, it_hi, of_unsigned. rewrite P. destruct (it_signed t).
  - destruct (2 ^ it_bits t <=? 2 * Z.of_N w) eqn:G; [apply Z.leb_le in G|apply Z.leb_gt in G]; apply andb_true_iff; split; apply Z.leb_le; lia.
  - apply andb_true_iff; split; apply Z.leb_le; lia.
Qed.
Lemma mfields_typed : forall f ts st vs st', Forall is_byte f -> Forall (fun t => In t all_ity) ts ->
  mfields f ts st = ROk (Some vs, st') -> typed ts vs.
Proof.
  intros f ts. induction ts as [|t ts IH]; intros st vs st' F T H; cbn [mfields] in H.
  - injection H as <- _. constructor.
  - inversion T as [|? ? T1 T2]; subst. apply rbind_ok in H. destruct H as ([o st1] & M & H). cbn [fst snd] in H.
    destruct o as [b|]; [|discriminate]. destruct (get_field t b) as [[v r]|] eqn:G; [|discriminate].
    apply rbind_ok in H. destruct H as ([q st2] & E & H). cbn [fst snd] in H. destruct q as [w|]; [|discriminate].
    injection H as <- _. constructor; [|eapply IH; eassumption].
    eapply get_field_in; [exact T1| |exact G].
    unfold mread in M. destruct (negb (m_ok st)); [discriminate|]. apply rbind_ok in M. destruct M as ([[got bytes] pos] & X & M).
    unfold xsgetn in X. destruct (m_pos st =? size f).
    + injection X as <- <- <-. destruct (-1 =? _); [injection M as <- _; constructor|discriminate].
    + destruct (_ && _); [discriminate|]. injection X as <- <- <-. destruct (_ =? _); [|discriminate]. injection M as <- _.
      unfold slice. apply Forall_forall. intros x Hx. rewrite Forall_forall in F. apply F.
      rewrite <- (firstn_skipn (Z.to_nat (m_pos st)) f). apply in_or_app. right.
      rewrite <- (firstn_skipn (Z.to_nat (Z.of_nat (it_bytes t))) (skipn (Z.to_nat (m_pos st)) f)). apply in_or_app. left. exact Hx.
Qed.
Lemma mrecs_sound : forall A (c : rcodec A) wf n f st l st', Forall is_byte f -> rc_sound c wf ->
  mrecs f c n st = ROk (Some l, st') -> all wf l.
Proof.
  intros A c wf n. induction n as [|n IH]; intros f st l st' F K H; cbn [mrecs] in H.
  - injection H as <- _. constructor.
  - apply rbind_ok in H. destruct H as ([o st1] & M & H). cbn [fst snd] in H. destruct o as [a|]; [|discriminate].
    apply rbind_ok in H. destruct H as ([q st2] & E & H). cbn [fst snd] in H. destruct q as [w|]; [|discriminate].
    injection H as <- _. constructor; [|eapply IH; eassumption].
    unfold mrec in M. apply rbind_ok in M. destruct M as ([vs st3] & M1 & M). cbn [fst snd] in M.
    destruct vs as [vs|]; [|discriminate]. destruct (rc_build c vs) as [a'|] eqn:B; [|discriminate]. injection M as <- _.
    destruct K as [K1 K2]. apply (K2 vs); [|exact B]. eapply mfields_typed; eassumption.
Qed.
Lemma read_records_sound : forall A f spec (c : rcodec A) wf lu l, Forall is_byte f -> rc_sound c wf ->
  read_records f spec c lu = ROk l -> all wf l.
Proof.
  intros A f spec c wf lu l F K H. unfold read_records in H.
  destruct (negb _); [discriminate|]. destruct (lu_len lu <? 0); [discriminate|]. destruct (negb _); [discriminate|].
  destruct (lu_len lu =? 0); [injection H as <-; constructor|].
  apply rbind_ok in H. destruct H as ([o st] & M & H). unfold asserted in H. cbn [fst snd] in H.
  destruct o as [a|]; [|discriminate]. destruct (m_ok st); [|discriminate]. injection H as <-. eapply mrecs_sound; eassumption.
Qed.

Ltac inv_typed := repeat match goal with
  | H : Forall2 _ (_ :: _) _ |- _ => inversion H; subst; clear H
  | H : Forall2 _ [] _ |- _ => inversion H; subst; clear H
  end.
Ltac in_types := repeat first [apply Forall_nil|apply Forall_cons; [in_ity|]].
Ltac all_rw := repeat match goal with H : it_in _ _ = true |- _ => rewrite H; clear H end; try reflexivity.
Ltac sound_tac := split; [cbn [node_codec face_codec q1leaf_codec q2leaf_codec clip_codec model_codec side_codec edge_codec int_codec rc_types vtypes app repeat]; in_types|];
  let vs := fresh in let a := fresh in let H := fresh in let E := fresh in intros vs a H E; unfold typed in H;
  cbn [node_codec face_codec q1leaf_codec q2leaf_codec clip_codec model_codec side_codec edge_codec int_codec rc_types vtypes app repeat] in H; inv_typed;
  cbn [node_codec face_codec q1leaf_codec q2leaf_codec clip_codec model_codec side_codec edge_codec int_codec rc_build skipn firstn] in E;
  injection E as <-.
Lemma node_sound : forall tc tb tf, In tc all_ity -> In tb all_ity -> In tf all_ity -> rc_sound (node_codec tc tb tf) (node_wf tc tb tf).
Proof.
  intros tc tb tf A B C. sound_tac. unfold node_wf, vwf. cbn [n_plane n_c0 n_c1 n_mn n_mx n_ff n_nf vx vy vz]. all_rw.
Qed.
Lemma face_sound : forall tp ts, In tp all_ity -> In ts all_ity -> rc_sound (face_codec tp ts) (face_wf tp ts).
Proof.
  intros tp ts A B. sound_tac. unfold face_wf. cbn [f_plane f_side f_fe f_ne f_tex f_s0 f_s1 f_s2 f_s3 f_lo]. all_rw.
Qed.
Lemma clip_sound : forall t, In t all_ity -> rc_sound (clip_codec t) (clip_wf t).
Proof. intros t A. sound_tac. unfold clip_wf. cbn [cn_plane cn_c0 cn_c1]. all_rw. Qed.
Lemma q1leaf_sound : forall tb tm, In tb all_ity -> In tm all_ity -> rc_sound (q1leaf_codec tb tm) (q1leaf_wf tb tm).
Proof.
  intros tb tm A B. sound_tac. unfold q1leaf_wf, vwf.
  cbn [q1_contents q1_visofs q1_mn q1_mx q1_fm q1_nm q1_a0 q1_a1 q1_a2 q1_a3 vx vy vz]. all_rw.
Qed.
Lemma q2leaf_sound : forall tc tb tm, In tc all_ity -> In tb all_ity -> In tm all_ity ->
  rc_sound (q2leaf_codec tc tb tm) (q2leaf_wf tc tb tm).
Proof.
  intros tc tb tm A B C. sound_tac. unfold q2leaf_wf, vwf.
  cbn [q2_contents q2_cluster q2_area q2_mn q2_mx q2_fl q2_nl q2_fb q2_nb vx vy vz]. all_rw.
Qed.
Lemma side_sound : forall tp tt, In tp all_ity -> In tt all_ity -> rc_sound (side_codec tp tt) (side_wf tp tt).
Proof. intros tp tt A B. sound_tac. unfold side_wf. cbn [bs_plane bs_tex]. all_rw. Qed.
Lemma edge_sound : forall t, In t all_ity -> rc_sound (edge_codec t) (edge_wf t).
Proof. intros t A. sound_tac. unfold edge_wf. cbn [e_0 e_1]. all_rw. Qed.
Lemma int_sound : forall t, In t all_ity -> rc_sound (int_codec t) (it_in t).
Proof. intros t A. sound_tac. assumption. Qed.
Lemma model_sound : forall h, (h = 4 \/ h = 8)%nat -> rc_sound (model_codec h) (model_wf h).
Proof.
  intros h [->| ->]; sound_tac; unfold model_wf, vwf, all_in;
    cbn [dm_mn dm_mx dm_org dm_head dm_vis dm_ff dm_nf vx vy vz forallb length Nat.eqb]; all_rw.
Qed.

Lemma v_node_sound : forall v, rc_sound (v_node v) (node_ok v).
Proof. destruct v; apply node_sound; in_ity. Qed.
Lemma v_face_sound : forall v, rc_sound (v_face v) (face_ok v).
Proof. destruct v; apply face_sound; in_ity. Qed.
Lemma v_clip_sound : forall v, rc_sound (v_clip v) (clipn_ok v).
Proof. destruct v; apply clip_sound; in_ity. Qed.
Lemma v_q1leaf_sound : forall v, rc_sound (v_q1leaf v) (q1leaf_ok v).
Proof. destruct v; apply q1leaf_sound; in_ity. Qed.
Lemma v_q2leaf_sound : forall v, rc_sound (v_q2leaf v) (q2leaf_ok v).
Proof. destruct v; apply q2leaf_sound; in_ity. Qed.
Lemma v_int_sound : forall v, rc_sound (v_int v) (it_in (idx_ty v)).
Proof. intros v. apply int_sound, idx_all. Qed.
Lemma v_edge_sound : forall v, rc_sound (v_edge v) (edge_wf (idx_ty v)).
Proof. intros v. apply edge_sound, idx_all. Qed.
Lemma v_side_sound : forall v, rc_sound (v_side v) (sides_ok v).
Proof. destruct v; apply side_sound; in_ity. Qed.
Lemma v_model_sound : forall v, rc_sound (v_model v) (models_ok v).
Proof. destruct v; apply model_sound; auto. Qed.

Lemma loaded_range : forall f v b x, Forall is_byte f -> load_file f = ROk (v, b, x) -> in_range v b.
Proof.
  intros f v b x F H. destruct (load_file_inv f v b x H) as (lu & _ & _ & R). destruct b as [b|b].
  - destruct R as [Q H2]. unfold read_q1 in H2.
    step H2 x0 R0. step H2 x1 R1. step H2 x2 R2. step H2 x3 R3. step H2 x4 R4. step H2 x5 R5. step H2 x6 R6. step H2 x7 R7.
    step H2 x8 R8. step H2 x9 R9. step H2 x10 R10. step H2 x11 R11. step H2 x12 R12. step H2 x13 R13. step H2 x14 R14.
    injection H2 as <-. cbn [in_range b1_nodes b1_faces b1_clips b1_leafs b1_marks b1_edges b1_models].
    split; [exact Q|].
    split; [exact (read_records_sound _ _ _ _ _ _ _ F (v_node_sound v) R5)|].
    split; [exact (read_records_sound _ _ _ _ _ _ _ F (v_face_sound v) R7)|].
    split; [exact (read_records_sound _ _ _ _ _ _ _ F (v_clip_sound v) R9)|].
    split; [exact (read_records_sound _ _ _ _ _ _ _ F (v_q1leaf_sound v) R10)|].
    split; [exact (read_records_sound _ _ _ _ _ _ _ F (v_int_sound v) R11)|].
    split; [exact (read_records_sound _ _ _ _ _ _ _ F (v_edge_sound v) R12)|].
    exact (read_records_sound _ _ _ _ _ _ _ F (v_model_sound v) R14).
  - destruct R as (Q & H2 & _). unfold read_q2 in H2.
    step H2 x0 R0. step H2 x1 R1. step H2 x2 R2. step H2 x3 R3. step H2 x4 R4. step H2 x5 R5. step H2 x6 R6. step H2 x7 R7.
    step H2 x8 R8. step H2 x9 R9. step H2 x10 R10. step H2 x11 R11. step H2 x12 R12. step H2 x13 R13. step H2 x14 R14.
    step H2 x15 R15. step H2 x17 R17. step H2 x18 R18.
    injection H2 as <-. cbn [in_range b2_nodes b2_faces b2_leafs b2_leaffaces b2_leafbrushes b2_edges b2_sides].
    split; [exact Q|].
    split; [exact (read_records_sound _ _ _ _ _ _ _ F (v_node_sound v) R4)|].
    split; [exact (read_records_sound _ _ _ _ _ _ _ F (v_face_sound v) R6)|].
    split; [exact (read_records_sound _ _ _ _ _ _ _ F (v_q2leaf_sound v) R8)|].
    split; [exact (read_records_sound _ _ _ _ _ _ _ F (v_int_sound v) R9)|].
    split; [exact (read_records_sound _ _ _ _ _ _ _ F (v_int_sound v) R10)|].
    split; [exact (read_records_sound _ _ _ _ _ _ _ F (v_edge_sound v) R11)|].
    exact (read_records_sound _ _ _ _ _ _ _ F (v_side_sound v) R15).
Qed.

(** ** From the generic form *)

Definition gen_wf {T} (g : mbsp T) : Prop :=
  all (node_wf i32 f32 u32) (g_nodes g) /\ all mtex_wf (g_texinfo g) /\ all mface_wf (g_faces g) /\
  all (clip_wf i32) (g_clips g) /\ all mleaf_wf (g_leafs g) /\ all (it_in u32) (g_leaffaces g) /\
  all (it_in u32) (g_leafbrushes g) /\ all (edge_wf u32) (g_edges g) /\ all (model_wf 8) (g_models g) /\
  all (side_wf u32 i32) (g_sides g).

(** The limits of a format, record by record. *)
Definition node_fit (v : ver) : node -> Prop :=
  match v with
  | VQ1 | VH2 | VHl => node_fits i16 u16 | VRmq | VH2Rmq => node_fits i32 u32 | VQ2 => node_fits i32 u16
  | VBsp2 | VH2Bsp2 | VQbism => fun _ => True
  end.
Definition face_fit (v : ver) (f : face) : Prop :=
  match v with
  | VQ1 | VH2 | VHl => it_in i16 (f_plane f) = true /\ it_in i16 (f_side f) = true /\ it_in i16 (f_ne f) = true /\ it_in i16 (f_tex f) = true
  | VQ2 => it_in u16 (f_plane f) = true /\ it_in i16 (f_side f) = true /\ it_in i16 (f_ne f) = true /\ it_in i16 (f_tex f) = true
  | VQbism => it_in u32 (f_plane f) = true
  | _ => it_in i32 (f_plane f) = true
  end.
Definition clip_fit (v : ver) (c : clipnode) : Prop :=
  match v with VQ1 | VH2 | VHl => -15 <= cn_c0 c <= 0xFFF0 /\ -15 <= cn_c1 c <= 0xFFF0 | _ => True end.
Definition leaf_fit (v : ver) (l : mleaf) : Prop :=
  match v with
  | VQ1 | VH2 | VHl => mins_fit (l_mn l) /\ maxs_fit (l_mx l) /\ it_in u16 (l_fm l) = true /\ it_in u16 (l_nm l) = true
  | VRmq | VH2Rmq => mins_fit (l_mn l) /\ maxs_fit (l_mx l)
  | VQ2 => it_in i16 (l_cluster l) = true /\ it_in i16 (l_area l) = true /\ mins_fit (l_mn l) /\
           mins_fit (l_mx l) /\ it_in u16 (l_fm l) = true /\ it_in u16 (l_nm l) = true /\
           it_in u16 (l_fb l) = true /\ it_in u16 (l_nb l) = true
  | VBsp2 | VH2Bsp2 | VQbism => True
  end.
Definition side_fit (v : ver) (s : dbrushside) : Prop :=
  match v with VQ2 => it_in u16 (bs_plane s) = true /\ it_in i16 (bs_tex s) = true | _ => True end.
Definition fits {T} (v : ver) (g : mbsp T) : Prop :=
  Forall (node_fit v) (g_nodes g) /\ Forall (face_fit v) (g_faces g) /\ Forall (leaf_fit v) (g_leafs g) /\
  all (it_in (idx_ty v)) (g_leaffaces g) /\ all (edge_wf (idx_ty v)) (g_edges g) /\
  if is_q2 v then all (it_in (idx_ty v)) (g_leafbrushes g) /\ Forall (side_fit v) (g_sides g)
  else Forall (clip_fit v) (g_clips g).

(** Some bound of a node or leaf is NaN and the format has 16-bit bounds. *)
Definition nan_bound {T} (v : ver) (g : mbsp T) : Prop :=
  width v <> 2%nat /\
  (Exists (fun n => has_nan (n_mn n) \/ has_nan (n_mx n)) (g_nodes g) \/
   Exists (fun l => has_nan (l_mn l) \/ has_nan (l_mx l)) (g_leafs g)).

(** What [g'] has kept of [g] through the format. *)
Definition node_kept (v : ver) (n n' : node) : Prop :=
  node_ints n' = node_ints n /\ if (width v =? 2)%nat then n' = n else node_box n' n.
Definition q1_leaf_kept (v : ver) (l l' : mleaf) : Prop :=
  leaf_q1_ints l' = leaf_q1_ints l /\
  if (width v =? 2)%nat then l_mn l' = l_mn l /\ l_mx l' = l_mx l else leaf_box l' l.
Definition q2_leaf_kept (v : ver) (l l' : mleaf) : Prop :=
  leaf_q2_ints l' = leaf_q2_ints l /\
  if (width v =? 2)%nat then l_mn l' = l_mn l /\ l_mx l' = l_mx l
  else vle (l_mn l') (l_mn l) /\ vle (l_mx l') (l_mx l).
Definition kept {T} (v : ver) (g g' : mbsp T) : Prop :=
  (g_ents g' = g_ents g /\ g_planes g' = g_planes g /\ g_verts g' = g_verts g /\ g_faces g' = g_faces g /\
   g_light g' = g_light g /\ g_leaffaces g' = g_leaffaces g /\ g_edges g' = g_edges g /\
   g_surfedges g' = g_surfedges g /\ Forall2 (node_kept v) (g_nodes g) (g_nodes g')) /\
  if is_q2 v then
    (g_vis g' = g_vis g /\ g_leafbrushes g' = g_leafbrushes g /\ g_brushes g' = g_brushes g /\
     g_sides g' = g_sides g /\ g_areas g' = g_areas g /\ g_areaportals g' = g_areaportals g) /\
    Forall2 (q2_leaf_kept v) (g_leafs g) (g_leafs g') /\
    Forall2 (fun t t' => mt_vecs t' = mt_vecs t /\ mt_flags t' = mt_flags t /\ mt_value t' = mt_value t /\
                         mt_name t' = mt_name t /\ mt_next t' = mt_next t) (g_texinfo g) (g_texinfo g') /\
    Forall2 (fun m m' => m' = mkModel (dm_mn m) (dm_mx m) (dm_org m) (nth 0 (dm_head m) 0 :: repeat 0 7) 0 (dm_ff m) (dm_nf m))
      (g_models g) (g_models g')
  else
    (g_tex g' = g_tex g /\ mv_bits (g_vis g') = mv_bits (g_vis g) /\ g_clips g' = g_clips g) /\
    Forall2 (q1_leaf_kept v) (g_leafs g) (g_leafs g') /\
    Forall2 (fun t t' => mt_vecs t' = mt_vecs t /\ mt_flags t' = mt_flags t /\ mt_miptex t' = mt_miptex t)
      (g_texinfo g) (g_texinfo g') /\
    Forall2 (fun m m' => m' = if is_h2 v then m else
                         mkModel (dm_mn m) (dm_mx m) (dm_org m) (firstn 4 (dm_head m) ++ [0; 0; 0; 0]) (dm_vis m) (dm_ff m) (dm_nf m))
      (g_models g) (g_models g').

Lemma rmap_conv : forall A B (f : A -> res B) (p : A -> bool) (R : A -> B -> Prop) (fit nan : A -> Prop) l, all p l ->
  (forall a, p a = true -> match f a with ROk b => R a b | RThrow => ~ fit a | RUB => nan a end) ->
  match rmap f l with ROk m => Forall2 R l m | RThrow => ~ Forall fit l | RUB => Exists nan l end.
Proof.
  intros A B f p R fit nan l H E. induction H as [|a t Ha Ht IH]; [constructor|].
  cbn [rmap]. pose proof (E a Ha) as Ea. destruct (f a) as [b| |]; cbn [rbind].
  - destruct (rmap f t) as [m| |]; cbn [rbind].
    + constructor; assumption.
    + intros X. inversion X. contradiction.
    + apply Exists_cons_tl. assumption.
  - intros X. inversion X. contradiction.
  - apply Exists_cons_hd. assumption.
Qed.
Lemma F2_map : forall A B C (h : B -> C) (R : A -> C -> Prop) l m, Forall2 (fun a b => R a (h b)) l m -> Forall2 R l (map h m).
Proof. intros A B C h R l m H. induction H; constructor; assumption. Qed.
Lemma F2_eq : forall A B (h : B -> A) l m, Forall2 (fun a b => h b = a) l m -> map h m = l.
Proof. intros A B h l m H. induction H as [|a b l m E H IH]; [reflexivity|]. cbn [map]. rewrite E, IH. reflexivity. Qed.
Lemma F2_same : forall A (l m : list A), Forall2 (fun a b => b = a) l m -> m = l.
Proof. intros A l m H. induction H as [|a b l m E H IH]; [reflexivity|]. rewrite E, IH. reflexivity. Qed.
Lemma no_ex : forall A (l : list A), Exists (fun _ => False) l -> False.
Proof. intros A l H. induction H; auto. Qed.

Lemma node_c : forall v n, node_wf i32 f32 u32 n = true ->
  match fmt_node v n with
  | ROk n' => node_kept v n (gen_node v n') | RThrow => ~ node_fit v n
  | RUB => width v <> 2%nat /\ (has_nan (n_mn n) \/ has_nan (n_mx n)) end.
Proof.
  intros v n W. pose proof (bsp29_node_conv n W) as A. pose proof (rmq_node_conv n W) as B. pose proof (q2_node_conv n W) as C.
  unfold node_kept. destruct v; cbn [fmt_node gen_node node_fit width Nat.eqb];
    try (split; reflexivity);
    match goal with |- match ?f n with _ => _ end => destruct (f n); [tauto|assumption|split; [discriminate|assumption]] end.
Qed.
Lemma face_c : forall v f, mface_wf f = true ->
  match fmt_face v f with ROk f' => of_face f' = f | RThrow => ~ face_fit v f | RUB => False end.
Proof.
  intros v f W.
  pose proof (face_conv i16 i16 f ltac:(in_ity) ltac:(in_ity) W) as A.
  pose proof (face_conv u16 i16 f ltac:(in_ity) ltac:(in_ity) W) as B.
  pose proof (face32_conv i32 f ltac:(in_ity) W) as C. pose proof (face32_conv u32 f ltac:(in_ity) W) as D.
  destruct v; cbn [fmt_face face_fit]; unfold to_bsp29_face, to_q2_face, to_bsp2_face, to_qbism_face;
    match goal with |- match ?x with _ => _ end => destruct x; tauto end.
Qed.
Lemma clip_c : forall v c, clip_wf i32 c = true ->
  match fmt_clip v c with ROk c' => gen_clip v c' = c | RThrow => ~ clip_fit v c | RUB => False end.
Proof.
  intros v c W. pose proof (bsp29_clip_conv c W) as A.
  destruct v; cbn [fmt_clip gen_clip clip_fit]; try reflexivity;
    match goal with |- match ?x with _ => _ end => destruct x; tauto end.
Qed.
Lemma q1leaf_c : forall v l, is_q2 v = false -> mleaf_wf l = true ->
  match fmt_q1leaf v l with
  | ROk r => q1_leaf_kept v l (gen_q1leaf v r) | RThrow => ~ leaf_fit v l
  | RUB => width v <> 2%nat /\ (has_nan (l_mn l) \/ has_nan (l_mx l)) end.
Proof.
  intros v l Q W. pose proof (bsp29_leaf_conv l W) as A. pose proof (rmq_leaf_conv l W) as B.
  destruct (bsp2_leaf_conv l W) as (r & C1 & C2 & C3 & C4). unfold q1_leaf_kept.
  destruct v; try discriminate Q; cbn [fmt_q1leaf gen_q1leaf leaf_fit width Nat.eqb];
    try (rewrite C1; tauto);
    match goal with |- match ?f l with _ => _ end => destruct (f l); [tauto|assumption|split; [discriminate|assumption]] end.
Qed.
Lemma q2leaf_c : forall v l, is_q2 v = true -> mleaf_wf l = true ->
  match fmt_q2leaf v l with
  | ROk r => q2_leaf_kept v l (gen_q2leaf v r) | RThrow => ~ leaf_fit v l
  | RUB => width v <> 2%nat /\ (has_nan (l_mn l) \/ has_nan (l_mx l)) end.
Proof.
  intros v l Q W. pose proof (q2_leaf_conv l W) as A.
  destruct (qbism_leaf_conv l W) as (r & C1 & C2 & C3 & C4). unfold q2_leaf_kept.
  destruct v; try discriminate Q; cbn [fmt_q2leaf gen_q2leaf leaf_fit width Nat.eqb];
    try (rewrite C1; tauto);
    match goal with |- match ?f l with _ => _ end => destruct (f l); [tauto|assumption|split; [discriminate|assumption]] end.
Qed.
Lemma index_c : forall v z, it_in u32 z = true ->
  match fmt_index v z with ROk r => r = z | RThrow => ~ it_in (idx_ty v) z = true | RUB => False end.
Proof.
  intros v z W. pose proof (index16_conv z W) as A. unfold fmt_index, idx_ty. destruct (v_wide v); [reflexivity|].
  destruct (to_index16 z); tauto.
Qed.
Lemma edge_c : forall v e, edge_wf u32 e = true ->
  match fmt_edge v e with ROk r => r = e | RThrow => ~ edge_wf (idx_ty v) e = true | RUB => False end.
Proof.
  intros v z W. pose proof (edge16_conv z W) as A. unfold fmt_edge, idx_ty. destruct (v_wide v); [reflexivity|].
  destruct (to_edge16 z); tauto.
Qed.
Lemma side_c : forall v s, side_wf u32 i32 s = true ->
  match fmt_side v s with ROk r => r = s | RThrow => ~ side_fit v s | RUB => False end.
Proof.
  intros v s W. pose proof (q2_side_conv s W) as A. destruct v; cbn [fmt_side side_fit]; try reflexivity.
  destruct (to_q2_side s); tauto.
Qed.
Lemma models_c : forall v l, all (model_wf 8) l ->
  exists r l', rmap (fmt_model v) l = ROk r /\ rmap (gen_model v) r = ROk l' /\
  Forall2 (fun m m' => m' = if is_h2 v then m else
     mkModel (dm_mn m) (dm_mx m) (dm_org m) (firstn 4 (dm_head m) ++ [0; 0; 0; 0]) (dm_vis m) (dm_ff m) (dm_nf m)) l l'.
Proof.
  intros v l H. induction H as [|m t Hm Ht (r & l' & A & B & C)]; [exists [], []; repeat split; constructor|].
  unfold fmt_model, gen_model in *. destruct (is_h2 v).
  - exists (m :: r), (m :: l'). cbn [rmap rbind]. rewrite A, B. cbn [rbind]. repeat split. constructor; [reflexivity|assumption].
  - destruct (q1_model_conv m Hm) as (a & a' & M1 & M2 & M3 & M4). exists (a :: r), (a' :: l'). cbn [rmap rbind].
    rewrite M1, A, M3, B. cbn [rbind]. repeat split. constructor; assumption.
Qed.
Lemma q2_models_c : forall l, all (model_wf 8) l -> exists r, rmap to_q2_model l = ROk r /\
  Forall2 (fun m m' => m' = mkModel (dm_mn m) (dm_mx m) (dm_org m) (nth 0 (dm_head m) 0 :: repeat 0 7) 0 (dm_ff m) (dm_nf m)) l (map of_q2_model r).
Proof.
  intros l H. induction H as [|m t Hm Ht (r & A & B)]; [exists []; repeat split; constructor|].
  destruct (q2_model_conv m Hm) as (a & M1 & M2 & M3). exists (a :: r). cbn [rmap rbind map]. rewrite M1, A. split; [reflexivity|].
  constructor; assumption.
Qed.
Lemma q1_tex_c : forall l, all mtex_wf l -> exists r, rmap to_q1_tex l = ROk r /\
  Forall2 (fun t t' => mt_vecs t' = mt_vecs t /\ mt_flags t' = mt_flags t /\ mt_miptex t' = mt_miptex t) l (map of_q1_tex r).
Proof.
  intros l H. induction H as [|m t Hm Ht (r & A & B)]; [exists []; repeat split; constructor|].
  destruct (q1_tex_conv m Hm) as (a & M1 & M2 & M3). exists (a :: r). cbn [rmap rbind map]. rewrite M1, A. split; [reflexivity|].
  constructor; assumption.
Qed.
Lemma q2_tex_c : forall l, all mtex_wf l -> exists r, rmap to_q2_tex l = ROk r /\
  Forall2 (fun t t' => mt_vecs t' = mt_vecs t /\ mt_flags t' = mt_flags t /\ mt_value t' = mt_value t /\
                       mt_name t' = mt_name t /\ mt_next t' = mt_next t) l (map of_q2_tex r).
Proof.
  intros l H. induction H as [|m t Hm Ht (r & A & B)]; [exists []; repeat split; constructor|].
  destruct (q2_tex_conv m Hm) as (a & M1 & M2 & M3). exists (a :: r). cbn [rmap rbind map]. rewrite M1, A. split; [reflexivity|].
  constructor; [rewrite M3; repeat split; reflexivity|assumption].
Qed.

Ltac run X := match type of X with match ?e with _ => _ end => destruct e eqn:?; cbn [rbind] end.
Lemma Exists_and : forall A (c : Prop) (p : A -> Prop) l, Exists (fun a => c /\ p a) l -> c /\ Exists p l.
Proof. intros A c p l H. induction H as [a t [C P]|a t H [C P]]; split; auto. Qed.

Lemma to_format_c : forall T (t0 : T) v g, gen_wf g ->
  match to_format v g with
  | ROk b => exists g', to_generic t0 v b = ROk g' /\ kept v g g'
  | RThrow => ~ fits v g
  | RUB => nan_bound v g
  end.
Proof.
  intros T t0 v g (WN & WT & WF & WC & WL & WM & WB & WE & WD & WS). unfold to_format, fits, nan_bound, kept.
  pose proof (rmap_conv _ _ _ _ _ _ _ _ WN (node_c v)) as CN.
  pose proof (rmap_conv _ _ _ _ _ _ _ _ WF (face_c v)) as CF.
  pose proof (rmap_conv _ _ _ _ _ _ _ _ WM (index_c v)) as CM.
  pose proof (rmap_conv _ _ _ _ _ _ _ _ WE (edge_c v)) as CE.
  destruct (is_q2 v) eqn:Q.
  - pose proof (rmap_conv _ _ _ _ _ _ _ _ WL (fun l => q2leaf_c v l Q)) as CL.
    pose proof (rmap_conv _ _ _ _ _ _ _ _ WB (index_c v)) as CB.
    pose proof (rmap_conv _ _ _ _ _ _ _ _ WS (side_c v)) as CS.
    destruct (q2_tex_c _ WT) as (ti & T1 & T2). destruct (q2_models_c _ WD) as (ms & D1 & D2).
    unfold q2_of_gen.
    run CN; [|intros X; tauto|apply Exists_and in CN; tauto]. rewrite T1. cbn [rbind].
    run CF; [|intros X; tauto|exfalso; exact (no_ex _ _ CF)].
    run CL; [|intros X; tauto|apply Exists_and in CL; tauto].
    run CM; [|intros X; unfold all in X; tauto|exfalso; exact (no_ex _ _ CM)].
    run CB; [|intros X; unfold all in X; tauto|exfalso; exact (no_ex _ _ CB)].
    run CE; [|intros X; unfold all in X; tauto|exfalso; exact (no_ex _ _ CE)].
    rewrite D1. cbn [rbind].
    run CS; [|intros X; tauto|exfalso; exact (no_ex _ _ CS)].
    eexists. split; [reflexivity|]. unfold gen_of_q2.
    cbn [g_ents g_planes g_tex g_verts g_vis g_nodes g_texinfo g_faces g_light g_clips g_leafs g_leaffaces g_leafbrushes g_edges g_surfedges g_models g_brushes g_sides g_areas g_areaportals
         b2_ents b2_planes b2_verts b2_vis b2_nodes b2_texinfo b2_faces b2_light b2_leafs b2_leaffaces b2_leafbrushes b2_edges b2_surfedges b2_models b2_brushes b2_sides b2_areas b2_areaportals].
    rewrite (F2_eq _ _ _ _ _ CF), (F2_same _ _ _ CM), (F2_same _ _ _ CB), (F2_same _ _ _ CE), (F2_same _ _ _ CS).
    split; [|split; [|split; [|split]]].
    + repeat match goal with |- _ = _ /\ _ => split; [reflexivity|] end. apply F2_map, CN.
    + repeat split.
    + apply F2_map, CL.
    + exact T2.
    + exact D2.
  - pose proof (rmap_conv _ _ _ _ _ _ _ _ WL (fun l => q1leaf_c v l Q)) as CL.
    pose proof (rmap_conv _ _ _ _ _ _ _ _ WC (clip_c v)) as CC.
    destruct (q1_tex_c _ WT) as (ti & T1 & T2). destruct (models_c v _ WD) as (ms & ms' & D1 & D2 & D3).
    unfold q1_of_gen.
    run CN; [|intros X; tauto|apply Exists_and in CN; tauto]. rewrite T1. cbn [rbind].
    run CF; [|intros X; tauto|exfalso; exact (no_ex _ _ CF)].
    run CC; [|intros X; tauto|exfalso; exact (no_ex _ _ CC)].
    run CL; [|intros X; tauto|apply Exists_and in CL; tauto].
    run CM; [|intros X; unfold all in X; tauto|exfalso; exact (no_ex _ _ CM)].
    run CE; [|intros X; unfold all in X; tauto|exfalso; exact (no_ex _ _ CE)].
    rewrite D1. cbn [rbind to_generic]. unfold gen_of_q1.
    cbn [b1_ents b1_planes b1_tex b1_verts b1_vis b1_nodes b1_texinfo b1_faces b1_light b1_clips b1_leafs b1_marks b1_edges b1_surfedges b1_models].
    rewrite D2. cbn [rbind]. eexists. split; [reflexivity|].
    cbn [g_ents g_planes g_tex g_verts g_vis g_nodes g_texinfo g_faces g_light g_clips g_leafs g_leaffaces g_leafbrushes g_edges g_surfedges g_models mv_bits].
    rewrite (F2_eq _ _ _ _ _ CF), (F2_eq _ _ _ _ _ CC), (F2_same _ _ _ CM), (F2_same _ _ _ CE).
    split; [|split; [|split; [|split]]].
    + repeat match goal with |- _ = _ /\ _ => split; [reflexivity|] end. apply F2_map, CN.
    + repeat split.
    + apply F2_map, CL.
    + exact T2.
    + exact D3.
Qed.
