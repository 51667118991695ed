(* Proofs about conversions of whole BSPs. *)
From Coq Require Import List Arith NArith ZArith Bool Lia.
Import ListNotations.
From Verif Require Import Base Codec NumCastModel NumCastProofs BspRecModel BspRecProofs BspConvProofs
  BspFileModel BspReadProofs BspTexProofs BspWriteProofs BspLoadProofs BspAcceptProofs ConvModel.
Local Open Scope Z_scope.

(** ** Lists *)
Lemma rmap_map : forall A B (f : B -> res A) (g : A -> B) (p : A -> bool) l, all p l ->
  (forall a, p a = true -> f (g a) = ROk a) -> rmap f (map g l) = ROk l.
Proof.
  intros A B f g p l H E. induction H as [|a t Ha Ht IH]; [reflexivity|].
  cbn [map rmap]. rewrite (E a Ha). cbn [rbind]. rewrite IH. reflexivity.
Qed.
Lemma rmap_ok : forall A (l : list A), rmap (@ROk A) l = ROk l.
Proof. induction l as [|a t IH]; [reflexivity|]. cbn [rmap rbind]. rewrite IH. reflexivity. Qed.
Lemma rmap_id : forall A (f : A -> res A) (p : A -> bool) l, all p l ->
  (forall a, p a = true -> f a = ROk a) -> rmap f l = ROk l.
Proof.
  intros A f p l H E. induction H as [|a t Ha Ht IH]; [reflexivity|].
  cbn [rmap]. rewrite (E a Ha). cbn [rbind]. rewrite IH. reflexivity.
Qed.
Lemma rmap_ex : forall A B C (f : B -> res C) (g : A -> B) (h : C -> B) (p : A -> bool) l, all p l ->
  (forall a, p a = true -> exists c, f (g a) = ROk c /\ h c = g a) ->
  exists m, rmap f (map g l) = ROk m /\ map h m = map g l.
Proof.
  intros A B C f g h p l H E. induction H as [|a t Ha Ht (m & M1 & M2)]; [exists []; split; reflexivity|].
  destruct (E a Ha) as (c & C1 & C2). exists (c :: m). cbn [map rmap]. rewrite C1. cbn [rbind]. rewrite M1. cbn [rbind].
  split; [reflexivity|]. cbn [map]. rewrite C2, M2. reflexivity.
Qed.

(** ** Records that come from a format go back *)
Lemma it_sub : forall a b v, In a all_ity -> it_lo b <= it_lo a -> it_hi a <= it_hi b ->
  it_in a v = true -> it_in b v = true.
Proof. intros a b v _ L H I. unfold it_in in *. apply andb_true_iff in I. destruct I as [I1 I2].
  apply Z.leb_le in I1, I2. apply andb_true_iff. split; apply Z.leb_le; lia. Qed.
Ltac sub := match goal with H : it_in ?a ?v = true |- it_in ?b ?v = true =>
  first [exact H|apply (it_sub a b v); [in_ity|vm_compute; discriminate|vm_compute; discriminate|exact H]] end.

Lemma nc_ok : forall d s v, In d all_ity -> In s all_ity -> it_in s v = true -> it_in d v = true ->
  numeric_cast d s v = ROk v.
Proof. intros d s v D S A B. rewrite numeric_cast_exact by assumption. rewrite B. reflexivity. Qed.
Ltac ncok d s v := rewrite (nc_ok d s v ltac:(in_ity) ltac:(in_ity) ltac:(sub) ltac:(sub)); cbn [rbind].

Lemma fl_le_int : forall y z, fl_le (FFin y 0) (FFin z 0) = true -> y <= z.
Proof. intros y z H. unfold fl_le, dle in H. rewrite Z.min_id, Z.sub_diag, Z.pow_0_r in H. lia. Qed.
Lemma int_fl_le : forall y z, y <= z -> fl_le (FFin y 0) (FFin z 0) = true.
Proof. intros y z H. unfold fl_le, dle. rewrite Z.min_id, Z.sub_diag, Z.pow_0_r. lia. Qed.

Lemma mins_back : forall z, it_in i16 z = true -> mins_cast1 24 i16 (f32_val (Z.to_N (Z.of_N (f32_of_i16 z)))) = ROk z.
Proof.
  intros z I. destruct (fval_of16 z I) as [A B]. unfold fval in A, B.
  set (x := f32_val (Z.to_N (Z.of_N (f32_of_i16 z)))) in *.
  pose proof (mins_cast1_spec 24 i16 x i16_in) as H.
  destruct (mins_cast1 24 i16 x) as [y| |]; specialize (H ltac:(cbn; lia)).
  - destruct H as (I' & L & M). f_equal.
    pose proof (M z B) as M1. pose proof (fl_le_int _ _ (fl_le_trans _ _ _ L A)) as M2. lia.
  - exfalso. apply (H z I). split; [exact B|]. intros y Y. apply fl_le_int. exact (fl_le_trans _ _ _ Y A).
  - rewrite H in A. discriminate A.
Qed.
Lemma maxs_back : forall z, it_in i16 z = true -> maxs_cast1 24 i16 (f32_val (Z.to_N (Z.of_N (f32_of_i16 z)))) = ROk z.
Proof.
  intros z I. destruct (fval_of16 z I) as [A B]. unfold fval in A, B.
  set (x := f32_val (Z.to_N (Z.of_N (f32_of_i16 z)))) in *.
  pose proof (maxs_cast1_spec 24 i16 x i16_in) as H.
  destruct (maxs_cast1 24 i16 x) as [y| |]; specialize (H ltac:(cbn; lia)).
  - destruct H as (I' & L & M). f_equal.
    pose proof (M z A) as M1. pose proof (fl_le_int _ _ (fl_le_trans _ _ _ B L)) as M2. lia.
  - exfalso. apply (H z I). split; [exact A|]. intros y Y. apply fl_le_int. exact (fl_le_trans _ _ _ B Y).
  - rewrite H in A. discriminate A.
Qed.
Lemma mins16_back : forall v, vwf i16 v = true -> mins16 (vec_of16 v) = ROk v.
Proof.
  intros [x y z] W. unfold vwf in W. cbn [vx vy vz] in W. split_wf W.
  unfold mins16, vec_of16. cbn [vx vy vz]. rewrite !mins_back by assumption. reflexivity.
Qed.
Lemma maxs16_back : forall v, vwf i16 v = true -> maxs16 (vec_of16 v) = ROk v.
Proof.
  intros [x y z] W. unfold vwf in W. cbn [vx vy vz] in W. split_wf W.
  unfold maxs16, vec_of16. cbn [vx vy vz]. rewrite !maxs_back by assumption. reflexivity.
Qed.

Lemma node_back : forall v n, node_ok v n = true -> fmt_node v (gen_node v n) = ROk n.
Proof.
  intros v [p c0 c1 mn mx ff nf] W.
  destruct v; cbn [node_ok fmt_node gen_node] in *; try reflexivity;
    unfold node_wf in W; cbn [n_plane n_c0 n_c1 n_mn n_mx n_ff n_nf] in W; split_wf W;
    unfold to_bsp29_node, to_rmq_node, to_q2_node, of_node16; cbn [n_plane n_c0 n_c1 n_mn n_mx n_ff n_nf];
    repeat match goal with
    | |- context [numeric_cast ?d ?s ?x] => rewrite (nc_ok d s x ltac:(in_ity) ltac:(in_ity) ltac:(sub) ltac:(sub)); cbn [rbind]
    | |- context [mins16 (vec_of16 ?x)] => rewrite (mins16_back x) by assumption; cbn [rbind]
    | |- context [maxs16 (vec_of16 ?x)] => rewrite (maxs16_back x) by assumption; cbn [rbind]
    end; reflexivity.
Qed.

Lemma face_back : forall v f, face_ok v f = true -> fmt_face v (of_face f) = ROk f.
Proof.
  intros v [p s fe ne t s0 s1 s2 s3 lo] W.
  destruct v; cbn [face_ok fmt_face] in *; unfold of_face;
    unfold face_wf in W; cbn [f_plane f_side f_fe f_ne f_tex f_s0 f_s1 f_s2 f_s3 f_lo] in W; split_wf W;
    unfold to_bsp29_face, to_q2_face, to_bsp2_face, to_qbism_face, to_face, to_face32;
    cbn [f_plane f_side f_fe f_ne f_tex f_s0 f_s1 f_s2 f_s3 f_lo];
    repeat match goal with
    | |- context [numeric_cast ?d ?s ?x] => rewrite (nc_ok d s x ltac:(in_ity) ltac:(in_ity) ltac:(sub) ltac:(sub)); cbn [rbind]
    end; reflexivity.
Qed.

Lemma clip_back : forall v c, clipn_ok v c = true -> fmt_clip v (gen_clip v c) = ROk c.
Proof.
  intros v [p a b] W.
  destruct v; cbn [clipn_ok fmt_clip gen_clip] in *; try reflexivity;
    unfold clip_wf in W; cbn [cn_plane cn_c0 cn_c1] in W; split_wf W;
    unfold to_bsp29_clip, of_bsp29_clip; cbn [cn_plane cn_c0 cn_c1]; rewrite !up_down16 by assumption; reflexivity.
Qed.

Lemma q1leaf_back : forall v l, is_q2 v = false -> q1leaf_ok v l = true -> fmt_q1leaf v (gen_q1leaf v l) = ROk l.
Proof.
  intros v [c vo mn mx fm nm a0 a1 a2 a3] Q W.
  destruct v; try discriminate Q; cbn [q1leaf_ok fmt_q1leaf gen_q1leaf] in *; try reflexivity;
    unfold q1leaf_wf in W; cbn [q1_contents q1_visofs q1_mn q1_mx q1_fm q1_nm q1_a0 q1_a1 q1_a2 q1_a3] in W; split_wf W;
    unfold to_bsp29_leaf, to_rmq_leaf, of_q1leaf16;
    cbn [q1_contents q1_visofs q1_mn q1_mx q1_fm q1_nm q1_a0 q1_a1 q1_a2 q1_a3 l_contents l_visofs l_mn l_mx l_fm l_nm l_a0 l_a1 l_a2 l_a3];
    repeat match goal with
    | |- context [numeric_cast ?d ?s ?x] => rewrite (nc_ok d s x ltac:(in_ity) ltac:(in_ity) ltac:(sub) ltac:(sub)); cbn [rbind]
    | |- context [mins16 (vec_of16 ?x)] => rewrite (mins16_back x) by assumption; cbn [rbind]
    | |- context [maxs16 (vec_of16 ?x)] => rewrite (maxs16_back x) by assumption; cbn [rbind]
    end; reflexivity.
Qed.

Lemma q2leaf_back : forall v l, is_q2 v = true -> q2leaf_ok v l = true -> fmt_q2leaf v (gen_q2leaf v l) = ROk l.
Proof.
  intros v [c cl ar mn mx fl nl fb nb] Q W.
  destruct v; try discriminate Q; cbn [q2leaf_ok fmt_q2leaf gen_q2leaf] in *; try reflexivity;
    unfold q2leaf_wf in W; cbn [q2_contents q2_cluster q2_area q2_mn q2_mx q2_fl q2_nl q2_fb q2_nb] in W; split_wf W;
    unfold to_q2_leaf, of_q2_leaf;
    cbn [q2_contents q2_cluster q2_area q2_mn q2_mx q2_fl q2_nl q2_fb q2_nb l_contents l_cluster l_area l_mn l_mx l_fm l_nm l_fb l_nb];
    repeat match goal with
    | |- context [numeric_cast ?d ?s ?x] => rewrite (nc_ok d s x ltac:(in_ity) ltac:(in_ity) ltac:(sub) ltac:(sub)); cbn [rbind]
    | |- context [mins16 (vec_of16 ?x)] => rewrite (mins16_back x) by assumption; cbn [rbind]
    end; reflexivity.
Qed.

Lemma index_back : forall v z, it_in (idx_ty v) z = true -> fmt_index v z = ROk z.
Proof.
  intros v z W. unfold fmt_index, idx_ty in *. destruct (v_wide v); [reflexivity|].
  unfold to_index16. rewrite (nc_ok u16 u32 z ltac:(in_ity) ltac:(in_ity) ltac:(sub) ltac:(sub)). reflexivity.
Qed.
Lemma edge_back : forall v e, edge_wf (idx_ty v) e = true -> fmt_edge v e = ROk e.
Proof.
  intros v [a b] W. unfold fmt_edge, idx_ty in *. destruct (v_wide v); [reflexivity|].
  unfold edge_wf in W. cbn [e_0 e_1] in W. split_wf W. unfold to_edge16. cbn [e_0 e_1].
  ncok u16 u32 a. ncok u16 u32 b. reflexivity.
Qed.
Lemma side_back : forall v s, sides_ok v s = true -> fmt_side v s = ROk s.
Proof.
  intros v [p t] W. destruct v; cbn [sides_ok fmt_side] in *; try reflexivity.
  unfold side_wf in W. cbn [bs_plane bs_tex] in W. split_wf W. unfold to_q2_side. cbn [bs_plane bs_tex].
  ncok u16 u32 p. ncok i16 i32 t. reflexivity.
Qed.
Lemma model_there : forall v m, models_ok v m = true ->
  exists m', gen_model v m = ROk m' /\ models_ok VH2 m' = true /\ fmt_model v m' = ROk m.
Proof.
  intros v m W. unfold models_ok, gen_model, fmt_model in *. destruct (is_h2 v).
  - exists m. auto.
  - destruct m as [mn mx org hd vi ff nf]. unfold model_wf in *. cbn [is_h2].
    cbn [dm_mn dm_mx dm_org dm_head dm_vis dm_ff dm_nf] in *. split_wf W.
    assert (L : length hd = 4%nat) by (apply Nat.eqb_eq; assumption).
    unfold of_q1_model. cbn [dm_mn dm_mx dm_org dm_head dm_vis dm_ff dm_nf].
    rewrite array_cast_id by assumption. rewrite (firstn_all2 hd) by lia. rewrite L. cbn [rbind]. change (8 - 4)%nat with 4%nat.
    eexists. split; [reflexivity|]. cbn [dm_mn dm_mx dm_org dm_head dm_vis dm_ff dm_nf].
    assert (A8 : all_in i32 (hd ++ repeat 0 4) = true).
    { unfold all_in in *. rewrite forallb_app. apply andb_true_iff. split; [assumption|reflexivity]. }
    split.
    + rewrite A8, app_length, L. cbn [repeat length Nat.add Nat.eqb].
      repeat match goal with H : _ = true |- _ => rewrite H; clear H end. reflexivity.
    + unfold to_q1_model. cbn [dm_mn dm_mx dm_org dm_head dm_vis dm_ff dm_nf].
      rewrite array_cast_id by assumption.
      rewrite app_length, L. cbn [repeat length Nat.add]. change (4 - 8)%nat with 0%nat. cbn [repeat rbind]. rewrite app_nil_r.
      rewrite firstn_app, L. change (4 - 4)%nat with 0%nat. rewrite firstn_O, app_nil_r, (firstn_all2 hd) by lia. reflexivity.
Qed.
Lemma models_there : forall v l, all (models_ok v) l ->
  exists l', rmap (gen_model v) l = ROk l' /\ all (models_ok VH2) l' /\ rmap (fmt_model v) l' = ROk l.
Proof.
  intros v l H. induction H as [|m t Hm Ht (t' & A & B & C)]; [exists []; split; [reflexivity|split; [constructor|reflexivity]]|].
  destruct (model_there v m Hm) as (m' & M1 & M2 & M3). exists (m' :: t').
  cbn [rmap]. rewrite M1, A, M3, C. split; [reflexivity|]. split; [constructor; assumption|reflexivity].
Qed.

(** ** Whole BSPs *)

(** The integer members have values of the types of the format. *)
Definition in_range {T} (v : ver) (b : bspv T) : Prop :=
  match b with
  | B1 b => is_q2 v = false /\
      all (node_ok v) (b1_nodes b) /\ all (face_ok v) (b1_faces b) /\ all (clipn_ok v) (b1_clips b) /\
      all (q1leaf_ok v) (b1_leafs b) /\ all (it_in (idx_ty v)) (b1_marks b) /\
      all (edge_wf (idx_ty v)) (b1_edges b) /\ all (models_ok v) (b1_models b)
  | B2 b => is_q2 v = true /\
      all (node_ok v) (b2_nodes b) /\ all (face_ok v) (b2_faces b) /\ all (q2leaf_ok v) (b2_leafs b) /\
      all (it_in (idx_ty v)) (b2_leaffaces b) /\ all (it_in (idx_ty v)) (b2_leafbrushes b) /\
      all (edge_wf (idx_ty v)) (b2_edges b) /\ all (sides_ok v) (b2_sides b)
  end.

Lemma tex1_back : forall t, to_q1_tex (of_q1_tex t) = ROk t. Proof. intros []; reflexivity. Qed.
Lemma tex2_back : forall t, to_q2_tex (of_q2_tex t) = ROk t. Proof. intros []; reflexivity. Qed.
Lemma model2_back : forall m, to_q2_model (of_q2_model m) = ROk m. Proof. intros []; reflexivity. Qed.
Lemma all_true : forall A (l : list A), all (fun _ => true) l.
Proof. intros A l. apply Forall_forall. reflexivity. Qed.

Lemma format_back : forall T (t0 : T) v b, in_range v b ->
  exists g, to_generic t0 v b = ROk g /\ to_format v g = ROk b.
Proof.
  intros T t0 v [b|b] H; cbn [in_range] in H.
  - destruct H as (Q & HN & HF & HC & HL & HM & HE & HD).
    destruct (models_there v _ HD) as (ms & D1 & _ & D2).
    cbn [to_generic]. unfold gen_of_q1. rewrite D1. cbn [rbind]. eexists. split; [reflexivity|].
    unfold to_format. rewrite Q. unfold q1_of_gen.
    cbn [g_ents g_planes g_tex g_verts g_vis g_nodes g_texinfo g_faces g_light g_clips g_leafs g_leaffaces g_leafbrushes g_edges g_surfedges g_models mv_bits].
    rewrite (rmap_map _ _ _ _ _ _ HN (node_back v)). cbn [rbind].
    rewrite (rmap_map _ _ to_q1_tex of_q1_tex (fun _ => true) _ (all_true _ _) (fun t _ => tex1_back t)). cbn [rbind].
    rewrite (rmap_map _ _ _ _ _ _ HF (face_back v)). cbn [rbind].
    rewrite (rmap_map _ _ _ _ _ _ HC (clip_back v)). cbn [rbind].
    rewrite (rmap_map _ _ _ _ _ _ HL (fun l => q1leaf_back v l Q)). cbn [rbind].
    rewrite (rmap_id _ _ _ _ HM (index_back v)). cbn [rbind].
    rewrite (rmap_id _ _ _ _ HE (edge_back v)). cbn [rbind].
    rewrite D2. cbn [rbind]. destruct b; reflexivity.
  - destruct H as (Q & HN & HF & HL & HM & HB & HE & HS).
    cbn [to_generic]. eexists. split; [reflexivity|]. unfold to_format. rewrite Q. unfold q2_of_gen, gen_of_q2.
    cbn [g_ents g_planes g_tex g_verts g_vis g_nodes g_texinfo g_faces g_light g_clips g_leafs g_leaffaces g_leafbrushes g_edges g_surfedges g_models g_brushes g_sides g_areas g_areaportals].
    rewrite (rmap_map _ _ _ _ _ _ HN (node_back v)). cbn [rbind].
    rewrite (rmap_map _ _ to_q2_tex of_q2_tex (fun _ => true) _ (all_true _ _) (fun t _ => tex2_back t)). cbn [rbind].
    rewrite (rmap_map _ _ _ _ _ _ HF (face_back v)). cbn [rbind].
    rewrite (rmap_map _ _ _ _ _ _ HL (fun l => q2leaf_back v l Q)). cbn [rbind].
    rewrite (rmap_id _ _ _ _ HM (index_back v)). cbn [rbind].
    rewrite (rmap_id _ _ _ _ HB (index_back v)). cbn [rbind].
    rewrite (rmap_id _ _ _ _ HE (edge_back v)). cbn [rbind].
    rewrite (rmap_map _ _ to_q2_model of_q2_model (fun _ => true) _ (all_true _ _) (fun t _ => model2_back t)). cbn [rbind].
    rewrite (rmap_id _ _ _ _ HS (side_back v)). cbn [rbind]. destruct b; reflexivity.
Qed.

(** ** From a format to a wider one of the same game *)

(** 16-bit, 32-bit with 16-bit bounds, 32-bit. *)
Definition width (v : ver) : nat :=
  match v with VQ1 | VH2 | VHl | VQ2 => 0 | VRmq | VH2Rmq => 1 | VBsp2 | VH2Bsp2 | VQbism => 2 end%nat.
(** [w] has every record type of [v] at least as wide: the same family, at least as many head
    nodes. *)
Definition wider (v w : ver) : Prop :=
  is_q2 v = is_q2 w /\ (is_h2 v = true -> is_h2 w = true) /\ (width v <= width w)%nat.

Ltac vers v w W := destruct W as (W1 & W2 & W3);
  destruct v, w; try discriminate W1; try (exfalso; cbn [width] in W3; lia); try (specialize (W2 eq_refl); discriminate W2).
Ltac widen := match goal with H : it_in _ _ = true |- context [it_in ?b ?x] =>
  let K := fresh in assert (K : it_in b x = true) by sub; rewrite K; clear K end.

Lemma node_wide : forall v w n, wider v w -> node_ok v n = true ->
  exists n', fmt_node w (gen_node v n) = ROk n' /\ gen_node w n' = gen_node v n.
Proof.
  intros v w n W K.
  assert (H : width w = 2%nat \/ (gen_node v = gen_node w /\ node_ok w n = true)).
  { vers v w W; try (left; reflexivity); right; (split; [reflexivity|]); cbn [node_ok] in *; try exact K;
      unfold node_wf in *; split_wf K; repeat match goal with H : vwf _ _ = true |- _ => rewrite H; clear H end;
      repeat widen; reflexivity. }
  destruct H as [H|[H1 H2]].
  - exists (gen_node v n). destruct w; try discriminate H; split; reflexivity.
  - exists n. rewrite H1. split; [apply node_back; assumption|reflexivity].
Qed.
Lemma face_wide : forall v w f, wider v w -> face_ok v f = true -> face_ok w f = true.
Proof.
  intros v w f W K. vers v w W; cbn [face_ok] in *; try exact K; unfold face_wf in *; split_wf K;
    repeat widen; reflexivity.
Qed.
Lemma clip_wide : forall v w c, wider v w -> clipn_ok v c = true ->
  exists c', fmt_clip w (gen_clip v c) = ROk c' /\ gen_clip w c' = gen_clip v c.
Proof.
  intros v w c W K.
  assert (H : fmt_clip w = @ROk clipnode /\ gen_clip w = (fun c => c) \/ gen_clip v = gen_clip w /\ clipn_ok w c = true).
  { vers v w W; try (left; split; reflexivity); right; (split; [reflexivity|]); exact K. }
  destruct H as [[H1 H2]|[H1 H2]].
  - exists (gen_clip v c). rewrite H1, H2. split; reflexivity.
  - exists c. rewrite H1. split; [apply clip_back; assumption|reflexivity].
Qed.
Lemma q1leaf_wide : forall v w l, is_q2 v = false -> wider v w -> q1leaf_ok v l = true ->
  exists l', fmt_q1leaf w (gen_q1leaf v l) = ROk l' /\ gen_q1leaf w l' = gen_q1leaf v l.
Proof.
  intros v w l Q W K. assert (Q' : is_q2 w = false) by (destruct W as [W _]; congruence).
  assert (H : width w = 2%nat \/ (gen_q1leaf v = gen_q1leaf w /\ q1leaf_ok w l = true)).
  { vers v w W; try discriminate Q; try (left; reflexivity); right; (split; [reflexivity|]); cbn [q1leaf_ok] in *; try exact K;
      unfold q1leaf_wf in *; split_wf K; repeat match goal with H : vwf _ _ = true |- _ => rewrite H; clear H end;
      repeat widen; reflexivity. }
  destruct H as [H|[H1 H2]].
  - destruct w; try discriminate H; try discriminate Q'; cbn [fmt_q1leaf gen_q1leaf]; eexists; (split; [reflexivity|]);
      destruct v; try discriminate Q; reflexivity.
  - exists l. rewrite H1. split; [apply q1leaf_back; assumption|reflexivity].
Qed.
Lemma q2leaf_wide : forall v w l, is_q2 v = true -> wider v w -> q2leaf_ok v l = true ->
  exists l', fmt_q2leaf w (gen_q2leaf v l) = ROk l' /\ gen_q2leaf w l' = gen_q2leaf v l.
Proof.
  intros v w l Q W K. vers v w W; try discriminate Q.
  - exists l. split; [apply q2leaf_back; [reflexivity|exact K]|reflexivity].
  - eexists. split; reflexivity.
  - exists l. split; [apply q2leaf_back; [reflexivity|exact K]|reflexivity].
Qed.
Lemma idx_wide : forall v w z, wider v w -> it_in (idx_ty v) z = true -> it_in (idx_ty w) z = true.
Proof. intros v w z W K. vers v w W; cbn [idx_ty v_wide] in *; unfold idx_ty in *; cbn [v_wide] in *; sub. Qed.
Lemma edge_wide : forall v w e, wider v w -> edge_wf (idx_ty v) e = true -> edge_wf (idx_ty w) e = true.
Proof.
  intros v w e W K. unfold edge_wf in *. apply andb_true_iff in K. destruct K as [K1 K2].
  rewrite (idx_wide v w _ W K1), (idx_wide v w _ W K2). reflexivity.
Qed.
Lemma side_wide : forall v w s, is_q2 v = true -> wider v w -> sides_ok v s = true -> sides_ok w s = true.
Proof.
  intros v w s Q W K. vers v w W; try discriminate Q; cbn [sides_ok] in *; try exact K.
  unfold side_wf in *. split_wf K. repeat widen. reflexivity.
Qed.
Lemma model_wide : forall v w m m', (is_h2 v = true -> is_h2 w = true) -> models_ok v m = true -> gen_model v m = ROk m' ->
  exists r, fmt_model w m' = ROk r /\ gen_model w r = ROk m'.
Proof.
  intros v w m m' W K E. destruct (model_there v m K) as (m2 & E2 & K2 & _). rewrite E in E2. injection E2 as <-.
  unfold fmt_model, gen_model in *. destruct (is_h2 w); [exists m'; split; reflexivity|].
  destruct (is_h2 v) eqn:V; [discriminate (W eq_refl)|].
  exists m. unfold gen_model in E. destruct (model_there v m K) as (m3 & E3 & _ & F3). unfold gen_model, fmt_model in E3, F3.
  rewrite V in E3, F3. rewrite E in E3. injection E3 as <-. split; assumption.
Qed.
Lemma models_wide : forall v w l l', (is_h2 v = true -> is_h2 w = true) -> all (models_ok v) l -> rmap (gen_model v) l = ROk l' ->
  exists r, rmap (fmt_model w) l' = ROk r /\ rmap (gen_model w) r = ROk l'.
Proof.
  intros v w l l' W H. revert l'. induction H as [|m t Hm Ht IH]; intros l' E.
  - injection E as <-. exists []. split; reflexivity.
  - cbn [rmap] in E. apply rbind_ok in E. destruct E as (m' & E1 & E). apply rbind_ok in E. destruct E as (t' & E2 & E).
    injection E as <-. destruct (IH t' E2) as (r & R1 & R2). destruct (model_wide v w m m' W Hm E1) as (r0 & A & B).
    exists (r0 :: r). cbn [rmap]. rewrite A, R1, B, R2. split; reflexivity.
Qed.
Lemma all_imp : forall A (p q : A -> bool) l, (forall a, p a = true -> q a = true) -> all p l -> all q l.
Proof. intros A p q l H F. unfold all in *. rewrite Forall_forall in *. auto. Qed.

Lemma format_wider : forall T (t0 : T) v w b, in_range v b -> wider v w ->
  exists g b', to_generic t0 v b = ROk g /\ to_format w g = ROk b' /\ to_generic t0 w b' = ROk g.
Proof.
  intros T t0 v w [b|b] H W; cbn [in_range] in H.
  - destruct H as (Q & HN & HF & HC & HL & HM & HE & HD).
    assert (Q' : is_q2 w = false) by (destruct W as [W _]; congruence).
    destruct (models_there v _ HD) as (ms & D1 & _ & _).
    destruct (models_wide v w _ _ (proj1 (proj2 W)) HD D1) as (rs & D2 & D3).
    destruct (rmap_ex _ _ _ (fmt_node w) (gen_node v) (gen_node w) _ _ HN (fun n => node_wide v w n W)) as (ns & N1 & N2).
    destruct (rmap_ex _ _ _ (fmt_clip w) (gen_clip v) (gen_clip w) _ _ HC (fun n => clip_wide v w n W)) as (cs & C1 & C2).
    destruct (rmap_ex _ _ _ (fmt_q1leaf w) (gen_q1leaf v) (gen_q1leaf w) _ _ HL (fun n => q1leaf_wide v w n Q W)) as (ls & L1 & L2).
    assert (HF' : all (face_ok w) (b1_faces b)) by (revert HF; apply all_imp; intros; eapply face_wide; eassumption).
    assert (HM' : all (it_in (idx_ty w)) (b1_marks b)) by (revert HM; apply all_imp; intros; eapply idx_wide; eassumption).
    assert (HE' : all (edge_wf (idx_ty w)) (b1_edges b)) by (revert HE; apply all_imp; intros; eapply edge_wide; eassumption).
    cbn [to_generic]. unfold gen_of_q1 at 1. rewrite D1. cbn [rbind]. eexists. eexists. split; [reflexivity|].
    unfold to_format. rewrite Q'. unfold q1_of_gen.
    cbn [g_ents g_planes g_tex g_verts g_vis g_nodes g_texinfo g_faces g_light g_clips g_leafs g_leaffaces g_leafbrushes g_edges g_surfedges g_models mv_bits].
    rewrite N1. cbn [rbind].
    rewrite (rmap_map _ _ to_q1_tex of_q1_tex (fun _ => true) _ (all_true _ _) (fun t _ => tex1_back t)). cbn [rbind].
    rewrite (rmap_map _ _ _ _ _ _ HF' (face_back w)). cbn [rbind].
    rewrite C1. cbn [rbind]. rewrite L1. cbn [rbind].
    rewrite (rmap_id _ _ _ _ HM' (index_back w)). cbn [rbind].
    rewrite (rmap_id _ _ _ _ HE' (edge_back w)). cbn [rbind].
    rewrite D2. cbn [rbind]. split; [reflexivity|].
    cbn [to_generic]. unfold gen_of_q1. cbn [b1_ents b1_planes b1_tex b1_verts b1_vis b1_nodes b1_texinfo b1_faces b1_light b1_clips b1_leafs b1_marks b1_edges b1_surfedges b1_models].
    rewrite D3. cbn [rbind]. rewrite N2, C2, L2. reflexivity.
  - destruct H as (Q & HN & HF & HL & HM & HB & HE & HS).
    assert (Q' : is_q2 w = true) by (destruct W as [W _]; congruence).
    destruct (rmap_ex _ _ _ (fmt_node w) (gen_node v) (gen_node w) _ _ HN (fun n => node_wide v w n W)) as (ns & N1 & N2).
    destruct (rmap_ex _ _ _ (fmt_q2leaf w) (gen_q2leaf v) (gen_q2leaf w) _ _ HL (fun n => q2leaf_wide v w n Q W)) as (ls & L1 & L2).
    assert (HF' : all (face_ok w) (b2_faces b)) by (revert HF; apply all_imp; intros; eapply face_wide; eassumption).
    assert (HM' : all (it_in (idx_ty w)) (b2_leaffaces b)) by (revert HM; apply all_imp; intros; eapply idx_wide; eassumption).
    assert (HB' : all (it_in (idx_ty w)) (b2_leafbrushes b)) by (revert HB; apply all_imp; intros; eapply idx_wide; eassumption).
    assert (HE' : all (edge_wf (idx_ty w)) (b2_edges b)) by (revert HE; apply all_imp; intros; eapply edge_wide; eassumption).
    assert (HS' : all (sides_ok w) (b2_sides b)) by (revert HS; apply all_imp; intros; apply (side_wide v w _ Q W); assumption).
    cbn [to_generic]. unfold gen_of_q2 at 1. eexists. eexists. split; [reflexivity|].
    unfold to_format. rewrite Q'. unfold q2_of_gen.
    cbn [g_ents g_planes g_tex g_verts g_vis g_nodes g_texinfo g_faces g_light g_clips g_leafs g_leaffaces g_leafbrushes g_edges g_surfedges g_models g_brushes g_sides g_areas g_areaportals].
    rewrite N1. cbn [rbind].
    rewrite (rmap_map _ _ to_q2_tex of_q2_tex (fun _ => true) _ (all_true _ _) (fun t _ => tex2_back t)). cbn [rbind].
    rewrite (rmap_map _ _ _ _ _ _ HF' (face_back w)). cbn [rbind].
    rewrite L1. cbn [rbind].
    rewrite (rmap_id _ _ _ _ HM' (index_back w)). cbn [rbind].
    rewrite (rmap_id _ _ _ _ HB' (index_back w)). cbn [rbind].
    rewrite (rmap_id _ _ _ _ HE' (edge_back w)). cbn [rbind].
    rewrite (rmap_map _ _ to_q2_model of_q2_model (fun _ => true) _ (all_true _ _) (fun t _ => model2_back t)). cbn [rbind].
    rewrite (rmap_id _ _ _ _ HS' (side_back w)). cbn [rbind]. split; [reflexivity|].
    cbn [to_generic]. unfold gen_of_q2. cbn [b2_ents b2_planes b2_verts b2_vis b2_nodes b2_texinfo b2_faces b2_light b2_leafs b2_leaffaces b2_leafbrushes b2_edges b2_surfedges b2_models b2_brushes b2_sides b2_areas b2_areaportals].
    rewrite N2, L2. reflexivity.
Qed.
