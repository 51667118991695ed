(* C35-C39: checked conversions and the records of the BSP formats. *)
From Coq Require Import List Arith NArith ZArith Bool Lia.
Import ListNotations.
From Verif Require Import Base Codec NumCastModel NumCastProofs BspRecModel BspRecProofs BspConvProofs.
Local Open Scope Z_scope.

(** ** C35 *)

(** For every pair of integer types and every value of the source type, numeric_cast returns the
    same mathematical value if the destination can hold it and throws otherwise. *)
Theorem C35_integer_cast : forall dst src v,
  In dst [i8; u8; i16; u16; i32; u32; i64; u64] -> In src [i8; u8; i16; u16; i32; u32; i64; u64] ->
  it_lo src <= v <= it_hi src ->
  numeric_cast dst src v = if (it_lo dst <=? v) && (v <=? it_hi dst) then ROk v else RThrow.
Proof. intros. apply numeric_cast_exact; auto. unfold it_in. lia. Qed.
Print Assumptions C35_integer_cast.

(** -1 does not become 4294967295, and the top of uint64 does not become -1. *)
Example C35_nontrivial :
  numeric_cast u32 i32 (-1) = RThrow /\ numeric_cast i32 u64 18446744073709551615 = RThrow /\
  numeric_cast i16 i64 (-32768) = ROk (-32768) /\ numeric_cast i16 i64 (-32769) = RThrow /\
  it_wrap u32 (-1) = 4294967295.
Proof. vm_compute. repeat split; reflexivity. Qed.

(** ** C36 *)

(** From a floating type with [p] significand bits to an integer type of at most [p] bits, every
    value but NaN is converted to its truncation when it lies in the destination's range, and
    refused otherwise.  Missing for the full claim: NaN, and wider destinations (both refuted
    below). *)
Theorem C36_float_cast_partial : forall p t x, In t [i8; u8; i16; u16; i32; u32; i64; u64] ->
  it_bits t <= p -> x <> FNaN ->
  match f_numeric_cast p t x with
  | ROk z => fl_le (FFin (it_lo t) 0) x = true /\ fl_le x (FFin (it_hi t) 0) = true /\
             exists m e, x = FFin m e /\ z = dtrunc m e /\ it_lo t <= z <= it_hi t
  | RThrow => fl_le (FFin (it_lo t) 0) x = false \/ fl_le x (FFin (it_hi t) 0) = false
  | RUB => False
  end.
Proof.
  intros p t x T L N. destruct (f_numeric_cast_exact p t x T L N) as [A B].
  destruct (f_in t x) eqn:F.
  - destruct (A eq_refl) as (m & e & E1 & E2 & E3). rewrite E3. unfold f_in in F. apply andb_true_iff in F.
    destruct F as [F1 F2]. split; [assumption|]. split; [assumption|].
    exists m, e. split; [assumption|]. split; [reflexivity|]. unfold it_in in E2. lia.
  - rewrite (B eq_refl). unfold f_in in F. apply andb_false_iff in F. assumption.
Qed.
Print Assumptions C36_float_cast_partial.

(** Rounding of bounds to 16 bits: outwards, to the nearest integer, and never undefined unless
    the coordinate is NaN. *)
Theorem C36_bounds_cast_partial : forall x : fl,
  match mins_cast1 24 i16 x with
  | ROk z => -32768 <= z <= 32767 /\ fl_le (FFin z 0) x = true /\ (forall y, fl_le (FFin y 0) x = true -> y <= z)
  | RThrow => forall z, -32768 <= z <= 32767 ->
      ~ (fl_le (FFin z 0) x = true /\ (forall y, fl_le (FFin y 0) x = true -> y <= z))
  | RUB => x = FNaN
  end /\
  match maxs_cast1 24 i16 x with
  | ROk z => -32768 <= z <= 32767 /\ fl_le x (FFin z 0) = true /\ (forall y, fl_le x (FFin y 0) = true -> z <= y)
  | RThrow => forall z, -32768 <= z <= 32767 ->
      ~ (fl_le x (FFin z 0) = true /\ (forall y, fl_le x (FFin y 0) = true -> z <= y))
  | RUB => x = FNaN
  end.
Proof.
  intros x. assert (B : it_bits i16 <= 24) by (cbn; lia).
  assert (R : forall z, -32768 <= z <= 32767 -> it_in i16 z = true)
    by (intros z Hz; unfold it_in, it_lo, it_hi; cbn; lia).
  split.
  - pose proof (mins_cast1_spec 24 i16 x i16_in B) as H. destruct (mins_cast1 24 i16 x); [|auto|assumption].
    destruct H as (H1 & H2). split; [apply it_in_i16; assumption|assumption].
  - pose proof (maxs_cast1_spec 24 i16 x i16_in B) as H. destruct (maxs_cast1 24 i16 x); [|auto|assumption].
    destruct H as (H1 & H2). split; [apply it_in_i16; assumption|assumption].
Qed.
Print Assumptions C36_bounds_cast_partial.

(** NaN passes both comparisons, and 2147483648.0f passes the check against INT_MAX, which rounds
    up to it: both conversions are undefined. *)
Theorem C36_undefined_refuted :
  f_numeric_cast 24 i16 FNaN = RUB /\ f_numeric_cast 24 i32 (FFin 1 31) = RUB /\
  f_numeric_cast 24 u32 (FFin 1 32) = RUB /\ f_numeric_cast 53 i64 (FFin 1 63) = RUB.
Proof. vm_compute. repeat split; reflexivity. Qed.
Print Assumptions C36_undefined_refuted.

(** 32767.5 rounds up out of range as a maximum and down into range as a minimum; -0.25 is not an
    unsigned value although its truncation is. *)
Example C36_nontrivial :
  maxs_cast1 24 i16 (FFin 65535 (-1)) = RThrow /\ mins_cast1 24 i16 (FFin 65535 (-1)) = ROk 32767 /\
  mins_cast1 24 i16 (FFin (-1) (-2)) = ROk (-1) /\ maxs_cast1 24 i16 (FFin (-1) (-2)) = ROk 0 /\
  f_numeric_cast 53 u16 (FFin (-1) (-2)) = RThrow /\ f_numeric_cast 53 i32 (FFin 1 31) = RThrow.
Proof. vm_compute. repeat split; reflexivity. Qed.

(** ** C37 *)

(** Nodes: a conversion to a 16-bit-bounds format keeps every integer field and a bounding box
    around the original; it throws only if some field does not fit, and is undefined only on a
    NaN bound. *)
Theorem C37_nodes : node_conv_ok to_bsp29_node i16 u16 /\ node_conv_ok to_rmq_node i32 u32 /\
                    node_conv_ok to_q2_node i32 u16.
Proof. split; [exact bsp29_node_conv|]. split; [exact rmq_node_conv|exact q2_node_conv]. Qed.
Print Assumptions C37_nodes.

(** Faces of the four formats: converted back, the face is the original. *)
Theorem C37_faces : forall f, mface_wf f = true ->
  match to_bsp29_face f with
  | ROk f' => face_wf i16 i16 f' = true /\ of_face f' = f
  | RThrow => ~ (it_in i16 (f_plane f) = true /\ it_in i16 (f_side f) = true /\ it_in i16 (f_ne f) = true /\ it_in i16 (f_tex f) = true)
  | RUB => False end /\
  match to_q2_face f with
  | ROk f' => face_wf u16 i16 f' = true /\ of_face f' = f
  | RThrow => ~ (it_in u16 (f_plane f) = true /\ it_in i16 (f_side f) = true /\ it_in i16 (f_ne f) = true /\ it_in i16 (f_tex f) = true)
  | RUB => False end /\
  match to_bsp2_face f with
  | ROk f' => face_wf i32 i32 f' = true /\ of_face f' = f
  | RThrow => ~ it_in i32 (f_plane f) = true
  | RUB => False end /\
  match to_qbism_face f with
  | ROk f' => face_wf u32 i32 f' = true /\ of_face f' = f
  | RThrow => ~ it_in u32 (f_plane f) = true
  | RUB => False end.
Proof.
  intros f W. split; [apply face_conv; try in_ity; assumption|].
  split; [apply face_conv; try in_ity; assumption|].
  split; apply face32_conv; try in_ity; assumption.
Qed.
Print Assumptions C37_faces.

(** Quake leafs keep every Quake field; the box contains the original, or is the original in BSP2. *)
Theorem C37_q1_leafs : forall l, mleaf_wf l = true ->
  match to_bsp29_leaf l with
  | ROk r => q1leaf_wf i16 u16 r = true /\ leaf_q1_ints (of_q1leaf16 r) = leaf_q1_ints l /\ leaf_box (of_q1leaf16 r) l
  | RThrow => ~ (mins_fit (l_mn l) /\ maxs_fit (l_mx l) /\ it_in u16 (l_fm l) = true /\ it_in u16 (l_nm l) = true)
  | RUB => has_nan (l_mn l) \/ has_nan (l_mx l) end /\
  match to_rmq_leaf l with
  | ROk r => q1leaf_wf i16 u32 r = true /\ leaf_q1_ints (of_q1leaf16 r) = leaf_q1_ints l /\ leaf_box (of_q1leaf16 r) l
  | RThrow => ~ (mins_fit (l_mn l) /\ maxs_fit (l_mx l))
  | RUB => has_nan (l_mn l) \/ has_nan (l_mx l) end /\
  exists r, to_bsp2_leaf l = ROk r /\ q1leaf_wf f32 u32 r = true /\
    leaf_q1_ints (of_bsp2_leaf r) = leaf_q1_ints l /\ l_mn (of_bsp2_leaf r) = l_mn l /\ l_mx (of_bsp2_leaf r) = l_mx l.
Proof.
  intros l W. split; [apply bsp29_leaf_conv; assumption|]. split; [apply rmq_leaf_conv; assumption|].
  apply bsp2_leaf_conv; assumption.
Qed.
Print Assumptions C37_q1_leafs.

(** Quake II leafs keep every Quake II field.  The lower corner is rounded outwards; missing for
    the full claim: the upper corner, which is rounded inwards (refuted below). *)
Theorem C37_q2_leafs_partial : forall l, mleaf_wf l = true ->
  match to_q2_leaf l with
  | ROk r => q2leaf_wf i16 i16 u16 r = true /\ leaf_q2_ints (of_q2_leaf r) = leaf_q2_ints l /\
             vle (l_mn (of_q2_leaf r)) (l_mn l) /\ vle (l_mx (of_q2_leaf r)) (l_mx l)
  | RThrow => ~ (it_in i16 (l_cluster l) = true /\ it_in i16 (l_area l) = true /\ mins_fit (l_mn l) /\
                 mins_fit (l_mx l) /\ it_in u16 (l_fm l) = true /\ it_in u16 (l_nm l) = true /\
                 it_in u16 (l_fb l) = true /\ it_in u16 (l_nb l) = true)
  | RUB => has_nan (l_mn l) \/ has_nan (l_mx l) end /\
  exists r, to_qbism_leaf l = ROk r /\ q2leaf_wf i32 f32 u32 r = true /\
    leaf_q2_ints (of_qbism_leaf r) = leaf_q2_ints l /\ l_mn (of_qbism_leaf r) = l_mn l /\ l_mx (of_qbism_leaf r) = l_mx l.
Proof.
  intros l W. split; [apply q2_leaf_conv; assumption|apply qbism_leaf_conv; assumption].
Qed.
Print Assumptions C37_q2_leafs_partial.

(** 0x42c90000 is 100.5: the Quake II leaf's upper corner becomes 100, inside the original box. *)
Definition leaf_100_5 : mleaf :=
  mkLeaf 0 (-1) (mkV 0 0 0) (mkV 0x42c90000 0x42c90000 0x42c90000) 0 0 0 0 0 0 0 0 0 0.
Theorem C37_q2_leaf_box_refuted :
  mleaf_wf leaf_100_5 = true /\
  exists r, to_q2_leaf leaf_100_5 = ROk r /\ ~ leaf_box (of_q2_leaf r) leaf_100_5.
Proof.
  split; [vm_compute; reflexivity|]. eexists. split; [vm_compute; reflexivity|].
  intros [_ [H _]]. vm_compute in H. discriminate.
Qed.
Print Assumptions C37_q2_leaf_box_refuted.

(** Models, texinfos, brush sides, edges and index lists. Quake models keep four head nodes of
    eight and Quake II models the first; the other members are those of the original. *)
Theorem C37_others :
  (forall m, model_wf 8 m = true ->
     exists r m', to_q1_model m = ROk r /\ model_wf 4 r = true /\ of_q1_model r = ROk m' /\
       m' = mkModel (dm_mn m) (dm_mx m) (dm_org m) (firstn 4 (dm_head m) ++ [0; 0; 0; 0]) (dm_vis m) (dm_ff m) (dm_nf m)) /\
  (forall m, model_wf 8 m = true ->
     exists r, to_q2_model m = ROk r /\ q2model_wf r = true /\
       of_q2_model r = mkModel (dm_mn m) (dm_mx m) (dm_org m) (nth 0 (dm_head m) 0 :: repeat 0 7) 0 (dm_ff m) (dm_nf m)) /\
  (forall t, mtex_wf t = true ->
     exists r, to_q1_tex t = ROk r /\ q1tex_wf r = true /\ mt_vecs (of_q1_tex r) = mt_vecs t /\
       mt_flags (of_q1_tex r) = mt_flags t /\ mt_miptex (of_q1_tex r) = mt_miptex t) /\
  (forall t, mtex_wf t = true ->
     exists r, to_q2_tex t = ROk r /\ q2tex_wf r = true /\
       of_q2_tex r = mkMTex (mt_vecs t) (mt_flags t) (-1) (mt_value t) (mt_name t) (mt_next t)) /\
  (forall s, side_wf u32 i32 s = true ->
     match to_q2_side s with
     | ROk r => side_wf u16 i16 r = true /\ r = s
     | RThrow => ~ (it_in u16 (bs_plane s) = true /\ it_in i16 (bs_tex s) = true)
     | RUB => False end) /\
  (forall e, edge_wf u32 e = true ->
     match to_edge16 e with
     | ROk r => edge_wf u16 r = true /\ r = e | RThrow => ~ edge_wf u16 e = true | RUB => False end) /\
  (forall v, it_in u32 v = true ->
     match to_index16 v with
     | ROk r => it_in u16 r = true /\ r = v | RThrow => ~ it_in u16 v = true | RUB => False end).
Proof.
  split; [exact q1_model_conv|]. split; [exact q2_model_conv|]. split; [exact q1_tex_conv|].
  split; [exact q2_tex_conv|]. split; [exact q2_side_conv|]. split; [exact edge16_conv|exact index16_conv].
Qed.
Print Assumptions C37_others.

(** A node whose box is not integral: -0.5 .. 7.25 (patterns 0xbf000000, 0x40e80000). *)
Example C37_nontrivial :
  to_bsp29_node (mkNode 3 7 (-2) (mkV 0xbf000000 0 0) (mkV 0x40e80000 0 0x40e80000) 9 65535)
  = ROk (mkNode 3 7 (-2) (mkV (-1) 0 0) (mkV 8 0 8) 9 65535) /\
  to_bsp29_node (mkNode 3 40000 (-2) (mkV 0 0 0) (mkV 0 0 0) 9 1) = RThrow /\
  to_q2_node (mkNode 3 40000 (-2) (mkV 0 0 0) (mkV 0 0 0) 9 1) = ROk (mkNode 3 40000 (-2) (mkV 0 0 0) (mkV 0 0 0) 9 1) /\
  to_bsp29_node (mkNode 3 1 2 (mkV 0x7fc00000 0 0) (mkV 0 0 0) 9 1) = RUB.
Proof. vm_compute. repeat split; reflexivity. Qed.

(** ** C38 *)

(** Every 32-bit child is encoded in 16 bits and decoded to itself, or refused; it is refused
    exactly outside -15 .. 65520.  Every 16-bit pattern is the encoding of what it decodes to. *)
Theorem C38_clipnode_children :
  (forall v, it_in i32 v = true ->
     match downcast16 v with
     | ROk w => -32768 <= w <= 32767 /\ upcast16 w = v
     | RThrow => v < -15 \/ v > 0xFFF0
     | RUB => False end) /\
  (forall v, downcast16 v = RThrow <-> v < -15 \/ v > 0xFFF0) /\
  (forall w, -32768 <= w <= 32767 -> -15 <= upcast16 w <= 0xFFF0 /\ downcast16 (upcast16 w) = ROk w) /\
  (forall c, clip_wf i32 c = true ->
     match to_bsp29_clip c with
     | ROk r => clip_wf i16 r = true /\ of_bsp29_clip r = c
     | RThrow => ~ (-15 <= cn_c0 c <= 0xFFF0 /\ -15 <= cn_c1 c <= 0xFFF0)
     | RUB => False end).
Proof.
  assert (R : forall z, -32768 <= z <= 32767 -> it_in i16 z = true)
    by (intros z Hz; unfold it_in, it_lo, it_hi; cbn; lia).
  split; [|split; [|split]].
  - intros v I. pose proof (downcast16_spec v I) as H. destruct (downcast16 v); [|assumption|assumption].
    destruct H as [A B]. split; [apply it_in_i16; assumption|assumption].
  - exact downcast16_throws.
  - intros w Hw. split; [apply upcast16_range; auto|apply up_down16; auto].
  - exact bsp29_clip_conv.
Qed.
Print Assumptions C38_clipnode_children.

(** 40000 clip nodes use the negative half; contents -15 and node 65520 are neighbours. *)
Example C38_nontrivial :
  downcast16 40000 = ROk (-25536) /\ upcast16 (-25536) = 40000 /\
  downcast16 (-15) = ROk (-15) /\ downcast16 0xFFF0 = ROk (-16) /\ upcast16 (-16) = 0xFFF0 /\
  downcast16 (-16) = RThrow /\ downcast16 0xFFF1 = RThrow.
Proof. vm_compute. repeat split; reflexivity. Qed.

(** ** C39 *)

(** Every record type of every format: reading the bytes written, followed by anything, gives the
    record back and leaves exactly what followed. *)
Theorem C39_records_roundtrip :
  codec_ok (fun n => node_wf i16 i16 u16 n = true) (rc_put bsp29_node) (rc_get bsp29_node) /\
  codec_ok (fun n => node_wf i32 i16 u32 n = true) (rc_put rmq_node) (rc_get rmq_node) /\
  codec_ok (fun n => node_wf i32 i16 u16 n = true) (rc_put q2_node) (rc_get q2_node) /\
  codec_ok (fun n => node_wf i32 f32 u32 n = true) (rc_put bsp2_node) (rc_get bsp2_node) /\
  codec_ok (fun f => face_wf i16 i16 f = true) (rc_put bsp29_face) (rc_get bsp29_face) /\
  codec_ok (fun f => face_wf i32 i32 f = true) (rc_put bsp2_face) (rc_get bsp2_face) /\
  codec_ok (fun f => face_wf u16 i16 f = true) (rc_put q2_face) (rc_get q2_face) /\
  codec_ok (fun f => face_wf u32 i32 f = true) (rc_put qbism_face) (rc_get qbism_face) /\
  codec_ok (fun l => q1leaf_wf i16 u16 l = true) (rc_put bsp29_leaf) (rc_get bsp29_leaf) /\
  codec_ok (fun l => q1leaf_wf i16 u32 l = true) (rc_put rmq_leaf) (rc_get rmq_leaf) /\
  codec_ok (fun l => q1leaf_wf f32 u32 l = true) (rc_put bsp2_leaf) (rc_get bsp2_leaf) /\
  codec_ok (fun l => q2leaf_wf i16 i16 u16 l = true) (rc_put q2_leaf) (rc_get q2_leaf) /\
  codec_ok (fun l => q2leaf_wf i32 f32 u32 l = true) (rc_put qbism_leaf) (rc_get qbism_leaf) /\
  codec_ok (fun c => clip_wf i16 c = true) (rc_put bsp29_clip) (rc_get bsp29_clip) /\
  codec_ok (fun c => clip_wf i32 c = true) (rc_put bsp2_clip) (rc_get bsp2_clip) /\
  codec_ok (fun m => model_wf 4 m = true) (rc_put q1_model) (rc_get q1_model) /\
  codec_ok (fun m => model_wf 8 m = true) (rc_put h2_model) (rc_get h2_model) /\
  codec_ok (fun m => q2model_wf m = true) (rc_put q2_model) (rc_get q2_model) /\
  codec_ok (fun t => q1tex_wf t = true) (rc_put q1_tex) (rc_get q1_tex) /\
  codec_ok (fun t => q2tex_wf t = true) (rc_put q2_tex) (rc_get q2_tex) /\
  codec_ok (fun p => plane_wf p = true) (rc_put plane_codec) (rc_get plane_codec) /\
  codec_ok (fun v => vwf f32 v = true) (rc_put vec_codec) (rc_get vec_codec) /\
  codec_ok (fun a => area_wf a = true) (rc_put area_codec) (rc_get area_codec) /\
  codec_ok (fun a => areaportal_wf a = true) (rc_put areaportal_codec) (rc_get areaportal_codec) /\
  codec_ok (fun b => brush_wf b = true) (rc_put brush_codec) (rc_get brush_codec) /\
  codec_ok (fun s => side_wf u16 i16 s = true) (rc_put q2_side) (rc_get q2_side) /\
  codec_ok (fun s => side_wf u32 i32 s = true) (rc_put qbism_side) (rc_get qbism_side) /\
  codec_ok (fun e => edge_wf u16 e = true) (rc_put (edge_codec u16)) (rc_get (edge_codec u16)) /\
  codec_ok (fun e => edge_wf u32 e = true) (rc_put (edge_codec u32)) (rc_get (edge_codec u32)) /\
  codec_ok (fun v => it_in u16 v = true) (rc_put (int_codec u16)) (rc_get (int_codec u16)) /\
  codec_ok (fun v => it_in u32 v = true) (rc_put (int_codec u32)) (rc_get (int_codec u32)) /\
  codec_ok (fun v => it_in i32 v = true) (rc_put (int_codec i32)) (rc_get (int_codec i32)) /\
  codec_ok (fun l => lump_wf l = true) (rc_put lump_codec) (rc_get lump_codec) /\
  codec_ok (fun h => bspxhdr_wf h = true) (rc_put bspxhdr_codec) (rc_get bspxhdr_codec) /\
  codec_ok (fun h => bspxlump_wf h = true) (rc_put bspxlump_codec) (rc_get bspxlump_codec) /\
  codec_ok (fun m => dmiptex_wf m = true) (rc_put dmiptex_codec) (rc_get dmiptex_codec).
Proof.
  assert (G : forall A (c : rcodec A) wf, rc_good c wf -> codec_ok (fun a => wf a = true) (rc_put c) (rc_get c))
    by (intros; apply rc_good_codec; assumption).
  repeat match goal with |- _ /\ _ => split end; apply G;
    first [apply node_good | apply face_good | apply q1leaf_good | apply q2leaf_good | apply clip_good | apply model_good
          | apply q2model_good | apply q1tex_good | apply q2tex_good | apply plane_good | apply vec_good | apply area_good
          | apply areaportal_good | apply brush_good | apply side_good | apply edge_good | apply int_good | apply lump_good
          | apply bspxhdr_good | apply bspxlump_good | apply dmiptex_good]; in_ity.
Qed.
Print Assumptions C39_records_roundtrip.

(** The streamed size of each record is the struct's sizeof, which the lump tables use as the
    entry size. *)
Theorem C39_sizes :
  map (fun ts => (list_sum (map it_bytes ts), c_sizeof ts))
      [rc_types bsp29_node; rc_types rmq_node; rc_types q2_node; rc_types bsp2_node;
       rc_types bsp29_face; rc_types bsp2_face; rc_types q2_face; rc_types qbism_face;
       rc_types bsp29_leaf; rc_types rmq_leaf; rc_types bsp2_leaf; rc_types q2_leaf; rc_types qbism_leaf;
       rc_types bsp29_clip; rc_types bsp2_clip; rc_types q1_model; rc_types h2_model; rc_types q2_model;
       rc_types q1_tex; rc_types q2_tex; rc_types plane_codec; rc_types vec_codec;
       rc_types area_codec; rc_types areaportal_codec; rc_types brush_codec; rc_types q2_side; rc_types qbism_side;
       rc_types (edge_codec u16); rc_types (edge_codec u32); rc_types lump_codec;
       rc_types bspxhdr_codec; rc_types bspxlump_codec; rc_types dmiptex_codec]
  = [(24, 24); (32, 32); (28, 28); (44, 44); (20, 20); (28, 28); (20, 20); (28, 28);
     (28, 28); (32, 32); (44, 44); (28, 28); (52, 52); (8, 8); (12, 12); (64, 64); (80, 80); (48, 48);
     (40, 40); (76, 76); (20, 20); (12, 12); (8, 8); (8, 8); (12, 12); (4, 4); (8, 8);
     (4, 4); (8, 8); (8, 8); (8, 8); (32, 32); (40, 40)]%nat.
Proof. vm_compute. reflexivity. Qed.
Print Assumptions C39_sizes.

Example C39_nontrivial :
  rc_put bsp29_clip (mkClip 258 (-2) 40) = [2; 1; 0; 0; 254; 255; 40; 0]%N /\
  rc_get bsp29_clip ([2; 1; 0; 0; 254; 255; 40; 0] ++ [7])%N = Some (mkClip 258 (-2) 40, [7%N]) /\
  rc_get bsp29_clip [2; 1; 0; 0; 254; 255; 40]%N = None.
Proof. vm_compute. repeat split; reflexivity. Qed.
