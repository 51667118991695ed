(* Conversions between the generic records and those of each format. *)
From Coq Require Import List Arith NArith ZArith Bool Lia ZifyBool.
Import ListNotations.
From Verif Require Import Base Codec NumCastModel NumCastProofs BspRecModel BspRecProofs.
Local Open Scope Z_scope.

(** ** Order of floating values *)
Lemma dle_scale : forall m e m' e' k, k <= e -> k <= e' ->
  dle m e m' e' = (m * 2 ^ (e - k) <=? m' * 2 ^ (e' - k)).
Proof.
  intros m e m' e' k H1 H2. unfold dle. set (j := Z.min e e').
  assert (J1 : j <= e) by lia. assert (J2 : j <= e') by lia. assert (J3 : k <= j) by lia. clearbody j.
  replace (e - k) with ((e - j) + (j - k)) by lia. replace (e' - k) with ((e' - j) + (j - k)) by lia.
  rewrite !Z.pow_add_r by lia. rewrite !Z.mul_assoc.
  assert (P : 0 < 2 ^ (j - k)) by (apply Z.pow_pos_nonneg; lia).
  set (a := m * 2 ^ (e - j)). set (b := m' * 2 ^ (e' - j)). clearbody a b.
  destruct (a <=? b) eqn:E; symmetry; [apply Z.leb_le|apply Z.leb_gt]; nia.
Qed.

Lemma fl_le_trans : forall x y z, fl_le x y = true -> fl_le y z = true -> fl_le x z = true.
Proof.
  intros x y z H1 H2.
  destruct x as [|[]|m e], y as [|[]|m' e'], z as [|[]|m'' e'']; cbn [fl_le] in *; try discriminate; try reflexivity.
  set (k := Z.min e (Z.min e' e'')).
  rewrite (dle_scale m e m' e' k) in H1 by lia.
  rewrite (dle_scale m' e' m'' e'' k) in H2 by lia.
  rewrite (dle_scale m e m'' e'' k) by lia. lia.
Qed.

(** ** Statements *)
Definition fval (p : Z) : fl := f32_val (Z.to_N p).
Definition vle (a b : vec) : Prop :=
  fl_le (fval (vx a)) (fval (vx b)) = true /\ fl_le (fval (vy a)) (fval (vy b)) = true /\
  fl_le (fval (vz a)) (fval (vz b)) = true.
Definition has_nan (v : vec) : Prop := fval (vx v) = FNaN \/ fval (vy v) = FNaN \/ fval (vz v) = FNaN.

(** Rounded outwards, the coordinate is an integer of type [t]. *)
Definition floor_fits (t : ity) (x : fl) : Prop :=
  exists z, it_in t z = true /\ fl_le (FFin z 0) x = true /\ (forall y, fl_le (FFin y 0) x = true -> y <= z).
Definition ceil_fits (t : ity) (x : fl) : Prop :=
  exists z, it_in t z = true /\ fl_le x (FFin z 0) = true /\ (forall y, fl_le x (FFin y 0) = true -> z <= y).
Definition mins_fit (v : vec) : Prop :=
  floor_fits i16 (fval (vx v)) /\ floor_fits i16 (fval (vy v)) /\ floor_fits i16 (fval (vz v)).
Definition maxs_fit (v : vec) : Prop :=
  ceil_fits i16 (fval (vx v)) /\ ceil_fits i16 (fval (vy v)) /\ ceil_fits i16 (fval (vz v)).

Lemma i16_in : In i16 all_ity. Proof. in_ity. Qed.
Lemma it_in_i16 : forall z, it_in i16 z = true -> -32768 <= z <= 32767.
Proof. intros z H. unfold it_in, it_lo, it_hi in H. cbn in H. lia. Qed.

Lemma fval_of16 : forall z, it_in i16 z = true ->
  fl_le (fval (Z.of_N (f32_of_i16 z))) (FFin z 0) = true /\ fl_le (FFin z 0) (fval (Z.of_N (f32_of_i16 z))) = true.
Proof. intros z H. unfold fval. rewrite N2Z.id. apply f32_of_i16_val, it_in_i16, H. Qed.

Lemma mins1 : forall p, match mins_cast1 24 i16 (f32_val (Z.to_N p)) with
  | ROk z => it_in i16 z = true /\ fl_le (fval (Z.of_N (f32_of_i16 z))) (fval p) = true
  | RThrow => ~ floor_fits i16 (fval p)
  | RUB => fval p = FNaN
  end.
Proof.
  intros p. pose proof (mins_cast1_spec 24 i16 (f32_val (Z.to_N p)) i16_in) as H.
  destruct (mins_cast1 24 i16 (f32_val (Z.to_N p))) as [z| |]; cbn in H; specialize (H ltac:(lia)).
  - destruct H as (A & B & _). split; [assumption|].
    apply fl_le_trans with (FFin z 0); [apply fval_of16; assumption|assumption].
  - intros (z & A & B & C). exact (H z A (conj B C)).
  - assumption.
Qed.

Lemma maxs1 : forall p, match maxs_cast1 24 i16 (f32_val (Z.to_N p)) with
  | ROk z => it_in i16 z = true /\ fl_le (fval p) (fval (Z.of_N (f32_of_i16 z))) = true
  | RThrow => ~ ceil_fits i16 (fval p)
  | RUB => fval p = FNaN
  end.
Proof.
  intros p. pose proof (maxs_cast1_spec 24 i16 (f32_val (Z.to_N p)) i16_in) as H.
  destruct (maxs_cast1 24 i16 (f32_val (Z.to_N p))) as [z| |]; cbn in H; specialize (H ltac:(lia)).
  - destruct H as (A & B & _). split; [assumption|].
    apply fl_le_trans with (FFin z 0); [assumption|apply fval_of16; assumption].
  - intros (z & A & B & C). exact (H z A (conj B C)).
  - assumption.
Qed.

Lemma mins16_spec : forall v, match mins16 v with
  | ROk w => vwf i16 w = true /\ vle (vec_of16 w) v
  | RThrow => ~ mins_fit v
  | RUB => has_nan v
  end.
Proof.
  intros v. unfold mins16, mins_fit, has_nan, vle, vwf.
  pose proof (mins1 (vx v)) as X. pose proof (mins1 (vy v)) as Y. pose proof (mins1 (vz v)) as W.
  destruct (mins_cast1 24 i16 (f32_val (Z.to_N (vx v)))); cbn [rbind]; [|tauto|tauto].
  destruct (mins_cast1 24 i16 (f32_val (Z.to_N (vy v)))); cbn [rbind]; [|tauto|tauto].
  destruct (mins_cast1 24 i16 (f32_val (Z.to_N (vz v)))); cbn [rbind]; [|tauto|tauto].
  cbn [andb vec_of16 vx vy vz]. destruct X as [-> X], Y as [-> Y], W as [-> W]. auto.
Qed.

Lemma maxs16_spec : forall v, match maxs16 v with
  | ROk w => vwf i16 w = true /\ vle v (vec_of16 w)
  | RThrow => ~ maxs_fit v
  | RUB => has_nan v
  end.
Proof.
  intros v. unfold maxs16, maxs_fit, has_nan, vle, vwf.
  pose proof (maxs1 (vx v)) as X. pose proof (maxs1 (vy v)) as Y. pose proof (maxs1 (vz v)) as W.
  destruct (maxs_cast1 24 i16 (f32_val (Z.to_N (vx v)))); cbn [rbind]; [|tauto|tauto].
  destruct (maxs_cast1 24 i16 (f32_val (Z.to_N (vy v)))); cbn [rbind]; [|tauto|tauto].
  destruct (maxs_cast1 24 i16 (f32_val (Z.to_N (vz v)))); cbn [rbind]; [|tauto|tauto].
  cbn [andb vec_of16 vx vy vz]. destruct X as [-> X], Y as [-> Y], W as [-> W]. auto.
Qed.

Lemma nc_spec : forall d s v, In d all_ity -> In s all_ity -> it_in s v = true ->
  (it_in d v = true /\ numeric_cast d s v = ROk v) \/ (it_in d v = false /\ numeric_cast d s v = RThrow).
Proof.
  intros d s v D S I. rewrite numeric_cast_exact by assumption. destruct (it_in d v); auto.
Qed.

(** Run one checked conversion of a hypothesis-typed field. *)
Ltac nc d s v :=
  let A := fresh in let B := fresh in
  destruct (nc_spec d s v ltac:(in_ity) ltac:(in_ity) ltac:(assumption)) as [[A B]|[A B]];
  rewrite B; cbn [rbind]; [|rewrite A; intuition congruence].

(** ** Nodes *)
Definition node_ints (n : node) : list Z := [n_plane n; n_c0 n; n_c1 n; n_ff n; n_nf n].
Definition node_box (outer inner : node) : Prop := vle (n_mn outer) (n_mn inner) /\ vle (n_mx inner) (n_mx outer).
Definition node_fits (tc tf : ity) (n : node) : Prop :=
  it_in tc (n_c0 n) = true /\ it_in tc (n_c1 n) = true /\ mins_fit (n_mn n) /\ maxs_fit (n_mx n) /\
  it_in tf (n_ff n) = true /\ it_in tf (n_nf n) = true.

(** What a node conversion to a format with children [tc], faces [tf] and 16-bit bounds does. *)
Definition node_conv_ok (conv : node -> res node) (tc tf : ity) : Prop :=
  forall n, node_wf i32 f32 u32 n = true ->
  match conv n with
  | ROk n' => node_wf tc i16 tf n' = true /\ node_ints (of_node16 n') = node_ints n /\ node_box (of_node16 n') n
  | RThrow => ~ node_fits tc tf n
  | RUB => has_nan (n_mn n) \/ has_nan (n_mx n)
  end.

Ltac split_wf W := repeat rewrite andb_true_iff in W; decompose [and] W; clear W.

Lemma bsp29_node_conv : node_conv_ok to_bsp29_node i16 u16.
Proof.
  intros n W. unfold node_wf in W. split_wf W. unfold to_bsp29_node, node_fits.
  nc i16 i32 (n_c0 n). nc i16 i32 (n_c1 n).
  pose proof (mins16_spec (n_mn n)) as M1. destruct (mins16 (n_mn n)); cbn [rbind]; [|tauto|auto].
  pose proof (maxs16_spec (n_mx n)) as M2. destruct (maxs16 (n_mx n)); cbn [rbind]; [|tauto|auto].
  nc u16 u32 (n_ff n). nc u16 u32 (n_nf n).
  destruct M1 as [W1 M1], M2 as [W2 M2].
  split; [|split; [reflexivity|split; assumption]].
  unfold node_wf. cbn [n_plane n_c0 n_c1 n_mn n_mx n_ff n_nf]. rewrite W1, W2.
  repeat match goal with H : it_in _ _ = true |- _ => rewrite H; clear H end. reflexivity.
Qed.

Lemma rmq_node_conv : node_conv_ok to_rmq_node i32 u32.
Proof.
  intros n W. unfold node_wf in W. split_wf W. unfold to_rmq_node, node_fits.
  pose proof (mins16_spec (n_mn n)) as M1. destruct (mins16 (n_mn n)); cbn [rbind]; [|tauto|auto].
  pose proof (maxs16_spec (n_mx n)) as M2. destruct (maxs16 (n_mx n)); cbn [rbind]; [|tauto|auto].
  destruct M1 as [W1 M1], M2 as [W2 M2].
  split; [|split; [reflexivity|split; assumption]].
  unfold node_wf. cbn [n_plane n_c0 n_c1 n_mn n_mx n_ff n_nf]. rewrite W1, W2.
  repeat match goal with H : it_in _ _ = true |- _ => rewrite H; clear H end. reflexivity.
Qed.

Lemma q2_node_conv : node_conv_ok to_q2_node i32 u16.
Proof.
  intros n W. unfold node_wf in W. split_wf W. unfold to_q2_node, node_fits.
  pose proof (mins16_spec (n_mn n)) as M1. destruct (mins16 (n_mn n)); cbn [rbind]; [|tauto|auto].
  pose proof (maxs16_spec (n_mx n)) as M2. destruct (maxs16 (n_mx n)); cbn [rbind]; [|tauto|auto].
  nc u16 u32 (n_ff n). nc u16 u32 (n_nf n).
  destruct M1 as [W1 M1], M2 as [W2 M2].
  split; [|split; [reflexivity|split; assumption]].
  unfold node_wf. cbn [n_plane n_c0 n_c1 n_mn n_mx n_ff n_nf]. rewrite W1, W2.
  repeat match goal with H : it_in _ _ = true |- _ => rewrite H; clear H end. reflexivity.
Qed.

(** ** Faces: every field comes back. *)
Definition mface_wf (f : face) : bool := face_wf i64 i32 f.

Lemma face_conv : forall tp ts f, In tp all_ity -> In ts all_ity -> mface_wf f = true ->
  match to_face tp ts f with
  | ROk f' => face_wf tp ts f' = true /\ of_face f' = f
  | RThrow => ~ (it_in tp (f_plane f) = true /\ it_in ts (f_side f) = true /\ it_in ts (f_ne f) = true /\
                 it_in ts (f_tex f) = true)
  | RUB => False
  end.
Proof.
  intros tp ts f T1 T2 W. unfold mface_wf, face_wf in W. split_wf W. unfold to_face.
  nc tp i64 (f_plane f). nc ts i32 (f_side f). nc ts i32 (f_ne f). nc ts i32 (f_tex f).
  split; [|destruct f; reflexivity].
  unfold face_wf. cbn [f_plane f_side f_fe f_ne f_tex f_s0 f_s1 f_s2 f_s3 f_lo].
  repeat match goal with H : it_in _ _ = true |- _ => rewrite H; clear H end. reflexivity.
Qed.

Lemma face32_conv : forall tp f, In tp all_ity -> mface_wf f = true ->
  match to_face32 tp f with
  | ROk f' => face_wf tp i32 f' = true /\ of_face f' = f
  | RThrow => ~ it_in tp (f_plane f) = true
  | RUB => False
  end.
Proof.
  intros tp f T1 W. unfold mface_wf, face_wf in W. split_wf W. unfold to_face32.
  nc tp i64 (f_plane f).
  split; [|destruct f; reflexivity].
  unfold face_wf. cbn [f_plane f_side f_fe f_ne f_tex f_s0 f_s1 f_s2 f_s3 f_lo].
  repeat match goal with H : it_in _ _ = true |- _ => rewrite H; clear H end. reflexivity.
Qed.

(** ** Leafs *)
Definition mleaf_wf (l : mleaf) : bool :=
  it_in i32 (l_contents l) && it_in i32 (l_visofs l) && vwf f32 (l_mn l) && vwf f32 (l_mx l)
  && it_in u32 (l_fm l) && it_in u32 (l_nm l)
  && it_in u8 (l_a0 l) && it_in u8 (l_a1 l) && it_in u8 (l_a2 l) && it_in u8 (l_a3 l)
  && it_in i32 (l_cluster l) && it_in i32 (l_area l) && it_in u32 (l_fb l) && it_in u32 (l_nb l).
(** The integer fields a Quake leaf keeps, and those a Quake II leaf keeps. *)
Definition leaf_q1_ints (l : mleaf) : list Z :=
  [l_contents l; l_visofs l; l_fm l; l_nm l; l_a0 l; l_a1 l; l_a2 l; l_a3 l].
Definition leaf_q2_ints (l : mleaf) : list Z :=
  [l_contents l; l_fm l; l_nm l; l_cluster l; l_area l; l_fb l; l_nb l].
Definition leaf_box (outer inner : mleaf) : Prop := vle (l_mn outer) (l_mn inner) /\ vle (l_mx inner) (l_mx outer).

Lemma bsp29_leaf_conv : forall l, mleaf_wf l = true ->
  match to_bsp29_leaf l with
  | ROk r => q1leaf_wf i16 u16 r = true /\ leaf_q1_ints (of_q1leaf16 r) = leaf_q1_ints l /\ leaf_box (of_q1leaf16 r) l
  | RThrow => ~ (mins_fit (l_mn l) /\ maxs_fit (l_mx l) /\ it_in u16 (l_fm l) = true /\ it_in u16 (l_nm l) = true)
  | RUB => has_nan (l_mn l) \/ has_nan (l_mx l)
  end.
Proof.
  intros l W. unfold mleaf_wf in W. split_wf W. unfold to_bsp29_leaf.
  pose proof (mins16_spec (l_mn l)) as M1. destruct (mins16 (l_mn l)); cbn [rbind]; [|tauto|auto].
  pose proof (maxs16_spec (l_mx l)) as M2. destruct (maxs16 (l_mx l)); cbn [rbind]; [|tauto|auto].
  nc u16 u32 (l_fm l). nc u16 u32 (l_nm l).
  destruct M1 as [W1 M1], M2 as [W2 M2].
  split; [|split; [reflexivity|split; assumption]].
  unfold q1leaf_wf. cbn [q1_contents q1_visofs q1_mn q1_mx q1_fm q1_nm q1_a0 q1_a1 q1_a2 q1_a3]. rewrite W1, W2.
  repeat match goal with H : it_in _ _ = true |- _ => rewrite H; clear H end. reflexivity.
Qed.

Lemma rmq_leaf_conv : forall l, mleaf_wf l = true ->
  match to_rmq_leaf l with
  | ROk r => q1leaf_wf i16 u32 r = true /\ leaf_q1_ints (of_q1leaf16 r) = leaf_q1_ints l /\ leaf_box (of_q1leaf16 r) l
  | RThrow => ~ (mins_fit (l_mn l) /\ maxs_fit (l_mx l))
  | RUB => has_nan (l_mn l) \/ has_nan (l_mx l)
  end.
Proof.
  intros l W. unfold mleaf_wf in W. split_wf W. unfold to_rmq_leaf.
  pose proof (mins16_spec (l_mn l)) as M1. destruct (mins16 (l_mn l)); cbn [rbind]; [|tauto|auto].
  pose proof (maxs16_spec (l_mx l)) as M2. destruct (maxs16 (l_mx l)); cbn [rbind]; [|tauto|auto].
  destruct M1 as [W1 M1], M2 as [W2 M2].
  split; [|split; [reflexivity|split; assumption]].
  unfold q1leaf_wf. cbn [q1_contents q1_visofs q1_mn q1_mx q1_fm q1_nm q1_a0 q1_a1 q1_a2 q1_a3]. rewrite W1, W2.
  repeat match goal with H : it_in _ _ = true |- _ => rewrite H; clear H end. reflexivity.
Qed.

Lemma bsp2_leaf_conv : forall l, mleaf_wf l = true ->
  exists r, to_bsp2_leaf l = ROk r /\ q1leaf_wf f32 u32 r = true /\
    leaf_q1_ints (of_bsp2_leaf r) = leaf_q1_ints l /\ l_mn (of_bsp2_leaf r) = l_mn l /\ l_mx (of_bsp2_leaf r) = l_mx l.
Proof.
  intros l W. unfold mleaf_wf in W. split_wf W. eexists. split; [reflexivity|].
  split; [|repeat split; reflexivity].
  unfold q1leaf_wf. cbn [q1_contents q1_visofs q1_mn q1_mx q1_fm q1_nm q1_a0 q1_a1 q1_a2 q1_a3].
  repeat match goal with H : _ = true |- _ => rewrite H; clear H end. reflexivity.
Qed.

(** Quake II leafs: [maxs] comes back rounded down. *)
Lemma q2_leaf_conv : forall l, mleaf_wf l = true ->
  match to_q2_leaf l with
  | ROk r => q2leaf_wf i16 i16 u16 r = true /\ leaf_q2_ints (of_q2_leaf r) = leaf_q2_ints l /\
             vle (l_mn (of_q2_leaf r)) (l_mn l) /\ vle (l_mx (of_q2_leaf r)) (l_mx l)
  | RThrow => ~ (it_in i16 (l_cluster l) = true /\ it_in i16 (l_area l) = true /\ mins_fit (l_mn l) /\
                 mins_fit (l_mx l) /\ it_in u16 (l_fm l) = true /\ it_in u16 (l_nm l) = true /\
                 it_in u16 (l_fb l) = true /\ it_in u16 (l_nb l) = true)
  | RUB => has_nan (l_mn l) \/ has_nan (l_mx l)
  end.
Proof.
  intros l W. unfold mleaf_wf in W. split_wf W. unfold to_q2_leaf.
  nc i16 i32 (l_cluster l). nc i16 i32 (l_area l).
  pose proof (mins16_spec (l_mn l)) as M1. destruct (mins16 (l_mn l)); cbn [rbind]; [|tauto|auto].
  pose proof (mins16_spec (l_mx l)) as M2. destruct (mins16 (l_mx l)); cbn [rbind]; [|tauto|auto].
  nc u16 u32 (l_fm l). nc u16 u32 (l_nm l). nc u16 u32 (l_fb l). nc u16 u32 (l_nb l).
  destruct M1 as [W1 M1], M2 as [W2 M2].
  split; [|split; [reflexivity|split; assumption]].
  unfold q2leaf_wf. cbn [q2_contents q2_cluster q2_area q2_mn q2_mx q2_fl q2_nl q2_fb q2_nb]. rewrite W1, W2.
  repeat match goal with H : it_in _ _ = true |- _ => rewrite H; clear H end. reflexivity.
Qed.

Lemma qbism_leaf_conv : forall l, mleaf_wf l = true ->
  exists r, to_qbism_leaf l = ROk r /\ q2leaf_wf i32 f32 u32 r = true /\
    leaf_q2_ints (of_qbism_leaf r) = leaf_q2_ints l /\ l_mn (of_qbism_leaf r) = l_mn l /\ l_mx (of_qbism_leaf r) = l_mx l.
Proof.
  intros l W. unfold mleaf_wf in W. split_wf W. eexists. split; [reflexivity|].
  split; [|repeat split; reflexivity].
  unfold q2leaf_wf. cbn [q2_contents q2_cluster q2_area q2_mn q2_mx q2_fl q2_nl q2_fb q2_nb].
  repeat match goal with H : _ = true |- _ => rewrite H; clear H end. reflexivity.
Qed.

(** ** Models, texinfos, brush sides, edges, indices *)
Lemma array_cast_id : forall n l, all_in i32 l = true ->
  array_cast (numeric_cast i32 i32) n l = ROk (firstn n l ++ repeat 0 (n - length l)).
Proof.
  induction n as [|n IH]; intros l H; [reflexivity|].
  destruct l as [|v t]; [reflexivity|].
  cbn [all_in forallb] in H. apply andb_true_iff in H. destruct H as [H1 H2].
  cbn [array_cast]. rewrite numeric_cast_exact by (try in_ity; assumption). rewrite H1. cbn [rbind].
  rewrite IH by assumption. cbn [rbind]. reflexivity.
Qed.

Lemma all_in_firstn : forall t n l, all_in t l = true -> all_in t (firstn n l) = true.
Proof.
  intros t n l H. unfold all_in in *. rewrite forallb_forall in *. intros x Hx. apply H.
  rewrite <- (firstn_skipn n l). apply in_or_app. left. assumption.
Qed.

(** Quake models keep the first four head nodes; the others come back as 0. *)
Lemma q1_model_conv : forall m, model_wf 8 m = true ->
  exists r m', to_q1_model m = ROk r /\ model_wf 4 r = true /\ of_q1_model r = ROk m' /\
    m' = mkModel (dm_mn m) (dm_mx m) (dm_org m) (firstn 4 (dm_head m) ++ [0; 0; 0; 0]) (dm_vis m) (dm_ff m) (dm_nf m).
Proof.
  intros [mn mx org hd v ff nf] W. unfold model_wf in W.
  cbn [dm_mn dm_mx dm_org dm_head dm_vis dm_ff dm_nf] in *. split_wf W.
  assert (L : length hd = 8%nat) by (apply Nat.eqb_eq; assumption).
  unfold to_q1_model. cbn [dm_mn dm_mx dm_org dm_head dm_vis dm_ff dm_nf].
  rewrite array_cast_id by assumption. rewrite L. cbn [Nat.sub repeat rbind]. rewrite app_nil_r.
  do 2 eexists. split; [reflexivity|].
  assert (L4 : length (firstn 4 hd) = 4%nat) by (rewrite firstn_length; lia).
  assert (A4 : all_in i32 (firstn 4 hd) = true) by (apply all_in_firstn; assumption).
  split; [|split; [|reflexivity]].
  - unfold model_wf. cbn [dm_mn dm_mx dm_org dm_head dm_vis dm_ff dm_nf].
    rewrite L4, A4. repeat match goal with H : _ = true |- _ => rewrite H; clear H end. reflexivity.
  - unfold of_q1_model. cbn [dm_mn dm_mx dm_org dm_head dm_vis dm_ff dm_nf].
    rewrite array_cast_id by assumption. rewrite L4. cbn [Nat.sub repeat rbind].
    rewrite firstn_all2 by lia. reflexivity.
Qed.

Lemma q2_model_conv : forall m, model_wf 8 m = true ->
  exists r, to_q2_model m = ROk r /\ q2model_wf r = true /\
    of_q2_model r = mkModel (dm_mn m) (dm_mx m) (dm_org m) (nth 0 (dm_head m) 0 :: repeat 0 7) 0 (dm_ff m) (dm_nf m).
Proof.
  intros [mn mx org hd v ff nf] W. unfold model_wf in W.
  cbn [dm_mn dm_mx dm_org dm_head dm_vis dm_ff dm_nf] in *. split_wf W.
  assert (L : length hd = 8%nat) by (apply Nat.eqb_eq; assumption).
  eexists. split; [reflexivity|]. split; [|reflexivity].
  unfold q2model_wf. cbn [qm_mn qm_mx qm_org qm_head qm_ff qm_nf dm_mn dm_mx dm_org dm_head dm_vis dm_ff dm_nf].
  assert (I : it_in i32 (nth 0 hd 0) = true).
  { destruct hd as [|h t]; [discriminate L|]. cbn [nth].
    match goal with H : all_in i32 (h :: t) = true |- _ => cbn [all_in forallb] in H; apply andb_true_iff in H; tauto end. }
  rewrite I. repeat match goal with H : _ = true |- _ => rewrite H; clear H end. reflexivity.
Qed.

Definition mtex_wf (t : mtexinfo) : bool :=
  (length (mt_vecs t) =? 8)%nat && all_in f32 (mt_vecs t) && it_in i32 (mt_flags t) && it_in i32 (mt_miptex t)
  && it_in i32 (mt_value t) && (length (mt_name t) =? 32)%nat && all_in u8 (mt_name t) && it_in i32 (mt_next t).

Lemma q1_tex_conv : forall t, mtex_wf t = true ->
  exists r, to_q1_tex t = ROk r /\ q1tex_wf r = true /\
    mt_vecs (of_q1_tex r) = mt_vecs t /\ mt_flags (of_q1_tex r) = mt_flags t /\ mt_miptex (of_q1_tex r) = mt_miptex t.
Proof.
  intros t W. unfold mtex_wf in W. split_wf W. eexists. split; [reflexivity|]. split; [|repeat split; reflexivity].
  unfold q1tex_wf. cbn [qt_vecs qt_miptex qt_flags].
  repeat match goal with H : _ = true |- _ => rewrite H; clear H end. reflexivity.
Qed.

Lemma q2_tex_conv : forall t, mtex_wf t = true ->
  exists r, to_q2_tex t = ROk r /\ q2tex_wf r = true /\
    of_q2_tex r = mkMTex (mt_vecs t) (mt_flags t) (-1) (mt_value t) (mt_name t) (mt_next t).
Proof.
  intros t W. unfold mtex_wf in W. split_wf W. eexists. split; [reflexivity|]. split; [|reflexivity].
  unfold q2tex_wf. cbn [q2t_vecs q2t_flags q2t_value q2t_name q2t_next].
  repeat match goal with H : _ = true |- _ => rewrite H; clear H end. reflexivity.
Qed.

Lemma q2_side_conv : forall s, side_wf u32 i32 s = true ->
  match to_q2_side s with
  | ROk r => side_wf u16 i16 r = true /\ r = s
  | RThrow => ~ (it_in u16 (bs_plane s) = true /\ it_in i16 (bs_tex s) = true)
  | RUB => False
  end.
Proof.
  intros s W. unfold side_wf in W. split_wf W. unfold to_q2_side.
  nc u16 u32 (bs_plane s). nc i16 i32 (bs_tex s).
  split; [|destruct s; reflexivity].
  unfold side_wf. cbn [bs_plane bs_tex]. repeat match goal with H : it_in _ _ = true |- _ => rewrite H; clear H end. reflexivity.
Qed.

Lemma edge16_conv : forall e, edge_wf u32 e = true ->
  match to_edge16 e with
  | ROk r => edge_wf u16 r = true /\ r = e
  | RThrow => ~ edge_wf u16 e = true
  | RUB => False
  end.
Proof.
  intros e W. unfold edge_wf in *. split_wf W. unfold to_edge16.
  destruct (nc_spec u16 u32 (e_0 e) ltac:(in_ity) ltac:(in_ity) ltac:(assumption)) as [[A0 B0]|[A0 B0]];
    rewrite B0; cbn [rbind]; [|rewrite A0; discriminate].
  destruct (nc_spec u16 u32 (e_1 e) ltac:(in_ity) ltac:(in_ity) ltac:(assumption)) as [[A B]|[A B]];
    rewrite B; cbn [rbind].
  - split; [|destruct e; reflexivity]. cbn [e_0 e_1].
    repeat match goal with H : it_in _ _ = true |- _ => rewrite H; clear H end. reflexivity.
  - rewrite A, andb_false_r. discriminate.
Qed.

Lemma index16_conv : forall v, it_in u32 v = true ->
  match to_index16 v with
  | ROk r => it_in u16 r = true /\ r = v
  | RThrow => ~ it_in u16 v = true
  | RUB => False
  end.
Proof.
  intros v W. unfold to_index16. rewrite numeric_cast_exact by (try in_ity; assumption).
  destruct (it_in u16 v) eqn:E; [auto|congruence].
Qed.

(** ** Clip nodes *)
Lemma downcast16_spec : forall v, it_in i32 v = true ->
  match downcast16 v with
  | ROk w => it_in i16 w = true /\ upcast16 w = v
  | RThrow => v < -15 \/ v > 0xFFF0
  | RUB => False
  end.
Proof.
  intros v I. unfold downcast16, upcast16.
  destruct ((v <? -15) || (0xFFF0 <? v)) eqn:R; [lia|].
  assert (V : -15 <= v <= 65520) by lia.
  unfold it_wrap, it_in, it_hi, it_lo. cbn [it_signed it_bits i16 u16 andb].
  change (2 ^ (16 - 1)) with 32768. change (2 ^ 16) with 65536.
  set (u := if v <? 0 then v + 65536 else v).
  assert (U : 0 <= u < 65536) by (subst u; destruct (v <? 0) eqn:E; lia).
  rewrite (Z.mod_small u) by lia.
  set (w := if 32768 - 1 <? u then u - 65536 else u).
  assert (WM : w mod 65536 = u).
  { subst w. destruct (32768 - 1 <? u) eqn:E.
    - symmetry. apply (Z.mod_unique _ _ (-1)); lia.
    - apply Z.mod_small. lia. }
  rewrite WM. split.
  - subst w. destruct (32768 - 1 <? u) eqn:E; lia.
  - clear WM. clearbody w. assert (C : (v < 0 -> u = v + 65536) /\ (0 <= v -> u = v)) by (subst u; destruct (v <? 0) eqn:E; lia).
    clearbody u. destruct (65520 <? u) eqn:F; lia.
Qed.

Lemma upcast16_range : forall w, it_in i16 w = true -> -15 <= upcast16 w <= 0xFFF0.
Proof.
  intros w I. unfold upcast16, it_wrap. cbn [it_signed it_bits u16 andb]. change (2 ^ 16) with 65536.
  pose proof (Z.mod_pos_bound w 65536 eq_refl). destruct (65520 <? w mod 65536) eqn:E; lia.
Qed.

Lemma downcast16_throws : forall v, downcast16 v = RThrow <-> v < -15 \/ v > 0xFFF0.
Proof.
  intros v. unfold downcast16. destruct ((v <? -15) || (0xFFF0 <? v)) eqn:R; split; intros H; try reflexivity; try lia.
  discriminate H.
Qed.

Lemma up_down16 : forall w, it_in i16 w = true -> downcast16 (upcast16 w) = ROk w.
Proof.
  intros w I. pose proof (upcast16_range w I) as R. unfold downcast16.
  replace ((upcast16 w <? -15) || (0xFFF0 <? upcast16 w)) with false by lia.
  f_equal. apply it_in_i16 in I. unfold upcast16, it_wrap, it_hi. cbn [it_signed it_bits u16 i16 andb].
  change (2 ^ 16) with 65536. change (2 ^ (16 - 1)) with 32768.
  assert (M : w mod 65536 = if w <? 0 then w + 65536 else w).
  { destruct (w <? 0) eqn:E; [symmetry; apply (Z.mod_unique _ _ (-1)); lia|apply Z.mod_small; lia]. }
  rewrite M. set (u := if w <? 0 then w + 65536 else w).
  assert (U : 0 <= u < 65536 /\ (u = w \/ u = w + 65536)) by (subst u; destruct (w <? 0) eqn:E; lia).
  assert (C : (w < 0 -> u = w + 65536) /\ (0 <= w -> u = w)) by (subst u; destruct (w <? 0) eqn:E; lia).
  clearbody u.
  set (a := if 65520 <? u then u - 65536 else u).
  assert (A : (if a <? 0 then a + 65536 else a) = u).
  { subst a. destruct (65520 <? u) eqn:E; [replace (u - 65536 <? 0) with true by lia|replace (u <? 0) with false by lia]; lia. }
  rewrite A, Z.mod_small by lia. destruct (32768 - 1 <? u) eqn:E; lia.
Qed.

Lemma bsp29_clip_conv : forall c, clip_wf i32 c = true ->
  match to_bsp29_clip c with
  | ROk r => clip_wf i16 r = true /\ of_bsp29_clip r = c
  | RThrow => ~ (-15 <= cn_c0 c <= 0xFFF0 /\ -15 <= cn_c1 c <= 0xFFF0)
  | RUB => False
  end.
Proof.
  intros c W. unfold clip_wf in W. split_wf W. unfold to_bsp29_clip.
  pose proof (downcast16_spec (cn_c0 c) ltac:(assumption)) as D0.
  pose proof (downcast16_spec (cn_c1 c) ltac:(assumption)) as D1.
  destruct (downcast16 (cn_c0 c)) as [a| |]; cbn [rbind]; [|lia|assumption].
  destruct (downcast16 (cn_c1 c)) as [b| |]; cbn [rbind]; [|lia|assumption].
  destruct D0 as [A1 A2], D1 as [B1 B2]. split.
  - unfold clip_wf. cbn [cn_plane cn_c0 cn_c1]. rewrite A1, B1.
    repeat match goal with H : it_in _ _ = true |- _ => rewrite H; clear H end. reflexivity.
  - unfold of_bsp29_clip. cbn [cn_plane cn_c0 cn_c1]. rewrite A2, B2. destruct c; reflexivity.
Qed.
