From Coq Require Import List Arith NArith ZArith Bool Lia ZifyBool.
Import ListNotations.
From Verif Require Import Base Codec NumCastModel NumCastProofs BspRecModel.
Local Open Scope Z_scope.

Lemma In_ity : forall t, In t [i8; u8; i16; u16; i32; u32; i64; u64] <-> In t all_ity.
Proof. reflexivity. Qed.

Ltac in_ity := match goal with |- In _ all_ity => first [assumption | unfold all_ity, f32; cbn [In]; auto 12] end.

(** ** Streaming *)
Definition tv_ok (tv : ity * Z) : Prop := In (fst tv) all_ity /\ it_in (fst tv) (snd tv) = true.

Lemma it_pow : forall t, In t all_ity -> 256 ^ Z.of_nat (it_bytes t) = 2 ^ it_bits t.
Proof.
  intros t T. unfold all_ity in T. cbn [In] in T. decompose [or] T; try contradiction; subst t; vm_compute; reflexivity.
Qed.

Lemma it_half : forall t, In t all_ity -> 2 ^ it_bits t = 2 * 2 ^ (it_bits t - 1) /\ 0 < 2 ^ (it_bits t - 1).
Proof.
  intros t T. unfold all_ity in T. cbn [In] in T. decompose [or] T; try contradiction; subst t; vm_compute; auto.
Qed.

Lemma field_ok : forall t v rest, In t all_ity -> it_in t v = true ->
  get_field t (put_field (t, v) ++ rest) = Some (v, rest).
Proof.
  intros t v rest T I. unfold get_field, put_field. cbn [fst snd].
  rewrite le_ok by apply to_unsigned_range.
  f_equal. f_equal.
  pose proof (it_pow t T) as P. destruct (it_half t T) as [H1 H2].
  unfold it_in, it_lo, it_hi in I.
  destruct (it_signed t) eqn:S.
  - apply to_of_unsigned. unfold srange. rewrite P. lia.
  - unfold to_unsigned. rewrite P. rewrite Z.mod_small by lia. rewrite Z2N.id by lia. reflexivity.
Qed.

Lemma fields_ok : forall l rest, Forall tv_ok l ->
  get_fields (map fst l) (put_fields l ++ rest) = Some (map snd l, rest).
Proof.
  induction l as [|[t v] l IH]; intros rest F; [reflexivity|].
  inversion F as [|x y [T I] F']; subst. cbn [fst snd] in T, I.
  unfold put_fields in *. cbn [put_list map fst snd get_fields].
  rewrite <- app_assoc, (field_ok t v _ T I), (IH _ F'). reflexivity.
Qed.

Lemma put_field_length : forall tv, length (put_field tv) = it_bytes (fst tv).
Proof. intros. apply put_le_length. Qed.

Lemma put_fields_length : forall l, length (put_fields l) = list_sum (map (fun tv => it_bytes (fst tv)) l).
Proof.
  unfold put_fields. induction l as [|tv l IH]; [reflexivity|].
  cbn [put_list map list_sum fold_right]. rewrite app_length, put_field_length, IH. reflexivity.
Qed.

Lemma put_fields_bytes : forall l, Forall is_byte (put_fields l).
Proof.
  unfold put_fields. induction l as [|tv l IH]; [constructor|].
  cbn [put_list]. apply Forall_app. split; [apply put_le_bytes|assumption].
Qed.

(** A record type streams correctly for the values of its member types [wf]. *)
Definition rc_good {A} (c : rcodec A) (wf : A -> bool) : Prop :=
  forall a, wf a = true ->
    Forall tv_ok (rc_write c a) /\ map fst (rc_write c a) = rc_types c /\
    rc_build c (map snd (rc_write c a)) = Some a.

Lemma rc_good_codec : forall A (c : rcodec A) wf, rc_good c wf ->
  codec_ok (fun a => wf a = true) (rc_put c) (rc_get c).
Proof.
  intros A c wf H a rest W. destruct (H a W) as (F & T & B).
  unfold rc_get, rc_put. rewrite <- T, fields_ok by assumption. rewrite B. reflexivity.
Qed.

Lemma rc_good_size : forall A (c : rcodec A) wf a, rc_good c wf -> wf a = true ->
  length (rc_put c a) = rc_size c.
Proof.
  intros A c wf a H W. destruct (H a W) as (F & T & B).
  unfold rc_put, rc_size. rewrite put_fields_length, <- T, map_map. reflexivity.
Qed.

(** Member types of each record. *)
Definition all_in (t : ity) (l : list Z) : bool := forallb (it_in t) l.

Definition node_wf (tc tb tf : ity) (n : node) : bool :=
  it_in i32 (n_plane n) && it_in tc (n_c0 n) && it_in tc (n_c1 n) && vwf tb (n_mn n) && vwf tb (n_mx n)
  && it_in tf (n_ff n) && it_in tf (n_nf n).
Definition face_wf (tp ts : ity) (f : face) : bool :=
  it_in tp (f_plane f) && it_in ts (f_side f) && it_in i32 (f_fe f) && it_in ts (f_ne f) && it_in ts (f_tex f)
  && it_in u8 (f_s0 f) && it_in u8 (f_s1 f) && it_in u8 (f_s2 f) && it_in u8 (f_s3 f) && it_in i32 (f_lo f).
Definition q1leaf_wf (tb tm : ity) (l : q1leaf) : bool :=
  it_in i32 (q1_contents l) && it_in i32 (q1_visofs l) && vwf tb (q1_mn l) && vwf tb (q1_mx l)
  && it_in tm (q1_fm l) && it_in tm (q1_nm l)
  && it_in u8 (q1_a0 l) && it_in u8 (q1_a1 l) && it_in u8 (q1_a2 l) && it_in u8 (q1_a3 l).
Definition q2leaf_wf (tc tb tm : ity) (l : q2leaf) : bool :=
  it_in i32 (q2_contents l) && it_in tc (q2_cluster l) && it_in tc (q2_area l) && vwf tb (q2_mn l)
  && vwf tb (q2_mx l) && it_in tm (q2_fl l) && it_in tm (q2_nl l) && it_in tm (q2_fb l) && it_in tm (q2_nb l).
Definition clip_wf (tc : ity) (c : clipnode) : bool :=
  it_in i32 (cn_plane c) && it_in tc (cn_c0 c) && it_in tc (cn_c1 c).
Definition model_wf (h : nat) (m : dmodel) : bool :=
  vwf f32 (dm_mn m) && vwf f32 (dm_mx m) && vwf f32 (dm_org m) && (length (dm_head m) =? h)%nat
  && all_in i32 (dm_head m) && it_in i32 (dm_vis m) && it_in i32 (dm_ff m) && it_in i32 (dm_nf m).
Definition q2model_wf (m : q2model) : bool :=
  vwf f32 (qm_mn m) && vwf f32 (qm_mx m) && vwf f32 (qm_org m)
  && it_in i32 (qm_head m) && it_in i32 (qm_ff m) && it_in i32 (qm_nf m).
Definition q1tex_wf (t : q1tex) : bool :=
  (length (qt_vecs t) =? 8)%nat && all_in f32 (qt_vecs t) && it_in i32 (qt_miptex t) && it_in i32 (qt_flags t).
Definition q2tex_wf (t : q2tex) : bool :=
  (length (q2t_vecs t) =? 8)%nat && all_in f32 (q2t_vecs t) && it_in i32 (q2t_flags t) && it_in i32 (q2t_value t)
  && (length (q2t_name t) =? 32)%nat && all_in u8 (q2t_name t) && it_in i32 (q2t_next t).
Definition plane_wf (p : dplane) : bool := vwf f32 (dp_n p) && it_in f32 (dp_dist p) && it_in i32 (dp_type p).
Definition area_wf (a : darea) : bool := it_in i32 (da_num a) && it_in i32 (da_first a).
Definition areaportal_wf (a : dareaportal) : bool := it_in i32 (ap_portal a) && it_in i32 (ap_other a).
Definition brush_wf (b : dbrush) : bool := it_in i32 (db_first b) && it_in i32 (db_num b) && it_in i32 (db_contents b).
Definition side_wf (tp tt : ity) (s : dbrushside) : bool := it_in tp (bs_plane s) && it_in tt (bs_tex s).
Definition edge_wf (t : ity) (e : dedge) : bool := it_in t (e_0 e) && it_in t (e_1 e).
Definition lump_wf (l : lump) : bool := it_in i32 (lu_ofs l) && it_in i32 (lu_len l).
Definition bspxhdr_wf (h : bspxhdr) : bool :=
  (length (bh_id h) =? 4)%nat && all_in u8 (bh_id h) && it_in u32 (bh_num h).
Definition bspxlump_wf (h : bspxlump) : bool :=
  (length (bl_name h) =? 24)%nat && all_in u8 (bl_name h) && it_in u32 (bl_ofs h) && it_in u32 (bl_len h).
Definition dmiptex_wf (m : dmiptex) : bool :=
  (length (mi_name m) =? 16)%nat && all_in u8 (mi_name m) && it_in u32 (mi_w m) && it_in u32 (mi_h m)
  && (length (mi_ofs m) =? 4)%nat && all_in i32 (mi_ofs m).

Ltac unand H := repeat rewrite andb_true_iff in H; decompose [and] H; clear H.
Ltac tvs := cbn [app]; repeat match goal with
  | |- Forall _ (_ :: _) => apply Forall_cons; [split; cbn [fst snd]; [in_ity|assumption]|]
  | |- Forall _ [] => constructor
  end.

Lemma all_in_tv : forall t l, In t all_ity -> all_in t l = true -> Forall tv_ok (map (fun v => (t, v)) l).
Proof.
  intros t l T H. unfold all_in in H. rewrite forallb_forall in H.
  apply Forall_forall. intros x Hx. apply in_map_iff in Hx. destruct Hx as (v & <- & Hv).
  split; cbn; auto.
Qed.

Lemma map_fst_const : forall (t : ity) l, map fst (map (fun v : Z => (t, v)) l) = repeat t (length l).
Proof. induction l; cbn; [reflexivity|]. rewrite IHl. reflexivity. Qed.
Lemma map_snd_const : forall (t : ity) l, map snd (map (fun v : Z => (t, v)) l) = l.
Proof. induction l; cbn; [reflexivity|]. rewrite IHl. reflexivity. Qed.

Lemma skipn_len_app : forall A (a b : list A) n, length a = n -> skipn n (a ++ b) = b.
Proof. intros A a b n <-. rewrite skipn_app, skipn_all, Nat.sub_diag. reflexivity. Qed.
Lemma firstn_len_app : forall A (a b : list A) n, length a = n -> firstn n (a ++ b) = a.
Proof. intros A a b n <-. rewrite firstn_app, firstn_all, Nat.sub_diag. cbn. apply app_nil_r. Qed.

Lemma node_good : forall tc tb tf, In tc all_ity -> In tb all_ity -> In tf all_ity ->
  rc_good (node_codec tc tb tf) (node_wf tc tb tf).
Proof.
  intros tc tb tf T1 T2 T3 [p c0 c1 [a b c] [d e f] ff nf] W. unfold node_wf, vwf in W.
  cbn [n_plane n_c0 n_c1 n_mn n_mx n_ff n_nf vx vy vz] in W. unand W.
  split; [|split; reflexivity].
  unfold node_codec; cbn [rc_write n_plane n_c0 n_c1 n_mn n_mx n_ff n_nf]; unfold vfields; cbn [vx vy vz]; tvs.
Qed.

Lemma face_good : forall tp ts, In tp all_ity -> In ts all_ity -> rc_good (face_codec tp ts) (face_wf tp ts).
Proof.
  intros tp ts T1 T2 [p s fe ne t s0 s1 s2 s3 lo] W. unfold face_wf in W. cbn [f_plane f_side f_fe f_ne f_tex f_s0 f_s1 f_s2 f_s3 f_lo] in W. unand W.
  split; [|split; reflexivity].
  unfold face_codec; cbn [rc_write f_plane f_side f_fe f_ne f_tex f_s0 f_s1 f_s2 f_s3 f_lo]; unfold vfields; cbn [vx vy vz]; tvs.
Qed.

Lemma q1leaf_good : forall tb tm, In tb all_ity -> In tm all_ity -> rc_good (q1leaf_codec tb tm) (q1leaf_wf tb tm).
Proof.
  intros tb tm T1 T2 [k v [a b c] [d e f] fm nm a0 a1 a2 a3] W. unfold q1leaf_wf, vwf in W.
  cbn [q1_contents q1_visofs q1_mn q1_mx q1_fm q1_nm q1_a0 q1_a1 q1_a2 q1_a3 vx vy vz] in W. unand W.
  split; [|split; reflexivity].
  unfold q1leaf_codec; cbn [rc_write q1_contents q1_visofs q1_mn q1_mx q1_fm q1_nm q1_a0 q1_a1 q1_a2 q1_a3]; unfold vfields; cbn [vx vy vz]; tvs.
Qed.

Lemma q2leaf_good : forall tc tb tm, In tc all_ity -> In tb all_ity -> In tm all_ity ->
  rc_good (q2leaf_codec tc tb tm) (q2leaf_wf tc tb tm).
Proof.
  intros tc tb tm T0 T1 T2 [k cl ar [a b c] [d e f] fl nl fb nb] W. unfold q2leaf_wf, vwf in W.
  cbn [q2_contents q2_cluster q2_area q2_mn q2_mx q2_fl q2_nl q2_fb q2_nb vx vy vz] in W. unand W.
  split; [|split; reflexivity].
  unfold q2leaf_codec; cbn [rc_write q2_contents q2_cluster q2_area q2_mn q2_mx q2_fl q2_nl q2_fb q2_nb]; unfold vfields; cbn [vx vy vz]; tvs.
Qed.

Lemma clip_good : forall tc, In tc all_ity -> rc_good (clip_codec tc) (clip_wf tc).
Proof.
  intros tc T [p a b] W. unfold clip_wf in W. cbn [cn_plane cn_c0 cn_c1] in W. unand W.
  split; [|split; reflexivity]. unfold clip_codec; cbn [rc_write cn_plane cn_c0 cn_c1]; unfold vfields; cbn [vx vy vz]; tvs.
Qed.

Lemma model_good : forall h, rc_good (model_codec h) (model_wf h).
Proof.
  intros h [[a b c] [d e f] [g i j] hd v ff nf] W. unfold model_wf, vwf in W.
  cbn [dm_mn dm_mx dm_org dm_head dm_vis dm_ff dm_nf vx vy vz] in W. unand W.
  assert (L : length hd = h) by (apply Nat.eqb_eq; assumption).
  split; [|split].
  - unfold model_codec. cbn [rc_write dm_mn dm_mx dm_org dm_head dm_vis dm_ff dm_nf].
    rewrite !Forall_app. repeat split; try solve [unfold vfields; cbn [vx vy vz]; tvs].
    apply all_in_tv; [in_ity|assumption].
  - unfold model_codec. cbn [rc_write rc_types dm_mn dm_mx dm_org dm_head dm_vis dm_ff dm_nf].
    rewrite !map_app, map_fst_const, L. reflexivity.
  - unfold model_codec. cbn [rc_write rc_build dm_mn dm_mx dm_org dm_head dm_vis dm_ff dm_nf vfields vx vy vz app map snd].
    rewrite map_app, map_snd_const, skipn_len_app, firstn_len_app by assumption. reflexivity.
Qed.

Lemma q2model_good : rc_good q2_model q2model_wf.
Proof.
  intros [[a b c] [d e f] [g i j] h ff nf] W. unfold q2model_wf, vwf in W.
  cbn [qm_mn qm_mx qm_org qm_head qm_ff qm_nf vx vy vz] in W. unand W.
  split; [|split; reflexivity]. unfold q2_model; cbn [rc_write qm_mn qm_mx qm_org qm_head qm_ff qm_nf]; unfold vfields; cbn [vx vy vz]; tvs.
Qed.

Lemma q1tex_good : rc_good q1_tex q1tex_wf.
Proof.
  intros [vs m f] W. unfold q1tex_wf in W. cbn [qt_vecs qt_miptex qt_flags] in W. unand W.
  assert (L : length vs = 8%nat) by (apply Nat.eqb_eq; assumption).
  unfold q1_tex. cbn [rc_write rc_types rc_build qt_vecs qt_miptex qt_flags].
  split; [|split].
  - rewrite Forall_app. split; [apply all_in_tv; [in_ity|assumption]|]. tvs.
  - rewrite map_app, map_fst_const, L. reflexivity.
  - rewrite map_app, map_snd_const, skipn_len_app, firstn_len_app by assumption. reflexivity.
Qed.

Lemma q2tex_good : rc_good q2_tex q2tex_wf.
Proof.
  intros [vs f v nm nx] W. unfold q2tex_wf in W. cbn [q2t_vecs q2t_flags q2t_value q2t_name q2t_next] in W. unand W.
  assert (L : length vs = 8%nat) by (apply Nat.eqb_eq; assumption).
  assert (L2 : length nm = 32%nat) by (apply Nat.eqb_eq; assumption).
  unfold q2_tex. cbn [rc_write rc_types rc_build q2t_vecs q2t_flags q2t_value q2t_name q2t_next].
  split; [|split].
  - rewrite !Forall_app. repeat split; try (apply all_in_tv; [in_ity|assumption]); tvs.
  - rewrite !map_app, !map_fst_const, L, L2. reflexivity.
  - rewrite !map_app, !map_snd_const, skipn_len_app, (firstn_len_app _ vs) by assumption.
    cbn [map snd app]. rewrite skipn_len_app, firstn_len_app by assumption. reflexivity.
Qed.

Lemma plane_good : rc_good plane_codec plane_wf.
Proof.
  intros [[a b c] d t] W. unfold plane_wf, vwf in W. cbn [dp_n dp_dist dp_type vx vy vz] in W. unand W.
  split; [|split; reflexivity]. unfold plane_codec; cbn [rc_write dp_n dp_dist dp_type]; unfold vfields; cbn [vx vy vz]; tvs.
Qed.

Lemma vec_good : rc_good vec_codec (vwf f32).
Proof.
  intros [a b c] W. unfold vwf in W. cbn [vx vy vz] in W. unand W.
  split; [|split; reflexivity]. unfold vec_codec; cbn [rc_write vx]; unfold vfields; cbn [vx vy vz]; tvs.
Qed.

Lemma area_good : rc_good area_codec area_wf.
Proof.
  intros [a b] W. unfold area_wf in W. cbn [da_num da_first] in W. unand W.
  split; [|split; reflexivity]. unfold area_codec; cbn [rc_write da_num da_first]; unfold vfields; cbn [vx vy vz]; tvs.
Qed.

Lemma areaportal_good : rc_good areaportal_codec areaportal_wf.
Proof.
  intros [a b] W. unfold areaportal_wf in W. cbn [ap_portal ap_other] in W. unand W.
  split; [|split; reflexivity]. unfold areaportal_codec; cbn [rc_write ap_portal ap_other]; unfold vfields; cbn [vx vy vz]; tvs.
Qed.

Lemma brush_good : rc_good brush_codec brush_wf.
Proof.
  intros [a b c] W. unfold brush_wf in W. cbn [db_first db_num db_contents] in W. unand W.
  split; [|split; reflexivity]. unfold brush_codec; cbn [rc_write db_first db_num db_contents]; unfold vfields; cbn [vx vy vz]; tvs.
Qed.

Lemma side_good : forall tp tt, In tp all_ity -> In tt all_ity -> rc_good (side_codec tp tt) (side_wf tp tt).
Proof.
  intros tp tt T1 T2 [a b] W. unfold side_wf in W. cbn [bs_plane bs_tex] in W. unand W.
  split; [|split; reflexivity]. unfold side_codec; cbn [rc_write bs_plane bs_tex]; unfold vfields; cbn [vx vy vz]; tvs.
Qed.

Lemma edge_good : forall t, In t all_ity -> rc_good (edge_codec t) (edge_wf t).
Proof.
  intros t T [a b] W. unfold edge_wf in W. cbn [e_0 e_1] in W. unand W.
  split; [|split; reflexivity]. unfold edge_codec; cbn [rc_write e_0 e_1]; unfold vfields; cbn [vx vy vz]; tvs.
Qed.

Lemma int_good : forall t, In t all_ity -> rc_good (int_codec t) (it_in t).
Proof.
  intros t T v W. split; [|split; reflexivity]. unfold int_codec; cbn [rc_write fst]; unfold vfields; cbn [vx vy vz]; tvs.
Qed.

Lemma lump_good : rc_good lump_codec lump_wf.
Proof.
  intros [a b] W. unfold lump_wf in W. cbn [lu_ofs lu_len] in W. unand W.
  split; [|split; reflexivity]. unfold lump_codec; cbn [rc_write lu_ofs lu_len]; unfold vfields; cbn [vx vy vz]; tvs.
Qed.

Lemma bspxhdr_good : rc_good bspxhdr_codec bspxhdr_wf.
Proof.
  intros [nm n] W. unfold bspxhdr_wf in W. cbn [bh_id bh_num] in W. unand W.
  assert (L : length nm = 4%nat) by (apply Nat.eqb_eq; assumption).
  unfold bspxhdr_codec. cbn [rc_write rc_types rc_build bh_id bh_num].
  split; [|split].
  - rewrite !Forall_app. repeat split; try (apply all_in_tv; [in_ity|assumption]); tvs.
  - rewrite !map_app, !map_fst_const, L. reflexivity.
  - rewrite !map_app, !map_snd_const, skipn_len_app, firstn_len_app by assumption. reflexivity.
Qed.

Lemma bspxlump_good : rc_good bspxlump_codec bspxlump_wf.
Proof.
  intros [nm o n] W. unfold bspxlump_wf in W. cbn [bl_name bl_ofs bl_len] in W. unand W.
  assert (L : length nm = 24%nat) by (apply Nat.eqb_eq; assumption).
  unfold bspxlump_codec. cbn [rc_write rc_types rc_build bl_name bl_ofs bl_len].
  split; [|split].
  - rewrite !Forall_app. repeat split; try (apply all_in_tv; [in_ity|assumption]); tvs.
  - rewrite !map_app, !map_fst_const, L. reflexivity.
  - rewrite !map_app, !map_snd_const, skipn_len_app, firstn_len_app by assumption. reflexivity.
Qed.

Lemma dmiptex_good : rc_good dmiptex_codec dmiptex_wf.
Proof.
  intros [nm w h os] W. unfold dmiptex_wf in W. cbn [mi_name mi_w mi_h mi_ofs] in W. unand W.
  assert (L : length nm = 16%nat) by (apply Nat.eqb_eq; assumption).
  assert (L2 : length os = 4%nat) by (apply Nat.eqb_eq; assumption).
  unfold dmiptex_codec. cbn [rc_write rc_types rc_build mi_name mi_w mi_h mi_ofs].
  split; [|split].
  - rewrite !Forall_app. repeat split; try (apply all_in_tv; [in_ity|assumption]); tvs.
  - rewrite !map_app, !map_fst_const, L, L2. reflexivity.
  - rewrite !map_app, !map_snd_const, skipn_len_app, firstn_len_app by assumption. reflexivity.
Qed.
