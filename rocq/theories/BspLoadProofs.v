(* A written file loads to what was written. *)
From Coq Require Import List Arith NArith ZArith Bool Lia.
Import ListNotations.
From Verif Require Import Base Codec NumCastModel NumCastProofs BspRecModel BspRecProofs BspFileModel
  BspReadProofs BspTexProofs BspWriteProofs.
Local Open Scope Z_scope.

(** ** Well-formed contents: every member has a value of its type *)

Definition node_ok (v : ver) : node -> bool :=
  match v with VQ1 | VH2 | VHl => node_wf i16 i16 u16 | VBsp2 | VH2Bsp2 | VQbism => node_wf i32 f32 u32
  | VRmq | VH2Rmq => node_wf i32 i16 u32 | VQ2 => node_wf i32 i16 u16 end.
Definition face_ok (v : ver) : face -> bool :=
  match v with VQ1 | VH2 | VHl => face_wf i16 i16 | VQ2 => face_wf u16 i16 | VQbism => face_wf u32 i32 | _ => face_wf i32 i32 end.
Definition clipn_ok (v : ver) : clipnode -> bool :=
  match v with VQ1 | VH2 | VHl => clip_wf i16 | _ => clip_wf i32 end.
Definition q1leaf_ok (v : ver) : q1leaf -> bool :=
  match v with VQ1 | VH2 | VHl => q1leaf_wf i16 u16 | VRmq | VH2Rmq => q1leaf_wf i16 u32 | _ => q1leaf_wf f32 u32 end.
Definition q2leaf_ok (v : ver) : q2leaf -> bool :=
  match v with VQ2 => q2leaf_wf i16 i16 u16 | _ => q2leaf_wf i32 f32 u32 end.
Definition idx_ty (v : ver) : ity := if v_wide v then u32 else u16.
Definition sides_ok (v : ver) : dbrushside -> bool := match v with VQ2 => side_wf u16 i16 | _ => side_wf u32 i32 end.
Definition models_ok (v : ver) : dmodel -> bool := model_wf (if is_h2 v then 8 else 4).

Definition all {A} (p : A -> bool) (l : list A) : Prop := Forall (fun x => p x = true) l.

Definition q1_wf (v : ver) (b : q1bsp (list miptex)) : Prop :=
  all plane_wf (b1_planes b) /\ Forall tex_ok (b1_tex b) /\ all (vwf f32) (b1_verts b) /\
  all (node_ok v) (b1_nodes b) /\ all q1tex_wf (b1_texinfo b) /\ all (face_ok v) (b1_faces b) /\
  all (clipn_ok v) (b1_clips b) /\ all (q1leaf_ok v) (b1_leafs b) /\ all (it_in (idx_ty v)) (b1_marks b) /\
  all (edge_wf (idx_ty v)) (b1_edges b) /\ all (it_in i32) (b1_surfedges b) /\ all (models_ok v) (b1_models b).

Definition q2_wf (v : ver) (b : q2bsp) : Prop :=
  all plane_wf (b2_planes b) /\ all (vwf f32) (b2_verts b) /\
  (vis_wf (b2_vis b) /\ (mv_ofs (b2_vis b) = [] -> mv_bits (b2_vis b) = [])) /\
  all (node_ok v) (b2_nodes b) /\ all q2tex_wf (b2_texinfo b) /\ all (face_ok v) (b2_faces b) /\
  all (q2leaf_ok v) (b2_leafs b) /\ all (it_in (idx_ty v)) (b2_leaffaces b) /\
  all (it_in (idx_ty v)) (b2_leafbrushes b) /\ all (edge_wf (idx_ty v)) (b2_edges b) /\
  all (it_in i32) (b2_surfedges b) /\ all q2model_wf (b2_models b) /\ all brush_wf (b2_brushes b) /\
  all (sides_ok v) (b2_sides b) /\ all area_wf (b2_areas b) /\ all areaportal_wf (b2_areaportals b).

(** The format of the version holds such a BSP; the models lump cannot be taken for the other
    game's. *)
Definition bsp_wf (v : ver) (b : bspv (list miptex)) : Prop :=
  match b with
  | B1 b => is_q2 v = false /\ q1_wf v b
  | B2 b => is_q2 v = true /\ q2_wf v b
  end.
(** The number of models rules out the other game's record size: isHexen2 need not guess. *)
Definition models_distinct (v : ver) (b : bspv (list miptex)) : Prop :=
  match b with
  | B1 b => if is_h2 v then (length (b1_models b) mod 4 <> 0)%nat
            else v = VHl \/ (length (b1_models b) mod 5 <> 0)%nat
  | B2 _ => True
  end.

Definition xname_ok (n : list N) : Prop := (length n <= 23)%nat /\ Forall (fun c => (0 < c < 256)%N) n.
Definition bspx_wf (x : bspx) : Prop := NoDup (map fst x) /\ Forall xname_ok (map fst x).

(** ** Codecs of each version *)

Lemma v_node_good : forall v, rc_good (v_node v) (node_ok v).
Proof. destruct v; apply node_good; in_ity. Qed.
Lemma v_face_good : forall v, rc_good (v_face v) (face_ok v).
Proof. destruct v; apply face_good; in_ity. Qed.
Lemma v_clip_good : forall v, rc_good (v_clip v) (clipn_ok v).
Proof. destruct v; apply clip_good; in_ity. Qed.
Lemma v_q1leaf_good : forall v, rc_good (v_q1leaf v) (q1leaf_ok v).
Proof. destruct v; apply q1leaf_good; in_ity. Qed.
Lemma v_q2leaf_good : forall v, rc_good (v_q2leaf v) (q2leaf_ok v).
Proof. destruct v; apply q2leaf_good; in_ity. Qed.
Lemma idx_all : forall v, In (idx_ty v) all_ity.
Proof. destruct v; in_ity. Qed.
Lemma v_int_good : forall v, rc_good (v_int v) (it_in (idx_ty v)).
Proof. intros. apply int_good, idx_all. Qed.
Lemma v_edge_good : forall v, rc_good (v_edge v) (edge_wf (idx_ty v)).
Proof. intros. apply edge_good, idx_all. Qed.
Lemma v_side_good : forall v, rc_good (v_side v) (sides_ok v).
Proof. destruct v; apply side_good; in_ity. Qed.
Lemma v_model_good : forall v, rc_good (v_model v) (models_ok v).
Proof. destruct v; apply model_good. Qed.

(** The entry of the lump table is the record's size. *)
Definition spec_ok {A} (v : ver) (i : nat) (c : rcodec A) : Prop :=
  c_sizeof (rc_types c) = rc_size c /\ spec_size v i = Z.of_nat (rc_size c) /\ 0 < spec_size v i.
Ltac spec_tac := match goal with v : ver |- _ => destruct v end; try discriminate; vm_compute; repeat split; reflexivity.

Lemma recs_expect : forall A v i (c : rcodec A) wf l, rc_good c wf -> all wf l -> spec_ok v i c ->
  expect_ok (w_recs v i c l).
Proof.
  intros A v i c wf l G W (S1 & S2 & S3) p. cbn [w_recs w_expect w_bytes].
  rewrite (put_recs_size A c wf l G W), S2. reflexivity.
Qed.
Lemma raw_expect : forall i l, expect_ok (w_raw i l).
Proof. intros i l p. reflexivity. Qed.
Lemma str_expect : forall i l, expect_ok (w_str i l).
Proof. intros i l p. cbn [w_str w_expect w_bytes]. rewrite size_app. reflexivity. Qed.

Lemma wlumps_expect : forall v b, bsp_wf v b -> Forall expect_ok (wlumps v b).
Proof.
  intros v [b|b] H; cbn [bsp_wf] in H; destruct H as [Q H]; cbn [wlumps].
  - destruct H as (H1 & _ & H3 & H4 & H5 & H6 & H7 & H8 & H9 & H10 & H11 & H12).
    unfold q1_wlumps. repeat apply Forall_cons; try apply Forall_nil.
    all: try apply raw_expect; try apply str_expect; try (intros p; exact I).
    + eapply recs_expect; [apply plane_good|eassumption|spec_tac].
    + eapply recs_expect; [apply v_q1leaf_good|eassumption|spec_tac].
    + eapply recs_expect; [apply vec_good|eassumption|spec_tac].
    + eapply recs_expect; [apply v_node_good|eassumption|spec_tac].
    + eapply recs_expect; [apply q1tex_good|eassumption|spec_tac].
    + eapply recs_expect; [apply v_face_good|eassumption|spec_tac].
    + eapply recs_expect; [apply v_clip_good|eassumption|spec_tac].
    + eapply recs_expect; [apply v_int_good|eassumption|spec_tac].
    + eapply recs_expect; [apply int_good; in_ity|eassumption|spec_tac].
    + eapply recs_expect; [apply v_edge_good|eassumption|spec_tac].
    + eapply recs_expect; [apply v_model_good|eassumption|spec_tac].
  - destruct H as (H1 & H2 & _ & H4 & H5 & H6 & H7 & H8 & H9 & H10 & H11 & H12 & H13 & H14 & H15 & H16).
    unfold q2_wlumps. repeat apply Forall_cons; try apply Forall_nil.
    all: try apply raw_expect; try apply str_expect; try (intros p; exact I).
    + eapply recs_expect; [apply plane_good|eassumption|spec_tac].
    + eapply recs_expect; [apply v_q2leaf_good|eassumption|spec_tac].
    + eapply recs_expect; [apply vec_good|eassumption|spec_tac].
    + eapply recs_expect; [apply v_node_good|eassumption|spec_tac].
    + eapply recs_expect; [apply q2tex_good|eassumption|spec_tac].
    + eapply recs_expect; [apply v_face_good|eassumption|spec_tac].
    + eapply recs_expect; [apply v_int_good|apply H8|spec_tac].
    + eapply recs_expect; [apply int_good; in_ity|eassumption|spec_tac].
    + eapply recs_expect; [apply v_edge_good|eassumption|spec_tac].
    + eapply recs_expect; [apply q2model_good|eassumption|spec_tac].
    + eapply recs_expect; [apply v_int_good|apply H9|spec_tac].
    + eapply recs_expect; [apply brush_good|eassumption|spec_tac].
    + eapply recs_expect; [apply v_side_good|eassumption|spec_tac].
    + eapply recs_expect; [apply area_good|eassumption|spec_tac].
    + eapply recs_expect; [apply areaportal_good|eassumption|spec_tac].
Qed.

Lemma wlumps_idx : forall v b, bsp_wf v b ->
  Forall (fun w => (w_idx w < nlumps v)%nat) (wlumps v b) /\ NoDup (map w_idx (wlumps v b)).
Proof.
  intros v [b|b] [Q _]; cbn [wlumps].
  - split.
    + assert (nlumps v = 15%nat) as -> by (destruct v; try discriminate; reflexivity).
      unfold q1_wlumps. repeat apply Forall_cons; try apply Forall_nil; cbn; lia.
    + cbn. repeat (constructor; [cbn; lia|]). constructor.
  - split.
    + assert (nlumps v = 19%nat) as -> by (destruct v; try discriminate; reflexivity).
      unfold q2_wlumps. repeat apply Forall_cons; try apply Forall_nil; cbn; lia.
    + cbn. repeat (constructor; [cbn; lia|]). constructor.
Qed.

(** ** The directory *)

(** What write_file_ok gives, in a form for the readers. *)
Definition dir_ok (v : ver) (b : bspv (list miptex)) (hdr : list lump) : Prop :=
  length hdr = nlumps v /\
  (forall i, (i < nlumps v)%nat -> ~ In i (map w_idx (wlumps v b)) -> nth_error hdr i = Some (mkLump 0 0)) /\
  (forall l1 w l2, wlumps v b = l1 ++ w :: l2 ->
     let p := (hlen v + length (lay_body l1 (hlen v)))%nat in
     nth_error hdr (w_idx w) = Some (mkLump (Z.of_nat p) (size (w_bytes w p)))).

Lemma dir_lies : forall v b x hdr l1 w l2, dir_ok v b hdr -> wlumps v b = l1 ++ w :: l2 ->
  exists a c, file_of v b x hdr = a ++ w_bytes w (length a) ++ c /\
    (length a mod 4 = 0)%nat /\ length a = (hlen v + length (lay_body l1 (hlen v)))%nat /\
    nth (w_idx w) hdr (mkLump 0 0) = mkLump (size a) (size (w_bytes w (length a))) /\
    c = repeat 0%N (pad4 (length (w_bytes w (length a))))
        ++ lay_body l2 (length a + length (padded (w_bytes w (length a))))
        ++ xsection x (hlen v + length (lay_body (wlumps v b) (hlen v))).
Proof.
  intros v b x hdr l1 w l2 (L & _ & D) E. specialize (D l1 w l2 E). cbn zeta in D.
  assert (H0 : length (hdr_bytes v hdr) = hlen v) by (rewrite hdr_bytes_length, L; reflexivity).
  exists (hdr_bytes v hdr ++ lay_body l1 (hlen v)). eexists.
  assert (LA : length (hdr_bytes v hdr ++ lay_body l1 (hlen v)) = (hlen v + length (lay_body l1 (hlen v)))%nat)
    by (rewrite app_length, H0; reflexivity).
  rewrite LA. split; [|split; [|split; [|split; [|reflexivity]]]].
  - unfold file_of. rewrite E, lay_body_app. cbn [lay_body]. unfold padded. rewrite <- !app_assoc. reflexivity.
  - rewrite <- Nat.add_mod_idemp_l by lia. rewrite hlen_4. apply lay_body_4.
  - reflexivity.
  - rewrite (nth_error_nth _ _ _ D). unfold size. rewrite LA. reflexivity.
Qed.

Lemma file_of_size : forall v b x hdr, length hdr = nlumps v -> size (file_of v b x hdr) = file_size v b x.
Proof.
  intros v b x hdr L. unfold file_of, file_size. rewrite !size_app. unfold size at 1.
  rewrite hdr_bytes_length, L. fold (hlen v). lia.
Qed.

(** ** Reading the lumps *)

Lemma lies_of : forall v b x hdr l1 w l2, dir_ok v b hdr -> wlumps v b = l1 ++ w :: l2 ->
  (forall p q, w_bytes w p = w_bytes w q) ->
  lies (file_of v b x hdr) (nth (w_idx w) hdr (mkLump 0 0)) (w_bytes w 0%nat).
Proof.
  intros v b x hdr l1 w l2 D E C.
  destruct (dir_lies v b x hdr l1 w l2 D E) as (a & c & F & _ & _ & N & _).
  exists a, c. rewrite (C 0%nat (length a)). split; [assumption|]. rewrite N. reflexivity.
Qed.

(** The lump that [n] others precede in the order of writing. *)
Lemma lies_nth : forall v b x hdr n w, dir_ok v b hdr -> nth_error (wlumps v b) n = Some w ->
  (forall p q, w_bytes w p = w_bytes w q) ->
  lies (file_of v b x hdr) (nth (w_idx w) hdr (mkLump 0 0)) (w_bytes w 0%nat).
Proof.
  intros v b x hdr n w D E C. destruct (nth_error_split _ _ E) as (l1 & l2 & E' & _).
  eapply lies_of; eassumption.
Qed.

Lemma recs_back : forall A v b x hdr n i (c : rcodec A) wf l, dir_ok v b hdr ->
  nth_error (wlumps v b) n = Some (w_recs v i c l) -> rc_good c wf -> all wf l -> spec_ok v i c ->
  read_records (file_of v b x hdr) (spec_size v i) c (nth i hdr (mkLump 0 0)) = ROk l.
Proof.
  intros A v b x hdr n i c wf l D E G W (S1 & S2 & S3).
  apply (read_records_ok A c wf); try assumption.
  exact (lies_nth v b x hdr n (w_recs v i c l) D E (fun _ _ => eq_refl)).
Qed.
Lemma raw_back : forall v b x hdr n i l, dir_ok v b hdr ->
  nth_error (wlumps v b) n = Some (w_raw i l) ->
  read_raw (file_of v b x hdr) (nth i hdr (mkLump 0 0)) = ROk l.
Proof.
  intros v b x hdr n i l D E. apply read_raw_ok. exact (lies_nth v b x hdr n (w_raw i l) D E (fun _ _ => eq_refl)).
Qed.
Lemma str_back : forall v b x hdr n i l, dir_ok v b hdr ->
  nth_error (wlumps v b) n = Some (w_str i l) ->
  read_string (file_of v b x hdr) (nth i hdr (mkLump 0 0)) = ROk l.
Proof.
  intros v b x hdr n i l D E. apply read_string_ok. exact (lies_nth v b x hdr n (w_str i l) D E (fun _ _ => eq_refl)).
Qed.

(** What a Quake BSP becomes: the same with the textures read. *)
Definition with_tex {T U} (b : q1bsp T) (t : U) : q1bsp U :=
  mkQ1 (b1_ents b) (b1_planes b) t (b1_verts b) (b1_vis b) (b1_nodes b) (b1_texinfo b) (b1_faces b)
       (b1_light b) (b1_clips b) (b1_leafs b) (b1_marks b) (b1_edges b) (b1_surfedges b) (b1_models b).

Lemma read_q1_back : forall v b x hdr, bsp_wf v (B1 b) -> dir_ok v (B1 b) hdr ->
  file_size v (B1 b) x <= 2147483647 ->
  exists t, read_q1 (file_of v (B1 b) x hdr) v (fun i => nth i hdr (mkLump 0 0)) = ROk (with_tex b t) /\
    Forall2 tex_same (b1_tex b) t.
Proof.
  intros v b x hdr [Q H] D L.
  destruct H as (H1 & H2 & H3 & H4 & H5 & H6 & H7 & H8 & H9 & H10 & H11 & H12).
  assert (NE : nth_error (wlumps v (B1 b)) 14 = Some (mkW 2 (fun p => tex_write p (b1_tex b)) None)) by reflexivity.
  destruct (nth_error_split _ _ NE) as (l1 & l2 & E & _).
  destruct (dir_lies v (B1 b) x hdr _ _ _ D E) as (a & c & F & A4 & _ & N & _).
  cbn [w_idx w_bytes] in *.
  destruct (read_textures_ok (b1_tex b) (file_of v (B1 b) x hdr) a c F A4 H2) as (t & R & FT).
  { assert (S : size (file_of v (B1 b) x hdr) = file_size v (B1 b) x) by (apply file_of_size; apply D).
    rewrite F, !size_app in S. pose proof (size_nonneg c). lia. }
  rewrite <- N in R.
  exists t. split; [|assumption]. unfold read_q1. set (f := file_of v (B1 b) x hdr) in *.
  unfold f at 1. rewrite (str_back v (B1 b) x hdr 13 0 (b1_ents b) D eq_refl). cbn [rbind].
  unfold f at 1. rewrite (recs_back _ v (B1 b) x hdr 0 1 plane_codec plane_wf _ D eq_refl plane_good H1) by spec_tac. cbn [rbind].
  rewrite R. cbn [rbind].
  unfold f at 1. rewrite (recs_back _ v (B1 b) x hdr 2 3 vec_codec (vwf f32) _ D eq_refl vec_good H3) by spec_tac. cbn [rbind].
  unfold f at 1. rewrite (raw_back v (B1 b) x hdr 12 4 _ D eq_refl). cbn [rbind].
  unfold f at 1. rewrite (recs_back _ v (B1 b) x hdr 3 5 (v_node v) _ _ D eq_refl (v_node_good v) H4) by spec_tac. cbn [rbind].
  unfold f at 1. rewrite (recs_back _ v (B1 b) x hdr 4 6 q1_tex _ _ D eq_refl q1tex_good H5) by spec_tac. cbn [rbind].
  unfold f at 1. rewrite (recs_back _ v (B1 b) x hdr 5 7 (v_face v) _ _ D eq_refl (v_face_good v) H6) by spec_tac. cbn [rbind].
  unfold f at 1. rewrite (raw_back v (B1 b) x hdr 11 8 _ D eq_refl). cbn [rbind].
  unfold f at 1. rewrite (recs_back _ v (B1 b) x hdr 6 9 (v_clip v) _ _ D eq_refl (v_clip_good v) H7) by spec_tac. cbn [rbind].
  unfold f at 1. rewrite (recs_back _ v (B1 b) x hdr 1 10 (v_q1leaf v) _ _ D eq_refl (v_q1leaf_good v) H8) by spec_tac. cbn [rbind].
  unfold f at 1. rewrite (recs_back _ v (B1 b) x hdr 7 11 (v_int v) _ _ D eq_refl (v_int_good v) H9) by spec_tac. cbn [rbind].
  unfold f at 1. rewrite (recs_back _ v (B1 b) x hdr 9 12 (v_edge v) _ _ D eq_refl (v_edge_good v) H10) by spec_tac. cbn [rbind].
  unfold f at 1. rewrite (recs_back _ v (B1 b) x hdr 8 13 (int_codec i32) (it_in i32) _ D eq_refl (int_good i32 i32_all) H11) by spec_tac. cbn [rbind].
  unfold f at 1. rewrite (recs_back _ v (B1 b) x hdr 10 14 (v_model v) _ _ D eq_refl (v_model_good v) H12) by spec_tac. cbn [rbind].
  reflexivity.
Qed.

Lemma read_q2_back : forall v b x hdr, bsp_wf v (B2 b) -> dir_ok v (B2 b) hdr ->
  read_q2 (file_of v (B2 b) x hdr) v (fun i => nth i hdr (mkLump 0 0)) = ROk b.
Proof.
  intros v b x hdr [Q H] D.
  destruct H as (H1 & H2 & (H3 & H3') & H4 & H5 & H6 & H7 & H8 & H9 & H10 & H11 & H12 & H13 & H14 & H15 & H16).
  assert (NE : wlumps v (B2 b) = firstn 16 (wlumps v (B2 b)) ++ mkW 3 (fun _ => vis_write (b2_vis b)) None :: [w_str 0 (b2_ents b)]) by reflexivity.
  destruct (dir_lies v (B2 b) x hdr _ _ _ D NE) as (a & c & F & A4 & _ & N & C).
  cbn [w_idx w_bytes] in *.
  assert (CN : c <> []).
  { rewrite C. cbn [lay_body w_str w_bytes]. intros K. apply (f_equal (fun z => length z)) in K.
    unfold padded in K. rewrite !app_length in K. cbn [length] in K. lia. }
  pose proof (read_vis_ok (b2_vis b) _ a c H3 F CN) as R. rewrite <- N in R.
  replace (match mv_ofs (b2_vis b) with [] => mkVis [] [] | _ => b2_vis b end) with (b2_vis b) in R.
  2:{ destruct (b2_vis b) as [o bi]. cbn [mv_ofs mv_bits] in *. destruct o; [rewrite H3' by reflexivity; reflexivity|reflexivity]. }
  unfold read_q2. set (f := file_of v (B2 b) x hdr) in *.
  unfold f at 1. rewrite (str_back v (B2 b) x hdr 17 0 (b2_ents b) D eq_refl). cbn [rbind].
  unfold f at 1. rewrite (recs_back _ v (B2 b) x hdr 0 1 plane_codec plane_wf _ D eq_refl plane_good H1) by spec_tac. cbn [rbind].
  unfold f at 1. rewrite (recs_back _ v (B2 b) x hdr 2 2 vec_codec (vwf f32) _ D eq_refl vec_good H2) by spec_tac. cbn [rbind].
  rewrite R. cbn [rbind].
  unfold f at 1. rewrite (recs_back _ v (B2 b) x hdr 3 4 (v_node v) _ _ D eq_refl (v_node_good v) H4) by spec_tac. cbn [rbind].
  unfold f at 1. rewrite (recs_back _ v (B2 b) x hdr 4 5 q2_tex _ _ D eq_refl q2tex_good H5) by spec_tac. cbn [rbind].
  unfold f at 1. rewrite (recs_back _ v (B2 b) x hdr 5 6 (v_face v) _ _ D eq_refl (v_face_good v) H6) by spec_tac. cbn [rbind].
  unfold f at 1. rewrite (raw_back v (B2 b) x hdr 15 7 _ D eq_refl). cbn [rbind].
  unfold f at 1. rewrite (recs_back _ v (B2 b) x hdr 1 8 (v_q2leaf v) _ _ D eq_refl (v_q2leaf_good v) H7) by spec_tac. cbn [rbind].
  unfold f at 1. rewrite (recs_back _ v (B2 b) x hdr 6 9 (v_int v) _ _ D eq_refl (v_int_good v) H8) by spec_tac. cbn [rbind].
  unfold f at 1. rewrite (recs_back _ v (B2 b) x hdr 10 10 (v_int v) _ _ D eq_refl (v_int_good v) H9) by spec_tac. cbn [rbind].
  unfold f at 1. rewrite (recs_back _ v (B2 b) x hdr 8 11 (v_edge v) _ _ D eq_refl (v_edge_good v) H10) by spec_tac. cbn [rbind].
  unfold f at 1. rewrite (recs_back _ v (B2 b) x hdr 7 12 (int_codec i32) (it_in i32) _ D eq_refl (int_good i32 i32_all) H11) by spec_tac. cbn [rbind].
  unfold f at 1. rewrite (recs_back _ v (B2 b) x hdr 9 13 q2_model _ _ D eq_refl q2model_good H12) by spec_tac. cbn [rbind].
  unfold f at 1. rewrite (recs_back _ v (B2 b) x hdr 11 14 brush_codec _ _ D eq_refl brush_good H13) by spec_tac. cbn [rbind].
  unfold f at 1. rewrite (recs_back _ v (B2 b) x hdr 12 15 (v_side v) _ _ D eq_refl (v_side_good v) H14) by spec_tac. cbn [rbind].
  unfold f at 1. rewrite (recs_back _ v (B2 b) x hdr 13 17 area_codec _ _ D eq_refl area_good H15) by spec_tac. cbn [rbind].
  unfold f at 1. rewrite (recs_back _ v (B2 b) x hdr 14 18 areaportal_codec _ _ D eq_refl areaportal_good H16) by spec_tac. cbn [rbind].
  destruct b; reflexivity.
Qed.

(** ** The header *)

Lemma put_fields_app : forall a b, put_fields (a ++ b) = put_fields a ++ put_fields b.
Proof. intros. unfold put_fields. apply put_list_app. Qed.
Lemma put_recs_flat : forall A (c : rcodec A) l, put_list (rc_put c) l = put_fields (flat_map (rc_write c) l).
Proof.
  induction l as [|a l IH]; [reflexivity|]. cbn [put_list flat_map]. rewrite put_fields_app, <- IH. reflexivity.
Qed.

Definition hdr_fields (v : ver) (l : list lump) : list (ity * Z) :=
  ((i32, ver_ident v) :: match ver_num v with Some n => [(i32, n)] | None => [] end) ++ flat_map (rc_write lump_codec) l.
Lemma hdr_bytes_fields : forall v l, hdr_bytes v l = put_fields (hdr_fields v l).
Proof. intros. unfold hdr_bytes, hdr_fields. rewrite put_recs_flat, put_fields_app. reflexivity. Qed.

Lemma lumps_of_flat : forall l, lumps_of (map snd (flat_map (rc_write lump_codec) l)) = l.
Proof.
  induction l as [|[o n] l IH]; [reflexivity|]. cbn [flat_map rc_write lump_codec lu_ofs lu_len app map snd].
  unfold lumps_of in *. f_equal. exact IH.
Qed.
Lemma types_flat : forall l, map fst (flat_map (rc_write lump_codec) l) = repeat i32 (2 * length l).
Proof.
  induction l as [|[o n] l IH]; [reflexivity|]. cbn [flat_map length]. rewrite map_app, IH. replace (2 * S (length l))%nat with (S (S (2 * length l))) by lia. reflexivity.
Qed.

Lemma hdr_fields_ok : forall v l, all lump_wf l -> Forall tv_ok (hdr_fields v l).
Proof.
  intros v l W. unfold hdr_fields. apply Forall_app. split.
  - assert (I : forall z, it_in i32 z = true -> tv_ok (i32, z)) by (intros z Hz; split; [apply i32_all|assumption]).
    destruct v; cbn [ver_num]; repeat (apply Forall_cons || apply Forall_nil); apply I; vm_compute; reflexivity.
  - induction W as [|[o n] l W1 W2 IH]; [constructor|]. cbn [flat_map rc_write lump_codec lu_ofs lu_len app].
    unfold lump_wf in W1. cbn [lu_ofs lu_len] in W1. apply andb_true_iff in W1. destruct W1 as [W1 W3].
    constructor; [split; [apply i32_all|assumption]|]. constructor; [split; [apply i32_all|assumption]|]. assumption.
Qed.

(** Every entry of the directory lies in the file's lump section. *)
Lemma dir_entries : forall v b hdr, bsp_wf v b -> dir_ok v b hdr ->
  Forall (fun lu => 0 <= lu_ofs lu /\ 0 <= lu_len lu /\
    lu_ofs lu + lu_len lu <= Z.of_nat (hlen v + length (lay_body (wlumps v b) (hlen v)))) hdr.
Proof.
  intros v b hdr W D. destruct D as (L & D1 & D2). apply Forall_forall. intros lu I.
  destruct (In_nth_error _ _ I) as [i Hi].
  assert (Li : (i < nlumps v)%nat) by (rewrite <- L; apply nth_error_Some; congruence).
  destruct (in_dec Nat.eq_dec i (map w_idx (wlumps v b))) as [Y|Nn].
  - apply in_map_iff in Y. destruct Y as (w & <- & Iw). destruct (in_split _ _ Iw) as (l1 & l2 & E).
    rewrite (D2 l1 w l2 E) in Hi. injection Hi as <-. cbn [lu_ofs lu_len].
    set (p := (hlen v + length (lay_body l1 (hlen v)))%nat). pose proof (size_nonneg (w_bytes w p)).
    rewrite E, lay_body_app, app_length. cbn [lay_body]. rewrite app_length. fold p.
    unfold padded. rewrite app_length. fold p in H. unfold size in *. lia.
  - rewrite D1 in Hi by assumption. injection Hi as <-. cbn. lia.
Qed.

Lemma body_le : forall v b x, Z.of_nat (hlen v + length (lay_body (wlumps v b) (hlen v))) <= file_size v b x.
Proof.
  intros. unfold file_size. cbv zeta. pose proof (size_nonneg (xsection x (hlen v + length (lay_body (wlumps v b) (hlen v))))).
  unfold size in *. lia.
Qed.

Lemma dir_wf : forall v b x hdr, bsp_wf v b -> dir_ok v b hdr -> file_size v b x <= 2147483647 -> all lump_wf hdr.
Proof.
  intros v b x hdr W D L. pose proof (dir_entries v b hdr W D) as F. pose proof (body_le v b x).
  unfold all. eapply Forall_impl; [|exact F]. intros lu (A & B & C). unfold lump_wf.
  rewrite !in_i32 by lia. reflexivity.
Qed.

(** ** BSPX *)

Lemma cstr_ok : forall n k, Forall (fun c => (0 < c < 256)%N) n -> (0 < k)%nat ->
  cstr (map Z.of_N n ++ repeat 0 k) = Some n.
Proof.
  induction n as [|c n IH]; intros k F K.
  - destruct k; [lia|]. reflexivity.
  - inversion F; subst. cbn [map app cstr].
    replace (Z.of_N c =? 0) with false by (symmetry; apply Z.eqb_neq; lia).
    rewrite IH by assumption. rewrite N2Z.id. reflexivity.
Qed.
Lemma xname_cstr : forall n, xname_ok n -> cstr (xname n) = Some n.
Proof.
  intros n [L F]. unfold xname. rewrite firstn_all2 by lia. apply cstr_ok; [assumption|lia].
Qed.
Lemma xname_wf : forall n, xname_ok n -> all_in u8 (xname n) = true.
Proof.
  intros n [L F]. unfold xname. rewrite firstn_all2 by lia. unfold all_in. rewrite forallb_app.
  apply andb_true_iff. split; apply forallb_forall; intros z I.
  - apply in_map_iff in I. destruct I as (c & <- & I). rewrite Forall_forall in F. specialize (F c I).
    unfold it_in, it_lo, it_hi. cbn. lia.
  - apply repeat_spec in I. subst. reflexivity.
Qed.

Lemma assign_new : forall x n d, ~ In n (map fst x) -> assign x n d = x ++ [(n, d)].
Proof.
  induction x as [|[k e] x IH]; intros n d H; [reflexivity|]. cbn [assign map fst In] in *.
  destruct (list_eq_dec N.eq_dec k n); [tauto|]. rewrite IH by tauto. reflexivity.
Qed.

Lemma xlump_wf_ok : forall n o l, xname_ok n -> 0 <= o <= 2147483647 -> 0 <= l <= 2147483647 ->
  bspxlump_wf (mkBspxLump (xname n) o l) = true.
Proof.
  intros n o l N O L. unfold bspxlump_wf. cbn [bl_name bl_ofs bl_len]. rewrite xname_length, xname_wf by assumption.
  unfold it_in, it_lo, it_hi, u32. cbn [it_bits it_signed Nat.eqb andb]. change (2 ^ 32 - 1) with 4294967295.
  repeat (apply andb_true_iff; split); try reflexivity; apply Z.leb_le; lia.
Qed.

Lemma read_xlumps_ok : forall x f acc p pre post A C,
  f = pre ++ put_list (rc_put bspxlump_codec) (xdir x p) ++ post ->
  f = A ++ xbody x ++ C -> length A = p -> size f <= 2147483647 ->
  Forall xname_ok (map fst x) -> NoDup (map fst (acc ++ x)) ->
  read_xlumps f (length x) (mkM (size pre) true) acc = ROk (acc ++ x).
Proof.
  induction x as [|[n d] x IH]; intros f acc p pre post A C E1 E2 LA L W ND.
  - cbn [length read_xlumps]. rewrite app_nil_r. reflexivity.
  - cbn [map fst] in W. inversion W as [|q r W1 W2]; subst q r. cbn [xdir put_list xbody length read_xlumps] in *.
    set (xl := mkBspxLump (xname n) (Z.of_nat p) (size d)) in *.
    assert (SF : size f = size A + size (padded d) + size (xbody x) + size C) by (rewrite E2, !size_app; lia).
    assert (SD : 0 <= size d <= size (padded d)).
    { unfold padded. rewrite size_app. pose proof (size_nonneg d). pose proof (size_nonneg (repeat 0%N (pad4 (length d)))). lia. }
    pose proof (size_nonneg (xbody x)). pose proof (size_nonneg C). pose proof (size_nonneg A).
    assert (SA : size A = Z.of_nat p) by (unfold size; rewrite LA; reflexivity).
    rewrite <- app_assoc in E1.
    rewrite (mrec_ok _ bspxlump_codec bspxlump_wf xl f pre (put_list (rc_put bspxlump_codec) (xdir x (p + length (padded d))) ++ post) bspxlump_good)
      by (try assumption; apply xlump_wf_ok; try assumption; lia).
    cbn [rbind fst snd]. change (bl_ofs xl) with (Z.of_nat p). change (bl_len xl) with (size d). change (bl_name xl) with (xname n).
    rewrite wrap_u32 by lia.
    replace ((size f <? Z.of_nat p) || (size f <? Z.of_nat p + size d)) with false
      by (symmetry; apply orb_false_iff; split; apply Z.ltb_ge; lia).
    rewrite xname_cstr by assumption.
    replace (size f <? Z.of_nat p + size d) with false by (symmetry; apply Z.ltb_ge; lia).
    assert (SL : slice f (Z.of_nat p) (size d) = d).
    { rewrite E2, <- SA. unfold padded. rewrite <- !app_assoc. apply slice_app. }
    rewrite SL.
    assert (NA : ~ In n (map fst acc)).
    { rewrite map_app in ND. cbn [map fst] in ND. apply NoDup_remove_2 in ND. intros I. apply ND. apply in_or_app. left. assumption. }
    rewrite assign_new by assumption. rewrite <- size_app.
    rewrite (IH f (acc ++ [(n, d)]) (p + length (padded d))%nat (pre ++ rc_put bspxlump_codec xl) post (A ++ padded d) C).
    + rewrite <- app_assoc. reflexivity.
    + rewrite E1, <- app_assoc. reflexivity.
    + rewrite E2, <- !app_assoc. reflexivity.
    + rewrite app_length, LA. reflexivity.
    + assumption.
    + assumption.
    + rewrite <- app_assoc. exact ND.
Qed.

Lemma bspx_ofs_ok : forall l acc E, 0 <= acc <= E -> E <= 2147483647 ->
  Forall (fun lu => 0 <= lu_ofs lu /\ 0 <= lu_len lu /\ lu_ofs lu + lu_len lu <= E) l ->
  exists m, bspx_ofs l acc = ROk m /\ acc <= m <= E /\ Forall (fun lu => lu_ofs lu + lu_len lu <= m) l.
Proof.
  induction l as [|lu l IH]; intros acc E A B F.
  - exists acc. split; [reflexivity|]. split; [lia|constructor].
  - inversion F as [|q r (F1 & F2 & F3) F4]; subst q r. cbn [bspx_ofs].
    rewrite in_i32 by lia. cbn [negb]. rewrite wrap_u64 by lia.
    destruct (IH (Z.max acc (lu_ofs lu + lu_len lu)) E) as (m & M1 & M2 & M3); [lia|assumption|assumption|].
    exists m. split; [assumption|]. split; [lia|]. constructor; [lia|assumption].
Qed.

Lemma wlumps_last : forall v b, exists l1 w, wlumps v b = l1 ++ [w].
Proof.
  intros v [b|b]; cbn [wlumps].
  - exists (firstn 14 (q1_wlumps v b)), (mkW 2 (fun p => tex_write p (b1_tex b)) None). reflexivity.
  - exists (firstn 17 (q2_wlumps v b)), (w_str 0 (b2_ents b)). reflexivity.
Qed.

Lemma read_bspx_ok : forall v b x hdr, bsp_wf v b -> dir_ok v b hdr -> bspx_wf x ->
  file_size v b x <= 2147483647 -> read_bspx (file_of v b x hdr) hdr = ROk x.
Proof.
  intros v b x hdr W D [X1 X2] L.
  set (E := (hlen v + length (lay_body (wlumps v b) (hlen v)))%nat).
  pose proof (dir_entries v b hdr W D) as F. fold E in F.
  pose proof (body_le v b x) as BL. fold E in BL.
  assert (SF : size (file_of v b x hdr) = file_size v b x) by (apply file_of_size; apply D).
  destruct (bspx_ofs_ok hdr 0 (Z.of_nat E)) as (m & M1 & M2 & M3); [lia|lia|assumption|].
  (* the last lump ends just before the padding *)
  assert (ME : Z.of_nat E - 3 <= m).
  { destruct (wlumps_last v b) as (l1 & w & EW).
    destruct D as (D0 & _ & D2). specialize (D2 l1 w [] EW). cbn zeta in D2.
    rewrite Forall_forall in M3. specialize (M3 _ (nth_error_In _ _ D2)). cbn [lu_ofs lu_len] in M3.
    unfold E. rewrite EW, lay_body_app, app_length. cbn [lay_body]. rewrite app_nil_r.
    set (p := (hlen v + length (lay_body l1 (hlen v)))%nat) in *. unfold padded. rewrite app_length, repeat_length.
    destruct (pad4_spec (length (w_bytes w p))) as [P _]. unfold size in M3. lia. }
  assert (E4 : (E mod 4 = 0)%nat).
  { unfold E. rewrite <- Nat.add_mod_idemp_l by lia. rewrite hlen_4. apply lay_body_4. }
  assert (EZ : Z.of_nat E mod 4 = 0) by (change 4 with (Z.of_nat 4); rewrite <- Nat2Z.inj_mod, E4; reflexivity).
  assert (OF : (m + 3) / 4 * 4 = Z.of_nat E).
  { pose proof (Z.div_mod (Z.of_nat E) 4 ltac:(lia)) as DM. rewrite EZ in DM.
    assert ((m + 3) / 4 = Z.of_nat E / 4); [|lia].
    symmetry. apply (Z.div_unique (m + 3) 4 (Z.of_nat E / 4) (m + 3 - Z.of_nat E)); lia. }
  unfold read_bspx. rewrite M1. cbn [rbind]. cbv zeta. rewrite (wrap_u64 (m + 3)) by lia. rewrite OF. rewrite wrap_u64 by lia. rewrite SF.
  destruct x as [|x0 x'].
  - replace (Z.of_nat E + 8 <=? file_size v b []) with false; [reflexivity|].
    symmetry. apply Z.leb_gt. unfold file_size. cbn [xsection]. unfold size, E. cbn [length]. lia.
  - set (x := x0 :: x') in *.
    assert (XS : xsection x E = xhdr x ++ put_list (rc_put bspxlump_codec) (xdir x (E + 8 + 32 * length x)) ++ xbody x) by reflexivity.
    assert (HL : size (xhdr x) = 8) by reflexivity.
    assert (FS : file_size v b x = Z.of_nat E + size (xsection x E)).
    { unfold file_size, E, size. lia. }
    rewrite XS, !size_app, HL in FS.
    set (dirs := put_list (rc_put bspxlump_codec) (xdir x (E + 8 + 32 * length x))) in *.
    assert (DL : length dirs = (32 * length x)%nat) by apply xdirs_length.
    pose proof (size_nonneg dirs). pose proof (size_nonneg (xbody x)).
    replace (Z.of_nat E + 8 <=? file_size v b x) with true by (symmetry; apply Z.leb_le; lia).
    assert (WI : it_wrap i64 (Z.of_nat E) = Z.of_nat E).
    { apply wrap_in; [in_ity|]. unfold it_in, it_lo, it_hi, i64. cbn [it_bits it_signed].
      change (2 ^ (64 - 1)) with 9223372036854775808. apply andb_true_iff; split; apply Z.leb_le; lia. }
    rewrite WI.
    set (a := hdr_bytes v hdr ++ lay_body (wlumps v b) (hlen v)).
    assert (LA : length a = E).
    { unfold a. rewrite app_length, hdr_bytes_length. destruct D as (-> & _). reflexivity. }
    assert (SA : size a = Z.of_nat E) by (unfold size; rewrite LA; reflexivity).
    assert (FE : file_of v b x hdr = a ++ xhdr x ++ dirs ++ xbody x).
    { unfold file_of. fold E. rewrite XS. unfold a. rewrite <- !app_assoc. reflexivity. }
    rewrite <- SA, mseek_ok.
    rewrite (mrec_ok _ bspxhdr_codec bspxhdr_wf (mkBspxHdr [66; 83; 80; 88] (Z.of_nat (length x))) _ a (dirs ++ xbody x) bspxhdr_good).
    2:{ unfold bspxhdr_wf. cbn [bh_id bh_num]. change (all_in u8 [66; 83; 80; 88]) with true. cbn [length Nat.eqb andb].
        unfold size in FS at 1. rewrite DL in FS. unfold it_in, it_lo, it_hi, u32. cbn [it_bits it_signed].
        change (2 ^ 32 - 1) with 4294967295. apply andb_true_iff; split; apply Z.leb_le; lia. }
    2:{ exact FE. }
    cbn [rbind fst snd bh_id bh_num].
    destruct (list_eq_dec Z.eq_dec [66; 83; 80; 88] [66; 83; 80; 88]) as [_|K]; [|congruence].
    rewrite Nat2Z.id. fold (xhdr x). rewrite <- size_app.
    rewrite (read_xlumps_ok x _ [] (E + 8 + 32 * length x)%nat (a ++ xhdr x) (xbody x) (a ++ xhdr x ++ dirs) []).
    + reflexivity.
    + rewrite FE, <- !app_assoc. reflexivity.
    + rewrite FE, app_nil_r, <- !app_assoc. reflexivity.
    + rewrite !app_length, LA, DL. change (length (xhdr x)) with 8%nat. lia.
    + rewrite SF. assumption.
    + assumption.
    + exact X1.
Qed.

(** ** Detection of Hexen II *)

Definition base_ver (v : ver) : ver := match v with VH2 => VQ1 | VH2Bsp2 => VBsp2 | VH2Rmq => VRmq | _ => v end.

Lemma is_hexen2_ok : forall v b x hdr, bsp_wf v (B1 b) -> dir_ok v (B1 b) hdr ->
  file_size v (B1 b) x <= 2147483647 -> v <> VHl -> models_distinct v (B1 b) ->
  forall f, is_hexen2 f (base_ver v) (fun i => nth i hdr (mkLump 0 0)) = ROk (is_h2 v).
Proof.
  intros v b x hdr W D L NH MD f. unfold is_hexen2.
  assert (NE : nth_error (wlumps v (B1 b)) 10 = Some (w_recs v 14 (v_model v) (b1_models b))) by reflexivity.
  destruct (nth_error_split _ _ NE) as (l1 & l2 & E & _).
  destruct (dir_lies v (B1 b) x hdr _ _ _ D E) as (a & c & F & _ & _ & N & _). cbn [w_idx w_bytes w_recs] in F, N.
  rewrite N. cbn [lu_len lu_ofs].
  assert (SF : size (file_of v (B1 b) x hdr) = file_size v (B1 b) x) by (apply file_of_size; apply D).
  rewrite F, !size_app in SF. pose proof (size_nonneg a). pose proof (size_nonneg c).
  pose proof (size_nonneg (put_list (rc_put (v_model v)) (b1_models b))).
  rewrite wrap_u64 by lia.
  assert (M : size (put_list (rc_put (v_model v)) (b1_models b)) = (if is_h2 v then 80 else 64) * Z.of_nat (length (b1_models b))).
  { destruct W as [Q W]. rewrite (put_recs_size _ (v_model v) (models_ok v)).
    - f_equal. destruct v; reflexivity.
    - apply v_model_good.
    - apply W. }
  rewrite M. cbn [models_distinct] in MD. set (k := length (b1_models b)) in *. clearbody k.
  destruct (is_h2 v).
  - rewrite (Z.mul_comm 80), Z.mod_mul by lia. cbn [Z.eqb negb].
    replace (Z.of_nat k * 80 mod 64 =? 0) with false; [reflexivity|].
    symmetry. apply Z.eqb_neq. intros K. apply MD. apply Nat2Z.inj. rewrite Nat2Z.inj_mod.
    apply Z.mod_divide in K; [|lia]. destruct K as [q K]. change (Z.of_nat 4) with 4. change (Z.of_nat 0) with 0.
    apply Z.mod_divide; [lia|]. exists (4 * q - Z.of_nat k). lia.
  - destruct MD as [MD|MD]; [contradiction|].
    replace (64 * Z.of_nat k mod 80 =? 0) with false; [reflexivity|].
    symmetry. apply Z.eqb_neq. intros K. apply MD. apply Nat2Z.inj. rewrite Nat2Z.inj_mod.
    apply Z.mod_divide in K; [|lia]. destruct K as [q K]. change (Z.of_nat 5) with 5. change (Z.of_nat 0) with 0.
    apply Z.mod_divide; [lia|]. exists (Z.of_nat k - q). lia.
Qed.

(** ** The whole file *)

Lemma first_field : forall v hdr rest, let f := hdr_bytes v hdr ++ rest in
  mfields f [i32] (mkM 0 true) = ROk (Some [ver_ident v], mkM 4 true).
Proof.
  intros v hdr rest f.
  assert (E : f = [] ++ put_fields [(i32, ver_ident v)] ++
     (put_fields match ver_num v with Some n => [(i32, n)] | None => [] end ++ put_list (rc_put lump_codec) hdr ++ rest)).
  { unfold f. rewrite hdr_bytes_fields. unfold hdr_fields. rewrite (put_recs_flat lump).
    change ((i32, ver_ident v) :: match ver_num v with Some n => [(i32, n)] | None => [] end)
      with ([(i32, ver_ident v)] ++ match ver_num v with Some n => [(i32, n)] | None => [] end).
    rewrite !put_fields_app, <- !app_assoc. reflexivity. }
  change (mkM 0 true) with (mkM (size []) true).
  pose proof (mfields_ok [(i32, ver_ident v)] f [] _ E) as M. cbn [map fst snd] in M. rewrite M.
  - do 3 f_equal.
  - constructor; [|constructor]. split; [apply i32_all|destruct v; vm_compute; reflexivity].
Qed.

Lemma whole_header : forall v hdr rest, all lump_wf hdr -> length hdr = nlumps v -> let f := hdr_bytes v hdr ++ rest in
  mfields f (map fst (hdr_fields v hdr)) (mkM 0 true)
  = ROk (Some (map snd (hdr_fields v hdr)), mkM (size (hdr_bytes v hdr)) true).
Proof.
  intros v hdr rest W L f. change (mkM 0 true) with (mkM (size []) true).
  rewrite (mfields_ok (hdr_fields v hdr) f [] rest).
  - rewrite <- hdr_bytes_fields. reflexivity.
  - unfold f. rewrite hdr_bytes_fields. reflexivity.
  - apply hdr_fields_ok. assumption.
Qed.

Lemma first_file : forall v b x hdr, mfields (file_of v b x hdr) [i32] (mkM 0 true) = ROk (Some [ver_ident v], mkM 4 true).
Proof. intros. exact (first_field v hdr _). Qed.
Lemma header_file : forall v b x hdr, all lump_wf hdr -> length hdr = nlumps v ->
  mfields (file_of v b x hdr) (map fst (hdr_fields v hdr)) (mkM 0 true)
  = ROk (Some (map snd (hdr_fields v hdr)), mkM (size (hdr_bytes v hdr)) true).
Proof. intros. exact (whole_header v hdr _ H H0). Qed.

Lemma load_q2 : forall v b x hdr, bsp_wf v (B2 b) -> dir_ok v (B2 b) hdr -> bspx_wf x ->
  file_size v (B2 b) x <= 2147483647 ->
  load_file (file_of v (B2 b) x hdr) = ROk (v, B2 b, x).
Proof.
  intros v b x hdr W D X L. assert (LH : length hdr = nlumps v) by apply D.
  pose proof (dir_wf v (B2 b) x hdr W D L) as HW.
  unfold load_file. rewrite first_file. cbn [rbind fst snd nth mseek].
  assert (V : v = VQ2 \/ v = VQbism) by (destruct W as [Q _]; destruct v; try discriminate; tauto).
  replace ((ver_ident v =? ver_ident VQ2) || (ver_ident v =? ver_ident VQbism)) with true
    by (destruct V as [-> | ->]; reflexivity).
  assert (T : repeat i32 40 = map fst (hdr_fields v hdr)).
  { unfold hdr_fields. rewrite map_app, types_flat, LH. destruct V as [-> | ->]; reflexivity. }
  rewrite T. unfold mseek. cbn [m_ok Z.eqb].
  change (0 =? -1) with false. cbv iota.
  rewrite header_file by assumption. cbn [rbind fst snd].
  assert (DD : lumps_of (skipn 2 (map snd (hdr_fields v hdr))) = hdr).
  { unfold hdr_fields. rewrite map_app. destruct V as [-> | ->]; cbn [ver_num map snd app skipn]; apply lumps_of_flat. }
  rewrite DD.
  assert (VS : version_supported (ver_ident v) (Some (nth 1 (map snd (hdr_fields v hdr)) 0)) = Some v).
  { unfold hdr_fields. rewrite map_app. destruct V as [-> | ->]; reflexivity. }
  rewrite VS, read_q2_back by assumption. cbn [rbind]. rewrite read_bspx_ok by assumption. reflexivity.
Qed.

Lemma load_q1 : forall v b x hdr, bsp_wf v (B1 b) -> models_distinct v (B1 b) -> dir_ok v (B1 b) hdr -> bspx_wf x ->
  file_size v (B1 b) x <= 2147483647 ->
  exists t, load_file (file_of v (B1 b) x hdr) = ROk (v, B1 (with_tex b t), x) /\ Forall2 tex_same (b1_tex b) t.
Proof.
  intros v b x hdr W MD D X L. assert (LH : length hdr = nlumps v) by apply D.
  pose proof (dir_wf v (B1 b) x hdr W D L) as HW.
  destruct (read_q1_back v b x hdr W D L) as (t & R & FT). exists t. split; [|assumption].
  assert (Q : is_q2 v = false) by apply W.
  unfold load_file. rewrite first_file. cbn [rbind fst snd nth].
  replace ((ver_ident v =? ver_ident VQ2) || (ver_ident v =? ver_ident VQbism)) with false
    by (destruct v; try discriminate; reflexivity).
  assert (T : repeat i32 31 = map fst (hdr_fields v hdr)).
  { unfold hdr_fields. rewrite map_app, types_flat, LH. destruct v; try discriminate; reflexivity. }
  rewrite T. unfold mseek. cbn [m_ok Z.eqb]. change (0 =? -1) with false. cbv iota.
  rewrite header_file by assumption. cbn [rbind fst snd].
  assert (DD : lumps_of (skipn 1 (map snd (hdr_fields v hdr))) = hdr).
  { unfold hdr_fields. rewrite map_app. replace (ver_num v) with (@None Z) by (destruct v; try discriminate; reflexivity).
    cbn [map snd app skipn]. apply lumps_of_flat. }
  rewrite DD.
  assert (VS : version_supported (ver_ident v) None = Some (base_ver v)) by (destruct v; try discriminate; reflexivity).
  rewrite VS.
  assert (H2 : (match base_ver v with VHl => ROk false
                | _ => is_hexen2 (file_of v (B1 b) x hdr) (base_ver v) (fun i => nth i hdr (mkLump 0 0)) end) = ROk (is_h2 v)).
  { destruct (match v with VHl => true | _ => false end) eqn:E.
    - destruct v; try discriminate. reflexivity.
    - assert (NH : v <> VHl) by (intros ->; discriminate).
      rewrite (is_hexen2_ok v b x hdr W D L NH MD). destruct v; try discriminate; reflexivity. }
  rewrite H2. cbn [rbind].
  replace (if is_h2 v then to_h2 (base_ver v) else base_ver v) with v by (destruct v; try discriminate; reflexivity).
  rewrite R. cbn [rbind]. rewrite read_bspx_ok by assumption. reflexivity.
Qed.
