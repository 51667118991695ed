(* Properties of the emission of vertices, edges, faces, planes and texinfos. *)
From Coq Require Import List Arith NArith ZArith Bool Lia.
From Verif Require Import NumCastModel ParserModel TexFlagsModel TexFlagsProofs FaceEmitModel TexExportProofs FaceEmitProofs FindTexProofs.
Import ListNotations.

(** ** C76 *)

(** A BSP between two calls of EmitFaces. *)
Definition bsp_good {P} (o : eopts) (st : estate P) : Prop :=
  1 <= length (es_edges st) /\ pinv (es_planes st) /\ tinv (e_tex o) (es_tex st) [] /\
  length (es_lm st) = length (es_faces st) /\
  Forall (fun e => Z.abs_nat e < length (es_edges st)) (es_surf st) /\ NoDup (filter (fun e => (0 <? e)%Z) (es_surf st)).

Lemma good_einv : forall P o (st : estate P), bsp_good o st -> es_hash st = [] -> einv o (length (es_edges st)) st (repeat 0%N (length (es_edges st))).
Proof.
  intros P o st [G1 [G2 [G3 [G4 [G5 G6]]]]] H. split; [|split; [exact G2|split; [exact G3|split; [exact G4|split; assumption]]]].
  split; [apply repeat_length|]. split; [lia|]. rewrite H. intros k i c X. discriminate.
Qed.

Lemma emitted : forall P o t (st : estate P) l st1, bsp_good o st -> emit_faces o t st = Some (ROk (l, st1)) ->
  bsp_good o st1 /\ l = ranges (length (es_faces st)) t /\
  exists own stX, es_edges stX = es_edges st1 /\ es_surf stX = es_surf st1 /\ es_faces stX = es_faces st1 /\ es_lm stX = es_lm st1 /\
    es_planes stX = es_planes st1 /\ es_tex stX = es_tex st1 /\
    wrote o (length (es_edges st)) st (repeat 0%N (length (es_edges st))) (tree_frags t) stX own.
Proof.
  intros P o t st l st1 G H. unfold emit_faces in H. destruct (es_hash st) eqn:HH; [|discriminate].
  destruct (emit_tree o t st) as [[[l' stX]| |]|] eqn:E; try discriminate. inversion H; subst. clear H.
  destruct (emit_tree_spec _ _ _ _ _ _ _ (good_einv _ _ _ G HH) E) as [-> [own W]]. split; [|split; [reflexivity|]].
  - destruct W as [[W1 [W2 [W3 [W4 [W5 W6]]]]] _]. destruct W1 as [_ [W1 _]]. split; [cbn; lia|]. split; [exact W2|]. split; [exact W3|]. split; [exact W4|]. split; assumption.
  - exists own, stX. split; [reflexivity|]. split; [reflexivity|]. split; [reflexivity|]. split; [reflexivity|]. split; [reflexivity|]. split; [reflexivity|]. exact W.
Qed.

(** C76. Every fragment with at least three vertices becomes a face, in the order of the tree; the
    edges of the face go around its vertices, edge 0 is not used, and no edge of another model. *)
Theorem C76_face_loops : forall P o t (st : estate P) l st1, bsp_good o st -> emit_faces o t st = Some (ROk (l, st1)) ->
  bsp_good o st1 /\ length (es_faces st1) = length (es_faces st) + length (tree_frags t) /\
  forall k f vs, nth_error (tree_frags t) k = Some (f, vs) ->
    exists out, nth_error (es_faces st1) (length (es_faces st) + k) = Some out /\ of_num out = length vs /\ 3 <= length vs /\
      forall j, j < length vs -> exists e, nth_error (es_surf st1) (of_first out + j) = Some e /\ e <> 0%Z /\
        length (es_edges st) <= Z.abs_nat e < length (es_edges st1) /\
        ends (es_edges st1) e = Some (nth j vs 0, nth ((j + 1) mod length vs) vs 0).
Proof.
  intros P o t st l st1 G H. destruct (emitted _ _ _ _ _ _ G H) as [G1 [_ [own [stX [E1 [E2 [E3 [E4 [E5 [E6 W]]]]]]]]]].
  split; [exact G1|]. rewrite <- E1, <- E2, <- E3. split; [exact (wrote_count _ _ _ _ _ _ _ W)|].
  intros k f vs K. destruct W as [_ [_ [outs [lms [A1 [A2 [A3 [A4 A5]]]]]]]]. destruct (A5 _ _ K) as [out [lm [B1 [B2 B3]]]].
  exists out. split; [rewrite A1, nth_error_app2 by lia; replace (length (es_faces st) + k - length (es_faces st)) with k by lia; exact B1|].
  destruct B3 as [_ [_ [_ [_ [_ [_ [C1 [C2 [_ C3]]]]]]]]]. split; [exact C1|]. split; [exact C2|]. intros j J.
  destruct (C3 j J) as [e [D1 [D2 [D3 [D4 D5]]]]]. exists e. split; [exact D1|]. split; [exact D2|]. split; [exact D3|exact D4].
Qed.

(** C76. The face keeps the plane, the side, the texinfo and the lightmap scale of the map face; it
    has no styles and no lightmap yet. *)
Theorem C76_face_fields : forall P o t (st : estate P) l st1, bsp_good o st -> emit_faces o t st = Some (ROk (l, st1)) ->
  forall k f vs, nth_error (tree_frags t) k = Some (f, vs) ->
    exists out, nth_error (es_faces st1) (length (es_faces st) + k) = Some out /\
      nth_error (es_lm st1) (length (es_faces st) + k) = Some (nf_lmshift f) /\
      of_side out = nf_plane f mod 2 /\ of_styles out = [255;255;255;255]%Z /\ of_lightofs out = (-1)%Z /\
      (exists p, nth_error (ps_out (es_planes st1)) (of_plane out) = Some p /\
                 option_map fst (nth_error (ps_src (es_planes st)) (2 * (nf_plane f / 2))) = Some p) /\
      (exists s, at_z (t_src (es_tex st1)) (nf_tex f) = Some s /\
         match ts_out s with Some i => of_tex out = Z.of_nat i | None => tex_skipped (e_tex o) s = true /\ of_tex out = (-1)%Z end).
Proof.
  intros P o t st l st1 G H k f vs K. destruct (emitted _ _ _ _ _ _ G H) as [G1 [_ [own [stX [E1 [E2 [E3 [E4 [E5 [E6 W]]]]]]]]]].
  rewrite <- E3, <- E4, <- E5, <- E6. destruct W as [_ [GR [outs [lms [A1 [A2 [A3 [A4 A5]]]]]]]]. destruct (A5 _ _ K) as [out [lm [B1 [B2 B3]]]].
  exists out. split; [rewrite A1, nth_error_app2 by lia; replace (length (es_faces st) + k - length (es_faces st)) with k by lia; exact B1|].
  destruct B3 as [C0 [C1 [C2 [C3 [[p [C4 C5]] [C6 _]]]]]].
  assert (LL : length (es_lm st) = length (es_faces st)) by apply G.
  split; [rewrite A2, nth_error_app2 by lia; replace (length (es_faces st) + k - length (es_lm st)) with k by lia; rewrite B2, C0; reflexivity|].
  split; [exact C1|]. split; [exact C2|]. split; [exact C3|]. split; [|exact C6]. exists p. split; [exact C5|].
  destruct GR as [_ [_ [_ [_ [_ [[_ [GR _]] _]]]]]]. rewrite <- GR, C4. reflexivity.
Qed.

(** C76. The faces of a node are a range: firstface and numfaces give exactly its fragments. *)
Theorem C76_node_ranges : forall P o t (st : estate P) l st1, bsp_good o st -> emit_faces o t st = Some (ROk (l, st1)) ->
  l = ranges (length (es_faces st)) t.
Proof. intros P o t st l st1 G H. apply (emitted _ _ _ _ _ _ G H). Qed.

(** C76. Faces that share an edge have the same contents in front. *)
Theorem C76_same_contents : forall P o t (st : estate P) l st1, bsp_good o st -> emit_faces o t st = Some (ROk (l, st1)) ->
  forall k1 f1 vs1 k2 f2 vs2 out1 out2 j1 j2 e1 e2,
    nth_error (tree_frags t) k1 = Some (f1, vs1) -> nth_error (tree_frags t) k2 = Some (f2, vs2) ->
    nth_error (es_faces st1) (length (es_faces st) + k1) = Some out1 -> nth_error (es_faces st1) (length (es_faces st) + k2) = Some out2 ->
    j1 < of_num out1 -> j2 < of_num out2 ->
    nth_error (es_surf st1) (of_first out1 + j1) = Some e1 -> nth_error (es_surf st1) (of_first out2 + j2) = Some e2 ->
    Z.abs e1 = Z.abs e2 -> nf_contents f1 = nf_contents f2.
Proof.
  intros P o t st l st1 G H k1 f1 vs1 k2 f2 vs2 out1 out2 j1 j2 e1 e2 K1 K2 O1 O2 J1 J2 S1 S2 AB.
  destruct (emitted _ _ _ _ _ _ G H) as [G1 [_ [own [stX [E1 [E2 [E3 [E4 [E5 [E6 W]]]]]]]]]].
  rewrite <- E3 in O1, O2. rewrite <- E2 in S1, S2. destruct W as [_ [_ [outs [lms [A1 [A2 [A3 [A4 A5]]]]]]]].
  assert (R : forall k f vs out j e, nth_error (tree_frags t) k = Some (f, vs) -> nth_error (es_faces stX) (length (es_faces st) + k) = Some out ->
     j < of_num out -> nth_error (es_surf stX) (of_first out + j) = Some e -> nth_error own (Z.abs_nat e) = Some (nf_contents f)).
  { intros k f vs out j e K O J S. destruct (A5 _ _ K) as [out' [lm [B1 [B2 B3]]]].
    rewrite A1, nth_error_app2 in O by lia. replace (length (es_faces st) + k - length (es_faces st)) with k in O by lia.
    rewrite B1 in O. inversion O; subst out'. destruct B3 as [_ [_ [_ [_ [_ [_ [C1 [C2 [_ C3]]]]]]]]]. rewrite C1 in J.
    destruct (C3 j J) as [e' [D1 [_ [_ [_ D5]]]]]. rewrite D1 in S. inversion S; subst. exact D5. }
  pose proof (R _ _ _ _ _ _ K1 O1 J1 S1) as X1. pose proof (R _ _ _ _ _ _ K2 O2 J2 S2) as X2.
  assert (EQ : Z.abs_nat e1 = Z.abs_nat e2) by lia. rewrite EQ in X1. congruence.
Qed.

(** C76. Over the whole file each edge is used forwards at most once. *)
Theorem C76_one_forward_use : forall P o t (st : estate P) l st1, bsp_good o st -> emit_faces o t st = Some (ROk (l, st1)) ->
  NoDup (filter (fun e => (0 <? e)%Z) (es_surf st1)).
Proof. intros P o t st l st1 G H. destruct (emitted _ _ _ _ _ _ G H) as [[_ [_ [_ [_ [_ X]]]]] _]. exact X. Qed.

(** C76. A fragment with more vertices than -maxedges allows is never written: the tool stops. *)
Theorem C76_maxedges : forall P o t (st : estate P) l st1, bsp_good o st -> emit_faces o t st = Some (ROk (l, st1)) ->
  forall k f vs, nth_error (tree_frags t) k = Some (f, vs) -> e_maxedges o = 0 \/ length vs <= e_maxedges o.
Proof.
  intros P o t st l st1 G H k f vs K. destruct (emitted _ _ _ _ _ _ G H) as [G1 [_ [own [stX [E1 [E2 [E3 [E4 [E5 [E6 W]]]]]]]]]].
  destruct W as [_ [_ [outs [lms [A1 [A2 [A3 [A4 A5]]]]]]]]. destruct (A5 _ _ K) as [out [lm [B1 [B2 B3]]]]. apply B3.
Qed.

(** C76. The model's fuel is never used up. *)
Theorem C76_terminates : forall P o t (st : estate P), bsp_good o st -> emit_faces o t st <> None.
Proof.
  intros P o t st G. unfold emit_faces. destruct (es_hash st) eqn:H; [|discriminate].
  pose proof (emit_tree_fuel o _ t st _ (good_einv _ _ _ G H)) as N. destruct (emit_tree o t st) as [[[? ?]| |]|]; try discriminate. congruence.
Qed.

(** A square cut into faces with the plane 0 and texinfo 0. *)
Definition f0 (c : N) (frags : list (list nat)) : nface := mkNF 1 0 c 4 frags.
Definition src0 : tsrc := mkTS0 7 0 sf_default 0 None None.
Definition to0 : topts := mkTO false false (fun _ => true) [([116%N], 5%Z)].
Definition eo0 : eopts := mkEO (fun _ => true) false 0 to0.
Definition st0 : estate nat := mkES [(0, 0)] [] [] [] [] (mkPS [(11, None); (12, None)] []) (mkTSt [src0] []).

(** C76. An edge can have more than two faces: the reversed use is not limited to one. *)
Theorem C76_edge_of_two_faces_refuted : exists t l st1 e,
  emit_faces eo0 t st0 = Some (ROk (l, st1)) /\ length (es_faces st1) = 3 /\
  count_occ Z.eq_dec (es_surf st1) e + count_occ Z.eq_dec (es_surf st1) (- e)%Z = 3.
Proof.
  exists (FNode [f0 1 [[0;1;2]]; f0 1 [[1;0;3]]; f0 1 [[1;0;4]]] FLeaf FLeaf). eexists _, _, 1%Z. split; [vm_compute; reflexivity|]. split; vm_compute; reflexivity.
Qed.

Example C76_nontrivial : bsp_good eo0 st0 /\ exists st1,
  emit_faces eo0 (FNode [f0 1 [[0;1;2]; [0;2]]; f0 2 [[2;1;3]]] (FNode [f0 1 [[2;1;3]; [4;5;6;7]]] FLeaf FLeaf) FLeaf) st0 = Some (ROk ([(0, 2); (2, 2)], st1)) /\
  es_edges st1 = [(0,0); (0,1); (1,2); (2,0); (2,0); (2,1); (1,3); (3,2); (1,3); (3,2); (4,5); (5,6); (6,7); (7,4)] /\
  es_surf st1 = [1; 2; 3; 5; 6; 7; -2; 8; 9; 10; 11; 12; 13]%Z /\ es_lm st1 = [4;4;4;4]%Z /\
  ps_out (es_planes st1) = [11] /\ nth_error (es_faces st1) 3 = Some (mkOF 0 1 0 [255;255;255;255]%Z (-1) 9 4).
Proof.
  split.
  - split; [cbn; lia|]. split; [|split; [|split; [reflexivity|split; [constructor|constructor]]]].
    + split.
      * intros n p q H. cbn in H. destruct n as [|[|[|n]]]; cbn in H; discriminate.
      * intros n1 n2 p1 p2 q H _. cbn in H. destruct n1 as [|[|[|n]]]; cbn in H; discriminate.
    + apply tinv_init. constructor; [reflexivity|constructor].
  - eexists. split; [vm_compute; reflexivity|]. repeat split; vm_compute; reflexivity.
Qed.

(** ** C77 *)

(** C77. Over any sequence of calls each texinfo is exported at most once, with its own vectors,
    flags and texture and a link to the exported next frame; texinfos that are not written, and links
    to them, are -1.  The calls end, also when the frames of an animation form a ring. *)
Theorem C77_texinfo_export : forall o src l, Forall (fun s => ts_out s = None) src ->
  exists r, export_many o (mkTSt src []) l = Some r /\
  (r = RThrow \/ exists vs st1, r = ROk (vs, st1) /\
    (forall n s, nth_error (t_src st1) n = Some s -> exists s0, nth_error src n = Some s0 /\ ts_vecs s = ts_vecs s0 /\ ts_miptex s = ts_miptex s0 /\
       ts_flags s = ts_flags s0 /\ ts_next s = ts_next s0) /\
    (forall n s i, nth_error (t_src st1) n = Some s -> ts_out s = Some i -> tex_skipped o s = false /\ exists d, nth_error (t_dst st1) i = Some d /\
       td_vecs d = ts_vecs s /\ td_flags d = ts_flags s /\ td_miptex d = ts_miptex s /\
       (exists name, at_z (o_miptex o) (ts_miptex s) = Some (name, td_value d) /\ td_texture d = texture_field name) /\
       match ts_next s with
       | None => td_next d = (-1)%Z
       | Some m => exists s', at_z (t_src st1) m = Some s' /\
           match ts_out s' with Some j => td_next d = Z.of_nat j | None => tex_skipped o s' = true /\ td_next d = (-1)%Z end
       end) /\
    (forall n1 n2 s1 s2 i, nth_error (t_src st1) n1 = Some s1 -> nth_error (t_src st1) n2 = Some s2 -> ts_out s1 = Some i -> ts_out s2 = Some i -> n1 = n2) /\
    (forall i, i < length (t_dst st1) -> exists n s, nth_error (t_src st1) n = Some s /\ ts_out s = Some i) /\
    Forall2 (fun n v => exists s, at_z (t_src st1) n = Some s /\
       match ts_out s with Some i => v = Z.of_nat i | None => tex_skipped o s = true /\ v = (-1)%Z end) l vs).
Proof.
  intros o src l H. destruct (export_many_spec o l (mkTSt src []) (tinv_init o src H)) as [r [R [->|[vs [st1 [-> [[I1 [I2 I3]] [G F]]]]]]]].
  - eexists. split; [exact R|left; reflexivity].
  - eexists. split; [exact R|]. right. exists vs, st1. split; [reflexivity|]. split; [|split; [|split; [exact I2|split; [exact I3|exact F]]]].
    + intros n s N. destruct G as [GL [G _]]. cbn [t_src] in *.
      assert (L : n < length src) by (rewrite <- GL; apply nth_error_Some; rewrite N; discriminate).
      destruct (nth_error src n) as [s0|] eqn:E; [|apply nth_error_None in E; lia]. destruct (G _ _ E) as [s' [N' [E1 [E2 [E3 [E4 [E5 _]]]]]]].
      rewrite N in N'. inversion N'; subst s'. exists s0. split; [reflexivity|]. repeat split; congruence.
    + intros n s i N O. destruct (I1 _ _ _ N O) as [S1 [_ [d [D1 [[D2 [D3 [D4 D5]]] D6]]]]]. split; [exact S1|]. exists d. split; [exact D1|].
      split; [exact D2|]. split; [exact D3|]. split; [exact D4|]. split; [exact D5|]. specialize (D6 (fun X => X)). exact D6.
Qed.

(** C77. A texture name goes into the 32 characters of the file with a terminating zero; names of up
    to 31 characters without zeroes are kept. *)
Theorem C77_texture_name : forall name, length (texture_field name) = 32 /\ nth 31 (texture_field name) 1%N = 0%N /\
  forall i, i < 31 -> nth i (texture_field name) 1%N = nth i name 0%N.
Proof.
  intro name. unfold texture_field. split; [rewrite app_length, map_length, seq_length; reflexivity|]. split.
  - rewrite app_nth2; rewrite map_length, seq_length; [reflexivity|lia].
  - intros i I. rewrite app_nth1 by (rewrite map_length, seq_length; exact I).
    match goal with |- nth i (map ?g _) _ = _ => rewrite (nth_indep _ 1%N (g 0)) by (rewrite map_length, seq_length; exact I); rewrite (map_nth g) end.
    rewrite seq_nth by exact I. cbn [Nat.add]. destruct (i <? length name) eqn:E; [reflexivity|]. apply Nat.ltb_ge in E. rewrite nth_overflow by exact E. reflexivity.
Qed.

(** C77. An exported plane is a copy, exported once, and later calls give the same number. *)
Theorem C77_plane_export : forall P (st : pstate P) n k st1, pinv st -> export_plane st n = ROk (k, st1) ->
  pinv st1 /\ (exists l, ps_out st1 = ps_out st ++ l) /\
  (exists p, option_map fst (nth_error (ps_src st) n) = Some p /\ nth_error (ps_out st1) k = Some p) /\
  export_plane st1 n = ROk (k, st1).
Proof.
  intros P st n k st1 I H. destruct (export_plane_spec _ _ _ _ _ I H) as [I1 [[G1 [G2 G3]] [p [A B]]]]. split; [exact I1|]. split; [exact G1|]. split.
  - exists p. split; [rewrite <- G2, A; reflexivity|exact B].
  - unfold export_plane. rewrite A. reflexivity.
Qed.

(** A ring of two frames, a third texinfo that is not written and one that links to it. *)
Example C77_nontrivial :
  let nd := mkSF 0 true false false false false false false false false false None None None None None f_zero f_zero 0 None [0;0;0]%Z None None f_zero f_one 0 None None in
  exists st1, export_many to0 (mkTSt [mkTS0 1 0 sf_default 0 (Some 1%Z) None; mkTS0 2 0 sf_default 0 (Some 0%Z) None; mkTS0 3 0 nd 0 None None; mkTS0 4 0 sf_default 0 (Some 2%Z) None] []) [3; 1; 2; 0]%Z
    = Some (ROk ([0; 1; -1; 2]%Z, st1)) /\ map td_next (t_dst st1) = [-1; 2; 1]%Z /\ map td_vecs (t_dst st1) = [4; 2; 1]%Z.
Proof. eexists. split; [vm_compute; reflexivity|]. split; reflexivity. Qed.

(** ** C82 *)

(** C82. Over any sequence of corners: a corner becomes a vertex in the box around it, vertices
    already emitted stay, and no vertex lies in the box around a later one. *)
Theorem C82_vertices : forall V F (rnd : V -> F) near pick w st ns st1, search_ok near pick -> (forall a, near a a = true) ->
  vinv rnd near st -> emit_vertices rnd pick st w = (ns, st1) ->
  vinv rnd near st1 /\ (exists l, vs_out st1 = vs_out st ++ l) /\
  Forall2 (fun v n => exists p, nth_error (vs_hash st1) n = Some (p, n) /\ nth_error (vs_out st1) n = Some (rnd p) /\ near v p = true) w ns.
Proof.
  intros V F rnd near pick w st ns st1 S R I H. destruct (emit_vertices_spec _ _ _ _ _ _ _ S R I H) as [I1 [[l G] A]]. split; [exact I1|]. split.
  - exists (map (fun e => rnd (fst e)) l). destruct I as [_ [I _]]. destruct I1 as [_ [I1 _]]. rewrite I1, I, G, map_app. reflexivity.
  - destruct I1 as [_ [I1 _]]. rewrite I1. clear - A. induction A as [|v n w ns [p [A B]] _ IH]; constructor; [|exact IH].
    exists p. split; [exact A|]. split; [|exact B]. rewrite nth_error_map, A. reflexivity.
Qed.

(** C82. The position of a vertex that was emitted gives that vertex again. *)
Theorem C82_again : forall V F (rnd : V -> F) near pick st n p, search_ok near pick -> (forall a, near a a = true) -> (forall a b, near a b = near b a) ->
  vinv rnd near st -> nth_error (vs_hash st) n = Some (p, n) -> emit_vertex rnd pick st p = (n, st).
Proof. intros. eapply emit_again; eassumption. Qed.

(** Positions on a line, in thousandths; half of POINT_EQUAL_EPSILON is 25. *)
Definition near1 (a b : Z) : bool := (Z.abs (a - b) <=? 25)%Z.
Definition pick1 (h : list (Z * nat)) (v : Z) : option nat :=
  match find (fun e => near1 v (fst e)) h with Some e => Some (snd e) | None => None end.

Lemma pick1_ok : search_ok near1 pick1.
Proof.
  intros h v. unfold pick1. destruct (find _ h) as [[p n]|] eqn:E.
  - apply find_some in E. exists p. exact E.
  - intros p n H. exact (find_none _ _ E (p, n) H).
Qed.

(** C82. Corners closer to each other than the tolerance can become different vertices, so that the
    result depends on the order: 30 and 20 are both within 25 of each other, 0 is emitted first. *)
Theorem C82_close_corners_refuted : exists w ns st1, emit_vertices (fun v : Z => v) pick1 (mkVS [] []) w = (ns, st1) /\
  exists i j a b, nth_error w i = Some a /\ nth_error w j = Some b /\ near1 a b = true /\ nth_error ns i <> nth_error ns j.
Proof.
  exists [0; 30; 20]%Z. eexists _, _. split; [vm_compute; reflexivity|]. exists 1, 2, 30%Z, 20%Z. repeat split. cbn. discriminate.
Qed.

Example C82_nontrivial : vinv (fun v : Z => v) near1 (mkVS [] []) /\ (forall a, near1 a a = true) /\ (forall a b, near1 a b = near1 b a) /\
  emit_vertices (fun v : Z => v) pick1 (mkVS [] []) [0; 100; 10; 90; 60; -25]%Z = ([0; 1; 0; 1; 2; 0]%nat, mkVS [(0%Z, 0); (100%Z, 1); (60%Z, 2)] [0; 100; 60]%Z).
Proof.
  split; [|split; [|split; [|vm_compute; reflexivity]]].
  - split; [reflexivity|]. split; [reflexivity|]. intros i j p q _ H. destruct i; discriminate.
  - intro a. unfold near1. rewrite Z.sub_diag. reflexivity.
  - intros a b. unfold near1. f_equal. lia.
Qed.

(** ** C84 *)

(** C84. FindTexinfo ends for all links between the frames of textures, rings included; equal
    texinfos get the same number and different ones different numbers; the texinfo with that number
    has the projection, flags and texture asked for, and leads to the next frame. *)
Theorem C84_find_texinfo : forall anim M st k, (forall m n, anim m = Some n -> n < M) -> k_miptex k < M -> finv anim st [] ->
  exists i st1, find_texinfo (S M) anim st k = Some (i, st1) /\ finv anim st1 [] /\
    (forall j, j < length (fs_tex st) -> nth_error (fs_tex st1) j = nth_error (fs_tex st) j) /\
    (forall k' i', key_find k' (fs_lookup st) = Some i' -> key_find k' (fs_lookup st1) = Some i' /\ (i' = i -> k' = k)) /\
    find_texinfo (S M) anim st1 k = Some (i, st1) /\
    exists t, nth_error (fs_tex st1) i = Some t /\ k_rest t = k_rest k /\ k_miptex t = k_miptex k /\
      match anim (k_miptex k) with
      | None => k_next t = k_next k
      | Some m => exists r t', k_next t = Some r /\ nth_error (fs_tex st1) r = Some t' /\ k_rest t' = k_rest k /\ k_miptex t' = m
      end.
Proof.
  intros anim M st k A KM I. destruct (find_texinfo_spec anim M A (S M) st k [] I KM) as [i [st1 [R [I1 [[G1 [G2 G3]] K]]]]].
  { pose proof (todo_le M k (fs_lookup st)). lia. }
  exists i, st1. split; [exact R|]. split; [exact I1|]. split; [exact G3|]. split.
  { intros k' i' H. split; [exact (G1 _ _ H)|]. intros ->. destruct I1 as [_ I1]. exact (I1 _ _ _ (G1 _ _ H) K). }
  split; [cbn [find_texinfo]; rewrite K; reflexivity|].
  destruct I1 as [J1 J2]. destruct (J1 _ _ K) as [t [T1 [T2 [T3 T4]]]]. exists t. split; [exact T1|]. split; [exact T2|]. split; [exact T3|].
  specialize (T4 (fun X => X)). unfold linked in T4. destruct (anim (k_miptex k)) as [m|]; [|exact T4]. destruct T4 as [r [R1 R2]].
  destruct (J1 _ _ R2) as [t' [U1 [U2 [U3 _]]]]. exists r, t'. repeat split; assumption.
Qed.

(** C84. Loading the frames of a Quake 2 animation ends if the chain of texture files ends or comes
    back to the first frame. *)
Theorem C84_animation_partial : forall files name info k w last l,
  (walk files w k = None \/ exists w1, 0 < k /\ walk files w k = Some w1 /\ w_name w1 = name) ->
  exists r, anim_loop (S k) files name info w last l = Some r.
Proof. exact anim_loop_ends. Qed.

(** C84. It does not end if the chain runs into a ring that leaves the first frame out. *)
Theorem C84_animation_refuted : forall info fuel, anim_loop fuel rho 0 info (mkWal 0 (Some 1)) 0 [mkMip 0 info (Some 1) None] = None.
Proof. exact rho_hangs. Qed.

Print Assumptions C76_face_loops.
Print Assumptions C76_face_fields.
Print Assumptions C76_node_ranges.
Print Assumptions C76_same_contents.
Print Assumptions C76_one_forward_use.
Print Assumptions C76_maxedges.
Print Assumptions C76_terminates.
Print Assumptions C76_edge_of_two_faces_refuted.
Print Assumptions C77_texinfo_export.
Print Assumptions C77_texture_name.
Print Assumptions C77_plane_export.
Print Assumptions C82_vertices.
Print Assumptions C82_again.
Print Assumptions C82_close_corners_refuted.
Print Assumptions C84_find_texinfo.
Print Assumptions C84_animation_partial.
Print Assumptions C84_animation_refuted.

(** A ring of three frames of one texture, and another texture. *)
Example C84_nontrivial :
  let anim := fun m => match m with 0 => Some 1 | 1 => Some 2 | 2 => Some 0 | _ => None end in
  finv anim (mkFS [] []) [] /\
  exists st1, find_texinfo 5 anim (mkFS [] []) (mkTK 9 1 None) = Some (0, st1) /\
    fs_tex st1 = [mkTK 9 1 (Some 1); mkTK 9 2 (Some 2); mkTK 9 0 (Some 0)] /\
    find_texinfo 5 anim st1 (mkTK 9 0 None) = Some (2, st1) /\
    exists st2, find_texinfo 5 anim st1 (mkTK 8 3 None) = Some (3, st2) /\ nth_error (fs_tex st2) 3 = Some (mkTK 8 3 None) /\
  exists l, anim_loop 4 (fun a => nth_error [mkWal 0 (Some 1); mkWal 1 (Some 2); mkWal 2 (Some 0)] a) 0 5 (mkWal 0 (Some 1)) 0 [mkMip 0 5 (Some 1) None] = Some (2, l) /\
    map m_next l = [Some 1; Some 2; Some 0].
Proof.
  cbn zeta. split; [split; [intros k i H; discriminate|intros k1 k2 i H; discriminate]|].
  eexists. split; [vm_compute; reflexivity|]. split; [vm_compute; reflexivity|]. split; [vm_compute; reflexivity|].
  eexists. split; [vm_compute; reflexivity|]. split; [vm_compute; reflexivity|]. eexists. split; vm_compute; reflexivity.
Qed.
