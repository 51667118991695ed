(* C40-C44, C57, C70: BSP files. *)
From Coq Require Import List Arith NArith ZArith Bool Lia.
Import ListNotations.
From Verif Require Import Base Codec NumCastModel NumCastProofs BspRecModel BspRecProofs BspFileModel
  BspReadProofs BspTexProofs BspWriteProofs BspLoadProofs BspAcceptProofs.
Local Open Scope Z_scope.

(** ** C57 *)

(** A request that fits, or one at the end of the buffer, transfers exactly what it reports and
    stays in the buffer.  Missing for the full claim: requests for more than what remains (refuted
    below). *)
Theorem C57_requests_that_fit_partial : forall b pos n, 0 <= pos <= size b -> 0 <= n ->
  pos + n <= size b \/ pos = size b ->
  xsgetn b pos n = ROk (if pos =? size b then (-1, [], pos)
                        else (n, firstn (Z.to_nat n) (skipn (Z.to_nat pos) b), pos + n)) /\
  forall s, size s = n ->
  xsputn b pos s = ROk (if pos =? size b then (-1, b, pos)
                        else (n, firstn (Z.to_nat pos) b ++ s ++ skipn (Z.to_nat (pos + n)) b, pos + n)).
Proof.
  intros b pos n P Q R. unfold xsgetn, xsputn. split.
  - destruct (pos =? size b) eqn:E; [reflexivity|]. apply Z.eqb_neq in E.
    replace ((pos <? 0) || (size b <? pos + n)) with false by (symmetry; apply orb_false_iff; split; apply Z.ltb_ge; lia).
    rewrite andb_false_r. rewrite Z.min_r by lia. reflexivity.
  - intros s <-. destruct (pos =? size b) eqn:E; [reflexivity|]. apply Z.eqb_neq in E.
    replace ((pos <? 0) || (size b <? pos + size s)) with false by (symmetry; apply orb_false_iff; split; apply Z.ltb_ge; lia).
    rewrite andb_false_r. rewrite Z.min_r by lia. 
    assert (S1 : slice b 0 pos = firstn (Z.to_nat pos) b) by reflexivity.
    assert (S2 : slice b (pos + size s) (size b) = skipn (Z.to_nat (pos + size s)) b).
    { unfold slice. apply firstn_all2. rewrite skipn_length. unfold size. lia. }
    rewrite S1, S2. reflexivity.
Qed.
Print Assumptions C57_requests_that_fit_partial.

(** Every request for more bytes than remain, from any position before the end, copies past the
    end of the buffer: the memcpy uses n instead of the clamped count. *)
Theorem C57_overrun_refuted : forall b pos n, 0 <= pos < size b -> size b < pos + n ->
  xsgetn b pos n = RUB /\ forall s, size s = n -> xsputn b pos s = RUB.
Proof.
  intros b pos n P R. unfold xsgetn, xsputn.
  replace (pos =? size b) with false by (symmetry; apply Z.eqb_neq; lia). split.
  - replace (0 <? n) with true by (symmetry; apply Z.ltb_lt; lia).
    replace (size b <? pos + n) with true by (symmetry; apply Z.ltb_lt; lia). rewrite orb_true_r. reflexivity.
  - intros s <-. replace (0 <? size s) with true by (symmetry; apply Z.ltb_lt; lia).
    replace (size b <? pos + size s) with true by (symmetry; apply Z.ltb_lt; lia). rewrite orb_true_r. reflexivity.
Qed.
Print Assumptions C57_overrun_refuted.

Example C57_nontrivial :
  xsgetn [1; 2; 3; 4]%N 1 2 = ROk (2, [2; 3]%N, 3) /\ xsgetn [1; 2; 3; 4]%N 4 2 = ROk (-1, [], 4) /\
  xsgetn [1; 2; 3; 4]%N 3 2 = RUB /\ xsputn [1; 2; 3; 4]%N 1 [8; 9]%N = ROk (2, [1; 8; 9; 4]%N, 3) /\
  xsputn [1; 2; 3; 4]%N 3 [8; 9]%N = RUB.
Proof. vm_compute. repeat split; reflexivity. Qed.

(** ** C40 *)

Lemma saved : forall v b x, bsp_wf v b -> file_size v b x <= 2147483647 ->
  exists hdr, write_file v b x = ROk (file_of v b x hdr) /\ dir_ok v b hdr.
Proof.
  intros v b x W L. destruct (write_file_ok v b x) as (hdr & E & D1 & D2 & D3); try assumption.
  - apply wlumps_expect. assumption.
  - apply (wlumps_idx v b W).
  - apply (wlumps_idx v b W).
  - exists hdr. split; [assumption|]. split; [assumption|]. split; assumption.
Qed.

(** Every BSP whose members have values of their types is written, if the file stays below 2 GiB;
    in the file the bytes of each lump start at the offset and have the length its directory entry
    gives; the offset is a multiple of four, behind the header; the lump ends inside the file and
    no two lumps overlap. *)
Theorem C40_lump_directory : forall v b x, bsp_wf v b -> file_size v b x <= 2147483647 ->
  exists f, write_file v b x = ROk f /\ size f = file_size v b x /\
    word f 0 = Some (ver_ident v) /\
    exists dir : nat -> lump,
    (forall i, (i < nlumps v)%nat -> entry_is f (dir_base v) i (dir i)) /\
    (forall w, In w (wlumps v b) ->
       let lu := dir (w_idx w) in
       lu_ofs lu mod 4 = 0 /\ Z.of_nat (dir_base v + 8 * nlumps v) <= lu_ofs lu /\ lu_ofs lu + lu_len lu <= size f /\
       slice f (lu_ofs lu) (lu_len lu) = w_bytes w (Z.to_nat (lu_ofs lu)) /\
       forall w', In w' (wlumps v b) -> w_idx w' <> w_idx w -> let lu' := dir (w_idx w') in
         lu_ofs lu + lu_len lu <= lu_ofs lu' \/ lu_ofs lu' + lu_len lu' <= lu_ofs lu) /\
    (forall i, (i < nlumps v)%nat -> ~ In i (map w_idx (wlumps v b)) -> dir i = mkLump 0 0).
Proof.
  intros v b x W L. destruct (saved v b x W L) as (hdr & E & D). exists (file_of v b x hdr).
  split; [assumption|]. assert (LH : length hdr = nlumps v) by apply D.
  assert (SF : size (file_of v b x hdr) = file_size v b x) by (apply file_of_size; assumption).
  split; [assumption|]. pose proof (dir_wf v b x hdr W D L) as HW.
  pose proof (header_file v b x hdr HW LH) as HF.
  assert (T : map fst (hdr_fields v hdr) = repeat i32 (length (hdr_fields v hdr))).
  { unfold hdr_fields. rewrite map_app, types_flat, app_length.
    assert (FL : length (flat_map (rc_write lump_codec) hdr) = (2 * length hdr)%nat).
    { clear. induction hdr as [|a l IH]; [reflexivity|]. cbn [flat_map length]. rewrite app_length, IH.
      change (length (rc_write lump_codec a)) with 2%nat. lia. }
    rewrite FL, repeat_app. f_equal. destruct (ver_num v); reflexivity. }
  rewrite T in HF. destruct (mfields_words _ _ 0 _ _ _ eq_refl HF) as [_ WD].
  split.
  { specialize (WD 0%nat). change (0 + 4 * Z.of_nat 0) with 0 in WD.
    rewrite WD by (unfold hdr_fields; cbn [app length]; lia). reflexivity. }
  exists (fun i => nth i hdr (mkLump 0 0)). split; [|split].
  - (* the entries *)
    intros i Hi.
    assert (FL : forall l, length (flat_map (rc_write lump_codec) l) = (2 * length l)%nat).
    { clear. induction l as [|a l IH]; [reflexivity|]. cbn [flat_map length]. rewrite app_length, IH.
      change (length (rc_write lump_codec a)) with 2%nat. lia. }
    set (k := if is_q2 v then 2%nat else 1%nat).
    assert (LF : length (hdr_fields v hdr) = (k + 2 * nlumps v)%nat).
    { unfold hdr_fields. rewrite app_length, FL, LH. unfold k. f_equal. destruct v; reflexivity. }
    rewrite LF in WD.
    assert (SK : skipn k (map snd (hdr_fields v hdr)) = map snd (flat_map (rc_write lump_codec) hdr)).
    { unfold hdr_fields, k. rewrite map_app. destruct v; reflexivity. }
    assert (NT : nth i hdr (mkLump 0 0) = mkLump (nth (k + 2 * i) (map snd (hdr_fields v hdr)) 0)
                                                  (nth (k + (2 * i + 1)) (map snd (hdr_fields v hdr)) 0)).
    { rewrite (nth_skipn_add k _ _ (2 * i)), (nth_skipn_add k _ _ (2 * i + 1)), SK. rewrite <- nth_lumps_of by (rewrite map_length, FL; lia). rewrite lumps_of_flat. reflexivity. }
    rewrite NT. unfold entry_is. cbn [lu_ofs lu_len].
    assert (DB : dir_base v = (4 * k)%nat) by (unfold dir_base, k; destruct (is_q2 v); reflexivity).
    rewrite <- !WD by lia. split; f_equal; lia.
  - (* the written lumps *)
    intros w Iw. destruct (in_split _ _ Iw) as (l1 & l2 & EW).
    destruct (dir_lies v b x hdr l1 w l2 D EW) as (a & c & F & A4 & LA & NT & _). cbv zeta. rewrite NT. cbn [lu_ofs lu_len].
    assert (HL : hlen v = (dir_base v + 8 * nlumps v)%nat) by (destruct v; reflexivity).
    split; [|split; [|split; [|split]]].
    + unfold size. change 4 with (Z.of_nat 4). rewrite <- Nat2Z.inj_mod, A4. reflexivity.
    + rewrite <- HL. unfold size. rewrite LA. lia.
    + rewrite F, !size_app. pose proof (size_nonneg c). lia.
    + rewrite F, slice_app. f_equal. unfold size. rewrite Nat2Z.id. reflexivity.
    + intros w' Iw' NE. 
      assert (ORD : forall u1 l3 u2 l4 l5, wlumps v b = l3 ++ u1 :: l4 ++ u2 :: l5 ->
        lu_ofs (nth (w_idx u1) hdr (mkLump 0 0)) + lu_len (nth (w_idx u1) hdr (mkLump 0 0))
        <= lu_ofs (nth (w_idx u2) hdr (mkLump 0 0))).
      { clear - D. intros u1 l3 u2 l4 l5 E.
        assert (E2 : wlumps v b = (l3 ++ u1 :: l4) ++ u2 :: l5) by (rewrite E, <- app_assoc; reflexivity).
        destruct D as (D1 & D2 & D3). pose proof (D3 _ _ _ E) as G1. pose proof (D3 _ _ _ E2) as G2. cbv zeta in G1, G2.
        rewrite !(nth_error_nth _ _ _ G1), !(nth_error_nth _ _ _ G2). cbn [lu_ofs lu_len].
        rewrite lay_body_app, app_length. cbn [lay_body]. rewrite app_length.
        set (p := (hlen v + length (lay_body l3 (hlen v)))%nat). unfold padded. rewrite app_length. unfold size. lia. }
      rewrite EW in Iw'. apply in_app_or in Iw'. destruct Iw' as [I1|[I1|I1]].
      * right. destruct (in_split _ _ I1) as (l3 & l4 & ->).
        specialize (ORD w' l3 w l4 l2). rewrite NT in ORD. apply ORD. rewrite EW, <- app_assoc. reflexivity.
      * congruence.
      * left. destruct (in_split _ _ I1) as (l3 & l4 & ->).
        specialize (ORD w l1 w' l3 l4 EW). rewrite NT in ORD. exact ORD.
  - intros i Hi NI. destruct D as (_ & D2 & _). exact (nth_error_nth _ _ _ (D2 i Hi NI)).
Qed.
Print Assumptions C40_lump_directory.

(** A Quake BSP with odd-sized lumps: one plane, one vertex, five bytes of light, a name of three
    letters in the entities, one texture of 41 bytes and one missing, one model. *)
Definition ex_tex : list N := map Z.to_N [116;101;120;0;0;0;0;0;0;0;0;0;0;0;0;0; 16;0;0;0; 8;0;0;0; 40;0;0;0; 0;0;0;0; 0;0;0;0; 0;0;0;0; 7].
Definition ex_model : dmodel := mkModel (mkV 0 0 0) (mkV 1 2 3) (mkV 0 0 0) [0; 1; -1; 0] 3 0 4.
Definition ex_q1 : q1bsp (list miptex) :=
  mkQ1 [123; 125; 10]%N [mkPlane (mkV 1065353216 0 0) 1092616192 0] [mkTexD false ex_tex; mkTexD true []; mkTexD false ex_tex]
       [mkV 1 2 3] [255; 1]%N [] [] [] [1; 2; 3; 4; 5]%N [] [] [65535] [mkEdge 0 65535] [-3] [ex_model].
Definition ex_x : bspx := [([82; 71; 66]%N, [9; 8; 7]%N); ([88]%N, [])].
Lemma ex_q1_ok : bsp_wf VQ1 (B1 ex_q1) /\ models_distinct VQ1 (B1 ex_q1) /\ bspx_wf ex_x /\ file_size VQ1 (B1 ex_q1) ex_x = 428.
Proof.
  split; [split; [reflexivity|]|split; [right; discriminate|split]].
  - assert (TX : exists i, mip_head ex_tex i).
    { exists (mkInfo [116; 101; 120]%N 16 8 [40; 0; 0; 0]), (mkMip (map Z.of_N (firstn 16 ex_tex)) 16 8 [40; 0; 0; 0]), [7%N].
      vm_compute. repeat split; reflexivity. }
    unfold q1_wf, ex_q1. cbn [b1_planes b1_tex b1_verts b1_nodes b1_texinfo b1_faces b1_clips b1_leafs b1_marks b1_edges b1_surfedges b1_models].
    repeat match goal with |- _ /\ _ => split end; unfold all; repeat apply Forall_cons; try apply Forall_nil;
      match goal with |- tex_ok _ => first [left; reflexivity|right; right; exact TX] | _ => vm_compute; reflexivity end.
  - split.
    + cbn. constructor; [intros [K|[]]; discriminate|]. constructor; [intros []|constructor].
    + cbn. repeat constructor.
  - vm_compute. reflexivity.
Qed.

(** The written file: planes first, right behind the header; light at an offset that is a multiple
    of four although the lump before it is followed by padding. *)
Example C40_nontrivial : exists f, write_file VQ1 (B1 ex_q1) ex_x = ROk f /\ size f = 428 /\
  firstn 4 f = [29; 0; 0; 0]%N /\
  entry_is f 4 1 (mkLump 124 20) /\ entry_is f 4 8 (mkLump 232 5) /\ entry_is f 4 4 (mkLump 240 2) /\
  entry_is f 4 5 (mkLump 156 0) /\ slice f 232 8 = [1; 2; 3; 4; 5; 0; 0; 0]%N.
Proof.
  destruct (write_file VQ1 (B1 ex_q1) ex_x) as [f| |] eqn:E; [|vm_compute in E; discriminate E|vm_compute in E; discriminate E].
  exists f. split; [reflexivity|]. vm_compute in E. injection E as <-. vm_compute. repeat split; reflexivity.
Qed.

(** ** C70 *)

(** Saving a BSP of any version and loading the file gives the same version and the same contents
    of every lump; textures may have gained fewer than four zero bytes.  Missing for the full
    claim: a number of models at which the size of the model lump fits both games (refuted
    below). *)
Theorem C70_save_then_load_partial : forall v b x,
  bsp_wf v b -> models_distinct v b -> bspx_wf x -> file_size v b x <= 2147483647 ->
  exists f, write_file v b x = ROk f /\
    match b with
    | B1 b => exists t, load_file f = ROk (v, B1 (with_tex b t), x) /\ Forall2 tex_same (b1_tex b) t
    | B2 b => load_file f = ROk (v, B2 b, x)
    end.
Proof.
  intros v b x W M X L. destruct (saved v b x W L) as (hdr & E & D). exists (file_of v b x hdr). split; [assumption|].
  destruct b as [b|b].
  - apply load_q1; assumption.
  - apply load_q2; assumption.
Qed.
Print Assumptions C70_save_then_load_partial.

Example C70_nontrivial : exists f, write_file VQ1 (B1 ex_q1) ex_x = ROk f /\
  load_file f = ROk (VQ1, B1 (with_tex ex_q1
    [mkRMip false (ex_tex ++ [0; 0; 0]%N) (Some (mkInfo [116; 101; 120]%N 16 8 [40; 0; 0; 0]));
     mkRMip true [] None;
     mkRMip false ex_tex (Some (mkInfo [116; 101; 120]%N 16 8 [40; 0; 0; 0]))]), ex_x).
Proof.
  destruct (write_file VQ1 (B1 ex_q1) ex_x) as [f| |] eqn:E; [|vm_compute in E; discriminate E|vm_compute in E; discriminate E].
  exists f. split; [reflexivity|]. vm_compute in E. injection E as <-. vm_compute. reflexivity.
Qed.

(** A Quake BSP without models, and one with five, are loaded as Hexen II BSPs; the five models
    have become four others. *)
Definition zero_model : dmodel := mkModel (mkV 0 0 0) (mkV 0 0 0) (mkV 0 0 0) [0; 0; 0; 0] 0 0 0.
Definition node0 : node := mkNode 0 (-1) (-1) (mkV 0 0 0) (mkV 0 0 0) 0 0.
Definition with_models (n : nat) : q1bsp (list miptex) :=
  mkQ1 [] [] [] [] [] [node0] [] [] [] [mkClip 0 (-1) (-2)] [] [] [] [] (repeat zero_model n).
Theorem C70_other_game_refuted :
  (bsp_wf VQ1 (B1 (with_models 0)) /\ bsp_wf VQ1 (B1 (with_models 5))) /\
  (exists f b, write_file VQ1 (B1 (with_models 0)) [] = ROk f /\ load_file f = ROk (VH2, B1 b, [])) /\
  (exists f b, write_file VQ1 (B1 (with_models 5)) [] = ROk f /\ load_file f = ROk (VH2, B1 b, []) /\
     length (b1_models b) = 4%nat).
Proof.
  split; [|split].
  - split; (split; [reflexivity|]); unfold q1_wf, with_models;
      cbn [b1_planes b1_tex b1_verts b1_nodes b1_texinfo b1_faces b1_clips b1_leafs b1_marks b1_edges b1_surfedges b1_models repeat];
      repeat match goal with |- _ /\ _ => split end; unfold all; repeat apply Forall_cons; try apply Forall_nil; vm_compute; reflexivity.
  - destruct (write_file VQ1 (B1 (with_models 0)) []) as [f| |] eqn:E; [|vm_compute in E; discriminate E|vm_compute in E; discriminate E].
    exists f. vm_compute in E. injection E as <-. eexists. split; [reflexivity|]. vm_compute. reflexivity.
  - destruct (write_file VQ1 (B1 (with_models 5)) []) as [f| |] eqn:E; [|vm_compute in E; discriminate E|vm_compute in E; discriminate E].
    exists f. vm_compute in E. injection E as <-. eexists. split; [reflexivity|]. split; [vm_compute; reflexivity|reflexivity].
Qed.
Print Assumptions C70_other_game_refuted.

(** ** C41 *)

(** Any number of BSPX lumps with any contents survive, whatever the order the map iterates in, if
    their names have at most 23 characters.  Missing for the full claim: longer names (refuted
    below). *)
Theorem C41_bspx_partial : forall v b x,
  bsp_wf v b -> models_distinct v b -> file_size v b x <= 2147483647 ->
  NoDup (map fst x) ->
  (forall n d, In (n, d) x -> (length n <= 23)%nat /\ Forall (fun c => (0 < c < 256)%N) n) ->
  exists f v' b' x', write_file v b x = ROk f /\ load_file f = ROk (v', b', x') /\
    forall n d, In (n, d) x' <-> In (n, d) x.
Proof.
  intros v b x W M L ND NM.
  assert (X : bspx_wf x).
  { split; [assumption|]. apply Forall_forall. intros n I. apply in_map_iff in I. destruct I as ([m d] & <- & I). exact (NM m d I). }
  destruct (C70_save_then_load_partial v b x W M X L) as (f & E & R). exists f, v.
  destruct b as [b|b].
  - destruct R as (t & R & _). exists (B1 (with_tex b t)), x. repeat split; tauto.
  - exists (B2 b), x. repeat split; tauto.
Qed.
Print Assumptions C41_bspx_partial.

Example C41_nontrivial : exists f b, write_file VQ1 (B1 ex_q1) ex_x = ROk f /\
  load_file f = ROk (VQ1, b, [([82; 71; 66]%N, [9; 8; 7]%N); ([88]%N, [])]).
Proof.
  destruct C70_nontrivial as (f & E & R). exists f. eexists. split; [exact E|]. exact R.
Qed.

(** Two names that agree in their first 23 characters: one lump is lost and the other renamed. *)
Theorem C41_long_names_refuted :
  let n k := repeat 65%N 23 ++ [k] in
  exists f b, write_file VQ1 (B1 ex_q1) [(n 66%N, [1%N]); (n 67%N, [2%N])] = ROk f /\
    load_file f = ROk (VQ1, b, [(repeat 65%N 23, [2%N])]).
Proof.
  cbv zeta.
  destruct (write_file VQ1 (B1 ex_q1) [(repeat 65%N 23 ++ [66%N], [1%N]); (repeat 65%N 23 ++ [67%N], [2%N])]) as [f| |] eqn:E;
    [|vm_compute in E; discriminate E|vm_compute in E; discriminate E].
  exists f. vm_compute in E. injection E as <-. eexists. split; [reflexivity|]. vm_compute. reflexivity.
Qed.
Print Assumptions C41_long_names_refuted.

(** ** C42 *)

(** Whatever the bytes of a file, if it loads then every lump of records has a length that is a
    whole number of records, as many as were loaded, and lies in the file.  Missing for the full
    claim: lumps outside the file are not refused but read out of bounds (refuted below); the
    entities, textures and visibility lumps. *)
Theorem C42_accepted_files_partial : forall f v b x, load_file f = ROk (v, b, x) ->
  word f 0 = Some (ver_ident v) /\
  exists dir : nat -> lump,
  (forall i, (i < nlumps v)%nat -> entry_is f (dir_base v) i (dir i)) /\
  match b with B1 b => q1_fits f v dir b | B2 b => q2_fits f v dir b end.
Proof.
  intros f v b x H. destruct (load_file_inv f v b x H) as (lu & D & I & R). split; [assumption|].
  exists lu. split; [assumption|]. destruct b as [b|b].
  - destruct R as [Q R]. apply read_q1_inv; assumption.
  - destruct R as (Q & R & _). apply read_q2_inv; assumption.
Qed.
Print Assumptions C42_accepted_files_partial.

(** A file that is only a header, with the given plane lump. *)
Definition head_only (v : ver) (l : lump) : list N := hdr_bytes v (mkLump 0 0 :: l :: repeat (mkLump 0 0) (nlumps v - 2)).

(** 19 and 21 bytes of planes are refused, for every offset; 20 bytes inside the file are read. *)
Example C42_nontrivial :
  load_file (head_only VQ1 (mkLump 4 19)) = RThrow /\ load_file (head_only VQ1 (mkLump 4 21)) = RThrow /\
  load_file (head_only VQ1 (mkLump 124 20)) = RThrow /\
  (exists b, load_file (head_only VQ1 (mkLump 4 20)) = ROk (VH2, B1 b, []) /\ length (b1_planes b) = 1%nat) /\
  load_file (put_fields [(i32, 28)] ++ repeat 0%N 120) = RThrow.
Proof.
  split; [vm_compute; reflexivity|]. split; [vm_compute; reflexivity|]. split; [vm_compute; reflexivity|]. split.
  - eexists. split; [vm_compute; reflexivity|]. reflexivity.
  - vm_compute. reflexivity.
Qed.

(** A plane lump that begins in the file and ends behind it, or begins far behind or before it, is
    read out of bounds.  So is a BSPX lump whose end exceeds 2^32, and an empty lump at offset -4
    makes the loader look for the BSPX header four bytes before the file.  A file that ends inside
    the header is used uninitialized. *)
Definition with_bspx (ofs len : Z) : list N :=
  hdr_bytes VQ1 (repeat (mkLump 0 0) 14 ++ [mkLump 124 0])
  ++ rc_put bspxhdr_codec (mkBspxHdr [66; 83; 80; 88] 1)
  ++ rc_put bspxlump_codec (mkBspxLump (65 :: repeat 0 23) ofs len).
Theorem C42_outside_refuted :
  load_file (head_only VQ1 (mkLump 122 20)) = RUB /\
  load_file (head_only VQ1 (mkLump 4096 20)) = RUB /\
  load_file (head_only VQ1 (mkLump (-20) 20)) = RUB /\
  load_file (head_only VQ2 (mkLump 158 2000)) = RUB /\
  load_file (with_bspx 8 4294967292) = RUB /\
  load_file (head_only VQ1 (mkLump (-4) 0)) = RUB /\
  load_file (firstn 100 (head_only VQ1 (mkLump 0 0))) = RUB.
Proof. vm_compute. repeat split; reflexivity. Qed.
Print Assumptions C42_outside_refuted.

(** ** C43 *)

(** At every position that is a multiple of four, a written list of textures is read back: as many
    textures, missing ones missing, and the others with their data (then fewer than four zero
    bytes), name, size and offsets.  Missing for the full claim: data that is not empty but shorter
    than a texture header (refuted below). *)
Theorem C43_textures_partial : forall l before after,
  (length before mod 4 = 0)%nat -> Forall tex_ok l ->
  size before + size (tex_write (length before) l) <= 2147483647 ->
  exists r, read_textures (before ++ tex_write (length before) l ++ after)
              (mkLump (size before) (size (tex_write (length before) l))) = ROk r /\
            Forall2 tex_same l r.
Proof. intros l a c A T L. exact (read_textures_ok l _ a c eq_refl A T L). Qed.
Print Assumptions C43_textures_partial.

Example C43_nontrivial :
  let l := [mkTexD true []; mkTexD false ex_tex; mkTexD true []; mkTexD false []; mkTexD false ex_tex] in
  Forall tex_ok l /\
  read_textures (repeat 1%N 8 ++ tex_write 8 l ++ [5%N]) (mkLump 8 (size (tex_write 8 l)))
  = ROk [mkRMip true [] None;
         mkRMip false (ex_tex ++ [0; 0; 0]%N) (Some (mkInfo [116; 101; 120]%N 16 8 [40; 0; 0; 0]));
         mkRMip true [] None; mkRMip false [] None;
         mkRMip false ex_tex (Some (mkInfo [116; 101; 120]%N 16 8 [40; 0; 0; 0]))].
Proof.
  cbv zeta. split; [|vm_compute; reflexivity].
  assert (TX : exists i, mip_head ex_tex i).
  { exists (mkInfo [116; 101; 120]%N 16 8 [40; 0; 0; 0]), (mkMip (map Z.of_N (firstn 16 ex_tex)) 16 8 [40; 0; 0; 0]), [7%N].
    vm_compute. repeat split; reflexivity. }
  repeat apply Forall_cons; try apply Forall_nil; first [left; reflexivity|right; left; reflexivity|right; right; exact TX].
Qed.

(** Eight bytes of data: the header is read past their end. *)
Theorem C43_short_data_refuted :
  let l := [mkTexD false [1; 2; 3; 4; 5; 6; 7; 8]%N] in
  read_textures (tex_write 0 l) (mkLump 0 (size (tex_write 0 l))) = RUB.
Proof. vm_compute. reflexivity. Qed.
Print Assumptions C43_short_data_refuted.

(** ** C44 *)

(** A visibility lump with clusters is read back exactly when something follows it, as the
    entities always do; a stored offset is read back and the others are not changed.  Missing for
    the full claim: bits without clusters (refuted below). *)
Theorem C44_visibility_partial : forall v before after,
  Forall (fun e => it_in i32 (e_0 e) = true /\ it_in i32 (e_1 e) = true) (mv_ofs v) ->
  Z.of_nat (length (mv_ofs v)) <= 2147483647 -> mv_ofs v <> [] -> after <> [] ->
  read_vis (before ++ vis_write v ++ after) (mkLump (size before) (size (vis_write v))) = ROk v.
Proof.
  intros v a c F L N C. rewrite (read_vis_ok v _ a c).
  - destruct (mv_ofs v); [congruence|reflexivity].
  - split; [|change (it_hi i32) with 2147483647; assumption]. eapply Forall_impl; [|exact F]. intros e [A B].
    unfold edge_wf. rewrite A, B. reflexivity.
  - reflexivity.
  - assumption.
Qed.
Print Assumptions C44_visibility_partial.

Theorem C44_bit_offsets : forall v vt c o, (c < length (mv_ofs v))%nat ->
  0 <= o -> o + 4 + 8 * Z.of_nat (length (mv_ofs v)) <= 2147483647 ->
  exists v', set_bit_offset v vt c o = ROk v' /\ get_bit_offset v' vt c = ROk o /\
    mv_bits v' = mv_bits v /\ length (mv_ofs v') = length (mv_ofs v) /\
    forall vt' c', (c' < length (mv_ofs v))%nat -> vt' <> vt \/ c' <> c ->
      get_bit_offset v' vt' c' = get_bit_offset v vt' c'.
Proof.
  intros [ofs bits] vt c o C O L. cbn [mv_ofs mv_bits] in *. unfold set_bit_offset. cbn [mv_ofs mv_bits].
  destruct (nth_error ofs c) as [e|] eqn:E; [|apply nth_error_None in E; lia].
  set (ho := header_offset (mkVis ofs bits)).
  assert (HO : ho = 4 + 8 * Z.of_nat (length ofs)) by (unfold ho, header_offset; cbn [mv_ofs]; lia).
  rewrite wrap_u64 by lia. rewrite wrap_i32 by lia.
  set (e' := if vt then mkEdge (e_0 e) (o + ho) else mkEdge (o + ho) (e_1 e)).
  destruct (upd_some _ ofs c e' C) as [l' U]. rewrite U. exists (mkVis l' bits). split; [reflexivity|].
  pose proof (upd_length _ _ _ _ _ U) as LL. cbn [mv_ofs mv_bits].
  assert (HO' : header_offset (mkVis l' bits) = ho) by (unfold ho, header_offset; cbn [mv_ofs]; rewrite LL; reflexivity).
  split; [|split; [reflexivity|split; [assumption|]]].
  - unfold get_bit_offset. cbn [mv_ofs]. rewrite (upd_nth_error _ _ _ _ _ c U), Nat.eqb_refl, HO'.
    replace (if vt then e_1 e' else e_0 e') with (o + ho) by (unfold e'; destruct vt; reflexivity).
    replace (o + ho - ho) with o by lia. rewrite wrap_u64 by lia. rewrite wrap_i32 by lia. reflexivity.
  - intros vt' c' C' D. unfold get_bit_offset. cbn [mv_ofs]. rewrite (upd_nth_error _ _ _ _ _ c' U), HO'. fold ho.
    destruct (Nat.eqb_spec c' c) as [->|NE]; [|reflexivity]. rewrite E.
    destruct D as [D|D]; [|congruence]. unfold e'. destruct vt, vt'; try congruence; reflexivity.
Qed.
Print Assumptions C44_bit_offsets.

Example C44_nontrivial :
  let v := mkVis [mkEdge 20 0; mkEdge 21 0] [3; 2; 1]%N in
  vis_write v = [2;0;0;0; 20;0;0;0; 0;0;0;0; 21;0;0;0; 0;0;0;0; 3; 2; 1]%N /\
  read_vis ([9; 9; 9; 9]%N ++ vis_write v ++ [125%N]) (mkLump 4 23) = ROk v /\
  get_bit_offset v false 1 = ROk 1 /\
  set_bit_offset v true 0 2 = ROk (mkVis [mkEdge 20 22; mkEdge 21 0] [3; 2; 1]%N) /\
  get_bit_offset v true 2 = RUB.
Proof. vm_compute. repeat split; reflexivity. Qed.

Theorem C44_bits_without_clusters_refuted : forall bits before after, bits <> [] ->
  exists v, v = mkVis [] bits /\
  read_vis (before ++ vis_write v ++ after) (mkLump (size before) (size (vis_write v))) = ROk (mkVis [] []).
Proof. intros bits a c N. eexists. split; [reflexivity|]. reflexivity. Qed.
Print Assumptions C44_bits_without_clusters_refuted.
