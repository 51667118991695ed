(* C117: the BSPX lumps of light styles and offsets.  C118: .lit and .lux files, RGBLIGHTING and -litonly. *)
From Coq Require Import List Arith NArith ZArith Bool Lia Permutation.
Import ListNotations.
From Verif Require Import Base Codec NumCastModel LightmapModel LightmapProofs PropertiesLightmap LmLumpsModel LmLumpsProofs.
Local Open Scope Z_scope.

(** How an engine finds the styles of face [i] of [n], whose record is [f]: LMSTYLE16 holds the same number
    of 16-bit styles for every face, up to 65535; LMSTYLE the same number of bytes, up to 255; without them
    it takes those of the face.  The offset comes from LMOFFSET or else from the face. *)
Definition read_styles (L : lumps) (n i : nat) (f : out_face) : list Z :=
  match l_style16 L with
  | Some b => let per := (length b / n)%nat in engine_styles16 (u16s (firstn per (skipn (i * per) b)))
  | None =>
      match l_style L with
      | Some b => let per := (length b / n)%nat in engine_styles (map Z.of_N (firstn per (skipn (i * per) b)))
      | None => engine_styles (f_styles f)
      end
  end.
Definition read_offset (L : lumps) (i : nat) (f : out_face) : option Z :=
  match l_ofs L with
  | Some b => match get_s 4 (skipn (i * 4) b) with Some (v, _) => Some v | None => None end
  | None => Some (f_ofs f)
  end.

(** The styles of scaled lightmaps end at 65535; at most [facestyles] are used. *)
Definition wf_face (facestyles : Z) (f : out_face) : Prop :=
  length (s_styles f) = 16%nat /\ (forall s, In s (s_styles f) -> 0 <= s <= 65535) /\
  Z.of_nat (length (engine_styles16 (s_styles f))) <= facestyles.

Lemma per_is : forall facestyles fs, 0 <= facestyles -> (forall f, In f fs -> wf_face facestyles f) ->
  per_face facestyles (nd_per (need_all fs)) = Z.of_nat (nd_per (need_all fs)) /\ (nd_per (need_all fs) <= 16)%nat.
Proof.
  intros facestyles fs F W. unfold need_all. destruct (need_fold fs (mkNeeds false false 0 0)) as (_ & _ & _ & (_ & _ & D)).
  set (r := nd_per (fold_left need_face fs (mkNeeds false false 0 0))) in *. cbn [nd_per] in D.
  assert (H : Z.of_nat r <= facestyles /\ (r <= 16)%nat).
  { destruct D as [->|(f & Hf & E)]; [split; lia|]. destruct (W f Hf) as (W1 & _ & W3). unfold used in E.
    pose proof (used_length (s_styles f)). split; lia. }
  split; [|apply H]. unfold per_face. destruct (facestyles <=? Z.of_nat r) eqn:C; [apply Z.leb_le in C; lia|reflexivity].
Qed.

(** Whatever the faces: every face whose own styles are the first four of its scaled ones is read back with
    all its scaled styles, unless one of them is 255, and with its scaled offset. *)
Theorem C117_styles : forall facestyles fs, 0 <= facestyles -> (forall f, In f fs -> wf_face facestyles f) ->
  (forall f, In f fs -> srange 4 (s_ofs f)) ->
  exists L, style_lumps facestyles fs = ROk L /\
    forall i f, nth_error fs i = Some f ->
      read_offset L i f = Some (s_ofs f) /\
      (f_styles f = map (fun v => if v =? 65535 then 255 else v mod 256) (firstn 4 (s_styles f)) ->
       ~ In 255 (engine_styles16 (s_styles f)) ->
       read_styles L (length fs) i f = engine_styles16 (s_styles f)).
Proof.
  intros facestyles fs F W O. destruct (per_is facestyles fs F W) as [Ep Hp].
  destruct (need_fold fs (mkNeeds false false 0 0)) as (A & B & (C1 & C2 & C3) & (D1 & D2 & D3)). fold (need_all fs) in *.
  cbn [nd_ofs nd_sty nd_max nd_per] in *. unfold style_lumps. rewrite Ep.
  set (n := need_all fs) in *. set (r := nd_per n) in *.
  assert (Ro : forall L, l_ofs L = (if nd_ofs n then Some (flat_map (fun f => put_s 4 (s_ofs f)) fs) else None) ->
    forall i f, nth_error fs i = Some f -> read_offset L i f = Some (s_ofs f)).
  { intros L EL i f Hi. unfold read_offset. rewrite EL. destruct (nd_ofs n).
    - destruct (skipn_flat _ _ (fun f => put_s 4 (s_ofs f)) 4%nat fs i f) as [rest ->]; [intros; apply put_s_length|exact Hi|].
      cbv beta. rewrite (s_ok 4); [reflexivity|]. apply O. eapply nth_error_In. exact Hi.
    - f_equal. apply A; [reflexivity|]. eapply nth_error_In. exact Hi. }
  assert (Lu : forall i f, nth_error fs i = Some f -> (length (engine_styles16 (s_styles f)) <= r)%nat)
    by (intros i f Hi; apply D2; eapply nth_error_In; exact Hi).
  assert (Nz : forall i f, nth_error fs i = Some f -> length fs <> 0%nat) by (intros i f Hi Hc; destruct fs; [destruct i; discriminate|discriminate]).
  destruct (nd_sty n || (4 <? Z.of_nat r)) eqn:Nd.
  - replace (Z.of_nat r <? 0) with false by (symmetry; apply Z.ltb_ge; lia). rewrite Nat2Z.id.
    assert (Lf : forall f, In f fs -> length (firstn r (s_styles f)) = r).
    { intros f Hf. rewrite firstn_length. destruct (W f Hf) as (-> & _). lia. }
    destruct (INVALID_OLD <=? nd_max n) eqn:Mx.
    + eexists. split; [reflexivity|]. intros i f Hi. split; [apply Ro; [reflexivity|exact Hi]|]. intros Ow Nt.
      unfold read_styles. cbn [l_style16].
      assert (Lg : forall y, In y fs -> length (flat_map (put_s 2) (firstn r (s_styles y))) = (r * 2)%nat).
      { intros y Hy. rewrite (length_flat _ _ (put_s 2) 2%nat) by (intros; apply put_s_length). rewrite Lf by exact Hy. reflexivity. }
      rewrite (length_flat _ _ _ (r * 2)%nat fs Lg).
      rewrite (Nat.mul_comm (length fs)), Nat.div_mul by (apply (Nz i f Hi)).
      rewrite (slice_flat _ _ _ (r * 2)%nat fs i f Lg Hi). rewrite u16s_put.
      * apply used_firstn. apply (Lu i f Hi).
      * intros s Hs. destruct (W f (nth_error_In _ _ Hi)) as (_ & W2 & _). apply W2. eapply (In_firstn_local r). exact Hs.
    + eexists. split; [reflexivity|]. intros i f Hi. split; [apply Ro; [reflexivity|exact Hi]|]. intros Ow Nt.
      unfold read_styles. cbn [l_style16 l_style].
      assert (Lg : forall y, In y fs -> length (map (fun s => to_unsigned 1 (if s =? INVALID then INVALID_OLD else s)) (firstn r (s_styles y))) = r).
      { intros y Hy. rewrite map_length. apply Lf. exact Hy. }
      rewrite (length_flat _ _ _ r fs Lg).
      rewrite (Nat.mul_comm (length fs)), Nat.div_mul by (apply (Nz i f Hi)).
      rewrite (slice_flat _ _ _ r fs i f Lg Hi). rewrite map_map, used_bytes.
      * apply used_firstn. apply (Lu i f Hi).
      * rewrite used_firstn by (apply (Lu i f Hi)). intros s Hs.
        assert (s <= nd_max n) by (apply (C2 f s (nth_error_In _ _ Hi)); exact Hs).
        apply Z.leb_gt in Mx. unfold INVALID_OLD in Mx.
        assert (Hin : In s (s_styles f)). { apply engine16_in. exact Hs. }
        destruct (W f (nth_error_In _ _ Hi)) as (_ & W2 & _). specialize (W2 s Hin). lia.
  - apply orb_false_iff in Nd. destruct Nd as [Ns Nr]. apply Z.ltb_ge in Nr.
    eexists. split; [reflexivity|]. intros i f Hi. split; [apply Ro; [reflexivity|exact Hi]|]. intros Ow Nt.
    unfold read_styles. cbn [l_style16 l_style]. rewrite Ow. specialize (Lu i f Hi).
    destruct (W f (nth_error_In _ _ Hi)) as (W1 & _). apply (own_match (s_styles f)); [lia|lia|intros s Hs ->; exact (Nt Hs)|].
    intros k s Hk Hk4. unfold own_styles, INVALID, INVALID_OLD. rewrite <- Ow.
    destruct B as [B _]. destruct (B Ns) as [_ B']. apply (B' f k s (nth_error_In _ _ Hi) Hk Hk4).
Qed.
Print Assumptions C117_styles.

(** From the lightmaps to what an engine reads: lighting a fresh file with scaled lightmaps (of any scale,
    with or without plain ones), every face is read back with exactly the styles saved for it, in their
    order, and with the offset of its scaled lightmaps. *)
Theorem C117_saved : forall nov rgb b t total ss px vpx files faces ws facestyles,
  length files = length ss -> (forall f, In f files -> f_styles f = [255; 255; 255; 255]) ->
  0 <= facestyles -> 3 * Z.of_nat total <= 2147483647 ->
  (forall s, In (Some s) ss -> (length (sf_styles s) <= 16)%nat /\ Z.of_nat (length (sf_styles s)) <= facestyles /\
     forall x, In x (sf_styles s) -> 0 <= x < 65535 /\ x <> 255) ->
  save_all (Sup nov) rgb b t total 0 ss px vpx (map (initial (Sup nov)) files) = ROk (faces, ws) ->
  exists L, style_lumps facestyles faces = ROk L /\
    forall i f o, nth_error faces i = Some f -> nth_error ss i = Some o ->
      read_styles L (length faces) i f = match o with Some s => sf_styles s | None => [] end /\
      read_offset L i f = Some (s_ofs f).
Proof.
  intros nov rgb b t total ss px vpx files faces ws facestyles Lf Fr F T R H.
  apply save_all_nth in H; [|rewrite map_length; exact Lf]. destruct H as [Lc H].
  assert (G : forall i f o, nth_error faces i = Some f -> nth_error ss i = Some o ->
    s_styles f = sup_styles (match o with Some s => sf_styles s | None => [] end) /\
    f_styles f = own_styles (s_styles f) /\ -1 <= s_ofs f <= 3 * Z.of_nat total).
  { intros i f o Hf Ho. assert (Hi : (i < length files)%nat) by (rewrite Lf; apply nth_error_Some; congruence).
    destruct (nth_error files i) as [f0|] eqn:E0; [|apply nth_error_None in E0; lia].
    assert (Ff : f_styles f0 = [255; 255; 255; 255]) by (apply Fr; eapply nth_error_In; exact E0).
    destruct (H i o (initial (Sup nov) f0) Ho) as (f' & Hf' & Hs); [rewrite nth_error_map, E0; reflexivity|].
    assert (f' = f) by congruence. subst f'. destruct o as [s|].
    - destruct Hs as (w & Hs). apply save_face_sup in Hs; [exact Hs|..].
      + intros x Hx. destruct (R s (nth_error_In _ _ Ho)) as (_ & _ & R3). apply R3. exact Hx.
      + exact Ff.
      + reflexivity.
      + reflexivity.
    - subst f. cbn [initial s_styles f_styles s_ofs]. rewrite Ff. split; [reflexivity|]. split; [reflexivity|lia]. }
  assert (Bd : forall o, In o ss -> (length (match o with Some s => sf_styles s | None => [] end) <= 16)%nat /\
     Z.of_nat (length (match o with Some s => sf_styles s | None => [] end)) <= facestyles /\
     forall x, In x (match o with Some s => sf_styles s | None => [] end) -> 0 <= x < 65535 /\ x <> 255).
  { intros [s|] Ho; [apply R; exact Ho|]. split; [cbn; lia|]. split; [exact F|intros x []]. }
  assert (Ex : forall f, In f faces -> exists i o, nth_error faces i = Some f /\ nth_error ss i = Some o).
  { intros f Hf. apply In_nth_error in Hf. destruct Hf as [i Hi]. destruct (nth_error ss i) as [o|] eqn:Eo.
    - exists i, o. split; [exact Hi|exact Eo].
    - apply nth_error_None in Eo. assert (i < length faces)%nat by (apply nth_error_Some; congruence). lia. }
  destruct (C117_styles facestyles faces F) as (L & EL & HL).
  - intros f Hf. destruct (Ex f Hf) as (i & o & Hi & Ho). destruct (G i f o Hi Ho) as (G1 & _).
    destruct (Bd o (nth_error_In _ _ Ho)) as (B1 & B2 & B3).
    destruct (sup_styles_used _ B1 (fun x Hx => proj1 (B3 x Hx))) as (S1 & S2 & S3). unfold wf_face. rewrite G1.
    split; [exact S1|]. split; [exact S3|]. rewrite S2. exact B2.
  - intros f Hf. destruct (Ex f Hf) as (i & o & Hi & Ho). destruct (G i f o Hi Ho) as (_ & _ & G3). unfold srange. change (256 ^ Z.of_nat 4) with 4294967296. lia.
  - exists L. split; [exact EL|]. intros i f o Hf Ho. destruct (HL i f Hf) as [H1 H2]. split; [|exact H1].
    destruct (G i f o Hf Ho) as (G1 & G2 & _). destruct (Bd o (nth_error_In _ _ Ho)) as (B1 & _ & B3).
    destruct (sup_styles_used _ B1 (fun x Hx => proj1 (B3 x Hx))) as (_ & S2 & _). rewrite <- G1 in S2.
    rewrite <- S2. apply H2; [exact G2|]. rewrite S2. intro Hc. apply B3 in Hc. destruct Hc as [_ Hc]. apply Hc. reflexivity.
Qed.
Print Assumptions C117_saved.

(** The lumps are only written when they are needed: LMOFFSET when an offset differs, a style lump when a
    face uses more than four styles or a style that its own record does not have there; and it is the
    16-bit one exactly when a style does not fit. *)
Theorem C117_needed : forall facestyles fs L, (forall f, In f fs -> wf_face facestyles f) -> 0 <= facestyles ->
  style_lumps facestyles fs = ROk L ->
  (l_ofs L = None <-> forall f, In f fs -> f_ofs f = s_ofs f) /\
  (l_style L = None /\ l_style16 L = None <-> forall f, In f fs -> (length (engine_styles16 (s_styles f)) <= 4)%nat /\
      forall k s, nth_error (engine_styles16 (s_styles f)) k = Some s -> nth k (f_styles f) 0 = s) /\
  (l_style L <> None -> l_style16 L = None /\ forall f s, In f fs -> In s (engine_styles16 (s_styles f)) -> s < 255) /\
  (l_style16 L <> None -> l_style L = None /\ exists f s, In f fs /\ In s (engine_styles16 (s_styles f)) /\ 255 <= s).
Proof.
  intros facestyles fs L W F H. destruct (per_is facestyles fs F W) as [Ep Hp].
  destruct (need_fold fs (mkNeeds false false 0 0)) as (A & B & (C1 & C2 & C3) & (D1 & D2 & D3)). fold (need_all fs) in *.
  cbn [nd_ofs nd_sty nd_max nd_per] in *. unfold style_lumps in H. rewrite Ep in H.
  set (n := need_all fs) in *. set (r := nd_per n) in *.
  assert (Eo : l_ofs L = (if nd_ofs n then Some (flat_map (fun f => put_s 4 (s_ofs f)) fs) else None)).
  { destruct (nd_sty n || (4 <? Z.of_nat r)); [destruct (Z.of_nat r <? 0); [discriminate|]; destruct (INVALID_OLD <=? nd_max n)|]; injection H as <-; reflexivity. }
  assert (P1 : l_ofs L = None <-> forall f, In f fs -> f_ofs f = s_ofs f).
  { rewrite Eo. destruct (nd_ofs n); [split; [discriminate|]|split; [intros _; apply A; reflexivity|reflexivity]].
    intro Hf. destruct A as [_ A]. discriminate A. split; [reflexivity|exact Hf]. }
  split; [exact P1|]. clear P1 Eo.
  assert (P2 : (nd_sty n || (4 <? Z.of_nat r)) = false <-> forall f, In f fs -> (length (engine_styles16 (s_styles f)) <= 4)%nat /\
      forall k s, nth_error (engine_styles16 (s_styles f)) k = Some s -> nth k (f_styles f) 0 = s).
  { rewrite orb_false_iff, Z.ltb_ge, B. split.
    - intros ((_ & H1) & H2) f Hf. assert (L4 : (length (engine_styles16 (s_styles f)) <= 4)%nat) by (specialize (D2 f Hf); unfold used in D2; lia).
      split; [exact L4|]. intros k s Hk. apply (H1 f k s Hf Hk). assert (k < length (engine_styles16 (s_styles f)))%nat by (apply nth_error_Some; congruence). lia.
    - intro Hf. split; [split; [reflexivity|]|].
      + intros f k s Hin Hk _. apply (Hf f Hin). exact Hk.
      + destruct D3 as [->|(f & Hin & E)]; [lia|]. destruct (Hf f Hin) as [L4 _]. unfold used in E. lia. }
  destruct (nd_sty n || (4 <? Z.of_nat r)) eqn:Nd.
  - destruct (Z.of_nat r <? 0) eqn:Hneg; [discriminate|]. destruct (INVALID_OLD <=? nd_max n) eqn:Mx; injection H as <-; cbn [l_style l_style16].
    + apply Z.leb_le in Mx. unfold INVALID_OLD in Mx. split; [split; [intros [_ Hc]; discriminate|intro Hf; apply P2 in Hf; discriminate]|].
      split; [congruence|]. intros _. split; [reflexivity|]. destruct C3 as [C3|(f & Hf & Hm)]; [lia|]. exists f, (nd_max n). split; [exact Hf|]. split; [exact Hm|exact Mx].
    + apply Z.leb_gt in Mx. unfold INVALID_OLD in Mx. split; [split; [intros [Hc _]; discriminate|intro Hf; apply P2 in Hf; discriminate]|].
      split; [|congruence]. intros _. split; [reflexivity|]. intros f s Hf Hs. specialize (C2 f s Hf Hs). lia.
  - injection H as <-. cbn [l_style l_style16]. split; [split; [intros _; apply P2; reflexivity|split; reflexivity]|]. split; congruence.
Qed.
Print Assumptions C117_needed.

(** Refuted without the condition on 255: a face saved with styles 255 and 0 is read without any. *)
Theorem C117_style255_refuted : exists f L, wf_face 16 f /\
  f_styles f = map (fun v => if v =? 65535 then 255 else v mod 256) (firstn 4 (s_styles f)) /\
  style_lumps 16 [f] = ROk L /\ engine_styles16 (s_styles f) = [255; 0] /\ read_styles L 1 0 f = [].
Proof.
  exists (mkOut 0 [255; 0; 255; 255] 0 (sup_styles [255; 0]) (-1)). eexists. split.
  - split; [reflexivity|]. split; [|vm_compute; discriminate]. intros s Hs. vm_compute in Hs.
    repeat (destruct Hs as [<-|Hs]; [lia|]). contradiction.
  - split; [reflexivity|]. split; [vm_compute; reflexivity|]. split; reflexivity.
Qed.
Print Assumptions C117_style255_refuted.

(** Refuted for a negative -facestyles, which is accepted and does not limit the styles that are saved: the
    sixteen styles of a face are saved and an engine reads four. *)
Theorem C117_negative_refuted : exists f L,
  f_styles f = map (fun v => if v =? 65535 then 255 else v mod 256) (firstn 4 (s_styles f)) /\
  style_lumps (-1) [f] = ROk L /\ length (engine_styles16 (s_styles f)) = 16%nat /\ read_styles L 1 0 f = [0; 1; 2; 3].
Proof.
  exists (mkOut 0 [0; 1; 2; 3] 0 (sup_styles (map Z.of_nat (seq 0 16))) (-1)). eexists.
  split; [reflexivity|]. split; [vm_compute; reflexivity|]. split; reflexivity.
Qed.
Print Assumptions C117_negative_refuted.

(** Refuted for a file lit before, "faces without lightmaps have no styles": a face without samples keeps
    the styles of the earlier run, at offset -1. *)
Theorem C117_stale_refuted : exists file faces ws L f,
  save_all (Sup true) false (mkBufs true false false) [] 0 0 [None] (fun _ _ => ([], [], [])) (fun _ _ => ([], [], []))
    [initial (Sup true) file] = ROk (faces, ws) /\ faces = [f] /\ style_lumps 4 faces = ROk L /\
  read_styles L 1 0 f = [0; 32] /\ read_offset L 0 f = Some (-1).
Proof.
  exists (mkOut 7 [0; 32; 255; 255] (-1) [] (-1)). do 4 eexists. split; [reflexivity|]. split; [reflexivity|].
  split; [vm_compute; reflexivity|]. split; reflexivity.
Qed.
Print Assumptions C117_stale_refuted.

(** Three faces, the second with six styles: bytes, six per face; then with a style of 300: 16 bits. *)
Example C117_nontrivial :
  let face l o := mkOut o (own_styles (sup_styles l)) o (sup_styles l) (-1) in
  let a := face [0; 5] 0 in let b := mkOut (-1) [3; 4; 5; 6] 8 (sup_styles [3; 4; 5; 6; 7; 8]) (-1) in let c := face [] (-1) in
  style_lumps 16 [a; b; c] = ROk (mkLumps
    (Some [0; 5; 255; 255; 255; 255; 3; 4; 5; 6; 7; 8; 255; 255; 255; 255; 255; 255]%N) None
    (Some [0; 0; 0; 0; 8; 0; 0; 0; 255; 255; 255; 255]%N)) /\
  style_lumps 16 [a; face [300] 4] = ROk (mkLumps None (Some [0; 0; 5; 0; 44; 1; 255; 255]%N) None) /\
  style_lumps 16 [a; c] = ROk (mkLumps None None None).
Proof. vm_compute. repeat split; reflexivity. Qed.

Local Open Scope nat_scope.

(** Every use but -lit2 alone: with the buffers as they are allocated nothing outside of them is read; the
    files hold a header of eight bytes and the whole buffer, the BSPX lumps the whole buffer, and -litonly
    leaves the light data alone. *)
Theorem C118_files : forall rgb litonly litf luxf sups data0 out lit lux total,
  only_lit2 litf = false ->
  (litonly = true -> rgb = false /\ length data0 = total) -> (rgb = false -> length out = total) ->
  (rgb || any litf = true -> length lit = 3 * total) -> (any luxf = true -> length lux = 3 * total) ->
  finish rgb litonly litf luxf sups data0 out lit lux = ROk (mkStored
    (if litonly then data0 else if rgb then lit else out)
    (if negb rgb && fl_ext litf then Some ([81; 76; 73; 84; 1; 0; 0; 0]%N ++ lit) else None)
    (if negb rgb && fl_ext luxf then Some ([81; 76; 73; 84; 1; 0; 0; 0]%N ++ lux) else None)
    (if negb rgb && fl_bspx litf then Some lit else None)
    (if negb rgb && fl_bspx luxf then Some lux else None)).
Proof.
  intros rgb litonly litf luxf sups data0 out lit lux total No Ho Hout Hlit Hlux. unfold finish. rewrite No.
  assert (Rz : forall l, length l = 3 * total -> resize (3 * total) l = l).
  { intros l Hl. unfold resize. rewrite firstn_all2 by lia. rewrite Hl, Nat.sub_diag. apply app_nil_r. }
  assert (Rw : forall l, length l = 3 * total -> raw (3 * total) l = ROk l).
  { intros l Hl. unfold raw. rewrite Hl, Nat.ltb_irrefl. rewrite firstn_all2 by lia. reflexivity. }
  destruct rgb; cbn [negb andb orb] in *.
  - destruct litonly; [destruct (Ho eq_refl); discriminate|]. reflexivity.
  - assert (Ed : length (if litonly then data0 else out) = total) by (destruct litonly; [apply Ho; reflexivity|apply Hout; reflexivity]).
    rewrite Ed. unfold write_lit1, write_lux. destruct (fl_ext litf) eqn:E1; cbn [opt_res rbind].
    + rewrite Rw by (apply Hlit; unfold any; rewrite E1; reflexivity). cbn [rbind].
      destruct (fl_ext luxf) eqn:E2; cbn [opt_res rbind].
      * rewrite Rw by (apply Hlux; unfold any; rewrite E2; reflexivity). cbn [rbind].
        rewrite !Rz; [destruct (fl_bspx litf); reflexivity|apply Hlux; unfold any; rewrite E2; reflexivity|apply Hlit; unfold any; rewrite E1; reflexivity].
      * rewrite Rz by (apply Hlit; unfold any; rewrite E1; reflexivity). destruct (fl_bspx luxf) eqn:E3;
          [rewrite Rz by (apply Hlux; unfold any; rewrite E3, orb_true_r; reflexivity)|]; destruct (fl_bspx litf); reflexivity.
    + destruct (fl_ext luxf) eqn:E2; cbn [opt_res rbind].
      * rewrite Rw by (apply Hlux; unfold any; rewrite E2; reflexivity). cbn [rbind].
        rewrite (Rz lux) by (apply Hlux; unfold any; rewrite E2; reflexivity). destruct (fl_bspx litf) eqn:E3; [rewrite Rz by (apply Hlit; unfold any; rewrite E3, orb_true_r; reflexivity)|]; reflexivity.
      * destruct (fl_bspx litf) eqn:E3; [rewrite Rz by (apply Hlit; unfold any; rewrite E3, orb_true_r; reflexivity)|];
          (destruct (fl_bspx luxf) eqn:E4; [rewrite Rz by (apply Hlux; unfold any; rewrite E4, orb_true_r; reflexivity)|]); reflexivity.
Qed.
Print Assumptions C118_files.

(** With the buffers of C96: the colours of lightmap [k] of a face at offset [v] are in the file at
    8 + 3 * (v + k * size), the greyscale in the light data at v + k * size. *)
Theorem C118_colours : forall litf luxf sups data0 B0 B1 B2 v size n p st,
  let b := buffers false (any litf) (any luxf) in
  only_lit2 litf = false -> length B1 = 3 * length B0 -> length B2 = 3 * length B0 -> (0 <= v)%Z ->
  finish false false litf luxf sups data0 B0 (if has_lit b then B1 else []) (if has_lux b then B2 else []) = ROk st ->
  readable false b B0 B1 B2 v size n p ->
  forall k, k < n -> let o := Z.to_nat v + k * size in
    firstn size (skipn o (st_data st)) = fst (fst (p k)) /\
    (fl_ext litf = true -> exists f, st_lit st = Some f /\ firstn (3 * size) (skipn (8 + 3 * o) f) = snd (fst (p k))) /\
    (fl_ext luxf = true -> exists f, st_lux st = Some f /\ firstn (3 * size) (skipn (8 + 3 * o) f) = snd (p k)) /\
    (fl_bspx litf = true -> exists f, st_rgb st = Some f /\ firstn (3 * size) (skipn (3 * o) f) = snd (fst (p k))) /\
    (fl_bspx luxf = true -> exists f, st_dir st = Some f /\ firstn (3 * size) (skipn (3 * o) f) = snd (p k)).
Proof.
  intros litf luxf sups data0 B0 B1 B2 v size n p st b No L1 L2 Hv Fi (o0 & Ev & _ & Rd) k Hk o.
  rewrite (C118_files false false litf luxf sups data0 B0 _ _ (length B0) No) in Fi; cycle 1.
  - discriminate.
  - reflexivity.
  - intro H. unfold b. cbn [buffers has_lit orb] in *. rewrite H. exact L1.
  - intro H. unfold b. cbn [buffers has_lux]. rewrite H. exact L2.
  - injection Fi as <-. cbn [st_data st_lit st_lux st_rgb st_dir negb andb].
    destruct (Rd k Hk) as (R1 & R2 & R3). assert (Eo : Z.to_nat v = o0) by (rewrite Ev; lia). unfold o. rewrite Eo.
    unfold b in *. cbn [buffers has_out has_lit has_lux orb negb] in *. split; [apply R1; reflexivity|].
    split; [|split; [|split]]; intro Hf; rewrite Hf.
    + assert (Ha : any litf = true) by (unfold any; rewrite Hf; reflexivity). rewrite Ha in *. eexists. split; [reflexivity|]. cbn [Nat.add app skipn]. apply R2. reflexivity.
    + assert (Ha : any luxf = true) by (unfold any; rewrite Hf; reflexivity). rewrite Ha in *. eexists. split; [reflexivity|]. cbn [Nat.add app skipn]. apply R3. reflexivity.
    + assert (Ha : any litf = true) by (unfold any; rewrite Hf, orb_true_r; reflexivity). rewrite Ha in *. eexists. split; [reflexivity|]. apply R2. reflexivity.
    + assert (Ha : any luxf = true) by (unfold any; rewrite Hf, orb_true_r; reflexivity). rewrite Ha in *. eexists. split; [reflexivity|]. apply R3. reflexivity.
Qed.
Print Assumptions C118_colours.

(** -litonly, on a file whose lightmaps are inside its data and do not overlap: whatever the order of the
    threads, the colours computed for a style of a face are where the file has its greyscale; a style for
    which nothing was computed is black; faces at -1 get nothing. *)
Theorem C118_litonly : forall luxfile data0 l,
  data0 <> [] -> (3 * Z.of_nat (length data0) <= 2147483647)%Z ->
  let n f := length (engine_styles (firstn 4 (lf_styles f))) in
  (forall f, In (Some f) l -> lf_ofs f = (-1)%Z \/ (0 <= lf_ofs f)%Z /\ Z.to_nat (lf_ofs f) + lf_size f * n f <= length data0) ->
  (forall f s p, In (Some f) l -> lf_px f s = Some p ->
     length (fst (fst p)) = lf_size f /\ length (snd (fst p)) = 3 * lf_size f /\ length (snd p) = 3 * lf_size f) ->
  ForallOrdPairs apart l ->
  exists ws, litonly false luxfile data0 l = ROk ws /\
    forall ws', Permutation ws ws' ->
    exists B1 B2, final 1 (length data0) ws' = ROk B1 /\ final 2 (length data0) ws' = ROk B2 /\
      length B1 = 3 * length data0 /\ length B2 = 3 * length data0 /\
      forall f k s, In (Some f) l -> (0 <= lf_ofs f)%Z -> nth_error (engine_styles (firstn 4 (lf_styles f))) k = Some s ->
        let o := Z.to_nat (lf_ofs f) + k * lf_size f in
        firstn (3 * lf_size f) (skipn (3 * o) B1) = match lf_px f s with Some p => snd (fst p) | None => repeat 0%N (3 * lf_size f) end /\
        (luxfile = true -> firstn (3 * lf_size f) (skipn (3 * o) B2) = match lf_px f s with Some p => snd p | None => repeat 0%N (3 * lf_size f) end).
Proof.
  intros luxfile data0 l Hd Hn n Hin Hpx Hap. unfold litonly. destruct data0 as [|d0 ds]; [contradiction|]. set (data := d0 :: ds) in *.
  exists (flat_map (atom_writes (mkBufs true true luxfile)) (flat_map atoms_of l)). split.
  { apply litonly_all_atoms with (n := length data); [exact Hin|exact Hn]. }
  intros ws' P.
  destruct (atoms_read (mkBufs true true luxfile) (flat_map atoms_of l) (length data) ws') as (B0 & B1 & B2 & E0 & E1 & E2 & L0 & L1 & L2 & R).
  - apply Forall_forall. intros a Ha. apply in_flat_map in Ha. destruct Ha as ([f|] & Hf & Ha); [|contradiction]. cbn [atoms_of] in Ha.
    destruct (lf_ofs f =? -1)%Z; [contradiction|]. apply face_atoms_spec in Ha. destruct Ha as (k & s & _ & -> & _). unfold atom_ok. cbn [fst snd].
    destruct (lf_px f s) as [p|] eqn:Ep; [|exact I]. apply (Hpx f s p Hf Ep).
  - apply all_atoms_disj; [|exact Hap]. intros f Hf. destruct (Hin f Hf) as [H|[H _]]; [left|right]; exact H.
  - intros a Ha. apply in_flat_map in Ha. destruct Ha as ([f|] & Hf & Ha); [|contradiction]. cbn [atoms_of] in Ha.
    destruct (lf_ofs f =? -1)%Z eqn:E; [contradiction|]. apply Z.eqb_neq in E. apply face_atoms_spec in Ha. destruct Ha as (_ & _ & _ & _ & _ & Ha).
    destruct (Hin f Hf) as [H|[_ H]]; [contradiction|]. unfold n in H. lia.
  - exact P.
  - exists B1, B2. split; [exact E1|]. split; [exact E2|]. split; [exact L1|]. split; [exact L2|]. intros f k s Hf H0 Hk. set (o := Z.to_nat (lf_ofs f) + k * lf_size f).
    destruct (R o (lf_size f) (lf_px f s)) as (_ & R1 & R2).
    + apply in_flat_map. exists (Some f). split; [exact Hf|]. cbn [atoms_of]. replace (lf_ofs f =? -1)%Z with false by (symmetry; apply Z.eqb_neq; lia).
      apply face_atoms_in. exact Hk.
    + split; [apply R1; reflexivity|exact R2].
Qed.
Print Assumptions C118_litonly.

(** It refuses a file without lighting and games whose lighting is coloured. *)
Theorem C118_litonly_refuses : forall rgb luxfile data0 l, data0 = [] \/ rgb = true -> litonly rgb luxfile data0 l = RThrow.
Proof. intros rgb luxfile data0 l [->| ->]; unfold litonly; [reflexivity|]. destruct data0; reflexivity. Qed.
Print Assumptions C118_litonly_refuses.

(** An offset below -1 ends the run, if the offsets before it are fit for a file. *)
Theorem C118_litonly_negative : forall luxfile data0 pre f post, data0 <> [] -> (lf_ofs f < -1)%Z ->
  (forall g, In (Some g) pre -> (-1 <= lf_ofs g)%Z /\ (3 * lf_ofs g <= 2147483647)%Z) ->
  litonly false luxfile data0 (pre ++ Some f :: post) = RThrow.
Proof.
  intros luxfile data0 pre f post D F P. unfold litonly. destruct data0 as [|d ds]; [contradiction|].
  induction pre as [|[g|] pre IH].
  - cbn [app litonly_all]. replace (lf_ofs f =? -1)%Z with false by (symmetry; apply Z.eqb_neq; lia).
    replace (lf_ofs f <? 0)%Z with true by (symmetry; apply Z.ltb_lt; lia). reflexivity.
  - cbn [app litonly_all]. rewrite IH by (intros g' G; apply P; right; exact G).
    destruct (P g (or_introl eq_refl)) as [G1 G2]. destruct (Z.eqb_spec (lf_ofs g) (-1)); [reflexivity|].
    destruct (Z.ltb_spec (lf_ofs g) 0); [reflexivity|]. destruct (Z.ltb_spec 2147483647 (3 * lf_ofs g)); [lia|]. reflexivity.
  - cbn [app litonly_all rbind]. rewrite IH by (intros g' G; apply P; right; exact G). reflexivity.
Qed.
Print Assumptions C118_litonly_negative.

(** Refuted without the conditions on the file: an offset near the end of the data, as in a file whose
    lightmaps have another scale, is written through. *)
Theorem C118_litonly_overrun_refuted : exists f ws, lf_ofs f = 4%Z /\
  litonly false false (repeat 1%N 8) [Some f] = ROk ws /\ final 1 8 ws = RUB.
Proof.
  exists (mkLF 4 [0; 255; 255; 255]%Z 5 (fun _ => Some (repeat 7%N 5, repeat 7%N 15, repeat 7%N 15))). eexists.
  split; [reflexivity|]. split; vm_compute; reflexivity.
Qed.
Print Assumptions C118_litonly_overrun_refuted.

(** The table of a lit2 file has 17 bytes for each face. *)
Lemma lit2_length : forall sups t, (forall s, In s sups -> length (sp_styles s) = 16) -> lit2_faces sups = ROk t -> length t = 17 * length sups.
Proof.
  induction sups as [|s l IH]; intros t H E; cbn [lit2_faces] in E; [injection E as <-; reflexivity|].
  unfold lit2_face in E. destruct (shift_of_scale (sp_scale s)) as [j| |]; [|discriminate|discriminate]. cbn [rbind] in E.
  destruct (lit2_faces l) as [r| |] eqn:Er; [|discriminate|discriminate]. cbn [rbind] in E.
  assert (E' : forall a b : list N, ROk a = ROk b -> length a = length b) by (intros a b Hab; injection Hab as ->; reflexivity).
  apply E' in E. rewrite <- E. clear E E'.
  rewrite !app_length, !put_s_length. rewrite (length_flat _ _ (put_s 2) 2) by (intros; apply put_s_length).
  rewrite firstn_length, (H s (or_introl eq_refl)). rewrite (IH r); [|intros x Hx; apply H; right; exact Hx|reflexivity]. cbn [length Nat.min]. lia.
Qed.

(** Refuted, "a lit2 file holds the lightmaps": it holds as many samples as the file had before this run.
    For a file fresh from qbsp that is none; for one lit before with more, memory behind the buffer is
    read, and so it is without -lux. *)
Theorem C118_lit2_refuted : forall luxf sups out lit lux data0 litonly,
  (forall s, In s sups -> length (sp_styles s) = 16) ->
  let run data0 := finish false litonly (mkFlags false false true) luxf sups data0 out lit lux in
  (forall st, run [] = ROk st -> exists f, st_lit st = Some f /\ length f = 16 + 17 * length sups) /\
  ((forall s, In s sups -> exists j, shift_of_scale (sp_scale s) = ROk j) ->
   (length lit < 3 * length data0 \/ length lux < 3 * length data0) -> run data0 = RUB).
Proof.
  intros luxf sups out lit lux data0 litonly H run. split.
  - intros st. unfold run, finish. cbn [only_lit2 fl_lit2 fl_ext fl_bspx negb andb]. unfold write_lit2.
    destruct (lit2_faces sups) as [t| |] eqn:E; [|discriminate|discriminate]. cbn [rbind length Nat.mul].
    unfold raw. cbn [firstn Nat.ltb Nat.leb rbind]. intro Hs.
    assert (E' : forall a b : stored, ROk a = ROk b -> a = b) by (intros a b Hab; injection Hab as ->; reflexivity).
    apply E' in Hs. subst st. cbn [st_lit]. eexists. split; [reflexivity|].
    rewrite !app_length, (lit2_length sups t H E). unfold lit_header2. rewrite app_length, !put_s_length. change (length (lit_header 2)) with 8. cbn [Nat.add firstn length]. lia.
  - intros Sh Sm. unfold run, finish. cbn [only_lit2 fl_lit2 fl_ext fl_bspx negb andb]. unfold write_lit2.
    assert (Ok : exists t, lit2_faces sups = ROk t).
    { clear - Sh. induction sups as [|s l IH]; [exists []; reflexivity|]. destruct IH as [r Er]; [intros x Hx; apply Sh; right; exact Hx|].
      destruct (Sh s (or_introl eq_refl)) as [j Ej]. cbn [lit2_faces]. unfold lit2_face. rewrite Ej. cbn [rbind]. rewrite Er. cbn [rbind]. eexists. reflexivity. }
    destruct Ok as [t ->]. cbn [rbind]. unfold raw at 1. destruct (length lit <? 3 * length data0) eqn:E; [reflexivity|]. cbn [rbind].
    apply Nat.ltb_ge in E. destruct Sm as [Sm|Sm]; [lia|]. unfold raw. apply Nat.ltb_lt in Sm. rewrite Sm. reflexivity.
Qed.
Print Assumptions C118_lit2_refuted.

Local Open Scope Z_scope.

(** The shift of the LMSHIFT lump is written to a lit2 file again, for 0 to 30. *)
Theorem C118_shift : forall lump i s, nth_error lump i = Some (Z.to_N s) -> 0 <= s <= 30 ->
  face_scale lump i = ROk (2 ^ s) /\ shift_of_scale (2 ^ s) = ROk (Z.to_nat s).
Proof.
  intros lump i s E Hs. unfold face_scale. rewrite E.
  assert (A : forallb (fun k => let s := Z.of_nat k in match scale_of_shift (Z.to_N s), shift_of_scale (2 ^ s) with
    | ROk v, ROk j => (v =? 2 ^ s) && (j =? Z.to_nat s)%nat | _, _ => false end) (seq 0 31) = true) by (vm_compute; reflexivity).
  rewrite forallb_forall in A. specialize (A (Z.to_nat s)). cbv zeta in A. rewrite Z2Nat.id in A by lia.
  assert (Hin : In (Z.to_nat s) (seq 0 31)) by (apply in_seq; lia). specialize (A Hin).
  destruct (scale_of_shift (Z.to_N s)) as [v| |]; [|discriminate|discriminate]. destruct (shift_of_scale (2 ^ s)) as [j| |]; [|discriminate|discriminate].
  apply andb_true_iff in A. destruct A as [A1 A2]. apply Z.eqb_eq in A1. apply Nat.eqb_eq in A2. subst v j. split; reflexivity.
Qed.
Print Assumptions C118_shift.

(** Refuted for any lump: a greater byte, or a lump shorter than the number of faces, is undefined. *)
Theorem C118_shift_refuted : forall lump i, (i >= length lump)%nat \/ (exists b, nth_error lump i = Some b /\ (30 < b < 256)%N) ->
  face_scale lump i = RUB.
Proof.
  intros lump i [H|(b & E & Hb)]; unfold face_scale; [apply nth_error_None in H; rewrite H; reflexivity|]. rewrite E. unfold scale_of_shift.
  assert (A : schar b < 0 \/ 30 < schar b).
  { unfold schar, it_wrap. cbv zeta. change (2 ^ it_bits i8) with 256. change (it_hi i8) with 127. change (it_signed i8) with true. cbn [andb].
    rewrite Z.mod_small by lia. destruct (127 <? Z.of_N b) eqn:Q; [apply Z.ltb_lt in Q|apply Z.ltb_ge in Q]; lia. }
  destruct A as [A|A].
  - replace (schar b <? 0) with true by (symmetry; apply Z.ltb_lt; exact A). reflexivity.
  - replace (30 <? schar b) with true by (symmetry; apply Z.ltb_lt; exact A). rewrite orb_true_r. reflexivity.
Qed.
Print Assumptions C118_shift_refuted.

(** Two faces of two and one samples; the second style of the first was not computed. *)
Example C118_nontrivial :
  let p n c := (repeat 1%N n, repeat c (3 * n), repeat 9%N (3 * n)) : pix in
  let fa := mkLF 0 [0; 32; 255; 255] 2 (fun s => if s =? 0 then Some (p 2%nat 7%N) else None) in
  let fb := mkLF 4 [5; 255; 255; 255] 1 (fun _ => Some (p 1%nat 8%N)) in
  exists ws, litonly false false (repeat 50%N 6) [Some fa; None; Some fb] = ROk ws /\
  final 1 6 ws = ROk [7; 7; 7; 7; 7; 7; 0; 0; 0; 0; 0; 0; 8; 8; 8; 0; 0; 0]%N /\
  finish false false (mkFlags true false false) (mkFlags false false false) [] [] [4; 5]%N [1; 2; 3; 4; 5; 6]%N [] =
    ROk (mkStored [4; 5]%N (Some [81; 76; 73; 84; 1; 0; 0; 0; 1; 2; 3; 4; 5; 6]%N) None None None) /\
  finish false false (mkFlags false false true) (mkFlags true false false) [mkSup 8 (sup_styles [0; 5]) 3 2 8] [4]%N [] [1; 2; 3]%N [6; 6; 6]%N =
    ROk (mkStored [4]%N (Some ([81; 76; 73; 84; 2; 0; 0; 0; 1; 0; 0; 0; 1; 0; 0; 0] ++
      [8; 0; 0; 0; 0; 0; 5; 0; 255; 255; 255; 255; 3; 0; 2; 0; 3] ++ [1; 2; 3] ++ [6; 6; 6])%N) None None None).
Proof. cbv zeta. eexists. split; [vm_compute; reflexivity|]. vm_compute. repeat split; reflexivity. Qed.
