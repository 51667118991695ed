(* C135: converting whole BSPs between the generic form and the formats. *)
From Coq Require Import List Arith NArith ZArith Bool Lia.
Import ListNotations.
From Verif Require Import Base Codec NumCastModel NumCastProofs BspRecModel BspRecProofs BspConvProofs
  BspFileModel BspReadProofs BspTexProofs BspWriteProofs BspLoadProofs BspAcceptProofs ConvModel ConvProofs ConvLoadProofs.
Local Open Scope Z_scope.

(** ** C135 *)

(** The versions are nine different ones. *)
Lemma over_refl : forall v : option ver, exists e, over_eq_dec v v = left e.
Proof. intros v. destruct (over_eq_dec v v) as [e|e]; [exists e; reflexivity|congruence]. Qed.
Lemma over_ne : forall v w : option ver, v <> w -> exists e, over_eq_dec v w = right e.
Proof. intros v w H. destruct (over_eq_dec v w) as [e|e]; [congruence|exists e; reflexivity]. Qed.

Lemma convert_to_gen : forall T (t0 : T) v l b g, to_generic t0 v b = ROk g ->
  convert t0 (mkData (Some v) l (AFmt b)) None = ROk (true, mkData None (Some v) (AGen g)).
Proof.
  intros T t0 v l b g H. unfold convert. cbn [d_ver d_bsp]. destruct (over_ne (Some v) None ltac:(discriminate)) as [e ->].
  rewrite H. reflexivity.
Qed.
Lemma convert_to_fmt : forall T (t0 : T) v l g,
  convert t0 (mkData None l (AGen g)) (Some v) =
  match to_format v g with ROk b => ROk (true, mkData (Some v) l (AFmt b)) | RThrow => ROk (false, mkData None l (AGen g)) | RUB => RUB end.
Proof.
  intros T t0 v l g. unfold convert. cbn [d_ver d_bsp d_load]. destruct (over_ne None (Some v) ltac:(discriminate)) as [e ->].
  reflexivity.
Qed.

(** Every file that loads, of any version and whatever its bytes: converted to the generic form
    and back to the version it was loaded as, neither conversion fails and every record of every
    lump is the one that was loaded. *)
Theorem C135_resave : forall f v b x, Forall is_byte f -> load_file f = ROk (v, b, x) ->
  forall t0 l, exists g,
    convert t0 (mkData (Some v) l (AFmt b)) None = ROk (true, mkData None (Some v) (AGen g)) /\
    convert t0 (mkData None (Some v) (AGen g)) (Some v) = ROk (true, mkData (Some v) (Some v) (AFmt b)).
Proof.
  intros f v b x F H t0 l. destruct (format_back _ t0 v b (loaded_range f v b x F H)) as (g & G1 & G2).
  exists g. split; [apply convert_to_gen; exact G1|]. rewrite convert_to_fmt, G2. reflexivity.
Qed.
Print Assumptions C135_resave.

(** Converting what was loaded to a version whose records are at least as wide (the same family,
    head nodes for Hexen II only if it has them) is never refused, and converting that back to the
    version loaded gives what was loaded. *)
Theorem C135_upgrade : forall f v b x w, Forall is_byte f -> load_file f = ROk (v, b, x) ->
  is_q2 v = is_q2 w -> (is_h2 v = true -> is_h2 w = true) -> (width v <= width w)%nat ->
  forall t0, exists g b',
    convert t0 (mkData (Some v) None (AFmt b)) None = ROk (true, mkData None (Some v) (AGen g)) /\
    convert t0 (mkData None (Some v) (AGen g)) (Some w) = ROk (true, mkData (Some w) (Some v) (AFmt b')) /\
    convert t0 (mkData (Some w) (Some v) (AFmt b')) None = ROk (true, mkData None (Some w) (AGen g)) /\
    convert t0 (mkData None (Some w) (AGen g)) (Some v) = ROk (true, mkData (Some v) (Some w) (AFmt b)).
Proof.
  intros f v b x w F H A B C t0. pose proof (loaded_range f v b x F H) as R.
  destruct (format_wider _ t0 v w b R (conj A (conj B C))) as (g & b' & G1 & G2 & G3).
  destruct (format_back _ t0 v b R) as (g2 & E1 & E2). rewrite G1 in E1. injection E1 as <-.
  exists g, b'. split; [apply convert_to_gen; exact G1|]. split; [rewrite convert_to_fmt, G2; reflexivity|].
  split; [apply convert_to_gen; exact G3|]. rewrite convert_to_fmt, E2. reflexivity.
Qed.
Print Assumptions C135_upgrade.

(** A generic BSP to any version: either the conversion succeeds and converting back shows that
    every member the family has was kept (bounds as boxes where the format has 16 bits), or it
    returns false, leaves everything as it was and some record does not fit, or it is undefined and
    a bound is NaN.  It never throws. *)
Theorem C135_kept : forall T (t0 : T) v l g, gen_wf g ->
  match convert t0 (mkData None l (AGen g)) (Some v) with
  | ROk (true, d) => d_ver d = Some v /\ exists g',
      convert t0 d None = ROk (true, mkData None (Some v) (AGen g')) /\ kept v g g'
  | ROk (false, d) => d = mkData None l (AGen g) /\ ~ fits v g
  | RUB => nan_bound v g
  | RThrow => False
  end.
Proof.
  intros T t0 v l g W. pose proof (to_format_c _ t0 v g W) as H. rewrite convert_to_fmt.
  destruct (to_format v g) as [b| |].
  - destruct H as (g' & G & K). split; [reflexivity|]. exists g'. split; [apply convert_to_gen; exact G|exact K].
  - split; [reflexivity|exact H].
  - exact H.
Qed.
Print Assumptions C135_kept.

(** qbsp writes the version asked for, or its wide sibling if something does not fit and upgrades
    are allowed; in both cases everything is kept.  It stops if neither is possible, and without
    upgrades never writes more than 32768 faces to a format with 16-bit face numbers. *)
Theorem C135_qbsp : forall T (t0 : T) target allow g, gen_wf g ->
  match qbsp_write t0 target allow g with
  | ROk d => exists v b g', d = mkData (Some v) None (AFmt b) /\
      (v = target \/ allow = true /\ ~ fits target g /\
         In (target, v) [(VQ1, VBsp2); (VH2, VH2Bsp2); (VQ2, VQbism)]) /\
      convert t0 d None = ROk (true, mkData None (Some v) (AGen g')) /\ kept v g g' /\
      (allow = false -> width v = 0%nat -> (length (g_faces g) <= Z.to_nat 32768)%nat)
  | RThrow => ~ fits target g /\
                (allow = false \/ ~ In target [VQ1; VH2; VQ2] \/
                 exists v, In (target, v) [(VQ1, VBsp2); (VH2, VH2Bsp2); (VQ2, VQbism)] /\ ~ fits v g) \/
              allow = false /\ width target = 0%nat /\ (length (g_faces g) > Z.to_nat 32768)%nat
  | RUB => nan_bound target g
  end.
Proof.
  intros T t0 target allow g W. unfold qbsp_write. rewrite convert_to_fmt.
  pose proof (to_format_c _ t0 target g W) as H.
  assert (NM : forall v, narrow_marks v = (width v =? 0)%nat) by (destruct v; reflexivity).
  destruct (to_format target g) as [b| |] eqn:E; cbn [rbind fst snd].
  - destruct H as (g' & G & K). cbn [d_ver]. rewrite NM.
    destruct (width target =? 0)%nat eqn:WT; cbn [andb].
    + apply Nat.eqb_eq in WT. destruct (32768 <? Z.of_nat (length (g_faces g))) eqn:N; cbn [andb].
      * destruct allow; cbn [negb].
        -- exists target, b, g'. split; [reflexivity|]. split; [left; reflexivity|].
           split; [apply convert_to_gen; exact G|]. split; [exact K|]. discriminate.
        -- right. split; [reflexivity|]. split; [exact WT|]. apply Z.ltb_lt in N. lia.
      * exists target, b, g'. split; [reflexivity|]. split; [left; reflexivity|].
        split; [apply convert_to_gen; exact G|]. split; [exact K|]. intros _ _. apply Z.ltb_ge in N. lia.
    + exists target, b, g'. split; [reflexivity|]. split; [left; reflexivity|].
      split; [apply convert_to_gen; exact G|]. split; [exact K|]. intros _ X. rewrite X in WT. discriminate WT.
  - destruct (extended_limits target) as [e|] eqn:X; cbn [rbind].
    + assert (I : In (target, e) [(VQ1, VBsp2); (VH2, VH2Bsp2); (VQ2, VQbism)] /\ width e = 2%nat).
      { destruct target; try discriminate X; injection X as <-; (split; [cbn [In]; tauto|reflexivity]). }
      destruct I as [I I2].
      destruct allow; cbn [negb rbind]; [|left; split; [exact H|left; reflexivity]].
      rewrite convert_to_fmt. pose proof (to_format_c _ t0 e g W) as H2.
      destruct (to_format e g) as [b| |]; cbn [rbind fst snd].
      * destruct H2 as (g' & G & K). cbn [d_ver]. rewrite NM, I2. cbn [Nat.eqb andb].
        exists e, b, g'. split; [reflexivity|]. split; [right; auto|].
        split; [apply convert_to_gen; exact G|]. split; [exact K|]. discriminate.
      * left. split; [exact H|]. right. right. exists e. split; assumption.
      * destruct H2 as [H2 _]. contradiction.
    + left. split; [exact H|]. right. left. intros Y.
      destruct target; try discriminate X; cbn [In] in Y; destruct Y as [Y|[Y|[Y|[]]]]; discriminate Y.
  - exact H.
Qed.
Print Assumptions C135_qbsp.

(** A generic BSP with one of everything. *)
Definition ex_gen : mbsp (list N) :=
  mkGen [123; 125]%N [mkPlane (mkV 1065353216 0 0) 1092616192 0] [7%N] [mkV 1 2 3] (mkVis [mkEdge 1 2] [255]%N)
    [mkNode 3 7 (-2) (mkV 0xbf000000 0 0) (mkV 0x40e80000 0 0x40e80000) 9 65535]
    [mkMTex (repeat 0 8) 4 5 6 (repeat 65 32) 7] [mkFace 3 1 2 4 5 0 1 2 3 8] [9]%N
    [mkClip 3 40000 (-2)] [mkLeaf (-2) 5 (mkV 0 0 0) (mkV 0x42c90000 0 0) 1 2 3 4 5 6 7 8 9 10]
    [65535] [12] [mkEdge 3 65535] [-3]
    [mkModel (mkV 0 0 0) (mkV 0 0 0) (mkV 0 0 0) [1; 2; 3; 4; 5; 6; 7; 8] 9 10 11]
    [mkBrush 1 2 3] [mkSide 4 5] [mkArea 6 7] [mkAP 8 9].
Lemma ex_gen_ok : gen_wf ex_gen.
Proof. unfold gen_wf, ex_gen, all. cbn [g_nodes g_texinfo g_faces g_clips g_leafs g_leaffaces g_leafbrushes g_edges g_models g_sides].
  repeat match goal with |- _ /\ _ => split end; repeat apply Forall_cons; try apply Forall_nil; vm_compute; reflexivity. Qed.

(** It fits Quake and Quake II; 65536 edges do not fit Quake, and qbsp switches to BSP2. *)
Definition ex_big : mbsp (list N) :=
  mkGen [] [] [] [] (mkVis [] []) [] [] [] [] [] [] [] [] [mkEdge 0 65536] [] [] [] [] [] [].
Definition ex_empty : q1bsp (list N) := mkQ1 [] [] [] [] [] [] [] [] [] [] [] [] [] [] [].
Example C135_nontrivial :
  (exists b, convert [] (mkData None None (AGen ex_gen)) (Some VQ1) = ROk (true, mkData (Some VQ1) None (AFmt (B1 b))) /\
     b1_nodes b = [mkNode 3 7 (-2) (mkV (-1) 0 0) (mkV 8 0 8) 9 65535] /\ b1_clips b = [mkClip 3 (-25536) (-2)]) /\
  qbsp_write [] VQ1 false ex_big = RThrow /\
  (exists b, qbsp_write [] VQ1 true ex_big = ROk (mkData (Some VBsp2) None (AFmt (B1 b))) /\ b1_edges b = [mkEdge 0 65536]) /\
  qbsp_write [] VHl true ex_big = RThrow /\
  convert [] (mkData (Some VQ1) None (AFmt (B1 ex_empty))) (Some VBsp2)
    = ROk (false, mkData (Some VQ1) None (AFmt (B1 ex_empty))) .
Proof.
  refine (conj _ (conj _ (conj _ (conj _ _)))).
  - eexists. split; [vm_compute; reflexivity|]. split; reflexivity.
  - vm_compute. reflexivity.
  - eexists. split; [vm_compute; reflexivity|]. reflexivity.
  - vm_compute. reflexivity.
  - vm_compute. reflexivity.
Qed.

(** Between the games a conversion that reports success loses what the other game does not have:
    Quake II drops textures, clip nodes and all head nodes but the first, Quake drops brushes and
    areas, and Quake after Hexen II half of the head nodes. *)
Theorem C135_other_game_refuted : exists d1 d2 d3 g1 g2 g3,
  convert [] (mkData None None (AGen ex_gen)) (Some VQ2) = ROk (true, d1) /\
  convert [] d1 None = ROk (true, mkData None (Some VQ2) (AGen g1)) /\
  (g_tex g1 = [] /\ g_clips g1 = [] /\ map dm_head (g_models g1) = [[1; 0; 0; 0; 0; 0; 0; 0]] /\
   map dm_vis (g_models g1) = [0] /\ map l_visofs (g_leafs g1) = [-1] /\ map mt_miptex (g_texinfo g1) = [-1]) /\
  convert [] (mkData None None (AGen ex_gen)) (Some VQ1) = ROk (true, d2) /\
  convert [] d2 None = ROk (true, mkData None (Some VQ1) (AGen g2)) /\
  (g_brushes g2 = [] /\ g_sides g2 = [] /\ g_areas g2 = [] /\ g_leafbrushes g2 = [] /\ mv_ofs (g_vis g2) = [] /\
   map l_cluster (g_leafs g2) = [0] /\ map mt_value (g_texinfo g2) = [0] /\
   map dm_head (g_models g2) = [[1; 2; 3; 4; 0; 0; 0; 0]]) /\
  convert [] (mkData None None (AGen ex_gen)) (Some VH2) = ROk (true, d3) /\
  convert [] d3 None = ROk (true, mkData None (Some VH2) (AGen g3)) /\ g_models g3 = g_models ex_gen.
Proof.
  do 6 eexists.
  split; [vm_compute; reflexivity|]. split; [vm_compute; reflexivity|].
  split; [repeat split; reflexivity|].
  split; [vm_compute; reflexivity|]. split; [vm_compute; reflexivity|].
  split; [repeat split; reflexivity|].
  split; [vm_compute; reflexivity|]. split; [vm_compute; reflexivity|]. reflexivity.
Qed.
Print Assumptions C135_other_game_refuted.
