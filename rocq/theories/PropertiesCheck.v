(* C137: bsputil --check. *)
From Coq Require Import List Arith NArith ZArith Bool Lia.
Import ListNotations.
From Verif Require Import Base Codec NumCastModel BspRecModel BspFileModel ConvModel CheckModel CheckProofs.
Local Open Scope Z_scope.

(** ** C137 *)

(** The members are of the types of mbsp_t, and no list is longer than a file can hold. *)
Definition in32 (z : Z) : Prop := - 2 ^ 31 <= z < 2 ^ 31.
Definition inu32 (z : Z) : Prop := 0 <= z < 2 ^ 32.
Definition typed {T} (g : mbsp T) : Prop :=
  (forall f, In f (g_faces g) -> - 2 ^ 63 <= f_plane f < 2 ^ 63 /\ in32 (f_tex f) /\ in32 (f_lo f) /\ in32 (f_fe f) /\ in32 (f_ne f)) /\
  (forall e, In e (g_edges g) -> inu32 (e_0 e) /\ inu32 (e_1 e)) /\
  (forall e, In e (g_surfedges g) -> in32 e) /\ (forall m, In m (g_leaffaces g) -> inu32 m) /\
  (forall l, In l (g_leafs g) -> in32 (l_visofs l) /\ inu32 (l_fm l) /\ inu32 (l_nm l)) /\
  (forall n, In n (g_nodes g) -> in32 (n_c0 n) /\ in32 (n_c1 n)) /\
  (forall c, In c (g_clips g) -> in32 (cn_c0 c) /\ in32 (cn_c1 c)) /\
  (forall n, In n [zlen (g_texinfo g); zlen (g_planes g); zlen (g_light g); zlen (g_surfedges g); zlen (g_verts g);
                   zlen (g_edges g); zlen (g_faces g); zlen (g_leaffaces g); zlen (mv_bits (g_vis g)); zlen (g_nodes g);
                   zlen (g_leafs g); zlen (g_clips g)] -> n < 2 ^ 31).

(** What each warning says about the file. *)
Definition at_ {A} (l : list A) (i : nat) (P : A -> Prop) : Prop := exists a, nth_error l i = Some a /\ P a.
Definition side (n : node) (j : bool) : Z := if j then n_c1 n else n_c0 n.
Definition cside (n : clipnode) (j : bool) : Z := if j then cn_c1 n else cn_c0 n.
Definition unreferenced (n : nat) (ref : nat -> Prop) (k : nat) : Prop :=
  exists l, NoDup l /\ length l = k /\ forall i, In i l <-> (i < n)%nat /\ ~ ref i.
Definition meaning {T} (g : mbsp T) (w : warn) : Prop :=
  match w with
  | WTexNeg i => at_ (g_faces g) i (fun f => f_tex f < 0)
  | WTexRange i => at_ (g_faces g) i (fun f => f_tex f < 0 \/ zlen (g_texinfo g) <= f_tex f)
  | WPlaneNeg i => at_ (g_faces g) i (fun f => f_plane f < 0)
  | WPlaneRange i => at_ (g_faces g) i (fun f => f_plane f < 0 \/ zlen (g_planes g) <= f_plane f)
  | WLightNeg i => at_ (g_faces g) i (fun f => f_lo f < -1)
  | WLightRange i => at_ (g_faces g) i (fun f => f_lo f < 0 \/ zlen (g_light g) <= f_lo f)
  | WEdgeNeg i => at_ (g_faces g) i (fun f => f_fe f < 0)
  | WEdgeFew i => at_ (g_faces g) i (fun f => f_ne f < 3)
  | WEdgeRange i => at_ (g_faces g) i (fun f => f_fe f + f_ne f < 0 \/ zlen (g_surfedges g) < f_fe f + f_ne f)
  | WVertex i j => at_ (g_edges g) i (fun e => zlen (g_verts g) < (if j then e_1 e else e_0 e))
  | WSurfZero i => at_ (g_surfedges g) i (fun e => e = 0)
  | WSurfRange i => at_ (g_surfedges g) i (fun e => zlen (g_edges g) <= Z.abs e)
  | WMark i => at_ (g_leaffaces g) i (fun m => zlen (g_faces g) <= m)
  | WLeafMarks i => at_ (g_leafs g) i (fun l => zlen (g_leaffaces g) < (l_fm l + l_nm l) mod 2 ^ 32)
  | WVisNeg i => at_ (g_leafs g) i (fun l => l_visofs l < -1)
  | WVisRange i => at_ (g_leafs g) i (fun l => l_visofs l < 0 \/ zlen (mv_bits (g_vis g)) <= l_visofs l)
  | WChildNode i j => at_ (g_nodes g) i (fun n => zlen (g_nodes g) <= side n j)
  | WChildLeaf i j => at_ (g_nodes g) i (fun n => side n j < 0 /\ zlen (g_leafs g) <= - side n j - 1)
  | WChildSame i => at_ (g_nodes g) i (fun n => n_c0 n = n_c1 n)
  | WClipChild i j => at_ (g_clips g) i (fun n => zlen (g_clips g) <= cside n j)
  | WClipContents i j => at_ (g_clips g) i (fun n => cside n j < -6)
  | WClipSame i => at_ (g_clips g) i (fun n => cn_c0 n = cn_c1 n)
  | WUnusedTex k => k <> O /\ unreferenced (length (g_texinfo g)) (fun i => exists f, In f (g_faces g) /\ f_tex f = Z.of_nat i) k
  | WUnusedPlanes k => k <> O /\ unreferenced (length (g_planes g))
      (fun i => (exists f, In f (g_faces g) /\ s32 (f_plane f) = Z.of_nat i) \/ (exists n, In n (g_nodes g) /\ n_plane n = Z.of_nat i) \/
                (exists c, In c (g_clips g) /\ cn_plane c = Z.of_nat i)) k
  | WUnusedVerts k => k <> O /\ unreferenced (length (g_verts g))
      (fun i => exists e, In e (g_edges g) /\ (e_0 e = Z.of_nat i \/ e_1 e = Z.of_nat i)) k
  end.

Lemma unused_spec : forall refs n k, unused refs n = k <-> unreferenced n (fun i => In (Z.of_nat i) refs) k.
Proof.
  intros refs n k. unfold unused. set (l := filter (fun i => negb (existsb (Z.eqb (Z.of_nat i)) refs)) (seq 0 n)).
  assert (L : forall i, In i l <-> (i < n)%nat /\ ~ In (Z.of_nat i) refs).
  { intros i. unfold l. rewrite filter_In, in_seq, negb_true_iff. split.
    - intros [A B]. split; [lia|]. intros I. assert (existsb (Z.eqb (Z.of_nat i)) refs = true); [|congruence].
      apply existsb_exists. exists (Z.of_nat i). split; [exact I|apply Z.eqb_refl].
    - intros [A B]. split; [lia|]. apply not_true_is_false. intros X. apply existsb_exists in X. destruct X as (z & I & E).
      apply Z.eqb_eq in E. subst z. contradiction. }
  assert (ND : NoDup l) by (apply NoDup_filter, seq_NoDup). split.
  - intros <-. exists l. auto.
  - intros (m & M1 & <- & M2). apply Nat.le_antisymm; apply NoDup_incl_length; auto; intros i I.
    + apply M2, L. exact I.
    + apply L, M2. exact I.
Qed.
Lemma unreferenced_ext : forall n (P Q : nat -> Prop) k, (forall i, P i <-> Q i) -> unreferenced n P k <-> unreferenced n Q k.
Proof.
  intros n P Q k H. unfold unreferenced. split; intros (l & A & B & C); exists l; (split; [exact A|split; [exact B|]]); intros i; rewrite C, H; reflexivity.
Qed.

Lemma at_iff : forall A (l : list A) f (P : A -> Prop) w i,
  (forall k a, In a l -> In w (f k a) <-> k = i /\ P a) -> In w (visit f 0 l) <-> at_ l i P.
Proof.
  intros A l f P w i H. rewrite visit_in. cbn [Nat.add]. split.
  - intros (k & a & N & I). apply H in I; [|eapply nth_error_In; exact N]. destruct I as [-> I]. exists a. auto.
  - intros (a & N & I). exists i, a. split; [exact N|]. apply H; [eapply nth_error_In; exact N|]. auto.
Qed.
Lemma none_iff : forall A (l : list A) f w, (forall k a, ~ In w (f k a)) -> In w (visit f 0 l) <-> False.
Proof. intros A l f w H. rewrite visit_in. split; [|intros []]. intros (k & a & _ & I). exact (H _ _ I). Qed.

Ltac no_list := apply none_iff; intros k a; unfold check_face, check_edge, check_surfedge, check_mark, check_leaf, check_node, check_child, check_clip, check_clipchild;
  rewrite ?in_app_iff, ?in_when; intuition discriminate.
Ltac pick1 Y := first [discriminate Y|split; [congruence|assumption]].
Ltac pick := rewrite ?or_assoc; split;
  [let X := fresh "X" in intros X;
   repeat match type of X with
   | (_ /\ _) \/ _ => destruct X as [[?X0 ?Y]|X]; [match goal with Y : @eq warn _ _ |- _ => pick1 Y end|]
   end; destruct X as [?X0 ?Y]; match goal with Y : @eq warn _ _ |- _ => pick1 Y end
  |intros [-> ?X0]; tauto].
Ltac no_count := rewrite in_count; split; [intros [_ X]; discriminate X|intros []].

(** The warnings are exactly these, and nothing else is looked at. *)
Theorem C137_warnings : forall T (g : mbsp T) ws, typed g -> check_lists g = ROk ws -> forall w, In w ws <-> meaning g w.
Proof.
  intros T g ws (TF & TE & TS & TM & TL & TN & TC & SZ) H w. unfold check_lists in H. destruct (check_ub g) eqn:UB; [discriminate H|].
  unfold check_ub in UB. apply orb_false_iff in UB. destruct UB as [UB UB3]. apply orb_false_iff in UB. destruct UB as [UB1 UB2].
  assert (NN : forall A (l : list A), 0 <= zlen l) by (intros; unfold zlen; lia).
  assert (S1 : zlen (g_texinfo g) < 2 ^ 31) by (apply SZ; cbn [In]; tauto).
  assert (S2 : zlen (g_planes g) < 2 ^ 31) by (apply SZ; cbn [In]; tauto).
  assert (S3 : zlen (g_light g) < 2 ^ 31) by (apply SZ; cbn [In]; tauto).
  assert (S4 : zlen (g_surfedges g) < 2 ^ 31) by (apply SZ; cbn [In]; tauto).
  assert (S5 : zlen (g_verts g) < 2 ^ 31) by (apply SZ; cbn [In]; tauto).
  assert (S6 : zlen (g_edges g) < 2 ^ 31) by (apply SZ; cbn [In]; tauto).
  assert (S7 : zlen (g_faces g) < 2 ^ 31) by (apply SZ; cbn [In]; tauto).
  assert (S8 : zlen (g_leaffaces g) < 2 ^ 31) by (apply SZ; cbn [In]; tauto).
  assert (S9 : zlen (mv_bits (g_vis g)) < 2 ^ 31) by (apply SZ; cbn [In]; tauto).
  assert (S10 : zlen (g_nodes g) < 2 ^ 31) by (apply SZ; cbn [In]; tauto).
  assert (S11 : zlen (g_leafs g) < 2 ^ 31) by (apply SZ; cbn [In]; tauto).
  assert (S12 : zlen (g_clips g) < 2 ^ 31) by (apply SZ; cbn [In]; tauto).
  clear SZ. unfold in32, inu32 in *.
  injection H as <-. rewrite !in_app_iff.
  destruct w; cbn [meaning];
  repeat match goal with
  | |- context [In ?w (visit ?f 0 ?l)] =>
    let X := fresh in assert (X : In w (visit f 0 l) <-> False) by no_list; rewrite X; clear X
  end;
  repeat match goal with
  | |- context [In ?w (count ?n ?f)] =>
    let X := fresh in assert (X : In w (count n f) <-> False) by no_count; rewrite X; clear X
  end;
  repeat match goal with |- context [False \/ ?P] => 
    let X := fresh in assert (X : False \/ P <-> P) by tauto; rewrite X; clear X end;
  repeat match goal with |- context [?P \/ False] => 
    let X := fresh in assert (X : P \/ False <-> P) by tauto; rewrite X; clear X end;
  try (apply at_iff; intros k a I).
  1-9: specialize (TF a I); unfold check_face; rewrite !in_app_iff, !in_when;
    pose proof (NN _ (g_texinfo g)); pose proof (NN _ (g_planes g)); pose proof (NN _ (g_light g)); pose proof (NN _ (g_surfedges g));
    rewrite !Z.ltb_lt, !ge_size_spec, !gt_size_spec by lia;
    pick.
  - specialize (TE a I). unfold check_edge. rewrite in_app_iff, !in_when. pose proof (NN _ (g_verts g)).
    rewrite !gt_size_spec by lia. destruct j; split; (intros [[X Y]|[X Y]] || intros [-> X]);
      try (injection Y as ->; try discriminate; split; [reflexivity|lia]); try congruence; intuition lia.
  - unfold check_surfedge. rewrite in_app_iff, !in_when, Z.eqb_eq. pick.
  - specialize (TS a I). unfold check_surfedge. rewrite in_app_iff, !in_when. pose proof (NN _ (g_edges g)). rewrite ge_size_spec by lia.
    split; [intros [[_ X]|[X Y]]; [discriminate X|]; injection Y as ->; split; [reflexivity|lia]|intros [-> X]; right; split; [lia|reflexivity]].
  - specialize (TM a I). unfold check_mark. rewrite in_when. pose proof (NN _ (g_faces g)). rewrite ge_size_spec by lia.
    split; [intros [X Y]; injection Y as ->; split; [reflexivity|lia]|intros [-> X]; split; [lia|reflexivity]].
  - specialize (TL a I). unfold check_leaf. rewrite !in_app_iff, !in_when. pose proof (NN _ (g_leaffaces g)). pose proof (Z.mod_pos_bound (l_fm a + l_nm a) (2 ^ 32) ltac:(lia)).
    rewrite (gt_size_spec ((l_fm a + l_nm a) mod 2 ^ 32)) by lia.
    split; [intros [[X Y]|[[_ X]|[_ X]]]; try discriminate X; injection Y as ->; split; [reflexivity|lia]|intros [-> X]; left; split; [lia|reflexivity]].
  - specialize (TL a I). unfold check_leaf. rewrite !in_app_iff, !in_when, Z.ltb_lt. pick.
  - specialize (TL a I). unfold check_leaf. rewrite !in_app_iff, !in_when. pose proof (NN _ (mv_bits (g_vis g))).
    rewrite (ge_size_spec (l_visofs a)) by lia. pick.
  - specialize (TN a I). unfold check_node, check_child. rewrite !in_app_iff, !in_when, !andb_true_iff, Z.eqb_eq. pose proof (NN _ (g_nodes g)). pose proof (NN _ (g_leafs g)).
    rewrite !Z.leb_le, !Z.ltb_lt. rewrite !ge_size_spec by lia. destruct j; cbn [side]; split; intros X;
      repeat match goal with
        | X : _ \/ _ |- _ => destruct X as [X|X]
        | X : _ /\ _ |- _ => destruct X as [X ?Y]
        end; try discriminate; try (match goal with Y : WChildNode _ _ = _ |- _ => injection Y as -> end); subst; try (split; [reflexivity|lia]); intuition lia.
  - specialize (TN a I). unfold check_node, check_child. rewrite !in_app_iff, !in_when, !andb_true_iff, Z.eqb_eq. pose proof (NN _ (g_nodes g)). pose proof (NN _ (g_leafs g)).
    rewrite !Z.leb_le, !Z.ltb_lt. rewrite !ge_size_spec by lia. destruct j; cbn [side]; split; intros X;
      repeat match goal with
        | X : _ \/ _ |- _ => destruct X as [X|X]
        | X : _ /\ _ |- _ => destruct X as [X ?Y]
        end; try discriminate; try (match goal with Y : WChildLeaf _ _ = _ |- _ => injection Y as -> end); subst; try (split; [reflexivity|lia]); intuition lia.
  - unfold check_node, check_child. rewrite !in_app_iff, !in_when, Z.eqb_eq. pick.
  - specialize (TC a I). unfold check_clip, check_clipchild. rewrite !in_app_iff, !in_when, !andb_true_iff, Z.eqb_eq. pose proof (NN _ (g_clips g)).
    rewrite !Z.leb_le, !Z.ltb_lt. rewrite !ge_size_spec by lia. destruct j; cbn [cside]; split; intros X;
      repeat match goal with
        | X : _ \/ _ |- _ => destruct X as [X|X]
        | X : _ /\ _ |- _ => destruct X as [X ?Y]
        end; try discriminate; try (match goal with Y : WClipChild _ _ = _ |- _ => injection Y as -> end); subst; try (split; [reflexivity|lia]); intuition lia.
  - specialize (TC a I). unfold check_clip, check_clipchild. rewrite !in_app_iff, !in_when, !andb_true_iff, Z.eqb_eq. pose proof (NN _ (g_clips g)).
    rewrite !Z.leb_le, !Z.ltb_lt. destruct j; cbn [cside]; split; intros X;
      repeat match goal with
        | X : _ \/ _ |- _ => destruct X as [X|X]
        | X : _ /\ _ |- _ => destruct X as [X ?Y]
        end; try discriminate; try (match goal with Y : WClipContents _ _ = _ |- _ => injection Y as -> end); subst; try (split; [reflexivity|lia]); intuition lia.
  - unfold check_clip, check_clipchild. rewrite !in_app_iff, !in_when, Z.eqb_eq. pick.
  - rewrite in_count. rewrite (unreferenced_ext _ _ (fun i => In (Z.of_nat i) (tex_refs g)) n), <- unused_spec.
    + split; [intros [X Y]; injection Y as ->; auto|intros [X <-]; auto].
    + intros i. unfold tex_refs. rewrite in_map_iff. split; intros (f & A & B); exists f; auto.
  - rewrite in_count. rewrite (unreferenced_ext _ _ (fun i => In (Z.of_nat i) (plane_refs g)) n), <- unused_spec.
    + split; [intros [X Y]; injection Y as ->; auto|intros [X <-]; auto].
    + intros i. unfold plane_refs. rewrite !in_app_iff, !in_map_iff. split; (intros [(f & A & B)|[(f & A & B)|(f & A & B)]]; [left|right; left|right; right]; exists f; auto).
  - rewrite in_count. rewrite (unreferenced_ext _ _ (fun i => In (Z.of_nat i) (vert_refs g)) n), <- unused_spec.
    + split; [intros [X Y]; injection Y as ->; auto|intros [X <-]; auto].
    + intros i. unfold vert_refs. rewrite in_app_iff, !in_map_iff. split.
      * intros (e & A & [B|B]); [left|right]; exists e; auto.
      * intros [(e & A & B)|(e & A & B)]; exists e; auto.
Qed.
Print Assumptions C137_warnings.

(** Warnings that a sound file may give. *)
Definition harmless (w : warn) : Prop :=
  match w with WLightRange _ | WVisRange _ | WUnusedTex _ | WUnusedPlanes _ | WUnusedVerts _ => True | _ => False end.
Definition sound {T} (g : mbsp T) : Prop :=
  (forall f, In f (g_faces g) -> 0 <= f_tex f < zlen (g_texinfo g) /\ 0 <= f_plane f < zlen (g_planes g) /\ -1 <= f_lo f /\
     0 <= f_fe f /\ 3 <= f_ne f /\ f_fe f + f_ne f <= zlen (g_surfedges g)) /\
  (forall e, In e (g_edges g) -> e_0 e <= zlen (g_verts g) /\ e_1 e <= zlen (g_verts g)) /\
  (forall e, In e (g_surfedges g) -> e <> 0 /\ Z.abs e < zlen (g_edges g)) /\
  (forall m, In m (g_leaffaces g) -> m < zlen (g_faces g)) /\
  (forall l, In l (g_leafs g) -> (l_fm l + l_nm l) mod 2 ^ 32 <= zlen (g_leaffaces g) /\ -1 <= l_visofs l) /\
  (forall n, In n (g_nodes g) -> n_c0 n <> n_c1 n /\ forall j, - zlen (g_leafs g) <= side n j < zlen (g_nodes g)) /\
  (forall c, In c (g_clips g) -> cn_c0 c <> cn_c1 c /\ forall j, -6 <= cside c j < zlen (g_clips g)).

(** No warning but harmless ones: every reference is in range, but for vertices (one beyond the last
    is let through) and sums of 2^32 and more; and conversely. *)
Theorem C137_clean : forall T (g : mbsp T) ws, typed g -> check_lists g = ROk ws ->
  (forall w, In w ws -> harmless w) <-> sound g.
Proof.
  intros T g ws TY H. pose proof (C137_warnings T g ws TY H) as W.
  assert (NN : forall A (l : list A), 0 <= zlen l) by (intros; unfold zlen; lia). split.
  - intros C.
    assert (K : forall w, ~ harmless w -> ~ meaning g w) by (intros w N M; apply N, C, W, M).
    assert (AT : forall A (l : list A) (P : A -> Prop) a, (forall i, ~ at_ l i P) -> In a l -> ~ P a).
    { intros A l P a N I X. destruct (In_nth_error l a I) as [i E]. apply (N i). exists a. auto. }
    repeat split; try (intros ? ?); try match goal with I : In ?f (g_faces g) |- _ =>
      pose proof (AT _ _ _ f (fun i => K (WTexNeg i) (fun x => x)) I); pose proof (AT _ _ _ f (fun i => K (WTexRange i) (fun x => x)) I);
      pose proof (AT _ _ _ f (fun i => K (WPlaneNeg i) (fun x => x)) I); pose proof (AT _ _ _ f (fun i => K (WPlaneRange i) (fun x => x)) I);
      pose proof (AT _ _ _ f (fun i => K (WLightNeg i) (fun x => x)) I); pose proof (AT _ _ _ f (fun i => K (WEdgeNeg i) (fun x => x)) I);
      pose proof (AT _ _ _ f (fun i => K (WEdgeFew i) (fun x => x)) I); pose proof (AT _ _ _ f (fun i => K (WEdgeRange i) (fun x => x)) I)
    end;
    try match goal with I : In ?f (g_edges g) |- _ =>
      pose proof (AT _ _ _ f (fun i => K (WVertex i false) (fun x => x)) I); pose proof (AT _ _ _ f (fun i => K (WVertex i true) (fun x => x)) I)
    end;
    try match goal with I : In ?f (g_surfedges g) |- _ =>
      pose proof (AT _ _ _ f (fun i => K (WSurfZero i) (fun x => x)) I); pose proof (AT _ _ _ f (fun i => K (WSurfRange i) (fun x => x)) I)
    end;
    try match goal with I : In ?f (g_leaffaces g) |- _ => pose proof (AT _ _ _ f (fun i => K (WMark i) (fun x => x)) I) end;
    try match goal with I : In ?f (g_leafs g) |- _ =>
      pose proof (AT _ _ _ f (fun i => K (WLeafMarks i) (fun x => x)) I); pose proof (AT _ _ _ f (fun i => K (WVisNeg i) (fun x => x)) I)
    end;
    try match goal with I : In ?f (g_nodes g) |- _ <= side ?f ?j => 
      pose proof (AT _ _ _ f (fun i => K (WChildLeaf i j) (fun x => x)) I); pose proof (NN _ (g_leafs g)) end;
    try match goal with I : In ?f (g_nodes g) |- side ?f ?j < _ => pose proof (AT _ _ _ f (fun i => K (WChildNode i j) (fun x => x)) I) end;
    try match goal with I : In ?f (g_nodes g) |- _ <> _ => pose proof (AT _ _ _ f (fun i => K (WChildSame i) (fun x => x)) I) end;
    try match goal with I : In ?f (g_clips g) |- _ <= cside ?f ?j => pose proof (AT _ _ _ f (fun i => K (WClipContents i j) (fun x => x)) I) end;
    try match goal with I : In ?f (g_clips g) |- cside ?f ?j < _ => pose proof (AT _ _ _ f (fun i => K (WClipChild i j) (fun x => x)) I) end;
    try match goal with I : In ?f (g_clips g) |- _ <> _ => pose proof (AT _ _ _ f (fun i => K (WClipSame i) (fun x => x)) I) end;
    cbv beta iota in *; lia.
  - intros (SF & SE & SS & SM & SL & SN & SC) w I. apply W in I. destruct w; cbn [harmless]; try exact Logic.I; cbn [meaning] in I; unfold at_ in I;
      try destruct I as (a & E & P); try apply nth_error_In in E.
    1-8: specialize (SF a E); lia.
    + specialize (SE a E). destruct j; lia.
    + specialize (SS a E). lia.
    + specialize (SS a E). lia.
    + specialize (SM a E). lia.
    + specialize (SL a E). lia.
    + specialize (SL a E). lia.
    + destruct (SN a E) as [_ Q]. specialize (Q j). lia.
    + destruct (SN a E) as [_ Q]. specialize (Q j). lia.
    + destruct (SN a E) as [Q _]. lia.
    + destruct (SC a E) as [_ Q]. specialize (Q j). lia.
    + destruct (SC a E) as [_ Q]. specialize (Q j). lia.
    + destruct (SC a E) as [Q _]. lia.
Qed.
Print Assumptions C137_clean.

(** A sound file with all vertices there, a root in range and no cycle of nodes: --check reads
    nothing out of bounds and ends. *)
Theorem C137_safe : forall T (g : mbsp T) ws (rank : Z -> nat), typed g -> check_lists g = ROk ws -> (forall w, In w ws -> harmless w) ->
  (forall e, In e (g_edges g) -> e_0 e < zlen (g_verts g) /\ e_1 e < zlen (g_verts g)) ->
  (exists m, nth_error (g_models g) 0 = Some m /\ 0 <= nth 0 (dm_head m) 0 < zlen (g_nodes g)) ->
  (forall n a c, get (g_nodes g) n = ROk a -> c = n_c0 a \/ c = n_c1 a -> 0 <= c -> (rank c < rank n)%nat) ->
  exists fuel, check_all fuel g = Some (ROk ws).
Proof.
  intros T g ws rank TY H C V (m & M & HD) R. apply (C137_clean T g ws TY H) in C. destruct C as (SF & SE & SS & SM & SL & SN & SC).
  exists (S (rank (nth 0 (dm_head m) 0))). unfold check_all. rewrite H. unfold print_heights.
  assert (G : get (g_models g) 0 = ROk m) by (unfold get; change (Z.to_nat 0) with O; rewrite M; reflexivity).
  rewrite G. cbv zeta.
  destruct (height_total (g_nodes g) rank) with (fuel := S (rank (nth 0 (dm_head m) 0))) (n := nth 0 (dm_head m) 0) as [h ->]; [|exact HD|lia|].
  { intros n a c Ga Ca C0. split; [|eapply R; eauto]. destruct (get_range _ _ _ _ Ga) as [_ E]. apply nth_error_In in E.
    destruct (SN a E) as [_ Q]. destruct Ca as [-> | ->]; [specialize (Q false)|specialize (Q true)]; cbn [side] in Q; lia. }
  f_equal. assert (P : exists r, planar g = ROk r).
  { apply rmap_ok. intros f If. specialize (SF f If). unfold planar_face. destruct (get_ok _ (g_planes g) (f_plane f)) as [p ->]; [lia|]. cbn [rbind].
    destruct (Z.ltb_spec (f_ne f) 0); [lia|]. apply rmap_ok. intros j J. apply in_map_iff in J. destruct J as (k & <- & K). apply in_seq in K.
    unfold planar_vertex. destruct (get_ok _ (g_surfedges g) (f_fe f + Z.of_nat k)) as [e Ee]; [lia|]. rewrite Ee. cbn [rbind].
    apply get_range in Ee. destruct Ee as [_ Ee]. apply nth_error_In in Ee. specialize (SS e Ee).
    assert (ED : forall i, 0 <= i < zlen (g_edges g) -> exists ed, get (g_edges g) i = ROk ed /\
       (exists v, get (g_verts g) (e_0 ed) = ROk v) /\ (exists v, get (g_verts g) (e_1 ed) = ROk v)).
    { intros i Hi. destruct (get_ok _ _ _ Hi) as [ed Q]. exists ed. split; [exact Q|]. apply get_range in Q. destruct Q as [_ Q]. apply nth_error_In in Q.
      specialize (V ed Q). destruct TY as (_ & TE & _). specialize (TE ed Q). unfold inu32 in TE. split; apply get_ok; lia. }
    destruct (Z.leb_spec 0 e) as [L|L].
    - destruct (ED e ltac:(lia)) as (ed & -> & [v Q] & _). cbn [rbind]. rewrite Q. eexists; reflexivity.
    - destruct (ED (- e) ltac:(lia)) as (ed & -> & _ & [v Q]). cbn [rbind]. rewrite Q. eexists; reflexivity. }
  destruct P as [r ->]. reflexivity.
Qed.
Print Assumptions C137_safe.

(** Undefined: a sum of first edge and edges that is no int32_t, and the least int32_t as a surfedge or child. *)
Theorem C137_undefined : forall T (g : mbsp T), check_lists g = RUB <->
  (exists f, In f (g_faces g) /\ ~ -2147483648 <= f_fe f + f_ne f <= 2147483647) \/
  In (-2147483648) (g_surfedges g) \/
  (exists n, In n (g_nodes g) /\ (n_c0 n = -2147483648 \/ n_c1 n = -2147483648)).
Proof.
  intros T g. transitivity (check_ub g = true); [unfold check_lists; destruct (check_ub g); split; intro H; (reflexivity || discriminate H)|].
  unfold check_ub. rewrite !orb_true_iff, !existsb_exists. split.
  - intros [[(f & I & H)|(e & I & H)]|(n & I & H)].
    + left. exists f. split; [exact I|]. unfold i32_ok in H. apply negb_true_iff, andb_false_iff in H. rewrite !Z.leb_gt in H. lia.
    + right. left. apply Z.eqb_eq in H. change (- 2147483648) with (-2147483648) in H. subst e. exact I.
    + right. right. exists n. split; [exact I|]. apply orb_true_iff in H. rewrite !Z.eqb_eq in H. exact H.
  - intros [(f & I & H)|[I|(n & I & H)]].
    + left. left. exists f. split; [exact I|]. unfold i32_ok. apply negb_true_iff, andb_false_iff. rewrite !Z.leb_gt. lia.
    + left. right. exists (-2147483648). split; [exact I|reflexivity].
    + right. exists n. split; [exact I|]. apply orb_true_iff. rewrite !Z.eqb_eq. exact H.
Qed.
Print Assumptions C137_undefined.
(** The set of planes in use is kept as int32_t: below 2^31 numbers stand for themselves, above they are negative. *)
Theorem C137_s32 : forall z, -2147483648 <= s32 z <= 2147483647 /\ exists k, s32 z = z + 4294967296 * k.
Proof.
  intro z. unfold s32. change (2 ^ 31) with 2147483648. change (2 ^ 32) with 4294967296. pose proof (Z.mod_pos_bound (z + 2147483648) 4294967296 ltac:(lia)). split; [lia|].
  exists (- ((z + 2147483648) / 4294967296)). pose proof (Z.div_mod (z + 2147483648) 4294967296 ltac:(lia)). lia.
Qed.
Print Assumptions C137_s32.
(** A level of the printed heights: the children, in order, of those of the level above that are nodes. *)
Theorem C137_kids : forall nodes n a, get nodes n = ROk a -> kids nodes n = (if n_c0 a <? 0 then [] else [n_c0 a]) ++ (if n_c1 a <? 0 then [] else [n_c1 a]).
Proof.
  intros nodes n a H. unfold kids. rewrite H. cbn [filter]. destruct (Z.leb_spec 0 (n_c0 a)), (Z.leb_spec 0 (n_c1 a)), (Z.ltb_spec (n_c0 a) 0), (Z.ltb_spec (n_c1 a) 0); (reflexivity || lia).
Qed.
Print Assumptions C137_kids.

(** The height printed first is the number of nodes of the longest way down, however deep the
    recursion may go. *)
Theorem C137_height : forall nodes fuel n h, height fuel nodes n = Some (ROk h) ->
  chain nodes n (Z.to_nat h) /\ 1 <= h /\ (forall k, chain nodes n k -> Z.of_nat k <= h) /\
  forall fuel', (fuel <= fuel')%nat -> height fuel' nodes n = Some (ROk h).
Proof.
  intros nodes fuel n h H. destruct (height_chain _ _ _ _ H) as (A & B & C). split; [exact A|split; [exact B|split; [exact C|]]].
  intros fuel' L. induction L as [|k L IH]; [exact H|]. apply height_more. exact IH.
Qed.
Print Assumptions C137_height.

(** A room of one triangle: [e] its edges, [ns] the nodes, [ls] the leafs, [ms] the models, [lo] the
    lightmap offset of the face. *)
Definition ck_v := mkV 0 0 0.
Definition ck_leaf (vis fm nm : Z) : mleaf := mkLeaf (-1) vis ck_v ck_v fm nm 0 0 0 0 0 0 0 0.
Definition ck_node (p a b : Z) : node := mkNode p a b ck_v ck_v 0 1.
Definition ck_model (h : Z) : dmodel := mkModel ck_v ck_v ck_v [h; 0; 0; 0; 0; 0; 0; 0] 1 0 1.
Definition ck (e : list dedge) (ns : list node) (ls : list mleaf) (ms : list dmodel) (lo : Z) : mbsp unit :=
  mkGen [] [mkPlane ck_v 0 0] tt [ck_v; ck_v; ck_v] (mkVis [] [1%N; 1%N]) ns [mkMTex [] 0 0 0 [] 0]
    [mkFace 0 0 0 3 0 0 255 255 255 lo] [7%N] [mkClip 0 (-1) (-2)] ls [0] [] e [1; 2; 3] ms [] [] [] [].
Definition ck_edges : list dedge := [mkEdge 0 0; mkEdge 0 1; mkEdge 1 2; mkEdge 2 0].
Definition ck_good : mbsp unit := ck ck_edges [ck_node 0 (-1) (-2)] [ck_leaf 0 0 0; ck_leaf 1 0 1] [ck_model 0] 0.

Definition typedb {T} (g : mbsp T) : bool :=
  let i32 z := (- 2 ^ 31 <=? z) && (z <? 2 ^ 31) in let u32 z := (0 <=? z) && (z <? 2 ^ 32) in
  forallb (fun f => (- 2 ^ 63 <=? f_plane f) && (f_plane f <? 2 ^ 63) && i32 (f_tex f) && i32 (f_lo f) && i32 (f_fe f) && i32 (f_ne f)) (g_faces g) &&
  forallb (fun e => u32 (e_0 e) && u32 (e_1 e)) (g_edges g) && forallb i32 (g_surfedges g) && forallb u32 (g_leaffaces g) &&
  forallb (fun l => i32 (l_visofs l) && u32 (l_fm l) && u32 (l_nm l)) (g_leafs g) &&
  forallb (fun n => i32 (n_c0 n) && i32 (n_c1 n)) (g_nodes g) && forallb (fun n => i32 (cn_c0 n) && i32 (cn_c1 n)) (g_clips g) &&
  forallb (fun n => n <? 2 ^ 31) [zlen (g_texinfo g); zlen (g_planes g); zlen (g_light g); zlen (g_surfedges g); zlen (g_verts g);
                   zlen (g_edges g); zlen (g_faces g); zlen (g_leaffaces g); zlen (mv_bits (g_vis g)); zlen (g_nodes g);
                   zlen (g_leafs g); zlen (g_clips g)].
Lemma typedb_ok : forall T (g : mbsp T), typedb g = true -> typed g.
Proof.
  intros T g H. unfold typedb in H. cbv zeta in H. rewrite !andb_true_iff in H. rewrite !forallb_forall in H.
  destruct H as (((((((HF & HE) & HS) & HM) & HL) & HN) & HC) & HZ). unfold typed, in32, inu32.
  split; [|split; [|split; [|split; [|split; [|split; [|split]]]]]]; intros x I.
  - specialize (HF x I). rewrite !andb_true_iff, !Z.leb_le, !Z.ltb_lt in HF. lia.
  - specialize (HE x I). rewrite !andb_true_iff, !Z.leb_le, !Z.ltb_lt in HE. lia.
  - specialize (HS x I). rewrite !andb_true_iff, !Z.leb_le, !Z.ltb_lt in HS. lia.
  - specialize (HM x I). rewrite !andb_true_iff, !Z.leb_le, !Z.ltb_lt in HM. lia.
  - specialize (HL x I). rewrite !andb_true_iff, !Z.leb_le, !Z.ltb_lt in HL. lia.
  - specialize (HN x I). rewrite !andb_true_iff, !Z.leb_le, !Z.ltb_lt in HN. lia.
  - specialize (HC x I). rewrite !andb_true_iff, !Z.leb_le, !Z.ltb_lt in HC. lia.
  - specialize (HZ x I). rewrite Z.ltb_lt in HZ. exact HZ.
Qed.

(** The good room gives no warning; breaking one record gives its warnings. *)
Example C137_nontrivial : typed ck_good /\ check_all 2 ck_good = Some (ROk []) /\
  print_heights 3 (ck ck_edges [ck_node 0 1 (-1); ck_node 0 (-1) (-2)] [ck_leaf 0 0 0; ck_leaf 1 0 1] [ck_model 0] 0)
    = Some (ROk [[Some (ROk 2)]; [Some (ROk 1)]]) /\
  check_lists (ck [mkEdge 0 0; mkEdge 0 1; mkEdge 1 4] [ck_node 0 0 (-3); ck_node 0 2 2] [ck_leaf (-5) 0 2; ck_leaf 9 0 1] [] (-7))
    = ROk [WLightNeg 0; WLightRange 0; WVertex 2 true; WSurfRange 2; WLeafMarks 0; WVisNeg 0; WVisRange 0; WVisRange 1;
           WChildLeaf 0 true; WChildNode 1 false; WChildNode 1 true; WChildSame 1; WUnusedVerts 1].
Proof.
  split; [apply typedb_ok; vm_compute; reflexivity|]. split; [vm_compute; reflexivity|]. split; vm_compute; reflexivity.
Qed.

(** Warnings of sound files: a face without a lightmap and a leaf without a row, as the compilers write
    them, are always warned of. *)
Theorem C137_unlit_refuted : forall T (g : mbsp T) ws, typed g -> check_lists g = ROk ws ->
  (forall i f, nth_error (g_faces g) i = Some f -> f_lo f = -1 -> In (WLightRange i) ws) /\
  (forall i l, nth_error (g_leafs g) i = Some l -> l_visofs l = -1 -> In (WVisRange i) ws) /\
  (exists g' : mbsp unit, typed g' /\ check_all 2 g' = Some (ROk [WLightRange 0; WVisRange 0])).
Proof.
  intros T g ws TY H. split; [|split].
  - intros i f N L. apply (C137_warnings T g ws TY H). exists f. split; [exact N|]. lia.
  - intros i l N L. apply (C137_warnings T g ws TY H). exists l. split; [exact N|]. lia.
  - exists (ck ck_edges [ck_node 0 (-1) (-2)] [ck_leaf (-1) 0 0; ck_leaf 1 0 1] [ck_model 0] (-1)).
    split; [apply typedb_ok; vm_compute; reflexivity|vm_compute; reflexivity].
Qed.
Print Assumptions C137_unlit_refuted.

(** Unsound files without a warning: a vertex one beyond the last, which the check of planes then reads;
    first mark and number of marks with a sum of 2^32; the plane of a node; a root that is not there,
    which Node_Height reads. *)
Theorem C137_unnoticed_refuted :
  (exists g : mbsp unit, typed g /\ check_lists g = ROk [] /\ check_all 2 g = Some RUB /\
     exists e, In e (g_edges g) /\ e_0 e = zlen (g_verts g)) /\
  (exists g : mbsp unit, typed g /\ check_all 2 g = Some (ROk []) /\ exists l, In l (g_leafs g) /\ zlen (g_leaffaces g) < l_fm l + l_nm l) /\
  (exists g : mbsp unit, typed g /\ check_all 2 g = Some (ROk []) /\ exists n, In n (g_nodes g) /\ zlen (g_planes g) < n_plane n) /\
  (exists g : mbsp unit, typed g /\ check_lists g = ROk [] /\ forall fuel, check_all (S fuel) g = Some RUB).
Proof.
  split; [|split; [|split]].
  - exists (ck [mkEdge 0 0; mkEdge 0 1; mkEdge 3 2; mkEdge 2 0] [ck_node 0 (-1) (-2)] [ck_leaf 0 0 0; ck_leaf 1 0 1] [ck_model 0] 0).
    split; [apply typedb_ok; vm_compute; reflexivity|]. split; [vm_compute; reflexivity|]. split; [vm_compute; reflexivity|].
    exists (mkEdge 3 2). split; [right; right; left; reflexivity|reflexivity].
  - exists (ck ck_edges [ck_node 0 (-1) (-2)] [ck_leaf 0 0 0; ck_leaf 1 4294967295 2] [ck_model 0] 0).
    split; [apply typedb_ok; vm_compute; reflexivity|]. split; [vm_compute; reflexivity|].
    exists (ck_leaf 1 4294967295 2). split; [right; left; reflexivity|vm_compute; reflexivity].
  - exists (ck ck_edges [ck_node 5 (-1) (-2)] [ck_leaf 0 0 0; ck_leaf 1 0 1] [ck_model 0] 0).
    split; [apply typedb_ok; vm_compute; reflexivity|]. split; [vm_compute; reflexivity|].
    exists (ck_node 5 (-1) (-2)). split; [left; reflexivity|vm_compute; reflexivity].
  - exists (ck ck_edges [ck_node 0 (-1) (-2)] [ck_leaf 0 0 0; ck_leaf 1 0 1] [ck_model 1] 0).
    split; [apply typedb_ok; vm_compute; reflexivity|]. split; [vm_compute; reflexivity|]. intros fuel. vm_compute. reflexivity.
Qed.
Print Assumptions C137_unnoticed_refuted.

(** Nodes that are their own descendants give no warning, and --check never ends. *)
Theorem C137_cycle_refuted : exists g : mbsp unit, typed g /\ check_lists g = ROk [] /\ forall fuel, check_all fuel g = None.
Proof.
  set (g := ck ck_edges [ck_node 0 1 (-1); ck_node 0 (-2) 0] [ck_leaf 0 0 0; ck_leaf 1 0 1] [ck_model 0] 0).
  exists g. split; [apply typedb_ok; vm_compute; reflexivity|]. assert (E : check_lists g = ROk []) by (vm_compute; reflexivity). split; [exact E|].
  assert (H : forall fuel, height fuel (g_nodes g) 0 = None /\ height fuel (g_nodes g) 1 = None).
  { induction fuel as [|fuel [A B]]; [split; reflexivity|].
    assert (G0 : get (g_nodes g) 0 = ROk (ck_node 0 1 (-1))) by reflexivity. assert (G1 : get (g_nodes g) 1 = ROk (ck_node 0 (-2) 0)) by reflexivity.
    cbn [height]. rewrite G0, G1. cbn [n_c0 n_c1 ck_node]. cbv zeta.
    change (0 <=? 1) with true. change (0 <=? -2) with false. change (0 <=? 0) with true. cbv iota. rewrite A, B. split; reflexivity. }
  intros fuel. unfold check_all. rewrite E. unfold print_heights.
  assert (G : get (g_models g) 0 = ROk (ck_model 0)) by reflexivity. rewrite G.
  assert (D : nth 0 (dm_head (ck_model 0)) 0 = 0) by reflexivity. rewrite D. destruct (H fuel) as [H0 _]. rewrite H0. reflexivity.
Qed.
Print Assumptions C137_cycle_refuted.
