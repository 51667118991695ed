(* C140: bsputil commands that edit a BSP. *)
From Coq Require Import String Ascii List Arith NArith ZArith Bool Lia.
Import ListNotations.
From Verif Require Import Base Codec NumCastModel NumCastProofs BspRecModel BspRecProofs BspConvProofs
  BspFileModel BspReadProofs BspTexProofs BspWriteProofs BspLoadProofs BspAcceptProofs ConvModel ConvProofs ConvLoadProofs
  PropertiesBspFile EditModel.
Local Open Scope Z_scope.
Local Open Scope list_scope.

(** ** Edited BSPs *)

(** Another text of entities; another list of faces; all else the same. *)
Definition put_ents {T} (b : bspv T) (e : list N) : bspv T :=
  match b with
  | B1 b => B1 (mkQ1 e (b1_planes b) (b1_tex b) (b1_verts b) (b1_vis b) (b1_nodes b) (b1_texinfo b)
                  (b1_faces b) (b1_light b) (b1_clips b) (b1_leafs b) (b1_marks b) (b1_edges b) (b1_surfedges b) (b1_models b))
  | B2 b => B2 (mkQ2 e (b2_planes b) (b2_verts b) (b2_vis b) (b2_nodes b) (b2_texinfo b) (b2_faces b) (b2_light b) (b2_leafs b)
                  (b2_leaffaces b) (b2_leafbrushes b) (b2_edges b) (b2_surfedges b) (b2_models b) (b2_brushes b) (b2_sides b) (b2_areas b) (b2_areaportals b))
  end.
Definition put_faces {T} (b : bspv T) (l : list face) : bspv T :=
  match b with
  | B1 b => B1 (mkQ1 (b1_ents b) (b1_planes b) (b1_tex b) (b1_verts b) (b1_vis b) (b1_nodes b) (b1_texinfo b)
                  l (b1_light b) (b1_clips b) (b1_leafs b) (b1_marks b) (b1_edges b) (b1_surfedges b) (b1_models b))
  | B2 b => B2 (mkQ2 (b2_ents b) (b2_planes b) (b2_verts b) (b2_vis b) (b2_nodes b) (b2_texinfo b) l (b2_light b) (b2_leafs b)
                  (b2_leaffaces b) (b2_leafbrushes b) (b2_edges b) (b2_surfedges b) (b2_models b) (b2_brushes b) (b2_sides b) (b2_areas b) (b2_areaportals b))
  end.
Definition ents_of {T} (b : bspv T) : list N := match b with B1 b => b1_ents b | B2 b => b2_ents b end.
Definition faces_of {T} (b : bspv T) : list face := match b with B1 b => b1_faces b | B2 b => b2_faces b end.

(** What can be written and read again (C70), and a file that reads as a BSP: every lump the same,
    textures with fewer than four bytes of padding. *)
Definition storable (v : ver) (b : bspv (list rmip)) (x : bspx) : Prop :=
  bsp_wf v (wb b) /\ models_distinct v (wb b) /\ bspx_wf x /\ file_size v (wb b) x <= 2147483647.
Definition reads_as (f : list N) (v : ver) (b : bspv (list rmip)) (x : bspx) : Prop :=
  match b with
  | B1 b => exists t, load_file f = ROk (v, B1 (with_tex b t), x) /\ Forall2 (fun r t => tex_same (wtex r) t) (b1_tex b) t
  | B2 b => load_file f = ROk (v, B2 b, x)
  end.

Lemma stored : forall v b x, storable v b x -> exists f, write_file v (wb b) x = ROk f /\ reads_as f v b x.
Proof.
  intros v b x (S1 & S2 & S3 & S4). destruct (C70_save_then_load_partial v (wb b) x S1 S2 S3 S4) as (f & E & R).
  exists f. split; [exact E|]. destruct b as [b|b]; [|exact R]. cbn [wb] in R. destruct R as (t & R & F). exists t. split; [exact R|].
  cbn [b1_tex] in F. clear -F. revert t F. induction (b1_tex b) as [|r l IH]; intros t F; cbn [map] in F; inversion F; subst; constructor; auto.
Qed.

Lemma edit_ents : forall v (b : bspv (list rmip)) g e, in_range v b -> to_generic [] v b = ROk g -> to_format v (with_ents g e) = ROk (put_ents b e).
Proof.
  intros v b g e R G. assert (R' : in_range v (put_ents b e)) by (destruct b; exact R).
  destruct (format_back (list rmip) [] v _ R') as (g' & G1 & G2). rewrite <- G2. f_equal.
  destruct b as [b|b]; cbn [put_ents to_generic] in *.
  - unfold gen_of_q1 in *. cbn [b1_models b1_planes b1_tex b1_verts b1_vis b1_nodes b1_texinfo b1_faces b1_light b1_clips b1_leafs b1_marks b1_edges b1_surfedges b1_ents] in *.
    destruct (rmap (gen_model v) (b1_models b)) as [m| |]; cbn [rbind] in *; [|discriminate G|discriminate G]. injection G as <-. injection G1 as <-. reflexivity.
  - injection G as <-. injection G1 as <-. reflexivity.
Qed.

Lemma edit_faces : forall v (b : bspv (list rmip)) g l, in_range v b -> to_generic [] v b = ROk g -> all (face_ok v) l ->
  to_format v (with_faces g l) = ROk (put_faces b l).
Proof.
  intros v b g l R G F. assert (R' : in_range v (put_faces b l)) by (destruct b; cbn in *; tauto).
  destruct (format_back (list rmip) [] v _ R') as (g' & G1 & G2). rewrite <- G2. f_equal.
  destruct b as [b|b]; cbn [put_faces to_generic] in *.
  - unfold gen_of_q1 in *. cbn [b1_models b1_planes b1_tex b1_verts b1_vis b1_nodes b1_texinfo b1_faces b1_light b1_clips b1_leafs b1_marks b1_edges b1_surfedges b1_ents] in *.
    destruct (rmap (gen_model v) (b1_models b)) as [m| |]; cbn [rbind] in *; [|discriminate G|discriminate G]. injection G as <-. injection G1 as <-.
    unfold with_faces. cbn [g_ents g_planes g_tex g_verts g_vis g_nodes g_texinfo g_light g_clips g_leafs g_leaffaces g_leafbrushes g_edges g_surfedges g_models g_brushes g_sides g_areas g_areaportals].
    f_equal. rewrite <- (map_id l) at 1. reflexivity.
  - injection G as <-. injection G1 as <-. unfold with_faces, gen_of_q2. cbn [g_ents g_planes g_tex g_verts g_vis g_nodes g_texinfo g_light g_clips g_leafs g_leaffaces g_leafbrushes g_edges g_surfedges g_models g_brushes g_sides g_areas g_areaportals
      b2_ents b2_planes b2_verts b2_vis b2_nodes b2_texinfo b2_faces b2_light b2_leafs b2_leaffaces b2_leafbrushes b2_edges b2_surfedges b2_models b2_brushes b2_sides b2_areas b2_areaportals].
    f_equal. rewrite <- (map_id l) at 1. reflexivity.
Qed.

Lemma gen_ents : forall v (b : bspv (list rmip)) g, to_generic [] v b = ROk g -> g_ents g = ents_of b /\ g_faces g = faces_of b.
Proof.
  intros v b g G. destruct b as [b|b]; cbn [to_generic] in G.
  - unfold gen_of_q1 in G. destruct (rmap (gen_model v) (b1_models b)) as [m| |]; cbn [rbind] in G; [|discriminate G|discriminate G].
    injection G as <-. cbn [g_ents g_faces ents_of faces_of]. split; [reflexivity|]. apply map_id.
  - injection G as <-. split; [reflexivity|]. cbn [gen_of_q2 g_faces]. apply map_id.
Qed.

Lemma same_refl : forall n, same n n = true.
Proof. intros n. unfold same. destruct (list_eq_dec N.eq_dec n n); [reflexivity|contradiction]. Qed.
Lemma put_same : forall fs n x, put fs n x n = x. Proof. intros. unfold put. rewrite same_refl. reflexivity. Qed.
Lemma put_other : forall fs n x m, m <> n -> put fs n x m = fs m.
Proof. intros fs n x m H. unfold put, same. destruct (list_eq_dec N.eq_dec m n); [contradiction|reflexivity]. Qed.

(** bsputil starts with the generic form of the BSP. *)
Lemma started : forall num parses args n fs f v b x, Forall is_byte f -> fs n = FData f -> load_file f = ROk (v, b, x) -> last args [] = n ->
  exists g, to_generic [] v b = ROk g /\ to_format v g = ROk b /\ in_range v b /\
    bsputil num parses args fs = loop num parses (List.length args) args (mkSt n (mkData None (Some v) (AGen g)) x fs).
Proof.
  intros num parses args n fs f v b x F H L A. pose proof (loaded_range f v b x F L) as R.
  destruct (format_back (list rmip) [] v b R) as (g & G1 & G2). exists g. split; [exact G1|]. split; [exact G2|]. split; [exact R|].
  unfold bsputil. rewrite A, H, L. unfold conv. cbn [s_data]. unfold convert. cbn [d_ver d_bsp].
  destruct (over_eq_dec (Some v) None) as [X|_]; [discriminate X|]. rewrite G1. reflexivity.
Qed.

Lemma conv_back : forall v g x n fs k b, to_format v g = ROk b ->
  conv (Some v) (mkSt n (mkData None (Some v) (AGen g)) x fs) k = k (mkSt n (mkData (Some v) (Some v) (AFmt b)) x fs).
Proof.
  intros v g x n fs k b H. unfold conv, convert. cbn [s_data d_ver d_bsp d_load]. destruct (over_eq_dec None (Some v)) as [X|_]; [discriminate X|].
  rewrite H. reflexivity.
Qed.
Lemma conv_fails : forall v g x n fs k, to_format v g = RThrow ->
  conv (Some v) (mkSt n (mkData None (Some v) (AGen g)) x fs) k = k (mkSt n (mkData None (Some v) (AGen g)) x fs).
Proof.
  intros v g x n fs k H. unfold conv, convert. cbn [s_data d_ver d_bsp d_load]. destruct (over_eq_dec None (Some v)) as [X|_]; [discriminate X|].
  rewrite H. reflexivity.
Qed.

(** ** C140 *)

(** --replace-entities: the BSP has the new text and is otherwise the same, and no other file changes. *)
Theorem C140_replace : forall num parses n a fs f v b x e, Forall is_byte f -> fs n = FData f -> load_file f = ROk (v, b, x) ->
  fs a = FData e -> storable v (put_ents b e) x ->
  exists fs' f', bsputil num parses [str "--replace-entities"; a; n] fs = Done fs' /\ fs' n = FData f' /\ reads_as f' v (put_ents b e) x /\
    forall m, m <> n -> fs' m = fs m.
Proof.
  intros num parses n a fs f v b x e F H L A S. destruct (started num parses [str "--replace-entities"; a; n] n fs f v b x F H L eq_refl) as (g & G1 & G2 & R & ->).
  destruct (stored _ _ _ S) as (f' & W & RA). exists (put fs n (FData f')), f'. split; [|split; [apply put_same|split; [exact RA|intros m M; apply put_other; exact M]]].
  cbn [loop List.length]. rewrite same_refl. cbn [s_data d_bsp s_fs]. rewrite A. unfold set_gen. cbn [s_name s_data d_ver d_load s_x s_fs].
  rewrite (conv_back _ _ _ _ _ _ _ (edit_ents v b g e R G1)). unfold write_bsp. cbn [s_data d_ver d_bsp s_x s_fs s_name]. rewrite W. reflexivity.
Qed.
Print Assumptions C140_replace.

(** --extract-entities writes the text of the entities to the file with the extension .ent; replacing the
    entities by that file later leaves the BSP as it was. *)
Theorem C140_extract : forall num parses n fs f v b x, Forall is_byte f -> fs n = FData f -> load_file f = ROk (v, b, x) -> ents_of b <> [] ->
  n <> with_ext n (str ".ent") -> storable v b x ->
  exists fs' fs2 f', bsputil num parses [str "--extract-entities"; n] fs = Done fs' /\ fs' (with_ext n (str ".ent")) = FData (ents_of b) /\
    (forall m, m <> with_ext n (str ".ent") -> fs' m = fs m) /\
    bsputil num parses [str "--replace-entities"; with_ext n (str ".ent"); n] fs' = Done fs2 /\ fs2 n = FData f' /\ reads_as f' v b x.
Proof.
  intros num parses n fs f v b x F H L E NE S. destruct (started num parses [str "--extract-entities"; n] n fs f v b x F H L eq_refl) as (g & G1 & G2 & R & Q).
  destruct (gen_ents v b g G1) as [GE _]. exists (put fs (with_ext n (str ".ent")) (FData (ents_of b))).
  assert (P : put_ents b (ents_of b) = b) by (destruct b as [[]|[]]; reflexivity).
  destruct (C140_replace num parses n (with_ext n (str ".ent")) (put fs (with_ext n (str ".ent")) (FData (ents_of b))) f v b x (ents_of b) F) as (fs2 & f' & B1 & B2 & B3 & _).
  - rewrite put_other by exact NE. exact H.
  - exact L.
  - apply put_same.
  - rewrite P. exact S.
  - exists fs2, f'. rewrite Q. split; [|split; [apply put_same|split; [intros m M; apply put_other; exact M|split; [exact B1|split; [exact B2|rewrite <- P; exact B3]]]]].
    cbn [loop List.length]. change (same (str "--extract-entities") (str "--replace-entities")) with false. change (same (str "--extract-entities") (str "--convert")) with false.
    rewrite same_refl. cbn [get_gen s_data d_bsp]. rewrite GE. unfold get_gen. cbn [s_data d_bsp]. rewrite ?GE. destruct (ents_of b) as [|c t]; [contradiction|].
    reflexivity.
Qed.
Print Assumptions C140_extract.

(** --settexinfo: exactly that face has exactly that texinfo, if the format can hold it. *)
Theorem C140_settexinfo : forall num parses n a c fs f v b x i t, Forall is_byte f -> fs n = FData f -> load_file f = ROk (v, b, x) ->
  num a = Some (Z.of_nat i) -> num c = Some t -> (i < List.length (faces_of b))%nat -> - 32768 <= t <= 32767 \/ v_wide v = true /\ - 2147483648 <= t <= 2147483647 ->
  exists l, List.length l = List.length (faces_of b) /\ (forall j, j <> i -> nth_error l j = nth_error (faces_of b) j) /\
    (exists fc, nth_error (faces_of b) i = Some fc /\ nth_error l i = Some (face_tex t fc)) /\
    (storable v (put_faces b l) x ->
     exists fs' f', bsputil num parses [str "--settexinfo"; a; c; n] fs = Done fs' /\ fs' n = FData f' /\ reads_as f' v (put_faces b l) x /\
       forall m, m <> n -> fs' m = fs m).
Proof.
  intros num parses n a c fs f v b x i t F H L NA NC I T.
  destruct (started num parses [str "--settexinfo"; a; c; n] n fs f v b x F H L eq_refl) as (g & G1 & G2 & R & Q).
  destruct (gen_ents v b g G1) as [_ GF]. exists (upd i (face_tex t) (faces_of b)).
  assert (U : forall j (l : list face), nth_error (upd j (face_tex t) l) j = option_map (face_tex t) (nth_error l j)).
  { induction j as [|j IH]; intros [|y l]; try reflexivity. cbn [upd nth_error]. apply IH. }
  assert (V : forall j k (l : list face), k <> j -> nth_error (upd j (face_tex t) l) k = nth_error l k).
  { induction j as [|j IH]; intros [|k] [|y l] K; try reflexivity; try contradiction. cbn [upd nth_error]. apply IH. congruence. }
  split; [|split; [intros j J; apply V; exact J|split]].
  - clear. revert i. induction (faces_of b) as [|y l IH]; intros [|i]; try reflexivity. cbn [upd List.length]. rewrite IH. reflexivity.
  - destruct (nth_error (faces_of b) i) as [fc|] eqn:N; [|apply nth_error_None in N; lia]. exists fc. rewrite U, N. auto.
  - intros S. destruct (stored _ _ _ S) as (f' & W & RA). exists (put fs n (FData f')), f'.
    split; [|split; [apply put_same|split; [exact RA|intros m M; apply put_other; exact M]]]. rewrite Q.
    assert (AF : all (face_ok v) (upd i (face_tex t) (faces_of b))).
    { assert (AF : all (face_ok v) (faces_of b)) by (destruct b as [b|b]; cbn in R; tauto).
      clear -AF T. revert i. induction (faces_of b) as [|y l IH]; intros [|i]; cbn [upd]; try constructor; try (inversion AF; subst; assumption).
      - inversion AF as [|y' l' Y Z]; subst. destruct y as [p0 s0 fe ne tx a0 a1 a2 a3 lo]. unfold face_tex. cbn [f_plane f_side f_fe f_ne f_s0 f_s1 f_s2 f_s3 f_lo].
        assert (T32 : it_in i32 t = true) by (unfold it_in; apply andb_true_iff; split; apply Z.leb_le; cbn; lia).
        assert (T16 : v_wide v = false -> it_in i16 t = true) by (intros X; rewrite X in T; destruct T as [T|[T _]]; [|discriminate T]; unfold it_in; apply andb_true_iff; split; apply Z.leb_le; cbn; lia).
        destruct v; unfold face_ok, face_wf in Y |- *; cbn [f_plane f_side f_fe f_ne f_s0 f_s1 f_s2 f_s3 f_lo f_tex] in Y |- *;
          rewrite !andb_true_iff in Y |- *; try specialize (T16 eq_refl); tauto.
      - apply IH. inversion AF; assumption. }
    cbn [loop List.length]. change (same (str "--settexinfo") (str "--replace-entities")) with false. change (same (str "--settexinfo") (str "--convert")) with false.
    change (same (str "--settexinfo") (str "--extract-entities")) with false. change (same (str "--settexinfo") (str "--modelinfo")) with false.
    rewrite same_refl. unfold get_gen. cbn [s_data d_bsp s_fs]. rewrite NA, NC, GF.
    destruct (0 <=? Z.of_nat i) eqn:B1; [|apply Z.leb_gt in B1; lia]. destruct (Z.of_nat i <? Z.of_nat (List.length (faces_of b))) eqn:B2; [|apply Z.ltb_ge in B2; lia].
    cbn [andb]. rewrite Nat2Z.id. unfold set_gen. cbn [s_name s_data d_ver d_load s_x s_fs].
    rewrite (conv_back _ _ _ _ _ _ _ (edit_faces v b g _ R G1 AF)). unfold write_bsp. cbn [s_data d_ver d_bsp s_x s_fs s_name]. rewrite W. reflexivity.
Qed.
Print Assumptions C140_settexinfo.

(** The three commands for BSPX lumps: the bytes of a lump to a file, a file to a lump (new or instead of
    the old one), a lump removed; other lumps and the BSP stay. *)
Theorem C140_lumps : forall num parses n a o fs f v b x, Forall is_byte f -> fs n = FData f -> load_file f = ROk (v, b, x) ->
  (forall d, xfind a x = Some d -> exists fs', bsputil num parses [str "--extract-bspx-lump"; a; o; n] fs = Done fs' /\ fs' o = FData d /\ forall m, m <> o -> fs' m = fs m) /\
  (forall d, fs o = FData d -> exists x', xfind a x' = Some d /\ (forall k, k <> a -> xfind k x' = xfind k x) /\
     (storable v b x' -> exists fs' f', bsputil num parses [str "--insert-bspx-lump"; a; o; n] fs = Done fs' /\ fs' n = FData f' /\ reads_as f' v b x' /\ forall m, m <> n -> fs' m = fs m)) /\
  (xfind a x <> None -> exists x', xfind a x' = None /\ (forall k, k <> a -> xfind k x' = xfind k x) /\
     (storable v b x' -> exists fs' f', bsputil num parses [str "--remove-bspx-lump"; a; n] fs = Done fs' /\ fs' n = FData f' /\ reads_as f' v b x' /\ forall m, m <> n -> fs' m = fs m)) /\
  (xfind a x = None -> bsputil num parses [str "--extract-bspx-lump"; a; o; n] fs = Stop fs /\ bsputil num parses [str "--remove-bspx-lump"; a; n] fs = Stop fs).
Proof.
  intros num parses n a o fs f v b x F H L.
  destruct (started num parses [str "--extract-bspx-lump"; a; o; n] n fs f v b x F H L eq_refl) as (g & G1 & G2 & R & Q1).
  destruct (started num parses [str "--insert-bspx-lump"; a; o; n] n fs f v b x F H L eq_refl) as (g2 & E2 & _ & _ & Q2). rewrite G1 in E2. injection E2 as <-.
  destruct (started num parses [str "--remove-bspx-lump"; a; n] n fs f v b x F H L eq_refl) as (g3 & E3 & _ & _ & Q3). rewrite G1 in E3. injection E3 as <-.
  assert (FA : forall (y : bspx) d, xfind a (assign y a d) = Some d /\ forall k, k <> a -> xfind k (assign y a d) = xfind k y).
  { induction y as [|[k w] y IH]; intros d; cbn [assign xfind].
    - destruct (list_eq_dec N.eq_dec a a); [|contradiction]. split; [reflexivity|]. intros k K. destruct (list_eq_dec N.eq_dec a k); [congruence|reflexivity].
    - destruct (list_eq_dec N.eq_dec k a) as [-> |K]; cbn [xfind].
      + destruct (list_eq_dec N.eq_dec a a); [|contradiction]. split; [reflexivity|]. intros k K. destruct (list_eq_dec N.eq_dec a k); [congruence|reflexivity].
      + destruct (list_eq_dec N.eq_dec k a); [contradiction|]. destruct (IH d) as [I1 I2]. split; [exact I1|]. intros k' K'. destruct (list_eq_dec N.eq_dec k k'); [reflexivity|apply I2; exact K']. }
  assert (FE : forall y : bspx, xfind a (xerase a y) = None /\ forall k, k <> a -> xfind k (xerase a y) = xfind k y).
  { induction y as [|[k w] y IH]; [split; reflexivity|]. destruct IH as [I1 I2]. unfold xerase in *. cbn [filter fst]. destruct (same k a) eqn:SK; unfold same in SK; (destruct (list_eq_dec N.eq_dec k a) as [-> |K]; try discriminate SK; clear SK); cbn [negb xfind].
    - split; [exact I1|]. intros k K. destruct (list_eq_dec N.eq_dec a k); [congruence|]. apply I2. exact K.
    - destruct (list_eq_dec N.eq_dec k a); [contradiction|]. split; [exact I1|]. intros k' K'. destruct (list_eq_dec N.eq_dec k k'); [reflexivity|apply I2; exact K']. }
  rewrite Q1, Q2, Q3. split; [|split; [|split]].
  - intros d D. exists (put fs o (FData d)). split; [|split; [apply put_same|intros m M; apply put_other; exact M]].
    cbn [loop List.length]. repeat match goal with |- context [same (str ?p) (str ?q)] => let r := eval vm_compute in (same (str p) (str q)) in change (same (str p) (str q)) with r end.
    cbn [s_x]. rewrite D. reflexivity.
  - intros d D. exists (assign x a d). destruct (FA x d) as [A1 A2]. split; [exact A1|]. split; [exact A2|]. intros S. destruct (stored _ _ _ S) as (f' & W & RA).
    exists (put fs n (FData f')), f'. split; [|split; [apply put_same|split; [exact RA|intros m M; apply put_other; exact M]]].
    cbn [loop List.length]. repeat match goal with |- context [same (str ?p) (str ?q)] => let r := eval vm_compute in (same (str p) (str q)) in change (same (str p) (str q)) with r end.
    cbn [s_fs]. rewrite D. unfold set_x. cbn [s_name s_data s_fs s_x d_load]. rewrite (conv_back _ _ _ _ _ _ _ G2). unfold write_bsp. cbn [s_data d_ver d_bsp s_x s_fs s_name]. rewrite W. reflexivity.
  - intros D. exists (xerase a x). destruct (FE x) as [A1 A2]. split; [exact A1|]. split; [exact A2|]. intros S. destruct (stored _ _ _ S) as (f' & W & RA).
    exists (put fs n (FData f')), f'. split; [|split; [apply put_same|split; [exact RA|intros m M; apply put_other; exact M]]].
    cbn [loop List.length]. repeat match goal with |- context [same (str ?p) (str ?q)] => let r := eval vm_compute in (same (str p) (str q)) in change (same (str p) (str q)) with r end.
    cbn [s_x]. destruct (xfind a x) as [d|]; [|congruence]. unfold set_x. cbn [s_name s_data s_fs s_x d_load]. rewrite (conv_back _ _ _ _ _ _ _ G2). unfold write_bsp. cbn [s_data d_ver d_bsp s_x s_fs s_name]. rewrite W. reflexivity.
  - intros D. split; (cbn [loop List.length]; repeat match goal with |- context [same (str ?p) (str ?q)] => let r := eval vm_compute in (same (str p) (str q)) in change (same (str p) (str q)) with r end;
      cbn [s_x]; rewrite D; reflexivity).
Qed.
Print Assumptions C140_lumps.

Ltac eval_same := cbn [loop List.length]; repeat match goal with |- context [same (str ?p) (str ?q)] => let r := eval vm_compute in (same (str p) (str q)) in change (same (str p) (str q)) with r end.

(** --convert writes the BSP in the named format to a file of its own and leaves the source alone; if
    something does not fit, the new file is broken. *)
Theorem C140_convert : forall num parses n a w fs f v b x, Forall is_byte f -> fs n = FData f -> load_file f = ROk (v, b, x) ->
  In (a, Some w) versions -> n <> stem n ++ str "-" ++ a ->
  exists g, to_generic [] v b = ROk g /\
    (forall b', to_format w g = ROk b' -> storable w b' x ->
       exists fs' f', bsputil num parses [str "--convert"; a; n] fs = Done fs' /\ fs' (stem n ++ str "-" ++ a) = FData f' /\ reads_as f' w b' x /\
         fs' n = fs n /\ forall m, m <> stem n ++ str "-" ++ a -> fs' m = fs m) /\
    (to_format w g = RThrow -> exists fs', bsputil num parses [str "--convert"; a; n] fs = Stop fs' /\ fs' (stem n ++ str "-" ++ a) = FBroken /\ fs' n = fs n).
Proof.
  intros num parses n a w fs f v b x F H L I NE.
  destruct (started num parses [str "--convert"; a; n] n fs f v b x F H L eq_refl) as (g & G1 & G2 & R & Q). exists g. split; [exact G1|]. rewrite Q.
  assert (V : version_named a versions = Some (Some w)).
  { unfold versions in *. cbn [In] in I. repeat destruct I as [I|I]; try contradiction; injection I as <- <-; reflexivity. }
  assert (C : forall k, conv (Some w) (mkSt n (mkData None (Some v) (AGen g)) x fs) k =
     match to_format w g with ROk b' => k (mkSt n (mkData (Some w) (Some v) (AFmt b')) x fs) | RThrow => k (mkSt n (mkData None (Some v) (AGen g)) x fs) | RUB => Undef end).
  { intros k. unfold conv, convert. cbn [s_data d_ver d_bsp d_load]. destruct (over_eq_dec None (Some w)) as [X|_]; [discriminate X|]. destruct (to_format w g); reflexivity. }
  split.
  - intros b' T S. destruct (stored _ _ _ S) as (f' & W & RA). exists (put fs (stem n ++ str "-" ++ a) (FData f')), f'.
    split; [|split; [apply put_same|split; [exact RA|split; [apply put_other; exact NE|intros m M; apply put_other; exact M]]]].
    eval_same. rewrite V, C, T. unfold write_bsp. cbn [s_data d_ver d_bsp s_x s_fs s_name]. rewrite W. reflexivity.
  - intros T. exists (put fs (stem n ++ str "-" ++ a) FBroken). split; [|split; [apply put_same|apply put_other; exact NE]].
    eval_same. rewrite V, C, T. reflexivity.
Qed.
Print Assumptions C140_convert.

Lemma rmap_throw : forall A B (f : A -> res B) h l i a r, rmap f l = ROk r -> nth_error l i = Some a -> f (h a) = RThrow -> rmap f (upd i h l) = RThrow.
Proof.
  intros A B f h l. induction l as [|y l IH]; intros i a r H N T; [destruct i; discriminate N|]. cbn [rmap] in H. destruct (f y) as [z| |] eqn:FY; cbn [rbind] in H; try discriminate H.
  destruct (rmap f l) as [q| |] eqn:FL; cbn [rbind] in H; try discriminate H. destruct i as [|i]; cbn [upd rmap nth_error] in *.
  - injection N as ->. rewrite T. reflexivity.
  - rewrite FY. cbn [rbind]. rewrite (IH i a q eq_refl N T). reflexivity.
Qed.

(** A texinfo number that the format cannot hold destroys the BSP: the failed conversion is ignored, the
    file is truncated, and only then comes the error. *)
Theorem C140_settexinfo_refuted : forall num parses n a c fs f v b x i t, Forall is_byte f -> fs n = FData f -> load_file f = ROk (v, b, x) ->
  num a = Some (Z.of_nat i) -> num c = Some t -> (i < List.length (faces_of b))%nat -> v_wide v = false -> 32767 < t <= 2147483647 \/ - 2147483648 <= t < - 32768 ->
  exists fs', bsputil num parses [str "--settexinfo"; a; c; n] fs = Stop fs' /\ fs' n = FBroken.
Proof.
  intros num parses n a c fs f v b x i t F H L NA NC I NW T.
  destruct (started num parses [str "--settexinfo"; a; c; n] n fs f v b x F H L eq_refl) as (g & G1 & G2 & R & Q).
  destruct (gen_ents v b g G1) as [_ GF]. exists (put fs n FBroken). split; [|apply put_same]. rewrite Q.
  assert (TF : to_format v (with_faces g (upd i (face_tex t) (faces_of b))) = RThrow).
  { destruct (nth_error (faces_of b) i) as [fc|] eqn:N; [|apply nth_error_None in N; lia].
    assert (FT : fmt_face v (face_tex t fc) = RThrow).
    { assert (AF : face_ok v fc = true) by (assert (AF : all (face_ok v) (faces_of b)) by (destruct b as [b|b]; cbn in R; tauto); unfold all in AF; rewrite Forall_forall in AF; apply AF; eapply nth_error_In; exact N).
      assert (T16 : numeric_cast i16 i32 t = RThrow).
      { rewrite numeric_cast_exact by (try in_ity; unfold it_in; apply andb_true_iff; split; apply Z.leb_le; cbn; lia).
        destruct (it_in i16 t) eqn:IN; [|reflexivity]. unfold it_in in IN. apply andb_true_iff in IN. destruct IN as [I1 I2]. apply Z.leb_le in I1, I2. cbn in I1, I2. lia. }
      destruct fc as [p0 s0 fe ne tx a0 a1 a2 a3 lo].
      destruct v; try discriminate NW; unfold face_ok, face_wf in AF; cbn [f_plane f_side f_fe f_ne f_s0 f_s1 f_s2 f_s3 f_lo f_tex] in AF;
        rewrite !andb_true_iff in AF; cbn [fmt_face]; unfold to_bsp29_face, to_q2_face, to_face, face_tex; cbn [f_plane f_side f_fe f_ne f_s0 f_s1 f_s2 f_s3 f_lo f_tex];
        destruct AF as [[[[[[[[[A1 A2] A3] A4] A5] A6] A7] A8] A9] A10]; clear -A1 A2 A4 T16;
        repeat match goal with
        | |- context [numeric_cast ?d ?s ?x] => rewrite (nc_ok d s x ltac:(in_ity) ltac:(in_ity) ltac:(sub) ltac:(sub)); cbn [rbind]
        end; rewrite T16; reflexivity. }
    unfold to_format in G2 |- *. destruct (is_q2 v) eqn:IQ.
    - unfold q2_of_gen in G2 |- *. cbn [with_faces g_nodes g_texinfo g_faces] in *. unfold with_faces. cbn [g_nodes g_texinfo g_faces].
      destruct (rmap (fmt_node v) (g_nodes g)); cbn [rbind] in *; try discriminate G2. destruct (rmap to_q2_tex (g_texinfo g)); cbn [rbind] in *; try discriminate G2.
      rewrite GF in G2. destruct (rmap (fmt_face v) (faces_of b)) as [r| |] eqn:RF; cbn [rbind] in *; try discriminate G2.
      rewrite (rmap_throw _ _ _ _ _ _ _ _ RF N FT). reflexivity.
    - unfold q1_of_gen in G2 |- *. unfold with_faces. cbn [g_nodes g_texinfo g_faces] in *.
      destruct (rmap (fmt_node v) (g_nodes g)); cbn [rbind] in *; try discriminate G2. destruct (rmap to_q1_tex (g_texinfo g)); cbn [rbind] in *; try discriminate G2.
      rewrite GF in G2. destruct (rmap (fmt_face v) (faces_of b)) as [r| |] eqn:RF; cbn [rbind] in *; try discriminate G2.
      rewrite (rmap_throw _ _ _ _ _ _ _ _ RF N FT). reflexivity. }
  eval_same. unfold get_gen. cbn [s_data d_bsp s_fs]. rewrite NA, NC, GF.
  destruct (0 <=? Z.of_nat i) eqn:B1; [|apply Z.leb_gt in B1; lia]. destruct (Z.of_nat i <? Z.of_nat (List.length (faces_of b))) eqn:B2; [|apply Z.ltb_ge in B2; lia].
  cbn [andb]. rewrite Nat2Z.id. unfold set_gen. cbn [s_name s_data d_ver d_load s_x s_fs]. rewrite (conv_fails _ _ _ _ _ _ TF). reflexivity.
Qed.
Print Assumptions C140_settexinfo_refuted.

(** After a command that wrote the BSP the generic form is gone: most further commands throw, another
    --replace-entities reads entities of a map that was not loaded; another --convert does not convert. *)
Theorem C140_sequence_refuted : forall num parses n a a2 fs f v b x e e2, Forall is_byte f -> fs n = FData f -> load_file f = ROk (v, b, x) ->
  fs a = FData e -> a2 <> n -> fs a2 = FData e2 -> parses e2 = true -> storable v (put_ents b e) x ->
  bsputil num parses [str "--replace-entities"; a; str "--replace-entities"; a2; n] fs = Undef /\
  (exists fs', bsputil num parses [str "--replace-entities"; a; str "--extract-entities"; n] fs = Stop fs') /\
  (exists fs', bsputil num parses [str "--replace-entities"; a; str "--modelinfo"; n] fs = Stop fs') /\
  exists fs' f', bsputil num parses [str "--replace-entities"; a; str "--convert"; str "qbism"; n] fs = Done fs' /\
    fs' (stem n ++ str "-qbism") = FData f' /\ reads_as f' v (put_ents b e) x.
Proof.
  intros num parses n a a2 fs f v b x e e2 F H L A NE A2 P S. destruct (stored _ _ _ S) as (f' & W & RA).
  assert (ST : forall rest, last rest [] = n -> rest <> [] -> (List.length rest > 1)%nat -> bsputil num parses (str "--replace-entities" :: a :: rest) fs =
     loop num parses (List.length rest + 1) rest (mkSt n (mkData (Some v) (Some v) (AFmt (put_ents b e))) x (put fs n (FData f')))).
  { intros rest LR NR LN. destruct (started num parses (str "--replace-entities" :: a :: rest) n fs f v b x F H L) as (g & G1 & G2 & R & Q).
    { destruct rest as [|r rest]; [congruence|]. exact LR. }
    rewrite Q. cbn [List.length]. cbn [loop]. rewrite same_refl. destruct rest as [|r rest]; [congruence|]. cbn [s_data d_bsp s_fs]. rewrite A. unfold set_gen. cbn [s_name s_data d_ver d_load s_x s_fs].
    rewrite (conv_back _ _ _ _ _ _ _ (edit_ents v b g e R G1)). unfold write_bsp. cbn [s_data d_ver d_bsp s_x s_fs s_name]. rewrite W. rewrite Nat.add_1_r. reflexivity. }
  split; [|split; [|split]].
  - rewrite ST by (try reflexivity; try discriminate; cbn; lia). cbn [Nat.add List.length]. cbn [loop]. rewrite same_refl. cbn [s_data d_bsp s_fs]. rewrite put_other by exact NE. rewrite A2, P. reflexivity.
  - eexists. rewrite ST by (try reflexivity; try discriminate; cbn; lia). cbn [Nat.add List.length]. eval_same. reflexivity.
  - eexists. rewrite ST by (try reflexivity; try discriminate; cbn; lia). cbn [Nat.add List.length]. eval_same. reflexivity.
  - exists (put (put fs n (FData f')) (stem n ++ str "-qbism") (FData f')), f'. rewrite ST by (try reflexivity; try discriminate; cbn; lia).
    split; [|split; [apply put_same|exact RA]].
    cbn [Nat.add List.length]. eval_same. change (version_named (str "qbism") versions) with (Some (Some VQbism)). cbv iota.
    unfold conv, convert. cbn [s_data d_ver]. destruct (over_eq_dec (Some v) (Some VQbism)); cbv iota beta; unfold write_bsp; cbn [s_data d_ver d_bsp s_x s_fs s_name]; rewrite W; reflexivity.
Qed.
Print Assumptions C140_sequence_refuted.

(** --extract-entities changes the name that later commands write to: the BSP then overwrites the extracted
    text and the source keeps its entities.  Without entities it reads about 2^32 bytes.  Two commands
    without their arguments make a path of a null pointer. *)
Theorem C140_extract_refuted : forall num parses n a fs f v b x e, Forall is_byte f -> fs n = FData f -> load_file f = ROk (v, b, x) ->
  (ents_of b = [] -> bsputil num parses [str "--extract-entities"; n] fs = Undef) /\
  bsputil num parses [str "--extract-bspx-lump"; n] fs = Undef /\ bsputil num parses [str "--insert-bspx-lump"; n] fs = Undef /\
  (ents_of b <> [] -> fs a = FData e -> a <> with_ext n (str ".ent") -> n <> with_ext n (str ".ent") -> storable v (put_ents b e) x ->
   exists fs' f', bsputil num parses [str "--extract-entities"; str "--replace-entities"; a; n] fs = Done fs' /\
     fs' n = FData f /\ fs' (with_ext n (str ".ent")) = FData f' /\ reads_as f' v (put_ents b e) x).
Proof.
  intros num parses n a fs f v b x e F H L. split; [|split; [|split]].
  - intros E. destruct (started num parses [str "--extract-entities"; n] n fs f v b x F H L eq_refl) as (g & G1 & G2 & R & ->).
    destruct (gen_ents v b g G1) as [GE _]. eval_same. unfold get_gen. cbn [s_data d_bsp]. rewrite GE, E. reflexivity.
  - destruct (started num parses [str "--extract-bspx-lump"; n] n fs f v b x F H L eq_refl) as (g & G1 & G2 & R & ->). eval_same. reflexivity.
  - destruct (started num parses [str "--insert-bspx-lump"; n] n fs f v b x F H L eq_refl) as (g & G1 & G2 & R & ->). eval_same. reflexivity.
  - intros E A N1 N2 S. destruct (stored _ _ _ S) as (f' & W & RA).
    destruct (started num parses [str "--extract-entities"; str "--replace-entities"; a; n] n fs f v b x F H L eq_refl) as (g & G1 & G2 & R & Q).
    destruct (gen_ents v b g G1) as [GE _]. set (m := with_ext n (str ".ent")) in *.
    exists (put (put fs m (FData (ents_of b))) m (FData f')), f'. rewrite Q.
    split; [|split; [rewrite !put_other by exact N2; exact H|split; [apply put_same|exact RA]]].
    eval_same. unfold get_gen. cbn [s_data d_bsp]. rewrite GE. destruct (ents_of b) as [|ch t] eqn:EB; [contradiction|]. rewrite <- EB.
    cbn [s_name s_x s_fs]. fold m. cbn [s_data d_bsp s_fs]. rewrite (put_other fs m _ a N1), A. unfold set_gen. cbn [s_name s_data d_ver d_load s_x s_fs].
    rewrite (conv_back _ _ _ _ _ _ _ (edit_ents v b g e R G1)). unfold write_bsp. cbn [s_data d_ver d_bsp s_x s_fs s_name]. rewrite W. reflexivity.
Qed.
Print Assumptions C140_extract_refuted.

(** The BSP of C70 with its lumps. *)
Example C140_nontrivial : exists f f' d,
  write_file VQ1 (B1 ex_q1) ex_x = ROk f /\
  bsputil (fun _ => None) (fun _ => true) [str "--insert-bspx-lump"; str "NEW"; str "d"; str "a.bsp"]
    (fun n => if same n (str "a.bsp") then FData f else if same n (str "d") then FData [1; 2; 3]%N else FNone) = Done d /\
  d (str "a.bsp") = FData f' /\
  (exists b, load_file f' = ROk (VQ1, b, [([82; 71; 66]%N, [9; 8; 7]%N); ([88]%N, []); (str "NEW", [1; 2; 3]%N)])) /\
  with_ext (str "a.bsp") (str ".ent") = str "a.ent" /\ stem (str "a.bsp") = str "a" /\ stem (str ".bsp") = str ".bsp".
Proof.
  destruct (write_file VQ1 (B1 ex_q1) ex_x) as [f| |] eqn:E; [|vm_compute in E; discriminate E|vm_compute in E; discriminate E].
  vm_compute in E. injection E as <-. eexists. eexists. eexists. split; [reflexivity|].
  split; [vm_compute; reflexivity|]. split; [vm_compute; reflexivity|]. split; [eexists; vm_compute; reflexivity|]. split; [reflexivity|split; reflexivity].
Qed.
