(* C122-C123: the colours and the bytes that light writes. *)
From Coq Require Import Reals List Bool Lra Lia Psatz ZArith.
From Verif Require Import NumCastModel WindClipModel LightValModel LightValProofs LightColModel LightColProofs.
Import ListNotations.
Open Scope R_scope.

(** ** C122 *)
(** With settings in their ranges, every colour ends between 0 and 255. *)
Theorem C122_range : forall maxlight s range gamma c,
  0 <= maxlight -> 0 <= s <= 1 -> 0 <= range -> 0 < gamma ->
  exists v, scale_clamp maxlight s range gamma c = Some v /\
    0 <= vx v <= 255 /\ 0 <= vy v <= 255 /\ 0 <= vz v <= 255.
Proof.
  intros ml s range gamma c H1 H2 H3 H4.
  destruct (steps ml s range gamma c H1 H2 H3 H4) as (F & -> & I0 & P & M & _).
  eexists. split; [reflexivity|].
  pose proof (vpos_nn c) as Hn. pose proof (vmap_nn F _ P Hn) as (N1 & N2 & N3).
  pose proof (vmax_map F _ I0 Hn) as E. rewrite M in E. unfold brightest in E.
  pose proof (vmax_ge (vmap F (vpos c))) as G. rewrite E in G.
  match type of E with _ = Rmin 255 ?x => pose proof (Rmin_l 255 x) end. lra.
Qed.
Print Assumptions C122_range.

(** The brightest component: cut at twice maxlight, times the range, through gamma, cut at 255.
    lightcolorscale does not change it. *)
Theorem C122_brightest : forall maxlight s range gamma c v,
  0 <= maxlight -> 0 <= s <= 1 -> 0 <= range -> 0 < gamma ->
  scale_clamp maxlight s range gamma c = Some v ->
  let m := Rmax 0 (Rmax (vx c) (Rmax (vy c) (vz c))) in
  let m1 := if Req_EM_T maxlight 0 then m else Rmin m (2 * maxlight) in
  let m2 := range * m1 in
  let m3 := if Req_EM_T gamma 1 then m2 else if Req_EM_T m2 0 then 0 else 255 * Rpower (m2 / 255) (/ gamma) in
  Rmax (vx v) (Rmax (vy v) (vz v)) = Rmin 255 m3.
Proof.
  intros ml s range gamma c v H1 H2 H3 H4 H m m1 m2 m3.
  destruct (steps ml s range gamma c H1 H2 H3 H4) as (F & E & I0 & P & M & _).
  rewrite E in H. injection H as <-.
  pose proof (vmax_map F _ I0 (vpos_nn c)) as V. unfold vmax at 1 in V. rewrite V, M.
  assert (Em : vmax (vpos c) = m).
  { unfold vmax, vpos, m. cbn. set (a := vx c). set (b := vy c). set (d := vz c). clearbody a b d.
    unfold Rmax. repeat destruct (Rle_dec _ _); lra. }
  unfold brightest. rewrite Em. unfold m3, m2, m1, gfun. replace (ml * 2) with (2 * ml) by ring.
  destruct (Req_EM_T gamma 1); [reflexivity|].
  match goal with |- context [Req_EM_T ?x 0] => match x with range * _ => destruct (Req_EM_T x 0); [reflexivity|] end end.
  f_equal. unfold Rdiv at 2. rewrite Rmult_1_l. ring.
Qed.
Print Assumptions C122_brightest.

(** The order of the components, that is the hue, is kept, and so is black. *)
Theorem C122_order : forall maxlight s range gamma c v,
  0 <= maxlight -> 0 <= s <= 1 -> 0 <= range -> 0 < gamma ->
  scale_clamp maxlight s range gamma c = Some v ->
  (vx c <= vy c -> vx v <= vy v) /\ (vy c <= vx c -> vy v <= vx v) /\
  (vx c <= vz c -> vx v <= vz v) /\ (vz c <= vx c -> vz v <= vx v) /\
  (vy c <= vz c -> vy v <= vz v) /\ (vz c <= vy c -> vz v <= vy v) /\
  (vx c <= 0 /\ vy c <= 0 /\ vz c <= 0 -> v = mkV 0 0 0).
Proof.
  intros ml s range gamma c v H1 H2 H3 H4 H.
  destruct (steps ml s range gamma c H1 H2 H3 H4) as (F & E & I0 & P & M & _).
  rewrite E in H. injection H as <-.
  assert (X : forall a b, a <= b -> F (Rmax a 0) <= F (Rmax b 0)).
  { intros a b L. apply I0; [apply Rmax_r|]. apply Rle_max_compat_r. exact L. }
  unfold vmap, vpos. cbn [vx vy vz].
  do 6 (split; [apply X|]).
  intros (Z1 & Z2 & Z3).
  assert (Em : vmax (vpos c) = 0).
  { unfold vmax, vpos. cbn. rewrite (Rmax_right (vx c) 0), (Rmax_right (vy c) 0), (Rmax_right (vz c) 0) by assumption.
    rewrite !(Rmax_right 0 0) by lra. reflexivity. }
  rewrite Em in M.
  assert (F0 : F 0 = 0).
  { rewrite M. unfold brightest.
    assert (Q : (if Req_EM_T ml 0 then 0 else Rmin 0 (ml * 2)) = 0)
      by (destruct (Req_EM_T ml 0); [reflexivity|apply Rmin_left; lra]).
    rewrite Q, Rmult_0_r, gfun_0. apply Rmin_right. lra. }
  rewrite (Rmax_right (vx c) 0), (Rmax_right (vy c) 0), (Rmax_right (vz c) 0) by assumption.
  rewrite F0. reflexivity.
Qed.
Print Assumptions C122_order.

(** Without gamma and lightcolorscale the result is a multiple of the colour, with the factor
    range unless maxlight or the limit of 255 is exceeded. *)
Theorem C122_proportional : forall maxlight range c v,
  0 <= maxlight -> 0 <= range -> scale_clamp maxlight 1 range 1 c = Some v ->
  let pos := mkV (Rmax (vx c) 0) (Rmax (vy c) 0) (Rmax (vz c) 0) in
  exists t, 0 <= t /\ v = scale t pos /\
    (maxlight = 0 \/ (vx c <= maxlight * 2 /\ vy c <= maxlight * 2 /\ vz c <= maxlight * 2) ->
     range * vx c <= 255 -> range * vy c <= 255 -> range * vz c <= 255 -> t = range).
Proof.
  intros ml range c v H1 H3 H pos.
  destruct (steps ml 1 range 1 c H1 ltac:(lra) H3 ltac:(lra)) as (F & E & I0 & P & M & _ & T).
  destruct (T eq_refl eq_refl) as (t & T0 & TF & TU).
  rewrite E in H. injection H as <-. exists t. split; [exact T0|]. split.
  - unfold vmap, scale, pos, vpos. cbn. rewrite !TF. reflexivity.
  - intros Hm R1 R2 R3.
    assert (Q : forall a, range * a <= 255 -> range * Rmax a 0 <= 255)
      by (intros a L; unfold Rmax; destruct (Rle_dec a 0); lra).
    assert (Q2 : forall a, 0 <= ml -> a <= ml * 2 -> Rmax a 0 <= ml * 2)
      by (intros a L; unfold Rmax; destruct (Rle_dec a 0); lra).
    apply TU.
    + destruct Hm as [Hm|(M1 & M2 & M3)]; [left; exact Hm|right].
      destruct (vmax_in (vpos c)) as [-> | [-> | ->]]; cbn; apply Q2; assumption.
    + destruct (vmax_in (vpos c)) as [-> | [-> | ->]]; cbn; apply Q; assumption.
Qed.
Print Assumptions C122_proportional.

(** The key lightcolorscale of a model has no bounds (light.cc:153), nor has maxlight: both can make
    colours negative, and storing those in bytes is undefined. *)
Theorem C122_range_refuted :
  (exists v, scale_clamp 0 2 1 1 (mkV 255 0 0) = Some v /\ vy v = -255 /\ lit_bytes v = RUB) /\
  (exists v, scale_clamp (-100) 1 1 1 (mkV 255 255 255) = Some v /\ vx v = -200 /\ lit_bytes v = RUB) /\
  scale_clamp (-100) 1 1 1 (mkV 0 0 0) = None.
Proof.
  assert (P1 : vpos (mkV 255 0 0) = mkV 255 0 0)
    by (unfold vpos; cbn; rewrite (Rmax_left 255 0), (Rmax_left 0 0) by lra; reflexivity).
  assert (P2 : vpos (mkV 255 255 255) = mkV 255 255 255)
    by (unfold vpos; cbn; rewrite (Rmax_left 255 0) by lra; reflexivity).
  assert (P3 : vpos (mkV 0 0 0) = mkV 0 0 0)
    by (unfold vpos; cbn; rewrite (Rmax_left 0 0) by lra; reflexivity).
  assert (V : forall a b, b <= a -> vmax (mkV a b b) = a)
    by (intros; unfold vmax; cbn; rewrite (Rmax_left b b), (Rmax_left a b) by lra; reflexivity).
  unfold scale_clamp. rewrite P1, P2, P3. unfold apply_maxlight. rewrite !V by lra.
  destruct (Req_EM_T 0 0); [|lra]. destruct (Req_EM_T (-100) 0); [lra|].
  destruct (Rlt_dec (-100 * 2) 255); [|lra]. destruct (Req_EM_T 255 0); [lra|].
  destruct (Rlt_dec (-100 * 2) 0); [|lra]. split; [|split; [|reflexivity]].
  - unfold apply_colorscale. destruct (Req_EM_T 2 1); [lra|]. rewrite V by lra.
    unfold apply_gamma. destruct (Req_EM_T 1 1); [|lra].
    replace (scale 1 (mix (mkV 255 255 255) (mkV 255 0 0) 2)) with (mkV 255 (-255) (-255))
      by (unfold scale, mix, add; cbn; f_equal; ring).
    unfold apply_clamp. rewrite V by lra. destruct (Rlt_dec 255 255); [lra|].
    eexists. split; [reflexivity|]. split; [reflexivity|].
    unfold lit_bytes. cbn [vx vy vz]. destruct (to_byte_ok 255) as (-> & _); [lra|]. cbn [rbind].
    rewrite to_byte_neg by lra. reflexivity.
  - unfold apply_colorscale. destruct (Req_EM_T 1 1); [|lra].
    unfold apply_gamma. destruct (Req_EM_T 1 1); [|lra].
    replace (scale 1 (scale (-100 * 2 / 255) (mkV 255 255 255))) with (mkV (-200) (-200) (-200))
      by (unfold scale; cbn; f_equal; field).
    unfold apply_clamp. rewrite V by lra. destruct (Rlt_dec 255 (-200)); [lra|].
    eexists. split; [reflexivity|]. split; [reflexivity|].
    unfold lit_bytes. cbn [vx vy vz]. rewrite to_byte_neg by lra. reflexivity.
Qed.
Print Assumptions C122_range_refuted.

(** A bright orange light with the default range of 0.5: (800, 400, -5) becomes (255, 127.5, 0). *)
Example C122_nontrivial : scale_clamp 0 1 (1 / 2) 1 (mkV 800 400 (-5)) = Some (mkV 255 (255 / 2) 0).
Proof.
  unfold scale_clamp, vpos. cbn [vx vy vz].
  rewrite (Rmax_left 800 0), (Rmax_left 400 0), (Rmax_right (-5) 0) by lra.
  unfold apply_maxlight. destruct (Req_EM_T 0 0); [|lra]. unfold apply_colorscale, apply_gamma.
  destruct (Req_EM_T 1 1); [|lra].
  replace (scale (1 / 2) (mkV 800 400 0)) with (mkV 400 200 0) by (unfold scale; cbn; f_equal; field).
  unfold apply_clamp.
  assert (V : vmax (mkV 400 200 0) = 400) by (unfold vmax; cbn; rewrite (Rmax_left 200 0), (Rmax_left 400 200) by lra; reflexivity).
  rewrite V. destruct (Rlt_dec 255 400); [|lra]. unfold scale. cbn. do 2 f_equal; field.
Qed.

(** ** C123 *)
(** The bytes of a luxel: those of the .lit file are the colours rounded down, and the byte in the
    .bsp is the largest of them.  The colour is the average of any colours between 0 and 255. *)
Theorem C123_luxel : forall samples,
  samples <> [] -> (forall c, In c samples -> 0 <= vx c <= 255 /\ 0 <= vy c <= 255 /\ 0 <= vz c <= 255) ->
  let c := average samples in
  exists r g b, lit_bytes c = ROk (r, g, b) /\ bsp_byte c = ROk (Z.max r (Z.max g b)) /\
    (0 <= r <= 255 /\ 0 <= g <= 255 /\ 0 <= b <= 255)%Z /\
    IZR r <= vx c < IZR r + 1 /\ IZR g <= vy c < IZR g + 1 /\ IZR b <= vz c < IZR b + 1.
Proof.
  intros l Hl H c. pose proof (average_in l Hl H) as A. fold c in A.
  destruct (luxel_ok c A) as (r & g & b & E1 & E2 & B & -> & -> & ->). destruct A as (A1 & A2 & A3).
  exists (trunc (vx c)), (trunc (vy c)), (trunc (vz c)).
  split; [exact E1|split; [exact E2|split; [exact B|]]].
  split; [apply trunc_nonneg; lra|split; apply trunc_nonneg; lra].
Qed.
Print Assumptions C123_luxel.

(** The bytes of the .lux file are bytes whatever the direction is, and decode to the direction of
    length 1 up to 1/128. *)
Theorem C123_lux : forall sn tn n dir,
  let '(a, b, c) := lux_bytes sn tn n dir in
  let t := mkV (dot dir sn) (dot dir tn) (dot dir n) in
  (0 <= a <= 255 /\ 0 <= b <= 255 /\ 0 <= c <= 255)%Z /\
  (len t = 0 -> (a, b, c) = (128, 128, 255)%Z) /\
  (len t <> 0 ->
    vx t / len t - 1 / 128 <= IZR a / 128 - 1 <= vx t / len t /\
    vy t / len t - 1 / 128 <= IZR b / 128 - 1 <= vy t / len t /\
    vz t / len t - 1 / 128 <= IZR c / 128 - 1 <= vz t / len t).
Proof.
  intros sn tn n dir. unfold lux_bytes. set (t := mkV (dot dir sn) (dot dir tn) (dot dir n)). clearbody t.
  destruct (Req_EM_T (len t) 0) as [E|E].
  - cbn [vx vy vz].
    assert (A0 : lux_byte 0 = 128%Z).
    { unfold lux_byte. rewrite (trunc_unique 128) by lra. reflexivity. }
    assert (A1 : lux_byte 1 = 255%Z).
    { unfold lux_byte. rewrite (trunc_unique 256) by lra. reflexivity. }
    rewrite A0, A1. split; [lia|]. split; [reflexivity|lra].
  - pose proof (comp_le_len (normalize t)) as (C1 & C2 & C3). rewrite len_normalize in C1, C2, C3 by assumption.
    assert (K : forall x, Rabs x <= 1 -> -1 <= x <= 1) by (intros x; unfold Rabs; destruct (Rcase_abs x); lra).
    destruct (lux_byte_ok _ (K _ C1)) as (B1 & D1). destruct (lux_byte_ok _ (K _ C2)) as (B2 & D2).
    destruct (lux_byte_ok _ (K _ C3)) as (B3 & D3).
    split; [auto|]. split; [intros; contradiction|]. intros _.
    assert (X : vx (normalize t) = vx t / len t /\ vy (normalize t) = vy t / len t /\ vz (normalize t) = vz t / len t).
    { unfold normalize. destruct (Req_EM_T (len t) 0); [contradiction|]. unfold scale. cbn. unfold Rdiv.
      split; [ring|split; ring]. }
    destruct X as (X1 & X2 & X3). rewrite X1 in *. rewrite X2 in *. rewrite X3 in *.
    replace (1 / 128) with (/ 128) by field. auto.
Qed.
Print Assumptions C123_lux.

(** A luxel that a decoupled lightmap gives to the ordinary one has valid bytes in the .lit file at
    positions that are not negative. *)
Theorem C123_decoupled_partial : forall im w h x y,
  (forall a b, 0 <= vx (im a b) <= 255 /\ 0 <= vy (im a b) <= 255 /\ 0 <= vz (im a b) <= 255) ->
  0 <= x -> 0 <= y ->
  exists r g b, decoupled_lit im w h x y = ROk (r, g, b) /\ (0 <= r <= 255 /\ 0 <= g <= 255 /\ 0 <= b <= 255)%Z.
Proof.
  intros im w h x y H Hx Hy.
  pose proof (trunc_nonneg x Hx). pose proof (trunc_nonneg y Hy).
  assert (A : in_byte (bilinear im w h x y)).
  { unfold bilinear. apply mix_in; [lra| |]; (apply mix_in; [lra| |]); apply H. }
  destruct (luxel_ok _ A) as (r & g & b & E1 & _ & B & _). exists r, g, b. split; [exact E1|exact B].
Qed.
Print Assumptions C123_decoupled_partial.

(** The colour at a position that is not negative is the mean of the samples at the four corners of its
    cell, weighted by the areas opposite to them; corners outside of the image are moved to its border. *)
Theorem C123_bilinear : forall im w h i j u v, (0 <= i)%Z -> (0 <= j)%Z -> (1 <= w)%Z -> (1 <= h)%Z -> 0 <= u < 1 -> 0 <= v < 1 ->
  let at_ a b := im (if (a <? w)%Z then a else (w - 1)%Z) (if (b <? h)%Z then b else (h - 1)%Z) in
  forall c, c = vx \/ c = vy \/ c = vz ->
  c (bilinear im w h (IZR i + u) (IZR j + v)) =
    (1 - u) * (1 - v) * c (at_ i j) + u * (1 - v) * c (at_ (i + 1)%Z j) +
    (1 - u) * v * c (at_ i (j + 1)%Z) + u * v * c (at_ (i + 1)%Z (j + 1)%Z).
Proof.
  intros im w h i j u v I J W H U V at_ c C. unfold bilinear.
  assert (P : 0 <= IZR i) by (apply IZR_le; exact I). assert (Q : 0 <= IZR j) by (apply IZR_le; exact J).
  rewrite (trunc_unique i), (trunc_unique j) by lra.
  assert (T : forall a b, (0 <= a)%Z -> (0 <= b)%Z -> tex im w h a b = at_ a b).
  { intros a b A B. unfold tex, at_. f_equal; [destruct (Z.ltb_spec a w)|destruct (Z.ltb_spec b h)]; lia. }
  rewrite !T by lia. replace (IZR i + u - IZR i) with u by ring. replace (IZR j + v - IZR j) with v by ring.
  unfold mix, add, scale. destruct C as [->|[->| ->]]; cbn [vx vy vz]; ring.
Qed.
Print Assumptions C123_bilinear.

(** At a position between -1 and 0, which occurs because the ordinary lightmap starts at a multiple
    of 16 units, truncation makes the fraction negative: the colour is extrapolated out of the range
    of bytes.  And the byte of the .bsp is always 0, while that of the .lit file is not. *)
Theorem C123_decoupled_refuted :
  (exists im x, (forall a b, 0 <= vx (im a b) <= 255 /\ 0 <= vy (im a b) <= 255 /\ 0 <= vz (im a b) <= 255) /\
     -1 < x < 0 /\ decoupled_lit im 2 2 x 0 = RUB) /\
  (exists im, (forall a b, 0 <= vx (im a b) <= 255 /\ 0 <= vy (im a b) <= 255 /\ 0 <= vz (im a b) <= 255) /\
     decoupled_lit im 2 2 0 0 = ROk (200, 100, 50)%Z /\ decoupled_bsp im 2 2 0 0 = 0%Z).
Proof.
  split.
  - exists (fun a _ => if (a =? 0)%Z then mkV 255 255 255 else mkV 0 0 0), (- (9 / 10)).
    split; [intros a b; destruct (a =? 0)%Z; cbn; lra|]. split; [lra|].
    unfold decoupled_lit, bilinear.
    assert (T1 : trunc (- (9 / 10)) = 0%Z).
    { unfold trunc. destruct (Rlt_dec (- (9 / 10)) 0); [|lra]. rewrite (int_unique 0) by lra. reflexivity. }
    assert (T2 : trunc 0 = 0%Z) by (apply trunc_unique; lra).
    rewrite T1, T2. unfold tex. cbn [Z.add Z.sub Z.min Z.max Z.compare Z.eqb Z.opp Z.pos_sub Pos.add Pos.compare Pos.compare_cont].
    match goal with |- lit_bytes ?v = _ => assert (E : vx v = 969 / 2) end.
    { unfold mix, add, scale. cbn. field. }
    unfold lit_bytes. rewrite E, to_byte_big by lra. reflexivity.
  - exists (fun _ _ => mkV 200 100 50). split; [intros; cbn; lra|]. split; [|reflexivity].
    unfold decoupled_lit, bilinear.
    assert (T2 : trunc 0 = 0%Z) by (apply trunc_unique; lra). rewrite T2. unfold tex.
    replace (mix _ _ _) with (mkV 200 100 50) by (unfold mix, add, scale; cbn; f_equal; ring).
    unfold lit_bytes, to_byte. cbn [vx vy vz]. rewrite (trunc_unique 200), (trunc_unique 100), (trunc_unique 50) by lra. reflexivity.
Qed.
Print Assumptions C123_decoupled_refuted.

(** Two samples of a luxel; the direction (1, 0, 0) in the .lux file. *)
Example C123_nontrivial :
  lit_bytes (average [mkV 255 10 0; mkV 100 11 1]) = ROk (177, 10, 0)%Z /\
  bsp_byte (average [mkV 255 10 0; mkV 100 11 1]) = ROk 177%Z /\
  lux_bytes (mkV 1 0 0) (mkV 0 1 0) (mkV 0 0 1) (mkV 2 0 0) = (255, 128, 128)%Z.
Proof.
  assert (E : average [mkV 255 10 0; mkV 100 11 1] = mkV (355 / 2) (21 / 2) (1 / 2)).
  { unfold average, vsum, scale, add. cbn. f_equal; field. }
  rewrite E. split; [|split].
  - unfold lit_bytes, to_byte. cbn [vx vy vz]. rewrite (trunc_unique 177), (trunc_unique 10), (trunc_unique 0) by lra. reflexivity.
  - unfold bsp_byte, vmax. cbn [vx vy vz]. rewrite (Rmax_left (21 / 2) (1 / 2)), (Rmax_left (355 / 2) (21 / 2)) by lra.
    destruct (Rlt_dec (355 / 2) 0); [lra|]. destruct (Rlt_dec 255 (355 / 2)); [lra|].
    unfold to_byte. rewrite (trunc_unique 177) by lra. reflexivity.
  - unfold lux_bytes.
    replace (mkV (dot (mkV 2 0 0) (mkV 1 0 0)) (dot (mkV 2 0 0) (mkV 0 1 0)) (dot (mkV 2 0 0) (mkV 0 0 1))) with (mkV 2 0 0)
      by (unfold dot; cbn; f_equal; ring).
    assert (L : len (mkV 2 0 0) = 2).
    { unfold len, dot. cbn. replace (2 * 2 + 0 * 0 + 0 * 0) with (2 * 2) by ring. apply sqrt_square. lra. }
    rewrite L. destruct (Req_EM_T 2 0); [lra|]. unfold normalize. rewrite L. destruct (Req_EM_T 2 0); [lra|].
    unfold scale. cbn [vx vy vz].
    replace (/ 2 * 2) with 1 by field. replace (/ 2 * 0) with 0 by ring.
    unfold lux_byte. rewrite (trunc_unique 256), (trunc_unique 128) by lra. reflexivity.
Qed.
