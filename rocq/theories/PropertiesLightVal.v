(* C119-C121: attenuation, angles and cones of lights; culling of lights; dirt. *)
From Coq Require Import Reals List Bool Lra Lia Psatz ZArith.
From Verif Require Import WindClipModel LightValModel LightValProofs.
Import ListNotations.
Open Scope R_scope.

(** ** C119 *)
(** A light never turns into an antilight: the value keeps the sign of "light". *)
Theorem C119_sign : forall sd e d v,
  0 <= sd -> 0 <= e_atten e -> 0 <= d -> light_value sd e d = Some v ->
  (0 <= e_light e -> 0 <= v) /\ (e_light e <= 0 -> v <= 0).
Proof. exact value_sign. Qed.
Print Assumptions C119_sign.

(** Farther away the light is never stronger. *)
Theorem C119_fades : forall sd e d1 d2 v1,
  0 <= sd -> 0 <= e_atten e -> 0 <= d1 -> d1 <= d2 -> light_value sd e d1 = Some v1 ->
  exists v2, light_value sd e d2 = Some v2 /\ Rabs v2 <= Rabs v1.
Proof. exact value_near. Qed.
Print Assumptions C119_fades.

(** The distances at which linear lights end, and the distance at which the other ones have the
    brightness of their key. *)
Theorem C119_reach : forall sd e d,
  0 <= sd -> 0 <= e_atten e -> 0 <= d -> e_light e <> 0 ->
  (e_formula e = Linear -> 0 < e_fall e -> (light_value sd e d = Some 0 <-> e_fall e <= d)) /\
  (e_formula e = Linear -> e_fall e <= 0 -> (light_value sd e d = Some 0 <-> Rabs (e_light e) <= sd * e_atten e * d)) /\
  (e_formula e = Linear -> light_value sd e 0 = Some (e_light e)) /\
  (e_formula e = Inverse \/ e_formula e = Inverse2 -> sd * e_atten e * d = 128 -> light_value sd e d = Some (e_light e)) /\
  (e_formula e = Inverse2A -> light_value sd e 0 = Some (e_light e)) /\
  (e_formula e = Infinite \/ e_formula e = LocalMin -> light_value sd e d = Some (e_light e)).
Proof.
  intros sd e d Hs Ha Hd HL. pose proof (k_nonneg _ _ _ Hs Ha Hd) as K.
  assert (Z0 : sd * e_atten e * 0 = 0) by ring.
  unfold light_value. rewrite Z0.
  set (k := sd * e_atten e * d) in *. clearbody k.
  split; [|split; [|split; [|split; [|split]]]].
  - intros -> F. destruct (Rlt_dec 0 (e_fall e)); [|lra].
    destruct (Rlt_dec d (e_fall e)); [|split; intros; [lra|reflexivity]].
    split; intros H; [|lra]. injection H as H. exfalso.
    pose proof (falloff_part d (e_fall e)). apply Rmult_integral in H. lra.
  - intros -> F. destruct (Rlt_dec 0 (e_fall e)); [lra|].
    destruct (Rlt_dec 0 (e_light e)).
    + rewrite Rabs_right by lra. destruct (Rlt_dec 0 (e_light e - k)); split; intros H; try lra; try reflexivity.
      injection H as H. lra.
    + rewrite Rabs_left1 by lra. destruct (Rlt_dec (e_light e + k) 0); split; intros H; try lra; try reflexivity.
      injection H as H. lra.
  - intros ->. destruct (Rlt_dec 0 (e_fall e)).
    + destruct (Rlt_dec 0 (e_fall e)); [|lra]. f_equal. field. lra.
    + destruct (Rlt_dec 0 (e_light e)).
      * destruct (Rlt_dec 0 (e_light e - 0)); [f_equal; ring|lra].
      * destruct (Rlt_dec (e_light e + 0) 0); [f_equal; ring|lra].
  - assert (A1 : 128 / lf_scale <> 0) by (unfold lf_scale; lra).
    assert (A2 : 128 * 128 / (lf_scale * lf_scale) <> 0) by (unfold lf_scale; lra).
    intros [-> | ->] ->; destruct (Rlt_dec 0 (e_fall e)); rewrite ndiv_def by assumption;
      f_equal; unfold lf_scale; field.
  - assert (A1 : (0 + lf_scale) * (0 + lf_scale) / (lf_scale * lf_scale) <> 0) by (unfold lf_scale; lra).
    intros ->. destruct (Rlt_dec 0 (e_fall e)); rewrite ndiv_def by assumption; f_equal; unfold lf_scale; field.
  - intros [-> | ->]; destruct (Rlt_dec 0 (e_fall e)); reflexivity.
Qed.
Print Assumptions C119_reach.

(** At the distances that samples have, values are finite, provided the key "dist" of worldspawn is not 0. *)
Theorem C119_finite : forall sd g keys mip norm p tw,
  0 < sd -> exists cd, light_contrib sd (check_fields g keys) mip norm p tw = Some cd.
Proof.
  intros sd g keys mip norm p tw Hs. pose proof (light_dir_spec (check_fields g keys) p) as D.
  destruct (light_dir (check_fields g keys) p) as [dir d] eqn:E. destruct D as (_ & _ & D).
  destruct (value_defined sd (check_fields g keys) d) as (v & Ev); [assumption| |lra|].
  - cbn. destruct (Rle_dec (e_atten keys) 0); lra.
  - apply (contrib_some _ _ mip norm p tw v). rewrite E. exact Ev.
Qed.
Print Assumptions C119_finite.

(** The setting "dist" may be 0 (light.cc:164), and then lights with delay 1 or 2 divide by 0 at every sample. *)
Theorem C119_finite_refuted : forall e d,
  e_formula e = Inverse \/ e_formula e = Inverse2 -> light_value 0 e d = None.
Proof.
  intros e d H. unfold light_value.
  assert (A1 : 0 * e_atten e * d / lf_scale = 0) by (unfold Rdiv; ring).
  assert (A2 : 0 * e_atten e * d * (0 * e_atten e * d) / (lf_scale * lf_scale) = 0) by (unfold Rdiv; ring).
  destruct H as [-> | ->]; destruct (Rlt_dec 0 (e_fall e)); unfold ndiv; rewrite ?A1, ?A2;
    destruct (Req_EM_T 0 0); congruence.
Qed.
Print Assumptions C119_finite_refuted.

(** Keys are made valid whatever the map says. *)
Theorem C119_fields : forall g keys, 0 <= g <= 1 ->
  let e := check_fields g keys in
  0 < e_atten e /\ 0 <= e_anglescale e <= 1 /\
  (0 < e_fall e -> e_formula e = Linear) /\
  (0 < e_atten keys -> e_atten e = e_atten keys) /\
  (0 <= e_anglescale keys <= 1 -> e_anglescale e = e_anglescale keys).
Proof.
  intros g k H. cbn. destruct (Rle_dec (e_atten k) 0), (Rlt_dec (e_anglescale k) 0), (Rlt_dec 1 (e_anglescale k));
    (split; [lra|split; [lra|split; [|split; lra]]]);
    (destruct (Rlt_dec 0 (e_fall k)); [|lra]); destruct (e_formula k); auto; intros; lra.
Qed.
Print Assumptions C119_fields.

(** The angle and the cone only weaken a light and never change its sign; a light behind a sample
    gives nothing unless it bleeds or the face is two-sided; a sample that faces the light and is
    in the inner cone gets all of it. *)
Theorem C119_angle : forall sd e norm dir d tw v w,
  0 <= e_anglescale e <= 1 -> len dir = 1 -> len norm = 1 ->
  light_value sd e d = Some v -> light_angle sd e norm dir d tw = Some w ->
  Rabs w <= Rabs v /\ 0 <= w * v /\
  (dot dir norm < 0 -> e_bleed e = false -> tw = false -> w = 0) /\
  (dot dir norm = 1 -> e_spot e = None -> w = v) /\
  (e_anglescale e = 0 -> 0 <= dot dir norm -> e_spot e = None -> w = v) /\
  (e_bleed e = true \/ tw = true -> light_angle sd e (scale (-1) norm) dir d tw = Some w).
Proof.
  intros sd e norm dir d tw v w Ha Hd Hn Hv Hw.
  assert (Rabs (dot dir norm) <= 1) as Hb. { pose proof (cauchy dir norm). rewrite Hd, Hn in H. lra. }
  destruct (angle_le _ _ _ _ _ _ _ _ Ha Hb Hv Hw) as (W1 & W2).
  split; [exact W1|split; [exact W2|]].
  unfold light_angle in *. rewrite Hv in *.
  split; [|split; [|split]].
  - intros Hneg Eb ->. rewrite Eb in Hw. cbn [orb] in Hw.
    destruct (Rlt_dec (dot dir norm) 0); [injection Hw; auto|lra].
  - intros E1 Es. rewrite Es in Hw. cbn [spot_scale option_map] in Hw. rewrite E1 in Hw.
    destruct (e_bleed e || tw); (destruct (Rlt_dec 1 0); [lra|]); (destruct (Rlt_dec 1 0); [lra|]) || idtac;
      injection Hw as <-; ring.
  - intros E1 Hp Es. rewrite Es, E1 in Hw. cbn [spot_scale option_map] in Hw.
    destruct (e_bleed e || tw); (destruct (Rlt_dec (dot dir norm) 0); [lra|]);
      (destruct (Rlt_dec (dot dir norm) 0); [lra|]) || idtac; injection Hw as <-; ring.
  - intros Hor. assert (Eo : e_bleed e || tw = true) by (destruct Hor as [-> | ->]; [reflexivity|apply orb_true_r]).
    rewrite Eo in *.
    assert (En : dot dir (scale (-1) norm) = - dot dir norm)
      by (unfold dot, scale; destruct dir, norm; cbn; ring).
    rewrite En. rewrite <- Hw. clear Hw W1 W2 Hb En. set (a := dot dir norm). clearbody a.
    destruct (Rlt_dec a 0) as [A|A].
    + destruct (Rlt_dec (- a) 0); [lra|]. destruct (Rlt_dec (- a) 0); [lra|]. reflexivity.
    + destruct (Rlt_dec (- a) 0) as [B|B].
      * replace (- - a) with a by ring. destruct (Rlt_dec a 0); [lra|reflexivity].
      * assert (E0 : a = 0) by lra. rewrite E0. replace (- 0) with 0 by ring. destruct (Rlt_dec 0 0); [lra|reflexivity].
Qed.
Print Assumptions C119_angle.

(** The cone of a spotlight.  th is the angle at the light between the axis and the sample
    (so the direction to the light has the product - cos th with the axis). *)
Theorem C119_cone : forall base soft axis dir th,
  0 <= base <= 360 -> 0 <= th <= PI -> dot axis dir = - cos th ->
  let s := spot_scale (Some (mkSpot axis (fst (spot_falls base soft)) (snd (spot_falls base soft)))) dir in
  (s = None <-> base / 2 * PI / 180 < th) /\
  (forall k, s = Some k -> 0 <= k <= 1) /\
  (0 < soft <= base -> th <= soft / 2 * PI / 180 -> s = Some 1) /\
  (0 < soft < base -> th = base / 2 * PI / 180 -> s = Some 0) /\
  (soft <= 0 \/ base < soft -> th <= base / 2 * PI / 180 -> s = Some 1).
Proof.
  intros base soft axis dir th Hb Ht Hd s.
  assert (P : 0 < PI) by apply PI_RGT_0.
  assert (B : 0 <= base / 2 * PI / 180 <= PI) by (split; nra).
  assert (M : forall x, 0 < x <= base -> 0 <= x / 2 * PI / 180 <= base / 2 * PI / 180) by (intros; split; nra).
  assert (Ml : forall x, 0 < x < base -> x / 2 * PI / 180 < base / 2 * PI / 180) by (intros; nra).
  unfold s, spot_scale, spot_falls. cbn [s_vec s_fall s_fall2 fst snd]. rewrite Hd.
  set (bb := base / 2 * PI / 180) in *.
  destruct (cone_iff th bb Ht B) as (C1 & C2).
  split; [|split; [|split; [|split]]].
  - destruct (Rlt_dec (- cos bb) (- cos th)); [split; auto|].
    split; [|intros; exfalso; auto]. intros H. exfalso.
    match type of H with (if ?c then _ else _) = _ => destruct c end; discriminate.
  - intros k Hk. apply (spot_scale_range (Some (mkSpot axis (fst (spot_falls base soft)) (snd (spot_falls base soft)))) dir).
    unfold spot_scale, spot_falls. cbn [s_vec s_fall s_fall2 fst snd]. rewrite Hd. exact Hk.
  - intros Hs Hth. destruct (Rle_dec soft 0); [lra|]. destruct (Rlt_dec base soft); [lra|].
    specialize (M soft Hs). set (ss := soft / 2 * PI / 180) in *.
    destruct (cone_iff th ss Ht) as (D1 & D2); [lra|].
    destruct (Rlt_dec (- cos bb) (- cos th)) as [x|x]; [apply C1 in x; lra|].
    destruct (Rlt_dec (- cos ss) (- cos th)) as [y|y]; [apply D1 in y; lra|reflexivity].
  - intros Hs Hth. destruct (Rle_dec soft 0); [lra|]. destruct (Rlt_dec base soft); [lra|].
    specialize (M soft ltac:(lra)). specialize (Ml soft Hs). set (ss := soft / 2 * PI / 180) in *. subst th.
    destruct (cone_iff bb ss B) as (D1 & D2); [lra|].
    destruct (Rlt_dec (- cos bb) (- cos bb)); [lra|].
    destruct (Rlt_dec (- cos ss) (- cos bb)) as [y|y]; [|exfalso; apply y; auto].
    f_equal. field. lra.
  - intros Hs Hth.
    destruct (Rlt_dec (- cos bb) (- cos th)) as [x|x]; [apply C1 in x; lra|].
    assert (E : (if Rle_dec soft 0 then base else if Rlt_dec base soft then base else soft) = base)
      by (destruct (Rle_dec soft 0); [reflexivity|]; destruct (Rlt_dec base soft); [reflexivity|lra]).
    rewrite E. fold bb. destruct (Rlt_dec (- cos bb) (- cos th)); [contradiction|reflexivity].
Qed.
Print Assumptions C119_cone.

Definition lamp (f : formula) (l fall : R) : light :=
  mkL l fall f 1 (1 / 2) false (mkV 0 0 0) (mkV 255 255 255) None.
Example C119_nontrivial :
  light_value 1 (lamp Linear 300 0) 100 = Some 200 /\
  light_value 1 (lamp Linear 300 400) 100 = Some 225 /\
  light_value 1 (lamp Inverse2 300 0) 256 = Some 75 /\
  light_value 1 (lamp Inverse 300 0) 256 = Some 150 /\
  light_value 1 (lamp Linear (-300) 0) 100 = Some (-200).
Proof.
  unfold light_value, lamp, lf_scale. cbn [e_fall e_formula e_light e_atten].
  destruct (Rlt_dec 0 0); [lra|]. destruct (Rlt_dec 0 400); [|lra]. destruct (Rlt_dec 100 400); [|lra].
  destruct (Rlt_dec 0 300); [|lra]. destruct (Rlt_dec 0 (-300)); [lra|].
  destruct (Rlt_dec 0 (300 - 1 * 1 * 100)); [|lra].
  destruct (Rlt_dec (-300 + 1 * 1 * 100) 0); [|lra].
  rewrite !ndiv_def by lra.
  split; [f_equal; lra|split; [f_equal; lra|split; [f_equal; lra|split; f_equal; lra]]].
Qed.

(** ** C120 *)
(** Culling a light by the bounding sphere of a surface changes nothing: every sample in the
    sphere would be skipped by the gate anyway. *)
Theorem C120_sphere : forall sd gate g keys c r samples tw dirt,
  0 <= sd -> 0 <= g <= 1 ->
  let e := check_fields g keys in
  Rabs (brightness (e_color e)) <= 255 ->
  (forall d, 0 <= dirt d <= 1) ->
  (forall p n, In (p, n) samples -> len (sub p c) <= r /\ len n = 1) ->
  cull sd gate e c r = true ->
  forall p n, In (p, n) samples -> sample_ray sd gate e None n p tw dirt = None.
Proof.
  intros sd gate g keys c r samples tw dirt Hs Hg e Hc Hd Hin H p n I0.
  destruct (Hin p n I0) as (Hp & Hn).
  destruct (C119_fields g keys Hg) as (F1 & F2 & _). fold e in F1, F2.
  destruct (cull_bright sd gate e None c r n p tw dirt 1) as (col & dist & Ec & Lb); try assumption; try lra.
  unfold sample_ray. rewrite Ec. unfold within.
  destruct (Rle_dec (Rabs (brightness (scale (dirt dist) col))) gate); [reflexivity|lra].
Qed.
Print Assumptions C120_sphere.

(** A light that projects a texture loses at most twice the gate: LightFace_SampleMipTex doubles
    the colours. *)
Theorem C120_projected : forall sd gate g keys c r p n tw dirt mip,
  0 <= sd -> 0 <= g <= 1 ->
  let e := check_fields g keys in
  let comps := fun v lo hi => lo <= vx v <= hi /\ lo <= vy v <= hi /\ lo <= vz v <= hi in
  comps (e_color e) 0 255 -> comps mip 0 510 ->
  (forall d, 0 <= dirt d <= 1) -> len (sub p c) <= r -> len n = 1 ->
  cull sd gate e c r = true ->
  forall col, sample_ray sd gate e (Some mip) n p tw dirt = Some col ->
  exists x, col = Some x /\ gate < Rabs (brightness x) <= 2 * gate.
Proof.
  intros sd gate g keys c r p n tw dirt mip Hs Hg e comps Hc Hm Hd Hp Hn H col Hcol.
  destruct (C119_fields g keys Hg) as (F1 & F2 & _). fold e in F1, F2.
  destruct (cull_bright sd gate e (Some mip) c r n p tw dirt 2) as (col' & dist & Ec & Lb); try assumption; try lra.
  { cbn beta. unfold comps in *. destruct Hc as (C1 & C2 & C3), Hm as (M1 & M2 & M3).
    unfold brightness, mulc, scale. cbn [vx vy vz].
    set (a1 := vx mip) in *. set (a2 := vy mip) in *. set (a3 := vz mip) in *.
    set (b1 := vx (e_color e)) in *. set (b2 := vy (e_color e)) in *. set (b3 := vz (e_color e)) in *.
    clearbody a1 a2 a3 b1 b2 b3.
    assert (X : forall a b, 0 <= a <= 510 -> 0 <= b <= 255 -> 0 <= a * (1 / 255 * b) <= 510) by (intros; nra).
    pose proof (X a1 b1 M1 C1). pose proof (X a2 b2 M2 C2). pose proof (X a3 b3 M3 C3).
    rewrite Rabs_right; lra. }
  unfold sample_ray in Hcol. rewrite Ec in Hcol. unfold within in Hcol.
  destruct (Rle_dec (Rabs (brightness (scale (dirt dist) col'))) gate); [discriminate|].
  injection Hcol as <-. eexists. split; [reflexivity|]. lra.
Qed.
Print Assumptions C120_projected.

Lemma len_axis x : 0 <= x -> len (mkV x 0 0) = x.
Proof. intros. unfold len, dot. cbn. replace (x * x + 0 * 0 + 0 * 0) with (x * x) by ring. apply sqrt_square. assumption. Qed.
Lemma len_axis_neg x : 0 <= x -> len (mkV (- x) 0 0) = x.
Proof. intros. unfold len, dot. cbn. replace (- x * - x + 0 * 0 + 0 * 0) with (x * x) by ring. apply sqrt_square. assumption. Qed.

(** With a projected texture, or with a colour brighter than 255, culling does drop light that the gate lets pass. *)
Definition far_lamp (col : R) : light :=
  mkL 10 0 Linear 1 1 false (mkV 0 0 0) (mkV col col col) None.
Lemma far_contrib col mip tw :
  light_contrib 1 (far_lamp col) mip (mkV (-1) 0 0) (mkV 9 0 0) tw =
  Some (scale (1 / 255) (scale 1 (match mip with None => mkV col col col | Some m => mulc m (scale (1 / 255) (mkV col col col)) end)), 9).
Proof.
  unfold light_contrib, light_dir, far_lamp. cbn [e_origin e_color].
  replace (sub (mkV 0 0 0) (mkV 9 0 0)) with (mkV (- (9)) 0 0) by (unfold sub; cbn; f_equal; ring).
  rewrite len_axis_neg by lra. destruct (Rlt_dec 9 (1 / 10)); [lra|].
  unfold normalize. rewrite len_axis_neg by lra. destruct (Req_EM_T 9 0); [lra|].
  replace (scale (/ 9) (mkV (- (9)) 0 0)) with (mkV (-1) 0 0) by (unfold scale; cbn; f_equal; field).
  unfold light_angle. cbn [e_bleed e_spot e_anglescale orb spot_scale].
  replace (dot (mkV (-1) 0 0) (mkV (-1) 0 0)) with 1 by (unfold dot; cbn; ring).
  assert (E : light_value 1 {| e_light := 10; e_fall := 0; e_formula := Linear; e_atten := 1; e_anglescale := 1;
    e_bleed := false; e_origin := mkV 0 0 0; e_color := mkV col col col; e_spot := None |} 9 = Some 1).
  { unfold light_value. cbn. destruct (Rlt_dec 0 0); [lra|]. destruct (Rlt_dec 0 10); [|lra].
    destruct (Rlt_dec 0 (10 - 1 * 1 * 9)); [|lra]. f_equal. ring. }
  rewrite E. destruct tw; (destruct (Rlt_dec 1 0); [lra|]); (destruct (Rlt_dec 1 0); [lra|]) || idtac;
    cbn [option_map]; do 4 f_equal; ring.
Qed.

Lemma far_cull col : cull 1 1 (far_lamp col) (mkV 9 0 0) 0 = true.
Proof.
  unfold cull, far_lamp. cbn [e_origin].
  replace (sub (mkV 0 0 0) (mkV 9 0 0)) with (mkV (- (9)) 0 0) by (unfold sub; cbn; f_equal; ring).
  rewrite len_axis_neg by lra. replace (9 - 0) with 9 by ring. destruct (Rlt_dec 9 0); [lra|].
  unfold light_value. cbn. destruct (Rlt_dec 0 0); [lra|]. destruct (Rlt_dec 0 10); [|lra].
  destruct (Rlt_dec 0 (10 - 1 * 1 * 9)); [|lra]. cbn.
  rewrite Rabs_right by lra. destruct (Rle_dec (10 - 1 * 1 * 9) 1); [reflexivity|lra].
Qed.

Theorem C120_sphere_refuted :
  exists sd gate e c r p n, len (sub p c) <= r /\ len n = 1 /\ cull sd gate e c r = true /\
    e_color e = mkV 255 255 255 /\
    exists mip x, (0 <= vx mip <= 510 /\ 0 <= vy mip <= 510 /\ 0 <= vz mip <= 510) /\
      sample_ray sd gate e (Some mip) n p false (fun _ => 1) = Some (Some x) /\
      brightness x = 2 * gate.
Proof.
  exists 1, 1, (far_lamp 255), (mkV 9 0 0), 0, (mkV 9 0 0), (mkV (-1) 0 0).
  assert (Z : sub (mkV 9 0 0) (mkV 9 0 0) = mkV 0 0 0) by (unfold sub; cbn; f_equal; ring).
  rewrite Z. split; [rewrite len_axis; lra|]. split.
  { replace (-1) with (- (1)) by ring. apply len_axis_neg. lra. }
  split; [apply far_cull|]. split; [reflexivity|].
  set (m := mulc (mkV 510 510 510) (scale (1 / 255) (mkV 255 255 255))).
  set (x := scale 1 (scale (1 / 255) (scale 1 m))).
  assert (EB : brightness x = 2).
  { unfold x. rewrite !brightness_scale. unfold m, brightness, mulc, scale. cbn. field. }
  exists (mkV 510 510 510), x. split; [cbn; lra|].
  unfold sample_ray. rewrite far_contrib. fold m. fold x. unfold within. rewrite EB.
  destruct (Rle_dec (Rabs 2) 1) as [L|L].
  - exfalso. rewrite Rabs_right in L by lra. lra.
  - split; [reflexivity|lra].
Qed.
Print Assumptions C120_sphere_refuted.

(** Skipping lights behind a flat one-sided face changes nothing for samples at least 0.1 in front of it. *)
Theorem C120_behind : forall sd gate e pl mip dirt samples,
  0 <= gate -> len (p_n pl) = 1 ->
  (forall p, In p samples -> 1 / 10 <= dist_to pl p) ->
  behind e pl false false = true ->
  forall p, In p samples -> sample_ray sd gate e mip (p_n pl) p false dirt = None.
Proof. intros. apply behind_zero; auto. Qed.
Print Assumptions C120_behind.

(** Closer samples do lose light: within 0.1 units the direction is replaced by "up". *)
Theorem C120_behind_refuted :
  exists sd gate e pl p, 0 < gate /\ len (p_n pl) = 1 /\ dist_to pl p = 0 /\ behind e pl false false = true /\
    exists x, sample_ray sd gate e None (p_n pl) p false (fun _ => 1) = Some (Some x) /\ 100 <= brightness x.
Proof.
  set (e := mkL 300 0 Linear 1 1 false (mkV 0 0 (- / 20)) (mkV 255 255 255) None).
  exists 1, (1 / 100), e, (mkPl (mkV 0 0 1) 0), (mkV 0 0 0).
  split; [lra|]. split.
  { unfold len, dot. cbn. replace (0 * 0 + 0 * 0 + 1 * 1) with 1 by ring. apply sqrt_1. }
  split; [unfold dist_to, dot; cbn; ring|]. split.
  { unfold behind, dist_to, dot. cbn. destruct (Rlt_dec _ 0) as [|n]; [reflexivity|lra]. }
  assert (E : light_contrib 1 e None (mkV 0 0 1) (mkV 0 0 0) false =
              Some (scale (1 / 255) (scale (300 - 1 / 10) (mkV 255 255 255)), 1 / 10)).
  { unfold light_contrib, light_dir.
    assert (L : len (sub (e_origin e) (mkV 0 0 0)) = / 20).
    { unfold e, sub, len, dot. cbn.
      replace ((0 - 0) * (0 - 0) + (0 - 0) * (0 - 0) + (- / 20 - 0) * (- / 20 - 0)) with (/ 20 * / 20) by field.
      apply sqrt_square. lra. }
    rewrite L. destruct (Rlt_dec (/ 20) (1 / 10)); [|lra].
    unfold light_angle. cbn [e_bleed e_spot e_anglescale orb spot_scale e].
    replace (dot (mkV 0 0 1) (mkV 0 0 1)) with 1 by (unfold dot; cbn; ring).
    destruct (Rlt_dec 1 0); [lra|].
    assert (V : light_value 1 e (1 / 10) = Some (300 - 1 / 10)).
    { unfold light_value, e. cbn. destruct (Rlt_dec 0 0); [lra|]. destruct (Rlt_dec 0 300); [|lra].
      destruct (Rlt_dec 0 (300 - 1 * 1 * (1 / 10))); [|lra]. f_equal. ring. }
    unfold e in *. rewrite V. cbn [option_map e_color]. do 4 f_equal. ring. }
  cbn [p_n]. unfold sample_ray. rewrite E.
  assert (B : brightness (scale 1 (scale (1 / 255) (scale (300 - 1 / 10) (mkV 255 255 255)))) = 300 - 1 / 10).
  { rewrite !brightness_scale. unfold brightness. cbn. field. }
  eexists. unfold within. rewrite B.
  destruct (Rle_dec (Rabs (300 - 1 / 10)) (1 / 100)) as [L|L].
  - exfalso. rewrite Rabs_right in L; lra.
  - split; [reflexivity|]. rewrite B. lra.
Qed.
Print Assumptions C120_behind_refuted.

(** The lamp of C120_sphere_refuted without its texture: culled, and its sample is skipped. *)
Example C120_nontrivial :
  cull 1 1 (far_lamp 255) (mkV 9 0 0) 0 = true /\ check_fields (1 / 2) (far_lamp 255) = far_lamp 255 /\
  sample_ray 1 1 (far_lamp 255) None (mkV (-1) 0 0) (mkV 9 0 0) false (fun _ => 1) = None.
Proof.
  split; [apply far_cull|]. split.
  - unfold check_fields, far_lamp. cbn. destruct (Rlt_dec 0 0); [lra|]. destruct (Rle_dec 1 0); [lra|].
    destruct (Rlt_dec 1 0); [lra|]. destruct (Rlt_dec 1 1); [lra|]. reflexivity.
  - unfold sample_ray. rewrite far_contrib, !brightness_scale. unfold within, brightness. cbn [vx vy vz].
    destruct (Rle_dec _ 1) as [|L]; [reflexivity|]. exfalso. apply L. rewrite Rabs_right; lra.
Qed.

(** ** C121 *)
(** Dirt only darkens, more occlusion darkens more, and there is less dirt closer to the light. *)
Theorem C121_range : forall c dl nodirt occ dist,
  0 <= d_scale c -> 0 <= dl_scale dl -> 0 <= dirt_scale c dl nodirt occ dist <= 1.
Proof.
  intros. unfold dirt_scale. apply dirt_range. unfold pick. destruct (Req_EM_T (dl_scale dl) 0); assumption.
Qed.
Print Assumptions C121_range.

Theorem C121_monotone : forall c dl nodirt o1 o2 d1 d2,
  0 <= d_scale c -> 0 <= dl_scale dl -> 0 <= d_gain c -> 0 <= dl_gain dl -> o1 <= o2 -> d1 <= d2 ->
  dirt_scale c dl nodirt o2 d2 <= dirt_scale c dl nodirt o1 d1.
Proof.
  intros c dl nodirt o1 o2 d1 d2 H1 H2 H3 H4 Ho Hd. unfold dirt_scale.
  assert (0 <= pick (dl_scale dl) (d_scale c)) by (unfold pick; destruct (Req_EM_T (dl_scale dl) 0); assumption).
  assert (0 <= pick (dl_gain dl) (d_gain c)) by (unfold pick; destruct (Req_EM_T (dl_gain dl) 0); assumption).
  eapply Rle_trans; [apply dirt_dist_mono with (d1 := d1); assumption|apply dirt_occ_mono; assumption].
Qed.
Print Assumptions C121_monotone.

(** Where no dirt is applied at all. *)
Theorem C121_none : forall c dl nodirt occ dist,
  d_inuse c = false \/ nodirt = true \/ dl_dirt dl = (-1)%Z \/
  (dl_dirt dl <> 1%Z /\ d_world c = false) \/ occ <= 0 \/
  (exists off on, dl_radii dl = Some (off, on) /\ dist < off) ->
  dirt_scale c dl nodirt occ dist = 1.
Proof.
  intros c dl nodirt occ dist H. unfold dirt_scale. rewrite dirt_unfold.
  destruct (d_inuse c) eqn:E1; [|reflexivity]. destruct nodirt eqn:E2; [reflexivity|]. cbn [andb negb].
  destruct (Z.eqb_spec (dl_dirt dl) (-1)); [reflexivity|].
  destruct (Z.eqb_spec (dl_dirt dl) 1).
  - destruct (Rle_dec occ 0); [reflexivity|]. destruct H as [?|[?|[?|[[? ?]|[?|(off & on & -> & Hd)]]]]]; try congruence; try lra.
    destruct (Rlt_dec dist off); lra.
  - destruct (d_world c) eqn:E3; [|reflexivity]. destruct (Rle_dec occ 0); [reflexivity|].
    destruct H as [?|[?|[?|[[? ?]|[?|(off & on & -> & Hd)]]]]]; try congruence; try lra.
    destruct (Rlt_dec dist off); lra.
Qed.
Print Assumptions C121_none.

(** Full occlusion with a scale of 1 or more leaves nothing of the light beyond the on radius. *)
Theorem C121_full : forall c dl dist,
  d_inuse c = true -> dl_dirt dl = 1%Z -> 1 <= pick (dl_scale dl) (d_scale c) ->
  (forall off on, dl_radii dl = Some (off, on) -> off <= dist /\ on <= dist) ->
  dirt_scale c dl false 1 dist = 0.
Proof.
  intros c dl dist H1 H2 H3 H4. unfold dirt_scale. rewrite H1, H2. cbn [Z.eqb andb negb Pos.eqb].
  rewrite dirt_unfold. destruct (Rle_dec 1 0); [lra|].
  assert (E : cap1 (cap1 (Rpower 1 (pick (dl_gain dl) (d_gain c))) * pick (dl_scale dl) (d_scale c)) = 1).
  { unfold Rpower. rewrite ln_1, Rmult_0_r, exp_0. unfold cap1. destruct (Rlt_dec 1 1); [lra|].
    destruct (Rlt_dec 1 (1 * pick (dl_scale dl) (d_scale c))); lra. }
  cbn zeta. rewrite E. destruct (dl_radii dl) as [[off on]|]; [|ring].
  destruct (H4 off on eq_refl). destruct (Rlt_dec dist off); [lra|]. destruct (Rlt_dec dist on); lra.
Qed.
Print Assumptions C121_full.

(** The key "dirtscale" of a light has no lower bound (entities.cc:98): a negative one makes light brighter in corners. *)
Theorem C121_range_refuted :
  exists c dl, 0 <= d_scale c /\ d_inuse c = true /\ dirt_scale c dl false 1 100 = 3.
Proof.
  exists (mkD true true 1 1), (mkDL 1 0 (-2) None). cbn [d_scale d_inuse]. split; [lra|split; [reflexivity|]].
  unfold dirt_scale. cbn [d_inuse dl_dirt dl_gain dl_scale dl_radii d_gain d_scale Z.eqb andb negb Pos.eqb]. rewrite dirt_unfold.
  destruct (Rle_dec 1 0); [lra|]. unfold pick. destruct (Req_EM_T (-2) 0); [lra|]. destruct (Req_EM_T 0 0); [|lra].
  unfold Rpower. rewrite ln_1, Rmult_0_r, exp_0. unfold cap1. destruct (Rlt_dec 1 1); [lra|].
  destruct (Rlt_dec 1 (1 * -2)); lra.
Qed.
Print Assumptions C121_range_refuted.

(** Half occlusion, halfway between the radii: a quarter of the light is taken. *)
Example C121_nontrivial : dirt_scale (mkD true false 1 1) (mkDL 1 0 0 (Some (100, 200))) false (1 / 2) 150 = 3 / 4.
Proof.
  unfold dirt_scale. cbn [d_inuse dl_dirt dl_gain dl_scale dl_radii d_gain d_scale Z.eqb andb negb Pos.eqb]. rewrite dirt_unfold.
  destruct (Rle_dec (1 / 2) 0); [lra|]. unfold pick. destruct (Req_EM_T 0 0); [|lra].
  rewrite Rpower_1 by lra. unfold cap1. destruct (Rlt_dec 1 (1 / 2)); [lra|].
  destruct (Rlt_dec 1 (1 / 2 * 1)); [lra|]. cbn zeta.
  destruct (Rlt_dec 150 100); [lra|]. destruct (Rlt_dec 150 200); [|lra].
  unfold fraction. destruct (Rle_dec 200 150); [lra|]. destruct (Rle_dec 150 100); [lra|]. field.
Qed.
