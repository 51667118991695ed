(* Lemmas about LightValModel. *)
From Coq Require Import Reals List Bool Lra Lia Psatz ZArith.
From Verif Require Import WindClipModel LightValModel.
Import ListNotations.
Open Scope R_scope.

(** * Lengths *)
Lemma dot_self_nonneg a : 0 <= dot a a. Proof. unfold dot. nra. Qed.
Lemma len_nonneg a : 0 <= len a. Proof. apply sqrt_pos. Qed.
Lemma len_sq a : len a * len a = dot a a. Proof. apply sqrt_sqrt, dot_self_nonneg. Qed.

Lemma cauchy_sq a b : dot a b * dot a b <= dot a a * dot b b.
Proof.
  unfold dot. destruct a as [a1 a2 a3], b as [b1 b2 b3]; cbn.
  pose proof (Rle_0_sqr (a1 * b2 - a2 * b1)) as Q12; unfold Rsqr in *.
  pose proof (Rle_0_sqr (a1 * b3 - a3 * b1)) as Q13; unfold Rsqr in *.
  pose proof (Rle_0_sqr (a2 * b3 - a3 * b2)) as Q23; unfold Rsqr in *.
  nra.
Qed.

Lemma sq_le a b : 0 <= b -> a * a <= b * b -> a <= b.
Proof. intros. nra. Qed.
Lemma sq_abs_le a b : 0 <= b -> a * a <= b * b -> Rabs a <= b.
Proof. intros. unfold Rabs. destruct (Rcase_abs a); nra. Qed.

Lemma cauchy a b : Rabs (dot a b) <= len a * len b.
Proof.
  apply sq_abs_le.
  - apply Rmult_le_pos; apply len_nonneg.
  - replace (len a * len b * (len a * len b)) with ((len a * len a) * (len b * len b)) by ring.
    rewrite !len_sq. apply cauchy_sq.
Qed.

Lemma dot_len_le a b : dot a b <= len a * len b.
Proof. pose proof (cauchy a b). pose proof (Rle_abs (dot a b)). lra. Qed.

Lemma triangle o p c : len (sub o c) <= len (sub o p) + len (sub p c).
Proof.
  pose proof (len_nonneg (sub o p)). pose proof (len_nonneg (sub p c)).
  apply sq_le; [lra|].
  rewrite len_sq.
  replace ((len (sub o p) + len (sub p c)) * (len (sub o p) + len (sub p c)))
    with (len (sub o p) * len (sub o p) + len (sub p c) * len (sub p c) + 2 * (len (sub o p) * len (sub p c))) by ring.
  rewrite !len_sq.
  pose proof (dot_len_le (sub o p) (sub p c)).
  assert (dot (sub o c) (sub o c) =
          dot (sub o p) (sub o p) + dot (sub p c) (sub p c) + 2 * dot (sub o p) (sub p c))
    by (unfold dot, sub; destruct o, p, c; cbn; ring).
  lra.
Qed.

Lemma dot_scale_l k a b : dot (scale k a) b = k * dot a b.
Proof. unfold dot, scale; destruct a, b; cbn; ring. Qed.

Lemma len_normalize a : len a <> 0 -> len (normalize a) = 1.
Proof.
  intros H. unfold normalize. destruct (Req_EM_T (len a) 0); [contradiction|].
  unfold len at 1. rewrite dot_scale_l.
  replace (dot a (scale (/ len a) a)) with (/ len a * (len a * len a))
    by (rewrite len_sq; unfold dot, scale; destruct a; cbn; ring).
  replace (/ len a * (/ len a * (len a * len a))) with 1 by (field; auto).
  apply sqrt_1.
Qed.

(** * The value at a distance *)
Lemma k_nonneg sd a d : 0 <= sd -> 0 <= a -> 0 <= d -> 0 <= sd * a * d.
Proof. intros. apply Rmult_le_pos; [apply Rmult_le_pos|]; assumption. Qed.

Lemma ndiv_some a b v : ndiv a b = Some v -> b <> 0 /\ v = a / b.
Proof. unfold ndiv. destruct (Req_EM_T b 0); intros H; [discriminate|injection H as <-; auto]. Qed.
Lemma ndiv_def a b : b <> 0 -> ndiv a b = Some (a / b).
Proof. intros. unfold ndiv. destruct (Req_EM_T b 0); [contradiction|reflexivity]. Qed.

Lemma div_nonneg a b : 0 <= a -> 0 < b -> 0 <= a / b.
Proof. intros. apply Rmult_le_pos; [lra|]. left. apply Rinv_0_lt_compat; lra. Qed.
Lemma div_nonpos a b : a <= 0 -> 0 < b -> a / b <= 0.
Proof. intros. replace (a / b) with (- (- a / b)) by (field; lra). pose proof (div_nonneg (- a) b). lra. Qed.

Lemma abs_div_le a b1 b2 : 0 < b1 -> b1 <= b2 -> Rabs (a / b2) <= Rabs (a / b1).
Proof.
  intros. unfold Rdiv. rewrite !Rabs_mult. apply Rmult_le_compat_l; [apply Rabs_pos|].
  rewrite !Rabs_right.
  - apply Rinv_le_contravar; lra.
  - left. apply Rinv_0_lt_compat; lra.
  - left. apply Rinv_0_lt_compat; lra.
Qed.

Lemma sq_pos x : x <> 0 -> 0 < x * x.
Proof. intros. nra. Qed.

Lemma divs_pos x y : 0 < x -> 0 < y -> 0 < x / y.
Proof. intros. apply Rmult_lt_0_compat; [assumption|]. apply Rinv_0_lt_compat; assumption. Qed.

Lemma divs_le x y z : x <= y -> 0 < z -> x / z <= y / z.
Proof. intros. apply Rmult_le_compat_r; [left; apply Rinv_0_lt_compat; lra|assumption]. Qed.

Lemma divs_nz x y : x / y <> 0 -> x <> 0.
Proof. intros H E. subst. apply H. unfold Rdiv. ring. Qed.

Lemma falloff_part d f : 0 < f -> d < f -> 0 <= d -> 0 < 1 - d / f <= 1.
Proof.
  intros. replace (1 - d / f) with ((f - d) / f) by (field; lra). split.
  - apply divs_pos; lra.
  - replace ((f - d) / f) with (1 - d / f) by (field; lra). pose proof (div_nonneg d f). lra.
Qed.

Lemma value_sign sd e d v :
  0 <= sd -> 0 <= e_atten e -> 0 <= d -> light_value sd e d = Some v ->
  (0 <= e_light e -> 0 <= v) /\ (e_light e <= 0 -> v <= 0).
Proof.
  intros Hs Ha Hd H. unfold light_value in H. pose proof (k_nonneg _ _ _ Hs Ha Hd) as K.
  set (k := sd * e_atten e * d) in *. clearbody k.
  assert (L0 : 0 < lf_scale) by (unfold lf_scale; lra).
  destruct (Rlt_dec 0 (e_fall e)) as [F|F].
  - destruct (e_formula e).
    1:{ destruct (Rlt_dec d (e_fall e)); injection H as <-; [|lra].
        pose proof (falloff_part d (e_fall e)). split; intros; nra. }
    all: first [apply ndiv_some in H; destruct H as [N0 ->]; apply divs_nz in N0 as N1
               | injection H as <-]; try lra.
    + split; intros; [apply div_nonneg|apply div_nonpos]; auto; apply divs_pos; lra.
    + split; intros; [apply div_nonneg|apply div_nonpos]; auto; apply divs_pos; nra.
    + split; intros; [apply div_nonneg|apply div_nonpos]; auto; apply divs_pos; nra.
  - destruct (e_formula e).
    1:{ destruct (Rlt_dec 0 (e_light e)); injection H as <-.
        - destruct (Rlt_dec 0 (e_light e - k)); lra.
        - destruct (Rlt_dec (e_light e + k) 0); lra. }
    all: first [apply ndiv_some in H; destruct H as [N0 ->]; apply divs_nz in N0 as N1
               | injection H as <-]; try lra.
    + split; intros; [apply div_nonneg|apply div_nonpos]; auto; apply divs_pos; lra.
    + split; intros; [apply div_nonneg|apply div_nonpos]; auto; apply divs_pos; nra.
    + split; intros; [apply div_nonneg|apply div_nonpos]; auto; apply divs_pos; nra.
Qed.

Lemma abs_le_nonneg a b : 0 <= a <= b -> Rabs a <= Rabs b.
Proof. intros. rewrite !Rabs_right; lra. Qed.
Lemma abs_le_nonpos a b : b <= a <= 0 -> Rabs a <= Rabs b.
Proof. intros. rewrite !Rabs_left1; lra. Qed.

Lemma value_near sd e d1 d2 v1 :
  0 <= sd -> 0 <= e_atten e -> 0 <= d1 -> d1 <= d2 -> light_value sd e d1 = Some v1 ->
  exists v2, light_value sd e d2 = Some v2 /\ Rabs v2 <= Rabs v1.
Proof.
  intros Hs Ha Hd Hle H. unfold light_value in *.
  assert (K1 : 0 <= sd * e_atten e * d1) by (apply k_nonneg; assumption).
  assert (K2 : sd * e_atten e * d1 <= sd * e_atten e * d2).
  { apply Rmult_le_compat_l; [|assumption]. apply Rmult_le_pos; assumption. }
  set (k1 := sd * e_atten e * d1) in *. set (k2 := sd * e_atten e * d2) in *. clearbody k1 k2.
  assert (L0 : 0 < lf_scale) by (unfold lf_scale; lra).
  assert (G : forall f : formula, match f with Linear => False | _ => True end ->
    match f with
    | Infinite | LocalMin => Some (e_light e)
    | Inverse => ndiv (e_light e) (k1 / lf_scale)
    | Inverse2A => ndiv (e_light e) ((k1 + lf_scale) * (k1 + lf_scale) / (lf_scale * lf_scale))
    | Inverse2 => ndiv (e_light e) (k1 * k1 / (lf_scale * lf_scale))
    | Linear => None
    end = Some v1 -> exists v2,
    match f with
    | Infinite | LocalMin => Some (e_light e)
    | Inverse => ndiv (e_light e) (k2 / lf_scale)
    | Inverse2A => ndiv (e_light e) ((k2 + lf_scale) * (k2 + lf_scale) / (lf_scale * lf_scale))
    | Inverse2 => ndiv (e_light e) (k2 * k2 / (lf_scale * lf_scale))
    | Linear => None
    end = Some v2 /\ Rabs v2 <= Rabs v1).
  { intros f Hf E. destruct f; try contradiction.
    - apply ndiv_some in E. destruct E as [N0 ->]. apply divs_nz in N0 as N1.
      assert (0 < k1 / lf_scale) by (apply divs_pos; lra).
      assert (k1 / lf_scale <= k2 / lf_scale) by (apply divs_le; lra).
      rewrite ndiv_def by lra. eexists. split; [reflexivity|]. apply abs_div_le; lra.
    - apply ndiv_some in E. destruct E as [N0 ->]. apply divs_nz in N0 as N1.
      assert (0 < lf_scale * lf_scale) by nra.
      assert (0 < k1 * k1 / (lf_scale * lf_scale)) by (apply divs_pos; nra).
      assert (k1 * k1 / (lf_scale * lf_scale) <= k2 * k2 / (lf_scale * lf_scale)) by (apply divs_le; nra).
      rewrite ndiv_def by lra. eexists. split; [reflexivity|]. apply abs_div_le; lra.
    - injection E as <-. eexists. split; [reflexivity|lra].
    - injection E as <-. eexists. split; [reflexivity|lra].
    - apply ndiv_some in E. destruct E as [N0 ->]. apply divs_nz in N0 as N1.
      assert (0 < lf_scale * lf_scale) by nra.
      assert (0 < (k1 + lf_scale) * (k1 + lf_scale) / (lf_scale * lf_scale)) by (apply divs_pos; nra).
      assert ((k1 + lf_scale) * (k1 + lf_scale) / (lf_scale * lf_scale) <= (k2 + lf_scale) * (k2 + lf_scale) / (lf_scale * lf_scale))
        by (apply divs_le; nra).
      rewrite ndiv_def by lra. eexists. split; [reflexivity|]. apply abs_div_le; lra. }
  destruct (Rlt_dec 0 (e_fall e)) as [F|F].
  - destruct (e_formula e) eqn:Ef;
      [|exact (G Inverse I H)|exact (G Inverse2 I H)|exact (G Infinite I H)|exact (G LocalMin I H)|exact (G Inverse2A I H)].
    destruct (Rlt_dec d2 (e_fall e)) as [D2|D2].
    + destruct (Rlt_dec d1 (e_fall e)); [|lra]. injection H as <-.
      eexists. split; [reflexivity|]. rewrite !Rabs_mult. apply Rmult_le_compat_l; [apply Rabs_pos|].
      pose proof (falloff_part d1 (e_fall e)). pose proof (falloff_part d2 (e_fall e)).
      assert (d1 / e_fall e <= d2 / e_fall e) by (apply divs_le; lra).
      apply abs_le_nonneg. lra.
    + eexists. split; [reflexivity|]. rewrite Rabs_R0. apply Rabs_pos.
  - destruct (e_formula e) eqn:Ef;
      [|exact (G Inverse I H)|exact (G Inverse2 I H)|exact (G Infinite I H)|exact (G LocalMin I H)|exact (G Inverse2A I H)].
    destruct (Rlt_dec 0 (e_light e)); injection H as <-; eexists; (split; [reflexivity|]).
    + apply abs_le_nonneg. destruct (Rlt_dec 0 (e_light e - k2)), (Rlt_dec 0 (e_light e - k1)); lra.
    + apply abs_le_nonpos. destruct (Rlt_dec (e_light e + k2) 0), (Rlt_dec (e_light e + k1) 0); lra.
Qed.

Lemma value_defined sd e d : 0 < sd -> 0 < e_atten e -> 0 < d -> exists v, light_value sd e d = Some v.
Proof.
  intros Hs Ha Hd. unfold light_value.
  assert (K : 0 < sd * e_atten e * d) by (apply Rmult_lt_0_compat; [apply Rmult_lt_0_compat|]; assumption).
  set (k := sd * e_atten e * d) in *. clearbody k.
  assert (L0 : 0 < lf_scale) by (unfold lf_scale; lra).
  assert (L1 : 0 < lf_scale * lf_scale) by nra.
  assert (A1 : k / lf_scale <> 0) by (apply Rgt_not_eq, divs_pos; lra).
  assert (A2 : k * k / (lf_scale * lf_scale) <> 0) by (apply Rgt_not_eq, divs_pos; nra).
  assert (A3 : (k + lf_scale) * (k + lf_scale) / (lf_scale * lf_scale) <> 0) by (apply Rgt_not_eq, divs_pos; nra).
  destruct (Rlt_dec 0 (e_fall e)); destruct (e_formula e);
    try (eexists; reflexivity); try (rewrite ndiv_def by assumption; eexists; reflexivity).
  - destruct (Rlt_dec d (e_fall e)); eexists; reflexivity.
  - destruct (Rlt_dec 0 (e_light e)); eexists; reflexivity.
Qed.

(** * Angles and cones *)
Lemma spot_scale_range sp dir s : spot_scale sp dir = Some s -> 0 <= s <= 1.
Proof.
  unfold spot_scale. destruct sp as [s0|]; [|intros H; injection H as <-; lra].
  destruct (Rlt_dec (s_fall s0) (dot (s_vec s0) dir)); [discriminate|].
  destruct (Rlt_dec (s_fall2 s0) (dot (s_vec s0) dir)); intros H; injection H as <-; [|lra].
  set (f := dot (s_vec s0) dir) in *.
  assert (P : 0 < s_fall s0 - s_fall2 s0) by lra.
  replace (1 - (f - s_fall2 s0) / (s_fall s0 - s_fall2 s0)) with ((s_fall s0 - f) / (s_fall s0 - s_fall2 s0)) by (field; lra).
  split; [apply div_nonneg; lra|].
  replace ((s_fall s0 - f) / (s_fall s0 - s_fall2 s0)) with (1 - (f - s_fall2 s0) / (s_fall s0 - s_fall2 s0)) by (field; lra).
  pose proof (div_nonneg (f - s_fall2 s0) (s_fall s0 - s_fall2 s0)). lra.
Qed.

Lemma angle_le sd e norm dir d tw v w :
  0 <= e_anglescale e <= 1 -> Rabs (dot dir norm) <= 1 ->
  light_value sd e d = Some v -> light_angle sd e norm dir d tw = Some w ->
  Rabs w <= Rabs v /\ 0 <= w * v.
Proof.
  intros Hs Hdot Hv H. unfold light_angle in H.
  set (a0 := dot dir norm) in *.
  set (a := if e_bleed e || tw then (if Rlt_dec a0 0 then - a0 else a0) else a0) in *.
  assert (Ha : -1 <= a <= 1).
  { assert (-1 <= a0 <= 1) by (unfold Rabs in Hdot; destruct (Rcase_abs a0); lra).
    unfold a. destruct (e_bleed e || tw); [destruct (Rlt_dec a0 0)|]; lra. }
  destruct (Rlt_dec a 0). { injection H as <-. rewrite Rabs_R0. split; [apply Rabs_pos|lra]. }
  destruct (spot_scale (e_spot e) dir) as [ss|] eqn:Es.
  2:{ injection H as <-. rewrite Rabs_R0. split; [apply Rabs_pos|lra]. }
  apply spot_scale_range in Es. rewrite Hv in H. cbn in H. injection H as <-.
  set (f := 1 - e_anglescale e + e_anglescale e * a).
  assert (F : 0 <= f <= 1) by (unfold f; nra).
  assert (G : 0 <= f * ss <= 1) by nra.
  replace (v * f * ss) with (v * (f * ss)) by ring.
  split.
  - rewrite Rabs_mult. rewrite (Rabs_right (f * ss)) by lra. pose proof (Rabs_pos v). nra.
  - replace (v * (f * ss) * v) with ((f * ss) * (v * v)) by ring. apply Rmult_le_pos; nra.
Qed.

Lemma light_dir_spec e p :
  let '(dir, dist) := light_dir e p in len dir = 1 /\ len (sub (e_origin e) p) <= dist /\ 1 / 10 <= dist.
Proof.
  unfold light_dir. destruct (Rlt_dec (len (sub (e_origin e) p)) (1 / 10)).
  - split; [|split; lra]. unfold len, dot. cbn. replace (0 * 0 + 0 * 0 + 1 * 1) with 1 by ring. apply sqrt_1.
  - split; [apply len_normalize; lra|split; lra].
Qed.

(** * Dirt *)
Lemma fraction_range mn v mx : 0 <= fraction mn v mx <= 1.
Proof.
  unfold fraction. destruct (Rle_dec mx v); [lra|]. destruct (Rle_dec v mn); [lra|].
  split; [apply div_nonneg; lra|].
  replace ((v - mn) / (mx - mn)) with (1 - (mx - v) / (mx - mn)) by (field; lra).
  pose proof (div_nonneg (mx - v) (mx - mn)). lra.
Qed.
Lemma fraction_mono mn v w mx : mn < mx -> v <= w -> fraction mn v mx <= fraction mn w mx.
Proof.
  intros. pose proof (fraction_range mn v mx). pose proof (fraction_range mn w mx). revert H1 H2. unfold fraction.
  destruct (Rle_dec mx v), (Rle_dec mx w), (Rle_dec v mn), (Rle_dec w mn); intros; try lra.
  apply divs_le; lra.
Qed.

Definition cap1 (x : R) : R := if Rlt_dec 1 x then 1 else x.
Lemma cap1_range x : 0 <= x -> 0 <= cap1 x <= 1.
Proof. unfold cap1. destruct (Rlt_dec 1 x); lra. Qed.
Lemma cap1_mono x y : x <= y -> cap1 x <= cap1 y.
Proof. unfold cap1. destruct (Rlt_dec 1 x), (Rlt_dec 1 y); lra. Qed.
Lemma rpower_pos x y : 0 < Rpower x y. Proof. apply exp_pos. Qed.

Lemma dirt_unfold use gain ds radii occ dist :
  dirt_factor use gain ds radii occ dist =
  if use then if Rle_dec occ 0 then 1 else
    1 - (let o2 := cap1 (cap1 (Rpower occ gain) * ds) in
         match radii with None => o2 | Some (off, on) =>
           if Rlt_dec dist off then 0 else if Rlt_dec dist on then fraction off dist on * o2 else o2 end)
  else 1.
Proof. reflexivity. Qed.

Lemma dirt_o2 occ gain ds : 0 <= ds -> 0 <= cap1 (cap1 (Rpower occ gain) * ds) <= 1.
Proof.
  intros. apply cap1_range. pose proof (cap1_range (Rpower occ gain)). pose proof (rpower_pos occ gain). nra.
Qed.

Lemma dirt_range use gain ds radii occ dist : 0 <= ds -> 0 <= dirt_factor use gain ds radii occ dist <= 1.
Proof.
  intros H. rewrite dirt_unfold. destruct use; [|lra]. destruct (Rle_dec occ 0); [lra|].
  pose proof (dirt_o2 occ gain ds H) as B. cbn zeta.
  set (o2 := cap1 (cap1 (Rpower occ gain) * ds)) in *. clearbody o2.
  destruct radii as [[off on]|]; [|lra].
  destruct (Rlt_dec dist off); [lra|]. destruct (Rlt_dec dist on); [|lra].
  pose proof (fraction_range off dist on). nra.
Qed.

Lemma dirt_occ_mono use gain ds radii o1 o2 dist :
  0 <= ds -> 0 <= gain -> o1 <= o2 ->
  dirt_factor use gain ds radii o2 dist <= dirt_factor use gain ds radii o1 dist.
Proof.
  intros H Hg Ho. pose proof (dirt_range use gain ds radii o2 dist H) as B2. revert B2. rewrite !dirt_unfold.
  destruct use; [|lra]. destruct (Rle_dec o1 0); destruct (Rle_dec o2 0); try lra. intros _.
  assert (P : Rpower o1 gain <= Rpower o2 gain) by (apply Rle_Rpower_l; lra).
  pose proof (cap1_mono _ _ P). pose proof (cap1_range (Rpower o1 gain)). pose proof (rpower_pos o1 gain).
  assert (Q : cap1 (cap1 (Rpower o1 gain) * ds) <= cap1 (cap1 (Rpower o2 gain) * ds)) by (apply cap1_mono; nra).
  cbn zeta. pose proof (dirt_o2 o1 gain ds H).
  set (x := cap1 (cap1 (Rpower o1 gain) * ds)) in *. set (y := cap1 (cap1 (Rpower o2 gain) * ds)) in *. clearbody x y.
  destruct radii as [[off on]|]; [|lra].
  destruct (Rlt_dec dist off); [lra|]. destruct (Rlt_dec dist on); [|lra].
  pose proof (fraction_range off dist on). nra.
Qed.

Lemma dirt_dist_mono use gain ds radii occ d1 d2 :
  0 <= ds -> d1 <= d2 -> dirt_factor use gain ds radii occ d2 <= dirt_factor use gain ds radii occ d1.
Proof.
  intros H Hd. rewrite !dirt_unfold. destruct use; [|lra]. destruct (Rle_dec occ 0); [lra|].
  pose proof (dirt_o2 occ gain ds H). cbn zeta. set (o := cap1 (cap1 (Rpower occ gain) * ds)) in *. clearbody o.
  destruct radii as [[off on]|]; [|lra].
  pose proof (fraction_range off d1 on). pose proof (fraction_range off d2 on).
  destruct (Rlt_dec d1 off), (Rlt_dec d2 off), (Rlt_dec d1 on), (Rlt_dec d2 on); try lra; try nra.
  pose proof (fraction_mono off d1 d2 on). nra.
Qed.

(** * Culling *)
Lemma within_iff g x : within g x = true <-> exists y, x = Some y /\ Rabs y <= g.
Proof.
  unfold within. destruct x as [x|].
  - destruct (Rle_dec (Rabs x) g); split; intros H; eauto; try discriminate.
    destruct H as (y & E & L). injection E as <-. lra.
  - split; [discriminate|intros (y & E & _); discriminate].
Qed.

Lemma brightness_scale k c : brightness (scale k c) = k * brightness c.
Proof. unfold brightness, scale. destruct c; cbn. field. Qed.

(** The colour of a sample is the light's colour times a number of at most the value. *)
Lemma contrib_bound sd e mip norm p tw col dist v :
  0 <= e_anglescale e <= 1 -> len norm <= 1 ->
  light_value sd e (snd (light_dir e p)) = Some v ->
  light_contrib sd e mip norm p tw = Some (col, dist) ->
  dist = snd (light_dir e p) /\
  exists w, Rabs w <= Rabs v /\ 0 <= w * v /\
    col = scale (w / 255) (match mip with None => e_color e | Some m => mulc m (scale (1 / 255) (e_color e)) end).
Proof.
  intros Ha Hn Hv H. unfold light_contrib in H. pose proof (light_dir_spec e p) as D.
  destruct (light_dir e p) as [dir d] eqn:Ed. destruct D as (D1 & D2 & D3). cbn [snd] in Hv.
  destruct (light_angle sd e norm dir d tw) as [w|] eqn:Ew; [|discriminate].
  cbn [option_map] in H. injection H as <- <-. split; [reflexivity|].
  assert (Rabs (dot dir norm) <= 1).
  { pose proof (cauchy dir norm). rewrite D1 in H. lra. }
  destruct (angle_le _ _ _ _ _ _ _ _ Ha H Hv Ew) as (W1 & W2).
  exists w. split; [exact W1|split; [exact W2|]].
  unfold scale. cbn. f_equal; field.
Qed.

Lemma contrib_some sd e mip norm p tw v :
  light_value sd e (snd (light_dir e p)) = Some v -> exists cd, light_contrib sd e mip norm p tw = Some cd.
Proof.
  intros H. unfold light_contrib. destruct (light_dir e p) as [dir d]. cbn [snd] in H.
  unfold light_angle. destruct (Rlt_dec _ 0); [eexists; reflexivity|].
  destruct (spot_scale (e_spot e) dir); [|eexists; reflexivity]. rewrite H. eexists; reflexivity.
Qed.

Lemma cull_value sd gate e c r p :
  0 <= sd -> 0 <= e_atten e -> len (sub p c) <= r -> cull sd gate e c r = true ->
  exists v, light_value sd e (snd (light_dir e p)) = Some v /\ Rabs v <= gate.
Proof.
  intros Hs Ha Hr H. unfold cull in H.
  set (d := len (sub (e_origin e) c) - r) in *.
  destruct (Rlt_dec d 0); [discriminate|].
  apply within_iff in H. destruct H as (v & Ev & Lv).
  pose proof (triangle (e_origin e) p c) as T. pose proof (light_dir_spec e p) as D.
  destruct (light_dir e p) as [dir dist]. destruct D as (_ & D2 & _). cbn [snd].
  destruct (value_near sd e d dist v) as (v2 & E2 & L2); try assumption; try lra.
  { unfold d in *. lra. }
  exists v2. split; [exact E2|lra].
Qed.

Lemma cull_bright sd gate e mip c r norm p tw dirt b :
  0 <= sd -> 0 <= e_atten e -> 0 <= e_anglescale e <= 1 -> len norm <= 1 -> len (sub p c) <= r ->
  (forall d, 0 <= dirt d <= 1) -> 0 <= b ->
  Rabs (brightness (match mip with None => e_color e | Some m => mulc m (scale (1 / 255) (e_color e)) end)) <= b * 255 ->
  cull sd gate e c r = true ->
  exists col dist, light_contrib sd e mip norm p tw = Some (col, dist) /\
    Rabs (brightness (scale (dirt dist) col)) <= b * gate.
Proof.
  intros Hs Ha Han Hn Hr Hd Hb Hc H.
  destruct (cull_value _ _ _ _ _ p Hs Ha Hr H) as (v & Ev & Lv).
  destruct (contrib_some _ _ mip norm _ tw _ Ev) as ([col dist] & Ec).
  destruct (contrib_bound _ _ _ _ _ _ _ _ _ Han Hn Ev Ec) as (_ & w & W1 & _ & ->).
  eexists _, dist. split; [exact Ec|].
  rewrite !brightness_scale.
  set (B := brightness _) in *. clearbody B.
  rewrite !Rabs_mult. specialize (Hd dist). rewrite (Rabs_right (dirt dist)) by lra.
  unfold Rdiv. rewrite Rabs_mult. rewrite (Rabs_right (/ 255)) by lra.
  pose proof (Rabs_pos w). pose proof (Rabs_pos B).
  assert (Q : Rabs w * / 255 * Rabs B <= b * gate).
  { assert (0 <= gate) by (pose proof (Rabs_pos v); lra).
    assert (Rabs w <= gate) by lra.
    assert (Rabs w * Rabs B <= gate * (b * 255)) by (apply Rmult_le_compat; lra). nra. }
  assert (0 <= Rabs w * / 255 * Rabs B) by (apply Rmult_le_pos; [apply Rmult_le_pos; lra|lra]).
  nra.
Qed.

(** Lights behind a flat surface. *)
Lemma behind_zero sd gate e pl mip p dirt :
  0 <= gate -> len (p_n pl) = 1 -> 1 / 10 <= dist_to pl p ->
  behind e pl false false = true -> sample_ray sd gate e mip (p_n pl) p false dirt = None.
Proof.
  intros Hg Hn Hp H. unfold behind in H. destruct (Rlt_dec (dist_to pl (e_origin e)) 0) as [Hb|]; [|discriminate].
  cbn in H. destruct (e_bleed e) eqn:Eb; [discriminate|].
  assert (K : dot (sub (e_origin e) p) (p_n pl) = dist_to pl (e_origin e) - dist_to pl p).
  { unfold dist_to, dot, sub. destruct (e_origin e), p, (p_n pl); cbn; ring. }
  pose proof (cauchy (sub (e_origin e) p) (p_n pl)) as C. rewrite Hn, K in C.
  rewrite Rabs_left in C by lra.
  unfold sample_ray, light_contrib, light_dir.
  destruct (Rlt_dec (len (sub (e_origin e) p)) (1 / 10)); [lra|].
  unfold light_angle. rewrite Eb. cbn [orb].
  assert (Z : dot (normalize (sub (e_origin e) p)) (p_n pl) < 0).
  { unfold normalize. destruct (Req_EM_T (len (sub (e_origin e) p)) 0); [lra|].
    rewrite dot_scale_l, K.
    assert (0 < / len (sub (e_origin e) p)) by (apply Rinv_0_lt_compat; lra). nra. }
  destruct (Rlt_dec (dot (normalize (sub (e_origin e) p)) (p_n pl)) 0); [|lra].
  cbn [option_map]. rewrite !brightness_scale.
  match goal with |- context [within gate (Some ?x)] => replace x with 0 by ring end.
  unfold within. rewrite Rabs_R0. destruct (Rle_dec 0 gate); [reflexivity|lra].
Qed.

(** * Cones *)
Lemma cone_iff th b : 0 <= th <= PI -> 0 <= b <= PI -> (- cos b < - cos th <-> b < th).
Proof.
  intros. split; intros Q.
  - destruct (Rlt_dec b th) as [|N0]; [assumption|]. exfalso.
    destruct (Req_EM_T b th) as [->|]; [lra|].
    assert (cos b < cos th) by (apply cos_decreasing_1; lra). lra.
  - assert (cos th < cos b) by (apply cos_decreasing_1; lra). lra.
Qed.
