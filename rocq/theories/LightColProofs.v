(* Lemmas about LightColModel. *)
From Coq Require Import Reals List Bool Lra Lia Psatz ZArith.
From Verif Require Import NumCastModel WindClipModel LightValModel LightValProofs LightColModel.
Import ListNotations.
Open Scope R_scope.

(** * Componentwise monotone steps *)
Definition vmap (f : R -> R) (c : vec) : vec := mkV (f (vx c)) (f (vy c)) (f (vz c)).
Definition incr (f : R -> R) : Prop := forall x y, 0 <= x -> x <= y -> f x <= f y.
Definition vnn (c : vec) : Prop := 0 <= vx c /\ 0 <= vy c /\ 0 <= vz c.

Lemma vmax_ge c : vx c <= vmax c /\ vy c <= vmax c /\ vz c <= vmax c.
Proof.
  unfold vmax. pose proof (Rmax_l (vx c) (Rmax (vy c) (vz c))). pose proof (Rmax_r (vx c) (Rmax (vy c) (vz c))).
  pose proof (Rmax_l (vy c) (vz c)). pose proof (Rmax_r (vy c) (vz c)). lra.
Qed.
Lemma vmax_in c : vmax c = vx c \/ vmax c = vy c \/ vmax c = vz c.
Proof.
  unfold vmax. destruct (Rmax_case_strong (vx c) (Rmax (vy c) (vz c)) (fun m => m = vx c \/ m = vy c \/ m = vz c)); auto.
  intros _. destruct (Rmax_case_strong (vy c) (vz c) (fun m => m = vx c \/ m = vy c \/ m = vz c)); auto.
Qed.
Lemma vmax_map f c : incr f -> vnn c -> vmax (vmap f c) = f (vmax c).
Proof.
  intros Hf (H1 & H2 & H3). pose proof (vmax_ge c) as (G1 & G2 & G3).
  pose proof (vmax_ge (vmap f c)) as (K1 & K2 & K3). cbn in K1, K2, K3.
  pose proof (Hf _ _ H1 G1). pose proof (Hf _ _ H2 G2). pose proof (Hf _ _ H3 G3).
  apply Rle_antisym.
  - destruct (vmax_in (vmap f c)) as [-> | [-> | ->]]; cbn; assumption.
  - destruct (vmax_in c) as [-> | [-> | ->]]; assumption.
Qed.
Lemma vpos_nn c : vnn (vpos c).
Proof. unfold vnn, vpos; cbn. split; [apply Rmax_r|split; apply Rmax_r]. Qed.
Lemma vmax_nn c : vnn c -> 0 <= vmax c.
Proof. intros (H & _). pose proof (vmax_ge c). lra. Qed.

Lemma maxlight_step ml c : 0 <= ml -> vnn c ->
  exists t, 0 <= t <= 1 /\ apply_maxlight ml c = Some (vmap (fun x => t * x) c) /\
    t * vmax c = (if Req_EM_T ml 0 then vmax c else Rmin (vmax c) (ml * 2)) /\
    (ml = 0 \/ vmax c <= ml * 2 -> t = 1).
Proof.
  intros H Hc. pose proof (vmax_nn c Hc). unfold apply_maxlight.
  assert (One : vmap (fun x => 1 * x) c = c) by (unfold vmap; destruct c; cbn; f_equal; ring).
  destruct (Req_EM_T ml 0).
  - exists 1. rewrite One. split; [lra|split; [reflexivity|split; [lra|auto]]].
  - destruct (Rlt_dec (ml * 2) (vmax c)).
    + destruct (Req_EM_T (vmax c) 0); [lra|].
      exists (ml * 2 / vmax c). split; [|split; [reflexivity|split]].
      * split; [apply div_nonneg; lra|]. replace 1 with (vmax c / vmax c) by (field; lra). apply divs_le; lra.
      * rewrite Rmin_right by lra. field. lra.
      * intros [?|?]; lra.
    + exists 1. rewrite One. split; [lra|split; [reflexivity|split; [|auto]]]. rewrite Rmin_left; lra.
Qed.

Lemma colorscale_step s c : 0 <= s <= 1 -> vnn c ->
  let f := fun x => (1 - s) * vmax c + s * x in
  apply_colorscale s c = vmap f c /\ incr f /\ (forall x, 0 <= x -> 0 <= f x) /\ f (vmax c) = vmax c.
Proof.
  intros H Hc f. pose proof (vmax_nn c Hc). split; [|split; [|split]].
  - unfold apply_colorscale, f, vmap. destruct (Req_EM_T s 1); [subst; destruct c; cbn; f_equal; ring|].
    unfold mix, add, scale. cbn. reflexivity.
  - intros x y _ L. unfold f. nra.
  - intros x Hx. unfold f. nra.
  - unfold f. ring.
Qed.

(** The function of the gamma key. *)
Definition gfun (gamma c : R) : R :=
  if Req_EM_T gamma 1 then c else if Req_EM_T c 0 then 0 else Rpower (c / 255) (1 / gamma) * 255.

Lemma gfun_incr gamma : 0 < gamma -> incr (gfun gamma).
Proof.
  intros Hg x y Hx Hxy. unfold gfun. destruct (Req_EM_T gamma 1); [assumption|].
  assert (0 < 1 / gamma) by (apply divs_pos; lra).
  destruct (Req_EM_T x 0), (Req_EM_T y 0); try lra.
  - pose proof (rpower_pos (y / 255) (1 / gamma)). lra.
  - apply Rmult_le_compat_r; [lra|]. apply Rle_Rpower_l; [lra|]. split; [apply divs_pos; lra|apply divs_le; lra].
Qed.
Lemma gfun_nn gamma x : 0 <= x -> 0 <= gfun gamma x.
Proof.
  intros Hx. unfold gfun. destruct (Req_EM_T gamma 1); [assumption|]. destruct (Req_EM_T x 0); [lra|].
  pose proof (rpower_pos (x / 255) (1 / gamma)). lra.
Qed.
Lemma gfun_0 gamma : gfun gamma 0 = 0.
Proof. unfold gfun. destruct (Req_EM_T gamma 1); [reflexivity|]. destruct (Req_EM_T 0 0); lra. Qed.
Lemma gfun_255 gamma : gfun gamma 255 = 255.
Proof.
  unfold gfun. destruct (Req_EM_T gamma 1); [reflexivity|]. destruct (Req_EM_T 255 0); [lra|].
  replace (255 / 255) with 1 by field. unfold Rpower. rewrite ln_1, Rmult_0_r, exp_0. ring.
Qed.
Lemma gamma_step gamma c : 0 < gamma -> vnn c -> apply_gamma gamma c = Some (vmap (gfun gamma) c).
Proof.
  intros Hg (H1 & H2 & H3). unfold apply_gamma, gfun, vmap. destruct (Req_EM_T gamma 1); [destruct c; reflexivity|].
  assert (G : forall x, 0 <= x -> gamma1 gamma x = Some (if Req_EM_T x 0 then 0 else Rpower (x / 255) (1 / gamma) * 255)).
  { intros x Hx. unfold gamma1. destruct (Req_EM_T gamma 0); [lra|]. destruct (Rlt_dec x 0); [lra|].
    destruct (Req_EM_T x 0); reflexivity. }
  unfold gamma3. rewrite !G by assumption. reflexivity.
Qed.

Lemma clamp_step c : vnn c ->
  exists t, 0 <= t <= 1 /\ apply_clamp c = vmap (fun x => t * x) c /\ t * vmax c = Rmin 255 (vmax c) /\ (vmax c <= 255 -> t = 1).
Proof.
  intros Hc. unfold apply_clamp. destruct (Rlt_dec 255 (vmax c)).
  - exists (255 / vmax c). split; [|split; [reflexivity|split; [|lra]]].
    + split; [apply div_nonneg; lra|]. replace 1 with (vmax c / vmax c) by (field; lra). apply divs_le; lra.
    + rewrite Rmin_left by lra. field. lra.
  - exists 1. split; [lra|split; [unfold vmap; destruct c; cbn; f_equal; ring|split; [rewrite Rmin_right; lra|auto]]].
Qed.

(** The brightest component of the result from that of the sample. *)
Definition brightest (ml range gamma m : R) : R :=
  Rmin 255 (gfun gamma (range * (if Req_EM_T ml 0 then m else Rmin m (ml * 2)))).

Lemma vmap_nn f c : (forall x, 0 <= x -> 0 <= f x) -> vnn c -> vnn (vmap f c).
Proof. intros H (H1 & H2 & H3). unfold vnn; cbn. auto. Qed.

Lemma steps ml s range gamma c :
  0 <= ml -> 0 <= s <= 1 -> 0 <= range -> 0 < gamma ->
  exists F, scale_clamp ml s range gamma c = Some (vmap F (vpos c)) /\ incr F /\
    (forall x, 0 <= x -> 0 <= F x) /\ F (vmax (vpos c)) = brightest ml range gamma (vmax (vpos c)) /\
    (s = 1 -> F 0 = 0) /\
    (s = 1 -> gamma = 1 -> exists t, 0 <= t /\ (forall x, F x = t * x) /\
       ((ml = 0 \/ vmax (vpos c) <= ml * 2) -> range * vmax (vpos c) <= 255 -> t = range)).
Proof.
  intros Hm Hs Hr Hg. pose proof (vpos_nn c) as Hn. set (p := vpos c) in *.
  destruct (maxlight_step ml p Hm Hn) as (t1 & T1 & E1 & M1 & U1).
  assert (I1 : incr (fun x => t1 * x)) by (intros x y _ L; nra).
  assert (P1 : forall x, 0 <= x -> 0 <= t1 * x) by (intros; nra).
  pose proof (vmap_nn _ _ P1 Hn) as N1.
  set (c1 := vmap (fun x => t1 * x) p) in *.
  assert (V1 : vmax c1 = t1 * vmax p) by (apply (vmax_map _ _ I1 Hn)).
  destruct (colorscale_step s c1 Hs N1) as (E2 & I2 & P2 & M2).
  set (f2 := fun x => (1 - s) * vmax c1 + s * x) in *.
  pose proof (vmap_nn _ _ P2 N1) as N2. set (c2 := vmap f2 c1) in *.
  assert (V2 : vmax c2 = vmax c1) by (unfold c2; rewrite (vmax_map _ _ I2 N1); exact M2).
  assert (I3 : incr (fun x => range * x)) by (intros x y _ L; nra).
  assert (P3 : forall x, 0 <= x -> 0 <= range * x) by (intros; nra).
  pose proof (vmap_nn _ _ P3 N2) as N3. set (c3 := vmap (fun x => range * x) c2) in *.
  assert (E3 : scale range c2 = c3) by reflexivity.
  assert (V3 : vmax c3 = range * vmax c2) by (apply (vmax_map _ _ I3 N2)).
  pose proof (gfun_incr gamma Hg) as I4.
  pose proof (vmap_nn _ _ (fun x => gfun_nn gamma x) N3) as N4. set (c4 := vmap (gfun gamma) c3) in *.
  pose proof (gamma_step gamma c3 Hg N3) as E4. fold c4 in E4.
  assert (V4 : vmax c4 = gfun gamma (vmax c3)) by (apply (vmax_map _ _ I4 N3)).
  destruct (clamp_step c4 N4) as (t5 & T5 & E5 & M5 & U5).
  set (F := fun x => t5 * gfun gamma (range * f2 (t1 * x))).
  assert (EF : F (vmax p) = brightest ml range gamma (vmax p)).
  { unfold F, brightest. rewrite <- M1, <- V1.
    replace (f2 (vmax c1)) with (vmax c1) by (symmetry; exact M2). rewrite <- V2, <- V3, <- V4. exact M5. }
  exists F. split; [|split; [|split; [|split; [exact EF|split]]]].
  - unfold scale_clamp. fold p. rewrite E1, E2, E3, E4, E5. reflexivity.
  - intros x y Hx L. unfold F. apply Rmult_le_compat_l; [lra|]. apply I4; [apply P3, P2, P1; assumption|].
    apply Rmult_le_compat_l; [lra|]. apply I2; [apply P1; assumption|]. nra.
  - intros x Hx. unfold F. apply Rmult_le_pos; [lra|]. apply gfun_nn, P3, P2, P1. assumption.
  - intros ->. unfold F, f2. replace (range * ((1 - 1) * vmax c1 + 1 * (t1 * 0))) with 0 by ring. rewrite gfun_0. ring.
  - intros -> ->. exists (t5 * range * t1). split; [apply Rmult_le_pos; [apply Rmult_le_pos|]; lra|]. split.
    + intros x. unfold F, f2, gfun. destruct (Req_EM_T 1 1); [|lra]. ring.
    + intros Hml Hle. rewrite (U1 Hml). rewrite U5; [ring|].
      rewrite V4, V3, V2, V1, (U1 Hml). unfold gfun. destruct (Req_EM_T 1 1); lra.
Qed.

(** * Bytes *)
Lemma int_part_bounds x : IZR (Int_part x) <= x < IZR (Int_part x) + 1.
Proof. pose proof (base_Int_part x). lra. Qed.
Lemma trunc_nonneg x : 0 <= x -> IZR (trunc x) <= x < IZR (trunc x) + 1.
Proof. intros. unfold trunc. destruct (Rlt_dec x 0); [lra|]. apply int_part_bounds. Qed.
Lemma int_unique z x : IZR z <= x < IZR z + 1 -> Int_part x = z.
Proof.
  intros H. pose proof (int_part_bounds x) as B.
  assert (IZR (Int_part x) < IZR (z + 1)) by (rewrite plus_IZR; lra).
  assert (IZR z < IZR (Int_part x + 1)) by (rewrite plus_IZR; lra).
  apply lt_IZR in H0, H1. lia.
Qed.
Lemma trunc_unique z x : 0 <= x -> IZR z <= x < IZR z + 1 -> trunc x = z.
Proof. intros. unfold trunc. destruct (Rlt_dec x 0); [lra|]. apply int_unique; assumption. Qed.
Lemma trunc_mono x y : 0 <= x -> x <= y -> (trunc x <= trunc y)%Z.
Proof.
  intros. pose proof (trunc_nonneg x). pose proof (trunc_nonneg y).
  assert (IZR (trunc x) < IZR (trunc y + 1)) by (rewrite plus_IZR; lra). apply lt_IZR in H3. lia.
Qed.
Lemma trunc_neg x : x < 0 -> IZR (trunc x) - 1 < x <= IZR (trunc x).
Proof.
  intros. unfold trunc. destruct (Rlt_dec x 0); [|lra]. pose proof (int_part_bounds (- x)). rewrite opp_IZR. lra.
Qed.
Lemma trunc_range x a b : 0 <= x -> IZR a <= x -> x < IZR b + 1 -> (a <= trunc x <= b)%Z.
Proof.
  intros. pose proof (trunc_nonneg x).
  assert (IZR a < IZR (trunc x + 1)) by (rewrite plus_IZR; lra).
  assert (IZR (trunc x) < IZR (b + 1)) by (rewrite plus_IZR; lra).
  apply lt_IZR in H3, H4. lia.
Qed.
Lemma to_byte_ok x : 0 <= x <= 255 -> to_byte x = ROk (trunc x) /\ (0 <= trunc x <= 255)%Z.
Proof.
  intros. pose proof (trunc_range x 0 255 ltac:(lra) ltac:(lra) ltac:(lra)) as B. split; [|exact B].
  unfold to_byte. cbn zeta. destruct (Z.leb_spec 0 (trunc x)), (Z.leb_spec (trunc x) 255); try lia. reflexivity.
Qed.
Lemma to_byte_neg x : x <= -1 -> to_byte x = RUB.
Proof.
  intros. pose proof (trunc_neg x ltac:(lra)).
  assert (IZR (trunc x) < IZR 0) by lra. apply lt_IZR in H1.
  unfold to_byte. cbn zeta. destruct (Z.leb_spec 0 (trunc x)); [lia|reflexivity].
Qed.
Lemma to_byte_big x : 256 <= x -> to_byte x = RUB.
Proof.
  intros. pose proof (trunc_nonneg x ltac:(lra)).
  assert (IZR 255 < IZR (trunc x)) by lra. apply lt_IZR in H1.
  unfold to_byte. cbn zeta. destruct (Z.leb_spec 0 (trunc x)), (Z.leb_spec (trunc x) 255); try lia; reflexivity.
Qed.

Definition in_byte (c : vec) : Prop := 0 <= vx c <= 255 /\ 0 <= vy c <= 255 /\ 0 <= vz c <= 255.

Lemma luxel_ok c : in_byte c ->
  exists r g b, lit_bytes c = ROk (r, g, b) /\ bsp_byte c = ROk (Z.max r (Z.max g b)) /\
    (0 <= r <= 255 /\ 0 <= g <= 255 /\ 0 <= b <= 255)%Z /\
    r = trunc (vx c) /\ g = trunc (vy c) /\ b = trunc (vz c).
Proof.
  intros (H1 & H2 & H3). destruct (to_byte_ok _ H1) as (E1 & B1), (to_byte_ok _ H2) as (E2 & B2), (to_byte_ok _ H3) as (E3 & B3).
  exists (trunc (vx c)), (trunc (vy c)), (trunc (vz c)).
  split; [unfold lit_bytes; rewrite E1, E2, E3; reflexivity|]. split; [|auto].
  pose proof (vmax_ge c) as (G1 & G2 & G3). pose proof (vmax_in c) as I0.
  assert (B : 0 <= vmax c <= 255) by (split; [lra|]; destruct I0 as [-> | [-> | ->]]; lra).
  unfold bsp_byte. destruct (Rlt_dec (vmax c) 0); [lra|]. destruct (Rlt_dec 255 (vmax c)); [lra|].
  destruct (to_byte_ok _ B) as (-> & _). f_equal.
  pose proof (trunc_mono _ _ (proj1 H1) G1). pose proof (trunc_mono _ _ (proj1 H2) G2). pose proof (trunc_mono _ _ (proj1 H3) G3).
  destruct I0 as [E | [E | E]]; rewrite E in *; lia.
Qed.

Lemma mix_in a b f : 0 <= f <= 1 -> in_byte a -> in_byte b -> in_byte (mix a b f).
Proof. intros H (A1 & A2 & A3) (B1 & B2 & B3). unfold in_byte, mix, add, scale. cbn. split; [|split]; nra. Qed.

Lemma vsum_in l : (forall c, In c l -> in_byte c) ->
  0 <= vx (vsum l) <= 255 * INR (length l) /\ 0 <= vy (vsum l) <= 255 * INR (length l) /\ 0 <= vz (vsum l) <= 255 * INR (length l).
Proof.
  induction l as [|c l IH]; intros H; [cbn; lra|].
  cbn [length vsum fold_right]. rewrite S_INR. fold (vsum l).
  destruct IH as (I1 & I2 & I3); [intros; apply H; right; assumption|].
  destruct (H c (or_introl eq_refl)) as (C1 & C2 & C3). unfold add. cbn. lra.
Qed.
Lemma average_in l : l <> [] -> (forall c, In c l -> in_byte c) -> in_byte (average l).
Proof.
  intros Hn H. destruct (vsum_in l H) as (I1 & I2 & I3).
  assert (P : 0 < INR (length l)) by (apply lt_0_INR; destruct l; [contradiction|cbn; lia]).
  unfold average, in_byte, scale. cbn. set (n := INR (length l)) in *. clearbody n.
  assert (G : forall x, 0 <= x <= 255 * n -> 0 <= / n * x <= 255).
  { intros x Hx. assert (0 < / n) by (apply Rinv_0_lt_compat; assumption).
    split; [nra|]. replace 255 with (/ n * (255 * n)) by (field; lra). apply Rmult_le_compat_l; lra. }
  split; [|split]; apply G; assumption.
Qed.

Lemma lux_byte_ok t : -1 <= t <= 1 -> (0 <= lux_byte t <= 255)%Z /\ t - / 128 <= IZR (lux_byte t) / 128 - 1 <= t.
Proof.
  intros H. unfold lux_byte. assert (P : 0 <= (t + 1) * 128) by lra.
  pose proof (trunc_range ((t + 1) * 128) 0 256 P ltac:(lra) ltac:(lra)) as B.
  pose proof (trunc_nonneg _ P) as Q. set (v := trunc ((t + 1) * 128)) in *. clearbody v. cbn zeta.
  destruct (Z.ltb_spec 255 v).
  - assert (v = 256)%Z by lia. subst v. rewrite Z.mod_small by lia. split; [lia|].
    assert (t = 1) by lra. subst t. lra.
  - rewrite Z.mod_small by lia. split; [lia|]. lra.
Qed.

Lemma comp_le_len c : Rabs (vx c) <= len c /\ Rabs (vy c) <= len c /\ Rabs (vz c) <= len c.
Proof.
  pose proof (len_nonneg c). split; [|split]; (apply sq_abs_le; [assumption|]); rewrite len_sq; unfold dot; nra.
Qed.
