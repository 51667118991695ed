(* C138: suns, sky domes and split lights. *)
From Coq Require Import Reals ZArith List Bool Lra Lia Psatz.
From Verif Require Import WindClipModel LightValModel LightValProofs SunModel SunProofs.
Import ListNotations.
Open Scope R_scope.

(** ** C138 *)

(** The keys of every light are made consistent: one sample and no deviance, or more than one sample (16
    without a number) and the deviance asked for; where the light is divided, all samples together have
    the light asked for. *)
Theorem C138_samples : forall addmin e, let c := check_samples addmin e in
  (1 <= le_samples c)%Z /\
  ((le_dev c = 0 /\ le_samples c = 1%Z /\ (le_dev e <= 0 \/ (le_samples e <= 1)%Z /\ le_samples e <> 0%Z)) \/
   (le_dev c = le_dev e /\ 0 < le_dev c /\ (1 < le_samples c)%Z /\ le_samples c = if (le_samples e =? 0)%Z then 16%Z else le_samples e)) /\
  le_light e = le_light c * (if divided addmin (le_formula e) then IZR (le_samples c) else 1) /\
  c = mkLE (le_light c) (le_formula e) (le_dev c) (le_samples c) (le_sun e) (le_up e) (le_down e) (le_origin e) (le_mangle e) (le_target e) (le_tag e).
Proof.
  intros addmin e. cbn zeta. destruct (check_samples_spec addmin e) as (A & B & C). split; [exact A|split; [exact B|split; [exact C|]]].
  unfold check_samples. destruct (if Rle_dec (le_dev e) 0 then _ else _) as [d s]. reflexivity.
Qed.
Print Assumptions C138_samples.

(** Copies: the lights stay as they are and first; a light that is no sun gets samples - 1 copies, which
    differ in nothing but the origin, by at most the deviance along each axis; a sun gets none. *)
Theorem C138_split : forall rnd n es, (forall k, 0 <= rnd k <= 1) ->
  exists new, jitter_all rnd n es = es ++ concat new /\ length new = length es /\
  forall i e, nth_error es i = Some e -> exists copies, nth_error new i = Some copies /\
    (le_sun e = true -> copies = []) /\
    (le_sun e = false -> Z.of_nat (length copies) = Z.max 0 (le_samples e - 1)) /\
    forall c, In c copies -> (exists p, c = with_origin e p) /\
      (0 <= le_dev e -> Rabs (vx (le_origin c) - vx (le_origin e)) <= le_dev e /\ Rabs (vy (le_origin c) - vy (le_origin e)) <= le_dev e /\
                        Rabs (vz (le_origin c) - vz (le_origin e)) <= le_dev e).
Proof.
  intros rnd n es H. unfold jitter_all. revert n. induction es as [|e es IH]; intros n.
  - exists []. split; [reflexivity|split; [reflexivity|]]. intros i e E. destruct i; discriminate E.
  - cbn [jitter_new]. destruct (IH (n + 3 * length (jitter_one rnd n e))%nat) as (new & E & L & P). clear IH.
    exists (jitter_one rnd n e :: new). split; [cbn [concat app]; f_equal; apply app_inv_head in E; rewrite E; reflexivity|].
    split; [cbn [length]; rewrite L; reflexivity|]. intros i x X. destruct i as [|i]; [|exact (P i x X)].
    cbn [nth_error] in X. injection X as <-. exists (jitter_one rnd n e). split; [reflexivity|]. unfold jitter_one. clear E L P.
    split; [intros ->; reflexivity|]. split; [intros ->; rewrite map_length, seq_length; lia|].
    intros c I. destruct (le_sun e); [destruct I|]. apply in_map_iff in I. destruct I as (j & <- & _). unfold jitter_copy.
    split; [eexists; reflexivity|]. intros D. cbn [with_origin le_origin vx vy vz]. unfold jit.
    assert (B : forall k x, Rabs (x + (rnd k * 2 - 1) * le_dev e - x) <= le_dev e).
    { intros k x. specialize (H k). replace (x + (rnd k * 2 - 1) * le_dev e - x) with ((rnd k * 2 - 1) * le_dev e) by ring. apply Rabs_le. nra. }
    repeat split; apply B.
Qed.
Print Assumptions C138_split.

(** The documentation has them in a sphere with that radius: they are in a cube. *)
Theorem C138_sphere_refuted : forall n e, le_sun e = false -> 0 < le_dev e -> (1 < le_samples e)%Z ->
  exists rnd, (forall k, 0 <= rnd k <= 1) /\ exists c, In c (jitter_one rnd n e) /\
    len (sub (le_origin c) (le_origin e)) = sqrt 3 * le_dev e.
Proof.
  intros n e Hs D S. exists (fun _ => 1). split; [intros; lra|]. unfold jitter_one. rewrite Hs.
  exists (jitter_copy (fun _ => 1) (n + 3 * 0) e). split; [apply in_map_iff; exists 0%nat; split; [reflexivity|apply in_seq; lia]|].
  unfold jitter_copy, jit, sub, len, dot. cbn [with_origin le_origin vx vy vz].
  replace ((vx (le_origin e) + (1 * 2 - 1) * le_dev e - vx (le_origin e)) * (vx (le_origin e) + (1 * 2 - 1) * le_dev e - vx (le_origin e)) +
   (vy (le_origin e) + (1 * 2 - 1) * le_dev e - vy (le_origin e)) * (vy (le_origin e) + (1 * 2 - 1) * le_dev e - vy (le_origin e)) +
   (vz (le_origin e) + (1 * 2 - 1) * le_dev e - vz (le_origin e)) * (vz (le_origin e) + (1 * 2 - 1) * le_dev e - vz (le_origin e)))
   with (3 * (le_dev e * le_dev e)) by ring.
  rewrite sqrt_mult by nra. rewrite sqrt_square by lra. reflexivity.
Qed.
Print Assumptions C138_sphere_refuted.

(** One sun: as many suns as samples (one without a deviance), together as bright as asked for, all with
    the given keys; the first in the direction given, all at the distance 16384; two random numbers are
    taken for each further sun, so the loop never repeats. *)
Theorem C138_sun : forall fuel rnd at2 w n light v dev t, (forall k, 0 <= rnd k <= 1) -> 0 <= dev -> (1 <= w_samples w)%Z -> light <> 0 ->
  let num := if Req_EM_T dev 0 then 1%Z else w_samples w in
  exists l, setup_sun (S fuel) rnd at2 w n light v dev t = Some (l, (n + 2 * (Z.to_nat num - 1))%nat) /\
    Z.of_nat (length l) = num /\ sum_light l = light /\
    (exists s l', l = s :: l' /\ sn_vec s = WindClipModel.scale (-16384) (normalize v)) /\
    forall s, In s l -> sn_light s = light / IZR num /\ sn_color s = t_color t /\ sn_anglescale s = t_anglescale t /\
      sn_dirt s = resolve_dirt w (t_dirt t) /\ sn_style s = t_style t /\ sn_tex s = t_tex t /\ (len v <> 0 -> len (sn_vec s) = 16384).
Proof.
  intros fuel rnd at2 w n light v dev t H D W L. cbn zeta. unfold setup_sun. set (num := if Req_EM_T dev 0 then 1%Z else w_samples w).
  assert (N1 : (1 <= num)%Z) by (unfold num; destruct (Req_EM_T dev 0); lia).
  assert (NR : 1 <= IZR num) by (apply IZR_le; exact N1).
  assert (L0 : light / IZR num <> 0) by (intros X; apply L; apply (Rmult_eq_compat_r (IZR num)) in X; unfold Rdiv in X; rewrite Rmult_assoc, Rinv_l, Rmult_0_l in X by lra; lra).
  rewrite sun_more_spec by assumption. destruct (Z.ltb_spec num 1) as [Y|_]; [lia|].
  rewrite (flat_map_one nat sun _ _ _ (fun k => add_sun_some w _ _ t L0)). rewrite (add_sun_some w _ _ t L0).
  eexists. split; [reflexivity|].
  set (mk := fun d => mkSun (WindClipModel.scale (-16384) (normalize d)) (light / IZR num) (t_color t) (t_anglescale t) (resolve_dirt w (t_dirt t)) (t_style t) (t_tex t)).
  assert (K : forall d, (len v <> 0 -> dot d d = 1) -> sn_light (mk d) = light / IZR num /\ sn_color (mk d) = t_color t /\ sn_anglescale (mk d) = t_anglescale t /\
      sn_dirt (mk d) = resolve_dirt w (t_dirt t) /\ sn_style (mk d) = t_style t /\ sn_tex (mk d) = t_tex t /\ (len v <> 0 -> len (sn_vec (mk d)) = 16384)).
  { intros d Ud. unfold mk. cbn [sn_light sn_color sn_anglescale sn_dirt sn_style sn_tex sn_vec]. repeat (split; [reflexivity|]). intros X.
    rewrite (normalize_unit_id d (Ud X)). unfold len. replace (dot _ _) with (16384 * 16384) by
      (transitivity (16384 * 16384 * dot d d); [rewrite (Ud X); ring|unfold dot, WindClipModel.scale; cbn [vx vy vz]; ring]). apply sqrt_square. lra. }
  assert (ALL : forall s, In s (mk (normalize v) :: map (fun x => mk (tilted at2 (normalize v) ((rnd (n + 2 * x)%nat * 2 - 1) * (dev * PI / 180)) ((rnd (n + 2 * x + 1)%nat * 2 - 1) * (dev * PI / 180)))) (seq 0 (Z.to_nat num - 1))) ->
     sn_light s = light / IZR num /\ sn_color s = t_color t /\ sn_anglescale s = t_anglescale t /\
      sn_dirt s = resolve_dirt w (t_dirt t) /\ sn_style s = t_style t /\ sn_tex s = t_tex t /\ (len v <> 0 -> len (sn_vec s) = 16384)).
  { intros s [<- |I]; [apply K; intros; apply normalize_dot1; assumption|]. apply in_map_iff in I. destruct I as (k & <- & _).
    apply K. intros _. apply tilted_unit. }
  cbn [app]. split; [cbn [length]; rewrite map_length, seq_length; lia|]. split; [|split; [|exact ALL]].
  - rewrite (sum_light_const (light / IZR num)) by (intros s I; apply ALL, I). cbn [length]. rewrite map_length, seq_length.
    replace (S (Z.to_nat num - 1)) with (Z.to_nat num) by lia. rewrite INR_IZR_INZ, Z2Nat.id by lia. field. lra.
  - eexists. eexists. split; [reflexivity|]. cbn [sn_vec]. rewrite normalize_twice. reflexivity.
Qed.
Print Assumptions C138_sun.

(** The key _dirt of a sun, or of worldspawn for all suns, says 1 or -1; otherwise worldspawn's dirt counts. *)
Theorem C138_dirt : forall w d, resolve_dirt w d = true <-> d = 1%Z \/ d <> (-1)%Z /\ w_dirt w = true.
Proof.
  intros w d. unfold resolve_dirt. destruct (Z.eqb_spec d 1) as [-> |N]; [tauto|]. destruct (Z.eqb_spec d (-1)) as [-> |N2]; [split; [discriminate|intros [X|(X & _)]; [discriminate X|congruence]]|tauto].
Qed.
Print Assumptions C138_dirt.
(** The suns of worldspawn have style 0 and no texture, and the angle scale of worldspawn. *)
Theorem C138_world : forall w color dirt, t_style (world_tag w color dirt) = 0%Z /\ t_tex (world_tag w color dirt) = [] /\ t_anglescale (world_tag w color dirt) = w_anglescale w /\
  t_color (world_tag w color dirt) = color /\ t_dirt (world_tag w color dirt) = dirt.
Proof. intros. repeat split; reflexivity. Qed.
Print Assumptions C138_world.
(** The other suns: a direction with the azimuth and elevation of the first, each off by the angle drawn. *)
Theorem C138_tilt : forall at2 v da de r a e, 0 <= r -> (forall x y s, 0 < s -> at2 (s * y) (s * x) = at2 y x) -> (forall t, - PI < t <= PI -> at2 (sin t) (cos t) = t) ->
  - PI < a <= PI -> - PI / 2 < e < PI / 2 -> 0 < r -> v = mkV (r * (cos a * cos e)) (r * (sin a * cos e)) (r * sin e) ->
  tilted at2 v da de = mkV (cos (a + da) * cos (e + de)) (sin (a + da) * cos (e + de)) (sin (e + de)).
Proof.
  intros at2 v da de r a e R SC AT A E R0 ->. unfold tilted. cbn [vx vy vz].
  assert (CE : 0 < cos e) by (apply cos_gt_0; lra).
  replace (sqrt _) with (r * cos e).
  - replace (r * (sin a * cos e)) with ((r * cos e) * sin a) by ring. replace (r * (cos a * cos e)) with ((r * cos e) * cos a) by ring.
    rewrite !SC by (try apply Rmult_lt_0_compat; assumption). rewrite !AT by lra. reflexivity.
  - replace (r * (cos a * cos e) * (r * (cos a * cos e)) + r * (sin a * cos e) * (r * (sin a * cos e))) with ((r * cos e) * (r * cos e)).
    + symmetry. apply sqrt_square. apply Rmult_le_pos; lra.
    + transitivity ((r * cos e) * (r * cos e) * ((sin a)² + (cos a)²)); [rewrite sin2_cos2; ring|unfold Rsqr; ring].
Qed.
Print Assumptions C138_tilt.

(** The loop is meant to keep the angles in a circle: it never repeats, so the corners of the square are
    reached too. *)
Theorem C138_circle_refuted : forall fuel n dev, 0 < dev -> exists rnd, (forall k, 0 <= rnd k <= 1) /\
  exists da de n', draw (S fuel) rnd n dev = Some (da, de, n') /\ da * da + de * de = 2 * ((dev * PI / 180) * (dev * PI / 180)).
Proof.
  intros fuel n dev D. exists (fun _ => 1). assert (H : forall k : nat, 0 <= 1 <= 1) by (intros; lra). split; [exact H|].
  rewrite (draw_first fuel (fun _ => 1) n dev H) by lra. eexists. eexists. eexists. split; [reflexivity|]. ring.
Qed.
Print Assumptions C138_circle_refuted.

(** All suns: the brightness of all suns is that of the entities that are suns and of the two of
    worldspawn; entities that are suns give no other light, all others are as before. *)
Definition sun_part (e : lent) : R := if is_sun e then le_light e else 0.
Theorem C138_suns : forall fuel rnd at2 w n es, (forall k, 0 <= rnd k <= 1) -> (1 <= w_samples w)%Z -> 0 <= w_dev w ->
  (forall e, In e es -> 0 <= le_dev e) ->
  exists suns, setup_suns (S fuel) rnd at2 w n es = Some (suns, map (fun e => if is_sun e then with_light e 0 else e) es) /\
    sum_light suns = rsum (map sun_part es) + w_sun w + w_sun2 w.
Proof.
  intros fuel rnd at2 w n es H W D DE.
  assert (ONE : forall n light v dev t, 0 <= dev -> exists l n', setup_sun (S fuel) rnd at2 w n light v dev t = Some (l, n') /\ sum_light l = light).
  { intros n0 light v dev t D0. destruct (Req_EM_T light 0) as [-> |L].
    - unfold setup_sun. rewrite sun_more_spec by assumption. eexists. eexists. split; [reflexivity|]. unfold Rdiv. rewrite Rmult_0_l.
      unfold add_sun. destruct (Req_EM_T 0 0) as [_|X]; [|contradiction X; reflexivity].
      assert (Z0 : forall l : list nat, flat_map (fun _ : nat => @nil sun) l = []) by (induction l; auto).
      rewrite Z0. destruct (_ <? 1)%Z; reflexivity.
    - destruct (C138_sun fuel rnd at2 w n0 light v dev t H D0 W L) as (l & E & _ & S & _). eexists. eexists. split; [exact E|exact S]. }
  assert (ENT : forall es n, (forall e, In e es -> 0 <= le_dev e) -> exists l n', ent_suns (S fuel) rnd at2 w n es =
     Some (l, map (fun e => if is_sun e then with_light e 0 else e) es, n') /\ sum_light l = rsum (map sun_part es)).
  { clear es DE n. induction es as [|e es IH]; intros n DE; [exists []; exists n; split; reflexivity|].
    cbn [ent_suns map]. unfold rsum. cbn [fold_right]. fold (rsum (map sun_part es)). unfold sun_part at 1. destruct (is_sun e).
    - destruct (ONE n (le_light e) (sun_vector e) (le_dev e) (le_tag e) (DE e (or_introl eq_refl))) as (l & n1 & -> & S).
      destruct (IH n1 (fun x I => DE x (or_intror I))) as (l2 & n2 & -> & S2). eexists. eexists. split; [reflexivity|]. rewrite sum_light_app, S, S2. reflexivity.
    - destruct (IH n (fun x I => DE x (or_intror I))) as (l2 & n2 & -> & S2). eexists. eexists. split; [reflexivity|]. cbn [app]. rewrite S2. lra. }
  unfold setup_suns. destruct (ENT es n DE) as (l & n1 & -> & S0).
  destruct (ONE n1 (w_sun w) (w_sunvec w) (w_dev w) (world_tag w (w_suncolor w) (w_sundirt w)) D) as (l1 & n2 & -> & S1).
  destruct (Req_EM_T (w_sun2 w) 0) as [E|E].
  - eexists. split; [reflexivity|]. rewrite !sum_light_app, S0, S1, E. change (sum_light []) with 0. lra.
  - destruct (ONE n2 (w_sun2 w) (w_sun2vec w) (w_dev w) (world_tag w (w_sun2color w) (w_sundirt w)) D) as (l2 & n3 & -> & S2).
    eexists. split; [reflexivity|]. rewrite !sum_light_app, S0, S1, S2. lra.
Qed.
Print Assumptions C138_suns.

(** The direction of the sun of an entity: towards its target (whatever the mangle is). *)
Theorem C138_target : forall fuel rnd at2 w n e p, (forall k, 0 <= rnd k <= 1) -> 0 <= le_dev e -> (1 <= w_samples w)%Z -> is_sun e = true ->
  le_target e = Some p -> exists s l' n',
  setup_sun (S fuel) rnd at2 w n (le_light e) (sun_vector e) (le_dev e) (le_tag e) = Some (s :: l', n') /\
  sn_vec s = WindClipModel.scale (-16384) (normalize (sub p (le_origin e))).
Proof.
  intros fuel rnd at2 w n e p H D W S T.
  assert (L : le_light e <> 0) by (unfold is_sun in S; destruct (le_sun e); [|discriminate S]; destruct (Rlt_dec 0 (le_light e)); [lra|discriminate S]).
  destruct (C138_sun fuel rnd at2 w n (le_light e) (sun_vector e) (le_dev e) (le_tag e) H D W L) as (l & E & _ & _ & (s & l' & -> & V) & _).
  exists s, l'. eexists. split; [exact E|]. rewrite V. unfold sun_vector. rewrite T. reflexivity.
Qed.
Print Assumptions C138_target.

(** "mangle" is yaw, pitch and roll in degrees; without a target its numbers are taken for the components
    of a vector: a sun that should shine straight down (0 -90 0) shines horizontally. *)
Definition direction (yaw pitch : R) : vec :=
  mkV (cos (yaw * PI / 180) * cos (pitch * PI / 180)) (sin (yaw * PI / 180) * cos (pitch * PI / 180)) (sin (pitch * PI / 180)).
Theorem C138_mangle_refuted : exists e, le_sun e = true /\ 0 < le_light e /\ le_mangle e = mkV 0 (-90) 0 /\
  direction 0 (-90) = mkV 0 0 (-1) /\ normalize (sun_vector e) = mkV 0 (-1) 0.
Proof.
  exists (mkLE 100 Linear 0 1 true false false (mkV 0 0 0) (mkV 0 (-90) 0) None no_tag). cbn [le_sun le_light le_mangle].
  split; [reflexivity|]. split; [lra|]. split; [reflexivity|]. split.
  - unfold direction. replace (0 * PI / 180) with 0 by lra. replace (-90 * PI / 180) with (- (PI / 2)) by lra.
    rewrite cos_0, sin_0, cos_neg, sin_neg, cos_PI2, sin_PI2. f_equal; lra.
  - unfold sun_vector. cbn [le_target le_mangle]. unfold dot. cbn [vx vy vz]. destruct (Rlt_dec _ _) as [_|X]; [|exfalso; apply X; lra].
    unfold normalize, len, dot. cbn [vx vy vz]. replace (0 * 0 + -90 * -90 + 0 * 0) with (90 * 90) by lra. rewrite sqrt_square by lra.
    destruct (Req_EM_T 90 0); [lra|]. unfold WindClipModel.scale. cbn [vx vy vz]. f_equal; lra.
Qed.
Print Assumptions C138_mangle_refuted.

(** A sun whose formula divides the light by the number of samples gets no copies: all its suns together
    have a fraction of the light asked for. *)
Theorem C138_sun_divided_refuted : forall fuel rnd at2 w n n1 e, (forall k, 0 <= rnd k <= 1) -> (1 <= w_samples w)%Z -> w_dev w = 0 -> w_sun w = 0 -> w_sun2 w = 0 ->
  le_sun e = true -> 0 < le_light e -> 0 < le_dev e -> (1 < le_samples e)%Z -> divided (w_addmin w) (le_formula e) = true ->
  exists suns l, setup_suns (S fuel) rnd at2 w n1 (jitter_all rnd n (map (check_samples (w_addmin w)) [e])) = Some (suns, l) /\
    sum_light suns = le_light e / IZR (le_samples e) /\ sum_light suns < le_light e.
Proof.
  intros fuel rnd at2 w n n1 e H W D S1 S2 Sn L Dv Sm Di.
  destruct (C138_samples (w_addmin w) e) as (A & B & C & E). set (c := check_samples (w_addmin w) e) in *.
  destruct B as [(_ & _ & [B|[B _]])|(B1 & B2 & B3 & B4)]; [lra|lia|].
  assert (B5 : le_samples c = le_samples e) by (rewrite B4; destruct (Z.eqb_spec (le_samples e) 0); [lia|reflexivity]).
  rewrite Di, B5 in C. assert (P : 2 <= IZR (le_samples e)) by (apply IZR_le; lia).
  assert (LC : le_light c = le_light e / IZR (le_samples e)) by (rewrite C; field; lra).
  assert (LP : 0 < le_light c) by (rewrite LC; apply Rdiv_lt_0_compat; lra).
  assert (SC : le_sun c = true) by (rewrite E; exact Sn).
  cbn [map]. fold c. unfold jitter_all. cbn [jitter_new app]. unfold jitter_one. rewrite SC. cbn [app].
  destruct (C138_suns fuel rnd at2 w n1 [c] H W ltac:(lra)) as (suns & X & Y); [intros x [<- |[]]; lra|].
  exists suns. eexists. split; [exact X|]. rewrite Y. unfold sun_part, is_sun, rsum. cbn [map fold_right]. rewrite SC.
  destruct (Rlt_dec 0 (le_light c)) as [_|Q]; [|lra]. rewrite LC, S1, S2. split; [lra|].
  assert (le_light e / IZR (le_samples e) < le_light e); [|lra]. apply Rmult_lt_reg_r with (IZR (le_samples e)); [lra|]. unfold Rdiv. rewrite Rmult_assoc, Rinv_l by lra. nra.
Qed.
Print Assumptions C138_sun_divided_refuted.

(** A dome: 4 es^2 + 1 directions (row i of 4 es suns turned by i / es of a step, and the vertical), all
    of length one and from above, with no sideways light in sum; the suns of the upper half shine along
    them, those of the lower half along their mirror images, each half together as bright as asked for.
    es is the integer nearest to the root of a quarter of the samples (at least 1). *)
Theorem C138_dome : forall w l2 t2 l3 t3, (1 <= w_samples w)%Z -> 0 < l2 \/ 0 < l3 ->
  exists es, (1 <= es)%nat /\
  let num := INR (4 * es * es + 1) in
  let mk t l d := mkSun (WindClipModel.scale (-16384) d) l (t_color t) (t_anglescale t) (resolve_dirt w (t_dirt t)) (t_style t) (t_tex t) in
  sky_dome w l2 t2 l3 t3 = flat_map (fun d => (if Rlt_dec 0 l2 then [mk t2 (l2 / num) d] else []) ++ (if Rlt_dec 0 l3 then [mk t3 (l3 / num) (flip d)] else [])) (dome_dirs es) /\
  length (dome_dirs es) = (4 * es * es + 1)%nat /\
  (forall d, In d (dome_dirs es) -> dot d d = 1 /\ vz d < 0) /\
  rsum (map vx (dome_dirs es)) = 0 /\ rsum (map vy (dome_dirs es)) = 0 /\
  sum_light (sky_dome w l2 t2 l3 t3) = Rmax 0 l2 + Rmax 0 l3 /\
  ((5 <= w_samples w)%Z -> Rabs (INR es - sqrt (IZR ((w_samples w - 1) / 4))) < 1 / 2).
Proof.
  intros w l2 t2 l3 t3 W P. pose proof (elevations_pos (w_samples w)) as E. exists (Z.to_nat (elevations (w_samples w))). set (es := Z.to_nat (elevations (w_samples w))).
  assert (E1 : (1 <= es)%nat) by (unfold es; lia). split; [exact E1|]. cbn zeta.
  destruct (dome_dirs_spec es E1) as (D1 & D2 & D3 & D4).
  replace (es * 4 * es + 1)%nat with (4 * es * es + 1)%nat in * by lia. set (num := INR (4 * es * es + 1)).
  assert (N1 : 1 <= num) by (unfold num; change 1 with (INR 1) at 1; apply le_INR; lia).
  assert (SP : forall l, (if Rlt_dec 0 (l / num) then true else false) = (if Rlt_dec 0 l then true else false)).
  { intros l. assert (X : l = l / num * num) by (field; lra). destruct (Rlt_dec 0 (l / num)), (Rlt_dec 0 l); auto; exfalso; nra. }
  set (mk := fun t l d => mkSun (WindClipModel.scale (-16384) d) l (t_color t) (t_anglescale t) (resolve_dirt w (t_dirt t)) (t_style t) (t_tex t)).
  assert (EQ : sky_dome w l2 t2 l3 t3 = flat_map (fun d => (if Rlt_dec 0 l2 then [mk t2 (l2 / num) d] else []) ++ (if Rlt_dec 0 l3 then [mk t3 (l3 / num) (flip d)] else [])) (dome_dirs es)).
  { rewrite (sky_dome_spec w l2 t2 l3 t3 P). fold es. replace (es * 4 * es + 1)%nat with (4 * es * es + 1)%nat by lia. fold num.
    rewrite (flat_map_concat_map _ (dome_dirs es)), (flat_map_concat_map _ (dome_dirs es)). f_equal. apply map_ext_in. intros d Id. destruct (D2 d Id) as [U _].
    assert (UF : dot (flip d) (flip d) = 1) by (rewrite <- U; unfold dot, flip; cbn [vx vy vz]; ring).
    unfold dome_pair. f_equal.
    - specialize (SP l2). destruct (Rlt_dec 0 (l2 / num)) as [X|X], (Rlt_dec 0 l2); try discriminate SP; [|reflexivity].
      rewrite add_sun_some by lra. rewrite (normalize_unit_id d U). reflexivity.
    - specialize (SP l3). destruct (Rlt_dec 0 (l3 / num)) as [X|X], (Rlt_dec 0 l3); try discriminate SP; [|reflexivity].
      rewrite add_sun_some by lra. rewrite (normalize_unit_id _ UF). reflexivity. }
  split; [exact EQ|]. split; [exact D1|]. split; [exact D2|]. split; [exact D3|]. split; [exact D4|]. split.
  - rewrite EQ. assert (G : forall dl, sum_light (flat_map (fun d => (if Rlt_dec 0 l2 then [mk t2 (l2 / num) d] else []) ++ (if Rlt_dec 0 l3 then [mk t3 (l3 / num) (flip d)] else [])) dl)
       = INR (length dl) * (Rmax 0 l2 / num + Rmax 0 l3 / num)).
    { induction dl as [|d dl IH]; [cbn; lra|]. cbn [flat_map length]. rewrite !sum_light_app, IH, S_INR.
      assert (S2 : forall l (t : tag) (x : vec), sum_light (if Rlt_dec 0 l then [mk t (l / num) x] else []) = Rmax 0 l / num).
      { intros l t x. destruct (Rlt_dec 0 l) as [P0|P0].
        - rewrite Rmax_right by lra. unfold sum_light, mk. cbn [fold_right sn_light]. ring.
        - rewrite Rmax_left by lra. unfold sum_light, Rdiv. cbn [fold_right]. ring. }
      rewrite !S2. lra. }
    rewrite G, D1. fold num. field. lra.
  - intros W5. unfold es. assert (Q : (1 <= (w_samples w - 1) / 4)%Z) by (apply Z.div_le_lower_bound; lia).
    destruct (rint_sqrt_nearest ((w_samples w - 1) / 4) ltac:(lia)) as [R0 R1].
    assert (R2 : (1 <= rint_sqrt ((w_samples w - 1) / 4))%Z).
    { assert (X : 1 <= sqrt (IZR ((w_samples w - 1) / 4))) by (rewrite <- sqrt_1 at 1; apply sqrt_le_1_alt; apply IZR_le; exact Q).
      apply Rabs_def2 in R1. assert (Y : 0 < IZR (rint_sqrt ((w_samples w - 1) / 4))) by lra. apply lt_IZR in Y. lia. }
    unfold elevations. rewrite Z.max_l by lia. rewrite INR_IZR_INZ, Z2Nat.id by lia. replace (rint_sqrt ((w_samples w - 1) / 4) + 1 - 1)%Z with (rint_sqrt ((w_samples w - 1) / 4)) by lia. exact R1.
Qed.
Print Assumptions C138_dome.

(** All domes: that of worldspawn and one for each entity with a key for it and light; the entity gives no
    other light. *)
Definition dome_part (e : lent) : R := if is_dome e then le_light e else 0.
Theorem C138_domes : forall w es, (1 <= w_samples w)%Z ->
  snd (setup_domes w es) = map (fun e => if is_dome e then with_light e 0 else e) es /\
  sum_light (fst (setup_domes w es)) = Rmax 0 (w_up w) + Rmax 0 (w_down w) + rsum (map dome_part es).
Proof.
  intros w es W.
  assert (SD : forall l2 t2 l3 t3, sum_light (sky_dome w l2 t2 l3 t3) = Rmax 0 l2 + Rmax 0 l3).
  { intros l2 t2 l3 t3. destruct (Rlt_dec 0 l2) as [A|A].
    - destruct (C138_dome w l2 t2 l3 t3 W (or_introl A)) as (k & _ & _ & _ & _ & _ & _ & X & _). exact X.
    - destruct (Rlt_dec 0 l3) as [B|B].
      + destruct (C138_dome w l2 t2 l3 t3 W (or_intror B)) as (k & _ & _ & _ & _ & _ & _ & X & _). exact X.
      + unfold sky_dome. destruct (Rle_dec l2 0), (Rle_dec l3 0); try lra. rewrite !Rmax_left by lra. cbn. lra. }
  unfold setup_domes. cbn [fst snd]. rewrite sum_light_app, SD.
  assert (G : snd (ent_domes w es) = map (fun e => if is_dome e then with_light e 0 else e) es /\ sum_light (fst (ent_domes w es)) = rsum (map dome_part es)).
  { induction es as [|e es [I1 I2]]; [split; reflexivity|]. cbn [ent_domes map]. unfold rsum. cbn [fold_right]. fold (rsum (map dome_part es)).
    unfold dome_part at 1. destruct (is_dome e) eqn:X; cbn [fst snd]; rewrite I1.
    - split; [reflexivity|]. rewrite sum_light_app, I2. unfold is_dome in X. unfold ent_dome.
      destruct (Rlt_dec 0 (le_light e)) as [P|P]; [|destruct (le_up e || le_down e); discriminate X].
      destruct (le_up e); rewrite SD, (Rmax_left 0 0), (Rmax_right 0 (le_light e)) by lra; lra.
    - split; [reflexivity|]. rewrite I2. lra. }
  destruct G as [-> ->]. split; [reflexivity|lra].
Qed.
Print Assumptions C138_domes.

(** A dome entity with both keys has an upper dome only; one with a deviance and the default formula is as
    bright as samples times the light asked for; a sun entity with a negative light stays a point light,
    though worldspawn can have a negative sun. *)
Theorem C138_entities_refuted :
  (forall w e, le_up e = true -> le_down e = true -> 0 < le_light e -> ent_dome w e = sky_dome w (le_light e) (le_tag e) 0 no_tag) /\
  (forall w rnd n e, (1 <= w_samples w)%Z -> w_up w = 0 -> w_down w = 0 -> le_up e = true -> le_sun e = false -> 0 < le_light e -> 0 < le_dev e -> (1 < le_samples e)%Z ->
     le_formula e = Linear ->
     sum_light (fst (setup_domes w (jitter_all rnd n [check_samples (w_addmin w) e]))) = IZR (le_samples e) * le_light e) /\
  (forall e, le_light e <= 0 -> is_sun e = false).
Proof.
  split; [|split].
  - intros w e U _ _. unfold ent_dome. rewrite U. reflexivity.
  - intros w rnd n e W U0 D0 U Sn L Dv Sm Fo. destruct (C138_domes w (jitter_all rnd n [check_samples (w_addmin w) e]) W) as [_ ->].
    rewrite U0, D0. rewrite (Rmax_left 0 0) by lra.
    destruct (C138_samples (w_addmin w) e) as (A & B & C & E). set (c := check_samples (w_addmin w) e) in *.
    destruct B as [(_ & _ & [B|[B _]])|(B1 & B2 & B3 & B4)]; [lra|lia|].
    assert (B5 : le_samples c = le_samples e) by (rewrite B4; destruct (Z.eqb_spec (le_samples e) 0); [lia|reflexivity]).
    rewrite Fo in C. cbn [divided] in C. unfold jitter_all. cbn [jitter_new app]. rewrite app_nil_r. unfold jitter_one.
    assert (SC : le_sun c = false) by (rewrite E; exact Sn). rewrite SC.
    assert (PP : forall x, (exists p, x = with_origin c p) \/ x = c -> dome_part x = le_light e).
    { assert (UC : le_up c = true) by (rewrite E; exact U). intros x [[p ->]| ->]; unfold dome_part, is_dome, with_origin; cbn [le_up le_down le_light]; rewrite UC; cbn [orb];
        destruct (Rlt_dec 0 (le_light c)); lra. }
    cbn [map]. unfold rsum. cbn [fold_right]. rewrite (PP c) by (right; reflexivity). fold (rsum (map dome_part (map (fun j : nat => jitter_copy rnd (n + 3 * j) c) (seq 0 (Z.to_nat (le_samples c - 1)))))).
    assert (K : forall k s, rsum (map dome_part (map (fun j : nat => jitter_copy rnd (n + 3 * j) c) (seq s k))) = INR k * le_light e).
    { induction k as [|k IH]; intros s; [cbn; lra|]. cbn [seq map]. unfold rsum. cbn [fold_right]. rewrite PP by (left; unfold jitter_copy; eexists; reflexivity).
      fold (rsum (map dome_part (map (fun j : nat => jitter_copy rnd (n + 3 * j) c) (seq (S s) k)))). rewrite IH, S_INR. lra. }
    rewrite K, B5, INR_IZR_INZ, Z2Nat.id, minus_IZR by lia. lra.
  - intros e L. unfold is_sun. destruct (le_sun e); [|reflexivity]. destruct (Rlt_dec 0 (le_light e)); [lra|reflexivity].
Qed.
Print Assumptions C138_entities_refuted.

(** One light with two keys wrong, a sun of worldspawn with 64 samples, a dome of 65 suns. *)
Definition ex_world : world := mkW false false 0 64 200 (mkV 255 255 255) (mkV 0 0 (-1)) 4 0 0 (mkV 0 0 0) (mkV 0 0 0) 130 (mkV 255 255 255) 0 (mkV 0 0 0) 0.
Example C138_nontrivial :
  (exists s, setup_suns 1 (fun _ => 1 / 2) (fun _ _ => 0) ex_world 0 [] = Some (s, []) /\ sum_light s = 200) /\
  elevations 64 = 4%Z /\ elevations 8 = 1%Z /\ elevations 2048 = 23%Z /\
  length (sky_dome ex_world 130 no_tag 0 no_tag) = 65%nat /\
  le_samples (check_samples false (mkLE 300 Inverse 10 0 false false false (mkV 0 0 0) (mkV 0 0 0) None no_tag)) = 16%Z.
Proof.
  split; [|split; [reflexivity|split; [reflexivity|split; [reflexivity|split]]]].
  - destruct (C138_suns 0 (fun _ => 1 / 2) (fun _ _ => 0) ex_world 0 []) as (s & E & S); [intros; lra|cbn; lia|cbn; lra|intros e []|].
    exists s. split; [exact E|]. rewrite S. cbn. lra.
  - rewrite sky_dome_spec by lra. change (Z.to_nat (elevations (w_samples ex_world))) with 4%nat.
    destruct (dome_dirs_spec 4 ltac:(lia)) as (L & _). generalize dependent (dome_dirs 4). intros l L.
    assert (G : forall l : list vec, length (flat_map (fun d => dome_pair ex_world d (130 / INR (4 * 4 * 4 + 1)) (0 / INR (4 * 4 * 4 + 1)) no_tag no_tag) l) = length l).
    { assert (N1 : 0 < INR (4 * 4 * 4 + 1)) by (apply lt_0_INR; lia). assert (P1 : 0 < 130 / INR (4 * 4 * 4 + 1)) by (apply Rdiv_lt_0_compat; lra).
      clear L l. induction l as [|d l IH]; [reflexivity|]. cbn [flat_map length]. rewrite app_length, IH. unfold dome_pair.
      destruct (Rlt_dec 0 (130 / INR (4 * 4 * 4 + 1))); [|contradiction]. rewrite add_sun_some by lra.
      destruct (Rlt_dec 0 (0 / INR (4 * 4 * 4 + 1))) as [X|X]; [unfold Rdiv in X; rewrite Rmult_0_l in X; lra|]. reflexivity. }
    rewrite G, L. reflexivity.
  - unfold check_samples. cbn [le_dev le_samples]. destruct (Rlt_dec 0 10); [|lra]. destruct (Rle_dec 10 0); [lra|]. reflexivity.
Qed.
