(* Statements: targets, cones and projected textures of lights (C150). *)
From Coq Require Import String Reals ZArith NArith List Bool Lra Lia Arith.
From Verif Require Import Base CmdlibModel CmdlibProofs NumCastModel ParserModel EntModel MapMergeModel WindClipModel LightValModel LightValProofs LightColProofs SpotModel.
Import ListNotations.
Open Scope string_scope.
Open Scope list_scope.
Open Scope R_scope.

Lemma len_0 a : len a = 0 -> a = mkV 0 0 0.
Proof.
  intro H. destruct a as [x y z]. unfold len, dot in H. cbn [vx vy vz] in H. apply sqrt_eq_0 in H; [|nra].
  assert (x = 0) by nra. assert (y = 0) by nra. assert (z = 0) by nra. subst. reflexivity.
Qed.

(** ** Targets *)
(** The first entity with the name, in any case of letters. *)
Theorem C150_target : forall target ents d, match_target target ents = Some d <->
  target <> [] /\ exists a b, ents = a ++ d :: b /\ map lower (ed_get (mtext "targetname") d) = map lower target /\
    forall e, In e a -> map lower (ed_get (mtext "targetname") e) <> map lower target.
Proof.
  intros target ents d. unfold match_target. destruct target as [|c t]; [split; [discriminate|intros (N & _); congruence]|]. set (tg := c :: t). assert (NE : tg <> []) by discriminate. clearbody tg.
  assert (Q : forall e, iequals tg (ed_get (mtext "targetname") e) = true <-> map lower (ed_get (mtext "targetname") e) = map lower tg) by (intro e; rewrite iequals_iff; split; intro H; symmetry; exact H).
  split.
  - intro H. split; [exact NE|]. induction ents as [|e ents IH]; [discriminate H|]. cbn [find] in H. destruct (iequals tg (ed_get (mtext "targetname") e)) eqn:E.
    + injection H as <-. exists [], ents. split; [reflexivity|]. split; [apply Q, E|intros x []].
    + destruct (IH H) as (a & b & -> & L & A). exists (e :: a), b. split; [reflexivity|]. split; [exact L|]. intros x [<- |I]; [intro X; apply Q in X; congruence|apply A, I].
  - intros (_ & a & b & -> & L & A). induction a as [|e a IH]; cbn [app find]; [rewrite (proj2 (Q d) L); reflexivity|].
    destruct (iequals tg (ed_get (mtext "targetname") e)) eqn:E; [exfalso; apply (A e (or_introl eq_refl)), Q, E|]. apply IH. intros x I. apply A. right. exact I.
Qed.
Print Assumptions C150_target.

(** ** Directions *)
Definition rad (d : R) : R := d * PI / 180.
Definition forward (a : vec) : vec := mkV (cos (rad (vx a)) * cos (rad (vy a))) (sin (rad (vx a)) * cos (rad (vy a))) (sin (rad (vy a))).
Theorem C150_mangle : forall m, vec_from_mangle m = forward m /\ dot (vec_from_mangle m) (vec_from_mangle m) = 1.
Proof.
  intro m. assert (E : vec_from_mangle m = forward m).
  { unfold vec_from_mangle, forward, rad, mul3, rot_z, rot_y, app3, add, scale. cbn [vx vy vz]. rewrite cos_neg, sin_neg. replace (vx m * (PI / 180)) with (vx m * PI / 180) by lra. replace (vy m * (PI / 180)) with (vy m * PI / 180) by lra. f_equal; ring. }
  split; [exact E|]. rewrite E. unfold forward, dot. cbn [vx vy vz]. set (a := rad (vx m)). set (b := rad (vy m)).
  pose proof (sin2_cos2 a) as A. pose proof (sin2_cos2 b) as B. unfold Rsqr in *.
  replace (cos a * cos b * (cos a * cos b) + sin a * cos b * (sin a * cos b) + sin b * sin b) with ((sin a * sin a + cos a * cos a) * (cos b * cos b) + sin b * sin b) by ring. rewrite A. lra.
Qed.
Print Assumptions C150_mangle.
(** A light with a target points at it, one without along its mangle; both are spotlights. *)
Theorem C150_axis : forall q2 l,
  (forall t, p_target l = Some t -> t <> p_origin l -> exists s, spot_of q2 l = Some s /\ dot (s_vec s) (s_vec s) = 1 /\ t = add (p_origin l) (scale (len (sub t (p_origin l))) (s_vec s))) /\
  (forall m, p_target l = None -> p_mangle l = Some m -> exists s, spot_of q2 l = Some s /\ s_vec s = forward m) /\
  (p_target l = None -> p_mangle l = None -> p_texture l = false -> spot_of q2 l = None).
Proof.
  intros q2 l. unfold spot_of, aimed, loaded. split; [|split].
  - intros t -> N. destruct (Req_EM_T (len (sub t (p_origin l))) 0) as [E|E].
    + exfalso. apply N. apply len_0 in E. destruct t as [x y z], (p_origin l) as [a b c]. unfold sub in E. cbn [vx vy vz] in E. injection E as E1 E2 E3. f_equal; lra.
    + eexists. split; [reflexivity|]. cbn [s_vec]. split.
      * set (d := sub t (p_origin l)) in *. assert (LL : dot d d = len d * len d) by (unfold len; rewrite sqrt_sqrt; [reflexivity|unfold dot; nra]).
        replace (dot (scale (/ len d) d) (scale (/ len d) d)) with (/ len d * / len d * dot d d) by (unfold dot, scale; cbn [vx vy vz]; ring). rewrite LL. field. exact E.
      * set (n := len (sub t (p_origin l))) in *. destruct t as [x y z], (p_origin l) as [a b c]. unfold add, scale, sub. cbn [vx vy vz]. f_equal; field; exact E.
  - intros m -> ->. eexists. split; [reflexivity|]. cbn [s_vec]. apply (C150_mangle m).
  - intros -> -> ->. reflexivity.
Qed.
Print Assumptions C150_axis.

(** ** Cones *)
Theorem C150_cone : forall q2 l,
  (forall c, p_cone l = Some c -> c <> 0 -> cone_angle q2 l = 2 * c) /\
  (forall a, p_cone l = None -> p_angle l = Some a -> a <> 0 -> cone_angle q2 l = a) /\
  ((p_cone l = None \/ p_cone l = Some 0) -> (p_angle l = None \/ p_angle l = Some 0 \/ p_cone l = Some 0) -> cone_angle q2 l = if q2 then 20 else 40) /\
  forall s, spot_of q2 l = Some s -> 0 <= cone_angle q2 l <= 360 -> s_fall s = - cos (rad (cone_angle q2 l / 2)) /\ -1 <= s_fall2 s <= s_fall s.
Proof.
  intros q2 l. unfold cone_angle. repeat split.
  - intros c -> N. destruct (Req_EM_T (c * 2) 0); lra.
  - intros a -> -> N. destruct (Req_EM_T a 0); lra.
  - intros [-> | ->] [H|[H|H]]; try discriminate H; rewrite ?H; (match goal with |- context [Req_EM_T ?a 0] => destruct (Req_EM_T a 0) as [_|X]; [destruct q2; lra|exfalso; apply X; lra] | _ => idtac end);
      destruct (p_angle l); (destruct (Req_EM_T (0 * 2) 0) as [_|X]; [destruct q2; lra|exfalso; apply X; lra]).
  - unfold spot_of in H. fold (cone_angle q2 l) in *. destruct (aimed l) as [[on v] d]. destruct on; [|discriminate H]. injection H as <-. reflexivity.
  - unfold spot_of in H. fold (cone_angle q2 l) in *. destruct (aimed l) as [[on v] d]. destruct on; [|discriminate H]. injection H as <-. unfold spot_falls. cbn [s_fall2 snd].
    match goal with |- -1 <= - cos ?x => pose proof (COS_bound x); lra end.
  - unfold spot_of in H. fold (cone_angle q2 l) in *. set (b := cone_angle q2 l) in *. clearbody b. destruct (aimed l) as [[on v] d]. destruct on; [|discriminate H]. injection H as <-. unfold spot_falls. cbn [s_fall2 s_fall fst snd].
    pose proof PI_RGT_0 as P. destruct (Rle_dec (p_soft l) 0); [lra|]. destruct (Rlt_dec b (p_soft l)); [lra|]. apply Ropp_le_contravar. apply cos_decr_1; nra.
Qed.
Print Assumptions C150_cone.
(** A negative angle, as editors write for up and down, is a cone of its absolute value: with "angle" "-1" or "-2" the light is
    a spot of one or two degrees. *)
Theorem C150_angle_refuted : forall q2 l a, p_cone l = None -> p_angle l = Some a -> a < 0 ->
  cone_angle q2 l = a /\ forall s, spot_of q2 l = Some s -> s_fall s = - cos (rad (- a / 2)) /\ s_fall2 s = s_fall s.
Proof.
  intros q2 l a C A N. assert (E : cone_angle q2 l = a) by (unfold cone_angle; rewrite C, A; destruct (Req_EM_T a 0); lra). split; [exact E|].
  intros s H. unfold spot_of in H. rewrite E in H. destruct (aimed l) as [[on v] d]. destruct on; [|discriminate H]. injection H as <-. unfold spot_falls. cbn [s_fall s_fall2 fst snd]. split.
  - rewrite <- cos_neg. unfold rad. f_equal. f_equal. lra.
  - destruct (Rle_dec (p_soft l) 0); [reflexivity|]. destruct (Rlt_dec a (p_soft l)); [reflexivity|lra].
Qed.
Print Assumptions C150_angle_refuted.
(** A light with a projected texture but without mangle, project_mangle and target becomes a spotlight without a direction: it
    lights nothing, whatever its angles are, unless its cone is wider than 180 degrees.  So does a light at its target. *)
Theorem C150_dark_refuted : forall q2 l dir, 0 <= cone_angle q2 l < 180 ->
  p_target l = None /\ p_mangle l = None /\ p_projangle l = None /\ p_texture l = true \/ p_target l = Some (p_origin l) ->
  exists s, spot_of q2 l = Some s /\ spot_scale (Some s) dir = None.
Proof.
  intros q2 l dir B H.
  assert (D : forall v, v = zero -> spot_scale (Some (mkSpot v (fst (spot_falls (cone_angle q2 l) (p_soft l))) (snd (spot_falls (cone_angle q2 l) (p_soft l))))) dir = None).
  { intros v ->. unfold spot_scale, spot_falls. cbn [s_vec s_fall s_fall2 fst snd]. replace (dot zero dir) with 0 by (unfold dot, zero; cbn [vx vy vz]; ring).
    pose proof PI_RGT_0 as P. assert (0 < cos (cone_angle q2 l / 2 * PI / 180)) by (apply cos_gt_0; nra). destruct (Rlt_dec _ 0); [reflexivity|lra]. }
  unfold spot_of, aimed, loaded. destruct H as [(-> & -> & -> & ->)| ->].
  - eexists. split; [reflexivity|]. apply D. reflexivity.
  - assert (Z : sub (p_origin l) (p_origin l) = zero) by (unfold sub, zero; f_equal; ring). rewrite Z. assert (L : len zero = 0) by (unfold len, dot, zero; cbn [vx vy vz]; replace (0 * 0 + 0 * 0 + 0 * 0) with 0 by ring; apply sqrt_0).
    rewrite L. destruct (Req_EM_T 0 0) as [_|X]; [|congruence]. eexists. split; [reflexivity|]. apply D. reflexivity.
Qed.
Print Assumptions C150_dark_refuted.
(** The automatic falloff of a spotlight with a target and no falloff of its own: everything in the cone up to the plane through
    the target is within it; p is off the axis by the angle th. *)
Theorem C150_autofalloff : forall q2 l t s p th, p_target l = Some t -> t <> p_origin l -> p_fall l = 0 -> spot_of q2 l = Some s ->
  0 < cone_angle q2 l < 180 -> 0 <= th <= rad (cone_angle q2 l / 2) ->
  dot (sub p (p_origin l)) (s_vec s) = len (sub p (p_origin l)) * cos th -> dot (sub p (p_origin l)) (s_vec s) <= len (sub t (p_origin l)) ->
  len (sub p (p_origin l)) <= fall_of q2 true l /\ fall_of q2 false l = 0.
Proof.
  intros q2 l t s p th T N F S B TH D LE.
  assert (L0 : 0 < len (sub t (p_origin l))).
  { destruct (len_nonneg (sub t (p_origin l))) as [X|X]; [exact X|]. symmetry in X. exfalso. apply N. apply len_0 in X. destruct t as [x y z], (p_origin l) as [a b c]. unfold sub in X. cbn [vx vy vz] in X. injection X as E1 E2 E3. f_equal; lra. }
  unfold fall_of, aimed. rewrite T, F. cbn [andb]. split; [|reflexivity]. destruct (Rlt_dec 0 (len (sub t (p_origin l)))) as [_|X]; [|contradiction]. destruct (Req_EM_T 0 0) as [_|X]; [|congruence]. cbn [andb].
  set (d := len (sub t (p_origin l))) in *. set (e := len (sub p (p_origin l))) in *. pose proof PI_RGT_0 as P. unfold rad in TH. set (a := cone_angle q2 l / 2 * PI / 180) in *.
  assert (A : 0 < a < PI / 2) by (unfold a; split; nra). clearbody a. assert (CA : 0 < cos a) by (apply cos_gt_0; lra). assert (SA : 0 < sin a) by (apply sin_gt_0; lra).
  assert (CT : cos a <= cos th) by (apply cos_decr_1; lra). assert (E0 : 0 <= e) by (unfold e, len; apply sqrt_pos). rewrite D in LE.
  assert (E1 : e * cos a <= d) by nra. assert (SC : 1 <= cos a + sin a). { pose proof (sin2_cos2 a) as Q. unfold Rsqr in Q. pose proof (COS_bound a). pose proof (SIN_bound a). nra. }
  assert (E2 : e <= d + d * tan a).
  { unfold tan. apply (Rmult_le_reg_r (cos a)); [exact CA|]. replace ((d + d * (sin a / cos a)) * cos a) with (d * (cos a + sin a)) by (field; lra). nra. }
  eapply Rle_trans; [exact E2|apply Rmax_r].
Qed.
Print Assumptions C150_autofalloff.

(** ** Projected textures *)
(** Right and up of a texture seen from the light, with the roll. *)
Definition side0 (a : vec) : vec := mkV (sin (rad (vx a))) (- cos (rad (vx a))) 0.
Definition up0 (a : vec) : vec := mkV (- (cos (rad (vx a)) * sin (rad (vy a)))) (- (sin (rad (vx a)) * sin (rad (vy a)))) (cos (rad (vy a))).
Definition rightward (a : vec) : vec := sub (scale (cos (rad (vz a))) (side0 a)) (scale (sin (rad (vz a))) (up0 a)).
Definition upward (a : vec) : vec := add (scale (sin (rad (vz a))) (side0 a)) (scale (cos (rad (vz a))) (up0 a)).
Definition at_frame (a org : vec) (d x y : R) : vec := add org (add (scale d (forward a)) (add (scale x (rightward a)) (scale y (upward a)))).

Lemma app_mul m n v : app4 (mul4 m n) v = app4 m (app4 n v).
Proof.
  destruct m as [[[[[[a0 a1] a2] a3] [[[b0 b1] b2] b3]] [[[c0 c1] c2] c3]] [[[d0 d1] d2] d3]], n as [[[[[[e0 e1] e2] e3] [[[f0 f1] f2] f3]] [[[g0 g1] g2] g3]] [[[h0 h1] h2] h3]], v as [[[x y] z] w].
  unfold mul4, app4, add4, scale4. repeat (f_equal; try ring).
Qed.
(** Every point is somewhere in the frame of a light. *)
Theorem C150_frame : forall a,
  dot (forward a) (forward a) = 1 /\ dot (rightward a) (rightward a) = 1 /\ dot (upward a) (upward a) = 1 /\
  dot (forward a) (rightward a) = 0 /\ dot (forward a) (upward a) = 0 /\ dot (rightward a) (upward a) = 0.
Proof.
  intro a. unfold forward, rightward, upward, side0, up0, add, sub, scale, dot. cbn [vx vy vz].
  pose proof (sin2_cos2 (rad (vx a))) as A. pose proof (sin2_cos2 (rad (vy a))) as B. pose proof (sin2_cos2 (rad (vz a))) as C. unfold Rsqr in *.
  set (c1 := cos (rad (vx a))) in *. set (s1 := sin (rad (vx a))) in *. set (c2 := cos (rad (vy a))) in *. set (s2 := sin (rad (vy a))) in *. set (c3 := cos (rad (vz a))) in *. set (s3 := sin (rad (vz a))) in *. clearbody c1 s1 c2 s2 c3 s3.
  assert (A' : c1 * c1 = 1 - s1 * s1) by lra. assert (B' : c2 * c2 = 1 - s2 * s2) by lra. assert (C' : c3 * c3 = 1 - s3 * s3) by lra.
  repeat split; ring_simplify; repeat (match goal with |- context [c1 ^ 2] => replace (c1 ^ 2) with (1 - s1 * s1) by lra | |- context [c2 ^ 2] => replace (c2 ^ 2) with (1 - s2 * s2) by lra | |- context [c3 ^ 2] => replace (c3 ^ 2) with (1 - s3 * s3) by lra end); ring.
Qed.
Print Assumptions C150_frame.

(** Eye coordinates of a point in the frame. *)
Lemma modelview_frame a org d x y : app4 (modelview a org) (vx (at_frame a org d x y), vy (at_frame a org d x y), vz (at_frame a org d x y), 1) = (x, y, - d, 1).
Proof.
  unfold modelview. rewrite !app_mul. unfold at_frame, forward, rightward, upward, side0, up0, add, sub, scale. cbn [vx vy vz].
  unfold translation, rotation, crazy, app4, add4, scale4. cbn beta iota zeta.
  replace (- vx a * PI / 180) with (- rad (vx a)) by (unfold rad; lra). replace (- vz a * PI / 180) with (- rad (vz a)) by (unfold rad; lra). fold (rad (vy a)). rewrite !cos_neg, !sin_neg.
  pose proof (sin2_cos2 (rad (vx a))) as A. pose proof (sin2_cos2 (rad (vy a))) as B. pose proof (sin2_cos2 (rad (vz a))) as C. unfold Rsqr in *.
  set (c1 := cos (rad (vx a))) in *. set (s1 := sin (rad (vx a))) in *. set (c2 := cos (rad (vy a))) in *. set (s2 := sin (rad (vy a))) in *. set (c3 := cos (rad (vz a))) in *. set (s3 := sin (rad (vz a))) in *. clearbody c1 s1 c2 s2 c3 s3.
  destruct org as [ox oy oz]. cbn [vx vy vz]. clear a.
  assert (A' : c1 ^ 2 = 1 - s1 ^ 2) by lra. assert (B' : c2 ^ 2 = 1 - s2 ^ 2) by lra. assert (C' : c3 ^ 2 = 1 - s3 ^ 2) by lra.
  repeat match goal with |- (_, _) = (_, _) => f_equal end; ring_simplify; repeat (rewrite ?A', ?B', ?C'; ring_simplify); ring.
Qed.
(** The matrix of a light: a point d in front of the light, x to the right and y up is at these places of the texture; no point
    that is less than 16 units in front is, nor any behind. *)
Theorem C150_project : forall a org fovx fovy d x y, 0 < fovx < 180 -> 0 < fovy < 180 ->
  (16 <= d -> exists z, project (viewproj a org fovx fovy) (at_frame a org d x y) = Some (mkV ((1 + x / (d * tan (rad (fovx / 2)))) / 2) ((1 + y / (d * tan (rad (fovy / 2)))) / 2) z)) /\
  (d < 16 -> project (viewproj a org fovx fovy) (at_frame a org d x y) = None).
Proof.
  intros a org fovx fovy d x y FX FY. unfold project, viewproj. rewrite app_mul, modelview_frame.
  pose proof PI_RGT_0 as P.
  assert (TX : 0 < tan (rad (fovx / 2))) by (apply tan_gt_0; unfold rad; nra). assert (TY : 0 < tan (rad (fovy / 2))) by (apply tan_gt_0; unfold rad; nra).
  assert (PX : app4 (projection fovx fovy 4) (x, y, - d, 1) = (x / tan (rad (fovx / 2)), y / tan (rad (fovy / 2)), d / 2 - 8, d)).
  { unfold projection. replace (fovy * PI / 360) with (rad (fovy / 2)) by (unfold rad; lra). replace (fovx * PI / 360) with (rad (fovx / 2)) by (unfold rad; lra).
    replace (if Req_EM_T fovx fovy then 4 * tan (rad (fovy / 2)) else 4 * tan (rad (fovx / 2))) with (4 * tan (rad (fovx / 2))) by (destruct (Req_EM_T fovx fovy) as [-> |]; reflexivity).
    replace (if Req_EM_T fovx fovy then - (4 * tan (rad (fovy / 2))) else - (4 * tan (rad (fovx / 2)))) with (- (4 * tan (rad (fovx / 2)))) by (destruct (Req_EM_T fovx fovy) as [-> |]; reflexivity).
    set (tx := tan (rad (fovx / 2))) in *. set (ty := tan (rad (fovy / 2))) in *. clearbody tx ty. unfold app4, add4, scale4. repeat match goal with |- (_, _) = (_, _) => f_equal end; field; lra. }
  rewrite PX. cbn [vx vy vz]. split.
  - intro D. destruct (Rlt_dec (d / 2 - 8) 0) as [X|_]; [lra|]. destruct (Rlt_dec 1 ((1 + (d / 2 - 8) / d) / 2)) as [X|_].
    + exfalso. assert ((d / 2 - 8) / d < 1). { apply (Rmult_lt_reg_r d); [lra|]. unfold Rdiv at 1. rewrite Rmult_assoc, Rinv_l by lra. lra. } lra.
    + eexists. f_equal. f_equal; f_equal; f_equal; field; lra.
  - intro D. destruct (Rlt_dec (d / 2 - 8) 0) as [_|X]; [reflexivity|lra].
Qed.
Print Assumptions C150_project.
(** The axis of a spotlight with a mangle is the middle of its texture. *)
Theorem C150_middle : forall q2 l s fovx fovy d, p_target l = None -> p_projangle l = None -> p_mangle l <> None -> spot_of q2 l = Some s -> 0 < fovx < 180 -> 0 < fovy < 180 -> 16 <= d ->
  exists z, project (viewproj (projangle l) (p_origin l) fovx fovy) (add (p_origin l) (scale d (s_vec s))) = Some (mkV (1 / 2) (1 / 2) z).
Proof.
  intros q2 l s fovx fovy d T PA M S FX FY D. destruct (p_mangle l) as [m|] eqn:EM; [|congruence]. unfold projangle. rewrite PA, EM.
  destruct (proj1 (proj2 (C150_axis q2 l)) m T EM) as (s2 & S2 & V). rewrite S in S2. injection S2 as <-. rewrite V.
  destruct (proj1 (C150_project m (p_origin l) fovx fovy d 0 0 FX FY) D) as (z & E). exists z.
  replace (add (p_origin l) (scale d (forward m))) with (at_frame m (p_origin l) d 0 0).
  - rewrite E. f_equal. unfold Rdiv. rewrite !Rmult_0_l. f_equal; lra.
  - unfold at_frame. f_equal. unfold add, scale. cbn [vx vy vz]. f_equal; ring.
Qed.
Print Assumptions C150_middle.

(** Pixels are square: the longer side has the field of view of the key, which is checked. *)
Theorem C150_fov : forall fov w h, (0 < w)%Z -> (0 < h)%Z ->
  (light_fovs fov w h = None <-> fov < 1 \/ 179 < fov) /\
  forall fx fy, light_fovs fov w h = Some (fx, fy) -> 0 < fx < 180 /\ 0 < fy < 180 /\ tan (rad (fx / 2)) * IZR h = tan (rad (fy / 2)) * IZR w /\
    (if (h <? w)%Z then fx else fy) = fov.
Proof.
  intros fov w h W H. apply IZR_lt in W, H. pose proof PI_RGT_0 as P.
  assert (C : forall a b, 0 < a -> 0 < b -> (calc_fov fov a b = None <-> fov < 1 \/ 179 < fov) /\ forall f, calc_fov fov a b = Some f -> 1 <= fov <= 179 /\ 0 < f < 180 /\ tan (rad (f / 2)) * a = tan (rad (fov / 2)) * b).
  { intros a b A B. unfold calc_fov. destruct (Rlt_dec fov 1); [split; [tauto|discriminate]|]. destruct (Rlt_dec 179 fov); [split; [tauto|discriminate]|]. split; [split; [discriminate|lra]|].
    intros f E. injection E as <-. replace (fov / 360 * PI) with (rad (fov / 2)) by (unfold rad; lra).
    assert (T : 0 < tan (rad (fov / 2))) by (apply tan_gt_0; unfold rad; nra). set (t := tan (rad (fov / 2))) in *. clearbody t.
    assert (X : 0 < b / (a / t)) by (apply Rdiv_lt_0_compat; [exact B|apply Rdiv_lt_0_compat; assumption]). set (q := b / (a / t)) in *.
    pose proof (atan_bound q) as AB. assert (A0 : 0 < atan q) by (rewrite <- atan_0; apply atan_increasing; exact X). split; [lra|]. split.
    - split; [apply Rdiv_lt_0_compat; lra|]. apply (Rmult_lt_reg_r PI); [exact P|]. unfold Rdiv. rewrite Rmult_assoc, Rinv_l by lra. nra.
    - replace (rad (atan q * 360 / PI / 2)) with (atan q) by (unfold rad; field; lra). rewrite tan_atan. unfold q. field. split; lra. }
  unfold light_fovs. destruct (h <? w)%Z.
  - destruct (C (IZR w) (IZR h) W H) as (N & S). destruct (calc_fov fov (IZR w) (IZR h)) as [f|]; cbn [option_map]; [|split; [split; [intros _; apply N; reflexivity|reflexivity]|discriminate]]. split.
    + split; [discriminate|]. intro X. apply N in X. discriminate X.
    + intros fx fy E. injection E as <- <-. destruct (S f eq_refl) as (F1 & F2 & F3). split; [lra|]. split; [exact F2|]. split; [symmetry; exact F3|reflexivity].
  - destruct (C (IZR h) (IZR w) H W) as (N & S). destruct (calc_fov fov (IZR h) (IZR w)) as [f|]; cbn [option_map]; [|split; [split; [intros _; apply N; reflexivity|reflexivity]|discriminate]]. split.
    + split; [discriminate|]. intro X. apply N in X. discriminate X.
    + intros fx fy E. injection E as <- <-. destruct (S f eq_refl) as (F1 & F2 & F3). split; [exact F2|]. split; [lra|]. split; [exact F3|reflexivity].
Qed.
Print Assumptions C150_fov.

(** Reading a texture never leaves it, whatever the matrix and the point are; the colour is at most twice that of a pixel. *)
Theorem C150_texel : forall w h px m p, (0 < w)%Z -> (0 < h)%Z -> Z.of_nat (length px) = (w * h)%Z ->
  (forall c, In c px -> 0 <= vx c <= 255 /\ 0 <= vy c <= 255 /\ 0 <= vz c <= 255) ->
  exists c, sample_tex w h px m p = Some c /\ 0 <= vx c <= 510 /\ 0 <= vy c <= 510 /\ 0 <= vz c <= 510.
Proof.
  intros w h px m p W H L B. unfold sample_tex. assert (Z0 : 0 <= vx zero <= 510 /\ 0 <= vy zero <= 510 /\ 0 <= vz zero <= 510) by (unfold zero; cbn [vx vy vz]; lra).
  destruct (project m p) as [c|]; [|exists zero; split; [reflexivity|exact Z0]].
  destruct (Rle_dec (vx c) 0); [exists zero; split; [reflexivity|exact Z0]|]. destruct (Rle_dec 1 (vx c)); [exists zero; split; [reflexivity|exact Z0]|]. destruct (Rle_dec (vy c) 0); [exists zero; split; [reflexivity|exact Z0]|]. destruct (Rle_dec 1 (vy c)); [exists zero; split; [reflexivity|exact Z0]|].
  assert (PX : forall s t, exists q, pixel w h px s t = Some q /\ (0 <= vx q <= 255 /\ 0 <= vy q <= 255 /\ 0 <= vz q <= 255)).
  { intros s t. unfold pixel. pose proof (Z.mod_pos_bound s w W). pose proof (Z.mod_pos_bound t h H). assert (0 <= s mod w + w * (t mod h) < w * h)%Z by nia.
    destruct (nth_error px (Z.to_nat (s mod w + w * (t mod h)))) as [q|] eqn:E; [exists q; split; [reflexivity|apply B; eapply nth_error_In; exact E]|]. apply nth_error_None in E. lia. }
  cbv zeta. set (s := vx c * IZR (w - 1)). set (t := (1 - vy c) * IZR (h - 1)). destruct (base_Int_part s) as (S1 & S2). destruct (base_Int_part t) as (T1 & T2).
  destruct (PX (Int_part s) (Int_part t)) as (q1 & -> & Q1). destruct (PX (Int_part s + 1)%Z (Int_part t)) as (q2 & -> & Q2). destruct (PX (Int_part s) (Int_part t + 1)%Z) as (q3 & -> & Q3). destruct (PX (Int_part s + 1)%Z (Int_part t + 1)%Z) as (q4 & -> & Q4).
  eexists. split; [reflexivity|]. unfold add, scale. cbn [vx vy vz]. set (f := s - IZR (Int_part s)) in *. set (g := t - IZR (Int_part t)) in *.
  assert (F : 0 <= f <= 1) by (unfold f; lra). assert (G : 0 <= g <= 1) by (unfold g; lra). clearbody f g.
  assert (K : forall a b e d, 0 <= a <= 255 -> 0 <= b <= 255 -> 0 <= e <= 255 -> 0 <= d <= 255 -> 0 <= 2 * ((1 - f) * (1 - g) * a + f * (1 - g) * b + (1 - f) * g * e + f * g * d) <= 510).
  { intros a b e d A1 B1 E1 D1. assert (W1 : 0 <= (1 - f) * (1 - g)) by nra. assert (W2 : 0 <= f * (1 - g)) by nra. assert (W3 : 0 <= (1 - f) * g) by nra. assert (W4 : 0 <= f * g) by nra.
    assert ((1 - f) * (1 - g) * a <= (1 - f) * (1 - g) * 255) by (apply Rmult_le_compat_l; lra). assert (f * (1 - g) * b <= f * (1 - g) * 255) by (apply Rmult_le_compat_l; lra). assert ((1 - f) * g * e <= (1 - f) * g * 255) by (apply Rmult_le_compat_l; lra). assert (f * g * d <= f * g * 255) by (apply Rmult_le_compat_l; lra).
    assert (0 <= (1 - f) * (1 - g) * a) by (apply Rmult_le_pos; lra). assert (0 <= f * (1 - g) * b) by (apply Rmult_le_pos; lra). assert (0 <= (1 - f) * g * e) by (apply Rmult_le_pos; lra). assert (0 <= f * g * d) by (apply Rmult_le_pos; lra). lra. }
  repeat split; apply K; tauto.
Qed.
Print Assumptions C150_texel.
(** The colour is interpolated between the four pixels around the place, with the first row at the top. *)
Theorem C150_bilinear : forall w h px m p c (i j : Z) f g, project m p = Some c -> 0 < vx c < 1 -> 0 < vy c < 1 ->
  (0 <= i)%Z -> (i + 1 < w)%Z -> (0 <= j)%Z -> (j + 1 < h)%Z -> Z.of_nat (length px) = (w * h)%Z -> 0 <= f < 1 -> 0 <= g < 1 ->
  vx c = (IZR i + f) / IZR (w - 1) -> 1 - vy c = (IZR j + g) / IZR (h - 1) ->
  let q a b := nth (Z.to_nat (a + w * b)) px zero in
  sample_tex w h px m p = Some (scale 2 (add (scale (1 - g) (add (scale (1 - f) (q i j)) (scale f (q (i + 1)%Z j))))
                                             (scale g (add (scale (1 - f) (q i (j + 1)%Z)) (scale f (q (i + 1)%Z (j + 1)%Z)))))).
Proof.
  intros w h px m p c i j f g PR X Y I IW J JH L F G EX EY q. unfold sample_tex. rewrite PR.
  destruct (Rle_dec (vx c) 0); [lra|]. destruct (Rle_dec 1 (vx c)); [lra|]. destruct (Rle_dec (vy c) 0); [lra|]. destruct (Rle_dec 1 (vy c)); [lra|].
  assert (W1 : 0 < IZR (w - 1)) by (apply IZR_lt; lia). assert (H1 : 0 < IZR (h - 1)) by (apply IZR_lt; lia). cbv zeta.
  replace (vx c * IZR (w - 1)) with (IZR i + f) by (rewrite EX; field; lra). replace ((1 - vy c) * IZR (h - 1)) with (IZR j + g) by (rewrite EY; field; lra).
  assert (IP : Int_part (IZR i + f) = i) by (apply int_unique; lra). assert (JP : Int_part (IZR j + g) = j) by (apply int_unique; lra). rewrite IP, JP.
  assert (PX : forall a b, (0 <= a < w)%Z -> (0 <= b < h)%Z -> pixel w h px a b = Some (q a b)).
  { intros a b A B. unfold pixel, q. rewrite !Z.mod_small by lia. apply nth_error_nth'. assert (0 <= a + w * b < w * h)%Z by nia. lia. }
  rewrite !PX by lia. f_equal. f_equal. unfold add, scale. cbn [vx vy vz]. f_equal; ring.
Qed.
Print Assumptions C150_bilinear.

(** A light that looks along y; its cone of 40 degrees; a point 32 units in front, 8 to the right and 8 up. *)
Example C150_nontrivial :
  let l := mkLamp (Some (mkV 90 0 0)) None (mkV 0 0 0) true None None 0 0 (mkV 100 0 0) None in
  (exists s, spot_of false l = Some s /\ s_vec s = mkV 0 1 0) /\ cone_angle false l = 40 /\
  exists z, project (viewproj (projangle l) (p_origin l) 90 90) (mkV 108 32 8) = Some (mkV (5 / 8) (5 / 8) z).
Proof.
  intro l. assert (R90 : rad 90 = PI / 2) by (unfold rad; lra). assert (R0 : rad 0 = 0) by (unfold rad; lra).
  assert (F : forward (mkV 90 0 0) = mkV 0 1 0) by (unfold forward; cbn [vx vy vz]; rewrite R90, R0, cos_PI2, sin_PI2, cos_0, sin_0; f_equal; ring).
  split; [|split].
  - destruct (proj1 (proj2 (C150_axis false l)) (mkV 90 0 0) eq_refl eq_refl) as (s & S & V). exists s. split; [exact S|]. rewrite V. exact F.
  - unfold cone_angle, l. cbn [p_cone p_angle]. destruct (Req_EM_T 0 0); [reflexivity|congruence].
  - destruct (proj1 (C150_project (mkV 90 0 0) (mkV 100 0 0) 90 90 32 8 8 ltac:(lra) ltac:(lra)) ltac:(lra)) as (z & E). exists z.
    change (projangle l) with (mkV 90 0 0). change (p_origin l) with (mkV 100 0 0).
    replace (mkV 108 32 8) with (at_frame (mkV 90 0 0) (mkV 100 0 0) 32 8 8).
    + rewrite E. replace (rad (90 / 2)) with (PI / 4) by (unfold rad; lra). rewrite tan_PI4. f_equal. f_equal; lra.
    + unfold at_frame. rewrite F. unfold rightward, upward, side0, up0, add, sub, scale. cbn [vx vy vz]. rewrite R90, R0, cos_PI2, sin_PI2, cos_0, sin_0. f_equal; ring.
Qed.
