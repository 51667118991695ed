(* C126, C127: coordinates of lightmaps and textures. *)
From Coq Require Import Reals List ZArith Bool Lia Lra Psatz.
From Verif Require Import WindClipModel LightValProofs ExtentsModel ExtentsProofs.
Import ListNotations.
Open Scope R_scope.

(** C126: inverse gives the inverse of every matrix that has one, from both sides. *)
Theorem C126_inverse : forall m,
  (forall v, inverse m = Some v -> forall i, (i < 16)%nat -> mul v m i = ident i /\ mul m v i = ident i) /\
  (inverse m = None -> ~ exists v, forall i, (i < 16)%nat -> mul v m i = ident i).
Proof.
  intros m. split; [|apply no_inverse]. intros v V i I. split; [apply (inverse_left m v V i I)|apply (inverse_right m v V i I)].
Qed.
Print Assumptions C126_inverse.

(** C126: the luxels of a face with a lightmap scale are its texture coordinates over the scale, from the
    least whole number on; all of the face lies within the lightmap, and no smaller one would do. *)
Theorem C126_shift : forall tv pl pts shift e, extents_shift tv pl pts shift = Some e -> 0 < shift ->
  (exists ms mt, forall p, to_lm e p = (fst (uvs tv p) / shift - IZR ms, snd (uvs tv p) / shift - IZR mt)) /\
  (forall p, hull pts p -> 0 <= fst (to_lm e p) <= IZR (width e - 1) /\ 0 <= snd (to_lm e p) <= IZR (height e - 1)) /\
  (exists p, In p pts /\ fst (to_lm e p) < 1) /\ (exists p, In p pts /\ IZR (width e - 1) - 1 < fst (to_lm e p)) /\
  (exists p, In p pts /\ snd (to_lm e p) < 1) /\ (exists p, In p pts /\ IZR (height e - 1) - 1 < snd (to_lm e p)) /\
  (1 <= width e)%Z /\ (1 <= height e)%Z.
Proof.
  intros tv pl pts shift e E S. apply shift_inv in E as (NE & S0 & ms & mt & A & B & C).
  assert (L : forall p, to_lm e p = (fst (uvs tv p) / shift - IZR ms, snd (uvs tv p) / shift - IZR mt)).
  { intros p. rewrite (cv_lm _ _ _ _ _ _ C). unfold uvs, dot, scale; cbn [fst snd vx vy vz]. f_equal; field; exact S0. }
  destruct (grid (fun p => fst (uvs tv p)) pts shift ms (ex_w e) NE S A) as (A1 & A2 & A3 & A4).
  destruct (grid (fun p => snd (uvs tv p)) pts shift mt (ex_h e) NE S B) as (B1 & B2 & B3 & B4).
  unfold width, height. rewrite !Z.add_simpl_r.
  refine (conj (ex_intro _ ms (ex_intro _ mt L)) (conj _ (conj _ (conj _ (conj _ (conj _ (conj _ _))))))); [| | | | |lia|lia].
  - intros p H. pose proof (cv_lm _ _ _ _ _ _ C) as CL. rewrite CL; cbn [fst snd]. split.
    + revert p H. apply hull_affine. intros p I. specialize (A1 p I). pose proof (f_equal fst (eq_trans (eq_sym (CL p)) (L p))) as X; cbn [fst] in X. rewrite X. exact A1.
    + revert p H. apply hull_affine. intros p I. specialize (B1 p I). pose proof (f_equal snd (eq_trans (eq_sym (CL p)) (L p))) as X; cbn [snd] in X. rewrite X. exact B1.
  - destruct A2 as (p & I & X). exists p. rewrite L; cbn [fst snd]. auto.
  - destruct A3 as (p & I & X). exists p. rewrite L; cbn [fst snd]. auto.
  - destruct B2 as (p & I & X). exists p. rewrite L; cbn [fst snd]. auto.
  - destruct B3 as (p & I & X). exists p. rewrite L; cbn [fst snd]. auto.
Qed.
Print Assumptions C126_shift.

(** C126: a lightmap given by the DECOUPLED_LM lump has the size and the projection given there. *)
Theorem C126_given : forall pl w h tv,
  let e := extents_given pl w h tv in
  width e = w /\ height e = h /\
  forall p, to_lm e p = (vx p * vx (tv_s tv) + vy p * vy (tv_s tv) + vz p * vz (tv_s tv) + tv_so tv,
                         vx p * vx (tv_t tv) + vy p * vy (tv_t tv) + vz p * vz (tv_t tv) + tv_to tv).
Proof.
  intros pl w h tv e. unfold e, extents_given, width, height, to_lm. cbn [ex_w ex_h ex_to_lm].
  split; [lia|]. split; [lia|]. intros p. unfold mulv, plane_mat. cbn. f_equal; ring.
Qed.
Print Assumptions C126_given.

(** C126: with world units per luxel the luxels are, up to signs, the two coordinates across the
    greatest component of the normal over the units. *)
Theorem C126_units : forall pl pts units e, extents_units pl pts units = Some e -> p_n pl <> mkV 0 0 0 ->
  (exists i j si sj ms mt, (i < 3)%nat /\ (j < 3)%nat /\ i <> j /\ i <> axis (p_n pl) /\ j <> axis (p_n pl) /\
     (si = 1 \/ si = -1) /\ (sj = 1 \/ sj = -1) /\
     forall p, to_lm e p = (si * comp i p / units - IZR ms, sj * comp j p / units - IZR mt)) /\
  (forall p, hull pts p -> 0 <= fst (to_lm e p) <= IZR (width e - 1) /\ 0 <= snd (to_lm e p) <= IZR (height e - 1)) /\
  (exists p, In p pts /\ fst (to_lm e p) < 1) /\ (exists p, In p pts /\ IZR (width e - 1) - 1 < fst (to_lm e p)) /\
  (exists p, In p pts /\ snd (to_lm e p) < 1) /\ (exists p, In p pts /\ IZR (height e - 1) - 1 < snd (to_lm e p)) /\
  (1 <= width e)%Z /\ (1 <= height e)%Z /\ (forall lm, exists q, to_world e lm = Some q).
Proof.
  intros pl pts units e E N0. apply units_inv in E as (NE & U0 & ms & mt & A & B & C).
  set (t := scale _ (fst _)) in *. set (b := scale _ (snd _)) in *.
  assert (D1 : forall x, x = x / 1) by (intros; field).
  rewrite (D1 (lo _)), (D1 (hi _)) in A. rewrite (D1 (lo _)), (D1 (hi _)) in B.
  destruct (grid (dot t) pts 1 ms (ex_w e) NE Rlt_0_1 A) as (A1 & A2 & A3 & A4).
  destruct (grid (dot b) pts 1 mt (ex_h e) NE Rlt_0_1 B) as (B1 & B2 & B3 & B4).
  assert (CM : forall x y, dot x y = dot y x) by (intros; unfold dot; ring).
  assert (L : forall p, to_lm e p = (dot t p / 1 - IZR ms, dot b p / 1 - IZR mt)).
  { intros p. rewrite (cv_lm _ _ _ _ _ _ C). rewrite (CM p t), (CM p b). f_equal; field. }
  unfold width, height. rewrite !Z.add_simpl_r.
  refine (conj _ (conj _ (conj _ (conj _ (conj _ (conj _ (conj _ (conj _ _)))))))); [| | | | | |lia|lia|].
  - destruct (tangents_cases _ N0) as (i & j & si & sj & I & J & IJ & IA & JA & SI & SJ & T).
    exists i, j, si, sj, ms, mt. refine (conj I (conj J (conj IJ (conj IA (conj JA (conj SI (conj SJ _))))))).
    intros p. rewrite L. unfold t, b. rewrite T; cbn [fst snd].
    assert (X : forall a k, (a < 3)%nat -> dot (scale (1 / units) (unit_axis a k)) p / 1 = k * comp a p / units).
    { intros a k Ha. destruct a as [|[|[|a]]]; [..|lia]; unfold dot, scale; cbn [unit_axis comp vx vy vz]; field; exact U0. }
    rewrite !X by assumption. reflexivity.
  - intros p H. pose proof (cv_lm _ _ _ _ _ _ C) as CL. rewrite CL; cbn [fst snd]. split.
    + revert p H. apply hull_affine. intros p I. specialize (A1 p I). pose proof (f_equal fst (eq_trans (eq_sym (CL p)) (L p))) as X; cbn [fst] in X. rewrite X. exact A1.
    + revert p H. apply hull_affine. intros p I. specialize (B1 p I). pose proof (f_equal snd (eq_trans (eq_sym (CL p)) (L p))) as X; cbn [snd] in X. rewrite X. exact B1.
  - destruct A2 as (p & I & X). exists p. rewrite L; cbn [fst snd]. auto.
  - destruct A3 as (p & I & X). exists p. rewrite L; cbn [fst snd]. auto.
  - destruct B2 as (p & I & X). exists p. rewrite L; cbn [fst snd]. auto.
  - destruct B3 as (p & I & X). exists p. rewrite L; cbn [fst snd]. auto.
  - apply (cv_some _ _ _ _ _ _ C).
    destruct (units_det (p_n pl) (1 / units) N0) as [D|D].
    + intros Z. unfold t, b in Z. apply (Rlt_irrefl 0). rewrite <- Z at 2. replace (dot _ _) with (dot (cross (fst (tangents (snapped (p_n pl)))) (snd (tangents (snapped (p_n pl))))) (p_n pl) * (1 / units * (1 / units))) by (unfold dot, cross, scale; cbn [vx vy vz]; ring). exact D.
    + exfalso. unfold Rdiv in D. rewrite Rmult_1_l in D. exact (Rinv_neq_0_compat _ U0 D).
Qed.
Print Assumptions C126_units.

(** C126: the three kinds of extents convert between points of the plane and luxels without loss. *)
Theorem C126_world : forall e pl, made e pl ->
  (forall lm q, to_world e lm = Some q -> to_lm e q = lm /\ dist_to pl q = 0) /\
  (forall p lm q, dist_to pl p = 0 -> to_world e lm = Some q -> to_world e (to_lm e p) = Some p).
Proof.
  intros e pl M. destruct (made_conv e pl M) as (s & so & t & to & C). split; [apply (cv_world _ _ _ _ _ _ C)|].
  intros p lm q P Q. apply (conv_round _ _ _ _ _ _ C); [|exact P]. intros D. rewrite (cv_none _ _ _ _ _ _ C D) in Q. discriminate.
Qed.
Print Assumptions C126_world.

(** C126: no luxel has a point if and only if two points of the plane have the same luxel; else every luxel has one. *)
Theorem C126_degenerate : forall e pl, made e pl -> p_n pl <> mkV 0 0 0 ->
  ((forall lm, exists q, to_world e lm = Some q) /\ (forall p q, dist_to pl p = 0 -> dist_to pl q = 0 -> to_lm e p = to_lm e q -> p = q)) \/
  ((forall lm, to_world e lm = None) /\ exists p q, p <> q /\ dist_to pl p = 0 /\ dist_to pl q = 0 /\ to_lm e p = to_lm e q).
Proof.
  intros e pl M N0. destruct (made_conv e pl M) as (s & so & t & to & C). destruct (Req_dec (dot (cross s t) (p_n pl)) 0) as [D|D].
  - right. split; [apply (cv_none _ _ _ _ _ _ C D)|]. destruct (kernel s t (p_n pl) N0 D) as (u & U & US & UT & UN).
    assert (NN : dot (p_n pl) (p_n pl) <> 0).
    { intros H. apply N0. destruct (p_n pl) as [x y z]. unfold dot in H; cbn [vx vy vz] in H.
      assert (x = 0) by nra. assert (y = 0) by nra. assert (z = 0) by nra. congruence. }
    set (p := scale (p_d pl / dot (p_n pl) (p_n pl)) (p_n pl)).
    assert (P : dist_to pl p = 0).
    { unfold dist_to, p. rewrite dot_scale_l. field. exact NN. }
    assert (DA : forall v, dot (add p u) v = dot p v + dot u v) by (intros; unfold dot, add; cbn [vx vy vz]; ring).
    exists p, (add p u). refine (conj _ (conj P (conj _ _))).
    + intros X. apply U. destruct u as [a b c], p as [a' b' c']. unfold add in X; cbn [vx vy vz] in X. injection X as X1 X2 X3. f_equal; lra.
    + unfold dist_to in *. rewrite DA, UN. lra.
    + rewrite !(cv_lm _ _ _ _ _ _ C), !DA, US, UT. f_equal; ring.
  - left. split; [apply (cv_some _ _ _ _ _ _ C D)|]. intros p q P Q E.
    pose proof (conv_round _ _ _ _ _ _ C D p P) as A. rewrite E, (conv_round _ _ _ _ _ _ C D q Q) in A. congruence.
Qed.
Print Assumptions C126_degenerate.

Lemma floor_0 : floor 0 = 0%Z. Proof. apply floor_unique. lra. Qed.
Lemma ceil_0 : ceil 0 = 0%Z. Proof. unfold ceil. rewrite Ropp_0. fold (floor 0). rewrite floor_0. reflexivity. Qed.
(** A texinfo whose s axis is also its t axis: the lightmap has a size but its luxels have no place. *)
Theorem C126_degenerate_refuted : exists tv pl pts e, p_n pl = mkV 0 0 1 /\ extents_shift tv pl pts 16 = Some e /\ width e = 1%Z /\
  forall s t, sample_point e pl 1 s t = None.
Proof.
  exists (mkTV (mkV 1 0 0) 0 (mkV 1 0 0) 0), (mkPl (mkV 0 0 1) 0), [mkV 0 0 0; mkV 0 1 0; mkV 0 1 0].
  unfold extents_shift. cbn [map lo hi fold_left]. unfold uvs; cbn [fst snd tv_s tv_t tv_so tv_to vx vy vz].
  replace (0 * 1 + 0 * 0 + 0 * 0 + 0) with 0 by ring. replace (0 * 1 + 1 * 0 + 0 * 0 + 0) with 0 by ring.
  replace (Rmin 0 0) with 0 by (unfold Rmin; destruct (Rle_dec 0 0); reflexivity). replace (Rmax 0 0) with 0 by (unfold Rmax; destruct (Rle_dec 0 0); reflexivity).
  replace (Rmin 0 0) with 0 by (unfold Rmin; destruct (Rle_dec 0 0); reflexivity). replace (Rmax 0 0) with 0 by (unfold Rmax; destruct (Rle_dec 0 0); reflexivity).
  replace (0 / 16) with 0 by field. destruct (Req_EM_T 16 0) as [Z|_]; [exfalso; lra|]. unfold extent. rewrite floor_0, ceil_0. cbn [to_int Z.sub Z.leb Z.compare andb Z.add Z.opp].
  unfold inverse at 1. rewrite lm_det. destruct (Req_EM_T (16 * 16) 0) as [Z|_]; [exfalso; lra|].
  eexists. refine (conj eq_refl (conj eq_refl (conj eq_refl _))). intros s t. unfold sample_point, to_world; cbn [ex_to_world].
  unfold inverse, world_to_tex. rewrite plane_det. cbn [tv_s tv_t p_n]. destruct (Req_EM_T _ 0) as [|Z]; [reflexivity|]. exfalso. apply Z. unfold dot, cross; cbn [vx vy vz]; ring.
Qed.
Print Assumptions C126_degenerate_refuted.

(** C126: the size is defined if the coordinates are up to 2^30 luxels; else int may be too small. *)
Theorem C126_size : forall tv pl pts shift, pts <> [] -> 0 < shift ->
  (forall p, In p pts -> Rabs (fst (uvs tv p) / shift) <= 2 ^ 30 - 1 /\ Rabs (snd (uvs tv p) / shift) <= 2 ^ 30 - 1) ->
  exists e, extents_shift tv pl pts shift = Some e.
Proof.
  intros tv pl pts shift NE S H.
  assert (X : forall f : vec -> R, (forall p, In p pts -> Rabs (f p / shift) <= 2 ^ 30 - 1) -> exists m e, extent (lo (map f pts) / shift) (hi (map f pts) / shift) = Some (m, e)).
  { intros f F. assert (M : map f pts <> []) by (destruct pts; [congruence|discriminate]).
    assert (R30 : 2 ^ 30 = IZR (2 ^ 30)) by (change (2 ^ 30)%Z with 1073741824%Z; ring).
    assert (LO : Rabs (lo (map f pts) / shift) <= 2 ^ 30 - 1).
    { pose proof (lo_in _ M) as I. apply in_map_iff in I as (x & <- & I). auto. }
    assert (HI : Rabs (hi (map f pts) / shift) <= 2 ^ 30 - 1).
    { pose proof (hi_in _ M) as I. apply in_map_iff in I as (x & <- & I). auto. }
    assert (AB : forall u v, Rabs u <= v -> - v <= u <= v) by (intros u v; unfold Rabs; destruct (Rcase_abs u); lra).
    apply AB in LO, HI. rewrite R30 in LO, HI. pose proof (floor_spec (lo (map f pts) / shift)) as FL. pose proof (ceil_spec (hi (map f pts) / shift)) as CH.
    set (a := floor _) in *. set (b := ceil _) in *. set (u := lo _ / _) in *. set (v := hi _ / _) in *.
    assert (A1 : (- 2 ^ 30 < a)%Z) by (apply lt_IZR; rewrite opp_IZR; lra). assert (A2 : (a < 2 ^ 30)%Z) by (apply lt_IZR; lra).
    assert (B1 : (- 2 ^ 30 < b)%Z) by (apply lt_IZR; rewrite opp_IZR; lra). assert (B2 : (b < 2 ^ 30 + 1)%Z) by (apply lt_IZR; rewrite plus_IZR; lra).
    exists a, (b - a)%Z. unfold extent. fold u v a b. unfold to_int.
    replace ((-2147483648 <=? a) && (a <=? 2147483647))%Z with true by (symmetry; apply andb_true_iff; lia).
    replace ((-2147483648 <=? b - a) && (b - a <=? 2147483647))%Z with true by (symmetry; apply andb_true_iff; lia). reflexivity. }
  destruct (X _ (fun p I => proj1 (H p I))) as (ms & w & A). destruct (X _ (fun p I => proj2 (H p I))) as (mt & h & B).
  unfold extents_shift. destruct pts as [|p0 pts]; [congruence|]. destruct (Req_EM_T shift 0) as [|S0]; [exfalso; lra|]. rewrite A, B.
  unfold inverse at 1. rewrite lm_det. destruct (Req_EM_T (shift * shift) 0) as [Z|_]; [apply Rmult_integral in Z; exfalso; lra|]. eauto.
Qed.
Print Assumptions C126_size.
Theorem C126_size_refuted : exists tv pl pts, pts <> [] /\ (forall p, In p pts -> Rabs (vx p) <= 4096 /\ vy p = 0 /\ vz p = 0) /\ extents_shift tv pl pts 1 = None.
Proof.
  exists (mkTV (mkV 1048576 0 0) 0 (mkV 0 1 0) 0), (mkPl (mkV 0 0 1) 0), [mkV 4096 0 0].
  refine (conj _ (conj _ _)); [discriminate| |].
  - intros p [<-|[]]; cbn [vx vy vz]. rewrite Rabs_right by lra. lra.
  - unfold extents_shift. cbn [map lo hi fold_left]. destruct (Req_EM_T 1 0) as [Z|_]; [exfalso; lra|].
    unfold uvs; cbn [fst snd tv_s tv_t tv_so tv_to vx vy vz]. unfold extent.
    rewrite (floor_unique ((4096 * 1048576 + 0 * 0 + 0 * 0 + 0) / 1) 4294967296) by lra. reflexivity.
Qed.
Print Assumptions C126_size_refuted.

(** C126: the bounding sphere of a face holds all of the face. *)
Theorem C126_sphere : forall pts p, hull pts p -> len (sub p (fst (sphere pts))) <= snd (sphere pts).
Proof. exact sphere_holds. Qed.
Print Assumptions C126_sphere.

(** C126: the samples of a luxel are evenly spaced around it, never reach into the next one, and their
    mean is the luxel. *)
Theorem C126_samples : forall extra, (0 < extra)%nat ->
  (forall s, sample_coord extra (S s) - sample_coord extra s = 1 / INR extra) /\
  (forall l k, (k < extra)%nat -> INR l - 1 / 2 < sample_coord extra (l * extra + k) < INR l + 1 / 2) /\
  (forall l, sum (map (fun k => sample_coord extra (l * extra + k)) (seq 0 extra)) / INR extra = INR l) /\
  (forall e s, (1 <= width e)%Z -> (Z.of_nat s < fst (sample_count e extra))%Z -> - (1 / 2) < sample_coord extra s < IZR (width e - 1) + 1 / 2).
Proof.
  intros extra H. assert (P : 0 < INR extra) by (apply lt_0_INR; lia). refine (conj _ (conj _ (conj _ _))).
  - intros s. unfold sample_coord. rewrite S_INR. field. lra.
  - intros l k. apply sample_between.
  - intros l. rewrite (sample_sum extra l extra H). field. lra.
  - intros e s W L. unfold sample_count in L; cbn [fst] in L.
    rewrite (Nat.div_mod s extra) by lia. rewrite Nat.mul_comm.
    pose proof (sample_between extra (s / extra) (s mod extra) ltac:(apply Nat.mod_upper_bound; lia)) as B.
    assert (D : (Z.of_nat (s / extra) <= width e - 1)%Z).
    { assert (s / extra < Z.to_nat (width e))%nat by (apply Nat.div_lt_upper_bound; [lia|]; nia). lia. }
    apply IZR_le in D. rewrite <- INR_IZR_INZ in D. pose proof (pos_INR (s / extra)). lra.
Qed.
Print Assumptions C126_samples.

(** C126: samples lie above their luxel, by the length of the normal. *)
Theorem C126_points : forall e pl extra s t q, made e pl -> dot (p_n pl) (p_n pl) = 1 -> sample_point e pl extra s t = Some q ->
  dist_to pl q = 1 /\ to_lm e (sub q (p_n pl)) = (sample_coord extra s, sample_coord extra t) /\ dist_to pl (sub q (p_n pl)) = 0.
Proof.
  intros e pl extra s t q M U Q. unfold sample_point in Q. destruct (to_world e _) as [p|] eqn:E; [|discriminate]. cbn [option_map] in Q. injection Q as <-.
  destruct (proj1 (C126_world e pl M) _ _ E) as [A B].
  assert (X : sub (add p (p_n pl)) (p_n pl) = p) by (destruct p; unfold sub, add; cbn [WindClipModel.vx WindClipModel.vy WindClipModel.vz]; f_equal; ring).
  rewrite X. refine (conj _ (conj A B)). unfold dist_to in *. replace (dot (add p (p_n pl)) (p_n pl)) with (dot p (p_n pl) + dot (p_n pl) (p_n pl)) by (unfold dot, add; cbn [vx vy vz]; ring). lra.
Qed.
Print Assumptions C126_points.

(** A floor of 64 by 32 units with a lightmap scale of 16 and an offset of 8: 6 by 3 luxels; luxel (1, 1) is at (8, 16). *)
Example C126_nontrivial : exists e, extents_shift (mkTV (mkV 1 0 0) 8 (mkV 0 (-1) 0) 0) (mkPl (mkV 0 0 1) 10) [mkV 0 0 10; mkV 64 0 10; mkV 64 32 10; mkV 0 32 10] 16 = Some e /\
  width e = 6%Z /\ height e = 3%Z /\ to_world e (1, 1) = Some (mkV 8 16 10) /\ sample_point e (mkPl (mkV 0 0 1) 10) 1 1 1 = Some (mkV 8 16 11).
Proof.
  unfold extents_shift. cbn [map lo hi fold_left]. unfold uvs; cbn [fst snd tv_s tv_t tv_so tv_to vx vy vz]. destruct (Req_EM_T 16 0) as [Z|_]; [exfalso; lra|].
  assert (E1 : extent (8 / 16) (72 / 16) = Some (0, 5)%Z).
  { unfold extent. rewrite (floor_unique (8 / 16) 0) by lra. unfold ceil; fold (floor (- (72 / 16))). rewrite (floor_unique (- (72 / 16)) (-5)) by lra. reflexivity. }
  assert (E2 : extent (-32 / 16) (0 / 16) = Some (-2, 2)%Z).
  { unfold extent. rewrite (floor_unique (-32 / 16) (-2)) by lra. unfold ceil; fold (floor (- (0 / 16))). rewrite (floor_unique (- (0 / 16)) 0) by lra. reflexivity. }
  match goal with |- context [extent (?a / 16) (?b / 16)] => replace a with 8 by (unfold Rmin; repeat destruct (Rle_dec _ _); lra); replace b with 72 by (unfold Rmax; repeat destruct (Rle_dec _ _); lra) end.
  rewrite E1.
  match goal with |- context [extent (?a / 16) (?b / 16)] => replace a with (-32) by (unfold Rmin; repeat destruct (Rle_dec _ _); lra); replace b with 0 by (unfold Rmax; repeat destruct (Rle_dec _ _); lra) end.
  rewrite E2.
  unfold inverse at 1. rewrite lm_det. destruct (Req_EM_T (16 * 16) 0) as [Z|_]; [exfalso; lra|].
  eexists. refine (conj eq_refl _). refine (conj eq_refl (conj eq_refl _)).
  unfold sample_point, to_world; cbn [ex_to_world]. unfold inverse, world_to_tex. rewrite plane_det. cbn [tv_s tv_t tv_so tv_to p_n].
  replace (dot (cross (mkV 1 0 0) (mkV 0 (-1) 0)) (mkV 0 0 1)) with (-1) by (unfold dot, cross; cbn [vx vy vz]; ring).
  destruct (Req_EM_T (-1) 0) as [Z|_]; [exfalso; lra|]. cbn [option_map].
  rewrite !mulv_mul by lia.
  cbv [mulv adj lm_to_tex plane_mat rows vrow sample_coord INR add p_n p_d vx vy vz Nat.modulo Nat.div Nat.divmod Nat.sub Nat.mul Nat.add fst snd].
  split; f_equal; f_equal; field.
Qed.

(** C127: the pixel of a texture coordinate repeats with the size of the texture, also below 0. *)
Theorem C127_texcoord : forall x w, (0 < w)%Z ->
  (forall k, clamp_texcoord x w = Some k -> (0 <= k < w)%Z /\ exists n, IZR k + IZR n * IZR w <= x < IZR k + IZR n * IZR w + 1) /\
  (Rabs x < 2 ^ 32 - 1 -> exists k, clamp_texcoord x w = Some k).
Proof.
  intros x w W. rewrite (clamp_spec x w W). split.
  - intros k. destruct (_ && _); [|discriminate]. intros E; injection E as <-. split; [apply Z.mod_pos_bound, W|].
    exists (floor x / w)%Z. pose proof (floor_spec x). rewrite <- mult_IZR, <- plus_IZR. replace (floor x mod w + floor x / w * w)%Z with (floor x) by (pose proof (Z.div_mod (floor x) w ltac:(lia)); lia). exact H.
  - intros H. pose proof (floor_spec x) as F. assert (R32 : 2 ^ 32 = IZR (2 ^ 32)) by (change (2 ^ 32)%Z with 4294967296%Z; ring). rewrite R32 in H.
    assert (B : - (IZR (2 ^ 32) - 1) < x < IZR (2 ^ 32) - 1) by (revert H; unfold Rabs; destruct (Rcase_abs x); lra).
    assert (A1 : (- 2 ^ 32 < floor x)%Z) by (apply lt_IZR; rewrite opp_IZR; lra). assert (A2 : (floor x < 2 ^ 32)%Z) by (apply lt_IZR; lra).
    replace ((- 2 ^ 32 <? floor x) && (floor x <? 2 ^ 32))%Z with true by (symmetry; apply andb_true_iff; lia). eauto.
Qed.
Print Assumptions C127_texcoord.

(** C127: a texture with pixels is read within them. *)
Theorem C127_sample : forall w h sx sy tv p r, (0 < w)%Z -> (0 < h)%Z -> sample_texture w h sx sy tv p = Some r ->
  exists i x y, r = Some i /\ i = (w * y + x)%Z /\ (0 <= x < w)%Z /\ (0 <= y < h)%Z /\ (0 <= i < w * h)%Z /\
    (exists n, IZR x + IZR n * IZR w <= fst (uvs tv p) * sx < IZR x + IZR n * IZR w + 1) /\
    (exists n, IZR y + IZR n * IZR h <= snd (uvs tv p) * sy < IZR y + IZR n * IZR h + 1).
Proof.
  intros w h sx sy tv p r W H E. unfold sample_texture in E. destruct (w =? 0)%Z eqn:W0; [lia|].
  destruct (clamp_texcoord _ w) as [x|] eqn:X; [|discriminate]. destruct (clamp_texcoord _ h) as [y|] eqn:Y; [|discriminate]. injection E as <-.
  destruct (proj1 (C127_texcoord _ w W) x X) as [XR XN]. destruct (proj1 (C127_texcoord _ h H) y Y) as [YR YN].
  exists (w * y + x)%Z, x, y. refine (conj eq_refl (conj eq_refl (conj XR (conj YR (conj _ (conj XN YN)))))). nia.
Qed.
Print Assumptions C127_sample.

(** C127: only the width is checked: without rows the modulus is undefined; and so are far coordinates. *)
Theorem C127_sample_refuted : (forall w sx sy tv p, (0 < w)%Z -> sample_texture w 0 sx sy tv p = None) /\ clamp_texcoord 4294967296 64 = None.
Proof.
  split.
  - intros w sx sy tv p W. unfold sample_texture. destruct (w =? 0)%Z eqn:E; [lia|]. destruct (clamp_texcoord _ w); reflexivity.
  - rewrite clamp_spec by lia. rewrite (floor_unique 4294967296 4294967296) by lra. reflexivity.
Qed.
Print Assumptions C127_sample_refuted.

(** No texture or no width: no colour. *)
Theorem C127_none : forall h sx sy tv p, sample_texture 0 h sx sy tv p = Some None.
Proof. reflexivity. Qed.
Print Assumptions C127_none.

(** Pixel of -0.5 and of 64.25 in a texture 64 wide. *)
Example C127_nontrivial : clamp_texcoord (-1 / 2) 64 = Some 63%Z /\ clamp_texcoord (64 + 1 / 4) 64 = Some 0%Z /\ clamp_texcoord (-64) 64 = Some 0%Z.
Proof.
  rewrite !clamp_spec by lia. rewrite (floor_unique (-1 / 2) (-1)), (floor_unique (64 + 1 / 4) 64), (floor_unique (-64) (-64)) by lra. repeat split; reflexivity.
Qed.
