(* Properties of the transformations of the brushes of a map (C145). *)
From Coq Require Import Reals List ZArith Bool Arith Lra Lia.
From Verif Require Import WindClipModel SideOutModel SideOutProofs XformModel XformProofs.
Import ListNotations.
Open Scope R_scope.

(** * C145: external maps, origin brushes and -scale move brushes and textures together *)

Definition solid (fs : list mface) (p : vec) : Prop := Forall (fun f => dist_to (mf_plane f) p <= 0) fs.
(** Texture coordinates of a point. *)
Definition st_at (f : mface) (p : vec) : R * R :=
  (dot (fst (fst (mf_st f))) p + snd (fst (mf_st f)), dot (fst (snd (mf_st f))) p + snd (snd (mf_st f))).
(** A face as it comes from the file: the plane through three points that are not on a line. *)
Definition fresh (f : mface) : Prop := mf_plane f = points_plane (mf_pts f) /\ spanned (mf_pts f) <> mkV 0 0 0.
Definition scaled (s p : vec) : vec := mkV (vx s * vx p) (vy s * vy p) (vz s * vz p).

Lemma st_step f m mi o p : (forall u v, dot (mul mi u) (mul m v) = dot u v) ->
  forall f', mf_st f' = map_rows (fun r => (mul mi (fst r), snd r - dot (mul mi (fst r)) o)) (mf_st f) -> st_at f' (add (mul m p) o) = st_at f p.
Proof.
  intros I f' E. unfold st_at. rewrite E. unfold map_rows. cbn [fst snd].
  assert (A : forall u v w, dot u (add v w) = dot u v + dot u w) by (intros [] [] []; vs; ring).
  rewrite !A, !I. f_equal; ring.
Qed.
Lemma placed s a o f : 0 < vx s -> 0 < vy s -> 0 < vz s ->
  place s a o f = mkMF (map_pts (fun q => add (mul (mmul (rotation a) (diag s)) q) o) (mf_pts f))
    (points_plane (map_pts (fun q => add (mul (mmul (rotation a) (diag s)) q) o) (mf_pts f)))
    (map_rows (fun r => (mul (mmul (rotation a) (diag (mkV (1 / vx s) (1 / vy s) (1 / vz s)))) (fst r), snd r - dot (mul (mmul (rotation a) (diag (mkV (1 / vx s) (1 / vy s) (1 / vz s)))) (fst r)) o)) (mf_st f)) (mf_bevel f).
Proof.
  intros X Y Z. unfold place, translate_face, rotate_face, scale_face, set_texvecs, set_planepts. cbn [mf_pts mf_plane mf_st mf_bevel].
  destruct f as [[[p q] r] pl [[u1 w1] [u2 w2]] bv]. cbn [mf_pts mf_plane mf_st mf_bevel map_pts]. rewrite !mul_mmul. f_equal.
  unfold map_rows. cbn [fst snd].
  assert (A : forall u v, dot u (scale (-1) v) = - dot u v) by (intros [] []; vs; ring).
  rewrite !A, !mul_mmul. reflexivity.
Qed.
Lemma sign k d : 0 < k -> (k * d <= 0 <-> d <= 0).
Proof. intros K. split; intros H; nra. Qed.

(** A face of an external map, scaled, rotated and moved. *)
Lemma place_face s a o f p : 0 < vx s -> 0 < vy s -> 0 < vz s -> fresh f ->
  let T := fun q => add (mul (rotation a) (scaled s q)) o in
  (dist_to (mf_plane (place s a o f)) (T p) <= 0 <-> dist_to (mf_plane f) p <= 0) /\ st_at (place s a o f) (T p) = st_at f p /\ fresh (place s a o f).
Proof.
  intros X Y Z [FP FN] T.
  assert (ET : T p = add (mul (mmul (rotation a) (diag s)) p) o).
  { unfold T. f_equal. rewrite mul_mmul. f_equal. unfold scaled. destruct p. vs. f_equal; ring. }
  assert (D : 0 < det (mmul (rotation a) (diag s))).
  { rewrite det_mmul, det_diag, (proj2 (rotation_ok a)). pose proof (Rmult_lt_0_compat _ _ (Rmult_lt_0_compat _ _ X Y) Z). lra. }
  rewrite ET. rewrite placed by assumption. cbn [mf_plane mf_pts].
  destruct (moved_plane (mmul (rotation a) (diag s)) o (mf_pts f) p FN) as [N (k & K & E)]; [lra|]. cbv zeta in N, E. split; [|split].
  - rewrite E, FP. apply sign. apply Rmult_lt_0_compat; assumption.
  - apply st_step with (mi := mmul (rotation a) (diag (mkV (1 / vx s) (1 / vy s) (1 / vz s)))); [|reflexivity].
    intros u v. rewrite !mul_mmul. rewrite (proj1 (rotation_ok a)). destruct s, u, v. vs. field. lra.
  - split; [reflexivity|exact N].
Qed.

(** Brushes of an external map: a point is in the brush if the scaled, rotated and moved point is in the new one,
    and has the same texture coordinates. *)
Theorem C145_external : forall s a o fs p, 0 < vx s -> 0 < vy s -> 0 < vz s -> Forall fresh fs ->
  let T := fun q => add (mul (rotation a) (scaled s q)) o in
  (solid (map (place s a o) fs) (T p) <-> solid fs p) /\
  map (fun f => st_at (place s a o f) (T p)) fs = map (fun f => st_at f p) fs /\ Forall fresh (map (place s a o) fs).
Proof.
  intros s a o fs p X Y Z F T. unfold solid. split; [|split].
  - rewrite !Forall_forall. split.
    + intros H f I. specialize (H (place s a o f) (in_map _ _ _ I)). rewrite Forall_forall in F. apply (place_face s a o f p X Y Z (F f I)). exact H.
    + intros H f' I'. apply in_map_iff in I'. destruct I' as (f & <- & I). rewrite Forall_forall in F. apply (place_face s a o f p X Y Z (F f I)). apply H, I.
  - apply map_ext_in. intros f I. rewrite Forall_forall in F. apply (place_face s a o f p X Y Z (F f I)).
  - apply Forall_map. eapply Forall_impl; [|exact F]. intros f Ff. apply (place_face s a o f p X Y Z Ff).
Qed.
Print Assumptions C145_external.

(** The rotation keeps distances and handedness; it is a roll about x, then a pitch about y, then a yaw about z;
    a yaw of 90 turns x to y, a pitch of 90 turns x down, a roll of 90 turns y up. *)
Theorem C145_rotation : forall a,
  (forall u v, dot (mul (rotation a) u) (mul (rotation a) v) = dot u v) /\
  (forall u v, mul (rotation a) (cross u v) = cross (mul (rotation a) u) (mul (rotation a) v)) /\
  (forall v, mul (rotation a) v = mul (rotation (mkV 0 (vy a) 0)) (mul (rotation (mkV (vx a) 0 0)) (mul (rotation (mkV 0 0 (vz a))) v))) /\
  mul (rotation (mkV 0 90 0)) (mkV 1 0 0) = mkV 0 1 0 /\ mul (rotation (mkV 0 90 0)) (mkV 0 1 0) = mkV (-1) 0 0 /\
  mul (rotation (mkV 90 0 0)) (mkV 1 0 0) = mkV 0 0 (-1) /\ mul (rotation (mkV 90 0 0)) (mkV 0 0 1) = mkV 1 0 0 /\
  mul (rotation (mkV 0 0 90)) (mkV 0 1 0) = mkV 0 0 1 /\ mul (rotation (mkV 0 0 90)) (mkV 0 0 1) = mkV 0 (-1) 0.
Proof.
  intros a.
  assert (Z0 : deg2rad 0 = 0) by (unfold deg2rad; ring). assert (Z9 : deg2rad 90 = PI / 2) by (unfold deg2rad; field).
  assert (ID : forall v, mul (about_x 0) v = v /\ mul (about_y 0) v = v /\ mul (about_z 0) v = v).
  { intros []. unfold about_x, about_y, about_z. rewrite cos_0, sin_0. vs. repeat split; f_equal; ring. }
  split; [apply rotation_ok|]. split; [|split].
  - apply rotation_turns.
  - intros v. unfold rotation. cbn [vx vy vz]. rewrite Z0. rewrite !mul_mmul.
    rewrite !(proj1 (ID _)), !(proj1 (proj2 (ID _))), !(proj2 (proj2 (ID _))). reflexivity.
  - unfold rotation. cbn [vx vy vz]. rewrite Z0, Z9. rewrite !mul_mmul.
    rewrite !(proj1 (ID _)), !(proj1 (proj2 (ID _))), !(proj2 (proj2 (ID _))). unfold about_x, about_y, about_z. rewrite cos_PI2, sin_PI2. vs.
    repeat split; f_equal; ring.
Qed.
Print Assumptions C145_rotation.

(** Without _external_map_scale and _external_map_angles and _external_map_angle the brushes are only moved.  One
    or two numbers scale all axes by the first, three one axis each; _external_map_angle is a yaw for angles of
    (almost) zero. *)
Theorem C145_keys : forall o fs p, Forall fresh fs ->
  (let f' := place (scale_of 0 (mkV 0 0 0)) (angles_of (mkV 0 0 0) 0) o in
   (solid (map f' fs) (add p o) <-> solid fs p) /\ map (fun f => st_at (f' f) (add p o)) fs = map (fun f => st_at f p) fs) /\
  (forall n k y z, (n < 3)%nat -> k <> 0 -> scale_of n (mkV k y z) = mkV k k k) /\ (forall n s, (3 <= n)%nat -> scale_of n s = s) /\
  (forall n y z, (n < 3)%nat -> scale_of n (mkV 0 y z) = mkV 1 1 1) /\
  (forall a k, 1 / 10000 < Rabs (vx a) \/ 1 / 10000 < Rabs (vy a) \/ 1 / 10000 < Rabs (vz a) -> angles_of a k = a) /\
  (forall k, angles_of (mkV 0 0 0) k = mkV 0 k 0).
Proof.
  intros o fs p F.
  assert (S0 : forall n y z, (n < 3)%nat -> scale_of n (mkV 0 y z) = mkV 1 1 1).
  { intros n y z L. unfold scale_of. apply Nat.ltb_lt in L. rewrite L. cbn [vx]. destruct (Req_EM_T 0 0); [reflexivity|contradiction]. }
  assert (A0 : forall k, angles_of (mkV 0 0 0) k = mkV 0 k 0).
  { intros k. unfold angles_of, near0, angle_eps. cbn [vx vy vz]. rewrite Rabs_R0. destruct (Rle_dec 0 (1 / 10000)); [reflexivity|lra]. }
  split; [|split; [|split; [|split; [|split]]]].
  - cbv zeta. rewrite S0 by lia. rewrite A0.
    destruct (C145_external (mkV 1 1 1) (mkV 0 0 0) o fs p) as (A & B & _); cbn [vx vy vz]; try lra; [exact F|]. cbv zeta in A, B.
    assert (E : add (mul (rotation (mkV 0 0 0)) (scaled (mkV 1 1 1) p)) o = add p o).
    { unfold rotation, deg2rad. cbn [vx vy vz]. rewrite !Rmult_0_l. rewrite !mul_mmul. unfold about_x, about_y, about_z. rewrite cos_0, sin_0. unfold scaled. destruct p, o. vs. f_equal; ring. }
    rewrite E in A, B. split; assumption.
  - intros n k y z L K. unfold scale_of. apply Nat.ltb_lt in L. rewrite L. cbn [vx]. destruct (Req_EM_T k 0); [contradiction|reflexivity].
  - intros n s L. unfold scale_of. apply Nat.ltb_ge in L. rewrite L. reflexivity.
  - exact S0.
  - intros a k H. unfold angles_of, near0, angle_eps. destruct (Rle_dec (Rabs (vx a)) _), (Rle_dec (Rabs (vy a)) _), (Rle_dec (Rabs (vz a)) _); try reflexivity. lra.
  - exact A0.
Qed.
Print Assumptions C145_keys.

(** A negative number mirrors the brush but turns its planes over: a brush between two parallel faces is left
    without a point. *)
Lemma unit_normalize v : dot v v = 1 -> normalize v = v.
Proof.
  intros H. assert (L : len v = 1) by (unfold len; rewrite H; apply sqrt_1). unfold normalize. rewrite L. destruct (Req_EM_T 1 0); [lra|]. destruct v. vs. f_equal; field.
Qed.
Definition st0 : (vec * R) * (vec * R) := ((mkV 0 1 0, 0), (mkV 0 0 (-1), 0)).
Definition face_at (p : vec * vec * vec) : mface := mkMF p (points_plane p) st0 false.
(** The slab 0 <= x <= 1. *)
Definition slab : list mface :=
  [face_at (mkV 1 1 0, mkV 1 0 0, mkV 1 0 1); face_at (mkV 0 0 1, mkV 0 0 0, mkV 0 1 0)].
Lemma slab_fresh : Forall fresh slab.
Proof. repeat constructor; unfold spanned, face_at; cbn [mf_pts]; vs; intro E; injection E; lra. Qed.
Lemma slab_planes : map (fun f => mf_plane f) slab = [mkPl (mkV 1 0 0) 1; mkPl (mkV (-1) 0 0) 0].
Proof.
  cbn [map slab face_at mf_plane points_plane].
  rewrite !unit_normalize by (vs; ring). vs. f_equal; [|f_equal]; f_equal; try f_equal; ring.
Qed.
Lemma slab_solid p : solid slab p <-> 0 <= vx p <= 1.
Proof.
  assert (E : solid slab p <-> Forall (fun pl => dist_to pl p <= 0) (map (fun f => mf_plane f) slab)) by (unfold solid; rewrite Forall_map; reflexivity).
  rewrite E, slab_planes. rewrite !Forall_cons_iff. unfold dist_to. cbn [p_n p_d]. vs. split; [intros (A & B & _); lra|intros A; split; [lra|split; [lra|apply Forall_nil]]].
Qed.
Theorem C145_mirror_refuted : exists s fs, vx s <> 0 /\ vy s <> 0 /\ vz s <> 0 /\ Forall fresh fs /\ (exists p, solid fs p) /\
  forall a o q, ~ solid (map (place s a o) fs) q.
Proof.
  exists (mkV (-1) 1 1), slab. cbn [vx vy vz]. repeat split; try lra; [exact slab_fresh|exists (mkV 0 0 0); apply slab_solid; cbn [vx]; lra|].
  intros a o q S. set (m := mmul (rotation a) (diag (mkV (-1) 1 1))).
  assert (D : det m = -1) by (unfold m; rewrite det_mmul, det_diag, (proj2 (rotation_ok a)); cbn [vx vy vz]; ring).
  assert (Q : exists p, add (mul m p) o = q).
  { (* the inverse by cofactors *)
    set (v := sub q o). exists (scale (/ det m) (mkV (dot v (cross (col m 1) (col m 2))) (dot v (cross (col m 2) (col m 0))) (dot v (cross (col m 0) (col m 1))))).
    unfold v. assert (NZ : det m <> 0) by lra. clear -NZ. destruct m as [[] [] []], q, o. vs. f_equal; field; exact NZ. }
  destruct Q as [p <-].
  assert (G : forall f, In f slab -> 0 <= dist_to (mf_plane f) p).
  { intros f I. assert (fresh f) as [FP FN] by (pose proof slab_fresh as H; rewrite Forall_forall in H; apply H, I).
    unfold solid in S. rewrite Forall_forall in S. specialize (S _ (in_map _ _ _ I)).
    assert (E : mf_plane (place (mkV (-1) 1 1) a o f) = points_plane (map_pts (fun q => add (mul m q) o) (mf_pts f))).
    { unfold place, translate_face, rotate_face, scale_face, set_texvecs, set_planepts. cbn [mf_pts mf_plane]. f_equal.
      destruct (mf_pts f) as [[x y] z]. unfold m. cbn [map_pts]. rewrite !mul_mmul. reflexivity. }
    rewrite E in S. destruct (moved_plane m o (mf_pts f) p FN) as [_ (k & K & H)]; [lra|]. cbv zeta in H. rewrite H, D, <- FP in S. nra. }
  assert (P : forall pl, In pl (map (fun f => mf_plane f) slab) -> 0 <= dist_to pl p).
  { intros pl I. apply in_map_iff in I. destruct I as (f & <- & I). apply G, I. }
  rewrite slab_planes in P. pose proof (P _ (or_introl eq_refl)) as P1. pose proof (P _ (or_intror (or_introl eq_refl))) as P2. unfold dist_to in *. cbn [p_n p_d] in *. vs. lra.
Qed.
Print Assumptions C145_mirror_refuted.

(** Origin brushes: the brush is moved so that the origin is at 0, with its textures. *)
Theorem C145_origin : forall o fs p,
  (solid (map (origin_face o) fs) (sub p o) <-> solid fs p) /\
  map (fun f => st_at (origin_face o f) (sub p o)) fs = map (fun f => st_at f p) fs.
Proof.
  intros o fs p. split.
  - unfold solid. rewrite Forall_map. unfold origin_face, origin_plane, dist_to. cbn [mf_plane p_n p_d].
    assert (E : forall f, dot (sub p o) (p_n (mf_plane f)) - (p_d (mf_plane f) - dot (p_n (mf_plane f)) o) = dot p (p_n (mf_plane f)) - p_d (mf_plane f)).
    { intros f. destruct (p_n (mf_plane f)), p, o. vs. ring. }
    split; intros H; eapply Forall_impl; try exact H; intros f; cbv beta; rewrite E; auto.
  - apply map_ext. intros f. unfold st_at, origin_face, origin_row, map_rows. cbn [mf_st fst snd].
    destruct (mf_st f) as [[[] w1] [[] w2]], p, o. cbn [fst snd]. vs. f_equal; ring.
Qed.
Print Assumptions C145_origin.

(** -scale on brushes without bevels and origin. *)
Theorem C145_scale : forall k fs p, 0 < k -> Forall fresh fs ->
  (solid (map (global_scale k) fs) (scale k p) <-> solid fs p) /\
  map (fun f => st_at (global_scale k f) (scale k p)) fs = map (fun f => st_at f p) fs.
Proof.
  intros k fs p K F. unfold global_scale. destruct (Req_EM_T k 1) as [->|N1].
  - rewrite map_id. replace (scale 1 p) with p by (destruct p; vs; f_equal; ring). split; reflexivity.
  - assert (H : forall f, fresh f -> (dist_to (mf_plane (scale_face (mkV k k k) f)) (scale k p) <= 0 <-> dist_to (mf_plane f) p <= 0) /\ st_at (scale_face (mkV k k k) f) (scale k p) = st_at f p).
    { intros f [FP FN].
      assert (EP : mf_plane (scale_face (mkV k k k) f) = points_plane (map_pts (fun q => add (mul (diag (mkV k k k)) q) (mkV 0 0 0)) (mf_pts f))).
      { unfold scale_face, set_texvecs, set_planepts. cbn [mf_plane]. f_equal. destruct (mf_pts f) as [[x y] z]. cbn [map_pts].
        assert (A0 : forall q, add q (mkV 0 0 0) = q) by (intros []; vs; f_equal; ring). rewrite !A0. reflexivity. }
      assert (ET : scale k p = add (mul (diag (mkV k k k)) p) (mkV 0 0 0)) by (destruct p; vs; f_equal; ring).
      assert (D : 0 < det (diag (mkV k k k))) by (rewrite det_diag; cbn [vx vy vz]; pose proof (Rmult_lt_0_compat _ _ (Rmult_lt_0_compat _ _ K K) K); lra).
      destruct (moved_plane (diag (mkV k k k)) (mkV 0 0 0) (mf_pts f) p FN) as [_ (c & C & E)]; [lra|]. cbv zeta in E. split.
      - rewrite EP, ET, E, FP. apply sign. apply Rmult_lt_0_compat; assumption.
      - unfold st_at, scale_face, set_texvecs, map_rows. cbn [mf_st fst snd]. destruct (mf_st f) as [[[] w1] [[] w2]], p. cbn [fst snd]. vs. f_equal; field; lra. }
    split.
    + unfold solid. rewrite Forall_map. rewrite !Forall_forall. rewrite Forall_forall in F. split; intros S f I; apply (H f (F f I)), S, I.
    + apply map_ext_in. intros f I. rewrite Forall_forall in F. apply (H f (F f I)).
Qed.
Print Assumptions C145_scale.

(** With an origin the planes are made from points that were not moved: the brush is where it would be without the
    origin, while the texture is moved and the key "origin" still moves the model. *)
Theorem C145_scale_origin_refuted : forall k o fs p, 0 < k -> k <> 1 -> Forall fresh fs ->
  let fs' := map (global_scale k) (map (origin_face o) fs) in
  (solid fs' (scale k p) <-> solid fs p) /\
  map (fun f => st_at f (scale k p)) fs' = map (fun f => (fst (st_at f p) + dot o (fst (fst (mf_st f))), snd (st_at f p) + dot o (fst (snd (mf_st f))))) fs.
Proof.
  intros k o fs p K N1 F fs'. pose proof (C145_scale k fs p K F) as [A _].
  assert (EP : forall f, mf_plane (global_scale k (origin_face o f)) = mf_plane (global_scale k f)).
  { intros f. unfold global_scale. destruct (Req_EM_T k 1); [contradiction|]. reflexivity. }
  split.
  - rewrite <- A. unfold solid, fs'. rewrite !Forall_map. split; intros H; eapply Forall_impl; try exact H; intros f; cbv beta; rewrite EP; auto.
  - unfold fs'. rewrite !map_map. apply map_ext. intros f. unfold global_scale. destruct (Req_EM_T k 1); [contradiction|].
    unfold st_at, scale_face, origin_face, origin_row, set_texvecs, map_rows. cbn [mf_st fst snd]. destruct (mf_st f) as [[[] w1] [[] w2]], p, o. cbn [fst snd]. vs. f_equal; field; lra.
Qed.
Print Assumptions C145_scale_origin_refuted.

(** For example the slab with origin brush at x = 10: scaled by 2, 0 <= x <= 2 is solid in place of -20 <= x <= -18. *)
Example C145_scale_origin : forall p, solid (map (global_scale 2) (map (origin_face (mkV 10 0 0)) slab)) p <-> 0 <= vx p <= 2.
Proof.
  intros p. replace p with (scale 2 (scale (1 / 2) p)) by (destruct p; vs; f_equal; field).
  rewrite (proj1 (C145_scale_origin_refuted 2 (mkV 10 0 0) slab (scale (1 / 2) p) ltac:(lra) ltac:(lra) slab_fresh)), slab_solid. destruct p. vs. lra.
Qed.

(** The planes of bevels are lost: they have no points. *)
Theorem C145_scale_bevel_refuted : forall k pl st, k <> 1 -> mf_plane (global_scale k (bevel_face pl st)) = mkPl (mkV 0 0 0) 0.
Proof.
  intros k pl st N1. unfold global_scale. destruct (Req_EM_T k 1); [contradiction|]. unfold scale_face, set_texvecs, set_planepts, bevel_face. cbn [mf_plane mf_pts map_pts points_plane].
  assert (Z : mul (diag (mkV k k k)) (mkV 0 0 0) = mkV 0 0 0) by (vs; f_equal; ring). rewrite Z.
  assert (C : cross (sub (mkV 0 0 0) (mkV 0 0 0)) (sub (mkV 0 0 0) (mkV 0 0 0)) = mkV 0 0 0) by (vs; f_equal; ring). rewrite C.
  assert (N : normalize (mkV 0 0 0) = mkV 0 0 0).
  { unfold normalize. destruct (Req_EM_T (len (mkV 0 0 0)) 0) as [E|E]; [reflexivity|]. vs. f_equal; ring. }
  rewrite N. vs. f_equal; ring.
Qed.
Print Assumptions C145_scale_bevel_refuted.

(** _lmscale: the shift is the logarithm, 4 without the key, and 0 for values below 1/16. *)
Theorem C145_lmshift : lmshift 0 = 4%nat /\ (forall i, (0 < i)%Z -> (2 ^ Z.of_nat (lmshift i) <= i < 2 ^ (Z.of_nat (lmshift i) + 1))%Z) /\ forall i, (i < 0)%Z -> lmshift i = 0%nat.
Proof.
  split; [reflexivity|]. split.
  - intros i P. unfold lmshift. destruct (Z.eqb_spec i 0) as [->|_]; [lia|].
    assert (G : forall fuel i, (0 < i)%Z -> (i <= Z.of_nat fuel)%Z -> (2 ^ Z.of_nat (shift_loop fuel i) <= i < 2 ^ (Z.of_nat (shift_loop fuel i) + 1))%Z).
    { clear. induction fuel as [|fuel IH]; intros i P L; [lia|]. cbn [shift_loop]. destruct (Z.ltb_spec 1 i) as [H|H].
      - pose proof (Z.div_mod i 2 ltac:(lia)) as DM. pose proof (Z.mod_pos_bound i 2 ltac:(lia)) as B.
        assert (Q : (0 < i / 2)%Z) by (apply Z.div_str_pos; lia). destruct (IH (i / 2)%Z Q ltac:(lia)) as [A1 A2].
        rewrite Nat2Z.inj_succ. unfold Z.succ. rewrite !Z.pow_add_r in * by lia. change (2 ^ 1)%Z with 2%Z in *. lia.
      - cbn. lia. }
    apply G; lia.
  - intros i N. unfold lmshift. destruct (Z.eqb_spec i 0); [lia|]. destruct i; try lia. reflexivity.
Qed.
Print Assumptions C145_lmshift.

(** The slab, doubled, turned by a yaw of 90 and moved by 5 along y: 5 <= y <= 7 is solid. *)
Example C145_nontrivial : solid (map (place (mkV 2 2 2) (mkV 0 90 0) (mkV 0 5 0)) slab) (mkV 0 7 0) /\ ~ solid (map (place (mkV 2 2 2) (mkV 0 90 0) (mkV 0 5 0)) slab) (mkV 2 0 0).
Proof.
  assert (R : forall x, mul (rotation (mkV 0 90 0)) (mkV x 0 0) = mkV 0 x 0).
  { intros x. destruct (C145_rotation (mkV 0 90 0)) as (_ & _ & _ & X & _). replace (mkV x 0 0) with (scale x (mkV 1 0 0)) by (vs; f_equal; ring).
    assert (L : forall m k v, mul m (scale k v) = scale k (mul m v)) by (intros [[] [] []] k []; vs; f_equal; ring). rewrite L, X. vs. f_equal; ring. }
  assert (R2 : forall y, mul (rotation (mkV 0 90 0)) (mkV 0 y 0) = mkV (- y) 0 0).
  { intros y. destruct (C145_rotation (mkV 0 90 0)) as (_ & _ & _ & _ & X & _). replace (mkV 0 y 0) with (scale y (mkV 0 1 0)) by (vs; f_equal; ring).
    assert (L : forall m k v, mul m (scale k v) = scale k (mul m v)) by (intros [[] [] []] k []; vs; f_equal; ring). rewrite L, X. vs. f_equal; ring. }
  split.
  - replace (mkV 0 7 0) with (add (mul (rotation (mkV 0 90 0)) (scaled (mkV 2 2 2) (mkV 1 0 0))) (mkV 0 5 0)).
    + apply C145_external; cbn [vx vy vz]; try lra; [exact slab_fresh|]. apply slab_solid. cbn [vx]. lra.
    + unfold scaled. cbn [vx vy vz]. replace (mkV (2 * 1) (2 * 0) (2 * 0)) with (mkV 2 0 0) by (f_equal; ring). rewrite R. vs. f_equal; ring.
  - replace (mkV 2 0 0) with (add (mul (rotation (mkV 0 90 0)) (scaled (mkV 2 2 2) (mkV (-5 / 2) (-1) 0))) (mkV 0 5 0)).
    + intros S. apply C145_external in S; cbn [vx vy vz]; try lra; [|exact slab_fresh]. apply slab_solid in S. cbn [vx] in S. lra.
    + unfold scaled. cbn [vx vy vz]. replace (mkV (2 * (-5 / 2)) (2 * -1) (2 * 0)) with (add (mkV (-5) 0 0) (mkV 0 (-2) 0)) by (vs; f_equal; field).
      assert (A : forall m u v, mul m (add u v) = add (mul m u) (mul m v)) by (intros [[] [] []] [] []; vs; f_equal; ring). rewrite A, R, R2. vs. f_equal; ring.
Qed.
