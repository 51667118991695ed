(* C160: which faces cast shadows on what. *)
From Coq Require Import List Arith ZArith QArith Bool Lia.
Import ListNotations.
From Verif Require Import ShadowModel.
Local Open Scope Z_scope.

(** The assertion that a face left over is of a model with _shadowself or _shadowworldonly always holds. *)
Theorem C160_assertion : forall q2 argh m f, place_of q2 argh m f <> Assertion.
Proof.
  intros q2 argh m f. unfold place_of. destruct (f_noshadow f); [destruct (negb _); discriminate|]. destruct (m_switch m); [destruct (negb _); discriminate|].
  destruct (m_mask m =? mask_default); [|destruct (negb (_ || _)); discriminate]. cbn [negb orb]. rewrite !orb_false_r.
  destruct (is_world m), (m_shadow m), (m_self m), (m_only m); cbn [orb negb]; try discriminate;
    destruct (negb (_ =? _)); try discriminate; destruct (q2 && s_nodraw f && negb (s_sky f)); try discriminate; destruct (below_one _ || _); try discriminate;
    destruct (f_brace f); try discriminate; destruct (if q2 then s_sky f && _ else _); try discriminate; destruct (if q2 then _ else f_liquid f); discriminate.
Qed.
Print Assumptions C160_assertion.

(** Faces with no_shadow, and all faces of models without any of the keys, let every ray through. *)
Theorem C160_none : forall q2 argh m f r,
  f_noshadow f = true \/ (m_id m <> O /\ m_shadow m = false /\ m_self m = false /\ m_only m = false /\ m_switch m = false /\ m_mask m = 1) ->
  meets q2 argh m f r = Through.
Proof.
  intros q2 argh m f r [H|(W & S & SE & O & SW & M)]; unfold meets, place_of.
  - rewrite H. destruct (negb _); reflexivity.
  - unfold is_world. rewrite (proj2 (Nat.eqb_neq _ _) W), S, SE, O, SW, M. reflexivity.
Qed.
Print Assumptions C160_none.

(** Whatever a ray meets has a channel in common with it. *)
Theorem C160_channels : forall q2 argh m f r, meets q2 argh m f r <> Through ->
  Z.land (match f_mask f with Some k => k | None => m_mask m end) (r_mask r) <> 0.
Proof.
  intros q2 argh m f r H. change (Z.land (channel m f) (r_mask r) <> 0). intros Z0.
  assert (MM : meets_mask m f r = false) by (unfold meets_mask; rewrite Z0; reflexivity).
  apply H. clear H. unfold meets. rewrite MM. cbn [negb]. rewrite andb_true_r.
  assert (D : place_of q2 argh m f = Sky \/ place_of q2 argh m f = Solid -> r_mask r <> mask_default).
  { intros P E. assert (channel m f = 1).
    { unfold place_of in P. destruct (negb (_ || _ || _ || _ || _ || _)); [destruct P; discriminate|]. destruct (f_noshadow f); [destruct P; discriminate|]. destruct (m_switch m); [destruct P; discriminate|].
      destruct (negb (m_mask m =? mask_default) || _) eqn:G; [destruct P; discriminate|]. apply orb_false_elim in G. destruct G as (G1 & G2). apply negb_false_iff, Z.eqb_eq in G1. apply negb_false_iff, Z.eqb_eq in G2. unfold channel. destruct (f_mask f); [exact G2|exact G1]. }
    rewrite E, H in Z0. discriminate Z0. }
  pose proof (C160_assertion q2 argh m f) as NA.
  destruct (place_of q2 argh m f); [reflexivity| | |unfold filter_hit; rewrite MM; reflexivity|congruence];
    rewrite (proj2 (Z.eqb_neq _ _) (D ltac:(tauto))); reflexivity.
Qed.
Print Assumptions C160_channels.

(** A model with a switchable shadow blocks no ray: its faces only leave the style with it, whatever their texture. *)
Theorem C160_switchable : forall q2 argh m f r, m_switch m = true ->
  meets q2 argh m f r = if negb (f_noshadow f) && negb (Z.land (channel m f) (r_mask r) =? 0) && (negb (m_only m) || from r 0) && (negb (m_self m) || from r (m_id m)) then Style (m_style m) else Through.
Proof.
  intros q2 argh m f r S. unfold meets, place_of. rewrite S, !orb_true_r. cbn [orb negb]. destruct (f_noshadow f); [reflexivity|]. cbn [negb andb]. unfold filter_hit, meets_mask. rewrite S.
  destruct (Z.land _ _ =? 0); [reflexivity|]. cbn [negb andb]. destruct (m_only m), (from r 0), (m_self m), (from r (m_id m)); reflexivity.
Qed.
Print Assumptions C160_switchable.

(** An ordinary face: no transparency, fence, sky or liquid, and drawn. *)
Definition ordinary (q2 : bool) (m : model) (f : face) : Prop :=
  f_noshadow f = false /\ (1 <= face_alpha q2 m f)%Q /\ f_brace f = false /\
  if q2 then s_nodraw f = false /\ s_alphatest f = false /\ s_trans33 f = false /\ s_trans66 f = false /\ s_warp f = false /\ s_sky f = false
  else f_skyname f = false /\ f_liquid f = false.
Lemma below_iff : forall a, below_one a = false <-> (1 <= a)%Q.
Proof. intros a. unfold below_one. rewrite negb_false_iff, Qle_bool_iff. reflexivity. Qed.
(** In the default channel: faces of the world and of models with _shadow block every ray of that channel; of other models,
    those with _shadowself the rays from the model itself, those with _shadowworldonly the rays from the world. *)
Theorem C160_ordinary : forall q2 argh m f r, ordinary q2 m f -> m_switch m = false -> m_mask m = 1 -> f_mask f = None -> Z.land 1 (r_mask r) <> 0 ->
  is_world m || m_shadow m || m_self m || m_only m = true ->
  meets q2 argh m f r = if is_world m || m_shadow m then Blocked
                        else if (negb (m_only m) || from r 0) && (negb (m_self m) || from r (m_id m)) then Blocked else Through.
Proof.
  intros q2 argh m f r (N & A & B & R) S M F C K. apply below_iff in A.
  assert (MM : meets_mask m f r = true) by (unfold meets_mask, channel; rewrite F, M; apply negb_true_iff, Z.eqb_neq; exact C).
  assert (G : is_glass q2 m f = false) by (unfold is_glass; destruct q2; [destruct R as (_ & _ & -> & -> & _); apply andb_false_r|exact A]).
  assert (E : is_fence q2 f = false) by (unfold is_fence; destruct q2; [apply R|exact B]).
  assert (P : place_of q2 argh m f = if is_world m || m_shadow m then Solid else Filter).
  { unfold place_of. rewrite K, S, M, F, N, A, B. cbn [orb negb]. change (1 =? mask_default) with true. change (mask_default =? mask_default) with true. cbn [orb negb].
    destruct q2; [destruct R as (-> & -> & -> & -> & -> & ->)|destruct R as (-> & ->)]; cbn [orb andb negb]; destruct (is_world m || m_shadow m) eqn:WS; try reflexivity; rewrite ?WS in K; cbn [orb] in K; try rewrite K; reflexivity. }
  unfold meets. rewrite P, MM. cbn [negb]. rewrite andb_false_r. destruct (is_world m || m_shadow m); [reflexivity|].
  unfold filter_hit. rewrite MM, S, G, E. cbn [negb andb]. destruct (m_only m), (from r 0), (m_self m), (from r (m_id m)); reflexivity.
Qed.
Print Assumptions C160_ordinary.
(** In other channels the key _shadow is not asked for: an ordinary face blocks every ray with a channel in common, from the
    model itself or the world if the other keys are given. *)
Theorem C160_other_channels : forall q2 argh m f r, ordinary q2 m f -> m_switch m = false -> m_mask m <> 1 -> Z.land (channel m f) (r_mask r) <> 0 ->
  meets q2 argh m f r = if (negb (m_only m) || from r 0) && (negb (m_self m) || from r (m_id m)) then Blocked else Through.
Proof.
  intros q2 argh m f r (N & A & B & R) S M C. apply below_iff in A.
  assert (MM : meets_mask m f r = true) by (unfold meets_mask; apply negb_true_iff, Z.eqb_neq; exact C).
  assert (G : is_glass q2 m f = false) by (unfold is_glass; destruct q2; [destruct R as (_ & _ & -> & -> & _); apply andb_false_r|exact A]).
  assert (E : is_fence q2 f = false) by (unfold is_fence; destruct q2; [apply R|exact B]).
  unfold meets, place_of. rewrite (proj2 (Z.eqb_neq (m_mask m) mask_default) M), N, S. cbn [negb]. rewrite !orb_true_r. cbn [orb negb].
  unfold filter_hit. rewrite MM, S, G, E. cbn [negb andb]. destruct (m_only m), (from r 0), (m_self m), (from r (m_id m)); reflexivity.
Qed.
Print Assumptions C160_other_channels.
(** A model with both _shadowself and _shadowworldonly, but not _shadow, casts no shadow at all with its ordinary faces. *)
Theorem C160_both_refuted : forall q2 argh m f r, ordinary q2 m f -> m_id m <> O -> m_shadow m = false -> m_switch m = false -> m_mask m = 1 -> f_mask f = None -> m_self m = true -> m_only m = true ->
  Z.land 1 (r_mask r) <> 0 -> meets q2 argh m f r = Through.
Proof.
  intros q2 argh m f r O W SH SW M F SE ON C. rewrite C160_ordinary; try assumption.
  - unfold is_world. rewrite (proj2 (Nat.eqb_neq _ _) W), SH, SE, ON. cbn [orb negb]. unfold from. destruct (r_self r) as [j|]; [|reflexivity].
    destruct (Nat.eqb_spec j 0); [|reflexivity]. destruct (Nat.eqb_spec j (m_id m)); [congruence|reflexivity].
  - rewrite SE, !orb_true_r. reflexivity.
Qed.
Print Assumptions C160_both_refuted.
(** A liquid of a model with _shadowself or _shadowworldonly shades everything, in contrast to those of the world. *)
Theorem C160_liquid_refuted : forall argh m f r, m_switch m = false -> m_mask m = 1 -> f_mask f = None -> f_noshadow f = false -> (1 <= face_alpha false m f)%Q -> f_brace f = false -> f_skyname f = false -> f_liquid f = true ->
  r_mask r = 1 -> m_self m || m_only m = true ->
  meets false argh m f r = if is_world m then Through else Blocked.
Proof.
  intros argh m f r S M F N A B K L R SO. apply below_iff in A. unfold meets, place_of. rewrite S, M, F, N, A, B, K, L, R. cbn [orb negb andb]. change (1 =? mask_default) with true. change (mask_default =? mask_default) with true. cbn [orb negb andb].
  rewrite <- (orb_assoc _ (m_self m)), SO, orb_true_r. cbn [orb negb]. destruct (is_world m); reflexivity.
Qed.
Print Assumptions C160_liquid_refuted.

(** Fences and glass of Quake in the world: a fence blocks where the texture is opaque, glass blocks nowhere. *)
Theorem C160_quake : forall argh f r, f_noshadow f = false -> f_mask f = None -> Z.land 1 (r_mask r) <> 0 ->
  (f_brace f = true -> f_alpha f = None -> meets false argh world f r = if r_sample r <? 255 then Through else Blocked) /\
  (forall a, f_alpha f = Some a -> (a < 1)%Q ->
    meets false argh world f r = if r_exits r then Tinted (if r_sample r <? 255 then r_sample r # 255 else a) else Through).
Proof.
  intros argh f r N F C.
  assert (MM : meets_mask world f r = true) by (unfold meets_mask, channel; rewrite F; apply negb_true_iff, Z.eqb_neq; exact C). split.
  - intros B A. unfold meets, place_of, filter_hit, is_glass, is_fence, face_alpha. rewrite MM, N, F, B, A. cbn [world m_alpha m_switch m_mask m_only m_self m_shadow is_world m_id Nat.eqb orb negb andb].
    change (mask_default =? mask_default) with true. change (below_one 1) with false. cbn [orb negb andb]. reflexivity.
  - intros a A L. assert (BL : below_one a = true) by (apply not_false_iff_true; rewrite below_iff; apply Qlt_not_le; exact L).
    unfold meets, place_of, filter_hit, is_glass, is_fence, face_alpha. rewrite MM, N, F, A. cbn [world m_alpha m_switch m_mask m_only m_self m_shadow is_world m_id Nat.eqb orb negb andb].
    change (mask_default =? mask_default) with true. rewrite BL. cbn [orb negb andb]. reflexivity.
Qed.
Print Assumptions C160_quake.
(** Faces of the world without any transparency: sky, liquids and faces that are not drawn, in both games.  In Quake II with
    -arghrad a sky face without light is an obstacle. *)
Theorem C160_world : forall q2 argh f r, r_mask r = 1 -> f_mask f = None -> (forall a, f_alpha f = Some a -> (1 <= a)%Q) -> f_brace f = false ->
  (q2 = true -> s_alphatest f = false /\ s_trans33 f = false /\ s_trans66 f = false) ->
  let sky := if q2 then s_sky f = true /\ (argh = true -> s_light f = true /\ f_value f = true) else f_skyname f = true in
  let hidden := f_noshadow f = true \/ q2 = true /\ s_nodraw f = true /\ s_sky f = false in
  let liquid := if q2 then s_warp f = true else f_liquid f = true in
  (hidden -> meets q2 argh world f r = Through) /\ (~ hidden -> sky -> meets q2 argh world f r = SkyHit) /\
  (~ hidden -> ~ sky -> liquid -> meets q2 argh world f r = Through) /\ (~ hidden -> ~ sky -> ~ liquid -> meets q2 argh world f r = Blocked).
Proof.
  intros q2 argh f r R F A B T sky hidden liquid.
  assert (AL : below_one (face_alpha q2 world f) = false).
  { apply below_iff. unfold face_alpha. destruct (f_alpha f) as [a|]; [apply (A a eq_refl)|]. cbn [world m_alpha]. destruct q2; [destruct (T eq_refl) as (_ & -> & ->)|]; discriminate. }
  unfold meets, place_of. rewrite AL, F, B, R. cbn [world m_switch m_mask m_only m_self m_shadow is_world m_id Nat.eqb orb negb andb]. change (mask_default =? mask_default) with true. change (1 =? mask_default) with true. cbn [orb negb andb].
  unfold hidden, sky, liquid. destruct q2; [destruct (T eq_refl) as (-> & -> & ->)|]; cbn [orb negb andb];
    [destruct (f_noshadow f), (s_nodraw f), (s_sky f), argh, (s_light f), (f_value f), (s_warp f)|destruct (f_noshadow f), (f_skyname f), (f_liquid f)]; cbn [orb negb andb]; intuition (try reflexivity; try congruence).
Qed.
Print Assumptions C160_world.
(** Glass of Quake II in the world: a third or two thirds, unless the map says otherwise. *)
Theorem C160_glass_q2 : forall argh f r, f_noshadow f = false -> f_mask f = None -> Z.land 1 (r_mask r) <> 0 -> s_nodraw f = false -> s_alphatest f = false -> s_trans33 f || s_trans66 f = true -> 255 <= r_sample r -> r_exits r = true ->
  meets true argh world f r = Tinted (match f_alpha f with Some a => a | None => if s_trans33 f then 33 # 100 else 66 # 100 end).
Proof.
  intros argh f r N F C D AT T S X.
  assert (MM : meets_mask world f r = true) by (unfold meets_mask, channel; rewrite F; apply negb_true_iff, Z.eqb_neq; exact C).
  unfold meets, place_of, filter_hit, is_glass, is_fence, face_alpha. rewrite MM, N, F, D, AT, X. cbn [world m_alpha m_switch m_mask m_only m_self m_shadow is_world m_id Nat.eqb orb negb andb]. change (mask_default =? mask_default) with true.
  rewrite T. cbn [orb negb andb]. rewrite orb_true_r. destruct (Z.ltb_spec (r_sample r) 255); [lia|]. destruct (f_alpha f); [reflexivity|]. destruct (s_trans33 f); [reflexivity|]. cbn [orb] in T. rewrite T. reflexivity.
Qed.
Print Assumptions C160_glass_q2.
(** In Quake II the alpha that a map gives to a face without flags of transparency is ignored: even at 0 it blocks. *)
Theorem C160_alpha_refuted : forall argh a, let f := mkFace false None (Some a) false false false false false false false false false false false in
  meets true argh world f (mkRay (Some O) 1 255 true) = Blocked.
Proof. intros argh a f. unfold meets, place_of, f, face_alpha. cbn [f_alpha]. destruct (below_one a); reflexivity. Qed.
Print Assumptions C160_alpha_refuted.

(** Models without faces: they block every ray of the default channel if they have _shadow, and any other ray ends light. *)
Theorem C160_skip_refuted : forall m r, m_id m <> O -> m_switch m = false ->
  skip_meets m r = if m_shadow m then (if r_mask r =? 1 then Blocked else Stop) else Through.
Proof.
  intros m r W S. unfold skip_meets, kind_of, is_world. rewrite (proj2 (Nat.eqb_neq _ _) W), S. destruct (m_shadow m); [reflexivity|]. destruct (m_self m), (m_only m); reflexivity.
Qed.
Print Assumptions C160_skip_refuted.
(** A switchable shadow has a style only if the key is 1; with any other number above 0 light stops. *)
Theorem C160_switch_refuted : forall m v style, m_id m <> O -> m_style m = 0 -> 0 < v -> style <> 0 ->
  kind_of (with_switch v style m) = if v =? 1 then Switchable else Failed.
Proof.
  intros m v style W Z0 V N. unfold kind_of, is_world, with_switch. cbn [m_id m_switch m_style]. rewrite (proj2 (Nat.eqb_neq _ _) W), (proj2 (Z.ltb_lt 0 v) V).
  destruct (v =? 1); [rewrite (proj2 (Z.eqb_neq _ _) N); reflexivity|rewrite Z0; reflexivity].
Qed.
Print Assumptions C160_switch_refuted.
(** There is no warning for any lightmap scale. *)
Theorem C160_scale_refuted : forall scale, 1 <= scale -> scale_warns scale = false.
Proof.
  intros scale L. assert (G : forall n i, i <= scale -> scale - i <= Z.of_nat n -> count_up n i scale = scale).
  { induction n as [|n IH]; intros i A B; [cbn [count_up]; lia|]. cbn [count_up]. destruct (Z.ltb_spec i scale); [apply IH; lia|lia]. }
  unfold scale_warns. rewrite G by lia. rewrite Z.eqb_refl. reflexivity.
Qed.
Print Assumptions C160_scale_refuted.

(** A face belongs to the model with it in its range, if no other has it. *)
Lemma model_for_some : forall models n k j, model_for n models k = Some j <->
  exists i first num, j = (n + i)%nat /\ nth_error models i = Some (first, num) /\ first <= k < first + num /\
    forall i' p, (i' < i)%nat -> nth_error models i' = Some p -> ~ (fst p <= k < fst p + snd p).
Proof.
  induction models as [|(first, num) t IH]; intros n k j; cbn [model_for].
  - split; [discriminate|]. intros (i & a & b & _ & H & _). destruct i; discriminate H.
  - destruct (Z.ltb_spec k first) as [L|L]; [|destruct (Z.ltb_spec k (first + num)) as [L2|L2]].
    1, 3: rewrite IH; split; [intros (i & a & b & -> & A & B & C); exists (S i), a, b; repeat split; try assumption; try lia; intros [|i'] p I P; [injection P as <-; cbn [fst snd]; lia|apply (C i' p); [lia|exact P]]|
      intros ([|i] & a & b & -> & A & B & C); [injection A as <- <-; lia|exists i, a, b; repeat split; try assumption; try lia; intros i' p I P; apply (C (S i') p); [lia|exact P]]].
    split.
    + intros H. injection H as <-. exists O, first, num. repeat split; try lia. 
    + intros ([|i] & a & b & -> & A & B & C); [f_equal; lia|]. exfalso. apply (C O (first, num)); [lia|reflexivity|cbn [fst snd]; lia].
Qed.
Theorem C160_face : forall models k j first num, nth_error models j = Some (first, num) -> first <= k < first + num ->
  (forall i p, i <> j -> nth_error models i = Some p -> ~ (fst p <= k < fst p + snd p)) -> model_for 0 models k = Some j.
Proof. intros models k j first num H R U. apply model_for_some. exists j, first, num. repeat split; try assumption; try lia. intros i p L P. apply (U i p); [lia|exact P]. Qed.
Print Assumptions C160_face.
Theorem C160_no_face : forall models k, model_for 0 models k = None <-> (forall i p, nth_error models i = Some p -> ~ (fst p <= k < fst p + snd p)).
Proof.
  intros models k. split.
  - intros H. assert (G : forall ms n, model_for n ms k = None -> forall i p, nth_error ms i = Some p -> ~ (fst p <= k < fst p + snd p)).
    { induction ms as [|(first, num) t IH]; intros n E [|i] p P; try discriminate P; cbn [model_for] in E.
      - injection P as <-. cbn [fst snd]. destruct (Z.ltb_spec k first); [lia|]. destruct (Z.ltb_spec k (first + num)); [discriminate|lia].
      - cbn [nth_error] in P. destruct (Z.ltb_spec k first); [apply (IH (S n) E i p P)|]. destruct (Z.ltb_spec k (first + num)); [discriminate|apply (IH (S n) E i p P)]. }
    apply (G models O H).
  - intros H. destruct (model_for 0 models k) as [j|] eqn:E; [|reflexivity]. apply model_for_some in E. destruct E as (i & a & b & _ & A & B & _). exfalso. apply (H i (a, b) A). exact B.
Qed.
Print Assumptions C160_no_face.

Definition plain : face := mkFace false None None false false false false false false false false false false false.
Definition self3 : model := mkModel 3 false true false false 0 1 None.
Example C160_nontrivial :
  meets false false world plain (mkRay (Some 3%nat) 1 255 true) = Blocked /\ meets false false self3 plain (mkRay (Some 3%nat) 1 255 true) = Blocked /\ meets false false self3 plain (mkRay (Some O) 1 255 true) = Through /\
  meets false false world plain (mkRay (Some O) 2 255 true) = Through /\ meets false false (mkModel 4 false false false false 0 2 None) plain (mkRay (Some O) 2 255 true) = Blocked /\
  meets false false (with_switch 1 32 (mkModel 4 true false false false 0 1 None)) plain (mkRay (Some O) 1 255 true) = Style 32 /\
  meets true false world (mkFace false None None false false false false false false true false false false false) (mkRay (Some O) 1 255 true) = Tinted (33 # 100) /\
  scale_warns 3 = false /\ model_for 0 [(0, 10); (12, 3)] 13 = Some 1%nat /\ model_for 0 [(0, 10); (12, 3)] 11 = None.
Proof. repeat split; vm_compute; reflexivity. Qed.
