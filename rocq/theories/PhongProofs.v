(* Lemmas about smoothed normals (model in PhongModel.v). *)
From Coq Require Import Reals List Bool Arith ZArith NArith Lia Lra Psatz Permutation.
From Verif Require Import WindClipModel WindClipProofs PolyGeoModel PolyGeoProofs LightValProofs PhongModel.
Import ListNotations.
Open Scope R_scope.

(* ---- neighbours ---- *)

Lemma in_verts_to_faces b v j : In j (verts_to_faces b v) <-> (j < length (pm_faces b))%nat /\ In v (pf_verts (face b j)).
Proof.
  unfold verts_to_faces. rewrite in_flat_map. split.
  - intros (i & I & J). apply in_map_iff in J. destruct J as (x & <- & J). apply filter_In in J. destruct J as [J E].
    apply Nat.eqb_eq in E. subst x. apply (in_seq (length (pm_faces b)) 0 i) in I. split; [lia|exact J].
  - intros [L I]. exists j. split; [apply (in_seq (length (pm_faces b)) 0 j); lia|].
    apply in_map_iff. exists v. split; [reflexivity|]. apply filter_In. split; [exact I|apply Nat.eqb_refl].
Qed.

Lemma in_neighbours b i j : In j (neighbours b i) <->
  (j < length (pm_faces b))%nat /\ j <> i /\ (exists v, In v (pf_verts (face b i)) /\ In v (pf_verts (face b j))) /\ smooths b (face b i) (face b j) = true.
Proof.
  unfold neighbours. rewrite filter_In, (in_seq (length (pm_faces b)) 0 j), existsb_exists. split.
  - intros [L (x & X & E)]. apply Nat.eqb_eq in E. subst x. unfold walked in X. apply filter_In in X. destruct X as [X E].
    apply andb_prop in E. destruct E as [E1 E2]. apply in_flat_map in X. destruct X as (v & V & X). apply in_verts_to_faces in X.
    split; [lia|]. split; [intros ->; rewrite Nat.eqb_refl in E1; discriminate|]. split; [exists v; tauto|exact E2].
  - intros (L & D & (v & V1 & V2) & E). split; [lia|]. exists j. split; [|apply Nat.eqb_refl]. unfold walked. apply filter_In. split.
    + apply in_flat_map. exists v. split; [exact V1|]. apply in_verts_to_faces. auto.
    + rewrite E, andb_true_r. apply negb_true_iff, Nat.eqb_neq. exact D.
Qed.

Lemma neighbours_nodup b i : NoDup (i :: neighbours b i).
Proof.
  constructor.
  - intros H. apply in_neighbours in H. tauto.
  - apply NoDup_filter, seq_NoDup.
Qed.

Lemma faces_smoothed_iff b i j : faces_smoothed b i j = true <-> In j (neighbours b i).
Proof.
  unfold faces_smoothed. rewrite existsb_exists. split.
  - intros (x & X & E). apply Nat.eqb_eq in E. subst. exact X.
  - intros H. exists j. split; [exact H|apply Nat.eqb_refl].
Qed.

Lemma smooths_iff b f g : smooths b f g = true <->
  wants b f = true /\ wants b g = true /\ may_phong b f g = true /\ phong_value b f = phong_value b g /\
  cos (deg2rad (threshold b f g)) <= dot (p_n (pf_plane f)) (p_n (pf_plane g)).
Proof.
  unfold smooths. rewrite !andb_true_iff, leb_t, Z.eqb_eq. tauto.
Qed.

Lemma face_in b i : (i < length (pm_faces b))%nat -> In (face b i) (pm_faces b).
Proof. intros H. apply nth_In. exact H. Qed.

(* ---- sums ---- *)

Definition sumr (l : list vec) : vec := fold_right add zero l.

Lemma add_assoc a c d : add (add a c) d = add a (add c d).
Proof. apply vec_eq; unfold add; cbn; ring. Qed.
Lemma add_comm a c : add a c = add c a.
Proof. apply vec_eq; unfold add; cbn; ring. Qed.
Lemma add_zero a : add a zero = a.
Proof. apply vec_eq; unfold add, zero; cbn; ring. Qed.

Lemma vsum_sumr l : vsum l = sumr l.
Proof.
  unfold vsum. assert (G : forall a, fold_left add l a = add a (sumr l)).
  { induction l as [|x l IH]; intros a; cbn [fold_left sumr fold_right]; [rewrite add_zero; reflexivity|].
    rewrite IH. fold (sumr l). rewrite add_assoc. reflexivity. }
  rewrite G, add_comm, add_zero. reflexivity.
Qed.

Lemma sumr_perm l m : Permutation l m -> sumr l = sumr m.
Proof.
  induction 1 as [| |x y l|l m n _ IH1 _ IH2]; cbn [sumr fold_right]; [reflexivity|unfold sumr in *; congruence| |congruence].
  rewrite <- !add_assoc. rewrite (add_comm x y). reflexivity.
Qed.

Lemma dot_add_l a c d : dot (add a c) d = dot a d + dot c d.
Proof. unfold dot, add; cbn; ring. Qed.

Lemma len_add a c : len (add a c) <= len a + len c.
Proof.
  pose proof (triangle a zero (scale (-1) c)) as T.
  replace (sub a (scale (-1) c)) with (add a c) in T by (apply vec_eq; unfold add, sub, scale; cbn; ring).
  replace (sub a zero) with a in T by (apply vec_eq; unfold sub, zero; cbn; ring).
  replace (sub zero (scale (-1) c)) with c in T by (apply vec_eq; unfold sub, scale, zero; cbn; ring). exact T.
Qed.

Lemma len_zero : len zero = 0.
Proof. apply len_0. reflexivity. Qed.

(* every part is within the cone around u, hence the sum is *)
Lemma cone_sum u k l : 0 <= k -> (forall c, In c l -> k * len c <= dot c u) -> k * len (sumr l) <= dot (sumr l) u.
Proof.
  intros K H. assert (G : exists w, len (sumr l) <= w /\ k * w <= dot (sumr l) u).
  { induction l as [|c l IH].
    - exists 0. cbn [sumr fold_right]. rewrite len_zero. unfold dot, zero; cbn. lra.
    - destruct IH as (w & A & B); [intros x X; apply H; right; exact X|]. exists (len c + w). cbn [sumr fold_right]. fold (sumr l).
      split; [pose proof (len_add c (sumr l)); lra|]. rewrite dot_add_l. pose proof (H c (or_introl eq_refl)). lra. }
  destruct G as (w & A & B). pose proof (Rmult_le_compat_l k _ _ K A). lra.
Qed.

(* ---- weights ---- *)

Lemma angle_nonneg d1 d2 : 0 <= angle_between d1 d2.
Proof. unfold angle_between. destruct (is0 _); [lra|]. apply (proj1 (acos_bound _)). Qed.

Lemma sum_areas_nonneg l : 0 <= fold_right (fun t acc => tri_area' t + acc) 0 l.
Proof. induction l as [|t l IH]; cbn [fold_right]; [lra|]. pose proof (tri_area_pos t). lra. Qed.

Lemma weights_nonneg b f x : In x (weights b f) -> 0 <= snd x.
Proof.
  unfold weights. rewrite in_map_iff. intros ([[p v] n] & <- & _). cbn [snd].
  apply Rmult_le_pos; [apply sum_areas_nonneg|apply angle_nonneg].
Qed.

Lemma in_contribs b f v c : In c (contribs b f v) -> exists w, 0 <= w /\ c = scale w (p_n (pf_plane f)).
Proof.
  unfold contribs. rewrite in_map_iff. intros (x & <- & X). apply filter_In in X. exists (snd x). split; [|reflexivity].
  apply (weights_nonneg b f). tauto.
Qed.

Lemma len_unit n : dot n n = 1 -> len n = 1.
Proof. intros H. apply len_eq; lra. Qed.

Lemma contrib_len b f v c : dot (p_n (pf_plane f)) (p_n (pf_plane f)) = 1 -> In c (contribs b f v) -> c = scale (len c) (p_n (pf_plane f)).
Proof.
  intros U H. apply in_contribs in H. destruct H as (w & W & ->). rewrite len_scale by exact W. rewrite (len_unit _ U), Rmult_1_r. reflexivity.
Qed.

Lemma in_combine_mid (a c : list nat) p v : In (p, v) (combine a c) -> In v c.
Proof. apply in_combine_r. Qed.

Lemma contribs_absent b f v : ~ In v (pf_verts f) -> contribs b f v = [].
Proof.
  intros H. unfold contribs. replace (filter _ _) with (@nil (nat * R)); [reflexivity|]. symmetry.
  destruct (filter (fun x => Nat.eqb (fst x) v) (weights b f)) as [|x r] eqn:E; [reflexivity|exfalso].
  assert (X : In x (filter (fun x => Nat.eqb (fst x) v) (weights b f))) by (rewrite E; left; reflexivity).
  apply filter_In in X. destruct X as [X Q]. apply Nat.eqb_eq in Q. unfold weights in X. apply in_map_iff in X.
  destruct X as ([[p v'] n] & <- & X). cbn [fst] in Q. subst v'. unfold corners in X. apply in_combine_l, in_combine_mid in X. contradiction.
Qed.

Definition parts (b : pmap) (i v : nat) : list vec := flat_map (fun j => contribs b (face b j) v) (i :: neighbours b i).

Lemma smoothed_unfold b i v : smoothed b i v =
  if is0 (len (sumr (parts b i v))) then p_n (pf_plane (face b i)) else normalize (sumr (parts b i v)).
Proof. unfold smoothed. fold (parts b i v). rewrite vsum_sumr. reflexivity. Qed.

Lemma in_parts b i v c : In c (parts b i v) -> exists j, (j = i \/ In j (neighbours b i)) /\ In c (contribs b (face b j) v).
Proof. unfold parts. rewrite in_flat_map. intros (j & [E|J] & C); exists j; auto. Qed.

Lemma dot_normalize s u : len s <> 0 -> dot (normalize s) u = / len s * dot s u.
Proof. intros H. unfold normalize. destruct (Req_EM_T (len s) 0); [contradiction|]. apply dot_scale_l. Qed.

Lemma flat_map_filter {A B} (f : A -> list B) (p : A -> bool) l : (forall x, p x = false -> f x = []) -> flat_map f l = flat_map f (filter p l).
Proof.
  intros H. induction l as [|x l IH]; [reflexivity|]. cbn [flat_map filter]. destruct (p x) eqn:E; cbn [flat_map]; rewrite IH; [reflexivity|].
  rewrite (H x E). reflexivity.
Qed.

Lemma flat_map_perm {A B} (f : A -> list B) l m : Permutation l m -> Permutation (flat_map f l) (flat_map f m).
Proof.
  induction 1 as [|x l m _ IH|x y l|l m n _ IH1 _ IH2]; cbn [flat_map].
  - constructor.
  - apply Permutation_app_head, IH.
  - rewrite !app_assoc. apply Permutation_app_tail, Permutation_app_comm.
  - eapply perm_trans; eassumption.
Qed.

Lemma parts_perm b i j v :
  (forall k, In v (pf_verts (face b k)) -> (k = i \/ In k (neighbours b i)) <-> (k = j \/ In k (neighbours b j))) ->
  Permutation (parts b i v) (parts b j v).
Proof.
  intros H. unfold parts. set (p := fun k => existsb (Nat.eqb v) (pf_verts (face b k))).
  assert (P : forall k, p k = true <-> In v (pf_verts (face b k))).
  { intros k. unfold p. rewrite existsb_exists. split.
    - intros (x & X & E). apply Nat.eqb_eq in E. subst. exact X.
    - intros X. exists v. split; [exact X|apply Nat.eqb_refl]. }
  assert (F : forall k, p k = false -> contribs b (face b k) v = []).
  { intros k K. apply contribs_absent. intros X. apply P in X. congruence. }
  rewrite (flat_map_filter _ p (i :: neighbours b i) F), (flat_map_filter _ p (j :: neighbours b j) F).
  apply flat_map_perm, NoDup_Permutation.
  - apply NoDup_filter, neighbours_nodup.
  - apply NoDup_filter, neighbours_nodup.
  - intros k. rewrite !filter_In. cbn [In]. split; intros [A K]; (split; [|exact K]); apply P in K; specialize (H k K).
    + assert (B : k = i \/ In k (neighbours b i)) by (destruct A; auto). apply H in B. destruct B; auto.
    + assert (B : k = j \/ In k (neighbours b j)) by (destruct A; auto). apply H in B. destruct B; auto.
Qed.

(* ---- angles ---- *)

Lemma deg2rad_le a c : (a <= c)%nat -> deg2rad a <= deg2rad c.
Proof. intros H. unfold deg2rad. apply Rmult_le_compat_r; [pose proof PI_RGT_0; lra|apply le_INR; exact H]. Qed.
Lemma deg2rad_pos a : 0 <= deg2rad a.
Proof. unfold deg2rad. apply Rmult_le_pos; [apply pos_INR|pose proof PI_RGT_0; lra]. Qed.
Lemma deg2rad_180 a : (a <= 180)%nat -> deg2rad a <= PI.
Proof. intros H. apply deg2rad_le in H. unfold deg2rad in *. rewrite (INR_IZR_INZ 180) in H; change (Z.of_nat 180) with 180%Z in H. lra. Qed.
Lemma deg2rad_90 a : (a <= 90)%nat -> deg2rad a <= PI / 2.
Proof. intros H. apply deg2rad_le in H. unfold deg2rad in *. rewrite (INR_IZR_INZ 90) in H; change (Z.of_nat 90) with 90%Z in H. lra. Qed.

Lemma cos_deg_le a c : (a <= c)%nat -> (c <= 180)%nat -> cos (deg2rad c) <= cos (deg2rad a).
Proof.
  intros H L. apply cos_decr_1; try apply deg2rad_pos; try apply deg2rad_180; try lia. apply deg2rad_le, H.
Qed.

Lemma acos_le x t : -1 <= x <= 1 -> 0 <= t <= PI -> (cos t <= x <-> acos x <= t).
Proof.
  intros X T. pose proof (acos_bound x) as B. pose proof (cos_acos x X) as E. split; intros H.
  - destruct (Rle_lt_dec (acos x) t) as [|L]; [assumption|exfalso].
    pose proof (cos_decreasing_1 t (acos x) (proj1 T) (proj2 T) (proj1 B) (proj2 B) L). lra.
  - rewrite <- E. apply cos_decr_1; try tauto.
Qed.

Lemma unit_dot a c : dot a a = 1 -> dot c c = 1 -> -1 <= dot a c <= 1.
Proof. intros A C. pose proof (cauchy a c) as H. rewrite (len_unit a A), (len_unit c C) in H. apply Rabs_le_inv in H || (unfold Rabs in H; destruct (Rcase_abs (dot a c)) in H); lra. Qed.

Lemma threshold_own b f g T : (angle_of b f <= T)%nat -> (concave_of b f <= T)%nat -> (threshold b f g <= T)%nat.
Proof. intros A C. unfold threshold. destruct (is_concave b f g); lia. Qed.

(* ---- model keys ---- *)

Lemma upd_ext_nth d l : forall k a t, nth t (upd_ext l k a) d = if Nat.eqb t k && Nat.ltb t (length l) then set_angle a (nth t l d) else nth t l d.
Proof.
  induction l as [|e l IH]; intros [|k] a [|t]; cbn [upd_ext nth length]; try reflexivity.
  - rewrite andb_false_r. reflexivity.
  - rewrite IH. reflexivity.
Qed.
Lemma upd_ext_length l : forall k a, length (upd_ext l k a) = length l.
Proof. induction l as [|e l IH]; intros [|k] a; cbn; auto. Qed.

Definition mfaces (m : nat * nat * nat) : list nat := let '(_, f, n) := m in seq f n.
Definition mangle (m : nat * nat * nat) : nat := let '(a, _, _) := m in a.
(* the model has a face with the texinfo and asks for smoothing *)
Definition asks (fs : list pface) (t : nat) (m : nat * nat * nat) : Prop :=
  mangle m <> 0%nat /\ exists j, In j (mfaces m) /\ pf_tex (nth j fs no_face) = t.

Lemma fold_upd d fs a t : forall js l, (t < length l)%nat ->
  let r := fold_left (fun l j => upd_ext l (pf_tex (nth j fs no_face)) a) js l in
  length r = length l /\
  ((exists j, In j js /\ pf_tex (nth j fs no_face) = t) -> nth t r d = set_angle a (nth t l d)) /\
  ((forall j, In j js -> pf_tex (nth j fs no_face) <> t) -> nth t r d = nth t l d).
Proof.
  induction js as [|j js IH]; intros l L; cbn [fold_left].
  - split; [reflexivity|]. split; [intros (j & [] & _)|reflexivity].
  - destruct (IH (upd_ext l (pf_tex (nth j fs no_face)) a)) as (A & B & C); [rewrite upd_ext_length; exact L|].
    rewrite upd_ext_length in A. split; [exact A|].
    assert (E : nth t (upd_ext l (pf_tex (nth j fs no_face)) a) d = if Nat.eqb t (pf_tex (nth j fs no_face)) then set_angle a (nth t l d) else nth t l d).
    { rewrite upd_ext_nth. apply Nat.ltb_lt in L. rewrite L, andb_true_r. reflexivity. }
    split.
    + intros (k & K & Q). destruct (in_dec Nat.eq_dec t (map (fun j => pf_tex (nth j fs no_face)) js)) as [I|I].
      * apply in_map_iff in I. destruct I as (x & X & I). rewrite B by (exists x; auto). rewrite E. destruct (Nat.eqb _ _); reflexivity.
      * rewrite C by (intros x X Y; apply I, in_map_iff; exists x; auto). destruct K as [<-|K].
        -- rewrite E, <- Q, Nat.eqb_refl. reflexivity.
        -- exfalso. apply I, in_map_iff. exists k. auto.
    + intros H. rewrite C by (intros x X; apply H; right; exact X). rewrite E.
      destruct (Nat.eqb_spec t (pf_tex (nth j fs no_face))) as [Q|Q]; [|reflexivity]. exfalso. apply (H j (or_introl eq_refl)). congruence.
Qed.

Lemma apply_model_spec d fs m l t : (t < length l)%nat ->
  length (apply_model fs l m) = length l /\
  (asks fs t m -> nth t (apply_model fs l m) d = set_angle (mangle m) (nth t l d)) /\
  (~ asks fs t m -> nth t (apply_model fs l m) d = nth t l d).
Proof.
  destruct m as [[a f] n]. intros L. unfold apply_model, asks. cbn [mangle mfaces].
  destruct (Nat.eqb_spec a 0) as [Z|Z]; [split; [reflexivity|split; [tauto|reflexivity]]|].
  destruct (fold_upd d fs a t (seq f n) l L) as (A & B & C). split; [exact A|]. split.
  - intros [_ H]. apply B, H.
  - intros H. apply C. intros j J Q. apply H. split; [exact Z|]. exists j. auto.
Qed.

Lemma apply_models_none d fs t : forall ms l, (t < length l)%nat -> (forall m, In m ms -> ~ asks fs t m) ->
  nth t (fold_left (apply_model fs) ms l) d = nth t l d.
Proof.
  induction ms as [|m ms IH]; intros l L H; [reflexivity|]. cbn [fold_left].
  destruct (apply_model_spec d fs m l t L) as (A & _ & C). rewrite IH; [apply C, H; left; reflexivity|lia|].
  intros x X. apply H. right. exact X.
Qed.
Lemma apply_models_length (d : pext) fs t : forall ms l, (t < length l)%nat -> length (fold_left (apply_model fs) ms l) = length l.
Proof.
  induction ms as [|m ms IH]; intros l L; [reflexivity|]. cbn [fold_left].
  destruct (apply_model_spec d fs m l t L) as (A & _). rewrite IH; lia.
Qed.
(* fields other than the angle *)
Lemma apply_models_other d fs t : forall ms l, (t < length l)%nat ->
  let r := nth t (fold_left (apply_model fs) ms l) d in
  pe_concave r = pe_concave (nth t l d) /\ pe_no r = pe_no (nth t l d) /\ pe_group r = pe_group (nth t l d).
Proof.
  induction ms as [|m ms IH]; intros l L; [cbn; auto|]. cbn [fold_left].
  destruct (apply_model_spec d fs m l t L) as (A & B & C). specialize (IH (apply_model fs l m)). cbn zeta in *.
  destruct IH as (I1 & I2 & I3); [lia|]. rewrite I1, I2, I3.
  assert (D : asks fs t m \/ ~ asks fs t m).
  { unfold asks. destruct (Nat.eq_dec (mangle m) 0) as [Z|Z]; [right; tauto|].
    destruct (in_dec Nat.eq_dec t (map (fun j => pf_tex (nth j fs no_face)) (mfaces m))) as [I|I].
    - left. split; [exact Z|]. apply in_map_iff in I. destruct I as (j & Q & J). exists j. auto.
    - right. intros [_ (j & J & Q)]. apply I, in_map_iff. exists j. auto. }
  destruct D as [D|D]; [rewrite (B D)|rewrite (C D)]; cbn; auto.
Qed.

(* ---- concrete maps ---- *)

Lemma neighbours_filter b i : neighbours b i = filter (faces_smoothed b i) (seq 0 (length (pm_faces b))).
Proof.
  unfold neighbours at 1. apply filter_ext. intros j. destruct (faces_smoothed b i j) eqn:E.
  - apply faces_smoothed_iff in E. unfold neighbours in E. apply filter_In in E. tauto.
  - destruct (existsb (Nat.eqb j) (walked b i)) eqn:F; [|reflexivity]. exfalso.
    assert (X : faces_smoothed b i j = true); [|congruence]. apply faces_smoothed_iff. unfold neighbours. apply filter_In. split; [|exact F].
    apply existsb_exists in F. destruct F as (x & X & Q). apply Nat.eqb_eq in Q. subst x. unfold walked in X. apply filter_In in X. destruct X as [X _].
    apply in_flat_map in X. destruct X as (v & _ & X). apply in_verts_to_faces in X. apply (in_seq (length (pm_faces b)) 0 j). lia.
Qed.

Lemma acos_pos c : -1 <= c < 1 -> 0 < acos c.
Proof.
  intros H. destruct (acos_bound c) as [A _]. destruct (Rle_lt_or_eq_dec _ _ A) as [L|E]; [exact L|exfalso].
  assert (C : cos (acos c) = c) by (apply cos_acos; lra). rewrite <- E, cos_0 in C. lra.
Qed.

Lemma lagrange a c : dot a c * dot a c + dot (cross a c) (cross a c) = dot a a * dot c c.
Proof. unfold dot, cross; cbn; ring. Qed.

Lemma angle_pos a c : cross a c <> zero -> 0 < angle_between a c.
Proof.
  intros H. assert (X : 0 < dot (cross a c) (cross a c)).
  { destruct (Rle_lt_or_eq_dec _ _ (dot_pos (cross a c))) as [L|E]; [exact L|]. symmetry in E. apply dot_zero in E. contradiction. }
  assert (A : a <> zero) by (intros ->; apply H; unfold cross, zero; cbn; f_equal; ring).
  assert (C : c <> zero) by (intros ->; apply H; unfold cross, zero; cbn; f_equal; ring).
  apply len_gt in A. apply len_gt in C. pose proof (lagrange a c) as L. rewrite <- !len_sq in L.
  unfold angle_between. destruct (is0 _) eqn:Z; [apply is0_t in Z; nra|]. set (m := len a * len c) in *. assert (M : 0 < m) by (apply Rmult_lt_0_compat; assumption).
  assert (D : dot a c * dot a c < m * m) by (unfold m; rewrite <- len_sq in X; nra).
  assert (B : - m < dot a c < m) by nra.
  assert (Q : -1 < dot a c / m < 1).
  { split; [apply Rmult_lt_reg_r with m|apply Rmult_lt_reg_r with m]; try exact M; unfold Rdiv; rewrite Rmult_assoc, Rinv_l by lra; lra. }
  apply acos_pos. unfold clamp1. destruct (ltb (dot a c / m) (-1)) eqn:E1; [apply ltb_t in E1; lra|].
  destruct (ltb 1 (dot a c / m)) eqn:E2; [apply ltb_t in E2; lra|]. lra.
Qed.

(* a triangle gives each of its corners a part *)
Lemma tri_contribs b n num s t x y z v : x <> y -> y <> z -> x <> z ->
  cross (sub (pm_pos b z) (pm_pos b x)) (sub (pm_pos b y) (pm_pos b x)) <> zero ->
  In v [x; y; z] -> exists w, 0 < w /\ contribs b (mkPF [x; y; z] n num s t) v = [scale w (p_n n)].
Proof.
  intros XY YZ XZ C V.
  set (A := pm_pos b x) in *. set (B := pm_pos b y) in *. set (D := pm_pos b z) in *.
  assert (AR : 0 < poly_area [A; B; D]).
  { unfold poly_area, fan, fan_from. cbn [fold_right tri_area']. unfold tri_area. apply len_gt in C. lra. }
  assert (P1 : 0 < angle_between (sub D A) (sub B A)) by (apply angle_pos; exact C).
  assert (P2 : 0 < angle_between (sub A B) (sub D B)).
  { apply angle_pos. intros Q. apply C. rewrite <- Q. unfold cross, sub; cbn. f_equal; ring. }
  assert (P3 : 0 < angle_between (sub B D) (sub A D)).
  { apply angle_pos. intros Q. apply C. rewrite <- Q. unfold cross, sub; cbn. f_equal; ring. }
  unfold contribs, weights, corners, points. cbn [pf_verts map prev_of next_of rev app combine fst snd filter pf_plane]. fold A B D.
  destruct V as [<-|[<-|[<-|[]]]].
  - rewrite Nat.eqb_refl. rewrite (proj2 (Nat.eqb_neq y x)), (proj2 (Nat.eqb_neq z x)) by congruence.
    eexists. split; [|reflexivity]. apply Rmult_lt_0_compat; assumption.
  - rewrite Nat.eqb_refl. rewrite (proj2 (Nat.eqb_neq x y)), (proj2 (Nat.eqb_neq z y)) by congruence.
    eexists. split; [|reflexivity]. apply Rmult_lt_0_compat; assumption.
  - rewrite Nat.eqb_refl. rewrite (proj2 (Nat.eqb_neq x z)), (proj2 (Nat.eqb_neq y z)) by congruence.
    eexists. split; [|reflexivity]. apply Rmult_lt_0_compat; assumption.
Qed.

Lemma deg_const d : deg2rad d = IZR (Z.of_nat d) * (PI / 180).
Proof. unfold deg2rad. rewrite INR_IZR_INZ. reflexivity. Qed.
Lemma cos_60 : cos (deg2rad 60) = 1 / 2.
Proof. rewrite deg_const. change (Z.of_nat 60) with 60%Z. replace (60 * (PI / 180)) with (PI / 3) by field. apply cos_PI3. Qed.
Lemma cos_30 : 17 / 20 < cos (deg2rad 30).
Proof.
  rewrite deg_const. change (Z.of_nat 30) with 30%Z. replace (30 * (PI / 180)) with (PI / 6) by field. rewrite cos_PI6.
  assert (S : 17 / 10 < sqrt 3); [|lra]. apply Rsqr_incrst_0; [rewrite Rsqr_sqrt by lra; unfold Rsqr; lra|lra|apply sqrt_pos].
Qed.
Lemma cos_180 : cos (deg2rad 180) = -1.
Proof. rewrite deg_const. change (Z.of_nat 180) with 180%Z. replace (180 * (PI / 180)) with PI by field. apply cos_PI. Qed.
Lemma cos_240 : cos (deg2rad 240) = - (1 / 2).
Proof.
  rewrite deg_const. change (Z.of_nat 240) with 240%Z. replace (240 * (PI / 180)) with (PI / 3 + PI) by field. rewrite neg_cos, cos_PI3. reflexivity.
Qed.
