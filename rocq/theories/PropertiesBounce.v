(* C152: surface lights of Quake II and bounced light. *)
From Coq Require Import Reals ZArith List Bool Lra Lia Psatz FinFun.
From Verif Require Import WindClipModel LightValModel LightValProofs BounceModel.
Import ListNotations.
Open Scope R_scope.

Lemma max3_scale : forall k c, 0 <= k -> max3 (scale k c) = k * max3 c.
Proof. intros k c K. unfold max3, scale. cbn [vx vy vz]. rewrite !RmaxRmult by exact K. reflexivity. Qed.
Lemma scale_scale : forall a b c, scale a (scale b c) = scale (a * b) c.
Proof. intros a b c. unfold scale. cbn [vx vy vz]. f_equal; ring. Qed.

(** ** How much a surface emits *)

(** All points together emit the area of the face times its color if the color is at least 1 somewhere; and with it times
    its brightness if it is darker. *)
Theorem C152_energy : forall depth st c area n s, (0 < n)%nat -> bounce_style depth st c area n = Some s ->
  s_total s = INR n * s_each s /\ scale (s_total s) (s_color s) = scale (area * Rmin 1 (max3 c)) c /\ s_level s = Some depth /\ s_style s = st /\ s_omni s = false.
Proof.
  intros depth st c area n s N. assert (NN : INR n <> 0) by (apply not_0_INR; lia). unfold bounce_style. destruct (Rle_dec (max3 c) 0) as [H|H]; [discriminate|]. intros [= <-]. cbn [s_total s_each s_color s_level s_style s_omni].
  split; [field; exact NN|]. split; [|repeat split]. unfold tone. destruct (Rlt_dec 1 (max3 c)) as [L|L].
  - rewrite scale_scale, Rmin_left by lra. f_equal. field. lra.
  - rewrite Rmin_right by lra. f_equal. ring.
Qed.
Print Assumptions C152_energy.
Theorem C152_surface : forall st om re c v area n s, (0 < n)%nat -> 0 <= v -> surf_style st om re c v area n = Some s ->
  1 <= area /\ s_total s = INR n * s_each s /\ s_level s = None /\ s_style s = st /\ s_omni s = om /\ s_rescale s = re /\
  (1 <= v / 255 * max3 c -> scale (s_total s) (s_color s) = scale (area * (v / 255)) c).
Proof.
  intros st om re c v area n s N V. assert (NN : INR n <> 0) by (apply not_0_INR; lia). unfold surf_style. destruct (Rlt_dec area 1) as [A|A]; [discriminate|].
  rewrite scale_scale. replace (v * / 255) with (v / 255) by reflexivity. destruct (Req_EM_T (max3 (scale (v / 255) c)) 0) as [H|H]; [discriminate|]. intros [= <-]. cbn [s_total s_each s_color s_level s_style s_omni s_rescale].
  split; [lra|]. split; [field; exact NN|]. repeat split. intros M. unfold tone. rewrite max3_scale by lra. destruct (Rlt_dec 1 (v / 255 * max3 c)) as [L|L]; rewrite !scale_scale; f_equal; [field; split; nra|].
  replace (v / 255 * max3 c) with 1 by lra. ring.
Qed.
Print Assumptions C152_surface.
(** So darker surfaces emit too little: one that is lit half as bright emits a quarter. *)
Theorem C152_dim_refuted : forall depth st c area n k s t, (0 < n)%nat -> 0 < k <= 1 -> max3 c <= 1 ->
  bounce_style depth st c area n = Some s -> bounce_style depth st (scale k c) area n = Some t ->
  scale (s_total t) (s_color t) = scale (k * k) (scale (s_total s) (s_color s)).
Proof.
  intros depth st c area n k s t N K M S T. apply C152_energy in S as (_ & -> & _); [|exact N]. apply C152_energy in T as (_ & -> & _); [|exact N].
  rewrite max3_scale, !scale_scale by lra. rewrite !Rmin_right by nra. f_equal. ring.
Qed.
Print Assumptions C152_dim_refuted.

(** ** What a sample gets *)

Lemma factor_range : forall a b, len a = 1 -> len b = 1 -> -1 <= dot a b <= 1.
Proof. intros a b A B. assert (C := cauchy a b). rewrite A, B in C. revert C. unfold Rabs. destruct (Rcase_abs (dot a b)); lra. Qed.
Definition nonneg (c : vec) : Prop := 0 <= vx c /\ 0 <= vy c /\ 0 <= vz c.
Definition below (a b : vec) : Prop := vx a <= vx b /\ vy a <= vy b /\ vz a <= vz b.
Lemma scale_below : forall a b c, nonneg c -> a <= b -> below (scale a c) (scale b c).
Proof. intros a b c (X & Y & Z) L. unfold below, scale. cbn [vx vy vz]. repeat split; apply Rmult_le_compat_r; assumption. Qed.
Lemma scale_nonneg : forall a c, nonneg c -> 0 <= a -> nonneg (scale a c).
Proof. intros a c (X & Y & Z) L. unfold nonneg, scale. cbn [vx vy vz]. repeat split; apply Rmult_le_pos; assumption. Qed.
Lemma inv_sq : forall x y c, 0 < c -> x <= y -> 0 < 1 / (Rmax y c * Rmax y c) <= 1 / (Rmax x c * Rmax x c) /\ 1 / (Rmax x c * Rmax x c) <= 1 / (c * c).
Proof.
  intros x y c C L. assert (A : c <= Rmax x c) by apply Rmax_r. assert (B : Rmax x c <= Rmax y c) by (apply Rle_max_compat_r; exact L).
  repeat split.
  - apply Rdiv_lt_0_compat; nra.
  - unfold Rdiv. rewrite !Rmult_1_l. apply Rinv_le_contravar; nra.
  - unfold Rdiv. rewrite !Rmult_1_l. apply Rinv_le_contravar; nra.
Qed.
(** Light is never negative, gets weaker with the distance, and never exceeds that at the clamping distance. *)
Theorem C152_falloff : forall sky n s dir d1 d2 normal k ksky clamp, 0 < clamp -> 0 <= k -> 0 <= ksky -> 0 <= s_each s -> nonneg (s_color s) -> d1 <= d2 ->
  len n = 1 -> len dir = 1 -> (forall m, normal = Some m -> len m = 1) ->
  let at_ d := lighting sky n s dir d normal k ksky clamp in
  nonneg (at_ d2) /\ below (at_ d2) (at_ d1) /\ below (at_ d1) (scale (s_each s * (if s_omni s then ksky else k) / (clamp * clamp)) (s_color s)).
Proof.
  intros sky n s dir d1 d2 normal k ksky clamp C K KS E NC D LN LD LM at_.
  assert (R1 := factor_range n dir LN LD). set (kk := if s_omni s then ksky else k). assert (KK : 0 <= kk) by (unfold kk; destruct (s_omni s); assumption).
  set (dp2 := match normal with Some m => dot (scale (-1) dir) m | None => 1 end).
  assert (R2 : -1 <= dp2 <= 1).
  { unfold dp2. destruct normal as [m|]; [|lra]. rewrite dot_scale_l. assert (Q := factor_range dir m LD (LM m eq_refl)). lra. }
  set (f := Rmax 0 (if s_omni s then dp2 * (1 / 2) else if Rlt_dec (dot n dir) (- (1 / 100)) then 0 else if Rlt_dec dp2 (- (1 / 100)) then 0
     else if s_rescale s then (1 / 2 + dot n dir * (1 / 2)) * (1 / 2 + dp2 * (1 / 2)) else dot n dir * dp2)).
  assert (F : 0 <= f <= 1).
  { unfold f. split; [apply Rmax_l|]. apply Rmax_lub; [lra|]. destruct (s_omni s); [lra|]. destruct (Rlt_dec (dot n dir) _); [lra|]. destruct (Rlt_dec dp2 _); [lra|]. destruct (s_rescale s); nra. }
  set (dd := fun d => if s_omni s then d + sky else d). assert (DD : dd d1 <= dd d2) by (unfold dd; destruct (s_omni s); lra).
  assert (AT : forall d, at_ d = scale (f * (s_each s * kk * (1 / (Rmax (dd d) clamp * Rmax (dd d) clamp)))) (s_color s)).
  { intros d. unfold at_, lighting. cbv zeta. fold dp2. fold f. destruct (Req_EM_T f 0) as [Z|Z].
    - rewrite Z, Rmult_0_l. unfold black, scale. f_equal; ring.
    - unfold color_at. cbv zeta. rewrite scale_scale. reflexivity. }
  rewrite !AT. destruct (inv_sq (dd d1) (dd d2) clamp C DD) as [[I1 I2] I3]. assert (EK : 0 <= s_each s * kk) by (apply Rmult_le_pos; assumption).
  set (i2 := 1 / (Rmax (dd d2) clamp * Rmax (dd d2) clamp)) in *. set (i1 := 1 / (Rmax (dd d1) clamp * Rmax (dd d1) clamp)) in *.
  assert (Q2 : 0 <= s_each s * kk * i2) by (apply Rmult_le_pos; lra). assert (Q1 : s_each s * kk * i2 <= s_each s * kk * i1) by (apply Rmult_le_compat_l; lra).
  assert (Q3 : s_each s * kk * i1 <= s_each s * kk * (1 / (clamp * clamp))) by (apply Rmult_le_compat_l; lra).
  split; [apply scale_nonneg; [exact NC|apply Rmult_le_pos; lra]|]. split; (apply scale_below; [exact NC|]).
  - apply Rmult_le_compat_l; lra.
  - replace (s_each s * kk / (clamp * clamp)) with (s_each s * kk * (1 / (clamp * clamp))) by (field; lra). nra.
Qed.
Print Assumptions C152_falloff.

(** A directional surface gives nothing to what is behind it or looks away from it. *)
Theorem C152_behind : forall sky n s dir d m k ksky clamp, s_omni s = false -> dot n dir < - (1 / 100) \/ 1 / 100 < dot dir m ->
  lighting sky n s dir d (Some m) k ksky clamp = black.
Proof.
  intros sky n s dir d m k ksky clamp O H. unfold lighting. cbv zeta. rewrite O, dot_scale_l. destruct (Rlt_dec (dot n dir) (- (1 / 100))) as [A|A].
  - rewrite Rmax_left by lra. destruct (Req_EM_T 0 0); [reflexivity|congruence].
  - destruct (Rlt_dec (-1 * dot dir m) (- (1 / 100))) as [B|B]; [|exfalso; lra]. rewrite Rmax_left by lra. destruct (Req_EM_T 0 0); [reflexivity|congruence].
Qed.
Print Assumptions C152_behind.
(** The exact value in front: inverse square beyond the clamping distance, with both cosines, halfway to 1 with rescaling. *)
Theorem C152_value : forall sky n s dir d m k ksky clamp, s_omni s = false -> 0 < dot n dir -> 0 < - dot dir m -> 0 < clamp <= d ->
  let w x := if s_rescale s then (1 + x) / 2 else x in
  lighting sky n s dir d (Some m) k ksky clamp = scale (w (dot n dir) * w (- dot dir m) * (s_each s * k / (d * d))) (s_color s).
Proof.
  intros sky n s dir d m k ksky clamp O A B C w. unfold lighting. cbv zeta. rewrite O, dot_scale_l. destruct (Rlt_dec (dot n dir) (- (1 / 100))); [lra|].
  destruct (Rlt_dec (-1 * dot dir m) (- (1 / 100))); [lra|]. set (x := dot n dir) in *. set (y := dot dir m) in *. unfold w, color_at. cbv zeta. rewrite (Rmax_left d clamp) by lra.
  destruct (s_rescale s).
  - rewrite Rmax_right by nra. destruct (Req_EM_T ((1 / 2 + x * (1 / 2)) * (1 / 2 + -1 * y * (1 / 2))) 0); [nra|]. rewrite scale_scale. f_equal. field. lra.
  - rewrite Rmax_right by nra. destruct (Req_EM_T (x * (-1 * y)) 0); [nra|]. rewrite scale_scale. f_equal. field. lra.
Qed.
Print Assumptions C152_value.

(** ** Surfaces that are left out *)

(** With -emissivequality high no surface is left out for its distance. *)
Theorem C152_high : forall sk ssky pos s o r clamp, sphere_cull false 0 sk ssky pos s o r clamp = false.
Proof. intros. unfold sphere_cull. destruct (Req_EM_T 0 0); [reflexivity|congruence]. Qed.
Print Assumptions C152_high.
(** Else the light at the far end of the face decides: next to a light, a sample of a face of any radius can lose light
    that grows with the square of the radius. *)
Theorem C152_cull_refuted : forall r, 0 < r -> let t := 1 / 100 * ((16 + 2 * r) * (16 + 2 * r)) in
  let s := mkSt None 0 false false t t (mkV 1 1 1) in let up := mkV 0 0 1 in
  sphere_cull false (1 / 100) 1 1 black s (mkV 0 0 (16 + r)) r 16 = true /\
  point_sample (1 / 100) 0 up black s (mkV 0 0 16) (mkV 0 0 (-1)) false 1 1 16 = Some (scale (t / 256) (mkV 1 1 1)).
Proof.
  intros r R t s up. assert (L : forall z, 0 <= z -> len (sub (mkV 0 0 z) black) = z).
  { intros z Z. unfold len, sub, dot, black. cbn [vx vy vz]. replace ((0 - 0) * (0 - 0) + (0 - 0) * (0 - 0) + (z - 0) * (z - 0)) with (z * z) by ring. apply sqrt_square, Z. }
  assert (T : 256 / 100 < t) by (unfold t; nra). split.
  - unfold sphere_cull. destruct (Req_EM_T (1 / 100) 0); [lra|]. cbn [s_omni s_total s_color s]. rewrite L by lra. unfold color_at. cbv zeta. rewrite Rmax_left by lra.
    replace (t * 1 * (1 / ((16 + r + r) * (16 + r + r)))) with (1 / 100) by (unfold t; field; lra). unfold gate, scale. cbn [vx vy vz].
    destruct (Rle_dec (1 / 100 * 1) (1 / 100)); [reflexivity|lra].
  - unfold point_sample. cbv zeta. rewrite L by lra. rewrite (Rmax_right (1 / 100) 16) by lra.
    assert (V := C152_value 0 up s (scale (/ 16) (sub (mkV 0 0 16) black)) 16 (mkV 0 0 (-1)) 1 1 16 eq_refl). 
    assert (D1 : dot up (scale (/ 16) (sub (mkV 0 0 16) black)) = 1) by (unfold dot, up, scale, sub, black; cbn [vx vy vz]; field).
    assert (D2 : dot (scale (/ 16) (sub (mkV 0 0 16) black)) (mkV 0 0 (-1)) = -1) by (unfold dot, scale, sub, black; cbn [vx vy vz]; field).
    rewrite D1, D2 in V. rewrite V by lra. cbn [s_rescale s_each s_color s]. replace (1 * - -1 * (t * 1 / (16 * 16))) with (t / 256) by field.
    unfold gate, scale. cbn [vx vy vz]. destruct (Rle_dec (t / 256 * 1) (1 / 100)); [lra|reflexivity].
Qed.
Print Assumptions C152_cull_refuted.
(** Bounced light is judged with the scale of surface lights: with _surflightscale 0 all of it is left out. *)
Theorem C152_scale_refuted : forall g ssky pos s o r clamp, 0 < g -> s_omni s = false -> sphere_cull false g 0 ssky pos s o r clamp = true.
Proof.
  intros g ssky pos s o r clamp G O. unfold sphere_cull. destruct (Req_EM_T g 0); [lra|]. rewrite O. unfold color_at. cbv zeta. rewrite Rmult_0_r, Rmult_0_l.
  unfold gate, scale. cbn [vx vy vz]. rewrite !Rmult_0_l. destruct (Rle_dec 0 g); [reflexivity|lra].
Qed.
Print Assumptions C152_scale_refuted.
(** A surface is left out as soon as one of its leafs is hidden, even if another one is visible. *)
Theorem C152_vis_refuted : forall (A : Type) (hidden : A -> bool) a b leafs, In a leafs -> In b leafs -> hidden a = true -> hidden b = false -> vis_cull hidden leafs = true.
Proof. intros A hidden a b leafs I _ H _. apply existsb_exists. eauto. Qed.
Print Assumptions C152_vis_refuted.
Theorem C152_vis_partial : forall (A : Type) (hidden : A -> bool) leafs, vis_cull hidden leafs = false <-> forall a, In a leafs -> hidden a = false.
Proof.
  intros A hidden leafs. unfold vis_cull. split.
  - intros H a I. destruct (hidden a) eqn:E; [|reflexivity]. rewrite <- H. symmetry. apply existsb_exists. eauto.
  - intros H. destruct (existsb hidden leafs) eqn:E; [|reflexivity]. apply existsb_exists in E as (a & I & Q). rewrite (H a I) in Q. discriminate.
Qed.
Print Assumptions C152_vis_partial.

(** ** Bouncing *)

(** Each lightmap that counts emits the average of what it has received since the last pass, times the color of the face,
    and starts again from nothing; lightmaps with other styles are left alone without bouncestyled. *)
Theorem C152_take : forall styled n face lms, let r := take styled n face lms in
  (forall st c, In (st, c) (fst r) <-> exists b, In (st, b) lms /\ (st = 0%Z \/ styled = true) /\ b <> black /\
     c = mkV (vx b / n * vx face) (vy b / n * vy face) (vz b / n * vz face)) /\
  map fst (snd r) = map fst lms /\
  forall st c, In (st, c) (snd r) -> if (st =? 0)%Z || styled then c = black else In (st, c) lms.
Proof.
  intros styled n face lms r. assert (BL : forall c, is_black c = true <-> c = black).
  { intros [x y z]. unfold is_black, black. cbn [vx vy vz]. destruct (Req_EM_T x 0), (Req_EM_T y 0), (Req_EM_T z 0); split; intros E; try discriminate; try (injection E; congruence); subst; reflexivity. }
  unfold r, take. cbn [fst snd]. split; [|split].
  - intros st c. rewrite in_map_iff. split.
    + intros ([st' b] & E & I). apply filter_In in I as [I P]. cbn [fst snd] in *. unfold taken in P. cbn [fst] in P. apply andb_true_iff in P as [P Q]. apply orb_true_iff in P. rewrite Z.eqb_eq in P.
      injection E as <- <-. exists b. repeat split; auto; [intros ->; rewrite (proj2 (BL black) eq_refl) in Q; discriminate|]. unfold mulc, scale. cbn [vx vy vz]. f_equal; unfold Rdiv; ring.
    + intros (b & I & P & NB & ->). exists (st, b). cbn [fst snd]. split; [f_equal; unfold mulc, scale; cbn [vx vy vz]; f_equal; unfold Rdiv; ring|]. apply filter_In. split; [exact I|]. unfold taken. cbn [fst snd].
      apply andb_true_iff. split; [apply orb_true_iff; rewrite Z.eqb_eq; exact P|]. destruct (is_black b) eqn:B; [|reflexivity]. apply BL in B. contradiction.
  - rewrite map_map. apply map_ext. intros lm. destruct (taken styled lm); reflexivity.
  - intros st c I. apply in_map_iff in I as ([st' b] & E & I). unfold taken in E. cbn [fst] in E. destruct ((st' =? 0)%Z || styled) eqn:Q; injection E as <- <-; rewrite Q; auto.
Qed.
Print Assumptions C152_take.

(** Nothing is emitted twice and nothing is lost: over any sequence of passes, what a lightmap emits (times its number of
    samples) and what is left is what it has received. *)
Fixpoint run (n : R) (left : vec) (received : list vec) : list vec * vec :=
  match received with
  | [] => ([], left)
  | r :: rs =>
      let '(out, after) := take true n (mkV 1 1 1) [(0%Z, add left r)] in
      let '(outs, fin) := run n (match after with (_, b) :: _ => b | [] => black end) rs in
      ((match out with (_, c) :: _ => c | [] => black end) :: outs, fin)
  end.
Lemma add_assoc3 : forall a b c, add a (add b c) = add (add a b) c.
Proof. intros. unfold add. cbn [vx vy vz]. f_equal; ring. Qed.
Theorem C152_conserve : forall n received left, n <> 0 -> let '(outs, fin) := run n left received in
  length outs = length received /\ add (scale n (sum outs)) fin = add left (sum received) /\ (received <> [] -> fin = black).
Proof.
  intros n. induction received as [|r rs IH]; intros left N; cbn [run].
  - split; [reflexivity|]. split; [|congruence]. unfold sum, add, scale, black. cbn [fold_right vx vy vz]. f_equal; ring.
  - destruct (take true n (mkV 1 1 1) [(0%Z, add left r)]) as [out after] eqn:T. unfold take in T. cbn [map filter taken fst snd] in T. change (taken true (0%Z, add left r)) with true in T. cbn [andb] in T.
    assert (AB : exists out', out = out' /\ after = [(0%Z, black)] /\ scale n (match out with (_, c) :: _ => c | [] => black end) = add left r).
    { destruct (is_black (add left r)) eqn:B; cbn [negb map] in T; injection T as <- <-; eexists; (split; [reflexivity|]); (split; [reflexivity|]).
      - unfold is_black in B. destruct (add left r) as [x y z]. cbn [vx vy vz] in B. destruct (Req_EM_T x 0), (Req_EM_T y 0), (Req_EM_T z 0); try discriminate. subst. unfold scale, black. cbn [vx vy vz]. f_equal; ring.
      - unfold scale, mulc. destruct (add left r) as [x y z]. cbn [vx vy vz fst snd]. f_equal; field; exact N. }
    destruct AB as (_ & _ & -> & E). specialize (IH black N). destruct (run n black rs) as [outs fin] eqn:RR. destruct IH as (L & S & F). split; [cbn [length]; lia|]. split.
    + assert (S1 : sum ((match out with (_, c) :: _ => c | [] => black end) :: outs) = add (match out with (_, c) :: _ => c | [] => black end) (sum outs)) by reflexivity.
      rewrite S1. replace (scale n (add (match out with (_, c) :: _ => c | [] => black end) (sum outs))) with (add (scale n (match out with (_, c) :: _ => c | [] => black end)) (scale n (sum outs))) by (unfold scale, add; cbn [vx vy vz]; f_equal; ring).
      rewrite E, <- !add_assoc3, S. change (sum (r :: rs)) with (add r (sum rs)). unfold add, black. cbn [vx vy vz]. f_equal; ring.
    + intros _. destruct rs as [|r2 rs]; [cbn [run] in RR; injection RR as _ <-; reflexivity|]. apply F. discriminate.
Qed.
Print Assumptions C152_conserve.

(** The passes: as many as asked for, or up to the first in which nothing bounces. *)
Theorem C152_passes : forall more n i, exists k, (k <= n)%nat /\ passes more i n = seq i k /\ (forall j, (i <= j < i + k)%nat -> more j = true) /\ ((k < n)%nat -> more (i + k)%nat = false).
Proof.
  intros more. induction n as [|n IH]; intros i; cbn [passes].
  - exists O. split; [lia|]. split; [reflexivity|]. split; intros; lia.
  - destruct (more i) eqn:M.
    + destruct (IH (S i)) as (k & K & E & A & B). exists (S k). split; [lia|]. split; [cbn [seq]; rewrite E; reflexivity|]. split.
      * intros j J. destruct (Nat.eq_dec j i) as [->|NE]; [exact M|]. apply A. lia.
      * intros L. replace (i + S k)%nat with (S i + k)%nat by lia. apply B. lia.
    + exists O. split; [lia|]. split; [reflexivity|]. split; [intros; lia|]. intros _. rewrite Nat.add_0_r. exact M.
Qed.
Print Assumptions C152_passes.
(** Each light of a surface is used in exactly one of the passes that add light, if its level is one of them; what a pass
    emits lights nothing in another one. *)
Theorem C152_once : forall more n ss s, In s ss -> NoDup (lit DNone more n) /\
  (forall p, In s (used p ss) <-> s_level s = p) /\
  (s_level s = None -> In None (lit DNone more n)) /\ (forall i, s_level s = Some i -> (In (Some i) (lit DNone more n) <-> (i < n)%nat /\ forall j, (j <= i)%nat -> more j = true)).
Proof.
  intros more n ss s I. destruct (C152_passes more n 0) as (k & K & E & A & B).
  assert (L : lit DNone more n = None :: map Some (seq 0 k)).
  { unfold lit. rewrite E. assert (FM : forall l : list nat, flat_map (fun i => [Some i]) l = map Some l) by (induction l as [|x l IH]; [reflexivity|cbn [flat_map map app]; rewrite IH; reflexivity]).
    rewrite FM. reflexivity. }
  rewrite L. split; [|split; [|split]].
  - constructor; [intros Q; apply in_map_iff in Q as (x & Q & _); discriminate|]. apply Injective_map_NoDup; [intros x y Q; congruence|apply seq_NoDup].
  - intros p. unfold used. rewrite filter_In. unfold level_eqb. split.
    + intros [_ H]. destruct (s_level s), p; try discriminate; [apply Nat.eqb_eq in H; congruence|reflexivity].
    + intros <-. split; [exact I|]. destruct (s_level s); [apply Nat.eqb_refl|reflexivity].
  - intros _. left. reflexivity.
  - intros i _. split.
    + intros [Q|Q]; [discriminate|]. apply in_map_iff in Q as (x & Q & IX). injection Q as ->. apply in_seq in IX. split; [lia|]. intros j J. apply A. lia.
    + intros [IN M]. right. apply in_map, in_seq. split; [lia|]. destruct (Nat.lt_ge_cases i k) as [H|H]; [lia|]. exfalso. assert (Q := B ltac:(lia)). rewrite M in Q by lia. discriminate.
Qed.
Print Assumptions C152_once.
(** -bouncedebug, which is to keep bounced light only, keeps none. *)
Theorem C152_debug_refuted : forall more n, lit DBounce more n = [].
Proof. intros more n. unfold lit. cbn [app]. induction (passes more 0 n); [reflexivity|exact IHl]. Qed.
Print Assumptions C152_debug_refuted.

(** ** Several threads *)

Lemma steps_trans : forall a b c, steps a b -> steps b c -> steps a c.
Proof. intros a b c S. induction S; intros T; [exact T|]. econstructor; eauto. Qed.
Lemma run_one : forall l b left right, exists b', steps (b, left ++ mkW l None :: right) (b', left ++ mkW [] None :: right) /\ b' = (b || existsb (fun x => x) l).
Proof.
  induction l as [|x l IH]; intros b left right; [exists b; split; [constructor|cbn; rewrite orb_false_r; reflexivity]|]. destruct x.
  - destruct (IH true left right) as (b' & S & E). exists b'. split; [econstructor; [apply step_true|exact S]|]. rewrite E. cbn. rewrite orb_true_r. reflexivity.
  - destruct (IH b left right) as (b' & S & E). exists b'. split; [econstructor; [apply step_read|]; econstructor; [apply step_write|exact S]|]. exact E.
Qed.
(** With one thread the answer is whether some face bounces light. *)
Theorem C152_serial : forall l s, steps (start [l]) s -> done s -> fst s = existsb (fun x => x) l.
Proof.
  intros l s S D. assert (G : forall a, steps a s -> forall b t r, a = (b, [mkW t r]) -> fst s = (match r with Some v => v | None => b end) || existsb (fun x => x) t).
  { intros a H. induction H as [s0|s0 t0 u0 H1 H2 IH]; intros b t r E.
    - subst. cbn [fst]. specialize (D (mkW t r) (or_introl eq_refl)). injection D as -> ->. cbn. rewrite orb_false_r. reflexivity.
    - specialize (IH S D). subst s0. inversion H1 as [b1 l1 t1 r1 E1|b1 l1 t1 r1 E1|b1 v l1 t1 r1 E1]; subst; (destruct l1 as [|w l1]; [|destruct l1; discriminate]); cbn [app] in *; match goal with H : _ = [_] |- _ => injection H as <- <- end; subst.
      + rewrite (IH true t1 None eq_refl). cbn. rewrite orb_true_r. reflexivity.
      + rewrite (IH b t1 (Some b) eq_refl). reflexivity.
      + rewrite (IH v _ None eq_refl). reflexivity. }
  rewrite (G _ S false l None eq_refl). reflexivity.
Qed.
Print Assumptions C152_serial.
(** With more, the answer is true only if some face bounces light. *)
Theorem C152_threads_partial : forall faces s, steps (start faces) s -> fst s = true -> exists l, In l faces /\ In true l.
Proof.
  intros faces s S T. destruct (existsb (fun l => existsb (fun x => x) l) faces) eqn:E.
  { apply existsb_exists in E as (l & I & E). apply existsb_exists in E as (x & J & ->). eauto. }
  exfalso. assert (INV : forall a, steps a s -> fst a = false -> (forall w, In w (snd a) -> ~ In true (w_todo w) /\ w_read w <> Some true) -> fst s = false).
  { intros a H. induction H as [s0|s0 t0 u0 H1 H2 IH]; intros F W; [exact F|]. apply (IH S T).
    - inversion H1; subst; cbn [fst snd] in *; auto.
      + exfalso. apply (proj1 (W _ (in_elt _ _ _))). left. reflexivity.
      + destruct v; [|reflexivity]. exfalso. apply (proj2 (W _ (in_elt _ _ _))). reflexivity.
    - inversion H1; subst; cbn [fst snd] in *; subst; intros w I; apply in_app_or in I as [I|[<-|I]]; try (apply W, in_or_app; auto; fail); try (apply W, in_or_app; right; right; exact I); specialize (W _ (in_elt _ _ _)); cbn [w_todo w_read] in *; destruct W as [W1 W2]; split; try discriminate; auto; intros Q; apply W1; auto; right; exact Q. }
  rewrite (INV _ S) in T; [discriminate|reflexivity|]. unfold start. cbn [snd]. intros w I. apply in_map_iff in I as (l & <- & I). cbn [w_todo w_read]. split; [|discriminate].
  intros Q. assert (C : existsb (fun l => existsb (fun x => x) l) faces = true) by (apply existsb_exists; exists l; split; [exact I|]; apply existsb_exists; eauto). congruence.
Qed.
Print Assumptions C152_threads_partial.
(** But a face that does not bounce can undo the answer of all others: whatever their results, there is a run in which
    light bounces and the answer is no, after which no further pass is made. *)
Theorem C152_race_refuted : forall faces, exists s, steps (start ([false] :: faces)) s /\ done s /\ fst s = false.
Proof.
  intros faces. exists (false, map (fun _ => mkW [] None) ([false] :: faces)). split; [|split].
  - econstructor; [apply (step_read false [] [] (map (fun l => mkW l None) faces))|]. cbn [app].
    assert (G : forall fs b pre, exists b', steps (b, pre ++ map (fun l => mkW l None) fs) (b', pre ++ map (fun _ => mkW [] None) fs)).
    { induction fs as [|l fs IH]; intros b pre; [exists b; constructor|]. cbn [map]. destruct (run_one l b pre (map (fun l => mkW l None) fs)) as (b1 & S1 & _).
      destruct (IH b1 (pre ++ [mkW [] None])) as (b2 & S2). exists b2. rewrite <- !app_assoc in S2. cbn [app] in S2. eapply steps_trans; eauto. }
    destruct (G faces false [mkW [] (Some false)]) as (b' & S). cbn [app] in S. eapply steps_trans; [exact S|]. econstructor; [apply (step_write b' false [] [])|]. cbn [app map]. constructor.
  - intros w I. cbn [snd] in I. apply in_map_iff in I as (l & <- & _). reflexivity.
  - reflexivity.
Qed.
Print Assumptions C152_race_refuted.

(** ** Models with an offset *)

Lemma sum_dot : forall n w d, (forall p, In p w -> dot n p = d) -> dot n (sum w) = INR (length w) * d.
Proof.
  intros n. induction w as [|p w IH]; intros d H; [unfold sum, dot, black; cbn; ring|]. change (sum (p :: w)) with (add p (sum w)). change (length (p :: w)) with (S (length w)). rewrite S_INR.
  assert (A : dot n (add p (sum w)) = dot n p + dot n (sum w)) by (unfold dot, add; cbn [vx vy vz]; ring). rewrite A, (IH d), (H p) by (try (left; reflexivity); intros q I; apply H; right; exact I). ring.
Qed.
Lemma center_dot : forall n w d, w <> [] -> (forall p, In p w -> dot n p = d) -> dot n (center w) = d.
Proof.
  intros n w d W H. unfold center. assert (A : dot n (scale (/ INR (length w)) (sum w)) = / INR (length w) * dot n (sum w)) by (unfold dot, scale; cbn [vx vy vz]; ring).
  rewrite A, (sum_dot n w d H). field. apply not_0_INR. destruct w; [congruence|discriminate].
Qed.
(** The light of a surface is one unit in front of the face where the model is; bounced light comes from where the model
    would be without its offset, which can be inside of or behind the face. *)
Theorem C152_offset_refuted : forall offset n w d, w <> [] -> dot n n = 1 -> (forall p, In p w -> dot n p = d) ->
  let moved := d + dot n offset in
  dot n (surf_pos offset n w) = moved + 1 /\ dot n (bounce_pos offset n w) = moved + 1 - dot n offset.
Proof.
  intros offset n w d W U H moved. assert (A : forall c, dot n (add c n) = dot n c + dot n n) by (intros c; unfold dot, add; cbn [vx vy vz]; ring). unfold surf_pos, bounce_pos. rewrite !A, U.
  rewrite (center_dot n w d W H). rewrite (center_dot n (map (add offset) w) moved); [|destruct w; [congruence|discriminate]|].
  - unfold moved. split; ring.
  - intros p I. apply in_map_iff in I as (q & <- & I). unfold moved. rewrite <- (H q I). unfold dot, add. cbn [vx vy vz]. ring.
Qed.
Print Assumptions C152_offset_refuted.

(** A face of area 64 with 4 points lit with (2 1 0): half of it in each pass; the light 32 units in front of a point. *)
Example C152_nontrivial :
  (exists s, bounce_style 1 0 (mkV 2 1 0) 64 4 = Some s /\ s_each s = 32 /\ s_color s = mkV 1 (1 / 2) 0 /\
     lighting 0 (mkV 0 0 1) s (mkV 0 0 1) 32 (Some (mkV 0 0 (-1))) 1 1 16 = mkV (1 / 32) (1 / 64) 0) /\
  lit DNone (fun i => Nat.ltb i 2) 5 = [None; Some 0%nat; Some 1%nat].
Proof.
  split; [|reflexivity]. assert (M : max3 (mkV 2 1 0) = 2) by (unfold max3; cbn [vx vy vz]; rewrite !Rmax_left; try lra; rewrite Rmax_left; lra).
  unfold bounce_style, tone. rewrite M. destruct (Rle_dec 2 0); [lra|]. destruct (Rlt_dec 1 2); [|lra]. eexists. split; [reflexivity|]. cbn [s_each s_color]. split; [cbn; lra|].
  split; [unfold scale; cbn [vx vy vz]; f_equal; lra|]. rewrite C152_value; try reflexivity; cbn [s_rescale s_each s_color]; try (unfold dot; cbn [vx vy vz]; lra).
  unfold dot, scale. cbn [vx vy vz INR]. f_equal; lra.
Qed.
