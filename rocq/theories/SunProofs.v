(* Proofs for SunModel.v. *)
From Coq Require Import Reals ZArith List Bool Lra Lia Psatz.
From Verif Require Import WindClipModel LightValModel LightValProofs SunModel.
Import ListNotations.
Open Scope R_scope.

Definition sum_light (l : list sun) : R := fold_right (fun s a => sn_light s + a) 0 l.
Definition rsum (l : list R) : R := fold_right Rplus 0 l.

Lemma sum_light_app a b : sum_light (a ++ b) = sum_light a + sum_light b.
Proof. induction a as [|x a IH]; cbn [app]; [symmetry; apply Rplus_0_l|]. unfold sum_light. cbn [fold_right]. fold (sum_light (a ++ b)). fold (sum_light a). fold (sum_light b). rewrite IH. ring. Qed.
Lemma rsum_app a b : rsum (a ++ b) = rsum a + rsum b.
Proof. induction a as [|x a IH]; cbn [app]; [symmetry; apply Rplus_0_l|]. unfold rsum. cbn [fold_right]. fold (rsum (a ++ b)). fold (rsum a). fold (rsum b). rewrite IH. ring. Qed.
Lemma sum_light_const x l : (forall s, In s l -> sn_light s = x) -> sum_light l = INR (length l) * x.
Proof.
  induction l as [|s l IH]; intros H; [cbn; lra|]. cbn [sum_light fold_right length]. fold (sum_light l).
  rewrite IH by (intros; apply H; right; assumption). rewrite (H s) by (left; reflexivity). rewrite S_INR. lra.
Qed.

(** Samples. *)
Lemma check_samples_spec addmin e : let c := check_samples addmin e in
  (1 <= le_samples c)%Z /\
  ((le_dev c = 0 /\ le_samples c = 1%Z /\ (le_dev e <= 0 \/ (le_samples e <= 1)%Z /\ le_samples e <> 0%Z)) \/
   (le_dev c = le_dev e /\ 0 < le_dev c /\ (1 < le_samples c)%Z /\ le_samples c = if (le_samples e =? 0)%Z then 16%Z else le_samples e)) /\
  le_light e = le_light c * (if divided addmin (le_formula e) then IZR (le_samples c) else 1).
Proof.
  cbn zeta. unfold check_samples.
  assert (D : forall s, (1 <= s)%Z -> le_light e / IZR s * IZR s = le_light e).
  { intros s H. apply IZR_le in H. field. lra. }
  destruct (Rlt_dec 0 (le_dev e)) as [P|P].
  - destruct (Rle_dec (le_dev e) 0); [lra|]. destruct (Z.eqb_spec (le_samples e) 0) as [E|E].
    + cbn [Z.leb Z.compare Pos.compare Pos.compare_cont]. cbn [le_samples le_dev le_light]. split; [lia|]. split; [right; repeat split; lra || lia|].
      destruct (divided addmin (le_formula e)); [rewrite D by lia|]; lra.
    + destruct (Z.leb_spec (le_samples e) 1); cbn [le_samples le_dev le_light]; (split; [lia|]); (split; [|destruct (divided addmin (le_formula e)); [rewrite D by lia|]; lra]).
      * left. split; [reflexivity|split; [reflexivity|right; lia]].
      * right. repeat split; lra || lia.
  - destruct (Rle_dec (le_dev e) 0); [|lra]. cbn [le_samples le_dev le_light]. split; [lia|].
    split; [left; split; [reflexivity|split; [reflexivity|left; lra]]|]. destruct (divided addmin (le_formula e)); [rewrite D by lia|]; lra.
Qed.

(** Drawing angles. *)
Lemma draw_first fuel rnd n dev : (forall k, 0 <= rnd k <= 1) -> 0 <= dev ->
  draw (S fuel) rnd n dev = Some ((rnd n * 2 - 1) * (dev * PI / 180), (rnd (n + 1)%nat * 2 - 1) * (dev * PI / 180), (n + 2)%nat).
Proof.
  intros H D. cbn [draw]. set (rad := dev * PI / 180). destruct (Rlt_dec _ _) as [L|L]; [exfalso|reflexivity].
  assert (P : 0 < PI) by apply PI_RGT_0. assert (Q : PI <= 4) by apply PI_4.
  assert (R : 0 <= rad <= dev / 40) by (unfold rad; split; nra).
  assert (B : forall x, 0 <= x <= 1 -> (x * 2 - 1) * rad * ((x * 2 - 1) * rad) <= dev * dev / 1600).
  { intros x X. assert (- rad <= (x * 2 - 1) * rad <= rad) by (split; nra). nra. }
  pose proof (B _ (H n)). pose proof (B _ (H (n + 1)%nat)). nra.
Qed.

Lemma tilted_unit at2 v da de : dot (tilted at2 v da de) (tilted at2 v da de) = 1.
Proof.
  unfold tilted, dot. cbn [vx vy vz]. set (a := at2 _ _ + da). set (b := at2 _ _ + de).
  pose proof (sin2_cos2 a) as A. pose proof (sin2_cos2 b) as B. unfold Rsqr in *.
  replace (cos a * cos b * (cos a * cos b) + sin a * cos b * (sin a * cos b) + sin b * sin b)
    with ((sin a * sin a + cos a * cos a) * (cos b * cos b) + sin b * sin b) by ring. rewrite A. lra.
Qed.
Lemma unit_len v : dot v v = 1 -> len v = 1.
Proof. intros H. unfold len. rewrite H. apply sqrt_1. Qed.
Lemma normalize_unit_id v : dot v v = 1 -> normalize v = v.
Proof.
  intros H. unfold normalize. rewrite (unit_len v H). destruct (Req_EM_T 1 0); [lra|].
  unfold WindClipModel.scale. destruct v as [x y z]. cbn [vx vy vz]. f_equal; field.
Qed.
Lemma normalize_zero v : len v = 0 -> normalize v = v.
Proof. intros H. unfold normalize. destruct (Req_EM_T (len v) 0); [reflexivity|contradiction]. Qed.
Lemma normalize_dot1 v : len v <> 0 -> dot (normalize v) (normalize v) = 1.
Proof.
  intros H. pose proof (len_normalize v H) as L. rewrite <- (len_sq (normalize v)), L. lra.
Qed.
Lemma normalize_twice v : normalize (normalize v) = normalize v.
Proof.
  destruct (Req_EM_T (len v) 0) as [E|E].
  - rewrite (normalize_zero v E). apply normalize_zero, E.
  - apply normalize_unit_id, normalize_dot1, E.
Qed.
Lemma add_sun_some w d x t : x <> 0 -> add_sun w d x t =
  [mkSun (WindClipModel.scale (-16384) (normalize d)) x (t_color t) (t_anglescale t) (resolve_dirt w (t_dirt t)) (t_style t) (t_tex t)].
Proof. intros H. unfold add_sun. destruct (Req_EM_T x 0); [contradiction|reflexivity]. Qed.

Lemma sun_more_spec fuel rnd at2 w count : forall n light v dev t,
  (forall k, 0 <= rnd k <= 1) -> 0 <= dev ->
  sun_more (S fuel) rnd at2 w count n light v dev t =
  Some (flat_map (fun k => add_sun w (tilted at2 v ((rnd (n + 2 * k)%nat * 2 - 1) * (dev * PI / 180))
                                                   ((rnd (n + 2 * k + 1)%nat * 2 - 1) * (dev * PI / 180))) light t) (seq 0 count),
        (n + 2 * count)%nat).
Proof.
  induction count as [|count IH]; intros n light v dev t H D; [cbn [sun_more seq flat_map]; do 2 f_equal; lia|].
  cbn [sun_more]. rewrite draw_first by assumption. rewrite IH by assumption. cbn [seq flat_map].
  replace (n + 2 * 0)%nat with n by lia. f_equal. f_equal; [|lia]. f_equal. rewrite <- seq_shift. rewrite (flat_map_concat_map _ (map S _)), map_map, <- flat_map_concat_map.
  apply flat_map_ext. intros k. replace (n + 2 + 2 * k)%nat with (n + 2 * S k)%nat by lia. reflexivity.
Qed.

Lemma flat_map_one : forall A B (f : A -> B) (g : A -> list B) l, (forall x, g x = [f x]) -> flat_map g l = map f l.
Proof. intros A B f g l H. induction l as [|x l IH]; [reflexivity|]. cbn [flat_map map]. rewrite H, IH. reflexivity. Qed.

(** Domes. *)
Lemma dome_row_spec w count : forall angle step e l2 l3 t2 t3, dome_row w count angle step e l2 l3 t2 t3 =
  (flat_map (fun d => dome_pair w d l2 l3 t2 t3) (map (fun j => dome_dir (angle + INR j * step) e) (seq 0 count)), angle + INR count * step).
Proof.
  induction count as [|count IH]; intros angle step e l2 l3 t2 t3; [cbn [dome_row seq map flat_map]; f_equal; cbn [INR]; lra|].
  cbn [dome_row]. rewrite IH. cbn [fst snd seq map flat_map]. f_equal.
  - f_equal; [f_equal; f_equal; cbn [INR]; lra|]. f_equal. rewrite <- seq_shift, map_map. apply map_ext. intros j. f_equal. rewrite S_INR. lra.
  - rewrite S_INR. lra.
Qed.
Lemma dome_rows_spec w rows cols es step estep : forall angle e l2 l3 t2 t3, dome_rows w rows cols es angle step e estep l2 l3 t2 t3 =
  flat_map (fun d => dome_pair w d l2 l3 t2 t3)
    (flat_map (fun i => map (fun j => dome_dir (angle + INR i * (INR cols * step + step / es) + INR j * step) (e + INR i * estep)) (seq 0 cols)) (seq 0 rows)).
Proof.
  induction rows as [|rows IH]; intros angle e l2 l3 t2 t3; [reflexivity|].
  cbn [dome_rows]. rewrite dome_row_spec. cbn [fst snd]. rewrite IH. cbn [seq flat_map]. rewrite flat_map_app. f_equal.
  - f_equal. apply map_ext. intros j. cbn [INR]. f_equal; lra.
  - f_equal. rewrite <- seq_shift. rewrite (flat_map_concat_map _ (map S _)), map_map, <- flat_map_concat_map.
    apply flat_map_ext. intros i. apply map_ext. intros j. rewrite S_INR. f_equal; lra.
Qed.

Lemma dome_dir_unit a e : dot (dome_dir a e) (dome_dir a e) = 1.
Proof.
  unfold dome_dir, dot. cbn [vx vy vz]. pose proof (sin2_cos2 a) as A. pose proof (sin2_cos2 e) as B. unfold Rsqr in *.
  replace (cos a * cos e * (cos a * cos e) + sin a * cos e * (sin a * cos e) + - sin e * - sin e)
    with ((sin a * sin a + cos a * cos a) * (cos e * cos e) + sin e * sin e) by ring. rewrite A. lra.
Qed.

(** The nearest integer to the square root. *)
Lemma rint_sqrt_nearest q : (0 <= q)%Z -> (0 <= rint_sqrt q)%Z /\ Rabs (IZR (rint_sqrt q) - sqrt (IZR q)) < 1 / 2.
Proof.
  intros Q. unfold rint_sqrt. cbn zeta. pose proof (Z.sqrt_spec q Q) as [S1 S2]. pose proof (Z.sqrt_nonneg q) as S0.
  set (s := Z.sqrt q) in *.
  assert (R : forall a b, 0 <= a -> a * a <= IZR q -> 0 <= b -> IZR q < b * b -> a <= sqrt (IZR q) < b).
  { intros a b A1 A2 B1 B2. split.
    - rewrite <- (sqrt_square a A1). apply sqrt_le_1_alt. exact A2.
    - rewrite <- (sqrt_square b B1). apply sqrt_lt_1_alt. split; [apply IZR_le; exact Q|exact B2]. }
  assert (T0 : 0 <= IZR s) by (apply IZR_le; exact S0).
  assert (T1 : IZR s * IZR s <= IZR q) by (rewrite <- mult_IZR; apply IZR_le; lia).
  assert (T2 : IZR q < (IZR s + 1) * (IZR s + 1)).
  { rewrite <- plus_IZR, <- mult_IZR. apply IZR_lt. lia. }
  destruct (Z.leb_spec (q - s * s) s) as [L|L].
  - split; [lia|]. apply IZR_le in L. rewrite minus_IZR, mult_IZR in L.
    destruct (R (IZR s) (IZR s + 1 / 2)) as [X Y]; [lra|lra|lra|nra|]. rewrite Rabs_left1 by lra. lra.
  - split; [lia|]. rewrite plus_IZR. assert (L' : (s + 1 <= q - s * s)%Z) by lia. apply IZR_le in L'. rewrite minus_IZR, mult_IZR, plus_IZR in L'.
    destruct (R (IZR s + 1 / 2) (IZR s + 1)) as [X Y]; [lra|nra|lra|nra|].
    destruct (Req_dec (sqrt (IZR q)) (IZR s + 1 / 2)) as [E|E]; [|rewrite Rabs_right by lra; lra].
    exfalso. assert (F : IZR q = (IZR s + 1 / 2) * (IZR s + 1 / 2)) by (rewrite <- E, sqrt_sqrt; [reflexivity|apply IZR_le; exact Q]).
    nra.
Qed.

(** Sums of a function that changes its sign after half a turn, over whole turns. *)
Lemma half_turns (f : R -> R) a step m : (forall x, f (x + PI) = - f x) -> INR m * step = PI ->
  rsum (map (fun j => f (a + INR j * step)) (seq 0 (m + m))) = 0.
Proof.
  intros F E. rewrite seq_app, map_app, rsum_app. cbn [Nat.add].
  assert (X : forall l, rsum (map (fun j => f (a + INR (m + j) * step)) l) = - rsum (map (fun j => f (a + INR j * step)) l)).
  { induction l as [|j l IH]; [unfold rsum; cbn [map fold_right]; lra|]. cbn [map]. unfold rsum. cbn [fold_right].
    fold (rsum (map (fun j => f (a + INR (m + j) * step)) l)). fold (rsum (map (fun j => f (a + INR j * step)) l)). rewrite IH, plus_INR.
    replace (a + (INR m + INR j) * step) with (a + INR j * step + PI) by lra. rewrite F. lra. }
  assert (Y : map (fun j => f (a + INR j * step)) (seq m m) = map (fun j => f (a + INR (m + j) * step)) (seq 0 m)).
  { assert (G : forall k s, map (fun j => f (a + INR j * step)) (seq (m + s) k) = map (fun j => f (a + INR (m + j) * step)) (seq s k)).
    { induction k as [|k IH]; intros s; [reflexivity|]. cbn [seq map]. f_equal. rewrite <- IH. f_equal. f_equal. lia. }
    specialize (G m 0%nat). rewrite Nat.add_0_r in G. exact G. }
  rewrite Y, X. lra.
Qed.
Lemma rsum_flat A (f : A -> list R) l : (forall x, In x l -> rsum (f x) = 0) -> rsum (flat_map f l) = 0.
Proof.
  induction l as [|x l IH]; intros H; [reflexivity|]. cbn [flat_map]. rewrite rsum_app, IH, H by (intros; try apply H; try (left; reflexivity); right; assumption). lra.
Qed.
Lemma rsum_scale A (f : A -> R) c l : rsum (map (fun x => f x * c) l) = rsum (map f l) * c.
Proof. induction l as [|x l IH]; [unfold rsum; cbn; lra|]. cbn [map]. unfold rsum in *. cbn [fold_right]. rewrite IH. lra. Qed.

(** The directions of a dome with [es] elevations: row i of 4 es suns is turned by i / es of a step. *)
Definition dome_dirs (es : nat) : list vec :=
  flat_map (fun i => map (fun j => dome_dir ((INR j + INR i / INR es) * (PI / 2 / INR es)) ((INR i + 1 / 2) * (PI / 2 / INR (es + 1)))) (seq 0 (es * 4))) (seq 0 es)
  ++ [mkV 0 0 (-1)].

Lemma elevations_pos n : (1 <= elevations n)%Z.
Proof. unfold elevations. lia. Qed.

Lemma sky_dome_spec w l2 t2 l3 t3 : 0 < l2 \/ 0 < l3 ->
  let es := Z.to_nat (elevations (w_samples w)) in
  let num := INR (es * 4 * es + 1) in
  sky_dome w l2 t2 l3 t3 = flat_map (fun d => dome_pair w d (l2 / num) (l3 / num) t2 t3) (dome_dirs es).
Proof.
  intros P. cbn zeta. unfold sky_dome.
  replace (if Rle_dec l2 0 then if Rle_dec l3 0 then true else false else false) with false
    by (destruct (Rle_dec l2 0), (Rle_dec l3 0); try reflexivity; lra).
  pose proof (elevations_pos (w_samples w)) as E. set (es := elevations (w_samples w)) in *.
  assert (N1 : IZR es = INR (Z.to_nat es)) by (rewrite INR_IZR_INZ, Z2Nat.id by lia; reflexivity).
  assert (N2 : Z.to_nat (es * 4) = (Z.to_nat es * 4)%nat) by lia.
  assert (N3 : IZR (es * 4 * es + 1) = INR (Z.to_nat es * 4 * Z.to_nat es + 1)).
  { rewrite INR_IZR_INZ. f_equal. lia. }
  assert (N4 : IZR (es + 1) = INR (Z.to_nat es + 1)) by (rewrite INR_IZR_INZ; f_equal; lia).
  assert (Q : 1 <= INR (Z.to_nat es)) by (rewrite <- N1; apply IZR_le; lia).
  assert (Q2 : 1 <= INR (Z.to_nat es + 1)) by (rewrite plus_INR; cbn [INR]; lra).
  rewrite dome_rows_spec. rewrite N2, N3, N1, N4, mult_IZR, N1. unfold dome_dirs. rewrite flat_map_app. f_equal; [|cbn [flat_map]; rewrite app_nil_r; reflexivity].
  f_equal. apply flat_map_ext. intros i. apply map_ext. intros j. unfold dome_dir.
  set (k := INR (Z.to_nat es)) in *. set (k1 := INR (Z.to_nat es + 1)) in *.
  replace (90 / k1 * PI / 180 * (1 / 2) + INR i * (90 / k1 * PI / 180)) with ((INR i + 1 / 2) * (PI / 2 / k1)) by (field; lra).
  replace (0 + INR i * (INR (Z.to_nat es * 4) * (360 / (k * 4) * PI / 180) + 360 / (k * 4) * PI / 180 / k) + INR j * (360 / (k * 4) * PI / 180))
    with ((INR j + INR i / k) * (PI / 2 / k) + 2 * INR i * PI).
  2: { rewrite mult_INR. fold k. replace (INR 4) with 4 by (cbn [INR]; lra). field. lra. }
  rewrite cos_period, sin_period. reflexivity.
Qed.

Lemma dome_dirs_spec es : (1 <= es)%nat ->
  length (dome_dirs es) = (es * 4 * es + 1)%nat /\
  (forall d, In d (dome_dirs es) -> dot d d = 1 /\ vz d < 0) /\
  rsum (map vx (dome_dirs es)) = 0 /\ rsum (map vy (dome_dirs es)) = 0.
Proof.
  intros E. assert (Q : 1 <= INR es) by (change 1 with (INR 1); apply le_INR; exact E). pose proof PI_RGT_0 as P.
  unfold dome_dirs. rewrite app_length, !map_app, !rsum_app. cbn [length map vx vy].
  assert (C : forall (f : nat -> R) (b : R), (forall x, cos (x + PI) = - cos x) /\ (forall x, sin (x + PI) = - sin x)).
  { intros _ _. split; intros x; [apply neg_cos|apply neg_sin]. }
  destruct (C (fun _ => 0) 0) as [CC SS]. clear C.
  assert (ST : INR (es + es) * (PI / 2 / INR es) = PI) by (rewrite plus_INR; field; lra).
  split; [|split; [|split]].
  - rewrite (flat_map_concat_map _ (seq 0 es)). assert (G : forall l : list nat, forall g : nat -> list vec, (forall i, length (g i) = (es * 4)%nat) ->
      length (concat (map g l)) = (length l * (es * 4))%nat).
    { intros l g G. induction l as [|i l IH]; [reflexivity|]. cbn [map concat length]. rewrite app_length, G, IH. lia. }
    rewrite G by (intros; rewrite map_length, seq_length; reflexivity). rewrite seq_length. lia.
  - intros d I. apply in_app_iff in I. destruct I as [I|[<- |[]]].
    + apply in_flat_map in I. destruct I as (i & Hi & I). apply in_map_iff in I. destruct I as (j & <- & Hj). apply in_seq in Hi.
      split; [apply dome_dir_unit|]. unfold dome_dir. cbn [vz].
      assert (Ii : 0 <= INR i <= INR es - 1).
      { split; [apply pos_INR|]. assert (L : (i + 1 <= es)%nat) by lia. apply le_INR in L. rewrite plus_INR in L. cbn [INR] in L. lra. }
      assert (Q2 : INR (es + 1) = INR es + 1) by (rewrite plus_INR; cbn [INR]; lra). rewrite Q2.
      assert (0 < sin ((INR i + 1 / 2) * (PI / 2 / (INR es + 1)))); [|lra].
      assert (U : 0 < PI / 2 / (INR es + 1)) by (apply Rdiv_lt_0_compat; lra).
      apply sin_gt_0; [nra|]. assert (V : (INR es + 1) * (PI / 2 / (INR es + 1)) = PI / 2) by (field; lra). nra.
    + unfold dot. cbn [vx vy vz]. lra.
  - rewrite flat_map_concat_map, concat_map, map_map, <- flat_map_concat_map, rsum_flat; [unfold rsum; cbn [fold_right]; lra|].
    intros i _. rewrite map_map. unfold dome_dir. cbn [vx]. set (c := cos ((INR i + 1 / 2) * _)).
    rewrite (rsum_scale nat (fun j => cos ((INR j + INR i / INR es) * (PI / 2 / INR es))) c).
    rewrite (map_ext _ (fun j => cos (INR i / INR es * (PI / 2 / INR es) + INR j * (PI / 2 / INR es)))) by (intros; f_equal; lra).
    replace (es * 4)%nat with ((es + es) + (es + es))%nat by lia. rewrite (half_turns cos) by assumption. lra.
  - rewrite flat_map_concat_map, concat_map, map_map, <- flat_map_concat_map, rsum_flat; [unfold rsum; cbn [fold_right]; lra|].
    intros i _. rewrite map_map. unfold dome_dir. cbn [vy]. set (c := cos ((INR i + 1 / 2) * _)).
    rewrite (rsum_scale nat (fun j => sin ((INR j + INR i / INR es) * (PI / 2 / INR es))) c).
    rewrite (map_ext _ (fun j => sin (INR i / INR es * (PI / 2 / INR es) + INR j * (PI / 2 / INR es)))) by (intros; f_equal; lra).
    replace (es * 4)%nat with ((es + es) + (es + es))%nat by lia. rewrite (half_turns sin) by assumption. lra.
Qed.
