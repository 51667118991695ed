(* Proofs about coordinates of lightmaps. *)
From Coq Require Import Reals List ZArith Bool Lia Lra Psatz R_Ifp.
From Verif Require Import WindClipModel LightValProofs ExtentsModel.
Import ListNotations.
Open Scope R_scope.

(** * Inverse *)
Lemma adj_left m i : (i < 16)%nat -> mul (adj m) m i = det m * ident i.
Proof.
  intros H. do 16 (destruct i as [|i]; [cbv [mul ident det adj Nat.modulo Nat.div Nat.divmod Nat.sub Nat.mul Nat.add fst snd]; ring|]). exfalso; lia.
Qed.
Lemma adj_right m i : (i < 16)%nat -> mul m (adj m) i = det m * ident i.
Proof.
  intros H. do 16 (destruct i as [|i]; [cbv [mul ident det adj Nat.modulo Nat.div Nat.divmod Nat.sub Nat.mul Nat.add fst snd]; ring|]). exfalso; lia.
Qed.

Lemma inverse_some m v : inverse m = Some v -> det m <> 0 /\ v = (fun i => adj m i * (1 / det m)).
Proof. unfold inverse. destruct (Req_EM_T (det m) 0); [discriminate|]. intros E; inversion E; auto. Qed.
Lemma inverse_left m v : inverse m = Some v -> forall i, (i < 16)%nat -> mul v m i = ident i.
Proof.
  intros E i H. apply inverse_some in E as [D ->].
  transitivity (mul (adj m) m i * (1 / det m)); [unfold mul; ring|]. rewrite adj_left by exact H. field. exact D.
Qed.
Lemma inverse_right m v : inverse m = Some v -> forall i, (i < 16)%nat -> mul m v i = ident i.
Proof.
  intros E i H. apply inverse_some in E as [D ->].
  transitivity (mul m (adj m) i * (1 / det m)); [unfold mul; ring|]. rewrite adj_right by exact H. field. exact D.
Qed.

Lemma det_mul a b : det (mul a b) = det a * det b.
Proof.
  cbv [mul det adj Nat.modulo Nat.div Nat.divmod Nat.sub Nat.mul Nat.add fst snd].
  generalize (a 0%nat) (a 1%nat) (a 2%nat) (a 3%nat) (a 4%nat) (a 5%nat) (a 6%nat) (a 7%nat) (a 8%nat) (a 9%nat) (a 10%nat) (a 11%nat) (a 12%nat) (a 13%nat) (a 14%nat) (a 15%nat).
  generalize (b 0%nat) (b 1%nat) (b 2%nat) (b 3%nat) (b 4%nat) (b 5%nat) (b 6%nat) (b 7%nat) (b 8%nat) (b 9%nat) (b 10%nat) (b 11%nat) (b 12%nat) (b 13%nat) (b 14%nat) (b 15%nat).
  intros. ring.
Qed.

(** * Products with columns *)
Lemma mulv_mul a b x y z w r : (r < 4)%nat ->
  mulv (mul a b) x y z w r = mulv a (mulv b x y z w 0) (mulv b x y z w 1) (mulv b x y z w 2) (mulv b x y z w 3) r.
Proof.
  intros H. do 4 (destruct r as [|r]; [cbv [mulv mul Nat.modulo Nat.div Nat.divmod Nat.sub Nat.mul Nat.add fst snd]; ring|]). exfalso; lia.
Qed.
Lemma mulv_ident x y z w m : (forall i, (i < 16)%nat -> m i = ident i) ->
  mulv m x y z w 0 = x /\ mulv m x y z w 1 = y /\ mulv m x y z w 2 = z /\ mulv m x y z w 3 = w.
Proof.
  intros H. cbv [mulv Nat.add]. rewrite !H by lia. cbn [ident]. refine (conj _ (conj _ (conj _ _))); ring.
Qed.

Definition rowv m p r := mulv m (vx p) (vy p) (vz p) 1 r.
Lemma plane_row s so t to pl p :
  rowv (plane_mat s so t to pl) p 0 = dot p s + so /\ rowv (plane_mat s so t to pl) p 1 = dot p t + to /\
  rowv (plane_mat s so t to pl) p 2 = dist_to pl p /\ rowv (plane_mat s so t to pl) p 3 = 1.
Proof.
  cbv [rowv mulv plane_mat rows vrow dist_to dot Nat.modulo Nat.div Nat.divmod Nat.sub Nat.mul Nat.add fst snd].
  refine (conj _ (conj _ (conj _ _))); ring.
Qed.
Lemma plane_det s so t to pl : det (plane_mat s so t to pl) = dot (cross s t) (p_n pl).
Proof.
  cbv [det adj plane_mat rows vrow dot cross vx vy vz Nat.modulo Nat.div Nat.divmod Nat.sub Nat.mul Nat.add fst snd]. ring.
Qed.

(** * Points of coordinates *)
Lemma round_lm m v a b : inverse m = Some v ->
  let x := mulv v a b 0 1 0 in let y := mulv v a b 0 1 1 in let z := mulv v a b 0 1 2 in let w := mulv v a b 0 1 3 in
  mulv m x y z w 0 = a /\ mulv m x y z w 1 = b /\ mulv m x y z w 2 = 0 /\ mulv m x y z w 3 = 1.
Proof.
  intros E. cbv zeta. rewrite <- !mulv_mul by lia. apply mulv_ident, (inverse_right m v E).
Qed.
Lemma plane_last s so t to pl x y z w : mulv (plane_mat s so t to pl) x y z w 3 = w.
Proof. cbv [mulv plane_mat rows vrow Nat.modulo Nat.div Nat.divmod Nat.sub Nat.mul Nat.add fst snd]. ring. Qed.

Lemma cramer s t n u : dot (cross s t) n <> 0 -> dot u s = 0 -> dot u t = 0 -> dot u n = 0 -> u = mkV 0 0 0.
Proof.
  intros D A B C. destruct u as [x y z].
  assert (X : dot (cross s t) n * x = 0).
  { transitivity (dot (mkV x y z) s * vx (cross t n) + dot (mkV x y z) t * vx (cross n s) + dot (mkV x y z) n * vx (cross s t)); [unfold dot, cross; cbn [vx vy vz]; ring|rewrite A, B, C; ring]. }
  assert (Y : dot (cross s t) n * y = 0).
  { transitivity (dot (mkV x y z) s * vy (cross t n) + dot (mkV x y z) t * vy (cross n s) + dot (mkV x y z) n * vy (cross s t)); [unfold dot, cross; cbn [vx vy vz]; ring|rewrite A, B, C; ring]. }
  assert (Z : dot (cross s t) n * z = 0).
  { transitivity (dot (mkV x y z) s * vz (cross t n) + dot (mkV x y z) t * vz (cross n s) + dot (mkV x y z) n * vz (cross s t)); [unfold dot, cross; cbn [vx vy vz]; ring|rewrite A, B, C; ring]. }
  apply Rmult_integral in X as [X|X]; [contradiction|]. apply Rmult_integral in Y as [Y|Y]; [contradiction|].
  apply Rmult_integral in Z as [Z|Z]; [contradiction|]. congruence.
Qed.

(** What a conversion with axes s and t and offsets so and to is. *)
Record conv (e : extents) (s : vec) (so : R) (t : vec) (to : R) (pl : plane) : Prop := mkConv {
  cv_lm : forall p, to_lm e p = (dot p s + so, dot p t + to);
  cv_world : forall lm q, to_world e lm = Some q -> to_lm e q = lm /\ dist_to pl q = 0;
  cv_some : dot (cross s t) (p_n pl) <> 0 -> forall lm, exists q, to_world e lm = Some q;
  cv_none : dot (cross s t) (p_n pl) = 0 -> forall lm, to_world e lm = None }.

Lemma conv_round e s so t to pl : conv e s so t to pl -> dot (cross s t) (p_n pl) <> 0 ->
  forall p, dist_to pl p = 0 -> to_world e (to_lm e p) = Some p.
Proof.
  intros C D p P. destruct (cv_some _ _ _ _ _ _ C D (to_lm e p)) as [q Q]. rewrite Q. f_equal.
  destruct (cv_world _ _ _ _ _ _ C _ _ Q) as [A B]. rewrite !(cv_lm _ _ _ _ _ _ C) in A. inversion A as [[A1 A2]].
  assert (U : sub q p = mkV 0 0 0).
  { apply (cramer s t (p_n pl)); [exact D| | |].
    - replace (dot (sub q p) s) with (dot q s - dot p s) by (unfold dot, sub; cbn [vx vy vz]; ring). lra.
    - replace (dot (sub q p) t) with (dot q t - dot p t) by (unfold dot, sub; cbn [vx vy vz]; ring). lra.
    - unfold dist_to in *. replace (dot (sub q p) (p_n pl)) with (dot q (p_n pl) - dot p (p_n pl)) by (unfold dot, sub; cbn [vx vy vz]; ring). lra. }
  unfold sub in U. destruct q as [q1 q2 q3], p as [p1 p2 p3]; cbn [vx vy vz] in U. inversion U. f_equal; lra.
Qed.

Lemma plane_conv w h s so t to pl : conv (mkEx w h (plane_mat s so t to pl) (inverse (plane_mat s so t to pl))) s so t to pl.
Proof.
  set (m := plane_mat s so t to pl).
  assert (L : forall p, to_lm (mkEx w h m (inverse m)) p = (dot p s + so, dot p t + to)).
  { intros p. destruct (plane_row s so t to pl p) as (A & B & _). unfold rowv in *. fold m in A, B.
    unfold to_lm; cbn [ex_to_lm]. rewrite A, B. reflexivity. }
  constructor; [exact L| | |].
  - intros lm q Q. unfold to_world in Q; cbn [ex_to_world] in Q. destruct (inverse m) as [v|] eqn:V; [|discriminate].
    destruct (round_lm m v (fst lm) (snd lm) V) as (A & B & C & W).
    unfold m in W at 1; rewrite plane_last in W. rewrite W in A, B, C.
    injection Q as Q'. assert (QX : vx q = mulv v (fst lm) (snd lm) 0 1 0) by (rewrite <- Q'; reflexivity).
    assert (QY : vy q = mulv v (fst lm) (snd lm) 0 1 1) by (rewrite <- Q'; reflexivity). assert (QZ : vz q = mulv v (fst lm) (snd lm) 0 1 2) by (rewrite <- Q'; reflexivity).
    rewrite <- QX, <- QY, <- QZ in A, B, C. clear Q'.
    split.
    + unfold to_lm; cbn [ex_to_lm]. rewrite A, B. destruct lm; reflexivity.
    + destruct (plane_row s so t to pl q) as (_ & _ & X & _). fold m in X. rewrite <- X. exact C.
  - intros D lm. rewrite <- (plane_det s so t to pl) in D. fold m in D. unfold to_world; cbn [ex_to_world]. unfold inverse. destruct (Req_EM_T (det m) 0); [contradiction|eauto].
  - intros D lm. rewrite <- (plane_det s so t to pl) in D. fold m in D. unfold to_world; cbn [ex_to_world]. unfold inverse. destruct (Req_EM_T (det m) 0); [reflexivity|contradiction].
Qed.

Lemma lm_det shift ms mt : det (lm_to_tex shift ms mt) = shift * shift.
Proof. cbv [det adj lm_to_tex rows Nat.modulo Nat.div Nat.divmod Nat.sub Nat.mul Nat.add fst snd]. ring. Qed.

Lemma shift_conv w h tv pl shift ms mt inv : shift <> 0 -> inverse (lm_to_tex shift ms mt) = Some inv ->
  conv (mkEx w h (mul inv (world_to_tex tv pl)) (option_map (fun m => mul m (lm_to_tex shift ms mt)) (inverse (world_to_tex tv pl))))
    (scale (1 / shift) (tv_s tv)) (tv_so tv / shift - IZR ms) (scale (1 / shift) (tv_t tv)) (tv_to tv / shift - IZR mt) pl.
Proof.
  intros S I. set (W := world_to_tex tv pl). set (L := lm_to_tex shift ms mt) in *.
  set (e := mkEx _ _ _ _).
  assert (LM : forall p, to_lm e p = (dot p (scale (1 / shift) (tv_s tv)) + (tv_so tv / shift - IZR ms), dot p (scale (1 / shift) (tv_t tv)) + (tv_to tv / shift - IZR mt))).
  { intros p. unfold to_lm, e; cbn [ex_to_lm]. rewrite !mulv_mul by lia.
    destruct (plane_row (tv_s tv) (tv_so tv) (tv_t tv) (tv_to tv) pl p) as (A & B & _ & C). unfold rowv in *.
    fold (world_to_tex tv pl) in A, B, C. fold W in A, B, C. rewrite A, B, C.
    apply inverse_some in I as [D ->]. unfold L in D. rewrite lm_det in D. unfold L; cbv [mulv Nat.add]. rewrite lm_det.
    cbv [adj lm_to_tex rows Nat.modulo Nat.div Nat.divmod Nat.sub Nat.mul Nat.add fst snd].
    f_equal; unfold scale, dot; cbn [vx vy vz]; field; exact S. }
  assert (DT : dot (cross (scale (1 / shift) (tv_s tv)) (scale (1 / shift) (tv_t tv))) (p_n pl) = det W / (shift * shift)).
  { unfold W, world_to_tex. rewrite plane_det. unfold dot, cross, scale; cbn [vx vy vz]. field. exact S. }
  assert (SS : shift * shift <> 0) by (apply Rmult_integral_contrapositive_currified; exact S).
  constructor; [exact LM| | |].
  - intros lm q Q. unfold to_world, e in Q; cbn [ex_to_world option_map] in Q. destruct (inverse W) as [v|] eqn:V; [|discriminate]. cbn [option_map] in Q.
    rewrite !mulv_mul in Q by lia.
    assert (L0 : mulv L (fst lm) (snd lm) 0 1 0 = shift * (fst lm + IZR ms) /\ mulv L (fst lm) (snd lm) 0 1 1 = shift * (snd lm + IZR mt) /\ mulv L (fst lm) (snd lm) 0 1 2 = 0 /\ mulv L (fst lm) (snd lm) 0 1 3 = 1).
    { unfold L; cbv [mulv lm_to_tex rows Nat.modulo Nat.div Nat.divmod Nat.sub Nat.mul Nat.add fst snd]. destruct lm. refine (conj _ (conj _ (conj _ _))); ring. }
    destruct L0 as (L0 & L1 & L2 & L3). rewrite L0, L1, L2, L3 in Q.
    destruct (round_lm W v (shift * (fst lm + IZR ms)) (shift * (snd lm + IZR mt)) V) as (A & B & C & X).
    change W with (plane_mat (tv_s tv) (tv_so tv) (tv_t tv) (tv_to tv) pl) in X at 1; rewrite plane_last in X. rewrite X in A, B, C.
    injection Q as Q'. assert (QX : vx q = mulv v (shift * (fst lm + IZR ms)) (shift * (snd lm + IZR mt)) 0 1 0) by (rewrite <- Q'; reflexivity).
    assert (QY : vy q = mulv v (shift * (fst lm + IZR ms)) (shift * (snd lm + IZR mt)) 0 1 1) by (rewrite <- Q'; reflexivity). assert (QZ : vz q = mulv v (shift * (fst lm + IZR ms)) (shift * (snd lm + IZR mt)) 0 1 2) by (rewrite <- Q'; reflexivity).
    rewrite <- QX, <- QY, <- QZ in A, B, C. clear Q'.
    destruct (plane_row (tv_s tv) (tv_so tv) (tv_t tv) (tv_to tv) pl q) as (A' & B' & C' & _). unfold rowv in *.
    fold (world_to_tex tv pl) in A', B', C'. fold W in A', B', C'.
    rewrite A in A'. rewrite B in B'. rewrite C in C'.
    split; [|symmetry; exact C']. rewrite LM. destruct lm as [lx ly]; cbn [fst snd] in *.
    f_equal.
    + transitivity ((dot q (tv_s tv) + tv_so tv) / shift - IZR ms); [unfold dot, scale; cbn [vx vy vz]; field; exact S|rewrite <- A'; field; exact S].
    + transitivity ((dot q (tv_t tv) + tv_to tv) / shift - IZR mt); [unfold dot, scale; cbn [vx vy vz]; field; exact S|rewrite <- B'; field; exact S].
  - rewrite DT. intros D lm. unfold to_world, e; cbn [ex_to_world option_map]. unfold inverse. destruct (Req_EM_T (det W) 0) as [Z|Z].
    + exfalso. apply D. rewrite Z. field. exact S.
    + cbn [option_map]. eauto.
  - rewrite DT. intros D lm. unfold to_world, e; cbn [ex_to_world option_map]. unfold inverse. destruct (Req_EM_T (det W) 0) as [Z|Z]; [reflexivity|].
    exfalso. apply Z. apply Rmult_integral in D as [D|D]; [exact D|]. exfalso. apply (Rinv_neq_0_compat _ SS). exact D.
Qed.

(** * Bounds *)
Lemma floor_spec x : IZR (floor x) <= x < IZR (floor x) + 1.
Proof. unfold floor. destruct (base_Int_part x). lra. Qed.
Lemma ceil_spec x : IZR (ceil x) - 1 < x <= IZR (ceil x).
Proof. unfold ceil. rewrite opp_IZR. destruct (base_Int_part (- x)). lra. Qed.
Lemma floor_unique x z : IZR z <= x < IZR z + 1 -> floor x = z.
Proof.
  intros H. pose proof (floor_spec x) as F.
  assert (IZR (floor x) < IZR (z + 1)) by (rewrite plus_IZR; lra). assert (IZR z < IZR (floor x + 1)) by (rewrite plus_IZR; lra).
  apply lt_IZR in H0. apply lt_IZR in H1. lia.
Qed.

Lemma fold_min l : forall x, fold_left Rmin l x <= x /\ (forall y, In y l -> fold_left Rmin l x <= y) /\ (fold_left Rmin l x = x \/ In (fold_left Rmin l x) l).
Proof.
  induction l as [|a l IH]; intros x; cbn [fold_left].
  - refine (conj (Rle_refl _) (conj _ _)); [intros y []|auto].
  - destruct (IH (Rmin x a)) as (A & B & C). pose proof (Rmin_l x a). pose proof (Rmin_r x a).
    refine (conj _ (conj _ _)); [lra| |].
    + intros y [<-|I]; [lra|auto].
    + destruct C as [C|C]; [|right; right; exact C]. rewrite C. unfold Rmin. destruct (Rle_dec x a); [left; reflexivity|right; left; reflexivity].
Qed.
Lemma fold_max l : forall x, x <= fold_left Rmax l x /\ (forall y, In y l -> y <= fold_left Rmax l x) /\ (fold_left Rmax l x = x \/ In (fold_left Rmax l x) l).
Proof.
  induction l as [|a l IH]; intros x; cbn [fold_left].
  - refine (conj (Rle_refl _) (conj _ _)); [intros y []|auto].
  - destruct (IH (Rmax x a)) as (A & B & C). pose proof (Rmax_l x a). pose proof (Rmax_r x a).
    refine (conj _ (conj _ _)); [lra| |].
    + intros y [<-|I]; [lra|auto].
    + destruct C as [C|C]; [|right; right; exact C]. rewrite C. unfold Rmax. destruct (Rle_dec x a); [right; left; reflexivity|left; reflexivity].
Qed.
Lemma lo_le l x : In x l -> lo l <= x.
Proof. destruct l as [|a l]; [intros []|]. destruct (fold_min l a) as (A & B & _). cbn [lo]. intros [<-|I]; auto. Qed.
Lemma hi_ge l x : In x l -> x <= hi l.
Proof. destruct l as [|a l]; [intros []|]. destruct (fold_max l a) as (A & B & _). cbn [hi]. intros [<-|I]; auto. Qed.
Lemma lo_in l : l <> [] -> In (lo l) l.
Proof. destruct l as [|a l]; [congruence|]. intros _. destruct (fold_min l a) as (_ & _ & [C|C]); cbn [lo]; [left; auto|right; exact C]. Qed.
Lemma hi_in l : l <> [] -> In (hi l) l.
Proof. destruct l as [|a l]; [congruence|]. intros _. destruct (fold_max l a) as (_ & _ & [C|C]); cbn [hi]; [left; auto|right; exact C]. Qed.

Lemma to_int_some z v : to_int z = Some v -> v = z.
Proof. unfold to_int. destruct (_ && _); [|discriminate]. congruence. Qed.
Lemma extent_some a b m e : extent a b = Some (m, e) -> m = floor a /\ e = (ceil b - floor a)%Z.
Proof.
  unfold extent. destruct (to_int (floor a)) eqn:A; [|discriminate]. destruct (to_int (ceil b - floor a)) eqn:B; [|discriminate].
  intros E; inversion E; subst. apply to_int_some in A, B. auto.
Qed.

(** The grid of one coordinate. *)
Lemma grid {A} (f : A -> R) (l : list A) k m e : l <> [] -> 0 < k -> extent (lo (map f l) / k) (hi (map f l) / k) = Some (m, e) ->
  (forall x, In x l -> 0 <= f x / k - IZR m <= IZR e) /\ (exists x, In x l /\ f x / k - IZR m < 1) /\
  (exists x, In x l /\ IZR e - 1 < f x / k - IZR m) /\ (0 <= e)%Z.
Proof.
  intros L K E. apply extent_some in E as [-> ->]. set (a := lo _) in *. set (b := hi _) in *.
  pose proof (floor_spec (a / k)) as FA. pose proof (ceil_spec (b / k)) as FB.
  assert (M : map f l <> []) by (destruct l; [congruence|discriminate]).
  assert (H : forall x, In x l -> 0 <= f x / k - IZR (floor (a / k)) <= IZR (ceil (b / k) - floor (a / k))).
  { intros x I. rewrite minus_IZR. assert (a / k <= f x / k) by (apply Rmult_le_compat_r; [left; apply Rinv_0_lt_compat, K|apply lo_le, in_map, I]).
    assert (f x / k <= b / k) by (apply Rmult_le_compat_r; [left; apply Rinv_0_lt_compat, K|apply hi_ge, in_map, I]). lra. }
  refine (conj H (conj _ (conj _ _))).
  - pose proof (lo_in _ M) as I. apply in_map_iff in I as (x & X & I). exists x. split; [exact I|]. rewrite X. fold a. lra.
  - pose proof (hi_in _ M) as I. apply in_map_iff in I as (x & X & I). exists x. split; [exact I|]. rewrite X, minus_IZR. fold b. lra.
  - destruct l as [|x l]; [congruence|]. specialize (H x (or_introl eq_refl)). apply le_IZR. lra.
Qed.

(** Points between points. *)
Inductive hull (pts : list vec) : vec -> Prop :=
| hull_pt p : In p pts -> hull pts p
| hull_seg p q k : hull pts p -> hull pts q -> 0 <= k <= 1 -> hull pts (add p (scale k (sub q p))).

Lemma hull_affine pts (s : vec) (o a b : R) : (forall p, In p pts -> a <= dot p s + o <= b) -> forall q, hull pts q -> a <= dot q s + o <= b.
Proof.
  intros H q Q. induction Q as [p I|p q k _ IP _ IQ K]; [auto|].
  replace (dot (add p (scale k (sub q p))) s + o) with ((1 - k) * (dot p s + o) + k * (dot q s + o)) by (unfold dot, add, scale, sub; cbn [vx vy vz]; ring).
  set (x := dot p s + o) in *. set (y := dot q s + o) in *. clearbody x y. split; nra.
Qed.

Lemma shift_inv tv pl pts shift e : extents_shift tv pl pts shift = Some e -> pts <> [] /\ shift <> 0 /\
  exists ms mt, extent (lo (map (fun p => fst (uvs tv p)) pts) / shift) (hi (map (fun p => fst (uvs tv p)) pts) / shift) = Some (ms, ex_w e) /\
    extent (lo (map (fun p => snd (uvs tv p)) pts) / shift) (hi (map (fun p => snd (uvs tv p)) pts) / shift) = Some (mt, ex_h e) /\
    conv e (scale (1 / shift) (tv_s tv)) (tv_so tv / shift - IZR ms) (scale (1 / shift) (tv_t tv)) (tv_to tv / shift - IZR mt) pl.
Proof.
  unfold extents_shift. destruct pts as [|p0 pts]; [discriminate|]. destruct (Req_EM_T shift 0) as [|S]; [discriminate|].
  set (L := p0 :: pts). destruct (extent _ _) as [[ms w]|] eqn:A; [|discriminate]. destruct (extent (lo (map (fun p => snd _) _) / _) _) as [[mt h]|] eqn:B; [|discriminate].
  destruct (inverse (lm_to_tex shift ms mt)) as [inv|] eqn:I; [|discriminate]. intros E. injection E as <-.
  refine (conj _ (conj S _)); [discriminate|]. exists ms, mt. refine (conj eq_refl (conj eq_refl _)). apply shift_conv; assumption.
Qed.
Lemma units_inv pl pts units e : extents_units pl pts units = Some e -> pts <> [] /\ units <> 0 /\
  exists ms mt, let t := scale (1 / units) (fst (tangents (snapped (p_n pl)))) in let b := scale (1 / units) (snd (tangents (snapped (p_n pl)))) in
    extent (lo (map (dot t) pts)) (hi (map (dot t) pts)) = Some (ms, ex_w e) /\
    extent (lo (map (dot b) pts)) (hi (map (dot b) pts)) = Some (mt, ex_h e) /\
    conv e t (- IZR ms) b (- IZR mt) pl.
Proof.
  unfold extents_units. destruct (tangents (snapped (p_n pl))) as [t b]. cbn [fst snd]. destruct pts as [|p0 pts]; [discriminate|].
  destruct (Req_EM_T units 0) as [|S]; [discriminate|].
  set (L := p0 :: pts). destruct (extent _ _) as [[ms w]|] eqn:A; [|discriminate]. destruct (extent (lo (map (dot (scale (1 / units) b)) _)) _) as [[mt h]|] eqn:B; [|discriminate].
  intros E. injection E as <-. refine (conj _ (conj S _)); [discriminate|]. exists ms, mt. cbv zeta. refine (conj eq_refl (conj eq_refl _)). apply plane_conv.
Qed.

(** * Tangents *)
Lemma axis_unit a k : (a < 3)%nat -> k <> 0 -> axis (unit_axis a k) = a.
Proof.
  intros A K. pose proof (Rabs_pos_lt k K) as P. destruct a as [|[|[|a]]]; [..|lia]; unfold axis, unit_axis; cbn [vx vy vz]; rewrite ?Rabs_R0;
    repeat match goal with |- context [Rlt_dec ?x ?y] => destruct (Rlt_dec x y) end; try reflexivity; exfalso; lra.
Qed.
Lemma axis_comp n : n <> mkV 0 0 0 -> comp (axis n) n <> 0.
Proof.
  intros N0 Z. apply N0. destruct n as [x y z]. unfold axis, comp in Z; cbn [vx vy vz] in Z.
  pose proof (Rabs_pos x). pose proof (Rabs_pos y). pose proof (Rabs_pos z).
  assert (T : Rabs x = 0 /\ Rabs y = 0 /\ Rabs z = 0).
  { repeat match goal with H : context [Rlt_dec ?x ?y] |- _ => destruct (Rlt_dec x y) end; cbn iota in Z; subst; rewrite ?Rabs_R0 in *; lra. }
  destruct T as (A & B & C). assert (Z0 : forall u, Rabs u = 0 -> u = 0) by (intros u U; destruct (Req_dec u 0) as [E|E]; [exact E|apply Rabs_no_R0 in E; lra]). rewrite (Z0 x A), (Z0 y B), (Z0 z C). reflexivity.
Qed.
Lemma axis_lt n : (axis n < 3)%nat.
Proof. unfold axis. repeat match goal with |- context [Rlt_dec ?x ?y] => destruct (Rlt_dec x y) end; lia. Qed.

Lemma tangents_unit a k : (a < 3)%nat -> k = 1 \/ k = -1 ->
  cross (fst (tangents (unit_axis a k))) (snd (tangents (unit_axis a k))) = unit_axis a k.
Proof.
  intros A K. assert (K0 : k <> 0) by lra. unfold tangents. rewrite (axis_unit a k A K0).
  destruct a as [|[|[|a]]]; [..|lia]; cbv [Nat.modulo Nat.divmod Nat.sub Nat.add fst snd unit_axis cross dot vx vy vz];
    match goal with |- context [Rlt_dec ?x ?y] => destruct (Rlt_dec x y) end; destruct K as [-> | ->]; f_equal; try ring; exfalso; lra.
Qed.
Lemma units_det n k : n <> mkV 0 0 0 -> 0 < dot (cross (fst (tangents (snapped n))) (snd (tangents (snapped n)))) n * (k * k) \/ k = 0.
Proof.
  intros N0. destruct (Req_dec k 0) as [|K]; [auto|left]. pose proof (axis_comp n N0) as C. pose proof (axis_lt n) as A.
  unfold snapped. rewrite tangents_unit; [|exact A|destruct (Rlt_dec _ _); auto].
  apply Rmult_lt_0_compat; [|apply sq_pos, K].
  revert C A. generalize (axis n). intros a C A. destruct a as [|[|[|a]]]; [..|lia]; cbn [comp unit_axis] in *; unfold dot; cbn [vx vy vz];
    match goal with |- context [Rlt_dec ?x ?y] => destruct (Rlt_dec x y) end; cbn iota; lra.
Qed.

(** * Spheres *)
Lemma len_comp a b : Rabs (vx a) <= vx b -> Rabs (vy a) <= vy b -> Rabs (vz a) <= vz b -> len a <= len b.
Proof.
  intros X Y Z. apply sqrt_le_1; [apply dot_self_nonneg..|]. unfold dot.
  assert (forall u v, Rabs u <= v -> u * u <= v * v) as Q.
  { intros u v U. assert (- v <= u <= v) by (revert U; unfold Rabs; destruct (Rcase_abs u); lra). nra. }
  pose proof (Q _ _ X). pose proof (Q _ _ Y). pose proof (Q _ _ Z). lra.
Qed.
Lemma sphere_holds pts p : hull pts p -> len (sub p (fst (sphere pts))) <= snd (sphere pts).
Proof.
  intros H.
  assert (B : forall s f, (forall q, dot q s + 0 = f q) -> lo (map f pts) <= f p <= hi (map f pts)).
  { intros s f F. rewrite <- F. apply (hull_affine pts s 0); [|exact H]. intros q I. rewrite F. split; [apply lo_le, in_map, I|apply hi_ge, in_map, I]. }
  pose proof (B (mkV 1 0 0) vx ltac:(intros; unfold dot; cbn [vx vy vz]; ring)) as X.
  pose proof (B (mkV 0 1 0) vy ltac:(intros; unfold dot; cbn [vx vy vz]; ring)) as Y.
  pose proof (B (mkV 0 0 1) vz ltac:(intros; unfold dot; cbn [vx vy vz]; ring)) as Z.
  unfold sphere, vlo, vhi; cbn [fst snd].
  apply len_comp; unfold sub, add, scale; cbn [vx vy vz]; apply Rabs_le; lra.
Qed.

(** * Samples *)
Fixpoint sum (l : list R) : R := match l with [] => 0 | x :: r => x + sum r end.
Lemma sum_app a b : sum (a ++ b) = sum a + sum b.
Proof. induction a; cbn; lra. Qed.
Lemma sample_between extra l k : (k < extra)%nat -> INR l - 1 / 2 < sample_coord extra (l * extra + k) < INR l + 1 / 2.
Proof.
  intros H. unfold sample_coord. assert (P : 0 < INR extra) by (apply lt_0_INR; lia).
  rewrite plus_INR, mult_INR. replace ((INR l * INR extra + INR k) * (1 / INR extra)) with (INR l + INR k / INR extra) by (field; lra).
  assert (K : 0 <= INR k) by apply pos_INR. assert (K1 : INR k + 1 <= INR extra) by (rewrite <- S_INR; apply le_INR; lia).
  assert (D : 0 < / INR extra) by (apply Rinv_0_lt_compat, P). assert (I : INR extra * / INR extra = 1) by (apply Rinv_r; lra).
  unfold Rdiv. set (d := / INR extra) in *. nra.
Qed.
Lemma sample_sum extra l m : (0 < extra)%nat ->
  sum (map (fun k => sample_coord extra (l * extra + k)) (seq 0 m)) = INR m * INR l + INR m * (INR m - INR extra) / (2 * INR extra).
Proof.
  intros H. assert (P : 0 < INR extra) by (apply lt_0_INR; lia). induction m as [|m IH]; [cbn; field; lra|].
  rewrite seq_S, map_app, sum_app, IH. cbn [map sum Nat.add]. unfold sample_coord. rewrite plus_INR, mult_INR, S_INR. field. lra.
Qed.

(** * Texture coordinates *)
Lemma ceil_abs x : x < 0 -> ceil (Rabs x) = (- floor x)%Z.
Proof. intros H. rewrite Rabs_left by exact H. unfold ceil, floor. rewrite Ropp_involutive. reflexivity. Qed.
Lemma clamp_spec x w : (0 < w)%Z -> clamp_texcoord x w = if ((- 2 ^ 32 <? floor x) && (floor x <? 2 ^ 32))%Z then Some (floor x mod w)%Z else None.
Proof.
  intros W. unfold clamp_texcoord. destruct (w =? 0)%Z eqn:E; [lia|]. pose proof (floor_spec x) as F. destruct (Rle_dec 0 x) as [P|P].
  - assert (0 <= floor x)%Z by (assert (IZR (-1) < IZR (floor x)) by (cbn; lra); apply lt_IZR in H; lia).
    unfold to_u32. replace (0 <=? floor x)%Z with true by lia. replace (- 2 ^ 32 <? floor x)%Z with true by lia. cbn [andb]. destruct (floor x <? 2 ^ 32)%Z; reflexivity.
  - rewrite ceil_abs by lra. assert (floor x < 0)%Z by (apply lt_IZR; lra).
    unfold to_u32. replace (0 <=? - floor x)%Z with true by lia. replace (floor x <? 2 ^ 32)%Z with true by lia. rewrite andb_true_r. cbn [andb].
    replace (- floor x <? 2 ^ 32)%Z with (- 2 ^ 32 <? floor x)%Z by lia. destruct (- 2 ^ 32 <? floor x)%Z; [|reflexivity]. cbn [option_map]. f_equal.
    rewrite Zminus_mod_idemp_r. replace (w - - floor x)%Z with (floor x + 1 * w)%Z by ring. apply Z_mod_plus_full.
Qed.

Lemma no_inverse m : inverse m = None -> ~ exists v, forall i, (i < 16)%nat -> mul v m i = ident i.
Proof.
  intros E [v V]. unfold inverse in E. destruct (Req_EM_T (det m) 0) as [D|]; [|discriminate].
  assert (X : det (mul v m) = 1).
  { cbv [det adj]. rewrite !V by lia. cbn [ident]. ring. }
  rewrite det_mul, D in X. lra.
Qed.

(** The coordinates per world units. *)
Lemma tangents_cases n : n <> mkV 0 0 0 -> exists i j si sj, (i < 3)%nat /\ (j < 3)%nat /\ i <> j /\ i <> axis n /\ j <> axis n /\
  (si = 1 \/ si = -1) /\ (sj = 1 \/ sj = -1) /\ tangents (snapped n) = (unit_axis i si, unit_axis j sj).
Proof.
  intros N0. pose proof (axis_lt n) as A. unfold snapped. set (k := if Rlt_dec 0 _ then 1 else -1).
  assert (K : k = 1 \/ k = -1) by (unfold k; destruct (Rlt_dec _ _); auto). clearbody k. revert A. generalize (axis n). intros a A.
  assert (K0 : k <> 0) by lra. unfold tangents. rewrite (axis_unit a k A K0).
  destruct a as [|[|[|a]]]; [..|lia].
  - cbv [Nat.modulo Nat.divmod Nat.sub Nat.add fst snd unit_axis cross dot vx vy vz]. match goal with |- context [Rlt_dec ?x ?y] => destruct (Rlt_dec x y) as [L|L] end.
    + exists 1%nat, 2%nat, (- k), k. refine (conj _ (conj _ (conj _ (conj _ (conj _ (conj _ (conj _ _))))))); try lia; try lra. f_equal; f_equal; ring.
    + exists 2%nat, 1%nat, k, (- k). refine (conj _ (conj _ (conj _ (conj _ (conj _ (conj _ (conj _ _))))))); try lia; try lra. f_equal; f_equal; ring.
  - cbv [Nat.modulo Nat.divmod Nat.sub Nat.add fst snd unit_axis cross dot vx vy vz]. match goal with |- context [Rlt_dec ?x ?y] => destruct (Rlt_dec x y) as [L|L] end.
    + exists 2%nat, 0%nat, (- k), k. refine (conj _ (conj _ (conj _ (conj _ (conj _ (conj _ (conj _ _))))))); try lia; try lra. f_equal; f_equal; ring.
    + exists 0%nat, 2%nat, k, (- k). refine (conj _ (conj _ (conj _ (conj _ (conj _ (conj _ (conj _ _))))))); try lia; try lra. f_equal; f_equal; ring.
  - cbv [Nat.modulo Nat.divmod Nat.sub Nat.add fst snd unit_axis cross dot vx vy vz]. match goal with |- context [Rlt_dec ?x ?y] => destruct (Rlt_dec x y) as [L|L] end.
    + exists 0%nat, 1%nat, (- k), k. refine (conj _ (conj _ (conj _ (conj _ (conj _ (conj _ (conj _ _))))))); try lia; try lra. f_equal; f_equal; ring.
    + exists 1%nat, 0%nat, k, (- k). refine (conj _ (conj _ (conj _ (conj _ (conj _ (conj _ (conj _ _))))))); try lia; try lra. f_equal; f_equal; ring.
Qed.

(** * All ways to make extents *)
Definition made (e : extents) (pl : plane) : Prop :=
  (exists tv pts shift, extents_shift tv pl pts shift = Some e) \/ (exists pts units, extents_units pl pts units = Some e) \/
  (exists w h tv, e = extents_given pl w h tv).
Lemma made_conv e pl : made e pl -> exists s so t to, conv e s so t to pl.
Proof.
  intros [(tv & pts & shift & E)|[(pts & units & E)|(w & h & tv & E)]].
  - apply shift_inv in E as (_ & _ & ms & mt & _ & _ & C). eauto 6.
  - apply units_inv in E as (_ & _ & ms & mt & _ & _ & C). eauto 6.
  - subst e. unfold extents_given. do 4 eexists. apply plane_conv.
Qed.

Lemma kernel s t n : n <> mkV 0 0 0 -> dot (cross s t) n = 0 -> exists u, u <> mkV 0 0 0 /\ dot u s = 0 /\ dot u t = 0 /\ dot u n = 0.
Proof.
  intros N0 D.
  assert (VD : forall v : vec, v = mkV 0 0 0 \/ v <> mkV 0 0 0).
  { intros [x y z]. destruct (Req_dec x 0) as [->|X]; [|right; congruence]. destruct (Req_dec y 0) as [->|Y]; [|right; congruence].
    destruct (Req_dec z 0) as [->|Z]; [left; reflexivity|right; congruence]. }
  destruct (VD (cross t n)) as [TN|TN].
  2:{ exists (cross t n). refine (conj TN (conj _ (conj _ _))); [|unfold dot, cross; cbn [vx vy vz]; ring..].
      rewrite <- D. unfold dot, cross; cbn [vx vy vz]; ring. }
  destruct (VD (cross s n)) as [SN|SN].
  2:{ exists (cross s n). refine (conj SN (conj _ (conj _ _))); [unfold dot, cross; cbn [vx vy vz]; ring| |unfold dot, cross; cbn [vx vy vz]; ring].
      transitivity (- dot (cross s t) n); [unfold dot, cross; cbn [vx vy vz]; ring|rewrite D; ring]. }
  (* s and t are along n: any vector across n *)
  assert (P : exists u, u <> mkV 0 0 0 /\ dot u n = 0).
  { destruct n as [x y z]. destruct (Req_dec x 0) as [->|X].
    - exists (mkV 1 0 0). split; [intros E; injection E; lra|unfold dot; cbn [vx vy vz]; ring].
    - exists (mkV (- y) x 0). split; [intros E; injection E; intros; contradiction|unfold dot; cbn [vx vy vz]; ring]. }
  destruct P as (u & U & UN). exists u. refine (conj U (conj _ (conj _ UN))).
  - assert (E : forall v, cross v n = mkV 0 0 0 -> dot u v * dot n n = 0).
    { intros v V. transitivity (dot u n * dot v n + dot (cross u n) (cross v n)); [unfold dot, cross; cbn [vx vy vz]; ring|]. rewrite V, UN. unfold dot; cbn [vx vy vz]; ring. }
    destruct (Rmult_integral _ _ (E s SN)) as [H|H]; [exact H|]. exfalso. apply N0. destruct n as [x y z]. unfold dot in H; cbn [vx vy vz] in H.
    assert (x = 0) by nra. assert (y = 0) by nra. assert (z = 0) by nra. congruence.
  - assert (E : forall v, cross v n = mkV 0 0 0 -> dot u v * dot n n = 0).
    { intros v V. transitivity (dot u n * dot v n + dot (cross u n) (cross v n)); [unfold dot, cross; cbn [vx vy vz]; ring|]. rewrite V, UN. unfold dot; cbn [vx vy vz]; ring. }
    destruct (Rmult_integral _ _ (E t TN)) as [H|H]; [exact H|]. exfalso. apply N0. destruct n as [x y z]. unfold dot in H; cbn [vx vy vz] in H.
    assert (x = 0) by nra. assert (y = 0) by nra. assert (z = 0) by nra. congruence.
Qed.
