(* Proofs about MapTexModel.v. *)
From Coq Require Import Reals List Lra Lia Psatz.
Import ListNotations.
From Verif Require Import MapTexModel.
Open Scope R_scope.

Lemma vec_ext : forall a b, vx a = vx b -> vy a = vy b -> vz a = vz b -> a = b.
Proof. intros [a1 a2 a3] [b1 b2 b3]; cbn; congruence. Qed.
Lemma dot_pos : forall v, 0 <= dot v v.
Proof. intros [x y z]. unfold dot. cbn. nra. Qed.
Lemma dot_zero : forall v, dot v v = 0 -> v = mkV 0 0 0.
Proof. intros [x y z]. unfold dot. cbn. intro H. assert (x = 0 /\ y = 0 /\ z = 0) as (-> & -> & ->) by (repeat split; nra). reflexivity. Qed.
Lemma len_zero : forall v, len v = 0 <-> v = mkV 0 0 0.
Proof.
  intro v. unfold len. split.
  - intro H. apply dot_zero. apply sqrt_eq_0; [apply dot_pos|exact H].
  - intros ->. unfold dot. cbn. replace (0 * 0 + 0 * 0 + 0 * 0) with 0 by ring. apply sqrt_0.
Qed.
Lemma back_row : forall v, v <> mkV 0 0 0 -> vdiv (normalize v) (inv_len v) = v /\ inv_len v <> 0.
Proof.
  intros v NZ. assert (L : len v <> 0) by (rewrite len_zero; exact NZ). unfold normalize, inv_len. destruct (Req_EM_T (len v) 0); [contradiction|]. split.
  - apply vec_ext; cbn; field; exact L.
  - apply Rgt_not_eq. unfold Rdiv. rewrite Rmult_1_l. apply Rinv_0_lt_compat. assert (0 <= len v) by apply sqrt_pos. lra.
Qed.
Lemma valve_back : forall t, rv (row0 t) <> mkV 0 0 0 -> rv (row1 t) <> mkV 0 0 0 -> set_valve (to_valve t) = Some t.
Proof.
  intros t N0 N1. destruct (back_row _ N0) as (B0 & K0). destruct (back_row _ N1) as (B1 & K1). unfold set_valve, to_valve. cbn [va_k0 va_k1 va_a0 va_a1 va_s0 va_s1].
  destruct (Req_EM_T (inv_len (rv (row0 t))) 0); [contradiction|]. destruct (Req_EM_T (inv_len (rv (row1 t))) 0); [contradiction|]. rewrite B0, B1.
  destruct t as [[v0 o0] [v1 o1]]. reflexivity.
Qed.
Lemma valve_unit : forall t, rv (row0 t) <> mkV 0 0 0 -> rv (row1 t) <> mkV 0 0 0 -> dot (va_a0 (to_valve t)) (va_a0 (to_valve t)) = 1 /\ dot (va_a1 (to_valve t)) (va_a1 (to_valve t)) = 1.
Proof.
  assert (G : forall v, v <> mkV 0 0 0 -> dot (normalize v) (normalize v) = 1).
  { intros v NZ. assert (L : len v <> 0) by (rewrite len_zero; exact NZ). unfold normalize. destruct (Req_EM_T (len v) 0); [contradiction|].
    unfold vdiv. unfold dot at 1. cbn. replace (vx v / len v * (vx v / len v) + vy v / len v * (vy v / len v) + vz v / len v * (vz v / len v)) with (dot v v / (len v * len v)) by (unfold dot; field; exact L).
    unfold len in *. rewrite sqrt_sqrt by apply dot_pos. field. intro E. apply L. rewrite E. apply sqrt_0. }
  intros t N0 N1. split; apply G; assumption.
Qed.

(** ** Axes *)
Lemma scale_nz : forall k, scale_or_1 k <> 0.
Proof. intro k. unfold scale_or_1. destruct (Req_EM_T k 0); lra. Qed.
Lemma in_axes_dot : forall a s t s2 t2, dot (in_axes a s t) (in_axes a s2 t2) = s * s2 + t * t2.
Proof. intros a s t s2 t2. unfold in_axes. destruct a as [|[|[|[|a]]]]; cbn; unfold dot; cbn; ring. Qed.
Lemma in_axes_point : forall a s t p, dot (in_axes a s t) p = s * fst (proj a p) + t * snd (proj a p).
Proof. intros a s t p. unfold in_axes, proj. destruct a as [|[|[|[|a]]]]; cbn; unfold dot; cbn; ring. Qed.
Lemma in_axes_div : forall a s t k, vdiv (in_axes a s t) k = in_axes a (s / k) (t / k).
Proof. intros a s t k. unfold in_axes. destruct a as [|[|[|[|a]]]]; cbn; unfold vdiv; cbn; f_equal; unfold Rdiv; ring. Qed.
Lemma in_axes_zero : forall a s t, in_axes a s t = mkV 0 0 0 -> s = 0 /\ t = 0.
Proof. intros a s t H. unfold in_axes in H. destruct a as [|[|[|[|a]]]]; cbn in H; injection H; auto. Qed.
(** The rows of a quaked projection. *)
Lemma quaked_rows : forall n q, let a := axis_of n in
  set_quaked n q = mkTV (mkRow (in_axes a (q_cos q / scale_or_1 (q_k0 q)) (q_sin q / scale_or_1 (q_k0 q))) (q_s0 q))
                        (mkRow (in_axes a (q_sin q / scale_or_1 (q_k1 q)) (- q_cos q / scale_or_1 (q_k1 q))) (q_s1 q)).
Proof.
  intros n q a. unfold set_quaked. fold a. rewrite !in_axes_div. repeat f_equal; ring.
Qed.
Lemma div_zero : forall x k, k <> 0 -> x / k = 0 -> x = 0.
Proof. intros x k K E. replace x with (x / k * k) by (field; exact K). rewrite E. ring. Qed.
Lemma quaked_nz : forall n q, q_cos q * q_cos q + q_sin q * q_sin q = 1 -> rv (row0 (set_quaked n q)) <> mkV 0 0 0 /\ rv (row1 (set_quaked n q)) <> mkV 0 0 0.
Proof.
  intros n q U. rewrite quaked_rows. cbn [row0 row1 rv]. split; intro E; apply in_axes_zero in E; destruct E as (E1 & E2); apply div_zero in E1; try apply scale_nz; apply div_zero in E2; try apply scale_nz; nra.
Qed.
Lemma best_axis_spec : forall n l i best arg pre, length pre = i -> (best = dot n (nth arg (pre ++ l) (mkV 0 0 0)) \/ (best = 0 /\ arg = 0%nat)) -> (arg <= i)%nat ->
  (forall a, In a pre -> dot n a <= best) ->
  let r := best_axis n l i best arg in
  exists b, best <= b /\ (b = dot n (nth r (pre ++ l) (mkV 0 0 0)) \/ (b = 0 /\ r = 0%nat)) /\ forall a, In a (pre ++ l) -> dot n a <= b.
Proof.
  intros n l. induction l as [|x l IH]; intros i best arg pre L B A P; cbn [best_axis].
  - exists best. split; [lra|]. split; [exact B|]. intros a I. rewrite app_nil_r in I. apply P. exact I.
  - assert (E : pre ++ x :: l = (pre ++ [x]) ++ l) by (rewrite <- app_assoc; reflexivity). destruct (Rlt_dec best (dot n x)) as [H|H].
    + destruct (IH (S i) (dot n x) i (pre ++ [x])) as (b & B1 & B2 & B3).
      * rewrite app_length. cbn. lia.
      * left. rewrite <- E. rewrite app_nth2 by lia. rewrite L, Nat.sub_diag. reflexivity.
      * lia.
      * intros a I. apply in_app_or in I. destruct I as [I|[<-|[]]]; [specialize (P a I); lra|lra].
      * exists b. rewrite E. split; [lra|]. split; [exact B2|exact B3].
    + destruct (IH (S i) best arg (pre ++ [x])) as (b & B1 & B2 & B3).
      * rewrite app_length. cbn. lia.
      * rewrite <- E. exact B.
      * lia.
      * intros a I. apply in_app_or in I. destruct I as [I|[<-|[]]]; [exact (P a I)|lra].
      * exists b. rewrite E. split; [exact B1|]. split; [exact B2|exact B3].
Qed.
Lemma axis_max : forall n, n <> mkV 0 0 0 -> forall a, In a axes -> dot n a <= dot n (nth (axis_of n) axes (mkV 0 0 0)).
Proof.
  intros n NZ. destruct (best_axis_spec n axes 0 0 0 [] eq_refl) as (b & B1 & B2 & B3); [right; auto|lia|intros a []|]. fold (axis_of n) in B2. cbn [app] in *.
  destruct B2 as [-> | (-> & _)]; [exact B3|]. exfalso. apply NZ.
  pose proof (B3 (mkV 0 0 1)) as H1. pose proof (B3 (mkV 0 0 (-1))) as H2. pose proof (B3 (mkV 1 0 0)) as H3. pose proof (B3 (mkV (-1) 0 0)) as H4. pose proof (B3 (mkV 0 1 0)) as H5. pose proof (B3 (mkV 0 (-1) 0)) as H6.
  unfold dot in *. destruct n as [x y z]. cbn [vx vy vz axes In] in *. f_equal.
  - specialize (H3 ltac:(tauto)). specialize (H4 ltac:(tauto)). lra.
  - specialize (H5 ltac:(tauto)). specialize (H6 ltac:(tauto)). lra.
  - specialize (H1 ltac:(tauto)). specialize (H2 ltac:(tauto)). lra.
Qed.

(** ** QuArK projections *)
Lemma etp_spec : forall p0 p1 p2 tx2, let v0 := vsub (if tx2 : bool then p1 else p2) p0 in let v1 := vsub (if tx2 then p2 else p1) p0 in
  ZERO_EPSILON <= Rabs ((dot v0 v0 * dot v1 v1 - dot v0 v1 * dot v0 v1) / (128 * 128 * 128 * 128)) ->
  let t := set_etp p0 p1 p2 tx2 in
  coord (row0 t) p0 = 0 /\ coord (row1 t) p0 = 0 /\
  coord (row0 t) (if tx2 then p1 else p2) = 128 /\ coord (row1 t) (if tx2 then p1 else p2) = 0 /\
  coord (row0 t) (if tx2 then p2 else p1) = 0 /\ coord (row1 t) (if tx2 then p2 else p1) = -128.
Proof.
  intros p0 p1 p2 tx2 v0 v1 H t.
  set (P := if tx2 then p1 else p2) in *. set (Q := if tx2 then p2 else p1) in *.
  assert (T : t = set_etp p0 Q P false) by (unfold t, P, Q; destruct tx2; reflexivity). rewrite T. clear T t.
  clearbody P Q. clear p1 p2 tx2. unfold set_etp.
  set (w0 := vscale (1 / 128) (vsub P p0)). set (w1 := vscale (1 / 128) (vsub Q p0)).
  assert (D : dot w0 w0 * dot w1 w1 - dot w0 w1 * dot w0 w1 = (dot v0 v0 * dot v1 v1 - dot v0 v1 * dot v0 v1) / (128 * 128 * 128 * 128)).
  { unfold w0, w1, v0, v1, dot, vscale, vsub. cbn. field. }
  set (a := dot w0 w0) in *. set (b := dot w0 w1) in *. set (d := dot w1 w1) in *. set (det := a * d - b * b) in *. rewrite <- D in H.
  destruct (Rlt_dec (Rabs det) ZERO_EPSILON) as [X|_]; [lra|].
  assert (NZ : det <> 0). { intro E. rewrite E, Rabs_R0 in H. unfold ZERO_EPSILON in H. lra. }
  set (r0 := vdiv (vsub (vscale d w0) (vscale b w1)) det). set (r1 := vdiv (vscale (-1) (vsub (vscale a w1) (vscale b w0))) det).
  cbn [row0 row1]. unfold coord. cbn [rv ro].
  assert (E00 : dot r0 w0 = 1). { replace (dot r0 w0) with ((d * a - b * b) / det); [unfold det; field; exact NZ|]. unfold r0, a, b, d, dot, vdiv, vsub, vscale. cbn. field. exact NZ. }
  assert (E01 : dot r0 w1 = 0). { replace (dot r0 w1) with ((d * b - b * d) / det); [field; exact NZ|]. unfold r0, a, b, d, dot, vdiv, vsub, vscale. cbn. field. exact NZ. }
  assert (E10 : dot r1 w0 = 0). { replace (dot r1 w0) with (- (a * b - b * a) / det); [field; exact NZ|]. unfold r1, a, b, d, dot, vdiv, vsub, vscale. cbn. field. exact NZ. }
  assert (E11 : dot r1 w1 = -1). { replace (dot r1 w1) with (- (a * d - b * b) / det); [unfold det; field; exact NZ|]. unfold r1, a, b, d, dot, vdiv, vsub, vscale. cbn. field. exact NZ. }
  clearbody r0 r1.
  assert (L0 : forall r, dot r P + - dot r p0 = 128 * dot r w0) by (intro r; unfold w0, dot, vscale, vsub; cbn; field).
  assert (L1 : forall r, dot r Q + - dot r p0 = 128 * dot r w1) by (intro r; unfold w1, dot, vscale, vsub; cbn; field).
  rewrite !L0, !L1, E00, E01, E10, E11. repeat split; ring.
Qed.
Lemma coord_nz : forall r p p2, coord r p <> coord r p2 -> rv r <> mkV 0 0 0.
Proof. intros [v o] p p2 H E. cbn in E. subst v. apply H. unfold coord, dot. cbn. ring. Qed.

(** ** Conversion to quaked *)
Definition sg (k : R) : R := if Rlt_dec k 0 then -1 else 1.
Lemma sg_abs : forall k, sg k * Rabs k = k.
Proof. intro k. unfold sg. destruct (Rlt_dec k 0); [rewrite Rabs_left by lra|rewrite Rabs_right by lra]; ring. Qed.
Lemma sg_sq : forall k, sg k * sg k = 1.
Proof. intro k. unfold sg. destruct (Rlt_dec k 0); ring. Qed.
Lemma sqrt_unit : forall c s k, c * c + s * s = 1 -> k <> 0 -> sqrt (c / k * (c / k) + s / k * (s / k)) = / Rabs k.
Proof.
  intros c s k U K. replace (c / k * (c / k) + s / k * (s / k)) with ((/ k) * (/ k)) by (replace (/ k * / k) with ((c * c + s * s) * (/ k * / k)) by (rewrite U; ring); field; exact K).
  change (/ k * / k) with (Rsqr (/ k)). rewrite sqrt_Rsqr_abs. apply Rabs_inv.
Qed.
Definition tex_mat (c s k0 k1 : R) : mat := mkM (c / k0) (s / k0) (s / k1) (- c / k1).
Section Guess.
Context (c s k0 k1 : R) (U : c * c + s * s = 1) (K0 : k0 <> 0) (K1 : k1 <> 0).
Let m := tex_mat c s k0 k1.
Lemma abs_x : sqrt (dot2 (m00 m) (m01 m) (m00 m) (m01 m)) = / Rabs k0.
Proof. unfold m, tex_mat, dot2. cbn. apply sqrt_unit; assumption. Qed.
Lemma abs_y : sqrt (dot2 (m10 m) (m11 m) (m10 m) (m11 m)) = / Rabs k1.
Proof. unfold m, tex_mat, dot2. cbn. apply sqrt_unit; [|assumption]. rewrite <- U. ring. Qed.
Lemma unshear_id : unshear m = m.
Proof.
  unfold unshear. destruct (Req_EM_T _ 0); [reflexivity|]. destruct (Req_EM_T _ 0); [reflexivity|].
  replace (dot2 (m00 m) (m01 m) (m10 m) (m11 m)) with 0 by (unfold m, tex_mat, dot2; cbn; field; split; assumption).
  match goal with |- (if Rlt_dec _ (Rabs (0 / ?z)) then _ else _) = _ => replace (0 / z) with 0 by (unfold Rdiv; ring) end.
  rewrite Rabs_R0. destruct (Rlt_dec (1 / 1000) 0); [lra|reflexivity].
Qed.
Lemma rows_nz : dot2 (m00 m) (m01 m) (m00 m) (m01 m) <> 0 /\ dot2 (m10 m) (m11 m) (m10 m) (m11 m) <> 0.
Proof.
  split; intro E; [pose proof abs_x as X|pose proof abs_y as X]; rewrite E, sqrt_0 in X; symmetry in X; revert X; apply Rinv_neq_0_compat; apply Rabs_no_R0; assumption.
Qed.
Definition guessed (gx gy : R) : quaked := mkQ 0 0 (gx * sg k0 * c) (gy * sg k1 * s) (gx * Rabs k0) (gy * Rabs k1).
Lemma guess_parts : forall gx gy, gx * gx = 1 -> gy * gy = 1 ->
  guess m gx gy = if Rlt_dec (Rabs (s / k0 - gx * gy * (sg k0 * sg k1) * (s / k0))) (1 / 1000)
                  then if Rlt_dec (Rabs (c / k1 - gx * gy * (sg k0 * sg k1) * (c / k1))) (1 / 1000) then Some (guessed gx gy) else None else None.
Proof.
  intros gx gy GX GY. unfold guess. rewrite abs_x, abs_y.
  assert (A0 : Rabs k0 <> 0) by (apply Rabs_no_R0; assumption). assert (A1 : Rabs k1 <> 0) by (apply Rabs_no_R0; assumption).
  assert (S0 : / k0 = sg k0 * / Rabs k0). { rewrite <- (sg_abs k0) at 1. unfold sg. destruct (Rlt_dec k0 0); field; exact A0. }
  assert (S1 : / k1 = sg k1 * / Rabs k1). { rewrite <- (sg_abs k1) at 1. unfold sg. destruct (Rlt_dec k1 0); field; exact A1. }
  assert (Q0 := sg_sq k0). assert (Q1 := sg_sq k1).
  assert (C0 : gx * (m00 m / / Rabs k0) = gx * sg k0 * c). { unfold m, tex_mat. cbn. unfold Rdiv. rewrite S0. field. exact A0. }
  assert (S00 : gy * (m10 m / / Rabs k1) = gy * sg k1 * s). { unfold m, tex_mat. cbn. unfold Rdiv. rewrite S1. field. exact A1. }
  rewrite C0, S00.
  assert (L : sqrt (gx * sg k0 * c * (gx * sg k0 * c) + gy * sg k1 * s * (gy * sg k1 * s)) = 1).
  { replace (gx * sg k0 * c * (gx * sg k0 * c) + gy * sg k1 * s * (gy * sg k1 * s)) with ((gx * gx) * (sg k0 * sg k0) * (c * c) + (gy * gy) * (sg k1 * sg k1) * (s * s)) by ring.
    rewrite GX, GY, Q0, Q1. replace (1 * 1 * (c * c) + 1 * 1 * (s * s)) with 1 by lra. apply sqrt_1. }
  rewrite L. cbn [m00 m01 m10 m11]. unfold m, tex_mat. cbn [m00 m01 m10 m11].
  replace (c / k0 - gx * / Rabs k0 * (gx * sg k0 * c / 1)) with 0 by (unfold Rdiv; rewrite S0, Rinv_1; replace (gx * / Rabs k0 * (gx * sg k0 * c * 1)) with ((gx * gx) * (c * (sg k0 * / Rabs k0))) by ring; rewrite GX; ring).
  replace (s / k1 - gy * / Rabs k1 * (gy * sg k1 * s / 1)) with 0 by (unfold Rdiv; rewrite S1, Rinv_1; replace (gy * / Rabs k1 * (gy * sg k1 * s * 1)) with ((gy * gy) * (s * (sg k1 * / Rabs k1))) by ring; rewrite GY; ring).
  rewrite Rabs_R0. destruct (Rlt_dec 0 (1 / 1000)); [|lra].
  replace (gx * / Rabs k0 * (gy * sg k1 * s / 1)) with (gx * gy * (sg k0 * sg k1) * (s / k0)) by (unfold Rdiv; rewrite S0, Rinv_1; replace (gx * gy * (sg k0 * sg k1) * (s * (sg k0 * / Rabs k0))) with (gx * gy * ((sg k0 * sg k0) * sg k1) * (s * / Rabs k0)) by ring; rewrite Q0; ring).
  replace (Rabs (- c / k1 - - (gy * / Rabs k1 * (gx * sg k0 * c / 1)))) with (Rabs (c / k1 - gx * gy * (sg k0 * sg k1) * (c / k1))).
  2:{ rewrite <- Rabs_Ropp. f_equal. unfold Rdiv. rewrite S1, Rinv_1. replace (gx * gy * (sg k0 * sg k1) * (c * (sg k1 * / Rabs k1))) with (gx * gy * (sg k0 * (sg k1 * sg k1)) * (c * / Rabs k1)) by ring. rewrite Q1. ring. }
  destruct (Rlt_dec _ _); [|reflexivity]. destruct (Rlt_dec _ _); [|reflexivity]. unfold guessed. f_equal. f_equal; unfold Rdiv; rewrite ?Rinv_1, ?Rinv_inv; ring.
Qed.
Lemma sgn_cases : sg k0 * sg k1 = 1 \/ sg k0 * sg k1 = -1.
Proof. unfold sg. destruct (Rlt_dec k0 0), (Rlt_dec k1 0); [left|right|right|left]; ring. Qed.
Lemma reverse_tex : (sg k0 * sg k1 = 1 \/ 1 / 2000 <= Rabs (s / k0) \/ 1 / 2000 <= Rabs (c / k1)) ->
  reverse m = guessed (-1) (sg k0 * sg k1 * -1).
Proof.
  intro H. unfold reverse. rewrite unshear_id. destruct rows_nz as (N0 & N1). destruct (Req_EM_T _ 0); [contradiction|]. destruct (Req_EM_T _ 0); [contradiction|].
  rewrite guess_parts by ring. destruct sgn_cases as [E|E]; rewrite E.
  - replace (s / k0 - -1 * -1 * 1 * (s / k0)) with 0 by ring. replace (c / k1 - -1 * -1 * 1 * (c / k1)) with 0 by ring. rewrite Rabs_R0.
    destruct (Rlt_dec 0 (1 / 1000)); [|lra]. f_equal. ring.
  - assert (D : forall x, 1 / 2000 <= Rabs x -> ~ Rabs (x - -1 * -1 * -1 * x) < 1 / 1000).
    { intros x X. replace (x - -1 * -1 * -1 * x) with (2 * x) by ring. rewrite Rabs_mult, (Rabs_right 2) by lra. lra. }
    replace (match (if Rlt_dec (Rabs (s / k0 - -1 * -1 * -1 * (s / k0))) (1 / 1000) then if Rlt_dec (Rabs (c / k1 - -1 * -1 * -1 * (c / k1))) (1 / 1000) then Some (guessed (-1) (-1)) else None else None) with Some q => q | None => _ end)
      with (match guess m (-1) 1 with Some q => q | None => match guess m 1 (-1) with Some q => q | None => match guess m 1 1 with Some q => q | None => mkQ 0 0 1 0 0 0 end end end).
    2:{ destruct H as [H|[H|H]]; [lra| |]; apply D in H; destruct (Rlt_dec _ _) as [X|X]; try reflexivity; try contradiction; destruct (Rlt_dec _ _) as [Y|Y]; [contradiction|reflexivity]. }
    rewrite guess_parts by ring. rewrite E.
    replace (s / k0 - -1 * 1 * -1 * (s / k0)) with 0 by ring. replace (c / k1 - -1 * 1 * -1 * (c / k1)) with 0 by ring. rewrite Rabs_R0.
    destruct (Rlt_dec 0 (1 / 1000)); [|lra]. f_equal. ring.
Qed.
End Guess.
Lemma proj_sub : forall a p q, proj a (vsub p q) = (fst (proj a p) - fst (proj a q), snd (proj a p) - snd (proj a q)).
Proof. intros a p q. unfold proj. destruct a as [|[|[|[|a]]]]; reflexivity. Qed.
Lemma proj_ext : forall a b p, st_axes a = st_axes b -> proj a p = proj b p.
Proof. intros a b p E. unfold proj. rewrite E. reflexivity. Qed.
Lemma in_axes_ext : forall a b s t, st_axes a = st_axes b -> in_axes a s t = in_axes b s t.
Proof. intros a b s t E. unfold in_axes. rewrite E. reflexivity. Qed.
(** The plane points seen along the axis are not on a line. *)
Definition spread (a : nat) (p0 p1 p2 : vec) : Prop :=
  let '(x1, y1) := proj a (vsub p1 p0) in let '(x2, y2) := proj a (vsub p2 p0) in x1 * y2 - y1 * x2 <> 0.
Lemma plane_matrix_tex : forall n q p0 p1 p2, spread (axis_of n) p0 p1 p2 ->
  plane_matrix (axis_of n) (set_quaked n q) p0 p1 p2 = Some (tex_mat (q_cos q) (q_sin q) (scale_or_1 (q_k0 q)) (scale_or_1 (q_k1 q))).
Proof.
  intros n q p0 p1 p2 SP. rewrite quaked_rows. unfold plane_matrix, spread, coord in *. cbn [row0 row1 rv ro]. rewrite !in_axes_point. rewrite !proj_sub in *.
  destruct (proj (axis_of n) p0) as (x0 & y0), (proj (axis_of n) p1) as (x1 & y1), (proj (axis_of n) p2) as (x2 & y2). cbn [fst snd] in *.
  destruct (Req_EM_T _ 0); [contradiction|]. unfold tex_mat. pose proof (scale_nz (q_k0 q)). pose proof (scale_nz (q_k1 q)). f_equal. f_equal; field; auto.
Qed.
Lemma to_quaked_back : forall junk n q p0 p1 p2, q_cos q * q_cos q + q_sin q * q_sin q = 1 -> spread (axis_of n) p0 p1 p2 -> st_axes (axis_of junk) = st_axes (axis_of n) ->
  (0 < scale_or_1 (q_k0 q) * scale_or_1 (q_k1 q) \/ 1 / 2000 <= Rabs (q_sin q / scale_or_1 (q_k0 q)) \/ 1 / 2000 <= Rabs (q_cos q / scale_or_1 (q_k1 q))) ->
  exists q2, to_quaked junk n (set_quaked n q) p0 p1 p2 = Some q2 /\ set_quaked n q2 = set_quaked n q.
Proof.
  intros junk n q p0 p1 p2 U SP J H. unfold to_quaked. rewrite plane_matrix_tex by exact SP.
  pose proof (scale_nz (q_k0 q)) as K0. pose proof (scale_nz (q_k1 q)) as K1. set (k0 := scale_or_1 (q_k0 q)) in *. set (k1 := scale_or_1 (q_k1 q)) in *.
  assert (HS : sg k0 * sg k1 = 1 \/ 1 / 2000 <= Rabs (q_sin q / k0) \/ 1 / 2000 <= Rabs (q_cos q / k1)).
  { destruct H as [H|H]; [left|right; exact H]. unfold sg. destruct (Rlt_dec k0 0), (Rlt_dec k1 0); try ring; exfalso; nra. }
  rewrite (reverse_tex (q_cos q) (q_sin q) k0 k1 U K0 K1 HS). eexists. split; [reflexivity|].
  assert (A0 : Rabs k0 <> 0) by (apply Rabs_no_R0; assumption). assert (A1 : Rabs k1 <> 0) by (apply Rabs_no_R0; assumption).
  set (g := guessed (q_cos q) (q_sin q) k0 k1 (-1) (sg k0 * sg k1 * -1)).
  assert (E0 : q_k0 g = - Rabs k0) by (unfold g; cbn; ring). assert (E1 : q_k1 g = - (sg k0 * sg k1) * Rabs k1) by (unfold g; cbn; ring).
  assert (S2 : sg k0 * sg k1 <> 0) by (destruct (sgn_cases k0 k1) as [E|E]; rewrite E; lra).
  assert (F0 : scale_or_1 (q_k0 g) = - Rabs k0) by (rewrite E0; unfold scale_or_1; destruct (Req_EM_T (- Rabs k0) 0); [exfalso; lra|reflexivity]).
  assert (F1 : scale_or_1 (q_k1 g) = - (sg k0 * sg k1) * Rabs k1).
  { rewrite E1. unfold scale_or_1. destruct (Req_EM_T _ 0) as [X|]; [|reflexivity]. exfalso. apply Rmult_integral in X. destruct X; [lra|contradiction]. }
  assert (SA : forall k, (sg k = -1 /\ Rabs k = - k) \/ (sg k = 1 /\ Rabs k = k)).
  { intro k. unfold sg. destruct (Rlt_dec k 0); [left; split; [reflexivity|apply Rabs_left; lra]|right; split; [reflexivity|apply Rabs_right; lra]]. }
  assert (R0 : q_cos g / scale_or_1 (q_k0 g) = q_cos q / k0).
  { rewrite F0. unfold g. cbn [guessed q_cos]. destruct (SA k0) as [(-> & ->)|(-> & ->)]; field; exact K0. }
  assert (R1 : q_sin g / scale_or_1 (q_k0 g) = q_sin q / k0).
  { rewrite F0. unfold g. cbn [guessed q_sin]. destruct (SA k0) as [(-> & ->)|(-> & ->)], (SA k1) as [(-> & _)|(-> & _)]; field; exact K0. }
  assert (R2 : q_sin g / scale_or_1 (q_k1 g) = q_sin q / k1).
  { rewrite F1. unfold g. cbn [guessed q_sin]. destruct (SA k0) as [(-> & _)|(-> & _)], (SA k1) as [(-> & ->)|(-> & ->)]; field; exact K1. }
  assert (R3 : - q_cos g / scale_or_1 (q_k1 g) = - q_cos q / k1).
  { rewrite F1. unfold g. cbn [guessed q_cos]. destruct (SA k0) as [(-> & _)|(-> & _)], (SA k1) as [(-> & ->)|(-> & ->)]; field; exact K1. }
  rewrite !quaked_rows. cbn [q_cos q_sin q_k0 q_k1 q_s0 q_s1 row0 row1]. fold k0 k1. rewrite R0, R1, R2, R3. unfold coord. cbn [rv ro].
  rewrite (in_axes_ext _ _ _ _ J), (in_axes_ext (axis_of junk) (axis_of n) _ _ J). unfold g, guessed. cbn [q_s0 q_s1]. f_equal; f_equal; ring.
Qed.
