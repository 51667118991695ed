(* Statements: conversions of texture projections by maputil (C109). *)
From Coq Require Import Reals List Lra Lia Psatz.
Import ListNotations.
From Verif Require Import MapTexModel MapTexProofs.
Open Scope R_scope.

(** Projections of quaked sides: the axis is the one closest to the normal, both vectors lie in its plane, are
    perpendicular, and have the inverse scale as length. *)
Theorem C109_shape : forall n q, q_cos q * q_cos q + q_sin q * q_sin q = 1 ->
  let t := set_quaked n q in let a := nth (axis_of n) axes (mkV 0 0 0) in
  (n <> mkV 0 0 0 -> forall b, In b axes -> dot n b <= dot n a) /\
  dot (rv (row0 t)) (rv (row1 t)) = 0 /\
  (q_k0 q <> 0 -> dot (rv (row0 t)) (rv (row0 t)) * (q_k0 q * q_k0 q) = 1) /\
  (q_k1 q <> 0 -> dot (rv (row1 t)) (rv (row1 t)) * (q_k1 q * q_k1 q) = 1) /\
  (n <> mkV 0 0 0 -> dot (rv (row0 t)) a = 0 /\ dot (rv (row1 t)) a = 0).
Proof.
  intros n q U t a. unfold t. rewrite quaked_rows. cbn [row0 row1 rv]. rewrite !in_axes_dot. pose proof (scale_nz (q_k0 q)) as K0. pose proof (scale_nz (q_k1 q)) as K1.
  split; [intro NZ; apply axis_max; exact NZ|]. split; [field; auto|].
  split; [|split].
  - intro Z. unfold scale_or_1. destruct (Req_EM_T (q_k0 q) 0); [contradiction|]. rewrite <- U. field. exact Z.
  - intro Z. unfold scale_or_1. destruct (Req_EM_T (q_k1 q) 0); [contradiction|]. rewrite <- U. field. exact Z.
  - intro NZ. unfold a. rewrite !in_axes_point.
    assert (P : fst (proj (axis_of n) (nth (axis_of n) axes (mkV 0 0 0))) = 0 /\ snd (proj (axis_of n) (nth (axis_of n) axes (mkV 0 0 0))) = 0).
    { destruct (axis_of n) as [|[|[|[|[|[|k]]]]]]; cbn; split; try reflexivity; destruct k; reflexivity. }
    destruct P as (-> & ->). split; ring.
Qed.
Print Assumptions C109_shape.

(** Conversion to Valve 220 keeps every projection whose vectors are not zero, with axes of length 1; those of quaked
    sides never are zero. *)
Theorem C109_valve : forall t, rv (row0 t) <> mkV 0 0 0 -> rv (row1 t) <> mkV 0 0 0 ->
  set_valve (to_valve t) = Some t /\ dot (va_a0 (to_valve t)) (va_a0 (to_valve t)) = 1 /\ dot (va_a1 (to_valve t)) (va_a1 (to_valve t)) = 1.
Proof. intros t N0 N1. split; [apply valve_back; assumption|apply valve_unit; assumption]. Qed.
Print Assumptions C109_valve.
Theorem C109_quaked_valve : forall n q, q_cos q * q_cos q + q_sin q * q_sin q = 1 -> set_valve (to_valve (set_quaked n q)) = Some (set_quaked n q).
Proof. intros n q U. destruct (quaked_nz n q U). apply valve_back; assumption. Qed.
Print Assumptions C109_quaked_valve.

(** QuArK sides: the three plane points are at (0, 0), (128, 0) and (0, -128) of the texture, unless they are nearly on
    a line; conversion to Valve 220 keeps this. *)
Theorem C109_etp : forall p0 p1 p2 (tx2 : bool), let s := if tx2 then p1 else p2 in let t := if tx2 then p2 else p1 in
  let u := vsub s p0 in let v := vsub t p0 in
  1 / 10000 <= Rabs ((dot u u * dot v v - dot u v * dot u v) / (128 * 128 * 128 * 128)) ->
  let x := set_etp p0 p1 p2 tx2 in
  (coord (row0 x) p0 = 0 /\ coord (row1 x) p0 = 0) /\ (coord (row0 x) s = 128 /\ coord (row1 x) s = 0) /\ (coord (row0 x) t = 0 /\ coord (row1 x) t = -128) /\
  set_valve (to_valve x) = Some x.
Proof.
  intros p0 p1 p2 tx2 s t u v H x. destruct (etp_spec p0 p1 p2 tx2 H) as (A & B & C & D & E & F). fold s in C, D. fold t in E, F. fold x in A, B, C, D, E, F.
  split; [auto|]. split; [auto|]. split; [auto|]. apply valve_back.
  - apply (coord_nz _ p0 s). rewrite A, C. lra.
  - apply (coord_nz _ p0 t). rewrite B, F. lra.
Qed.
Print Assumptions C109_etp.

(** A degenerate QuArK side becomes a Valve side with scale 0, which has no finite projection. *)
Theorem C109_degenerate_refuted : forall p, set_valve (to_valve (set_etp p p p false)) = None /\ va_k0 (to_valve (set_etp p p p false)) = 0.
Proof.
  intro p. assert (Z : set_etp p p p false = mkTV (mkRow (mkV 0 0 0) (- dot (mkV 0 0 0) p)) (mkRow (mkV 0 0 0) (- dot (mkV 0 0 0) p))).
  { unfold set_etp. destruct (Rlt_dec _ _) as [H|H]; [reflexivity|]. exfalso. apply H.
    match goal with |- Rabs ?x < _ => replace x with 0 by (unfold dot, vscale, vsub; cbn; ring) end. rewrite Rabs_R0. unfold ZERO_EPSILON. lra. }
  rewrite Z. unfold set_valve, to_valve. cbn [row0 row1 rv ro va_k0 va_k1].
  assert (I : inv_len (mkV 0 0 0) = 0). { unfold inv_len. destruct (Req_EM_T _ 0) as [|H]; [reflexivity|]. exfalso. apply H. apply len_zero. reflexivity. }
  rewrite I. destruct (Req_EM_T 0 0); [split; reflexivity|contradiction].
Qed.
Print Assumptions C109_degenerate_refuted.

(** Conversion to quaked of a projection some quaked side has: exact, whichever plane points, if the indeterminate
    normal happens to give the axes of the face, and the side is not mirrored or not scaled by more than 2000. *)
Theorem C109_quaked : forall junk n q p0 p1 p2, q_cos q * q_cos q + q_sin q * q_sin q = 1 -> spread (axis_of n) p0 p1 p2 ->
  st_axes (axis_of junk) = st_axes (axis_of n) ->
  (0 < scale_or_1 (q_k0 q) * scale_or_1 (q_k1 q) \/ 1 / 2000 <= Rabs (q_sin q / scale_or_1 (q_k0 q)) \/ 1 / 2000 <= Rabs (q_cos q / scale_or_1 (q_k1 q))) ->
  exists q2, to_quaked junk n (set_quaked n q) p0 p1 p2 = Some q2 /\ set_quaked n q2 = set_quaked n q.
Proof. exact to_quaked_back. Qed.
Print Assumptions C109_quaked.

Ltac axis := unfold axis_of, axes, best_axis, dot; cbn [vx vy vz]; repeat (destruct (Rlt_dec _ _); try lra); reflexivity.
Definition plain_q (k1 : R) : quaked := mkQ 0 0 1 0 1 k1.
Lemma one_nz : scale_or_1 1 = 1. Proof. unfold scale_or_1. destruct (Req_EM_T 1 0); lra. Qed.

(** If the plane of the local side is zero, every wall whose points are not at the origin gets another shift: here a
    wall at x = 64, whose shift (0, 0) becomes (-54, -10). *)
Theorem C109_wall_refuted :
  let n := mkV 1 0 0 in let t := set_quaked n (plain_q 1) in
  spread (axis_of n) (mkV 64 10 20) (mkV 64 11 20) (mkV 64 10 21) /\
  exists q2, to_quaked (mkV 0 0 0) n t (mkV 64 10 20) (mkV 64 11 20) (mkV 64 10 21) = Some q2 /\ q_s0 q2 = -54 /\ q_s1 q2 = -10 /\ set_quaked n q2 <> t.
Proof.
  intros n t. assert (A : axis_of n = 2%nat) by (unfold n; axis). assert (A0 : axis_of (mkV 0 0 0) = 0%nat) by axis.
  assert (SP : spread (axis_of n) (mkV 64 10 20) (mkV 64 11 20) (mkV 64 10 21)) by (rewrite A; unfold spread; cbn; lra).
  split; [exact SP|]. unfold to_quaked, t. rewrite plane_matrix_tex by exact SP. cbn [plain_q q_cos q_sin q_k0 q_k1]. rewrite one_nz.
  assert (S1 : sg 1 = 1) by (unfold sg; destruct (Rlt_dec 1 0); lra).
  rewrite (reverse_tex 1 0 1 1) by (try lra; left; rewrite S1; ring). unfold guessed. rewrite S1, Rabs_R1. eexists. split; [reflexivity|]. cbn [q_s0 q_s1].
  assert (M : scale_or_1 (1 * 1 * -1 * 1) = -1) by (unfold scale_or_1; destruct (Req_EM_T _ 0); lra).
  assert (M2 : scale_or_1 (-1 * 1) = -1) by (unfold scale_or_1; destruct (Req_EM_T _ 0); lra).
  rewrite !quaked_rows, A, A0. cbn [q_cos q_sin q_k0 q_k1 q_s0 q_s1 row0 row1 plain_q]. rewrite M, M2, one_nz. unfold coord, in_axes, st_axes, dot. cbn [rv ro vx vy vz].
  split; [field|]. split; [field|]. intro E. injection E. intros. lra.
Qed.
Print Assumptions C109_wall_refuted.

(** A mirrored floor that is scaled by -4000 in one direction comes back without the mirroring: the error is smaller
    than the tolerance of the first guess. *)
Theorem C109_mirror_refuted :
  let n := mkV 0 0 1 in let t := set_quaked n (plain_q (-4000)) in
  exists q2, to_quaked n n t (mkV 0 0 0) (mkV 1 0 0) (mkV 0 1 0) = Some q2 /\ vy (rv (row1 t)) = 1 / 4000 /\ vy (rv (row1 (set_quaked n q2))) = - (1 / 4000).
Proof.
  intros n t. assert (A : axis_of n = 0%nat) by (unfold n; axis).
  assert (SP : spread (axis_of n) (mkV 0 0 0) (mkV 1 0 0) (mkV 0 1 0)) by (rewrite A; unfold spread; cbn; lra).
  unfold to_quaked, t. rewrite plane_matrix_tex by exact SP. cbn [plain_q q_cos q_sin q_k0 q_k1]. rewrite one_nz.
  assert (K : scale_or_1 (-4000) = -4000) by (unfold scale_or_1; destruct (Req_EM_T _ 0); lra). rewrite K.
  assert (S1 : sg 1 = 1) by (unfold sg; destruct (Rlt_dec 1 0); lra). assert (S2 : sg (-4000) = -1) by (unfold sg; destruct (Rlt_dec (-4000) 0); lra).
  assert (RV : reverse (tex_mat 1 0 1 (-4000)) = guessed 1 0 1 (-4000) (-1) (-1)).
  { unfold reverse. rewrite unshear_id by lra. destruct (rows_nz 1 0 1 (-4000)) as (N0 & N1); [lra|lra|lra|]. destruct (Req_EM_T _ 0); [contradiction|]. destruct (Req_EM_T _ 0); [contradiction|].
    rewrite guess_parts by lra. rewrite S1, S2. replace (0 / 1 - -1 * -1 * (1 * -1) * (0 / 1)) with 0 by field. rewrite Rabs_R0. destruct (Rlt_dec 0 (1 / 1000)); [|lra].
    replace (1 / -4000 - -1 * -1 * (1 * -1) * (1 / -4000)) with (- (1 / 2000)) by field. rewrite Rabs_Ropp, Rabs_right by lra. destruct (Rlt_dec (1 / 2000) (1 / 1000)); [reflexivity|lra]. }
  rewrite RV. eexists. split; [reflexivity|]. rewrite !quaked_rows, A. unfold guessed. rewrite S1, S2. cbn [q_cos q_sin q_k0 q_k1 q_s0 q_s1 row0 row1 rv ro plain_q].
  rewrite K. assert (AB : Rabs (-4000) = 4000) by (rewrite Rabs_left; lra). rewrite AB. assert (K2 : scale_or_1 (-1 * 4000) = -4000) by (unfold scale_or_1; destruct (Req_EM_T _ 0); lra). rewrite K2.
  unfold in_axes, st_axes. cbn [vy]. split; field.
Qed.
Print Assumptions C109_mirror_refuted.

Example C109_nontrivial : let t := set_quaked (mkV 0 (-1) 0) (mkQ 5 7 (3 / 5) (4 / 5) 2 4) in
  rv (row0 t) = mkV (3 / 10) 0 (4 / 10) /\ rv (row1 t) = mkV (1 / 5) 0 (-3 / 20) /\ set_valve (to_valve t) = Some t.
Proof.
  intro t. assert (A : axis_of (mkV 0 (-1) 0) = 5%nat) by axis. split; [|split].
  - unfold t. rewrite quaked_rows, A. cbn [q_cos q_sin q_k0 q_k1 row0 rv]. unfold scale_or_1. destruct (Req_EM_T 2 0); [lra|]. unfold in_axes, st_axes. f_equal; field.
  - unfold t. rewrite quaked_rows, A. cbn [q_cos q_sin q_k0 q_k1 row1 rv]. unfold scale_or_1. destruct (Req_EM_T 4 0); [lra|]. unfold in_axes, st_axes. f_equal; field.
  - apply C109_quaked_valve. cbn. field.
Qed.
Example C109_quaked_nontrivial : let n := mkV 0 0 1 in spread (axis_of n) (mkV 0 0 0) (mkV 1 0 0) (mkV 0 1 0) /\ st_axes (axis_of (mkV 0 0 0)) = st_axes (axis_of n).
Proof. intro n. assert (A : axis_of n = 0%nat) by (unfold n; axis). assert (A0 : axis_of (mkV 0 0 0) = 0%nat) by axis. rewrite A, A0. split; [unfold spread; cbn; lra|reflexivity]. Qed.
