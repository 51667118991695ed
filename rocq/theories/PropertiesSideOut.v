(* C143: what bsputil --decompile writes for the sides of a brush. *)
From Coq Require Import Reals List ZArith Bool Arith Lra Lia.
From Verif Require Import WindClipModel WindClipProofs DecompModel DecompProofs SideOutModel SideOutProofs.
Import ListNotations.
Open Scope R_scope.

(** The three points written give back the plane, and moved points the moved plane, which qbsp moves back for an origin brush. *)
Theorem C143_plane n d : dot n n = 1 -> points_plane (moved None (three_points (mkPl n d))) = mkPl n d /\
  forall o, points_plane (moved (Some o) (three_points (mkPl n d))) = mkPl n (d + dot n o) /\
    origin_plane o (points_plane (moved (Some o) (three_points (mkPl n d)))) = mkPl n d.
Proof.
  intros U. split; [rewrite (points_back n d None U); f_equal; ring|]. intros o. rewrite (points_back n d (Some o) U). split; [reflexivity|]. unfold origin_plane. cbn [p_n p_d]. f_equal. ring.
Qed.
Print Assumptions C143_plane.

(** A texture vector that is not zero is read back from its axis, scale and shift; the axis has length 1. *)
Theorem C143_texture row : fst row <> mkV 0 0 0 -> read_row (shifted None (valve_of row)) = row /\ dot (v_axis (valve_of row)) (v_axis (valve_of row)) = 1.
Proof.
  destruct row as [v w]. cbn [fst]. intros N. pose proof (len_nonzero v N) as L. destruct (normalize_one v N) as [A B]. unfold read_row, shifted, valve_of. cbn [fst snd v_axis v_scale v_shift].
  destruct (Req_EM_T (len v) 0); [lra|]. split; [|exact A]. rewrite B. f_equal. apply vec_eta; unfold scale; cbn [vx vy vz]; field; lra.
Qed.
Print Assumptions C143_texture.

(** With an offset the shift is off by the scale: qbsp gets back the texture vector with another offset, unless the scale is 1 or the
    offset is across the axis. *)
Theorem C143_shift_refuted v w o : v <> mkV 0 0 0 ->
  origin_row o (read_row (shifted (Some o) (valve_of (v, w)))) = (v, w + dot o v * (1 - / len v)) /\
  (origin_row o (read_row (shifted (Some o) (valve_of (v, w)))) = (v, w) <-> len v = 1 \/ dot o v = 0).
Proof.
  intros N. pose proof (len_nonzero v N) as L. destruct (normalize_one v N) as [_ B].
  assert (E : origin_row o (read_row (shifted (Some o) (valve_of (v, w)))) = (v, w + dot o v * (1 - / len v))).
  { unfold origin_row, read_row, shifted, valve_of. cbn [fst snd v_axis v_scale v_shift]. destruct (Req_EM_T (len v) 0); [lra|]. rewrite B.
    assert (V : scale (/ (1 / len v)) (scale (/ len v) v) = v) by (apply vec_eta; unfold scale; cbn [vx vy vz]; field; lra). rewrite V. f_equal.
    replace (dot o (scale (/ len v) v)) with (/ len v * dot o v) by (unfold dot, scale; cbn [vx vy vz]; ring). ring. }
  split; [exact E|]. rewrite E. split.
  - intros H. injection H as H. assert (Z : dot o v * (1 - / len v) = 0) by lra. apply Rmult_integral in Z. destruct Z as [Z|Z]; [right; exact Z|left].
    assert (I : / len v = 1) by lra. rewrite <- (Rinv_inv (len v)). rewrite I. apply Rinv_1.
  - intros [H|H]; f_equal; rewrite H; [rewrite Rinv_1|]; ring.
Qed.
Print Assumptions C143_shift_refuted.

(** The axes of a side without a texture have length 1 and are at right angles to each other and to the normal. *)
Theorem C143_axes n : dot n n = 1 -> let '(a, b) := default_axes n in
  dot a a = 1 /\ dot b b = 1 /\ dot a n = 0 /\ dot b n = 0 /\ dot a b = 0.
Proof.
  intros U. unfold default_axes. set (v := cross (match major n with 2%nat => mkV 0 1 0 | _ => mkV 0 0 1 end) n).
  pose proof (major_nonzero n ltac:(lra)) as NZ. assert (NV : v <> mkV 0 0 0).
  { unfold v. destruct (major_cases n) as [M|[M|M]]; rewrite M in *; cbn [comp] in NZ; intros E; apply (f_equal (fun q => (vx q, vy q))) in E; unfold cross in E; cbn [vx vy vz] in E; injection E as E1 E2; apply NZ; lra. }
  assert (PV : dot v n = 0) by (unfold v; generalize (match major n with 2%nat => mkV 0 1 0 | _ => mkV 0 0 1 end); intros q; unfold dot, cross; cbn [vx vy vz]; ring).
  destruct (normalize_one v NV) as [A1 A2]. set (a := normalize v) in *. assert (AN : dot a n = 0) by (rewrite A2; replace (dot (scale (/ len v) v) n) with (/ len v * dot v n) by (unfold dot, scale; cbn [vx vy vz]; ring); rewrite PV; ring).
  assert (C1 : dot (cross a n) (cross a n) = 1).
  { transitivity (dot a a * dot n n - dot a n * dot a n); [unfold dot, cross; cbn [vx vy vz]; ring|rewrite A1, U, AN; ring]. }
  assert (B : normalize (cross a n) = cross a n).
  { replace (cross a n) with (scale 1 (cross a n)) at 1 by (apply vec_eta; unfold scale; cbn [vx vy vz]; ring). apply normalize_scaled; [lra|exact C1]. }
  rewrite B. split; [exact A1|]. split; [exact C1|]. split; [exact AN|]. split; unfold dot, cross; cbn [vx vy vz]; ring.
Qed.
Print Assumptions C143_axes.

(** The origin brush is the box of eight units around the offset. *)
Theorem C143_origin o p : (forall pl, In pl origin_planes -> let q := points_plane (moved (Some o) (three_points pl)) in dot p (p_n q) < p_d q) <->
  Rabs (vx p - vx o) < 8 /\ Rabs (vy p - vy o) < 8 /\ Rabs (vz p - vz o) < 8.
Proof.
  assert (E : forall pl, In pl origin_planes -> points_plane (moved (Some o) (three_points pl)) = mkPl (p_n pl) (8 + dot (p_n pl) o)).
  { intros pl I. assert (G : p_d pl = 8 /\ dot (p_n pl) (p_n pl) = 1) by (unfold origin_planes in I; repeat destruct I as [<-|I]; try destruct I; unfold dot; cbn [p_n p_d vx vy vz]; split; ring).
    destruct pl as [n d]. cbn [p_n p_d] in *. destruct G as [-> G]. apply (points_back n 8 (Some o) G). }
  split.
  - intros H. assert (G : forall pl, In pl origin_planes -> dot p (p_n pl) < 8 + dot (p_n pl) o) by (intros pl I; specialize (H pl I); cbv zeta in H; rewrite (E pl I) in H; exact H).
    unfold origin_planes in G. pose proof (G _ (or_introl eq_refl)) as H1. pose proof (G _ (or_intror (or_introl eq_refl))) as H2. pose proof (G _ (or_intror (or_intror (or_introl eq_refl)))) as H3.
    pose proof (G _ (or_intror (or_intror (or_intror (or_introl eq_refl))))) as H4. pose proof (G _ (or_intror (or_intror (or_intror (or_intror (or_introl eq_refl)))))) as H5. pose proof (G _ (or_intror (or_intror (or_intror (or_intror (or_intror (or_introl eq_refl))))))) as H6.
    unfold dot in *. cbn [p_n vx vy vz] in *. repeat split; apply Rabs_def1; lra.
  - intros (X & Y & Z) pl I. cbv zeta. rewrite (E pl I). cbn [p_n p_d]. apply Rabs_def2 in X, Y, Z. unfold origin_planes in I. repeat destruct I as [<-|I]; try destruct I; unfold dot; cbn [p_n vx vy vz]; lra.
Qed.
Print Assumptions C143_origin.

(** Names: sides with a name keep it; if there is one, all others get the name of one of these; if not, all get the default. *)
Theorem C143_names skip dflt sides : map snd (clean_names skip dflt sides) = map snd sides /\
  forall i nm m, nth_error sides i = Some (nm, m) ->
    (nm <> skip -> nth_error (clean_names skip dflt sides) i = Some (nm, m)) /\
    (nm = skip -> exists nm', nth_error (clean_names skip dflt sides) i = Some (nm', m) /\
       ((exists j m', nth_error sides j = Some (nm', m') /\ nm' <> skip) \/ (map fst sides = repeat skip (length sides) /\ nm' = dflt))).
Proof.
  assert (D : (exists j nm m, nth_error sides j = Some (nm, m) /\ nm <> skip) \/ map fst sides = repeat skip (length sides)).
  { induction sides as [|[nm m] l IH]; [right; reflexivity|]. destruct (Z.eq_dec nm skip) as [->|N]; [|left; exists O, nm, m; auto]. destruct IH as [(j & nm & m' & E & N)|IH]; [left; exists (S j), nm, m'; auto|right; cbn [map fst length repeat]; f_equal; exact IH]. }
  assert (ALL : forall P, (forall k nm n s, names_inv skip P sides s k -> nth_error s k = Some (nm, n) -> nm = skip -> P (closest skip dflt k n s)) -> names_inv skip P sides (clean_names skip dflt sides) (length sides)).
  { intros P HP. apply (clean_inv skip dflt P sides HP (length sides) 0 sides (inv_begin skip P sides)). lia. }
  destruct D as [(j0 & nm0 & m0 & E0 & N0)|A].
  - destruct (ALL (fun nm' => exists j m', nth_error sides j = Some (nm', m') /\ nm' <> skip)) as [I1 I2].
    { intros k nm n s [J1 J2] N S. destruct (closest_spec skip dflt k n s) as [(j & nm' & m & NJ & F & NS & -> & _)|[F _]].
      - assert (L : exists q, nth_error sides j = Some q). { assert (j < length sides)%nat. { apply (f_equal (@length vec)) in J1. rewrite !map_length in J1. rewrite <- J1. apply nth_error_Some. congruence. } destruct (nth_error sides j) as [q|] eqn:Q; [exists q; reflexivity|apply nth_error_None in Q; lia]. }
        destruct L as [[nq mq] Q]. destruct (J2 j nq mq Q) as [K1 K2]. destruct (Z.eq_dec nq skip) as [EQ|NQ].
        + destruct (K2 EQ) as (x & X1 & X2 & X3). rewrite F in X1. injection X1 as <- _. destruct (Nat.lt_ge_cases j k) as [LT|GE]; [apply X3; exact LT|exfalso; apply NS; apply X2; exact GE].
        + specialize (K1 NQ). rewrite F in K1. injection K1 as -> ->. exists j, mq. auto.
      - exfalso. apply N0. apply (F j0 nm0 m0); [|apply J2; assumption]. intros ->. destruct (J2 k nm0 m0 E0) as [K _]. specialize (K N0). congruence. }
    split; [exact I1|]. intros i nm m E. destruct (I2 i nm m E) as [K1 K2]. split; [exact K1|]. intros S. destruct (K2 S) as (x & X1 & _ & X3). exists x. split; [exact X1|]. left. apply X3. apply nth_error_Some. congruence.
  - assert (AS : forall i nm m, nth_error sides i = Some (nm, m) -> nm = skip).
    { intros i nm m E. apply (map_nth_error fst) in E. rewrite A in E. cbn [fst] in E. apply nth_error_In in E. apply repeat_spec in E. exact E. }
    destruct (ALL (fun nm' => nm' = dflt)) as [I1 I2].
    { intros k nm n s [J1 J2] N S. destruct (closest_spec skip dflt k n s) as [(j & nm' & m & NJ & F & NS & -> & _)|[_ ->]]; [|reflexivity].
      assert (L : exists q, nth_error sides j = Some q). { assert (j < length sides)%nat. { apply (f_equal (@length vec)) in J1. rewrite !map_length in J1. rewrite <- J1. apply nth_error_Some. congruence. } destruct (nth_error sides j) as [q|] eqn:Q; [exists q; reflexivity|apply nth_error_None in Q; lia]. }
      destruct L as [[nq mq] Q]. pose proof (AS j nq mq Q) as EQ. destruct (J2 j nq mq Q) as [_ K2]. destruct (K2 EQ) as (x & X1 & X2 & X3). rewrite F in X1. injection X1 as <- _. destruct (Nat.lt_ge_cases j k) as [LT|GE]; [apply X3; exact LT|exfalso; apply NS; apply X2; exact GE]. }
    split; [exact I1|]. intros i nm m E. destruct (I2 i nm m E) as [K1 K2]. split; [exact K1|]. intros S. destruct (K2 S) as (x & X1 & _ & X3). exists x. split; [exact X1|]. right. split; [exact A|]. apply X3. apply nth_error_Some. congruence.
Qed.
Print Assumptions C143_names.

(** The first side without a name gets the name of a side with the most opposite normal. *)
Theorem C143_first skip dflt before n after : (forall s, In s before -> fst s <> skip) -> (exists s, In s (before ++ after) /\ fst s <> skip) ->
  exists nm m, In (nm, m) (before ++ after) /\ nm <> skip /\ nth_error (clean_names skip dflt (before ++ (skip, n) :: after)) (length before) = Some (nm, n) /\
    forall nm' m', In (nm', m') (before ++ after) -> nm' <> skip -> - dot n m' <= - dot n m.
Proof.
  intros B X. set (sides := before ++ (skip, n) :: after). set (k := length before).
  assert (ND : forall j q, j <> k -> nth_error sides j = Some q -> In q (before ++ after)).
  { intros j q NJ E. unfold sides in E. apply in_or_app. destruct (Nat.lt_ge_cases j k) as [LT|GE]; [left; rewrite nth_error_app1 in E by exact LT; apply (nth_error_In _ _ E)|right].
    rewrite nth_error_app2 in E by exact GE. assert (j - length before <> 0)%nat by (unfold k in *; lia). destruct (j - length before)%nat as [|i]; [contradiction|]. apply (nth_error_In after i). exact E. }
  assert (DN : forall q, In q (before ++ after) -> exists j, j <> k /\ nth_error sides j = Some q).
  { intros q I. apply in_app_or in I. unfold sides, k. destruct I as [I|I]; apply In_nth_error in I; destruct I as [j E].
    - exists j. assert (j < length before)%nat by (apply nth_error_Some; congruence). split; [lia|]. rewrite nth_error_app1 by assumption. exact E.
    - exists (length before + S j)%nat. split; [lia|]. rewrite nth_error_app2 by lia. replace (length before + S j - length before)%nat with (S j) by lia. exact E. }
  assert (NK : nth_error sides k = Some (skip, n)) by (unfold sides, k; rewrite nth_error_app2, Nat.sub_diag by lia; reflexivity).
  (* the sides before are left alone *)
  assert (SK : forall i, (i <= k)%nat -> forall todo, clean skip dflt (k - i + todo) i sides = clean skip dflt todo k sides).
  { assert (G : forall j todo, (j <= k)%nat -> clean skip dflt (j + todo) (k - j) sides = clean skip dflt todo k sides).
    { induction j as [|j IH]; intros todo L; [rewrite Nat.sub_0_r; reflexivity|]. cbn [Nat.add clean]. destruct (nth_error sides (k - S j)) as [[nm m]|] eqn:E.
      - assert (nm <> skip) as NS. { unfold sides in E. rewrite nth_error_app1 in E by (unfold k in *; lia). apply nth_error_In in E. apply (B _ E). }
        apply Z.eqb_neq in NS. rewrite NS. replace (S (k - S j)) with (k - j)%nat by lia. apply IH. lia.
      - apply nth_error_None in E. unfold sides in E. rewrite app_length in E. unfold k in *. cbn [length] in E. lia. }
    intros i L todo. rewrite <- (G (k - i)%nat todo) by lia. replace (k - (k - i))%nat with i by lia. reflexivity. }
  unfold clean_names. fold sides. assert (LS : length sides = (k - 0 + S (length after))%nat) by (unfold sides, k; rewrite app_length; cbn [length]; lia). rewrite LS, SK by lia. cbn [clean]. rewrite NK, Z.eqb_refl.
  (* later steps do not change it *)
  assert (KP : forall todo j s q, (k < j)%nat -> nth_error s k = Some q -> nth_error (clean skip dflt todo j s) k = Some q).
  { induction todo as [|todo IH]; intros j s q J E; [exact E|]. cbn [clean]. destruct (nth_error s j) as [[nm m]|]; [|exact E]. apply IH; [lia|]. destruct (nm =? skip)%Z; [|exact E]. rewrite nth_put. replace (k =? j)%nat with false by (symmetry; apply Nat.eqb_neq; lia). exact E. }
  destruct (closest_spec skip dflt k n sides) as [(j & nm & m & NJ & E & NS & C & MX)|[F _]].
  - exists nm, m. split; [apply (ND j); assumption|]. split; [exact NS|]. split.
    + apply KP; [lia|]. rewrite nth_put, Nat.eqb_refl. replace (k <? length sides)%nat with true by (symmetry; apply Nat.ltb_lt; lia). cbn [andb]. rewrite C. reflexivity.
    + intros nm' m' I NS'. destruct (DN _ I) as (i & NI & EI). specialize (MX i nm' m' NI EI NS'). unfold dot, scale in *. cbn [vx vy vz] in MX. lra.
  - exfalso. destruct X as ([nm m] & I & NS). destruct (DN _ I) as (j & NJ & E). apply NS. exact (F j nm m NJ E).
Qed.
Print Assumptions C143_first.

(** Later ones can get a name that an earlier one was given, although another side with a name of its own is more opposite: here the
    bottom gets that of the wall instead of the slope. *)
Theorem C143_order_refuted :
  clean_names 0 9 [(0%Z, mkV 0 0 1); (0%Z, mkV 0 0 (-1)); (1%Z, mkV 1 0 0); (2%Z, mkV (-3/5) 0 (4/5))] =
    [(1%Z, mkV 0 0 1); (1%Z, mkV 0 0 (-1)); (1%Z, mkV 1 0 0); (2%Z, mkV (-3/5) 0 (4/5))] /\
  - dot (mkV 0 0 (-1)) (mkV 1 0 0) < - dot (mkV 0 0 (-1)) (mkV (-3/5) 0 (4/5)).
Proof.
  split; [|unfold dot; cbn [vx vy vz]; lra].
  cbv [clean_names clean length nth_error closest combine seq fold_left closer Nat.eqb Z.eqb Pos.eqb put].
  repeat (match goal with |- context [Rlt_dec ?a ?b] => destruct (Rlt_dec a b) as [L|L]; [exfalso; unfold dot, scale in L; cbn [vx vy vz] in L; lra|clear L] end;
          cbv [clean length nth_error closest combine seq fold_left closer Nat.eqb Z.eqb Pos.eqb put]).
  reflexivity.
Qed.
Print Assumptions C143_order_refuted.

(** A sloped plane; a texture of half size at an offset of 64 units comes back shifted by 64. *)
Example C143_nontrivial :
  points_plane (three_points (mkPl (mkV (-3/5) 0 (4/5)) 7)) = mkPl (mkV (-3/5) 0 (4/5)) 7 /\
  origin_row (mkV 64 0 0) (read_row (shifted (Some (mkV 64 0 0)) (valve_of (mkV 2 0 0, 5)))) = (mkV 2 0 0, 69).
Proof.
  split; [apply (C143_plane (mkV (-3/5) 0 (4/5)) 7); unfold dot; cbn [vx vy vz]; lra|].
  assert (N : mkV 2 0 0 <> mkV 0 0 0) by (intros H; injection H; lra). destruct (C143_shift_refuted (mkV 2 0 0) 5 (mkV 64 0 0) N) as [E _]. rewrite E.
  assert (L : len (mkV 2 0 0) = 2) by (unfold len, dot; cbn [vx vy vz]; replace (2 * 2 + 0 * 0 + 0 * 0) with (2 * 2) by ring; apply sqrt_square; lra). rewrite L. f_equal. unfold dot. cbn [vx vy vz]. lra.
Qed.
