(* Choosing by weight (C165). *)
From Coq Require Import List Arith QArith Bool Lia Lqa Qfield.
From Verif Require Import CdfModel.
Import ListNotations.
Local Open Scope Q_scope.

(** The sum of the first k weights. *)
Fixpoint upto (k : nat) (l : list Q) : Q := match k, l with S k, v :: l => v + upto k l | _, _ => 0 end.
Definition weights (l : list Q) : Prop := forall v, In v l -> 0 <= v.
Definition all (l : list Q) : Q := upto (length l) l.

Lemma fold_total : forall l acc, fold_left Qplus l acc == acc + all l.
Proof. unfold all. induction l as [|v l IH]; intro acc; cbn [fold_left length upto]; [ring|]. rewrite IH. ring. Qed.
Lemma total_all : forall l, total l == all l. Proof. intro l. unfold total. rewrite fold_total. ring. Qed.
Lemma sums_nth : forall l acc k, (k < length l)%nat -> exists c, nth_error (sums acc l) k = Some c /\ c == acc + upto (S k) l.
Proof.
  induction l as [|v l IH]; intros acc k L; [cbn in L; lia|]. destruct k as [|k]; cbn [sums nth_error].
  - eexists. split; [reflexivity|]. cbn. destruct l; ring.
  - destruct (IH (acc + v) k ltac:(cbn in L; lia)) as (c & A & B). exists c. split; [exact A|]. rewrite B. cbn [upto]. ring.
Qed.
Lemma sums_length : forall l acc, length (sums acc l) = length l. Proof. induction l as [|v l IH]; intro acc; cbn; [reflexivity|rewrite IH; reflexivity]. Qed.
Lemma upto_div : forall t l k, ~ t == 0 -> upto k (map (fun v => v / t) l) == upto k l / t.
Proof. intros t l. induction l as [|v l IH]; intros [|k] Z; cbn [upto map]; try (field; exact Z). rewrite (IH k Z). field. exact Z. Qed.
Lemma upto_le : forall l j k, weights l -> (j <= k)%nat -> upto j l <= upto k l.
Proof.
  induction l as [|v l IH]; intros [|j] [|k] W L; cbn [upto]; try lra; try lia.
  - pose proof (W v (or_introl eq_refl)). pose proof (IH 0%nat k (fun x I => W x (or_intror I)) ltac:(lia)) as H0. assert (upto 0 l == 0) by (destruct l; reflexivity). lra.
  - pose proof (IH j k (fun x I => W x (or_intror I)) ltac:(lia)). lra.
Qed.

(** The table has an entry for each weight, the part of all weights up to and with it; it rises, to one. *)
Theorem C165_table : forall l, 0 < all l -> exists cdf, make_cdf l = Some cdf /\ length cdf = length l /\
  (forall k c, nth_error cdf k = Some c -> c == upto (S k) l / all l) /\ (forall c, nth_error cdf (length l - 1) = Some c -> c == 1).
Proof.
  intros l P. unfold make_cdf, normalize. assert (Z : ~ total l == 0) by (rewrite total_all; lra).
  destruct (Qeq_bool (total l) 0) eqn:E; [apply Qeq_bool_iff in E; contradiction|]. eexists. split; [reflexivity|].
  assert (N : forall k c, nth_error (sums 0 (map (fun v => v / total l) l)) k = Some c -> c == upto (S k) l / all l).
  { intros k c H. assert (L : (k < length l)%nat) by (rewrite <- (map_length (fun v => v / total l) l), <- (sums_length (map (fun v => v / total l) l) 0); apply nth_error_Some; congruence).
    destruct (sums_nth (map (fun v => v / total l) l) 0 k ltac:(rewrite map_length; exact L)) as (c' & A & B). rewrite H in A. injection A as <-. rewrite B, upto_div, total_all by exact Z. field. lra. }
  split; [rewrite sums_length, map_length; reflexivity|]. split; [exact N|]. intros c H. rewrite (N _ _ H).
  assert (L : S (length l - 1) = length l) by (destruct l; [cbn in P; lra|cbn; lia]). rewrite L. fold (all l). field. lra.
Qed.

Lemma sample_spec : forall cdf i s k, sample_from i cdf s = Some k <-> exists j c, k = (i + j)%nat /\ nth_error cdf j = Some c /\ s <= c /\ forall j' c', (j' < j)%nat -> nth_error cdf j' = Some c' -> c' < s.
Proof.
  induction cdf as [|c cdf IH]; intros i s k; cbn [sample_from].
  - split; [discriminate|]. intros ([|j] & c & _ & A & _); discriminate.
  - destruct (Qle_bool s c) eqn:E.
    + apply Qle_bool_iff in E. split.
      * intro H. injection H as <-. exists 0%nat, c. split; [lia|]. split; [reflexivity|]. split; [exact E|]. intros; lia.
      * intros ([|j] & c' & -> & A & B & C); [f_equal; lia|]. specialize (C 0%nat c ltac:(lia) eq_refl). lra.
    + assert (F : c < s) by (apply Qnot_le_lt; intro H; apply Qle_bool_iff in H; congruence). rewrite IH. split.
      * intros (j & c' & -> & A & B & C). exists (S j), c'. split; [lia|]. split; [exact A|]. split; [exact B|]. intros [|j'] c'' L N; [injection N as <-; exact F|]. apply (C j' c''); [lia|exact N].
      * intros ([|j] & c' & -> & A & B & C); [injection A as <-; lra|]. exists j, c'. split; [lia|]. split; [exact A|]. split; [exact B|]. intros j' c'' L N. apply (C (S j') c''); [lia|exact N].
Qed.

(** A number from 0 to 1 chooses the entry in whose part of all weights it is; the parts are as long as the weights are large. *)
Theorem C165_choice : forall l cdf s k, weights l -> 0 < all l -> make_cdf l = Some cdf ->
  (sample_cdf cdf s = Some k <-> (k < length l)%nat /\ s * all l <= upto (S k) l /\ (k = 0%nat \/ upto k l < s * all l)).
Proof.
  intros l cdf s k W P M. destruct (C165_table l P) as (cdf' & M' & L & N & _). rewrite M in M'. injection M' as <-.
  assert (V : forall j c, nth_error cdf j = Some c -> c * all l == upto (S j) l) by (intros j c H; rewrite (N j c H); field; lra).
  unfold sample_cdf. rewrite sample_spec. split.
  - intros (j & c & -> & A & B & C). cbn [Nat.add]. assert (J : (j < length l)%nat) by (rewrite <- L; apply nth_error_Some; congruence). split; [exact J|]. pose proof (V j c A) as E. split; [nra|].
    destruct j as [|j]; [left; reflexivity|right]. destruct (nth_error cdf j) as [c'|] eqn:A'; [|apply nth_error_None in A'; lia]. pose proof (C j c' ltac:(lia) A'). pose proof (V j c' A'). nra.
  - intros (J & B & C). destruct (nth_error cdf k) as [c|] eqn:A; [|apply nth_error_None in A; lia]. exists k, c. split; [reflexivity|]. split; [exact A|]. pose proof (V k c A) as E. split; [nra|].
    intros j c' Lj A'. destruct C as [->|C]; [lia|]. pose proof (V j c' A') as E'. pose proof (upto_le l (S j) k W ltac:(lia)). nra.
Qed.

(** There is a choice for every number up to 1, and none beyond. *)
Theorem C165_always : forall l cdf s, weights l -> 0 < all l -> make_cdf l = Some cdf -> (exists k, sample_cdf cdf s = Some k /\ (k < length l)%nat) <-> s <= 1.
Proof.
  intros l cdf s W P M. split.
  - intros (k & H & L). apply (C165_choice l cdf s k W P M) in H as (_ & H & _). pose proof (upto_le l (S k) (length l) W ltac:(lia)) as Q. fold (all l) in Q. nra.
  - intro S1. assert (E : exists k, (k < length l)%nat /\ s * all l <= upto (S k) l /\ (k = 0%nat \/ upto k l < s * all l)).
    { assert (T : forall n, (S n <= length l)%nat -> s * all l <= upto (S n) l -> exists k, (k < length l)%nat /\ s * all l <= upto (S k) l /\ (k = 0%nat \/ upto k l < s * all l)).
      { induction n as [|n IH]; intros Ln H; [exists 0%nat; split; [lia|]; auto|]. destruct (Qlt_le_dec (upto (S n) l) (s * all l)) as [F|F]; [exists (S n); split; [lia|]; auto|apply IH; [lia|exact F]]. }
      assert (LN : (1 <= length l)%nat) by (destruct l; [cbn in P; lra|cbn; lia]). apply (T (length l - 1)%nat); [lia|]. replace (S (length l - 1)) with (length l) by lia. fold (all l). nra. }
    destruct E as (k & A & B). exists k. split; [|exact A]. apply (C165_choice l cdf s k W P M). split; assumption.
Qed.

(** Zero can choose an entry without weight, the first. *)
Theorem C165_zero_refuted : forall v l cdf, weights (0 :: v :: l) -> 0 < v -> make_cdf (0 :: v :: l) = Some cdf -> sample_cdf cdf 0 = Some 0%nat.
Proof.
  intros v l cdf W V M. assert (P : 0 < all (0 :: v :: l)).
  { pose proof (upto_le (0 :: v :: l) 2 (length (0 :: v :: l)) W ltac:(cbn; lia)) as H. fold (all (0 :: v :: l)) in H. cbn [upto] in H. assert (upto 0 l == 0) by (destruct l; reflexivity). lra. }
  apply (C165_choice _ _ _ _ W P M). split; [cbn; lia|]. split; [|left; reflexivity]. cbn [upto]. lra.
Qed.

(** Weights that are all zero, such as the areas of a polygon that is a line, give no numbers. *)
Theorem C165_flat_refuted : forall l, l <> [] -> (forall v, In v l -> v == 0) -> make_cdf l = None.
Proof.
  intros l N Z. assert (A : all l == 0).
  { clear N. unfold all. induction l as [|v l IH]; [reflexivity|]. cbn [length upto]. rewrite (Z v (or_introl eq_refl)), IH by (intros x I; apply Z; right; exact I). reflexivity. }
  unfold make_cdf, normalize. rewrite (proj2 (Qeq_bool_iff (total l) 0)) by (rewrite total_all; exact A). destruct l; [congruence|reflexivity].
Qed.

(** A random point of a polygon: there is one for all numbers from 0 to 1, and it is in every half space that the polygon is in, so inside a convex polygon
    and on its plane; [root] is the square root of the second number. *)
Theorem C165_point : forall points areas cdf r1 root r3, weights areas -> 0 < all areas -> make_cdf areas = Some cdf -> length points = (length areas + 2)%nat ->
  r1 <= 1 -> 0 <= root -> root <= 1 -> 0 <= r3 -> r3 <= 1 ->
  exists p, random_point points cdf r1 root r3 = Some p /\
    forall nx ny nz d, let above (q : pt) := d <= nx * fst (fst q) + ny * snd (fst q) + nz * snd q in (forall q, In q points -> above q) -> above p.
Proof.
  intros points areas cdf r1 root r3 W P M L R1 A0 A1 B0 B1. destruct (proj2 (C165_always areas cdf r1 W P M) R1) as (k & S & K).
  unfold random_point. rewrite S.
  destruct (nth_error points 0) as [t0|] eqn:E0; [|apply nth_error_None in E0; lia]. destruct (nth_error points (1 + k)) as [t1|] eqn:E1; [|apply nth_error_None in E1; lia].
  destruct (nth_error points (2 + k)) as [t2|] eqn:E2; [|apply nth_error_None in E2; lia].
  eexists. split; [reflexivity|]. intros nx ny nz d. cbv zeta. intro H.
  pose proof (H t0 (nth_error_In _ _ E0)) as H0. pose proof (H t1 (nth_error_In _ _ E1)) as H1. pose proof (H t2 (nth_error_In _ _ E2)) as H2.
  clear H. destruct t0 as ((x0, y0), z0). destruct t1 as ((x1, y1), z1). destruct t2 as ((x2, y2), z2). cbn [to_point bary plus scale fst snd] in *.
  set (u0 := nx * x0 + ny * y0 + nz * z0) in *. set (u1 := nx * x1 + ny * y1 + nz * z1) in *. set (u2 := nx * x2 + ny * y2 + nz * z2) in *.
  assert (E : nx * (x0 * (1 - root) + x1 * (r3 * root) + x2 * (1 - (1 - root) - r3 * root)) + ny * (y0 * (1 - root) + y1 * (r3 * root) + y2 * (1 - (1 - root) - r3 * root)) +
    nz * (z0 * (1 - root) + z1 * (r3 * root) + z2 * (1 - (1 - root) - r3 * root)) == (1 - root) * (u0 - d) + (r3 * root) * (u1 - d) + (root * (1 - r3)) * (u2 - d) + d) by (unfold u0, u1, u2; ring).
  rewrite E. assert (0 <= (1 - root) * (u0 - d)) by (apply Qmult_le_0_compat; lra). assert (0 <= (r3 * root) * (u1 - d)) by (apply Qmult_le_0_compat; [apply Qmult_le_0_compat; lra|lra]).
  assert (0 <= (root * (1 - r3)) * (u2 - d)) by (apply Qmult_le_0_compat; [apply Qmult_le_0_compat; lra|lra]). lra.
Qed.

(** Every corner of each triangle is a random point: of the root 0 the first, of the root 1 the others. *)
Theorem C165_corners : forall points cdf r1 k t0 t1 t2, sample_cdf cdf r1 = Some k -> nth_error points 0 = Some t0 -> nth_error points (1 + k) = Some t1 -> nth_error points (2 + k) = Some t2 ->
  let same (o : option pt) (q : pt) := exists p, o = Some p /\ fst (fst p) == fst (fst q) /\ snd (fst p) == snd (fst q) /\ snd p == snd q in
  (forall r, same (random_point points cdf r1 0 r) t0) /\ same (random_point points cdf r1 1 1) t1 /\ same (random_point points cdf r1 1 0) t2.
Proof.
  intros points cdf r1 k ((x0, y0), z0) ((x1, y1), z1) ((x2, y2), z2) S E0 E1 E2. unfold random_point. rewrite S, E0, E1, E2. cbn [to_point bary plus scale fst snd].
  split; [|split]; [intro r| |]; eexists; (split; [reflexivity|]); cbn [fst snd]; repeat split; ring.
Qed.
Print Assumptions C165_point.
Print Assumptions C165_corners.
Print Assumptions C165_table.
Print Assumptions C165_choice.
Print Assumptions C165_always.
Print Assumptions C165_zero_refuted.
Print Assumptions C165_flat_refuted.

Example C165_nontrivial : exists cdf, make_cdf [25; 50; 25] = Some cdf /\ map Qred cdf = [1 # 4; 3 # 4; 1] /\
  map (sample_cdf cdf) [0; 1 # 4; 26 # 100; 3 # 4; 76 # 100; 1; 2] = [Some 0; Some 0; Some 1; Some 1; Some 2; Some 2; None]%nat.
Proof. eexists. split; [reflexivity|]. split; vm_compute; reflexivity. Qed.
(** A square of two triangles. *)
Example C165_point_nontrivial : exists cdf, make_cdf [8; 8] = Some cdf /\
  option_map (fun p : pt => (Qred (fst (fst p)), Qred (snd (fst p)), Qred (snd p))) (random_point [(0, 0, 1); (4, 0, 1); (4, 4, 1); (0, 4, 1)] cdf (3 # 4) (1 # 2) (1 # 4)) = Some (1 # 2, 2, 1).
Proof. eexists. split; [reflexivity|]. vm_compute. reflexivity. Qed.
