(* Lemmas about scaled planes, tree walks and faces. *)
From Coq Require Import List Arith ZArith QArith Qabs Qround Qminmax Bool Lia Lqa Setoid.
Import ListNotations.
From Verif Require Import NumCastModel ScaleModel.
Local Open Scope Q_scope.

Lemma Qltb_lt : forall a b, Qltb a b = true <-> a < b.
Proof.
  intros. unfold Qltb. rewrite negb_true_iff. split; intro H.
  - apply Qnot_le_lt. intro L. apply Qle_bool_iff in L. congruence.
  - destruct (Qle_bool b a) eqn:E; [|reflexivity]. apply Qle_bool_iff in E. lra.
Qed.
Lemma Qltb_ge : forall a b, Qltb a b = false <-> b <= a.
Proof.
  intros. unfold Qltb. rewrite negb_false_iff. apply Qle_bool_iff.
Qed.

Definition nz (v : V) : Prop := ~ c0 v == 0 /\ ~ c1 v == 0 /\ ~ c2 v == 0.
Definition det (s : V) : Q := c0 s * c1 s * c2 s.
(** A normal that is not zero, and a distance measured along it. *)
Definition pl_ok (p : plane) : Prop := ~ dot (pn p) (pn p) == 0 /\ dot (pn p) (pn p) * pd p == pd p.

Lemma dot_pos : forall v, ~ dot v v == 0 -> 0 < dot v v.
Proof.
  intros v H. destruct (Qlt_le_dec 0 (dot v v)) as [L|L]; [exact L|]. exfalso. apply H.
  apply Qle_antisym; [exact L|]. unfold dot. assert (Q : forall a, 0 <= a * a) by (intro; nra).
  pose proof (Q (c0 v)). pose proof (Q (c1 v)). pose proof (Q (c2 v)). lra.
Qed.

Lemma sq0 : forall a b c, a * a + b * b + c * c == 0 -> a == 0 /\ b == 0 /\ c == 0.
Proof.
  intros a b c H. assert (Q : forall a, 0 <= a * a) by (intro; nra).
  pose proof (Q a). pose proof (Q b). pose proof (Q c).
  assert (Z : forall a, a * a == 0 -> a == 0).
  { intros x E. destruct (Qmult_integral _ _ E); assumption. }
  repeat split; apply Z; lra.
Qed.

(** The largest component is not 0. *)
Lemma largest_nz : forall v, ~ dot v v == 0 -> (largest v <= 2)%nat /\ ~ comp v (largest v) == 0.
Proof.
  intros v H. unfold largest. cbn [fold_left snd fst].
  assert (A : forall x, 0 <= Qabs x) by apply Qabs_nonneg.
  assert (B : forall x y, x < Qabs y -> 0 <= x -> ~ y == 0).
  { intros x y L G E. rewrite E in L. cbn in L. change (Qabs 0) with 0 in L. lra. }
  assert (C : forall y, Qabs y <= 0 -> y == 0).
  { intros y L. apply Qabs_Qle_condition in L. lra. }
  destruct (Qltb 0 (Qabs (comp v 0))) eqn:E0; cbn [fst snd];
  [apply Qltb_lt in E0|apply Qltb_ge in E0];
  (match goal with |- context[Qltb ?a (Qabs (comp v 1))] => destruct (Qltb a (Qabs (comp v 1))) eqn:E1 end; cbn [fst snd];
  [apply Qltb_lt in E1|apply Qltb_ge in E1]);
  (match goal with |- context[Qltb ?a (Qabs (comp v 2))] => destruct (Qltb a (Qabs (comp v 2))) eqn:E2 end; cbn [fst snd];
  [apply Qltb_lt in E2|apply Qltb_ge in E2]);
  (split; [lia|]); try (eapply B; [eassumption|]; apply A || lra); try (eapply B; [exact E0|]; lra).
  exfalso. apply H. cbn [comp] in *. apply C in E0. apply C in E1. apply C in E2. unfold dot. rewrite E0, E1, E2. reflexivity.
Qed.

Definition cof (s : V) : V := mkV (c1 s * c2 s) (c0 s * c2 s) (c0 s * c1 s).
Definition veq (a b : V) : Prop := c0 a == c0 b /\ c1 a == c1 b /\ c2 a == c2 b.

(** The vector product of the scaled points. *)
Lemma cross_scaled : forall s p, ~ dot (pn p) (pn p) == 0 -> let '(a, b, c) := three_points p in
  exists k, 0 < k /\
    veq (cross (vsub (vmul a s) (vmul b s)) (vsub (vmul c s) (vmul b s))) (vscl k (vmul (cof s) (pn p))) /\
    veq (cross (vsub (vmul c s) (vmul b s)) (vsub (vmul a s) (vmul b s))) (vscl (- k) (vmul (cof s) (pn p))) /\
    dot b (pn p) == dot (pn p) (pn p) * pd p.
Proof.
  intros s p H. destruct (largest_nz _ H) as (L & NZ). unfold three_points, tangents.
  set (n := pn p) in *. pose proof (dot_pos _ H) as DP. clearbody n.
  assert (D : forall P : nat -> Prop, P 0%nat -> P 1%nat -> P 2%nat -> P (largest n)).
  { intros P P0 P1 P2. destruct (largest n) as [|[|[|]]]; try assumption; lia. }
  set (ax := largest n) in *. clearbody ax.
  assert (AX : ax = 0%nat \/ ax = 1%nat \/ ax = 2%nat) by lia. clear D L.
  destruct AX as [E|[E|E]]; subst ax; cbn [comp Nat.add Nat.modulo Nat.divmod Nat.sub fst snd unit] in *.
  all: match goal with |- context[Qltb ?a 0] => destruct (Qltb a 0) eqn:E end; [apply Qltb_lt in E|apply Qltb_ge in E].
  all: unfold cross, dot in E; cbn [c0 c1 c2] in E.
  all: match type of NZ with ~ ?x == 0 =>
    assert (ID : x * dot n n < 0 \/ 0 <= x * dot n n) by (unfold dot in *; (left; lra) || (right; lra)) end.
  all: match goal with
    | NZ : ~ ?x == 0, E : _ < 0 |- _ => assert (SG : x < 0) by (destruct (Qlt_le_dec x 0) as [?|G]; [assumption|exfalso;
         assert (0 <= x * dot n n) by (apply Qmult_le_0_compat; [exact G|apply Qlt_le_weak; exact DP]); unfold dot in *; nra]); exists (- x)
    | NZ : ~ ?x == 0, E : 0 <= _ |- _ => assert (SG : 0 < x) by (destruct (Qlt_le_dec 0 x) as [?|G]; [assumption|exfalso;
         assert (x < 0) by (apply Qle_lteq in G; destruct G; [assumption|contradiction]);
         assert (0 < (- x) * dot n n) by (apply Qmult_lt_0_compat; [lra|exact DP]); unfold dot in *; nra]); exists x
    end.
  all: (split; [lra|]); split; [|split];
    [ unfold veq, cross, vsub, vmul, vscl, cof, vadd; cbn [c0 c1 c2 fst snd]; repeat split; ring
    | unfold veq, cross, vsub, vmul, vscl, cof, vadd; cbn [c0 c1 c2 fst snd]; repeat split; ring
    | unfold dot, cross, vadd, vscl; cbn [c0 c1 c2 fst snd]; ring ].
Qed.

Lemma dot_veq : forall a b c, veq a b -> dot c a == dot c b.
Proof. intros a b c (A & B & C). unfold dot. rewrite A, B, C. reflexivity. Qed.
Lemma dot_veq2 : forall a b, veq a b -> dot a a == dot b b.
Proof. intros a b (A & B & C). unfold dot. rewrite A, B, C. reflexivity. Qed.

Lemma nz_mul : forall a b, ~ a == 0 -> ~ b == 0 -> ~ a * b == 0.
Proof. intros a b A B H. destruct (Qmult_integral _ _ H); contradiction. Qed.

Lemma cof_nz : forall s n k, nz s -> ~ k == 0 -> ~ dot n n == 0 -> ~ dot (vscl k (vmul (cof s) n)) (vscl k (vmul (cof s) n)) == 0.
Proof.
  intros s n k (S0 & S1 & S2) K H E. apply H. unfold dot in E. apply sq0 in E. destruct E as (E0 & E1 & E2).
  unfold vscl, vmul, cof in *. cbn [c0 c1 c2] in *.
  assert (Q : forall a b x, ~ a == 0 -> ~ b == 0 -> k * (a * b * x) == 0 -> x == 0).
  { intros a b x A B F. destruct (Qmult_integral _ _ F) as [F'|F']; [contradiction|].
    destruct (Qmult_integral _ _ F') as [G|G]; [|exact G]. exfalso. apply (nz_mul a b A B G). }
  unfold dot. rewrite (Q _ _ _ S1 S2 E0), (Q _ _ _ S0 S2 E1), (Q _ _ _ S0 S1 E2). reflexivity.
Qed.

Definition nrm_ok (nrm : V -> Q) : Prop :=
  (forall v, ~ dot v v == 0 -> 0 < nrm v) /\
  (forall v a i, ~ a == 0 -> veq v (vscl a (unit i)) -> nrm v * Qabs a == 1).

Definition sg (s : V) : Q := if (flips s =? 0)%nat then 1 else - (1).

Lemma scaled : forall nrm s p, nrm_ok nrm -> nz s -> pl_ok p ->
  exists k, 0 < k /\ veq (pn (scale_plane nrm s p)) (vscl (sg s * k) (vmul (cof s) (pn p))) /\
    (forall x, dot (vmul x s) (pn (scale_plane nrm s p)) - pd (scale_plane nrm s p) ==
               k * (sg s * det s) * (dot x (pn p) - pd p)) /\
    pt (scale_plane nrm s p) = pt p /\
    (forall a i, veq (pn p) (vscl a (unit i)) -> (i <= 2)%nat -> Qabs (sg s * k * comp (cof s) i * a) == 1).
Proof.
  intros nrm s p (NP & NA) NZ (H & U). pose proof (cross_scaled s p H) as CS.
  unfold scale_plane. destruct (three_points p) as [[a b] c]. destruct CS as (k & K & C1 & C2 & DB).
  assert (F : forall e w, (e == 1 \/ e == - (1)) ->
    veq w (vscl (e * k) (vmul (cof s) (pn p))) ->
    exists k', 0 < k' /\ veq (normalize nrm w) (vscl (e * k') (vmul (cof s) (pn p))) /\
      (forall x, dot (vmul x s) (normalize nrm w) - dot (vmul b s) (normalize nrm w) == k' * (e * det s) * (dot x (pn p) - pd p)) /\
      (forall a i, veq (pn p) (vscl a (unit i)) -> (i <= 2)%nat -> Qabs (e * k' * comp (cof s) i * a) == 1)).
  { intros e w E W.
    assert (EK : ~ e * k == 0) by (destruct E as [E|E]; rewrite E; lra).
    assert (D : ~ dot w w == 0).
    { rewrite (dot_veq2 _ _ W). apply cof_nz; assumption. }
    exists (nrm w * k). pose proof (NP w D) as NW. split; [apply Qmult_lt_0_compat; assumption|].
    unfold normalize. destruct (Qeq_bool (dot w w) 0) eqn:Q; [apply Qeq_bool_iff in Q; contradiction|].
    assert (W' : veq (vscl (nrm w) w) (vscl (e * (nrm w * k)) (vmul (cof s) (pn p)))).
    { destruct W as (W0 & W1 & W2). unfold veq, vscl in *. cbn [c0 c1 c2] in *. rewrite W0, W1, W2. repeat split; ring. }
    split; [exact W'|]. split.
    - intro x. rewrite !(dot_veq _ _ _ W'). rewrite <- U. rewrite <- DB. unfold dot, vmul, vscl, cof, det. cbn [c0 c1 c2]. ring.
    - intros aa i V L. assert (X : veq w (vscl (e * k * comp (cof s) i * aa) (unit i))).
      { destruct W as (W0 & W1 & W2), V as (V0 & V1 & V2). unfold veq, vscl, vmul in *. cbn [c0 c1 c2] in *. rewrite W0, W1, W2, V0, V1, V2.
        destruct i as [|[|[|]]]; [| | |lia]; cbn [unit c0 c1 c2 comp]; repeat split; ring. }
      assert (Y : ~ e * k * comp (cof s) i * aa == 0).
      { apply nz_mul; [apply nz_mul; [exact EK|]|].
        - destruct NZ as (S0 & S1 & S2). destruct i as [|[|[|]]]; [| | |lia]; cbn [cof comp c0 c1 c2]; apply nz_mul; assumption.
        - intro Z0. apply H. rewrite (dot_veq2 _ _ V). unfold dot, vscl. cbn [c0 c1 c2]. rewrite Z0. ring. }
      rewrite <- (NA w _ i Y X). rewrite <- (Qabs_pos (nrm w)) at 2 by (apply Qlt_le_weak; exact NW).
      rewrite <- Qabs_Qmult. apply Qabs_wd. ring. }
  unfold sg. destruct (flips s =? 0)%nat; cbn [plane_of fst snd pn pd pt].
  - destruct (F 1 _ ltac:(left; reflexivity) ltac:(destruct C1 as (X0 & X1 & X2); unfold veq, vscl in *; cbn [c0 c1 c2] in *; rewrite X0, X1, X2; repeat split; ring)) as (k' & P1 & P2 & P3 & P4).
    exists k'. repeat (split; [assumption|]). split; [reflexivity|exact P4].
  - destruct (F (- (1)) _ ltac:(right; reflexivity) ltac:(destruct C2 as (X0 & X1 & X2); unfold veq, vscl in *; cbn [c0 c1 c2] in *; rewrite X0, X1, X2; repeat split; ring)) as (k' & P1 & P2 & P3 & P4).
    exists k'. repeat (split; [assumption|]). split; [reflexivity|exact P4].
Qed.

Lemma mul3_pos : forall a b c, 0 < a -> 0 < b -> 0 < c -> 0 < a * b * c.
Proof. intros. repeat apply Qmult_lt_0_compat; assumption. Qed.

Lemma sg_det : forall s, nz s -> (flips s <> 2%nat -> 0 < sg s * det s) /\ (flips s = 2%nat -> sg s * det s < 0).
Proof.
  intros s (S0 & S1 & S2). unfold sg, flips, det.
  assert (T : forall a, ~ a == 0 -> (Qltb a 0 = true /\ 0 < - a) \/ (Qltb a 0 = false /\ 0 < a)).
  { intros a A. destruct (Qltb a 0) eqn:E; [apply Qltb_lt in E; left; split; [reflexivity|lra]|apply Qltb_ge in E; right; split; [reflexivity|]].
    apply Qle_lteq in E. destruct E as [E|E]; [exact E|]. exfalso. apply A. symmetry. exact E. }
  destruct (T _ S0) as [(-> & A)|(-> & A)], (T _ S1) as [(-> & B)|(-> & B)], (T _ S2) as [(-> & C)|(-> & C)];
    cbn [Nat.add Nat.eqb]; pose proof (mul3_pos _ _ _ A B C) as M; (split; intro; [try lia|try lia]); try lra.
Qed.

(** Lists of planes in pairs. *)
Definition opposite (p q : plane) : Prop := veq (pn q) (vneg (pn p)) /\ pd q == - pd p.
Definition fast_ok (p : plane) : Prop := forall x, dist_fast p x == dot x (pn p) - pd p.
Definition paired (l : list plane) : Prop :=
  Nat.even (length l) = true /\
  forall i p, nth_error l i = Some p -> Nat.even i = true ->
    fast_ok p /\ exists q, nth_error l (S i) = Some q /\ opposite p q.

Lemma opp_neg : forall p, opposite (pneg p) p /\ opposite p (pneg p).
Proof. intro p. unfold opposite, pneg, veq, vneg. cbn [pn pd c0 c1 c2]. repeat split; ring. Qed.

Lemma fast_unit : forall p, (pt p < 3 -> exists i, pt p = Z.of_nat i /\ veq (pn p) (unit i))%Z -> fast_ok p.
Proof.
  intros p H x. unfold dist_fast. destruct (Z.eqb_spec (pt p) 0) as [E|E0]; [|destruct (Z.eqb_spec (pt p) 1) as [E|E1]; [|destruct (Z.eqb_spec (pt p) 2) as [E|E2]; [|reflexivity]]].
  all: destruct H as (i & I & (V0 & V1 & V2)); [lia|]; rewrite E in I;
    assert (J : i = 0%nat \/ i = 1%nat \/ i = 2%nat) by lia; destruct J as [J|[J|J]]; subst i; try lia; cbn [unit c0 c1 c2] in *; unfold dot; rewrite V0, V1, V2; ring.
Qed.

Lemma even_nth : forall A (l : list A) (a b : A) i p, Nat.even (length l) = true -> nth_error (l ++ [a; b]) i = Some p -> Nat.even i = true ->
  nth_error l i = Some p /\ (S i < length l)%nat \/ i = length l /\ p = a.
Proof.
  intros A l a b i p EL N EI. destruct (Nat.lt_ge_cases i (length l)) as [L|L].
  - rewrite nth_error_app1 in N by exact L. left. split; [exact N|].
    destruct (Nat.eq_dec (S i) (length l)) as [E|E]; [|lia]. exfalso. rewrite <- E in EL. rewrite Nat.even_succ, <- Nat.negb_even, EI in EL. discriminate.
  - rewrite nth_error_app2 in N by exact L. right.
    destruct (i - length l)%nat as [|[|k]] eqn:E; cbn in N.
    + split; [lia|congruence].
    + exfalso. assert (i = S (length l)) by lia. subst i. rewrite Nat.even_succ, <- Nat.negb_even, EL in EI. discriminate.
    + destruct k; discriminate.
Qed.

Lemma paired_snoc : forall l a b, paired l -> fast_ok a -> opposite a b -> paired (l ++ [a; b]).
Proof.
  intros l a b (EL & H) F O. split.
  - rewrite app_length, Nat.even_add, EL. reflexivity.
  - intros i p N EI. destruct (even_nth _ _ _ _ _ _ EL N EI) as [(N' & L)|(-> & ->)].
    + destruct (H i p N' EI) as (F' & q & Q & O'). split; [exact F'|]. exists q. rewrite nth_error_app1 by lia. split; assumption.
    + split; [exact F|]. exists b. rewrite nth_error_app2 by lia. replace (S (length l) - length l)%nat with 1%nat by lia. split; [reflexivity|exact O].
Qed.

(** Two planes as close as the hash search requires. *)
Definition near (en ed : Q) (q p : plane) : Prop :=
  Qabs (c0 (pn q) - c0 (pn p)) <= en /\ Qabs (c1 (pn q) - c1 (pn p)) <= en /\ Qabs (c2 (pn q) - c2 (pn p)) <= en /\
  Qabs (pd q - pd p) <= ed.
Definition find_near (en ed : Q) (find : list plane -> plane -> option nat) : Prop :=
  forall l p i, find l p = Some i -> exists q, nth_error l i = Some q /\ near en ed q p.

(** What the types of the planes of a file mean. *)
Definition type_ok (p : plane) : Prop :=
  (0 <= pt p)%Z /\ ((pt p < 3)%Z -> exists i, pt p = Z.of_nat i /\ (veq (pn p) (unit i) \/ veq (pn p) (vneg (unit i)))).

Lemma near_refl : forall en ed p, 0 <= en -> 0 <= ed -> near en ed p p.
Proof.
  intros en ed p A B. assert (Z : forall x, Qabs (x - x) == 0) by (intro x; setoid_replace (x - x) with 0 by ring; reflexivity).
  unfold near. rewrite !Z. repeat split; assumption.
Qed.

Lemma scaled_unit : forall nrm s p, nrm_ok nrm -> nz s -> pl_ok p -> type_ok p -> (pt p < 3)%Z ->
  exists i, pt p = Z.of_nat i /\ (veq (pn (scale_plane nrm s p)) (unit i) \/ veq (pn (scale_plane nrm s p)) (vneg (unit i))).
Proof.
  intros nrm s p NR NZ P (T0 & T) L. destruct (T L) as (i & I & E). exists i. split; [exact I|].
  destruct (scaled nrm s p NR NZ P) as (k & K & V & _ & _ & A).
  assert (X : exists a, veq (pn p) (vscl a (unit i))).
  { destruct E as [E|E]; [exists 1|exists (- (1))]; destruct E as (E0 & E1 & E2); unfold veq, vscl, vneg in *; cbn [c0 c1 c2] in *;
      rewrite E0, E1, E2; repeat split; ring. }
  destruct X as (a & X). specialize (A a i X ltac:(lia)).
  assert (Y : veq (pn (scale_plane nrm s p)) (vscl (sg s * k * comp (cof s) i * a) (unit i))).
  { destruct V as (V0 & V1 & V2), X as (X0 & X1 & X2). unfold veq, vscl, vmul in *. cbn [c0 c1 c2] in *. rewrite V0, V1, V2, X0, X1, X2.
    assert (J : i = 0%nat \/ i = 1%nat \/ i = 2%nat) by lia. destruct J as [J|[J|J]]; subst i; cbn [unit c0 c1 c2 comp]; repeat split; ring. }
  set (z := sg s * k * comp (cof s) i * a) in *. clearbody z.
  assert (ZZ : z == 1 \/ z == - (1)).
  { revert A. apply Qabs_case; intros; [left|right]; lra. }
  destruct ZZ as [Z1|Z1]; [left|right]; destruct Y as (Y0 & Y1 & Y2); unfold veq, vscl, vneg in *; cbn [c0 c1 c2] in *;
    rewrite Y0, Y1, Y2, Z1; repeat split; ring.
Qed.

Lemma unit_comp : forall i v, (i <= 2)%nat -> (veq v (unit i) -> comp v i == 1) /\ (veq v (vneg (unit i)) -> comp v i == - (1)).
Proof.
  intros i v L. assert (J : i = 0%nat \/ i = 1%nat \/ i = 2%nat) by lia.
  destruct J as [J|[J|J]]; subst i; split; intros (A & B & C); cbn [comp unit vneg c0 c1 c2] in *; lra.
Qed.

Lemma add_ok : forall nrm s p en ed l, nrm_ok nrm -> nz s -> pl_ok p -> type_ok p -> 0 <= en -> 0 <= ed -> paired l ->
  exists l' i q, add_plane l (scale_plane nrm s p) = ROk (l ++ l', i) /\ paired (l ++ l') /\
    nth_error (l ++ l') i = Some q /\ near en ed q (scale_plane nrm s p).
Proof.
  intros nrm s p en ed l NR NZ P T EN ED PA. destruct (scaled nrm s p NR NZ P) as (k & K & V & _ & TY & _).
  pose proof (scaled_unit nrm s p NR NZ P T) as SU. unfold add_plane. set (q := scale_plane nrm s p) in *. rewrite TY.
  destruct T as (T0 & _). pose proof (Z.rem_nonneg (pt p) 3 ltac:(lia) T0) as R0.
  replace (Z.rem (pt p) 3 <? 0)%Z with false by (symmetry; apply Z.ltb_ge; lia).
  assert (SM : (pt p < 3)%Z -> forall i, pt p = Z.of_nat i -> Z.to_nat (Z.rem (pt p) 3) = i /\ (i <= 2)%nat).
  { intros L i I. rewrite Z.rem_small by lia. split; lia. }
  destruct (Qltb (comp (pn q) (Z.to_nat (Z.rem (pt p) 3))) 0) eqn:E; [apply Qltb_lt in E|apply Qltb_ge in E].
  - exists [pneg q; q], (S (length l)), q. split; [reflexivity|]. split; [|split; [|apply near_refl; assumption]].
    + apply paired_snoc; [exact PA| |apply opp_neg]. apply fast_unit. cbn [pneg pt pn]. rewrite TY. intro L.
      destruct (SU L) as (i & I & D). exists i. split; [exact I|]. destruct (SM L i I) as (M & M2). rewrite M in E.
      destruct D as [D|D].
      * apply (unit_comp i _ M2) in D. lra.
      * destruct D as (D0 & D1 & D2). unfold veq, vneg in *. cbn [c0 c1 c2] in *. rewrite D0, D1, D2. repeat split; ring.
    + rewrite nth_error_app2 by lia. replace (S (length l) - length l)%nat with 1%nat by lia. reflexivity.
  - exists [q; pneg q], (length l), q. split; [reflexivity|]. split; [|split; [|apply near_refl; assumption]].
    + apply paired_snoc; [exact PA| |apply opp_neg]. apply fast_unit. rewrite TY. intro L.
      destruct (SU L) as (i & I & D). exists i. split; [exact I|]. destruct (SM L i I) as (M & M2). rewrite M in E.
      destruct D as [D|D]; [exact D|]. apply (unit_comp i _ M2) in D. lra.
    + rewrite nth_error_app2 by lia. replace (length l - length l)%nat with 0%nat by lia. reflexivity.
Qed.

Lemma rebuild_ok : forall nrm find s en ed, nrm_ok nrm -> nz s -> find_near en ed find -> 0 <= en -> 0 <= ed ->
  forall ps l, Forall (fun p => pl_ok p /\ type_ok p) ps -> paired l ->
  exists l' m, rebuild nrm find s ps l = ROk (l ++ l', m) /\ paired (l ++ l') /\ length m = length ps /\
    forall i p, nth_error ps i = Some p -> exists q, nth_error (l ++ l') (nth i m 0%nat) = Some q /\ near en ed q (scale_plane nrm s p).
Proof.
  intros nrm find s en ed NR NZ FN EN ED. induction ps as [|p ps IH]; intros l FA PA; cbn [rebuild].
  - exists [], []. rewrite app_nil_r. split; [reflexivity|]. split; [exact PA|]. split; [reflexivity|]. intros j p N. destruct j; discriminate.
  - inversion FA as [|? ? (PO & TO) FA']; subst.
    assert (A : exists l1 i q, add_or_find find l (scale_plane nrm s p) = ROk (l ++ l1, i) /\ paired (l ++ l1) /\
      nth_error (l ++ l1) i = Some q /\ near en ed q (scale_plane nrm s p)).
    { unfold add_or_find. destruct (find l (scale_plane nrm s p)) as [i|] eqn:F.
      - destruct (FN _ _ _ F) as (q & Q & N). exists [], i, q. rewrite app_nil_r. split; [reflexivity|]. split; [exact PA|]. split; [exact Q|exact N].
      - apply add_ok; assumption. }
    destruct A as (l1 & i & q & A1 & A2 & A3 & A4). rewrite A1. cbn [rbind fst snd].
    destruct (IH (l ++ l1) FA' A2) as (l2 & m & B1 & B2 & B3 & B4). rewrite B1. cbn [rbind fst snd].
    exists (l1 ++ l2), (i :: m). rewrite app_assoc. split; [reflexivity|]. split; [exact B2|]. split; [cbn; lia|].
    intros [|j] p' N; cbn [nth_error nth] in *.
    + injection N as <-. exists q. split; [|exact A4]. rewrite nth_error_app1; [exact A3|]. apply nth_error_Some. congruence.
    + apply B4. exact N.
Qed.

(** A point clear of a plane is on the same side of every plane near it. *)
Definition norm1 (v : V) : Q := Qabs (c0 v) + Qabs (c1 v) + Qabs (c2 v).
Lemma near_side : forall en ed q p y, near en ed q p -> 
  Qabs ((dot y (pn q) - pd q) - (dot y (pn p) - pd p)) <= en * norm1 y + ed.
Proof.
  intros en ed q p y (N0 & N1 & N2 & ND).
  setoid_replace ((dot y (pn q) - pd q) - (dot y (pn p) - pd p)) with
    (c0 y * (c0 (pn q) - c0 (pn p)) + c1 y * (c1 (pn q) - c1 (pn p)) + c2 y * (c2 (pn q) - c2 (pn p)) + - (pd q - pd p))
    by (unfold dot; ring).
  assert (M : forall a b, Qabs b <= en -> Qabs (a * b) <= en * Qabs a).
  { intros a b H. rewrite Qabs_Qmult. rewrite (Qmult_comm en). pose proof (Qabs_nonneg a). nra. }
  pose proof (M (c0 y) _ N0). pose proof (M (c1 y) _ N1). pose proof (M (c2 y) _ N2).
  pose proof (Qabs_opp (pd q - pd p)) as OP.
  eapply Qle_trans; [apply Qabs_triangle|].
  eapply Qle_trans; [apply Qplus_le_compat; [eapply Qle_trans; [apply Qabs_triangle|apply Qplus_le_compat; [apply Qabs_triangle|apply Qle_refl]]|apply Qle_refl]|].
  rewrite OP. unfold norm1. lra.
Qed.

Lemma same_side : forall e a b, Qabs (a - b) <= e -> e < Qabs b -> (0 < b -> 0 < a) /\ (b < 0 -> a < 0).
Proof.
  intros e a b H L. apply Qabs_Qle_condition in H. revert L. apply Qabs_case; intros; split; intros; lra.
Qed.

Definition swap (n : node) : node := mkNode (nd_plane n) (nd_back n) (nd_front n).

Lemma clear_side : forall nrm s p q en ed x, nrm_ok nrm -> nz s -> pl_ok p -> near en ed q (scale_plane nrm s p) ->
  0 <= en -> 0 <= ed ->
  en * norm1 (vmul x s) + ed < Qabs (dot (vmul x s) (pn (scale_plane nrm s p)) - pd (scale_plane nrm s p)) ->
  let a := dot (vmul x s) (pn q) - pd q in let b := dot x (pn p) - pd p in
  (flips s <> 2%nat -> 0 < a /\ 0 < b \/ a < 0 /\ b < 0) /\ (flips s = 2%nat -> 0 < a /\ b < 0 \/ a < 0 /\ 0 < b).
Proof.
  intros nrm s p q en ed x NR NZ P N EN ED C a b.
  destruct (scaled nrm s p NR NZ P) as (k & K & _ & D & _). specialize (D x).
  pose proof (near_side _ _ _ _ (vmul x s) N) as NS. destruct (same_side _ _ _ NS C) as (S1 & S2). fold a in S1, S2. fold b in D.
  set (z := dot (vmul x s) (pn (scale_plane nrm s p)) - pd (scale_plane nrm s p)) in *.
  assert (ZZ : ~ z == 0).
  { intro E. rewrite E in C. change (Qabs 0) with 0 in C. assert (0 <= en * norm1 (vmul x s)).
    { apply Qmult_le_0_compat; [exact EN|]. unfold norm1. pose proof (Qabs_nonneg (c0 (vmul x s))). pose proof (Qabs_nonneg (c1 (vmul x s))). pose proof (Qabs_nonneg (c2 (vmul x s))). lra. }
    lra. }
  destruct (sg_det s NZ) as (G1 & G2). clearbody a z b. clear NS C.
  assert (T : z < 0 \/ 0 < z).
  { destruct (Qlt_le_dec z 0) as [L|L]; [left; exact L|right]. apply Qle_lteq in L. destruct L as [L|L]; [exact L|]. exfalso. apply ZZ. symmetry. exact L. }
  set (w := sg s * det s) in *. clearbody w.
  split; intro F; [specialize (G1 F); clear G2|specialize (G2 F); clear G1].
  - assert (KW : 0 < k * w) by (apply Qmult_lt_0_compat; assumption). set (kw := k * w) in *. clearbody kw.
    destruct T as [T|T]; [right|left]; (split; [auto|]); destruct (Qlt_le_dec b 0) as [L|L]; try (left; exact L); try lra; try nra.
  - assert (KW : 0 < k * - w) by (apply Qmult_lt_0_compat; [assumption|lra]). assert (D' : z == - ((k * - w) * b)) by (rewrite D; ring). set (kw := k * - w) in *. clearbody kw.
    destruct T as [T|T]; [right|left]; (split; [auto|]); destruct (Qlt_le_dec b 0) as [L|L]; try lra; try nra.
Qed.

Lemma Qle_bool_false : forall a b, b < a -> Qle_bool a b = false.
Proof. intros a b H. destruct (Qle_bool a b) eqn:E; [|reflexivity]. apply Qle_bool_iff in E. lra. Qed.
Lemma Qle_bool_true : forall a b, a < b -> Qle_bool a b = true.
Proof. intros a b H. apply Qle_bool_iff. lra. Qed.

Lemma walk_scaled : forall nrm s en ed ps l m ns x, nrm_ok nrm -> nz s -> 0 <= en -> 0 <= ed -> paired l ->
  Forall pl_ok ps -> length m = length ps ->
  (forall i p, nth_error ps i = Some p -> exists q, nth_error l (nth i m 0%nat) = Some q /\ near en ed q (scale_plane nrm s p)) ->
  (forall d p, In d ns -> nth_error ps (Z.to_nat (nd_plane d)) = Some p -> fast_ok p /\
     en * norm1 (vmul x s) + ed < Qabs (dot (vmul x s) (pn (scale_plane nrm s p)) - pd (scale_plane nrm s p))) ->
  forall fuel n r, walk fuel ps (if (flips s =? 2)%nat then map swap ns else ns) x n = Some r ->
    walk fuel l (map (scale_node m) ns) (vmul x s) n = Some r.
Proof.
  intros nrm s en ed ps l m ns x NR NZ EN ED (EL & PA) PO LM MP HC. induction fuel as [|fuel IH]; intros n r W; cbn [walk] in *.
  { exact W. }
  destruct (n <? 0)%Z; [exact W|]. rewrite nth_error_map.
  set (ref := if (flips s =? 2)%nat then map swap ns else ns) in *.
  assert (R : nth_error ref (Z.to_nat n) = option_map (fun d => if (flips s =? 2)%nat then swap d else d) (nth_error ns (Z.to_nat n))).
  { unfold ref. destruct (flips s =? 2)%nat; [apply nth_error_map|]. destruct (nth_error ns (Z.to_nat n)); reflexivity. }
  rewrite R in W. destruct (nth_error ns (Z.to_nat n)) as [d|] eqn:ND; cbn [option_map] in *; [|discriminate].
  assert (PD : nd_plane (if (flips s =? 2)%nat then swap d else d) = nd_plane d) by (destruct (flips s =? 2)%nat; reflexivity).
  rewrite PD in W. destruct (nd_plane d <? 0)%Z eqn:NEG; [discriminate|].
  destruct (nth_error ps (Z.to_nat (nd_plane d))) as [p|] eqn:NP; [|discriminate].
  destruct (HC d p (nth_error_In _ _ ND) NP) as (FO & CL).
  destruct (MP _ _ NP) as (q & NQ & NE).
  assert (POP : pl_ok p) by (rewrite Forall_forall in PO; apply PO; eapply nth_error_In; exact NP).
  pose proof (clear_side nrm s p q en ed x NR NZ POP NE EN ED CL) as (S1 & S2).
  specialize (FO x).
  set (a := dot (vmul x s) (pn q) - pd q) in *. set (b := dot x (pn p) - pd p) in *.
  unfold scale_node, remap. rewrite NEG. set (rr := nth (Z.to_nat (nd_plane d)) m 0%nat) in *.
  destruct (Nat.odd rr) eqn:OD; cbn [nd_plane nd_front nd_back].
  - (* odd: the plane before it is the opposite *)
    assert (RP : exists rp, rr = S rp /\ Nat.even rp = true).
    { destruct rr as [|rp]; [discriminate|]. exists rp. split; [reflexivity|]. rewrite Nat.odd_succ in OD. exact OD. }
    destruct RP as (rp & E & EV). rewrite E in NQ |- *. replace (S rp - 1)%nat with rp by lia.
    replace (Z.of_nat rp <? 0)%Z with false by (symmetry; apply Z.ltb_ge; lia). rewrite Nat2Z.id.
    destruct (nth_error l rp) as [u|] eqn:NU.
    2: { apply nth_error_None in NU. assert (nth_error l (S rp) <> None) by congruence. apply nth_error_Some in H. lia. }
    destruct (PA _ _ NU EV) as (FU & q' & NQ' & (OV & OD')). assert (q' = q) by congruence. subst q'.
    assert (DU : dist_fast u (vmul x s) == - a).
    { etransitivity; [apply FU|]. unfold a. destruct OV as (O0 & O1 & O2). unfold dot, vneg in *. cbn [c0 c1 c2] in *. rewrite O0, O1, O2, OD'. ring. }
    destruct (flips s =? 2)%nat eqn:F2.
    + apply Nat.eqb_eq in F2. destruct (S2 F2) as [(A & B)|(A & B)].
      * rewrite (Qle_bool_false 0 (dist_fast p x)) in W by lra. rewrite (Qle_bool_false 0 (dist_fast u _)) by lra. cbn [swap nd_back] in W. apply IH. exact W.
      * rewrite (Qle_bool_true 0 (dist_fast p x)) in W by lra. rewrite (Qle_bool_true 0 (dist_fast u _)) by lra. cbn [swap nd_front] in W. apply IH. exact W.
    + apply Nat.eqb_neq in F2. destruct (S1 F2) as [(A & B)|(A & B)].
      * rewrite (Qle_bool_true 0 (dist_fast p x)) in W by lra. rewrite (Qle_bool_false 0 (dist_fast u _)) by lra. apply IH. exact W.
      * rewrite (Qle_bool_false 0 (dist_fast p x)) in W by lra. rewrite (Qle_bool_true 0 (dist_fast u _)) by lra. apply IH. exact W.
  - assert (EV : Nat.even rr = true) by (rewrite <- Nat.negb_odd, OD; reflexivity).
    replace (Z.of_nat rr <? 0)%Z with false by (symmetry; apply Z.ltb_ge; lia). rewrite Nat2Z.id, NQ.
    destruct (PA _ _ NQ EV) as (FU & _).
    assert (DU : dist_fast q (vmul x s) == a) by apply FU.
    destruct (flips s =? 2)%nat eqn:F2.
    + apply Nat.eqb_eq in F2. destruct (S2 F2) as [(A & B)|(A & B)].
      * rewrite (Qle_bool_false 0 (dist_fast p x)) in W by lra. rewrite (Qle_bool_true 0 (dist_fast q _)) by lra. cbn [swap nd_back] in W. apply IH. exact W.
      * rewrite (Qle_bool_true 0 (dist_fast p x)) in W by lra. rewrite (Qle_bool_false 0 (dist_fast q _)) by lra. cbn [swap nd_front] in W. apply IH. exact W.
    + apply Nat.eqb_neq in F2. destruct (S1 F2) as [(A & B)|(A & B)].
      * rewrite (Qle_bool_true 0 (dist_fast p x)) in W by lra. rewrite (Qle_bool_true 0 (dist_fast q _)) by lra. apply IH. exact W.
      * rewrite (Qle_bool_false 0 (dist_fast p x)) in W by lra. rewrite (Qle_bool_false 0 (dist_fast q _)) by lra. apply IH. exact W.
Qed.

(** Reversing the surfedges. *)
Definition apart (f g : face) : Prop := (fc_first f + fc_num f <= fc_first g)%nat \/ (fc_first g + fc_num g <= fc_first f)%nat.
Definition in_edges (l : list Z) (f : face) : Prop := (fc_first f + fc_num f <= length l)%nat.

Lemma split3 : forall (l : list Z) a n, (a + n <= length l)%nat ->
  exists l1 l2 l3, l = l1 ++ l2 ++ l3 /\ length l1 = a /\ length l2 = n.
Proof.
  intros l a n H. exists (firstn a l), (firstn n (skipn a l)), (skipn n (skipn a l)).
  rewrite !firstn_skipn. split; [reflexivity|]. rewrite !firstn_length, skipn_length. lia.
Qed.

Lemma cut : forall (l1 l2 l3 : list Z), firstn (length l2) (skipn (length l1) (l1 ++ l2 ++ l3)) = l2.
Proof. intros. rewrite skipn_app, skipn_all, Nat.sub_diag. cbn. rewrite firstn_app, Nat.sub_diag, firstn_all. cbn. apply app_nil_r. Qed.

Lemma reverse_part_ok : forall l f, in_edges l f -> exists l', reverse_part l (fc_first f) (fc_num f) = ROk l' /\ length l' = length l /\
  face_edges l' f = rev (face_edges l f) /\ (forall g, apart f g -> face_edges l' g = face_edges l g).
Proof.
  intros l f H. unfold in_edges in H. unfold reverse_part, face_edges, apart. rewrite (proj2 (Nat.leb_le _ _) H). eexists. split; [reflexivity|].
  destruct (split3 l _ _ H) as (l1 & l2 & l3 & E & L1 & L2). rewrite E, <- L1, <- L2. clear H E.
  rewrite cut. replace (firstn (length l1) (l1 ++ l2 ++ l3)) with l1 by (rewrite firstn_app, Nat.sub_diag, firstn_all; cbn; rewrite app_nil_r; reflexivity).
  replace (skipn (length l1 + length l2) (l1 ++ l2 ++ l3)) with l3.
  2: { rewrite app_assoc, <- app_length, skipn_app, skipn_all, Nat.sub_diag. reflexivity. }
  split; [rewrite !app_length, rev_length; lia|]. split.
  - rewrite <- (rev_length l2) at 1. apply cut.
  - intros g [A|A].
    + rewrite !(app_assoc l1), (skipn_app _ (l1 ++ rev l2)), (skipn_app _ (l1 ++ l2)). f_equal. rewrite !app_length, rev_length.
      rewrite (skipn_all2 (l1 ++ rev l2)) by (rewrite app_length, rev_length; lia). rewrite (skipn_all2 (l1 ++ l2)) by (rewrite app_length; lia). reflexivity.
    + rewrite !skipn_app. rewrite !firstn_app. rewrite !skipn_length.
      replace (fc_num g - (length l1 - fc_first g))%nat with 0%nat by lia. rewrite !firstn_O. reflexivity.
Qed.

Lemma reverse_faces_ok : forall fs l, Forall (in_edges l) fs -> ForallOrdPairs apart fs ->
  exists l', reverse_faces fs l = ROk l' /\ length l' = length l /\
    (forall f, In f fs -> face_edges l' f = rev (face_edges l f)) /\
    (forall g, Forall (fun f => apart f g) fs -> face_edges l' g = face_edges l g).
Proof.
  induction fs as [|f fs IH]; intros l I A; cbn [reverse_faces].
  - exists l. split; [reflexivity|]. split; [reflexivity|]. split; [intros f []|reflexivity]. 
  - inversion I as [|? ? I1 I2]; subst. inversion A as [|? ? A1 A2]; subst.
    destruct (reverse_part_ok l f I1) as (l1 & E & L & R & O). rewrite E. cbn [rbind].
    destruct (IH l1) as (l2 & E2 & L2 & R2 & O2).
    { rewrite Forall_forall in *. intros g G. unfold in_edges in *. rewrite L. apply I2. exact G. }
    { exact A2. }
    exists l2. split; [exact E2|]. split; [congruence|]. split.
    + intros g [<-|G].
      * rewrite O2; [exact R|]. rewrite Forall_forall in *. intros g G. specialize (A1 g G). unfold apart in *. tauto.
      * rewrite R2 by exact G. f_equal. apply O. rewrite Forall_forall in A1. apply A1. exact G.
    + intros g G. inversion G as [|? ? G1 G2]; subst. rewrite O2 by exact G2. apply O. exact G1.
Qed.
