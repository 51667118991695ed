(* Bounds of the two sides of a plane (C163). *)
From Coq Require Import List Arith QArith Qabs Bool Lia Lqa Qfield.
From Verif Require Import DivideModel.
Import ListNotations.
Local Open Scope Q_scope.

Lemma ltb_t : forall a b, ltb a b = true <-> a < b.
Proof. intros. unfold ltb. rewrite negb_true_iff. rewrite <- not_true_iff_false, Qle_bool_iff. split; [apply Qnot_le_lt|apply Qlt_not_le]. Qed.
Lemma ltb_f : forall a b, ltb a b = false <-> b <= a.
Proof. intros. unfold ltb. rewrite negb_false_iff. apply Qle_bool_iff. Qed.
Lemma min2_s : forall a b, (min2 a b = a /\ a <= b) \/ (min2 a b = b /\ b < a).
Proof. intros. unfold min2. destruct (ltb b a) eqn:E; [right; apply ltb_t in E|left; apply ltb_f in E]; auto. Qed.
Lemma max2_s : forall a b, (max2 a b = a /\ b <= a) \/ (max2 a b = b /\ a < b).
Proof. intros. unfold max2. destruct (ltb a b) eqn:E; [right; apply ltb_t in E|left; apply ltb_f in E]; auto. Qed.

(** A point of a box; a point in front of a plane or behind it (not strictly). *)
Definition inside (p : vec) (b : box) : Prop := forall k, (k < 3)%nat -> fst b k <= p k /\ p k <= snd b k.
Definition ahead (n : vec) (d : Q) (p : vec) : Prop := d <= n 0%nat * p 0%nat + n 1%nat * p 1%nat + n 2%nat * p 2%nat.
Definition behind (n : vec) (d : Q) (p : vec) : Prop := n 0%nat * p 0%nat + n 1%nat * p 1%nat + n 2%nat * p 2%nat <= d.
Definition thick (b : box) : Prop := forall k, (k < 3)%nat -> fst b k < snd b k.
(** The plane is the axial one of the axis t, facing its positive direction. *)
Definition faces (n : vec) (t : nat) : Prop := (t < 3)%nat /\ n t == 1 /\ forall k, (k < 3)%nat -> k <> t -> n k == 0.

Notation nb a := ((a + 1) mod 3)%nat.
Notation nc a := ((a + 2) mod 3)%nat.
Lemma dot_at : forall a (n : vec) x, (a < 3)%nat -> n 0%nat * x 0%nat + n 1%nat * x 1%nat + n 2%nat * x 2%nat == n a * x a + n (nb a) * x (nb a) + n (nc a) * x (nc a).
Proof. intros a n x L. destruct a as [|[|[|a]]]; [cbn; ring..|lia]. Qed.
Lemma others : forall a, (a < 3)%nat -> (nb a < 3)%nat /\ (nc a < 3)%nat /\ nb a <> a /\ nc a <> a /\ nb a <> nc a /\ forall k, (k < 3)%nat -> k = a \/ k = nb a \/ k = nc a.
Proof. intros a L. destruct a as [|[|[|a]]]; [cbn; repeat split; lia..|lia]. Qed.
Lemma corner_at : forall a u v w, (a < 3)%nat -> corner a u v w a = u /\ corner a u v w (nb a) = v /\ corner a u v w (nc a) = w.
Proof. intros a u v w L. destruct a as [|[|[|a]]]; [repeat split..|lia]. Qed.

Lemma mid_spec : forall (n : vec) d (bx : box) a ij, (a < 3)%nat -> fst bx a < snd bx a -> ~ n a == 0 ->
  exists m, mid n d bx a ij = Some m /\ n a * m == d - n (nb a) * side bx (fst ij) (nb a) - n (nc a) * side bx (snd ij) (nc a).
Proof.
  intros n d bx a ij L T Z. unfold mid, dot. cbv zeta.
  set (vb := side bx (fst ij) (nb a)). set (vc := side bx (snd ij) (nc a)).
  assert (E : forall v, corner a v vb vc 0%nat * n 0%nat + corner a v vb vc 1%nat * n 1%nat + corner a v vb vc 2%nat * n 2%nat == n a * v + n (nb a) * vb + n (nc a) * vc).
  { intro v. rewrite (dot_at a (corner a v vb vc) n L). destruct (corner_at a v vb vc L) as (-> & -> & ->). ring. }
  set (f := fun v => n 0%nat * corner a v vb vc 0%nat + n 1%nat * corner a v vb vc 1%nat + n 2%nat * corner a v vb vc 2%nat).
  assert (F : forall v, f v == n a * v + n (nb a) * vb + n (nc a) * vc) by (intro v; rewrite <- E; unfold f; ring).
  change (exists m, (if Qeq_bool (f (fst bx a) - d - (f (snd bx a) - d)) 0 then None else Some ((snd bx a - fst bx a) * ((f (fst bx a) - d) / (f (fst bx a) - d - (f (snd bx a) - d))) + fst bx a)) = Some m /\ n a * m == d - n (nb a) * vb - n (nc a) * vc).
  assert (D : f (fst bx a) - d - (f (snd bx a) - d) == n a * (fst bx a - snd bx a)) by (rewrite !F; ring).
  assert (N : ~ n a * (fst bx a - snd bx a) == 0) by (intro H; apply Qmult_integral in H as [H|H]; [exact (Z H)|lra]).
  destruct (Qeq_bool _ 0) eqn:Q. { apply Qeq_bool_iff in Q. rewrite D in Q. contradiction. }
  eexists. split; [reflexivity|]. rewrite D, F. field. split; [lra|exact Z].
Qed.

(** What the loop over the corners computes. *)
Definition good (lo hi : Q) (ms : list Q) (s1 s2 : Q) : Prop :=
  lo <= s1 /\ s1 <= hi /\ lo <= s2 /\ s2 <= hi /\ (forall m, In m ms -> s1 <= m \/ s1 <= lo) /\ (forall m, In m ms -> m <= s2 \/ hi <= s2) /\
  (s1 == hi \/ exists m, In m ms /\ m <= s1) /\ (s2 == lo \/ exists m, In m ms /\ s2 <= m).
Lemma good_step : forall lo hi ms s1 s2 m, lo <= hi -> good lo hi ms s1 s2 -> good lo hi (m :: ms) (max2 (min2 m s1) lo) (min2 (max2 m s2) hi).
Proof.
  intros lo hi ms s1 s2 m L (A & B & C & D & E & F & G & H). unfold good.
  pose proof (min2_s m s1) as M1. pose proof (max2_s m s2) as M2. pose proof (max2_s (min2 m s1) lo) as M3. pose proof (min2_s (max2 m s2) hi) as M4.
  set (t1 := max2 (min2 m s1) lo) in *. set (t2 := min2 (max2 m s2) hi) in *.
  assert (T1 : lo <= t1 /\ t1 <= s1 /\ (t1 <= m \/ t1 <= lo) /\ (t1 == s1 \/ m <= t1)).
  { destruct M1 as [(M1 & M1')|(M1 & M1')]; destruct M3 as [(M3 & M3')|(M3 & M3')]; rewrite M1 in *; rewrite M3; repeat split; try lra; try (left; lra); right; lra. }
  assert (T2 : t2 <= hi /\ s2 <= t2 /\ (m <= t2 \/ hi <= t2) /\ (t2 == s2 \/ t2 <= m)).
  { destruct M2 as [(M2 & M2')|(M2 & M2')]; destruct M4 as [(M4 & M4')|(M4 & M4')]; rewrite M2 in *; rewrite M4; repeat split; try lra; try (left; lra); right; lra. }
  clear M1 M2 M3 M4. clearbody t1 t2. destruct T1 as (T1 & T1' & T1'' & T3). destruct T2 as (T2 & T2' & T2'' & T4).
  split; [lra|]. split; [lra|]. split; [lra|]. split; [lra|]. split; [|split; [|split]].
  - intros x [<-|I]; [exact T1''|]. destruct (E x I); [left|right]; lra.
  - intros x [<-|I]; [exact T2''|]. destruct (F x I); [left|right]; lra.
  - destruct T3 as [T3|T3]; [|right; exists m; split; [left; reflexivity|exact T3]]. destruct G as [G|(x & I & K)]; [left; lra|right; exists x; split; [right; exact I|lra]].
  - destruct T4 as [T4|T4]; [|right; exists m; split; [left; reflexivity|exact T4]]. destruct H as [H|(x & I & K)]; [left; lra|right; exists x; split; [right; exact I|lra]].
Qed.
Lemma good_nil : forall lo hi, lo <= hi -> good lo hi [] hi lo.
Proof. intros lo hi L. unfold good. split; [exact L|]. split; [apply Qle_refl|]. split; [apply Qle_refl|]. split; [exact L|]. split; [intros m []|]. split; [intros m []|]. split; left; reflexivity. Qed.
Lemma cut_spec : forall (n : vec) d (bx : box) a, (a < 3)%nat -> fst bx a < snd bx a -> ~ n a == 0 ->
  exists s1 s2 ms, cut n d bx a = Some (s1, s2) /\ good (fst bx a) (snd bx a) ms s1 s2 /\
    (forall m, In m ms -> exists i j, n a * m == d - n (nb a) * side bx i (nb a) - n (nc a) * side bx j (nc a)) /\
    (forall i j, exists m, In m ms /\ n a * m == d - n (nb a) * side bx i (nb a) - n (nc a) * side bx j (nc a)).
Proof.
  intros n d bx a L T Z. unfold cut, corners. cbn [fold_left].
  destruct (mid_spec n d bx a (false, false) L T Z) as (m1 & -> & E1). destruct (mid_spec n d bx a (false, true) L T Z) as (m2 & -> & E2).
  destruct (mid_spec n d bx a (true, false) L T Z) as (m3 & -> & E3). destruct (mid_spec n d bx a (true, true) L T Z) as (m4 & -> & E4).
  cbn [fst snd] in E1, E2, E3, E4. do 2 eexists. exists [m4; m3; m2; m1]. split; [reflexivity|]. split; [|split].
  - do 4 (apply good_step; [apply Qlt_le_weak; exact T|]). apply good_nil. apply Qlt_le_weak. exact T.
  - intros m [<-|[<-|[<-|[<-|[]]]]]; eauto.
  - intros [|] [|]; [exists m4|exists m3|exists m2|exists m1]; (split; [cbn; tauto|assumption]).
Qed.
Lemma best : forall c l h, l <= h -> exists i : bool, forall x, l <= x -> x <= h -> c * x <= c * (if i then h else l).
Proof. intros c l h L. destruct (Qlt_le_dec c 0) as [H|H]; [exists false|exists true]; intros x A B; nra. Qed.
Lemma worst : forall c l h, l <= h -> exists i : bool, forall x, l <= x -> x <= h -> c * (if i then h else l) <= c * x.
Proof. intros c l h L. destruct (Qlt_le_dec c 0) as [H|H]; [exists true|exists false]; intros x A B; nra. Qed.
Lemma side_if : forall (bx : box) (i : bool) k, side bx i k = if i then snd bx k else fst bx k. Proof. intros bx [|] k; reflexivity. Qed.

(** On an axis: where points in front and behind are. *)
Lemma cut_points : forall (n : vec) d (bx : box) a s1 s2, (a < 3)%nat -> thick bx -> ~ n a == 0 -> cut n d bx a = Some (s1, s2) ->
  forall p : vec, inside p bx -> (ahead n d p -> (0 < n a -> s1 <= p a) /\ (n a < 0 -> p a <= s2)) /\ (behind n d p -> (0 < n a -> p a <= s2) /\ (n a < 0 -> s1 <= p a)).
Proof.
  intros n d bx a s1 s2 L T Z C p I. destruct (cut_spec n d bx a L (T a L) Z) as (s1' & s2' & ms & C' & (_ & _ & _ & _ & G1 & G2 & _) & _ & M). rewrite C in C'. injection C' as <- <-.
  destruct (others a L) as (Lb & Lc & _). destruct (I a L) as (Pa & Pa'). destruct (I _ Lb) as (Pb & Pb'). destruct (I _ Lc) as (Pc & Pc'). pose proof (T _ Lb) as Tb. pose proof (T _ Lc) as Tc.
  split; intro H; [unfold ahead in H|unfold behind in H]; rewrite (dot_at a n p L) in H.
  - destruct (best (n (nb a)) (fst bx (nb a)) (snd bx (nb a)) ltac:(lra)) as (i & Bi). destruct (best (n (nc a)) (fst bx (nc a)) (snd bx (nc a)) ltac:(lra)) as (j & Bj).
    specialize (Bi (p (nb a)) Pb Pb'). specialize (Bj (p (nc a)) Pc Pc'). destruct (M i j) as (m & Im & Em). rewrite !side_if in Em.
    assert (Q : n a * m <= n a * p a) by lra. split; intro S.
    + assert (m <= p a) by nra. destruct (G1 m Im); lra.
    + assert (p a <= m) by nra. destruct (G2 m Im); lra.
  - destruct (worst (n (nb a)) (fst bx (nb a)) (snd bx (nb a)) ltac:(lra)) as (i & Bi). destruct (worst (n (nc a)) (fst bx (nc a)) (snd bx (nc a)) ltac:(lra)) as (j & Bj).
    specialize (Bi (p (nb a)) Pb Pb'). specialize (Bj (p (nc a)) Pc Pc'). destruct (M i j) as (m & Im & Em). rewrite !side_if in Em.
    assert (Q : n a * p a <= n a * m) by lra. split; intro S.
    + assert (p a <= m) by nra. destruct (G2 m Im); lra.
    + assert (m <= p a) by nra. destruct (G1 m Im); lra.
Qed.

(** The bounds after the loop, axis by axis. *)
Definition axis_ok (n : vec) (d eps : Q) (bx f b : box) (a : nat) : Prop :=
  (Qabs (n a) < eps /\ fst f a = fst bx a /\ snd f a = snd bx a /\ fst b a = fst bx a /\ snd b a = snd bx a) \/
  (eps <= Qabs (n a) /\ exists s1 s2, cut n d bx a = Some (s1, s2) /\
    ((0 < n a /\ fst f a = s1 /\ snd f a = snd bx a /\ fst b a = fst bx a /\ snd b a = s2) \/ (n a <= 0 /\ fst f a = fst bx a /\ snd f a = s2 /\ fst b a = s1 /\ snd b a = snd bx a))).
Definition untouched (bx f b : box) (k : nat) : Prop := fst f k = fst bx k /\ snd f k = snd bx k /\ fst b k = fst bx k /\ snd b k = snd bx k.
Lemma turn_spec : forall (n : vec) d eps (bx : box) (f b : box) a f' b', untouched bx f b a -> turn n d eps bx (Some (f, b)) a = Some (f', b') -> axis_ok n d eps bx f' b' a /\
  forall k, k <> a -> fst f' k = fst f k /\ snd f' k = snd f k /\ fst b' k = fst b k /\ snd b' k = snd b k.
Proof.
  intros n d eps bx f b a f' b' (U1 & U2 & U3 & U4) H. unfold turn in H. destruct (ltb (Qabs (n a)) eps) eqn:E.
  - injection H as <- <-. apply ltb_t in E. split; [left; auto|auto].
  - apply ltb_f in E. destruct (cut n d bx a) as [(s1, s2)|] eqn:C; [|discriminate]. destruct (ltb 0 (n a)) eqn:S; injection H as <- <-; cbn [fst snd].
    + apply ltb_t in S. split; [right; split; [exact E|]; exists s1, s2; split; [exact C|]; left; cbn [fst snd]; unfold set; rewrite Nat.eqb_refl; auto|].
      intros k K. unfold set. apply Nat.eqb_neq in K. rewrite K. auto.
    + apply ltb_f in S. split; [right; split; [exact E|]; exists s1, s2; split; [exact C|]; right; cbn [fst snd]; unfold set; rewrite Nat.eqb_refl; auto|].
      intros k K. unfold set. apply Nat.eqb_neq in K. rewrite K. auto.
Qed.
Lemma axis_ok_eq : forall (n : vec) d eps (bx : box) (f b f' b' : box) k, axis_ok n d eps bx f b k -> fst f' k = fst f k /\ snd f' k = snd f k /\ fst b' k = fst b k /\ snd b' k = snd b k -> axis_ok n d eps bx f' b' k.
Proof. intros n d eps bx f b f' b' k H (A & B & C & D). unfold axis_ok in *. rewrite A, B, C, D. exact H. Qed.
Lemma turn_none : forall (n : vec) d eps (bx : box) a, turn n d eps bx None a = None. Proof. reflexivity. Qed.
Lemma divide_spec : forall (n : vec) d eps (bx : box) (f b : box), divide n d eps bx None = Some (f, b) -> forall a, (a < 3)%nat -> axis_ok n d eps bx f b a.
Proof.
  intros n d eps bx f b H. unfold divide in H. cbn [fold_left] in H.
  destruct (turn n d eps bx (Some (bx, bx)) 0) as [(f0, b0)|] eqn:H0; [|rewrite !turn_none in H; discriminate].
  destruct (turn n d eps bx (Some (f0, b0)) 1) as [(f1, b1)|] eqn:H1; [|rewrite !turn_none in H; discriminate].
  apply turn_spec in H0 as (A0 & K0); [|repeat split].
  apply turn_spec in H1 as (A1 & K1); [|exact (K0 1%nat ltac:(lia))].
  apply turn_spec in H as (A2 & K2).
  - intros a L. destruct a as [|[|[|a]]]; [| |exact A2|lia].
    + eapply axis_ok_eq; [|exact (K2 0%nat ltac:(lia))]. eapply axis_ok_eq; [exact A0|exact (K1 0%nat ltac:(lia))].
    + eapply axis_ok_eq; [exact A1|exact (K2 1%nat ltac:(lia))].
  - destruct (K0 2%nat ltac:(lia)) as (? & ? & ? & ?). destruct (K1 2%nat ltac:(lia)) as (? & ? & ? & ?). repeat split; congruence.
Qed.
Lemma abs_nz : forall x eps, 0 < eps -> eps <= Qabs x -> ~ x == 0.
Proof. intros x eps P H E. rewrite E in H. cbn in H. lra. Qed.

(** The bounds contain what is on their side of the plane. *)
Theorem C163_contains : forall (n : vec) d eps (bx : box) axial (f b : box) (p : vec), 0 < eps -> thick bx -> (forall t, axial = Some t -> faces n t) -> divide n d eps bx axial = Some (f, b) -> inside p bx ->
  (ahead n d p -> inside p f) /\ (behind n d p -> inside p b).
Proof.
  intros n d eps bx axial f b p P T A H I. destruct axial as [t|].
  - cbn [divide] in H. injection H as <- <-. destruct (A t eq_refl) as (L & N1 & N0). destruct (others t L) as (Lb & Lc & Nb & Nc & _).
    assert (D : n 0%nat * p 0%nat + n 1%nat * p 1%nat + n 2%nat * p 2%nat == p t) by (rewrite (dot_at t n p L), N1, (N0 _ Lb Nb), (N0 _ Lc Nc); ring).
    split; intro Q; [unfold ahead in Q|unfold behind in Q]; rewrite D in Q; intros k K; destruct (I k K); cbn [fst snd]; unfold set; destruct (Nat.eqb_spec k t) as [->|]; split; assumption.
  - pose proof (divide_spec _ _ _ _ _ _ H) as S. split; intros Q k K; destruct (I k K) as (I1 & I2);
      (destruct (S k K) as [(_ & F1 & F2 & F3 & F4)|(E & s1 & s2 & C & D)]; [rewrite ?F1, ?F2, ?F3, ?F4; split; assumption|]);
      pose proof (abs_nz _ _ P E) as NZ; destruct (cut_points n d bx k s1 s2 K T NZ C p I) as (X & Y).
    + destruct (X Q) as (X1 & X2). destruct D as [(Z & F1 & F2 & _)|(Z & F1 & F2 & _)]; rewrite F1, F2; [specialize (X1 Z)|assert (Z' : n k < 0) by (destruct (Qlt_le_dec (n k) 0); [assumption|exfalso; apply NZ; lra]); specialize (X2 Z')]; split; lra.
    + destruct (Y Q) as (X1 & X2). destruct D as [(Z & _ & _ & F1 & F2)|(Z & _ & _ & F1 & F2)]; rewrite F1, F2; [specialize (X1 Z)|assert (Z' : n k < 0) by (destruct (Qlt_le_dec (n k) 0); [assumption|exfalso; apply NZ; lra]); specialize (X2 Z')]; split; lra.
Qed.

(** The bounds at a sloping plane are inside those that were divided. *)
Theorem C163_inside : forall (n : vec) d eps (bx : box) (f b : box), 0 < eps -> thick bx -> divide n d eps bx None = Some (f, b) -> forall k, (k < 3)%nat ->
  (fst bx k <= fst f k /\ snd f k <= snd bx k) /\ (fst bx k <= fst b k /\ snd b k <= snd bx k).
Proof.
  intros n d eps bx f b P T H k K. destruct (divide_spec _ _ _ _ _ _ H k K) as [(_ & -> & -> & -> & ->)|(E & s1 & s2 & C & D)]; [repeat split; apply Qle_refl|].
  destruct (cut_spec n d bx k K (T k K) (abs_nz _ _ P E)) as (s1' & s2' & ms & C' & (G1 & G2 & G3 & G4 & _) & _). rewrite C in C'. injection C' as <- <-.
  destruct D as [(_ & -> & -> & -> & ->)|(_ & -> & -> & -> & ->)]; repeat split; lra.
Qed.

(** They are not larger than they have to be: each new limit is that of a point of the box on that side. *)
Lemma corner_ok : forall a (bx : box) v i j, (a < 3)%nat -> thick bx -> fst bx a <= v -> v <= snd bx a -> inside (corner a v (side bx i (nb a)) (side bx j (nc a))) bx.
Proof.
  intros a bx v i j L T A B k K. destruct (others a L) as (Lb & Lc & _ & _ & _ & O). destruct (corner_at a v (side bx i (nb a)) (side bx j (nc a)) L) as (E1 & E2 & E3).
  pose proof (T _ Lb). pose proof (T _ Lc). destruct (O k K) as [->|[->| ->]]; [rewrite E1|rewrite E2; destruct i|rewrite E3; destruct j]; cbn [side]; split; lra.
Qed.
Theorem C163_tight : forall (n : vec) d eps (bx : box) (f b : box) a, 0 < eps -> thick bx -> divide n d eps bx None = Some (f, b) -> (a < 3)%nat -> eps <= Qabs (n a) ->
  ((exists p, inside p bx /\ ahead n d p) -> exists p, inside p bx /\ ahead n d p /\ p a == (if ltb 0 (n a) then fst f a else snd f a)) /\
  ((exists p, inside p bx /\ behind n d p) -> exists p, inside p bx /\ behind n d p /\ p a == (if ltb 0 (n a) then snd b a else fst b a)).
Proof.
  intros n d eps bx f b a P T H L E. pose proof (abs_nz _ _ P E) as NZ.
  destruct (divide_spec _ _ _ _ _ _ H a L) as [(X & _)|(_ & s1 & s2 & C & D)]; [lra|].
  destruct (cut_spec n d bx a L (T a L) NZ) as (s1' & s2' & ms & C' & (G1 & G2 & G3 & G4 & _ & _ & G5 & G6) & M & _). rewrite C in C'. injection C' as <- <-.
  pose proof (cut_points n d bx a s1 s2 L T NZ C) as CP.
  assert (PT : forall v i j, n 0%nat * corner a v (side bx i (nb a)) (side bx j (nc a)) 0%nat + n 1%nat * corner a v (side bx i (nb a)) (side bx j (nc a)) 1%nat + n 2%nat * corner a v (side bx i (nb a)) (side bx j (nc a)) 2%nat
     == n a * v + n (nb a) * side bx i (nb a) + n (nc a) * side bx j (nc a)).
  { intros v i j. rewrite (dot_at a n _ L). destruct (corner_at a v (side bx i (nb a)) (side bx j (nc a)) L) as (-> & -> & ->). reflexivity. }
  destruct D as [(Z & E1 & _ & _ & E2)|(Z & _ & E1 & E2 & _)].
  - rewrite (proj2 (ltb_t 0 (n a)) Z), E1, E2. split; intros (q & Iq & Aq); destruct (Iq a L) as (Q1 & Q2).
    + destruct G5 as [G5|(m & Im & Le)].
      * exists q. split; [exact Iq|]. split; [exact Aq|]. destruct (CP q Iq) as (X & _). destruct (X Aq) as (X1 & _). specialize (X1 Z). lra.
      * destruct (M m Im) as (i & j & Em). exists (corner a s1 (side bx i (nb a)) (side bx j (nc a))). split; [apply corner_ok; assumption|]. split; [|rewrite (proj1 (corner_at a s1 _ _ L)); reflexivity].
        unfold ahead. rewrite PT. assert (n a * m <= n a * s1) by nra. lra.
    + destruct G6 as [G6|(m & Im & Le)].
      * exists q. split; [exact Iq|]. split; [exact Aq|]. destruct (CP q Iq) as (_ & X). destruct (X Aq) as (X1 & _). specialize (X1 Z). lra.
      * destruct (M m Im) as (i & j & Em). exists (corner a s2 (side bx i (nb a)) (side bx j (nc a))). split; [apply corner_ok; assumption|]. split; [|rewrite (proj1 (corner_at a s2 _ _ L)); reflexivity].
        unfold behind. rewrite PT. assert (n a * s2 <= n a * m) by nra. lra.
  - rewrite (proj2 (ltb_f 0 (n a)) Z), E1, E2. assert (Z' : n a < 0) by (destruct (Qlt_le_dec (n a) 0); [assumption|exfalso; apply NZ; lra]).
    split; intros (q & Iq & Aq); destruct (Iq a L) as (Q1 & Q2).
    + destruct G6 as [G6|(m & Im & Le)].
      * exists q. split; [exact Iq|]. split; [exact Aq|]. destruct (CP q Iq) as (X & _). destruct (X Aq) as (_ & X1). specialize (X1 Z'). lra.
      * destruct (M m Im) as (i & j & Em). exists (corner a s2 (side bx i (nb a)) (side bx j (nc a))). split; [apply corner_ok; assumption|]. split; [|rewrite (proj1 (corner_at a s2 _ _ L)); reflexivity].
        unfold ahead. rewrite PT. assert (n a * m <= n a * s2) by nra. lra.
    + destruct G5 as [G5|(m & Im & Le)].
      * exists q. split; [exact Iq|]. split; [exact Aq|]. destruct (CP q Iq) as (_ & X). destruct (X Aq) as (_ & X1). specialize (X1 Z'). lra.
      * destruct (M m Im) as (i & j & Em). exists (corner a s1 (side bx i (nb a)) (side bx j (nc a))). split; [apply corner_ok; assumption|]. split; [|rewrite (proj1 (corner_at a s1 _ _ L)); reflexivity].
        unfold behind. rewrite PT. assert (n a * s1 <= n a * m) by nra. lra.
Qed.

(** There are bounds, and a metric that is not negative, for every box that is not flat. *)
Theorem C163_defined : forall (n : vec) d eps (bx : box) axial, 0 < eps -> thick bx -> (exists f b, divide n d eps bx axial = Some (f, b)) /\ exists m, metric n d eps bx axial = Some m /\ 0 <= m.
Proof.
  intros n d eps bx axial P T. assert (H : exists f b, divide n d eps bx axial = Some (f, b)).
  { destruct axial as [t|]; [cbn; eauto|]. unfold divide. cbn [fold_left].
    assert (S : forall f b a, (a < 3)%nat -> exists f' b', turn n d eps bx (Some (f, b)) a = Some (f', b')).
    { intros f b a L. unfold turn. destruct (ltb (Qabs (n a)) eps) eqn:E; [eauto|]. apply ltb_f in E. destruct (cut_spec n d bx a L (T a L) (abs_nz _ _ P E)) as (s1 & s2 & _ & -> & _). destruct (ltb 0 (n a)); eauto. }
    destruct (S bx bx 0%nat ltac:(lia)) as (f0 & b0 & ->). destruct (S f0 b0 1%nat ltac:(lia)) as (f1 & b1 & ->). apply S. lia. }
  split; [exact H|]. destruct H as (f & b & H). unfold metric. rewrite H. eexists. split; [reflexivity|apply Qabs_nonneg].
Qed.

(** At an axial plane the metric is the area of the cut times how far the plane is from the middle, twice: zero only in the middle. *)
Theorem C163_axial : forall (n : vec) d eps (bx : box) t, (t < 3)%nat -> thick bx ->
  exists m, metric n d eps bx (Some t) = Some m /\
    m == Qabs ((snd bx (nb t) - fst bx (nb t)) * (snd bx (nc t) - fst bx (nc t)) * (fst bx t + snd bx t - 2 * d)) /\ (m == 0 <-> 2 * d == fst bx t + snd bx t).
Proof.
  intros n d eps bx t L T. unfold metric, divide. eexists. split; [reflexivity|].
  assert (E : volume (set (fst bx) t d, snd bx) - volume (fst bx, set (snd bx) t d) == (snd bx (nb t) - fst bx (nb t)) * (snd bx (nc t) - fst bx (nc t)) * (fst bx t + snd bx t - 2 * d)).
  { unfold volume, set. cbn [fst snd]. destruct t as [|[|[|t]]]; [cbn; ring..|lia]. }
  split; [rewrite E; reflexivity|]. rewrite E. destruct (others t L) as (Lb & Lc & _). pose proof (T _ Lb). pose proof (T _ Lc). split.
  - intro Z. assert (Z2 : (snd bx (nb t) - fst bx (nb t)) * (snd bx (nc t) - fst bx (nc t)) * (fst bx t + snd bx t - 2 * d) == 0).
    { revert Z. apply Qabs_case; intros; lra. }
    apply Qmult_integral in Z2 as [Z2|Z2]; [apply Qmult_integral in Z2 as [Z2|Z2]|]; lra.
  - intro Z. assert (F : fst bx t + snd bx t - 2 * d == 0) by lra. rewrite F, Qmult_0_r. reflexivity.
Qed.

(** A flat box has no bounds on an axis that the plane is not parallel to: zero is divided by zero. *)
Theorem C163_flat_refuted : forall (n : vec) d eps (bx : box) a, (a < 3)%nat -> 0 < eps -> eps <= Qabs (n a) -> fst bx a == snd bx a -> divide n d eps bx None = None /\ metric n d eps bx None = None.
Proof.
  intros n d eps bx a L P E F. assert (C : cut n d bx a = None).
  { assert (M : forall ij, mid n d bx a ij = None).
    { intro ij. unfold mid, dot. cbv zeta. match goal with |- (if ?q then _ else _) = _ => assert (Q : q = true) end; [|rewrite Q; reflexivity].
      apply Qeq_bool_iff. destruct a as [|[|[|a]]]; [| | |lia]; cbn [corner Nat.eqb Nat.add]; unfold corner; cbn -[Qmult Qplus Qminus side]; rewrite F; ring. }
    unfold cut, corners. cbn [fold_left]. rewrite !M. reflexivity. }
  assert (TN : forall s, turn n d eps bx s a = None).
  { intros [(f, b)|]; [|reflexivity]. unfold turn. apply ltb_f in E. rewrite E, C. reflexivity. }
  assert (D : divide n d eps bx None = None).
  { unfold divide. cbn [fold_left]. destruct a as [|[|[|a]]]; [| | |lia]; rewrite TN; reflexivity. }
  split; [exact D|]. unfold metric. rewrite D. reflexivity.
Qed.

(** The bounds at an axial plane beside the box are not inside it: one is larger than the box, the other is inside out. *)
Theorem C163_beside_refuted : forall (n : vec) d eps (bx : box) t, d < fst bx t -> exists f b, divide n d eps bx (Some t) = Some (f, b) /\ fst f t < fst bx t /\ snd b t < fst b t.
Proof. intros n d eps bx t H. do 2 eexists. split; [reflexivity|]. cbn [fst snd]. unfold set. rewrite Nat.eqb_refl. auto. Qed.

Print Assumptions C163_contains.
Print Assumptions C163_inside.
Print Assumptions C163_tight.
Print Assumptions C163_defined.
Print Assumptions C163_axial.
Print Assumptions C163_flat_refuted.
Print Assumptions C163_beside_refuted.

(** A box of 8 cut by a slope through two of its edges, and in the middle. *)
Definition v3 (x y z : Q) : vec := fun k => match k with O => x | S O => y | _ => z end.
Definition shown (r : option (box * box)) : option (list Q * list Q) :=
  match r with Some (f, b) => Some (map Qred [fst f 0%nat; fst f 1%nat; fst f 2%nat; snd f 0%nat; snd f 1%nat; snd f 2%nat], map Qred [fst b 0%nat; fst b 1%nat; fst b 2%nat; snd b 0%nat; snd b 1%nat; snd b 2%nat]) | None => None end.
Example C163_nontrivial :
  shown (divide (v3 (3 # 5) (- (4 # 5)) 0) 3 (1 # 1000000) (v3 0 0 0, v3 8 8 8) None) = Some ([5; 0; 0; 8; 9 # 4; 8], [0; 0; 0; 8; 8; 8]) /\
  shown (divide (v3 0 1 0) 2 (1 # 1000000) (v3 0 0 0, v3 8 8 8) (Some 1%nat)) = Some ([0; 2; 0; 8; 8; 8], [0; 0; 0; 8; 2; 8]) /\
  option_map Qred (metric (v3 0 1 0) 2 (1 # 1000000) (v3 0 0 0, v3 8 8 8) (Some 1%nat)) = Some 256 /\
  option_map Qred (metric (v3 (3 # 5) (- (4 # 5)) 0) 3 (1 # 1000000) (v3 0 0 0, v3 8 8 8) None) = Some 458.
Proof. vm_compute. repeat split; reflexivity. Qed.
