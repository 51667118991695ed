(* C162: the trial of a cut agrees with the cut. *)
From Coq Require Import List Arith NArith QArith Bool Lia Lqa.
Import ListNotations.
From Verif Require Import TrialModel.
Local Open Scope Q_scope.

Lemma leb_t : forall a b, leb a b = true <-> a <= b. Proof. intros. apply Qle_bool_iff. Qed.
Lemma leb_f : forall a b, leb a b = false <-> b < a.
Proof. intros. unfold leb. split; intro H; [apply Qnot_le_lt; intro X; apply Qle_bool_iff in X; congruence|]. apply not_true_iff_false. intro X. apply Qle_bool_iff in X. lra. Qed.
Lemma ltb_t : forall a b, ltb a b = true <-> a < b. Proof. intros. unfold ltb. rewrite negb_true_iff. apply leb_f. Qed.
Lemma ltb_f : forall a b, ltb a b = false <-> b <= a. Proof. intros. unfold ltb. rewrite negb_false_iff. apply leb_t. Qed.

Section S.
Context {W : Type} (dists : W -> list Q) (base : W) (clip_back : W -> nat -> option W) (tiny : W -> bool)
  (clip : W -> option W * option W) (flip : W -> W) (some : W -> bool) (wbox : W -> box).
Context (volume : list (W * nat) -> Q) (mostly_front : list (W * nat) -> bool) (ext micro big : Q) (planenum : nat).
Notation split := (split_brush dists base clip_back tiny clip flip some wbox volume mostly_front ext micro big planenum).
Notation check := (check_split dists base clip_back tiny clip flip some wbox volume ext micro big planenum).
Notation bnd := (bounds some wbox big).

(** If the cut gives two brushes, the trial says so. *)
Theorem C162_two : forall l a b, split l = (Some a, Some b) -> check l = true.
Proof.
  intros l a b. unfold split_brush, check_split. destruct (farthest dists l) as (f, k). destruct (ltb f (1 # 10)); [discriminate|]. destruct (ltb (- (1 # 10)) k); [discriminate|]. cbv zeta.
  destruct (cut_back clip_back (Some base) l) as [m|]; [|destruct (mostly_front l); discriminate]. destruct (tiny m); [destruct (mostly_front l); discriminate|].
  assert (K : forall j, few (piece clip j l) || negb (in_range ext (bnd (piece clip j l))) || beyond ext (bnd (piece clip j l)) = false ->
    negb (few (piece clip j l)) && in_range_stack ext (bnd (piece clip j l)) && negb (beyond ext (bnd (piece clip j l))) = true).
  { intros j H. apply orb_false_iff in H as [H H3]. apply orb_false_iff in H as [H1 H2]. rewrite H1, H3. apply negb_false_iff in H2. unfold in_range in H2. cbn [existsb] in H2. unfold in_range_stack. cbn [existsb].
    destruct (bad_axis ext (bnd (piece clip j l)) 0); [discriminate|reflexivity]. }
  destruct (few (piece clip true l) || negb (in_range ext (bnd (piece clip true l))) || beyond ext (bnd (piece clip true l))) eqn:E1;
    destruct (few (piece clip false l) || negb (in_range ext (bnd (piece clip false l))) || beyond ext (bnd (piece clip false l))) eqn:E2; try discriminate.
  intro H. rewrite (K true E1), (K false E2). destruct (ltb (volume (piece clip true l ++ [lid flip planenum true m])) micro); [discriminate|].
  destruct (ltb (volume (piece clip false l ++ [lid flip planenum false m])) micro); [discriminate|]. reflexivity.
Qed.

(** Windings have bounds; those of parts of sides are inside of the world in y and z. *)
Definition inside_yz (l : list (W * nat)) : Prop := forall s w, In s l -> fst (clip (fst s)) = Some w \/ snd (clip (fst s)) = Some w ->
  forall i, (i = 1 \/ i = 2)%nat -> - ext < lo i (wbox w) /\ lo i (wbox w) <= hi i (wbox w) /\ hi i (wbox w) < ext.

Definition tight (b : box) : Prop := forall i, (i = 1 \/ i = 2)%nat -> - ext < lo i b /\ lo i b <= hi i b /\ hi i b < ext.
Lemma union_axis : forall i a b, (i = 1 \/ i = 2)%nat -> lo i (union a b) = min2 (lo i a) (lo i b) /\ hi i (union a b) = max2 (hi i a) (hi i b).
Proof. intros i a b [-> | ->]; split; reflexivity. Qed.
Lemma min2_le : forall a b, min2 a b <= a /\ min2 a b <= b /\ (min2 a b = a \/ min2 a b = b).
Proof. intros. unfold min2. destruct (ltb b a) eqn:E; [apply ltb_t in E|apply ltb_f in E]; repeat split; auto; lra. Qed.
Lemma max2_ge : forall a b, a <= max2 a b /\ b <= max2 a b /\ (max2 a b = a \/ max2 a b = b).
Proof. intros. unfold max2. destruct (ltb a b) eqn:E; [apply ltb_t in E|apply ltb_f in E]; repeat split; auto; lra. Qed.
Lemma fold_tight : forall (p : list (W * nat)) acc, 0 < ext -> ext <= big -> (acc = nothing big \/ tight acc) ->
  (forall s, In s p -> tight (wbox (fst s))) ->
  fold_left (fun b s => if some (fst s) then union b (wbox (fst s)) else b) p acc = nothing big \/ tight (fold_left (fun b s => if some (fst s) then union b (wbox (fst s)) else b) p acc).
Proof.
  induction p as [|s p IH]; intros acc P B A F; [exact A|]. cbn [fold_left]. apply IH; [exact P|exact B| |intros t I; apply F; right; exact I].
  destruct (some (fst s)); [|exact A]. right. intros i I. destruct (union_axis i acc (wbox (fst s)) I) as (-> & ->).
  destruct (F s (or_introl eq_refl) i I) as (X1 & X2 & X3).
  pose proof (min2_le (lo i acc) (lo i (wbox (fst s)))) as (M1 & M2 & M3). pose proof (max2_ge (hi i acc) (hi i (wbox (fst s)))) as (N1 & N2 & N3).
  assert (L : - ext < lo i acc /\ hi i acc < ext).
  { destruct A as [-> | A]; [|destruct (A i I) as (A1 & A2 & A3); split; assumption]. destruct I as [-> | ->]; cbn; lra. }
  destruct L as (L1 & L2). repeat split; [destruct M3 as [-> | ->]; lra|lra|destruct N3 as [-> | ->]; lra].
Qed.
Lemma piece_from : forall j l s, In s (piece clip j l) -> exists t, In t l /\ part clip j (fst t) = Some (fst s) /\ snd s = snd t.
Proof.
  induction l as [|t l IH]; intros s I; [destruct I|]. cbn [piece] in I. destruct (part clip j (fst t)) as [w|] eqn:E.
  - destruct I as [<-|I]; [exists t; split; [left; reflexivity|auto]|]. destruct (IH s I) as (u & U & V). exists u. split; [right; exact U|exact V].
  - destruct (IH s I) as (u & U & V). exists u. split; [right; exact U|exact V].
Qed.
Lemma piece_all : forall j l t w, In t l -> part clip j (fst t) = Some w -> In (w, snd t) (piece clip j l).
Proof.
  induction l as [|u l IH]; intros t w I E; [destruct I|]. cbn [piece]. destruct I as [->|I]; [rewrite E; left; reflexivity|].
  destruct (part clip j (fst u)); [right|]; apply IH; assumption.
Qed.
Lemma pieces_tight : forall j l, 0 < ext -> ext <= big -> inside_yz l -> bnd (piece clip j l) = nothing big \/ tight (bnd (piece clip j l)).
Proof.
  intros j l P B F. apply fold_tight; [exact P|exact B|left; reflexivity|]. intros s I. destruct (piece_from j l s I) as (t & T & E & _).
  intros i Hi. apply (F t (fst s) T); [|exact Hi]. unfold part in E. destruct j; [left|right]; exact E.
Qed.

(** If the trial says that there are two brushes, the cut gives two, when nothing of the brush reaches the limits of the world in
    y and z. *)
Theorem C162_trial_partial : forall l, 0 < ext -> ext <= big -> inside_yz l -> check l = true -> exists a b, split l = (Some a, Some b).
Proof.
  intros l P B F. unfold split_brush, check_split. destruct (farthest dists l) as (f, k). destruct (ltb f (1 # 10)); [discriminate|]. destruct (ltb (- (1 # 10)) k); [discriminate|]. cbv zeta.
  destruct (cut_back clip_back (Some base) l) as [m|]; [|discriminate]. destruct (tiny m); [discriminate|]. intro H.
  apply andb_true_iff in H as [H V2]. apply andb_true_iff in H as [H V1]. apply andb_true_iff in H as [G1 G2].
  assert (K : forall j, negb (few (piece clip j l)) && in_range_stack ext (bnd (piece clip j l)) && negb (beyond ext (bnd (piece clip j l))) = true ->
    few (piece clip j l) || negb (in_range ext (bnd (piece clip j l))) || beyond ext (bnd (piece clip j l)) = false).
  { intros j H. apply andb_true_iff in H as [H H3]. apply andb_true_iff in H as [H1 H2]. apply negb_true_iff in H1, H3. rewrite H1, H3. cbn [orb]. rewrite orb_false_r. apply negb_false_iff.
    unfold in_range_stack in H2. cbn [existsb] in H2. unfold in_range. cbn [existsb]. destruct (bad_axis ext (bnd (piece clip j l)) 0) eqn:Z; [discriminate|].
    destruct (pieces_tight j l P B F) as [E|T].
    - exfalso. rewrite E in Z. unfold bad_axis in Z. apply orb_false_iff in Z as [_ Z]. apply orb_false_iff in Z as [Z _]. apply leb_f in Z. cbn in Z. lra.
    - assert (A : forall i, (i = 1 \/ i = 2)%nat -> bad_axis ext (bnd (piece clip j l)) i = false).
      { intros i Hi. destruct (T i Hi) as (T1 & T2 & T3). unfold bad_axis. repeat (apply orb_false_iff; split); apply leb_f; lra. }
      rewrite (A 1%nat), (A 2%nat) by auto. reflexivity. }
  rewrite (K true G1), (K false G2). apply negb_true_iff in V1, V2. rewrite V1, V2. eauto.
Qed.

(** What the cut gives: the brush itself, or the parts of all its sides on that side of the plane, on the planes they had,
    and the face of the cut on the plane, which faces out of the piece. *)
Theorem C162_pieces : forall l,
  (forall p, fst (split l) = Some p -> p = l \/
    ((forall t w, In t l -> fst (clip (fst t)) = Some w -> In (w, snd t) p) /\
     (forall s, In s p -> (exists t, In t l /\ fst (clip (fst t)) = Some (fst s) /\ snd s = snd t) \/ exists m, s = (flip m, Nat.lxor planenum 1)))) /\
  (forall p, snd (split l) = Some p -> p = l \/
    ((forall t w, In t l -> snd (clip (fst t)) = Some w -> In (w, snd t) p) /\
     (forall s, In s p -> (exists t, In t l /\ snd (clip (fst t)) = Some (fst s) /\ snd s = snd t) \/ exists m, s = (m, planenum)))).
Proof.
  intros l. unfold split_brush. destruct (farthest dists l) as (f, k). destruct (ltb f (1 # 10)); [split; intros p H; cbn in H; try discriminate; left; congruence|].
  destruct (ltb (- (1 # 10)) k); [split; intros p H; cbn in H; try discriminate; left; congruence|]. cbv zeta.
  destruct (cut_back clip_back (Some base) l) as [m|]; [|destruct (mostly_front l); split; intros p H; cbn in H; try discriminate; left; congruence].
  destruct (tiny m); [destruct (mostly_front l); split; intros p H; cbn in H; try discriminate; left; congruence|].
  destruct (few (piece clip true l) || _ || _); destruct (few (piece clip false l) || _ || _); try (split; intros p H; cbn in H; try discriminate; left; congruence).
  split; intros p H; cbn [fst snd] in H; right.
  - destruct (ltb _ micro); [discriminate|]. injection H as <-. split.
    + intros t w I E. apply in_or_app. left. apply piece_all; assumption.
    + intros s I. apply in_app_or in I as [I|[<-|[]]]; [left; exact (piece_from true l s I)|right; exists m; reflexivity].
  - destruct (ltb _ micro); [discriminate|]. injection H as <-. split.
    + intros t w I E. apply in_or_app. left. apply piece_all; assumption.
    + intros s I. apply in_app_or in I as [I|[<-|[]]]; [left; exact (piece_from false l s I)|right; exists m; reflexivity].
Qed.

Lemma fold_far : forall ds f b, 0 <= f -> b <= 0 ->
  let r := fold_left (fun '(f, b) d => (if ltb 0 d && ltb f d then d else f, if ltb d 0 && ltb d b then d else b)) ds (f, b) in
  f <= fst r /\ snd r <= b /\ (forall d, In d ds -> d <= fst r /\ snd r <= d) /\ (fst r = f \/ In (fst r) ds) /\ (snd r = b \/ In (snd r) ds).
Proof.
  induction ds as [|d ds IH]; intros f b F B.
  - cbn. repeat split; try lra; [intros x []..|left; reflexivity|left; reflexivity].
  - cbn [fold_left]. set (f2 := if ltb 0 d && ltb f d then d else f). set (b2 := if ltb d 0 && ltb d b then d else b).
    assert (F2 : f <= f2 /\ d <= f2 /\ (f2 = f \/ f2 = d)).
    { unfold f2. destruct (ltb 0 d) eqn:E1; [apply ltb_t in E1|apply ltb_f in E1]; destruct (ltb f d) eqn:E2; [apply ltb_t in E2|apply ltb_f in E2|apply ltb_t in E2|apply ltb_f in E2]; cbn [andb]; repeat split; auto; lra. }
    assert (B2 : b2 <= b /\ b2 <= d /\ (b2 = b \/ b2 = d)).
    { unfold b2. destruct (ltb d 0) eqn:E1; [apply ltb_t in E1|apply ltb_f in E1]; destruct (ltb d b) eqn:E2; [apply ltb_t in E2|apply ltb_f in E2|apply ltb_t in E2|apply ltb_f in E2]; cbn [andb]; repeat split; auto; lra. }
    clearbody f2 b2. destruct F2 as (X1 & X2 & X3). destruct B2 as (Y1 & Y2 & Y3).
    destruct (IH f2 b2 ltac:(lra) ltac:(lra)) as (A1 & A2 & A3 & A4 & A5). cbv zeta in *.
    set (r := fold_left _ ds (f2, b2)) in *. clearbody r. split; [lra|]. split; [lra|]. split; [|split].
    + intros x [<-|I]; [split; lra|apply A3; exact I].
    + destruct A4 as [E|I]; [|right; right; exact I]. destruct X3 as [X3|X3]; rewrite X3 in E; [left; exact E|right; left; symmetry; exact E].
    + destruct A5 as [E|I]; [|right; right; exact I]. destruct Y3 as [Y3|Y3]; rewrite Y3 in E; [left; exact E|right; left; symmetry; exact E].
Qed.
(** A brush with no point a tenth of a unit in front of the plane is behind it, one with none that far behind is in front of it;
    neither is cut. *)
Theorem C162_one_side : forall l, let far := flat_map (fun s : W * nat => dists (fst s)) l in
  ((forall d, In d far -> d < 1 # 10) -> split l = (None, Some l) /\ check l = false) /\
  ((exists d, In d far /\ (1 # 10) <= d) -> (forall d, In d far -> - (1 # 10) < d) -> split l = (Some l, None) /\ check l = false).
Proof.
  intros l far. pose proof (fold_far far 0 0 ltac:(lra) ltac:(lra)) as H. cbv zeta in H. unfold split_brush, check_split, farthest. fold far.
  destruct (fold_left _ far (0, 0)) as (f, b). cbn [fst snd] in H. destruct H as (H1 & H2 & H3 & H4 & H5). split.
  - intro D. assert (X : f < 1 # 10) by (destruct H4 as [-> | I]; [lra|apply D; exact I]). apply ltb_t in X. rewrite X. split; reflexivity.
  - intros (d & I & L) D. destruct (H3 d I) as (K & _). assert (X : (1 # 10) <= f) by lra. apply ltb_f in X. rewrite X.
    assert (Y : - (1 # 10) < b) by (destruct H5 as [-> | J]; [lra|apply D; exact J]). apply ltb_t in Y. rewrite Y. split; reflexivity.
Qed.
(** Otherwise, if the cut has no face or a tiny one, the brush stays whole and goes to the side where most of it is. *)
Theorem C162_no_face : forall l, let far := flat_map (fun s : W * nat => dists (fst s)) l in
  (exists d, In d far /\ (1 # 10) <= d) -> (exists d, In d far /\ d <= - (1 # 10)) -> (forall w, tiny w = true) ->
  check l = false /\ split l = if mostly_front l then (Some l, None) else (None, Some l).
Proof.
  intros l far (d & I & L) (e & J & M) T. pose proof (fold_far far 0 0 ltac:(lra) ltac:(lra)) as H. cbv zeta in H. unfold split_brush, check_split, farthest. fold far.
  destruct (fold_left _ far (0, 0)) as (f, b). cbn [fst snd] in H. destruct H as (_ & _ & H3 & _). destruct (H3 d I) as (K & _). destruct (H3 e J) as (_ & K2).
  assert (X : (1 # 10) <= f) by lra. apply ltb_f in X. assert (Y : b <= - (1 # 10)) by lra. apply ltb_f in Y. rewrite X, Y. cbv zeta.
  destruct (cut_back clip_back (Some base) l) as [m|]; [rewrite T|]; split; reflexivity.
Qed.
(** The face of the cut is within the brush: it is cut by the plane of each side in turn. *)
Theorem C162_face : forall (inb : nat -> W -> Prop) (le : W -> W -> Prop), (forall a b c, le a b -> le b c -> le a c) -> (forall a, le a a) -> (forall n a b, le a b -> inb n b -> inb n a) ->
  (forall v n w, clip_back v n = Some w -> le w v /\ inb n w) -> forall l m, cut_back clip_back (Some base) l = Some m -> le m base /\ forall s, In s l -> inb (snd s) m.
Proof.
  intros inb le TR RF MO CB l. generalize base as v. induction l as [|s l IH]; intros v m H; [injection H as <-; split; [apply RF|intros s []]|].
  cbn [cut_back] in H. destruct (clip_back v (snd s)) as [w|] eqn:E; [|destruct l; discriminate]. destruct (CB _ _ _ E) as (A & B).
  destruct (IH w m H) as (C & D). split; [exact (TR _ _ _ C A)|]. intros t [<-|I]; [exact (MO _ _ _ C B)|exact (D t I)].
Qed.

(** The parts of sides in front of the plane (true) or behind it. *)
Definition got (j : bool) (t : W * nat) : option W := if j then fst (clip (fst t)) else snd (clip (fst t)).
Definition three (j : bool) (l : list (W * nat)) : Prop := (3 <= length (filter (fun t => match got j t with Some _ => true | None => false end) l))%nat.
Definition within (j : bool) (l : list (W * nat)) (i : nat) : Prop := forall t w, In t l -> got j t = Some w -> - ext < lo i (wbox w) /\ hi i (wbox w) < ext.
Definition up_to (j : bool) (l : list (W * nat)) (i : nat) : Prop := forall t w, In t l -> got j t = Some w -> - ext <= lo i (wbox w) /\ hi i (wbox w) <= ext.

Lemma union_axes : forall i a b, (i < 3)%nat -> lo i (union a b) = min2 (lo i a) (lo i b) /\ hi i (union a b) = max2 (hi i a) (hi i b).
Proof. intros i a b L. destruct i as [|[|[|i]]]; [split; reflexivity..|lia]. Qed.
Lemma fold_bounds : forall p acc i x, (i < 3)%nat -> (forall s, In s p -> some (fst s) = true) ->
  let r := fold_left (fun b s => if some (fst s) then union b (wbox (fst s)) else b) p acc in
  (x < lo i r <-> x < lo i acc /\ forall s : W * nat, In s p -> x < lo i (wbox (fst s))) /\ (x <= lo i r <-> x <= lo i acc /\ forall s : W * nat, In s p -> x <= lo i (wbox (fst s))) /\
  (hi i r < x <-> hi i acc < x /\ forall s : W * nat, In s p -> hi i (wbox (fst s)) < x) /\ (hi i r <= x <-> hi i acc <= x /\ forall s : W * nat, In s p -> hi i (wbox (fst s)) <= x).
Proof.
  induction p as [|s p IH]; intros acc i x L F; [cbn; intuition|]. cbv zeta. cbn [fold_left]. rewrite (F s (or_introl eq_refl)).
  destruct (IH (union acc (wbox (fst s))) i x L (fun t I => F t (or_intror I))) as (A & B & C & D). cbv zeta in A, B, C, D. rewrite A, B, C, D.
  destruct (union_axes i acc (wbox (fst s)) L) as (-> & ->).
  pose proof (min2_le (lo i acc) (lo i (wbox (fst s)))) as (M1 & M2 & M3). pose proof (max2_ge (hi i acc) (hi i (wbox (fst s)))) as (N1 & N2 & N3).
  clear A B C D IH. repeat split; try (destruct H as (H & K)); try lra; try (intros t [<-|I]); try lra; try (apply K; exact I);
    try (intros t I; apply K; right; exact I); try (specialize (K s (or_introl eq_refl)); destruct M3 as [-> | ->]; lra); try (specialize (K s (or_introl eq_refl)); destruct N3 as [-> | ->]; lra).
Qed.
Lemma piece_length : forall j l, length (piece clip j l) = length (filter (fun t => match got j t with Some _ => true | None => false end) l).
Proof. induction l as [|t l IH]; [reflexivity|]. cbn [piece filter]. change (part clip j (fst t)) with (got j t). destruct (got j t); cbn [length]; rewrite IH; reflexivity. Qed.

(** Exactly when: a brush that is cut in a face that is not tiny gives two brushes if on each side there are parts of three sides,
    all inside the world, and the volume is not too small; the trial is content with parts that reach the limits in y and z. *)
Theorem C162_exact : forall l m, let far := flat_map (fun s : W * nat => dists (fst s)) l in
  (exists d, In d far /\ (1 # 10) <= d) -> (exists d, In d far /\ d <= - (1 # 10)) -> cut_back clip_back (Some base) l = Some m -> tiny m = false ->
  0 < ext -> ext <= big -> (forall j t w, In t l -> got j t = Some w -> some w = true /\ forall i, (i < 3)%nat -> lo i (wbox w) <= hi i (wbox w)) ->
  let large j := micro <= volume (piece clip j l ++ [lid flip planenum j m]) in
  ((exists a b, split l = (Some a, Some b)) <-> forall j, three j l /\ (forall i, (i < 3)%nat -> within j l i) /\ large j) /\
  (check l = true <-> forall j, three j l /\ within j l 0 /\ up_to j l 1 /\ up_to j l 2 /\ large j).
Proof.
  intros l m far (d & I & L) (e & J & M) CB T P B OK large. pose proof (fold_far far 0 0 ltac:(lra) ltac:(lra)) as H. cbv zeta in H. unfold split_brush, check_split, farthest. fold far.
  destruct (fold_left _ far (0, 0)) as (f, b). cbn [fst snd] in H. destruct H as (_ & _ & H3 & _). destruct (H3 d I) as (K & _). destruct (H3 e J) as (_ & K2).
  assert (X : (1 # 10) <= f) by lra. apply ltb_f in X. assert (Y : b <= - (1 # 10)) by lra. apply ltb_f in Y. rewrite X, Y. cbv zeta. rewrite CB, T. clear X Y K K2 H3 I J L M.
  assert (IN : forall j s, In s (piece clip j l) -> some (fst s) = true /\ forall i, (i < 3)%nat -> lo i (wbox (fst s)) <= hi i (wbox (fst s))).
  { intros j s I. destruct (piece_from j l s I) as (t & A1 & A2 & _). exact (OK j t (fst s) A1 A2). }
  assert (FB : forall j i, (i < 3)%nat -> three j l -> let r := bnd (piece clip j l) in
    ((- ext < lo i r /\ hi i r < ext) <-> within j l i) /\ ((- ext <= lo i r /\ hi i r <= ext) <-> up_to j l i) /\ lo i r <= hi i r).
  { intros j i Hi T3. cbv zeta. unfold bounds.
    destruct (fold_bounds (piece clip j l) (nothing big) i (- ext) Hi (fun s I => proj1 (IN j s I))) as (A1 & A2 & _ & _).
    destruct (fold_bounds (piece clip j l) (nothing big) i ext Hi (fun s I => proj1 (IN j s I))) as (_ & _ & A3 & A4). cbv zeta in A1, A2, A3, A4.
    assert (N : lo i (nothing big) = big /\ hi i (nothing big) = - big) by (destruct i as [|[|[|i]]]; [split; reflexivity..|lia]). destruct N as (N1 & N2). rewrite N1 in A1, A2. rewrite N2 in A3, A4.
    split; [|split].
    - rewrite A1, A3. split.
      + intros ((_ & Q1) & (_ & Q2)) t w It E. assert (Z : In (w, snd t) (piece clip j l)) by (apply piece_all; assumption). split; [exact (Q1 _ Z)|exact (Q2 _ Z)].
      + intro Q. split; (split; [lra|]); intros s Is; destruct (piece_from j l s Is) as (t & E1 & E2 & _); apply (Q t (fst s) E1 E2).
    - rewrite A2, A4. split.
      + intros ((_ & Q1) & (_ & Q2)) t w It E. assert (Z : In (w, snd t) (piece clip j l)) by (apply piece_all; assumption). split; [exact (Q1 _ Z)|exact (Q2 _ Z)].
      + intro Q. split; (split; [lra|]); intros s Is; destruct (piece_from j l s Is) as (t & E1 & E2 & _); apply (Q t (fst s) E1 E2).
    - unfold three in T3. rewrite <- piece_length in T3. destruct (piece clip j l) as [|s0 p] eqn:E; [cbn in T3; lia|]. rewrite <- E in *.
      assert (I0 : In s0 (piece clip j l)) by (rewrite E; left; reflexivity). clear E.
      set (r := fold_left _ _ _) in *.
      destruct (fold_bounds (piece clip j l) (nothing big) i (lo i r) Hi (fun s I => proj1 (IN j s I))) as (_ & B2 & _ & _). fold r in B2.
      destruct (fold_bounds (piece clip j l) (nothing big) i (hi i r) Hi (fun s I => proj1 (IN j s I))) as (_ & _ & _ & B4). fold r in B4. cbv zeta in B2, B4.
      destruct (proj1 B2 (Qle_refl _)) as (_ & C2). destruct (proj1 B4 (Qle_refl _)) as (_ & C4). specialize (C2 _ I0). specialize (C4 _ I0). pose proof (proj2 (IN j s0 I0) i Hi). lra. }
  assert (BA : forall j i, (i < 3)%nat -> three j l -> bad_axis ext (bnd (piece clip j l)) i = false <-> within j l i).
  { intros j i Hi T3. destruct (FB j i Hi T3) as (A & _ & C). rewrite <- A. unfold bad_axis. rewrite !orb_false_iff, !leb_f. split; [intros ((? & ?) & _); split; assumption|]. intros (? & ?). repeat split; lra. }
  assert (BY : forall j, three j l -> beyond ext (bnd (piece clip j l)) = false <-> forall i, (i < 3)%nat -> up_to j l i).
  { intros j T3. unfold beyond. cbn [existsb]. rewrite !orb_false_iff, !ltb_f.
    destruct (FB j 0%nat ltac:(lia) T3) as (_ & A0 & _). destruct (FB j 1%nat ltac:(lia) T3) as (_ & A1 & _). destruct (FB j 2%nat ltac:(lia) T3) as (_ & A2 & _). cbv zeta in A0, A1, A2. split.
    - intros ((? & ?) & (? & ?) & (? & ?) & _) i Hi. destruct i as [|[|[|i]]]; [apply A0|apply A1|apply A2|lia]; split; assumption.
    - intro Q. destruct (proj2 A0 (Q 0%nat ltac:(lia))). destruct (proj2 A1 (Q 1%nat ltac:(lia))). destruct (proj2 A2 (Q 2%nat ltac:(lia))). repeat split; assumption. }
  assert (FW : forall j, few (piece clip j l) = false <-> three j l) by (intro j; unfold few, three; rewrite piece_length, Nat.ltb_ge; reflexivity).
  assert (WU : forall j i, within j l i -> up_to j l i) by (intros j i Q t w It E; destruct (Q t w It E); split; lra).
  assert (BO : forall j, few (piece clip j l) || negb (in_range ext (bnd (piece clip j l))) || beyond ext (bnd (piece clip j l)) = false <-> three j l /\ forall i, (i < 3)%nat -> within j l i).
  { intro j. rewrite !orb_false_iff, negb_false_iff, FW. unfold in_range. rewrite negb_true_iff. cbn [existsb]. rewrite !orb_false_iff. split.
    - intros ((T3 & A0 & A1 & A2 & _) & _). split; [exact T3|]. intros i Hi. destruct i as [|[|[|i]]]; [apply BA..|lia]; try lia; assumption.
    - intros (T3 & Q). split; [split; [exact T3|]; repeat split; apply BA; auto|]. apply BY; [exact T3|]. intros i Hi. apply WU. apply Q. exact Hi. }
  assert (GO : forall j, negb (few (piece clip j l)) && in_range_stack ext (bnd (piece clip j l)) && negb (beyond ext (bnd (piece clip j l))) = true <-> three j l /\ within j l 0 /\ up_to j l 1 /\ up_to j l 2).
  { intro j. rewrite !andb_true_iff, !negb_true_iff, FW. unfold in_range_stack. rewrite negb_true_iff. cbn [existsb]. rewrite !orb_false_iff. split.
    - intros ((T3 & A0 & _) & Z). split; [exact T3|]. split; [apply BA; [lia|exact T3|exact A0]|]. split; apply (proj1 (BY j T3) Z); lia.
    - intros (T3 & Q0 & Q1 & Q2). assert (A0 : bad_axis ext (bnd (piece clip j l)) 0 = false) by (apply BA; [lia|exact T3|exact Q0]). split; [split; [exact T3|]; repeat split; exact A0|].
      apply BY; [exact T3|]. intros i Hi. destruct i as [|[|[|i]]]; [apply WU; exact Q0|exact Q1|exact Q2|lia]. }
  assert (VO : forall j, ltb (volume (piece clip j l ++ [lid flip planenum j m])) micro = false <-> large j) by (intro j; apply ltb_f).
  split.
  - split.
    + intros (pa & pb & H). destruct (few (piece clip true l) || _ || _) eqn:E1; destruct (few (piece clip false l) || _ || _) eqn:E2; try discriminate.
      assert (V1 : large true) by (apply VO; destruct (ltb (volume (piece clip true l ++ [lid flip planenum true m])) micro); [discriminate|reflexivity]).
      assert (V2 : large false) by (apply VO; destruct (ltb (volume (piece clip false l ++ [lid flip planenum false m])) micro); [discriminate|reflexivity]).
      apply BO in E1, E2. intros [|]; intuition.
    + intro H. destruct (H true) as (A1 & A2 & A3). destruct (H false) as (B1 & B2 & B3). rewrite (proj2 (BO true) (conj A1 A2)), (proj2 (BO false) (conj B1 B2)).
      rewrite (proj2 (VO true) A3), (proj2 (VO false) B3). eauto.
  - split.
    + intro H. apply andb_true_iff in H as [H V2]. apply andb_true_iff in H as [H V1]. apply andb_true_iff in H as [G1 G2]. apply GO in G1, G2. apply negb_true_iff in V1, V2. apply VO in V1, V2. intros [|]; intuition.
    + intro H. destruct (H true) as (A1 & A2 & A3 & A4 & A5). destruct (H false) as (B1 & B2 & B3 & B4 & B5).
      rewrite (proj2 (GO true) (conj A1 (conj A2 (conj A3 A4)))), (proj2 (GO false) (conj B1 (conj B2 (conj B3 B4)))), (proj2 (VO true) A5), (proj2 (VO false) B5). reflexivity.
Qed.

(** The trial has room for its sides: one more than the brush has. *)
Theorem C162_room : forall j l m, (length (piece clip j l ++ [lid flip planenum j m]) <= length l + 1)%nat.
Proof.
  intros j l m. rewrite app_length. cbn [length]. apply Nat.add_le_mono_r. induction l as [|s l IH]; [apply Nat.le_refl|]. cbn [piece]. destruct (part clip j (fst s)); cbn [length]; lia.
Qed.
End S.
Print Assumptions C162_two.
Print Assumptions C162_trial_partial.
Print Assumptions C162_pieces.
Print Assumptions C162_room.
Print Assumptions C162_exact.
Print Assumptions C162_one_side.
Print Assumptions C162_no_face.
Print Assumptions C162_face.

(** Boxes in a world of 10 units, cut at 0 of axis i; the winding of a face is its box. *)
Definition with_axis (i : nat) (v : Q * Q) (b : box) : box :=
  match i with O => ((v, axis 1 b), axis 2 b) | S O => ((axis 0 b, v), axis 2 b) | _ => ((axis 0 b, axis 1 b), v) end.
Definition clip0 (i : nat) (b : box) : option box * option box :=
  (if ltb 0 (hi i b) then Some (with_axis i (max2 0 (lo i b), hi i b) b) else None, if ltb (lo i b) 0 then Some (with_axis i (lo i b, min2 0 (hi i b)) b) else None).
Definition split0 (i : nat) := split_brush (fun w => [lo i w; hi i w]) (nothing 0) (fun v _ => Some v) (fun _ => false) (clip0 i) (fun v => v) (fun _ => true) (fun w => w) (fun _ => 100) (fun _ => true) 10 1 1000 4.
Definition check0 (i : nat) := check_split (fun w => [lo i w; hi i w]) (nothing 0) (fun v _ => Some v) (fun _ => false) (clip0 i) (fun v => v) (fun _ => true) (fun w => w) (fun _ => 100) 10 1 1000 4.
Definition cube (y : Q) : list (box * nat) :=
  let f (b : box) (n : nat) := (b, n) in
  [f (((-5, -5), (y, 5)), (-5, 5)) 10%nat; f (((5, 5), (y, 5)), (-5, 5)) 12%nat; f (((-5, 5), (y, y)), (-5, 5)) 14%nat; f (((-5, 5), (5, 5)), (-5, 5)) 16%nat;
   f (((-5, 5), (y, 5)), (-5, -5)) 18%nat; f (((-5, 5), (y, 5)), (5, 5)) 20%nat].

(** A brush that reaches the limit of the world in y: the trial says that there are two pieces, but the cut gives none at all, or
    the whole brush to the side of one of them. *)
Theorem C162_limit_refuted :
  check0 0 (cube (-10)) = true /\ split0 0 (cube (-10)) = (None, None) /\
  check0 1 (cube (-10)) = true /\ split0 1 (cube (-10)) = (Some (cube (-10)), None).
Proof. repeat apply conj; vm_compute; reflexivity. Qed.
Print Assumptions C162_limit_refuted.

(** The same brush a unit shorter: six sides in each piece, and the trial agrees. *)
Example C162_nontrivial : check0 0 (cube (-9)) = true /\ (exists a b, split0 0 (cube (-9)) = (Some a, Some b) /\ length a = 6%nat /\ length b = 6%nat) /\
  inside_yz (clip0 0) (fun w => w) 10 (cube (-9)).
Proof.
  split; [vm_compute; reflexivity|]. split; [eexists; eexists; split; [vm_compute; reflexivity|split; reflexivity]|].
  intros s w I H i Hi. cbn [cube In] in I. repeat destruct I as [<-|I]; try (destruct I); destruct H as [H|H]; vm_compute in H; try discriminate H; injection H as <-; destruct Hi as [-> | ->]; vm_compute; repeat split; discriminate.
Qed.
