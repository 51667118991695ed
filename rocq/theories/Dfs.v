(* Depth-first search over a marked set: the recursion pattern shared by several flood
   fills of the code base. Nothing here models the code by itself. *)
From Coq Require Import List Arith Bool Lia.
Import ListNotations.
From Verif Require Import Base.

Fixpoint dfs (fuel : nat) (succ : nat -> option (list nat)) (s : list bool * nat) (x : nat) {struct fuel}
  : option (list bool * nat) :=
  match nth_error (fst s) x with
  | None => None
  | Some true => Some s
  | Some false =>
    match fuel with
    | O => None
    | S f =>
      match upd (fst s) x true, succ x with
      | Some v, Some l =>
        fold_left (fun acc y => match acc with Some s' => dfs f succ s' y | None => None end) l
          (Some (v, S (snd s)))
      | _, _ => None
      end
    end
  end.

Fixpoint count_false (l : list bool) : nat :=
  match l with [] => 0 | b :: t => (if b then 0 else 1) + count_false t end.
Fixpoint count_true (l : list bool) : nat :=
  match l with [] => 0 | b :: t => (if b then 1 else 0) + count_true t end.

Lemma count_tf : forall l, count_true l + count_false l = length l.
Proof. induction l as [|[] t IH]; simpl; lia. Qed.

Lemma count_true_repeat : forall n, count_true (repeat false n) = 0.
Proof. induction n; simpl; lia. Qed.

Lemma count_upd : forall l x v, nth_error l x = Some false -> upd l x true = Some v ->
  count_false v + 1 = count_false l.
Proof.
  induction l as [|b t IH]; intros [|x] v Hn Hu; simpl in *; try discriminate.
  - inversion Hn; subst. inversion Hu; subst. simpl. lia.
  - destruct (upd t x true) as [t'|] eqn:E; [|discriminate]. inversion Hu; subst. simpl.
    specialize (IH _ _ Hn E). lia.
Qed.

Lemma count_mono : forall l v, length l = length v ->
  (forall y, nth_error l y = Some true -> nth_error v y = Some true) -> count_false v <= count_false l.
Proof.
  induction l as [|b t IH]; intros [|c v] HL H; simpl in *; try discriminate; [lia|].
  assert (count_false v <= count_false t). { apply IH; [lia|]. intros y. apply (H (S y)). }
  destruct b, c; simpl; try lia. specialize (H 0 eq_refl). discriminate.
Qed.

Inductive reach (succ : nat -> option (list nat)) : nat -> nat -> Prop :=
| reach_refl : forall x, reach succ x x
| reach_step : forall x y z l, succ x = Some l -> In y l -> reach succ y z -> reach succ x z.

Definition on (v : list bool) (y : nat) : Prop := nth_error v y = Some true.
Definition off (v : list bool) (y : nat) : Prop := nth_error v y = Some false.

Definition dfs_post (succ : nat -> option (list nat)) (s s' : list bool * nat) (from : nat -> Prop) : Prop :=
  length (fst s') = length (fst s) /\
  (forall y, on (fst s) y -> on (fst s') y) /\
  (forall y, from y -> on (fst s') y) /\
  (forall y, on (fst s') y -> off (fst s) y -> exists x, from x /\ reach succ x y) /\
  (forall y z l, on (fst s') y -> off (fst s) y -> succ y = Some l -> In z l -> on (fst s') z) /\
  snd s' + count_false (fst s') = snd s + count_false (fst s).

Lemma off_on_dec : forall v y, y < length v -> on v y \/ off v y.
Proof.
  intros v y H. unfold on, off. destruct (nth_error v y) as [[]|] eqn:E; auto.
  apply nth_error_None in E. lia.
Qed.

Lemma on_lt : forall v y, on v y -> y < length v.
Proof. intros v y H. apply nth_error_Some. unfold on in H. congruence. Qed.

Lemma on_off : forall v y, on v y -> off v y -> False.
Proof. unfold on, off. intros. congruence. Qed.

Lemma dfs_post_refl : forall succ s (from : nat -> Prop), (forall y, from y -> on (fst s) y) -> dfs_post succ s s from.
Proof.
  intros succ s from H. split; [reflexivity|]. split; [auto|]. split; [assumption|].
  split; [|split; [|reflexivity]]; intros; exfalso; eapply on_off; eassumption.
Qed.

Lemma dfs_post_trans : forall succ s1 s2 s3 f1 f2, dfs_post succ s1 s2 f1 -> dfs_post succ s2 s3 f2 ->
  dfs_post succ s1 s3 (fun y => f1 y \/ f2 y).
Proof.
  intros succ s1 s2 s3 f1 f2 (A1 & A2 & A3 & A4 & A5 & A6) (B1 & B2 & B3 & B4 & B5 & B6).
  split; [congruence|]. split; [auto|]. split; [intros y [H|H]; auto|].
  split; [|split; [|lia]].
  - intros y H3 H1. assert (Hy : y < length (fst s2)). { rewrite <- B1. apply on_lt. assumption. }
    destruct (off_on_dec _ _ Hy) as [H2|H2].
    + destruct (A4 y H2 H1) as (x & Hx & R). eauto.
    + destruct (B4 y H3 H2) as (x & Hx & R). eauto.
  - intros y z l H3 H1 Hs Hz. assert (Hy : y < length (fst s2)). { rewrite <- B1. apply on_lt. assumption. }
    destruct (off_on_dec _ _ Hy) as [H2|H2].
    + apply B2. eapply A5; eassumption.
    + eapply B5; eassumption.
Qed.

Lemma dfs_spec : forall fuel succ s x,
  (forall y, y < length (fst s) -> exists l, succ y = Some l /\ Forall (fun z => z < length (fst s)) l) ->
  count_false (fst s) <= fuel -> x < length (fst s) ->
  exists s', dfs fuel succ s x = Some s' /\ dfs_post succ s s' (eq x).
Proof.
  induction fuel as [|f IH]; intros succ s x Hsucc Hc Hx.
  - destruct (off_on_dec _ _ Hx) as [Ho|Ho].
    + exists s. unfold on in Ho. simpl. rewrite Ho. split; [reflexivity|].
      apply dfs_post_refl. intros y <-. assumption.
    + exfalso. unfold off in Ho.
      destruct (upd_some _ (fst s) x true Hx) as [v Ev].
      pose proof (count_upd _ _ _ Ho Ev). lia.
  - destruct (off_on_dec _ _ Hx) as [Ho|Ho].
    + exists s. unfold on in Ho. cbn [dfs]. rewrite Ho. split; [reflexivity|].
      apply dfs_post_refl. intros y <-. assumption.
    + destruct (upd_some _ (fst s) x true Hx) as [v Ev].
      destruct (Hsucc x Hx) as (l & El & Fl).
      cbn [dfs]. unfold off in Ho. rewrite Ho, Ev, El.
      pose proof (count_upd _ _ _ Ho Ev) as Hcv.
      pose proof (upd_length _ _ _ _ _ Ev) as Lv.
      assert (Hfold : forall l s1, Forall (fun z => z < length (fst s)) l -> length (fst s1) = length (fst s) ->
        count_false (fst s1) <= f ->
        exists s2, fold_left (fun acc y => match acc with Some s' => dfs f succ s' y | None => None end) l (Some s1) = Some s2
          /\ dfs_post succ s1 s2 (fun y => In y l)).
      { clear - IH Hsucc. induction l as [|y l IHl]; intros s1 Fl L1 C1; cbn [fold_left].
        - exists s1. split; [reflexivity|]. apply dfs_post_refl. intros y [].
        - inversion Fl as [|? ? Hy Fl']; subst.
          destruct (IH succ s1 y) as (s2 & E2 & P2).
          { intros q Hq. rewrite L1 in *. apply Hsucc. assumption. }
          { assumption. } { rewrite L1. assumption. }
          rewrite E2.
          pose proof P2 as (Q1 & Q2 & _).
          destruct (IHl s2) as (s3 & E3 & P3); [assumption|congruence| |].
          { assert (count_false (fst s2) <= count_false (fst s1)); [|lia].
            apply count_mono; [congruence|exact Q2]. }
          exists s3. split; [assumption|].
          destruct (dfs_post_trans _ _ _ _ _ _ P2 P3) as (R1 & R2 & R3 & R4 & R5 & R6).
          split; [assumption|]. split; [assumption|]. split; [intros z Hz; apply R3; destruct Hz; auto|].
          split; [|split; assumption].
          intros z H1 H2. destruct (R4 z H1 H2) as (w & [->|Hw] & R); exists w; simpl; auto. }
      destruct (Hfold l (v, S (snd s)) Fl) as (s2 & E2 & (R1 & R2 & R3 & R4 & R5 & R6)); [exact Lv|simpl; lia|].
      exists s2. split; [assumption|]. cbn [fst snd] in *.
      assert (Vx : on v x). { unfold on. rewrite (upd_nth_error _ _ _ _ _ _ Ev), Nat.eqb_refl. reflexivity. }
      assert (Voff : forall y, off (fst s) y -> y <> x -> off v y).
      { intros y Hy Hne. unfold off in *. rewrite (upd_nth_error _ _ _ _ _ _ Ev).
        destruct (Nat.eqb_spec y x); [congruence|assumption]. }
      assert (Von : forall y, on (fst s) y -> on v y).
      { intros y Hy. unfold on in *. rewrite (upd_nth_error _ _ _ _ _ _ Ev). destruct (Nat.eqb y x); auto. }
      split; [congruence|]. split; [auto|]. split; [intros y <-; auto|].
      split; [|split; [|lia]].
      * intros y H1 H2. exists x. split; [reflexivity|].
        destruct (Nat.eq_dec y x) as [->|Hne]; [constructor|].
        destruct (R4 y H1 (Voff _ H2 Hne)) as (w & Hw & R).
        eapply reach_step; eassumption.
      * intros y z l' H1 H2 Hs Hz. destruct (Nat.eq_dec y x) as [->|Hne].
        -- rewrite El in Hs. inversion Hs; subst. auto.
        -- eapply R5; try eassumption. apply Voff; assumption.
Qed.

(** Searching an unmarked graph marks exactly what is reachable, and counts it. *)
Lemma dfs_reach : forall n succ x,
  (forall y, y < n -> exists l, succ y = Some l /\ Forall (fun z => z < n) l) -> x < n ->
  exists v c, dfs n succ (repeat false n, 0) x = Some (v, c) /\ length v = n /\
    (forall y, on v y <-> reach succ x y) /\ c = count_true v.
Proof.
  intros n succ x Hs Hx.
  destruct (dfs_spec n succ (repeat false n, 0) x) as ((v & c) & E & (P1 & P2 & P3 & P4 & P5 & P6)); cbn [fst snd] in *.
  - intros y Hy. rewrite repeat_length in *. apply Hs. assumption.
  - pose proof (count_tf (repeat false n)). rewrite repeat_length, count_true_repeat in *. lia.
  - rewrite repeat_length. assumption.
  - rewrite repeat_length in P1.
    assert (Hoff : forall y, y < n -> off (repeat false n) y) by (intros; apply nth_error_repeat; assumption).
    exists v, c. split; [assumption|]. split; [assumption|]. split.
    + intro y. split.
      * intro H. destruct (P4 y H) as (w & <- & R); [|assumption]. apply Hoff. rewrite <- P1. apply on_lt. assumption.
      * intro R. assert (H : on v x) by auto. clear P3 P4 E. induction R as [|x y z l El Hy R IH]; [assumption|].
        apply IH.
        -- destruct (Hs x Hx) as (l' & El' & F). rewrite El in El'. inversion El'; subst.
           rewrite Forall_forall in F. auto.
        -- apply (P5 x y l); auto.
    + pose proof (count_tf v). pose proof (count_tf (repeat false n)).
      rewrite repeat_length, count_true_repeat in *. lia.
Qed.
