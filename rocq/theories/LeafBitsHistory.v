(* Specification of leaf bit sets used by the C08 theorem, and its proof. *)
From Coq Require Import List Arith NArith Bool.
Import ListNotations.
From Verif Require Import Base LeafBitsModel LeafBitsProofs.

(** The abstract set: its size and its membership predicate. *)
Definition aset : Type := nat * (nat -> bool).

Definition spec_step (s : aset) (o : lb_op) : aset :=
  match o with
  | Op_resize n => (n, fun _ => false)
  | Op_clear => (fst s, fun _ => false)
  | Op_setall => (fst s, fun _ => true)
  | Op_set k v => (fst s, fun i => if Nat.eqb i k then v else snd s i)
  | Op_or t => (fst s, fun i => snd s i || match lb_get t i with Some x => x | None => false end)
  end.

Definition spec_run (n : nat) (ops : list lb_op) : aset := fold_left spec_step ops (n, fun _ => false).

(** Each operation's index is below the size at that time; united sets are well-formed
    sets of the same size. *)
Fixpoint valid_history (n : nat) (ops : list lb_op) : Prop :=
  match ops with
  | [] => True
  | o :: rest => lb_valid_op n o /\ valid_history (match o with Op_resize m => m | _ => n end) rest
  end.

Lemma leafbits_history_gen : forall ops b m, lb_wf b -> valid_history (lb_size b) ops ->
  (forall i, i < lb_size b -> lb_get b i = Some (m i)) ->
  exists b', fold_left lb_step ops (Some b) = Some b' /\
    lb_size b' = fst (fold_left spec_step ops (lb_size b, m)) /\
    forall i, i < lb_size b' -> lb_get b' i = Some (snd (fold_left spec_step ops (lb_size b, m)) i).
Proof.
  induction ops as [|o rest IH]; intros b m Hwf Hv Hm.
  - exists b. simpl. auto.
  - destruct Hv as [Hv1 Hv2].
    destruct (lb_step_ok b o m Hwf Hv1 Hm) as (b' & E & W & S & G).
    cbn [fold_left]. rewrite E.
    destruct (IH b' (snd (spec_step (lb_size b, m) o)) W) as (b2 & E2 & S2 & G2).
    + destruct o; rewrite S; exact Hv2.
    + intros i Hi. rewrite (G i Hi). destruct o; reflexivity.
    + assert (Es : spec_step (lb_size b, m) o = (lb_size b', snd (spec_step (lb_size b, m) o))).
      { destruct o; cbn in S |- *; rewrite S; reflexivity. }
      exists b2. split; [assumption|]. rewrite Es. auto.
Qed.

Lemma leafbits_history : forall n ops, valid_history n ops ->
  exists b, lb_run n ops = Some b /\ lb_size b = fst (spec_run n ops) /\
    forall i, i < lb_size b -> lb_get b i = Some (snd (spec_run n ops) i).
Proof.
  intros n ops Hv. unfold lb_run, spec_run.
  apply (leafbits_history_gen ops (lb_make n) (fun _ => false)); [apply wf_make|assumption|].
  intros i Hi. apply lb_make_get. assumption.
Qed.
