(* C08: include/vis/leafbits.hh behaves as a finite set of leaf numbers. *)
From Coq Require Import List Arith NArith Bool.
Import ListNotations.
From Verif Require Import Base LeafBitsModel LeafBitsProofs LeafBitsHistory.

(** Specification: a size and a membership predicate. *)
(** C08. After any history of in-range operations the structure is never accessed out of
    bounds and reading index [i] answers membership in the specified set. *)
Theorem C08_leafbits_is_a_set : forall n ops, valid_history n ops ->
  exists b, lb_run n ops = Some b /\ lb_size b = fst (spec_run n ops) /\
    forall i, i < lb_size b -> lb_get b i = Some (snd (spec_run n ops) i).
Proof. exact leafbits_history. Qed.
Print Assumptions C08_leafbits_is_a_set.

Example C08_nontrivial :
  let ops := [Op_set 0 true; Op_set 31 true; Op_set 32 true; Op_set 31 false; Op_set 39 true] in
  valid_history 40 ops /\
  option_map (fun b => map (lb_get b) [0; 1; 31; 32; 39]) (lb_run 40 ops) =
    Some [Some true; Some false; Some false; Some true; Some true] /\
  option_map (fun b => lb_get b 64) (lb_run 40 ops) = Some None.
Proof. repeat split; try (vm_compute; reflexivity); repeat constructor. Qed.
