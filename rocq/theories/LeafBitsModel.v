(* Model of include/vis/leafbits.hh: a bit set in 32-bit blocks. *)
From Coq Require Import List Arith NArith Bool.
Import ListNotations.
From Verif Require Import Base.

(** include/vis/leafbits.hh:27-30. *)
Record leafbits := { lb_size : nat; lb_bits : list N }.

(** include/vis/leafbits.hh:32, block_size(): [(_size + mask) >> shift], mask = 31, shift = 5. *)
Definition block_size (n : nat) : nat := (n + 31) / 32.

(** include/vis/leafbits.hh:42-46 and :81, constructor and resize: fresh zeroed blocks. *)
Definition lb_make (n : nat) : leafbits := {| lb_size := n; lb_bits := repeat 0%N (block_size n) |}.

(** include/vis/leafbits.hh:83, clear(). *)
Definition lb_clear (b : leafbits) : leafbits :=
  {| lb_size := lb_size b; lb_bits := repeat 0%N (block_size (lb_size b)) |}.

(** include/vis/leafbits.hh:84, setall(): memset 0xff over byte_size(). *)
Definition lb_setall (b : leafbits) : leafbits :=
  {| lb_size := lb_size b; lb_bits := repeat 4294967295%N (block_size (lb_size b)) |}.

(** nth_bit(index & mask). *)
Definition bit_mask (i : nat) : N := N.shiftl 1 (N.of_nat (i mod 32)).

(** include/vis/leafbits.hh:89, operator[] const. [None] = block index out of bounds. *)
Definition lb_get (b : leafbits) (i : nat) : option bool :=
  match nth_error (lb_bits b) (i / 32) with
  | None => None
  | Some w => Some (negb (N.land w (bit_mask i) =? 0)%N)
  end.

(** include/vis/leafbits.hh:99-107 through :110, assignment to operator[].
    [None] = block index out of bounds. [& ~mask] is [N.ldiff]. *)
Definition lb_set (b : leafbits) (i : nat) (v : bool) : option leafbits :=
  match nth_error (lb_bits b) (i / 32) with
  | None => None
  | Some w =>
    match upd (lb_bits b) (i / 32) (if v then N.lor w (bit_mask i) else N.ldiff w (bit_mask i)) with
    | None => None
    | Some l => Some {| lb_size := lb_size b; lb_bits := l |}
    end
  end.

(** Block-wise union of two sets, the loop vis/vis.cc:403-404 in ClusterFlow
    ([for j < numblocks: dst[j] |= src[j]]). *)
Fixpoint or_blocks (a b : list N) : list N :=
  match a, b with
  | x :: a', y :: b' => N.lor x y :: or_blocks a' b'
  | _, _ => a
  end.
Definition lb_or (a b : leafbits) : leafbits :=
  {| lb_size := lb_size a; lb_bits := or_blocks (lb_bits a) (lb_bits b) |}.

(** Operations of a history. *)
Inductive lb_op := Op_resize (n : nat) | Op_clear | Op_setall | Op_set (i : nat) (v : bool) | Op_or (s : leafbits).

Definition lb_step (b : option leafbits) (o : lb_op) : option leafbits :=
  match b with
  | None => None
  | Some b =>
    match o with
    | Op_resize n => Some (lb_make n)
    | Op_clear => Some (lb_clear b)
    | Op_setall => Some (lb_setall b)
    | Op_set i v => lb_set b i v
    | Op_or s => Some (lb_or b s)
    end
  end.
Definition lb_run (n : nat) (ops : list lb_op) : option leafbits := fold_left lb_step ops (Some (lb_make n)).
