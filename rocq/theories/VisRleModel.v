(* Model of the visibility row codec in common/bsputils.cc. *)
From Coq Require Import List Arith NArith ZArith Bool.
Import ListNotations.
From Verif Require Import Base.
Local Open Scope N_scope.

(** common/bsputils.cc:597-604, the inner loop of CompressRow
    [for (i++; i < numbytes; i++) { if (vis[i] || rep == 255) break; rep++; }].
    The array is represented by the suffix not yet consumed; the result is the
    final [rep] and the suffix at which the loop stopped. *)
Fixpoint zero_run (rep : N) (l : list N) : N * list N :=
  match l with
  | [] => (rep, [])
  | b :: t => if negb (b =? 0) || (rep =? 255) then (rep, l) else zero_run (rep + 1) t
  end.

(** common/bsputils.cc:586-608, CompressRow. [fuel] bounds the outer iterations
    ([None] = out of fuel; excluded by theorem [compress_row_total]). *)
Fixpoint compress_row_f (fuel : nat) (l : list N) : option (list N) :=
  match l with
  | [] => Some []
  | b :: t =>
    match fuel with
    | O => None
    | S f =>
      if negb (b =? 0) then option_map (cons b) (compress_row_f f t)
      else let '(rep, rest) := zero_run 1 t in
           option_map (fun o => b :: rep :: o) (compress_row_f f rest)
    end
  end.

Definition compress_row (l : list N) : option (list N) := compress_row_f (length l) l.

(** Outcomes of DecompressVis (common/bsputils.cc:661-699). Every outcome that the
    code reaches by [return] carries the output buffer at that time. [D_UB] is an
    access outside the input or output buffer, [D_fuel] is the model's fuel limit;
    both are excluded by theorem. *)
Inductive dres :=
| D_done (out : list N)        (* loop left because out = outend *)
| D_underrun (out : list N)    (* lines 666-670 and 678-682: input underrun *)
| D_zero_repeat (out : list N) (* lines 685-688: 0 repeat *)
| D_overrun (out : list N)     (* lines 691-695: output overrun *)
| D_UB
| D_fuel.

(** common/bsputils.cc:690-697, [for (c = run_length; c > 0; c--)]: write zeros.
    [inl o] = loop finished at output index [o]; [inr r] = function returned.  *)
Fixpoint zero_fill (c : nat) (outb : list N) (o : nat) : (list N * nat) + dres :=
  match c with
  | O => inl (outb, o)
  | S c' =>
    if Nat.eqb o (length outb) then inr (D_overrun outb)
    else match upd outb o 0 with
         | None => inr D_UB
         | Some outb' => zero_fill c' outb' (S o)
         end
  end.

(** common/bsputils.cc:661-699, DecompressVis. Pointers are indices: [pos] into the
    input buffer [inb] (with [inend] its end), [o] into the output buffer [outb]. *)
Fixpoint decompress_f (fuel : nat) (inb : list N) (pos : nat) (outb : list N) (o : nat) : dres :=
  if Nat.ltb o (length outb) then
    match fuel with
    | O => D_fuel
    | S f =>
      if Nat.eqb pos (length inb) then D_underrun outb
      else match nth_error inb pos with
      | None => D_UB
      | Some c =>
        if negb (c =? 0) then
          match upd outb o c with
          | None => D_UB
          | Some outb' => decompress_f f inb (S pos) outb' (S o)
          end
        else if Nat.eqb (S pos) (length inb) then D_underrun outb
        else match nth_error inb (S pos) with
        | None => D_UB
        | Some r =>
          if r =? 0 then D_zero_repeat outb
          else match zero_fill (N.to_nat r) outb o with
               | inr res => res
               | inl (outb', o') => decompress_f f inb (S (S pos)) outb' o'
               end
        end
      end
    end
  else D_done outb.

Definition decompress_vis (inb : list N) (pos : nat) (outb : list N) : dres :=
  decompress_f (S (length inb)) inb pos outb 0.

(** The buffer left behind, for the outcomes that return normally. *)
Definition dres_buffer (r : dres) : option (list N) :=
  match r with
  | D_done o | D_underrun o | D_zero_repeat o | D_overrun o => Some o
  | D_UB | D_fuel => None
  end.

(** common/bsputils.cc:733-754, the Quake branch of DecompressAllVis: one entry per
    distinct visofs, in leaf order. The unordered_map is an association list.
    [visofs] values are the leafs' int32 fields; [size] is DecompressedVisSize.
    [None] = undefined behaviour inside DecompressVis. *)
Fixpoint decompress_all_q1 (bits : list N) (size : nat) (visofs : list Z)
    (acc : list (Z * list N)) : option (list (Z * list N)) :=
  match visofs with
  | [] => Some acc
  | v :: rest =>
    if (v <? 0)%Z then decompress_all_q1 bits size rest acc
    else if existsb (fun e => (fst e =? v)%Z) acc then decompress_all_q1 bits size rest acc
    else if (Z.of_nat (length bits) <=? v)%Z then decompress_all_q1 bits size rest acc
    else match dres_buffer (decompress_vis bits (Z.to_nat v) (repeat 0 size)) with
         | None => None
         | Some row => decompress_all_q1 bits size rest (acc ++ [(v, row)])
         end
  end.

(** common/bsputils.cc:716-731, the Quake II branch: cluster i uses get_bit_offset;
    comparing the int32 offset with the size_t size converts a negative offset to a
    huge value, so it is skipped as invalid. *)
Fixpoint decompress_all_q2 (bits : list N) (size : nat) (cluster : nat) (offsets : list Z)
    : option (list (nat * list N)) :=
  match offsets with
  | [] => Some []
  | v :: rest =>
    if ((v <? 0) || (Z.of_nat (length bits) <=? v))%Z%bool
    then decompress_all_q2 bits size (S cluster) rest
    else match dres_buffer (decompress_vis bits (Z.to_nat v) (repeat 0 size)),
               decompress_all_q2 bits size (S cluster) rest with
         | Some row, Some m => Some ((cluster, row) :: m)
         | _, _ => None
         end
  end.
