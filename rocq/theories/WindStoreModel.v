(* Storage of winding points: include/common/polylib.hh:41-577. *)
From Coq Require Import List Arith Bool.
Import ListNotations.

Section Store.
Context {A : Type}.
Context (cap : nat).                 (* N, the template parameter *)

(** winding_storage_hybrid_t (polylib.hh:280-297): [s_arr] has cap elements; indeterminate ones have any value. *)
Record hyb := mkH { s_arr : list A; s_vec : list A; s_cnt : nat }.

(** at and operator[] (polylib.hh:491-537, without _DEBUG).  None: outside of the array or the vector. *)
Definition h_get (s : hyb) (i : nat) : option A :=
  if cap <=? i then nth_error (s_vec s) (i - cap) else nth_error (s_arr s) i.
(** Iteration from begin to end (polylib.hh:539-549). *)
Definition h_view (s : hyb) : list (option A) := map (h_get s) (seq 0 (s_cnt s)).

Fixpoint put (l : list A) (i : nat) (x : A) : list A :=
  match l, i with [], _ => [] | _ :: l, O => x :: l | y :: l, S i => y :: put l i x end.
(** Assignment through at or operator[]. *)
Definition h_set (s : hyb) (i : nat) (x : A) : hyb :=
  if cap <=? i then mkH (s_arr s) (put (s_vec s) (i - cap) x) (s_cnt s) else mkH (put (s_arr s) i x) (s_vec s) (s_cnt s).
(** emplace_back (polylib.hh:552-561). *)
Definition h_push (s : hyb) (x : A) : hyb :=
  if cap <? S (s_cnt s) then mkH (s_arr s) (s_vec s ++ [x]) (S (s_cnt s)) else mkH (put (s_arr s) (s_cnt s) x) (s_vec s) (S (s_cnt s)).
(** std::vector::resize; [zero] is a value-initialised point. *)
Definition v_resize (zero : A) (l : list A) (n : nat) : list A := firstn n l ++ repeat zero (n - length l).
(** resize (polylib.hh:563-571). *)
Definition h_resize (zero : A) (s : hyb) (n : nat) : hyb :=
  mkH (s_arr s) (if cap <? n then v_resize zero (s_vec s) (n - cap) else s_vec s) n.
(** clear (polylib.hh:575). *)
Definition h_clear (s : hyb) : hyb := mkH (s_arr s) (s_vec s) 0.
(** The constructor with a size (polylib.hh:394-404); [junk] is the memory of the array. *)
Definition h_new (zero : A) (junk : list A) (n : nat) : hyb := mkH junk (repeat zero (n - cap)) n.
(** memcpy or copy_n of the first min(n, cap) elements. *)
Definition blit (n : nat) (dst src : list A) : list A := firstn (min n cap) src ++ skipn (min n cap) dst.
(** The constructor from a range (polylib.hh:406-419). *)
Definition h_range (junk : list A) (l : list A) : hyb := mkH (blit (length l) junk l) (skipn cap l) (length l).
(** The copy constructor (polylib.hh:421-433). *)
Definition h_copy (junk : list A) (c : hyb) : hyb :=
  mkH (blit (s_cnt c) junk (s_arr c)) (if cap <? s_cnt c then firstn (s_cnt c - cap) (s_vec c) else []) (s_cnt c).
(** The move constructor (polylib.hh:435-450): the new object and the old one. *)
Definition h_move (junk : list A) (m : hyb) : hyb * hyb :=
  if cap <? s_cnt m then (mkH (blit (s_cnt m) junk (s_arr m)) (s_vec m) (s_cnt m), mkH (s_arr m) [] 0)
  else (mkH (blit (s_cnt m) junk (s_arr m)) [] (s_cnt m), mkH (s_arr m) (s_vec m) 0).
(** Copy assignment (polylib.hh:452-468). *)
Definition h_assign (s c : hyb) : hyb :=
  mkH (blit (s_cnt c) (s_arr s) (s_arr c)) (if cap <? s_cnt c then firstn (s_cnt c - cap) (s_vec c) else s_vec s) (s_cnt c).
(** Move assignment (polylib.hh:470-486), of another object. *)
Definition h_move_assign (s m : hyb) : hyb * hyb :=
  if cap <? s_cnt m then (mkH (blit (s_cnt m) (s_arr s) (s_arr m)) (s_vec m) (s_cnt m), mkH (s_arr m) [] 0)
  else (mkH (blit (s_cnt m) (s_arr s) (s_arr m)) (s_vec s) (s_cnt m), mkH (s_arr m) (s_vec m) 0).

(** Programs over numbered objects. *)
Inductive op :=
| ONew (i n : nat) (junk : list A) | ORange (i : nat) (l : list A) (junk : list A) | OSet (i k : nat) (x : A) | OPush (i : nat) (x : A)
| OResize (i n : nat) | OClear (i : nat) | OCopy (i j : nat) (junk : list A) | OMove (i j : nat) (junk : list A) | OAssign (i j : nat) | OMoveAssign (i j : nat).
Definition upd {B} (e : nat -> B) (i : nat) (x : B) : nat -> B := fun k => if k =? i then x else e k.
Definition h_step (zero : A) (e : nat -> hyb) (o : op) : nat -> hyb :=
  match o with
  | ONew i n junk => upd e i (h_new zero junk n)
  | ORange i l junk => upd e i (h_range junk l)
  | OSet i k x => upd e i (h_set (e i) k x)
  | OPush i x => upd e i (h_push (e i) x)
  | OResize i n => upd e i (h_resize zero (e i) n)
  | OClear i => upd e i (h_clear (e i))
  | OCopy i j junk => upd e i (h_copy junk (e j))
  | OMove i j junk => let '(a, b) := h_move junk (e j) in upd (upd e j b) i a
  | OAssign i j => upd e i (h_assign (e i) (e j))
  | OMoveAssign i j => let '(a, b) := h_move_assign (e i) (e j) in upd (upd e j b) i a
  end.

(** winding_storage_stack_t (polylib.hh:41-186): emplace_back and resize; the flag tells of std::bad_alloc. *)
Record stk := mkS { k_arr : list A; k_cnt : nat }.
Definition k_push (s : stk) (x : A) : stk * bool :=
  if cap <? S (k_cnt s) then (mkS (k_arr s) (S (k_cnt s)), true) else (mkS (put (k_arr s) (k_cnt s) x) (S (k_cnt s)), false).
Definition k_resize (s : stk) (n : nat) : stk * bool := if cap <? n then (s, true) else (mkS (k_arr s) n, false).
Definition k_view (s : stk) : list (option A) := map (nth_error (k_arr s)) (seq 0 (k_cnt s)).
End Store.
Arguments hyb : clear implicits.
Arguments op : clear implicits.
Arguments stk : clear implicits.

(** winding_storage_heap_t (polylib.hh:188-278) is a std::vector; its copy assignment resizes and copies. *)
Definition v_assign {A} (zero : A) (s c : list A) : list A := firstn (length c) c ++ skipn (length c) (v_resize zero s (length c)).
