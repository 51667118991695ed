(* Model of common/bspinfo.cc:138-184, Base64EncodeTo: the images in the JSON file of bspinfo. *)
From Coq Require Import List Arith NArith Bool.
Import ListNotations.
Local Open Scope N_scope.

(** sEncodingTable (141-144): the letters, the digits, plus and slash; [None]: out of bounds. *)
Definition table (i : N) : option N :=
  if i <? 26 then Some (65 + i) else if i <? 52 then Some (97 + (i - 26)) else if i <? 62 then Some (48 + (i - 52))
  else if i =? 62 then Some 43 else if i =? 63 then Some 47 else None.
Definition pad : N := 61.
Definition out (l : list (option N)) : option (list N) :=
  fold_right (fun c r => match c, r with Some x, Some t => Some (x :: t) | _, _ => None end) (Some []) l.
(** The expressions of 152-178 *)
Definition q0 (a : N) : option N := table (N.land (N.shiftr a 2) 63).
Definition q1 (a b : N) : option N := table (N.lor (N.shiftl (N.land a 3) 4) (N.shiftr (N.land b 240) 4)).
Definition q1_end (a : N) : option N := table (N.shiftl (N.land a 3) 4).
Definition q2 (b c : N) : option N := table (N.lor (N.shiftl (N.land b 15) 2) (N.shiftr (N.land c 192) 6)).
Definition q2_end (b : N) : option N := table (N.shiftl (N.land b 15) 2).
Definition q3 (c : N) : option N := table (N.land c 63).
(** The loop 166-171 and what follows it (172-182).  data.size() < 3 is handled before the loop (146-164) by the same
    expressions as after it. *)
Fixpoint encode (data : list N) : option (list N) :=
  match data with
  | [] => Some []
  | [a] => out [q0 a; q1_end a; Some pad; Some pad]
  | [a; b] => out [q0 a; q1 a b; q2_end b; Some pad]
  | a :: b :: c :: t =>
    match out [q0 a; q1 a b; q2 b c; q3 c], encode t with Some h, Some r => Some (h ++ r) | _, _ => None end
  end.
