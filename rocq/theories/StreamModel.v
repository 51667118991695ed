(* Text streams: what std::istream extraction and fmt printing of integers do.
   This models the C++ standard library (libstdc++), not /repo; the portal file reader and
   other text readers use it. *)
From Coq Require Import List Arith NArith ZArith Bool.
Import ListNotations.
From Verif Require Import ParserModel.
Local Open Scope N_scope.

(** An input stream: text left, eofbit, failbit.  badbit is never set (no I/O errors). *)
Record istr := mkIS { is_rest : bytes; is_eof : bool; is_fail : bool }.

Fixpoint drop_ws (s : bytes) : bytes :=
  match s with c :: s' => if isspace c then drop_ws s' else s | [] => [] end.

(** istream::sentry of a formatted extraction: [None] when nothing may be read. *)
Definition sentry (s : istr) : istr * bool :=
  if is_eof s || is_fail s then (mkIS (is_rest s) (is_eof s) true, false)
  else match drop_ws (is_rest s) with
       | [] => (mkIS [] true true, false)
       | r => (mkIS r false false, true)
       end.

Definition digit (c : N) : bool := (48 <=? c) && (c <=? 57).

Fixpoint take_digits (s : bytes) : bytes * bytes :=
  match s with
  | c :: s' => if digit c then let '(d, r) := take_digits s' in (c :: d, r) else ([], s)
  | [] => ([], [])
  end.

(** Value of a run of digits. *)
Definition dec_value (d : bytes) : N := fold_left (fun a c => 10 * a + (c - 48)) d 0.

Definition INT_MAX : Z := 2147483647.
Definition INT_MIN : Z := -2147483648.

(** [f >> i] for an int: [None] when the variable keeps its value. *)
Definition get_int (s : istr) : istr * option Z :=
  let '(s1, ok) := sentry s in
  if negb ok then (s1, None)
  else
    let '(neg, body) := match is_rest s1 with
                        | c :: r => if c =? 45 then (true, r) else if c =? 43 then (false, r) else (false, c :: r)
                        | [] => (false, []) end in
    let '(d, r) := take_digits body in
    let eof := match r with [] => true | _ => false end in
    match d with
    | [] => (mkIS r eof true, Some 0%Z)
    | _ => let v := if neg then (- Z.of_N (dec_value d))%Z else Z.of_N (dec_value d) in
           if (v >? INT_MAX)%Z then (mkIS r eof true, Some INT_MAX)
           else if (v <? INT_MIN)%Z then (mkIS r eof true, Some INT_MIN)
           else (mkIS r eof false, Some v)
    end.

(** The characters num_get takes for a floating-point number: sign, digits with one point,
    one exponent with an optional sign.  Returned as text; the number is a function of it.
    [None]: not a number (failbit). *)
Definition take_sign (s : bytes) : bytes * bytes :=
  match s with c :: r => if (c =? 43) || (c =? 45) then ([c], r) else ([], s) | [] => ([], []) end.

Definition take_frac (s : bytes) : bytes * bytes :=
  match s with
  | c :: r => if c =? 46 then let '(d, r') := take_digits r in (c :: d, r') else ([], s)
  | [] => ([], [])
  end.

Definition take_exp (s : bytes) : bytes * bytes * bool :=
  match s with
  | e :: s1 =>
    if (e =? 101) || (e =? 69) then
      let '(sg, s2) := take_sign s1 in
      let '(d, r) := take_digits s2 in
      (e :: sg ++ d, r, match d with [] => false | _ => true end)
    else ([], s, true)
  | [] => ([], [], true)
  end.

Definition take_real (s : bytes) : bytes * bytes * bool :=
  let '(sg, s1) := take_sign s in
  let '(d1, s2) := take_digits s1 in
  let '(d2, s3) := take_frac s2 in
  let mant := match d1, d2 with [], [] => false | [], [_] => false | _, _ => true end in
  if mant then
    let '(ex, s4, okx) := take_exp s3 in (sg ++ d1 ++ d2 ++ ex, s4, okx)
  else (sg ++ d1 ++ d2, s3, false).

Definition get_real (s : istr) : istr * option bytes :=
  let '(s1, ok) := sentry s in
  if negb ok then (s1, None)
  else
    let '(t, r, valid) := take_real (is_rest s1) in
    (mkIS r (match r with [] => true | _ => false end) (negb valid), if valid then Some t else None).

(** Printing a non-negative integer ([fmt] "{}"). *)
Fixpoint dec_digits (fuel : nat) (n : N) (acc : bytes) : bytes :=
  match fuel with
  | O => acc
  | S f => if n <? 10 then (48 + n) :: acc else dec_digits f (n / 10) ((48 + n mod 10) :: acc)
  end.

Definition print_nat (n : nat) : bytes := dec_digits (S (N.size_nat (N.of_nat n))) (N.of_nat n) [].
