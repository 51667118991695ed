(* Model of common/parser.cc: the tokenizer used for .map files, .ent files, .ini files and
   the entity lump.  The memory the parser walks over is a list of bytes (0..255); reading
   beyond the list is the outcome [T_UB]. *)
From Coq Require Import List Arith NArith Bool.
Import ListNotations.
Local Open Scope N_scope.

Definition bytes := list N.

(** include/common/parser.hh:29-36, the bits of [parseflags]. *)
Definition PARSE_NORMAL := 0.
Definition PARSE_SAMELINE := 1.
Definition PARSE_COMMENT := 2.
Definition PARSE_OPTIONAL := 4.
Definition PARSE_PEEK := 8.
Definition f_sameline (f : N) := N.testbit f 0.
Definition f_comment (f : N) := N.testbit f 1.
Definition f_optional (f : N) := N.testbit f 2.
Definition f_peek (f : N) := N.testbit f 3.

(** include/common/parser.hh:119-145: [token], [was_quoted], [location.line_number]; [ps_mem]
    is the allocated memory from [pos] on and [ps_left] is [end - pos] (0 once [pos >= end]).
    [location] always has a line number because the constructor sets line 1
    (common/parser.cc:63-64); line numbers are unbounded (size_t in the code). *)
Record pstate := mkPS {
  ps_token : bytes; ps_quoted : bool; ps_mem : bytes; ps_left : nat; ps_line : nat }.

Inductive tres :=
| T_ret (r : bool) (s : pstate)   (* parse_token returned r *)
| T_error                        (* FError: throws *)
| T_UB.                          (* read outside the memory *)

(** [*pos <= 32] with [char] signed (x86, common/parser.cc:101,195): bytes from 128 on are
    negative and so count as blanks. *)
Definition blank (c : N) : bool := (c <=? 32) || (128 <=? c).

(** common/parser.cc:122-124, [PARSE_COMMENT]: copy up to NUL or newline. *)
Fixpoint take_comment (s : bytes) (n : nat) (acc : bytes) : option (bytes * bytes * nat) :=
  match s with
  | [] => None
  | c :: s' => if (c =? 0) || (c =? 10) then Some (acc, s, n)
               else take_comment s' (pred n) (acc ++ [c])
  end.

(** common/parser.cc:195-197: copy while [*pos > 32]. *)
Fixpoint take_word (s : bytes) (n : nat) (acc : bytes) : option (bytes * bytes * nat) :=
  match s with
  | [] => None
  | c :: s' => if blank c then Some (acc, s, n) else take_word s' (pred n) (acc ++ [c])
  end.

(** common/parser.cc:157-166: the escapes of two characters that are both copied at once. *)
Definition esc_pair (c : N) : bool :=
  (c =? 110) || (c =? 39) || (c =? 114) || (c =? 116) || (c =? 92) || (c =? 98).

Inductive qres := Q_ok (tok : bytes) (rest : bytes) (lft : nat) | Q_error | Q_UB.

(** common/parser.cc:149-193: the body of a quoted token, [s] starting after the opening
    quote.  The warnings of lines 181 and 187 are not modelled; every character is copied
    verbatim, a backslash only decides whether the next character is looked at. *)
Fixpoint take_quoted (s : bytes) (n : nat) (acc : bytes) : qres :=
  match s with
  | [] => Q_UB
  | c :: s1 =>
    if c =? 34 then Q_ok acc s1 (pred n)
    else if c =? 0 then Q_error
    else if c =? 92 then
      match s1 with
      | [] => Q_UB
      | d :: s2 =>
        if esc_pair d then take_quoted s2 (pred (pred n)) (acc ++ [c; d])
        else if d =? 34 then
          match s2 with
          | [] => Q_UB
          | e :: _ => if (e =? 13) || (e =? 10) then take_quoted s1 (pred n) (acc ++ [c])
                      else take_quoted s2 (pred (pred n)) (acc ++ [c; d])
          end
        else take_quoted s1 (pred n) (acc ++ [c])
      end
    else take_quoted s1 (pred n) (acc ++ [c])
  end.

(** common/parser.cc:141-201: after blanks and comments were skipped and [s] is at the first
    character of a token. *)
Definition copy_token (f : N) (s : bytes) (n line : nat) : tres :=
  if f_comment f then T_ret false (mkPS [] false s n line)
  else match s with
       | [] => T_UB
       | c :: s' =>
         if c =? 34 then
           match take_quoted s' (pred n) [] with
           | Q_ok tok rest lft => T_ret true (mkPS tok true rest lft line)
           | Q_error => T_error
           | Q_UB => T_UB
           end
         else match take_word s n [] with
              | Some (tok, rest, lft) => T_ret true (mkPS tok false rest lft line)
              | None => T_UB
              end
       end.

(** Outcome of meeting the end of the line or text, common/parser.cc:103-107, 110-113,
    127-130: [None] when the scan may go on past a newline. *)
Definition eol (f : N) (s : bytes) (n line : nat) : option tres :=
  if f_optional f then Some (T_ret false (mkPS [] false s n line))
  else if f_sameline f then Some T_error
  else None.

(** common/parser.cc:99-140, the [skipspace] loop.  [in_comment] is true while the loop of
    lines 131-137 runs with [pos] at [s] (about to read [*pos++]). *)
Fixpoint skip (f : N) (in_comment : bool) (s : bytes) (n line : nat) {struct s} : tres :=
  if in_comment then
    match s with
    | [] => T_UB
    | c :: s' =>
      if c =? 10 then skip f false s' (pred n) (S line)
      else match s' with
           | [] => T_UB
           | d :: _ => if d =? 0
                       then (if f_sameline f then T_error
                             else T_ret false (mkPS [] false s' (pred n) line))
                       else skip f true s' (pred n) line
           end
    end
  else
    match n with
    | O => match eol f s n line with Some r => r | None => T_ret false (mkPS [] false s n line) end
    | S _ =>
      match s with
      | [] => T_UB
      | c :: s' =>
        if blank c then
          if c =? 0 then
            match eol f s n line with Some r => r | None => T_ret false (mkPS [] false s n line) end
          else if c =? 10 then
            match eol f s n line with Some r => r | None => skip f false s' (pred n) (S line) end
          else skip f false s' (pred n) line
        else
          match (if c =? 47 then match s' with [] => None | d :: _ => Some (d =? 47) end
                 else Some (c =? 59)) with
          | None => T_UB
          | Some true =>
            if f_comment f then
              match take_comment s n [] with
              | Some (tok, rest, lft) => T_ret true (mkPS tok false rest lft line)
              | None => T_UB
              end
            else match eol f s n line with
                 | Some r => r
                 | None =>
                   match s' with
                   | [] => T_UB
                   | d :: _ => if d =? 0 then T_ret false (mkPS [] false s' (pred n) line)
                               else skip f true s' (pred n) line
                   end
                 end
          | Some false => copy_token f s n line
          end
      end
    end.

(** common/parser.cc:85-202.  [PARSE_PEEK] restores position and location (lines 88-93), not
    the token. *)
Definition parse_token (f : N) (p : pstate) : tres :=
  let r := skip f false (ps_mem p) (ps_left p) (ps_line p) in
  if f_peek f then
    match r with
    | T_ret b q => T_ret b (mkPS (ps_token q) (ps_quoted q) (ps_mem p) (ps_left p) (ps_line p))
    | _ => r
    end
  else r.

(** common/parser.cc:63-83: a parser over the first [n] bytes of the memory [m]. *)
Definition new_parser (m : bytes) (n : nat) : pstate := mkPS [] false m n 1.

(** common/parser.cc:227-260, [token_parser_t] over the command line words; [isspace] of the C
    locale.  State: tokens left, token, was_quoted. *)
Definition isspace (c : N) : bool := ((9 <=? c) && (c <=? 13)) || (c =? 32).

Record tstate := mkTS { ts_token : bytes; ts_quoted : bool; ts_tokens : list bytes; ts_cur : nat }.

Definition tparse_token (f : N) (p : tstate) : bool * tstate :=
  let '(b, q) :=
    match nth_error (ts_tokens p) (ts_cur p) with
    | None => (false, mkTS [] false (ts_tokens p) (ts_cur p))
    | Some t => (true, mkTS t (existsb isspace t) (ts_tokens p) (S (ts_cur p)))
    end in
  if f_peek f then (b, mkTS (ts_token q) (ts_quoted q) (ts_tokens p) (ts_cur p)) else (b, q).
