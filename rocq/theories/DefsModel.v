(* Model of the files of texture and entity definitions, qbsp/qbsp.cc:602-678, and their use in qbsp/map.cc:1766-1774.  A
   file is a list of bytes; fs::load delivers exactly these, without a NUL behind them. *)
From Coq Require Import List Arith NArith ZArith Bool.
Import ListNotations.
From Verif Require Import ParserModel EntModel SettingsModel.
Local Open Scope N_scope.

Inductive dres (A : Type) :=
| D_ok (x : A)
| D_error                        (* FError or an exception of std::stoul and std::stoi *)
| D_UB                           (* a read outside the memory *)
| D_fuel.
Arguments D_ok {A}. Arguments D_error {A}. Arguments D_UB {A}. Arguments D_fuel {A}.
Definition dbind {A B} (r : dres A) (k : A -> dres B) : dres B :=
  match r with D_ok x => k x | D_error => D_error | D_UB => D_UB | D_fuel => D_fuel end.
(** parser.parse_token: whether there was a token, and the parser behind it. *)
Definition dtok (f : N) (p : pstate) : dres (bool * pstate) :=
  match parse_token f p with T_ret b q => D_ok (b, q) | T_error => D_error | T_UB => D_UB end.

(** extended_texinfo_t (include/qbsp/qbsp.hh:73-79) without animation, which stays empty: contents_native, flags.native,
    value. *)
Record tinfo := mkTI { ti_contents : Z; ti_flags : Z; ti_value : Z }.
(** loaded_texture_defs and loaded_entity_defs (qbsp.hh:245-246): an unordered_map as a list of pairs, the newest first;
    looked up by the exact name. *)
Fixpoint lookup {A} (name : bytes) (m : list (bytes * A)) : option A :=
  match m with [] => None | (k, x) :: m2 => if beq k name then Some x else lookup name m2 end.

(** qbsp.cc:628-630, [to] backwards: to[to.size() - 1] of an empty string is out of bounds.  std::isspace of a negative
    char is taken to be false, as in glibc. *)
Fixpoint trim_rev (r : bytes) : option bytes :=
  match r with [] => None | c :: r2 => if isspace c then trim_rev r2 else Some r end.
Definition trim_to (to : bytes) : option bytes := option_map (@rev N) (trim_rev (rev to)).
(** std::stoul (64 bits) stored in a uint32_t *)
Definition stou32 (s : bytes) : option Z := option_map (fun z => (z mod 2 ^ 32)%Z) (stoull s).
Definition SAMELINE_OPTIONAL := 5.
(** An optional number of the line, [dflt] without one. *)
Definition opt_int (dflt : Z) (p : pstate) : dres (Z * pstate) :=
  dbind (dtok SAMELINE_OPTIONAL p) (fun '(b, q) =>
    if b then match stoi (ps_token q) with Some z => D_ok (z, q) | None => D_error end else D_ok (dflt, q)).

(** qbsp.cc:624-645: the rest of a line, after the first name. *)
Definition texture_line (p : pstate) : dres (option (bytes * option tinfo) * pstate) :=
  dbind (dtok PARSE_SAMELINE p) (fun '(b, p1) =>
    if negb b then D_ok (None, p1)
    else match trim_to (ps_token p1) with
         | None => D_UB
         | Some to =>
           dbind (dtok SAMELINE_OPTIONAL p1) (fun '(b2, p2) =>
             if negb b2 then D_ok (Some (to, None), p2)
             else match stou32 (ps_token p2) with
                  | None => D_error
                  | Some c => dbind (opt_int 0 p2) (fun '(f, p3) => dbind (opt_int 0 p3) (fun '(v, p4) => D_ok (Some (to, Some (mkTI c f v)), p4)))
                  end)
         end).
(** qbsp.cc:612-648 *)
Fixpoint texture_loop (fuel : nat) (m : list (bytes * (bytes * option tinfo))) (p : pstate) : dres (list (bytes * (bytes * option tinfo))) :=
  match fuel with
  | O => D_fuel
  | S fuel2 =>
    dbind (dtok PARSE_NORMAL p) (fun '(b, p1) =>
      if negb b || Nat.eqb (ps_left p1) 0 then D_ok m
      else dbind (texture_line p1) (fun '(r, p2) =>
        match r with None => D_ok m | Some d => texture_loop fuel2 ((ps_token p1, d) :: m) p2 end))
  end.
(** load_texture_def of a file that exists (602-649) *)
Definition load_texture_def (m : list (bytes * (bytes * option tinfo))) (file : bytes) :=
  texture_loop (S (length file)) m (new_parser file (length file)).

Definition of_eres {A} (r : eres A) : dres A := match r with E_ok x => D_ok x | E_error => D_error | E_UB => D_UB | E_fuel => D_fuel end.
(** qbsp.cc:660-677 *)
Fixpoint entity_loop (fuel : nat) (m : list (bytes * entdict)) (p : pstate) : dres (list (bytes * entdict)) :=
  match fuel with
  | O => D_fuel
  | S fuel2 =>
    dbind (dtok PARSE_NORMAL p) (fun '(b, p1) =>
      if negb b || Nat.eqb (ps_left p1) 0 then D_ok m
      else dbind (dtok PARSE_PEEK p1) (fun '(b2, p2) =>
        if negb b2 then D_error
        else if negb (beq (ps_token p2) [123]) then D_error
        else dbind (of_eres (ed_parse (S (length (ps_mem p2))) [] p2)) (fun '(d, p3) => entity_loop fuel2 ((ps_token p1, d) :: m) p3)))
  end.
(** load_entity_def of a file that exists (651-678) *)
Definition load_entity_def (m : list (bytes * entdict)) (file : bytes) := entity_loop (S (length file)) m (new_parser file (length file)).

(** map.cc:1766-1774: a side with its name and what the map says of contents, flags and value. *)
Definition remap (m : list (bytes * (bytes * option tinfo))) (name : bytes) (info : option tinfo) : bytes * option tinfo :=
  match lookup name m with
  | None => (name, info)
  | Some (to, Some i) => (to, Some i)
  | Some (to, None) => (to, info)
  end.
