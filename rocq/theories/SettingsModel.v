(* Settings: sources, values, option names and command lines
   (include/common/settings.hh, common/settings.cc). *)
From Coq Require Import List Arith NArith ZArith Bool.
Import ListNotations.
From Verif Require Import NumCastModel ParserModel EntModel.
Local Open Scope N_scope.

(** ** Sources (settings.hh:58-64) *)
Inductive source := SDefault | SGame | SMap | SCmd.
Definition rank (s : source) : nat := match s with SDefault => 0 | SGame => 1 | SMap => 2 | SCmd => 3 end.
Definition src_ge (a b : source) : bool := (rank b <=? rank a)%nat.

(** ** One setting *)

(** setting_value<T>: value, source and default (settings.hh:160-202). *)
Record setting (T : Type) := mkS { s_val : T; s_src : source; s_def : T }.
Arguments mkS {T} _ _ _. Arguments s_val {T} _. Arguments s_src {T} _. Arguments s_def {T} _.

(** setting_base::change_source and setting_value::set_value (settings.cc:72-79, hh:180-185). *)
Definition set_val {T} (s : setting T) (v : T) (src : source) : setting T :=
  if src_ge src (s_src s) then mkS v src (s_def s) else s.

(** What can happen to a setting: set_value, reset (hh:197-201), copy_from (hh:187-195). *)
Inductive sop (T : Type) := OSet (v : T) (src : source) | OReset | OCopy (v : T) (src : source).
Arguments OSet {T} _ _. Arguments OReset {T}. Arguments OCopy {T} _ _.
Definition apply_op {T} (s : setting T) (o : sop T) : setting T :=
  match o with
  | OSet v src => set_val s v src
  | OReset => mkS (s_def s) SDefault (s_def s)
  | OCopy v src => mkS v src (s_def s)
  end.

(** ** Values and kinds *)

(** setting_bool, setting_invertible_bool, setting_numeric<int32_t> and <float>, setting_enum,
    setting_string/setting_path, setting_set, setting_redirect.  Bounds belong to the kind; the
    option argument is the value used when the argument is missing (can_omit_argument_tag).
    setting_vec3/mangle/color, setting_func and setting_validator are not modelled. *)
Inductive kind :=
| KBool
| KInv
| KInt (lo hi : Z) (omit : option Z)
| KFloat (lo hi : fl) (omit : option fl)
| KEnum (labels : list (bytes * Z))
| KStr
| KSet
| KRedirect (targets : list nat).
Inductive value := VBool (b : bool) | VInt (z : Z) | VFloat (f : fl) | VStr (s : bytes) | VSet (l : list bytes) | VNone.

(** std::clamp and setting_numeric::set_value (settings.hh:285-295). *)
Definition clampz (v lo hi : Z) : Z := if (v <? lo)%Z then lo else if (hi <? v)%Z then hi else v.
Definition clampf (v lo hi : fl) : fl := if fl_lt v lo then lo else if fl_lt hi v then hi else v.

(** What a kind stores for an assigned value. *)
Definition store (k : kind) (v : value) : value :=
  match k, v with
  | KInt lo hi _, VInt z => VInt (clampz z lo hi)
  | KFloat lo hi _, VFloat f => VFloat (clampf f lo hi)
  | _, _ => v
  end.

(** ** Text to numbers *)

Definition is_digit (c : N) : bool := (48 <=? c) && (c <=? 57).
Fixpoint digits_val (s : bytes) (acc : Z) : Z :=
  match s with
  | c :: t => if is_digit c then digits_val t (acc * 10 + Z.of_N (c - 48))%Z else acc
  | [] => acc
  end.
Fixpoint skip_space (s : bytes) : bytes := match s with c :: t => if isspace c then skip_space t else s | [] => [] end.
(** An optional sign: whether it was a minus, and the rest. *)
Definition sign (s : bytes) : bool * bytes :=
  match s with
  | c :: t => if c =? 45 then (true, t) else if c =? 43 then (false, t) else (false, s)
  | [] => (false, [])
  end.
Definition starts_digit (s : bytes) : bool := match s with c :: _ => is_digit c | [] => false end.

(** std::stoull base 10: white space, a sign, digits; what follows is ignored; a minus sign negates
    modulo 2^64; throws (None) without digits or beyond 2^64-1. *)
Definition stoull (s : bytes) : option Z :=
  let (neg, r) := sign (skip_space s) in
  if starts_digit r then
    let n := digits_val r 0 in
    if (n <? 2 ^ 64)%Z then Some (if neg then (- n) mod 2 ^ 64 else n)%Z else None
  else None.
(** std::stoi: the same with a signed result, throwing outside int. *)
Definition stoi (s : bytes) : option Z :=
  let (neg, r) := sign (skip_space s) in
  if starts_digit r then
    let n := digits_val r 0 in
    let v := (if neg then - n else n)%Z in
    if ((- 2 ^ 31 <=? v) && (v <? 2 ^ 31))%Z then Some v else None
  else None.

(** ** Parsing one setting *)

(** The parser is the list of tokens it still delivers; PARSE_PEEK looks at the first
    (token_parser_t, parser.cc:238-265; parser_t delivers the tokens of the key's value).
    [stod] is std::stod followed by the conversion to float; [lt] the ordering of enum labels. *)
Definition txt_true : bytes := [49].          (* "1" *)
Definition txt_false : bytes := [48].         (* "0" *)
Definition txt_minus : bytes := [45; 49].     (* "-1" *)

(** setting_bool::parseInternal (settings.cc:115-137). *)
Definition parse_bool (toks : list bytes) (truth : bool) : value * list bytes :=
  match toks with
  | t :: rest => if beq t txt_true then (VBool truth, rest)
                 else if beq t txt_false || beq t txt_minus then (VBool (negb truth), rest)
                 else (VBool truth, toks)
  | [] => (VBool truth, [])
  end.

(** setting_name.compare(0, 2, "no") == 0 (settings.cc:179-182). *)
Definition starts_no (name : bytes) : bool :=
  match name with 110 :: 111 :: _ => true | _ => false end.

(** setting_enum: the label map's find, by equivalence under its ordering (settings.hh:382-386). *)
Definition find_label (lt : bytes -> bytes -> bool) (t : bytes) (labels : list (bytes * Z)) : option Z :=
  option_map snd (find (fun p => negb (lt t (fst p)) && negb (lt (fst p) t)) labels).

(** setting::parse for each kind but redirect: the assigned value and the tokens left; None is a
    failed parse (return false).  (settings.cc:115-182, 269-277, 297-306, 339-347; hh:299-325, 376-400.) *)
Definition parse_kind (stod : bytes -> option fl) (lt : bytes -> bytes -> bool)
    (k : kind) (name : bytes) (toks : list bytes) : option (value * list bytes) :=
  match k with
  | KBool => Some (parse_bool toks true)
  | KInv => Some (parse_bool toks (negb (starts_no name)))
  | KInt _ _ omit =>
    match match toks with t :: rest => option_map (fun u => (VInt (it_wrap i32 u), rest)) (stoull t) | [] => None end with
    | Some r => Some r
    | None => match omit with Some z => Some (VInt z, toks) | None => None end
    end
  | KFloat _ _ omit =>
    match match toks with t :: rest => option_map (fun f => (VFloat f, rest)) (stod t) | [] => None end with
    | Some r => Some r
    | None => match omit with Some z => Some (VFloat z, toks) | None => None end
    end
  | KEnum labels =>
    match toks with
    | t :: rest => match find_label lt t labels with
                   | Some z => Some (VInt z, rest)
                   | None => match stoi t with Some z => Some (VInt z, rest) | None => None end
                   end
    | [] => None
    end
  | KStr | KSet => match toks with t :: rest => Some (VStr t, rest) | [] => None end
  | KRedirect _ => None
  end.

(** ** The container *)

Record entry := mkE { e_names : list bytes; e_kind : kind; e_set : setting value }.
Definition container := list entry.

(** Assigning to an entry: set_value, or add_value for a set (settings.cc:332-337). *)
Definition assign (e : entry) (v : value) (src : source) : entry :=
  let s := e_set e in
  let v' := match e_kind e, v, s_val s with
            | KSet, VStr t, VSet l => VSet (l ++ [t])
            | k, _, _ => store k v
            end in
  mkE (e_names e) (e_kind e) (set_val s v' src).

Definition update (c : container) (i : nat) (f : entry -> entry) : container :=
  firstn i c ++ match skipn i c with e :: t => f e :: t | [] => [] end.

(** Parsing for entry [i]; a redirect parses for every target on the same tokens
    (settings.cc:200-220).  Targets that are redirects themselves are not modelled (none exists). *)
Definition parse_one (stod : bytes -> option fl) (lt : bytes -> bytes -> bool) (src : source)
    (name : bytes) (c : container) (i : nat) (toks : list bytes) : option (container * list bytes) :=
  match nth_error c i with
  | Some e => match parse_kind stod lt (e_kind e) name toks with
              | Some (v, rest) => Some (update c i (fun e => assign e v src), rest)
              | None => None
              end
  | None => None
  end.
Fixpoint parse_many (stod : bytes -> option fl) (lt : bytes -> bytes -> bool) (src : source)
    (name : bytes) (c : container) (l : list nat) (toks : list bytes) : option (container * list bytes) :=
  match l with
  | [] => Some (c, toks)
  | [i] => parse_one stod lt src name c i toks
  | i :: t => match parse_one stod lt src name c i toks with
              | Some (c', _) => parse_many stod lt src name c' t toks
              | None => None
              end
  end.
Definition parse_entry (stod : bytes -> option fl) (lt : bytes -> bytes -> bool) (src : source)
    (name : bytes) (c : container) (i : nat) (toks : list bytes) : option (container * list bytes) :=
  match nth_error c i with
  | Some e => match e_kind e with
              | KRedirect l => parse_many stod lt src name c l toks
              | _ => parse_one stod lt src name c i toks
              end
  | None => None
  end.

(** find_setting (settings.cc:501-513): leading underscores are stripped; names are unique. *)
Fixpoint strip_us (name : bytes) : bytes := match name with 95 :: t => strip_us t | _ => name end.
Definition has_name (n : bytes) (e : entry) : bool := existsb (beq n) (e_names e).
Fixpoint find_ix (n : bytes) (c : container) : option nat :=
  match c with
  | [] => None
  | e :: t => if has_name n e then Some 0%nat else option_map S (find_ix n t)
  end.
Definition find_setting (name : bytes) (c : container) : option nat := find_ix (strip_us name) c.

(** extendNames (settings.cc:162-171): the names of a setting_invertible_bool. *)
Definition extend_names (l : list bytes) : list bytes := l ++ map (fun n => 110 :: 111 :: n) l.

(** set_setting (515-528): [None] when the name is unknown (parse_exception on the command line,
    MISSING otherwise), [Some None] when the value is invalid. *)
Definition set_setting stod lt (src : source) (name : bytes) (toks : list bytes) (c : container)
  : option (option container) :=
  match find_setting name c with
  | Some i => Some (option_map fst (parse_entry stod lt src name c i toks))
  | None => None
  end.

(** setting_container::parse (654-719).  [CThrow] is parse_exception or the help exit; [CUB] is
    front() of an empty string, reached when a token is only hyphens (line 674). *)
Inductive cres := COk (c : container) (rest : list bytes) | CThrow | CUB.
Fixpoint strip_hyphens (t : bytes) : bytes := match t with 45 :: r => strip_hyphens r | _ => t end.
Definition is_help (t : bytes) : bool :=
  beq t [104;101;108;112] || beq t [104] || beq t [63] || beq t [114;115;116].
Fixpoint parse_args (fuel : nat) stod lt (c : container) (toks : list bytes) : cres :=
  match fuel with
  | O => CThrow
  | S fuel =>
    match toks with
    | [] => COk c []
    | t :: rest =>
      match t with
      | 45 :: _ =>
        let name := strip_hyphens t in
        match name with
        | [] => CUB
        | _ => if is_help name then CThrow
               else match find_setting name c with
                    | None => CThrow
                    | Some i => match parse_entry stod lt SCmd name c i rest with
                                | None => CThrow
                                | Some (c', rest') => parse_args fuel stod lt c' rest'
                                end
                    end
        end
      | _ => COk c toks
      end
    end
  end.
Definition parse_command_line stod lt (c : container) (argv : list bytes) : cres :=
  parse_args (S (length argv)) stod lt c argv.

(** setting::string_value as used by print_summary (562-572): throws (None) for an enum value
    without a label (hh:350-359). *)
Definition string_value_ok (e : entry) : bool :=
  match e_kind e, s_val (e_set e) with
  | KEnum labels, VInt z => existsb (fun p => (snd p =? z)%Z) labels
  | _, _ => true
  end.
Definition summary_ok (c : container) : bool :=
  forallb (fun e => match s_src (e_set e) with SDefault => true | _ => string_value_ok e end) c.
