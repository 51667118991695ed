(* Model of common/entdata.cc: entity dictionaries, the entity parser and writer. *)
From Coq Require Import List Arith NArith Bool.
Import ListNotations.
From Verif Require Import Base ParserModel.
Local Open Scope N_scope.

(** std::string comparison, used by [key == it->first] (entdata.cc:120). *)
Fixpoint beq (a b : bytes) : bool :=
  match a, b with
  | [], [] => true
  | x :: a', y :: b' => (x =? y) && beq a' b'
  | _, _ => false
  end.

(** include/common/entdata.h:33-38, [keyvalues_t]. *)
Definition entdict := list (bytes * bytes).

(** entdata.cc:116-138, [entdict_t::find]: index of the first pair with the key. *)
Fixpoint ed_find (k : bytes) (d : entdict) : option nat :=
  match d with
  | [] => None
  | (k', _) :: d' => if beq k k' then Some O else option_map S (ed_find k d')
  end.

(** entdata.cc:41-49 [get], 140-143 [has]. *)
Definition ed_get (k : bytes) (d : entdict) : bytes :=
  match ed_find k d with
  | Some i => match nth_error d i with Some p => snd p | None => [] end
  | None => []
  end.

Definition ed_has (k : bytes) (d : entdict) : bool :=
  match ed_find k d with Some _ => true | None => false end.

Fixpoint set_value (d : entdict) (i : nat) (v : bytes) : entdict :=
  match d, i with
  | [], _ => []
  | (k, _) :: d', O => (k, v) :: d'
  | p :: d', S j => p :: set_value d' j v
  end.

(** entdata.cc:86-97 [set]. *)
Definition ed_set (k v : bytes) (d : entdict) : entdict :=
  match ed_find k d with
  | Some i => set_value d i v
  | None => d ++ [(k, v)]
  end.

(** vector::erase. *)
Definition erase {A} (i : nat) (d : list A) : list A := firstn i d ++ skipn (S i) d.

(** entdata.cc:99-104 [remove]. *)
Definition ed_remove (k : bytes) (d : entdict) : entdict :=
  match ed_find k d with Some i => erase i d | None => d end.

(** entdata.cc:106-114 [rename]. *)
Definition ed_rename (from to : bytes) (d : entdict) : entdict :=
  match ed_find from d with
  | Some i =>
    match nth_error d i with
    | Some p => erase i d ++ [(to, snd p)]
    | None => d
    end
  | None => d
  end.

(** entdata.cc:172-177: the first loop erases leading blanks; [front()] of an empty string
    reads the terminating NUL (libstdc++), which is no blank.  The second loop looks at
    [back()], which is out of bounds for an empty string ([None]), and erases the FIRST
    character ([cbegin]). *)
Fixpoint trim_front (k : bytes) : bytes :=
  match k with
  | c :: k' => if isspace c then trim_front k' else k
  | [] => []
  end.

Fixpoint trim_back (k : bytes) : option bytes :=
  match k with
  | [] => None
  | _ :: k' => if isspace (last k 0) then trim_back k' else Some k
  end.

Inductive eres (A : Type) :=
| E_ok (x : A) | E_error | E_UB | E_fuel.
Arguments E_ok {A}. Arguments E_error {A}. Arguments E_UB {A}. Arguments E_fuel {A}.

(** entdata.cc:154-180: the key/value loop. *)
Fixpoint parse_pairs (fuel : nat) (d : entdict) (p : pstate) : eres (entdict * pstate) :=
  match fuel with
  | O => E_fuel
  | S fuel' =>
    match parse_token PARSE_NORMAL p with
    | T_UB => E_UB
    | T_error => E_error
    | T_ret false _ => E_error
    | T_ret true p1 =>
      if beq (ps_token p1) [125] then E_ok (d, p1)
      else
        match parse_token PARSE_NORMAL p1 with
        | T_UB => E_UB
        | T_error => E_error
        | T_ret false _ => E_error
        | T_ret true p2 =>
          if beq (ps_token p2) [125] then E_error
          else match trim_back (trim_front (ps_token p1)) with
               | None => E_UB
               | Some k => parse_pairs fuel' (ed_set k (ps_token p2) d) p2
               end
        end
    end
  end.

(** entdata.cc:145-181, [entdict_t::parse]. *)
Definition ed_parse (fuel : nat) (d : entdict) (p : pstate) : eres (entdict * pstate) :=
  match parse_token PARSE_NORMAL p with
  | T_UB => E_UB
  | T_error => E_error
  | T_ret false p1 => E_ok (d, p1)
  | T_ret true p1 => if beq (ps_token p1) [123] then parse_pairs fuel d p1 else E_error
  end.

(** entdata.cc:188-199, [EntData_ParseInto]. *)
Fixpoint ents_parse_into (fuel : nat) (v : list entdict) (p : pstate)
  : eres (list entdict * pstate) :=
  match fuel with
  | O => E_fuel
  | S fuel' =>
    match ps_left p with
    | O => E_ok (v, p)
    | S _ =>
      match parse_token PARSE_PEEK p with
      | T_UB => E_UB
      | T_error => E_error
      | T_ret false p1 => E_ok (v, p1)
      | T_ret true p1 =>
        match ed_parse (S (length (ps_mem p1))) [] p1 with
        | E_ok (d, p2) => ents_parse_into fuel' (v ++ [d]) p2
        | E_error => E_error
        | E_UB => E_UB
        | E_fuel => E_fuel
        end
      end
    end
  end.

(** entdata.cc:201-214, [EntData_Parse] of a std::string: [data()] is followed by a NUL. *)
Definition ents_parse (text : bytes) : eres (list entdict) :=
  match ents_parse_into (S (length text + 1)) [] (new_parser (text ++ [0]) (length text)) with
  | E_ok (v, _) => E_ok v
  | E_error => E_error
  | E_UB => E_UB
  | E_fuel => E_fuel
  end.

(** entdata.cc:221-232, [EntData_Write]. *)
Definition write_pair (kv : bytes * bytes) : bytes :=
  34 :: fst kv ++ [34; 32; 34] ++ snd kv ++ [34; 10].

Definition write_ent (d : entdict) : bytes :=
  [123; 10] ++ concat (map write_pair d) ++ [125; 10].

Definition ents_write (v : list entdict) : bytes := concat (map write_ent v).
