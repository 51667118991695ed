(* bsputil --replace-entities for a .map: the brushes of the map with the entities of another file
   (bsputil/bsputil.cc:497-560, 1199-1270). *)
From Coq Require Import String Ascii List Arith NArith ZArith Bool.
Import ListNotations.
From Verif Require Import Base NumCastModel ParserModel EntModel.
Local Open Scope list_scope.

Definition mtext (s : string) : bytes := map N_of_ascii (list_ascii_of_string s).

(** map_entity_t (497-502) without its location; brushes: the raw text. *)
Record ment := mkEnt { me_keys : entdict; me_brushes : bytes }.

(** What counts as an entity with brushes in the entity file (1214-1217). *)
Definition slot (e : ment) : bool :=
  negb (match ed_get (mtext "model") (me_keys e) with [] => true | _ => false end) ||
  beq (ed_get (mtext "classname") (me_keys e)) (mtext "func_areaportal").

(** The inner loop (1213-1228): the slot number b, counted from 1, gets the text; None if there are fewer. *)
Fixpoint give (b2 b : nat) (text : bytes) (ents : list ment) : option (list ment) :=
  match ents with
  | [] => None
  | e :: t =>
    if negb (slot e) then option_map (cons e) (give b2 b text t)
    else if (b2 =? b)%nat then Some (mkEnt (me_keys e) text :: t)
    else option_map (cons e) (give (S b2) b text t)
  end.

(** The outer loop (1205-1233) over the entities after worldspawn; Error if a text finds no slot. *)
Fixpoint give_all (b : nat) (maps : list ment) (ents : list ment) : res (list ment) :=
  match maps with
  | [] => ROk ents
  | m :: t =>
    match me_brushes m with
    | [] => give_all b t ents
    | text => match give 1 b text ents with
              | Some ents => give_all (S b) t ents
              | None => RThrow
              end
    end
  end.

(** 1235-1253 *)
Definition clean (e : ment) : ment :=
  let k := me_keys e in
  let k := match me_brushes e with [] => k | _ => if ed_has (mtext "origin") k then ed_remove (mtext "origin") k else k end in
  let k := if ed_has (mtext "style") k then
             if beq (ed_get (mtext "classname") k) (mtext "light") then
               if ed_has (mtext "targetname") k then ed_remove (mtext "style") k else k
             else if beq (ed_get (mtext "classname") k) (mtext "func_areaportal") then ed_remove (mtext "style") k else k
           else k in
  mkEnt k (me_brushes e).

(** 1201-1253: worldspawn, the others, the keys. *)
Definition merge (maps ents : list ment) : res (list ment) :=
  match maps, ents with
  | w :: ms, e :: es => rbind (give_all 1 ms (mkEnt (me_keys e) (me_brushes w) :: es)) (fun r => ROk (map clean r))
  | _, _ => RUB   (* entities[0] of an empty vector *)
  end.

(** 1259-1269: the text written. *)
Definition ent_text (e : ment) : bytes :=
  mtext "{" ++ [10%N] ++ concat (map write_pair (me_keys e)) ++ me_brushes e ++ mtext "}" ++ [10%N].

(** ** Reading a .map or .ent file (503-596) *)

(** The key of ParseEpair (507-514): blanks at both ends removed; back() of a key without other characters is undefined. *)
Definition trim_key (k : bytes) : option bytes :=
  match trim_front (rev (trim_front k)) with [] => None | r => Some (rev r) end.

(** 543-549: tokens until a closing brace. *)
Fixpoint skip_block (fuel : nat) (p : pstate) : eres pstate :=
  match fuel with
  | O => E_fuel
  | S fuel =>
    match parse_token PARSE_NORMAL p with
    | T_UB => E_UB
    | T_error => E_error
    | T_ret false _ => E_error
    | T_ret true p1 => if beq (ps_token p1) [125%N] then E_ok p1 else skip_block fuel p1
    end
  end.

(** The loop of ParseEntity (534-561). The character before pos is the brace, or the quote behind it. *)
Fixpoint ent_loop (fuel : nat) (e : ment) (p : pstate) : eres (ment * pstate) :=
  match fuel with
  | O => E_fuel
  | S fuel =>
    match parse_token PARSE_NORMAL p with
    | T_UB => E_UB
    | T_error => E_error
    | T_ret false _ => E_error
    | T_ret true p1 =>
      if beq (ps_token p1) [125%N] then E_ok (e, p1)
      else if beq (ps_token p1) [123%N] then
        match skip_block (S (List.length (ps_mem p1))) p1 with
        | E_ok p2 =>
          let text := (if ps_quoted p1 then 34%N else 123%N) :: firstn (List.length (ps_mem p1) - List.length (ps_mem p2)) (ps_mem p1) in
          ent_loop fuel (mkEnt (me_keys e) (me_brushes e ++ text ++ [10%N])) p2
        | E_error => E_error
        | E_UB => E_UB
        | E_fuel => E_fuel
        end
      else
        match trim_key (ps_token p1) with
        | None => E_UB
        | Some k =>
          match parse_token PARSE_SAMELINE p1 with
          | T_UB => E_UB
          | T_error => E_error
          | T_ret _ p2 => ent_loop fuel (mkEnt (ed_set k (ps_token p2) (me_keys e)) (me_brushes e)) p2
          end
        end
    end
  end.

(** LoadMapOrEntFile (579-596) with the beginning of ParseEntity (523-532); behind the text there is no memory. *)
Fixpoint load_loop (fuel : nat) (acc : list ment) (p : pstate) : eres (list ment) :=
  match fuel with
  | O => E_fuel
  | S fuel =>
    match parse_token PARSE_NORMAL p with
    | T_UB => E_UB
    | T_error => E_error
    | T_ret false _ => E_ok acc
    | T_ret true p1 =>
      if beq (ps_token p1) [123%N] then
        match ent_loop (S (List.length (ps_mem p1))) (mkEnt [] []) p1 with
        | E_ok (e, p2) => load_loop fuel (acc ++ [e]) p2
        | E_error => E_error
        | E_UB => E_UB
        | E_fuel => E_fuel
        end
      else E_error
    end
  end.
Definition load (text : bytes) : eres (list ment) := load_loop (S (List.length text)) [] (new_parser text (List.length text)).
