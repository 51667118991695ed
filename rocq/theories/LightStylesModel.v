(* Light styles of switchable lights and escape sequences in entity values: light/entities.cc:160-200, 872-892,
   920-960; light/surflight.cc:189-195, 279. *)
From Coq Require Import List ZArith Bool Lia.
Import ListNotations.
Open Scope Z_scope.

(** std::string as a list of bytes. *)
Notation bytes := (list Z).
Fixpoint beq (a b : bytes) : bool :=
  match a, b with [], [] => true | x :: a, y :: b => (x =? y) && beq a b | _, _ => false end.
Definition is_empty (a : bytes) : bool := match a with [] => true | _ => false end.

(** lightstyleForTargetname (entities.cc:41). *)
Notation table := (list (bytes * Z)).
(** The search at the start of LightStyleForTargetname (entities.cc:170-175). *)
Fixpoint find_style (t : table) (name : bytes) : option Z :=
  match t with
  | [] => None
  | p :: t => if beq (fst p) name && negb (is_empty name) then Some (snd p) else find_style t name
  end.
(** LightStyleForTargetname (entities.cc:168-190); None is FError.  The sum is computed as size_t and converted to
    int; it is exact here (compilerstyle_start within int, fewer than 2^31 names). *)
Definition style_for (start max : Z) (t : table) (name : bytes) : option (Z * table) :=
  match find_style t name with
  | Some s => Some (s, t)
  | None => let s := start + Z.of_nat (length t) in
            if s >=? max then None else Some (s, t ++ [(name, s)])
  end.
(** TargetnameForLightStyle (entities.cc:192-200). *)
Fixpoint name_for (t : table) (s : Z) : bytes :=
  match t with [] => [] | p :: t => if snd p =? s then fst p else name_for t s end.

(** One call after the other. *)
Fixpoint styles_for (start max : Z) (t : table) (names : list bytes) : option (list Z * table) :=
  match names with
  | [] => Some ([], t)
  | n :: names => match style_for start max t n with
                  | None => None
                  | Some (s, t) => match styles_for start max t names with None => None | Some (ss, t) => Some (s :: ss, t) end
                  end
  end.

(** ParseEscapeSequences (entities.cc:872-892): "\b" switches bit 7 on and off. *)
Fixpoint parse_esc (bold : bool) (s : bytes) : bytes :=
  match s with
  | [] => []
  | c :: s1 =>
    match s1 with
    | d :: s2 => if (c =? 92) && (d =? 98) then parse_esc (negb bold) s2
                 else (if bold then Z.lor c 128 else c) :: parse_esc bold s1
    | [] => (if bold then Z.lor c 128 else c) :: parse_esc bold s1
    end
  end.

(** What the first pass of LoadEntities (entities.cc:933-960) reads of an entity: classname starts with "light",
    targetname, _switchableshadow is 1; "style" and "switchshadstyle" (None: absent). *)
Record sent := mkS { se_light : bool; se_name : bytes; se_shadow : bool; se_style : option Z; se_shadstyle : option Z }.
Definition set_style (e : sent) (s : Z) := mkS (se_light e) (se_name e) (se_shadow e) (Some s) (se_shadstyle e).
Definition set_shadstyle (e : sent) (s : Z) := mkS (se_light e) (se_name e) (se_shadow e) (se_style e) (Some s).
Definition esc_name (e : sent) := mkS (se_light e) (parse_esc false (se_name e)) (se_shadow e) (se_style e) (se_shadstyle e).
Definition pass_one (start max : Z) (t : table) (e : sent) : option (sent * table) :=
  match (if se_light e && negb (is_empty (se_name e))
         then match style_for start max t (se_name e) with None => None | Some (s, t) => Some (set_style e s, t) end
         else Some (e, t)) with
  | None => None
  | Some (e, t) =>
    if se_shadow e then match style_for start max t (se_name e) with None => None | Some (s, t) => Some (esc_name (set_shadstyle e s), t) end
    else Some (esc_name e, t)
  end.
Fixpoint pass (start max : Z) (t : table) (es : list sent) : option (list sent * table) :=
  match es with
  | [] => Some ([], t)
  | e :: es => match pass_one start max t e with
               | None => None
               | Some (e, t) => match pass start max t es with None => None | Some (es, t) => Some (e :: es, t) end
               end
  end.

(** Calls from the threads of MakeRadiositySurfaceLights (surflight.cc:190, 279): no lock is taken, so another
    thread can append between the search and the append.  (In C++ this is a data race on the vector; this model only
    lets the two halves of calls interleave.) *)
Inductive half := Search (thread : nat) (name : bytes) | Append (thread : nat) (name : bytes).
Fixpoint run_halves (start max : Z) (t : table) (pending : nat -> option Z) (hs : list half) : list (nat * Z) :=
  match hs with
  | [] => []
  | Search k n :: hs =>
    match find_style t n with
    | Some s => (k, s) :: run_halves start max t pending hs
    | None => run_halves start max t (fun j => if Nat.eqb j k then Some (start + Z.of_nat (length t)) else pending j) hs
    end
  | Append k n :: hs =>
    match pending k with
    | Some s => if s >=? max then run_halves start max t pending hs else (k, s) :: run_halves start max (t ++ [(n, s)]) pending hs
    | None => run_halves start max t pending hs
    end
  end.
