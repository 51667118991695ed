(* Model of the files of surface lights: ParseEntityLights and ParseLightsFile (light/entities.cc:1450-1494) and the files
   that light reads (light/light.cc:439-443, 1351-1354). *)
From Coq Require Import String Ascii List Arith NArith Bool.
Import ListNotations.
From Verif Require Import ParserModel EntModel DefsModel.
Local Open Scope N_scope.

Definition key (s : string) : bytes := map N_of_ascii (list_ascii_of_string s).

(** std::getline while the end is not reached (entities.cc:1470-1472): the pieces between the newlines, so that a newline at
    the end is followed by an empty line.  Reads that fail for another reason than the end are not modelled. *)
Fixpoint lines (t : bytes) : list bytes :=
  match t with
  | [] => [[]]
  | c :: r => if c =? 10 then [] :: lines r else match lines r with [] => [[c]] | h :: q => (c :: h) :: q end
  end.

Section Rad.
(** float of std::stod of a token, as fmt prints it; None: std::stod throws, which nothing catches. *)
Context (num : bytes -> option bytes).

(** entities.cc:1474-1490.  The parser is over a std::string, which has a NUL behind it.  The results of parse_token but the
    first are ignored; the token is empty when there was none. *)
Definition number (p : pstate) : dres (bytes * pstate) :=
  dbind (dtok PARSE_NORMAL p) (fun '(_, q) => match num (ps_token q) with Some x => D_ok (x, q) | None => D_error end).
Definition rad_line (l : bytes) : dres (option entdict) :=
  dbind (dtok PARSE_NORMAL (new_parser (l ++ [0]) (List.length l))) (fun '(b, p) =>
    if negb b then D_ok None
    else
      let d := ed_set (key "_surface") (ps_token p) [] in
      dbind (number p) (fun '(r, p) =>
      dbind (number p) (fun '(g, p) =>
      dbind (number p) (fun '(b, p) =>
      let d := ed_set (key "_color") (r ++ [32] ++ g ++ [32] ++ b) d in
      dbind (dtok PARSE_NORMAL p) (fun '(_, p) => D_ok (Some (ed_set (key "light") (ps_token p) d))))))).
Fixpoint rad_lines (ls : list bytes) (v : list entdict) : dres (list entdict) :=
  match ls with
  | [] => D_ok v
  | l :: r => dbind (rad_line l) (fun o => rad_lines r (match o with Some d => v ++ [d] | None => v end))
  end.

(** 1458-1494; [f]: the contents of the file, if it can be opened; [v]: the lights so far.  EntData_ParseInto (entdata.cc:
    188-199) puts its entities behind those of the vector, and does not depend on them. *)
Definition lights_file (ent : bool) (f : option bytes) (v : list entdict) : dres (bool * list entdict) :=
  match f with
  | None => D_ok (false, v)
  | Some t =>
      if ent then match ents_parse t with E_ok w => D_ok (true, v ++ w) | E_error => D_error | E_UB => D_UB | E_fuel => D_fuel end
      else dbind (rad_lines (lines t) v) (fun v => D_ok (true, v))
  end.

(** The files, by name; [ent]: fname.extension() == ".ent"; [first]: the first of the names given to -radlights in the order of
    the unordered_set (light.cc:439-443).  [map]: the name of the map with extension rad.  The lights of the files: *)
Context (disk : bytes -> option bytes) (ent : bytes -> bool) (first : list bytes -> bytes).
Definition read (n : bytes) (v : list entdict) : dres (list entdict) := dbind (lights_file (ent n) (disk n) v) (fun '(_, v) => D_ok v).
Definition all_lights (opts : list bytes) (map : bytes) : dres (list entdict) :=
  dbind (match opts with [] => D_ok [] | _ => read (first opts) [] end) (fun v =>
  dbind (if beq map (key "lights.rad") then D_ok v else read (key "lights.rad") v) (fun v =>
  read map v)).
End Rad.
