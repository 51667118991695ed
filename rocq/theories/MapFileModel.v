(* .map files as maputil reads and writes them: common/mapfile.cc:91-206, 425-530, 963-1202 (texture projections
   are in MapTexModel.v). *)
From Coq Require Import List Arith NArith Bool.
Import ListNotations.
From Verif Require Import Base ParserModel EntModel.
Local Open Scope N_scope.

(** The outcome of parsing: [M_error] is FError, a failed Q_assert or an exception of std::stod and std::stoi. *)
Inductive mres (A : Type) := M_ok (x : A) (p : pstate) | M_error | M_UB | M_fuel.
Arguments M_ok {A}. Arguments M_error {A}. Arguments M_UB {A}. Arguments M_fuel {A}.
Definition mbind {A B} (r : mres A) (k : A -> pstate -> mres B) : mres B :=
  match r with M_ok x p => k x p | M_error => M_error | M_UB => M_UB | M_fuel => M_fuel end.
Notation "'do' ( x , p ) <- r ; k" := (mbind r (fun x p => k)) (at level 200, x pattern, p pattern, r at level 100, k at level 200).

(** parser.parse_token as a step: the result is whether there was a token; the token is in the state. *)
Definition mtok (f : N) (p : pstate) : mres bool :=
  match parse_token f p with T_ret b q => M_ok b q | T_error => M_error | T_UB => M_UB end.
Definition SAMELINE_PEEK := 9.
Definition COMMENT_OPTIONAL := 6.

Section MapFile.
(** Numbers of texture definitions and planes (double) and of surface information (int), with std::stod, std::stoi
    (None: they throw) and how ewt::print writes them. *)
Context {num int : Type} (stod : bytes -> option num) (stoi : bytes -> option int) (fmt : num -> bytes) (fmti : int -> bytes).

(** include/common/mapfile.hh:38-62: the numbers in the order of the text.  quaked and etp: shift, shift, rotate,
    scale, scale; valve: axis, axis, axis, shift twice, rotate, scale, scale. *)
Inductive texdef := TQuake (l : list num) | TValve (l : list num) | TEtp (l : list num) (tx2 : bool).
(** texinfo_quake2_t: contents, flags, value; flags and value have no initial value (None: indeterminate). *)
Definition extinfo := (int * option int * option int)%type.
(** brush_side_t without what is computed from these fields (vecs, plane): nine numbers of planepts. *)
Record side := mkSide { sd_pts : list num; sd_tex : bytes; sd_raw : texdef; sd_ext : option extinfo }.
(** A brush: false is base_format quaked, true brush_primitives. *)
Record brush := mkBrush { br_bp : bool; br_sides : list side }.
Record ment := mkEnt { me_pairs : entdict; me_brushes : list brush }.

(** parse_token(PARSE_SAMELINE) and std::stod, [n] times. *)
Fixpoint nums (n : nat) (p : pstate) : mres (list num) :=
  match n with
  | O => M_ok [] p
  | S n => do (_, p) <- mtok PARSE_SAMELINE p;
           match stod (ps_token p) with
           | None => M_error
           | Some x => do (l, p) <- nums n p; M_ok (x :: l) p
           end
  end.
Definition expect (f : N) (c : N) (p : pstate) : mres unit :=
  do (_, p) <- mtok f p; if beq (ps_token p) [c] then M_ok tt p else M_error.

(** parse_plane_def (mapfile.cc:453-480): the first "(" is the token already read. *)
Definition plane_def (p : pstate) : mres (list num) :=
  if beq (ps_token p) [40] then
    do (a, p) <- nums 3 p; do (_, p) <- expect PARSE_SAMELINE 41 p;
    do (_, p) <- expect PARSE_NORMAL 40 p; do (b, p) <- nums 3 p; do (_, p) <- expect PARSE_SAMELINE 41 p;
    do (_, p) <- expect PARSE_NORMAL 40 p; do (c, p) <- nums 3 p; do (_, p) <- expect PARSE_SAMELINE 41 p;
    M_ok (a ++ b ++ c) p
  else M_error.
(** parse_valve_220 (mapfile.cc:91-135). *)
Definition valve_def (p : pstate) : mres (list num) :=
  do (_, p) <- expect PARSE_SAMELINE 91 p; do (a, p) <- nums 4 p; do (_, p) <- expect PARSE_SAMELINE 93 p;
  do (_, p) <- expect PARSE_SAMELINE 91 p; do (b, p) <- nums 4 p; do (_, p) <- expect PARSE_SAMELINE 93 p;
  do (c, p) <- nums 3 p; M_ok (a ++ b ++ c) p.

(** parse_quark_comment (mapfile.cc:166-185): Some is a new texdef. *)
Definition quark (raw : texdef) (p : pstate) : mres (option texdef) :=
  do (b, p) <- mtok COMMENT_OPTIONAL p;
  if b then
    match ps_token p with
    | 47 :: 47 :: 84 :: 88 :: d :: _ =>
      match raw with
      | TQuake l => if d =? 49 then M_ok (Some (TEtp l false)) p else if d =? 50 then M_ok (Some (TEtp l true)) p else M_ok None p
      | _ => M_error
      end
    | _ => M_ok None p
    end
  else M_ok None p.
(** An optional number of the surface information. *)
Definition opt_int (p : pstate) : mres (option int) :=
  do (b, p) <- mtok PARSE_OPTIONAL p;
  if b then match stoi (ps_token p) with None => M_error | Some x => M_ok (Some x) p end else M_ok None p.
(** parse_extended_texinfo (mapfile.cc:187-208).  (The third number is looked for even if there is no second; both
    are on the same line, so there is none.) *)
Definition extended (raw : texdef) (p : pstate) : mres (texdef * option extinfo) :=
  do (q, p) <- quark raw p;
  match q with
  | Some r => M_ok (r, None) p
  | None =>
    do (c, p) <- opt_int p;
    match c with
    | None => M_ok (raw, None) p
    | Some c =>
      do (f, p) <- opt_int p; do (v, p) <- opt_int p;
      do (q, p) <- quark raw p;
      M_ok (match q with Some r => r | None => raw end, Some (c, f, v)) p
    end
  end.
(** parse_texture_def (mapfile.cc:425-451) for base_format quaked. *)
Definition texture_def (p : pstate) : mres (bytes * texdef * option extinfo) :=
  do (_, p) <- mtok PARSE_SAMELINE p; let tex := ps_token p in
  do (_, p) <- mtok SAMELINE_PEEK p;
  do (raw, p) <- (if beq (ps_token p) [91] then do (l, p) <- valve_def p; M_ok (TValve l) p else do (l, p) <- nums 5 p; M_ok (TQuake l) p);
  do (re, p) <- extended raw p;
  M_ok (tex, fst re, snd re) p.

(** parse_brush_face (mapfile.cc:963-1012).  [keep] is false if the plane has no normal or is a plane of the sides
    before.  With brush primitives every path ends in FError: set_texinfo(texdef_bp_t) raises it (423). *)
Context (keep : list side -> side -> bool).
Definition brush_face (bp : bool) (sides : list side) (p : pstate) : mres (list side) :=
  if bp then M_error else
  do (pts, p) <- plane_def p;
  do (t, p) <- texture_def p;
  let s := mkSide pts (fst (fst t)) (snd (fst t)) (snd t) in
  M_ok (if keep sides s then sides ++ [s] else sides) p.
(** The loop of parse_brush (mapfile.cc:1093-1105). *)
Fixpoint faces_loop (fuel : nat) (bp : bool) (sides : list side) (p : pstate) : mres (list side) :=
  match fuel with
  | O => M_fuel
  | S fuel =>
    do (b, p) <- mtok PARSE_NORMAL p;
    if negb b then M_ok sides p
    else if beq (ps_token p) [125] then M_ok sides p
    else do (sides, p) <- brush_face bp sides p; faces_loop fuel bp sides p
  end.
Definition brushDef : bytes := [98; 114; 117; 115; 104; 68; 101; 102].
(** parse_brush (mapfile.cc:1065-1121). *)
Definition parse_brush (fuel : nat) (brushes : list brush) (p : pstate) : mres (list brush) :=
  do (b, p) <- mtok PARSE_PEEK p;
  if negb b then M_error else
  do (bp, p) <- (if beq (ps_token p) [40] || beq (ps_token p) [125] then M_ok false p
                 else do (_, p) <- mtok PARSE_NORMAL p;
                      do (_, p) <- (if beq (ps_token p) brushDef then do (b, p) <- mtok PARSE_NORMAL p; if b then M_ok tt p else M_error else M_ok tt p);
                      if beq (ps_token p) [123] then M_ok true p else M_error);
  do (sides, p) <- faces_loop fuel bp [] p;
  do (_, p) <- (if bp then do (b, p) <- mtok PARSE_NORMAL p; if b && beq (ps_token p) [125] then M_ok tt p else M_error else M_ok tt p);
  M_ok (match sides with [] => brushes | _ => brushes ++ [mkBrush bp sides] end) p.

(** parse_entity_dict (mapfile.cc:1049-1063): unlike entdata.cc the second loop erases the last character; back() of
    an empty string is out of bounds. *)
Fixpoint trim_end (k : bytes) (fuel : nat) : option bytes :=
  match fuel with
  | O => None
  | S fuel => match k with [] => None | _ => if isspace (last k 0) then trim_end (removelast k) fuel else Some k end
  end.
Definition entity_dict (d : entdict) (p : pstate) : mres entdict :=
  let k := ps_token p in
  match trim_end (trim_front k) (S (length k)) with
  | None => M_UB
  | Some k => do (_, p) <- mtok PARSE_SAMELINE p; M_ok (ed_set k (ps_token p) d) p
  end.
(** The loop of map_entity_t::parse (mapfile.cc:1135-1148). *)
Fixpoint entity_loop (fuel : nat) (e : ment) (p : pstate) : mres ment :=
  match fuel with
  | O => M_fuel
  | S fuel =>
    do (b, p) <- mtok PARSE_NORMAL p;
    if negb b then M_error
    else if beq (ps_token p) [125] then M_ok e p
    else if beq (ps_token p) [123] then do (bs, p) <- parse_brush fuel (me_brushes e) p; entity_loop fuel (mkEnt (me_pairs e) bs) p
    else do (d, p) <- entity_dict (me_pairs e) p; entity_loop fuel (mkEnt d (me_brushes e)) p
  end.
(** map_file_t::parse and map_entity_t::parse (mapfile.cc:1123-1150, 1170-1183). *)
Fixpoint map_loop (fuel : nat) (es : list ment) (p : pstate) : mres (list ment) :=
  match fuel with
  | O => M_fuel
  | S fuel =>
    do (b, p) <- mtok PARSE_NORMAL p;
    if negb b then M_ok es p
    else if beq (ps_token p) [123] then do (e, p) <- entity_loop fuel (mkEnt [] []) p; map_loop fuel (es ++ [e]) p
    else M_error
  end.
Definition map_parse (text : bytes) : mres (list ment) :=
  map_loop (S (length text)) [] (new_parser (text ++ [0]) (length text)).

(** ** Writing *)
Fixpoint join (l : list bytes) : bytes :=
  match l with [] => [] | [t] => t | t :: l => t ++ 32 :: join l end.
(** brush_side_t::write (mapfile.cc:482-522) as words with one blank between them.  None: an indeterminate value is
    printed. *)
Definition ext_words (e : option extinfo) : option (list bytes) :=
  match e with
  | None => Some []
  | Some (c, Some f, Some v) => Some [fmti c; fmti f; fmti v]
  | Some _ => None
  end.
Definition bracket (l : list bytes) : list bytes := [[91]] ++ l ++ [[93]].
Definition paren (l : list bytes) : list bytes := [[40]] ++ l ++ [[41]].
Definition TX (tx2 : bool) : bytes := [47; 47; 84; 88; if tx2 then 50 else 49].
Definition side_words (s : side) : option (list bytes) :=
  match ext_words (sd_ext s) with
  | None => None
  | Some ext =>
    let pts := map fmt (sd_pts s) in
    let head := paren (firstn 3 pts) ++ paren (firstn 3 (skipn 3 pts)) ++ paren (skipn 6 pts) ++ [sd_tex s] in
    match sd_raw s with
    | TQuake l | TEtp l _ => Some (head ++ map fmt l ++ ext)
    | TValve l => let w := map fmt l in Some (head ++ bracket (firstn 4 w) ++ bracket (firstn 4 (skipn 4 w)) ++ skipn 8 w ++ ext)
    end
  end.
Definition side_text (s : side) : option bytes :=
  option_map (fun w => join w ++ (match sd_raw s with TEtp _ tx2 => TX tx2 | _ => [] end) ++ [10]) (side_words s).
Fixpoint concat_opt (l : list (option bytes)) : option bytes :=
  match l with
  | [] => Some []
  | None :: _ => None
  | Some x :: l => option_map (fun y => x ++ y) (concat_opt l)
  end.
(** brush_t::write (mapfile.cc:1014-1032) for base_format quaked; with brush primitives write_texinfo raises FError
    (None) if there is a side. *)
Definition brush_text (b : brush) : option bytes :=
  if br_bp b then match br_sides b with [] => Some ([123; 10] ++ brushDef ++ [10; 123; 10; 125; 10; 125; 10]) | _ => None end
  else option_map (fun t => [123; 10] ++ t ++ [125; 10]) (concat_opt (map side_text (br_sides b))).
(** The comments "// brush 0", "// entity 0"; [dec] writes size_t. *)
Context (dec : nat -> bytes).
Definition c_brush : bytes := [47; 47; 32; 98; 114; 117; 115; 104; 32].
Definition c_entity : bytes := [47; 47; 32; 101; 110; 116; 105; 116; 121; 32].
Fixpoint brushes_text (id : nat) (bs : list brush) : option bytes :=
  match bs with
  | [] => Some []
  | b :: bs => match brush_text b, brushes_text (S id) bs with
               | Some t, Some u => Some (c_brush ++ dec id ++ [10] ++ t ++ u)
               | _, _ => None
               end
  end.
(** map_entity_t::write (mapfile.cc:1152-1168). *)
Definition ent_text (e : ment) : option bytes :=
  option_map (fun t => [123; 10] ++ concat (map write_pair (me_pairs e)) ++ t ++ [125; 10]) (brushes_text 0 (me_brushes e)).
(** map_file_t::write (mapfile.cc:1185-1193). *)
Fixpoint map_text (id : nat) (es : list ment) : option bytes :=
  match es with
  | [] => Some []
  | e :: es => match ent_text e, map_text (S id) es with
               | Some t, Some u => Some (c_entity ++ dec id ++ [10] ++ t ++ u)
               | _, _ => None
               end
  end.
End MapFile.
