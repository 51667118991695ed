(* .map files as qbsp reads them: qbsp/map.cc:843-862, 896-921, 1620-1735, 1982-2005, 2532-2789, 3391-3450. *)
From Coq Require Import List Arith NArith ZArith Bool.
Import ListNotations.
From Verif Require Import Base ParserModel EntModel DecompEntModel MapFileModel.
Local Open Scope N_scope.

(** ends_with of std::string. *)
Fixpoint prefix (p s : bytes) : bool :=
  match p, s with
  | [], _ => true
  | a :: p, b :: s => (a =? b) && prefix p s
  | _ :: _, [] => false
  end.
Definition ends (w s : bytes) : bool := prefix (rev w) (rev s).
(** "region", "antiregion", "_omitbrushes", "classname", "worldspawn", "func_group" *)
Definition n_region : bytes := [114; 101; 103; 105; 111; 110].
Definition n_anti : bytes := [97; 110; 116; 105] ++ n_region.
Definition k_omit : bytes := [95; 111; 109; 105; 116; 98; 114; 117; 115; 104; 101; 115].
Definition k_class : bytes := [99; 108; 97; 115; 115; 110; 97; 109; 101].
Definition v_world : bytes := [119; 111; 114; 108; 100; 115; 112; 97; 119; 110].
Definition v_group : bytes := [102; 117; 110; 99; 95; 103; 114; 111; 117; 112].

Section QMap.
(** Numbers as in MapFileModel.v: std::stod, std::stoul cut to 32 bits, std::stoi (None: they throw), and 0. *)
Context {num int : Type} (stod : bytes -> option num) (stoul stoi : bytes -> option int) (zero : int).

(** The projection of a face: as for maputil, or the six numbers of a matrix. *)
Inductive qtex := QT (t : @texdef num) | QBp (l : list num).
(** extended_texinfo_t: contents, flags, value. *)
Definition qext := (int * int * int)%type.
(** mapface_t without what is computed from these fields (plane, texinfo, contents). *)
Record qside := mkQS { qs_pts : list num; qs_tex : bytes; qs_raw : qtex; qs_ext : option qext }.
(** mapbrush_t: true is BRUSH_PRIMITIVES. *)
Record qbrush := mkQB { qb_bp : bool; qb_sides : list qside }.
Record qent := mkQE { qe_pairs : entdict; qe_brushes : list qbrush }.

(** ParseExtendedTX (896-921) and its use for the three formats (1733-1755): a comment ends the line, and //TX1 and
    //TX2 mean something only behind the five numbers of QuakeEd. *)
Definition q_tx (raw : qtex) (tok : bytes) : qtex :=
  match tok with
  | 47 :: 47 :: 84 :: 88 :: d :: _ =>
    match raw with
    | QT (TQuake l) => if d =? 49 then QT (TEtp l false) else if d =? 50 then QT (TEtp l true) else raw
    | _ => raw
    end
  | _ => raw
  end.
Definition q_extended (raw : qtex) (p : pstate) : mres (qtex * option qext) :=
  do (b, p) <- mtok COMMENT_OPTIONAL p;
  if b then M_ok (q_tx raw (ps_token p), None) p
  else
    do (c, p) <- opt_int stoul p;
    match c with
    | None => M_ok (raw, None) p
    | Some c =>
      do (f, p) <- opt_int stoi p; do (v, p) <- opt_int stoi p;
      M_ok (raw, Some (c, match f with Some f => f | None => zero end, match v with Some v => v | None => zero end)) p
    end.
(** ParseBrushPrimTX (1683-1712).  ParsePlaneDef (1620-1643) and ParseValve220TX (1645-1681) are those of maputil. *)
Definition bp_def (p : pstate) : mres (list num) :=
  do (_, p) <- expect PARSE_SAMELINE 40 p;
  do (_, p) <- expect PARSE_SAMELINE 40 p; do (a, p) <- nums stod 3 p; do (_, p) <- expect PARSE_SAMELINE 41 p;
  do (_, p) <- expect PARSE_SAMELINE 40 p; do (b, p) <- nums stod 3 p; do (_, p) <- expect PARSE_SAMELINE 41 p;
  do (_, p) <- expect PARSE_SAMELINE 41 p;
  M_ok (a ++ b) p.

(** -texturedefs: another name and other surface information for a texture name (1774-1782). *)
Context (tdef : bytes -> option (bytes * option qext)).
(** The hard errors of ParseTextureDef for Quake II (1784-1845): mixed visible contents, monster contents. *)
Context (bad : qside -> bool).
(** Whether a face is kept behind those before: its plane has a normal (1999) and is not one of their planes (2576-2596). *)
Context (keep : list qside -> qside -> bool).
Definition q_remap (s : qside) : qside :=
  match tdef (qs_tex s) with
  | None => s
  | Some (name, None) => mkQS (qs_pts s) name (qs_raw s) (qs_ext s)
  | Some (name, Some e) => mkQS (qs_pts s) name (qs_raw s) (Some e)
  end.
(** ParseTextureDef (1714-1772), the part that reads. *)
Definition q_texture (bp : bool) (p : pstate) : mres (bytes * qtex * option qext) :=
  if bp then
    do (l, p) <- bp_def p; do (_, p) <- mtok PARSE_SAMELINE p; let tex := ps_token p in
    do (re, p) <- q_extended (QBp l) p; M_ok (tex, fst re, snd re) p
  else
    do (_, p) <- mtok PARSE_SAMELINE p; let tex := ps_token p in
    do (_, p) <- mtok SAMELINE_PEEK p;
    do (raw, p) <- (if beq (ps_token p) [91] then do (l, p) <- valve_def stod p; M_ok (TValve l) p else do (l, p) <- nums stod 5 p; M_ok (TQuake l) p);
    do (re, p) <- q_extended (QT raw) p;
    M_ok (tex, fst re, snd re) p.
(** ParseBrushFace (1982-2041) and the test for duplicates in ParseBrush. *)
Definition q_face (bp : bool) (sides : list qside) (p : pstate) : mres (list qside) :=
  do (pts, p) <- plane_def stod p;
  do (t, p) <- q_texture bp p;
  let s := q_remap (mkQS pts (fst (fst t)) (snd (fst t)) (snd t)) in
  if bad s then M_error else M_ok (if keep sides s then sides ++ [s] else sides) p.
(** The loop of ParseBrush (2559-2606). *)
Fixpoint q_faces (fuel : nat) (bp : bool) (sides : list qside) (p : pstate) : mres (list qside) :=
  match fuel with
  | O => M_fuel
  | S fuel =>
    do (b, p) <- mtok PARSE_NORMAL p;
    if negb b then M_ok sides p
    else if beq (ps_token p) [125] then M_ok sides p
    else do (sides, p) <- q_face bp sides p; q_faces fuel bp sides p
  end.

(** The kind of a brush by its texture names (2608-2630). *)
Inductive bkind := BPlain | BRegion | BAnti.
Definition kind_of (sides : list qside) : bkind :=
  match sides with
  | [] => BPlain
  | s :: _ =>
    let all w := forallb (fun s => ends w (qs_tex s)) sides in
    if ends n_anti (qs_tex s) then (if all n_anti then BAnti else BPlain)
    else if ends n_region (qs_tex s) && all n_region then BRegion else BPlain
  end.
(** map.region and map.antiregions. *)
Record regs := mkR { rg_region : option qbrush; rg_anti : list qbrush }.
(** The brushes around a region (2640-2682; their planes are in RegionModel.v). *)
Context (shell : qbrush -> list qbrush).
(** ParseBrush (2532-2724) and what ParseEntity does with the brush (2760-2763).  A region brush ends here before the
    second "}" of brush primitives is read, and leaves no brush: its faces were moved to map.region.  Not modelled:
    hints, the contents of the brush. *)
Definition q_brush (fuel : nat) (world : bool) (st : list qbrush * regs) (p : pstate) : mres (list qbrush * regs) :=
  do (b, p) <- mtok PARSE_PEEK p;
  if negb b then M_error else
  do (bp, p) <- (if beq (ps_token p) [40] || beq (ps_token p) [125] then M_ok false p
                 else do (_, p) <- mtok PARSE_NORMAL p;
                      do (_, p) <- (if beq (ps_token p) brushDef then do (b, p) <- mtok PARSE_NORMAL p; if b then M_ok tt p else M_error else M_ok tt p);
                      if beq (ps_token p) [123] then M_ok true p else M_error);
  do (sides, p) <- q_faces fuel bp [] p;
  let br := mkQB bp sides in
  let close st := do (_, p) <- (if bp then do (b, p) <- mtok PARSE_NORMAL p; if b && beq (ps_token p) [125] then M_ok tt p else M_error else M_ok tt p);
                  M_ok (match sides with [] => fst st | _ => fst st ++ [br] end, snd st) p in
  match kind_of sides with
  | BPlain => close st
  | BAnti => if world then close (fst st, mkR (rg_region (snd st)) (rg_anti (snd st) ++ [br])) else M_error
  | BRegion => if world then match rg_region (snd st) with
                             | None => M_ok (fst st ++ shell br, mkR (Some br) (rg_anti (snd st))) p
                             | Some _ => M_error
                             end
               else M_error
  end.
(** The brushes of an entity with _omitbrushes: all up to the next "}" (2753-2758). *)
Fixpoint q_skip (fuel : nat) (p : pstate) : mres unit :=
  match fuel with
  | O => M_fuel
  | S fuel => do (b, p) <- mtok PARSE_NORMAL p;
              if negb b then M_error else if beq (ps_token p) [125] then M_ok tt p else q_skip fuel p
  end.
(** The loop of ParseEntity (2742-2770).  omit: what first_brush and omit hold.  ParseEpair (843-862) is entity_dict of
    MapFileModel.v (and sets the origin, not modelled). *)
Fixpoint q_entity (fuel : nat) (world : bool) (omit : option bool) (e : qent) (rg : regs) (p : pstate) : mres (qent * regs) :=
  match fuel with
  | O => M_fuel
  | S fuel =>
    do (b, p) <- mtok PARSE_NORMAL p;
    if negb b then M_error
    else if beq (ps_token p) [125] then M_ok (e, rg) p
    else if beq (ps_token p) [123] then
      let o := match omit with Some o => o | None => negb (atoi (ed_get k_omit (qe_pairs e)) =? 0)%Z end in
      if o then do (_, p) <- q_skip fuel p; q_entity fuel world (Some o) e rg p
      else do (st, p) <- q_brush fuel world (qe_brushes e, rg) p; q_entity fuel world (Some o) (mkQE (qe_pairs e) (fst st)) (snd st) p
    else do (d, p) <- entity_dict (qe_pairs e) p; q_entity fuel world omit (mkQE d (qe_brushes e)) rg p
  end.
(** -aliasdef: keys for the entities of a class (2773-2782). *)
Context (alias : bytes -> option entdict).
Definition alias_step (d : entdict) (kv : bytes * bytes) : entdict :=
  if beq (fst kv) k_class || negb (ed_has (fst kv) d) then ed_set (fst kv) (snd kv) d else d.
Definition aliased (e : qent) : qent :=
  match alias (ed_get k_class (qe_pairs e)) with
  | None => e
  | Some l => mkQE (fold_left alias_step l (qe_pairs e)) (qe_brushes e)
  end.
(** The loops of LoadMapFile (3406-3412, 3430-3442) with the start of ParseEntity (2726-2735): the world entity is the
    first of all.  The entity that is removed afterwards is not modelled. *)
Definition add_class (e : qent) : qent :=
  if beq (ed_get k_class (qe_pairs e)) v_world then mkQE (ed_set k_class v_group (qe_pairs e)) (qe_brushes e) else e.
Fixpoint q_loop (fuel : nat) (add : bool) (es : list qent) (rg : regs) (p : pstate) : mres (list qent * regs) :=
  match fuel with
  | O => M_fuel
  | S fuel =>
    do (b, p) <- mtok PARSE_NORMAL p;
    if negb b then M_ok (es, rg) p
    else if beq (ps_token p) [123] then
      do (er, p) <- q_entity fuel (match es with [] => true | _ => false end) None (mkQE [] []) rg p;
      let e := aliased (fst er) in
      q_loop fuel add (es ++ [if add then add_class e else e]) (snd er) p
    else M_error
  end.
Definition start (text : bytes) : pstate := new_parser (text ++ [0]) (length text).
(** LoadMapFile (3391-3449) with the text of the map and of -add. *)
Definition load (text : bytes) (add : option bytes) : mres (list qent * regs) :=
  do (r, p) <- q_loop (S (length text)) false [] (mkR None []) (start text);
  match add with
  | None => M_ok r p
  | Some t => q_loop (S (length t)) true (fst r) (snd r) (start t)
  end.
End QMap.
