(* Entities of a map on their way into the BSP file: external maps, origin brushes, numbers of models, area
   portals, the entity lump, and -onlyents.  qbsp/map.cc:2888-3064, 3133-3390 (parts), 3670-3703;
   qbsp/qbsp.cc:870-885, 984-1090 (parts), 1242-1291; qbsp/brush.cc:214-257, 856-899.
   Maps with region brushes, -scale and _omitbrushes are not modelled. *)
From Coq Require Import String Ascii.
From Coq Require Decimal.
From Coq Require Import List Arith NArith Bool.
From Verif Require Import Base ParserModel EntModel CmdlibModel.
Import ListNotations.

Definition txt (s : string) : bytes := map N_of_ascii (list_ascii_of_string s).
(** std::to_string and fmt's "{}" of a number that is not negative. *)
Fixpoint uint_text (u : Decimal.uint) : bytes :=
  match u with
  | Decimal.Nil => []
  | Decimal.D0 u => 48%N :: uint_text u | Decimal.D1 u => 49%N :: uint_text u | Decimal.D2 u => 50%N :: uint_text u
  | Decimal.D3 u => 51%N :: uint_text u | Decimal.D4 u => 52%N :: uint_text u | Decimal.D5 u => 53%N :: uint_text u
  | Decimal.D6 u => 54%N :: uint_text u | Decimal.D7 u => 55%N :: uint_text u | Decimal.D8 u => 56%N :: uint_text u
  | Decimal.D9 u => 57%N :: uint_text u
  end.
Definition dec (n : nat) : bytes := uint_text (Nat.to_uint n).

(** mapbrush_t (include/qbsp/map.hh): whether its contents are those of an origin brush, the text of the
    centre of its bounds, the texture of its first face. *)
Record mbrush := mkMB { mb_origin : bool; mb_centre : bytes; mb_tex : bytes }.
(** mapentity_t: epairs, mapbrushes, outputmodelnumber. *)
Record ment := mkMEnt { me_pairs : entdict; me_brushes : list mbrush; me_model : option nat }.
Definition with_pairs (e : ment) (d : entdict) : ment := mkMEnt d (me_brushes e) (me_model e).

(** -notriggermodels; the text of -lmscale if given; the brushes of an external map file (None: it does not
    load); get_vector and qv::to_string on the text of an origin; the bounds of an entity in a hull as text. *)
Record env := mkEnv {
  ev_notrigger : bool; ev_lmscale : option bytes; ev_external : bytes -> option (list mbrush);
  ev_vec : bytes -> bytes; ev_bounds : nat -> ment -> bytes * bytes }.

Definition classname (e : ment) : bytes := ed_get (txt "classname") (me_pairs e).
Definition is_class (s : string) (e : ment) : bool := iequals (classname e) (txt s).

(** Q_strncasecmp(classname, "rotate_", 7) == 0 (map.cc:3272; cmdlib.cc:48-59), and compare(0, 7, "rotate_") == 0
    (qbsp.cc:1283). *)
Fixpoint starts (f : N -> N) (p s : bytes) : bool :=
  match p, s with
  | [], _ => true
  | x :: p, y :: s => (f x =? f y)%N && starts f p s
  | _ :: _, [] => false
  end.

(** map.cc:2931-2987 with LoadExternalMap 2888-2929.  None: FError or Q_assert.  Scaling, rotating and moving
    the brushes is left to ev_external. *)
Definition is_nil {A} (l : list A) : bool := match l with [] => true | _ => false end.
Definition load_external (v : env) (e : ment) : option ment :=
  if is_class "misc_external_map" e then
    let file := ed_get (txt "_external_map") (me_pairs e) in
    let name := ed_get (txt "_external_map_classname") (me_pairs e) in
    if is_nil file || is_nil name || negb (is_nil (me_brushes e)) then None
    else match ev_external v file with
         | None => None
         | Some bs => if is_nil bs then None
                      else Some (mkMEnt (ed_set (txt "origin") (txt "0 0 0") (ed_set (txt "classname") name (me_pairs e))) bs (me_model e))
         end
  else Some e.

(** map.cc:3027-3064.  The assertion of IsWorldBrushEntity is checked in compile and only_ents. *)
Definition world_brush (e : ment) : bool :=
  is_class "func_detail" e || is_class "func_group" e || is_class "func_detail_illusionary" e ||
  is_class "func_detail_wall" e || is_class "func_detail_fence" e || is_class "func_illusionary_visblocker" e.
Definition area_portal (e : ment) : bool := is_class "func_areaportal" e.

(** brush.cc:220-257.  Without a target the vector is zero, as it is for an empty text. *)
Definition fix_rotate (v : env) (all : list ment) (d : entdict) : entdict :=
  let search := ed_get (txt "target") d in
  let target := if is_nil search then None else find (fun e => iequals search (ed_get (txt "targetname") (me_pairs e))) all in
  ed_set (txt "origin") (ev_vec v (match target with Some t => ed_get (txt "origin") (me_pairs t) | None => [] end)) d.

(** The loop over the brushes of an entity (map.cc:3197-3266): the brushes that stay, the pairs, whether
    rotation is rotation_t::origin_brush. *)
Fixpoint strip (world : bool) (bs : list mbrush) (d : entdict) : list mbrush * entdict * bool :=
  match bs with
  | [] => ([], d, false)
  | b :: r =>
      if mb_origin b then
        let d := if world then d else if ed_has (txt "origin") d then d else ed_set (txt "origin") (mb_centre b) d in
        let '(bs', d', _) := strip world r d in (bs', d', true)
      else let '(bs', d', rot) := strip world r d in (b :: bs', d', rot)
  end.

(** ProcessMapBrushes, the loop over the entities (map.cc:3170-3276). *)
Fixpoint process_brushes (v : env) (done rest : list ment) : list ment :=
  match rest with
  | [] => done
  | e :: r =>
      let '(bs, d, rot) := strip (is_nil done) (me_brushes e) (me_pairs e) in
      let e1 := mkMEnt d bs (me_model e) in
      let e2 := if negb rot && starts lower (txt "rotate_") (classname e1) then with_pairs e1 (fix_rotate v (done ++ e1 :: r) d) else e1 in
      process_brushes v (done ++ [e2]) r
  end.

(** map.cc:2989-3021, called for each entity but the first when the brushes of the world are loaded
    (brush.cc:888-896).  None: FError. *)
Fixpoint area_portals (n : nat) (l : list ment) : option (list ment * nat) :=
  match l with
  | [] => Some ([], n)
  | e :: r =>
      if area_portal e then
        if length (me_brushes e) =? 1 then
          match area_portals (S n) r with
          | Some (r', n') => Some (with_pairs e (ed_set (txt "style") (dec (S n)) (me_pairs e)) :: r', n')
          | None => None
          end
        else None
      else match area_portals n r with Some (r', n') => Some (e :: r', n') | None => None end
  end.

(** IsTrigger (qbsp.cc:870-885): rfind finds the text at the end exactly if the name ends with it. *)
Definition ends_trigger (s : bytes) : bool := starts (fun c => c) (rev (txt "trigger")) (rev s).
Definition is_trigger (e : ment) : bool := match me_brushes e with b :: _ => ends_trigger (mb_tex b) | [] => false end.

(** What ProcessEntity does to the entity in hull h (qbsp.cc:984-1075), n: the number of models. *)
Definition process_entity (v : env) (h : nat) (world : bool) (e : ment) (n : nat) : ment * nat :=
  if is_nil (me_brushes e) && negb world then (e, n)
  else if world_brush e || area_portal e then (e, n)
  else
    let discarded := negb world && ev_notrigger v && is_trigger e in
    let '(e, n) :=
      if discarded then (e, n)
      else
        let '(k, n) := match me_model e with Some k => (k, n) | None => (n, S n) end in
        let d := if world then me_pairs e else ed_set (txt "model") (42%N :: dec k) (me_pairs e) in
        (mkMEnt d (me_brushes e) (Some k), n) in
    let d := match ev_lmscale v with Some s => if ed_has (txt "_lmscale") (me_pairs e) then me_pairs e else ed_set (txt "_lmscale") s (me_pairs e) | None => me_pairs e end in
    let d := if discarded then ed_set (txt "maxs") (snd (ev_bounds v h e)) (ed_set (txt "mins") (fst (ev_bounds v h e)) d) else d in
    (with_pairs e d, n).

(** CreateSingleHull (qbsp.cc:1470-1504); p: numareaportals.  The area portals are processed with the world. *)
Fixpoint process_rest (v : env) (h : nat) (l : list ment) (n : nat) : list ment * nat :=
  match l with
  | [] => ([], n)
  | e :: r => let '(e, n) := process_entity v h false e n in let '(r, n) := process_rest v h r n in (e :: r, n)
  end.
Definition single_hull (v : env) (h : nat) (l : list ment) (n p : nat) : option (list ment * nat * nat) :=
  match l with
  | [] => Some ([], n, p)
  | w :: r =>
      let portals := if world_brush w || area_portal w then Some (r, p) else area_portals p r in
      match portals with
      | None => None
      | Some (r, p) =>
          let '(w, n) := process_entity v h true w n in
          let '(r, n) := process_rest v h r n in
          Some (w :: r, n, p)
      end
  end.
(** CreateHulls (qbsp.cc:1506-1533): hs are the hulls that are made, [0] for games without hulls. *)
Fixpoint create_hulls (v : env) (hs : list nat) (l : list ment) (n p : nat) : option (list ment * nat) :=
  match hs with
  | [] => Some (l, n)
  | h :: hs => match single_hull v h l n p with Some (l, n, p) => create_hulls v hs l n p | None => None end
  end.

Fixpoint map_opt {A B} (f : A -> option B) (l : list A) : option (list B) :=
  match l with
  | [] => Some []
  | x :: r => match f x, map_opt f r with Some y, Some r' => Some (y :: r') | _, _ => None end
  end.

(** ProcessFile (qbsp.cc:1646-1677) up to the entities before they are written, and the number of models.  The
    assertion in IsWorldBrushEntity fails for every entity that is still a misc_external_map. *)
Definition compile (v : env) (hs : list nat) (l : list ment) : option (list ment * nat) :=
  match map_opt (load_external v) l with
  | None => None
  | Some l => if existsb (is_class "misc_external_map") l then None else create_hulls v hs (process_brushes v [] l) 0 0
  end.

(** UpdateEntLump (qbsp.cc:1242-1291) for games other than Quake II. *)
Fixpoint update_ents (v : env) (done rest : list ment) (n : nat) : list ment :=
  match rest with
  | [] => done
  | e :: r =>
      let ext := is_class "misc_external_map" e in
      let e1 := if ext then with_pairs e (ed_set (txt "origin") (txt "0 0 0") (ed_set (txt "classname") (ed_get (txt "_external_map_classname") (me_pairs e)) (me_pairs e))) else e in
      if negb (is_nil (me_brushes e1) && negb ext) && negb (world_brush e1 || area_portal e1) then
        let e2 := with_pairs e1 (ed_set (txt "model") (42%N :: dec n) (me_pairs e1)) in
        let e3 := if starts (fun c => c) (txt "rotate_") (classname e2) then with_pairs e2 (fix_rotate v (done ++ e2 :: r) (me_pairs e2)) else e2 in
        update_ents v (done ++ [e3]) r (S n)
      else update_ents v (done ++ [e1]) r n
  end.
Definition only_ents (v : env) (l : list ment) : option (list ment) :=
  let l' := match l with [] => [] | w :: r => update_ents v [w] r 1 end in
  if existsb (is_class "misc_external_map") l' then None else Some l'.

(** WriteEntitiesToString (map.cc:3670-3703). *)
Definition kept (e : ment) : bool := negb (is_nil (me_pairs e) || world_brush e).
Definition no_tb (d : entdict) : entdict := filter (fun kv => negb (starts (fun c => c) (txt "_tb_") (fst kv))) d.
Definition lump_ents (l : list ment) : list entdict := map (fun e => no_tb (me_pairs e)) (filter kept l).
Definition ent_lump (l : list ment) : bytes := ents_write (lump_ents l).
