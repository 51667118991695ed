(* Region and antiregion brushes of qbsp: what is compiled (qbsp/map.cc:2593-2676, 3150-3160, 3338-3369,
   qbsp/brush.cc:712-733).  Real numbers stand for float and double. *)
From Coq Require Import String Ascii.
From Coq Require Import Reals List ZArith Bool Arith.
From Verif Require Import AabbModel WindClipModel.
Import ListNotations.
Open Scope R_scope.

(** ends_with of std::string on the texture names of the sides (2593-2613): the kind of a brush. *)
Inductive kind := Plain | Region | Antiregion.
Fixpoint starts (p s : list ascii) : bool :=
  match p, s with
  | [], _ => true
  | a :: p, b :: s => Ascii.eqb a b && starts p s
  | _ :: _, [] => false
  end.
Definition ends_with (s p : string) : bool := starts (rev (list_ascii_of_string p)) (rev (list_ascii_of_string s)).
Definition kind_of (names : list string) : kind :=
  match names with
  | [] => Plain
  | n :: _ =>
      let anti := ends_with n "antiregion" in
      let reg := negb anti && ends_with n "region" in
      let anti := anti && forallb (fun m => ends_with m "antiregion") names in
      let reg := reg && forallb (fun m => ends_with m "region") names in
      if anti then Antiregion else if reg then Region else Plain
  end.

(** Comparison of planes: planenum == planenum (the table has each plane once, C114), and of normals. *)
Definition vec_eqb (a b : vec) : bool :=
  if Req_EM_T (vx a) (vx b) then if Req_EM_T (vy a) (vy b) then if Req_EM_T (vz a) (vz b) then true else false else false else false.
Definition plane_eqb (a b : plane) : bool := vec_eqb (p_n a) (p_n b) && if Req_EM_T (p_d a) (p_d b) then true else false.
(** One of the brushes around a region (2636-2665): k is new_brush_side. *)
Definition shell_side (k s : plane) : plane :=
  if plane_eqb s k then mkPl (p_n s) (p_d s + 16)
  else if vec_eqb (p_n s) (scale (-1) (p_n k)) then mkPl (scale (-1) (p_n k)) (- p_d k)
  else s.
Definition shell (sides : list plane) : list (list plane) := map (fun k => map (shell_side k) sides) sides.

(** What ParseBrush leaves behind (2615-2679, ParseEntity 2760): the brushes for the world, the region, the
    antiregions.  None: FError.  world: whether the entity is the world entity. *)
Record pstate := mkPS { ps_brushes : list (list plane); ps_region : option (list plane); ps_anti : list (list plane) }.
Definition parse_brush (world : bool) (names : list string) (sides : list plane) (s : pstate) : option pstate :=
  match kind_of names with
  | Plain => Some (mkPS (ps_brushes s ++ [sides]) (ps_region s) (ps_anti s))
  | Antiregion => if world then Some (mkPS (ps_brushes s ++ [sides]) (ps_region s) (ps_anti s ++ [sides])) else None
  | Region => if world then match ps_region s with
                            | None => Some (mkPS (ps_brushes s ++ shell sides) (Some sides) (ps_anti s))
                            | Some _ => None
                            end
              else None
  end.

(** Brush_LoadEntity (brush.cc:715-733): whether a brush is left out.  world: it belongs to the world entity or one
    whose brushes go to the world.  The second continue (730) goes on with the inner loop. *)
Fixpoint anti_loop (l : list box) (b : box) : bool :=
  match l with
  | [] => false
  | a :: l => if negb (disjoint 0 a b) then anti_loop l b else anti_loop l b
  end.
Definition left_out (world : bool) (region : option box) (anti : list box) (b : box) : bool :=
  if world then
    if match region with Some r => disjoint 0 r b | None => false end then true else anti_loop anti b
  else false.

(** The loop over the entities (map.cc:3339-3369).  map.entities is a std::vector: after erase(it), entity refers to
    the element that moved there; None: to one that is gone, or erase(end()) (undefined). *)
Record rent := mkRE { re_id : nat; re_brushes : nat; re_origin : pt }.
Definition in_anti (anti : list box) (e : rent) : bool := existsb (fun a => contains_point a (re_origin e)) anti.
Fixpoint drop_ents (fuel : nat) (region : option box) (anti : list box) (l : list rent) : option (list rent) :=
  match fuel, l with
  | O, _ => None
  | _, [] => Some []
  | S fuel, e :: r =>
      let go := drop_ents fuel region anti in
      let keep := option_map (cons e) (go r) in
      if (re_brushes e =? 0)%nat then
        if match region with Some b => negb (contains_point b (re_origin e)) | None => false end then
          match anti, r with
          | [], _ => go r
          | _ :: _, [] => None
          | _ :: _, e2 :: r2 => if in_anti anti e2 then go r2 else go r
          end
        else if in_anti anti e then go r else keep
      else keep
  end.
Definition remove_ents (region : option box) (anti : list box) (l : list rent) : option (list rent) := drop_ents (S (length l)) region anti l.
