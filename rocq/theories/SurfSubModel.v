(* Surface lights in the manner of Quake: light/entities.cc:1264-1343 (CreateSurfaceLight, ...OnFaceSubdivision, BoundPoly,
   FaceMatchesSurfaceLightTemplate), 1345-1448 (SubdividePolygon, GL_SubdivideSurface), 1496-1580 (MakeSurfaceLights).
   Real numbers stand for float and double (no rounding, no NaN but the centroid of a polygon without area). *)
From Coq Require Import Reals ZArith NArith List Bool.
From Verif Require Import CmdlibModel WindClipModel PolyGeoModel LightValModel SunModel.
Import ListNotations.
Open Scope R_scope.

Definition coord (i : nat) (v : vec) : R := match i with 0%nat => vx v | 1%nat => vy v | _ => vz v end.
(** BoundPoly (1309-1318) of a polygon with points. *)
Fixpoint lowest (i : nat) (a : vec) (w : list vec) : R := match w with [] => coord i a | b :: w => Rmin (coord i a) (lowest i b w) end.
Fixpoint highest (i : nat) (a : vec) (w : list vec) : R := match w with [] => coord i a | b :: w => Rmax (coord i a) (highest i b w) end.
Definition lo (i : nat) (w : list vec) : R := match w with [] => 0 | a :: w => lowest i a w end.
Definition hi (i : nat) (w : list vec) : R := match w with [] => 0 | a :: w => highest i a w end.
(** Where an axis is cut (1372-1378): a multiple of the size next to the middle, 8 units inside. *)
Definition cut_at (size : R) (i : nat) (w : list vec) : R :=
  let m := (lo i w + hi i w) * (1 / 2) in size * IZR (Int_part (m / size + 1 / 2)).
Definition cuts (size : R) (i : nat) (w : list vec) : bool :=
  if Rlt_dec (hi i w - cut_at size i w) 8 then false else if Rlt_dec (cut_at size i w - lo i w) 8 then false else true.
(** The bounds of a polygon without points are inside out; it is not cut. *)
Definition first_cut (size : R) (w : list vec) : option (nat * R) :=
  match w with
  | [] => None
  | _ => if cuts size 0 w then Some (0%nat, cut_at size 0 w)
         else if cuts size 1 w then Some (1%nat, cut_at size 1 w)
         else if cuts size 2 w then Some (2%nat, cut_at size 2 w) else None
  end.
(** One step of the loop over the points (1395-1413): what is added to the part in front (s) or behind. *)
Definition crosses (d e : R) : bool := negb (is0 d) && negb (is0 e) && xorb (ltb 0 d) (ltb 0 e).
Definition emit (s : bool) (i : nat) (m : R) (p : vec * vec) : list vec :=
  let '(v, w) := p in
  let d := coord i v - m in let e := coord i w - m in
  (if (if s then if Rle_dec 0 d then true else false else if Rle_dec d 0 then true else false) then [v] else []) ++
  (if crosses d e then [WindClipModel.add v (WindClipModel.scale (d / (d - e)) (sub w v))] else []).
Definition half (s : bool) (i : nat) (m : R) (w : list vec) : list vec := flat_map (emit s i m) (edges w).

(** SubdividePolygon.  Overflow: dist[64], verts[64], front[64] or back[64] is written.  fuel: rounds of the recursion. *)
Inductive out := Pieces (l : list (list vec)) | TooMany | Overflow | Fuel.
Definition both (a b : out) : out := match a with Pieces la => match b with Pieces lb => Pieces (la ++ lb) | _ => b end | _ => a end.
Fixpoint subdivide (fuel : nat) (size : R) (w : list vec) : out :=
  match fuel with
  | O => Fuel
  | S fuel =>
    if (64 <? length w)%nat then TooMany
    else match first_cut size w with
    | None => Pieces [w]
    | Some (i, m) =>
      if (length w =? 64)%nat then Overflow
      else let f := half true i m w in let b := half false i m w in
           if (64 <? length f)%nat || (64 <? length b)%nat then Overflow
           else both (subdivide fuel size f) (subdivide fuel size b)
    end
  end.
(** GL_SubdivideSurface (1431-1448) writes verts[64] for faces with more points. *)
Definition rounds (w : list vec) : nat := S (Z.to_nat (up ((hi 0 w - lo 0 w) / 8 + (hi 1 w - lo 1 w) / 8 + (hi 2 w - lo 2 w) / 8))).
Definition pieces (size : R) (w : list vec) : out := if (64 <? length w)%nat then Overflow else subdivide (rounds w) size w.

(** ** Lights *)
(** A template: its light_t, _surface, _surface_radiosity, _surflight_group, _surface_offset, _surface_spotlight. *)
Record template := mkT { t_ent : lent; t_surface : list N; t_radiosity : option Z; t_group : Z; t_offset : R; t_spot : bool }.
(** A face: points, normal, texture, group of its texinfo, offset of its model (None: no modelinfo), translucent. *)
Record face := mkF { f_pts : list vec; f_normal : vec; f_name : list N; f_group : Z; f_model : option vec; f_trans : bool }.
(** FaceMatchesSurfaceLightTemplate with SURFLIGHT_Q1 (1320-1343); def: the worldspawn key surflight_radiosity. *)
Definition matches (def : Z) (f : face) (t : template) : bool :=
  (match t_radiosity t with Some r => r | None => def end =? 0)%Z
  && ((f_group f =? 0)%Z || (t_group t =? 0)%Z || (t_group t =? f_group f)%Z) && iequals (f_name f) (t_surface t).
(** CreateSurfaceLightOnFaceSubdivision and CreateSurfaceLight: the light and its spotlight vector. *)
Definition on_piece (f : face) (off : vec) (t : template) (w : list vec) : list (lent * option vec) :=
  match poly_centroid w with
  | None => []
  | Some c =>
    let k := if is0 (t_offset t) then 2 else t_offset t in
    [(with_origin (t_ent t) (WindClipModel.add (WindClipModel.add c (WindClipModel.scale k (f_normal f))) off), if t_spot t then Some (f_normal f) else None)]
  end.
Definition on_face (def : Z) (size : R) (ts : list template) (f : face) (off : vec) : option (list (lent * option vec)) :=
  if existsb (matches def f) ts then
    match pieces size (f_pts f) with
    | Pieces l => Some (flat_map (fun w => flat_map (fun t => if matches def f t then on_piece f off t w else []) ts) l)
    | _ => None
    end
  else Some [].

(** MakeSurfaceLights (1546-1575): the faces of the leafs (underwater, marksurfaces), each once.  None: a failed assertion of
    BSP_GetFace or an overflow. *)
Definition skipped (under : bool) (f : face) : bool := match f_model f with None => true | Some _ => under && f_trans f end.
Fixpoint marks (faces : list face) (under : bool) (l visited : list nat) : option (list nat) :=
  match l with
  | [] => Some visited
  | k :: l =>
    match nth_error faces k with
    | None => None
    | Some f => marks faces under l (if skipped under f || existsb (Nat.eqb k) visited then visited else visited ++ [k])
    end
  end.
Fixpoint leafs (faces : list face) (l : list (bool * list nat)) (visited : list nat) : option (list nat) :=
  match l with
  | [] => Some visited
  | (under, ks) :: l => match marks faces under ks visited with None => None | Some v => leafs faces l v end
  end.
Fixpoint lights_of (def : Z) (size : R) (ts : list template) (faces : list face) (l : list nat) : option (list (lent * option vec)) :=
  match l with
  | [] => Some []
  | k :: l =>
    match nth_error faces k with
    | Some f =>
      match on_face def size ts f (match f_model f with Some o => o | None => zero end), lights_of def size ts faces l with
      | Some a, Some b => Some (a ++ b)
      | _, _ => None
      end
    | None => None
    end
  end.
(** The templates (1502-1530): those of a file, which CheckEntityFields has not seen, then lights with _surface, whose own
    light is set to 0. *)
Definition templates (rad ents : list template) : list template := rad ++ filter (fun t => negb (length (t_surface t) =? 0)%nat) ents.
Definition own_lights (ents : list template) : list lent :=
  map (fun t => if (length (t_surface t) =? 0)%nat then t_ent t else with_light (t_ent t) 0) ents.
Definition surface_lights (def : Z) (size : R) (rad ents : list template) (faces : list face) (ls : list (bool * list nat))
  : option (list (lent * option vec)) :=
  match templates rad ents with
  | [] => Some []
  | ts => match leafs faces ls [] with None => None | Some v => lights_of def size ts faces v end
  end.
