(* Bounding boxes (include/common/aabb.hh:24-257), bounds of the nodes of a tree (qbsp/portals.cc:388-434) and
   the search for vertices near an edge (qbsp/tjunc.cc:140-225).  Real numbers between -MAX and MAX stand for
   float and double (no rounding, no NaN). *)
From Coq Require Import Reals List Bool.
Import ListNotations.
Open Scope R_scope.

(** value_type is a list of coordinates.  m_corners: one interval (mins()[i], maxs()[i]) for each i. *)
Definition pt := list R.
Definition box := list (R * R).
Definition ltb (a b : R) : bool := if Rlt_dec a b then true else false.
Definition leb (a b : R) : bool := if Rle_dec a b then true else false.

Fixpoint zip {A B C} (f : A -> B -> C) (l : list A) (m : list B) : list C :=
  match l, m with x :: l, y :: m => f x y :: zip f l m | _, _ => [] end.
Definition mins (b : box) : pt := map fst b.
Definition maxs (b : box) : pt := map snd b.

(** fix (64-71), in aabb(mins, maxs) (79-83). *)
Definition fix1 (lo hi : R) : R * R := (lo, if ltb hi lo then lo else hi).
Definition make (lo hi : pt) : box := zip fix1 lo hi.
(** aabb() (74-77). *)
Definition empty (MAX : R) (n : nat) : box := repeat (MAX, - MAX) n.
(** aabb(const aabb<V2, N> &) (90-94), for another type of coordinates. *)
Definition convert (b : box) : box := make (mins b) (maxs b).

(** expand (150-158) and operator+ with a point. *)
Definition expand (b : box) (p : pt) : box := zip (fun i x => fix1 (Rmin (fst i) x) (Rmax (snd i) x)) b p.
(** expand_in_place (168-176) and operator+= with a point. *)
Definition expand_in_place (b : box) (p : pt) : box := zip (fun i x => (Rmin (fst i) x, Rmax (snd i) x)) b p.
(** unionWith (164), unionWith_in_place (182-190). *)
Definition union (a b : box) : box := expand (expand a (mins b)) (maxs b).
Definition union_in_place (a b : box) : box :=
  zip (fun i j => (Rmin (Rmin (fst i) (fst j)) (snd j), Rmax (Rmax (snd i) (fst j)) (snd j))) a b.
(** aabb(Iter start, Iter end) (96-103), and CalcNodeBounds (portals.cc:388-402). *)
Definition of_points (MAX : R) (n : nat) (ps : list pt) : box := fold_left expand_in_place ps (empty MAX n).

(** translate (111), grow (216). *)
Definition translate (b : box) (v : pt) : box := make (zip Rplus (mins b) v) (zip Rplus (maxs b) v).
Definition grow (b : box) (v : pt) : box := make (zip Rminus (mins b) v) (zip Rplus (maxs b) v).

(** disjoint (113-122), disjoint_or_touching (124-133), contains (135-143), containsPoint (145-153). *)
Definition disjoint (eps : R) (a b : box) : bool :=
  existsb (fun c => c) (zip (fun i j => ltb (snd i) (fst j - eps) || ltb (snd j + eps) (fst i)) a b).
Definition disjoint_or_touching (eps : R) (a b : box) : bool :=
  existsb (fun c => c) (zip (fun i j => leb (snd i) (fst j - eps) || leb (snd j + eps) (fst i)) a b).
Definition contains (a b : box) : bool :=
  forallb (fun c => c) (zip (fun i j => negb (ltb (fst j) (fst i) || ltb (snd i) (snd j))) a b).
Definition contains_point (b : box) (p : pt) : bool :=
  forallb (fun c => c) (zip (fun i x => leb (fst i) x && leb x (snd i)) b p).

(** intersectWith (192-204); None: not valid.  fix changes nothing here. *)
Fixpoint intersect (a b : box) : option box :=
  match a, b with
  | i :: a, j :: b =>
      let lo := Rmax (fst i) (fst j) in let hi := Rmin (snd i) (snd j) in
      if ltb hi lo then None else match intersect a b with Some c => Some (fix1 lo hi :: c) | None => None end
  | _, _ => Some []
  end.

(** A tree: for leafs the points of the windings of the portals; node_t::bounds before the call for inner nodes. *)
Inductive tree := Leaf (ps : list pt) | Node (old : box) (a b : tree).
(** The same with bounds at every node. *)
Inductive btree := BLeaf (bd : box) (ps : list pt) | BNode (bd : box) (a b : btree).
Definition bounds (t : btree) : box := match t with BLeaf b _ => b | BNode b _ _ => b end.

(** Lines 420-426; None: parent is null for the head node.  The first coordinate only. *)
Definition no_volume (b : box) : bool := match b with (lo, hi) :: _ => leb hi lo | [] => false end.
Definition settle (parent : option box) (b : box) : option box :=
  if no_volume b then match parent with Some p => Some (make (mins p) (mins p)) | None => None end else Some b.
(** CalcTreeBounds_r (404-434).  The tasks for the children read the bounds that their parent had before. *)
Fixpoint tree_bounds (MAX : R) (parent : option box) (t : tree) : option btree :=
  match t with
  | Leaf ps => match settle parent (of_points MAX 3 ps) with Some b => Some (BLeaf b ps) | None => None end
  | Node old x y =>
      match tree_bounds MAX (Some old) x, tree_bounds MAX (Some old) y with
      | Some x, Some y => match settle parent (union (bounds x) (bounds y)) with Some b => Some (BNode b x y) | None => None end
      | _, _ => None
      end
  end.

(** Trees with the faces at their nodes: for each face whether HasTJuncInteraction holds with the face at hand,
    and its vertices. *)
Inductive ftree := FLeaf | FNode (bd : box) (faces : list (bool * list nat)) (a b : ftree).
(** FindEdgeVerts_FaceBounds_R (186-209); pos: dvertexes. *)
Definition face_verts (pos : nat -> pt) (q : box) (fs : list (bool * list nat)) : list nat :=
  flat_map (fun f : bool * list nat => if fst f then filter (fun v => contains_point q (pos v)) (snd f) else []) fs.
Fixpoint find_verts (pos : nat -> pt) (q : box) (t : ftree) : list nat :=
  match t with
  | FLeaf => []
  | FNode b fs x y => if disjoint 0 b q then [] else face_verts pos q fs ++ find_verts pos q x ++ find_verts pos q y
  end.
(** FindEdgeVerts_FaceBounds (222-229). *)
Definition edge_box (MAX : R) (p1 p2 : pt) : box := grow (expand (expand (empty MAX 3) p1) p2) [1; 1; 1].
Definition edge_verts (MAX : R) (pos : nat -> pt) (t : ftree) (p1 p2 : pt) : list nat := find_verts pos (edge_box MAX p1 p2) t.
