(* bsputil --check: CheckBSPFacesPlanar (bsputil/bsputil.cc:154-174), Node_Height and PrintNodeHeights
   (176-238), CheckBSPFile (240-447), on the generic BSP of ConvModel.v. *)
From Coq Require Import List Arith NArith ZArith Bool.
Import ListNotations.
From Verif Require Import Base Codec NumCastModel BspRecModel BspFileModel ConvModel.
Local Open Scope Z_scope.

(** The warnings, with the number of the record and, where it has two, the side. *)
Inductive warn :=
  | WTexNeg (i : nat) | WTexRange (i : nat) | WPlaneNeg (i : nat) | WPlaneRange (i : nat)
  | WLightNeg (i : nat) | WLightRange (i : nat) | WEdgeNeg (i : nat) | WEdgeFew (i : nat) | WEdgeRange (i : nat)
  | WVertex (i : nat) (j : bool) | WSurfZero (i : nat) | WSurfRange (i : nat) | WMark (i : nat)
  | WLeafMarks (i : nat) | WVisNeg (i : nat) | WVisRange (i : nat)
  | WChildNode (i : nat) (j : bool) | WChildLeaf (i : nat) (j : bool) | WChildSame (i : nat)
  | WClipChild (i : nat) (j : bool) | WClipContents (i : nat) (j : bool) | WClipSame (i : nat)
  | WUnusedTex (n : nat) | WUnusedPlanes (n : nat) | WUnusedVerts (n : nat).

(** A comparison of a signed number with size(): both are converted to 64 bits without sign. *)
Definition zlen {A} (l : list A) : Z := Z.of_nat (length l).
Definition usz (z : Z) : Z := z mod 2 ^ 64.
Definition ge_size (z n : Z) : bool := n <=? usz z.
Definition gt_size (z n : Z) : bool := n <? usz z.
Definition when (b : bool) (w : warn) : list warn := if b then [w] else [].
(** All records in order with their numbers. *)
Fixpoint visit {A} (f : nat -> A -> list warn) (i : nat) (l : list A) : list warn :=
  match l with [] => [] | a :: t => f i a ++ visit f (S i) t end.

Definition check_face {T} (g : mbsp T) (i : nat) (f : face) : list warn :=
  when (f_tex f <? 0) (WTexNeg i) ++ when (ge_size (f_tex f) (zlen (g_texinfo g))) (WTexRange i) ++
  when (f_plane f <? 0) (WPlaneNeg i) ++ when (ge_size (f_plane f) (zlen (g_planes g))) (WPlaneRange i) ++
  when (f_lo f <? -1) (WLightNeg i) ++ when (ge_size (f_lo f) (zlen (g_light g))) (WLightRange i) ++
  when (f_fe f <? 0) (WEdgeNeg i) ++ when (f_ne f <? 3) (WEdgeFew i) ++
  when (gt_size (f_fe f + f_ne f) (zlen (g_surfedges g))) (WEdgeRange i).
(** bsputil.cc:293-305: the comparison is > and not >=. *)
Definition check_edge {T} (g : mbsp T) (i : nat) (e : dedge) : list warn :=
  when (gt_size (e_0 e) (zlen (g_verts g))) (WVertex i false) ++ when (gt_size (e_1 e) (zlen (g_verts g))) (WVertex i true).
Definition check_surfedge {T} (g : mbsp T) (i : nat) (e : Z) : list warn :=
  when (e =? 0) (WSurfZero i) ++ when (ge_size (Z.abs e) (zlen (g_edges g))) (WSurfRange i).
Definition check_mark {T} (g : mbsp T) (i : nat) (m : Z) : list warn := when (ge_size m (zlen (g_faces g))) (WMark i).
(** endmarksurface is a uint32_t. *)
Definition check_leaf {T} (g : mbsp T) (i : nat) (l : mleaf) : list warn :=
  when (gt_size ((l_fm l + l_nm l) mod 2 ^ 32) (zlen (g_leaffaces g))) (WLeafMarks i) ++
  when (l_visofs l <? -1) (WVisNeg i) ++ when (ge_size (l_visofs l) (zlen (mv_bits (g_vis g)))) (WVisRange i).
Definition check_child {T} (g : mbsp T) (i : nat) (j : bool) (c : Z) : list warn :=
  when ((0 <=? c) && ge_size c (zlen (g_nodes g))) (WChildNode i j) ++
  when ((c <? 0) && ge_size (- c - 1) (zlen (g_leafs g))) (WChildLeaf i j).
Definition check_node {T} (g : mbsp T) (i : nat) (n : node) : list warn :=
  check_child g i false (n_c0 n) ++ check_child g i true (n_c1 n) ++ when (n_c0 n =? n_c1 n) (WChildSame i).
Definition check_clipchild {T} (g : mbsp T) (i : nat) (j : bool) (c : Z) : list warn :=
  when ((0 <=? c) && ge_size c (zlen (g_clips g))) (WClipChild i j) ++ when ((c <? 0) && (c <? -6)) (WClipContents i j).
Definition check_clip {T} (g : mbsp T) (i : nat) (c : clipnode) : list warn :=
  check_clipchild g i false (cn_c0 c) ++ check_clipchild g i true (cn_c1 c) ++ when (cn_c0 c =? cn_c1 c) (WClipSame i).

(** Unreferenced records (bsputil.cc:386-420).  The set of planes holds int32_t, that of vertices
    uint32_t. *)
Definition s32 (z : Z) : Z := (z + 2 ^ 31) mod 2 ^ 32 - 2 ^ 31.
Definition unused (refs : list Z) (n : nat) : nat :=
  length (filter (fun i => negb (existsb (Z.eqb (Z.of_nat i)) refs)) (seq 0 n)).
Definition tex_refs {T} (g : mbsp T) : list Z := map f_tex (g_faces g).
Definition plane_refs {T} (g : mbsp T) : list Z :=
  map (fun f => s32 (f_plane f)) (g_faces g) ++ map n_plane (g_nodes g) ++ map cn_plane (g_clips g).
Definition vert_refs {T} (g : mbsp T) : list Z := map e_0 (g_edges g) ++ map e_1 (g_edges g).
Definition count (n : nat) (w : nat -> warn) : list warn := match n with O => [] | _ => [w n] end.

(** Signed overflow: firstedge + numedges, abs and the minus sign of the least int32_t. *)
Definition i32_ok (z : Z) : bool := (- 2147483648 <=? z) && (z <=? 2147483647).
Definition check_ub {T} (g : mbsp T) : bool :=
  existsb (fun f => negb (i32_ok (f_fe f + f_ne f))) (g_faces g) ||
  existsb (fun e => e =? - 2147483648) (g_surfedges g) ||
  existsb (fun n => (n_c0 n =? - 2147483648) || (n_c1 n =? - 2147483648)) (g_nodes g).
Definition check_lists {T} (g : mbsp T) : res (list warn) :=
  if check_ub g then RUB else ROk
   (visit (check_face g) 0 (g_faces g) ++ visit (check_edge g) 0 (g_edges g) ++
    visit (check_surfedge g) 0 (g_surfedges g) ++ visit (check_mark g) 0 (g_leaffaces g) ++
    visit (check_leaf g) 0 (g_leafs g) ++ visit (check_node g) 0 (g_nodes g) ++ visit (check_clip g) 0 (g_clips g) ++
    count (unused (tex_refs g) (length (g_texinfo g))) WUnusedTex ++
    count (unused (plane_refs g) (length (g_planes g))) WUnusedPlanes ++
    count (unused (vert_refs g) (length (g_verts g))) WUnusedVerts).

(** Node_Height: None if it calls itself deeper than fuel; RUB: a child is out of range. *)
Definition get {A} (l : list A) (z : Z) : res A :=
  if z <? 0 then RUB else match nth_error l (Z.to_nat z) with Some a => ROk a | None => RUB end.
Fixpoint height (fuel : nat) (nodes : list node) (n : Z) : option (res Z) :=
  match fuel with
  | O => None
  | S k =>
    match get nodes n with
    | ROk a =>
      let child c := if 0 <=? c then height k nodes c else Some (ROk 0) in
      match child (n_c0 a) with
      | None => None
      | Some (ROk x) => match child (n_c1 a) with
                        | None => None
                        | Some (ROk y) => Some (ROk (Z.max x y + 1))
                        | Some e => Some e
                        end
      | Some e => Some e
      end
    | _ => Some RUB
    end
  end.
(** PrintNodeHeights: the heights level by level, down to level 3; a node's height is the one
    Node_Height gave it.  The queue of the breadth-first search holds one level after the other. *)
Definition kids (nodes : list node) (n : Z) : list Z :=
  match get nodes n with ROk a => filter (fun c => 0 <=? c) [n_c0 a; n_c1 a] | _ => [] end.
Definition levels (nodes : list node) (head : Z) : list (list Z) :=
  let l1 := kids nodes head in let l2 := flat_map (kids nodes) l1 in
  [[head]; l1; l2; flat_map (kids nodes) l2].
Definition print_heights {T} (fuel : nat) (g : mbsp T) : option (res (list (list (option (res Z))))) :=
  match get (g_models g) 0 with
  | ROk m =>
    let head := nth 0 (dm_head m) 0 in
    match height fuel (g_nodes g) head with
    | None => None
    | Some (ROk _) => Some (ROk (filter (fun l => match l with [] => false | _ => true end)
                                  (map (map (height fuel (g_nodes g))) (levels (g_nodes g) head))))
    | Some _ => Some RUB
    end
  | _ => Some RUB
  end.

(** CheckBSPFacesPlanar: the records it reads; whether points are on the plane is not modelled. *)
Definition planar_vertex {T} (g : mbsp T) (f : face) (j : Z) : res Z :=
  e <- get (g_surfedges g) (f_fe f + j) ;;
  v <- (if 0 <=? e then ed <- get (g_edges g) e ;; ROk (e_0 ed) else ed <- get (g_edges g) (- e) ;; ROk (e_1 ed)) ;;
  _ <- get (g_verts g) v ;; ROk v.
Definition planar_face {T} (g : mbsp T) (f : face) : res (list Z) :=
  _ <- get (g_planes g) (f_plane f) ;;
  if f_ne f <? 0 then RUB else rmap (planar_vertex g f) (map Z.of_nat (seq 0 (Z.to_nat (f_ne f)))).
Definition planar {T} (g : mbsp T) : res (list (list Z)) := rmap (planar_face g) (g_faces g).

(** The whole of --check: the warnings, the heights and the vertices looked at. *)
Definition check_all {T} (fuel : nat) (g : mbsp T) : option (res (list warn)) :=
  match check_lists g with
  | ROk ws =>
    match print_heights fuel g with
    | None => None
    | Some (ROk _) => Some (_ <- planar g ;; ROk ws)
    | Some _ => Some RUB
    end
  | _ => Some RUB
  end.
