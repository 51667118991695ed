(* bsputil --scale: planes, nodes, clipnodes, faces, texture axes, bounds and the light grid header
   (bsputil/bsputil.cc:598-688, 939-1170).
   Simplification: float and double arithmetic is replaced by exact rationals.  The division by the
   length in [normalize] is a positive factor [nrm], an arbitrary function of the vector; the search of
   the plane hash is an arbitrary function [find]. *)
From Coq Require Import List Arith ZArith QArith Qabs Qround Qminmax Bool.
Import ListNotations.
From Verif Require Import NumCastModel.
Local Open Scope Q_scope.

(** include/common/qvec.hh: vectors of three components, operators (180-330). *)
Record V := mkV { c0 : Q; c1 : Q; c2 : Q }.
Definition vadd (a b : V) : V := mkV (c0 a + c0 b) (c1 a + c1 b) (c2 a + c2 b).
Definition vsub (a b : V) : V := mkV (c0 a - c0 b) (c1 a - c1 b) (c2 a - c2 b).
Definition vmul (a b : V) : V := mkV (c0 a * c0 b) (c1 a * c1 b) (c2 a * c2 b).
Definition vscl (k : Q) (a : V) : V := mkV (k * c0 a) (k * c1 a) (k * c2 a).
Definition vneg (a : V) : V := mkV (- c0 a) (- c1 a) (- c2 a).
Definition dot (a b : V) : Q := c0 a * c0 b + c1 a * c1 b + c2 a * c2 b.
(** include/common/qvec.hh:322-326 *)
Definition cross (a b : V) : V :=
  mkV (c1 a * c2 b - c2 a * c1 b) (c2 a * c0 b - c0 a * c2 b) (c0 a * c1 b - c1 a * c0 b).
Definition comp (a : V) (i : nat) : Q := match i with O => c0 a | 1%nat => c1 a | _ => c2 a end.
Definition unit (i : nat) : V :=
  match i with O => mkV 1 0 0 | 1%nat => mkV 0 1 0 | _ => mkV 0 0 1 end.
Definition vmap (f : Q -> Q) (a : V) : V := mkV (f (c0 a)) (f (c1 a)) (f (c2 a)).
Definition vmin (a b : V) : V := mkV (Qmin (c0 a) (c0 b)) (Qmin (c1 a) (c1 b)) (Qmin (c2 a) (c2 b)).
Definition vmax (a b : V) : V := mkV (Qmax (c0 a) (c0 b)) (Qmax (c1 a) (c1 b)) (Qmax (c2 a) (c2 b)).

Definition Qltb (a b : Q) : bool := negb (Qle_bool b a).

(** include/common/qvec.hh:537-553 *)
Definition largest (v : V) : nat := fst (
  fold_left (fun (s : nat * Q) i => if Qltb (snd s) (Qabs (comp v i)) then (i, Qabs (comp v i)) else s)
    [0; 1; 2]%nat (0%nat, 0)).

(** include/common/qvec.hh:555-592 *)
Definition tangents (n : V) : V * V :=
  let axis := largest n in
  let a := unit ((axis + 1) mod 3) in
  let b := unit ((axis + 2) mod 3) in
  let t := cross n a in
  let bt := cross n b in
  if Qltb (dot (cross t bt) n) 0 then (bt, t) else (t, bt).

(** include/common/bspfile_generic.hh:191-216: normal, distance, type; [-plane] keeps the type. *)
Record plane := mkPl { pn : V; pd : Q; pt : Z }.
Definition pneg (p : plane) : plane := mkPl (vneg (pn p)) (- pd p) (pt p).

(** The distance used by the tree walks (include/common/bspfile_generic.hh:201-215). *)
Definition dist_fast (p : plane) (x : V) : Q :=
  if (pt p =? 0)%Z then c0 x - pd p
  else if (pt p =? 1)%Z then c1 x - pd p
  else if (pt p =? 2)%Z then c2 x - pd p
  else dot x (pn p) - pd p.

(** bsputil/bsputil.cc:609-617 *)
Definition three_points (p : plane) : V * V * V :=
  let tb := tangents (pn p) in
  let p0 := vscl (pd p) (pn p) in
  (p0, vadd p0 (snd tb), vadd p0 (fst tb)).

Section Scale.
  Variable nrm : V -> Q.
  Variable find : list plane -> plane -> option nat.

  (** include/common/qvec.hh:455-460: a vector of length 0 is left as it is. *)
  Definition normalize (v : V) : V :=
    if Qeq_bool (dot v v) 0 then v else vscl (nrm v) v.

  (** bsputil/bsputil.cc:597-607 *)
  Definition plane_of (t : V * V * V) : V * Q :=
    let '(a, b, c) := t in
    let n := normalize (cross (vsub a b) (vsub c b)) in
    (n, dot b n).

  (** The number of negative factors (989). *)
  Definition flips (s : V) : nat :=
    ((if Qltb (c0 s) 0 then 1 else 0) + (if Qltb (c1 s) 0 then 1 else 0) + (if Qltb (c2 s) 0 then 1 else 0))%nat.

  (** One plane (1007-1018): the points are reversed when any factor is negative. *)
  Definition scale_plane (s : V) (p : plane) : plane :=
    let '(a, b, c) := three_points p in
    let a := vmul a s in let b := vmul b s in let c := vmul c s in
    let r := plane_of (if (flips s =? 0)%nat then (a, b, c) else (c, b, a)) in
    mkPl (fst r) (snd r) (pt p).

  (** planelist_t::add_plane (627-657): the plane and its negation, the one with the positive component
      first; a negative type indexes outside the normal. *)
  Definition add_plane (l : list plane) (p : plane) : res (list plane * nat) :=
    let k := Z.rem (pt p) 3 in
    if (k <? 0)%Z then RUB
    else if Qltb (comp (pn p) (Z.to_nat k)) 0
    then ROk (l ++ [pneg p; p], S (length l))
    else ROk (l ++ [p; pneg p], length l).

  (** planelist_t::add_or_find_plane (680-688) *)
  Definition add_or_find (l : list plane) (p : plane) : res (list plane * nat) :=
    match find l p with Some i => ROk (l, i) | None => add_plane l p end.

  (** The loop over the planes (1003-1025): the new planes and the new number of each plane. *)
  Fixpoint rebuild (s : V) (ps : list plane) (l : list plane) : res (list plane * list nat) :=
    match ps with
    | [] => ROk (l, [])
    | p :: ps => rbind (add_or_find l (scale_plane s p)) (fun r =>
                 rbind (rebuild s ps (fst r)) (fun q => ROk (fst q, snd r :: snd q)))
    end.

  (** [plane_remap[i]] of an unordered_map: a missing key gives 0 (1061, 1071, 1075). *)
  Definition remap (m : list nat) (i : Z) : nat := if (i <? 0)%Z then O else nth (Z.to_nat i) m O.

  (** Nodes and clipnodes: plane and children. *)
  Record node := mkNode { nd_plane : Z; nd_front : Z; nd_back : Z }.

  (** 1061-1066 *)
  Definition scale_node (m : list nat) (n : node) : node :=
    let r := remap m (nd_plane n) in
    if Nat.odd r then mkNode (Z.of_nat (r - 1)) (nd_back n) (nd_front n)
    else mkNode (Z.of_nat r) (nd_front n) (nd_back n).

  (** Faces: plane, side, first surfedge and number of surfedges. *)
  Record face := mkFace { fc_plane : Z; fc_side : bool; fc_first : nat; fc_num : nat }.

  (** std::reverse on a part of a vector (993-996); outside the vector it is undefined. *)
  Definition reverse_part (l : list Z) (first n : nat) : res (list Z) :=
    if (first + n <=? length l)%nat
    then ROk (firstn first l ++ rev (firstn n (skipn first l)) ++ skipn (first + n) l)
    else RUB.
  Fixpoint reverse_faces (fs : list face) (l : list Z) : res (list Z) :=
    match fs with
    | [] => ROk l
    | f :: fs => rbind (reverse_part l (fc_first f) (fc_num f)) (reverse_faces fs)
    end.
  Definition scale_surfedges (s : V) (fs : list face) (l : list Z) : res (list Z) :=
    if Nat.odd (flips s) then reverse_faces fs l else ROk l.

  Record bsp := mkBsp { b_planes : list plane; b_nodes : list node; b_clipnodes : list node;
    b_faces : list face; b_surfedges : list Z; b_verts : list V }.

  (** 984-1077, in the order of the code; clipnodes are not touched. *)
  Definition scale_bsp (s : V) (b : bsp) : res bsp :=
    rbind (scale_surfedges s (b_faces b) (b_surfedges b)) (fun se =>
    rbind (rebuild s (b_planes b) []) (fun r =>
    ROk (mkBsp (fst r) (map (scale_node (snd r)) (b_nodes b)) (b_clipnodes b)
      (map (fun f => mkFace (Z.of_nat (remap (snd r) (fc_plane f))) (fc_side f) (fc_first f) (fc_num f)) (b_faces b))
      se (map (fun v => vmul v s) (b_verts b))))).
End Scale.

(** BSP_FindLeafAtPoint_r and BSP_FindClipnodeAtPoint_r (common/bsputils.cc:429-470): the negative child
    that is reached, [None] when an index is out of range or after [fuel] steps. *)
Fixpoint walk (fuel : nat) (ps : list plane) (ns : list node) (x : V) (n : Z) : option Z :=
  if (n <? 0)%Z then Some n
  else match fuel with
  | O => None
  | S fuel =>
      match nth_error ns (Z.to_nat n) with
      | None => None
      | Some d =>
          if (nd_plane d <? 0)%Z then None
          else match nth_error ps (Z.to_nat (nd_plane d)) with
          | None => None
          | Some p => walk fuel ps ns x (if Qle_bool 0 (dist_fast p x) then nd_front d else nd_back d)
          end
      end
  end.

(** Face_VertexAtIndex (common/bsputils.cc:99-109): the vertex at which a surfedge starts, and the other
    end of the edge. *)
Definition se_start (edges : list (nat * nat)) (e : Z) : option nat :=
  option_map (if (e <? 0)%Z then snd else fst) (nth_error edges (Z.abs_nat e)).
Definition se_end (edges : list (nat * nat)) (e : Z) : option nat :=
  option_map (if (e <? 0)%Z then fst else snd) (nth_error edges (Z.abs_nat e)).
Definition face_edges (l : list Z) (f : face) : list Z := firstn (fc_num f) (skipn (fc_first f) l).

(** Face_Plane (common/bsputils.cc:128-138). *)
Definition face_plane (ps : list plane) (f : face) : option plane :=
  if (fc_plane f <? 0)%Z then None
  else option_map (fun p => if fc_side f then pneg p else p) (nth_error ps (Z.to_nat (fc_plane f))).

(** scaleTexInfo and the same on DECOUPLED_LM (1079-1104, 1124-1139): one row of the texture vectors. *)
Definition scale_row (s : V) (r : V * Q) : V * Q :=
  (mkV (1 / c0 s * c0 (fst r)) (1 / c1 s * c1 (fst r)) (1 / c2 s * c2 (fst r)), snd r).
Definition row_at (r : V * Q) (x : V) : Q := dot (fst r) x + snd r.

(** Bounds of leafs and nodes (1037-1059). *)
Definition scale_bounds (s mins maxs : V) : V * V :=
  let a := vmul mins s in let b := vmul maxs s in
  (vmap (fun q => inject_Z (Qfloor q)) (vmin a b), vmap (fun q => inject_Z (Qceiling q)) (vmax a b)).

(** The header of the light grid (1144-1165): distance of the points, size (kept), position of the
    first point. *)
Definition scale_grid (s dist : V) (size : Z * Z * Z) (mins : V) : V * V :=
  let n := mkV (inject_Z (fst (fst size) - 1)) (inject_Z (snd (fst size) - 1)) (inject_Z (snd size - 1)) in
  let a := vmul mins s in
  let b := vmul (vadd mins (vmul dist n)) s in
  (vmul dist s, vmin a b).
Definition grid_point (dist mins : V) (i : Z * Z * Z) : V :=
  vadd mins (vmul dist (mkV (inject_Z (fst (fst i))) (inject_Z (snd (fst i))) (inject_Z (snd i)))).
