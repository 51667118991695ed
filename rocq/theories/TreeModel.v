(* The qbsp tree after tree building: leaf and cluster numbering, the portal file's cluster table,
   pruning, and export into the flat arrays of the BSP file.

   Not modelled: bounds, faces on nodes, areas, brush lists of exported leafs. Indices are
   natural numbers (the code uses int; more than 2^31 elements are out of reach). *)
From Coq Require Import List Arith NArith ZArith Bool.
Import ListNotations.
From Verif Require Import Base ParserModel StreamModel PrtModel.

(** node_t (include/qbsp/tree.hh, qbsp/brushbsp.hh): a leaf or a node with two children. *)
Inductive tree (N L : Type) := Leaf (l : L) | Node (d : N) (a b : tree N L).
Arguments Leaf {N L}. Arguments Node {N L}.

Fixpoint tleafs {N L} (t : tree N L) : list L :=
  match t with Leaf l => [l] | Node _ a b => tleafs a ++ tleafs b end.

(** A portal as seen from one of its nodes: whether this node is nodes[0], whether it has a
    winding, whether Portal_VisFlood lets vis through. *)
Record vportal := mkVP { vp_id : nat; vp_first : bool; vp_wind : bool; vp_flood : bool }.

(** nodedata_t: plane number, detail_separator; node_t::portals. *)
Record nodeD := mkND { nd_plane : nat; nd_detail : bool; nd_portals : list vportal }.

Section WithContents.
Context {C : Type}.

(** leafdata_t: contents, the output numbers of the faces ExportLeaf lists (qbsp/writebsp.cc:191-206),
    node_t::portals. *)
Record leafD := mkLD { lf_contents : C; lf_marks : list nat; lf_portals : list vportal }.

(** is_any_solid of the target game. *)
Variable solid : C -> bool.

Definition lsolid (l : leafD) : bool := solid (lf_contents l).

(* ------------------------------------------------------------------------------------------- *)
(** ** Numbering (qbsp/prtfile.cc:136-194) *)

(** portal_state_t (136-142). *)
Record pstats := mkPS { st_leafs : nat; st_clusters : nat; st_portals : nat; st_detail : bool }.

(** CountPortals (144-159). *)
Definition count_portals (ps : list vportal) : nat := length (filter (fun p => vp_first p && vp_flood p) ps).

(** A numbered leaf: visleafnum and viscluster ([None] is -1). *)
Record nleaf := mkNL { nl_leaf : leafD; nl_num : option nat; nl_cluster : option nat }.

(** A numbered node: viscluster is set only on the top detail separators. *)
Record nnode := mkNN { nn_node : nodeD; nn_cluster : option nat }.

(** NumberLeafs_r (169-194); [cluster] is [None] for a negative argument. *)
Fixpoint number (t : tree nodeD leafD) (s : pstats) (cluster : option nat) : tree nnode nleaf * pstats :=
  match t with
  | Node d a b =>
    let '(cl, c1, s1) :=
      match cluster with
      | None => if nd_detail d
                then (Some (st_clusters s), Some (st_clusters s),
                      mkPS (st_leafs s) (S (st_clusters s)) (st_portals s + count_portals (nd_portals d)) true)
                else (None, None, s)
      | Some _ => (None, cluster, s)
      end in
    let '(a', s2) := number a s1 c1 in
    let '(b', s3) := number b s2 c1 in
    (Node (mkNN d cl) a' b', s3)
  | Leaf l =>
    if lsolid l then (Leaf (mkNL l None None), s)
    else
      let n := count_portals (lf_portals l) in
      match cluster with
      | None => (Leaf (mkNL l (Some (st_leafs s)) (Some (st_clusters s))),
                 mkPS (S (st_leafs s)) (S (st_clusters s)) (st_portals s + n) (st_detail s))
      | Some c => (Leaf (mkNL l (Some (st_leafs s)) (Some c)),
                   mkPS (S (st_leafs s)) (st_clusters s) (st_portals s + n) (st_detail s))
      end
  end.

Definition number_tree (t : tree nodeD leafD) : tree nnode nleaf * pstats := number t (mkPS 0 0 0 false) None.

(** WritePortals_r (49-107): the ids of the portals printed, in order. *)
Definition printed (ps : list vportal) : list nat :=
  map vp_id (filter (fun p => vp_wind p && vp_first p && vp_flood p) ps).

Fixpoint write_portals (t : tree nodeD leafD) : list nat :=
  match t with
  | Node d a b => if nd_detail d then printed (nd_portals d) else write_portals a ++ write_portals b
  | Leaf l => if lsolid l then [] else printed (lf_portals l)
  end.

Definition optZ (o : option nat) : Z := match o with Some n => Z.of_nat n | None => (-1)%Z end.

(** WritePTR2ClusterMapping_r (109-134): [None] is the internal error.  Leafs that are not solid are
    numbered, so the text of visleafnum is that of a natural number. *)
Fixpoint cluster_table (t : tree nnode nleaf) (vc : Z) : option (bytes * Z) :=
  match t with
  | Node _ a b =>
    match cluster_table a vc with
    | Some (x, v1) => match cluster_table b v1 with Some (y, v2) => Some (x ++ y, v2) | None => None end
    | None => None
    end
  | Leaf l =>
    if lsolid (nl_leaf l) then Some ([], vc)
    else
      let same := (optZ (nl_cluster l) =? vc)%Z in
      let vc1 := if same then vc else (vc + 1)%Z in
      if (optZ (nl_cluster l) =? vc1)%Z
      then Some ((if same then [] else [45; 49; 10]%N) ++
                 (match nl_num l with Some n => print_nat n | None => [45; 49]%N end) ++ [sp], vc1)
      else None
  end.

(** The end of WritePortalfile (249-253): the table, the check, the last line. *)
Definition write_table (t : tree nnode nleaf) (clusters : nat) : option bytes :=
  match cluster_table t 0 with
  | Some (x, v) => if (v =? Z.of_nat clusters - 1)%Z then Some (x ++ [45; 49; 10]%N) else None
  | None => None
  end.

(* ------------------------------------------------------------------------------------------- *)
(** ** Pruning (qbsp/tree.cc:113-153) *)

(** [wall]: is_detail_wall; [mksolid]: create_solid_contents(). The brush list of the merged leaf
    is modelled separately ([merge_brushes]); markfaces are not set yet (MakeMarkFaces runs
    later), so the leaf made by make_leaf() starts with none. *)
Variable wall : C -> bool.
Variable mksolid : C.
Variable q2 : bool.

Definition any_solid_leaf (t : tree nodeD leafD) : bool :=
  match t with Leaf l => lsolid l | Node _ _ _ => false end.

Fixpoint prune (t : tree nodeD leafD) : tree nodeD leafD :=
  match t with
  | Leaf l => if negb q2 && wall (lf_contents l) then Leaf (mkLD mksolid (lf_marks l) (lf_portals l)) else Leaf l
  | Node d a b =>
    let a' := prune a in
    let b' := prune b in
    if any_solid_leaf a' && any_solid_leaf b' then Leaf (mkLD mksolid [] (nd_portals d)) else Node d a' b'
  end.

(** The leaf a point ends in; [side p] tells whether the point is in front of plane [p]. *)
Fixpoint locate {L} (side : nat -> bool) (t : tree nodeD L) : L :=
  match t with Leaf l => l | Node d a b => if side (nd_plane d) then locate side a else locate side b end.

(* ------------------------------------------------------------------------------------------- *)
(** ** Export (qbsp/writebsp.cc) *)

(** A map plane, and the plane as written (doubles become floats). *)
Context {P Q : Type}.
Variable narrow : P -> Q.

(** contents_to_native of the contents remapped for export; [None] when the remapped contents are
    not valid (an FError).  For clip hulls contents_to_native of the contents as they are. *)
Variable export_contents : C -> option Z.
Variable native : C -> option Z.

Record dnode := mkDN { dn_plane : nat; dn_c0 : Z; dn_c1 : Z }.
Record dleaf := mkDL { dl_contents : Z; dl_first : nat; dl_count : nat }.

(** The parts of map and map.bsp that the export functions touch. *)
Record xst := mkX { x_planes : list (P * option nat); x_dplanes : list Q; x_nodes : list dnode;
  x_leafs : list dleaf; x_marks : list nat; x_clip : list dnode }.

(** Outcome: value; FError, failed assertion or exception; access out of bounds. *)
Inductive xres (A : Type) := X_ok (a : A) | X_error | X_UB.
Arguments X_ok {A}. Arguments X_error {A}. Arguments X_UB {A}.

Definition xbind {A B} (x : xres A) (f : A -> xres B) : xres B :=
  match x with X_ok a => f a | X_error => X_error | X_UB => X_UB end.

(** ExportMapPlane (40-54). *)
Definition export_plane (n : nat) (s : xst) : xres (nat * xst) :=
  match nth_error (x_planes s) n with
  | None => X_UB
  | Some (_, Some k) => X_ok (k, s)
  | Some (p, None) =>
    let k := length (x_dplanes s) in
    match upd (x_planes s) n (p, Some k) with
    | None => X_UB
    | Some pl => X_ok (k, mkX pl (x_dplanes s ++ [narrow p]) (x_nodes s) (x_leafs s) (x_marks s) (x_clip s))
    end
  end.

(** ExportLeaf (164-224), bounds, area, cluster and brush range left out. *)
Definition export_leaf (l : leafD) (s : xst) : xres xst :=
  match export_contents (lf_contents l) with
  | None => X_error
  | Some c => X_ok (mkX (x_planes s) (x_dplanes s) (x_nodes s)
                      (x_leafs s ++ [mkDL c (length (x_marks s)) (length (lf_marks l))])
                      (x_marks s ++ lf_marks l) (x_clip s))
  end.

Definition set_nodes (s : xst) (n : list dnode) : xst :=
  mkX (x_planes s) (x_dplanes s) n (x_leafs s) (x_marks s) (x_clip s).

Definition set_clip (s : xst) (n : list dnode) : xst :=
  mkX (x_planes s) (x_dplanes s) (x_nodes s) (x_leafs s) (x_marks s) n.

(** ExportDrawNodes (234-280) for a node; for a leaf the part of the parent's loop that deals with
    it (248-259).  The result is what the parent stores as child.  The node is reserved first and
    its fields, which nobody reads in between, are filled in at the end. *)
Fixpoint export_draw (t : tree nodeD leafD) (s : xst) : xres (Z * xst) :=
  match t with
  | Leaf l =>
    if negb q2 && lsolid l then X_ok ((-1)%Z, s)
    else xbind (export_leaf l s) (fun s1 => X_ok ((- (Z.of_nat (length (x_leafs s)) + 1))%Z, s1))
  | Node d a b =>
    let k := length (x_nodes s) in
    xbind (export_plane (nd_plane d) (set_nodes s (x_nodes s ++ [mkDN 0 0 0]))) (fun '(p, s1) =>
    xbind (export_draw a s1) (fun '(c0, s2) =>
    xbind (export_draw b s2) (fun '(c1, s3) =>
    if ((c0 =? -1) && (c1 =? -1) || (c0 =? c1))%Z then X_error
    else match upd (x_nodes s3) k (mkDN p c0 c1) with
         | Some n => X_ok (Z.of_nat k, set_nodes s3 n)
         | None => X_UB
         end)))
  end.

(** The entity-level ExportDrawNodes (287-316): headnode[0], visleafs, state. *)
Definition export_model (t : tree nodeD leafD) (s : xst) : xres (Z * nat * xst) :=
  let head := Z.of_nat (length (x_nodes s)) in
  let n0 := length (x_leafs s) in
  match t with
  | Leaf l => xbind (export_leaf l s) (fun s1 => X_ok (head, length (x_leafs s1) - n0, s1))
  | Node _ _ _ => xbind (export_draw t s) (fun '(_, s1) => X_ok (head, length (x_leafs s1) - n0, s1))
  end.

(** ExportClipNodes (114-136). *)
Fixpoint export_clip (t : tree nodeD leafD) (s : xst) : xres (Z * xst) :=
  match t with
  | Leaf l => match native (lf_contents l) with Some c => X_ok (c, s) | None => X_error end
  | Node d a b =>
    let k := length (x_clip s) in
    xbind (export_clip a (set_clip s (x_clip s ++ [mkDN 0 0 0]))) (fun '(c0, s1) =>
    xbind (export_clip b s1) (fun '(c1, s2) =>
    xbind (export_plane (nd_plane d) s2) (fun '(p, s3) =>
    match upd (x_clip s3) k (mkDN p c0 c1) with
    | Some n => X_ok (Z.of_nat k, set_clip s3 n)
    | None => X_UB
    end)))
  end.

(** BSP_FindLeafAtPoint_r (common/bsputils.cc:429-448): the index of the leaf.  [front q]: the
    point's distance to written plane [q] is not negative.  [None]: out of bounds (or more than
    [fuel] nodes deep). *)
Fixpoint find_leaf (fuel : nat) (front : Q -> bool) (s : xst) (n : Z) : option nat :=
  if (n <? 0)%Z then Some (Z.to_nat (- n - 1))
  else match fuel with
       | O => None
       | S f => match nth_error (x_nodes s) (Z.to_nat n) with
                | None => None
                | Some d => match nth_error (x_dplanes s) (dn_plane d) with
                            | None => None
                            | Some q => find_leaf f front s (if front q then dn_c0 d else dn_c1 d)
                            end
                end
       end.

(** BSP_FindClipnodeAtPoint_r (common/bsputils.cc:450-471): the contents. *)
Fixpoint find_contents (fuel : nat) (front : Q -> bool) (dp : list Q) (clip : list dnode) (n : Z) : option Z :=
  if (n <? 0)%Z then Some n
  else match fuel with
       | O => None
       | S f => match nth_error clip (Z.to_nat n) with
                | None => None
                | Some d => match nth_error dp (dn_plane d) with
                            | None => None
                            | Some q => find_contents f front dp clip (if front q then dn_c0 d else dn_c1 d)
                            end
                end
       end.
End WithContents.

Arguments leafD : clear implicits.
Arguments nleaf : clear implicits.
Arguments xst : clear implicits.
Arguments X_ok {A}. Arguments X_error {A}. Arguments X_UB {A}.

(** bsp29_dclipnode_t::downcast and upcast (common/bspfile_q1.cc:144-157); the int16 is kept as the
    unsigned 16-bit pattern. *)
Definition downcast (v : Z) : option Z :=
  if ((v <? -15) || (v >? 65520))%Z then None else Some (if (v <? 0)%Z then v + 65536 else v)%Z.
Definition upcast (u : Z) : Z := if (u >? 65520)%Z then (u - 65536)%Z else u.

Definition downcast_node (d : dnode) : option dnode :=
  match downcast (dn_c0 d), downcast (dn_c1 d) with
  | Some a, Some b => Some (mkDN (dn_plane d) a b) | _, _ => None end.
Definition upcast_node (d : dnode) : dnode := mkDN (dn_plane d) (upcast (dn_c0 d)) (upcast (dn_c1 d)).

Fixpoint all_some {A} (l : list (option A)) : option (list A) :=
  match l with
  | [] => Some []
  | Some x :: l' => match all_some l' with Some r => Some (x :: r) | None => None end
  | None :: _ => None
  end.

(** The clipnode lump written in the 16-bit format and read back. *)
Definition clip16 (clip : list dnode) : option (list dnode) :=
  match all_some (map downcast_node clip) with Some l => Some (map upcast_node l) | None => None end.

(** The merged brush list of ConvertNodeToLeaf (qbsp/tree.cc:88-106): [sorted] is the result of
    std::sort (any ordering the comparison allows), then std::unique drops a pointer equal to its
    predecessor. *)
Fixpoint unique (l : list nat) : list nat :=
  match l with
  | [] => []
  | x :: l' => match l' with
               | [] => [x]
               | y :: _ => if Nat.eqb x y then unique l' else x :: unique l'
               end
  end.
