(* Questions about points that the tools ask of a loaded BSP: common/bsputils.cc:257-494
   (Light_PointInSolid, BSP_FindFacesAtPoint, BSP_FindLeafAtPoint, BSP_FindClipnodeAtPoint,
   BSP_FindContentsAtPoint), 760-777 (BSP_VisitAllLeafs), 1151-1175 (ClusterToLeafnumsMap),
   light/trace.cc:32-40 (Light_PointInLeaf), light/entities.cc:1058-1084 (FixLightOnFace),
   light/ltface.cc:295-323 (Light_PointInAnySolid), 371-407 (the jitter of samples in solid).
   Real numbers stand for float and double (no rounding, no values that are not numbers). *)
From Coq Require Import Reals List ZArith Bool.
From Verif Require Import WindClipModel.
Import ListNotations.
Open Scope R_scope.

(** What a question can do: give an answer, stop with an error (FError, Error, Q_assert, .at()),
    read outside an array, or go deeper than the given bound (in C++: without end). *)
Inductive ans (A : Type) : Type := Got (a : A) | Throws | Undef | Deep.
Arguments Got {A} _. Arguments Throws {A}. Arguments Undef {A}. Arguments Deep {A}.
Definition abind {A B} (x : ans A) (f : A -> ans B) : ans B :=
  match x with Got a => f a | Throws => Throws | Undef => Undef | Deep => Deep end.

(** dplane_t (include/common/bspfile_generic.hh:191-214). *)
Record dplane := mkDP { dp_n : vec; dp_d : R; dp_type : Z }.
(** dplane_t::distance_to_fast (bspfile_generic.hh:203-213). *)
Definition distance_fast (pl : dplane) (p : vec) : R :=
  match dp_type pl with
  | 0%Z => vx p - dp_d pl
  | 1%Z => vy p - dp_d pl
  | 2%Z => vz p - dp_d pl
  | _ => dist_to (mkPl (dp_n pl) (dp_d pl)) p
  end.

(** bsp2_dnode_t without its bounds, mleaf_t: the fields read here.  The faces of a leaf and its
    visofs are read in LightPvsModel.v only. *)
Record dnode := mkDN { dn_plane : Z; dn_front : Z; dn_back : Z; dn_first : Z; dn_num : Z }.
Record dleaf := mkDLf { l_contents : Z; l_cluster : Z }.
(** mface_t: its plane, its side, and the points of its edges in order (Face_VertexAtIndex,
    bsputils.cc:101-111: the lookup through surfedges and edges is not modelled here). *)
Record dface := mkDF { df_plane : Z; df_side : bool; df_pts : list vec }.
(** bsp2_dclipnode_t. *)
Record dclip := mkDC { dc_plane : Z; dc_front : Z; dc_back : Z }.
(** mbsp_t: the lumps read here, and whether the game is Quake II. *)
Record bsp := mkBsp { b_q2 : bool; b_planes : list dplane; b_nodes : list dnode; b_leafs : list dleaf;
                      b_faces : list dface; b_clips : list dclip }.

(** The element at an index, if there is one. *)
Definition at_z {A} (l : list A) (i : Z) : option A := if (i <? 0)%Z then None else nth_error l (Z.to_nat i).

(** BSP_GetLeafFromNodeNum (bsputils.cc:54-66): the number of the leaf. *)
Definition leaf_of (b : bsp) (num : Z) : ans (Z * dleaf) :=
  match at_z (b_leafs b) (-1 - num) with None => Throws | Some l => Got ((-1 - num)%Z, l) end.

(** The node with the given number and its plane; dnodes[] and dplanes[] do not check the index. *)
Definition node_of (b : bsp) (num : Z) : ans (dnode * dplane) :=
  match at_z (b_nodes b) num with
  | None => Undef
  | Some n => match at_z (b_planes b) (dn_plane n) with None => Undef | Some pl => Got (n, pl) end
  end.

(** BSP_FindLeafAtPoint_r (bsputils.cc:429-443). *)
Fixpoint find_leaf (fuel : nat) (b : bsp) (num : Z) (p : vec) : ans (Z * dleaf) :=
  if (num <? 0)%Z then leaf_of b num else
  match fuel with
  | O => Deep
  | S k => abind (node_of b num) (fun '(n, pl) =>
      if Rle_dec 0 (distance_fast pl p) then find_leaf k b (dn_front n) p else find_leaf k b (dn_back n) p)
  end.

(** Light_PointInLeaf (light/trace.cc:32-40): always begins at node 0; dleafs[] is not checked. *)
Fixpoint point_in_leaf_r (fuel : nat) (b : bsp) (num : Z) (p : vec) : ans (Z * dleaf) :=
  if (num <? 0)%Z then match at_z (b_leafs b) (-1 - num) with None => Undef | Some l => Got ((-1 - num)%Z, l) end else
  match fuel with
  | O => Deep
  | S k => abind (node_of b num) (fun '(n, pl) =>
      point_in_leaf_r k b (if Rlt_dec (distance_fast pl p) 0 then dn_back n else dn_front n) p)
  end.
Definition point_in_leaf (fuel : nat) (b : bsp) (p : vec) : ans (Z * dleaf) := point_in_leaf_r fuel b 0 p.

(** The leafs that Light_PointInSolid_r counts as solid (bsputils.cc:259-268): CONTENTS_SOLID is -2
    and CONTENTS_SKY is -6 in Quake, Q2_CONTENTS_SOLID is bit 0 in Quake II. *)
Definition solid_leaf (q2 : bool) (l : dleaf) : bool :=
  if q2 then Z.odd (l_contents l) else ((l_contents l =? -2) || (l_contents l =? -6))%Z.

(** Light_PointInSolid_r (bsputils.cc:257-280); || does not look at the back if the front is solid. *)
Fixpoint point_in_solid (fuel : nat) (b : bsp) (num : Z) (p : vec) : ans bool :=
  if (num <? 0)%Z then abind (leaf_of b num) (fun '(_, l) => Got (solid_leaf (b_q2 b) l)) else
  match fuel with
  | O => Deep
  | S k => abind (node_of b num) (fun '(n, pl) =>
      let d := distance_fast pl p in
      if Rlt_dec (1 / 10) d then point_in_solid k b (dn_front n) p
      else if Rlt_dec d (- (1 / 10)) then point_in_solid k b (dn_back n) p
      else abind (point_in_solid k b (dn_front n) p) (fun s =>
        if s then Got true else point_in_solid k b (dn_back n) p))
  end.

(** BSP_FindClipnodeAtPoint_r (bsputils.cc:450-470): the parent, the side of it (None: -1) and the
    contents.  dclipnodes.at() checks the index, dplanes[] does not. *)
Fixpoint find_clip (fuel : nat) (b : bsp) (parent : Z) (side : option bool) (num : Z) (p : vec) : ans (Z * option bool * Z) :=
  if (num <? 0)%Z then Got (parent, side, num) else
  match fuel with
  | O => Deep
  | S k =>
    match at_z (b_clips b) num with
    | None => Throws
    | Some n =>
      match at_z (b_planes b) (dc_plane n) with
      | None => Undef
      | Some pl => if Rle_dec 0 (distance_fast pl p) then find_clip k b num (Some false) (dc_front n) p
                   else find_clip k b num (Some true) (dc_back n) p
      end
    end
  end.

(** BSP_FindContentsAtPoint (bsputils.cc:485-494); hull 0 or no hull: the contents of the leaf.
    heads: dmodelh2_t::headnode, read by [0] for hull 0 and by .at() otherwise. *)
Definition find_contents (fuel : nat) (b : bsp) (hull : option nat) (heads : list Z) (p : vec) : ans Z :=
  match hull with
  | None | Some O =>
      match nth_error heads 0 with
      | None => Undef
      | Some h => abind (find_leaf fuel b h p) (fun '(_, l) => Got (l_contents l))
      end
  | Some h => match nth_error heads h with
              | None => Throws
              | Some n => abind (find_clip fuel b 0 None n p) (fun '(_, _, c) => Got c)
              end
  end.

(** Face_Plane (bsputils.cc:128-138). *)
Definition face_plane (b : bsp) (f : dface) : ans plane :=
  match at_z (b_planes b) (df_plane f) with
  | None => Throws
  | Some pl => Got (if df_side f then neg_plane (mkPl (dp_n pl) (dp_d pl)) else mkPl (dp_n pl) (dp_d pl))
  end.

(** Face_AllocInwardFacingEdgePlanes and EdgePlanes_PointInside (bsputils.cc:293-320). *)
Definition edge_plane (n : vec) (e : vec * vec) : plane :=
  let normal := cross (normalize (sub (snd e) (fst e))) n in mkPl normal (dot normal (fst e)).
Definition inside_face (n : vec) (f : dface) (p : vec) : bool :=
  forallb (fun e => if Rlt_dec (dist_to (edge_plane n e) p) 0 then false else true) (edges (df_pts f)).

(** The loop over the faces of a node (bsputils.cc:345-366).  want: None for the normal (0,0,0). *)
Fixpoint faces_on (b : bsp) (want : option vec) (p : vec) (first : Z) (num : nat) : ans (list Z) :=
  match num with
  | O => Got []
  | S k =>
    match at_z (b_faces b) first with
    | None => Throws
    | Some f => abind (face_plane b f) (fun fp =>
        let facing := match want with None => true | Some w => if Rlt_dec (dot (p_n fp) w) 0 then false else true end in
        abind (faces_on b want p (first + 1) k) (fun rest =>
          Got (if facing && inside_face (p_n fp) f p then first :: rest else rest)))
    end
  end.

(** BSP_FindFaceAtPoint_r (bsputils.cc:325-371), BSP_FindFacesAtPoint: numbers of faces. *)
Fixpoint find_faces (fuel : nat) (b : bsp) (want : option vec) (num : Z) (p : vec) : ans (list Z) :=
  if (num <? 0)%Z then Got [] else
  match fuel with
  | O => Deep
  | S k => abind (node_of b num) (fun '(n, pl) =>
      let d := distance_fast pl p in
      if Rlt_dec (1 / 10) d then find_faces k b want (dn_front n) p
      else if Rlt_dec d (- (1 / 10)) then find_faces k b want (dn_back n) p
      else abind (faces_on b want p (dn_first n) (Z.to_nat (dn_num n))) (fun here =>
        abind (find_faces k b want (dn_front n) p) (fun fr =>
          abind (find_faces k b want (dn_back n) p) (fun bk => Got (here ++ fr ++ bk)))))
  end.

(** BSP_FindFaceAtPoint (bsputils.cc:381-391). *)
Definition find_face (fuel : nat) (b : bsp) (want : option vec) (num : Z) (p : vec) : ans (option Z) :=
  abind (find_faces fuel b want num p) (fun l => Got (hd_error l)).

(** BSP_VisitAllLeafs_R (bsputils.cc:760-777): the leafs visited, in order; dnodes.at() checks. *)
Fixpoint visit_leafs (fuel : nat) (b : bsp) (num : Z) : ans (list (Z * dleaf)) :=
  if (num <? 0)%Z then abind (leaf_of b num) (fun l => Got [l]) else
  match fuel with
  | O => Deep
  | S k =>
    match at_z (b_nodes b) num with
    | None => Throws
    | Some n => abind (visit_leafs k b (dn_front n)) (fun x => abind (visit_leafs k b (dn_back n)) (fun y => Got (x ++ y)))
    end
  end.

(** AddLeafs and ClusterToLeafnumsMap (bsputils.cc:1151-1175): the list stored for a cluster.  The
    same walk as BSP_VisitAllLeafs with BSP_GetNode, whose Q_assert checks the index. *)
Definition cluster_leafs (fuel : nat) (b : bsp) (head c : Z) : ans (list Z) :=
  abind (visit_leafs fuel b head) (fun l =>
    Got (map fst (filter (fun x => negb (l_cluster (snd x) =? -1)%Z && (l_cluster (snd x) =? c)%Z) l))).

(** FixLightOnFace (light/entities.cc:1058-1084): the point and whether it is outside solid.
    solid: Light_PointInWorld. *)
Definition nudges (d : R) : list vec :=
  [mkV (- d) 0 0; mkV d 0 0; mkV 0 (- d) 0; mkV 0 d 0; mkV 0 0 (- d); mkV 0 0 d].
Fixpoint first_open (solid : vec -> ans bool) (l : list vec) (none : ans (vec * bool)) : ans (vec * bool) :=
  match l with
  | [] => none
  | p :: r => abind (solid p) (fun s => if s then first_open solid r none else Got (p, true))
  end.
Definition fix_light (solid : vec -> ans bool) (d : R) (p : vec) : ans (vec * bool) :=
  first_open solid (p :: map (add p) (nudges d)) (Got (p, false)).

(** modelinfo_t: the head node of the model, its offset, whether its alpha is 1 and its channel. *)
Record minfo := mkMI { mi_head : Z; mi_offset : vec; mi_opaque : bool; mi_channel : Z }.

(** Light_PointInAnySolid (light/ltface.cc:301-323): self is the model of the face, world the head
    of the first model, channel 1 is CHANNEL_MASK_DEFAULT. *)
Fixpoint in_casters (fuel : nat) (b : bsp) (channel : Z) (casters : list minfo) (p : vec) : ans bool :=
  match casters with
  | [] => Got false
  | m :: r =>
      if negb (mi_channel m =? channel)%Z then in_casters fuel b channel r p
      else abind (point_in_solid fuel b (mi_head m) (sub p (mi_offset m))) (fun s =>
        if s && mi_opaque m then Got true else in_casters fuel b channel r p)
  end.
Definition any_solid (fuel : nat) (b : bsp) (world : Z) (self : minfo) (casters : list minfo) (p : vec) : ans bool :=
  abind (point_in_solid fuel b (mi_head self) p) (fun s =>
    if s then Got true
    else abind (if (mi_channel self =? 1)%Z then point_in_solid fuel b world p else Got false) (fun w =>
      if w then Got true else in_casters fuel b (mi_channel self) casters p)).

(** The end of PositionSamplePointOnFace (light/ltface.cc:371-410): the sample point, moved by half
    a unit along each axis if it is in solid; None: the sample is occluded.  off: modelOffset. *)
Definition jitters : list vec :=
  flat_map (fun x => flat_map (fun y => map (fun z => mkV (x / 2) (y / 2) (z / 2)) [-1; 1]) [-1; 1]) [-1; 1].
Fixpoint first_jitter (solid : vec -> ans bool) (off p : vec) (l : list vec) : ans (option vec) :=
  match l with
  | [] => Got None
  | j :: r => abind (solid (add (add p j) off)) (fun s => if s then first_jitter solid off p r else Got (Some (add p j)))
  end.
Definition position_sample (solid : vec -> ans bool) (off p : vec) : ans (option vec) :=
  abind (solid (add p off)) (fun s => if s then first_jitter solid off p jitters else Got (Some p)).
