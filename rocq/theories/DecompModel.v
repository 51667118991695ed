(* Decompilation of BSP trees into brushes: common/decompile.cc.  Real numbers stand for float and double. *)
From Coq Require Import Reals List ZArith Bool Arith.
From Verif Require Import WindClipModel BspQueryModel.
Import ListNotations.
Open Scope R_scope.

(** leaf_decompile_task (344-351) for leafs and clipnodes: the planes, facing outward, and the contents. *)
Record task := mkTask { t_planes : list plane; t_contents : Z }.

(** MakeDecompPlane, MakeClipDecompPlane (985-1001); the pointers to nodes are left out. *)
Definition outward (pl : dplane) (front : bool) : plane :=
  let p := mkPl (dp_n pl) (dp_d pl) in if front then neg_plane p else p.

(** DecompileLeaf (785-795): CONTENTS_EMPTY is -1. *)
Definition leaf_task (stack : list plane) (c : Z) : list task := if (c =? -1)%Z then [] else [mkTask stack c].

(** DecompileNode (1008-1032); BSP_GetNode and BSP_GetPlane stop at bad numbers. *)
Fixpoint decompile_node (fuel : nat) (b : bsp) (stack : list plane) (num : Z) : ans (list task) :=
  match fuel with
  | O => Deep
  | S k =>
    match at_z (b_nodes b) num with
    | None => Throws
    | Some n =>
      match at_z (b_planes b) (dn_plane n) with
      | None => Throws
      | Some pl =>
        let side front child :=
          let stack := stack ++ [outward pl front] in
          if (child <? 0)%Z then abind (leaf_of b child) (fun '(_, l) => Got (leaf_task stack (l_contents l)))
          else decompile_node k b stack child in
        abind (side true (dn_front n)) (fun f => abind (side false (dn_back n)) (fun g => Got (f ++ g)))
      end
    end
  end.

(** DecompileClipNode (1045-1067); dclipnodes[] does not check its index. *)
Fixpoint decompile_clip (fuel : nat) (b : bsp) (stack : list plane) (num : Z) : ans (list task) :=
  match fuel with
  | O => Deep
  | S k =>
    match at_z (b_clips b) num with
    | None => Undef
    | Some n =>
      match at_z (b_planes b) (dc_plane n) with
      | None => Throws
      | Some pl =>
        let side front child :=
          let stack := stack ++ [outward pl front] in
          if (child <? 0)%Z then Got (leaf_task stack child) else decompile_clip k b stack child in
        abind (side true (dc_front n)) (fun f => abind (side false (dc_back n)) (fun g => Got (f ++ g)))
      end
    end
  end.

(** AddMapBoundsToStack (1069-1090). *)
Definition bound_planes (mins maxs : vec) : list plane :=
  [mkPl (mkV 1 0 0) (vx maxs); mkPl (mkV (-1) 0 0) (- vx mins);
   mkPl (mkV 0 1 0) (vy maxs); mkPl (mkV 0 (-1) 0) (- vy mins);
   mkPl (mkV 0 0 1) (vz maxs); mkPl (mkV 0 0 (-1)) (- vz mins)].

(** The tasks of a model (1171-1184, 1240-1252): the bounds are those of the head node, or of the model for another hull. *)
Definition decompile_model (fuel : nat) (b : bsp) (mins maxs : vec) (head : Z) : ans (list task) :=
  decompile_node fuel b (bound_planes mins maxs) head.
Definition decompile_hull (fuel : nat) (b : bsp) (mins maxs : vec) (head : Z) : ans (list task) :=
  decompile_clip fuel b (bound_planes mins maxs) head.

(** ** RemoveRedundantPlanes (231-259) *)
Definition del {A} (k : nat) (l : list A) : list A := firstn k l ++ skipn (S k) l.
Fixpoint put {A} (k : nat) (x : A) (l : list A) : list A :=
  match l, k with
  | [], _ => []
  | _ :: t, O => x :: t
  | y :: t, S k => y :: put k x t
  end.
Definition far : R := 10000000.
Definition clipped_away (eps : R) (pl : plane) (others : list plane) : bool :=
  match clip_all eps (map neg_plane others) (Some (from_plane pl far)) with None => true | Some _ => false end.
(** std::remove_if of libstdc++: the elements kept are copied forward in the array that the predicate reads; k is the element
    looked at, res the place for the next one kept, todo the number of elements left. *)
Fixpoint remove_if_loop (eps : R) (todo k res : nat) (arr : list plane) : list plane :=
  match todo with
  | O => firstn res arr
  | S todo =>
    match nth_error arr k with
    | None => firstn res arr
    | Some pl => if clipped_away eps pl (del k arr) then remove_if_loop eps todo (S k) res arr
                 else remove_if_loop eps todo (S k) (S res) (put res pl arr)
    end
  end.
Definition remove_redundant (eps : R) (planes : list plane) : list plane := remove_if_loop eps (length planes) 0 0 planes.

(** ** Brushes with faces (263-503) *)

(** decomp_brush_face_t: the winding and the texinfo of the original face. decomp_brush_side_t. *)
Record face := mkFace { f_w : list vec; f_tex : Z }.
Record bside := mkSide { s_plane : plane; s_faces : list face }.
Definition with_w (f : face) (w : option (list vec)) : list face := match w with None => [] | Some w => [mkFace w (f_tex f)] end.
(** decomp_brush_side_t::clipToPlane (433-452), with that of a face (327-335). *)
Definition front_faces (eps : R) (pl : plane) (fs : list face) : list face := flat_map (fun f => with_w f (fst (clip pl eps false (f_w f)))) fs.
Definition back_faces (eps : R) (pl : plane) (fs : list face) : list face := flat_map (fun f => with_w f (snd (clip pl eps false (f_w f)))) fs.
(** decomp_brush_t::clipToPlane (467-486). *)
Definition brush_front (eps : R) (pl : plane) (br : list bside) : list bside :=
  map (fun s => mkSide (s_plane s) (front_faces eps pl (s_faces s))) br ++ [mkSide (neg_plane pl) []].
Definition brush_back (eps : R) (pl : plane) (br : list bside) : list bside :=
  map (fun s => mkSide (s_plane s) (back_faces eps pl (s_faces s))) br ++ [mkSide pl []].

(** BuildInitialBrush (609-634); each plane comes with the faces of its node that face its way (353-388). *)
Definition build_brush (eps : R) (planes : list (plane * list face)) : list bside :=
  map (fun k => match nth_error planes k with
                | None => mkSide (mkPl (mkV 0 0 0) 0) []
                | Some (pl, fs) => mkSide pl (fold_left (fun fs q => back_faces eps (fst q) fs) (del k planes) fs)
                end) (seq 0 (length planes)).

(** SideNeedsSplitting (686-702) *)
Definition needs_split (s : bside) : bool :=
  match s_faces s with [] => false | f :: t => existsb (fun g => negb (f_tex f =? f_tex g)%Z) t end.
(** SuggestSplit (704-738): edges are the planes through the edges of a winding (MakeInwardFacingEdgePlanes). The plane found
    first among those that make the fewest faces; None: the vector of zeros. *)
Section split.
Context (eps : R) (edges : list vec -> list plane).
Definition better (fs : list face) (best : option (nat * plane)) (pl : plane) : option (nat * plane) :=
  let nf := length (front_faces eps pl fs) in
  let nb := length (back_faces eps pl fs) in
  if (nf =? 0)%nat then best else if (nb =? 0)%nat then best
  else match best with
       | Some (n, _) => if (nf + nb <? n)%nat then Some ((nf + nb)%nat, pl) else best
       | None => Some ((nf + nb)%nat, pl)
       end.
Definition suggest (s : bside) : option plane :=
  option_map snd (fold_left (better (s_faces s)) (flat_map (fun f => edges (f_w f)) (s_faces s)) None).
(** qv::emptyExact of a vector of four numbers. *)
Definition zero_plane (pl : plane) : bool :=
  if Req_EM_T (vx (p_n pl)) 0 then if Req_EM_T (vy (p_n pl)) 0 then if Req_EM_T (vz (p_n pl)) 0 then
    if Req_EM_T (p_d pl) 0 then true else false else false else false else false.
(** SplitDifferentTexturedPartsOfBrush_R (740-762) *)
Fixpoint split_r (fuel : nat) (br : list bside) : ans (list (list bside)) :=
  match fuel with
  | O => Deep
  | S k =>
    match find needs_split br with
    | None => Got [br]
    | Some s =>
      match suggest s with
      | None => Got []
      | Some pl => if zero_plane pl then Got [] else
          abind (split_r k (brush_front eps pl br)) (fun f => abind (split_r k (brush_back eps pl br)) (fun g => Got (f ++ g)))
      end
    end
  end.
End split.

(** ** BuildInitialBrush_Q2 (636-684): from the last plane to the first; away: the planes clipped away so far; flat: whether a winding
    has fewer than three points without the colinear ones. The sides come in reverse order, each with its winding. *)
Section q2.
Context (eps : R) (flat : list vec -> bool).
Definition q2_others (planes : list plane) (away : list nat) (i : nat) : list plane :=
  map snd (filter (fun q => negb (fst q =? i)%nat && negb (existsb (Nat.eqb (fst q)) away)) (combine (seq 0 (length planes)) planes)).
Fixpoint q2_loop (i : nat) (planes : list plane) (away : list nat) : list (plane * list vec) :=
  match i with
  | O => []
  | S i =>
    match nth_error planes i with
    | None => []
    | Some pl =>
      match clip_all eps (map neg_plane (q2_others planes away i)) (Some (from_plane pl far)) with
      | None => q2_loop i planes (i :: away)
      | Some w => if flat w then q2_loop i planes away else (pl, w) :: q2_loop i planes away
      end
    end
  end.
Definition build_brush_q2 (planes : list plane) : list (plane * list vec) := q2_loop (length planes) planes [].
End q2.
