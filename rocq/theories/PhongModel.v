(* Smoothed normals of faces: light/phong.cc:155-178, 212-225, 268-364, 394-411, 423-670 (CalculateVertexNormals and what reads its
   tables), common/bspfile.cc:180-183, 819-828 (surfflags_may_phong).  Real numbers stand for float and double (no rounding).  Faces
   are numbers into dfaces; the sets of pointers are in the order of these numbers.  Left out: tangents and bitangents, the counts
   printed, the map of planes; texinfo numbers are in range (else the code reads outside of extended_texinfo_flags). *)
From Coq Require Import Reals List Bool Arith ZArith NArith.
From Verif Require Import WindClipModel PolyGeoModel.
Import ListNotations.
Open Scope R_scope.

(** The extended flags of a texinfo that matter here (surfflags_t): angles in degrees. *)
Record pext := mkPE { pe_angle : nat; pe_concave : nat; pe_no : bool; pe_group : Z }.
(** mtexinfo_t: native flags and value. *)
Record ptex := mkPT { pt_flags : N; pt_value : Z }.
(** mface_t: vertex numbers, plane with the side applied (Face_Plane), plane number and side, texinfo. *)
Record pface := mkPF { pf_verts : list nat; pf_plane : plane; pf_num : nat; pf_side : bool; pf_tex : nat }.
Record pmap := mkPM { pm_faces : list pface; pm_ext : list pext; pm_tex : list ptex; pm_pos : nat -> vec; pm_q2 : bool }.

Definition no_face : pface := mkPF [] (mkPl zero 0) 0 false 0.
Definition face (b : pmap) (i : nat) : pface := nth i (pm_faces b) no_face.
Definition ext_of (b : pmap) (f : pface) : pext := nth (pf_tex f) (pm_ext b) (mkPE 0 0 false 0).
Definition tex_of (b : pmap) (f : pface) : ptex := nth (pf_tex f) (pm_tex b) (mkPT 0 0).
Definition points (b : pmap) (f : pface) : list vec := map (pm_pos b) (pf_verts f).

(** The keys _phong and _phong_angle of models (phong.cc:432-447): the angle as a byte, the first face and the number of faces. *)
Definition set_angle (a : nat) (e : pext) : pext := mkPE a (pe_concave e) (pe_no e) (pe_group e).
Fixpoint upd_ext (l : list pext) (k : nat) (a : nat) : list pext :=
  match l, k with
  | [], _ => []
  | e :: r, O => set_angle a e :: r
  | e :: r, S k => e :: upd_ext r k a
  end.
Definition apply_model (fs : list pface) (l : list pext) (m : nat * nat * nat) : list pext :=
  let '(a, first, n) := m in
  if Nat.eqb a 0 then l else fold_left (fun l j => upd_ext l (pf_tex (nth j fs no_face)) a) (seq first n) l.
Definition apply_models (b : pmap) (ms : list (nat * nat * nat)) : pmap :=
  mkPM (pm_faces b) (fold_left (apply_model (pm_faces b)) ms (pm_ext b)) (pm_tex b) (pm_pos b) (pm_q2 b).

(** Q2_FacePhongValue (phong.cc:394-411); Q2_SURF_LIGHT is bit 0. *)
Definition phong_value (b : pmap) (f : pface) : Z :=
  if negb (pe_group (ext_of b f) =? 0)%Z then pe_group (ext_of b f)
  else if negb (pt_value (tex_of b f) =? 0)%Z && negb (N.testbit (pt_flags (tex_of b f)) 0) then pt_value (tex_of b f)
  else 0%Z.
(** phong.cc:471-480, 498-507. *)
Definition angle_of (b : pmap) (f : pface) : nat :=
  if Nat.eqb (pe_angle (ext_of b f)) 0 && negb (phong_value b f =? 0)%Z then 89 else pe_angle (ext_of b f).
Definition concave_of (b : pmap) (f : pface) : nat :=
  if Nat.eqb (pe_concave (ext_of b f)) 0 then angle_of b f else pe_concave (ext_of b f).
Definition wants (b : pmap) (f : pface) : bool :=
  (negb (Nat.eqb (angle_of b f) 0) || negb (Nat.eqb (concave_of b f) 0)) && negb (pe_no (ext_of b f)).
(** surfflags_may_phong: TEX_SPECIAL is bit 0; sky 4, warp 8, trans33 16, trans66 32, flowing 64, nodraw 128. *)
Definition phong_mask (q2 : bool) : N := if q2 then 252%N else 1%N.
Definition may_phong (b : pmap) (f g : pface) : bool :=
  N.eqb (N.land (pt_flags (tex_of b f)) (phong_mask (pm_q2 b))) (N.land (pt_flags (tex_of b g)) (phong_mask (pm_q2 b))).
(** phong.cc:523-536; the distance of a centroid that is NaN is not above 0.1. *)
Definition is_concave (b : pmap) (f g : pface) : bool :=
  match poly_centroid (points b g) with Some c => ltb (1 / 10) (dist_to (pf_plane f) c) | None => false end.
Definition deg2rad (d : nat) : R := INR d * (PI / 180).
Definition threshold (b : pmap) (f g : pface) : nat :=
  if is_concave b f g then Nat.min (concave_of b f) (concave_of b g) else Nat.min (angle_of b f) (angle_of b g).
(** The tests of phong.cc:490-541 for f and a face that shares a vertex. *)
Definition smooths (b : pmap) (f g : pface) : bool :=
  wants b f && wants b g && may_phong b f g && (phong_value b f =? phong_value b g)%Z &&
  leb (cos (deg2rad (threshold b f g))) (dot (p_n (pf_plane f)) (p_n (pf_plane g))).

(** vertsToFaces (phong.cc:453-457): a face once for each time it has the vertex. *)
Definition verts_to_faces (b : pmap) (v : nat) : list nat :=
  flat_map (fun i => map (fun _ => i) (filter (Nat.eqb v) (pf_verts (face b i)))) (seq 0 (length (pm_faces b))).
(** smoothFaces[&f] (phong.cc:486-543): a set, in the order of the faces. *)
Definition walked (b : pmap) (i : nat) : list nat :=
  filter (fun j => negb (Nat.eqb j i) && smooths b (face b i) (face b j)) (flat_map (verts_to_faces b) (pf_verts (face b i))).
Definition neighbours (b : pmap) (i : nat) : list nat :=
  filter (fun j => existsb (Nat.eqb j) (walked b i)) (seq 0 (length (pm_faces b))).
(** FacesSmoothed (phong.cc:212-225). *)
Definition faces_smoothed (b : pmap) (i j : nat) : bool := existsb (Nat.eqb j) (neighbours b i).

(** AngleBetweenVectors, AngleBetweenPoints (phong.cc:155-178). *)
Definition clamp1 (c : R) : R := let c := if ltb c (-1) then -1 else c in if ltb 1 c then 1 else c.
Definition angle_between (d1 d2 : vec) : R :=
  if is0 (len d1 * len d2) then 0 else acos (clamp1 (dot d1 d2 / (len d1 * len d2))).
(** The corners of a face: previous, current and next vertex (phong.cc:591-597). *)
Definition prev_of {A} (l : list A) : list A := match rev l with [] => [] | z :: r => z :: rev r end.
Definition next_of {A} (l : list A) : list A := match l with [] => [] | a :: r => r ++ [a] end.
Definition corners (l : list nat) : list (nat * nat * nat) := combine (combine (prev_of l) l) (next_of l).
(** The contribution of a face: vertex and weight (phong.cc:580-608). *)
Definition weights (b : pmap) (f : pface) : list (nat * R) :=
  map (fun c => let '(p, v, n) := c in
         (v, poly_area (points b f) * angle_between (sub (pm_pos b p) (pm_pos b v)) (sub (pm_pos b n) (pm_pos b v)))) (corners (pf_verts f)).
Definition contribs (b : pmap) (f : pface) (v : nat) : list vec :=
  map (fun x => scale (snd x) (p_n (pf_plane f))) (filter (fun x => Nat.eqb (fst x) v) (weights b f)).
Definition vsum (l : list vec) : vec := fold_left add l zero.
(** smoothedNormals[v] (phong.cc:566-643). *)
Definition smoothed (b : pmap) (i v : nat) : vec :=
  let s := vsum (flat_map (fun j => contribs b (face b j) v) (i :: neighbours b i)) in
  if is0 (len s) then p_n (pf_plane (face b i)) else normalize s.
(** vertex_normals (phong.cc:551-558, 659-668): None for a degenerate face. *)
Definition vertex_normals (b : pmap) (i : nat) : option (list vec) :=
  if Nat.ltb (length (pf_verts (face b i))) 3 then None else Some (map (smoothed b i) (pf_verts (face b i))).
(** GetSurfaceVertexNormal (phong.cc:276-287); the outer None: vector::at throws. *)
Definition surface_normal (b : pmap) (i k : nat) : option vec :=
  match vertex_normals b i with None => Some zero | Some l => nth_error l k end.

(** MakeEdgeToFaceMap (phong.cc:340-364). *)
Definition has_edge (f : pface) (x y : nat) : bool :=
  negb (Nat.eqb x y) && existsb (fun e => Nat.eqb (fst e) x && Nat.eqb (snd e) y) (combine (pf_verts f) (next_of (pf_verts f))).
Definition edge_faces (b : pmap) (x y : nat) : list nat :=
  filter (fun i => has_edge (face b i) x y) (seq 0 (length (pm_faces b))).
(** Face_EdgeIndexSmoothed (phong.cc:289-314) for an edge of the face. *)
Definition edge_smoothed (b : pmap) (i k : nat) : option nat :=
  match nth_error (combine (pf_verts (face b i)) (next_of (pf_verts (face b i)))) k with
  | None => None
  | Some (v0, v1) =>
      find (fun j => negb (Nat.eqb j i) &&
        (faces_smoothed b i j || (Nat.eqb (pf_num (face b j)) (pf_num (face b i)) && Bool.eqb (pf_side (face b j)) (pf_side (face b i)))))
        (edge_faces b v1 v0)
  end.
