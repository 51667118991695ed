(* Writing the sides of decompiled brushes: common/decompile.cc.  Real numbers stand for float and double. *)
From Coq Require Import Reals List ZArith Bool Arith.
From Verif Require Import WindClipModel DecompModel.
Import ListNotations.
Open Scope R_scope.

(** qv::MakeTangentAndBitangentUnnormalized (qvec.hh:556-590); major is qv::indexOfLargestMagnitudeComponent. *)
Definition axis (k : nat) : vec := match k with O => mkV 1 0 0 | S O => mkV 0 1 0 | _ => mkV 0 0 1 end.
Definition tangents (n : vec) : vec * vec :=
  let a := major n in
  let t := cross n (axis ((a + 1) mod 3)) in
  let b := cross n (axis ((a + 2) mod 3)) in
  if Rlt_dec (dot (cross t b) n) 0 then (b, t) else (t, b).
(** NormalDistanceToThreePoints (decompile.cc:112-120). *)
Definition three_points (pl : plane) : vec * vec * vec :=
  let '(t, b) := tangents (p_n pl) in
  let p := scale (p_d pl) (p_n pl) in
  (p, add p b, add p t).
(** compiled_brush_t::write (169-172): the offset is added to the points. *)
Definition moved (o : option vec) (p : vec * vec * vec) : vec * vec * vec :=
  match o with None => p | Some o => let '(a, b, c) := p in (add a o, add b o, add c o) end.
(** planepoints::plane (99-106), the same as that of the .map reader. *)
Definition points_plane (p : vec * vec * vec) : plane :=
  let '(a, b, c) := p in
  let n := normalize (cross (sub a b) (sub c b)) in
  mkPl n (dot b n).

(** texdef_valve_t(texvecf) (69-88), one of the two rows: axis, scale and shift. *)
Record valve := mkVa { v_axis : vec; v_scale : R; v_shift : R }.
Definition valve_of (row : vec * R) : valve :=
  mkVa (normalize (fst row)) (if Req_EM_T (len (fst row)) 0 then 0 else 1 / len (fst row)) (snd row).
(** texdef_valve_t(normal) (54-66): both rows. *)
Definition default_axes (n : vec) : vec * vec :=
  let a := normalize (cross (match major n with 2%nat => mkV 0 1 0 | _ => mkV 0 0 1 end) n) in
  (a, normalize (cross a n)).
(** write (174-176). *)
Definition shifted (o : option vec) (v : valve) : valve :=
  match o with None => v | Some o => mkVa (v_axis v) (v_scale v) (v_shift v - dot o (v_axis v)) end.
(** What qbsp makes of a row: set_texinfo (mapfile.cc:299-308), and for a model with an origin brush at o (qbsp/map.cc:3286). *)
Definition read_row (v : valve) : vec * R := (scale (/ v_scale v) (v_axis v), v_shift v).
Definition origin_row (o : vec) (row : vec * R) : vec * R := (fst row, snd row + dot o (fst row)).
(** The plane (qbsp/map.cc:3292-3293). *)
Definition origin_plane (o : vec) (pl : plane) : plane := mkPl (p_n pl) (p_d pl - dot (p_n pl) o).

(** The origin brush (1334-1356), with the offset added when written. *)
Definition origin_planes : list plane :=
  [mkPl (mkV (-1) 0 0) 8; mkPl (mkV 0 (-1) 0) 8; mkPl (mkV 0 0 (-1)) 8; mkPl (mkV 0 0 1) 8; mkPl (mkV 0 1 0) 8; mkPl (mkV 1 0 0) 8].

(** ** Names for sides without a face (1289-1331). Names are numbers; skip is DefaultSkipTexture, dflt DefaultTextureForContents. *)
Section names.
Context (skip dflt : Z).
Definition closer (k : nat) (n : vec) (best : option (R * Z)) (s : nat * (Z * vec)) : option (R * Z) :=
  let '(j, (nm, m)) := s in
  if (j =? k)%nat then best else if (nm =? skip)%Z then best
  else let d := dot (scale (-1) n) m in
       match best with
       | None => Some (d, nm)
       | Some (b, _) => if Rlt_dec b d then Some (d, nm) else best
       end.
Definition closest (k : nat) (n : vec) (sides : list (Z * vec)) : Z :=
  match fold_left (closer k n) (combine (seq 0 (length sides)) sides) None with Some (_, nm) => nm | None => dflt end.
Fixpoint clean (todo k : nat) (sides : list (Z * vec)) : list (Z * vec) :=
  match todo with
  | O => sides
  | S todo =>
    match nth_error sides k with
    | None => sides
    | Some (nm, n) => clean todo (S k) (if (nm =? skip)%Z then put k (closest k n sides, n) sides else sides)
    end
  end.
Definition clean_names (sides : list (Z * vec)) : list (Z * vec) := clean (length sides) 0 sides.
End names.
