(* Clipping of windings: include/common/polylib.hh:759-803, 880-919, 935-1125, qbsp/brush.cc:260-310.  Real numbers stand
   for double (no rounding). *)
From Coq Require Import Reals List Bool.
Import ListNotations.
Open Scope R_scope.

Record vec := mkV { vx : R; vy : R; vz : R }.
Definition dot (a b : vec) : R := vx a * vx b + vy a * vy b + vz a * vz b.
Definition cross (a b : vec) : vec := mkV (vy a * vz b - vz a * vy b) (vz a * vx b - vx a * vz b) (vx a * vy b - vy a * vx b).
Definition add (a b : vec) : vec := mkV (vx a + vx b) (vy a + vy b) (vz a + vz b).
Definition sub (a b : vec) : vec := mkV (vx a - vx b) (vy a - vy b) (vz a - vz b).
Definition scale (k : R) (a : vec) : vec := mkV (k * vx a) (k * vy a) (k * vz a).
(** qv::normalize: a vector of length 0 is kept. *)
Definition len (a : vec) : R := sqrt (dot a a).
Definition normalize (a : vec) : vec := if Req_EM_T (len a) 0 then a else scale (/ len a) a.

(** qplane3d and distance_to (qvec.hh:802-805). *)
Record plane := mkPl { p_n : vec; p_d : R }.
Definition dist_to (pl : plane) (p : vec) : R := dot p (p_n pl) - p_d pl.
Definition neg_plane (pl : plane) : plane := mkPl (scale (-1) (p_n pl)) (- p_d pl).

(** The side of a point (polylib.hh:892-903). *)
Inductive side := Front | Back | On.
Definition side_of (pl : plane) (eps : R) (p : vec) : side :=
  if Rlt_dec eps (dist_to pl p) then Front else if Rlt_dec (dist_to pl p) (- eps) then Back else On.
Definition count (pl : plane) (eps : R) (s : side) (w : list vec) : nat :=
  length (filter (fun p => match s, side_of pl eps p with Front, Front | Back, Back | On, On => true | _, _ => false end) w).

(** One coordinate of a split point (polylib.hh:986-993). *)
Definition mid1 (n d p1 p2 t : R) : R := if Req_EM_T n 1 then d else if Req_EM_T n (-1) then - d else p1 + t * (p2 - p1).
(** The split point (polylib.hh:981-993). *)
Definition mid (pl : plane) (a b : vec) : vec :=
  let t := dist_to pl a / (dist_to pl a - dist_to pl b) in
  mkV (mid1 (vx (p_n pl)) (p_d pl) (vx a) (vx b) t) (mid1 (vy (p_n pl)) (p_d pl) (vy a) (vy b) t) (mid1 (vz (p_n pl)) (p_d pl) (vz a) (vz b) t).

(** Each point with its successor; sides[size()] is sides[0] (polylib.hh:912-917). *)
Definition edges (w : list vec) : list (vec * vec) := match w with [] => [] | a :: l => combine w (l ++ [a]) end.
(** The points that one step adds to the part on side s (polylib.hh:966-997); s is Front or Back. *)
Definition emit (pl : plane) (eps : R) (s : side) (e : vec * vec) : list vec :=
  let '(a, b) := e in
  match side_of pl eps a, side_of pl eps b with
  | On, _ => [a]
  | Front, Back => match s with Front => [a; mid pl a b] | _ => [mid pl a b] end
  | Front, _ => match s with Front => [a] | _ => [] end
  | Back, Front => match s with Back => [a; mid pl a b] | _ => [mid pl a b] end
  | Back, _ => match s with Back => [a] | _ => [] end
  end.
Definition part (pl : plane) (eps : R) (s : side) (w : list vec) : list vec := flat_map (emit pl eps s) (edges w).

(** clip (polylib.hh:944-1001). *)
Definition clip (pl : plane) (eps : R) (keepon : bool) (w : list vec) : option (list vec) * option (list vec) :=
  let f := count pl eps Front w in
  let b := count pl eps Back w in
  if keepon && (Nat.eqb f 0 && Nat.eqb b 0) then (Some w, None)
  else if Nat.eqb f 0 then (None, Some w)
  else if Nat.eqb b 0 then (Some w, None)
  else (Some (part pl eps Front w), Some (part pl eps Back w)).
(** clip_front (polylib.hh:1016-1066). *)
Definition clip_front (pl : plane) (eps : R) (keepon : bool) (w : list vec) : option (list vec) :=
  let f := count pl eps Front w in
  let b := count pl eps Back w in
  if keepon && (Nat.eqb f 0 && Nat.eqb b 0) then Some w
  else if Nat.eqb f 0 then None
  else if Nat.eqb b 0 then Some w
  else Some (part pl eps Front w).
(** clip_back (polylib.hh:1080-1130). *)
Definition clip_back (pl : plane) (eps : R) (keepon : bool) (w : list vec) : option (list vec) :=
  let f := count pl eps Front w in
  let b := count pl eps Back w in
  if keepon && (Nat.eqb f 0 && Nat.eqb b 0) then None
  else if Nat.eqb f 0 then Some w
  else if Nat.eqb b 0 then None
  else Some (part pl eps Back w).

(** from_plane (polylib.hh:759-803).  FError "no axis found" cannot occur with real numbers. *)
Definition major (n : vec) : nat :=
  if Rlt_dec (Rabs (vx n)) (Rabs (vy n)) then (if Rlt_dec (Rabs (vy n)) (Rabs (vz n)) then 2 else 1)%nat
  else (if Rlt_dec (Rabs (vx n)) (Rabs (vz n)) then 2 else 0)%nat.
Definition from_plane (pl : plane) (extent : R) : list vec :=
  let n := p_n pl in
  let e := match major n with 2%nat => mkV 1 0 0 | _ => mkV 0 0 1 end in
  let up0 := normalize (add e (scale (- dot e n) n)) in
  let org := scale (p_d pl) n in
  let right := scale extent (cross up0 n) in
  let up := scale extent up0 in
  [add (sub org right) up; add (add org right) up; sub (add org right) up; sub (sub org right) up].

(** The winding of a plane that is clipped by planes in turn (qbsp/brush.cc:273-284, portals.cc:203-217). *)
Fixpoint clip_all (eps : R) (pls : list plane) (w : option (list vec)) : option (list vec) :=
  match pls, w with
  | pl :: pls, Some v => clip_all eps pls (clip_front pl eps false v)
  | _, _ => w
  end.
(** One side of CreateBrushWindings (qbsp/brush.cc:271-310): [others] are the planes of the other sides that are no bevels.
    Undefined: an empty optional is dereferenced. *)
Inductive side_winding := Winding (w : list vec) | NoWinding | Undefined.
Definition too_far (extent : R) (p : vec) : bool :=
  if Rlt_dec extent (Rabs (vx p)) then true else if Rlt_dec extent (Rabs (vy p)) then true else if Rlt_dec extent (Rabs (vz p)) then true else false.
Definition brush_side (extent eps : R) (pl : plane) (others : list plane) : side_winding :=
  match clip_all eps (map neg_plane others) (Some (from_plane pl extent)) with
  | Some w => if existsb (too_far extent) w then Undefined else Winding w
  | None => NoWinding
  end.
