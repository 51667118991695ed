(* Surface lights of Quake II and bounced light: light/surflight.cc:52-190 (MakeSurfaceLight), light/bounce.cc:77-233,
   light/ltface.cc:1905-2110 (GetSurfaceLighting, culling, LightFace_SurfaceLight), 2607-2682, light/light.cc:780-822.
   Real numbers stand for float (no rounding, no NaN). *)
From Coq Require Import Reals ZArith List Bool.
From Verif Require Import WindClipModel LightValModel.
Import ListNotations.
Open Scope R_scope.

(** ** Emitted light *)
(** surfacelight_t::per_style_t *)
Record style := mkSt { s_level : option nat; s_style : Z; s_omni : bool; s_rescale : bool; s_each : R; s_total : R; s_color : vec }.
(** qv::max *)
Definition max3 (v : vec) : R := Rmax (Rmax (vx v) (vy v)) (vz v).
(** A color brighter than 1 is brought to 1 (surflight.cc:98-100, bounce.cc:95-97). *)
Definition tone (c : vec) : vec := if Rlt_dec 1 (max3 c) then scale (/ max3 c) c else c.
(** MakeBounceLight (77-135): [n] points *)
Definition bounce_style (depth : nat) (st : Z) (c : vec) (area : R) (n : nat) : option style :=
  if Rle_dec (max3 c) 0 then None
  else Some (mkSt (Some depth) st false false (max3 c * area / INR n) (max3 c * area) (tone c)).
(** MakeSurfaceLight (62-190) for a face of area 1 or more: [c] is the color in 0-255, [n] the number of points before
    those in the void are dropped *)
Definition surf_style (st : Z) (omni rescale : bool) (c : vec) (value : R) (area : R) (n : nat) : option style :=
  if Rlt_dec area 1 then None
  else let c := scale value (scale (/ 255) c) in
    if Req_EM_T (max3 c) 0 then None
    else Some (mkSt None st omni rescale (max3 c * area / INR n) (max3 c * area) (tone c)).

(** ** What a sample gets *)
(** SurfaceLight_ColorAtDist (1905-1915) *)
Definition color_at (k intensity : R) (c : vec) (dist clamp : R) : vec :=
  let d := Rmax dist clamp in scale (intensity * k * (1 / (d * d))) c.
(** GetSurfaceLighting (1919-1968); [n]: normal of the emitting surface; [None] for the normal of the sample: not used *)
Definition black : vec := mkV 0 0 0.
Definition lighting (skydist : R) (n : vec) (s : style) (dir : vec) (dist : R) (normal : option vec) (k ksky clamp : R) : vec :=
  let dp1 := dot n dir in
  let dp2 := match normal with Some m => dot (scale (-1) dir) m | None => 1 end in
  let factor :=
    if s_omni s then dp2 * (1 / 2)
    else if Rlt_dec dp1 (- (1 / 100)) then 0
    else if Rlt_dec dp2 (- (1 / 100)) then 0
    else if s_rescale s then (1 / 2 + dp1 * (1 / 2)) * (1 / 2 + dp2 * (1 / 2)) else dp1 * dp2 in
  let factor := Rmax 0 factor in
  if Req_EM_T factor 0 then black
  else scale factor (color_at (if s_omni s then ksky else k) (s_each s) (s_color s) (if s_omni s then dist + skydist else dist) clamp).
(** qv::gate *)
Definition gate (eps : R) (c : vec) : bool :=
  if Rle_dec (vx c) eps then if Rle_dec (vy c) eps then if Rle_dec (vz c) eps then true else false else false else false.
(** SurfaceLight_SphereCull (1970-1991); [apart]: the bounds of -visapprox rays do not meet *)
Definition sphere_cull (apart : bool) (g surfk surfsky : R) (pos : vec) (s : style) (origin : vec) (radius clamp : R) : bool :=
  if apart then true
  else if Req_EM_T g 0 then false
  else gate g (color_at (if s_omni s then surfsky else surfk) (s_total s) (s_color s) (len (sub origin pos) + radius) clamp).
(** SurfaceLight_VisCull (1993-2005): [hidden] is VisCullEntity for a leaf of the emitting face *)
Definition vis_cull {A} (hidden : A -> bool) (leafs : list A) : bool := existsb hidden leafs.
(** The light of one point for one sample (2040-2068); [None]: too little *)
Definition point_sample (g skydist : R) (n pos : vec) (s : style) (p normal : vec) (twosided : bool) (k ksky clamp : R) : option vec :=
  let d := sub p pos in
  let dist := Rmax (1 / 100) (len d) in
  let c := lighting skydist n s (scale (/ dist) d) dist (if twosided then None else Some normal) k ksky clamp in
  if gate g c then None else Some c.

(** ** Bouncing *)
(** A lightmap: its style and bounce_color.  MakeBounceLightsThread (155-199): the colors that are emitted (average of
    the [n] samples times the color of the face) and the lightmaps afterwards. *)
Definition is_black (c : vec) : bool := if Req_EM_T (vx c) 0 then if Req_EM_T (vy c) 0 then if Req_EM_T (vz c) 0 then true else false else false else false.
Definition taken (styled : bool) (lm : Z * vec) : bool := (fst lm =? 0)%Z || styled.
Definition take (styled : bool) (n : R) (face : vec) (lms : list (Z * vec)) : list (Z * vec) * list (Z * vec) :=
  (map (fun lm => (fst lm, mulc (scale (/ n) (snd lm)) face)) (filter (fun lm => taken styled lm && negb (is_black (snd lm))) lms),
   map (fun lm => if taken styled lm then (fst lm, black) else lm) lms).
(** The loop of light.cc:800-821: the passes that are made; [more i] is what MakeBounceLights returns. *)
Fixpoint passes (more : nat -> bool) (i n : nat) : list nat :=
  match n with
  | O => []
  | S n => if more i then i :: passes more (S i) n else []
  end.
(** The settings of a surface that light another one in a pass (2024): [None] for direct light *)
Definition level_eqb (a b : option nat) : bool :=
  match a, b with Some x, Some y => Nat.eqb x y | None, None => true | _, _ => false end.
Definition used (pass : option nat) (ss : list style) : list style := filter (fun s => level_eqb (s_level s) pass) ss.
(** DirectLightFace, IndirectLightFace (2616, 2671) and light.cc:780-783: the passes that add light in a mode of -debug *)
Inductive debugmode := DNone | DBounce | DOther.
Definition lit (m : debugmode) (more : nat -> bool) (n : nat) : list (option nat) :=
  let direct := match m with DNone => [None] | _ => [] end in
  let loop := match m with DOther => [] | _ => passes more 0 n end in
  direct ++ flat_map (fun i => match m with DNone => [Some i] | _ => [] end) loop.

(** any_to_bounce = MakeBounceLightsThread(...) || any_to_bounce by several threads (bounce.cc:226-230).  A thread has the
    results of its faces and, between its load and its store, the value it has read.  Each step is atomic. *)
Record worker := mkW { w_todo : list bool; w_read : option bool }.
Inductive step : bool * list worker -> bool * list worker -> Prop :=
| step_true : forall b l t r, step (b, l ++ mkW (true :: t) None :: r) (true, l ++ mkW t None :: r)
| step_read : forall b l t r, step (b, l ++ mkW (false :: t) None :: r) (b, l ++ mkW t (Some b) :: r)
| step_write : forall b v l t r, step (b, l ++ mkW t (Some v) :: r) (v, l ++ mkW t None :: r).
Inductive steps : bool * list worker -> bool * list worker -> Prop :=
| steps_refl : forall s, steps s s
| steps_cons : forall s t u, step s t -> steps t u -> steps s u.
Definition start (faces : list (list bool)) : bool * list worker := (false, map (fun l => mkW l None) faces).
Definition done (s : bool * list worker) : Prop := forall w, In w (snd s) -> w = mkW [] None.

(** Where the light of a face in a model with an offset comes from: MakeSurfaceLight moves the points of the face
    (118-120), MakeBounceLightsThread does not (146-208). *)
Definition sum (l : list vec) : vec := fold_right add black l.
Definition center (w : list vec) : vec := scale (/ INR (length w)) (sum w).
Definition surf_pos (offset n : vec) (w : list vec) : vec := add (center (map (add offset) w)) n.
Definition bounce_pos (offset n : vec) (w : list vec) : vec := add (center w) n.
