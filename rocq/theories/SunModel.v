(* Suns, sky domes and lights split by _deviance: light/entities.cc:305-345 (the part of CheckEntityFields
   about samples), 364-392 (Dirt_ResolveFlag, AddSun), 416-505 (SetupSun, SetupSuns), 513-620 (SetupSkyDome,
   SetupSkyDomes), 625-693 (DuplicateEntity, JitterEntity, JitterEntities), 1185-1205 (their order in
   SetupLights).  Real numbers stand for float (no rounding). *)
From Coq Require Import Reals ZArith List Bool.
From Verif Require Import WindClipModel LightValModel.
Import ListNotations.
Open Scope R_scope.

(** The keys of a light_t read here.  le_target: the origin of the entity that MatchTargets found. *)
Record tag := mkTag { t_color : vec; t_dirt : Z; t_anglescale : R; t_style : Z; t_tex : list Z }.
Record lent := mkLE { le_light : R; le_formula : formula; le_dev : R; le_samples : Z; le_sun : bool; le_up : bool; le_down : bool;
                      le_origin : vec; le_mangle : vec; le_target : option vec; le_tag : tag }.
(** sun_t (include/light/light.hh:60-72). *)
Record sun := mkSun { sn_vec : vec; sn_light : R; sn_color : vec; sn_anglescale : R; sn_dirt : bool; sn_style : Z; sn_tex : list Z }.
(** The worldspawn keys and options read here. *)
Record world := mkW { w_dirt : bool; w_addmin : bool; w_anglescale : R; w_samples : Z;
                      w_sun : R; w_suncolor : vec; w_sunvec : vec; w_dev : R; w_sundirt : Z;
                      w_sun2 : R; w_sun2color : vec; w_sun2vec : vec;
                      w_up : R; w_upcolor : vec; w_down : R; w_downcolor : vec; w_domedirt : Z }.

Definition with_light (e : lent) (x : R) : lent :=
  mkLE x (le_formula e) (le_dev e) (le_samples e) (le_sun e) (le_up e) (le_down e) (le_origin e) (le_mangle e) (le_target e) (le_tag e).
Definition with_origin (e : lent) (p : vec) : lent :=
  mkLE (le_light e) (le_formula e) (le_dev e) (le_samples e) (le_sun e) (le_up e) (le_down e) p (le_mangle e) (le_target e) (le_tag e).

(** CheckEntityFields (entities.cc:323-341): samples, deviance and the divided light. *)
Definition divided (addmin : bool) (f : formula) : bool :=
  match f with Inverse | Inverse2 | Infinite | Inverse2A => true | LocalMin => addmin | Linear => false end.
Definition check_samples (addmin : bool) (e : lent) : lent :=
  let s1 := if Rlt_dec 0 (le_dev e) then (if (le_samples e =? 0)%Z then 16%Z else le_samples e) else le_samples e in
  let '(d, s) := if Rle_dec (le_dev e) 0 then (0, 1%Z) else if (s1 <=? 1)%Z then (0, 1%Z) else (le_dev e, s1) in
  mkLE (if divided addmin (le_formula e) then le_light e / IZR s else le_light e) (le_formula e) d s
       (le_sun e) (le_up e) (le_down e) (le_origin e) (le_mangle e) (le_target e) (le_tag e).

(** JitterEntity: copy j takes three random numbers (rnd n is the result of call n of Random()). *)
Definition jit (rnd : nat -> R) (n : nat) (dev : R) (x : R) : R := x + (rnd n * 2 - 1) * dev.
Definition jitter_copy (rnd : nat -> R) (n : nat) (e : lent) : lent :=
  with_origin e (mkV (jit rnd n (le_dev e) (vx (le_origin e))) (jit rnd (n + 1) (le_dev e) (vy (le_origin e)))
                     (jit rnd (n + 2) (le_dev e) (vz (le_origin e)))).
Definition jitter_one (rnd : nat -> R) (n : nat) (e : lent) : list lent :=
  if le_sun e then [] else map (fun j => jitter_copy rnd (n + 3 * j) e) (seq 0 (Z.to_nat (le_samples e - 1))).
Fixpoint jitter_new (rnd : nat -> R) (n : nat) (es : list lent) : list lent :=
  match es with
  | [] => []
  | e :: t => jitter_one rnd n e ++ jitter_new rnd (n + 3 * length (jitter_one rnd n e)) t
  end.
Definition jitter_all (rnd : nat -> R) (n : nat) (es : list lent) : list lent := es ++ jitter_new rnd n es.

(** Dirt_ResolveFlag, AddSun. *)
Definition resolve_dirt (w : world) (d : Z) : bool := if (d =? 1)%Z then true else if (d =? -1)%Z then false else w_dirt w.
Definition add_sun (w : world) (dir : vec) (light : R) (t : tag) : list sun :=
  if Req_EM_T light 0 then []
  else [mkSun (WindClipModel.scale (-16384) (normalize dir)) light (t_color t) (t_anglescale t) (resolve_dirt w (t_dirt t)) (t_style t) (t_tex t)].

(** SetupSun.  at2 is atan2.  The loop that draws two angles compares squares of radians with the
    square of degrees; None: it has not ended after [fuel] rounds. *)
Fixpoint draw (fuel : nat) (rnd : nat -> R) (n : nat) (dev : R) : option (R * R * nat) :=
  match fuel with
  | O => None
  | S k =>
    let rad := dev * PI / 180 in
    let da := (rnd n * 2 - 1) * rad in
    let de := (rnd (n + 1)%nat * 2 - 1) * rad in
    if Rlt_dec (dev * dev) (da * da + de * de) then draw k rnd (n + 2) dev else Some (da, de, (n + 2)%nat)
  end.
Definition tilted (at2 : R -> R -> R) (v : vec) (da de : R) : vec :=
  let d := sqrt (vx v * vx v + vy v * vy v) in
  let angle := at2 (vy v) (vx v) + da in
  let elevation := at2 (vz v) d + de in
  mkV (cos angle * cos elevation) (sin angle * cos elevation) (sin elevation).
Fixpoint sun_more (fuel : nat) (rnd : nat -> R) (at2 : R -> R -> R) (w : world) (count n : nat) (light : R) (v : vec) (dev : R) (t : tag)
  : option (list sun * nat) :=
  match count with
  | O => Some ([], n)
  | S k =>
    match draw fuel rnd n dev with
    | None => None
    | Some (da, de, n) =>
      match sun_more fuel rnd at2 w k n light v dev t with
      | None => None
      | Some (l, n) => Some (add_sun w (tilted at2 v da de) light t ++ l, n)
      end
    end
  end.
Definition setup_sun (fuel : nat) (rnd : nat -> R) (at2 : R -> R -> R) (w : world) (n : nat) (light : R) (v : vec) (dev : R) (t : tag)
  : option (list sun * nat) :=
  let num := if Req_EM_T dev 0 then 1%Z else w_samples w in
  let l := light / IZR num in
  match sun_more fuel rnd at2 w (Z.to_nat num - 1) n l (normalize v) dev t with
  | None => None
  | Some (r, n) => Some ((if (num <? 1)%Z then [] else add_sun w (normalize v) l t) ++ r, n)
  end.

(** SetupSuns: the vector of an entity, the entities, then the two suns of worldspawn. *)
Definition sun_vector (e : lent) : vec :=
  match le_target e with
  | Some p => sub p (le_origin e)
  | None => if Rlt_dec 0 (dot (le_mangle e) (le_mangle e)) then le_mangle e else WindClipModel.scale (-1) (le_origin e)
  end.
Definition is_sun (e : lent) : bool := if le_sun e then (if Rlt_dec 0 (le_light e) then true else false) else false.
Fixpoint ent_suns (fuel : nat) (rnd : nat -> R) (at2 : R -> R -> R) (w : world) (n : nat) (es : list lent) : option (list sun * list lent * nat) :=
  match es with
  | [] => Some ([], [], n)
  | e :: t =>
    match (if is_sun e then setup_sun fuel rnd at2 w n (le_light e) (sun_vector e) (le_dev e) (le_tag e) else Some ([], n)) with
    | None => None
    | Some (s, n) =>
      match ent_suns fuel rnd at2 w n t with
      | None => None
      | Some (s', es', n) => Some (s ++ s', (if is_sun e then with_light e 0 else e) :: es', n)
      end
    end
  end.
Definition world_tag (w : world) (color : vec) (dirt : Z) : tag := mkTag color dirt (w_anglescale w) 0 [].
Definition setup_suns (fuel : nat) (rnd : nat -> R) (at2 : R -> R -> R) (w : world) (n : nat) (es : list lent) : option (list sun * list lent) :=
  match ent_suns fuel rnd at2 w n es with
  | None => None
  | Some (s, es', n) =>
    match setup_sun fuel rnd at2 w n (w_sun w) (w_sunvec w) (w_dev w) (world_tag w (w_suncolor w) (w_sundirt w)) with
    | None => None
    | Some (s1, n) =>
      match (if Req_EM_T (w_sun2 w) 0 then Some ([], n)
             else setup_sun fuel rnd at2 w n (w_sun2 w) (w_sun2vec w) (w_dev w) (world_tag w (w_sun2color w) (w_sundirt w))) with
      | None => None
      | Some (s2, _) => Some (s ++ s1 ++ s2, es')
      end
    end
  end.

(** rint(sqrt(q)) for an integer q, and the number of elevations of a dome. *)
Definition rint_sqrt (q : Z) : Z := let s := Z.sqrt q in (if q - s * s <=? s then s else s + 1)%Z.
Definition elevations (samples : Z) : Z := (Z.max (rint_sqrt ((samples - 1) / 4) + 1) 2 - 1)%Z.
Definition dome_dir (angle elevation : R) : vec := mkV (cos angle * cos elevation) (sin angle * cos elevation) (- sin elevation).
Definition flip (v : vec) : vec := mkV (vx v) (vy v) (- vz v).

(** SetupSkyDome. *)
Definition dome_pair (w : world) (d : vec) (l2 l3 : R) (t2 t3 : tag) : list sun :=
  (if Rlt_dec 0 l2 then add_sun w d l2 t2 else []) ++ (if Rlt_dec 0 l3 then add_sun w (flip d) l3 t3 else []).
Fixpoint dome_row (w : world) (count : nat) (angle step elevation : R) (l2 l3 : R) (t2 t3 : tag) : list sun * R :=
  match count with
  | O => ([], angle)
  | S k => let r := dome_row w k (angle + step) step elevation l2 l3 t2 t3 in
           (dome_pair w (dome_dir angle elevation) l2 l3 t2 t3 ++ fst r, snd r)
  end.
Fixpoint dome_rows (w : world) (rows cols : nat) (es angle step elevation estep : R) (l2 l3 : R) (t2 t3 : tag) : list sun :=
  match rows with
  | O => []
  | S k => let r := dome_row w cols angle step elevation l2 l3 t2 t3 in
           fst r ++ dome_rows w k cols es (snd r + step / es) step (elevation + estep) estep l2 l3 t2 t3
  end.
Definition sky_dome (w : world) (l2 : R) (t2 : tag) (l3 : R) (t3 : tag) : list sun :=
  if (if Rle_dec l2 0 then (if Rle_dec l3 0 then true else false) else false) then [] else
  let es := elevations (w_samples w) in
  let cols := (es * 4)%Z in
  let estep := 90 / IZR (es + 1) * PI / 180 in
  let step := 360 / IZR cols * PI / 180 in
  let num := (cols * es + 1)%Z in
  let v2 := l2 / IZR num in
  let v3 := l3 / IZR num in
  dome_rows w (Z.to_nat es) (Z.to_nat cols) (IZR es) 0 step (estep * (1 / 2)) estep v2 v3 t2 t3 ++
  dome_pair w (mkV 0 0 (-1)) v2 v3 t2 t3.
Definition no_tag : tag := mkTag (mkV 0 0 0) 0 0 0 [].
Definition is_dome (e : lent) : bool := if le_up e || le_down e then (if Rlt_dec 0 (le_light e) then true else false) else false.
Definition ent_dome (w : world) (e : lent) : list sun :=
  if le_up e then sky_dome w (le_light e) (le_tag e) 0 no_tag else sky_dome w 0 no_tag (le_light e) (le_tag e).
Fixpoint ent_domes (w : world) (es : list lent) : list sun * list lent :=
  match es with
  | [] => ([], [])
  | e :: t => let r := ent_domes w t in
              if is_dome e then (ent_dome w e ++ fst r, with_light e 0 :: snd r) else (fst r, e :: snd r)
  end.
Definition setup_domes (w : world) (es : list lent) : list sun * list lent :=
  let r := ent_domes w es in
  (sky_dome w (w_up w) (world_tag w (w_upcolor w) (w_domedirt w)) (w_down w) (world_tag w (w_downcolor w) (w_domedirt w)) ++ fst r, snd r).

(** The whole: keys of the entities, copies, suns, domes.  n0: calls of Random() before. *)
Definition setup (fuel : nat) (rnd : nat -> R) (at2 : R -> R -> R) (w : world) (n0 n1 : nat) (es : list lent) : option (list sun * list lent) :=
  match setup_suns fuel rnd at2 w n1 (jitter_all rnd n0 (map (check_samples (w_addmin w)) es)) with
  | None => None
  | Some (s, l) => let r := setup_domes w l in Some (s ++ fst r, snd r)
  end.
