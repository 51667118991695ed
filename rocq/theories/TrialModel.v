(* Model of SplitBrush (qbsp/brushbsp.cc:409-577) and of CheckSplitBrush (599-748), which tells beforehand whether SplitBrush gives
   two brushes; bspbrush_t::update_bounds (qbsp/brush.cc:922-956).  Numbers are rational: they are only compared. *)
From Coq Require Import List Arith NArith QArith Bool.
Import ListNotations.
Local Open Scope Q_scope.

Definition ltb (a b : Q) : bool := negb (Qle_bool b a).
Definition leb (a b : Q) : bool := Qle_bool a b.
(** mins and maxs of the three axes. *)
Definition box : Type := (Q * Q) * (Q * Q) * (Q * Q).
Definition axis (i : nat) (b : box) : Q * Q := match i with O => fst (fst b) | S O => snd (fst b) | _ => snd b end.
Definition lo (i : nat) (b : box) : Q := fst (axis i b).
Definition hi (i : nat) (b : box) : Q := snd (axis i b).
Definition min2 (a b : Q) : Q := if ltb b a then b else a.
Definition max2 (a b : Q) : Q := if ltb a b then b else a.
Definition join1 (a b : Q * Q) : Q * Q := (min2 (fst a) (fst b), max2 (snd a) (snd b)).
(** aabb3d::unionWith_in_place. *)
Definition union (a b : box) : box := ((join1 (axis 0 a) (axis 0 b), join1 (axis 1 a) (axis 1 b)), join1 (axis 2 a) (axis 2 b)).

Section Trial.
(** Windings: the distances of the points from the plane of the cut; the part behind the plane of a side; whether it is tiny;
    the parts in front of the plane of the cut and behind it; turned around; whether it has points; its bounds.  Windings on the
    stack and on the heap have the same points (C111). *)
Context {W : Type} (dists : W -> list Q) (base : W) (clip_back : W -> nat -> option W) (tiny : W -> bool)
  (clip : W -> option W * option W) (flip : W -> W) (some : W -> bool) (wbox : W -> box).
(** A side: winding and plane number.  Other fields of sides do not matter here. *)
Definition side : Type := W * nat.
(** BrushVolume; BrushMostlyOnSide is SIDE_FRONT; worldextent, microvolume and the bounds of nothing; the number of the plane. *)
Context (volume : list side -> Q) (mostly_front : list side -> bool) (ext micro big : Q) (planenum : nat).

(** d_front and d_back (416-427, 649-658). *)
Definition farthest (l : list side) : Q * Q :=
  fold_left (fun '(f, b) d => (if ltb 0 d && ltb f d then d else f, if ltb d 0 && ltb d b then d else b)) (flat_map (fun s => dists (fst s)) l) (0, 0).
(** The winding of the cut (440-447, 670-677). *)
Fixpoint cut_back (w : option W) (l : list side) : option W :=
  match l, w with s :: l, Some v => cut_back (clip_back v (snd s)) l | _, _ => w end.
(** The sides of the piece in front ([j] = 0) or behind (480-492, 701-716). *)
Definition part (j : bool) (w : W) : option W := if j then fst (clip w) else snd (clip w).
Fixpoint piece (j : bool) (l : list side) : list side :=
  match l with [] => [] | s :: l => match part j (fst s) with Some w => (w, snd s) :: piece j l | None => piece j l end end.
(** this->bounds = {} and the union over the windings. *)
Definition nothing : box := (((big, - big), (big, - big)), (big, - big)).
Definition bounds (l : list side) : box := fold_left (fun b s => if some (fst s) then union b (wbox (fst s)) else b) l nothing.
Definition bad_axis (b : box) (i : nat) : bool := leb (lo i b) (- ext) || leb ext (hi i b) || (leb ext (lo i b) || leb (hi i b) (- ext)).
(** brush.cc:932-950; stack_brush_t::update_bounds (622-632) looks at the first axis three times. *)
Definition in_range (b : box) : bool := negb (existsb (bad_axis b) [0; 1; 2]%nat).
Definition in_range_stack (b : box) : bool := negb (existsb (fun _ => bad_axis b 0) [0; 1; 2]%nat).
(** 505-514, 728-733. *)
Definition beyond (b : box) : bool := existsb (fun j => ltb (lo j b) (- ext) || ltb ext (hi j b)) [0; 1; 2]%nat.
Definition few (l : list side) : bool := (length l <? 3)%nat.
(** The face of the cut: cs.planenum = planenum ^ i ^ 1; turned around in front (539-561, 736-757). *)
Definition lid (j : bool) (m : W) : side := if j then (flip m, Nat.lxor planenum 1) else (m, planenum).

(** SplitBrush: what is in front and what is behind.  Statistics and the warning about huge windings are left out. *)
Definition split_brush (l : list side) : option (list side) * option (list side) :=
  let '(f, b) := farthest l in
  if ltb f (1 # 10) then (None, Some l)
  else if ltb (- (1 # 10)) b then (Some l, None)
  else
    let one_sided := if mostly_front l then (Some l, None) else (None, Some l) in
    match cut_back (Some base) l with
    | None => one_sided
    | Some m =>
        if tiny m then one_sided
        else
          let bogus j := let p := piece j l in few p || negb (in_range (bounds p)) || beyond (bounds p) in
          match bogus true, bogus false with
          | true, true => (None, None)
          | false, true => (Some l, None)
          | true, false => (None, Some l)
          | false, false =>
              let get j := let p := piece j l ++ [lid j m] in if ltb (volume p) micro then None else Some p in
              (get true, get false)
          end
    end.

(** CheckSplitBrush. *)
Definition check_split (l : list side) : bool :=
  let '(f, b) := farthest l in
  if ltb f (1 # 10) then false
  else if ltb (- (1 # 10)) b then false
  else
    match cut_back (Some base) l with
    | None => false
    | Some m =>
        if tiny m then false
        else
          let good j := let p := piece j l in negb (few p) && in_range_stack (bounds p) && negb (beyond (bounds p)) in
          good true && good false && negb (ltb (volume (piece true l ++ [lid true m])) micro) && negb (ltb (volume (piece false l ++ [lid false m])) micro)
    end.
End Trial.
