(* Model of the table of planes of qbsp: qbsp/map.cc:74-146 (add_plane, find_plane_nonfatal,
   find_plane, add_or_find_plane, get_plane) and qbsp/qbsp.cc:357-403 (qbsp_plane_t::normalize).

   Numbers are integers in units of 1/one: every finite set of doubles becomes a set of
   integers for a suitable unit.  Rounding of [normal - HALF_NORMAL_EPSILON] and of the other
   bounds of the box is not modelled, nor are NaN and infinities. *)
From Coq Require Import ZArith List Bool Arith Lia.
Import ListNotations.
Local Open Scope Z_scope.

(* include/common/qvec.hh:770-800, qplane3: a normal and a distance. *)
Record plane := mkpl { nx : Z; ny : Z; nz : Z; dist : Z }.

(* include/common/qvec.hh:798, operator-. *)
Definition pneg (p : plane) : plane := mkpl (- nx p) (- ny p) (- nz p) (- dist p).

(* include/common/qvec.hh, operator[] of the normal (indices 0, 1, 2). *)
Definition comp (i : nat) (p : plane) : Z :=
  match i with O => nx p | 1%nat => ny p | _ => nz p end.

Definition peqb (p q : plane) : bool :=
  (nx p =? nx q) && (ny p =? ny q) && (nz p =? nz q) && (dist p =? dist q).

(* qbsp/qbsp.hh qbsp_plane_t: the plane and its type; the types are numbered as in
   include/common/bspfile_generic.hh:134-144, PLANE_X = 0 to PLANE_ANYZ = 5. *)
Record qplane := mkq { pl : plane; ty : nat }.

(* State of mapdata_t: planes (map.hh) and plane_hash, a pareto::spatial_map<double, 4, size_t>
   from the four numbers of a plane to its index. *)
Record table := mkt { planes : list qplane; hash : list (plane * nat) }.

Section Table.
Variable one : Z.   (* 1.0 *)
Variable hn : Z.    (* NORMAL_EPSILON * 0.5, map.cc:105 *)
Variable hd : Z.    (* DIST_EPSILON * 0.5, map.cc:106 *)

(* qbsp.cc:359-403 normalize(false).  The loop looks for the first component equal to 1 or -1,
   clears the two others and sets an axial type; otherwise the type is PLANE_ANYX (3) to
   PLANE_ANYZ (5) by the largest component. *)
Definition normalize (p : plane) : qplane :=
  if (nx p =? one) || (nx p =? - one) then mkq (mkpl (nx p) 0 0 (dist p)) 0
  else if (ny p =? one) || (ny p =? - one) then mkq (mkpl 0 (ny p) 0 (dist p)) 1
  else if (nz p =? one) || (nz p =? - one) then mkq (mkpl 0 0 (nz p) (dist p)) 2
  else
    let ax := Z.abs (nx p) in let ay := Z.abs (ny p) in let az := Z.abs (nz p) in
    if (ay <=? ax) && (az <=? ax) then mkq p 3
    else if (ax <=? ay) && (az <=? ay) then mkq p 4
    else mkq p 5.

(* spatial_map::emplace: as for std::map, nothing happens if the key is present. *)
Definition emplace (h : list (plane * nat)) (k : plane) (v : nat) : list (plane * nat) :=
  if existsb (fun e => peqb (fst e) k) h then h else h ++ [(k, v)].

(* map.cc:74-100 add_plane. *)
Definition add_plane (t : table) (p : plane) : nat * table :=
  let n := length (planes t) in
  let a := normalize p in
  let b := normalize (pneg p) in
  let swap := comp (ty a mod 3) (pl a) <? 0 in
  let positive := if swap then b else a in
  let negative := if swap then a else b in
  let h1 := emplace (hash t) (pl positive) n in
  let h2 := emplace h1 (pl negative) (S n) in
  (if swap then S n else n, mkt (planes t ++ [positive; negative]) h2).

(* The box of map.cc:108-112, closed. *)
Definition in_box (p q : plane) : bool :=
  (nx p - hn <=? nx q) && (nx q <=? nx p + hn) &&
  (ny p - hn <=? ny q) && (ny q <=? ny p + hn) &&
  (nz p - hn <=? nz q) && (nz q <=? nz p + hn) &&
  (dist p - hd <=? dist q) && (dist q <=? dist p + hd).

(* map.cc:102-118 find_plane_nonfatal.  find_intersection gives the first entry inside the box
   in the order of the tree of the library, which is left open: [choice] is the rank of the
   entry among those inside the box. *)
Definition find_plane_nonfatal (choice : nat) (t : table) (p : plane) : option nat :=
  match filter (fun e => in_box p (fst e)) (hash t) with
  | [] => None
  | e :: r => Some (snd (nth (choice mod S (length r)) (e :: r) e))
  end.

(* map.cc:132-141 add_or_find_plane. *)
Definition add_or_find (choice : nat) (t : table) (p : plane) : nat * table :=
  match find_plane_nonfatal choice t p with
  | Some i => (i, t)
  | None => add_plane t p
  end.

(* A history: the planes asked for one after the other, with the choices. *)
Fixpoint run (asks : list (nat * plane)) (t : table) : list nat * table :=
  match asks with
  | [] => ([], t)
  | (c, p) :: r =>
      let (i, t1) := add_or_find c t p in
      let (l, t2) := run r t1 in
      (i :: l, t2)
  end.
End Table.

(* map.cc:66-70: a fresh mapdata_t has no planes. *)
Definition empty : table := mkt [] [].
