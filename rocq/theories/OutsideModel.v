(* Outside filling, leak lines and detail filling (qbsp/outside.cc).

   Leafs are numbered in tree order; a field of all leafs is a function from leaf numbers (leaf
   pointers are never dangling here). The doubly linked portal list of a leaf is the list of its portal numbers.
   The side of a point on a node plane is an argument (comparison with 0 of the distance; a NaN
   distance behaves like 0). Log output, leak files and statistics are not modelled. *)
From Coq Require Import List Arith NArith ZArith Bool.
Import ListNotations.
From Verif Require Import TreeModel.

(** portal_t (include/qbsp/portals.hh): has an onnode; the two nodes, None for the outside node; plane. *)
Record gportal := mkGP { gp_on : bool; gp_n0 : option nat; gp_n1 : option nat; gp_plane : nat }.

(** The portal graph of a tree: number of leafs, node_t::portals of each leaf, the portals, and
    the portals of tree.outside_node. *)
Record pgraph := mkPG { pg_leafs : nat; pg_chain : nat -> list nat; pg_portal : nat -> gportal; pg_outside : list nat }.

(** Assignment to one element. *)
Definition fset {A} (f : nat -> A) (k : nat) (v : A) : nat -> A := fun x => if x =? k then v else f x.

Definition is_node (a : option nat) (v : nat) : bool := match a with Some w => w =? v | None => false end.

(** "side = (portal->nodes[0] == node); portal->nodes[side]". *)
Definition across (p : gportal) (v : nat) : option nat := if is_node (gp_n0 p) v then gp_n1 p else gp_n0 p.

Section Fill.
Context {C : Type}.

(** LeafSealsMap / LeafSealsForDetailFill (39-57) of a portal's node; the outside node is solid. *)
Definition seals_at (seals : C -> bool) (contents : nat -> C) (a : option nat) : bool :=
  match a with Some v => seals (contents v) | None => true end.

(** OutsideFill_Passable, DetailFill_Passable (118-136). *)
Definition passable (seals : C -> bool) (contents : nat -> C) (p : gportal) : bool :=
  gp_on p && negb (seals_at seals contents (gp_n0 p)) && negb (seals_at seals contents (gp_n1 p)).

(** The neighbours pushed in the loops 186-194 and 586-594, in order. *)
Fixpoint pushed (pass : gportal -> bool) (g : pgraph) (v : nat) (ps : list nat) : list nat :=
  match ps with
  | [] => []
  | p :: r => if pass (pg_portal g p)
              then match across (pg_portal g p) v with Some w => w :: pushed pass g v r | None => pushed pass g v r end
              else pushed pass g v r
  end.
Definition neighbours (pass : gportal -> bool) (g : pgraph) (v : nat) : list nat := pushed pass g v (pg_chain g v).

(** PointInLeaf (75-102). *)
Fixpoint point_in_leaf {P} (side : P -> comparison) (kind : nat -> bool) (prefer : bool) (t : tree P nat) : nat :=
  match t with
  | Leaf l => l
  | Node p a b =>
    match side p with
    | Gt => point_in_leaf side kind prefer a
    | Lt => point_in_leaf side kind prefer b
    | Eq => let f := point_in_leaf side kind prefer a in
            let k := point_in_leaf side kind prefer b in
            if Bool.eqb prefer (kind f) then f else k
    end
  end.

(** BFSFloodFillFromOccupiedLeafs (565-597), the loop; the field [occupied] is 0 for unvisited leafs. *)
Fixpoint occ_loop (fuel : nat) (nbr : nat -> list nat) (occ : nat -> nat) (q : list (nat * nat)) : option (nat -> nat) :=
  match q with
  | [] => Some occ
  | (v, d) :: q' =>
    match fuel with
    | O => None
    | S f => if occ v =? 0 then occ_loop f nbr (fset occ v d) (q' ++ map (fun w => (w, d + 1)) (nbr v))
             else occ_loop f nbr occ q'
    end
  end.

(** FloodFillLeafsFromVoid (148-196), the loop with its set of visited nodes. *)
Fixpoint void_loop (fuel : nat) (nbr : nat -> list nat) (visited : nat -> bool) (outd : nat -> Z) (q : list (nat * nat)) : option (nat -> Z) :=
  match q with
  | [] => Some outd
  | (v, d) :: q' =>
    match fuel with
    | O => None
    | S f => if visited v then void_loop f nbr visited outd q'
             else void_loop f nbr (fset visited v true) (fset outd v (Z.of_nat d)) (q' ++ map (fun w => (w, d + 1)) (nbr v))
    end
  end.

(** Enough steps for the two loops: every queue entry is a start or a neighbour pushed once. *)
Definition flood_fuel (nbr : nat -> list nat) (n : nat) (starts : nat) : nat :=
  starts + list_sum (map (fun v => length (nbr v)) (seq 0 n)).

Definition flood_occupied (pass : gportal -> bool) (g : pgraph) (starts : list nat) : option (nat -> nat) :=
  occ_loop (flood_fuel (neighbours pass g) (pg_leafs g) (length starts)) (neighbours pass g) (fun _ => 0) (map (fun v => (v, 1)) starts).

Definition flood_void (pass : gportal -> bool) (g : pgraph) (start : nat) : option (nat -> Z) :=
  void_loop (flood_fuel (neighbours pass g) (pg_leafs g) 1) (neighbours pass g) (fun _ => false) (fun _ => (-1)%Z) [(start, 0)].

(** "side = (portals->nodes[0] == &outside_node); fillnode = portals->nodes[side]" for the first
    portal of the outside node (157-160, 719-720); None: no portal, or the node is the outside node. *)
Definition fill_node (g : pgraph) : option nat :=
  match pg_outside g with
  | [] => None
  | p :: _ => match gp_n0 (pg_portal g p) with None => gp_n1 (pg_portal g p) | Some v => Some v end
  end.

(** A failed assertion, or a value. *)
Inductive ares (A : Type) := A_ok (a : A) | A_assert | A_fuel.
Arguments A_ok {A}. Arguments A_assert {A}. Arguments A_fuel {A}.

(** The inner loops 225-240 and 618-633: the neighbour with the least number below [best], and the
    assertions on each neighbour. [val] is outside_distance or occupied, [lo] its least valid value. *)
Fixpoint best_step (pass : gportal -> bool) (g : pgraph) (val : nat -> Z) (lo : Z) (v : nat) (ps : list nat)
    (best : option (nat * nat)) (bestval : Z) : ares (option (nat * nat)) :=
  match ps with
  | [] => A_ok best
  | p :: r =>
    if pass (pg_portal g p) then
      match across (pg_portal g p) v with
      | None => A_assert
      | Some w => if w =? v then A_assert
                  else if (val w <? lo)%Z then A_assert
                  else if (val w <? bestval)%Z then best_step pass g val lo v r (Some (w, p)) (val w)
                  else best_step pass g val lo v r best bestval
      end
    else best_step pass g val lo v r best bestval
  end.

(** The outer loops of FindPortalsToVoid (205-251) and MakeLeakLine (599-648): the portals passed
    and the last leaf. *)
Fixpoint descend (fuel : nat) (pass : gportal -> bool) (g : pgraph) (val : nat -> Z) (lo : Z) (v : nat) : ares (list nat * nat) :=
  if (val v =? lo)%Z then A_ok ([], v)
  else match fuel with
  | O => A_fuel
  | S f =>
    match best_step pass g val lo v (pg_chain g v) None (val v) with
    | A_ok (Some (w, p)) =>
      match descend f pass g val lo w with
      | A_ok (l, e) => A_ok (p :: l, e)
      | A_assert => A_assert
      | A_fuel => A_fuel
      end
    | A_ok None => A_assert
    | A_assert => A_assert
    | A_fuel => A_fuel
    end
  end.

(** A map entity: its origin is (nearly) zero, IsNofillEntity, the side of its origin on a plane. *)
Record fent P := mkFE { fe_zero : bool; fe_nofill : bool; fe_side : P -> comparison }.

(** MarkOccupiedLeafs (346-376) from entity number [i] on. *)
Fixpoint mark_occupied {P} (seals : C -> bool) (contents : nat -> C) (prefer : bool) (t : tree P nat)
    (i : nat) (es : list (fent P)) (occupant : nat -> option nat) : nat -> option nat :=
  match es with
  | [] => occupant
  | e :: r =>
    if fe_zero _ e || fe_nofill _ e then mark_occupied seals contents prefer t (S i) r occupant
    else let l := point_in_leaf (fe_side _ e) (fun v => seals (contents v)) prefer t in
      if seals (contents l) then mark_occupied seals contents prefer t (S i) r occupant
      else match occupant l with
           | Some _ => mark_occupied seals contents prefer t (S i) r occupant
           | None => mark_occupied seals contents prefer t (S i) r (fset occupant l (Some i))
           end
  end.

(** FindOccupiedLeafs (378-404). *)
Definition find_occupied {P} (t : tree P nat) (occupant : nat -> option nat) : list nat :=
  filter (fun v => match occupant v with Some _ => true | None => false end) (tleafs t).

(** The search for the occupied leaf closest to the void (734-747). *)
Fixpoint best_leak (outd : nat -> Z) (ls : list nat) (best : option nat) (bestd : option Z) : option nat :=
  match ls with
  | [] => best
  | v :: r => if (outd v =? -1)%Z then best_leak outd r best bestd
              else if match bestd with None => true | Some b => (outd v <? b)%Z end then best_leak outd r (Some v) (Some (outd v))
              else best_leak outd r best bestd
  end.

(** OutLeafsToSolid_R (480-509), FillDetailEnclosedLeafsToDetailSolid_R (516-540): the contents afterwards. *)
Definition out_leafs (seals : C -> bool) (solid : C) (skip : nat -> bool) (contents : nat -> C) : nat -> C :=
  fun v => if skip v then contents v else if seals (contents v) then contents v else solid.

Inductive fres := F_assert | F_fuel | F_crash   (* null portal list of the outside node *)
  | F_empty                                      (* no entities: nothing done *)
  | F_leak (ent : nat) (line : list nat)         (* leak: nothing filled *)
  | F_filled (contents : nat -> C).

(** FillOutside (680-811) up to the marking of brush sides. [es] are entities 1, 2, ...;
    [inside]: filltype is INSIDE or AUTO. *)
Definition fill_outside {P} (seals : C -> bool) (solid : C) (inside prefer : bool) (g : pgraph) (t : tree P nat)
    (es : list (fent P)) (contents : nat -> C) : fres :=
  let occupant := mark_occupied seals contents prefer t 1 es (fun _ => None) in
  let starts := find_occupied t occupant in
  let pass := passable seals contents in
  match starts with
  | [] => F_empty
  | _ :: _ =>
    if inside then
      match flood_occupied pass g starts with
      | None => F_fuel
      | Some occ =>
        match fill_node g with
        | None => F_crash
        | Some f =>
          if 0 <? occ f then
            match descend (occ f) pass g (fun v => Z.of_nat (occ v)) 1 f with
            | A_assert => F_assert
            | A_fuel => F_fuel
            | A_ok (line, e) => match occupant e with Some i => F_leak i (rev line) | None => F_assert end
            end
          else F_filled (out_leafs seals solid (fun v => 0 <? occ v) contents)
        end
      end
    else
      match fill_node g with
      | None => F_crash
      | Some f =>
        if seals (contents f) then F_assert
        else match flood_void pass g f with
        | None => F_fuel
        | Some outd =>
          match best_leak outd starts None None with
          | None => F_filled (out_leafs seals solid (fun v => (outd v =? -1)%Z) contents)
          | Some b =>
            match occupant b with
            | None => F_assert
            | Some i => match descend (Z.to_nat (outd b)) pass g outd 0 b with
                        | A_assert => F_assert
                        | A_fuel => F_fuel
                        | A_ok (line, _) => F_leak i line
                        end
            end
          end
        end
      end
  end.

(** FillDetail (831-858) up to the marking of brush sides. [dseals]: LeafSealsForDetailFill. *)
Definition fill_detail {P} (seals dseals : C -> bool) (dsolid : C) (prefer : bool) (g : pgraph) (t : tree P nat)
    (es : list (fent P)) (contents : nat -> C) : fres :=
  let occupant := mark_occupied seals contents prefer t 1 es (fun _ => None) in
  let starts := find_occupied t occupant in
  match starts with
  | [] => F_empty
  | _ :: _ =>
    match flood_occupied (passable dseals contents) g starts with
    | None => F_fuel
    | Some occ => F_filled (out_leafs dseals dsolid (fun v => 0 <? occ v) contents)
    end
  end.

(* ------------------------------------------------------------------------------------------- *)
(** ** Brush side visibility (408-471) *)

(** A side of a brush: the map brush side it comes from, if any, and its positive plane. *)
Record bside := mkBS { bs_source : option nat; bs_plane : nat }.

(** MarkBrushSidesInvisible (408-421); [hint] of the map brush side. *)
Definition mark_invisible (hint : nat -> bool) (brushes : list (list bside)) (vis : nat -> bool) : nat -> bool :=
  fold_left (fun v s => match bs_source s with Some k => fset v k (hint k) | None => v end) (concat brushes) vis.

(** The loops over the brushes and sides of a neighbouring leaf (453-466). *)
Definition mark_sides (same : nat -> nat -> bool) (plane : nat) (sides : list bside) (vis : nat -> bool) : nat -> bool :=
  fold_left (fun v s => match bs_source s with Some k => if same (bs_plane s) plane then fset v k true else v | None => v end) sides vis.

(** One leaf (439-470); the outside node has no original brushes. *)
Definition mark_leaf (same : nat -> nat -> bool) (dseals : C -> bool) (contents : nat -> C) (g : pgraph)
    (orig : nat -> list (list bside)) (v : nat) (vis : nat -> bool) : nat -> bool :=
  if dseals (contents v) then vis
  else fold_left (fun vi p => match across (pg_portal g p) v with
                              | Some w => mark_sides same (gp_plane (pg_portal g p)) (concat (orig w)) vi
                              | None => vi end) (pg_chain g v) vis.

(** MarkVisibleBrushSides_R (430-471). *)
Definition mark_visible {P} (same : nat -> nat -> bool) (dseals : C -> bool) (contents : nat -> C) (g : pgraph)
    (orig : nat -> list (list bside)) (t : tree P nat) (vis : nat -> bool) : nat -> bool :=
  fold_left (fun vi v => mark_leaf same dseals contents g orig v vi) (tleafs t) vis.

End Fill.
Arguments A_ok {A}. Arguments A_assert {A}. Arguments A_fuel {A}.
