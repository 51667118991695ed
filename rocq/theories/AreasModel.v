(* Areas and area portals of Quake II maps: qbsp/portals.cc:575-960. *)
From Coq Require Import List Arith Bool Lia.
Import ListNotations.

(** A leaf: [al_ap] its contents include AREAPORTAL, [al_only] they are exactly AREAPORTAL, [al_ent] what
    AreanodeEntityForLeaf (588-605) finds (the entity of the first brush that belongs to a func_areaportal),
    [al_solid] is_any_solid, [al_occ] occupied. *)
Record aleaf := mkAL { al_ap : bool; al_only : bool; al_ent : option nat; al_solid : bool; al_occ : bool }.

(** area of each leaf, portalareas of each entity (include/qbsp/map.hh:141). *)
Record astate := mkA { a_area : nat -> nat; a_pa : nat -> nat * nat }.
Definition upd {A} (f : nat -> A) (k : nat) (v : A) : nat -> A := fun x => if x =? k then v else f x.

(** The part of FloodAreas_r (616-647) for an area portal: area [c] touches the entity. *)
Definition touch (c : nat) (p : nat * nat) : nat * nat :=
  if (fst p =? c) || (snd p =? c) then p
  else if negb (snd p =? 0) then p
  else if negb (fst p =? 0) then (fst p, c) else (c, snd p).

(** FloodAreas_r (612-674).  [nbr v] are the leafs across the portals of [v] for which Portal_EntityFlood holds,
    in the order of the chain; [c] is map.c_areas. *)
Fixpoint flood (lf : nat -> aleaf) (nbr : nat -> list nat) (c : nat) (fuel : nat) (st : astate) (v : nat) : option astate :=
  match fuel with
  | O => None
  | S fuel =>
    if al_ap (lf v) then
      Some (match al_ent (lf v) with
            | None => st
            | Some e => mkA (a_area st) (upd (a_pa st) e (touch c (a_pa st e)))
            end)
    else if negb (a_area st v =? 0) then Some st
    else fold_left (fun o w => match o with None => None | Some s => flood lf nbr c fuel s w end) (nbr v)
           (Some (mkA (upd (a_area st) v c) (a_pa st)))
  end.

(** FindAreas_r (684-710) over the leafs in the order of the tree; the number is map.c_areas. *)
Fixpoint find_areas (lf : nat -> aleaf) (nbr : nat -> list nat) (fuel : nat) (ls : list nat) (r : nat * astate) : option (nat * astate) :=
  match ls with
  | [] => Some r
  | v :: ls =>
    if negb (a_area (snd r) v =? 0) || al_solid (lf v) || negb (al_occ (lf v)) || al_ap (lf v) then find_areas lf nbr fuel ls r
    else match flood lf nbr (S (fst r)) fuel (snd r) v with
         | None => None
         | Some st => find_areas lf nbr fuel ls (S (fst r), st)
         end
  end.

(** SetAreaPortalAreas_r (892-928). *)
Fixpoint set_areas (lf : nat -> aleaf) (ls : list nat) (st : astate) : astate :=
  match ls with
  | [] => st
  | v :: ls =>
    if negb (al_only (lf v)) || negb (a_area st v =? 0) then set_areas lf ls st
    else match al_ent (lf v) with
         | None => set_areas lf ls st
         | Some e => set_areas lf ls (mkA (upd (a_area st) v (fst (a_pa st e))) (a_pa st))
         end
  end.

(** An entity of the map: areaportalnum and portalareas.  dareaportal_t: portalnum, otherarea. *)
Definition aent := (nat * (nat * nat))%type.
Definition dp_of (i : nat) (e : aent) : nat * nat :=
  if fst (snd e) =? i then (fst e, snd (snd e)) else if snd (snd e) =? i then (fst e, fst (snd e)) else (0, 0).
Definition dp_eqb (a b : nat * nat) : bool := (fst a =? fst b) && (snd a =? snd b).
(** The loop over entities for area [i] (970-995). *)
Fixpoint emit_ents (i : nat) (es : list aent) (dps : list (nat * nat)) : list (nat * nat) :=
  match es with
  | [] => dps
  | e :: es => if fst e =? 0 then emit_ents i es dps
               else if existsb (dp_eqb (dp_of i e)) dps then emit_ents i es dps
               else emit_ents i es (dps ++ [dp_of i e])
  end.
(** The loop over areas (966-998): (firstareaportal, numareaportals) and the portals. *)
Fixpoint emit_areas (is : list nat) (es : list aent) (areas : list (nat * nat)) (dps : list (nat * nat)) : list (nat * nat) * list (nat * nat) :=
  match is with
  | [] => (areas, dps)
  | i :: is => let d := emit_ents i es dps in emit_areas is es (areas ++ [(length dps, length d - length dps)]) d
  end.
(** EmitAreaPortals (938-1003): [leaked] is leakfile, antiregions or region; entities are their areaportalnum. *)
Definition emit (leaked : bool) (lf : nat -> aleaf) (nbr : nat -> list nat) (fuel : nat) (ls : list nat) (nums : list nat)
    : option (astate * list (nat * nat) * list (nat * nat)) :=
  let st0 := mkA (fun _ => 0) (fun _ => (0, 0)) in
  if leaked then Some (st0, [(0, 0); (0, 0)], [(0, 0)])
  else match find_areas lf nbr fuel ls (0, st0) with
       | None => None
       | Some (c, st) =>
         let st := set_areas lf ls st in
         let es := map (fun k => (nth k nums 0, a_pa st k)) (seq 0 (length nums)) in
         Some (st, fst (emit_areas (seq 1 c) es [(0, 0)] [(0, 0)]), snd (emit_areas (seq 1 c) es [(0, 0)] [(0, 0)]))
       end.
