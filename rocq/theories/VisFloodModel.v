(* Model of the base visibility flood, vis/flow.cc:545-645. *)
From Coq Require Import List Arith Bool.
Import ListNotations.
From Verif Require Import Base Dfs.

(** include/vis/vis.hh:134-160: for each leaf the numbers of the portals on it; for each
    portal the leaf it leads into ([visportal_t::leaf]). *)
Record vgraph := { g_leafs : list (list nat); g_dest : list nat }.

(** The leafs SimpleFlood recurses into from [leafnum], in order (vis/flow.cc:560-565).
    [see] is portalsee; bit sets are lists of booleans here (see C08 for leafbits_t).
    [None] = an index out of range. *)
Fixpoint flood_targets (g : vgraph) (see : list bool) (ps : list nat) : option (list nat) :=
  match ps with
  | [] => Some []
  | p :: t =>
    match nth_error see p, flood_targets g see t with
    | Some true, Some r => match nth_error (g_dest g) p with Some d => Some (d :: r) | None => None end
    | Some false, Some r => Some r
    | _, _ => None
    end
  end.
Definition flood_succ (g : vgraph) (see : list bool) (leafnum : nat) : option (list nat) :=
  match nth_error (g_leafs g) leafnum with None => None | Some ps => flood_targets g see ps end.

(** vis/flow.cc:552-566, SimpleFlood on (mightsee, nummightsee); [fuel] bounds the depth. *)
Definition simple_flood (fuel : nat) (g : vgraph) (see : list bool) (s : list bool * nat) (leafnum : nat) :=
  dfs fuel (flood_succ g see) s leafnum.

(** vis/flow.cc:573-645, BasePortalThread without the geometric tests: [see] is the
    portalsee they produce. *)
Definition base_portal (g : vgraph) (see : list bool) (portalnum : nat) : option (list bool * nat) :=
  match nth_error (g_dest g) portalnum with
  | None => None
  | Some leaf => simple_flood (length (g_leafs g)) g see (repeat false (length (g_leafs g)), 0) leaf
  end.
