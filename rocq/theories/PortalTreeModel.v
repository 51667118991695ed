(* Portals of a BSP tree: qbsp/portals.cc:103-544, qbsp/tree.cc:55-89. *)
From Coq Require Import List Arith Bool.
Import ListNotations.

(** Nodes and leafs are numbered (they are pointers in the code); None is the node outside of the world. *)
Inductive ptree := PLeaf (id : nat) | PNode (id : nat) (detail : bool) (f b : ptree).
Definition pid (t : ptree) : nat := match t with PLeaf i => i | PNode i _ _ _ => i end.

Section Portals.
Context {W : Type}.
(** buildportal_t (portals.hh:57-66): [bp_on] is onnode, [bp_f] and [bp_b] are nodes[0] and nodes[1]. *)
Record bportal := mkBP { bp_on : option nat; bp_f : option nat; bp_b : option nat; bp_w : W }.

(** Oracles.  [base n]: BaseWindingForNode (portals.cc:201-220).  [cut w p front]: clipping of w by the plane of p, or
    by its inverse (portals.cc:246-251).  [tiny]: WindingIsTiny.  [split n w]: the two parts of w at the plane of n
    (portals.cc:308). *)
Context (base : nat -> option W) (cut : W -> bportal -> bool -> option W) (tiny : W -> bool) (split : nat -> W -> option W * option W).

Definition is_node (e : option nat) (n : nat) : bool := match e with Some k => k =? n | None => false end.

(** MakeNodePortal (portals.cc:230-270): None is Error "mislinked portal". *)
Fixpoint clip_all (n : nat) (w : option W) (l : list bportal) : option (option W) :=
  match l, w with
  | [], _ => Some w
  | _, None => Some None
  | p :: l, Some v => if is_node (bp_f p) n then clip_all n (cut v p true) l
                      else if is_node (bp_b p) n then clip_all n (cut v p false) l
                      else None
  end.
Definition node_winding (n : nat) (l : list bportal) : option (option W) :=
  match clip_all n (base n) l with
  | Some (Some w) => Some (if tiny w then None else Some w)
  | r => r
  end.

(** The two parts without tiny ones (portals.cc:310-318). *)
Definition drop_tiny (w : option W) : option W := match w with Some v => if tiny v then None else w | None => None end.
(** SplitNodePortals (portals.cc:281-364); [f] and [b] are the children.  None is FError "mislinked portal". *)
Fixpoint split_portals (n f b : nat) (l : list bportal) : option (list bportal * list bportal) :=
  match l with
  | [] => Some ([], [])
  | p :: l =>
    let front := is_node (bp_f p) n in
    if front || is_node (bp_b p) n then
      let other := if front then bp_b p else bp_f p in
      let to k w := if front then mkBP (bp_on p) (Some k) other w else mkBP (bp_on p) other (Some k) w in
      match split_portals n f b l with
      | None => None
      | Some (lf, lb) =>
        match drop_tiny (fst (split n (bp_w p))), drop_tiny (snd (split n (bp_w p))) with
        | None, None => Some (lf, lb)
        | None, Some _ => Some (lf, to b (bp_w p) :: lb)
        | Some _, None => Some (to f (bp_w p) :: lf, lb)
        | Some wf, Some wb => Some (to f wf :: lf, to b wb :: lb)
        end
      end
    else None
  end.

(** Where portals end: leafs, and with [vis] nodes that separate detail (portals.cc:452, 481). *)
Definition stops (vis : bool) (t : ptree) : bool := match t with PLeaf _ => true | PNode _ d _ _ => vis && d end.

(** ClipNodePortalsToTree_r (portals.cc:446-467). *)
Fixpoint clip_tree (vis : bool) (t : ptree) (l : list bportal) : option (list bportal) :=
  match l with
  | [] => Some []
  | _ =>
    match t with
    | PLeaf _ => Some l
    | PNode n d f b =>
      if vis && d then Some l
      else match split_portals n (pid f) (pid b) l with
           | None => None
           | Some (lf, lb) => match clip_tree vis f lf, clip_tree vis b lb with
                              | Some x, Some y => Some (x ++ y)
                              | _, _ => None
                              end
           end
    end
  end.

(** MakeTreePortals_r (portals.cc:476-528).  The two tasks share nothing but a counter. *)
Fixpoint tree_portals (vis : bool) (t : ptree) (l : list bportal) : option (list bportal) :=
  match t with
  | PLeaf _ => Some l
  | PNode n d f b =>
    if vis && d then Some l
    else
      match node_winding n l, split_portals n (pid f) (pid b) l with
      | Some nw, Some (lf, lb) =>
        match tree_portals vis f lf, tree_portals vis b lb with
        | Some rf, Some rb =>
          match nw with
          | None => Some (rf ++ rb)
          | Some w =>
            match clip_tree vis f [mkBP (Some n) (Some (pid f)) (Some (pid b)) w] with
            | None => None
            | Some half => match clip_tree vis b half with Some on => Some (rf ++ rb ++ on) | None => None end
            end
          end
        | _, _ => None
        end
      | _, _ => None
      end
  end.
(** MakeHeadnodePortals (portals.cc:129-183): six portals between the tree and the outside; [side i] is set_plane's
    result for the i-th plane.  The windings are parameters: FError "portal winding clipped away" is not modelled. *)
Definition head_portals (head : nat) (side : nat -> bool) (w : nat -> W) : list bportal :=
  map (fun i => if side i then mkBP None None (Some head) (w i) else mkBP None (Some head) None (w i)) (seq 0 6).
(** MakeTreePortals without CalcTreeBounds (portals.cc:535-553). *)
Definition make_portals (vis : bool) (t : ptree) (side : nat -> bool) (w : nat -> W) : option (list bportal) :=
  tree_portals vis t (head_portals (pid t) side w).
End Portals.
Arguments bportal : clear implicits.

(** ** The lists of portals at nodes *)
(** portal_t: nodes and next; the portals of a tree are numbered in the order of tree.portals. *)
Record lportal := mkLP { lp_f : option nat; lp_b : option nat; lp_nf : option nat; lp_nb : option nat }.
(** node_t::portals for all nodes. *)
Definition heads := option nat -> option nat.
Definition node_eqb (a b : option nat) : bool :=
  match a, b with Some x, Some y => x =? y | None, None => true | _, _ => false end.
Definition set_head (h : heads) (n : option nat) (p : option nat) : heads := fun m => if node_eqb n m then p else h m.
(** AddPortalToNodes (portals.cc:108-120) for a portal that was just created. *)
Definition add_portal (s : list lportal * heads) (f b : option nat) : list lportal * heads :=
  let '(ps, h) := s in
  let i := Some (length ps) in
  let nf := h f in
  let h1 := set_head h f i in
  let nb := h1 b in
  (ps ++ [mkLP f b nf nb], set_head h1 b i).
(** FreeTreePortals and MakePortalsFromBuildportals (tree.cc:61-89, portals.cc:372-383). *)
Definition link_portals (l : list (option nat * option nat)) : list lportal * heads :=
  fold_left (fun s p => add_portal s (fst p) (snd p)) l ([], fun _ => None).
(** The loop over the portals of a node (e.g. portals.cc:395-401): s = (p->nodes[1] == node), p = p->next[s].  None:
    not ended within [fuel] steps. *)
Fixpoint walk (ps : list lportal) (n : option nat) (cur : option nat) (fuel : nat) : option (list nat) :=
  match cur, fuel with
  | None, _ => Some []
  | Some i, S fuel =>
    match nth_error ps i with
    | None => None
    | Some p => option_map (cons i) (walk ps n (if node_eqb (lp_b p) n then lp_nb p else lp_nf p) fuel)
    end
  | Some _, O => None
  end.
