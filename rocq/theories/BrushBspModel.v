(* Building BSP trees from brushes and chopping brushes: qbsp/brushbsp.cc.
   Geometry (windings, bounds, volumes, metrics) is an arbitrary oracle. *)
From Coq Require Import List Arith ZArith Bool Lia.
Import ListNotations.
From Verif Require Import NumCastModel.

(** ** Planes, sides and brushes *)

(** Plane numbers come in pairs (qbsp/map.cc:60-140): 2k and 2k+1 are one plane with opposite normals. *)
Definition xor1 (n : nat) : nat := if Nat.even n then S n else Nat.pred n.
(** planenum & ~1. *)
Definition pos (n : nat) : nat := if Nat.even n then n else Nat.pred n.

(** side_t (include/qbsp/brush.hh:35-55): [s_wind] says whether it has a winding, [s_vis] is is_visible()
    (qbsp/brush.cc:50-63), [s_hint] and [s_hintskip] are flags of its texinfo.  [tested] is not kept here, see
    [select_side]. *)
Record side := mkSide { s_plane : nat; s_onnode : bool; s_bevel : bool; s_wind : bool; s_vis : bool; s_hint : bool; s_hintskip : bool }.
(** bspbrush_t (59-98): [b_id] stands for the original brush ([original_brush()]), whose mapbrush says whether
    it is excluded from chopping; contents are numbers, with [b_detail] and [b_solid] for is_any_detail and
    is_any_solid. *)
Record brush := mkBrush { b_id : nat; b_sides : list side; b_cont : nat; b_detail : bool; b_solid : bool; b_nochop : bool }.

(** ** Geometry *)

(** What SplitBrush (407-577) finds out about windings.  [VBack], [VFront]: the brush is returned whole on that
    side (no point in front, no point behind, a tiny winding, or only one side valid: 429-438, 450-457, 526-538).
    [VNone]: no side is valid (521-525).  [VBoth fk bk fok bok]: split; [fk] and [bk] say which sides of the
    brush keep a winding in front and behind (482-496), [fok] and [bok] whether the volume of the piece is large
    enough (566-574). *)
Inductive verdict := VBack | VFront | VNone | VBoth (fk bk : list bool) (fok bok : bool).
Record geo := mkGeo {
  g_split : brush -> nat -> verdict;
  g_check : brush -> nat -> bool;              (** CheckSplitBrush (628-743) *)
  g_box : brush -> nat -> bool * bool;         (** BoxOnPlaneSide (160-191): in front, behind *)
  g_splits : brush -> nat -> nat;              (** numsplits of TestBrushToPlanenum (289-330) *)
  g_hint : brush -> nat -> bool;               (** hintsplit of it *)
  g_eps : brush -> nat -> bool;                (** whether it increments epsilonbrush *)
  g_axial : nat -> bool;                       (** the type of the plane is axial *)
  g_metric : list (nat * bool) -> nat -> Z;    (** SplitPlaneMetric (833-842) for the bounds of a node *)
  g_fast : list (nat * bool) -> nat -> bool;   (** what AUTO decides from bounds and number of brushes (952-974) *)
  g_disjoint : brush -> brush -> bool          (** the bounds are disjoint or touching (1385) *)
}.

(** The sides that are kept. *)
Definition keep (mask : list bool) (l : list side) : list side := map fst (filter snd (combine l mask)).
(** The side put on the cut (543-563): its plane faces out of the piece. *)
Definition cut (n : nat) : side := mkSide n true false true false false false.
Definition piece (b : brush) (mask : list bool) (n : nat) : brush :=
  mkBrush (b_id b) (keep mask (b_sides b) ++ [cut n]) (b_cont b) (b_detail b) (b_solid b) (b_nochop b).
(** SplitBrush (407-577), by plane [n]: the pieces in front of it and behind it. *)
Definition split (g : geo) (b : brush) (n : nat) : option brush * option brush :=
  match g_split g b n with
  | VBack => (None, Some b)
  | VFront => (Some b, None)
  | VNone => (None, None)
  | VBoth fk bk fok bok =>
    (if fok then Some (piece b fk (xor1 n)) else None, if bok then Some (piece b bk n) else None)
  end.

(** ** Choosing a plane *)

(** The bits PSIDE_FRONT, PSIDE_BACK and PSIDE_FACING (42-47). *)
Record pside := mkPs { ps_front : bool; ps_back : bool; ps_facing : bool }.

(** TestBrushToPlanenum (256-334): sides, number of splits, hintsplit, epsilonbrush.  The loop over sides stops
    at the first one on the plane.  [hintsplit] is set to false on entry. *)
Fixpoint facing_side (l : list side) (n : nat) : option pside :=
  match l with
  | [] => None
  | s :: l => if s_plane s =? n then Some (mkPs false true true)
              else if s_plane s =? xor1 n then Some (mkPs true false true)
              else facing_side l n
  end.
Record tested := mkT { t_side : pside; t_splits : nat; t_hint : bool; t_eps : bool }.
Definition test_brush (g : geo) (b : brush) (n : nat) : tested :=
  match facing_side (b_sides b) n with
  | Some s => mkT s 0 false false
  | None => match g_box g b n with
            | (true, true) => mkT (mkPs true true false) (g_splits g b n) (g_hint g b n) (g_eps g b n)
            | (f, k) => mkT (mkPs f k false) 0 false false
            end
  end.

(** CheckPlaneAgainstVolume (745-757): a node without volume has no valid plane. *)
Definition check_volume (g : geo) (vol : option brush) (n : nat) : bool :=
  match vol with None => false | Some v => g_check g v n end.

(** The conditions on a side that SelectSplitPlane (1003-1017) and ChooseMidPlaneFromList (877-892) share. *)
Definition usable (pass : nat) (s : side) : bool :=
  negb (s_bevel s) && s_wind s && negb (s_onnode s) && negb (s_hintskip s) && Bool.eqb (s_vis s) (Nat.even pass).
Definition in_pass (pass : nat) (b : brush) : bool := Bool.eqb (2 <=? pass) (b_detail b).
(** The sides a pass looks at, in order. *)
Definition sides_of_pass (pass : nat) (bs : list brush) : list side :=
  flat_map (fun b => filter (usable pass) (b_sides b)) (filter (in_pass pass) bs).

(** ChooseMidPlaneFromList (851-924); [vmax] is VECT_MAX, metrics are integers here. *)
Record mids := mkMid { m_axm : Z; m_ax : option side; m_anym : Z; m_any : option side }.
Definition mid_step (g : geo) (path : list (nat * bool)) (vol : option brush) (m : mids) (s : side) : mids :=
  let n := pos (s_plane s) in
  if negb (check_volume g vol n) then m
  else let v := g_metric g path n in
    let m := if (v <? m_anym m)%Z then mkMid (m_axm m) (m_ax m) v (Some s) else m in
    if g_axial g n && (v <? m_axm m)%Z then mkMid v (Some s) (m_anym m) (m_any m) else m.
Definition mid_best (m : mids) : option side := match m_ax m with Some s => Some s | None => m_any m end.
Fixpoint mid_passes (g : geo) (path : list (nat * bool)) (vol : option brush) (bs : list brush) (passes : list nat) (m : mids) : option side :=
  match passes with
  | [] => mid_best m
  | p :: ps => let m := fold_left (mid_step g path vol) (sides_of_pass p bs) m in
               match mid_best m with Some s => Some s | None => mid_passes g path vol bs ps m end
  end.
Definition choose_mid (g : geo) (vmax : Z) (path : list (nat * bool)) (vol : option brush) (bs : list brush) : option side :=
  mid_passes g path vol bs [0; 1; 2; 3] (mkMid vmax None vmax None).

Definition zsum (l : list nat) : Z := Z.of_nat (list_sum l).
Definition b2n (b : bool) : nat := if b then 1 else 0.
(** The value of a candidate (1031-1077), of type int; the counts are assumed to be small enough for it.
    [hintsplit] is what the last call of TestBrushToPlanenum left. *)
Definition value (g : geo) (s : side) (ts : list tested) : Z :=
  let n := pos (s_plane s) in
  let cnt f := zsum (map (fun t => b2n (f (t_side t))) ts) in
  let v := (5 * cnt ps_facing - 5 * zsum (map t_splits ts) - Z.abs (cnt ps_front - cnt ps_back)
            + (if g_axial g n then 5 else 0) - 1000 * zsum (map (fun t => b2n (t_eps t)) ts))%Z in
  if last (map t_hint ts) false && negb (s_hint s) then (-9999999)%Z else v.

(** The loop of SelectSplitPlane over the sides of one pass (1000-1090).  A side is [tested] when it lies on a
    plane that was tried before, since every brush with a side on that plane is facing it; so the planes tried
    are kept instead of the flags.  [RThrow]: Error("Tried parent") of CheckPlaneAgainstParents or
    Error("PSIDE_FACING with splits"). *)
Record bests := mkBest { be_tried : list nat; be_value : Z; be_side : option (side * list pside) }.
Definition sel_step (g : geo) (bs : list brush) (path : list (nat * bool)) (vol : option brush) (st : bests) (s : side) : res bests :=
  let n := pos (s_plane s) in
  if existsb (Nat.eqb n) (be_tried st) then ROk st
  else if existsb (fun q => fst q =? n) path then RThrow
  else if negb (check_volume g vol n) then ROk st
  else let ts := map (fun b => test_brush g b n) bs in
    if existsb (fun t => negb (t_splits t =? 0) && ps_facing (t_side t)) ts then RThrow
    else let v := value g s ts in
      ROk (if (be_value st <? v)%Z then mkBest (n :: be_tried st) v (Some (s, map t_side ts))
           else mkBest (n :: be_tried st) (be_value st) (be_side st)).
Fixpoint sel_sides (g : geo) (bs : list brush) (path : list (nat * bool)) (vol : option brush) (l : list side) (st : bests) : res bests :=
  match l with
  | [] => ROk st
  | s :: l => rbind (sel_step g bs path vol st s) (sel_sides g bs path vol l)
  end.
(** The passes (998-1097): the side, the sides of the brushes, and whether the node is a detail separator. *)
Fixpoint sel_passes (g : geo) (bs : list brush) (path : list (nat * bool)) (vol : option brush) (passes : list nat) (st : bests)
    : res (option (side * list pside * bool)) :=
  match passes with
  | [] => ROk None
  | p :: ps => rbind (sel_sides g bs path vol (sides_of_pass p bs) st) (fun st =>
      match be_side st with
      | Some (s, l) => ROk (Some (s, l, 2 <=? p))
      | None => sel_passes g bs path vol ps st
      end)
  end.

Inductive mode := MAuto | MPrecise | MFast.
(** SelectSplitPlane (936-1118). *)
Definition select_side (g : geo) (vmax : Z) (md : mode) (path : list (nat * bool)) (vol : option brush) (bs : list brush)
    : res (option (side * list pside * bool)) :=
  match bs with
  | [] => ROk None
  | _ =>
    let fast := match md with MPrecise => false | MFast => true | MAuto => g_fast g path (length bs) end in
    match (if fast then choose_mid g vmax path vol bs else None) with
    | Some s => ROk (Some (s, map (fun b => t_side (test_brush g b (pos (s_plane s)))) bs, false))
    | None => sel_passes g bs path vol [0; 1; 2; 3] (mkBest [] (-99999) None)
    end
  end.

(** ** The tree *)

(** Marking the sides on the plane (1145-1151). *)
Definition mark (n : nat) (b : brush) : brush :=
  mkBrush (b_id b)
    (map (fun s => if pos (s_plane s) =? n then mkSide (s_plane s) true (s_bevel s) (s_wind s) (s_vis s) (s_hint s) (s_hintskip s) else s) (b_sides b))
    (b_cont b) (b_detail b) (b_solid b) (b_nochop b).
Definition opt {A} (o : option A) : list A := match o with Some a => [a] | None => [] end.
(** SplitBrushList (1125-1165) for one brush: what goes to the front and to the back. *)
Definition place (g : geo) (n : nat) (b : brush) (s : pside) : list brush * list brush :=
  if ps_front s && ps_back s && negb (ps_facing s) then
    let r := split g b n in (opt (fst r), opt (snd r))
  else
    let b := if ps_facing s then mark n b else b in
    if ps_front s then ([b], []) else if ps_back s then ([], [b]) else ([], []).
Fixpoint split_list (g : geo) (n : nat) (bs : list brush) (ss : list pside) : list brush * list brush :=
  match bs, ss with
  | b :: bs, s :: ss => let r := place g n b s in let q := split_list g n bs ss in (fst r ++ fst q, snd r ++ snd q)
  | _, _ => ([], [])
  end.

(** node_t (include/qbsp/node.hh): a leaf with the brushes it got, a node with its plane and detail_separator. *)
Inductive tree := Leaf (bs : list brush) | Node (n : nat) (detail : bool) (f k : tree).
Inductive bres := BOk (t : tree) | BErr | BFuel.

(** BuildTree_r (1174-1227); [path] holds the planes of the parents and the side taken.  [BErr] is a call of
    Error. *)
Fixpoint build (g : geo) (vmax : Z) (md : mode) (fuel : nat) (path : list (nat * bool)) (vol : option brush) (bs : list brush) : bres :=
  match fuel with
  | O => BFuel
  | S fuel =>
    match select_side g vmax md path vol bs with
    | ROk None => BOk (Leaf bs)
    | ROk (Some (s, sides, detail)) =>
      let n := pos (s_plane s) in
      let ch := split_list g n bs sides in
      let vols := match vol with Some v => split g v n | None => (None, None) end in
      match build g vmax md fuel ((n, true) :: path) (fst vols) (fst ch), build g vmax md fuel ((n, false) :: path) (snd vols) (snd ch) with
      | BOk f, BOk k => BOk (Node n detail f k)
      | BErr, _ | _, BErr => BErr
      | _, _ => BFuel
      end
    | _ => BErr
    end
  end.

(** BrushBSP (1247-1344); [vol] is the box around all brushes.  Without brushes both children of plane 0 are empty. *)
Definition reset (b : brush) : brush :=
  mkBrush (b_id b) (map (fun s => mkSide (s_plane s) false (s_bevel s) (s_wind s) (s_vis s) (s_hint s) (s_hintskip s)) (b_sides b))
    (b_cont b) (b_detail b) (b_solid b) (b_nochop b).
Definition brush_bsp (g : geo) (vmax : Z) (md : mode) (fuel : nat) (vol : brush) (bs : list brush) : bres :=
  match bs with
  | [] => BOk (Node 0 false (Leaf []) (Leaf []))
  | _ => build g vmax md fuel [] (Some vol) (map reset bs)
  end.

(** LeafNode (347-372): contents of a leaf. *)
Definition leaf_contents (combine : nat -> nat -> nat) (empty : nat) (bs : list brush) : nat :=
  fold_left (fun c b => combine c (b_cont b)) bs empty.

(** ** Chopping *)

(** BrushGE (1353-1362): may [b1] bite [b2]. *)
Definition brush_ge (b1 b2 : brush) : bool :=
  if b_detail b1 && negb (b_detail b2) then false else b_solid b1 && b_solid b2.
(** BrushesDisjoint (1372-1392). *)
Definition disjoint (g : geo) (a b : brush) : bool :=
  g_disjoint g a b || existsb (fun s => existsb (fun t => s_plane s =? xor1 (s_plane t)) (b_sides b)) (b_sides a).
(** SubtractBrush (1404-1427).  [None]: the list with [a] itself, "didn't really intersect".  A piece in front that
    is [a] itself is only pushed when nothing is left behind, and then [None] is the result. *)
Fixpoint subtract_go (g : geo) (inb : brush) (l : list side) (out : list brush) : option (list brush) :=
  match l with
  | [] => Some out
  | s :: l => let r := split g inb (s_plane s) in
              match snd r with
              | None => None
              | Some k => subtract_go g k l (opt (fst r) ++ out)
              end
  end.
Definition subtract (g : geo) (a b : brush) : option (list brush) := subtract_go g a (b_sides b) [].

(** The inner loop of ChopBrushes (1474-1541) for [b1]; [pre] holds the brushes after it already passed, in
    reverse order. *)
Inductive action := AKeep | ASwallow1 | ASplit1 (sub : list brush) | ARest (rest : list brush).
Fixpoint scan (g : geo) (frag : bool) (b1 : brush) (pre l : list brush) : action :=
  match l with
  | [] => AKeep
  | b2 :: l =>
    let next := scan g frag b1 (b2 :: pre) l in
    if b_nochop b2 then next
    else if disjoint g b1 b2 then next
    else
      let bite2 := fun (c1 : option (list brush)) =>
        (** [c1]: what is left of b1, when b2 may bite it *)
        let decide := fun (c2 : option (list brush)) =>
          match c1, c2 with
          | None, None => next
          | Some s1, None => if negb frag && (1 <? length s1) then next else ASplit1 s1
          | None, Some s2 => if negb frag && (1 <? length s2) then next else ARest (rev pre ++ s2 ++ l)
          | Some s1, Some s2 => if negb frag && (1 <? length s1) && (1 <? length s2) then next
                                else if length s1 <? length s2 then ASplit1 s1 else ARest (rev pre ++ s2 ++ l)
          end in
        if brush_ge b1 b2 then
          match subtract g b2 b1 with
          | None => next
          | Some [] => ARest (rev pre ++ l)
          | Some s2 => decide (Some s2)
          end
        else decide None in
      if brush_ge b2 b1 then
        match subtract g b1 b2 with
        | None => next
        | Some [] => ASwallow1
        | Some s1 => bite2 (Some s1)
        end
      else bite2 None
  end.
(** The outer loop (1454-1545); [done] is reversed.  After a split of [b1] the iterator stands behind its pieces
    (1522-1526: erase returns the brush after it and the pieces are put before that). *)
Fixpoint chop (g : geo) (frag : bool) (fuel : nat) (done l : list brush) : option (list brush) :=
  match fuel with
  | O => None
  | S fuel =>
    match l with
    | [] => Some (rev done)
    | b1 :: l =>
      if b_nochop b1 then chop g frag fuel (b1 :: done) l
      else match scan g frag b1 [] l with
           | AKeep => chop g frag fuel (b1 :: done) l
           | ASwallow1 => chop g frag fuel done l
           | ASplit1 sub => chop g frag fuel (rev sub ++ done) l
           | ARest l => chop g frag fuel done (b1 :: l)
           end
    end
  end.
