(* Model of the recursive portal flow, vis/flow.cc:305-543. *)
From Coq Require Import List Arith Bool.
Import ListNotations.
From Verif Require Import Base Dfs VisFloodModel.

(** Everything the flow takes from geometry, options and other threads, one record per
    query. A query is known by its number and the portals on the stack, the latest first.
    All of it is left arbitrary:
    - [d_masks]: what IterativeTargetChecks (vis/flow.cc:312-348, :382-391) leaves of each
      stack frame's mightsee, innermost frame first; TargetChecks only ever keeps a subset
      (vis/flow.cc:227-234, :279, :299, :339). A missing mask means "unchanged".
    - [d_test]: visbits or mightsee of the portal looked through (vis/flow.cc:418-425),
      which another thread may change at any time.
    - [d_go]: whether the coplanarity, clipping and separator tests (vis/flow.cc:453-507)
      let the flow continue. *)
Record decision := { d_masks : list (list bool); d_test : list bool; d_go : bool }.

Fixpoint band (a b : list bool) : list bool :=
  match a, b with
  | x :: s, y :: t => (x && y) :: band s t
  | x :: s, [] => x :: s
  | [], _ => []
  end.
Fixpoint apply_masks (stk masks : list (list bool)) : list (list bool) :=
  match stk, masks with
  | s :: t, m :: u => band s m :: apply_masks t u
  | _, _ => stk
  end.

(** [might & ~vis] has a bit (vis/flow.cc:428-433). *)
Fixpoint any_new (might vis : list bool) : bool :=
  match might, vis with
  | m :: s, v :: t => (m && negb v) || any_new s t
  | _, _ => false
  end.

(** f_step: queries made so far. f_stk: mightsee of the frames, innermost first, the last is
    the portal's own. f_vis, f_cnt: visbits and numcansee of the portal. *)
Record fstate := { f_step : nat; f_stk : list (list bool); f_vis : list bool; f_cnt : nat }.

Definition ask (s : fstate) (stk : list (list bool)) : fstate :=
  {| f_step := S (f_step s); f_stk := stk; f_vis := f_vis s; f_cnt := f_cnt s |}.

(** vis/flow.cc:359-515, RecursiveLeafFlow. [path]: leafs of the frames on the stack
    (CheckStack, :116-122). [pp]: portals of the frames (pstack_t::portal). [None] = an index out of range, or out of fuel. *)
Fixpoint flow (fuel : nat) (g : vgraph) (orc : nat -> list nat -> decision) (path pp : list nat) (s : fstate) (leafnum : nat)
  {struct fuel} : option fstate :=
  if existsb (Nat.eqb leafnum) path then Some s                       (* :370-373 *)
  else
  match fuel with
  | O => None
  | S f =>
    match nth_error (f_vis s) leafnum with                            (* :376-379 *)
    | None => None
    | Some b =>
      match (if b then Some (f_vis s) else upd (f_vis s) leafnum true), nth_error (g_leafs g) leafnum with
      | Some vis, Some ps =>
        let cnt := if b then f_cnt s else S (f_cnt s) in
        let s1 := {| f_step := S (f_step s);
                     f_stk := apply_masks (f_stk s) (d_masks (orc (f_step s) pp));     (* :382-391 *)
                     f_vis := vis; f_cnt := cnt |} in
        fold_left (fun acc p =>                                       (* :410 *)
          match acc with
          | None => None
          | Some s2 =>
            match f_stk s2, nth_error (g_dest g) p with
            | prev :: _, Some dest =>
              match nth_error prev dest with
              | None => None
              | Some false => Some s2                                 (* :411-414 *)
              | Some true =>
                let d := orc (f_step s2) (p :: pp) in
                let might := band prev (d_test d) in                  (* :418-433 *)
                let s3 := ask s2 (f_stk s2) in
                if negb (any_new might (f_vis s2)) then Some s3       (* :435-439 *)
                else if negb (d_go d) then Some s3
                else match flow f g orc (leafnum :: path) (p :: pp) (ask s2 (might :: f_stk s2)) dest with
                     | Some s4 => match f_stk s4 with
                                  | _ :: rest => Some (ask s4 rest)
                                  | [] => None
                                  end
                     | None => None
                     end
              end
            | _, _ => None
            end
          end) ps (Some s1)
      | _, _ => None
      end
    end
  end.

(** vis/flow.cc:522-543, PortalFlow of a portal leading into [leaf] with the given
    mightsee; its visbits start blank. *)
Definition portal_flow (g : vgraph) (orc : nat -> list nat -> decision) (mightsee : list bool) (leaf : nat) : option fstate :=
  flow (S (length (g_leafs g))) g orc [] []
    {| f_step := 0; f_stk := [mightsee]; f_vis := repeat false (length (g_leafs g)); f_cnt := 0 |} leaf.
