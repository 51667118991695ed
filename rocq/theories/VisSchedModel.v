(* Model of the distribution of portals over the worker threads: vis/vis.cc:234-255
   (GetNextPortal), :294-298 (PortalCompleted), :357-380 (LeafThread), :498-515
   (CalcPortalVis) and the entry check of PortalFlow (vis/flow.cc:526). *)
From Coq Require Import List Arith NArith ZArith Bool.
Import ListNotations.
From Verif Require Import Base Codec.

(** pstatus_t: 0 none, 1 working, 2 done (include/vis/vis.hh:35-40). *)
Definition INT_MAX : N := 2147483647.

(** vis/vis.cc:241-246: the scan. [nm] is nummightsee, an int compared with an unsigned. *)
Fixpoint scan (stat : list N) (nm : list Z) (i : nat) (min : N) (ret : option nat) : option nat :=
  match stat, nm with
  | st :: stat', m :: nm' =>
    if ((to_unsigned 4 m <? min) && (st =? 0))%N
    then scan stat' nm' (S i) (to_unsigned 4 m) (Some i)
    else scan stat' nm' (S i) min ret
  | _, _ => ret
  end.
Definition next_portal (stat : list N) (nm : list Z) : option nat := scan stat nm 0 INT_MAX None.

(** One iteration of the parallel loop: it fetches a portal, enters PortalFlow, completes
    it. Each step is atomic: fetching and completing run under portal_mutex. *)
Inductive task := T_ready | T_got (p : nat) | T_flow (p : nat) | T_over.

(** ss_log: the portals PortalFlow has been entered for, latest first. *)
Record sstate := { ss_stat : list N; ss_nm : list Z; ss_tasks : list task; ss_log : list nat }.

(** A scheduling event: which task moves, and - when it completes a portal - the counters
    UpdateMightsee leaves behind (arbitrary here). [None] = FError("reflowed") or an access
    out of range. *)
Definition sched_step (s : sstate) (e : nat * list Z) : option sstate :=
  let '(t, nm') := e in
  match nth_error (ss_tasks s) t with
  | None | Some T_over => Some s
  | Some T_ready =>
    match next_portal (ss_stat s) (ss_nm s) with
    | None => match upd (ss_tasks s) t T_over with
              | Some ts => Some {| ss_stat := ss_stat s; ss_nm := ss_nm s; ss_tasks := ts; ss_log := ss_log s |}
              | None => None
              end
    | Some p => match upd (ss_stat s) p 1%N, upd (ss_tasks s) t (T_got p) with
                | Some st, Some ts => Some {| ss_stat := st; ss_nm := ss_nm s; ss_tasks := ts; ss_log := ss_log s |}
                | _, _ => None
                end
    end
  | Some (T_got p) =>
    match nth_error (ss_stat s) p, upd (ss_tasks s) t (T_flow p) with
    | Some 1%N, Some ts => Some {| ss_stat := ss_stat s; ss_nm := ss_nm s; ss_tasks := ts; ss_log := p :: ss_log s |}
    | _, _ => None
    end
  | Some (T_flow p) =>
    match upd (ss_stat s) p 2%N, upd (ss_tasks s) t T_over with
    | Some st, Some ts => Some {| ss_stat := st; ss_nm := nm'; ss_tasks := ts; ss_log := ss_log s |}
    | _, _ => None
    end
  end.

Fixpoint sched_run (s : sstate) (es : list (nat * list Z)) : option sstate :=
  match es with
  | [] => Some s
  | e :: t => match sched_step s e with Some s' => sched_run s' t | None => None end
  end.

Fixpoint countb {A} (f : A -> bool) (l : list A) : nat :=
  match l with [] => 0 | x :: t => (if f x then 1 else 0) + countb f t end.

(** vis/vis.cc:498-515: as many iterations as there are portals not done at the start. *)
Definition sched_init (stat : list N) (nm : list Z) : sstate :=
  {| ss_stat := stat; ss_nm := nm;
     ss_tasks := repeat T_ready (length stat - countb (fun s => (s =? 2)%N) stat); ss_log := [] |}.
