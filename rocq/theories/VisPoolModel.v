(* Model of the stack windings: vis/vis.cc:73-216 (AllocStackWinding, FreeStackWinding,
   ClipStackWinding), vis/flow.cc:27-114 (ClipToSeparators), :129-186 (VisTests), and the
   portal loops of TargetChecks (:225-296) and RecursiveLeafFlow (:410-514). Points are
   not modelled: which side of a plane each point is on comes from an arbitrary oracle. *)
From Coq Require Import List Arith Bool.
Import ListNotations.
From Verif Require Import Base.

Definition STACK_WINDINGS := 3.     (* include/vis/vis.hh:162 *)
Definition MAX_WINDING := 64.       (* include/vis/vis.hh:33 *)
Definition MAX_WINDING_FIXED := 24. (* include/vis/vis.hh:32 *)
Definition MAX_SEPARATORS := 64.    (* include/vis/vis.hh:161 *)

(** A winding pointer as seen from one stack frame: a winding of that frame, or one that
    lives elsewhere (a portal's or another frame's), with its number of points. *)
Inductive wref := W_loc (i : nat) | W_ext (size : nat).

(** ps_used, ps_size: windings_used and numpoints of windings; ps_nsep0/1: numseparators;
    ps_step: oracle queries made so far (ghost). *)
Record pstack := { ps_used : list bool; ps_size : list nat; ps_nsep0 : nat; ps_nsep1 : nat; ps_step : nat }.

(** Failures: the FError calls, and memory errors (a point written past the fixed winding,
    an index out of range). *)
Inductive perr := E_failed | E_freed | E_max_winding | E_max_separators | E_memory.
Inductive pres (A : Type) := P_ok (a : A) | P_err (e : perr).
Arguments P_ok {A} a. Arguments P_err {A} e.
Definition pbind {A B} (r : pres A) (f : A -> pres B) : pres B :=
  match r with P_ok a => f a | P_err e => P_err e end.
Notation "'do' x <- r ; k" := (pbind r (fun x => k)) (at level 200, x pattern, r at level 100, k at level 200).

Definition set_used (s : pstack) (u : list bool) : pstack :=
  {| ps_used := u; ps_size := ps_size s; ps_nsep0 := ps_nsep0 s; ps_nsep1 := ps_nsep1 s; ps_step := ps_step s |}.
Definition set_size (s : pstack) (z : list nat) : pstack :=
  {| ps_used := ps_used s; ps_size := z; ps_nsep0 := ps_nsep0 s; ps_nsep1 := ps_nsep1 s; ps_step := ps_step s |}.
Definition set_nsep (s : pstack) (test n : nat) : pstack :=
  {| ps_used := ps_used s; ps_size := ps_size s;
     ps_nsep0 := if Nat.eqb test 0 then n else ps_nsep0 s;
     ps_nsep1 := if Nat.eqb test 0 then ps_nsep1 s else n; ps_step := ps_step s |}.
Definition tick (s : pstack) : pstack :=
  {| ps_used := ps_used s; ps_size := ps_size s; ps_nsep0 := ps_nsep0 s; ps_nsep1 := ps_nsep1 s; ps_step := S (ps_step s) |}.

(** vis/vis.cc:73-83. *)
Fixpoint alloc_scan (used : list bool) (i : nat) : option nat :=
  match used with
  | [] => None
  | false :: _ => Some i
  | true :: t => alloc_scan t (S i)
  end.
Definition alloc_winding (s : pstack) : pres (nat * pstack) :=
  match alloc_scan (ps_used s) 0 with
  | None => P_err E_failed
  | Some i => match upd (ps_used s) i true with
              | None => P_err E_memory
              | Some u => P_ok (i, set_used s u)
              end
  end.

(** vis/vis.cc:94-103. The range test includes the address one past the array, where no
    winding lives. *)
Definition free_winding (s : pstack) (w : wref) : pres pstack :=
  match w with
  | W_ext _ => P_ok s
  | W_loc i =>
    match nth_error (ps_used s) i with
    | None => P_err E_memory
    | Some false => P_err E_freed
    | Some true => match upd (ps_used s) i false with
                   | None => P_err E_memory
                   | Some u => P_ok (set_used s u)
                   end
    end
  end.

(** SIDE_FRONT, SIDE_BACK, SIDE_ON. *)
Inductive side := S_front | S_back | S_on.
Definition side_eqb (a b : side) : bool :=
  match a, b with S_front, S_front | S_back, S_back | S_on, S_on => true | _, _ => false end.

(** One query of the oracle: the bounding sphere test of ClipStackWinding (vis/vis.cc:122-128),
    the side of each point (:136-147), and for ClipToSeparators whether some point of [pass]
    makes a separating plane with the edge (vis/flow.cc:38-89). *)
Inductive sphere := Sph_back | Sph_front | Sph_cut.
Record query := { q_sphere : sphere; q_side : nat -> side; q_sep : bool }.

(** vis/vis.cc:170-207: the points pushed onto the new winding ([n] so far); [all] are the
    sides of all points, [todo] = the indices left. [inr] = goto noclip, [inl] = size. *)
Fixpoint clip_points (sd : nat -> side) (size : nat) (todo : list nat) (n : nat) : nat + unit :=
  match todo with
  | [] => inl n
  | i :: t =>
    let nxt := sd (if Nat.eqb (S i) size then 0 else S i) in            (* :148 *)
    match sd i with
    | S_on => if Nat.eqb n MAX_WINDING_FIXED then inr tt else clip_points sd size t (S n)      (* :173-178 *)
    | S_front =>
      if Nat.eqb n MAX_WINDING_FIXED then inr tt                          (* :180-184 *)
      else match nxt with
           | S_on | S_front => clip_points sd size t (S n)                 (* :186-187 *)
           | S_back => if Nat.eqb (S n) MAX_WINDING_FIXED then inr tt else clip_points sd size t (S (S n))
           end
    | S_back =>
      match nxt with
      | S_on | S_back => clip_points sd size t n
      | S_front => if Nat.eqb n MAX_WINDING_FIXED then inr tt else clip_points sd size t (S n)
      end
    end
  end.

Definition wsize (s : pstack) (w : wref) : option nat :=
  match w with W_ext n => Some n | W_loc i => nth_error (ps_size s) i end.

(** vis/vis.cc:115-216, ClipStackWinding; [None] in the result = nullptr. *)
Definition clip_winding (q : query) (s : pstack) (w : wref) : pres (option wref * pstack) :=
  match q_sphere q with
  | Sph_back => do s' <- free_winding s w; P_ok (None, s')
  | Sph_front => P_ok (Some w, s)
  | Sph_cut =>
    match wsize s w with
    | None => P_err E_memory
    | Some n =>
      if Nat.ltb MAX_WINDING n then P_err E_max_winding
      else
      let sides := map (q_side q) (seq 0 n) in
      if forallb (side_eqb S_on) sides then P_ok (Some w, s)
      else if negb (existsb (side_eqb S_front) sides) then do s' <- free_winding s w; P_ok (None, s')
      else if negb (existsb (side_eqb S_back) sides) then P_ok (Some w, s)
      else
        do (i, s1) <- alloc_winding s;
        match clip_points (q_side q) n (seq 0 n) 0 with
        | inl m =>
          match upd (ps_size s1) i m with
          | None => P_err E_memory
          | Some z => do s2 <- free_winding (set_size s1 z) w; P_ok (Some (W_loc i), s2)
          end
        | inr _ => do s2 <- free_winding s1 (W_loc i); P_ok (Some w, s2)
        end
    end
  end.

Definition ask_clip (orc : nat -> query) (s : pstack) (w : wref) : pres (option wref * pstack) :=
  clip_winding (orc (ps_step s)) (tick s) w.

(** vis/flow.cc:27-114, ClipToSeparators: [edges] edges of the source winding are left. *)
Fixpoint clip_to_separators (orc : nat -> query) (test edges : nat) (s : pstack) (target : wref)
  : pres (option wref * pstack) :=
  match edges with
  | O => P_ok (Some target, s)
  | S e =>
    if q_sep (orc (ps_step s)) then
      let s1 := tick s in
      let nsep := if Nat.eqb test 0 then ps_nsep0 s1 else ps_nsep1 s1 in
      do s2 <- (if Nat.ltb test 2 then
                  if Nat.eqb nsep MAX_SEPARATORS then P_err E_max_separators
                  else P_ok (set_nsep s1 test (S nsep))
                else P_ok s1);
      do (t', s3) <- ask_clip orc s2 target;
      match t' with
      | None => P_ok (None, s3)
      | Some t => clip_to_separators orc test e s3 t
      end
    else clip_to_separators orc test e (tick s) target
  end.

(** vis/flow.cc:134-138, :152-156: clip by the cached separators. *)
Fixpoint clip_to_cached (orc : nat -> query) (k : nat) (s : pstack) (target : wref) : pres (option wref * pstack) :=
  match k with
  | O => P_ok (Some target, s)
  | S k' => do (t', s') <- ask_clip orc s target;
            match t' with None => P_ok (None, s') | Some t => clip_to_cached orc k' s' t end
  end.

(** vis/flow.cc:129-186, VisTests at -level [lvl]. [psrc], [ppass]: number of points of
    prevstack->source and prevstack->pass. The result is (source, pass) on action_pass,
    [None] on action_continue. *)
Definition vis_tests (orc : nat -> query) (lvl psrc ppass : nat) (s : pstack) (source pass : wref)
  : pres (option (wref * wref) * pstack) :=
  do (r0, s0) <- (if Nat.ltb 0 lvl then
                    if Nat.eqb (ps_nsep0 s) 0 then clip_to_separators orc 0 psrc s pass
                    else clip_to_cached orc (ps_nsep0 s) s pass
                  else P_ok (Some pass, s));
  match r0 with
  | None => do s' <- free_winding s0 source; P_ok (None, s')
  | Some pass0 =>
    do (r1, s1) <- (if Nat.ltb 1 lvl then
                      if Nat.eqb (ps_nsep1 s0) 0 then clip_to_separators orc 1 ppass s0 pass0
                      else clip_to_cached orc (ps_nsep1 s0) s0 pass0
                    else P_ok (Some pass0, s0));
    match r1 with
    | None => do s' <- free_winding s1 source; P_ok (None, s')
    | Some pass1 =>
      match wsize s1 pass1 with
      | None => P_err E_memory
      | Some np =>
        do (r2, s2) <- (if Nat.ltb 2 lvl then clip_to_separators orc 2 np s1 source else P_ok (Some source, s1));
        match r2 with
        | None => do s' <- free_winding s2 pass1; P_ok (None, s')
        | Some source2 =>
          do (r3, s3) <- (if Nat.ltb 3 lvl then clip_to_separators orc 3 ppass s2 source2 else P_ok (Some source2, s2));
          match r3 with
          | None => do s' <- free_winding s3 pass1; P_ok (None, s')
          | Some source3 => P_ok (Some (source3, pass1), s3)
          end
        end
      end
    end
  end.

(** vis/flow.cc:477-513 (RecursiveLeafFlow) and :258-295 (TargetChecks): one portal whose
    winding has [pw] points, seen from [psrc] through [ppass] ([None]: prevstack.pass is
    null, which TargetChecks excludes, :203). The second component of the result is
    (source, pass, frame) at the point where the flow recurses, if it does; the deeper
    frames have windings of their own and only read these. *)
Definition portal_step (orc : nat -> query) (lvl psrc : nat) (ppass : option nat) (pw : nat) (s : pstack)
  : pres (pstack * option (wref * wref * pstack)) :=
  do (r, s1) <- ask_clip orc s (W_ext pw);
  match r with
  | None => P_ok (s1, None)
  | Some pass =>
    match ppass with
    | None => do s2 <- free_winding s1 pass; P_ok (s2, Some (W_ext psrc, pass, s1))
    | Some pp =>
      do (r2, s2) <- ask_clip orc s1 pass;
      match r2 with
      | None => P_ok (s2, None)
      | Some pass2 =>
        do (r3, s3) <- ask_clip orc s2 (W_ext psrc);
        match r3 with
        | None => do s4 <- free_winding s3 pass2; P_ok (s4, None)
        | Some source =>
          do (v, s4) <- vis_tests orc lvl psrc pp s3 source pass2;
          match v with
          | None => P_ok (s4, None)
          | Some (source', pass') =>
            do s5 <- free_winding s4 source';
            do s6 <- free_winding s5 pass';
            P_ok (s6, Some (source', pass', s4))
          end
        end
      end
    end
  end.

(** vis/flow.cc:395-402: a fresh frame; what the windings hold is arbitrary ([junk]). Then
    the loop over portals; the second component collects the recursion points. *)
Definition fresh_stack (junk : nat * nat * nat) (step : nat) : pstack :=
  {| ps_used := [false; false; false]; ps_size := [fst (fst junk); snd (fst junk); snd junk];
     ps_nsep0 := 0; ps_nsep1 := 0; ps_step := step |}.
Fixpoint portal_loop (orc : nat -> query) (lvl psrc : nat) (ppass : option nat) (pws : list nat) (s : pstack)
  : pres (pstack * list (wref * wref * pstack)) :=
  match pws with
  | [] => P_ok (s, [])
  | pw :: t =>
    do (s1, r) <- portal_step orc lvl psrc ppass pw s;
    do (s2, l) <- portal_loop orc lvl psrc ppass t s1;
    P_ok (s2, match r with Some x => x :: l | None => l end)
  end.
