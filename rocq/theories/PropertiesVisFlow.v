(* C09-C12: portal visibility. *)
From Coq Require Import List Arith NArith ZArith Bool Lia.
Import ListNotations.
From Verif Require Import Base Dfs LeafBitsModel VisFloodModel VisFloodProofs VisFlowModel VisFlowProofs
  VisSchedModel VisSchedProofs VisMightModel VisMightProofs VisMightHistory.

(** C09. In every well-formed portal graph, for every outcome [see] of the geometric tests,
    the flood ends, and a leaf is marked iff a walk through seen portals leads to it from
    the leaf behind the portal; the count is the number of marked leafs. *)
Theorem C09_base_vis_is_reachability : forall g see portalnum leaf,
  wf_graph g -> length see = length (g_dest g) -> nth_error (g_dest g) portalnum = Some leaf ->
  exists v c, base_portal g see portalnum = Some (v, c) /\ length v = length (g_leafs g) /\
    (forall y, nth_error v y = Some true <-> leaf_walk g see leaf y) /\
    c = length (filter (fun b => b) v).
Proof.
  intros g see p leaf Hw Hs Hp. destruct (base_portal_spec g see p leaf Hw Hs Hp) as (v & c & A & B & C & D).
  exists v, c. split; [assumption|]. split; [assumption|]. split; [exact C|]. rewrite D. clear. induction v as [|[] v IH]; simpl; auto.
Qed.
Print Assumptions C09_base_vis_is_reachability.

(** A ring of four leafs; the portal from 2 to 3 is not seen. *)
Definition ring := {| g_leafs := [[0; 7]; [1; 4]; [2; 5]; [3; 6]]; g_dest := [1; 2; 3; 0; 0; 1; 2; 3] |}.
Example C09_nontrivial : wf_graph ring /\
  base_portal ring [true; true; false; true; false; true; true; false] 0 = Some ([false; true; true; false], 2) /\
  base_portal ring [true; true; true; true; false; true; true; false] 0 = Some ([true; true; true; true], 4).
Proof. split; [split; repeat constructor|]. split; vm_compute; reflexivity. Qed.

(** C10. Whatever the oracle answers, the recursion ends, the portal's own leaf is visible,
    and each visible leaf is that leaf or a member of the might-see set, reached by a walk
    whose every leaf is one; the count is the number of visible leafs. *)
Theorem C10_full_vis_within_base : forall g orc might leaf,
  wf_graph g -> length might = length (g_leafs g) -> leaf < length (g_leafs g) ->
  exists s, portal_flow g orc might leaf = Some s /\ length (f_vis s) = length (g_leafs g) /\
    nth_error (f_vis s) leaf = Some true /\
    (forall y, nth_error (f_vis s) y = Some true -> y = leaf \/ nth_error might y = Some true) /\
    (forall y, nth_error (f_vis s) y = Some true -> walk_in g might leaf y) /\
    f_cnt s = length (filter (fun b => b) (f_vis s)).
Proof.
  intros g orc might leaf Hw Hm Hl. destruct (portal_flow_spec g orc might leaf Hw Hm Hl) as (s & A & B & C & D & E).
  exists s. split; [assumption|]. split; [assumption|]. split; [exact C|].
  split; [intros y Hy; apply (walk_in_end g might leaf y), D, Hy|]. split; [exact D|].
  rewrite E. generalize (f_vis s). intro v. induction v as [|[] v IH]; simpl; auto.
Qed.
Print Assumptions C10_full_vis_within_base.

(** The third query refuses to go on. *)
Example C10_nontrivial :
  let go := fun _ _ => {| d_masks := []; d_test := [true; true; true; true]; d_go := true |} in
  let stop := fun k _ => {| d_masks := []; d_test := [true; true; true; true]; d_go := Nat.ltb k 3 |} in
  option_map (fun s => (f_vis s, f_cnt s)) (portal_flow ring go [true; true; true; false] 1) =
    Some ([true; true; true; false], 3) /\
  option_map (fun s => (f_vis s, f_cnt s)) (portal_flow ring stop [true; true; true; false] 1) =
    Some ([false; true; true; false], 2) /\
  option_map (fun s => (f_vis s, f_cnt s)) (portal_flow ring go [false; false; false; false] 1) =
    Some ([false; true; false; false], 1).
Proof. repeat split; vm_compute; reflexivity. Qed.

(** C11. For every interleaving [es] of the loop iterations: no iteration fails ("reflowed"
    is never raised), no portal is flowed twice, only portals not done before are flowed;
    and when all iterations have ended every portal is done and exactly those not done
    before were flowed. *)
Theorem C11_each_portal_once : forall stat nm es,
  Forall (fun x => x = 0 \/ x = 2)%N stat -> nm_ok (length stat) nm ->
  Forall (fun e => nm_ok (length stat) (snd e)) es ->
  exists s, sched_run (sched_init stat nm) es = Some s /\ NoDup (ss_log s) /\
    (forall p, In p (ss_log s) -> p < length stat /\ nth_error stat p <> Some 2%N) /\
    (Forall (fun t => t = T_over) (ss_tasks s) ->
       Forall (fun x => x = 2%N) (ss_stat s) /\ length (ss_stat s) = length stat /\
       forall p, In p (ss_log s) <-> p < length stat /\ nth_error stat p <> Some 2%N).
Proof.
  intros stat nm es Hs Hn He.
  destruct (sched_run_ok es stat (sched_init stat nm) (sched_init_ok _ _ Hs Hn) He) as (s & A & B).
  exists s. split; [assumption|]. split; [apply (si_nodup _ _ B)|].
  split; [intros p Hp; apply (si_log _ _ B) in Hp; tauto|].
  intro Ho. destruct (sched_final stat s B Ho) as (F & _ & G). split; [assumption|]. split; [apply (si_len _ _ B)|].
  exact G.
Qed.
Print Assumptions C11_each_portal_once.

(** The portal fetched is not started, and of those the first one that might see least. *)
Theorem C11_next_is_least : forall stat nm,
  nm_ok (length stat) nm ->
  match next_portal stat nm with
  | None => forall p, nth_error stat p <> Some 0%N
  | Some p => exists m, nth_error stat p = Some 0%N /\ nth_error nm p = Some m /\
      (forall j m', nth_error stat j = Some 0%N -> nth_error nm j = Some m' -> (m <= m')%Z) /\
      (forall j m', j < p -> nth_error stat j = Some 0%N -> nth_error nm j = Some m' -> (m < m')%Z)
  end.
Proof.
  intros stat nm H. destruct (next_portal stat nm) as [p|] eqn:E; [apply next_portal_least; assumption|].
  intros p Hp. pose proof (next_portal_none stat nm H E) as Hc.
  pose proof (countb_zero _ (fun s => (s =? 0)%N) stat p 0%N Hc Hp). discriminate.
Qed.
Print Assumptions C11_next_is_least.

Example C11_nontrivial :
  next_portal [0; 0; 2; 0]%N [7; 3; 1; 3]%Z = Some 1 /\
  option_map (fun s => (ss_stat s, ss_log s))
    (sched_run (sched_init [0; 0; 2; 0]%N [7; 3; 1; 3]%Z)
       [(0, []); (1, []); (1, []); (2, []); (0, []); (2, []); (1, [5; 3; 1; 3]%Z); (0, [5; 3; 1; 2]%Z); (2, [5; 3; 1; 2]%Z)]) =
    Some ([2; 2; 2; 2]%N, [0; 1; 3]).
Proof. split; vm_compute; reflexivity. Qed.

(** C12. After any history of starts and completions (any order, any visible sets): no
    access out of range, every count is the size of its set, every might-see set is inside
    the one the history began with, and portals that had started keep theirs. *)
Theorem C12_mightsee_history : forall n leafs dests ps es1 es2,
  leafs_ok n (length ps) leafs -> length dests = length ps -> Forall (fun l => l < n) dests ->
  Forall (portal_ok n) ps -> Forall (fun p => mp_num p = Z.of_nat (card (mp_might p) n)) ps ->
  Forall (event_ok n (length ps)) (es1 ++ es2) ->
  exists ps1 ps2, mrun n leafs dests ps es1 = Some ps1 /\ mrun n leafs dests ps1 es2 = Some ps2 /\
    length ps2 = length ps /\
    Forall (fun p => mp_num p = Z.of_nat (card (mp_might p) n)) ps2 /\
    forall x p, nth_error ps x = Some p -> exists p1 p2, nth_error ps1 x = Some p1 /\ nth_error ps2 x = Some p2 /\
      (forall m, has (mp_might p2) m = true -> has (mp_might p) m = true) /\
      (mp_status p1 <> 0%N -> forall m, has (mp_might p2) m = has (mp_might p1) m).
Proof.
  intros n leafs dests ps es1 es2 HL HD HDn HP HC HE. apply Forall_app in HE. destruct HE as [HE1 HE2].
  destruct (mrun_ok es1 n leafs dests ps HL HD HDn HP HC HE1) as (ps1 & A1 & [L1 S1] & P1 & C1).
  rewrite <- L1 in HL, HD, HE2.
  destruct (mrun_ok es2 n leafs dests ps1 HL HD HDn P1 C1 HE2) as (ps2 & A2 & [L2 S2] & P2 & C2).
  exists ps1, ps2. split; [assumption|]. split; [assumption|]. split; [congruence|]. split; [exact C2|].
  intros x p Hx. destruct (S1 x p Hx) as (p1 & E1 & _ & G1 & _). destruct (S2 x p1 E1) as (p2 & E2 & _ & G2 & I2).
  exists p1, p2. split; [assumption|]. split; [assumption|]. split; [auto|].
  intros Hs m. destruct (I2 Hs) as [->|I]; auto.
Qed.
Print Assumptions C12_mightsee_history.

(** What one completion does: leaf [my] leaves the might-see set of exactly the not-started
    portals of those leafs that some finished portal on [my] might have seen and that no
    portal on [my] still sees. *)
Theorem C12_completion_effect : forall n leafs ps q my mine p ps0,
  leafs_ok n (length ps) leafs -> Forall (portal_ok n) ps ->
  nth_error ps q = Some p -> nth_error leafs my = Some mine -> upd ps q (set_done p) = Some ps0 ->
  exists ps', portal_completed n leafs ps q my = Some ps' /\ length ps' = length ps /\
    forall x p1, nth_error ps0 x = Some p1 -> exists p2, nth_error ps' x = Some p2 /\
      mp_status p2 = mp_status p1 /\ mp_vis p2 = mp_vis p1 /\ portal_ok n p2 /\
      (forall m, has (mp_might p2) m = true <-> has (mp_might p1) m = true /\
         ~ (m = my /\ mp_status p1 = 0%N /\
            exists l qs, nth_error leafs l = Some qs /\ In x qs /\ eliminated ps0 mine l)) /\
      (mp_num p1 = Z.of_nat (card (mp_might p1) n) -> mp_num p2 = Z.of_nat (card (mp_might p2) n)).
Proof. exact completed_effect. Qed.
Print Assumptions C12_completion_effect.

(** Three leafs in a row; portals 0: 0->1, 1: 1->0, 2: 1->2, 3: 2->1.
    Completing portal 1 (into leaf 0, whose only portal 0
    is done and saw nothing of leaf 2) removes leaf 0 from what portal 3 might see. *)
Definition bits3 (w : N) : leafbits := {| lb_size := 3; lb_bits := [w] |}.
Definition row3 := [ {| mp_status := 2; mp_vis := bits3 2; mp_might := bits3 6; mp_num := 2 |};
                     {| mp_status := 1; mp_vis := bits3 1; mp_might := bits3 1; mp_num := 1 |};
                     {| mp_status := 0; mp_vis := bits3 0; mp_might := bits3 4; mp_num := 1 |};
                     {| mp_status := 0; mp_vis := bits3 0; mp_might := bits3 3; mp_num := 2 |} ].
Example C12_nontrivial :
  option_map (map (fun p => (mp_status p, lb_bits (mp_might p), mp_num p)))
    (portal_completed 3 [[0]; [1; 2]; [3]] row3 1 0) =
  Some [(2%N, [6%N], 2%Z); (2%N, [1%N], 1%Z); (0%N, [4%N], 1%Z); (0%N, [2%N], 1%Z)] /\
  option_map (map (fun p => (mp_status p, lb_bits (mp_might p), mp_num p)))
    (mrun 3 [[0]; [1; 2]; [3]] [1; 0; 2; 1] row3 [E_start 3; E_finish 1 (bits3 1)]) =
  Some [(2%N, [6%N], 2%Z); (2%N, [1%N], 1%Z); (0%N, [4%N], 1%Z); (1%N, [3%N], 2%Z)].
Proof. split; vm_compute; reflexivity. Qed.
