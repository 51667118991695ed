(* Portal files: properties C22, C23, C63, C64. *)
From Coq Require Import List Arith NArith ZArith Bool Lia.
Import ListNotations.
From Verif Require Import Base ParserModel StreamModel StreamProofs EntModel PrtModel PrtProofs.
Local Open Scope nat_scope.

(** ** C22: what is written is read back. *)
Theorem C22_prt1_roundtrip : forall q2 leafs ps, (Z.of_nat leafs < INT_MAX)%Z -> (Z.of_nat (length ps) <= INT_MAX)%Z ->
  (forall p, In p ps -> wp_a p <= leafs /\ wp_b p <= leafs /\ length (wp_winding p) <= 64 /\
                        forall x y z, In (x, y, z) (wp_winding p) -> number_text x /\ number_text y /\ number_text z) ->
  load_prt q2 (write_prt1 leafs ps) =
  P_ok (if q2 then mkPrt (Z.of_nat leafs) 0 (map (fun p => mkPP (Z.of_nat (wp_a p)) (Z.of_nat (wp_b p)) (wp_winding p)) ps) []
        else mkPrt (Z.of_nat leafs) (Z.of_nat leafs)
               (map (fun p => mkPP (Z.of_nat (wp_a p)) (Z.of_nat (wp_b p)) (wp_winding p)) ps)
               (0%Z :: map Z.of_nat (seq 0 leafs))).
Proof.
  intros q2 leafs ps H1 H2 H3. apply (prt1_roundtrip q2 leafs ps H1 H2). apply Forall_forall. intros p I.
  destruct (H3 p I) as [A [B [D E]]]. repeat split; auto. apply Forall_forall. intros [[x y] z] J. exact (E x y z J).
Qed.
Print Assumptions C22_prt1_roundtrip.

Theorem C22_prt2_roundtrip : forall real ps cs, (Z.of_nat real < INT_MAX)%Z -> (Z.of_nat (length ps) <= INT_MAX)%Z ->
  Forall (fun c => c <> []) cs -> concat cs = seq 0 real ->
  (forall p, In p ps -> wp_a p <= length cs /\ wp_b p <= length cs /\ length (wp_winding p) <= 64 /\
                        forall x y z, In (x, y, z) (wp_winding p) -> number_text x /\ number_text y /\ number_text z) ->
  exists cl, load_prt false (write_prt2 real (length cs) ps (print_table cs)) =
    P_ok (mkPrt (Z.of_nat (length cs)) (Z.of_nat real)
           (map (fun p => mkPP (Z.of_nat (wp_a p)) (Z.of_nat (wp_b p)) (wp_winding p)) ps) cl) /\
    length cl = S real /\
    forall k c n, nth_error cs k = Some c -> In n c -> nth_error cl (S n) = Some (Z.of_nat k).
Proof.
  intros real ps cs H1 H2 H3 H4 H5. apply (prt2_roundtrip real ps cs H1 H2 H3 H4). apply Forall_forall. intros p I.
  destruct (H5 p I) as [A [B [D E]]]. repeat split; auto. apply Forall_forall. intros [[x y] z] J. exact (E x y z J).
Qed.
Print Assumptions C22_prt2_roundtrip.

Local Open Scope N_scope.
Definition n0 : bytes := [48]. Definition n1 : bytes := [45; 49; 50; 46; 53]. Definition n2 : bytes := [49; 101; 45; 48; 53].
Local Open Scope nat_scope.
Definition ex_portals : list wportal :=
  [mkWP 0 1 [(n0, n0, n1); (n1, n0, n2); (n2, n2, n2)]; mkWP 1 0 [(n0, n1, n2); (n0, n0, n0); (n1, n1, n1)]].

(** Three leafs in two clusters and two portals. *)
Example C22_nontrivial : exists cl,
  load_prt false (write_prt2 3 2 ex_portals (print_table [[0; 1]; [2]])) =
  P_ok (mkPrt 2 3 [mkPP 0 1 [(n0, n0, n1); (n1, n0, n2); (n2, n2, n2)]; mkPP 1 0 [(n0, n1, n2); (n0, n0, n0); (n1, n1, n1)]] cl) /\
  cl = [0; 0; 0; 1]%Z.
Proof. eexists. split; [vm_compute; reflexivity|reflexivity]. Qed.

(** ** C23: the range check. *)
Theorem C23_leaf_range_partial : forall q2 t f, load_prt q2 t = P_ok f -> (0 <= pf_leafs f)%Z ->
  forall p, In p (pf_portals f) ->
  (0 <= pp_leaf0 p <= pf_leafs f)%Z /\ (0 <= pp_leaf1 p <= pf_leafs f)%Z /\ length (pp_winding p) <= 64.
Proof. intros q2 t f H L p I. pose proof (load_range q2 t f H L) as F. rewrite Forall_forall in F. exact (F p I). Qed.
Print Assumptions C23_leaf_range_partial.

(** "PRT1\n1\n1\n0 0 1 \n": one leaf, a portal to leaf 1. *)
Definition bad_prt : bytes := write_prt1 1 [mkWP 0 1 [(n0, n0, n0); (n0, n1, n0); (n1, n1, n0)]].

Theorem C23_last_leaf_refuted : exists f, load_prt false bad_prt = P_ok f /\
  (exists p, In p (pf_portals f) /\ pp_leaf1 p = pf_leafs f) /\ forall ndleafs, load_portals false f ndleafs = P_UB.
Proof.
  destruct (load_prt false bad_prt) as [f| | | |] eqn:E; vm_compute in E; try discriminate.
  injection E as <-. eexists. split; [reflexivity|]. split.
  - eexists. split; [left; reflexivity|reflexivity].
  - intro nd. reflexivity.
Qed.
Print Assumptions C23_last_leaf_refuted.

(** A file with a leaf number beyond the last is refused. *)
Example C23_nontrivial : load_prt false (write_prt1 1 [mkWP 0 2 [(n0, n0, n0)]]) = P_error.
Proof. vm_compute. reflexivity. Qed.

(** ** C63: the reader ends, with a result or an error, on every text. *)
Theorem C63_other_loops_end_partial : forall q2 t, load_prt q2 t <> P_fuel.
Proof. exact load_no_fuel. Qed.
Print Assumptions C63_other_loops_end_partial.

(** A file cut off inside a portal: the search for the parenthesis never ends. *)
Theorem C63_truncated_hangs_refuted : exists t n, load_prt false t = P_ok (mkPrt 1 1 [mkPP 0 0 [(n0, n0, n0)]] [0; 0]%Z) /\
  n < length t /\ load_prt false (firstn n t) = P_hang.
Proof.
  exists (write_prt1 1 [mkWP 0 0 [(n0, n0, n0)]]), 15. split; [vm_compute; reflexivity|]. split; [apply Nat.leb_le; reflexivity|].
  vm_compute. reflexivity.
Qed.
Print Assumptions C63_truncated_hangs_refuted.

(** A file with fewer portals than announced: variables are used that were never set. *)
Theorem C63_missing_portal_undefined_refuted : load_prt false (write_prt1 1 []) = P_ok (mkPrt 1 1 [] [0; 0]%Z) /\
  load_prt false (sPRT1 ++ [nl] ++ print_nat 1 ++ [nl] ++ print_nat 1 ++ [nl]) = P_UB.
Proof. split; vm_compute; reflexivity. Qed.
Print Assumptions C63_missing_portal_undefined_refuted.

(** A PRT1-AM file with more leafs than clusters, the only useful kind: the cluster table is sized
    by the clusters but indexed by the leafs. *)
Theorem C63_am_overflow_refuted :
  load_prt false (sPRTAM ++ [nl] ++ print_nat 1 ++ [nl] ++ print_nat 0 ++ [nl] ++ print_nat 2 ++ [nl] ++
                  print_nat 0 ++ [nl] ++ print_nat 0 ++ [nl]) = P_UB.
Proof. vm_compute. reflexivity. Qed.
Print Assumptions C63_am_overflow_refuted.

(** ** C64: vis splits every portal into two and hangs each on the leaf it leaves. *)
Theorem C64_portal_pairs : forall q2 f nd n, pf_leafs f = Z.of_nat n ->
  (forall p, In p (pf_portals f) -> (0 <= pp_leaf0 p < Z.of_nat n)%Z /\ (0 <= pp_leaf1 p < Z.of_nat n)%Z) ->
  (q2 = true \/ length (pf_clusters f) <= nd) ->
  exists t cl, load_portals q2 f nd = P_ok (t, cl) /\
  length (vt_dest t) = 2 * length (pf_portals f) /\
  (forall k p, nth_error (pf_portals f) k = Some p ->
     nth_error (vt_dest t) (2 * k) = Some (pp_leaf1 p) /\ nth_error (vt_dest t) (2 * k + 1) = Some (pp_leaf0 p)) /\
  length (vt_leafs t) = n /\
  (forall l, l < n -> exists ids, nth_error (vt_leafs t) l = Some ids /\ NoDup ids /\
     forall i, In i ids <-> exists k p, nth_error (pf_portals f) k = Some p /\
       ((i = 2 * k /\ pp_leaf0 p = Z.of_nat l) \/ (i = 2 * k + 1 /\ pp_leaf1 p = Z.of_nat l))).
Proof.
  intros q2 f nd n H1 H2 H3.
  destruct (load_portals_spec q2 f nd n H1) as [t [cl [E [D [L [T _]]]]]]; [|exact H3|].
  { apply Forall_forall. intros p I. exact (H2 p I). }
  exists t, cl. split; [exact E|]. set (ps := pf_portals f) in *.
  assert (EV : forall k p, nth_error ps k = Some p ->
    src_of ps (2 * k) = pp_leaf0 p /\ dst_of ps (2 * k) = pp_leaf1 p /\ src_of ps (2 * k + 1) = pp_leaf1 p /\ dst_of ps (2 * k + 1) = pp_leaf0 p).
  { intros k p K. unfold src_of, dst_of.
    replace (2 * k / 2) with k by (rewrite Nat.mul_comm, Nat.div_mul; lia).
    replace ((2 * k + 1) / 2) with k by (rewrite Nat.add_comm, Nat.mul_comm, Nat.div_add; [reflexivity|lia]).
    rewrite K. rewrite Nat.add_1_r, Nat.even_succ, Nat.odd_mul, Nat.even_mul. cbn [Nat.even Nat.odd negb orb andb]. auto. }
  assert (KL : forall k p, nth_error ps k = Some p -> k < length ps) by (intros k p K; apply nth_error_Some; congruence).
  split; [rewrite D, map_length, seq_length; reflexivity|]. split.
  { intros k p K. destruct (EV k p K) as [_ [E1 [_ E2]]]. specialize (KL k p K). rewrite D, !nth_error_map.
    rewrite !(nth_error_nth' _ 0) by (rewrite seq_length; lia). rewrite !seq_nth by lia. cbn [option_map Nat.add].
    change (k + (k + 0)) with (2 * k). rewrite E1, E2. split; reflexivity. }
  split; [exact L|]. intros l LL. exists (leaving ps l). split; [exact (T l LL)|].
  split; [apply NoDup_filter; apply seq_NoDup|].
  intro i. unfold leaving. rewrite filter_In, in_seq. split.
  - intros [[_ B] S]. apply Z.eqb_eq in S.
    assert (HL : i / 2 < length ps) by (apply Nat.div_lt_upper_bound; lia).
    destruct (nth_error ps (i / 2)) as [p|] eqn:K; [|apply nth_error_None in K; lia].
    exists (i / 2), p. split; [exact K|].
    pose proof (Nat.div_mod i 2 ltac:(lia)) as DM. pose proof (Nat.mod_upper_bound i 2 ltac:(lia)) as MB.
    destruct (EV (i / 2) p K) as [E1 [_ [E2 _]]].
    destruct (i mod 2) as [|[|m]] eqn:M; [left|right|lia].
    + assert (X : i = 2 * (i / 2)) by lia. split; [exact X|]. rewrite <- E1, <- X. exact S.
    + assert (X : i = 2 * (i / 2) + 1) by lia. split; [exact X|]. rewrite <- E2, <- X. exact S.
  - intros [k [p [K O]]]. specialize (KL k p K). destruct (EV k p K) as [E1 [_ [E2 _]]].
    destruct O as [[-> O]|[-> O]]; (split; [lia|]); apply Z.eqb_eq; congruence.
Qed.
Print Assumptions C64_portal_pairs.

Example C64_nontrivial : load_portals false (mkPrt 3 3 [mkPP 0 1 []; mkPP 2 0 []] [0; 0; 1; 2]%Z) 4 =
  P_ok (mkVT [[0; 3]; [1]; [2]] [1; 0; 0; 2]%Z, [0; 1; 2]%Z).
Proof. reflexivity. Qed.
