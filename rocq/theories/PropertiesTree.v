(* Numbering, cluster table, pruning and export of trees: properties C24-C30, C65-C67. *)
From Coq Require Import List Arith NArith ZArith Bool Lia Permutation Sorted.
Import ListNotations.
From Verif Require Import Base ParserModel StreamModel StreamProofs PrtModel PrtProofs TreeModel TreeNumberProofs TreeExportProofs.
Local Open Scope nat_scope.

(** Example trees: contents are numbers, 0 is solid, 9 a detail wall. *)
Definition xsolid (c : nat) : bool := c =? 0.
Definition xleaf (c : nat) (m : list nat) : leafD nat := mkLD c m [].
Definition xnode (p : nat) (d : bool) a b : tree nodeD (leafD nat) := Node (mkND p d []) a b.
Definition ex_tree : tree nodeD (leafD nat) :=
  xnode 0 false (xnode 1 true (Leaf (xleaf 1 [5; 6])) (xnode 2 true (Leaf (xleaf 0 [])) (Leaf (xleaf 2 [7]))))
                (xnode 3 false (Leaf (xleaf 0 [])) (Leaf (xleaf 3 [5]))).

(** ** C24: numbering.  [open_leafs t] are the leafs that are not solid in tree order, [groups t] the
    clusters: all open leafs below a topmost detail separator, or one open leaf. *)
Theorem C24_numbering : forall C (solid : C -> bool) t t' s, number_tree solid t = (t', s) ->
  map nl_leaf (tleafs t') = tleafs t /\
  map nl_leaf (filter (fun l => negb (solid (lf_contents (nl_leaf l)))) (tleafs t')) = concat (groups solid t) /\
  map nl_num (filter (fun l => negb (solid (lf_contents (nl_leaf l)))) (tleafs t')) =
    map Some (seq 0 (length (open_leafs solid t))) /\
  map nl_cluster (filter (fun l => negb (solid (lf_contents (nl_leaf l)))) (tleafs t')) =
    map Some (labels (groups solid t) 0) /\
  (forall l, In l (tleafs t') -> solid (lf_contents (nl_leaf l)) = true -> nl_num l = None /\ nl_cluster l = None) /\
  st_leafs s = length (open_leafs solid t) /\ st_clusters s = length (groups solid t) /\ st_detail s = has_detail t.
Proof.
  intros C solid t t' s E. unfold number_tree in E.
  destruct (number_none solid t (mkPS 0 0 0 false)) as [t1 [s1 [E1 [A [B [D [F [G H]]]]]]]].
  rewrite E in E1. injection E1 as <- <-. cbn [st_leafs st_clusters st_detail Nat.add orb] in *.
  change (filter (fun l : nleaf C => negb (solid (lf_contents (nl_leaf l)))) (tleafs t')) with (filter (nopen solid) (tleafs t')).
  rewrite B. rewrite groups_concat.
  assert (LL : length (labels (groups solid t) 0) = length (open_leafs solid t)) by (rewrite labels_length, groups_concat; reflexivity).
  assert (GEN : forall ls n cs, length cs = length ls ->
    map nl_num (numbered ls n cs) = map Some (seq n (length ls)) /\ map nl_cluster (@numbered C ls n cs) = map Some cs).
  { induction ls as [|l ls IH]; intros n cs H0; destruct cs as [|c cs]; try discriminate; [split; reflexivity|].
    injection H0 as H0. destruct (IH (S n) cs H0) as [I1 I2]. cbn [numbered map length seq nl_num nl_cluster].
    rewrite I1, I2. split; reflexivity. }
  destruct (GEN (open_leafs solid t) 0 _ LL) as [G1 G2].
  split; [exact A|]. split; [apply numbered_leafs; exact LL|]. split; [exact G1|]. split; [exact G2|]. split; [|auto].
  intros l I S. rewrite Forall_forall in D. apply (D l I). unfold nopen, isopen. rewrite S. reflexivity.
Qed.
Print Assumptions C24_numbering.

(** On a pruned tree no cluster number is wasted. *)
Theorem C24_clusters_dense : forall C (solid : C -> bool) t t' s, pruned solid t -> number_tree solid t = (t', s) ->
  forall k, k < st_clusters s <-> exists l, In l (tleafs t') /\ nl_cluster l = Some k.
Proof.
  intros C solid t t' s P E k. destruct (C24_numbering C solid t t' s E) as [_ [_ [_ [CL [SO [_ [CN _]]]]]]].
  set (op := fun l : nleaf C => negb (solid (lf_contents (nl_leaf l)))) in *.
  assert (IN : (exists l, In l (tleafs t') /\ nl_cluster l = Some k) <-> In k (labels (groups solid t) 0)).
  { split.
    - intros [l [I1 I2]]. assert (O : op l = true).
      { unfold op. destruct (solid (lf_contents (nl_leaf l))) eqn:S; [|reflexivity]. destruct (SO l I1 S). congruence. }
      assert (X : In (Some k) (map nl_cluster (filter op (tleafs t')))) by (rewrite <- I2; apply in_map; apply filter_In; auto).
      rewrite CL in X. apply in_map_iff in X. destruct X as [y [Y1 Y2]]. congruence.
    - intro X. assert (Y : In (Some k) (map Some (labels (groups solid t) 0))) by (apply in_map; exact X).
      rewrite <- CL in Y. apply in_map_iff in Y. destruct Y as [l [L1 L2]]. apply filter_In in L2. exists l. tauto. }
  rewrite IN, CN. clear IN CL SO CN E t' s.
  pose proof (pruned_groups solid t P) as NE.
  assert (G : forall gs b, Forall (fun g : list (leafD C) => g <> []) gs -> forall k, In k (labels gs b) <-> b <= k < b + length gs).
  { induction gs as [|g gs IH]; intros b F j; cbn [labels length].
    - cbn [In]. lia.
    - inversion F as [|? ? F1 F2]. subst. rewrite in_app_iff, (IH (S b) F2 j).
      assert (RP : In j (repeat b (length g)) <-> j = b).
      { split; [intro X; apply repeat_spec in X; exact X|]. intros ->. destruct g; [contradiction|]. left. reflexivity. }
      rewrite RP. lia. }
  rewrite (G _ 0 NE k). lia.
Qed.
Print Assumptions C24_clusters_dense.

Example C24_nontrivial : 
  map (fun l => (nl_num l, nl_cluster l)) (tleafs (fst (number_tree xsolid ex_tree))) =
    [(Some 0, Some 0); (None, None); (Some 1, Some 0); (None, None); (Some 2, Some 1)] /\
  snd (number_tree xsolid ex_tree) = mkPS 3 2 0 true.
Proof. split; reflexivity. Qed.

(** ** C25: the cluster table. *)
Theorem C25_cluster_table : forall C (solid : C -> bool) t t' s ps, pruned solid t -> any_solid_leaf solid t = false ->
  number_tree solid t = (t', s) ->
  (Z.of_nat (st_leafs s) < INT_MAX)%Z -> (Z.of_nat (length ps) <= INT_MAX)%Z -> Forall (printable (st_clusters s)) ps ->
  exists table f, write_table solid t' (st_clusters s) = Some table /\
    load_prt false (write_prt2 (st_leafs s) (st_clusters s) ps table) = P_ok f /\
    pf_leafs f = Z.of_nat (st_clusters s) /\ pf_real f = Z.of_nat (st_leafs s) /\ pf_portals f = map prt_of ps /\
    forall l n c, In l (tleafs t') -> nl_num l = Some n -> nl_cluster l = Some c ->
      nth_error (pf_clusters f) (S n) = Some (Z.of_nat c).
Proof.
  intros C solid t t' s ps P O E HL HP FP.
  pose proof (write_table_spec solid t t' s P O E) as WT.
  unfold number_tree in E.
  destruct (number_none solid t (mkPS 0 0 0 false)) as [t1 [s1 [E1 [_ [B [D [F [G _]]]]]]]].
  rewrite E in E1. injection E1 as <- <-. cbn [st_leafs st_clusters Nat.add] in *.
  pose proof (pruned_groups solid t P) as NE.
  set (cs := nums (groups solid t) 0) in *.
  assert (LC : length cs = st_clusters s) by (unfold cs; rewrite nums_length; congruence).
  assert (CC : concat cs = seq 0 (st_leafs s)) by (unfold cs; rewrite nums_concat, groups_concat, F; reflexivity).
  assert (NC : Forall (fun c => c <> []) cs).
  { unfold cs. clear - NE. generalize 0. induction NE as [|g gs H _ IH]; intro n; cbn [nums]; [constructor|].
    constructor; [|apply IH]. destruct g; [contradiction|]. discriminate. }
  rewrite <- LC in FP. destruct (prt2_roundtrip (st_leafs s) ps cs HL HP NC CC FP) as [cl [L1 [L2 L3]]].
  exists (print_table cs). eexists. split; [exact WT|]. rewrite LC in L1. split; [exact L1|].
  cbn [pf_leafs pf_real pf_portals pf_clusters]. split; [reflexivity|]. split; [reflexivity|]. split; [reflexivity|].
  intros l n c I N CL.
  assert (OP : nopen solid l = true).
  { destruct (nopen solid l) eqn:X; [reflexivity|]. rewrite Forall_forall in D. destruct (D l I X). congruence. }
  assert (IN : In l (numbered (open_leafs solid t) 0 (labels (groups solid t) 0))) by (rewrite <- B; apply filter_In; auto).
  rewrite <- groups_concat in IN.
  assert (GEN : forall gs b k, In l (@numbered C (concat gs) b (labels gs k)) -> 
    k <= c /\ exists x, nth_error (nums gs b) (c - k) = Some x /\ In n x).
  { induction gs as [|g gs IH]; intros b k J; cbn [concat labels nums numbered] in *; [contradiction|].
    rewrite numbered_app in J by apply repeat_length. apply in_app_or in J. destruct J as [J|J].
    - assert (GG : forall (g0 : list (leafD C)) b0, In l (numbered g0 b0 (repeat k (length g0))) -> c = k /\ In n (seq b0 (length g0))).
      { induction g0 as [|y g0 IHg]; intros b0 K; cbn [length repeat numbered] in K; [contradiction|].
        destruct K as [K|K].
        - subst l. cbn [nl_num nl_cluster] in *. split; [congruence|]. left. congruence.
        - destruct (IHg (S b0) K) as [K1 K2]. split; [exact K1|]. right. exact K2. }
      destruct (GG g b J) as [K1 K2]. subst k. split; [lia|]. exists (seq b (length g)). rewrite Nat.sub_diag. split; [reflexivity|exact K2].
    - destruct (IH _ _ J) as [K1 [x [K2 K3]]]. split; [lia|]. exists x. split; [|exact K3].
      replace (c - k) with (S (c - S k)) by lia. exact K2. }
  destruct (GEN _ _ _ IN) as [_ [x [X1 X2]]]. rewrite Nat.sub_0_r in X1. exact (L3 c x n X1 X2).
Qed.
Print Assumptions C25_cluster_table.

(** Without pruning a detail node may have no open leaf below; then the writer reports an error. *)
Theorem C25_needs_pruning : exists t t' s, number_tree xsolid t = (t', s) /\ any_solid_leaf xsolid t = false /\
  write_table xsolid t' (st_clusters s) = None.
Proof.
  exists (xnode 0 false (Leaf (xleaf 1 [])) (xnode 1 true (Leaf (xleaf 0 [])) (Leaf (xleaf 0 [])))).
  eexists. eexists. split; [reflexivity|]. split; [reflexivity|vm_compute; reflexivity].
Qed.
Print Assumptions C25_needs_pruning.

Example C25_nontrivial : pruned xsolid ex_tree /\
  write_table xsolid (fst (number_tree xsolid ex_tree)) 2 = Some [48; 32; 49; 32; 45; 49; 10; 50; 32; 45; 49; 10]%N.
Proof. split; [cbn; repeat split; intros [H1 H2]; discriminate|vm_compute; reflexivity]. Qed.

(* ------------------------------------------------------------------------------------------- *)

(** The state after BeginBSPFile: one leaf, nothing else, no plane numbered. *)
Definition begin_state {P Q} (planes : list P) (solid_native : Z) : xst P Q :=
  mkX (map (fun p => (p, None)) planes) [] [] [mkDL solid_native 0 0] [] [].

Lemma begin_wf : forall P Q (narrow : P -> Q) planes z, planes_wf narrow (begin_state planes z).
Proof.
  intros P Q narrow planes z. split; cbn [begin_state x_planes x_dplanes].
  - intros n p k H. rewrite nth_error_map in H. destruct (nth_error planes n); discriminate.
  - intros n m p p' k H. rewrite nth_error_map in H. destruct (nth_error planes n); discriminate.
Qed.

(** ** C26: vis leaf k is BSP leaf k+1 (Quake-style targets), and visleafs is their number. *)
Theorem C26_leaf_numbers_agree : forall C P Q (solid : C -> bool) (narrow : P -> Q) export_contents t t' s planes z head vis x,
  number_tree solid t = (t', s) ->
  export_model solid false narrow export_contents t (begin_state planes z) = X_ok (head, vis, x) ->
  (forall l k, In l (tleafs t') -> nl_num l = Some k ->
     exists c first, nth_error (x_leafs x) (k + 1) = Some (mkDL c first (length (lf_marks (nl_leaf l)))) /\
     export_contents (lf_contents (nl_leaf l)) = Some c) /\
  (any_solid_leaf solid t = false -> vis = st_leafs s /\ length (x_leafs x) = S (st_leafs s)).
Proof.
  intros C P Q solid narrow export_contents t t' s planes z head vis x E X.
  destruct (C24_numbering C solid t t' s E) as [A [B [N [_ [SO [SL _]]]]]].
  set (op := fun l : nleaf C => negb (solid (lf_contents (nl_leaf l)))) in *.
  (* position k of the open leafs *)
  assert (POS : forall l k, In l (tleafs t') -> nl_num l = Some k -> nth_error (open_leafs solid t) k = Some (nl_leaf l)).
  { intros l k I NK. assert (O : op l = true).
    { unfold op. destruct (solid (lf_contents (nl_leaf l))) eqn:S; [|reflexivity]. destruct (SO l I S). congruence. }
    assert (IO : In l (filter op (tleafs t'))) by (apply filter_In; auto).
    apply In_nth_error in IO. destruct IO as [j J].
    assert (NJ : nth_error (map nl_num (filter op (tleafs t'))) j = Some (Some k)) by (rewrite nth_error_map, J; cbn; congruence).
    rewrite N, nth_error_map in NJ.
    destruct (nth_error (seq 0 (length (open_leafs solid t))) j) as [q|] eqn:SJ; [|discriminate]. cbn in NJ.
    assert (JL : j < length (open_leafs solid t)) by (rewrite <- (seq_length (length (open_leafs solid t)) 0); apply nth_error_Some; congruence).
    rewrite (nth_error_nth' _ 0) in SJ by (rewrite seq_length; exact JL). rewrite seq_nth in SJ by exact JL.
    assert (j = k) by (cbn in SJ; congruence). subst j.
    rewrite <- groups_concat, <- B, nth_error_map, J. reflexivity. }
  unfold export_model in X.
  destruct t as [l0|d a b].
  - destruct (export_leaf export_contents l0 (begin_state planes z)) as [x1| |] eqn:EL; try discriminate. cbn [xbind] in X.
    injection X as <- <- <-. destruct (export_leaf_spec export_contents _ _ _ EL) as [_ [_ [_ [_ [H5 [_ [c [f [H7 [H8 _]]]]]]]]]].
    split.
    + intros l k I NK. pose proof (POS l k I NK) as PK. unfold open_leafs in PK. cbn [tleafs filter] in PK.
      destruct (isopen solid l0); [|destruct k; discriminate]. destruct k as [|k]; [|destruct k; discriminate].
      cbn [nth_error] in PK. injection PK as PK. rewrite <- PK. exists c, f. split; [exact H7|exact H8].
    + intro O. rewrite H5. cbn [begin_state x_leafs recs app length]. rewrite SL. unfold open_leafs. cbn [tleafs filter].
      cbn [any_solid_leaf] in O. unfold lsolid in O. unfold isopen. rewrite O. cbn [negb length]. split; reflexivity.
  - destruct (export_draw solid false narrow export_contents (Node d a b) (begin_state planes z)) as [[r x1]| |] eqn:ED; try discriminate.
    cbn [xbind] in X. injection X as <- <- <-.
    destruct (export_draw_spec solid false narrow export_contents _ _ _ _ (begin_wf P Q narrow planes z) ED) as [_ [_ [_ [RP [XL [XM _]]]]]].
    assert (EO : exported solid false (Node d a b) = open_leafs solid (Node d a b)) by reflexivity.
    rewrite EO in *. split.
    + intros l k I NK. pose proof (POS l k I NK) as PK.
      assert (CO : forall (t0 : tree nodeD (leafD C)) lo r0, repr solid false narrow export_contents lo x1 t0 r0 ->
        forall l', In l' (open_leafs solid t0) -> exists c, export_contents (lf_contents l') = Some c).
      { unfold open_leafs. induction t0 as [l1|d1 a1 IH1 b1 IH2]; intros lo r0 R l' I'; cbn [repr tleafs] in *.
        - cbn [filter] in I'. unfold isopen in I'. unfold lsolid in R. destruct (solid (lf_contents l1)); cbn [negb andb] in *; [contradiction|].
          destruct R as [i [_ [c [f [_ [R _]]]]]]. destruct I' as [<-|[]]. eauto.
        - rewrite filter_app in I'. destruct R as [k0 [n0 [p0 [_ [_ [_ [_ [_ [R1 R2]]]]]]]]]. apply in_app_or in I'.
          destruct I' as [I'|I']; [exact (IH1 _ _ R1 _ I')|exact (IH2 _ _ R2 _ I')]. }
      destruct (CO _ _ _ RP (nl_leaf l) (nth_error_In _ _ PK)) as [c CE].
      exists c. eexists. split; [|exact CE].
      rewrite XL. cbn [begin_state x_leafs app]. rewrite Nat.add_1_r. cbn [nth_error].
      rewrite (recs_nth export_contents _ _ _ _ PK). unfold ec. rewrite CE. reflexivity.
    + intros _. rewrite XL, app_length, recs_length. cbn [begin_state x_leafs length]. rewrite SL.
      change (open_leafs (C := C) solid (Node d a b)) with (open_leafs solid (Node d a b)). split; lia.
Qed.
Print Assumptions C26_leaf_numbers_agree.

(** ** C27: the exported draw tree. *)
Definition model_leaf {P Q} (fuel : nat) (front : Q -> bool) (x : xst P Q) (head : Z) : option dleaf :=
  match find_leaf fuel front x head with Some i => nth_error (x_leafs x) i | None => None end.

Theorem C27_draw_tree_partial : forall C P Q (solid : C -> bool) q2 (narrow : P -> Q) export_contents t x0 head vis x1 x2 z,
  planes_wf narrow x0 -> nth_error (x_leafs x0) 0 = Some (mkDL z 0 0) ->
  (exists d a b, t = Node d a b) ->
  export_model solid q2 narrow export_contents t x0 = X_ok (head, vis, x1) -> ext x1 x2 ->
  forall (front : Q -> bool) fuel, depth t <= fuel ->
  let l := locate (fun n => match nth_error (map fst (x_planes x0)) n with Some p => front (narrow p) | None => false end) t in
  if negb q2 && solid (lf_contents l)
  then find_leaf fuel front x2 head = Some 0 /\ model_leaf fuel front x2 head = Some (mkDL z 0 0)
  else exists c first, export_contents (lf_contents l) = Some c /\
         model_leaf fuel front x2 head = Some (mkDL c first (length (lf_marks l))) /\
         firstn (length (lf_marks l)) (skipn first (x_marks x2)) = lf_marks l.
Proof.
  intros C P Q solid q2 narrow export_contents t x0 head vis x1 x2 z W L0 [d [a [b ->]]] X EX front fuel D.
  unfold export_model in X. destruct (export_draw solid q2 narrow export_contents (Node d a b) x0) as [[r y]| |] eqn:ED; try discriminate.
  cbn [xbind] in X. injection X as <- <- <-.
  destruct (export_draw_spec solid q2 narrow export_contents _ _ _ _ W ED) as [RR [_ [E1 [RP _]]]].
  cbn [next_ref] in RR. subst r.
  assert (R2 : repr solid q2 narrow export_contents (length (x_nodes x0)) x2 (Node d a b) (Z.of_nat (length (x_nodes x0)))) by (eapply repr_ext; eassumption).
  destruct (find_leaf_repr solid q2 narrow export_contents _ _ _ _ front fuel D R2) as [i [F LE]].
  assert (SS : forall n, sides narrow front x2 n = match nth_error (map fst (x_planes x0)) n with Some p => front (narrow p) | None => false end).
  { intro n. unfold sides. destruct EX as [EX _]. destruct E1 as [E1 _]. rewrite EX, E1. reflexivity. }
  assert (LX : forall (t0 : tree nodeD (leafD C)), locate (sides narrow front x2) t0 =
    locate (fun n => match nth_error (map fst (x_planes x0)) n with Some p => front (narrow p) | None => false end) t0).
  { induction t0 as [l1|d1 a1 IH1 b1 IH2]; cbn [locate]; [reflexivity|]. rewrite SS, IH1, IH2. reflexivity. }
  rewrite LX in LE. cbv zeta in *. unfold lsolid in LE. unfold model_leaf. rewrite F.
  destruct (negb q2 && solid (lf_contents (locate (fun n => match nth_error (map fst (x_planes x0)) n with Some p => front (narrow p) | None => false end) (Node d a b)))).
  - subst i. split; [reflexivity|]. eapply prefix_nth; [|exact L0].
    eapply prefix_trans; [apply E1|apply EX].
  - destruct LE as [c [f [H1 [H2 [H3 _]]]]]. exists c, f. auto.
Qed.
Print Assumptions C27_draw_tree_partial.

(** Export of a pruned tree with valid contents succeeds: the assertions hold. *)
Theorem C27_export_succeeds : forall C P Q (solid : C -> bool) q2 (narrow : P -> Q) export_contents t x0,
  planes_wf narrow x0 -> 1 <= length (x_leafs x0) -> planes_below (length (x_planes x0)) t ->
  (q2 = true \/ no_solid_pair solid t) ->
  (forall l, In l (tleafs t) -> export_contents (lf_contents l) <> None) ->
  exists head vis x1, export_model solid q2 narrow export_contents t x0 = X_ok (head, vis, x1).
Proof.
  intros C P Q solid q2 narrow export_contents t x0 W L PB NS CO. unfold export_model. destruct t as [l|d a b].
  - unfold export_leaf. destruct (export_contents (lf_contents l)) eqn:E; [cbn [xbind]; eauto|].
    exfalso. apply (CO l); [left; reflexivity|exact E].
  - destruct (export_draw_ok solid q2 narrow export_contents _ _ W L PB NS) as [r [s' E]].
    + apply Forall_forall. intros l I _. apply CO. exact I.
    + rewrite E. cbn [xbind]. eauto.
Qed.
Print Assumptions C27_export_succeeds.

(** A model whose tree is a single leaf: its head node number is that of a node that does not
    exist, or belongs to the next model. *)
Theorem C27_single_leaf_refuted : exists (t1 t2 : tree nodeD (leafD nat)) head1 vis1 head2 vis2 x1 x2,
  export_model xsolid false (fun p : nat => p) (fun c => Some (Z.of_nat c)) t1 (begin_state [0] 0) = X_ok (head1, vis1, x1) /\
  model_leaf 5 (fun _ : nat => true) x1 head1 = None /\
  export_model xsolid false (fun p : nat => p) (fun c => Some (Z.of_nat c)) t2 x1 = X_ok (head2, vis2, x2) /\
  lf_contents (locate (fun _ => true) t1) = 4 /\ model_leaf 5 (fun _ => true) x2 head1 = Some (mkDL 7 0 0).
Proof.
  exists (Leaf (xleaf 4 [])), (xnode 0 false (Leaf (xleaf 7 [])) (Leaf (xleaf 0 []))).
  do 6 eexists. split; [reflexivity|]. split; [reflexivity|]. split; [reflexivity|]. split; reflexivity.
Qed.
Print Assumptions C27_single_leaf_refuted.

Definition ex_state : xst nat nat := begin_state [10; 11; 12; 13] (-2)%Z.
Definition ex_export : xres (Z * nat * xst nat nat) :=
  export_model xsolid false (fun p => p) (fun c => Some (- Z.of_nat c)%Z) ex_tree ex_state.

Example C26_nontrivial : exists x, ex_export = X_ok (0%Z, 3, x) /\ length (x_nodes x) = 4 /\
  map dl_contents (x_leafs x) = [-2; -1; -2; -3]%Z /\ x_marks x = [5; 6; 7; 5].
Proof. eexists. split; [vm_compute; reflexivity|]. repeat split. Qed.

Example C27_nontrivial : exists x, ex_export = X_ok (0%Z, 3, x) /\
  model_leaf 5 (fun q => q =? 10) x 0 = Some (mkDL (-2) 2 1)%Z /\
  model_leaf 5 (fun q => negb (q =? 10)) x 0 = Some (mkDL (-2) 0 0)%Z.
Proof. eexists. split; [vm_compute; reflexivity|]. split; vm_compute; reflexivity. Qed.

(** ** C28: the exported clip hull. *)
Theorem C28_clip_hull : forall C P Q (narrow : P -> Q) native t (x0 : xst P Q) r x1 x2,
  (forall c z, native c = Some z -> (z < 0)%Z) -> planes_wf narrow x0 ->
  export_clip narrow native t x0 = X_ok (r, x1) -> ext x1 x2 ->
  forall (front : Q -> bool) fuel, depth t <= fuel ->
  let l := locate (fun n => match nth_error (map fst (x_planes x0)) n with Some p => front (narrow p) | None => false end) t in
  exists z, native (lf_contents (C := C) l) = Some z /\
  find_contents fuel front (x_dplanes x2) (x_clip x2) r = Some z /\
  forall clip', clip16 (x_clip x2) = Some clip' -> find_contents fuel front (x_dplanes x2) clip' r = Some z.
Proof.
  intros C P Q narrow native t x0 r x1 x2 NN W X EX front fuel D. cbv zeta.
  destruct (export_clip_spec narrow native _ _ _ _ W X) as [_ [E1 R1]].
  pose proof (crepr_ext narrow native _ _ _ _ _ EX R1) as R2.
  pose proof (find_contents_repr narrow native NN _ _ _ _ front fuel D R2) as F.
  assert (SS : forall n, sides narrow front x2 n = match nth_error (map fst (x_planes x0)) n with Some p => front (narrow p) | None => false end).
  { intro n. unfold sides. destruct EX as [EX _]. destruct E1 as [E1 _]. rewrite EX, E1. reflexivity. }
  assert (LX : forall (t0 : tree nodeD (leafD C)), locate (sides narrow front x2) t0 =
    locate (fun n => match nth_error (map fst (x_planes x0)) n with Some p => front (narrow p) | None => false end) t0).
  { induction t0 as [l1|d1 a1 IH1 b1 IH2]; cbn [locate]; [reflexivity|]. rewrite SS, IH1, IH2. reflexivity. }
  rewrite LX in F.
  assert (NS : forall (t0 : tree nodeD (leafD C)) lo r0 side, crepr narrow native lo x2 t0 r0 -> native (lf_contents (locate side t0)) <> None).
  { induction t0 as [l1|d1 a1 IH1 b1 IH2]; intros lo r0 side R; cbn [crepr locate] in *; [congruence|].
    destruct R as [k0 [n0 [p0 [_ [_ [_ [_ [_ [RA RB]]]]]]]]]. destruct (side (nd_plane d1)); eauto. }
  destruct (native (lf_contents (locate _ t))) as [z|] eqn:NZ; [|exfalso; eapply NS; [exact R2|exact NZ]].
  exists z. split; [reflexivity|]. split; [exact F|]. intros clip' CL. rewrite (clip16_id _ _ CL). exact F.
Qed.
Print Assumptions C28_clip_hull.

Example C28_nontrivial : exists r x, export_clip (fun p : nat => p) (fun c => Some (-1 - Z.of_nat c)%Z) ex_tree ex_state = X_ok (r, x) /\
  clip16 (x_clip x) = Some (x_clip x) /\ find_contents 5 (fun q => q =? 10) (x_dplanes x) (x_clip x) r = Some (-3)%Z.
Proof. eexists. eexists. split; [vm_compute; reflexivity|]. split; vm_compute; reflexivity. Qed.

(** ** C29: planes are exported once. *)
Theorem C29_planes_exported_once : forall P Q (narrow : P -> Q) planes z ns,
  (forall n, In n ns -> n < length planes) ->
  exists ks x, export_planes narrow ns (begin_state planes z) = X_ok (ks, x) /\ length ks = length ns /\
  (forall i n k, nth_error ns i = Some n -> nth_error ks i = Some k ->
     exists p, nth_error planes n = Some p /\ nth_error (x_dplanes x) k = Some (narrow p)) /\
  (forall i j n m k l, nth_error ns i = Some n -> nth_error ns j = Some m -> nth_error ks i = Some k -> nth_error ks j = Some l ->
     (n = m <-> k = l)).
Proof.
  intros P Q narrow planes z ns H.
  destruct (export_planes_spec narrow ns (begin_state planes z) (begin_wf P Q narrow planes z)) as [ks [x [E [L [W [M [_ R]]]]]]].
  { cbn [begin_state x_planes]. rewrite map_length. apply Forall_forall. exact H. }
  exists ks, x. split; [exact E|]. split; [exact L|]. destruct W as [W1 W2]. split.
  - intros i n k A B. destruct (R i n k A B) as [p PN]. exists p. split; [|exact (W1 _ _ _ PN)].
    assert (MP : nth_error (map fst (x_planes x)) n = Some p) by (rewrite nth_error_map, PN; reflexivity).
    rewrite M in MP. cbn [begin_state x_planes] in MP. rewrite map_map in MP. cbn [fst] in MP. rewrite map_id in MP. exact MP.
  - intros i j n m k l A B D F. destruct (R i n k A D) as [p PN]. destruct (R j m l B F) as [p' PM]. split.
    + intros ->. congruence.
    + intros ->. exact (W2 _ _ _ _ _ PN PM).
Qed.
Print Assumptions C29_planes_exported_once.

Example C29_nontrivial : exists x, export_planes (fun p : nat => p * 2) [2; 0; 2; 1; 0] (begin_state [5; 6; 7] 0) = X_ok ([0; 1; 0; 2; 1], x) /\
  x_dplanes x = [14; 10; 12].
Proof. eexists. split; reflexivity. Qed.

(** ** C30: pruning. *)
Theorem C30_prune : forall C (solid wall : C -> bool) mksolid q2 t, solid mksolid = true ->
  pruned solid (prune solid wall mksolid q2 t) /\
  forall side, let c := lf_contents (locate side t) in
               let c' := lf_contents (locate side (prune solid wall mksolid q2 t)) in
    (solid c' = true <-> solid c = true \/ (q2 = false /\ wall c = true)) /\
    (solid c' = false -> c' = c).
Proof.
  intros C solid wall mksolid q2 t MS. split; [apply prune_pruned|]. intros side. cbv zeta.
  destruct (prune_locate solid wall mksolid q2 MS side t) as [H1 H2]. cbv zeta in *. unfold remapped in *.
  destruct q2; cbn [negb andb] in *.
  - split; [rewrite H1; intuition congruence|]. intro N. apply H2. congruence.
  - destruct (wall (lf_contents (locate side t))) eqn:E.
    + rewrite MS in H1. split; [intuition congruence|congruence].
    + split; [rewrite H1; intuition congruence|]. intro N. apply H2. congruence.
Qed.
Print Assumptions C30_prune.

Example C30_nontrivial : 
  prune xsolid (fun c => c =? 9) 0 false (xnode 0 false (xnode 1 false (Leaf (xleaf 9 [])) (Leaf (xleaf 0 []))) (Leaf (xleaf 2 []))) =
  xnode 0 false (Leaf (xleaf 0 [])) (Leaf (xleaf 2 [])).
Proof. reflexivity. Qed.

(** ** C65: the header's portal count is the number of portals printed. *)
Theorem C65_portal_count : forall C (solid : C -> bool) t, vis_portals t ->
  st_portals (snd (number_tree solid t)) = length (write_portals solid t).
Proof. intros C solid t H. exact (number_portals solid t (mkPS 0 0 0 false) H). Qed.
Print Assumptions C65_portal_count.

Example C65_nontrivial : 
  let p i := mkVP i true true true in
  let t := Node (mkND 0 true [p 1; p 2; mkVP 3 false true true]) (Leaf (xleaf 1 [])) (Leaf (xleaf 2 [])) in
  vis_portals t /\ write_portals xsolid (Node (mkND 5 false []) t (Leaf (mkLD 3 [] [p 4]))) = [1; 2; 4] /\
  st_portals (snd (number_tree xsolid (Node (mkND 5 false []) t (Leaf (mkLD 3 [] [p 4]))))) = 3.
Proof. cbv zeta. split; [|split; reflexivity]. cbn. repeat split; repeat constructor. Qed.

(** ** C66: the brush list of a leaf merged by pruning.  [key b] is the map brush of brush [b]; the
    sort may produce any ordering sorted by it. *)
Lemma unique_in : forall l x, In x (unique l) <-> In x l.
Proof.
  induction l as [|a l IH]; intro x; [reflexivity|]. cbn [unique]. destruct l as [|b l]; [reflexivity|].
  destruct (a =? b) eqn:E.
  - apply Nat.eqb_eq in E. subst b. rewrite IH. cbn [In]. tauto.
  - cbn [In] in *. rewrite <- (IH x). reflexivity.
Qed.

Theorem C66_merge_keeps_brushes_partial : forall (key : nat -> nat) a b sorted,
  Permutation sorted (a ++ b) -> StronglySorted (fun x y => key x <= key y) sorted ->
  (forall x, In x (unique sorted) <-> In x a \/ In x b) /\
  ((forall x y, In x (a ++ b) -> In y (a ++ b) -> key x = key y -> x = y) -> NoDup (unique sorted)).
Proof.
  intros key a b sorted PM SS. split.
  - intro x. rewrite unique_in, <- in_app_iff. split; intro H; [eapply Permutation_in; eassumption|].
    eapply Permutation_in; [apply Permutation_sym; exact PM|exact H].
  - intro INJ. assert (INJ' : forall x y, In x sorted -> In y sorted -> key x = key y -> x = y).
    { intros x y X Y. apply INJ; eapply Permutation_in; eassumption. }
    clear PM INJ a b. induction SS as [|x l SS IH F]; [constructor|].
    assert (NDL : NoDup (unique l)) by (apply IH; intros u v U V; apply INJ'; right; assumption).
    cbn [unique]. destruct l as [|y l]; [repeat constructor; intros []|].
    destruct (x =? y) eqn:E; [exact NDL|]. apply Nat.eqb_neq in E. constructor; [|exact NDL].
    rewrite unique_in. intro I. 
    inversion SS as [|? ? SS2 F2]. subst. rewrite Forall_forall in F, F2.
    assert (K1 : key x <= key y) by (apply F; left; reflexivity).
    assert (K2 : key y <= key x) by (destruct I as [<-|I]; [lia|apply F2; exact I]).
    apply E. apply INJ'; [left; reflexivity|right; left; reflexivity|lia].
Qed.
Print Assumptions C66_merge_keeps_brushes_partial.

(** Two brushes 1 and 2 cut from one map brush: the list may keep brush 1 twice. *)
Theorem C66_duplicate_brush_refuted : exists (key : nat -> nat) a b sorted,
  NoDup a /\ NoDup b /\ Permutation sorted (a ++ b) /\ StronglySorted (fun x y => key x <= key y) sorted /\
  ~ NoDup (unique sorted).
Proof.
  exists (fun _ => 0), [1; 2], [1], [1; 2; 1]. split; [repeat constructor; cbn; intuition congruence|].
  split; [repeat constructor; cbn; intuition congruence|]. split; [apply Permutation_refl|].
  split; [repeat constructor|]. intro H. cbn in H. inversion H as [|? ? N _]. apply N. right. left. reflexivity.
Qed.
Print Assumptions C66_duplicate_brush_refuted.

(** ** C67: the face lists of the exported leafs lie one behind the other. *)
Theorem C67_leaf_faces_tile : forall C P Q (solid : C -> bool) q2 (narrow : P -> Q) export_contents t x0 head vis x1,
  planes_wf narrow x0 -> (exists d a b, t = Node d a b) ->
  export_model solid q2 narrow export_contents t x0 = X_ok (head, vis, x1) ->
  exists ls, x_leafs x1 = x_leafs x0 ++ ls /\ vis = length ls /\
  map dl_count ls = map (fun l => length (lf_marks l)) (filter (fun l => q2 || negb (solid (lf_contents l))) (tleafs t)) /\
  x_marks x1 = x_marks x0 ++ concat (map lf_marks (filter (fun l => q2 || negb (solid (lf_contents l))) (tleafs t))) /\
  forall i l, nth_error ls i = Some l -> dl_first l = length (x_marks x0) + list_sum (map dl_count (firstn i ls)).
Proof.
  intros C P Q solid q2 narrow export_contents t x0 head vis x1 W [d [a [b ->]]] X. unfold export_model in X.
  destruct (export_draw solid q2 narrow export_contents (Node d a b) x0) as [[r y]| |] eqn:ED; try discriminate.
  cbn [xbind] in X. injection X as <- <- <-.
  destruct (export_draw_spec solid q2 narrow export_contents _ _ _ _ W ED) as [_ [_ [_ [_ [XL [XM _]]]]]].
  unfold exported, exported_leaf, lsolid in *.
  set (ex := filter (fun l : leafD C => q2 || negb (solid (lf_contents l))) (tleafs (Node d a b))) in *.
  exists (recs export_contents ex (length (x_marks x0))). split; [exact XL|].
  split; [rewrite XL, app_length; lia|]. split.
  - clear. generalize (length (x_marks x0)). induction ex as [|l ex IH]; intro f; cbn [recs map]; [reflexivity|]. rewrite IH. reflexivity.
  - split; [exact XM|]. clear. generalize (length (x_marks x0)). induction ex as [|l ex IH]; intros f i x H; [destruct i; discriminate|].
    destruct i as [|i]; cbn [nth_error recs firstn map list_sum fold_right] in *.
    + injection H as <-. cbn [dl_first]. cbn. lia.
    + rewrite (IH _ _ _ H). cbn [dl_count]. unfold list_sum. lia.
Qed.
Print Assumptions C67_leaf_faces_tile.

Example C67_nontrivial : exists x, ex_export = X_ok (0%Z, 3, x) /\
  map (fun l => (dl_first l, dl_count l)) (x_leafs x) = [(0, 0); (0, 2); (2, 1); (3, 1)].
Proof. eexists. split; [vm_compute; reflexivity|reflexivity]. Qed.
