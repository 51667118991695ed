(* Properties of ambient sounds (C129). *)
From Coq Require Import String.
From Coq Require Import List Arith NArith ZArith QArith Bool Lia.
From Verif Require Import Base LeafBitsModel VisLumpModel VisLumpProofs ParserModel CmdlibModel AmbientModel AmbientProofs.
Import ListNotations.
Local Open Scope nat_scope.

(** * C129: ambient sounds *)

(** The name begins with the text, without regard to case. *)
Definition begins (s : string) (name : bytes) : Prop := exists rest, map lower name = text s ++ rest.
(** The texture is a source of sound t that no option switches off. *)
Definition source (o : opts) (t : nat) (name : bytes) : Prop :=
  (t = SKY /\ no_sky o = false /\ begins "sky" name) \/
  (t = WATER /\ no_water o = false /\ (begins "*water" name \/ begins "*04water" name)) \/
  (t = WATER /\ no_slime o = false /\ begins "*slime" name) \/
  (t = LAVA /\ no_lava o = false /\ begins "*lava" name).

Lemma same_start_begins p name : map lower p = p -> same_start p name = true <-> exists rest, map lower name = p ++ rest.
Proof.
  revert name. induction p as [|x p IH]; intros name L; [split; [intros _; exists (map lower name); reflexivity|reflexivity]|].
  cbn [map] in L. injection L as LX LP. destruct name as [|y name]; cbn [same_start map app].
  - split; [discriminate|intros (r & Q); discriminate].
  - rewrite andb_true_iff, N.eqb_eq, IH by exact LP. rewrite LX. split.
    + intros (-> & r & ->). exists r. reflexivity.
    + intros (r & Q). injection Q as Q1 Q2. split; [congruence|eauto].
Qed.
(** Each texture is a source of one sound at most; slime sounds like water. *)
Theorem C129_source : forall o t name, ambient_type o name = Some t <-> source o t name.
Proof.
  intros o t name. unfold ambient_type, source.
  assert (B : forall s, In s ["sky"; "*water"; "*04water"; "*slime"; "*lava"]%string -> same_start (text s) name = true <-> begins s name).
  { intros s I. apply same_start_begins. cbn in I. repeat (destruct I as [<-|I]; [reflexivity|]). destruct I. }
  assert (D : forall s u, In s ["sky"; "*water"; "*04water"; "*slime"; "*lava"]%string -> In u ["sky"; "*water"; "*04water"; "*slime"; "*lava"]%string ->
    begins s name -> begins u name -> s = u).
  { intros s u I J (r & Q) (r' & Q'). rewrite Q in Q'. cbn in I, J.
    repeat (destruct I as [<-|I]; [repeat (destruct J as [<-|J]; [try reflexivity; discriminate Q'|]); destruct J|]). destruct I. }
  assert (E1 := B "sky"%string ltac:(cbn; auto)). assert (E2 := B "*water"%string ltac:(cbn; auto)). assert (E3 := B "*04water"%string ltac:(cbn; auto)).
  assert (E4 := B "*slime"%string ltac:(cbn; auto)). assert (E5 := B "*lava"%string ltac:(cbn; auto 6)).
  assert (D1 := fun s u I J X Y => D s u I J X Y).
  destruct (same_start (text "sky") name) eqn:S1; [|destruct (same_start (text "*water") name) eqn:S2; [|destruct (same_start (text "*04water") name) eqn:S3;
    [|destruct (same_start (text "*slime") name) eqn:S4; [|destruct (same_start (text "*lava") name) eqn:S5]]]].
  - assert (X := proj1 E1 eq_refl).
    assert (N2 : same_start (text "*water") name = false) by (destruct (same_start (text "*water") name) eqn:Y; [|reflexivity]; assert (Z := D "sky"%string "*water"%string ltac:(cbn; auto) ltac:(cbn; auto) X (proj1 E2 eq_refl)); discriminate Z).
    assert (N3 : same_start (text "*04water") name = false) by (destruct (same_start (text "*04water") name) eqn:Y; [|reflexivity]; assert (Z := D "sky"%string "*04water"%string ltac:(cbn; auto) ltac:(cbn; auto) X (proj1 E3 eq_refl)); discriminate Z).
    assert (N4 : same_start (text "*slime") name = false) by (destruct (same_start (text "*slime") name) eqn:Y; [|reflexivity]; assert (Z := D "sky"%string "*slime"%string ltac:(cbn; auto) ltac:(cbn; auto) X (proj1 E4 eq_refl)); discriminate Z).
    assert (N5 : same_start (text "*lava") name = false) by (destruct (same_start (text "*lava") name) eqn:Y; [|reflexivity]; assert (Z := D "sky"%string "*lava"%string ltac:(cbn; auto) ltac:(cbn; auto 6) X (proj1 E5 eq_refl)); discriminate Z).
    rewrite N2, N3, N4, N5 in *. destruct (no_sky o) eqn:O; cbn [andb negb]; intuition congruence.
  - assert (X := proj1 E2 eq_refl).
    assert (N3 : same_start (text "*04water") name = false) by (destruct (same_start (text "*04water") name) eqn:Y; [|reflexivity]; assert (Z := D "*water"%string "*04water"%string ltac:(cbn; auto) ltac:(cbn; auto) X (proj1 E3 eq_refl)); discriminate Z).
    assert (N4 : same_start (text "*slime") name = false) by (destruct (same_start (text "*slime") name) eqn:Y; [|reflexivity]; assert (Z := D "*water"%string "*slime"%string ltac:(cbn; auto) ltac:(cbn; auto) X (proj1 E4 eq_refl)); discriminate Z).
    assert (N5 : same_start (text "*lava") name = false) by (destruct (same_start (text "*lava") name) eqn:Y; [|reflexivity]; assert (Z := D "*water"%string "*lava"%string ltac:(cbn; auto) ltac:(cbn; auto 6) X (proj1 E5 eq_refl)); discriminate Z).
    rewrite N3, N4, N5 in *. destruct (no_water o) eqn:O; cbn [andb negb]; intuition congruence.
  - assert (X := proj1 E3 eq_refl).
    assert (N4 : same_start (text "*slime") name = false) by (destruct (same_start (text "*slime") name) eqn:Y; [|reflexivity]; assert (Z := D "*04water"%string "*slime"%string ltac:(cbn; auto) ltac:(cbn; auto) X (proj1 E4 eq_refl)); discriminate Z).
    assert (N5 : same_start (text "*lava") name = false) by (destruct (same_start (text "*lava") name) eqn:Y; [|reflexivity]; assert (Z := D "*04water"%string "*lava"%string ltac:(cbn; auto) ltac:(cbn; auto 6) X (proj1 E5 eq_refl)); discriminate Z).
    rewrite N4, N5 in *. destruct (no_water o) eqn:O; cbn [andb negb]; intuition congruence.
  - assert (X := proj1 E4 eq_refl).
    assert (N5 : same_start (text "*lava") name = false) by (destruct (same_start (text "*lava") name) eqn:Y; [|reflexivity]; assert (Z := D "*slime"%string "*lava"%string ltac:(cbn; auto) ltac:(cbn; auto 6) X (proj1 E5 eq_refl)); discriminate Z).
    rewrite N5 in *. destruct (no_slime o) eqn:O; cbn [andb negb]; intuition congruence.
  - destruct (no_lava o) eqn:O; cbn [andb negb]; intuition congruence.
  - cbn [andb]. intuition congruence.
Qed.
Print Assumptions C129_source.

(** After vis has computed the visibility of n clusters over the leafs: each sound of a leaf is at full
    volume if the leaf sees a leaf with a face that is a source of it, however far away, and silent if not.
    The leafs are one to a cluster in their order, or their number is not that of the clusters. *)
Theorem C129_levels : forall o b n cl portals,
  portals_ok n portals -> cl = map lf_cluster (b_leafs b) -> Forall (fun d => d < n) cl ->
  (Z.of_nat (n * (2 * ((length cl + 7) / 8))) < 2 ^ 31)%Z ->
  (length cl = n -> cl = seq 0 n) ->
  (forall l k, In l (b_leafs b) -> k < lf_num l -> face_name b l k <> None) ->
  exists s levels, build_vislump n cl portals = Some s /\ calc_ambient o b n (length cl) (vl_unc s) = Some levels /\ length levels = length cl /\
    forall i c t, nth_error cl i = Some c -> t < 4 ->
      let audible := exists j hit d k name, nth_error cl j = Some d /\ cluster_sees portals c d /\ nth_error (b_leafs b) j = Some hit /\
        k < lf_num hit /\ face_name b hit k = Some name /\ source o t name in
      exists lv, nth_error levels i = Some lv /\ ((audible /\ nth_error lv t = Some 255%N) \/ (~ audible /\ nth_error lv t = Some 0%N)).
Proof.
  intros o b n cl portals HP HC HF HS HI HR. set (nr := length cl) in *.
  assert (NR : nr = length (b_leafs b)) by (unfold nr; rewrite HC; apply map_length).
  destruct (vislump_buffer n cl portals (seq 0 n) HP HF (seq_NoDup _ _)) as (s & A & LU & ROW).
  { intro c. rewrite in_seq. lia. } { exact HS. }
  fold nr in A, LU, ROW. exists s.
  assert (CLI : forall i l, nth_error (b_leafs b) i = Some l -> nth_error cl i = Some (lf_cluster l) /\ (if negb (n =? nr) then lf_cluster l else i) = lf_cluster l /\ lf_cluster l < n).
  { intros i l E. assert (X : nth_error cl i = Some (lf_cluster l)) by (rewrite HC; apply map_nth_error, E). split; [exact X|]. split.
    - destruct (Nat.eqb_spec n nr) as [Q|Q]; cbn [negb]; [|reflexivity].
      rewrite (HI (eq_sym Q)) in X. assert (i < n) by (rewrite Q, NR; apply nth_error_Some; congruence).
      rewrite (nth_error_nth' _ 0) in X by (rewrite seq_length; exact H). rewrite seq_nth in X by exact H. injection X as X. lia.
    - rewrite Forall_forall in HF. apply HF. eapply nth_error_In. exact X. }
  assert (HRD : forall t c, c < n -> heard o b (vl_unc s) (c * stride nr) nr t <->
     exists j hit d k name, nth_error cl j = Some d /\ cluster_sees portals c d /\ nth_error (b_leafs b) j = Some hit /\
        k < lf_num hit /\ face_name b hit k = Some name /\ source o t name).
  { intros t c Hc. unfold heard. split.
    - intros (j & hit & k & name & J & T & Q1 & Q2 & Q3 & Q4). apply ROW in T; [|exact Hc|unfold row_bytes; lia].
      destruct T as (d & D1 & D2). exists j, hit, d, k, name. apply C129_source in Q4. auto 8.
    - intros (j & hit & d & k & name & D1 & D2 & Q1 & Q2 & Q3 & Q4). assert (J : j < nr) by (apply nth_error_Some; congruence).
      exists j, hit, k, name. apply C129_source in Q4. split; [exact J|]. split; [|auto].
      apply ROW; [exact Hc|unfold row_bytes; lia|]. exists d. auto. }
  assert (LEAF : forall i, i < nr -> exists l lv, nth_error (b_leafs b) i = Some l /\ ambient_leaf o b n nr (vl_unc s) i = Some lv /\ length lv = 4 /\
     forall t, t < 4 -> (heard o b (vl_unc s) (lf_cluster l * stride nr) nr t /\ nth t lv 0%N = 255%N) \/ (~ heard o b (vl_unc s) (lf_cluster l * stride nr) nr t /\ nth t lv 0%N = 0%N)).
  { intros i I. destruct (nth_error (b_leafs b) i) as [l|] eqn:EL; [|apply nth_error_None in EL; lia].
    destruct (CLI i l EL) as (X1 & X2 & X3).
    destruct (ambient_leaf_spec o b n nr (vl_unc s) i l) as (lv & E1 & E2 & E3); [exact HR|exact EL|lia|rewrite X2, LU; nia|].
    rewrite X2 in E3. exists l, lv. auto. }
  assert (FIN : exists levels, calc_ambient o b n nr (vl_unc s) = Some levels /\ length levels = nr /\
     forall i l t, nth_error (b_leafs b) i = Some l -> t < 4 -> exists lv, nth_error levels i = Some lv /\
       ((heard o b (vl_unc s) (lf_cluster l * stride nr) nr t /\ nth_error lv t = Some 255%N) \/ (~ heard o b (vl_unc s) (lf_cluster l * stride nr) nr t /\ nth_error lv t = Some 0%N))).
  { unfold calc_ambient. destruct (no_sky o && no_water o && no_slime o && no_lava o) eqn:OFF.
    - exists (repeat (repeat 0%N 4) nr). split; [reflexivity|]. split; [apply repeat_length|]. intros i l t EL T. exists (repeat 0%N 4).
      split; [apply repeat_nth_error; rewrite NR; apply nth_error_Some; congruence|]. right. split; [|apply repeat_nth_error; exact T].
      intros (j & hit & k & name & _ & _ & _ & _ & _ & Q). apply C129_source in Q. rewrite !andb_true_iff in OFF. destruct OFF as (((O1 & O2) & O3) & O4).
      unfold source in Q. intuition congruence.
    - destruct (all_some_total (map (ambient_leaf o b n nr (vl_unc s)) (seq 0 nr))) as (levels & E).
      { intros x I. apply in_map_iff in I. destruct I as (i & <- & I). apply in_seq in I. destruct (LEAF i ltac:(lia)) as (l & lv & _ & Q & _). congruence. }
      exists levels. split; [exact E|]. apply all_some_nth in E. rewrite map_length, seq_length in E. destruct E as [E1 E2]. split; [exact E1|].
      intros i l t EL T. assert (I : i < nr) by (rewrite NR; apply nth_error_Some; congruence). destruct (LEAF i I) as (l' & lv & Q1 & Q2 & Q3 & Q4).
      rewrite EL in Q1. injection Q1 as <-.
      destruct (E2 i (Some lv)) as (y & Y1 & Y2).
      { rewrite <- Q2. apply map_nth_error. rewrite (nth_error_nth' _ 0) by (rewrite seq_length; exact I). rewrite seq_nth by exact I. reflexivity. }
      injection Y1 as <-. exists lv. split; [exact Y2|]. rewrite (nth_error_nth' lv 0%N) by lia.
      destruct (Q4 t T) as [[H1 H2]|[H1 H2]]; rewrite H2; auto. }
  destruct FIN as (levels & F1 & F2 & F3). exists levels. refine (conj A (conj F1 (conj F2 _))).
  intros i c t HI' T audible. destruct (nth_error (b_leafs b) i) as [l|] eqn:EL.
  2:{ apply nth_error_None in EL. assert (i < nr) by (apply nth_error_Some; congruence). lia. }
  destruct (CLI i l EL) as (X1 & _ & X3). rewrite X1 in HI'. injection HI' as <-.
  destruct (F3 i l t EL T) as (lv & G1 & G2). exists lv. split; [exact G1|]. unfold audible. rewrite <- (HRD t (lf_cluster l) X3). exact G2.
Qed.
Print Assumptions C129_levels.

(** With all sounds switched off no leaf has a sound, whatever the BSP holds. *)
Theorem C129_off : forall b n nr unc, calc_ambient (mkOpts true true true true) b n nr unc = Some (repeat [0; 0; 0; 0]%N nr).
Proof. reflexivity. Qed.
Print Assumptions C129_off.

(** The levels in a portal file with as many clusters as leafs, but in another order, are those of other
    leafs: the leaf that sees water is silent, and one that does not hears it. *)
Definition swapped : bsp := mkBsp [mkLeaf 1 0 1; mkLeaf 0 1 0; mkLeaf 2 1 0] [0] [0] [0] [text "*water0"].
Theorem C129_order_refuted : exists o b n cl portals s levels lv,
  portals_ok n portals /\ cl = map lf_cluster (b_leafs b) /\ Forall (fun d => d < n) cl /\ NoDup cl /\ refs_ok b /\
  build_vislump n cl portals = Some s /\ calc_ambient o b n (length cl) (vl_unc s) = Some levels /\
  (exists name, nth_error cl 0 = Some 1 /\ (forall d, cluster_sees portals 1 d <-> d = 1) /\
     face_name b (nth 0 (b_leafs b) (mkLeaf 0 0 0)) 0 = Some name /\ source o WATER name) /\
  nth_error levels 0 = Some lv /\ nth_error lv WATER = Some 0%N.
Proof.
  exists (mkOpts false false false false), swapped, 3, [1; 0; 2], [[]; []; []].
  destruct (build_vislump 3 [1; 0; 2] [[]; []; []]) as [s|] eqn:E; [|vm_compute in E; discriminate]. exists s.
  vm_compute in E. injection E as <-. eexists _, _.
  refine (conj _ (conj eq_refl (conj _ (conj _ (conj _ (conj eq_refl (conj _ (conj _ (conj _ _))))))))).
  - split; [reflexivity|]. repeat constructor.
  - repeat constructor.
  - repeat constructor; cbn; intuition discriminate.
  - intros l k [<-|[<-|[<-|[]]]] K; cbn in K; try lia. destruct k as [|k]; [|lia]. discriminate.
  - vm_compute. reflexivity.
  - exists (text "*water0"). split; [reflexivity|]. split; [|split; [reflexivity|]].
    + intros d. unfold cluster_sees. split; [|auto]. intros [->|(ps & v & P1 & P2 & _)]; [reflexivity|]. cbn in P1. injection P1 as <-. destruct P2.
    + right. left. split; [reflexivity|]. split; [reflexivity|]. left. exists [48%N]. reflexivity.
  - cbn. reflexivity.
  - reflexivity.
Qed.
Print Assumptions C129_order_refuted.

(** Three leafs in a row; the last has lava, the first sky; the first and last do not see each other. *)
Example C129_nontrivial : let v := fun w => (true, {| lb_size := 3; lb_bits := [w] |}) in
  let b := mkBsp [mkLeaf 0 0 1; mkLeaf 1 1 0; mkLeaf 2 1 2] [0; 1; 2] [0; 1; 2] [2; 1; 0] [text "metal1"; text "*LAVA1"; text "sky3"] in
  option_map (fun s => calc_ambient (mkOpts false false false false) b 3 3 (vl_unc s)) (build_vislump 3 [0; 1; 2] [[v 2%N]; [v 1%N; v 4%N]; [v 2%N]])
  = Some (Some [[0; 255; 0; 0]; [0; 255; 0; 255]; [0; 0; 0; 255]]%N).
Proof. vm_compute. reflexivity. Qed.
