(* C93-C95: bsputil --scale. *)
From Coq Require Import List Arith ZArith QArith Qabs Qround Qminmax Bool Lia Lqa.
Import ListNotations.
From Verif Require Import NumCastModel ScaleModel ScaleProofs.
Local Open Scope Q_scope.

(** The premises: exact arithmetic ([nrm] divides by the length), a search that only returns planes within
    the tolerances, factors that are not 0, planes with a normal of length 1 (or distance 0) whose types
    0-2 mark axial planes, and faces with separate ranges of surfedges. *)
Definition scale_ok nrm find en ed s (b : bsp) : Prop :=
  nrm_ok nrm /\ find_near en ed find /\ 0 <= en /\ 0 <= ed /\ nz s /\
  Forall (fun p => pl_ok p /\ type_ok p) (b_planes b) /\
  Forall (in_edges (b_surfedges b)) (b_faces b) /\ ForallOrdPairs apart (b_faces b).

Lemma paired_nil : paired [].
Proof. split; [reflexivity|]. intros i p N. destruct i; discriminate. Qed.

Lemma scale_run : forall nrm find en ed s b, scale_ok nrm find en ed s b ->
  exists l m se, scale_bsp nrm find s b = ROk (mkBsp l (map (scale_node m) (b_nodes b)) (b_clipnodes b)
      (map (fun f => mkFace (Z.of_nat (remap m (fc_plane f))) (fc_side f) (fc_first f) (fc_num f)) (b_faces b))
      se (map (fun v => vmul v s) (b_verts b))) /\
    rebuild nrm find s (b_planes b) [] = ROk (l, m) /\
    paired l /\ length m = length (b_planes b) /\
    (forall i p, nth_error (b_planes b) i = Some p -> exists q, nth_error l (nth i m 0%nat) = Some q /\ near en ed q (scale_plane nrm s p)) /\
    (forall f, In f (b_faces b) -> face_edges se f = if Nat.odd (flips s) then rev (face_edges (b_surfedges b) f) else face_edges (b_surfedges b) f).
Proof.
  intros nrm find en ed s b (NR & FN & EN & ED & NZ & PL & IE & AP).
  destruct (rebuild_ok nrm find s en ed NR NZ FN EN ED (b_planes b) [] PL paired_nil) as (l & m & R & PA & LM & MP).
  cbn [app] in *. unfold scale_bsp, scale_surfedges. destruct (Nat.odd (flips s)).
  - destruct (reverse_faces_ok _ _ IE AP) as (se & E & _ & RV & _). rewrite E. cbn [rbind]. rewrite R. cbn [rbind fst snd].
    exists l, m, se. repeat (split; [reflexivity || assumption|]). exact RV.
  - cbn [rbind]. rewrite R. cbn [rbind fst snd]. exists l, m, (b_surfedges b).
    repeat (split; [reflexivity || assumption|]). reflexivity.
Qed.

(** The planes of the nodes that are axial face the positive direction. *)
Definition nodes_ok (b : bsp) (ns : list node) : Prop :=
  forall d p, In d ns -> nth_error (b_planes b) (Z.to_nat (nd_plane d)) = Some p ->
    (pt p < 3)%Z -> exists i, pt p = Z.of_nat i /\ veq (pn p) (unit i).

(** The scaled point is off the scaled planes of the nodes by more than the tolerance can move them. *)
Definition clear nrm en ed s (b : bsp) (ns : list node) (x : V) : Prop :=
  forall d p, In d ns -> nth_error (b_planes b) (Z.to_nat (nd_plane d)) = Some p ->
    en * norm1 (vmul x s) + ed < Qabs (dot (vmul x s) (pn (scale_plane nrm s p)) - pd (scale_plane nrm s p)).

(** Unless exactly two factors are negative, the walk from any node for the scaled point ends in the leaf
    in which the walk for the point ended. *)
Theorem C93_leaf_partial : forall nrm find en ed s b, scale_ok nrm find en ed s b -> flips s <> 2%nat -> nodes_ok b (b_nodes b) ->
  exists b', scale_bsp nrm find s b = ROk b' /\
    forall x, clear nrm en ed s b (b_nodes b) x -> forall fuel n r,
      walk fuel (b_planes b) (b_nodes b) x n = Some r -> walk fuel (b_planes b') (b_nodes b') (vmul x s) n = Some r.
Proof.
  intros nrm find en ed s b OK F2 NO. destruct (scale_run _ _ _ _ _ _ OK) as (l & m & se & E & _ & PA & LM & MP & _).
  destruct OK as (NR & FN & EN & ED & NZ & PL & IE & AP).
  eexists. split; [exact E|]. cbn [b_planes b_nodes]. intros x CL fuel n r W.
  apply (walk_scaled nrm s en ed (b_planes b) l m (b_nodes b) x NR NZ EN ED PA); try assumption.
  - eapply Forall_impl; [|exact PL]. intros p (A & _). exact A.
  - intros d p I N. split; [|apply (CL d p I N)]. apply fast_unit. apply (NO d p I N).
  - apply Nat.eqb_neq in F2. rewrite F2. exact W.
Qed.
Print Assumptions C93_leaf_partial.

(** If the search only returns equal planes, every point off the planes of the nodes stays in its leaf. *)
Theorem C93_exact_partial : forall nrm find s b, scale_ok nrm find 0 0 s b -> flips s <> 2%nat -> nodes_ok b (b_nodes b) ->
  exists b', scale_bsp nrm find s b = ROk b' /\
    forall x, (forall d p, In d (b_nodes b) -> nth_error (b_planes b) (Z.to_nat (nd_plane d)) = Some p -> ~ dot x (pn p) == pd p) ->
    forall fuel n r, walk fuel (b_planes b) (b_nodes b) x n = Some r ->
      walk fuel (b_planes b') (b_nodes b') (vmul x s) n = Some r.
Proof.
  intros nrm find s b OK F2 NO. destruct (C93_leaf_partial nrm find 0 0 s b OK F2 NO) as (b' & E & H).
  exists b'. split; [exact E|]. intros x OFF. apply H. intros d p I N.
  destruct OK as (NR & _ & _ & _ & NZ & PL & _). rewrite Forall_forall in PL. destruct (PL p (nth_error_In _ _ N)) as (PO & _).
  destruct (scaled nrm s p NR NZ PO) as (k & K & _ & D & _). rewrite (D x). specialize (OFF d p I N).
  destruct (sg_det s NZ) as (G & _). specialize (G F2).
  assert (KG : 0 < k * (sg s * det s)) by (apply Qmult_lt_0_compat; assumption).
  set (w := k * (sg s * det s)) in *. clearbody w. set (u := dot x (pn p) - pd p) in *.
  assert (U : ~ u == 0) by (unfold u; intro; apply OFF; lra). clearbody u.
  assert (WU : ~ w * u == 0) by (apply nz_mul; [intro; lra|exact U]).
  setoid_replace (0 * norm1 (vmul x s) + 0) with 0 by ring. set (z := w * u) in *. clearbody z.
  apply Qabs_case; intros L; apply Qle_lteq in L; destruct L as [L|L]; lra.
Qed.
Print Assumptions C93_exact_partial.

(** With exactly two negative factors the map is turned inside out: the walk in the scaled tree ends where
    the walk in the tree with the children of every node exchanged ends. *)
Theorem C93_two_negative_refuted : forall nrm find en ed s b, scale_ok nrm find en ed s b -> flips s = 2%nat -> nodes_ok b (b_nodes b) ->
  exists b', scale_bsp nrm find s b = ROk b' /\
    forall x, clear nrm en ed s b (b_nodes b) x -> forall fuel n r,
      walk fuel (b_planes b) (map (fun d => mkNode (nd_plane d) (nd_back d) (nd_front d)) (b_nodes b)) x n = Some r ->
      walk fuel (b_planes b') (b_nodes b') (vmul x s) n = Some r.
Proof.
  intros nrm find en ed s b OK F2 NO. destruct (scale_run _ _ _ _ _ _ OK) as (l & m & se & E & _ & PA & LM & MP & _).
  destruct OK as (NR & FN & EN & ED & NZ & PL & IE & AP).
  eexists. split; [exact E|]. cbn [b_planes b_nodes]. intros x CL fuel n r W.
  apply (walk_scaled nrm s en ed (b_planes b) l m (b_nodes b) x NR NZ EN ED PA); try assumption.
  - eapply Forall_impl; [|exact PL]. intros p (A & _). exact A.
  - intros d p I N. split; [|apply (CL d p I N)]. apply fast_unit. apply (NO d p I N).
  - rewrite F2. exact W.
Qed.
Print Assumptions C93_two_negative_refuted.

(** Clipnodes keep their plane numbers although the planes are numbered anew: whatever plane 1 was, plane
    1 of the scaled file is the first plane or its negation, so a clipnode on plane 1 tests the wrong
    plane. *)
Theorem C93_clipnodes_refuted : forall nrm find en ed s b p ps, scale_ok nrm find en ed s b -> b_planes b = p :: ps ->
  exists b' q0 q1, scale_bsp nrm find s b = ROk b' /\ b_clipnodes b' = b_clipnodes b /\
    nth_error (b_planes b') 0 = Some q0 /\ nth_error (b_planes b') 1 = Some q1 /\
    (q0 = scale_plane nrm s p /\ q1 = pneg (scale_plane nrm s p) \/ q0 = pneg (scale_plane nrm s p) /\ q1 = scale_plane nrm s p).
Proof.
  intros nrm find en ed s b p ps OK EP. destruct (scale_run _ _ _ _ _ _ OK) as (l & m & se & E & R & _).
  destruct OK as (NR & FN & EN & ED & NZ & PL & IE & AP). rewrite EP in PL, R.
  inversion PL as [|? ? (PO & TO) PL']; subst. cbn [rebuild] in R.
  assert (FN0 : find [] (scale_plane nrm s p) = None).
  { destruct (find [] (scale_plane nrm s p)) as [i|] eqn:F; [|reflexivity]. destruct (FN _ _ _ F) as (q & Q & _). destruct i; discriminate. }
  unfold add_or_find in R. rewrite FN0 in R.
  assert (X : exists q0 q1 i, add_plane [] (scale_plane nrm s p) = ROk ([q0; q1], i) /\
    (q0 = scale_plane nrm s p /\ q1 = pneg (scale_plane nrm s p) \/ q0 = pneg (scale_plane nrm s p) /\ q1 = scale_plane nrm s p)).
  { unfold add_plane. destruct TO as (T0 & _). destruct (scaled nrm s p NR NZ PO) as (_ & _ & _ & _ & -> & _).
    pose proof (Z.rem_nonneg (pt p) 3 ltac:(lia) T0). replace (Z.rem (pt p) 3 <? 0)%Z with false by (symmetry; apply Z.ltb_ge; lia).
    destruct (Qltb _ 0); cbn [app length]; do 3 eexists; (split; [reflexivity|]); tauto. }
  destruct X as (q0 & q1 & i & A & D). rewrite A in R. cbn [rbind fst snd] in R.
  assert (PA2 : paired [q0; q1]).
  { destruct (add_ok nrm s p en ed [] NR NZ PO TO EN ED paired_nil) as (l' & i' & q & A' & PA' & _). rewrite A' in A. cbn [app] in *. injection A as -> _. exact PA'. }
  destruct (rebuild_ok nrm find s en ed NR NZ FN EN ED ps [q0; q1] PL' PA2) as (l2 & m2 & R2 & _). rewrite R2 in R. cbn [rbind fst snd app] in R.
  injection R as <- _. eexists. exists q0, q1. split; [exact E|]. cbn [b_clipnodes b_planes nth_error]. repeat (split; [reflexivity|]). exact D.
Qed.
Print Assumptions C93_clipnodes_refuted.

(** A search for equal planes and a normalisation that is exact for axial vectors. *)
Definition find_equal (l : list plane) (p : plane) : option nat :=
  (fix go (l : list plane) (i : nat) := match l with
   | [] => None
   | q :: l => if Qeq_bool (c0 (pn q)) (c0 (pn p)) && Qeq_bool (c1 (pn q)) (c1 (pn p)) && Qeq_bool (c2 (pn q)) (c2 (pn p)) && Qeq_bool (pd q) (pd p)
               then Some i else go l (S i) end) l O.
Definition nrm_sum (v : V) : Q := 1 / (Qabs (c0 v) + Qabs (c1 v) + Qabs (c2 v)).

(* Two planes, a node and a clipnode on each: scaled by (1, 1, 1) the clip hull changes, scaled by
   (-2, 3, 1) the leafs stay, scaled by (-1, -1, 1) they do not. *)
Example C93_nontrivial :
  let px := mkPl (mkV 1 0 0) 0 0 in let py := mkPl (mkV 0 1 0) 5 1 in
  let tree := [mkNode 0 1 (-1); mkNode 1 (-2) (-3)]%Z in
  let b := mkBsp [px; py] tree tree [] [] [] in
  let x := mkV 1 2 0 in
  let leaf s ns := match scale_bsp nrm_sum find_equal s b with ROk b' => walk 3 (b_planes b') (ns b') (vmul x s) 0 | _ => None end in
  walk 3 (b_planes b) tree x 0 = Some (-3)%Z /\
  leaf (mkV 1 1 1) b_nodes = Some (-3)%Z /\ leaf (mkV (-2 # 1) 3 1) b_nodes = Some (-3)%Z /\
  leaf (mkV (-1 # 1) (-1 # 1) 1) b_nodes = Some (-1)%Z /\
  leaf (mkV 1 1 1) b_clipnodes = Some (-2)%Z.
Proof. vm_compute. repeat split; reflexivity. Qed.

(** The sides of the planes of faces: unless two factors are negative, what is in front of a face stays in
    front of it. *)
Theorem C94_front_partial : forall nrm find en ed s b, scale_ok nrm find en ed s b ->
  exists b', scale_bsp nrm find s b = ROk b' /\
    forall k f p, nth_error (b_faces b) k = Some f -> (0 <= fc_plane f)%Z -> nth_error (b_planes b) (Z.to_nat (fc_plane f)) = Some p ->
    exists f' q q', nth_error (b_faces b') k = Some f' /\ face_plane (b_planes b) f = Some q /\ face_plane (b_planes b') f' = Some q' /\
      forall x, en * norm1 (vmul x s) + ed < Qabs (dot (vmul x s) (pn (scale_plane nrm s p)) - pd (scale_plane nrm s p)) ->
      (flips s <> 2%nat -> (0 < dot x (pn q) - pd q <-> 0 < dot (vmul x s) (pn q') - pd q')) /\
      (flips s = 2%nat -> (0 < dot x (pn q) - pd q <-> dot (vmul x s) (pn q') - pd q' < 0)).
Proof.
  intros nrm find en ed s b OK. destruct (scale_run _ _ _ _ _ _ OK) as (l & m & se & E & _ & PA & LM & MP & _).
  destruct OK as (NR & FN & EN & ED & NZ & PL & IE & AP).
  eexists. split; [exact E|]. cbn [b_planes b_faces]. intros k f p NF P0 NP.
  destruct (MP _ _ NP) as (q & NQ & NE). rewrite nth_error_map, NF. cbn [option_map].
  do 3 eexists. split; [reflexivity|]. unfold face_plane. cbn [fc_plane fc_side].
  replace (fc_plane f <? 0)%Z with false by (symmetry; apply Z.ltb_ge; lia). rewrite NP. cbn [option_map]. split; [reflexivity|].
  replace (Z.of_nat _ <? 0)%Z with false by (symmetry; apply Z.ltb_ge; lia). rewrite Nat2Z.id. unfold remap.
  replace (fc_plane f <? 0)%Z with false by (symmetry; apply Z.ltb_ge; lia). rewrite NQ. cbn [option_map]. split; [reflexivity|].
  intros x CL. rewrite Forall_forall in PL. destruct (PL p (nth_error_In _ _ NP)) as (PO & _).
  destruct (clear_side nrm s p q en ed x NR NZ PO NE EN ED CL) as (S1 & S2).
  assert (NG : forall u y, dot y (pn (pneg u)) - pd (pneg u) == - (dot y (pn u) - pd u)) by (intros u y; unfold dot, pneg, vneg; cbn [pn pd c0 c1 c2]; ring).
  destruct (fc_side f); rewrite ?NG; split; intro F; [destruct (S1 F)|destruct (S2 F)|destruct (S1 F)|destruct (S2 F)]; split; intro; lra.
Qed.
Print Assumptions C94_front_partial.

(** The corners of every face are the scaled corners, in the same order, or in the opposite order when an
    odd number of factors is negative. *)
Theorem C94_corners : forall nrm find en ed s b edges, scale_ok nrm find en ed s b ->
  exists b', scale_bsp nrm find s b = ROk b' /\ b_verts b' = map (fun v => vmul v s) (b_verts b) /\
    forall k f, nth_error (b_faces b) k = Some f -> exists f', nth_error (b_faces b') k = Some f' /\
      let corners l g := map (se_start edges) (face_edges l g) in
      corners (b_surfedges b') f' = if Nat.odd (flips s) then rev (corners (b_surfedges b) f) else corners (b_surfedges b) f.
Proof.
  intros nrm find en ed s b edges OK. destruct (scale_run _ _ _ _ _ _ OK) as (l & m & se & E & _ & _ & _ & _ & RV).
  eexists. split; [exact E|]. split; [reflexivity|]. cbn [b_faces b_surfedges]. intros k f NF. rewrite nth_error_map, NF. cbn [option_map].
  eexists. split; [reflexivity|]. cbn zeta. unfold face_edges at 1. cbn [fc_first fc_num].
  change (firstn (fc_num f) (skipn (fc_first f) se)) with (face_edges se f). rewrite (RV f (nth_error_In _ _ NF)).
  destruct (Nat.odd (flips s)); [apply map_rev|reflexivity].
Qed.
Print Assumptions C94_corners.

(** Every edge of a face ends where the next one starts. *)
Definition chained (edges : list (nat * nat)) (l : list Z) : Prop :=
  forall i e e', nth_error l i = Some e -> nth_error l (if (S i =? length l)%nat then 0%nat else S i) = Some e' ->
    se_end edges e = se_start edges e'.

(** With an odd number of negative factors the edges of a face no longer follow each other, since they are
    put in the opposite order but not turned round. *)
Theorem C94_chain_refuted : exists edges b s, scale_ok nrm_sum find_equal 0 0 s b /\
  (forall f, In f (b_faces b) -> chained edges (face_edges (b_surfedges b) f)) /\
  exists b' f', scale_bsp nrm_sum find_equal s b = ROk b' /\ In f' (b_faces b') /\ ~ chained edges (face_edges (b_surfedges b') f').
Proof.
  exists [(0, 0); (0, 1); (1, 2); (0, 2)]%nat, (mkBsp [mkPl (mkV 1 0 0) 0 0] [] [] [mkFace 0 false 0 3] [1; 2; -3]%Z []), (mkV (-1 # 1) 1 1).
  split; [|split].
  - split; [|split].
    + split.
      * intros v H. unfold nrm_sum. assert (S : 0 < Qabs (c0 v) + Qabs (c1 v) + Qabs (c2 v)).
        { pose proof (Qabs_nonneg (c0 v)) as A. pose proof (Qabs_nonneg (c1 v)) as B. pose proof (Qabs_nonneg (c2 v)) as C.
          destruct (Qlt_le_dec 0 (Qabs (c0 v) + Qabs (c1 v) + Qabs (c2 v))) as [L|L]; [exact L|]. exfalso. apply H.
          assert (Z : forall y, Qabs y <= 0 -> y == 0) by (intros y Y; apply Qabs_Qle_condition in Y; lra).
          unfold dot. rewrite (Z (c0 v)), (Z (c1 v)), (Z (c2 v)) by lra. reflexivity. }
        apply Qlt_shift_div_l; [exact S|]. lra.
      * intros v a i A (V0 & V1 & V2). unfold nrm_sum. rewrite V0, V1, V2.
        assert (AP : ~ Qabs a == 0).
        { intro Z. assert (Qabs a <= 0) as Y by lra. apply Qabs_Qle_condition in Y. apply A. lra. }
        assert (X : Qabs (c0 (vscl a (unit i))) + Qabs (c1 (vscl a (unit i))) + Qabs (c2 (vscl a (unit i))) == Qabs a).
        { destruct i as [|[|i]]; unfold vscl; cbn [unit c0 c1 c2]; rewrite !Qabs_Qmult; change (Qabs 1) with 1; change (Qabs 0) with 0; ring. }
        rewrite X. field. exact AP.
    + intros l p i. unfold find_equal.
      assert (G : forall l k, (fix go (l : list plane) (i : nat) := match l with
        | [] => None
        | q :: l => if Qeq_bool (c0 (pn q)) (c0 (pn p)) && Qeq_bool (c1 (pn q)) (c1 (pn p)) && Qeq_bool (c2 (pn q)) (c2 (pn p)) && Qeq_bool (pd q) (pd p)
               then Some i else go l (S i) end) l k = Some i -> (k <= i)%nat /\ exists q, nth_error l (i - k) = Some q /\ near 0 0 q p).
      { clear l. induction l as [|q l IH]; intros k H; [discriminate|].
        destruct (Qeq_bool (c0 (pn q)) (c0 (pn p)) && Qeq_bool (c1 (pn q)) (c1 (pn p)) && Qeq_bool (c2 (pn q)) (c2 (pn p)) && Qeq_bool (pd q) (pd p)) eqn:E.
        - injection H as <-. rewrite Nat.sub_diag. split; [lia|]. exists q. split; [reflexivity|].
          apply andb_true_iff in E. destruct E as (E & E3). apply andb_true_iff in E. destruct E as (E & E2). apply andb_true_iff in E. destruct E as (E0 & E1).
          apply Qeq_bool_iff in E0, E1, E2, E3. unfold near.
          assert (Z : forall a b, a == b -> Qabs (a - b) <= 0) by (intros a b Hab; rewrite Hab; setoid_replace (b - b) with 0 by ring; apply Qle_refl).
          repeat split; apply Z; assumption.
        - destruct (IH (S k) H) as (L & q' & N & NE). split; [lia|]. exists q'. split; [|exact NE].
          replace (i - k)%nat with (S (i - S k))%nat by lia. exact N. }
      intro H. destruct (G l 0%nat H) as (_ & q & N & NE). rewrite Nat.sub_0_r in N. exists q. split; assumption.
    + split; [apply Qle_refl|]. split; [apply Qle_refl|]. split; [repeat split; intro H; vm_compute in H; discriminate|].
      split; [|split; [repeat constructor|repeat constructor]]. constructor; [|constructor]. split; [split; [intro H; vm_compute in H; discriminate|reflexivity]|].
      split; [cbn; lia|]. intros _. exists 0%nat. split; [reflexivity|]. left. repeat split; reflexivity.
  - intros f [<-|[]] i e e' A B. destruct i as [|[|[|i]]]; cbn in A, B; try (destruct i; discriminate); injection A as <-; injection B as <-; reflexivity.
  - eexists. eexists. split; [vm_compute; reflexivity|]. split; [left; reflexivity|].
    intro H. specialize (H 0%nat (-3)%Z 2%Z eq_refl eq_refl). vm_compute in H. discriminate.
Qed.
Print Assumptions C94_chain_refuted.

Example C94_nontrivial :
  let b := mkBsp [mkPl (mkV 1 0 0) 4 0] [] [] [mkFace 0 true 1 3; mkFace 0 false 4 3]%Z [9; 1; 2; 3; 4; 5; -6]%Z [mkV 4 1 2] in
  match scale_bsp nrm_sum find_equal (mkV (-2 # 1) 1 1) b with
  | ROk b' => b_surfedges b' = [9; 3; 2; 1; -6; 5; 4]%Z /\ map fc_plane (b_faces b') = [1; 1]%Z /\
              map (fun p => (Qred (c0 (pn p)), Qred (pd p))) (b_planes b') = [(1, -8 # 1); (-1 # 1, 8 # 1)]
  | _ => False
  end.
Proof. vm_compute. repeat split; reflexivity. Qed.

(** Texture and lightmap coordinates of every point are kept. *)
Theorem C95_texture_coordinates : forall s r x, ~ c0 s == 0 -> ~ c1 s == 0 -> ~ c2 s == 0 ->
  row_at (scale_row s r) (vmul x s) == row_at r x.
Proof. intros s r x A B C. unfold row_at, scale_row, dot, vmul. cbn [fst snd c0 c1 c2]. field. repeat split; assumption. Qed.
Print Assumptions C95_texture_coordinates.

(** A point within the bounds of a leaf or node is, scaled, within the new bounds, which are whole numbers. *)
Theorem C95_bounds : forall s mins maxs x,
  (forall i, comp mins i <= comp x i <= comp maxs i) ->
  let b := scale_bounds s mins maxs in
  forall i, (i <= 2)%nat -> comp (fst b) i <= comp (vmul x s) i <= comp (snd b) i /\
    exists lo hi, comp (fst b) i = inject_Z lo /\ comp (snd b) i = inject_Z hi.
Proof.
  intros s mins maxs x H b i L.
  assert (K : forall k a z c, a <= z <= c -> inject_Z (Qfloor (Qmin (a * k) (c * k))) <= z * k <= inject_Z (Qceiling (Qmax (a * k) (c * k)))).
  { intros k a z c (A & C).
    assert (X : Qmin (a * k) (c * k) <= z * k <= Qmax (a * k) (c * k)).
    { destruct (Qlt_le_dec k 0) as [K|K].
      - assert (c * k <= z * k <= a * k) as (P & Q) by (split; nra). split.
        + eapply Qle_trans; [apply Q.le_min_r|exact P].
        + eapply Qle_trans; [exact Q|apply Q.le_max_l].
      - assert (a * k <= z * k <= c * k) as (P & Q) by (split; nra). split.
        + eapply Qle_trans; [apply Q.le_min_l|exact P].
        + eapply Qle_trans; [exact Q|apply Q.le_max_r]. }
    destruct X as (X1 & X2). split.
    - eapply Qle_trans; [apply Qfloor_le|exact X1].
    - eapply Qle_trans; [exact X2|apply Qle_ceiling]. }
  pose proof (H i) as HI. destruct i as [|[|[|]]]; [| | |lia]; unfold b, scale_bounds, vmap, vmin, vmax, vmul in *; cbn [comp fst snd c0 c1 c2] in *;
    (split; [apply K; exact HI|do 2 eexists; split; reflexivity]).
Qed.
Print Assumptions C95_bounds.

(** The points of a light grid move to the scaled positions if no factor is negative. *)
Theorem C95_grid_partial : forall s dist size mins i,
  0 <= c0 s -> 0 <= c1 s -> 0 <= c2 s -> 0 <= c0 dist -> 0 <= c1 dist -> 0 <= c2 dist ->
  (1 <= fst (fst size))%Z -> (1 <= snd (fst size))%Z -> (1 <= snd size)%Z ->
  let g := scale_grid s dist size mins in
  veq (grid_point (fst g) (snd g) i) (vmul (grid_point dist mins i) s).
Proof.
  intros s dist [[n0 n1] n2] mins [[i0 i1] i2] S0 S1 S2 D0 D1 D2 N0 N1 N2 g. cbn [fst snd] in *.
  assert (M : forall a d n k, 0 <= k -> 0 <= d -> (1 <= n)%Z -> Qmin (a * k) ((a + d * inject_Z (n - 1)) * k) == a * k).
  { intros a d n k K D N. apply Q.min_l. assert (0 <= inject_Z (n - 1)) by (change 0 with (inject_Z 0); rewrite <- Zle_Qle; lia).
    assert (0 <= d * inject_Z (n - 1)) by (apply Qmult_le_0_compat; assumption). apply Qmult_le_compat_r; [lra|exact K]. }
  unfold g, scale_grid, grid_point, veq, vadd, vmul, vmin. cbn [fst snd c0 c1 c2].
  rewrite !M by assumption. repeat split; ring.
Qed.
Print Assumptions C95_grid_partial.

(** On an axis with a negative factor every point of the grid is placed beyond the scaled grid: off by the
    extent of the grid. *)
Theorem C95_grid_refuted : forall s dist size mins i, c0 s < 0 -> 0 < c0 dist -> (1 <= fst (fst size))%Z ->
  let g := scale_grid s dist size mins in
  c0 (grid_point (fst g) (snd g) i) == c0 (vmul (grid_point dist mins i) s) + c0 s * c0 dist * inject_Z (fst (fst size) - 1).
Proof.
  intros s dist [[n0 n1] n2] mins [[i0 i1] i2] S D L g. cbn [fst snd] in *.
  unfold g, scale_grid, grid_point, vadd, vmul, vmin. cbn [fst snd c0 c1 c2].
  assert (P : 0 <= inject_Z (n0 - 1)) by (change 0 with (inject_Z 0); rewrite <- Zle_Qle; lia).
  assert (P2 : 0 <= c0 dist * inject_Z (n0 - 1)) by (apply Qmult_le_0_compat; [lra|exact P]).
  rewrite Q.min_r by nra. ring.
Qed.
Print Assumptions C95_grid_refuted.

Example C95_nontrivial :
  let g := scale_grid (mkV (-1 # 1) 2 1) (mkV 32 32 32) (5, 5, 5)%Z (mkV 0 (-64 # 1) 0) in
  Qred (c0 (snd g)) = -128 # 1 /\ Qred (c0 (grid_point (fst g) (snd g) (4, 0, 0)%Z)) = -256 # 1 /\
  Qred (c1 (grid_point (fst g) (snd g) (0, 3, 0)%Z)) = 64 /\
  scale_bounds (mkV (-1 # 2) 1 1) (mkV 1 2 3) (mkV 2 3 4) = (mkV (-1 # 1) 2 3, mkV 0 3 4).
Proof. vm_compute. repeat split; reflexivity. Qed.
