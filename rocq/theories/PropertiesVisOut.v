(* C13-C15: visibility lump, PHS, stack windings. *)
From Coq Require Import List Arith NArith ZArith Bool Lia.
Import ListNotations.
From Verif Require Import Base LeafBitsModel LeafBitsProofs VisRleModel VisLumpModel VisLumpProofs VisPhsModel VisPhsProofs
  VisPoolModel VisPoolProofs.

(** C13. [n] clusters, [cl] the cluster of each output leaf (Quake: of leaf i + 1; Quake II:
    [seq 0 n]), processed in any order: the lump is assembled without a failure, and for
    each cluster decompressing at its offset - which each of its leafs carries - yields a
    row whose bit [k] is set iff [k] is an output leaf whose cluster is this one or is seen
    through one of its portals (so padding bits are zero). The hypothesis bounds the lump
    by 2^31 bytes, as offsets are int32. *)
Theorem C13_vis_lump_rows : forall n cl portals order,
  portals_ok n portals -> Forall (fun d => d < n) cl ->
  NoDup order -> (forall c, In c order <-> c < n) ->
  (Z.of_nat (n * (2 * ((length cl + 7) / 8))) < 2 ^ 31)%Z ->
  exists s, clusters_flow n cl portals (vlump_init n (length cl)) order = Some s /\
    forall c, c < n -> exists ofs row, nth_error (vl_ofs s) c = Some (Z.of_nat ofs) /\
      (forall i, nth_error cl i = Some c -> nth_error (vl_leaf s) i = Some (Z.of_nat ofs)) /\
      (forall outb, length outb = (length cl + 7) / 8 -> decompress_vis (vl_map s) ofs outb = D_done row) /\
      length row = (length cl + 7) / 8 /\
      (forall k, N.testbit (nth (k / 8) row 0%N) (N.of_nat (k mod 8)) = true <->
         exists d, nth_error cl k = Some d /\
           (d = c \/ exists ps v, nth_error portals c = Some ps /\ In (true, v) ps /\ lb_get v d = Some true)).
Proof.
  intros n cl portals order HP HF Hnd Hin Hsz.
  destruct (vislump_rows n cl portals order HP HF Hnd Hin Hsz) as (s & A & _ & _ & B).
  exists s. split; [assumption|]. intros c Hc. destruct (B c Hc) as (ofs & row & C & D & E & (F & _ & G)).
  exists ofs, row. split; [assumption|]. split; [assumption|]. split; [exact E|]. split; [exact F|]. exact G.
Qed.
Print Assumptions C13_vis_lump_rows.

(** The order the code uses. *)
Theorem C13_vis_lump_in_order : forall n cl portals,
  portals_ok n portals -> Forall (fun d => d < n) cl ->
  (Z.of_nat (n * (2 * ((length cl + 7) / 8))) < 2 ^ 31)%Z ->
  exists s, build_vislump n cl portals = Some s /\
    forall i c, nth_error cl i = Some c -> exists ofs row,
      nth_error (vl_leaf s) i = Some (Z.of_nat ofs) /\
      decompress_vis (vl_map s) ofs (repeat 0%N ((length cl + 7) / 8)) = D_done row /\
      forall k d, nth_error cl k = Some d ->
        (N.testbit (nth (k / 8) row 0%N) (N.of_nat (k mod 8)) = true <-> cluster_sees portals c d).
Proof.
  intros n cl portals HP HF Hsz.
  destruct (C13_vis_lump_rows n cl portals (seq 0 n) HP HF (seq_NoDup _ _)) as (s & A & B).
  { intro c. rewrite in_seq. lia. } { assumption. }
  exists s. split; [exact A|]. intros i c Hi.
  assert (Hc : c < n) by (rewrite Forall_forall in HF; apply HF; eapply nth_error_In; eassumption).
  destruct (B c Hc) as (ofs & row & _ & D & E & _ & G). exists ofs, row. split; [auto|].
  split; [apply E, repeat_length|]. intros k d Hk. rewrite G. unfold cluster_sees. split.
  - intros (d' & H1 & H2). rewrite Hk in H1. inversion H1; subst. assumption.
  - intro H. exists d. auto.
Qed.
Print Assumptions C13_vis_lump_in_order.

(** Three clusters in a row over ten leafs. *)
Example C13_nontrivial :
  let v := fun w => (true, {| lb_size := 3; lb_bits := [w] |}) in
  let cl := [0; 0; 1; 1; 1; 2; 2; 2; 2; 2] in
  option_map (fun s => (vl_map s, vl_ofs s, vl_leaf s))
    (build_vislump 3 cl [[v 2%N]; [v 1%N; v 4%N]; [v 2%N]]) =
    Some ([31; 0; 1; 255; 3; 252; 3]%N, [0; 3; 5]%Z, [0; 0; 3; 3; 3; 5; 5; 5; 5; 5]%Z) /\
  decompress_vis [31; 0; 1; 255; 3; 252; 3]%N 5 [0; 0]%N = D_done [252; 3]%N.
Proof. split; vm_compute; reflexivity. Qed.

(** C14, what holds. If the PVS rows are stored as C13 leaves them ([stored]), CalcPHS
    succeeds, keeps them readable, and stores for each cluster a row whose bit [k] is set
    iff [k] is visible from the cluster or - only for the bytes covered by whole machine
    words ([w] = sizeof(long)) - from a cluster visible from it. Missing from the claim: the
    last (n+7)/8 mod w bytes. *)
Theorem C14_phs_rows_partial : forall w n rows bits pvs,
  w <> 0 -> stored n rows bits pvs -> (Z.of_nat (length bits + n * (2 * ((n + 7) / 8))) < 2 ^ 31)%Z ->
  exists s, calc_phs w n bits pvs = Phs_ok s /\ stored n rows (ph_bits s) pvs /\
    forall i, i < n -> exists ofs row, nth_error (ph_phs s) i = Some (Z.of_nat ofs) /\
      (forall outb, length outb = (n + 7) / 8 -> decompress_vis (ph_bits s) ofs outb = D_done row) /\
      forall k, row_bit row k = true <->
        row_bit (rows i) k = true \/
        (k / 8 < (n + 7) / 8 / w * w /\ exists j, row_bit (rows i) j = true /\ row_bit (rows j) k = true).
Proof. exact calc_phs_ok. Qed.
Print Assumptions C14_phs_rows_partial.

(** The full claim when a row is a whole number of machine words. *)
Theorem C14_phs_whole_words_partial : forall w n rows bits pvs,
  w <> 0 -> (n + 7) / 8 mod w = 0 ->
  stored n rows bits pvs -> (Z.of_nat (length bits + n * (2 * ((n + 7) / 8))) < 2 ^ 31)%Z ->
  exists s, calc_phs w n bits pvs = Phs_ok s /\
    forall i, i < n -> exists ofs row, nth_error (ph_phs s) i = Some (Z.of_nat ofs) /\
      decompress_vis (ph_bits s) ofs (repeat 0%N ((n + 7) / 8)) = D_done row /\
      forall k, row_bit row k = true <->
        row_bit (rows i) k = true \/ exists j, row_bit (rows i) j = true /\ row_bit (rows j) k = true.
Proof.
  intros w n rows bits pvs Hw Hm HS Hsz. destruct (calc_phs_ok w n rows bits pvs Hw HS Hsz) as (s & A & _ & B).
  exists s. split; [assumption|]. intros i Hi. destruct (B i Hi) as (ofs & row & C & D & E).
  exists ofs, row. split; [assumption|]. split; [apply D, repeat_length|]. intro k. rewrite E. unfold phs_bit.
  assert (Hd : (n + 7) / 8 / w * w = (n + 7) / 8) by (pose proof (Nat.div_mod ((n + 7) / 8) w Hw); nia).
  rewrite Hd. split.
  - intros [H|(_ & H)]; auto.
  - intros [H|(j & H1 & H2)]; [auto|]. right. split; [|eauto].
    assert (Hj : j < n) by (apply (proj2 HS i Hi); assumption).
    destruct (proj2 HS j Hj) as (L & _). destruct (Nat.lt_ge_cases (k / 8) ((n + 7) / 8)); [assumption|].
    rewrite row_bit_high in H2 by lia. discriminate.
Qed.
Print Assumptions C14_phs_whole_words_partial.

(** C14 is false of the code: three clusters in a row, 0 sees 1 and 1 sees 2, yet 2 is not
    hearable from 0, with either size of long. *)
Theorem C14_trailing_bytes_refuted : exists n bits pvs rows, stored n rows bits pvs /\
  forall w, w = 4 \/ w = 8 -> exists s, calc_phs w n bits pvs = Phs_ok s /\
    exists i j k ofs row, row_bit (rows i) j = true /\ row_bit (rows j) k = true /\
      nth_error (ph_phs s) i = Some (Z.of_nat ofs) /\
      decompress_vis (ph_bits s) ofs (repeat 0%N ((n + 7) / 8)) = D_done row /\ row_bit row k = false.
Proof.
  exists 3, [3; 7; 6]%N, [0; 1; 2]%Z, (fun i => nth i [[3]; [7]; [6]]%N [0]%N). split.
  - split; [reflexivity|]. intros i Hi.
    assert (Hc : i = 0 \/ i = 1 \/ i = 2) by lia.
    assert (Hb : forall b k, In b [3; 7; 6]%N -> row_bit [b] k = true -> k < 3).
    { intros b k Hb Hk. destruct (Nat.lt_ge_cases k 3); [assumption|]. exfalso.
      destruct (Nat.lt_ge_cases k 8) as [H8|H8].
      - assert (Hk' : k = 3 \/ k = 4 \/ k = 5 \/ k = 6 \/ k = 7) by lia.
        destruct Hb as [<-|[<-|[<-|[]]]]; destruct Hk' as [->|[->|[->|[->| ->]]]]; vm_compute in Hk; discriminate.
      - rewrite row_bit_high in Hk; [discriminate|]. simpl length. apply Nat.div_le_lower_bound; lia. }
    destruct Hc as [->|[->| ->]]; (split; [reflexivity|]; split; [intros k; apply Hb; simpl; auto|]).
    + exists [], [3]%N, [7; 6]%N. auto.
    + exists [3]%N, [7]%N, [6]%N. auto.
    + exists [3; 7]%N, [6]%N, []. auto.
  - intros w [->| ->]; (eexists; split; [vm_compute; reflexivity|]); exists 0, 1, 2, 3, [3]%N; repeat split.
Qed.
Print Assumptions C14_trailing_bytes_refuted.

(** The partial theorem is not vacuous: 32 clusters and 4-byte words. *)
Example C14_nontrivial :
  match calc_phs 4 32 [3; 0; 3; 7; 0; 3; 6; 0; 3]%N ([0; 3; 6] ++ repeat 6 29)%Z with
  | Phs_ok s => nth_error (ph_phs s) 0 = Some 9%Z /\
                decompress_vis (ph_bits s) 9 (repeat 0%N 4) = D_done [7; 0; 0; 0]%N
  | _ => False
  end.
Proof. vm_compute. auto. Qed.

(** C15. Alloc hands out a slot that is not in use and marks it, and reports exhaustion;
    free releases a slot in use, reports one that is not, and ignores foreign windings. *)
Theorem C15_pool_operations : forall s w,
  match alloc_winding s with
  | P_ok (i, s') => nth_error (ps_used s) i = Some false /\ nth_error (ps_used s') i = Some true /\
      forall j, j <> i -> nth_error (ps_used s') j = nth_error (ps_used s) j
  | P_err e => e = E_failed /\ forall i, nth_error (ps_used s) i <> Some false
  end /\
  match free_winding s w with
  | P_ok s' => match w with
               | W_ext _ => s' = s
               | W_loc i => nth_error (ps_used s) i = Some true /\ nth_error (ps_used s') i = Some false /\
                   forall j, j <> i -> nth_error (ps_used s') j = nth_error (ps_used s) j
               end
  | P_err e => exists i, w = W_loc i /\
      ((e = E_freed /\ nth_error (ps_used s) i = Some false) \/ (e = E_memory /\ length (ps_used s) <= i))
  end.
Proof.
  intros s w.
  assert (K : forall l k, match alloc_scan l k with
                          | Some i => k <= i /\ nth_error l (i - k) = Some false
                          | None => forall i, nth_error l i <> Some false
                          end).
  { induction l as [|[] l IH]; intro k; cbn [alloc_scan].
    - intros [|i]; discriminate.
    - specialize (IH (S k)). destruct (alloc_scan l (S k)) as [i|].
      + destruct IH as [A B]. split; [lia|]. replace (i - k) with (S (i - S k)) by lia. exact B.
      + intros [|i]; [discriminate|]. apply IH.
    - rewrite Nat.sub_diag. auto. }
  split.
  - unfold alloc_winding. specialize (K (ps_used s) 0). destruct (alloc_scan (ps_used s) 0) as [i|]; [|auto].
    destruct K as [_ K]. rewrite Nat.sub_0_r in K.
    destruct (upd_some _ (ps_used s) i true) as (u & Hu); [apply nth_error_Some; congruence|]. rewrite Hu.
    split; [assumption|]. split; [apply (VisSchedProofs.upd_same _ _ _ _ _ Hu)|].
    intros j Hj. apply (VisSchedProofs.upd_other _ _ _ _ _ _ Hu Hj).
  - destruct w as [i|n]; cbn [free_winding]; [|reflexivity].
    destruct (nth_error (ps_used s) i) as [[]|] eqn:E.
    + destruct (upd_some _ (ps_used s) i false) as (u & Hu); [apply nth_error_Some; congruence|]. rewrite Hu.
      split; [reflexivity|]. split; [apply (VisSchedProofs.upd_same _ _ _ _ _ Hu)|].
      intros j Hj. apply (VisSchedProofs.upd_other _ _ _ _ _ _ Hu Hj).
    + exists i. auto.
    + exists i. split; [reflexivity|]. right. split; [reflexivity|]. apply nth_error_None. assumption.
Qed.
Print Assumptions C15_pool_operations.

(** The flow never runs out of windings, never frees one twice, never overflows a fixed
    winding or the separator cache - whatever the geometry decides - and each portal leaves
    the pool empty. Where it recurses, source and pass are live and do not share a slot. *)
Theorem C15_flow_never_exhausts : forall orc lvl psrc ppass pws junk step,
  psrc <= MAX_WINDING -> (forall n, ppass = Some n -> n <= MAX_WINDING) -> Forall (fun n => n <= MAX_WINDING) pws ->
  exists s l, portal_loop orc lvl psrc ppass pws (fresh_stack junk step) = P_ok (s, l) /\
    ps_used s = [false; false; false] /\
    forall source pass sr, In (source, pass, sr) l ->
      (forall i, source = W_loc i \/ pass = W_loc i -> nth_error (ps_used sr) i = Some true /\
         exists n, nth_error (ps_size sr) i = Some n /\ n <= MAX_WINDING_FIXED) /\
      (forall i, source = W_loc i -> pass <> W_loc i).
Proof.
  intros orc lvl psrc ppass pws junk step Hs Hp HF. destruct (fresh_ok junk step) as [F1 F2].
  destruct (portal_loop_ok pws orc lvl psrc ppass (fresh_stack junk step) F1 F2 Hs Hp HF) as (s & l & A & B & _ & D).
  exists s, l. split; [assumption|]. split; [apply B|].
  intros source pass sr Hin. rewrite Forall_forall in D. specialize (D _ Hin). cbn [fst snd] in D.
  destruct D as (D1 & D2 & D3 & _ & D5). rewrite Forall_forall in D3.
  inversion D5 as [|? ? S1 S2]; subst. inversion S2 as [|? ? S3 _]; subst. split.
  - intros i Hi.
    assert (Hl : In i (locs [source; pass])).
    { unfold locs. apply in_flat_map. destruct Hi as [->| ->]; exists (W_loc i); simpl; auto. }
    split.
    + rewrite D1. pose proof (D3 _ Hl) as Hlt. apply inuse_In in Hl. unfold STACK_WINDINGS in Hlt.
      destruct i as [|[|[|i]]]; [| | |lia]; cbn [map nth_error]; congruence.
    + destruct Hi as [->| ->]; assumption.
  - intros i -> ->. cbn in D2. inversion D2 as [|? ? N _]; subst. apply N. left. reflexivity.
Qed.
Print Assumptions C15_flow_never_exhausts.

(** Everything is cut in half at each clip: windings are allocated and the flow recurses. *)
Example C15_nontrivial :
  let orc := fun _ => {| q_sphere := Sph_cut; q_side := fun i => if Nat.ltb i 2 then S_front else S_back; q_sep := true |} in
  match portal_loop orc 4 4 (Some 4) [4; 5] (fresh_stack (0, 0, 0) 0) with
  | P_ok (s, [(a, b, r); _]) => ps_used s = [false; false; false] /\ a = W_loc 0 /\ b = W_loc 1 /\
        ps_size r = [4; 4; 4] /\ ps_used r = [true; true; false] /\ ps_nsep0 r = 4
  | _ => False
  end.
Proof. vm_compute. repeat split. Qed.
