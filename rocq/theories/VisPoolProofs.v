From Coq Require Import List Arith Bool Lia.
Import ListNotations.
From Verif Require Import Base VisSchedProofs VisPoolModel.

Definition locs (ws : list wref) : list nat := flat_map (fun w => match w with W_loc i => [i] | W_ext _ => [] end) ws.
Definition inuse (ws : list wref) (i : nat) : bool := existsb (Nat.eqb i) (locs ws).

(** A live winding has a size the code can handle. *)
Definition size_ok (s : pstack) (w : wref) : Prop :=
  match w with
  | W_ext n => n <= MAX_WINDING
  | W_loc i => exists n, nth_error (ps_size s) i = Some n /\ n <= MAX_WINDING_FIXED
  end.

(** The slots in use are exactly those of the windings [ws], no two of which share one. *)
Definition holds (s : pstack) (ws : list wref) : Prop :=
  ps_used s = map (inuse ws) [0; 1; 2] /\ NoDup (locs ws) /\ Forall (fun i => i < STACK_WINDINGS) (locs ws) /\
  length (ps_size s) = STACK_WINDINGS /\ Forall (size_ok s) ws.

Lemma inuse_In : forall ws i, inuse ws i = true <-> In i (locs ws).
Proof.
  intros. unfold inuse. rewrite existsb_exists. split.
  - intros (x & H & E). apply Nat.eqb_eq in E. subst. assumption.
  - intro H. exists i. split; [assumption|apply Nat.eqb_refl].
Qed.

Definition same_seps (s s' : pstack) : Prop := ps_nsep0 s' = ps_nsep0 s /\ ps_nsep1 s' = ps_nsep1 s.
Lemma same_refl : forall s, same_seps s s. Proof. split; reflexivity. Qed.
Lemma same_trans : forall a b c, same_seps a b -> same_seps b c -> same_seps a c.
Proof. unfold same_seps. intros a b c [H1 H2] [H3 H4]. split; congruence. Qed.

Lemma holds_perm : forall s a b, holds s [a; b] -> holds s [b; a].
Proof.
  intros s a b (H1 & H2 & H3 & H4 & H5). unfold holds.
  assert (P : forall i, inuse [a; b] i = inuse [b; a] i).
  { intro i. unfold inuse, locs. destruct a, b; cbn; rewrite ?orb_false_r; auto. apply orb_comm. }
  rewrite H1. split; [apply map_ext, P|].
  inversion H5 as [|? ? S1 S2]; subst. inversion S2 as [|? ? S3 _]; subst.
  destruct a as [i|n], b as [j|m]; cbn in *; try (split; [assumption|]; split; [assumption|]; split; [assumption|]; constructor; [exact S3|constructor; [exact S1|constructor]]).
  inversion H2 as [|? ? N1 N2]; subst. inversion H3 as [|? ? F1 F2]; subst. inversion F2; subst.
  split; [|split; [constructor; [assumption|constructor; [assumption|constructor]]|split; [assumption|constructor; [exact S3|constructor; [exact S1|constructor]]]]].
  constructor; [|constructor; [intros []|constructor]]. intros [E|[]]. apply N1. left. congruence.
Qed.

Lemma holds_ext : forall s n ws, n <= MAX_WINDING -> (holds s (W_ext n :: ws) <-> holds s ws).
Proof.
  intros s n ws Hn. unfold holds. cbn [locs flat_map app]. fold (locs ws).
  change (map (inuse (W_ext n :: ws)) [0; 1; 2]) with (map (inuse ws) [0; 1; 2]).
  split; intros (A & B & C & D & E); (split; [assumption|]; split; [assumption|]; split; [assumption|]; split; [assumption|]).
  - inversion E; assumption.
  - constructor; [exact Hn|assumption].
Qed.

Lemma free_ok : forall s w ws, holds s (w :: ws) -> exists s', free_winding s w = P_ok s' /\ holds s' ws /\
  same_seps s s' /\ ps_size s' = ps_size s.
Proof.
  intros s [i|n] ws H; cbn [free_winding].
  2:{ exists s. split; [reflexivity|]. split; [|split; [apply same_refl|reflexivity]].
      apply (holds_ext s n). { destruct H as (_ & _ & _ & _ & H). inversion H; assumption. } assumption. }
  destruct H as (H1 & H2 & H3 & H4 & H5). cbn [locs flat_map app] in H2, H3. fold (locs ws) in H2, H3.
  inversion H2 as [|? ? N1 N2]; subst. inversion H3 as [|? ? F1 F2]; subst. inversion H5 as [|? ? S1 S2]; subst.
  assert (Hi : i = 0 \/ i = 1 \/ i = 2) by (unfold STACK_WINDINGS in F1; lia).
  assert (Hin : inuse (W_loc i :: ws) i = true) by (unfold inuse; cbn; rewrite Nat.eqb_refl; reflexivity).
  assert (Hno : inuse ws i = false).
  { destruct (inuse ws i) eqn:E; [|reflexivity]. apply inuse_In in E. contradiction. }
  assert (Hot : forall j, j <> i -> inuse (W_loc i :: ws) j = inuse ws j).
  { intros j Hj. unfold inuse. cbn. destruct (Nat.eqb_spec j i); [contradiction|]. reflexivity. }
  destruct Hi as [->|[->| ->]]; rewrite H1; cbn [map nth_error upd]; rewrite Hin;
    (eexists; split; [reflexivity|]; split; [|split; [split; reflexivity|reflexivity]]);
    (split; [cbn [ps_used set_used map]; rewrite Hno; rewrite ?(Hot 0), ?(Hot 1), ?(Hot 2) by lia; reflexivity|]);
    (split; [assumption|]; split; [assumption|]; split; [assumption|exact S2]).
Qed.

Lemma alloc_ok : forall s ws, holds s ws -> length ws <= 2 -> exists i s', alloc_winding s = P_ok (i, s') /\
  i < STACK_WINDINGS /\ ~ In i (locs ws) /\ ps_used s' = map (inuse (W_loc i :: ws)) [0; 1; 2] /\
  same_seps s s' /\ ps_size s' = ps_size s.
Proof.
  intros s ws (H1 & H2 & H3 & H4 & H5) HL. unfold alloc_winding. rewrite H1. cbn [map alloc_scan].
  assert (Hfree : inuse ws 0 = false \/ inuse ws 1 = false \/ inuse ws 2 = false).
  { destruct (inuse ws 0) eqn:E0; [|auto]. destruct (inuse ws 1) eqn:E1; [|auto]. destruct (inuse ws 2) eqn:E2; [|auto].
    exfalso. apply inuse_In in E0, E1, E2.
    assert (length (locs ws) <= 2).
    { clear -HL. unfold locs. assert (length (flat_map (fun w => match w with W_loc i => [i] | W_ext _ => [] end) ws) <= length ws).
      { clear. induction ws as [|[i|n] ws IH]; simpl; lia. } lia. }
    assert (length [0; 1; 2] <= length (locs ws)).
    { apply NoDup_incl_length; [repeat constructor; simpl; intuition lia|]. intros x [<-|[<-|[<-|[]]]]; assumption. }
    simpl in *. lia. }
  assert (Hin : forall i, inuse (W_loc i :: ws) i = true) by (intro; unfold inuse; cbn; rewrite Nat.eqb_refl; reflexivity).
  assert (Hot : forall i j, j <> i -> inuse (W_loc i :: ws) j = inuse ws j).
  { intros i j Hj. unfold inuse. cbn. destruct (Nat.eqb_spec j i); [contradiction|]. reflexivity. }
  assert (Hni : forall i, inuse ws i = false -> ~ In i (locs ws)) by (intros i Hi Hc; apply inuse_In in Hc; congruence).
  assert (Hall : forall i u, i < STACK_WINDINGS -> inuse ws i = false -> u = map (inuse (W_loc i :: ws)) [0; 1; 2] ->
    exists i0 s', P_ok (i, set_used s u) = P_ok (i0, s') /\ i0 < STACK_WINDINGS /\ ~ In i0 (locs ws) /\
      ps_used s' = map (inuse (W_loc i0 :: ws)) [0; 1; 2] /\ same_seps s s' /\ ps_size s' = ps_size s).
  { intros i u Hi Hf Hu. exists i, (set_used s u). split; [reflexivity|]. split; [assumption|]. split; [auto|].
    split; [exact Hu|]. split; [split; reflexivity|reflexivity]. }
  destruct (inuse ws 0) eqn:E0; [destruct (inuse ws 1) eqn:E1; [destruct (inuse ws 2) eqn:E2; [destruct Hfree as [?|[?|?]]; discriminate|]|]|];
    cbn [upd option_map]; (apply Hall; [unfold STACK_WINDINGS; lia|assumption|]); cbn [map].
  - rewrite Hin, (Hot 2 0), (Hot 2 1) by lia. congruence.
  - rewrite Hin, (Hot 1 0), (Hot 1 2) by lia. congruence.
  - rewrite Hin, (Hot 0 1), (Hot 0 2) by lia. congruence.
Qed.

Lemma clip_points_bound : forall sd size todo n m, n <= MAX_WINDING_FIXED -> clip_points sd size todo n = inl m -> m <= MAX_WINDING_FIXED.
Proof.
  unfold MAX_WINDING_FIXED. intros sd size. induction todo as [|i t IH]; intros n m Hn H; cbn [clip_points] in H.
  - congruence.
  - unfold MAX_WINDING_FIXED in H. cbv zeta in H. destruct (Nat.eqb_spec n 24) as [E|E].
    + destruct (sd i); [discriminate| |discriminate].
      destruct (sd (if Nat.eqb (S i) size then 0 else S i)); [discriminate| |]; exact (IH _ _ Hn H).
    + destruct (sd i).
      * destruct (sd (if Nat.eqb (S i) size then 0 else S i)); try (refine (IH _ _ _ H); lia).
        destruct (Nat.eqb_spec (S n) 24); [discriminate|]. refine (IH _ _ _ H). lia.
      * destruct (sd (if Nat.eqb (S i) size then 0 else S i)); refine (IH _ _ _ H); lia.
      * refine (IH _ _ _ H). lia.
Qed.

Lemma holds_tick : forall s ws, holds s ws -> holds (tick s) ws.
Proof.
  intros s ws (A & B & C & D & E). split; [assumption|]. split; [assumption|]. split; [assumption|]. split; [assumption|]. exact E.
Qed.
Lemma holds_nsep : forall s test n ws, holds s ws -> holds (set_nsep s test n) ws.
Proof.
  intros s test n ws (A & B & C & D & E). split; [assumption|]. split; [assumption|]. split; [assumption|]. split; [assumption|]. exact E.
Qed.

Lemma size_ok_wsize : forall s w, size_ok s w -> exists n, wsize s w = Some n /\ n <= MAX_WINDING.
Proof.
  intros s [i|n] H; cbn in *.
  - destruct H as (n & A & B). exists n. split; [assumption|]. unfold MAX_WINDING, MAX_WINDING_FIXED in *. lia.
  - eauto.
Qed.

Lemma upd_size_ok : forall s i m z w, upd (ps_size s) i m = Some z -> size_ok s w -> w <> W_loc i -> size_ok (set_size s z) w.
Proof.
  intros s i m z [j|n] Hu H Hne; cbn in *; [|assumption]. destruct H as (n & A & B). exists n. split; [|assumption].
  rewrite (upd_other _ _ _ _ _ _ Hu); [assumption|congruence].
Qed.

Lemma clip_ok : forall q s w ws, holds s (w :: ws) -> length ws <= 1 ->
  exists r s', clip_winding q s w = P_ok (r, s') /\ same_seps s s' /\
    match r with None => holds s' ws | Some w' => holds s' (w' :: ws) end.
Proof.
  intros q s w ws H HL. unfold clip_winding.
  assert (Hfree : exists r s', (do s'0 <- free_winding s w; P_ok (@None wref, s'0)) = P_ok (r, s') /\ same_seps s s' /\
            match r with None => holds s' ws | Some w' => holds s' (w' :: ws) end).
  { destruct (free_ok s w ws H) as (s' & A & B & C & _). rewrite A. exists None, s'. auto. }
  assert (Hkeep : exists r s', P_ok (Some w, s) = P_ok (r, s') /\ same_seps s s' /\
            match r with None => holds s' ws | Some w' => holds s' (w' :: ws) end).
  { exists (Some w), s. split; [reflexivity|]. split; [apply same_refl|assumption]. }
  destruct (q_sphere q); [exact Hfree|exact Hkeep|].
  destruct H as (H1 & H2 & H3 & H4 & H5). assert (H : holds s (w :: ws)) by (repeat split; assumption).
  inversion H5 as [|? ? Sw Sws]; subst.
  destruct (size_ok_wsize s w Sw) as (n & En & Hn). rewrite En.
  destruct (Nat.ltb_spec MAX_WINDING n); [lia|].
  destruct (forallb _ _); [exact Hkeep|]. destruct (negb (existsb (side_eqb S_front) _)); [exact Hfree|].
  destruct (negb (existsb (side_eqb S_back) _)); [exact Hkeep|].
  destruct (alloc_ok s (w :: ws) H ltac:(simpl; lia)) as (i & s1 & A1 & A2 & A3 & A4 & A5 & A6). rewrite A1. cbn [pbind].
  assert (Hwi : w <> W_loc i) by (intros ->; apply A3; left; reflexivity).
  assert (Hwsi : forall w', In w' ws -> w' <> W_loc i).
  { intros w' Hw' ->. apply A3. unfold locs. apply in_flat_map. exists (W_loc i). split; [right; assumption|left; reflexivity]. }
  assert (Hloc : locs (W_loc i :: w :: ws) = i :: locs (w :: ws)) by reflexivity.
  destruct (clip_points (q_side q) n (seq 0 n) 0) as [m|u] eqn:Ec.
  - assert (Hm : m <= MAX_WINDING_FIXED) by (eapply clip_points_bound; [|eassumption]; unfold MAX_WINDING_FIXED; lia).
    destruct (upd_some _ (ps_size s1) i m) as (z & Hz); [rewrite A6, H4; assumption|]. rewrite Hz.
    assert (Hh : holds (set_size s1 z) (w :: W_loc i :: ws)).
    { unfold holds. cbn [ps_used ps_size set_size]. rewrite A4.
      assert (Hmem : forall j, inuse (W_loc i :: w :: ws) j = inuse (w :: W_loc i :: ws) j).
      { intro j. unfold inuse, locs. destruct w; cbn; [|reflexivity]. destruct (j =? i), (j =? i0); reflexivity. }
      split; [apply map_ext, Hmem|].
      split.
      { destruct w as [j|k]; cbn [locs flat_map app] in *.
        - inversion H2; subst. constructor; [|constructor].
          + intros [E|E]; [apply A3; left; congruence|contradiction].
          + intro E. apply A3. right. assumption.
          + assumption.
        - constructor; [|assumption]. intro E. apply A3. assumption. }
      split.
      { destruct w as [j|k]; cbn [locs flat_map app] in *; [inversion H3; subst; constructor; [assumption|constructor; assumption]|constructor; assumption]. }
      split; [rewrite (upd_length _ _ _ _ _ Hz), A6; assumption|].
      assert (Ss : forall w', size_ok s w' -> w' <> W_loc i -> size_ok (set_size s1 z) w').
      { intros w' S' Hne. apply (upd_size_ok s1 i m z w' Hz); [|assumption]. destruct w'; cbn in *; [rewrite A6|]; assumption. }
      constructor; [apply Ss; assumption|]. constructor.
      - cbn. exists m. split; [apply (upd_same _ _ _ _ _ Hz)|assumption].
      - apply Forall_forall. intros w' Hw'. rewrite Forall_forall in Sws. apply Ss; auto. }
    destruct (free_ok _ _ _ Hh) as (s2 & B1 & B2 & B3 & _). rewrite B1. cbn [pbind].
    exists (Some (W_loc i)), s2. split; [reflexivity|]. split; [|assumption].
    apply (same_trans _ _ _ A5), (same_trans _ (set_size s1 z)); [split; reflexivity|assumption].
  - assert (Hh : ps_used s1 = map (inuse (W_loc i :: w :: ws)) [0;1;2]) by assumption.
    cbn [free_winding]. rewrite Hh.
    assert (Hin : inuse (W_loc i :: w :: ws) i = true) by (unfold inuse; cbn; rewrite Nat.eqb_refl; reflexivity).
    assert (Hno : inuse (w :: ws) i = false).
    { destruct (inuse (w :: ws) i) eqn:E; [|reflexivity]. apply inuse_In in E. contradiction. }
    assert (Hot : forall j, j <> i -> inuse (W_loc i :: w :: ws) j = inuse (w :: ws) j).
    { intros j Hj. unfold inuse. cbn. destruct (Nat.eqb_spec j i); [contradiction|]. reflexivity. }
    assert (Hi : i = 0 \/ i = 1 \/ i = 2) by (unfold STACK_WINDINGS in A2; lia).
    destruct Hi as [->|[->| ->]]; cbn [map nth_error upd]; rewrite Hin; cbn [pbind];
      (eexists; eexists; split; [reflexivity|]; split; [apply (same_trans _ _ _ A5); split; reflexivity|]);
      (split; [cbn [ps_used set_used map]; rewrite Hno; rewrite ?(Hot 0), ?(Hot 1), ?(Hot 2) by lia; reflexivity|]);
      (split; [assumption|]; split; [assumption|]; cbn [ps_size set_used]; rewrite A6; split; [assumption|]);
      (apply Forall_forall; intros w' Hw'; rewrite Forall_forall in H5; specialize (H5 w' Hw'); destruct w'; cbn in *; [rewrite A6|]; assumption).
Qed.

Lemma ask_clip_ok : forall orc s w ws, holds s (w :: ws) -> length ws <= 1 ->
  exists r s', ask_clip orc s w = P_ok (r, s') /\ same_seps s s' /\
    match r with None => holds s' ws | Some w' => holds s' (w' :: ws) end.
Proof.
  intros. unfold ask_clip. destruct (clip_ok (orc (ps_step s)) (tick s) w ws (holds_tick _ _ H) H0) as (r & s' & A & B & C).
  exists r, s'. split; [assumption|]. split; [|assumption]. destruct B. split; assumption.
Qed.

Definition nsep (s : pstack) (test : nat) : nat := if Nat.eqb test 0 then ps_nsep0 s else ps_nsep1 s.
Definition seps_ok (s : pstack) : Prop := ps_nsep0 s <= MAX_SEPARATORS /\ ps_nsep1 s <= MAX_SEPARATORS.

Lemma seps_same : forall s s', same_seps s s' -> seps_ok s -> seps_ok s'.
Proof. intros s s' [A B] [C D]. split; lia. Qed.

Lemma separators_ok : forall orc test edges s w ws, holds s (w :: ws) -> length ws <= 1 -> seps_ok s ->
  (test < 2 -> nsep s test + edges <= MAX_SEPARATORS) ->
  exists r s', clip_to_separators orc test edges s w = P_ok (r, s') /\ seps_ok s' /\
    match r with None => holds s' ws | Some w' => holds s' (w' :: ws) end.
Proof.
  intros orc test. induction edges as [|e IH]; intros s w ws H HL HS HN; cbn [clip_to_separators].
  - exists (Some w), s. auto.
  - destruct (q_sep (orc (ps_step s))).
    + assert (H2 : exists s2, (if Nat.ltb test 2 then
                  if Nat.eqb (if Nat.eqb test 0 then ps_nsep0 (tick s) else ps_nsep1 (tick s)) MAX_SEPARATORS then P_err E_max_separators
                  else P_ok (set_nsep (tick s) test (S (if Nat.eqb test 0 then ps_nsep0 (tick s) else ps_nsep1 (tick s))))
                else P_ok (tick s)) = P_ok s2 /\ holds s2 (w :: ws) /\ seps_ok s2 /\ (test < 2 -> nsep s2 test + e <= MAX_SEPARATORS)).
      { cbn [ps_nsep0 ps_nsep1 tick]. fold (nsep s test). destruct (Nat.ltb_spec test 2) as [Ht|Ht].
        - specialize (HN Ht). destruct (Nat.eqb_spec (nsep s test) MAX_SEPARATORS); [lia|].
          eexists. split; [reflexivity|]. split; [apply holds_nsep, holds_tick, H|].
          unfold seps_ok, nsep in *. cbn [ps_nsep0 ps_nsep1 set_nsep tick]. destruct HS. destruct (Nat.eqb test 0); split; try split; intros; lia.
        - eexists. split; [reflexivity|]. split; [apply holds_tick, H|]. split; [exact HS|]. lia. }
      destruct H2 as (s2 & E2 & A & B & C). rewrite E2. cbn [pbind].
      destruct (ask_clip_ok orc s2 w ws A HL) as (r & s3 & D & F & G). rewrite D. cbn [pbind].
      pose proof (seps_same _ _ F B) as B'.
      destruct r as [w'|]; [|exists None, s3; auto].
      apply IH; try assumption. intro Ht. specialize (C Ht). destruct F as [F1 F2]. unfold nsep in *. destruct (Nat.eqb test 0); lia.
    + apply IH; [apply holds_tick, H|assumption|exact HS|]. intro Ht. specialize (HN Ht). change (nsep (tick s) test) with (nsep s test). lia.
Qed.

Lemma cached_ok : forall orc k s w ws, holds s (w :: ws) -> length ws <= 1 -> seps_ok s ->
  exists r s', clip_to_cached orc k s w = P_ok (r, s') /\ seps_ok s' /\
    match r with None => holds s' ws | Some w' => holds s' (w' :: ws) end.
Proof.
  intros orc. induction k as [|k IH]; intros s w ws H HL HS; cbn [clip_to_cached].
  - exists (Some w), s. auto.
  - destruct (ask_clip_ok orc s w ws H HL) as (r & s3 & D & F & G). rewrite D. cbn [pbind].
    pose proof (seps_same _ _ F HS) as B'. destruct r as [w'|]; [|exists None, s3; auto]. apply IH; assumption.
Qed.

Lemma vis_tests_ok : forall orc lvl psrc ppass s source pass, holds s [pass; source] -> seps_ok s ->
  psrc <= MAX_WINDING -> ppass <= MAX_WINDING ->
  exists r s', vis_tests orc lvl psrc ppass s source pass = P_ok (r, s') /\ seps_ok s' /\
    match r with None => holds s' [] | Some (source', pass') => holds s' [source'; pass'] end.
Proof.
  intros orc lvl psrc ppass s source pass H HS Hp1 Hp2. unfold vis_tests. unfold MAX_WINDING in *.
  assert (K0 : exists r0 s0, (if Nat.ltb 0 lvl then
                    if Nat.eqb (ps_nsep0 s) 0 then clip_to_separators orc 0 psrc s pass
                    else clip_to_cached orc (ps_nsep0 s) s pass
                  else P_ok (Some pass, s)) = P_ok (r0, s0) /\ seps_ok s0 /\
     match r0 with None => holds s0 [source] | Some w' => holds s0 [w'; source] end).
  { destruct (Nat.ltb 0 lvl); [|exists (Some pass), s; auto].
    destruct (Nat.eqb_spec (ps_nsep0 s) 0).
    - apply separators_ok; auto. intros _. unfold nsep, MAX_SEPARATORS. simpl. lia.
    - apply cached_ok; auto. }
  destruct K0 as (r0 & s0 & -> & S0 & H0). cbn [pbind].
  destruct r0 as [pass0|].
  2:{ destruct (free_ok _ _ _ H0) as (s' & A & B & C & _). rewrite A. cbn [pbind]. exists None, s'.
      split; [reflexivity|]. split; [apply (seps_same _ _ C S0)|assumption]. }
  assert (K1 : exists r1 s1, (if Nat.ltb 1 lvl then
                      if Nat.eqb (ps_nsep1 s0) 0 then clip_to_separators orc 1 ppass s0 pass0
                      else clip_to_cached orc (ps_nsep1 s0) s0 pass0
                    else P_ok (Some pass0, s0)) = P_ok (r1, s1) /\ seps_ok s1 /\
     match r1 with None => holds s1 [source] | Some w' => holds s1 [w'; source] end).
  { destruct (Nat.ltb 1 lvl); [|exists (Some pass0), s0; auto].
    destruct (Nat.eqb_spec (ps_nsep1 s0) 0).
    - apply separators_ok; auto. intros _. unfold nsep, MAX_SEPARATORS. simpl. lia.
    - apply cached_ok; auto. }
  destruct K1 as (r1 & s1 & -> & S1 & H1). cbn [pbind].
  destruct r1 as [pass1|].
  2:{ destruct (free_ok _ _ _ H1) as (s' & A & B & C & _). rewrite A. cbn [pbind]. exists None, s'.
      split; [reflexivity|]. split; [apply (seps_same _ _ C S1)|assumption]. }
  assert (Hsz : exists n, wsize s1 pass1 = Some n /\ n <= MAX_WINDING).
  { apply size_ok_wsize. destruct H1 as (_ & _ & _ & _ & E). inversion E; assumption. }
  destruct Hsz as (np & -> & _). apply holds_perm in H1.
  assert (K2 : exists r2 s2, (if Nat.ltb 2 lvl then clip_to_separators orc 2 np s1 source else P_ok (Some source, s1)) = P_ok (r2, s2) /\ seps_ok s2 /\
     match r2 with None => holds s2 [pass1] | Some w' => holds s2 [w'; pass1] end).
  { destruct (Nat.ltb 2 lvl); [|exists (Some source), s1; auto]. apply separators_ok; auto. lia. }
  destruct K2 as (r2 & s2 & -> & S2 & H2). cbn [pbind].
  destruct r2 as [source2|].
  2:{ destruct (free_ok _ _ _ H2) as (s' & A & B & C & _). rewrite A. cbn [pbind]. exists None, s'.
      split; [reflexivity|]. split; [apply (seps_same _ _ C S2)|assumption]. }
  assert (K3 : exists r3 s3, (if Nat.ltb 3 lvl then clip_to_separators orc 3 ppass s2 source2 else P_ok (Some source2, s2)) = P_ok (r3, s3) /\ seps_ok s3 /\
     match r3 with None => holds s3 [pass1] | Some w' => holds s3 [w'; pass1] end).
  { destruct (Nat.ltb 3 lvl); [|exists (Some source2), s2; auto]. apply separators_ok; auto. lia. }
  destruct K3 as (r3 & s3 & -> & S3 & H3). cbn [pbind].
  destruct r3 as [source3|].
  2:{ destruct (free_ok _ _ _ H3) as (s' & A & B & C & _). rewrite A. cbn [pbind]. exists None, s'.
      split; [reflexivity|]. split; [apply (seps_same _ _ C S3)|assumption]. }
  exists (Some (source3, pass1)), s3. auto.
Qed.

Lemma portal_step_ok : forall orc lvl psrc ppass pw s, holds s [] -> seps_ok s ->
  psrc <= MAX_WINDING -> (forall n, ppass = Some n -> n <= MAX_WINDING) -> pw <= MAX_WINDING ->
  exists s' r, portal_step orc lvl psrc ppass pw s = P_ok (s', r) /\ holds s' [] /\ seps_ok s' /\
    forall source pass sr, r = Some (source, pass, sr) -> holds sr [source; pass].
Proof.
  intros orc lvl psrc ppass pw s H HS Hs Hp Hw. unfold portal_step.
  assert (H0 : holds s [W_ext pw]) by (apply holds_ext; assumption).
  destruct (ask_clip_ok orc s (W_ext pw) [] H0 ltac:(simpl; lia)) as (r & s1 & A1 & B1 & C1). rewrite A1. cbn [pbind].
  pose proof (seps_same _ _ B1 HS) as HS1.
  destruct r as [pass|].
  2:{ exists s1, None. split; [reflexivity|]. split; [assumption|]. split; [assumption|]. intros; discriminate. }
  destruct ppass as [pp|].
  2:{ destruct (free_ok _ _ _ C1) as (s2 & A2 & B2 & C2 & _). rewrite A2. cbn [pbind].
      exists s2. eexists. split; [reflexivity|]. split; [assumption|]. split; [apply (seps_same _ _ C2 HS1)|].
      intros source pass' sr E. inversion E; subst. apply holds_ext; assumption. }
  destruct (ask_clip_ok orc s1 pass [] C1 ltac:(simpl; lia)) as (r2 & s2 & A2 & B2 & C2). rewrite A2. cbn [pbind].
  pose proof (seps_same _ _ B2 HS1) as HS2.
  destruct r2 as [pass2|].
  2:{ exists s2, None. split; [reflexivity|]. split; [assumption|]. split; [assumption|]. intros; discriminate. }
  assert (H3 : holds s2 [W_ext psrc; pass2]) by (apply holds_ext; assumption).
  destruct (ask_clip_ok orc s2 (W_ext psrc) [pass2] H3 ltac:(simpl; lia)) as (r3 & s3 & A3 & B3 & C3). rewrite A3. cbn [pbind].
  pose proof (seps_same _ _ B3 HS2) as HS3.
  destruct r3 as [source|].
  2:{ destruct (free_ok _ _ _ C3) as (s4 & A4 & B4 & C4 & _). rewrite A4. cbn [pbind].
      exists s4, None. split; [reflexivity|]. split; [assumption|]. split; [apply (seps_same _ _ C4 HS3)|]. intros; discriminate. }
  apply holds_perm in C3.
  destruct (vis_tests_ok orc lvl psrc pp s3 source pass2 C3 HS3 Hs (Hp _ eq_refl)) as (v & s4 & A4 & B4 & C4). rewrite A4. cbn [pbind].
  destruct v as [[source' pass']|].
  2:{ exists s4, None. split; [reflexivity|]. split; [assumption|]. split; [assumption|]. intros; discriminate. }
  destruct (free_ok _ _ _ C4) as (s5 & A5 & B5 & C5 & _). rewrite A5. cbn [pbind].
  destruct (free_ok _ _ _ B5) as (s6 & A6 & B6 & C6 & _). rewrite A6. cbn [pbind].
  exists s6. eexists. split; [reflexivity|]. split; [assumption|].
  split; [apply (seps_same _ _ C6), (seps_same _ _ C5), B4|].
  intros a b c E. inversion E; subst. assumption.
Qed.

Lemma portal_loop_ok : forall pws orc lvl psrc ppass s, holds s [] -> seps_ok s ->
  psrc <= MAX_WINDING -> (forall n, ppass = Some n -> n <= MAX_WINDING) -> Forall (fun n => n <= MAX_WINDING) pws ->
  exists s' l, portal_loop orc lvl psrc ppass pws s = P_ok (s', l) /\ holds s' [] /\ seps_ok s' /\
    Forall (fun x => holds (snd x) [fst (fst x); snd (fst x)]) l.
Proof.
  induction pws as [|pw pws IH]; intros orc lvl psrc ppass s H HS Hs Hp HF; cbn [portal_loop].
  - exists s, []. auto.
  - inversion HF; subst.
    destruct (portal_step_ok orc lvl psrc ppass pw s H HS Hs Hp H2) as (s1 & r & A & B & C & D). rewrite A. cbn [pbind].
    destruct (IH orc lvl psrc ppass s1 B C Hs Hp H3) as (s2 & l & E & F & G & I). rewrite E. cbn [pbind].
    exists s2. eexists. split; [reflexivity|]. split; [assumption|]. split; [assumption|].
    destruct r as [[[a b] c]|]; [|assumption]. constructor; [|assumption]. apply (D a b c eq_refl).
Qed.

Lemma fresh_ok : forall junk step, holds (fresh_stack junk step) [] /\ seps_ok (fresh_stack junk step).
Proof.
  intros. split.
  - split; [reflexivity|]. split; [constructor|]. split; [constructor|]. split; [reflexivity|constructor].
  - split; cbn; lia.
Qed.
