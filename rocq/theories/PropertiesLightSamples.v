(* C98: samples of light grid points.  C99: filters of lightmaps. *)
From Coq Require Import List Arith NArith ZArith QArith Bool Lia Lqa Permutation.
Import ListNotations.
From Verif Require Import Base NumCastModel LightSamplesModel LightSamplesProofs.
Local Open Scope nat_scope.

(** Styles in the order in which they first appear. *)
Definition styles_of (l : list (Z * color)) : list Z := in_order (map fst l).

(** As long as a point is lit by four styles at most, each style has one slot, in the order of first
    appearance, with the sum of its light. *)
Theorem C98_sums : forall l, length (styles_of l) <= 4 ->
  add_all l [] = map (fun st => (st, total st l)) (styles_of l) /\
  NoDup (styles_of l) /\ (forall st, In st (styles_of l) <-> exists c, In (st, c) l).
Proof.
  intros l L. split; [apply add_all_gathered; exact L|]. split; [apply in_order_nodup|].
  intro st. unfold styles_of. rewrite in_order_in, in_map_iff. split.
  - intros ([st' c] & E & H). cbn in E. subst. exists c. exact H.
  - intros [c H]. exists (st, c). split; [reflexivity|exact H].
Qed.
Print Assumptions C98_sums.

(** The order of the lights only decides the order of the slots. *)
Theorem C98_order : forall l l', Permutation l l' -> length (styles_of l) <= 4 -> Permutation (add_all l []) (add_all l' []).
Proof.
  intros l l' P L.
  assert (Ps : Permutation (styles_of l) (styles_of l')).
  { apply NoDup_Permutation; [apply in_order_nodup|apply in_order_nodup|]. intro x. unfold styles_of. rewrite !in_order_in.
    split; apply Permutation_in; [|symmetry]; apply Permutation_map; exact P. }
  assert (Et : forall st, total st l = total st l').
  { intro st. clear - P. induction P as [|p l l' P IH|p q l|l l' l'' P1 IH1 P2 IH2]; [reflexivity| | |congruence].
    - change (total st ([p] ++ l) = total st ([p] ++ l')). rewrite !total_app, IH. reflexivity.
    - change (total st ([q] ++ [p] ++ l) = total st ([p] ++ [q] ++ l)). rewrite !total_app, !cadd_assoc. f_equal. unfold cadd.
      destruct (total st [q]) as [[r g] bl], (total st [p]) as [[r' g'] bl']. cbn [fst snd]. f_equal; [f_equal|]; lia. }
  destruct (C98_sums l L) as [-> _]. destruct (C98_sums l') as [-> _]; [rewrite <- (Permutation_length Ps); exact L|].
  rewrite (map_ext _ (fun st => (st, total st l'))) by (intro st; rewrite Et; reflexivity).
  apply Permutation_map. exact Ps.
Qed.
Print Assumptions C98_order.

(** Adding the samples of one point to those of another is like lighting both at once. *)
Theorem C98_merge : forall a b, length (styles_of (a ++ b)) <= 4 -> merge (add_all a []) (add_all b []) = add_all (a ++ b) [].
Proof.
  intros a b L. unfold styles_of in L.
  assert (La : length (in_order (map fst a)) <= 4) by (rewrite map_app in L; pose proof (in_order_grows (map fst a) (map fst b)); lia).
  assert (Lb : length (in_order (map fst b)) <= 4).
  { assert (I : incl (in_order (map fst b)) (in_order (map fst (a ++ b)))).
    { intros x Hx. apply in_order_in. rewrite in_order_in in Hx. rewrite map_app. apply in_or_app. right. exact Hx. }
    pose proof (NoDup_incl_length (in_order_nodup (map fst b)) I). lia. }
  rewrite !add_all_gathered by assumption. apply merge_gathered. exact L.
Qed.
Print Assumptions C98_merge.

(** Always: four slots at most, no style twice. *)
Theorem C98_slots : forall l, length (add_all l []) <= 4 /\ NoDup (map fst (add_all l [])).
Proof.
  intro l.
  assert (H : forall s c st, length s <= 4 /\ NoDup (map fst s) -> length (add_sample s c st) <= 4 /\ NoDup (map fst (add_sample s c st))).
  { intros s c st [L ND]. unfold add_sample. destruct (in_dec Z.eq_dec st (map fst s)) as [Hi|Hi].
    - rewrite add_known_old by assumption. rewrite map_length. split; [exact L|].
      rewrite map_map. rewrite (map_ext _ fst); [exact ND|]. intro p. destruct (fst p =? st)%Z; reflexivity.
    - rewrite add_known_new by exact Hi. destruct (4 - length s) as [|fr] eqn:E.
      + unfold put. destruct (upd s (dimmest s 0 0 None) (st, c)) as [s'|] eqn:Eu; [|split; assumption].
        rewrite (upd_length _ _ _ _ _ Eu). split; [exact L|].
        assert (Sub : forall x, In x (map fst s') -> x = st \/ In x (map fst s)).
        { intros x Hx. apply In_nth_error in Hx. destruct Hx as [n Hn]. rewrite nth_error_map, (upd_nth_error _ _ _ _ _ n Eu) in Hn.
          destruct (n =? dimmest s 0 0 None); [left; cbn in Hn; congruence|]. right.
          destruct (nth_error s n) as [p|] eqn:En; [|discriminate]. cbn in Hn. injection Hn as <-. apply in_map. eapply nth_error_In. exact En. }
        clear Sub. revert ND Hi Eu. generalize (dimmest s 0 0 None). clear. intros i. revert s' i.
        induction s as [|p s IH]; intros s' i ND Hi Eu; [destruct i; discriminate|].
        cbn [map] in ND, Hi. inversion ND as [|y ys Hn ND' Ey]; subst. destruct i as [|i]; cbn [upd] in Eu.
        * injection Eu as <-. cbn [map fst]. constructor; [|exact ND']. intro Hc. apply Hi. right. exact Hc.
        * destruct (upd s i (st, c)) as [s1|] eqn:E1; [|discriminate]. injection Eu as <-. cbn [map]. constructor.
          -- intro Hc. apply In_nth_error in Hc. destruct Hc as [n Hc]. rewrite nth_error_map, (upd_nth_error _ _ _ _ _ n E1) in Hc.
             destruct (n =? i); [cbn in Hc; injection Hc as Hc; apply Hi; left; symmetry; exact Hc|].
             apply Hn. destruct (nth_error s n) as [q|] eqn:En; [|discriminate]. cbn in Hc. injection Hc as <-. apply in_map. eapply nth_error_In. exact En.
          -- apply (IH s1 i ND'); [intro Hc; apply Hi; right; exact Hc|exact E1].
      + rewrite app_length. cbn [length]. split; [lia|]. rewrite map_app. cbn [map fst].
        apply (Permutation_NoDup (l := st :: map fst s)); [apply Permutation_cons_append|]. constructor; assumption. }
  induction l as [|p l IH] using rev_ind; [split; [cbn; lia|constructor]|].
  unfold add_all. rewrite fold_left_app. apply H. exact IH.
Qed.
Print Assumptions C98_slots.

(** A fifth style takes the slot of the dimmest. *)
Theorem C98_fifth : forall s c st, length s = 4 -> ~ In st (map fst s) ->
  exists i p, nth_error s i = Some p /\ (forall q, In q s -> (bright (snd p) <= bright (snd q))%Z) /\
    nth_error (add_sample s c st) i = Some (st, c) /\ (forall j, j <> i -> nth_error (add_sample s c st) j = nth_error s j).
Proof.
  intros s c st L H. unfold add_sample. rewrite add_known_new by exact H. rewrite L. cbn [Nat.sub].
  destruct (dimmest_spec s 0 0 None _ eq_refl) as [(_ & m & E & _)|(R & p & Ep & Hp & _)]; [destruct s; discriminate|discriminate|].
  rewrite Nat.sub_0_r in Ep. exists (dimmest s 0 0 None), p. split; [exact Ep|]. split; [exact Hp|].
  rewrite put_nth by lia. rewrite Nat.eqb_refl. split; [reflexivity|].
  intros j Hj. rewrite put_nth by lia. apply Nat.eqb_neq in Hj. rewrite Hj. reflexivity.
Qed.
Print Assumptions C98_fifth.

(** Refuted: "the four brightest styles are kept", and "the result does not depend on the order of the
    lights": a dim fifth style replaces a brighter one, and light of a style that lost its slot is gone. *)
Theorem C98_brightest_refuted : exists s c st, length s = 4 /\ NoDup (map fst s) /\
  (forall q, In q s -> (bright c < bright (snd q))%Z) /\ In (st, c) (add_sample s c st).
Proof.
  exists [(0, (9, 9, 9)); (1, (8, 8, 8)); (2, (7, 7, 7)); (3, (6, 6, 6))]%Z, (1, 1, 1)%Z, 4%Z.
  split; [reflexivity|]. split; [repeat constructor; cbn; intuition lia|]. split.
  - intros q [<-|[<-|[<-|[<-|[]]]]]; vm_compute; reflexivity.
  - vm_compute. tauto.
Qed.
Print Assumptions C98_brightest_refuted.

(** Refuted with a fifth style: two lights of style 3, 4 and 5 bright, give 9 or 5. *)
Theorem C98_order_refuted : exists l l', Permutation l l' /\
  In (3, (9, 0, 0))%Z (add_all l []) /\ In (3, (5, 0, 0))%Z (add_all l' []).
Proof.
  set (a := [(0, (9, 9, 9)); (1, (8, 8, 8)); (2, (7, 7, 7))]%Z).
  set (p3 := [(3, (4, 0, 0))]%Z). set (q3 := [(3, (5, 0, 0))]%Z). set (p4 := [(4, (1, 1, 1))]%Z).
  exists (p4 ++ a ++ p3 ++ q3), (a ++ p3 ++ p4 ++ q3). split.
  - transitivity (a ++ p4 ++ p3 ++ q3).
    + rewrite !app_assoc. do 2 apply Permutation_app_tail. apply Permutation_app_comm.
    + apply Permutation_app_head. rewrite !app_assoc. apply Permutation_app_tail. apply Permutation_app_comm.
  - split; vm_compute; tauto.
Qed.
Print Assumptions C98_order_refuted.

Example C98_nontrivial :
  add_all [(0, (1, 2, 3)); (32, (5, 5, 5)); (0, (10, 10, 10))]%Z [] = [(0, (11, 12, 13)); (32, (5, 5, 5))]%Z /\
  merge [(0, (1, 1, 1)); (7, (2, 2, 2))]%Z [(7, (3, 3, 3)); (8, (4, 4, 4))]%Z = [(0, (1, 1, 1)); (7, (5, 5, 5)); (8, (4, 4, 4))]%Z.
Proof. split; reflexivity. Qed.

(* ---- C99 ---- *)

(** Filling transparent pixels ends for every image, after as many passes as there are pixels at most.
    Pixels that were opaque keep their colour; unless all are transparent (then nothing changes), all are
    opaque in the end, with colours between those of the opaque pixels. *)
Theorem C99_flood_fill : forall im w h fuel, length im = w * h -> length im < fuel ->
  exists im', flood_fill im w h fuel = Some (ROk im') /\ length im' = length im /\
    (forall i c, nth_error im i = Some (c, true) -> nth_error im' i = Some (c, true)) /\
    ((forall i c, nth_error im i <> Some (c, true)) -> im' = im) /\
    ((exists i c, nth_error im i = Some (c, true)) -> forall i, i < length im -> exists c, nth_error im' i = Some (c, true)) /\
    (forall lo hi, (forall i c, nth_error im i = Some (c, true) -> (lo <= c <= hi)%Q) ->
       forall i c, nth_error im' i = Some (c, true) -> (lo <= c <= hi)%Q).
Proof.
  intros im w h fuel L F. unfold flood_fill. rewrite L.
  destruct (fill_loop_spec w h fuel im L) as (im' & E & X & D & B); [pose proof (count_le im); lia|].
  pose proof (ext_length _ _ X) as L'.
  exists im'. split; [exact E|]. split; [lia|]. split; [|split; [|split; [|exact B]]].
  - intros i c Hc. destruct (ext_nth _ _ _ _ X Hc) as (p' & Ep & G & _). rewrite Ep, (G eq_refl). reflexivity.
  - intro Hn. destruct D as [D|[-> _]]; [|reflexivity].
    (* no pixel to start from: no pixel at all *)
    assert (Z0 : w * h = 0).
    { destruct (Nat.eq_dec (w * h) 0) as [H|H]; [exact H|]. exfalso.
      assert (All : forall i c, nth_error im' i <> Some (c, true)).
      { intros i c Hc. assert (Hb := B 1%Q 0%Q (fun i c H => False_ind _ (Hn i c H)) i c Hc). lra. }
      assert (H0 : 0 < w * h) by lia. specialize (D 0 H0).
      destruct (nth_error im' 0) as [[c [|]]|] eqn:E0; [apply (All 0 c); exact E0|apply D; exists c; exact E0|apply nth_error_None in E0; lia]. }
    destruct im as [|q im]; [|cbn in L; lia]. destruct im'; [reflexivity|cbn in L'; lia].
  - intros (i0 & c0 & H0) i Hi. destruct D as [D|[_ D]].
    + destruct (nth_error im' i) as [[c [|]]|] eqn:Ei; [exists c; reflexivity| |apply nth_error_None in Ei; lia].
      exfalso. apply (D i); [lia|]. exists c. exact Ei.
    + exfalso. assert (i0 < length im) by (apply nth_error_Some; congruence). destruct (D i0) as [c Hc]; [lia|]. congruence.
Qed.
Print Assumptions C99_flood_fill.

(** Halving and the like: a pixel of the result covers the [f] by [f] pixels [i] with
    [(i mod w) / f = x] and [(i / w) / f = y]; it is opaque when one of them is, and its colour lies between
    those of the opaque ones (of all, when there is none). *)
Theorem C99_downsample : forall im w h f, length im = w * h -> f <> 0 ->
  exists out, downsample im w h f = ROk out /\ length out = (w / f) * (h / f) /\
  forall x y, x < w / f -> y < h / f -> exists c o, nth_error out (y * (w / f) + x) = Some (c, o) /\
    let covered i := i < w * h /\ (i mod w) / f = x /\ (i / w) / f = y in
    (o = true <-> exists i c', covered i /\ nth_error im i = Some (c', true)) /\
    (forall lo hi, (forall i c', covered i -> nth_error im i = Some (c', o) -> (lo <= c' <= hi)%Q) -> (lo <= c <= hi)%Q).
Proof.
  intros im w h f L Hf. destruct (downsample_spec im w h f L Hf) as (out & E & Lo & Hs).
  exists out. split; [exact E|]. split; [exact Lo|]. intros x y Hx Hy.
  destruct (Hs x y Hx Hy) as (l & El & [c o] & Ep & Hp). exists c, o. split; [exact Ep|]. intro covered.
  assert (Hc : forall i, In i (down_kernel w h f x y) <-> covered i) by (intro i; apply down_in; assumption).
  assert (R : forall i, In i (down_kernel w h f x y) -> i < length im) by (intros i Hi; apply Hc in Hi; unfold covered in Hi; lia).
  destruct (kernel_spec im _ l R (down_nonempty w h f x y Hf Hx Hy) El) as [K1 K2].
  destruct Hp as [Hp|[-> ->]].
  - rewrite <- Hp in K1, K2. cbn [fst snd] in K1, K2. split.
    + rewrite K1. split; intros (i & c' & Hi & Ei); exists i, c'; (split; [apply Hc; exact Hi|exact Ei]).
    + intros lo hi B. apply K2. intros i c' Hi Ei. apply (B i c'); [apply Hc; exact Hi|exact Ei].
  - pose proof (fun p => reads_in im _ [(c, o)] p R El) as Hin. split.
    + split.
      * intros ->. destruct (proj1 (Hin (c, true)) (or_introl eq_refl)) as (i & Hi & Ei). exists i, c. split; [apply Hc; exact Hi|exact Ei].
      * intros (i & c' & Hi & Ei). assert (H : In (c', true) [(c, o)]) by (apply Hin; exists i; split; [apply Hc; exact Hi|exact Ei]).
        destruct H as [H|[]]. congruence.
    + intros lo hi B. destruct (proj1 (Hin (c, o)) (or_introl eq_refl)) as (i & Hi & Ei). apply (B i c); [apply Hc; exact Hi|exact Ei].
Qed.
Print Assumptions C99_downsample.

(** Oversampling changes no total: when the factor divides the size and all pixels are opaque, the mean of
    the result is that of the image. *)
Theorem C99_mean : forall im w h f out, length im = w * h -> f <> 0 -> w mod f = 0 -> h mod f = 0 ->
  (forall p, In p im -> snd p = true) -> downsample im w h f = ROk out ->
  (fold_right Qplus 0 (map fst out) * inject_Z (Z.of_nat (f * f)) == fold_right Qplus 0 (map fst im))%Q.
Proof. intros. apply (downsample_total im w h f out); assumption. Qed.
Print Assumptions C99_mean.

(** Blurring reads inside the image, for every size and radius: a pixel of the result is opaque when one at
    most [r] away is, its colour lies between those of the opaque ones there (of all, when there is none). *)
Theorem C99_blur : forall im w h r, length im = w * h ->
  exists out, blur im w h r = ROk out /\ length out = w * h /\
  forall x y, x < w -> y < h -> exists c o, nth_error out (y * w + x) = Some (c, o) /\
    let near i := exists x1 y1, x1 < w /\ y1 < h /\ i = y1 * w + x1 /\ x <= x1 + r /\ x1 <= x + r /\ y <= y1 + r /\ y1 <= y + r in
    (o = true <-> exists i c', near i /\ nth_error im i = Some (c', true)) /\
    (forall lo hi, (forall i c', near i -> nth_error im i = Some (c', o) -> (lo <= c' <= hi)%Q) -> (lo <= c <= hi)%Q).
Proof.
  intros im w h r L. destruct (blur_spec im w h r L) as (out & E & Lo & Hs).
  exists out. split; [exact E|]. split; [exact Lo|]. intros x y Hx Hy.
  destruct (Hs x y Hx Hy) as (l & El & Ep). destruct (kernel l) as [c o] eqn:Ek. exists c, o. split; [exact Ep|]. intro near.
  assert (Hc : forall i, In i (blur_kernel w h r x y) <-> near i) by (intro i; apply blur_in; assumption).
  assert (R : forall i, In i (blur_kernel w h r x y) -> i < length im).
  { intros i Hi. apply Hc in Hi. destruct Hi as (x1 & y1 & A & B & -> & _). rewrite L. apply idx_lt; assumption. }
  assert (Ne : blur_kernel w h r x y <> []).
  { intro Hn. assert (H : In (y * w + x) (blur_kernel w h r x y)) by (apply Hc; exists x, y; repeat split; lia). rewrite Hn in H. contradiction. }
  destruct (kernel_spec im _ l R Ne El) as [K1 K2]. rewrite Ek in K1, K2. cbn [fst snd] in K1, K2. split.
  - rewrite K1. split; intros (i & c' & Hi & Ei); exists i, c'; (split; [apply Hc; exact Hi|exact Ei]).
  - intros lo hi B. apply K2. intros i c' Hi Ei. apply (B i c'); [apply Hc; exact Hi|exact Ei].
Qed.
Print Assumptions C99_blur.

(** An image with less pixels than its size says is refused by the accesses; with more, one that is all
    transparent is filled without end. *)
Theorem C99_sizes : flood_fill [(0%Q, false)] 2 1 9 = Some RThrow /\
  forall fuel, flood_fill [(0%Q, false); (0%Q, false)] 1 1 fuel = None.
Proof.
  split; [reflexivity|]. intro fuel. unfold flood_fill. cbn [length].
  induction fuel as [|fuel IH]; [reflexivity|]. cbn [fill_loop]. exact IH.
Qed.
Print Assumptions C99_sizes.

Example C99_nontrivial :
  flood_fill [(4%Q, true); (0%Q, false); (0%Q, false); (0%Q, false); (0%Q, false); (8%Q, true)] 3 2 7 =
    Some (ROk [(4, true); (mean [4; 8], true); (mean [mean [4; 8]; 8], true);
               (mean [4; mean [4; 8]], true); (mean [4; mean [4; 8]; mean [mean [4; 8]; 8]; mean [4; mean [4; 8]]; 8], true); (8, true)])%Q /\
  downsample [(1%Q, true); (3%Q, true); (9%Q, false); (4%Q, true)] 2 2 2 = ROk [(mean [1%Q; 3%Q; 4%Q], true)] /\
  blur [(1%Q, true); (3%Q, true)] 2 1 1 = ROk [(mean [1; 1; 3; 1; 1; 3; 1; 1; 3]%Q, true); (mean [1; 3; 3; 1; 3; 3; 1; 3; 3]%Q, true)].
Proof. split; [|split]; vm_compute; reflexivity. Qed.
