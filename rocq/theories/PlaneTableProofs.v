From Coq Require Import ZArith List Bool Arith Lia.
From Verif Require Import PlaneTableModel.
Import ListNotations.
Local Open Scope Z_scope.

Lemma pneg_pneg : forall p, pneg (pneg p) = p.
Proof. intros [a b c d]; unfold pneg; simpl; f_equal; lia. Qed.

Lemma peqb_eq : forall p q, peqb p q = true <-> p = q.
Proof.
  intros [a b c d] [a' b' c' d']; unfold peqb; simpl.
  rewrite !andb_true_iff, !Z.eqb_eq. split.
  - intros [[[-> ->] ->] ->]; reflexivity.
  - intros H; injection H; auto.
Qed.

Lemma comp_pneg : forall i p, comp i (pneg p) = - comp i p.
Proof. intros [|[|i]] p; reflexivity. Qed.

Lemma is_one : forall one x, (x =? one) || (x =? - one) = (Z.abs x =? Z.abs one).
Proof.
  intros. apply eq_true_iff_eq. rewrite orb_true_iff, !Z.eqb_eq. lia.
Qed.

(* normalize by the sizes of the components *)
Lemma normalize_alt : forall one p, normalize one p =
  if Z.abs (nx p) =? Z.abs one then mkq (mkpl (nx p) 0 0 (dist p)) 0
  else if Z.abs (ny p) =? Z.abs one then mkq (mkpl 0 (ny p) 0 (dist p)) 1
  else if Z.abs (nz p) =? Z.abs one then mkq (mkpl 0 0 (nz p) (dist p)) 2
  else mkq p (if (Z.abs (ny p) <=? Z.abs (nx p)) && (Z.abs (nz p) <=? Z.abs (nx p)) then 3%nat
              else if (Z.abs (nx p) <=? Z.abs (ny p)) && (Z.abs (nz p) <=? Z.abs (ny p)) then 4%nat else 5%nat).
Proof.
  intros. unfold normalize. rewrite !is_one. cbv zeta.
  destruct (Z.abs (nx p) =? Z.abs one); auto.
  destruct (Z.abs (ny p) =? Z.abs one); auto.
  destruct (Z.abs (nz p) =? Z.abs one); auto.
  destruct ((Z.abs (ny p) <=? Z.abs (nx p)) && (Z.abs (nz p) <=? Z.abs (nx p))); auto.
  destruct ((Z.abs (nx p) <=? Z.abs (ny p)) && (Z.abs (nz p) <=? Z.abs (ny p))); auto.
Qed.

Lemma normalize_neg : forall one p, 0 < one ->
  normalize one (pneg p) = mkq (pneg (pl (normalize one p))) (ty (normalize one p)).
Proof.
  intros one [a b c d] H; rewrite !normalize_alt; unfold pneg; cbn [nx ny nz dist].
  rewrite !Z.abs_opp.
  destruct (Z.abs a =? Z.abs one); [reflexivity|].
  destruct (Z.abs b =? Z.abs one); [reflexivity|].
  destruct (Z.abs c =? Z.abs one); reflexivity.
Qed.

Lemma normalize_idem : forall one p, 0 < one -> normalize one (pl (normalize one p)) = normalize one p.
Proof.
  intros one [a b c d] H; rewrite !normalize_alt; cbn [nx ny nz dist].
  assert (Z0 : (Z.abs 0 =? Z.abs one) = false) by (apply Z.eqb_neq; lia).
  destruct (Z.abs a =? Z.abs one) eqn:Ea; [cbn [pl ty nx ny nz dist]; rewrite Ea; reflexivity|].
  destruct (Z.abs b =? Z.abs one) eqn:Eb; [cbn [pl ty nx ny nz dist]; rewrite Z0, Eb; reflexivity|].
  destruct (Z.abs c =? Z.abs one) eqn:Ec; [cbn [pl ty nx ny nz dist]; rewrite Z0, Ec; reflexivity|].
  cbn [pl ty nx ny nz dist]. rewrite Ea, Eb, Ec. reflexivity.
Qed.

Lemma in_box_spec : forall hn hd p q, in_box hn hd p q = true <->
  (Z.abs (nx p - nx q) <= hn /\ Z.abs (ny p - ny q) <= hn /\ Z.abs (nz p - nz q) <= hn /\
   Z.abs (dist p - dist q) <= hd).
Proof.
  intros; unfold in_box. rewrite !andb_true_iff, !Z.leb_le. lia.
Qed.

Definition mate (i : nat) : nat := if Nat.even i then S i else pred i.

Lemma mate_even : forall k, mate (2 * k) = S (2 * k).
Proof. intros. unfold mate. rewrite Nat.even_mul. reflexivity. Qed.

Lemma mate_odd : forall k, mate (S (2 * k)) = (2 * k)%nat.
Proof. intros. unfold mate. rewrite Nat.even_succ, <- Nat.negb_even, Nat.even_mul. reflexivity. Qed.

Definition at_ (t : table) (i : nat) (p : plane) : Prop :=
  exists q, nth_error (planes t) i = Some q /\ pl q = p.

Section P.
Variable one hn hd : Z.
Hypothesis one_pos : 0 < one.
Hypothesis hn_nn : 0 <= hn.
Hypothesis hd_nn : 0 <= hd.

Definition pairs (l : list qplane) : Prop :=
  Nat.even (length l) = true /\
  forall k, (2 * k < length l)%nat -> exists a,
    nth_error l (2 * k) = Some a /\
    nth_error l (S (2 * k)) = Some (mkq (pneg (pl a)) (ty a)) /\
    0 <= comp (ty a mod 3) (pl a) /\ normalize one (pl a) = a.

Definition sound (t : table) : Prop := forall k i, In (k, i) (hash t) -> at_ t i k.
Definition complete (t : table) : Prop := forall i p, at_ t i p -> exists j, In (p, j) (hash t).
Definition inv (t : table) : Prop := pairs (planes t) /\ sound t /\ complete t.

Lemma emplace_in : forall h k v e, In e (emplace h k v) -> In e h \/ e = (k, v).
Proof.
  intros h k v e; unfold emplace. destruct existsb; auto.
  rewrite in_app_iff; simpl; intuition auto.
Qed.
Lemma emplace_mono : forall h k v e, In e h -> In e (emplace h k v).
Proof. intros h k v e H; unfold emplace. destruct existsb; auto. apply in_or_app; auto. Qed.
Lemma emplace_has : forall h k v, exists j, In (k, j) (emplace h k v).
Proof.
  intros h k v; unfold emplace. destruct existsb eqn:E.
  - apply existsb_exists in E as [[k' j] [H1 H2]]; simpl in H2.
    apply peqb_eq in H2; subst. eauto.
  - exists v. apply in_or_app; right; left; reflexivity.
Qed.

Lemma add_shape : forall t p, exists a,
  planes (snd (add_plane one t p)) = planes t ++ [a; mkq (pneg (pl a)) (ty a)] /\
  0 <= comp (ty a mod 3) (pl a) /\ normalize one (pl a) = a /\
  ((fst (add_plane one t p) = length (planes t) /\ a = normalize one p) \/
   (fst (add_plane one t p) = S (length (planes t)) /\ a = normalize one (pneg p))) /\
  hash (snd (add_plane one t p)) =
    emplace (emplace (hash t) (pl a) (length (planes t))) (pneg (pl a)) (S (length (planes t))).
Proof.
  intros t p. unfold add_plane. cbv zeta. cbn [fst snd planes hash].
  pose proof (normalize_neg one p one_pos) as Hn.
  destruct (Z.ltb_spec (comp (ty (normalize one p) mod 3) (pl (normalize one p))) 0) as [L|L].
  - exists (normalize one (pneg p)). rewrite Hn. cbn [pl ty]. rewrite pneg_pneg.
    assert (E : mkq (pl (normalize one p)) (ty (normalize one p)) = normalize one p)
      by (destruct (normalize one p); reflexivity).
    rewrite E. split; [reflexivity|]. split; [rewrite comp_pneg; lia|].
    split; [rewrite normalize_neg, normalize_idem by assumption; reflexivity|].
    split; [right; split; reflexivity|reflexivity].
  - exists (normalize one p). rewrite Hn. cbn [pl ty].
    split; [reflexivity|]. split; [exact L|]. split; [apply normalize_idem; assumption|].
    split; [left; split; reflexivity|reflexivity].
Qed.

Lemma at_lt : forall t i p, at_ t i p -> (i < length (planes t))%nat.
Proof. intros t i p (q & H & _). apply nth_error_Some. congruence. Qed.

Lemma at_fun : forall t i p q, at_ t i p -> at_ t i q -> p = q.
Proof. intros t i p q (a & H & <-) (b & H' & <-). congruence. Qed.

Definition ext (t t' : table) : Prop := exists l, planes t' = planes t ++ l.
Lemma at_ext : forall t t' i p, ext t t' -> at_ t i p -> at_ t' i p.
Proof.
  intros t t' i p [l E] H. pose proof (at_lt _ _ _ H). destruct H as (q & H1 & H2).
  exists q; split; auto. rewrite E, nth_error_app1 by assumption. assumption.
Qed.

Lemma add_ext : forall t p, ext t (snd (add_plane one t p)).
Proof. intros t p. destruct (add_shape t p) as (a & E & _). eexists; exact E. Qed.

(* indices of the new table: an old one, or one of the two new ones *)
Lemma add_at : forall t p i q, at_ (snd (add_plane one t p)) i q ->
  at_ t i q \/
  (i = length (planes t) /\ at_ (snd (add_plane one t p)) (S i) (pneg q)) \/
  (i = S (length (planes t)) /\ at_ (snd (add_plane one t p)) (pred i) (pneg q)).
Proof.
  intros t p i q (x & H1 & H2). destruct (add_shape t p) as (a & E & _).
  unfold at_. rewrite E in *.
  destruct (Nat.lt_ge_cases i (length (planes t))) as [L|L].
  - left. rewrite nth_error_app1 in H1 by assumption. exists x; auto.
  - right. rewrite nth_error_app2 in H1 by assumption.
    destruct (i - length (planes t))%nat as [|[|m]] eqn:D.
    + left. split; [lia|]. exists (mkq (pneg (pl a)) (ty a)).
      rewrite nth_error_app2 by lia. replace (S i - length (planes t))%nat with 1%nat by lia.
      injection H1 as <-. subst q. split; reflexivity.
    + right. split; [lia|]. exists a. rewrite nth_error_app2 by lia.
      replace (pred i - length (planes t))%nat with 0%nat by lia.
      injection H1 as <-. subst q. cbn [pl]. rewrite pneg_pneg. split; reflexivity.
    + destruct m; discriminate.
Qed.

Lemma add_inv : forall t p, inv t -> inv (snd (add_plane one t p)).
Proof.
  intros t p ((Ev & Pk) & Hs & Hc).
  destruct (add_shape t p) as (a & E & C & Nm & _ & Hh).
  set (t' := snd (add_plane one t p)) in *.
  assert (X : ext t t') by apply add_ext.
  apply Nat.even_spec in Ev as [n Ev].
  assert (A0 : at_ t' (length (planes t)) (pl a)).
  { exists a. rewrite E, nth_error_app2, Nat.sub_diag by lia. split; reflexivity. }
  assert (A1 : at_ t' (S (length (planes t))) (pneg (pl a))).
  { exists (mkq (pneg (pl a)) (ty a)). rewrite E, nth_error_app2 by lia.
    replace (S (length (planes t)) - length (planes t))%nat with 1%nat by lia. split; reflexivity. }
  split; [|split].
  - rewrite E. split.
    + rewrite app_length; simpl. rewrite Ev. apply Nat.even_spec. exists (n + 1)%nat; lia.
    + intros k Hk. rewrite app_length in Hk; simpl in Hk.
      destruct (Nat.lt_ge_cases (2 * k) (length (planes t))) as [L|L].
      * destruct (Pk k L) as (b & H1 & H2 & H3). exists b.
        rewrite !nth_error_app1 by lia. auto.
      * exists a. rewrite !nth_error_app2 by lia.
        replace (2 * k - length (planes t))%nat with 0%nat by lia.
        replace (S (2 * k) - length (planes t))%nat with 1%nat by lia. auto.
  - intros k i H. rewrite Hh in H.
    apply emplace_in in H as [H | H]; [apply emplace_in in H as [H | H]|].
    + apply (at_ext t); auto.
    + injection H as -> ->. assumption.
    + injection H as -> ->. assumption.
  - intros i q H. rewrite Hh. pose proof (add_at t p i q H) as [H'|[[H' _]|[H' _]]].
    + apply Hc in H' as [j H']. exists j. apply emplace_mono, emplace_mono; assumption.
    + subst i. rewrite (at_fun _ _ _ _ H A0).
      destruct (emplace_has (hash t) (pl a) (length (planes t))) as [j Hj].
      exists j. apply emplace_mono; assumption.
    + subst i. rewrite (at_fun _ _ _ _ H A1). apply emplace_has.
Qed.

Lemma find_some : forall c t p i, find_plane_nonfatal hn hd c t p = Some i ->
  exists k, In (k, i) (hash t) /\ in_box hn hd p k = true.
Proof.
  intros c t p i; unfold find_plane_nonfatal.
  destruct (filter _ (hash t)) as [|e r] eqn:F; [discriminate|].
  intros H0.
  assert (H : snd (nth (c mod S (length r)) (e :: r) e) = i) by congruence. clear H0.
  assert (L : (c mod S (length r) < length (e :: r))%nat)
    by (apply Nat.mod_upper_bound; discriminate).
  pose proof (nth_In (e :: r) e L) as I.
  destruct (nth (c mod S (length r)) (e :: r) e) as [k j]. cbn [snd] in H; subst j.
  rewrite <- F in I. apply filter_In in I as [I B]. exists k; auto.
Qed.

Lemma find_none : forall c t p, find_plane_nonfatal hn hd c t p = None ->
  forall k i, In (k, i) (hash t) -> in_box hn hd p k = false.
Proof.
  intros c t p; unfold find_plane_nonfatal.
  destruct (filter _ (hash t)) as [|e r] eqn:F; [|discriminate].
  intros _ k i H. destruct (in_box hn hd p k) eqn:B; auto.
  assert (I : In (k, i) (filter (fun e => in_box hn hd p (fst e)) (hash t)))
    by (apply filter_In; auto).
  rewrite F in I. destruct I.
Qed.

Lemma find_is : forall c t p i,
  (exists k j, In (k, j) (hash t) /\ in_box hn hd p k = true) ->
  (forall k j, In (k, j) (hash t) -> in_box hn hd p k = true -> j = i) ->
  find_plane_nonfatal hn hd c t p = Some i.
Proof.
  intros c t p i (k & j & H1 & H2) U.
  destruct (find_plane_nonfatal hn hd c t p) as [i'|] eqn:F.
  - apply find_some in F as (k' & H3 & H4). rewrite (U _ _ H3 H4). reflexivity.
  - rewrite (find_none _ _ _ F _ _ H1) in H2. discriminate.
Qed.

Lemma step_inv : forall c t p, inv t -> inv (snd (add_or_find one hn hd c t p)).
Proof.
  intros c t p H. unfold add_or_find. destruct find_plane_nonfatal; [exact H|].
  apply add_inv; assumption.
Qed.

Lemma step_ext : forall c t p, ext t (snd (add_or_find one hn hd c t p)).
Proof.
  intros c t p. unfold add_or_find. destruct find_plane_nonfatal.
  - exists []. simpl. rewrite app_nil_r. reflexivity.
  - apply add_ext.
Qed.

Lemma run_inv : forall l t, inv t -> inv (snd (run one hn hd l t)).
Proof.
  induction l as [|[c p] l IH]; intros t H; simpl; auto.
  pose proof (step_inv c t p H) as H1.
  destruct (add_or_find one hn hd c t p) as [i t1]; simpl in H1.
  pose proof (IH t1 H1). destruct (run one hn hd l t1); assumption.
Qed.

Lemma ext_trans : forall a b c, ext a b -> ext b c -> ext a c.
Proof.
  intros a b c [l H] [m K]. exists (l ++ m). rewrite K, H, app_assoc. reflexivity.
Qed.

Lemma run_ext : forall l t, ext t (snd (run one hn hd l t)).
Proof.
  induction l as [|[c p] l IH]; intros t; simpl.
  - exists []. rewrite app_nil_r. reflexivity.
  - pose proof (step_ext c t p) as X.
    destruct (add_or_find one hn hd c t p) as [i t1]; simpl in X.
    pose proof (IH t1). destruct (run one hn hd l t1) as [l2 t2]; simpl in *.
    eapply ext_trans; eauto.
Qed.

Lemma inv_empty : inv empty.
Proof.
  split; [|split].
  - split; [reflexivity|]. simpl; intros; lia.
  - intros k i [].
  - intros i p (q & H & _). destruct i; discriminate.
Qed.

(* the plane of a result *)
Definition tame (d : Z) (p : plane) : Prop :=
  (Z.abs (nx p) = one -> Z.abs (ny p) <= d /\ Z.abs (nz p) <= d) /\
  (Z.abs (ny p) = one -> Z.abs (nx p) <= d /\ Z.abs (nz p) <= d) /\
  (Z.abs (nz p) = one -> Z.abs (nx p) <= d /\ Z.abs (ny p) <= d).

Lemma normalize_near : forall p, tame hn p -> in_box hn hd p (pl (normalize one p)) = true.
Proof.
  intros [a b c d] (H1 & H2 & H3); apply in_box_spec; rewrite normalize_alt; cbn [nx ny nz dist] in *.
  destruct (Z.eqb_spec (Z.abs a) (Z.abs one)); [cbn [pl nx ny nz dist]; destruct H1; lia|].
  destruct (Z.eqb_spec (Z.abs b) (Z.abs one)); [cbn [pl nx ny nz dist]; destruct H2; lia|].
  destruct (Z.eqb_spec (Z.abs c) (Z.abs one)); [cbn [pl nx ny nz dist]; destruct H3; lia|].
  cbn [pl nx ny nz dist]. lia.
Qed.

Lemma normalize_tame0 : forall p, tame 0 p -> pl (normalize one p) = p.
Proof.
  intros [a b c d] (H1 & H2 & H3); rewrite normalize_alt; cbn [nx ny nz dist] in *.
  destruct (Z.eqb_spec (Z.abs a) (Z.abs one)); [cbn [pl]; destruct H1; [lia|]; f_equal; lia|].
  destruct (Z.eqb_spec (Z.abs b) (Z.abs one)); [cbn [pl]; destruct H2; [lia|]; f_equal; lia|].
  destruct (Z.eqb_spec (Z.abs c) (Z.abs one)); [cbn [pl]; destruct H3; [lia|]; f_equal; lia|].
  reflexivity.
Qed.

Lemma add_result : forall t p, at_ (snd (add_plane one t p)) (fst (add_plane one t p)) (pl (normalize one p)).
Proof.
  intros t p. destruct (add_shape t p) as (a & E & _ & _ & R & _).
  destruct R as [[R Ea]|[R Ea]]; rewrite R; unfold at_; rewrite E.
  - exists a. rewrite nth_error_app2, Nat.sub_diag by lia. subst a. split; reflexivity.
  - exists (mkq (pneg (pl a)) (ty a)). rewrite nth_error_app2 by lia.
    replace (S (length (planes t)) - length (planes t))%nat with 1%nat by lia.
    split; [reflexivity|]. subst a. cbn [pl]. rewrite normalize_neg by assumption. cbn [pl].
    apply pneg_pneg.
Qed.

Lemma step_result : forall c t p, inv t -> tame hn p ->
  exists q, at_ (snd (add_or_find one hn hd c t p)) (fst (add_or_find one hn hd c t p)) q /\
            in_box hn hd p q = true.
Proof.
  intros c t p (_ & Hs & _) T. unfold add_or_find.
  destruct (find_plane_nonfatal hn hd c t p) as [i|] eqn:F; simpl.
  - apply find_some in F as (k & H1 & H2). exists k; split; [apply Hs|]; assumption.
  - exists (pl (normalize one p)). split; [apply add_result|apply normalize_near; assumption].
Qed.

(* ---- separation ---- *)
Definition degenerate (p : plane) : Prop :=
  2 * Z.abs (nx p) <= hn /\ 2 * Z.abs (ny p) <= hn /\ 2 * Z.abs (nz p) <= hn /\
  2 * Z.abs (dist p) <= hd.

Definition separate (t : table) : Prop := forall i j p q,
  at_ t i p -> at_ t j q -> i <> j -> in_box hn hd p q = true -> j = mate i /\ q = pneg p /\ degenerate p.

Lemma box_sym : forall p q, in_box hn hd p q = in_box hn hd q p.
Proof.
  intros. apply eq_true_iff_eq. rewrite !in_box_spec. lia.
Qed.
Lemma box_neg : forall p q, in_box hn hd (pneg p) q = in_box hn hd p (pneg q).
Proof.
  intros. apply eq_true_iff_eq. rewrite !in_box_spec. unfold pneg; simpl. lia.
Qed.
Lemma box_self_neg : forall p, in_box hn hd p (pneg p) = true -> degenerate p.
Proof. intros p; rewrite in_box_spec; unfold degenerate, pneg; cbn [nx ny nz dist]. lia. Qed.

Lemma mate_at : forall t i p, inv t -> at_ t i p -> at_ t (mate i) (pneg p).
Proof.
  intros t i p ((Ev & Pk) & _) H. pose proof (at_lt _ _ _ H) as L.
  destruct H as (q & H1 & H2).
  apply Nat.even_spec in Ev as [n Ev].
  destruct (Nat.Even_or_Odd i) as [[k ->]|[k ->]].
  - rewrite mate_even. destruct (Pk k L) as (a & K1 & K2 & _).
    rewrite K1 in H1; injection H1 as <-. subst p. eexists; split; [exact K2|reflexivity].
  - replace (2 * k + 1)%nat with (S (2 * k)) in * by lia.
    rewrite mate_odd. destruct (Pk k) as (a & K1 & K2 & _); [lia|].
    rewrite K2 in H1; injection H1 as <-. subst p. cbn [pl]. rewrite pneg_pneg.
    eexists; split; [exact K1|reflexivity].
Qed.

Lemma mate_invol : forall i, mate (mate i) = i.
Proof.
  intros i. destruct (Nat.Even_or_Odd i) as [[k ->]|[k ->]].
  - rewrite mate_even, mate_odd. reflexivity.
  - replace (2 * k + 1)%nat with (S (2 * k)) by lia. rewrite mate_odd, mate_even. reflexivity.
Qed.

Lemma add_separate : forall t p, inv t -> separate t -> tame 0 p ->
  (forall k i, In (k, i) (hash t) -> in_box hn hd p k = false) ->
  separate (snd (add_plane one t p)).
Proof.
  intros t p I Sp T Free.
  pose proof (add_inv t p I) as I'.
  assert (F1 : forall i q, at_ t i q -> in_box hn hd p q = false).
  { intros i q H. destruct I as (_ & _ & Hc). apply Hc in H as [j H]. eauto. }
  assert (F2 : forall i q, at_ t i q -> in_box hn hd (pneg p) q = false).
  { intros i q H. rewrite box_neg. apply (F1 (mate i)). apply mate_at; assumption. }
  destruct (add_shape t p) as (a & E & _ & _ & R & _).
  assert (Pa : pl a = p \/ pl a = pneg p).
  { destruct R as [[_ ->]|[_ ->]]; [left|right].
    - apply normalize_tame0; assumption.
    - rewrite normalize_neg by assumption. cbn [pl]. rewrite normalize_tame0 by assumption. reflexivity. }
  assert (Ev : exists n, length (planes t) = (2 * n)%nat).
  { destruct I as ((Ev & _) & _). apply Nat.even_spec in Ev. exact Ev. }
  destruct Ev as [n Ev].
  set (t' := snd (add_plane one t p)) in *.
  assert (A0 : at_ t' (2 * n) (pl a)).
  { exists a. rewrite E, nth_error_app2 by lia.
    replace (2 * n - length (planes t))%nat with 0%nat by lia. split; reflexivity. }
  assert (A1 : at_ t' (S (2 * n)) (pneg (pl a))).
  { exists (mkq (pneg (pl a)) (ty a)). rewrite E, nth_error_app2 by lia.
    replace (S (2 * n) - length (planes t))%nat with 1%nat by lia. split; reflexivity. }
  assert (Cl : forall i q, at_ t' i q -> at_ t i q \/ (i = (2 * n)%nat /\ q = pl a) \/ (i = S (2 * n) /\ q = pneg (pl a))).
  { intros i q H. destruct (add_at t p i q H) as [H'|[[H' _]|[H' _]]]; auto; rewrite Ev in H'; subst i.
    - right; left. split; auto. eapply at_fun; eauto.
    - right; right. split; auto. eapply at_fun; eauto. }
  assert (New : forall q, q = pl a \/ q = pneg (pl a) -> forall j r, at_ t j r -> in_box hn hd q r = false).
  { intros q Hq j r H.
    assert (Q : q = p \/ q = pneg p).
    { destruct Hq as [-> | ->], Pa as [-> | ->]; rewrite ?pneg_pneg; auto. }
    destruct Q as [-> | ->]; eauto. }
  intros i j q r Hi Hj Ne B.
  destruct (Cl _ _ Hi) as [Oi|[[-> ->]|[-> ->]]]; destruct (Cl _ _ Hj) as [Oj|[[-> ->]|[-> ->]]].
  - eapply Sp; eauto.
  - rewrite box_sym in B. rewrite (New (pl a) (or_introl eq_refl) _ _ Oi) in B. discriminate.
  - rewrite box_sym in B. rewrite (New _ (or_intror eq_refl) _ _ Oi) in B. discriminate.
  - rewrite (New _ (or_introl eq_refl) _ _ Oj) in B. discriminate.
  - congruence.
  - rewrite mate_even. split; [reflexivity|]. split; [reflexivity|]. apply box_self_neg; assumption.
  - rewrite (New _ (or_intror eq_refl) _ _ Oj) in B. discriminate.
  - rewrite mate_odd. split; [reflexivity|]. rewrite pneg_pneg. split; [reflexivity|].
    apply box_self_neg. rewrite pneg_pneg. assumption.
  - congruence.
Qed.

Lemma run_separate : forall l t, inv t -> separate t -> Forall (fun e => tame 0 (snd e)) l ->
  separate (snd (run one hn hd l t)).
Proof.
  induction l as [|[c p] l IH]; intros t I Sp F; simpl; auto.
  inversion F as [|? ? T F']; subst. simpl in T.
  assert (H1 : separate (snd (add_or_find one hn hd c t p))).
  { unfold add_or_find. destruct (find_plane_nonfatal hn hd c t p) eqn:Q; [exact Sp|].
    apply add_separate; auto. apply (find_none c); assumption. }
  pose proof (step_inv c t p I) as H2.
  destruct (add_or_find one hn hd c t p) as [i t1]; simpl in H1, H2.
  pose proof (IH t1 H2 H1 F') as H3. destruct (run one hn hd l t1); assumption.
Qed.

Lemma separate_empty : separate empty.
Proof. intros i j p q (x & H & _). destruct i; discriminate. Qed.

Lemma find_exact : forall c t i p, inv t -> separate t -> at_ t i p -> ~ degenerate p ->
  find_plane_nonfatal hn hd c t p = Some i.
Proof.
  intros c t i p (_ & Hs & Hc) Sp H D. apply find_is.
  - destruct (Hc _ _ H) as [j Hj]. exists p, j. split; auto.
    apply in_box_spec. rewrite !Z.sub_diag. simpl. lia.
  - intros k j Hj B. apply Hs in Hj.
    destruct (Nat.eq_dec j i) as [|Ne]; auto. exfalso.
    apply D. apply (Sp i j p k); auto.
Qed.

Lemma find_near : forall c t i q p, inv t -> at_ t i q -> in_box hn hd p q = true ->
  exists j r, find_plane_nonfatal hn hd c t p = Some j /\ at_ t j r /\ in_box hn hd p r = true.
Proof.
  intros c t i q p (_ & Hs & Hc) H B.
  destruct (find_plane_nonfatal hn hd c t p) as [j|] eqn:F.
  - destruct (find_some _ _ _ _ F) as (k & H1 & H2). exists j, k. split; [reflexivity|]. split; auto.
  - destruct (Hc _ _ H) as [j Hj]. rewrite (find_none _ _ _ F _ _ Hj) in B. discriminate.
Qed.
End P.
