From Coq Require Import List Arith NArith ZArith Bool Lia ZifyBool ZifyNat ZifyN.
Import ListNotations.
From Verif Require Import Base LeafBitsModel LeafBitsProofs VisMightModel VisSchedProofs.

(** Membership in a bit set. *)
Definition has (b : leafbits) (m : nat) : bool := match lb_get b m with Some true => true | _ => false end.

(** A bit set over [n] leafs whose unused bits are zero. *)
Definition set_ok (n : nat) (b : leafbits) : Prop :=
  lb_wf b /\ lb_size b = n /\ forall m, n <= m -> has b m = false.

Fixpoint card (b : leafbits) (n : nat) : nat :=
  match n with O => 0 | S k => (if has b k then 1 else 0) + card b k end.

Lemma card_ext : forall a b n, (forall m, m < n -> has a m = has b m) -> card a n = card b n.
Proof. induction n as [|n IH]; intro H; simpl; [reflexivity|]. rewrite (H n) by lia. rewrite IH; auto. Qed.

Lemma card_clear : forall a b n d, d < n -> has a d = true ->
  (forall m, has b m = if Nat.eqb m d then false else has a m) -> card b n + 1 = card a n.
Proof.
  induction n as [|n IH]; intros d Hd Ha Hb; [lia|]. simpl. rewrite Hb.
  destruct (Nat.eqb_spec n d) as [->|Hne].
  - rewrite Ha. rewrite (card_ext b a); [lia|]. intros m Hm. rewrite Hb.
    destruct (Nat.eqb_spec m d); [lia|reflexivity].
  - assert (card b n + 1 = card a n); [|lia]. apply (IH d); auto. lia.
Qed.

Lemma get_some : forall n b m, set_ok n b -> m < n -> exists v, lb_get b m = Some v.
Proof.
  intros n b m ([W _] & S & _) Hm. unfold lb_get. destruct (nth_error (lb_bits b) (m / 32)) eqn:E; [eauto|].
  apply nth_error_None in E. pose proof (block_index n m Hm). rewrite W, S in E. lia.
Qed.

Lemma word_some : forall n b j, set_ok n b -> j < block_size n -> exists w, nth_error (lb_bits b) j = Some w /\
  forall k, k < 32 -> N.testbit w (N.of_nat k) = has b (32 * j + k).
Proof.
  intros n b j ([W _] & S & _) Hj. destruct (nth_error (lb_bits b) j) as [w|] eqn:E.
  2:{ apply nth_error_None in E. rewrite W, S in E. lia. }
  exists w. split; [reflexivity|]. intros k Hk. unfold has.
  assert (D : (32 * j + k) / 32 = j) by (rewrite Nat.mul_comm, Nat.div_add_l by lia; rewrite Nat.div_small by lia; lia).
  assert (M : (32 * j + k) mod 32 = k) by (rewrite Nat.add_comm, Nat.mul_comm, Nat.mod_add by lia; apply Nat.mod_small; lia).
  rewrite (lb_get_testbit b (32 * j + k) w) by (rewrite D; assumption).
  rewrite M. destruct (N.testbit w (N.of_nat k)); reflexivity.
Qed.

(** What a portal sees: its result when done, its mightsee otherwise. *)
Definition sees (p : mportal) (m : nat) : bool := if (mp_status p =? 2)%N then has (mp_vis p) m else has (mp_might p) m.

Definition portal_ok (n : nat) (p : mportal) : Prop :=
  set_ok n (mp_vis p) /\ set_ok n (mp_might p).

Definition inb (q : nat) (c : list nat) : bool := existsb (Nat.eqb q) c.

Lemma inb_In : forall q c, inb q c = true <-> In q c.
Proof.
  intros q c. unfold inb. rewrite existsb_exists. split.
  - intros (x & H & E). apply Nat.eqb_eq in E. subst. assumption.
  - intro H. exists q. split; [assumption|apply Nat.eqb_refl].
Qed.

(** [ps] is [ps0] with bit [my] cleared in the mightsee of the portals [c]. *)
Definition cleared (n my : nat) (ps0 : list mportal) (c : list nat) (ps : list mportal) : Prop :=
  length ps = length ps0 /\ my < n /\
  forall q p0, nth_error ps0 q = Some p0 -> exists p, nth_error ps q = Some p /\
    mp_status p = mp_status p0 /\ mp_vis p = mp_vis p0 /\ portal_ok n p /\
    (forall m, has (mp_might p) m = if Nat.eqb m my && inb q c then false else has (mp_might p0) m) /\
    (inb q c = true -> mp_status p0 = 0%N) /\
    mp_num p = (mp_num p0 - (if inb q c && has (mp_might p0) my then 1 else 0))%Z.

Lemma cleared_start : forall n my ps, my < n -> Forall (portal_ok n) ps -> cleared n my ps [] ps.
Proof.
  intros n my ps Hm HF. split; [reflexivity|]. split; [assumption|]. intros q p0 H. exists p0.
  rewrite Forall_forall in HF. pose proof (HF _ (nth_error_In _ _ H)).
  repeat split; try assumption; try apply H0; simpl; intros; try rewrite andb_false_r; try reflexivity; try discriminate; try lia.
Qed.

Lemma inb_cons : forall x q c, inb x (q :: c) = Nat.eqb x q || inb x c.
Proof. reflexivity. Qed.

Lemma update_one_ok : forall n my ps0 c ps q, cleared n my ps0 c ps -> q < length ps0 ->
  exists ps', update_one my ps q = Some ps' /\
    (exists p0, nth_error ps0 q = Some p0 /\
     cleared n my ps0 (if (mp_status p0 =? 0)%N then q :: c else c) ps').
Proof.
  intros n my ps0 c ps q (HL & Hm & H) Hq.
  destruct (nth_error ps0 q) as [p0|] eqn:E0.
  2:{ apply nth_error_None in E0. lia. }
  destruct (H q p0 E0) as (p & Ep & Es & Ev & (Ok1 & Ok2) & Eh & Ec & En).
  unfold update_one. rewrite Ep, Es.
  destruct (mp_status p0 =? 0)%N eqn:Est; cbn [negb].
  2:{ exists ps. split; [reflexivity|]. exists p0. split; [reflexivity|]. rewrite Est. split; auto. }
  destruct (get_some n _ my Ok2 Hm) as [v Hv]. rewrite Hv.
  assert (Hhas : has (mp_might p) my = v) by (unfold has; rewrite Hv; destruct v; reflexivity).
  destruct v.
  - destruct Ok2 as (W & S & Z).
    destruct (lb_set_spec (mp_might p) my false W) as (b & Eb & Wb & Sb & Gb); [lia|].
    rewrite Eb.
    set (p' := {| mp_status := mp_status p0; mp_vis := mp_vis p; mp_might := b; mp_num := (mp_num p - 1)%Z |}).
    destruct (upd_some _ ps q p') as [ps' Eu]; [lia|]. exists ps'. split; [assumption|].
    exists p0. split; [reflexivity|]. rewrite Est.
    assert (Hb : forall m, has b m = if Nat.eqb m my then false else has (mp_might p) m).
    { intro m. unfold has. rewrite Gb. destruct (Nat.eqb m my); reflexivity. }
    split; [rewrite (upd_length _ _ _ _ _ Eu); assumption|]. split; [assumption|].
    intros x p1 Hx. destruct (Nat.eq_dec x q) as [->|Hne].
    + rewrite E0 in Hx. inversion Hx; subst p1. exists p'. split; [eapply upd_same; eassumption|].
      rewrite inb_cons, Nat.eqb_refl. cbn [orb p' mp_status mp_vis mp_might mp_num].
      split; [reflexivity|]. split; [assumption|]. split; [|split; [|split]].
      * split; [assumption|]. split; [assumption|]. split; [exact (eq_trans Sb S)|]. intros m Hmn. change (has b m = false). rewrite Hb.
        destruct (Nat.eqb m my); [reflexivity|]. apply Z. assumption.
      * intro m. rewrite Hb, Eh. destruct (Nat.eqb m my); reflexivity.
      * intros _. lia.
      * pose proof (Eh my) as Ehm. rewrite Hhas, Nat.eqb_refl in Ehm. cbn [andb] in Ehm |- *.
        destruct (inb q c); [discriminate|]. rewrite <- Ehm. simpl in En. lia.
    + destruct (H x p1 Hx) as (p2 & A). exists p2. rewrite (upd_other _ _ _ _ _ _ Eu Hne).
      rewrite inb_cons. replace (Nat.eqb x q) with false by (symmetry; apply Nat.eqb_neq; assumption). exact A.
  - exists ps. split; [reflexivity|]. exists p0. split; [reflexivity|]. rewrite Est.
    split; [assumption|]. split; [assumption|]. intros x p1 Hx.
    destruct (H x p1 Hx) as (p2 & A & B & C & D & F & G & I). exists p2.
    split; [assumption|]. split; [assumption|]. split; [assumption|]. split; [assumption|].
    rewrite inb_cons. destruct (Nat.eqb_spec x q) as [->|Hne]; [|auto].
    rewrite Ep in A. inversion A; subst p2. rewrite E0 in Hx. inversion Hx; subst p1. cbn [orb].
    pose proof (F my) as Fm. rewrite Hhas, Nat.eqb_refl in Fm. cbn [andb] in Fm.
    split; [|split].
    + intro m. rewrite F. rewrite andb_true_r. destruct (Nat.eqb_spec m my) as [->|]; [|reflexivity].
      cbn [andb]. destruct (inb q c); auto.
    + intros _. lia.
    + rewrite I. cbn [andb]. destruct (inb q c); [reflexivity|]. rewrite <- Fm. reflexivity.
Qed.

(** Portals of [qs] that have not been started. *)
Definition starts (ps0 : list mportal) (qs : list nat) (q : nat) : Prop :=
  In q qs /\ exists p0, nth_error ps0 q = Some p0 /\ mp_status p0 = 0%N.

Lemma update_all_ok : forall n my ps0 qs c ps, cleared n my ps0 c ps -> Forall (fun q => q < length ps0) qs ->
  exists ps' c', update_all my ps qs = Some ps' /\ cleared n my ps0 c' ps' /\
    forall q, In q c' <-> In q c \/ starts ps0 qs q.
Proof.
  intros n my ps0. induction qs as [|q qs IH]; intros c ps HC HF; simpl.
  - exists ps, c. split; [reflexivity|]. split; [assumption|]. intro x. unfold starts. simpl. tauto.
  - inversion HF as [|? ? Hq HF']; subst.
    destruct (update_one_ok n my ps0 c ps q HC Hq) as (ps1 & E1 & p0 & Ep0 & C1). rewrite E1.
    destruct (IH _ _ C1 HF') as (ps2 & c2 & E2 & C2 & H2). exists ps2, c2.
    split; [assumption|]. split; [assumption|]. intro x. rewrite H2. unfold starts. simpl.
    destruct (mp_status p0 =? 0)%N eqn:Es.
    + simpl. split.
      * intros [[<-|A]|(A & B)]; [|left; assumption|right; split; [right|]; assumption].
        right. split; [left; reflexivity|]. exists p0. split; [assumption|]. lia.
      * intros [A|([<-|A] & B)]; [left; right; assumption|left; left; reflexivity|right; auto].
    + split.
      * intros [A|(A & B)]; [left; assumption|right; auto].
      * intros [A|([<-|A] & B)]; [left; assumption| |right; auto].
        exfalso. destruct B as (p1 & B1 & B2). rewrite Ep0 in B1. inversion B1; subst. lia.
Qed.

Definition leafs_ok (n : nat) (np : nat) (leafs : list (list nat)) : Prop :=
  length leafs = n /\ Forall (Forall (fun q => q < np)) leafs /\
  (forall q a b la lb, nth_error leafs a = Some la -> nth_error leafs b = Some lb -> In q la -> In q lb -> a = b).

(** A not-started portal on leaf [l]. *)
Definition pending_on (leafs : list (list nat)) (ps0 : list mportal) (l q : nat) : Prop :=
  exists qs, nth_error leafs l = Some qs /\ starts ps0 qs q.

Lemma update_mightsee_ok : forall n my leafs ps0 c ps l, leafs_ok n (length ps0) leafs -> cleared n my ps0 c ps -> l < n ->
  exists ps' c', update_mightsee leafs ps l my = Some ps' /\ cleared n my ps0 c' ps' /\
    forall q, In q c' <-> In q c \/ pending_on leafs ps0 l q.
Proof.
  intros n my leafs ps0 c ps l (L1 & L2 & _) HC Hl. unfold update_mightsee.
  destruct (nth_error leafs l) as [qs|] eqn:E.
  2:{ apply nth_error_None in E. lia. }
  rewrite Forall_forall in L2. pose proof (L2 _ (nth_error_In _ _ E)) as Fq.
  destruct (update_all_ok n my ps0 qs c ps HC Fq) as (ps' & c' & A & B & C).
  exists ps', c'. split; [assumption|]. split; [assumption|]. intro q. rewrite C. unfold pending_on.
  split; (intros [H|H]; [left; assumption|right]).
  - exists qs. auto.
  - destruct H as (qs' & H1 & H2). rewrite E in H1. inversion H1; subst. assumption.
Qed.

Lemma mask_others_ok : forall n my ps0 c ps j i mine k changed, cleared n my ps0 c ps -> j < block_size n ->
  Forall (fun q => q < length ps0) mine ->
  exists w, mask_others ps mine i k j changed = Some w /\
    forall b, b < 32 -> N.testbit w (N.of_nat b) = true <->
      N.testbit changed (N.of_nat b) = true /\
      forall t q p, nth_error mine t = Some q -> k + t <> i -> nth_error ps q = Some p -> sees p (32 * j + b) = false.
Proof.
  intros n my ps0 c ps j i. induction mine as [|q mine IH]; intros k changed HC Hj HF; simpl.
  - exists changed. split; [reflexivity|]. intros b Hb. split; [|tauto].
    intro H. split; [assumption|]. intros [|t] q p H1; discriminate.
  - inversion HF as [|? ? Hq HF']; subst.
    destruct (Nat.eqb_spec k i) as [->|Hne].
    + destruct (IH (S i) changed HC Hj HF') as (w & E & H). exists w. split; [assumption|].
      intros b Hb. rewrite H by assumption. split; intros (A & B); (split; [assumption|]).
      * intros [|t] q' p H1 H2 H3; [exfalso; lia|]. apply (B t q' p); auto. lia.
      * intros t q' p H1 H2 H3. apply (B (S t) q' p); auto. lia.
    + destruct HC as (HL & Hm & HC').
      destruct (nth_error ps0 q) as [p0|] eqn:E0.
      2:{ apply nth_error_None in E0. lia. }
      destruct (HC' q p0 E0) as (p & Ep & _ & _ & (Ok1 & Ok2) & _). rewrite Ep.
      assert (Hset : set_ok n (if (mp_status p =? 2)%N then mp_vis p else mp_might p)) by (destruct (mp_status p =? 2)%N; assumption).
      destruct (word_some n _ j Hset Hj) as (w0 & Ew & Hw). rewrite Ew.
      destruct (IH (S k) (N.ldiff changed w0)) as (w & E & H); [split; auto|assumption|assumption|].
      exists w. split; [assumption|]. intros b Hb. rewrite H by assumption.
      assert (Hs : N.testbit w0 (N.of_nat b) = sees p (32 * j + b)).
      { rewrite Hw by assumption. unfold sees. destruct (mp_status p =? 2)%N; reflexivity. }
      rewrite N.ldiff_spec, Hs, andb_true_iff, negb_true_iff.
      split.
      * intros ((A1 & A2) & B). split; [assumption|]. intros [|t] q' p' H1 H2 H3.
        -- inversion H1; subst. rewrite Ep in H3. inversion H3; subst. assumption.
        -- apply (B t q' p'); auto. lia.
      * intros (A & B). split; [split; [assumption|]|].
        -- apply (B 0 q p); auto. lia.
        -- intros t q' p' H1 H2 H3. apply (B (S t) q' p'); auto. lia.
Qed.

(** Leaf [l] has been eliminated for the leaf with the portals [mine]: none of them sees it,
    and one that is done once might have. *)
Definition elim_by (ps0 : list mportal) (mine : list nat) (i l : nat) : Prop :=
  (exists q p, nth_error mine i = Some q /\ nth_error ps0 q = Some p /\ mp_status p = 2%N /\ has (mp_might p) l = true) /\
  forall q p, In q mine -> nth_error ps0 q = Some p -> sees p l = false.
Definition elim (ps0 : list mportal) (mine : list nat) (l : nat) : Prop := exists i, elim_by ps0 mine i l.

(** What has been cleared so far is justified. *)
Definition justified (leafs : list (list nat)) (mine : list nat) (ps0 : list mportal) (c : list nat) : Prop :=
  forall q, In q c -> exists l, elim ps0 mine l /\ pending_on leafs ps0 l q.

Lemma sees_cleared : forall n my ps0 c ps q p0 p l, cleared n my ps0 c ps -> nth_error ps0 q = Some p0 ->
  nth_error ps q = Some p -> sees p l = (if (mp_status p0 =? 0)%N && Nat.eqb l my && inb q c then false else sees p0 l).
Proof.
  intros n my ps0 c ps q p0 p l (_ & _ & H) H0 Hp. destruct (H q p0 H0) as (p' & A & B & C & _ & F & G & _).
  rewrite Hp in A. inversion A; subst p'. unfold sees. rewrite B, C.
  destruct (mp_status p0 =? 2)%N eqn:E2.
  - replace (mp_status p0 =? 0)%N with false by lia. reflexivity.
  - rewrite F. destruct (inb q c) eqn:Ei.
    + rewrite (G eq_refl). reflexivity.
    + rewrite !andb_false_r. reflexivity.
Qed.

Lemma update_bits_ok : forall n my leafs ps0 j changed bits c ps, leafs_ok n (length ps0) leafs -> cleared n my ps0 c ps ->
  (forall b, In b bits -> N.testbit changed (N.of_nat b) = true -> 32 * j + b < n) ->
  exists ps' c', update_bits leafs ps my j changed bits = Some ps' /\ cleared n my ps0 c' ps' /\
    forall q, In q c' <-> In q c \/ exists b, In b bits /\ N.testbit changed (N.of_nat b) = true /\ pending_on leafs ps0 (32 * j + b) q.
Proof.
  intros n my leafs ps0 j changed. induction bits as [|b bits IH]; intros c ps HL HC HB; cbn [update_bits].
  - exists ps, c. split; [reflexivity|]. split; [assumption|]. intro q. split; [auto|]. intros [H|(b & [] & _)]. assumption.
  - destruct (N.testbit changed (N.of_nat b)) eqn:Eb.
    + assert (Hlt : 32 * j + b < n) by (apply HB; [left; reflexivity|assumption]).
      destruct (update_mightsee_ok n my leafs ps0 c ps _ HL HC Hlt) as (ps1 & c1 & E1 & C1 & H1). rewrite E1.
      destruct (IH c1 ps1 HL C1) as (ps2 & c2 & E2 & C2 & H2).
      { intros x Hx. apply HB. right. assumption. }
      exists ps2, c2. split; [assumption|]. split; [assumption|]. intro q. rewrite H2, H1. split.
      * intros [[A|A]|(x & X1 & X2 & X3)]; [left; assumption| |].
        -- right. exists b. simpl. auto.
        -- right. exists x. simpl. auto.
      * intros [A|(x & [<-|X1] & X2 & X3)]; [auto|auto|]. right. exists x. auto.
    + destruct (IH c ps HL HC) as (ps2 & c2 & E2 & C2 & H2).
      { intros x Hx. apply HB. right. assumption. }
      exists ps2, c2. split; [assumption|]. split; [assumption|]. intro q. rewrite H2. split.
      * intros [A|(x & X1 & X2 & X3)]; [auto|]. right. exists x. simpl. auto.
      * intros [A|(x & [<-|X1] & X2 & X3)]; [auto|congruence|]. right. exists x. auto.
Qed.

Section Completed.
  Variables (n my : nat) (leafs : list (list nat)) (mine : list nat) (ps0 : list mportal).
  Hypothesis HLeafs : leafs_ok n (length ps0) leafs.
  Hypothesis Hmine : nth_error leafs my = Some mine.

  Lemma mine_ok : Forall (fun q => q < length ps0) mine.
  Proof.
    destruct HLeafs as (_ & L2 & _). rewrite Forall_forall in L2. apply L2. eapply nth_error_In; eassumption.
  Qed.

  (** Dynamic elimination by portal number [i] amounts to static elimination. *)
  Lemma dynamic_static : forall c ps i q p l, cleared n my ps0 c ps -> justified leafs mine ps0 c ->
    nth_error mine i = Some q -> nth_error ps q = Some p -> mp_status p = 2%N ->
    (has (mp_might p) l = true /\ has (mp_vis p) l = false /\
     forall t q' p', nth_error mine t = Some q' -> t <> i -> nth_error ps q' = Some p' -> sees p' l = false) ->
    elim ps0 mine l.
  Proof.
    intros c ps i q p l HC HJ Hi Hq Hst (M1 & M2 & M3).
    pose proof mine_ok as HM. rewrite Forall_forall in HM.
    assert (Hp0 : exists p0, nth_error ps0 q = Some p0).
    { destruct (nth_error ps0 q) eqn:E; [eauto|]. apply nth_error_None in E. pose proof (HM q (nth_error_In _ _ Hi)). lia. }
    destruct Hp0 as (p0 & Hp0).
    destruct (existsb (fun q' => match nth_error ps0 q' with Some p1 => sees p1 l | None => false end) mine) eqn:Ex.
    - (* some portal saw it statically: then it was cleared, for leaf [my] *)
      apply existsb_exists in Ex. destruct Ex as (q' & Hq' & Hs).
      destruct (nth_error ps0 q') as [p1|] eqn:Ep1; [|discriminate].
      pose proof HC as (HLen & _ & HC').
      destruct (HC' q' p1 Ep1) as (p' & Ep' & _).
      assert (Hdyn : sees p' l = false).
      { apply In_nth_error in Hq'. destruct Hq' as (t & Ht). destruct (Nat.eq_dec t i) as [->|Hne].
        - rewrite Hi in Ht. inversion Ht; subst q'. rewrite Hq in Ep'. inversion Ep'; subst p'.
          unfold sees. rewrite Hst. simpl. assumption.
        - eapply M3; eassumption. }
      rewrite (sees_cleared _ _ _ _ _ _ _ _ l HC Ep1 Ep') in Hdyn. rewrite Hs in Hdyn.
      destruct ((mp_status p1 =? 0)%N && Nat.eqb l my && inb q' c) eqn:Eb; [|discriminate].
      apply andb_true_iff in Eb. destruct Eb as (Eb & Ein). apply andb_true_iff in Eb. destruct Eb as (_ & El).
      apply Nat.eqb_eq in El. subst l. apply inb_In in Ein.
      destruct (HJ q' Ein) as (l' & He & (qs & Hqs & (Hin & _))).
      destruct HLeafs as (_ & _ & U). assert (l' = my) by (eapply U; eassumption). subst l'. assumption.
    - exists i. split.
      + exists q, p0. split; [assumption|]. split; [assumption|].
        destruct HC as (_ & _ & HC'). destruct (HC' q p0 Hp0) as (p' & A & B & C & _ & F & G & _).
        rewrite Hq in A. inversion A; subst p'. split; [congruence|].
        rewrite F in M1. destruct (Nat.eqb l my && inb q c); [discriminate|assumption].
      + intros q' p1 Hq' Hp1. assert (Hf : existsb (fun q' => match nth_error ps0 q' with Some p1 => sees p1 l | None => false end) mine = true -> False) by congruence.
        destruct (sees p1 l) eqn:Es; [|reflexivity]. exfalso. apply Hf. apply existsb_exists. exists q'. rewrite Hp1. auto.
  Qed.

  Lemma do_block_ok : forall c ps i q p j, cleared n my ps0 c ps -> justified leafs mine ps0 c ->
    nth_error mine i = Some q -> nth_error ps q = Some p -> mp_status p = 2%N -> j < block_size n ->
    exists ps' c', do_block leafs mine my i q ps j = Some ps' /\ cleared n my ps0 c' ps' /\ justified leafs mine ps0 c' /\
      incl c c' /\
      (forall b l q', b < 32 -> l = 32 * j + b -> elim_by ps0 mine i l -> pending_on leafs ps0 l q' -> In q' c').
  Proof.
    intros c ps i q p j HC HJ Hi Hq Hst Hj. unfold do_block. rewrite Hq.
    pose proof mine_ok as HM.
    assert (Hqlt : q < length ps0) by (rewrite Forall_forall in HM; apply HM; eapply nth_error_In; eassumption).
    destruct (nth_error ps0 q) as [p0|] eqn:Ep0.
    2:{ apply nth_error_None in Ep0. lia. }
    pose proof HC as (_ & _ & HC').
    destruct (HC' q p0 Ep0) as (p' & A & B & C & (Ok1 & Ok2) & F & G & _).
    rewrite Hq in A. inversion A; subst p'.
    destruct (word_some n _ j Ok2 Hj) as (m & Em & Hm). destruct (word_some n _ j Ok1 Hj) as (v & Ev & Hv).
    rewrite Em, Ev.
    destruct (mask_others_ok n my ps0 c ps j i mine 0 (N.ldiff m v) HC Hj HM) as (w & Ew & Hw). rewrite Ew.
    assert (Hbit : forall b, b < 32 -> N.testbit w (N.of_nat b) = true <->
      has (mp_might p) (32 * j + b) = true /\ has (mp_vis p) (32 * j + b) = false /\
      forall t q' p', nth_error mine t = Some q' -> t <> i -> nth_error ps q' = Some p' -> sees p' (32 * j + b) = false).
    { intros b Hb. rewrite Hw by assumption. rewrite N.ldiff_spec, Hm, Hv by assumption.
      rewrite andb_true_iff, negb_true_iff. simpl. tauto. }
    destruct (update_bits_ok n my leafs ps0 j w (seq 0 32) c ps HLeafs HC) as (ps' & c' & E' & C' & H').
    { intros b Hb Ht. apply in_seq in Hb. apply Hbit in Ht; [|lia]. destruct Ht as (T & _).
      destruct Ok2 as (_ & _ & Z). destruct (le_lt_dec n (32 * j + b)) as [Hle|]; [|assumption].
      rewrite Z in T by assumption. discriminate. }
    exists ps', c'. split; [assumption|]. split; [assumption|]. split; [|split].
    - intros x Hx. apply H' in Hx. destruct Hx as [Hx|(b & B1 & B2 & B3)]; [auto|].
      exists (32 * j + b). split; [|assumption]. apply in_seq in B1. apply Hbit in B2; [|lia].
      exact (dynamic_static c ps i q p _ HC HJ Hi Hq Hst B2).
    - intros x Hx. apply H'. left. assumption.
    - intros b l q' Hb -> He Hp. apply H'. right. exists b. split; [apply in_seq; lia|]. split; [|assumption].
      apply Hbit; [assumption|]. destruct He as ((q1 & p1 & X1 & X2 & X3 & X4) & Y).
      rewrite Hi in X1. inversion X1; subst q1. rewrite Ep0 in X2. inversion X2; subst p1.
      split; [|split].
      + rewrite F. destruct (inb q c) eqn:Ei; [|rewrite andb_false_r; assumption].
        rewrite (G eq_refl) in X3. discriminate.
      + pose proof (Y q p0 (nth_error_In _ _ Hi) Ep0) as Ys. unfold sees in Ys. rewrite X3 in Ys. simpl in Ys. rewrite C. assumption.
      + intros t q2 p2 T1 T2 T3. destruct (nth_error ps0 q2) as [p20|] eqn:E2.
        * rewrite (sees_cleared _ _ _ _ _ _ _ _ _ HC E2 T3). rewrite (Y q2 p20 (nth_error_In _ _ T1) E2).
          destruct (_ && _); reflexivity.
        * apply nth_error_None in E2. rewrite Forall_forall in HM. pose proof (HM q2 (nth_error_In _ _ T1)). lia.
  Qed.

  Lemma block_loop_ok : forall js c ps i q p, cleared n my ps0 c ps -> justified leafs mine ps0 c ->
    nth_error mine i = Some q -> nth_error ps q = Some p -> mp_status p = 2%N -> Forall (fun j => j < block_size n) js ->
    exists ps' c', block_loop leafs mine my i q ps js = Some ps' /\ cleared n my ps0 c' ps' /\ justified leafs mine ps0 c' /\
      incl c c' /\
      (forall b j l q', In j js -> b < 32 -> l = 32 * j + b -> elim_by ps0 mine i l -> pending_on leafs ps0 l q' -> In q' c').
  Proof.
    induction js as [|j js IH]; intros c ps i q p HC HJ Hi Hq Hst HF; unfold block_loop; cbn [fold_left].
    - exists ps, c. split; [reflexivity|]. split; [assumption|]. split; [assumption|]. split; [apply incl_refl|].
      intros b j l q' [].
    - inversion HF as [|? ? Hj HF']; subst.
      destruct (do_block_ok c ps i q p j HC HJ Hi Hq Hst Hj) as (ps1 & c1 & E1 & C1 & J1 & I1 & D1). rewrite E1.
      assert (Hq1 : exists p1, nth_error ps1 q = Some p1 /\ mp_status p1 = 2%N).
      { destruct (nth_error ps0 q) as [p0|] eqn:Ep0.
        - destruct HC as (_ & _ & HC'). destruct (HC' q p0 Ep0) as (p' & A & B & _). rewrite Hq in A. inversion A; subst p'.
          destruct C1 as (_ & _ & C1'). destruct (C1' q p0 Ep0) as (p1 & A1 & B1 & _). exists p1. split; [assumption|congruence].
        - apply nth_error_None in Ep0. pose proof mine_ok as HM. rewrite Forall_forall in HM. pose proof (HM q (nth_error_In _ _ Hi)). lia. }
      destruct Hq1 as (p1 & Hq1 & Hst1).
      destruct (IH c1 ps1 i q p1 C1 J1 Hi Hq1 Hst1 HF') as (ps2 & c2 & E2 & C2 & J2 & I2 & D2).
      exists ps2, c2. split; [exact E2|]. split; [assumption|]. split; [assumption|].
      split; [eapply incl_tran; eassumption|].
      intros b j' l q' [<-|Hj'] Hb Hl He Hp; [apply I2; eapply D1; eassumption|eapply D2; eassumption].
  Qed.

  Lemma portal_body_ok : forall c ps i q, cleared n my ps0 c ps -> justified leafs mine ps0 c -> nth_error mine i = Some q ->
    exists ps' c', portal_body n leafs mine my i q ps = Some ps' /\ cleared n my ps0 c' ps' /\ justified leafs mine ps0 c' /\
      incl c c' /\
      (forall l q', l < n -> elim_by ps0 mine i l -> pending_on leafs ps0 l q' -> In q' c').
  Proof.
    intros c ps i q HC HJ Hi. unfold portal_body.
    pose proof mine_ok as HM. rewrite Forall_forall in HM. pose proof (HM q (nth_error_In _ _ Hi)) as Hlt.
    destruct (nth_error ps0 q) as [p0|] eqn:Ep0.
    2:{ apply nth_error_None in Ep0. lia. }
    pose proof HC as (_ & _ & HC'). destruct (HC' q p0 Ep0) as (p & A & B & _). rewrite A.
    destruct (mp_status p =? 2)%N eqn:Est; cbn [negb].
    - destruct (block_loop_ok (seq 0 (block_size n)) c ps i q p HC HJ Hi A) as (ps' & c' & E & C' & J' & I' & D').
      { lia. } { apply Forall_forall. intros j Hj. apply in_seq in Hj. lia. }
      exists ps', c'. split; [assumption|]. split; [assumption|]. split; [assumption|]. split; [assumption|].
      intros l q' Hl He Hp. apply (D' (l mod 32) (l / 32) l q'); try assumption.
      + apply in_seq. split; [lia|]. simpl. apply block_index. assumption.
      + apply Nat.mod_upper_bound. lia.
      + apply Nat.div_mod. lia.
    - exists ps, c. split; [reflexivity|]. split; [assumption|]. split; [assumption|]. split; [apply incl_refl|].
      intros l q' Hl ((q1 & p1 & X1 & X2 & X3 & _) & _) _. rewrite Hi in X1. inversion X1; subst q1.
      rewrite Ep0 in X2. inversion X2; subst p1. rewrite <- B in X3. rewrite X3 in Est. discriminate.
  Qed.

  Lemma portal_loop_ok : forall todo c ps, cleared n my ps0 c ps -> justified leafs mine ps0 c ->
    Forall (fun iq => nth_error mine (fst iq) = Some (snd iq)) todo ->
    exists ps' c', portal_loop n leafs mine my ps todo = Some ps' /\ cleared n my ps0 c' ps' /\ justified leafs mine ps0 c' /\
      incl c c' /\
      (forall i l q', In i (map fst todo) -> l < n -> elim_by ps0 mine i l -> pending_on leafs ps0 l q' -> In q' c').
  Proof.
    induction todo as [|[i q] todo IH]; intros c ps HC HJ HF; unfold portal_loop; cbn [fold_left].
    - exists ps, c. split; [reflexivity|]. split; [assumption|]. split; [assumption|]. split; [apply incl_refl|]. cbn. intros i l q' [].
    - inversion HF as [|? ? Hi HF']; subst. cbn [fst snd] in *.
      destruct (portal_body_ok c ps i q HC HJ Hi) as (ps1 & c1 & E1 & C1 & J1 & I1 & D1). rewrite E1.
      destruct (IH c1 ps1 C1 J1 HF') as (ps2 & c2 & E2 & C2 & J2 & I2 & D2).
      exists ps2, c2. split; [exact E2|]. split; [assumption|]. split; [assumption|]. split; [eapply incl_tran; eassumption|].
      intros i' l q' [<-|Hi'] Hl He Hp; [apply I2; eapply D1; eassumption|eapply D2; eassumption].
  Qed.
End Completed.

Lemma combine_seq_nth : forall (l : list nat) k, Forall (fun iq => nth_error l (fst iq - k) = Some (snd iq) /\ k <= fst iq) (combine (seq k (length l)) l).
Proof.
  induction l as [|x l IH]; intro k; cbn [length seq combine]; constructor.
  - simpl. rewrite Nat.sub_diag. auto.
  - eapply Forall_impl; [|apply (IH (S k))]. intros [i q] [H1 H2]. cbn [fst snd] in *. split; [|lia].
    replace (i - k) with (S (i - S k)) by lia. assumption.
Qed.

Lemma map_fst_combine_seq : forall (l : list nat) k, map fst (combine (seq k (length l)) l) = seq k (length l).
Proof. induction l as [|x l IH]; intro k; simpl; [reflexivity|]. rewrite IH. reflexivity. Qed.

(** PortalCompleted, in full: bit [my] leaves the mightsee of exactly the not-started
    portals on eliminated leafs. *)
Lemma portal_completed_ok : forall n leafs ps q my mine p ps0, leafs_ok n (length ps) leafs -> Forall (portal_ok n) ps ->
  nth_error ps q = Some p -> nth_error leafs my = Some mine -> upd ps q (set_done p) = Some ps0 ->
  exists ps' c, portal_completed n leafs ps q my = Some ps' /\ cleared n my ps0 c ps' /\
    forall x, In x c <-> exists l, l < n /\ elim ps0 mine l /\ pending_on leafs ps0 l x.
Proof.
  intros n leafs ps q my mine p ps0 HL HF Hp Hm Hu. unfold portal_completed. rewrite Hp, Hu, Hm.
  pose proof (upd_length _ _ _ _ _ Hu) as Len.
  assert (HL0 : leafs_ok n (length ps0) leafs) by (rewrite Len; assumption).
  assert (Hmy : my < n). { destruct HL as (L1 & _). rewrite <- L1. apply nth_error_Some. congruence. }
  assert (HF0 : Forall (portal_ok n) ps0).
  { eapply Forall_upd; [exact HF| |exact Hu]. rewrite Forall_forall in HF. apply (HF p). eapply nth_error_In; eassumption. }
  destruct (portal_loop_ok n my leafs mine ps0 HL0 Hm (combine (seq 0 (length mine)) mine) [] ps0) as (ps' & c & E & C & J & _ & D).
  - apply cleared_start; assumption.
  - intros x [].
  - eapply Forall_impl; [|apply (combine_seq_nth mine 0)]. intros [i q'] [H _]. rewrite Nat.sub_0_r in H. assumption.
  - exists ps', c. split; [assumption|]. split; [assumption|]. intro x. split.
    + intro Hx. destruct (J x Hx) as (l & He & Hpend). exists l. split; [|auto].
      destruct Hpend as (qs & Hqs & _). destruct HL as (L1 & _). rewrite <- L1. apply nth_error_Some. congruence.
    + intros (l & Hl & (i & He) & Hpend). apply (D i l x); try assumption.
      rewrite map_fst_combine_seq. apply in_seq. split; [lia|]. simpl.
      destruct He as ((q1 & p1 & X1 & _) & _). apply nth_error_Some. congruence.
Qed.

(** The readable form of [elim]. *)
Definition eliminated (ps : list mportal) (mine : list nat) (l : nat) : Prop :=
  (exists y py, In y mine /\ nth_error ps y = Some py /\ mp_status py = 2%N /\ has (mp_might py) l = true) /\
  (forall y py, In y mine -> nth_error ps y = Some py -> sees py l = false).

Lemma elim_eliminated : forall ps mine l, elim ps mine l <-> eliminated ps mine l.
Proof.
  intros. split.
  - intros (i & (q & p & A & B) & C). split; [|assumption]. exists q, p. split; [eapply nth_error_In; eassumption|assumption].
  - intros ((q & p & A & B) & C). apply In_nth_error in A. destruct A as (i & A). exists i. split; [|assumption]. exists q, p. auto.
Qed.

Lemma completed_effect : forall n leafs ps q my mine p ps0, leafs_ok n (length ps) leafs -> Forall (portal_ok n) ps ->
  nth_error ps q = Some p -> nth_error leafs my = Some mine -> upd ps q (set_done p) = Some ps0 ->
  exists ps', portal_completed n leafs ps q my = Some ps' /\ length ps' = length ps /\
    forall x p1, nth_error ps0 x = Some p1 -> exists p2, nth_error ps' x = Some p2 /\
      mp_status p2 = mp_status p1 /\ mp_vis p2 = mp_vis p1 /\ portal_ok n p2 /\
      (forall m, has (mp_might p2) m = true <-> has (mp_might p1) m = true /\
         ~ (m = my /\ mp_status p1 = 0%N /\
            exists l qs, nth_error leafs l = Some qs /\ In x qs /\ eliminated ps0 mine l)) /\
      (mp_num p1 = Z.of_nat (card (mp_might p1) n) -> mp_num p2 = Z.of_nat (card (mp_might p2) n)).
Proof.
  intros n leafs ps q my mine p ps0 HL HF Hp Hm Hu.
  destruct (portal_completed_ok n leafs ps q my mine p ps0 HL HF Hp Hm Hu) as (ps' & c & E & (C1 & C2 & C3) & D).
  exists ps'. split; [assumption|]. split; [rewrite C1; apply (upd_length _ _ _ _ _ Hu)|].
  intros x p1 Hx. destruct (C3 x p1 Hx) as (p2 & A & B & C & O & F & G & I). exists p2.
  split; [assumption|]. split; [assumption|]. split; [assumption|]. split; [assumption|].
  assert (Hc : inb x c = true <-> mp_status p1 = 0%N /\ exists l qs, nth_error leafs l = Some qs /\ In x qs /\ eliminated ps0 mine l).
  { rewrite inb_In, D. split.
    - intros (l & Hl & He & (qs & Hqs & (Hin & p0 & Hp0 & Hs))). rewrite Hx in Hp0. inversion Hp0; subst p0.
      split; [assumption|]. exists l, qs. split; [assumption|]. split; [assumption|]. apply elim_eliminated. assumption.
    - intros (Hs & l & qs & Hqs & Hin & He). exists l. split.
      + destruct HL as (L1 & _). rewrite <- L1. apply nth_error_Some. congruence.
      + split; [apply elim_eliminated; assumption|]. exists qs. split; [assumption|]. split; [assumption|]. eauto. }
  split.
  - intro m. rewrite F. destruct (Nat.eqb_spec m my) as [->|Hne]; cbn [andb].
    + destruct (inb x c) eqn:Ei.
      * split; [discriminate|]. intros (_ & H). exfalso. apply H. split; [reflexivity|]. apply Hc. reflexivity.
      * split; [|tauto]. intro H. split; [assumption|]. intros (_ & H2). apply Hc in H2. discriminate.
    + split; [|tauto]. intro H. split; [assumption|]. intros (H2 & _). contradiction.
  - intro Hn. rewrite I, Hn. destruct (inb x c) eqn:Ei; cbn [andb].
    + destruct (has (mp_might p1) my) eqn:Eh.
      * assert (card (mp_might p2) n + 1 = card (mp_might p1) n); [|lia].
        apply (card_clear (mp_might p1) (mp_might p2) n my C2 Eh).
        intro m. rewrite F, andb_true_r. reflexivity.
      * rewrite (card_ext (mp_might p2) (mp_might p1)); [lia|]. intros m Hmn. rewrite F, andb_true_r.
        destruct (Nat.eqb_spec m my) as [->|]; auto.
    + rewrite (card_ext (mp_might p2) (mp_might p1)); [lia|]. intros m Hmn. rewrite F, andb_false_r. reflexivity.
Qed.
