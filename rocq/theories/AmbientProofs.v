(* Proofs about ambient sounds. *)
From Coq Require Import List Arith NArith ZArith QArith Qround Bool Lia.
From Verif Require Import Base LeafBitsModel VisLumpModel VisLumpProofs ParserModel CmdlibModel AmbientModel.
Import ListNotations.
Local Open Scope nat_scope.

Definition dvec (h : nat -> bool) : list Q := map (fun t => if h t then maxd else 1020%Q) (seq 0 4).
Lemma dvec_init : repeat 1020%Q 4 = dvec (fun _ => false). Proof. reflexivity. Qed.
Lemma nearer_dvec h t : t < 4 -> nearer (dvec h) t = dvec (fun u => h u || (u =? t)).
Proof.
  intros T. unfold dvec. cbn [seq map]. destruct t as [|[|[|[|t]]]]; [| | | |lia];
    destruct (h 0), (h 1), (h 2), (h 3); reflexivity.
Qed.
Lemma level_dvec h t : t < 4 -> h 2 = false -> level (dvec h) t = if h t then 255%N else 0%N.
Proof.
  intros T H2. unfold level, volume, dvec. cbn [seq map nth]. rewrite H2.
  destruct t as [|[|[|[|t]]]]; [| | | |lia]; cbn [nth]; [destruct (h 0)|destruct (h 1)|rewrite H2|destruct (h 3)]; reflexivity.
Qed.
Lemma type_range o name t : ambient_type o name = Some t -> t = WATER \/ t = SKY \/ t = LAVA.
Proof.
  unfold ambient_type. repeat match goal with |- context [if ?c then _ else _] => destruct c end; intros H; inversion H; auto.
Qed.

Lemma scan_faces_spec o b l : forall ks h, (forall k, In k ks -> face_name b l k <> None) ->
  exists h', scan_faces o b l ks (dvec h) = Some (dvec h') /\
   forall t, h' t = true <-> h t = true \/ exists k name, In k ks /\ face_name b l k = Some name /\ ambient_type o name = Some t.
Proof.
  induction ks as [|k ks IH]; intros h V; cbn [scan_faces].
  - exists h. split; [reflexivity|]. intros t. split; [auto|]. intros [H|(k & name & [] & _)]. exact H.
  - destruct (face_name b l k) as [name|] eqn:F; [|exfalso; apply (V k); [left; reflexivity|exact F]].
    assert (V' : forall k', In k' ks -> face_name b l k' <> None) by (intros k' I; apply V; right; exact I).
    destruct (ambient_type o name) as [u|] eqn:T.
    + rewrite nearer_dvec by (destruct (type_range _ _ _ T) as [->|[->| ->]]; unfold WATER, SKY, LAVA; lia).
      destruct (IH (fun x => h x || (x =? u)) V') as (h' & E & S). exists h'. split; [exact E|].
      intros t. rewrite S, orb_true_iff, Nat.eqb_eq. split.
      * intros [[H| ->]|(k' & n' & I & Q)]; [auto|right; exists k, name; cbn; auto|right; exists k', n'; cbn; tauto].
      * intros [H|(k' & n' & [<-|I] & F' & Q)]; [auto| |right; exists k', n'; auto].
        left. right. rewrite F in F'. injection F' as <-. congruence.
    + destruct (IH h V') as (h' & E & S). exists h'. split; [exact E|].
      intros t. rewrite S. split.
      * intros [H|(k' & n' & I & Q)]; [auto|right; exists k', n'; cbn; tauto].
      * intros [H|(k' & n' & [<-|I] & F' & Q)]; [auto| |right; exists k', n'; auto].
        exfalso. rewrite F in F'. injection F' as <-. congruence.
Qed.

(** Every face of every leaf has a texture in range. *)
Definition refs_ok (b : bsp) : Prop := forall l k, In l (b_leafs b) -> k < lf_num l -> face_name b l k <> None.

Lemma scan_leafs_spec o b unc base : refs_ok b -> forall js h, (forall j, In j js -> base + j / 8 < length unc /\ j < length (b_leafs b)) ->
  exists h', scan_leafs o b unc base js (dvec h) = Some (dvec h') /\
   forall t, h' t = true <-> h t = true \/ exists j hit k name, In j js /\ N.testbit (nth (base + j / 8) unc 0%N) (N.of_nat (j mod 8)) = true /\
     nth_error (b_leafs b) j = Some hit /\ k < lf_num hit /\ face_name b hit k = Some name /\ ambient_type o name = Some t.
Proof.
  intros R. induction js as [|j js IH]; intros h V; cbn [scan_leafs].
  - exists h. split; [reflexivity|]. intros t. split; [auto|]. intros [H|(j & hit & k & name & [] & _)]. exact H.
  - destruct (V j (or_introl eq_refl)) as [V1 V2]. assert (V' : forall j', In j' js -> base + j' / 8 < length unc /\ j' < length (b_leafs b)) by (intros j' I; apply V; right; exact I).
    destruct (nth_error unc (base + j / 8)) as [byte|] eqn:EB; [|apply nth_error_None in EB; lia].
    pose proof (nth_of_error _ _ _ _ 0%N EB) as NB.
    destruct (N.testbit byte (N.of_nat (j mod 8))) eqn:TB.
    + destruct (nth_error (b_leafs b) j) as [hit|] eqn:EL; [|apply nth_error_None in EL; lia].
      destruct (scan_faces_spec o b hit (seq 0 (lf_num hit)) h) as (h1 & E1 & S1).
      { intros k I. apply in_seq in I. apply R; [eapply nth_error_In; exact EL|lia]. }
      rewrite E1. destruct (IH h1 V') as (h' & E & S). exists h'. split; [exact E|].
      intros t. rewrite S, S1. split.
      * intros [[H|(k & name & I & Q1 & Q2)]|(j' & hit' & k & name & I & Q)]; [auto| |right; exists j', hit', k, name; cbn; tauto].
        apply in_seq in I. right. exists j, hit, k, name. rewrite NB. cbn. repeat split; auto; lia.
      * intros [H|(j' & hit' & k & name & [<-|I] & Q)]; [auto| |right; exists j', hit', k, name; auto].
        destruct Q as (_ & Q1 & Q2 & Q3 & Q4). rewrite EL in Q1. injection Q1 as <-. left. right. exists k, name. split; [apply in_seq; lia|auto].
    + destruct (IH h V') as (h' & E & S). exists h'. split; [exact E|].
      intros t. rewrite S. split.
      * intros [H|(j' & hit' & k & name & I & Q)]; [auto|right; exists j', hit', k, name; cbn; tauto].
      * intros [H|(j' & hit' & k & name & [<-|I] & Q)]; [auto| |right; exists j', hit', k, name; auto].
        exfalso. rewrite NB in Q. destruct Q as (Q & _). congruence.
Qed.

Lemma all_some_map {A B} (f : A -> option B) (g : A -> B) l : (forall x, In x l -> f x = Some (g x)) -> all_some (map f l) = Some (map g l).
Proof. induction l as [|x l IH]; intros H; [reflexivity|]. cbn [map all_some]. rewrite (H x (or_introl eq_refl)), IH by (intros y I; apply H; right; exact I). reflexivity. Qed.
Lemma all_some_nth {A} (l : list (option A)) r : all_some l = Some r -> length r = length l /\ forall i x, nth_error l i = Some x -> exists y, x = Some y /\ nth_error r i = Some y.
Proof.
  revert r. induction l as [|[x|] l IH]; intros r H; cbn [all_some] in H; [injection H as <-; split; [reflexivity|intros [|i] x; discriminate]| |discriminate].
  destruct (all_some l) as [xs|] eqn:E; [|discriminate]. injection H as <-. destruct (IH xs eq_refl) as [L N0]. split; [cbn; lia|].
  intros [|i] y Q; cbn in Q |- *; [injection Q as <-; eauto|apply N0, Q].
Qed.
Lemma all_some_total {A} (l : list (option A)) : (forall x, In x l -> x <> None) -> exists r, all_some l = Some r.
Proof.
  induction l as [|[x|] l IH]; intros H; cbn [all_some]; [eauto| |exfalso; apply (H None); [left; reflexivity|reflexivity]].
  destruct IH as (r & E); [intros y I; apply H; right; exact I|]. rewrite E. eauto.
Qed.

(** What decides about the sound t in leaf i: a face with a texture of the kind in a leaf of which bit j of
    the row is set. *)
Definition heard (o : opts) (b : bsp) (unc : list N) (base nr t : nat) : Prop :=
  exists j hit k name, j < nr /\ N.testbit (nth (base + j / 8) unc 0%N) (N.of_nat (j mod 8)) = true /\
    nth_error (b_leafs b) j = Some hit /\ k < lf_num hit /\ face_name b hit k = Some name /\ ambient_type o name = Some t.
Lemma ambient_leaf_spec o b n nr unc i l : refs_ok b -> nth_error (b_leafs b) i = Some l -> nr <= length (b_leafs b) ->
  let base := (if negb (n =? nr) then lf_cluster l else i) * stride nr in base + stride nr <= length unc ->
  exists lv, ambient_leaf o b n nr unc i = Some lv /\ length lv = 4 /\
    forall t, t < 4 -> (heard o b unc base nr t /\ nth t lv 0%N = 255%N) \/ (~ heard o b unc base nr t /\ nth t lv 0%N = 0%N).
Proof.
  intros R EL NR base SZ. unfold ambient_leaf. rewrite EL. fold base. rewrite dvec_init.
  destruct (scan_leafs_spec o b unc base R (seq 0 nr) (fun _ => false)) as (h & E & S).
  { intros j I. apply in_seq in I. split; [|lia]. assert (j / 8 < stride nr); [|lia]. unfold stride.
    assert (j / 8 < row_bytes nr) by (unfold row_bytes; lia). pose proof (stride_ge nr). unfold stride in *. lia. }
  rewrite E. exists (map (level (dvec h)) (seq 0 4)). split; [reflexivity|]. split; [reflexivity|]. intros t T.
  assert (H2 : h 2 = false).
  { destruct (h 2) eqn:X; [|reflexivity]. apply S in X. destruct X as [X|(j & hit & k & name & _ & _ & _ & _ & _ & X)]; [discriminate|].
    apply type_range in X. unfold WATER, SKY, LAVA in X. lia. }
  assert (NT : nth t (map (level (dvec h)) (seq 0 4)) 0%N = level (dvec h) t) by (destruct t as [|[|[|[|t]]]]; [reflexivity|reflexivity|reflexivity|reflexivity|lia]).
  rewrite NT, level_dvec by assumption.
  assert (HH : h t = true <-> heard o b unc base nr t).
  { rewrite S. unfold heard. split.
    - intros [X|(j & hit & k & name & I & Q)]; [discriminate|]. apply in_seq in I. exists j, hit, k, name. split; [lia|exact Q].
    - intros (j & hit & k & name & I & Q). right. exists j, hit, k, name. split; [apply in_seq; lia|exact Q]. }
  destruct (h t) eqn:X; [left|right]; (split; [|reflexivity]); [apply HH; reflexivity|intros Y; apply HH in Y; discriminate].
Qed.
