(* Properties of the table of planes (model in PlaneTableModel.v). *)
From Coq Require Import ZArith List Bool Arith Lia.
From Verif Require Import PlaneTableModel PlaneTableProofs.
Import ListNotations.
Local Open Scope Z_scope.

(* Two planes agree up to a in each component of the normal and up to b in the distance. *)
Definition near (a b : Z) (p q : plane) : Prop :=
  Z.abs (nx p - nx q) <= a /\ Z.abs (ny p - ny q) <= a /\ Z.abs (nz p - nz q) <= a /\
  Z.abs (dist p - dist q) <= b.

(* A plane with a component 1 or -1 has the two other components at most d. *)
Definition axial_up_to (one d : Z) (p : plane) : Prop :=
  (Z.abs (nx p) = one -> Z.abs (ny p) <= d /\ Z.abs (nz p) <= d) /\
  (Z.abs (ny p) = one -> Z.abs (nx p) <= d /\ Z.abs (nz p) <= d) /\
  (Z.abs (nz p) = one -> Z.abs (nx p) <= d /\ Z.abs (ny p) <= d).

(* The plane cannot be told from its own negation. *)
Definition no_side (hn hd : Z) (p : plane) : Prop := near hn hd p (pneg p).

(* plane stored at an index *)
Definition stored (t : table) (i : nat) : option plane := option_map pl (nth_error (planes t) i).

(* the table and the answers after some requests *)
Definition table_of (one hn hd : Z) (asks : list (nat * plane)) : table := snd (run one hn hd asks empty).
Definition answers (one hn hd : Z) (asks : list (nat * plane)) : list nat := fst (run one hn hd asks empty).

Lemma stored_at : forall t i p, stored t i = Some p <-> at_ t i p.
Proof.
  intros; unfold stored, at_. split.
  - destruct (nth_error (planes t) i) as [q|]; simpl; intros H; [|discriminate].
    injection H as <-. eauto.
  - intros (q & -> & <-). reflexivity.
Qed.

Lemma near_box : forall a b p q, in_box a b p q = true <-> near a b p q.
Proof. intros; apply in_box_spec. Qed.

Lemma run_app : forall one hn hd a b t,
  run one hn hd (a ++ b) t =
  let (l, t1) := run one hn hd a t in let (l2, t2) := run one hn hd b t1 in (l ++ l2, t2).
Proof.
  induction a as [|[c p] a IH]; intros b t; simpl.
  - destruct (run one hn hd b t); reflexivity.
  - destruct (add_or_find one hn hd c t p) as [i t1]. rewrite IH.
    destruct (run one hn hd a t1) as [l t2]. destruct (run one hn hd b t2) as [l3 t3]. reflexivity.
Qed.

(* ---- C114 ---- *)

(* The planes come in pairs: the planes at 2k and 2k+1 are opposite, have the same type, and
   the first of them has no negative major component. *)
Theorem C114_pairs : forall one hn hd asks, 0 < one ->
  let t := table_of one hn hd asks in
  Nat.even (length (planes t)) = true /\ (length (planes t) <= 2 * length asks)%nat /\
  forall k, (2 * k < length (planes t))%nat ->
    exists a b, nth_error (planes t) (2 * k) = Some a /\ nth_error (planes t) (2 * k + 1) = Some b /\
      nx (pl b) = - nx (pl a) /\ ny (pl b) = - ny (pl a) /\ nz (pl b) = - nz (pl a) /\
      dist (pl b) = - dist (pl a) /\ ty b = ty a /\
      0 <= comp (ty a mod 3) (pl a) /\
      ((ty a < 3)%nat -> comp (ty a) (pl a) = one /\ forall i, (i < 3)%nat -> i <> ty a -> comp i (pl a) = 0) /\
      ((3 <= ty a)%nat -> (ty a < 6)%nat /\ forall i, (i < 3)%nat ->
         comp i (pl a) <> one /\ comp i (pl a) <> - one /\ Z.abs (comp i (pl a)) <= comp (ty a mod 3) (pl a)).
Proof.
  intros one hn hd asks H t.
  pose proof (run_inv one hn hd H asks empty (inv_empty one)) as ((Ev & Pk) & _).
  fold t in Ev, Pk. split; [exact Ev|]. split.
  - assert (G : forall l s, (length (planes (snd (run one hn hd l s))) <= length (planes s) + 2 * length l)%nat).
    { induction l as [|[c p] l IH]; intros s; simpl; [lia|].
      assert (K : (length (planes (snd (add_or_find one hn hd c s p))) <= length (planes s) + 2)%nat).
      { unfold add_or_find. destruct find_plane_nonfatal; [simpl; lia|].
        unfold add_plane; simpl. rewrite app_length; simpl. lia. }
      destruct (add_or_find one hn hd c s p) as [i s1]; simpl in K.
      pose proof (IH s1). destruct (run one hn hd l s1); simpl in *. lia. }
    pose proof (G asks empty) as G1. exact G1.
  - intros k Hk. destruct (Pk k Hk) as (a & H1 & H2 & H3 & H4).
    exists a, (mkq (pneg (pl a)) (ty a)). replace (2 * k + 1)%nat with (S (2 * k)) by lia.
    split; [exact H1|]. split; [exact H2|]. cbn [pl ty pneg nx ny nz dist].
    do 5 (split; [reflexivity|]). split; [exact H3|].
    revert H3 H4. destruct a as [[x y z d] n]. cbn [pl ty]. rewrite normalize_alt; cbn [nx ny nz dist].
    destruct (Z.eqb_spec (Z.abs x) (Z.abs one)) as [Ex|Ex].
    { intros H3 H4; injection H4 as Ey Ez En. rewrite <- En in H3 |- *. change (comp (0 mod 3)%nat {| nx := x; ny := y; nz := z; dist := d |}) with x in H3. split.
      - intros _. split; [simpl; lia|]. intros [|[|[|i]]] L1 L2; simpl; try lia.
      - lia. }
    destruct (Z.eqb_spec (Z.abs y) (Z.abs one)) as [Ey|Ey].
    { intros H3 H4; injection H4 as Ex' Ez En. rewrite <- En in H3 |- *. change (comp (1 mod 3)%nat {| nx := x; ny := y; nz := z; dist := d |}) with y in H3. split.
      - intros _. split; [simpl; lia|]. intros [|[|[|i]]] L1 L2; simpl; try lia.
      - lia. }
    destruct (Z.eqb_spec (Z.abs z) (Z.abs one)) as [Ez|Ez].
    { intros H3 H4; injection H4 as Ex' Ey' En. rewrite <- En in H3 |- *. change (comp (2 mod 3)%nat {| nx := x; ny := y; nz := z; dist := d |}) with z in H3. split.
      - intros _. split; [simpl; lia|]. intros [|[|[|i]]] L1 L2; simpl; try lia.
      - lia. }
    intros H3 H4; injection H4 as En.
    destruct ((Z.abs y <=? Z.abs x) && (Z.abs z <=? Z.abs x)) eqn:A.
    { rewrite <- En in H3 |- *. change (comp (3 mod 3) {| nx := x; ny := y; nz := z; dist := d |}) with x in *.
      apply andb_true_iff in A as [A1 A2]. apply Z.leb_le in A1, A2.
      split; [lia|]. intros _. split; [lia|]. intros [|[|[|i]]] L; simpl; lia. }
    destruct ((Z.abs x <=? Z.abs y) && (Z.abs z <=? Z.abs y)) eqn:B.
    { rewrite <- En in H3 |- *. change (comp (4 mod 3) {| nx := x; ny := y; nz := z; dist := d |}) with y in *.
      apply andb_true_iff in B as [B1 B2]. apply Z.leb_le in B1, B2.
      split; [lia|]. intros _. split; [lia|]. intros [|[|[|i]]] L; simpl; lia. }
    rewrite <- En in H3 |- *. change (comp (5 mod 3) {| nx := x; ny := y; nz := z; dist := d |}) with z in *.
    apply andb_false_iff in A, B. rewrite !Z.leb_gt in A, B.
    split; [lia|]. intros _. split; [lia|]. intros [|[|[|i]]] L; simpl; lia.
Qed.
Print Assumptions C114_pairs.

(* Each answer is the index of a plane near to the one asked for, and stays so. *)
Theorem C114_near : forall one hn hd asks more, 0 < one -> 0 <= hn -> 0 <= hd ->
  Forall (fun a => axial_up_to one hn (snd a)) asks ->
  length (answers one hn hd asks) = length asks /\
  forall n c p i, nth_error asks n = Some (c, p) -> nth_error (answers one hn hd asks) n = Some i ->
    exists q, stored (table_of one hn hd (asks ++ more)) i = Some q /\ near hn hd p q.
Proof.
  intros one hn hd asks more H0 H1 H2.
  unfold answers, table_of.
  assert (G : forall l t, inv one t -> Forall (fun a => axial_up_to one hn (snd a)) l ->
    length (fst (run one hn hd l t)) = length l /\
    forall n c p i, nth_error l n = Some (c, p) -> nth_error (fst (run one hn hd l t)) n = Some i ->
      exists q, at_ (snd (run one hn hd l t)) i q /\ near hn hd p q).
  { induction l as [|[c p] l IH]; intros t I F; simpl.
    - split; [reflexivity|]. intros [|n]; discriminate.
    - inversion F as [|? ? T F']; subst. cbn [snd] in T.
      pose proof (step_result one hn hd H0 H1 H2 c t p I T) as (q & R1 & R2).
      pose proof (step_inv one hn hd H0 c t p I) as I1.
      destruct (add_or_find one hn hd c t p) as [i t1]; cbn [fst snd] in *.
      destruct (IH t1 I1 F') as [L G]. pose proof (run_ext one hn hd H0 l t1) as X.
      destruct (run one hn hd l t1) as [r t2]; cbn [fst snd] in *.
      split; [simpl; congruence|]. intros [|n] c' p' i' K1 K2; simpl in K1, K2.
      + injection K1 as -> ->. injection K2 as ->. exists q. split; [eapply at_ext; eauto|].
        apply near_box; assumption.
      + eapply G; eauto. }
  intros F. destruct (G asks empty (inv_empty one) F) as [L K].
  split; [exact L|]. intros n c p i A B. destruct (K n c p i A B) as (q & Q1 & Q2).
  exists q. split; auto. apply stored_at. rewrite run_app.
  pose proof (run_ext one hn hd H0 more (snd (run one hn hd asks empty))) as X.
  destruct (run one hn hd asks empty) as [l t1]; cbn [fst snd] in *.
  destruct (run one hn hd more t1) as [l2 t2]; cbn [fst snd] in *. eapply at_ext; eauto.
Qed.
Print Assumptions C114_near.

(* A plane is added only if no stored plane is near to it, and then it is stored as it is;
   otherwise the table does not change. *)
Theorem C114_added : forall one hn hd asks c p, 0 < one ->
  let t := table_of one hn hd asks in
  let (i, t') := add_or_find one hn hd c t p in
  ((exists j q, stored t j = Some q /\ near hn hd p q) -> t' = t) /\
  ((forall j q, stored t j = Some q -> ~ near hn hd p q) ->
     (i = length (planes t) \/ i = S (length (planes t))) /\
     length (planes t') = S (S (length (planes t))) /\
     (forall j, (j < length (planes t))%nat -> stored t' j = stored t j) /\
     exists q, stored t' i = Some q /\ (axial_up_to one 0 p -> q = p)).
Proof.
  intros one hn hd asks c p H0 t.
  pose proof (run_inv one hn hd H0 asks empty (inv_empty one)) as (Hp & Hs & Hc).
  fold (table_of one hn hd asks) in Hp, Hs, Hc. fold t in Hp, Hs, Hc.
  unfold add_or_find. destruct (find_plane_nonfatal hn hd c t p) as [i|] eqn:F.
  - split; [reflexivity|]. intros N0. apply find_some in F as (k & K1 & K2).
    exfalso. apply (N0 i k); [apply stored_at, Hs; assumption|apply near_box; assumption].
  - destruct (add_shape one H0 t p) as (a & E & _ & _ & R & _).
    pose proof (add_result one H0 t p) as Ar.
    pose proof (add_ext one H0 t p) as X.
    destruct (add_plane one t p) as [i t']; cbn [fst snd] in *. split.
    + intros (j & q & Q1 & Q2). apply stored_at in Q1. apply Hc in Q1 as [j' Q1].
      apply near_box in Q2. rewrite (find_none hn hd _ _ _ F _ _ Q1) in Q2. discriminate.
    + intros _. split; [tauto|]. split; [rewrite E, app_length; simpl; lia|]. split.
      * intros j Hj. unfold stored. rewrite E, nth_error_app1 by assumption. reflexivity.
      * exists (pl (normalize one p)). split; [apply stored_at; assumption|].
        intros T. apply normalize_tame0; assumption.
Qed.
Print Assumptions C114_added.

(* Different stored planes are never near to each other, except a plane without sides and its
   opposite. *)
Theorem C114_separate : forall one hn hd asks i j p q, 0 < one -> 0 <= hn -> 0 <= hd ->
  Forall (fun a => axial_up_to one 0 (snd a)) asks ->
  stored (table_of one hn hd asks) i = Some p -> stored (table_of one hn hd asks) j = Some q ->
  i <> j -> near hn hd p q -> (i / 2 = j / 2)%nat /\ q = pneg p /\ no_side hn hd p.
Proof.
  intros one hn hd asks i j p q H0 H1 H2 F Hi Hj Ne B.
  apply stored_at in Hi, Hj. apply near_box in B.
  pose proof (run_separate one hn hd H0 H1 H2 asks empty (inv_empty one)
    (separate_empty hn hd) F) as Sp.
  destruct (Sp i j p q Hi Hj Ne B) as (K1 & K2 & K3). subst q.
  split; [|split; [reflexivity|apply near_box; assumption]].
  destruct (Nat.Even_or_Odd i) as [[k ->]|[k ->]]; subst j.
  - rewrite mate_even. replace (S (2 * k)) with (1 + k * 2)%nat by lia.
    rewrite Nat.div_add by lia. rewrite (Nat.mul_comm 2 k), Nat.div_mul by lia. reflexivity.
  - replace (2 * k + 1)%nat with (S (2 * k)) by lia. rewrite mate_odd.
    replace (S (2 * k)) with (1 + k * 2)%nat by lia.
    rewrite Nat.div_add by lia. rewrite (Nat.mul_comm 2 k), Nat.div_mul by lia. reflexivity.
Qed.
Print Assumptions C114_separate.

(* Asking for a stored plane gives its index, at any later time and with any choice, and asking
   for the opposite plane gives the other index of the pair. *)
Theorem C114_again : forall one hn hd asks more c k p, 0 < one -> 0 <= hn -> 0 <= hd ->
  Forall (fun a => axial_up_to one 0 (snd a)) (asks ++ more) -> ~ no_side hn hd p ->
  let t := table_of one hn hd (asks ++ more) in
  (stored (table_of one hn hd asks) (2 * k) = Some p ->
     add_or_find one hn hd c t p = ((2 * k)%nat, t) /\ add_or_find one hn hd c t (pneg p) = ((2 * k + 1)%nat, t)) /\
  (stored (table_of one hn hd asks) (2 * k + 1) = Some p ->
     add_or_find one hn hd c t p = ((2 * k + 1)%nat, t) /\ add_or_find one hn hd c t (pneg p) = ((2 * k)%nat, t)).
Proof.
  intros one hn hd asks more c k p H0 H1 H2 F D t.
  pose proof (run_separate one hn hd H0 H1 H2 (asks ++ more) empty (inv_empty one)
    (separate_empty hn hd) F) as Sp.
  pose proof (run_inv one hn hd H0 (asks ++ more) empty (inv_empty one)) as I.
  fold (table_of one hn hd (asks ++ more)) in Sp, I. fold t in Sp, I.
  assert (X : ext (table_of one hn hd asks) t).
  { unfold t, table_of. rewrite run_app.
    pose proof (run_ext one hn hd H0 more (snd (run one hn hd asks empty))) as X.
    destruct (run one hn hd asks empty) as [l t1]; cbn [fst snd] in *.
    destruct (run one hn hd more t1) as [l2 t2]; exact X. }
  assert (D1 : ~ degenerate hn hd p).
  { intros (A & B & C & E). apply D. unfold no_side, near, pneg; cbn [nx ny nz dist]. lia. }
  assert (D2 : ~ degenerate hn hd (pneg p)).
  { intros (A & B & C & E). apply D. unfold no_side, near, pneg in *; cbn [nx ny nz dist] in *. lia. }
  assert (G : forall i, stored (table_of one hn hd asks) i = Some p ->
     add_or_find one hn hd c t p = (i, t) /\ add_or_find one hn hd c t (pneg p) = (mate i, t)).
  { intros i Hi. apply stored_at in Hi. apply (at_ext _ _ _ _ X) in Hi.
    pose proof (mate_at one t i p I Hi) as Hm. unfold add_or_find.
    rewrite (find_exact one hn hd H1 H2 c t i p I Sp Hi D1).
    rewrite (find_exact one hn hd H1 H2 c t (mate i) (pneg p) I Sp Hm D2). split; reflexivity. }
  split; intros Hi; specialize (G _ Hi).
  - rewrite mate_even in G. replace (2 * k + 1)%nat with (S (2 * k)) by lia. exact G.
  - replace (2 * k + 1)%nat with (S (2 * k)) in * by lia. rewrite mate_odd in G. exact G.
Qed.
Print Assumptions C114_again.

(* A plane asked for once is found ever after: find_plane does not throw for it. *)
Theorem C114_found : forall one hn hd asks more c c' p, 0 < one -> 0 <= hn -> 0 <= hd ->
  Forall (fun a => axial_up_to one hn (snd a)) asks -> In (c, p) asks ->
  exists i q, find_plane_nonfatal hn hd c' (table_of one hn hd (asks ++ more)) p = Some i /\
    stored (table_of one hn hd (asks ++ more)) i = Some q /\ near hn hd p q.
Proof.
  intros one hn hd asks more c c' p H0 H1 H2 F I.
  destruct (C114_near one hn hd asks more H0 H1 H2 F) as [L G].
  apply In_nth_error in I as [n I].
  destruct (nth_error (answers one hn hd asks) n) as [i|] eqn:A.
  2:{ exfalso. apply nth_error_None in A. assert (nth_error asks n <> None) by congruence.
      apply nth_error_Some in H. lia. }
  destruct (G n c p i I A) as (q & Q1 & Q2).
  pose proof (run_inv one hn hd H0 (asks ++ more) empty (inv_empty one)) as In'.
  apply stored_at in Q1. apply near_box in Q2.
  destruct (find_near one hn hd c' _ i q p In' Q1 Q2) as (j & r & K1 & K2 & K3).
  exists j, r. split; [exact K1|]. split; [apply stored_at; exact K2|apply near_box; exact K3].
Qed.
Print Assumptions C114_found.

(* A plane that lies between two stored ones has no fixed answer: it may be given one of them,
   and its opposite the opposite of the other one.  (Unit 1/1000000, tolerances 5.) *)
Theorem C114_between_refuted : exists one hn hd asks p,
  0 < one /\ Forall (fun a => axial_up_to one 0 (snd a)) asks /\ ~ no_side hn hd p /\
  In (0%nat, p) asks /\
  (exists c, find_plane_nonfatal hn hd c (table_of one hn hd asks) p = Some 0%nat) /\
  (exists c, find_plane_nonfatal hn hd c (table_of one hn hd asks) p = Some 2%nat) /\
  (exists c, find_plane_nonfatal hn hd c (table_of one hn hd asks) (pneg p) = Some 3%nat).
Proof.
  exists 1000000, 5, 5,
    [(0%nat, mkpl 1000000 0 0 0); (0%nat, mkpl 1000000 0 0 4); (0%nat, mkpl 1000000 0 0 8)],
    (mkpl 1000000 0 0 4).
  split; [lia|]. split.
  { do 3 (apply Forall_cons; [unfold axial_up_to; cbn [snd nx ny nz]; lia|]). apply Forall_nil. }
  split. { unfold no_side, near; simpl. lia. }
  split; [simpl; auto|].
  split; [exists 0%nat; vm_compute; reflexivity|].
  split; [exists 1%nat; vm_compute; reflexivity|].
  exists 1%nat; vm_compute; reflexivity.
Qed.
Print Assumptions C114_between_refuted.

(* A degenerate face (its three points on a line) asks for the plane with normal 0 and distance
   0 before it is rejected: the pair is stored, and the opposite is found at the index of the
   plane itself. *)
Theorem C114_zero_refuted : exists one hn hd p, 0 < one /\ axial_up_to one 0 p /\
  let (i, t) := add_or_find one hn hd 0 empty p in
  length (planes t) = 2%nat /\ forall c, find_plane_nonfatal hn hd c t (pneg p) = Some i.
Proof.
  exists 1000000, 5, 5, (mkpl 0 0 0 0). split; [lia|]. split; [unfold axial_up_to; cbn [snd nx ny nz]; lia|].
  split; [reflexivity|]. intros c. unfold find_plane_nonfatal.
  cbn [filter hash emplace add_plane].
  match goal with |- context [filter ?f ?h] =>
    let x := eval vm_compute in (filter f h) in change (filter f h) with x end.
  cbn [length nth]. rewrite Nat.mod_1_r. reflexivity.
Qed.
Print Assumptions C114_zero_refuted.

(* Three planes: an axial one facing down, its opposite, and a slanted one near to nothing. *)
Example C114_nontrivial :
  let r := run 1000000 5 5
    [(0%nat, mkpl 0 0 (-1000000) 64); (7%nat, mkpl 600000 800000 0 32);
     (3%nat, mkpl 2 0 999997 (-66)); (1%nat, mkpl (-600001) (-799999) 0 (-33))] empty in
  fst r = [1; 2; 0; 3]%nat /\
  planes (snd r) = [mkq (mkpl 0 0 1000000 (-64)) 2; mkq (mkpl 0 0 (-1000000) 64) 2;
                    mkq (mkpl 600000 800000 0 32) 4; mkq (mkpl (-600000) (-800000) 0 (-32)) 4].
Proof. vm_compute. split; reflexivity. Qed.
