(** Proofs about merging triangles into fans, and about fixing a whole face
    (TJuncModel.v). *)

From Coq Require Import List Arith Bool ZArith Lia Permutation Sorted.
From Verif Require Import TJuncModel TJuncProofs.
Import ListNotations.

Definition no_tri : tri := (0, 0, 0).

Definition sorted_tri (n : nat) (t : tri) : Prop :=
  let '(a, b, c) := t in a < b /\ b < c /\ c < n.

Definition tri_map (g : nat -> nat) (t : tri) : tri :=
  let '(a, b, c) := t in (g a, g b, g c).

Lemma tri_is_same : forall t a b c, tri_is t a b c = true -> same_tri (a, b, c) t.
Proof.
  intros [[x y] z] a b c H. unfold tri_is in H. unfold same_tri.
  apply orb_true_iff in H. destruct H as [H|H].
  - apply orb_true_iff in H. destruct H as [H|H];
      apply andb_true_iff in H; destruct H as [H H3];
      apply andb_true_iff in H; destruct H as [H1 H2];
      apply Nat.eqb_eq in H1; apply Nat.eqb_eq in H2; apply Nat.eqb_eq in H3; subst; auto.
  - apply andb_true_iff in H; destruct H as [H H3];
    apply andb_true_iff in H; destruct H as [H1 H2];
    apply Nat.eqb_eq in H1; apply Nat.eqb_eq in H2; apply Nat.eqb_eq in H3; subst; auto.
Qed.

Lemma same_tri_turn : forall a b c t, same_tri (a, b, c) t -> same_tri (b, c, a) t.
Proof. intros a b c t H. unfold same_tri in *. tauto. Qed.

Lemma tri_is_perm : forall t p, let '(a, b, c) := tri_perm t p in tri_is t a b c = true.
Proof.
  intros [[x y] z] [|[|p]]; cbn [tri_perm tri_is]; rewrite !Nat.eqb_refl; cbn;
    rewrite ?orb_true_r; reflexivity.
Qed.

Lemma tri_exists_some : forall ts a b c i, tri_exists ts a b c = Some i ->
  exists t, nth_error ts i = Some t /\ tri_is t a b c = true.
Proof.
  induction ts as [|t ts IH]; intros a b c i H; cbn [tri_exists] in H; [discriminate|].
  destruct (tri_is t a b c) eqn:E.
  - injection H as <-. exists t. split; [reflexivity|exact E].
  - destruct (tri_exists ts a b c) as [j|] eqn:Ej; [|discriminate].
    cbn [option_map] in H. injection H as <-. apply IH in Ej. exact Ej.
Qed.

Lemma tri_exists_in : forall ts a b c t, In t ts -> tri_is t a b c = true ->
  tri_exists ts a b c <> None.
Proof.
  induction ts as [|x ts IH]; intros a b c t Hin Ht; [destruct Hin|].
  cbn [tri_exists]. destruct (tri_is x a b c) eqn:E; [discriminate|].
  destruct Hin as [->|Hin]; [congruence|].
  specialize (IH a b c t Hin Ht). destruct (tri_exists ts a b c); [discriminate|congruence].
Qed.

(* ------------------------------------------------------------------ *)
(** * The fan found by winding around a vertex *)

Inductive Chain (ts : list tri) (n first : nat) : nat -> list nat -> list nat -> Prop :=
| ChNil : forall mid, Chain ts n first mid [] []
| ChCons : forall mid l i t is ms,
    nth_error ts i = Some t -> tri_is t first mid l = true ->
    cyc_key n first mid < cyc_key n first l -> l < n -> l <> first ->
    Chain ts n first l is ms ->
    Chain ts n first mid (i :: is) (l :: ms).

Ltac keys := unfold cyc_key in *;
  repeat match goal with
  | |- context [?a <? ?b] => destruct (Nat.ltb_spec a b)
  | H : context [?a <? ?b] |- _ => destruct (Nat.ltb_spec a b)
  end; try lia.

Lemma next_key : forall n first last, first < n -> last < n -> last <> first ->
  (last + 1) mod n < n /\
  ((last + 1) mod n <> first ->
     cyc_key n first ((last + 1) mod n) = cyc_key n first last + 1) /\
  ((last + 1) mod n = first -> cyc_key n first last + 1 = n + first).
Proof.
  intros n first last H1 H2 H3.
  destruct (Nat.eq_dec (last + 1) n) as [E|E].
  - rewrite E, Nat.mod_same by lia. split; [lia|]. split; intros; keys.
  - rewrite Nat.mod_small by lia. split; [lia|]. split; intros; keys.
Qed.

Lemma fan_scan_spec : forall ts n first, first < n -> forall fuel mid last,
  mid <> first -> last < n ->
  (last = first \/ cyc_key n first mid < cyc_key n first last) ->
  (last = first \/ n + first - cyc_key n first last <= fuel) ->
  exists is ms, fan_scan fuel ts n first mid last = Some is /\
    Chain ts n first mid is ms.
Proof.
  intros ts n first Hfn fuel; induction fuel as [|fuel IH]; intros mid last Hmid Hl Hk Hfuel;
    cbn [fan_scan]; destruct (last =? first) eqn:E.
  - exists [], []. split; [reflexivity|constructor].
  - apply Nat.eqb_neq in E. destruct Hfuel as [Hf|Hf]; [contradiction|]. keys.
  - exists [], []. split; [reflexivity|constructor].
  - apply Nat.eqb_neq in E.
    destruct Hk as [Hk|Hk]; [contradiction|]. destruct Hfuel as [Hf|Hf]; [contradiction|].
    destruct (next_key n first last Hfn Hl E) as (N1 & N2 & N3).
    assert (Hnext : forall m, m <> first -> cyc_key n first m <= cyc_key n first last ->
              exists is ms, fan_scan fuel ts n first m ((last + 1) mod n) = Some is /\
                Chain ts n first m is ms).
    { intros m Hm Hle. destruct (Nat.eq_dec ((last + 1) mod n) first) as [En|En].
      - apply IH; auto.
      - specialize (N2 En). apply IH; auto; right; lia. }
    destruct (tri_exists ts first mid last) as [i|] eqn:Et.
    + destruct (Hnext last E (le_n _)) as (is & ms & H1 & H2).
      destruct (tri_exists_some _ _ _ _ _ Et) as (t & Ht & Hi).
      exists (i :: is), (last :: ms). rewrite H1. split; [reflexivity|].
      econstructor; eauto.
    + destruct (Hnext mid Hmid ltac:(lia)) as (is & ms & H1 & H2).
      exists is, ms. split; assumption.
Qed.

(** A fan is the triangles around [first] between the vertices [mid], [ms]. *)
Definition GoodFan (ts : list tri) (n : nat) (fan : list nat) : Prop :=
  exists first mid ms, first < n /\ mid < n /\ mid <> first /\
    Chain ts n first mid fan ms.

Lemma fan_scan_good : forall ts n t p, In t ts -> sorted_tri n t -> In p [0; 1; 2] ->
  exists fan, (let '(a, b, c) := tri_perm t p in fan_scan n ts n a b c) = Some fan /\
    fan <> [] /\ GoodFan ts n fan.
Proof.
  intros ts n t p Hin Hs Hp.
  pose proof (tri_is_perm t p) as Hi.
  assert (Hk : let '(a, b, c) := tri_perm t p in
            a < n /\ b < n /\ c < n /\ b <> a /\ c <> a /\
            cyc_key n a b < cyc_key n a c /\ n + a - cyc_key n a c <= n).
  { destruct t as [[x y] z]. cbn [sorted_tri] in Hs.
    destruct Hp as [<-|[<-|[<-|[]]]]; cbn [tri_perm]; keys. }
  destruct (tri_perm t p) as [[a b] c].
  destruct Hk as (Ha & Hb & Hc & Hba & Hca & Hkey & Hfuel).
  destruct (fan_scan_spec ts n a Ha n b c Hba Hc (or_intror Hkey) (or_intror Hfuel))
    as (is & ms & H1 & H2).
  exists is. split; [exact H1|]. split.
  - destruct n as [|n']; [lia|]. cbn [fan_scan] in H1.
    apply Nat.eqb_neq in Hca. rewrite Hca in H1.
    pose proof (tri_exists_in ts a b c t Hin Hi) as Hne.
    destruct (tri_exists ts a b c) as [i|]; [|congruence].
    destruct (fan_scan n' ts (S n') a c ((c + 1) mod S n')); [|discriminate].
    cbn [option_map] in H1. injection H1 as <-. discriminate.
  - exists a, b, ms. auto.
Qed.

Lemma fold_left_inv : forall A B (f : A -> B -> A) (P : A -> Prop) l a,
  P a -> (forall a b, In b l -> P a -> P (f a b)) -> P (fold_left f l a).
Proof.
  intros A B f P l; induction l as [|b l IH]; intros a Ha Hf; [exact Ha|].
  cbn [fold_left]. apply IH; [apply Hf; [left; reflexivity|exact Ha]|].
  intros; apply Hf; [right; assumption|assumption].
Qed.

Lemma best_fan_good : forall ts n, ts <> [] -> Forall (sorted_tri n) ts ->
  exists fan, find_best_fan ts n = Some fan /\ fan <> [] /\ GoodFan ts n fan.
Proof.
  intros ts n Hne Hs. rewrite Forall_forall in Hs.
  set (P := fun acc : option (list nat) => exists best, acc = Some best /\
              (best = [] \/ best <> [] /\ GoodFan ts n best)).
  set (Q := fun acc : option (list nat) => exists best, acc = Some best /\
              best <> [] /\ GoodFan ts n best).
  assert (QP : forall acc, Q acc -> P acc)
    by (intros acc (b & H1 & H2); exists b; split; [exact H1|right; exact H2]).
  set (inner := fun (t : tri) (acc : option (list nat)) (p : nat) =>
        match acc with
        | None => None
        | Some best =>
            let '(a, b, c) := tri_perm t p in
            match fan_scan n ts n a b c with
            | None => None
            | Some mine => Some (better_fan best mine)
            end
        end).
  assert (Hstep : forall t acc p, In t ts -> In p [0; 1; 2] -> P acc -> Q (inner t acc p)).
  { intros t acc p Ht Hp (best & -> & Hb).
    destruct (fan_scan_good ts n t p Ht (Hs t Ht) Hp) as (mine & Hm & Hmne & Hmg).
    unfold inner. destruct (tri_perm t p) as [[a b] c]. rewrite Hm.
    unfold Q, better_fan. destruct best as [|x best].
    - cbn [orb]. exists mine. auto.
    - destruct Hb as [Hb|[_ Hb]]; [discriminate|].
      cbn [orb]. destruct (length (x :: best) <? length mine).
      + exists mine. auto.
      + exists (x :: best). split; [reflexivity|]. split; [discriminate|exact Hb]. }
  assert (Houter : forall t acc, In t ts -> P acc -> Q (fold_left (inner t) [0; 1; 2] acc)).
  { intros t acc Ht Hp. cbn [fold_left].
    apply Hstep; [exact Ht|right; right; left; reflexivity|]. apply QP.
    apply Hstep; [exact Ht|right; left; reflexivity|]. apply QP.
    apply Hstep; [exact Ht|left; reflexivity|exact Hp]. }
  change (find_best_fan ts n) with
    (fold_left (fun acc t => fold_left (inner t) [0; 1; 2] acc) ts (Some [])).
  destruct ts as [|t ts']; [congruence|].
  cbn [fold_left].
  assert (HQ : Q (fold_left (fun acc t => fold_left (inner t) [0; 1; 2] acc) ts'
                    (fold_left (inner t) [0; 1; 2] (Some [])))).
  { apply fold_left_inv.
    - apply Houter; [left; reflexivity|]. exists []. split; [reflexivity|left; reflexivity].
    - intros acc b Hb Hacc. apply Houter; [right; exact Hb|]. apply QP, Hacc. }
  exact HQ.
Qed.

(** ** Facts about a chain *)

Definition keys_lt (n s a b : nat) : Prop := cyc_key n s a < cyc_key n s b.

Lemma chain_sorted : forall ts n first mid is ms, Chain ts n first mid is ms ->
  StronglySorted (keys_lt n first) (mid :: ms).
Proof.
  intros ts n first mid is ms H;
    induction H as [mid|mid l i t is ms Hn Ht Hk Hl Hne HC IH].
  - repeat constructor.
  - constructor; [exact IH|].
    inversion IH as [|? ? Hs Hf]; subst.
    constructor; [exact Hk|]. eapply Forall_impl; [|exact Hf].
    unfold keys_lt. cbn. intros; lia.
Qed.

Lemma chain_bounds : forall ts n first mid is ms, Chain ts n first mid is ms ->
  Forall (fun v => v < n /\ v <> first) ms.
Proof. intros ts n first mid is ms H; induction H; constructor; auto. Qed.

Lemma chain_tris : forall ts n first mid is ms, Chain ts n first mid is ms ->
  Forall2 same_tri (fan_tris (first :: mid :: ms)) (map (fun i => nth i ts no_tri) is).
Proof.
  intros ts n first mid is ms H;
    induction H as [mid|mid l i t is ms Hn Ht Hk Hl Hne HC IH].
  - constructor.
  - rewrite fan_tris_cons. cbn [map]. constructor; [|exact IH].
    rewrite (nth_error_nth _ _ no_tri Hn). apply tri_is_same, Ht.
Qed.

Lemma same_tri_in : forall a b c t v, same_tri (a, b, c) t ->
  (In v (tri_verts t) <-> v = a \/ v = b \/ v = c).
Proof.
  intros a b c t v H. unfold same_tri in H.
  destruct H as [H|[H|H]]; subst t; cbn [tri_verts In];
    (split; [intros [H|[H|[H|[]]]]|intros [H|[H|H]]]); subst; auto.
Qed.

Lemma chain_verts : forall ts n first mid is ms, Chain ts n first mid is ms -> is <> [] ->
  forall v, (exists i, In i is /\ In v (tri_verts (nth i ts no_tri))) <->
    In v (first :: mid :: ms).
Proof.
  intros ts n first mid is ms H;
    induction H as [mid|mid l i t is ms Hn Ht Hk Hl Hne HC IH]; intros Hnn v; [congruence|].
  clear Hnn. apply tri_is_same in Ht.
  assert (Hi : In v (tri_verts (nth i ts no_tri)) <-> v = first \/ v = mid \/ v = l).
  { rewrite (nth_error_nth _ _ no_tri Hn). apply same_tri_in, Ht. }
  destruct is as [|i' is'].
  - inversion HC; subst. cbn [In]. split.
    + intros (j & [<-|[]] & Hj). apply Hi in Hj. intuition.
    + intros Hv. exists i. split; [left; reflexivity|]. apply Hi. intuition.
  - specialize (IH ltac:(discriminate) v). split.
    + intros (j & [<-|Hj] & Hv).
      * apply Hi in Hv. cbn [In]. intuition.
      * destruct IH as [IH _]. destruct (IH (ex_intro _ j (conj Hj Hv))) as [H|H]; cbn [In] in *; intuition.
    + intros Hv. cbn [In] in Hv. destruct Hv as [Hv|[Hv|Hv]].
      * exists i. split; [left; reflexivity|]. apply Hi. intuition.
      * exists i. split; [left; reflexivity|]. apply Hi. intuition.
      * destruct IH as [_ IH]. destruct IH as (j & Hj & Hjv).
        { right. exact Hv. }
        exists j. split; [right; exact Hj|exact Hjv].
Qed.

Lemma chain_index : forall ts n first mid is ms i, Chain ts n first mid is ms -> In i is ->
  exists a b, In b ms /\ tri_is (nth i ts no_tri) first a b = true /\ i < length ts.
Proof.
  intros ts n first mid is ms i H;
    induction H as [mid|mid l j t is ms Hn Ht Hk Hl Hne HC IH]; intros Hin; [destruct Hin|].
  destruct Hin as [->|Hin].
  - exists mid, l. rewrite (nth_error_nth _ _ no_tri Hn). split; [left; reflexivity|].
    split; [exact Ht|]. apply nth_error_Some. congruence.
  - destruct (IH Hin) as (a & b & H1 & H2). exists a, b. split; [right; exact H1|exact H2].
Qed.

Lemma same_tri_functional : forall n t first a b a' b', sorted_tri n t ->
  same_tri (first, a, b) t -> same_tri (first, a', b') t -> b = b'.
Proof.
  intros n t first a b a' b' Hs H H'. unfold same_tri in *.
  destruct H as [->|[->| ->]]; cbn [sorted_tri] in Hs;
    destruct H' as [E|[E|E]]; inversion E; subst; lia.
Qed.

Lemma chain_nodup : forall ts n first mid is ms, Forall (sorted_tri n) ts ->
  Chain ts n first mid is ms -> NoDup is.
Proof.
  intros ts n first mid is ms Hs H;
    induction H as [mid|mid l j t is ms Hn Ht Hk Hl Hne HC IH]; [constructor|].
  constructor; [|exact IH].
  intro Hin. destruct (chain_index _ _ _ _ _ _ _ HC Hin) as (a & b & Hb & Hab & _).
  rewrite (nth_error_nth _ _ no_tri Hn) in Hab.
  apply tri_is_same in Ht. apply tri_is_same in Hab.
  rewrite Forall_forall in Hs. specialize (Hs t (nth_error_In _ _ Hn)).
  pose proof (same_tri_functional n t first _ _ _ _ Hs Ht Hab) as E. subst b.
  apply chain_sorted in HC. inversion HC as [|? ? _ Hf]; subst.
  rewrite Forall_forall in Hf. specialize (Hf l Hb). unfold keys_lt in Hf. lia.
Qed.

(** ** The ordered set of the vertices of a fan *)

Lemma cyc_key_inj : forall n s a b, a < n -> b < n -> cyc_key n s a = cyc_key n s b -> a = b.
Proof. intros n s a b Ha Hb H. keys. Qed.

Lemma cyc_insert_in : forall n s v l, v < n -> Forall (fun x => x < n) l ->
  forall x, In x (cyc_insert n s v l) <-> x = v \/ In x l.
Proof.
  intros n s v l Hv; induction l as [|y l IH]; intros Hl x; cbn [cyc_insert].
  - cbn [In]. intuition.
  - inversion Hl as [|? ? Hy Hl']; subst. specialize (IH Hl').
    destruct (cyc_key n s v <? cyc_key n s y) eqn:E1; [cbn [In]; intuition|].
    destruct (cyc_key n s y <? cyc_key n s v) eqn:E2.
    + cbn [In]. rewrite IH. intuition.
    + apply Nat.ltb_ge in E1. apply Nat.ltb_ge in E2.
      assert (v = y) by (apply (cyc_key_inj n s); lia). subst y. cbn [In]. intuition.
Qed.

Lemma cyc_insert_sorted : forall n s v l, v < n -> Forall (fun x => x < n) l ->
  StronglySorted (keys_lt n s) l -> StronglySorted (keys_lt n s) (cyc_insert n s v l).
Proof.
  intros n s v l Hv; induction l as [|y l IH]; intros Hl Hs; cbn [cyc_insert].
  - repeat constructor.
  - inversion Hl as [|? ? Hy Hl']; subst. inversion Hs as [|? ? Hs' Hf]; subst.
    destruct (cyc_key n s v <? cyc_key n s y) eqn:E1.
    + apply Nat.ltb_lt in E1. constructor; [exact Hs|].
      constructor; [exact E1|]. eapply Forall_impl; [|exact Hf]. unfold keys_lt. intros; lia.
    + destruct (cyc_key n s y <? cyc_key n s v) eqn:E2; [|exact Hs].
      apply Nat.ltb_lt in E2. constructor; [apply IH; assumption|].
      rewrite Forall_forall in *. intros x Hx.
      apply (cyc_insert_in n s v l Hv) in Hx; [|rewrite Forall_forall; exact Hl'].
      destruct Hx as [->|Hx]; [exact E2|apply Hf, Hx].
Qed.

Lemma insert_all_spec : forall n s vs acc, Forall (fun x => x < n) vs ->
  Forall (fun x => x < n) acc -> StronglySorted (keys_lt n s) acc ->
  let r := fold_left (fun acc v => cyc_insert n s v acc) vs acc in
  Forall (fun x => x < n) r /\ StronglySorted (keys_lt n s) r /\
  (forall x, In x r <-> In x vs \/ In x acc).
Proof.
  intros n s vs; induction vs as [|v vs IH]; intros acc Hv Ha Hs; cbn [fold_left].
  - split; [exact Ha|]. split; [exact Hs|]. cbn [In]. intuition.
  - inversion Hv as [|? ? Hv1 Hv2]; subst.
    pose proof (cyc_insert_in n s v acc Hv1 Ha) as Hin.
    destruct (IH (cyc_insert n s v acc)) as (H1 & H2 & H3).
    + exact Hv2.
    + rewrite Forall_forall in *. intros x Hx. apply Hin in Hx. destruct Hx as [->|Hx]; auto.
    + apply cyc_insert_sorted; assumption.
    + split; [exact H1|]. split; [exact H2|]. intros x. rewrite H3, Hin. cbn [In]. intuition.
Qed.

Lemma fan_verts_spec : forall n s ts fan,
  (forall i, In i fan -> sorted_tri n (nth i ts no_tri)) ->
  StronglySorted (keys_lt n s) (fan_verts n s ts fan) /\
  (forall v, In v (fan_verts n s ts fan) <->
     exists i, In i fan /\ In v (tri_verts (nth i ts no_tri))).
Proof.
  intros n s ts fan Hs.
  assert (G : forall fan acc, (forall i, In i fan -> sorted_tri n (nth i ts no_tri)) ->
            Forall (fun x => x < n) acc -> StronglySorted (keys_lt n s) acc ->
            let r := fold_left (fun acc i =>
                       fold_left (fun acc v => cyc_insert n s v acc)
                         (tri_verts (nth i ts no_tri)) acc) fan acc in
            StronglySorted (keys_lt n s) r /\
            (forall v, In v r <->
               (exists i, In i fan /\ In v (tri_verts (nth i ts no_tri))) \/ In v acc)).
  { clear fan Hs. induction fan as [|i fan IH]; intros acc Hs Ha Hso; cbn [fold_left].
    - split; [exact Hso|]. intros v. split; [right; assumption|].
      intros [(i & [] & _)|H]; exact H.
    - assert (Hv : Forall (fun x => x < n) (tri_verts (nth i ts no_tri))).
      { specialize (Hs i (or_introl eq_refl)). destruct (nth i ts no_tri) as [[a b] c].
        cbn [sorted_tri] in Hs. cbn [tri_verts]. repeat constructor; lia. }
      destruct (insert_all_spec n s _ acc Hv Ha Hso) as (H1 & H2 & H3).
      destruct (IH (fold_left (fun acc v => cyc_insert n s v acc) (tri_verts (nth i ts no_tri)) acc))
        as (H4 & H5); [intros j Hj; apply Hs; right; exact Hj|exact H1|exact H2|].
      split; [exact H4|]. intros v. rewrite H5, H3. split.
      + intros [(j & Hj & Hv')|[Hv'|Hv']].
        * left. exists j. split; [right; exact Hj|exact Hv'].
        * left. exists i. split; [left; reflexivity|exact Hv'].
        * right. exact Hv'.
      + intros [(j & [<-|Hj] & Hv')|Hv'].
        * right. left. exact Hv'.
        * left. exists j. split; [exact Hj|exact Hv'].
        * right. right. exact Hv'. }
  destruct (G fan [] Hs (Forall_nil _) (SSorted_nil _)) as (H1 & H2).
  split; [exact H1|]. intros v. rewrite <- (H2 v) || (specialize (H2 v); cbn [In] in H2).
  unfold fan_verts. fold no_tri. rewrite H2. cbn [In]. intuition.
Qed.

Lemma sorted_unique : forall n s l1 l2, StronglySorted (keys_lt n s) l1 ->
  StronglySorted (keys_lt n s) l2 -> (forall v, In v l1 <-> In v l2) -> l1 = l2.
Proof.
  intros n s l1; induction l1 as [|a l1 IH]; intros l2 H1 H2 Hin.
  - destruct l2 as [|b l2]; [reflexivity|]. destruct (proj2 (Hin b) (or_introl eq_refl)).
  - destruct l2 as [|b l2]; [destruct (proj1 (Hin a) (or_introl eq_refl))|].
    inversion H1 as [|? ? S1 F1]; subst. inversion H2 as [|? ? S2 F2]; subst.
    rewrite Forall_forall in F1, F2. unfold keys_lt in F1, F2.
    assert (a = b).
    { destruct (proj1 (Hin a) (or_introl eq_refl)) as [E|Ha]; [congruence|].
      destruct (proj2 (Hin b) (or_introl eq_refl)) as [E|Hb]; [congruence|].
      specialize (F1 b Hb). specialize (F2 a Ha). lia. }
    subst b. f_equal. apply IH; [exact S1|exact S2|].
    intros v. specialize (Hin v). cbn [In] in Hin. split; intros Hv.
    + destruct (proj1 Hin (or_intror Hv)) as [E|E]; [|exact E].
      subst v. specialize (F1 a Hv). lia.
    + destruct (proj2 Hin (or_intror Hv)) as [E|E]; [|exact E].
      subst v. specialize (F2 a Hv). lia.
Qed.

(** ** The seed vertex *)

Definition picks (pick : list nat -> nat) : Prop := forall l, l <> [] -> In (pick l) l.

Lemma tri_has_in : forall t v, tri_has t v = true <-> In v (tri_verts t).
Proof.
  intros [[x y] z] v. cbn [tri_has tri_verts In].
  rewrite !orb_true_iff, !Nat.eqb_eq. intuition.
Qed.

Lemma seed_loop_spec : forall pick ts first, picks pick -> forall fan verts,
  In first verts ->
  (forall i, In i fan -> exists t, nth_error ts i = Some t /\ tri_has t first = true) ->
  exists v, seed_loop pick ts fan verts = Some v /\
    (v = first \/ In v verts /\ forall i, In i fan -> tri_has (nth i ts no_tri) v = true).
Proof.
  intros pick ts first Hp fan; induction fan as [|i fan IH]; intros verts Hv Hf; cbn [seed_loop].
  - destruct verts as [|x verts]; [destruct Hv|].
    exists (pick (x :: verts)). split; [reflexivity|]. right. split; [apply Hp; discriminate|].
    intros i [].
  - destruct (Hf i (or_introl eq_refl)) as (t & Ht & Htf). rewrite Ht.
    assert (Hv' : In first (filter (tri_has t) verts)) by (apply filter_In; auto).
    assert (Hf' : forall j, In j fan -> exists t, nth_error ts j = Some t /\ tri_has t first = true)
      by (intros j Hj; apply Hf; right; exact Hj).
    assert (Hrec : exists v, seed_loop pick ts fan (filter (tri_has t) verts) = Some v /\
              (v = first \/ In v verts /\ forall j, In j (i :: fan) -> tri_has (nth j ts no_tri) v = true)).
    { destruct (IH _ Hv' Hf') as (v & H1 & H2). exists v. split; [exact H1|].
      destruct H2 as [H2|[H2 H3]]; [left; exact H2|right].
      apply filter_In in H2. destruct H2 as [H2 H2'].
      split; [exact H2|]. intros j [<-|Hj]; [|apply H3, Hj].
      rewrite (nth_error_nth _ _ no_tri Ht). exact H2'. }
    destruct (filter (tri_has t) verts) as [|x [|y r]] eqn:E.
    + destruct Hv'.
    + exists x. split; [reflexivity|]. left. destruct Hv' as [Hv'|[]]. exact Hv'.
    + exact Hrec.
Qed.

(** ** One merged fan *)

Lemma merged_fan : forall pick ts n fan, picks pick -> Forall (sorted_tri n) ts ->
  GoodFan ts n fan -> 2 <= length fan ->
  exists seed, find_seed_vertex pick ts fan = Some seed /\
    let verts := fan_verts n seed ts fan in
    3 <= length verts /\
    exists P, Permutation P (map (fun i => nth i ts no_tri) fan) /\
      Forall2 same_tri (fan_tris verts) P.
Proof.
  intros pick ts n fan Hp Hs (first & mid & ms & Hfn & Hmn & Hmf & HC) Hlen.
  assert (Hfan : forall i, In i fan -> exists t, nth_error ts i = Some t /\
            tri_has t first = true /\ sorted_tri n t).
  { intros i Hi. destruct (chain_index _ _ _ _ _ _ _ HC Hi) as (a & b & _ & Hab & Hlt).
    destruct (nth_error ts i) as [t|] eqn:Et; [|apply nth_error_None in Et; lia].
    exists t. rewrite (nth_error_nth _ _ no_tri Et) in Hab. split; [reflexivity|]. split.
    - apply tri_has_in. apply tri_is_same in Hab. apply (same_tri_in _ _ _ _ _ Hab). auto.
    - rewrite Forall_forall in Hs. apply Hs. eapply nth_error_In; exact Et. }
  assert (Hsort : forall i, In i fan -> sorted_tri n (nth i ts no_tri)).
  { intros i Hi. destruct (Hfan i Hi) as (t & Ht & _ & H). rewrite (nth_error_nth _ _ no_tri Ht). exact H. }
  destruct fan as [|i0 fan]; [cbn in Hlen; lia|].
  destruct (Hfan i0 (or_introl eq_refl)) as (t0 & Ht0 & Hh0 & _).
  destruct (seed_loop_spec pick ts first Hp fan (tri_verts t0)) as (seed & Hseed & Hor).
  { apply tri_has_in. exact Hh0. }
  { intros i Hi. destruct (Hfan i (or_intror Hi)) as (t & H1 & H2 & _). exists t. auto. }
  exists seed. cbn [find_seed_vertex]. rewrite Ht0. split; [exact Hseed|].
  pose proof (chain_verts _ _ _ _ _ _ HC ltac:(discriminate)) as Hverts.
  pose proof (chain_sorted _ _ _ _ _ _ HC) as Hcs.
  pose proof (chain_bounds _ _ _ _ _ _ HC) as Hcb.
  pose proof (chain_tris _ _ _ _ _ _ HC) as Hct.
  destruct (fan_verts_spec n seed ts (i0 :: fan) Hsort) as (Hfs & Hfi).
  assert (Hin : forall v, In v (fan_verts n seed ts (i0 :: fan)) <-> In v (first :: mid :: ms)).
  { intros v. rewrite Hfi. apply Hverts. }
  assert (Hcase : seed = first \/
            exists l0 l1 i1, ms = [l0; l1] /\ fan = [i1] /\ seed = l0).
  { destruct Hor as [Hor|[Ho1 Ho2]]; [left; exact Hor|].
    inversion HC as [|? l0 ? t0' ? ms0 Hn0 Hi0 Hk0 Hl0 Hne0 HC0]; subst.
    assert (t0' = t0) by congruence. subst t0'.
    destruct fan as [|i1 fan]; [cbn in Hlen; lia|].
    inversion HC0 as [|? l1 ? t1 ? ms1 Hn1 Hi1 Hk1 Hl1 Hne1 HC1]; subst.
    apply tri_is_same in Hi0. apply tri_is_same in Hi1.
    apply (same_tri_in _ _ _ _ _ Hi0) in Ho1.
    pose proof (Ho2 i1 (or_introl eq_refl)) as Ho3.
    rewrite (nth_error_nth _ _ no_tri Hn1) in Ho3. apply tri_has_in in Ho3.
    apply (same_tri_in _ _ _ _ _ Hi1) in Ho3.
    destruct Ho3 as [Ho3|[Ho3|Ho3]]; [left; exact Ho3| |].
    - destruct fan as [|i2 fan].
      + inversion HC1; subst. right. exists l0, l1, i1. auto.
      + inversion HC1 as [|? l2 ? t2 ? ms2 Hn2 Hi2 Hk2 Hl2 Hne2 HC2]; subst.
        apply tri_is_same in Hi2.
        pose proof (Ho2 i2 (or_intror (or_introl eq_refl))) as Ho4.
        rewrite (nth_error_nth _ _ no_tri Hn2) in Ho4. apply tri_has_in in Ho4.
        apply (same_tri_in _ _ _ _ _ Hi2) in Ho4.
        destruct Ho4 as [Ho4|[Ho4|Ho4]]; [left; exact Ho4| |]; subst; lia.
    - exfalso. destruct Ho1 as [Ho1|[Ho1|Ho1]]; subst; try congruence; lia. }
  assert (Hself : forall v, v < n -> v <> first -> keys_lt n first first v).
  { intros v H1 H2. unfold keys_lt. keys. }
  destruct Hcase as [->|(l0 & l1 & i1 & -> & -> & ->)].
  - assert (E : fan_verts n first ts (i0 :: fan) = first :: mid :: ms).
    { apply (sorted_unique n first); [exact Hfs| |exact Hin].
      constructor; [exact Hcs|]. constructor; [apply Hself; assumption|].
      eapply Forall_impl; [|exact Hcb]. intros v [H1 H2]. apply Hself; assumption. }
    rewrite E. split.
    + inversion HC; subst. cbn [length]. lia.
    + exists (map (fun i => nth i ts no_tri) (i0 :: fan)). split; [reflexivity|exact Hct].
  - inversion Hcb as [|? ? [Hb0 Hb0'] Hcb']; subst.
    inversion Hcb' as [|? ? [Hb1 Hb1'] _]; subst.
    inversion Hcs as [|? ? Hcs' Hf0]; subst. inversion Hf0 as [|? ? Hk0 _]; subst.
    inversion Hcs' as [|? ? _ Hf1]; subst. inversion Hf1 as [|? ? Hk1 _]; subst.
    assert (E : fan_verts n l0 ts [i0; i1] = [l0; l1; first; mid]).
    { apply (sorted_unique n l0); [exact Hfs| |].
      - unfold keys_lt in *. repeat constructor; keys.
      - intros v. rewrite Hin. cbn [In]. intuition. }
    rewrite E. split; [cbn; lia|].
    inversion HC as [|? ? ? t0' ? ms0 Hn0 Hi0 _ _ _ HC0]; subst.
    inversion HC0 as [|? ? ? t1 ? ms1 Hn1 Hi1 _ _ _ HC1]; subst.
    exists [nth i1 ts no_tri; nth i0 ts no_tri]. split; [apply perm_swap|].
    rewrite (nth_error_nth _ _ no_tri Hn0), (nth_error_nth _ _ no_tri Hn1).
    apply tri_is_same in Hi0. apply tri_is_same in Hi1.
    cbn [fan_tris tl combine map].
    constructor; [apply same_tri_turn; exact Hi1|].
    constructor; [apply same_tri_turn, same_tri_turn; exact Hi0|constructor].
Qed.

(** ** Removing the triangles of a fan *)

Lemma remove_at_perm : forall A (l : list A) i d, i < length l ->
  Permutation l (nth i l d :: remove_at i l).
Proof.
  intros A l; induction l as [|x l IH]; intros [|i] d H; cbn [length] in H; try lia.
  - reflexivity.
  - cbn [nth remove_at]. rewrite perm_swap. constructor. apply IH. lia.
Qed.

Lemma remove_at_nth : forall A (l : list A) i j d, j < i -> nth j (remove_at i l) d = nth j l d.
Proof.
  intros A l; induction l as [|x l IH]; intros [|i] j d H; try lia; [reflexivity|].
  destruct j as [|j]; [reflexivity|]. cbn [remove_at nth]. apply IH. lia.
Qed.

Lemma remove_at_length : forall A (l : list A) i, i < length l ->
  length (remove_at i l) = length l - 1.
Proof.
  intros A l; induction l as [|x l IH]; intros [|i] H; cbn [length] in H; try lia;
    cbn [remove_at length]; [lia|]. rewrite IH by lia. lia.
Qed.

Lemma remove_all_perm : forall A d fan (l : list A), StronglySorted gt fan ->
  Forall (fun i => i < length l) fan ->
  Permutation l (map (fun i => nth i l d) fan ++ fold_left (fun l i => remove_at i l) fan l).
Proof.
  intros A d fan; induction fan as [|i fan IH]; intros l Hs Hb; cbn [map fold_left app].
  - reflexivity.
  - inversion Hs as [|? ? Hs' Hf]; subst. inversion Hb as [|? ? Hi Hb']; subst.
    rewrite (remove_at_perm A l i d Hi) at 1. constructor.
    rewrite (IH (remove_at i l) Hs') at 1.
    + apply Permutation_app_tail.
      rewrite (map_ext_in (fun j => nth j (remove_at i l) d) (fun j => nth j l d)); [reflexivity|].
      intros j Hj. rewrite Forall_forall in Hf. specialize (Hf j Hj). apply remove_at_nth. lia.
    + rewrite Forall_forall in *. intros j Hj. specialize (Hf j Hj).
      rewrite remove_at_length by assumption. lia.
Qed.

Lemma insert_desc_perm : forall x l, Permutation (insert_desc x l) (x :: l).
Proof.
  intros x l; induction l as [|y l IH]; cbn [insert_desc]; [reflexivity|].
  destruct (y <? x); [reflexivity|]. rewrite IH. apply perm_swap.
Qed.

Lemma sort_desc_perm : forall l, Permutation (sort_desc l) l.
Proof.
  induction l as [|x l IH]; [reflexivity|].
  cbn [sort_desc fold_right]. rewrite insert_desc_perm. constructor. exact IH.
Qed.

Lemma insert_desc_sorted : forall x l, ~ In x l -> StronglySorted gt l ->
  StronglySorted gt (insert_desc x l).
Proof.
  intros x l; induction l as [|y l IH]; intros Hn Hs; cbn [insert_desc].
  - repeat constructor.
  - inversion Hs as [|? ? Hs' Hf]; subst. destruct (y <? x) eqn:E.
    + apply Nat.ltb_lt in E. constructor; [exact Hs|]. constructor; [lia|].
      eapply Forall_impl; [|exact Hf]. intros; lia.
    + apply Nat.ltb_ge in E. cbn [In] in Hn.
      constructor; [apply IH; [tauto|exact Hs']|].
      rewrite Forall_forall in *. intros z Hz.
      apply (Permutation_in _ (insert_desc_perm x l)) in Hz.
      destruct Hz as [<-|Hz]; [|apply Hf, Hz].
      assert (y <> x) by tauto. lia.
Qed.

Lemma sort_desc_sorted : forall l, NoDup l -> StronglySorted gt (sort_desc l).
Proof.
  induction l as [|x l IH]; intros H; [constructor|].
  inversion H as [|? ? Hn Hd]; subst. cbn [sort_desc fold_right].
  apply insert_desc_sorted; [|apply IH, Hd].
  intro Hin. apply Hn. apply (Permutation_in _ (sort_desc_perm l)). exact Hin.
Qed.

(* ------------------------------------------------------------------ *)
(** * All triangles merged into fans *)

Lemma same_tri_map : forall g s t, same_tri s t -> same_tri (tri_map g s) (tri_map g t).
Proof.
  intros g [[a b] c] t H. unfold same_tri in *. cbn [tri_map].
  destruct H as [->|[->| ->]]; cbn [tri_map]; auto.
Qed.

Lemma fan_tris_map : forall g p, fan_tris (map g p) = map (tri_map g) (fan_tris p).
Proof.
  intros g [|v r]; [reflexivity|]. cbn [map fan_tris].
  induction r as [|a r IH]; [reflexivity|].
  destruct r as [|b r]; [reflexivity|].
  cbn [map tl combine] in *. rewrite IH. reflexivity.
Qed.

Lemma Forall2_map_both : forall A B (f : A -> A) (g : B -> B) (R R' : A -> B -> Prop) l1 l2,
  (forall a b, R a b -> R' (f a) (g b)) -> Forall2 R l1 l2 -> Forall2 R' (map f l1) (map g l2).
Proof. intros A B f g R R' l1 l2 H HF; induction HF; constructor; auto. Qed.

Lemma compress_spec : forall pick vs, picks pick -> forall fuel ts,
  length ts <= fuel -> Forall (sorted_tri (length vs)) ts ->
  exists frags P, compress_fans fuel pick vs ts = Some frags /\ Permutation P ts /\
    Forall2 same_tri (flat_map fan_tris frags)
      (map (tri_map (fun v => nth v vs 0)) P) /\
    Forall (fun p => 3 <= length p) frags /\
    (ts <> [] -> frags <> []).
Proof.
  intros pick vs Hp fuel; induction fuel as [|fuel IH]; intros ts Hl Hs.
  - destruct ts as [|t ts]; [|cbn in Hl; lia].
    exists [], []. cbn. repeat split; try constructor. congruence.
  - destruct (list_eq_dec (fun (a b : tri) => ltac:(decide equality; [apply Nat.eq_dec|decide equality; apply Nat.eq_dec])) ts []) as [->|Hne].
    { exists [], []. cbn. repeat split; try constructor. congruence. }
    destruct (best_fan_good ts (length vs) Hne Hs) as (fan & Hfan & Hfne & Hgood).
    assert (Hc : compress_fans (S fuel) pick vs ts =
      match fan with
      | [] => None
      | [_] => Some (map (fun t => map (fun v => nth v vs 0) (tri_verts t)) ts)
      | _ => match find_seed_vertex pick ts fan with
             | None => None
             | Some seed =>
                 let verts := fan_verts (length vs) seed ts fan in
                 if length verts <? 3 then None
                 else match compress_fans fuel pick vs
                              (fold_left (fun ts i => remove_at i ts) (sort_desc fan) ts) with
                      | None => None
                      | Some rest => Some (map (fun v => nth v vs 0) verts :: rest)
                      end
             end
      end).
    { destruct ts as [|t ts]; [congruence|]. cbn [compress_fans]. rewrite Hfan. reflexivity. }
    rewrite Hc. clear Hc.
    destruct fan as [|i0 fan]; [congruence|]. destruct fan as [|i1 fan].
    + exists (map (fun t => map (fun v => nth v vs 0) (tri_verts t)) ts), ts.
      split; [reflexivity|]. split; [reflexivity|]. split; [|split].
      * clear. induction ts as [|[[a b] c] ts IH]; [constructor|].
        cbn [map flat_map]. cbn [tri_verts map fan_tris tl combine app tri_map].
        constructor; [left; reflexivity|exact IH].
      * clear. apply Forall_forall. intros p Hp. apply in_map_iff in Hp.
        destruct Hp as ([[a b] c] & <- & _). cbn. lia.
      * intros _. destruct ts; [congruence|discriminate].
    + set (fan' := i0 :: i1 :: fan) in *.
      destruct (merged_fan pick ts (length vs) fan' Hp Hs Hgood) as (seed & Hseed & Hlen & P1 & HP1 & HF1).
      { unfold fan'. cbn. lia. }
      cbn zeta in Hlen, HF1.
      assert (Hdesc : Forall (fun i => i < length ts) (sort_desc fan') /\ StronglySorted gt (sort_desc fan')).
      { destruct Hgood as (first & mid & ms & _ & _ & _ & HC). split.
        - apply Forall_forall. intros i Hi. apply (Permutation_in _ (sort_desc_perm fan')) in Hi.
          destruct (chain_index _ _ _ _ _ _ _ HC Hi) as (a & b & _ & _ & H). exact H.
        - apply sort_desc_sorted. eapply chain_nodup; eassumption. }
      destruct Hdesc as [Hd1 Hd2].
      pose proof (remove_all_perm tri no_tri (sort_desc fan') ts Hd2 Hd1) as Hperm.
      set (ts' := fold_left (fun ts i => remove_at i ts) (sort_desc fan') ts) in *.
      assert (Hmap : Permutation (map (fun i => nth i ts no_tri) (sort_desc fan'))
                       (map (fun i => nth i ts no_tri) fan'))
        by (apply Permutation_map, sort_desc_perm).
      rewrite Hmap in Hperm.
      assert (Hs' : Forall (sorted_tri (length vs)) ts').
      { pose proof (Permutation_Forall Hperm Hs) as H. apply Forall_app in H. tauto. }
      destruct (IH ts') as (frags & P & Hcf & HP & HF2 & H3 & _).
      { apply Permutation_length in Hperm. rewrite app_length, map_length in Hperm.
        unfold fan' in Hperm. cbn [length] in Hperm. lia. }
      { exact Hs'. }
      rewrite Hseed. cbn zeta.
      replace (length (fan_verts (length vs) seed ts fan') <? 3) with false
        by (symmetry; apply Nat.ltb_ge; exact Hlen).
      rewrite Hcf.
      exists (map (fun v => nth v vs 0) (fan_verts (length vs) seed ts fan') :: frags), (P1 ++ P).
      split; [reflexivity|]. split; [|split; [|split]].
      * rewrite HP1, HP. symmetry. exact Hperm.
      * cbn [flat_map]. rewrite fan_tris_map, map_app. apply Forall2_app; [|exact HF2].
        eapply Forall2_map_both; [|exact HF1]. intros; apply same_tri_map; assumption.
      * constructor; [rewrite map_length; exact Hlen|exact H3].
      * intros _; discriminate.
Qed.

