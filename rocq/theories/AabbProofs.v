(* Proofs about AabbModel.v. *)
From Coq Require Import Reals List Bool Lra Lia.
From Verif Require Import AabbModel.
Import ListNotations.
Open Scope R_scope.

Lemma ltb_true a b : ltb a b = true <-> a < b.
Proof. unfold ltb. destruct (Rlt_dec a b); intuition discriminate. Qed.
Lemma ltb_false a b : ltb a b = false <-> b <= a.
Proof. unfold ltb. destruct (Rlt_dec a b); intuition (try discriminate; lra). Qed.
Lemma leb_true a b : leb a b = true <-> a <= b.
Proof. unfold leb. destruct (Rle_dec a b); intuition discriminate. Qed.
Lemma leb_false a b : leb a b = false <-> b < a.
Proof. unfold leb. destruct (Rle_dec a b); intuition (try discriminate; lra). Qed.
Ltac rb := repeat match goal with
  | H : ltb _ _ = true |- _ => apply ltb_true in H | H : ltb _ _ = false |- _ => apply ltb_false in H
  | H : leb _ _ = true |- _ => apply leb_true in H | H : leb _ _ = false |- _ => apply leb_false in H
  end.
Ltac mm := unfold Rmin, Rmax in *; repeat match goal with
  | |- context [Rle_dec ?a ?b] => destruct (Rle_dec a b) | H : context [Rle_dec ?a ?b] |- _ => destruct (Rle_dec a b)
  | |- context [Rlt_dec ?a ?b] => destruct (Rlt_dec a b) end; try lra.

(** A point in a box. *)
Definition in1 (x : R) (i : R * R) : Prop := fst i <= x <= snd i.
Definition inside (p : pt) (b : box) : Prop := Forall2 in1 p b.
Definition valid (b : box) : Prop := Forall (fun i => fst i <= snd i) b.
Definition sub (a b : box) : Prop := Forall2 (fun i j : R * R => fst j <= fst i /\ snd i <= snd j) a b.

Lemma F2_len {A B} (P : A -> B -> Prop) l m : Forall2 P l m -> length l = length m.
Proof. induction 1; cbn; congruence. Qed.
Lemma inside_len p b : inside p b -> length p = length b. Proof. apply F2_len. Qed.
Lemma sub_inside a b : sub a b -> forall p, inside p a -> inside p b.
Proof. induction 1 as [|i j a b H F IH]; intros p I; inversion I as [|x y p' q X Y]; subst; constructor; [unfold in1 in *; lra|apply IH; assumption]. Qed.
Lemma mins_inside b : valid b -> inside (mins b) b.
Proof. induction 1; constructor; [unfold in1; cbn; lra|auto]. Qed.
Lemma maxs_inside b : valid b -> inside (maxs b) b.
Proof. induction 1; constructor; [unfold in1; cbn; lra|auto]. Qed.
Lemma inside_sub a b : valid a -> inside (mins a) b -> inside (maxs a) b -> sub a b.
Proof.
  intros V. revert b. induction V as [|i a V F IH]; intros b I J; inversion I; inversion J; subst; constructor.
  - match goal with H : _ :: _ = _ :: _ |- _ => injection H as <- <- end. unfold in1 in *. lra.
  - match goal with H : _ :: _ = _ :: _ |- _ => injection H as <- <- end. apply IH; assumption.
Qed.

(** Points. *)
Definition ranged (MAX : R) (p : pt) : Prop := Forall (fun x => - MAX <= x <= MAX) p.
Lemma expand_self p : forall b, length p = length b -> inside p (expand_in_place b p).
Proof. induction p as [|x p IH]; intros [|i b] L; try discriminate; [constructor|]. cbn [expand_in_place zip]. constructor; [unfold in1; cbn; mm|]. apply IH. injection L; auto. Qed.
Lemma expand_more p : forall b, length p = length b -> sub b (expand_in_place b p).
Proof. induction p as [|x p IH]; intros [|i b] L; try discriminate; [constructor|]. cbn [expand_in_place zip]. constructor; [cbn; mm|]. apply IH. injection L; auto. Qed.
Lemma expand_least p : forall b c, sub b c -> inside p c -> sub (expand_in_place b p) c.
Proof. induction p as [|x p IH]; intros b c S I; inversion I; subst; inversion S; subst; cbn [expand_in_place zip]; constructor; [unfold in1 in *; cbn; mm|]. apply IH; assumption. Qed.
Lemma expand_len p : forall b, length p = length b -> length (expand_in_place b p) = length b.
Proof. induction p as [|x p IH]; intros [|i b] L; try discriminate; [reflexivity|]. cbn [expand_in_place zip length]. f_equal. apply IH. injection L; auto. Qed.
Lemma sub_trans a b c : sub a b -> sub b c -> sub a c.
Proof. intros S. revert c. induction S as [|i j a b H F IH]; intros c T; inversion T; subst; constructor; [lra|apply IH; assumption]. Qed.
Lemma sub_refl a : sub a a. Proof. induction a; constructor; [lra|auto]. Qed.
Lemma fold_points ps : forall b n, length b = n -> Forall (fun p => length p = n) ps ->
  length (fold_left expand_in_place ps b) = n /\ sub b (fold_left expand_in_place ps b) /\ (forall p, In p ps -> inside p (fold_left expand_in_place ps b)) /\
  (forall c, sub b c -> (forall p, In p ps -> inside p c) -> sub (fold_left expand_in_place ps b) c).
Proof.
  induction ps as [|p ps IH]; intros b n L F; cbn [fold_left].
  - refine (conj L (conj (sub_refl _) (conj _ _))); [intros p []|auto].
  - inversion F as [|x y F1 F2]; subst x y. destruct (IH (expand_in_place b p) n) as (A & B & C & D); [rewrite expand_len; congruence|exact F2|].
    refine (conj A (conj _ (conj _ _))).
    + eapply sub_trans; [|exact B]. apply expand_more. congruence.
    + intros q [<-|I]; [|auto]. eapply sub_inside; [exact B|]. apply expand_self. congruence.
    + intros c S I. apply D; [|intros q J; apply I; right; exact J]. apply expand_least; [exact S|]. apply I. left. reflexivity.
Qed.
Lemma empty_sub MAX p : forall c, ranged MAX p -> inside p c -> sub (empty MAX (length p)) c.
Proof. induction p as [|x p IH]; intros c Rg I; inversion I; subst; inversion Rg; subst; constructor; [unfold in1 in *; cbn; lra|]. apply IH; assumption. Qed.
Lemma of_points_spec MAX n ps : ps <> [] -> Forall (fun p => length p = n /\ ranged MAX p) ps ->
  length (of_points MAX n ps) = n /\ (forall p, In p ps -> inside p (of_points MAX n ps)) /\ (forall c, (forall p, In p ps -> inside p c) -> sub (of_points MAX n ps) c).
Proof.
  intros NE F. destruct (fold_points ps (empty MAX n) n) as (A & _ & B & C); [apply repeat_length|revert F; apply Forall_impl; tauto|].
  refine (conj A (conj B _)). intros c I. apply C; [|exact I]. destruct ps as [|p ps]; [congruence|]. inversion F as [|x y [L Rg] _]; subst. apply empty_sub; [exact Rg|]. apply I. left. reflexivity.
Qed.
Lemma inside_valid p b : inside p b -> valid b.
Proof. induction 1; constructor; [unfold in1 in *; lra|auto]. Qed.

(** Unions. *)
Lemma fix1_le a b : a <= b -> fix1 a b = (a, b).
Proof. intros H. unfold fix1. replace (ltb b a) with false; [reflexivity|]. symmetry. apply ltb_false. exact H. Qed.
Lemma union_eq a : forall b, union a b = union_in_place a b.
Proof.
  unfold union. induction a as [|i a IH]; intros [|j b]; try reflexivity. cbn [mins maxs map expand zip union_in_place]. f_equal; [|apply IH].
  rewrite (fix1_le (Rmin (fst i) (fst j)) (Rmax (snd i) (fst j))) by mm. cbn [fst snd]. apply fix1_le. mm.
Qed.
Lemma union_subs a : forall b, valid a -> valid b -> length a = length b -> sub a (union_in_place a b) /\ sub b (union_in_place a b).
Proof.
  induction a as [|i a IH]; intros [|j b] V W L; try discriminate; [split; constructor|]. inversion V; inversion W; subst. destruct (IH b) as [A B]; [assumption..|injection L; auto|].
  cbn [union_in_place zip]. split; constructor; auto; cbn; mm.
Qed.
Lemma union_least a : forall b c, valid b -> sub a c -> sub b c -> sub (union_in_place a b) c.
Proof.
  induction a as [|i a IH]; intros b c V A B; inversion A; subst; inversion B; subst; cbn [union_in_place zip]; constructor; inversion V; subst; [cbn; mm|]. apply IH; assumption.
Qed.
Lemma union_len a : forall b, length a = length b -> length (union_in_place a b) = length a.
Proof. induction a as [|i a IH]; intros [|j b] L; try discriminate; [reflexivity|]. cbn [union_in_place zip length]. f_equal. apply IH. injection L; auto. Qed.
Lemma union_valid a b : valid a -> valid b -> length a = length b -> valid (union_in_place a b).
Proof. intros V W L. apply (inside_valid (mins a)). apply (sub_inside a); [apply (proj1 (union_subs a b V W L))|]. apply mins_inside. exact V. Qed.

(** Tests. *)
Lemma contains_point_spec b : forall p, length p = length b -> (contains_point b p = true <-> inside p b).
Proof.
  unfold contains_point. induction b as [|i b IH]; intros [|x p] L; try discriminate; [split; [constructor|reflexivity]|]. cbn [zip forallb]. rewrite !andb_true_iff, !leb_true, IH by (injection L; auto). split.
  - intros [A B]. constructor; [exact A|exact B].
  - intros I. inversion I; subst. auto.
Qed.
Lemma contains_spec a : forall b, length a = length b -> (contains a b = true <-> sub b a).
Proof.
  unfold contains. induction a as [|i a IH]; intros [|j b] L; try discriminate; [split; [constructor|reflexivity]|]. cbn [zip forallb].
  rewrite andb_true_iff, IH, negb_true_iff, orb_false_iff, !ltb_false by (injection L; auto). split.
  - intros [[A B] C]. constructor; [lra|exact C].
  - intros I. inversion I; subst. split; [lra|assumption].
Qed.
Lemma disjoint_far eps a : forall b, disjoint eps a b = true -> forall p q, inside p a -> inside q b -> ~ Forall2 (fun x y => Rabs (x - y) <= eps) p q.
Proof.
  unfold disjoint. induction a as [|i a IH]; intros [|j b] D p q P Q F; try discriminate. cbn [zip existsb] in D. inversion P as [|x1 i1 p1 a1 HP IP]; inversion Q as [|x2 i2 q1 b1 HQ IQ]; subst. inversion F as [|y1 y2 l1 l2 HF IF]; subst.
  apply orb_true_iff in D. destruct D as [D|D]; [|eapply IH; eauto].
  unfold in1 in *. apply orb_true_iff in D. destruct D as [D|D]; rb; unfold Rabs in HF; destruct (Rcase_abs (x1 - x2)); lra.
Qed.
Lemma near_disjoint eps a : 0 <= eps -> forall b, valid a -> valid b -> length a = length b -> disjoint eps a b = false ->
  exists p q, inside p a /\ inside q b /\ Forall2 (fun x y => Rabs (x - y) <= eps) p q.
Proof.
  intros E. unfold disjoint. induction a as [|i a IH]; intros [|j b] V W L D; try discriminate; [exists [], []; repeat split; constructor|].
  cbn [zip existsb] in D. apply orb_false_iff in D. destruct D as [D1 D2]. apply orb_false_iff in D1. destruct D1 as [D0 D1]. rb. inversion V; inversion W; subst.
  destruct (IH b) as (p & q & P & Q & F); [assumption..|injection L; auto|exact D2|].
  assert (X : exists x y, in1 x i /\ in1 y j /\ Rabs (x - y) <= eps).
  { unfold in1. destruct (Rlt_dec (snd i) (fst j)); [|destruct (Rlt_dec (snd j) (fst i))].
    - exists (snd i), (fst j). repeat split; try lra. unfold Rabs. destruct (Rcase_abs _); lra.
    - exists (fst i), (snd j). repeat split; try lra. unfold Rabs. destruct (Rcase_abs _); lra.
    - exists (Rmax (fst i) (fst j)), (Rmax (fst i) (fst j)). replace (_ - _) with 0 by lra. rewrite Rabs_R0. repeat split; mm. }
  destruct X as (x & y & X1 & X2 & X3). exists (x :: p), (y :: q). repeat split; constructor; assumption.
Qed.
Definition strictly (p : pt) (b : box) : Prop := Forall2 (fun x i => fst i < x < snd i) p b.
Lemma touching_no a : forall b, disjoint_or_touching 0 a b = true -> forall p, strictly p a -> strictly p b -> False.
Proof.
  unfold disjoint_or_touching. induction a as [|i a IH]; intros [|j b] D p P Q; try discriminate. cbn [zip existsb] in D. inversion P; subst; inversion Q; subst. apply orb_true_iff in D. destruct D as [D|D]; [|eapply IH; eauto].
  apply orb_true_iff in D. destruct D; rb; lra.
Qed.
Lemma touching_yes a : forall b, Forall (fun i => fst i < snd i) a -> Forall (fun i => fst i < snd i) b -> length a = length b -> disjoint_or_touching 0 a b = false ->
  exists p, strictly p a /\ strictly p b.
Proof.
  unfold disjoint_or_touching. induction a as [|i a IH]; intros [|j b] V W L D; try discriminate; [exists []; split; constructor|].
  cbn [zip existsb] in D. apply orb_false_iff in D. destruct D as [D1 D2]. apply orb_false_iff in D1. destruct D1 as [D0 D1]. rb. inversion V; inversion W; subst.
  destruct (IH b) as (p & P & Q); [assumption..|injection L; auto|exact D2|]. exists ((Rmax (fst i) (fst j) + Rmin (snd i) (snd j)) / 2 :: p). split; constructor; auto; mm.
Qed.
Lemma intersect_spec a : forall b, length a = length b ->
  match intersect a b with
  | Some c => valid c /\ forall p, inside p c <-> inside p a /\ inside p b
  | None => forall p, ~ (inside p a /\ inside p b)
  end.
Proof.
  induction a as [|i a IH]; intros [|j b] L; try discriminate; cbn [intersect].
  - split; [constructor|]. intros p. split; [auto|tauto].
  - destruct (ltb _ _) eqn:X; rb.
    + intros p [A B]. inversion A; subst; inversion B; subst. unfold in1 in *. revert X. mm.
    + specialize (IH b). destruct (intersect a b) as [c|].
      * destruct IH as [V I]; [injection L; auto|]. unfold fix1. replace (ltb (Rmin (snd i) (snd j)) (Rmax (fst i) (fst j))) with false by (symmetry; apply ltb_false; exact X).
        split; [constructor; [exact X|exact V]|]. intros p. split.
        -- intros H. inversion H as [|x y p' q A B]; subst. apply I in B. destruct B. split; constructor; auto; unfold in1 in *; cbn [fst snd] in *; revert A; mm.
        -- intros [A B]. inversion A; subst; inversion B; subst. constructor; [unfold in1 in *; cbn [fst snd]; mm|]. apply I. auto.
      * intros p [A B]. inversion A; subst; inversion B; subst. eapply IH; [injection L; auto|split; eassumption].
Qed.

(** grow and translate. *)
Lemma grow_spec b : forall v, valid b -> length v = length b -> Forall (fun x => 0 <= x) v ->
  forall p, inside p (grow b v) <-> exists q, inside q b /\ Forall2 (fun xy z => Rabs (fst xy - snd xy) <= z) (combine p q) v /\ length p = length q.
Proof.
  unfold grow. induction b as [|i b IH]; intros [|e v] V L Pv p; try discriminate.
  - cbn. split; [intros H; inversion H; exists []; repeat split; constructor|]. intros (q & Q & _ & LL). inversion Q; subst. destruct p; [constructor|discriminate].
  - inversion V; subst. inversion Pv; subst. cbn [mins maxs map zip make]. unfold fix1 at 1. replace (ltb (snd i + e) (fst i - e)) with false by (symmetry; apply ltb_false; lra). split.
    + intros H. inversion H as [|x y p' c A B]; subst. apply (IH v) in B; [|assumption|injection L; auto|assumption]. destruct B as (q & Q & F & LL). unfold in1 in A. cbn [fst snd] in A.
      exists ((if Rlt_dec x (fst i) then fst i else if Rlt_dec (snd i) x then snd i else x) :: q). split; [|split; [|cbn; congruence]].
      * constructor; [|exact Q]. unfold in1. mm.
      * cbn [combine]. constructor; [|exact F]. cbn [fst snd]. unfold Rabs. destruct (Rlt_dec x (fst i)); [|destruct (Rlt_dec (snd i) x)]; destruct (Rcase_abs _); lra.
    + intros (q & Q & F & LL). inversion Q as [|y i' q' b' A B]; subst. destruct p as [|x p]; [discriminate|]. cbn [combine] in F. inversion F as [|xy z l m F1 F2]; subst. cbn [fst snd] in F1. constructor.
      * unfold in1 in *. cbn [fst snd]. unfold Rabs in F1. destruct (Rcase_abs _); lra.
      * apply (IH v); [assumption|injection L; auto|assumption|]. exists q'. split; [exact B|]. split; [exact F2|]. injection LL; auto.
Qed.
Lemma translate_spec b : forall v, valid b -> length v = length b -> forall p, inside p (translate b v) <-> exists q, inside q b /\ p = zip Rplus q v.
Proof.
  unfold translate. induction b as [|i b IH]; intros [|e v] V L p; try discriminate.
  - cbn. split; [intros H; inversion H; exists []; split; constructor|]. intros (q & Q & ->). inversion Q; subst. constructor.
  - inversion V; subst. cbn [mins maxs map zip make]. unfold fix1 at 1. replace (ltb (snd i + e) (fst i + e)) with false by (symmetry; apply ltb_false; lra). split.
    + intros H. inversion H as [|x y p' c A B]; subst. apply (IH v) in B; [|assumption|injection L; auto]. destruct B as (q & Q & ->). unfold in1 in A. cbn [fst snd] in A.
      exists (x - e :: q). split; [constructor; [unfold in1; lra|exact Q]|]. cbn [zip]. f_equal. lra.
    + intros (q & Q & ->). inversion Q as [|y i' q' b' A B]; subst. cbn [zip]. constructor; [unfold in1 in *; cbn [fst snd]; lra|]. apply (IH v); [assumption|injection L; auto|]. eauto.
Qed.
Lemma convert_valid b : valid b -> convert b = b.
Proof. induction 1 as [|i b V F IH]; [reflexivity|]. cbn [convert mins maxs map make zip]. unfold fix1. replace (ltb (snd i) (fst i)) with false by (symmetry; apply ltb_false; exact V). f_equal; [symmetry; apply surjective_pairing|exact IH]. Qed.

(** Trees. *)
Fixpoint below (t s : btree) : Prop := s = t \/ match t with BLeaf _ _ => False | BNode _ a b => below a s \/ below b s end.
Definition ok_pts (MAX : R) (ps : list pt) : Prop := Forall (fun p => length p = 3%nat /\ ranged MAX p) ps.
Fixpoint ok_tree (MAX : R) (t : tree) : Prop :=
  match t with Leaf ps => ok_pts MAX ps | Node old a b => length old = 3%nat /\ ok_tree MAX a /\ ok_tree MAX b end.
Definition par3 (parent : option box) : Prop := match parent with Some p => length p = 3%nat | None => True end.
Definition x_of (p : pt) : R := nth 0 p 0.
Definition fat (P : pt -> Prop) : Prop := exists p q, P p /\ P q /\ x_of p < x_of q.

Lemma make_same l : make l l = map (fun x => (x, x)) l.
Proof. unfold make. induction l as [|x l IH]; [reflexivity|]. cbn [zip map]. rewrite IH. f_equal. unfold fix1. replace (ltb x x) with false; [reflexivity|]. symmetry. apply ltb_false. lra. Qed.
Lemma settle_ok parent b b' : settle parent b = Some b' -> length b = 3%nat -> par3 parent -> no_volume b = true \/ valid b -> length b' = 3%nat /\ valid b'.
Proof.
  unfold settle. intros E L P V. destruct (no_volume b) eqn:N.
  - destruct parent as [p|]; [|discriminate]. injection E as <-. rewrite make_same. split; [rewrite map_length; unfold mins; rewrite map_length; exact P|].
    apply Forall_forall. intros i I. apply in_map_iff in I. destruct I as (x & <- & _). cbn. lra.
  - injection E as <-. split; [exact L|]. destruct V as [V|V]; [congruence|exact V].
Qed.
Lemma fat_volume b : fat (fun p => inside p b) -> length b = 3%nat -> no_volume b = false.
Proof.
  intros (p & q & P & Q & H) L. destruct b as [|[lo hi] b]; [discriminate|]. inversion P as [|x i p' b' A B]; subst. inversion Q as [|y i q' b' A' B']; subst. unfold in1, x_of in *. cbn in *. apply leb_false. lra.
Qed.
Lemma tree_bounds_ok MAX : 0 <= MAX -> forall t parent bt, tree_bounds MAX parent t = Some bt -> ok_tree MAX t -> par3 parent -> length (bounds bt) = 3%nat /\ valid (bounds bt).
Proof.
  intros M. induction t as [ps|old a IHa b IHb]; intros parent bt E O P; cbn [tree_bounds ok_tree] in *.
  - destruct (settle parent (of_points MAX 3 ps)) as [b|] eqn:S; [|discriminate]. injection E as <-. cbn [bounds]. eapply settle_ok; [exact S|..].
    + destruct (fold_points ps (empty MAX 3) 3) as (A & _); [reflexivity|revert O; apply Forall_impl; tauto|exact A].
    + exact P.
    + destruct ps as [|p ps]; [left; cbn; apply leb_true; lra|right]. apply (inside_valid p). apply of_points_spec; [discriminate|exact O|left; reflexivity].
  - destruct O as (O1 & O2 & O3). destruct (tree_bounds MAX (Some old) a) as [x|] eqn:A; [|discriminate]. destruct (tree_bounds MAX (Some old) b) as [y|] eqn:B; [|discriminate].
    destruct (settle parent _) as [bd|] eqn:S; [|discriminate]. injection E as <-. cbn [bounds]. destruct (IHa _ _ A O2 O1) as [La Va]. destruct (IHb _ _ B O3 O1) as [Lb Vb].
    rewrite union_eq in S. eapply settle_ok; [exact S|..].
    + rewrite union_len; congruence.
    + exact P.
    + right. apply union_valid; congruence.
Qed.
Lemma settle_fat parent b b' : settle parent b = Some b' -> length b = 3%nat -> fat (fun p => inside p b) -> b' = b.
Proof. unfold settle. intros E L F. rewrite (fat_volume b F L) in E. congruence. Qed.
(** A node with volume below it has the union of the bounds of its children. *)
Lemma tree_bounds_node MAX : 0 <= MAX -> forall t parent bt, tree_bounds MAX parent t = Some bt -> ok_tree MAX t -> par3 parent ->
  forall bd x y, below bt (BNode bd x y) -> fat (fun p => inside p (bounds x)) \/ fat (fun p => inside p (bounds y)) -> bd = union_in_place (bounds x) (bounds y) /\ sub (bounds x) bd /\ sub (bounds y) bd.
Proof.
  intros M. induction t as [ps|old a IHa b IHb]; intros parent bt E O P bd x y I F; cbn [tree_bounds ok_tree] in *.
  - destruct (settle parent (of_points MAX 3 ps)); [|discriminate]. injection E as <-. cbn [below] in I. destruct I as [I|[]]. discriminate.
  - destruct O as (O1 & O2 & O3). destruct (tree_bounds MAX (Some old) a) as [x'|] eqn:A; [|discriminate]. destruct (tree_bounds MAX (Some old) b) as [y'|] eqn:B; [|discriminate].
    destruct (settle parent _) as [bd'|] eqn:S; [|discriminate]. injection E as <-. cbn [below] in I. destruct I as [I|[I|I]]; [|exact (IHa _ _ A O2 O1 _ _ _ I F)|exact (IHb _ _ B O3 O1 _ _ _ I F)].
    injection I as -> -> ->. destruct (tree_bounds_ok MAX M _ _ _ A O2 O1) as [La Va]. destruct (tree_bounds_ok MAX M _ _ _ B O3 O1) as [Lb Vb].
    rewrite union_eq in S. assert (US := union_subs _ _ Va Vb ltac:(congruence)).
    apply settle_fat in S; [subst bd'; auto|rewrite union_len; congruence|].
    destruct F as [(p & q & F1 & F2 & F3)|(p & q & F1 & F2 & F3)]; exists p, q; refine (conj _ (conj _ F3)); eapply sub_inside; try eassumption; apply US.
Qed.
Lemma tree_bounds_leaf MAX : 0 <= MAX -> forall t parent bt, tree_bounds MAX parent t = Some bt -> ok_tree MAX t -> par3 parent ->
  forall bd ps, below bt (BLeaf bd ps) -> fat (fun p => In p ps) -> forall p, In p ps -> inside p bd /\ inside p (bounds bt).
Proof.
  intros M. induction t as [ps0|old a IHa b IHb]; intros parent bt E O P bd ps I F p J; cbn [tree_bounds ok_tree] in *.
  - destruct (settle parent (of_points MAX 3 ps0)) as [bd0|] eqn:S; [|discriminate]. injection E as <-. cbn [below] in I. destruct I as [I|[]]. injection I as <- <-. cbn [bounds].
    assert (NE : ps <> []) by (intros ->; destruct J). destruct (of_points_spec MAX 3 ps NE O) as (A & B & _).
    apply settle_fat in S; [subst bd; auto|exact A|]. destruct F as (p1 & q1 & F1 & F2 & F3). exists p1, q1. auto.
  - destruct O as (O1 & O2 & O3). assert (E' := E). destruct (tree_bounds MAX (Some old) a) as [x'|] eqn:A; [|discriminate]. destruct (tree_bounds MAX (Some old) b) as [y'|] eqn:B; [|discriminate].
    destruct (settle parent _) as [bd'|] eqn:S; [|discriminate]. injection E as <-. cbn [below bounds] in *. destruct I as [I|[I|I]]; [discriminate|..].
    + assert (IN := IHa _ _ A O2 O1 _ _ I F). split; [apply IN; exact J|].
      assert (FX : fat (fun q => inside q (bounds x'))) by (destruct F as (p1 & q1 & F1 & F2 & F3); exists p1, q1; refine (conj _ (conj _ F3)); apply IN; assumption).
      destruct (tree_bounds_node MAX M (Node old a b) parent (BNode bd' x' y')) with (bd := bd') (x := x') (y := y') as (_ & S1 & _); auto.
      * cbn [tree_bounds]. rewrite A, B, S. reflexivity.
      * cbn [ok_tree]. auto.
      * cbn [below]. auto.
      * eapply sub_inside; [exact S1|]. apply IN. exact J.
    + assert (IN := IHb _ _ B O3 O1 _ _ I F). split; [apply IN; exact J|].
      assert (FX : fat (fun q => inside q (bounds y'))) by (destruct F as (p1 & q1 & F1 & F2 & F3); exists p1, q1; refine (conj _ (conj _ F3)); apply IN; assumption).
      destruct (tree_bounds_node MAX M (Node old a b) parent (BNode bd' x' y')) with (bd := bd') (x := x') (y := y') as (_ & _ & S1); auto.
      * cbn [tree_bounds]. rewrite A, B, S. reflexivity.
      * cbn [ok_tree]. auto.
      * cbn [below]. auto.
      * eapply sub_inside; [exact S1|]. apply IN. exact J.
Qed.
(** Every node below comes from a node of the tree, so the same holds for it. *)
Lemma tree_bounds_below MAX : forall t parent bt, tree_bounds MAX parent t = Some bt -> ok_tree MAX t -> par3 parent ->
  forall s, below bt s -> exists t' parent', tree_bounds MAX parent' t' = Some s /\ ok_tree MAX t' /\ par3 parent'.
Proof.
  induction t as [ps|old a IHa b IHb]; intros parent bt E O P s I; assert (E' := E); assert (O' := O); cbn [tree_bounds ok_tree] in E, O.
  - destruct (settle parent _) as [bd|]; [|discriminate]. injection E as <-. cbn [below] in I. destruct I as [->|[]]. eauto.
  - destruct O as (O1 & O2 & O3). destruct (tree_bounds MAX (Some old) a) as [x'|] eqn:A; [|discriminate]. destruct (tree_bounds MAX (Some old) b) as [y'|] eqn:B; [|discriminate].
    destruct (settle parent _) as [bd'|] eqn:S; [|discriminate]. injection E as <-. cbn [below] in I. destruct I as [->|[I|I]]; [eauto| |].
    + eapply IHa; eauto.
    + eapply IHb; eauto.
Qed.

(** Vertices near an edge. *)
Fixpoint has_face (t : ftree) (f : bool * list nat) : Prop :=
  match t with FLeaf => False | FNode _ fs x y => In f fs \/ has_face x f \/ has_face y f end.
Fixpoint good (P : box -> bool * list nat -> Prop) (t : ftree) : Prop :=
  match t with FLeaf => True | FNode b fs x y => (forall f, has_face t f -> P b f) /\ good P x /\ good P y end.
Lemma face_verts_spec pos q fs v : In v (face_verts pos q fs) <-> exists vs, In (true, vs) fs /\ In v vs /\ contains_point q (pos v) = true.
Proof.
  unfold face_verts. rewrite in_flat_map. split.
  - intros ([[|] vs] & I & J); cbn in J; [|destruct J]. apply filter_In in J. exists vs. tauto.
  - intros (vs & I & J & K). exists (true, vs). split; [exact I|]. cbn. apply filter_In. auto.
Qed.
Lemma find_verts_sound pos q t v : In v (find_verts pos q t) -> exists vs, has_face t (true, vs) /\ In v vs /\ contains_point q (pos v) = true.
Proof.
  induction t as [|b fs x IHx y IHy]; cbn [find_verts has_face]; [intros []|]. destruct (disjoint 0 b q); [intros []|]. rewrite !in_app_iff. intros [I|[I|I]].
  - apply face_verts_spec in I. destruct I as (vs & A & B). eauto.
  - destruct (IHx I) as (vs & A & B). eauto.
  - destruct (IHy I) as (vs & A & B). eauto.
Qed.
Lemma find_verts_complete pos q t v vs : good (fun b f => In v (snd f) -> disjoint 0 b q = false) t ->
  has_face t (true, vs) -> In v vs -> contains_point q (pos v) = true -> In v (find_verts pos q t).
Proof.
  induction t as [|b fs x IHx y IHy]; cbn [find_verts]; [intros _ []|]. intros (G1 & G2 & G3) H I C. rewrite (G1 (true, vs) H I). cbn [has_face] in H. rewrite !in_app_iff. destruct H as [H|[H|H]].
  - left. apply face_verts_spec. eauto.
  - right. left. auto.
  - right. right. auto.
Qed.
