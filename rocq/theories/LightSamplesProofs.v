(* Proofs about light grid samples and lightmap filters. *)
From Coq Require Import List Arith NArith ZArith QArith Bool Lia Lqa Permutation.
Import ListNotations.
From Verif Require Import Base NumCastModel LightSamplesModel.
Local Open Scope nat_scope.

(* ---- light grid samples ---- *)

Definition mem (x : Z) (l : list Z) : bool := existsb (Z.eqb x) l.

Lemma mem_in : forall x l, mem x l = true <-> In x l.
Proof.
  intros x l. unfold mem. rewrite existsb_exists. split.
  - intros (y & H & E). apply Z.eqb_eq in E. subst. exact H.
  - intro H. exists x. split; [exact H|apply Z.eqb_refl].
Qed.

Definition in_order (l : list Z) : list Z := fold_left (fun acc x => if mem x acc then acc else acc ++ [x]) l [].
Definition total (st : Z) (l : list (Z * color)) : color :=
  fold_left (fun c p => if (fst p =? st)%Z then cadd c (snd p) else c) l (0, 0, 0)%Z.

Lemma in_order_snoc : forall l x, in_order (l ++ [x]) = if mem x (in_order l) then in_order l else in_order l ++ [x].
Proof. intros l x. unfold in_order. rewrite fold_left_app. reflexivity. Qed.

Lemma in_order_in : forall l x, In x (in_order l) <-> In x l.
Proof.
  intros l. induction l as [|y l IH] using rev_ind; intro x; [reflexivity|].
  rewrite in_order_snoc. destruct (mem y (in_order l)) eqn:E; rewrite in_app_iff.
  - rewrite IH. cbn. apply mem_in in E. rewrite IH in E. split; [tauto|]. intros [H|[->|[]]]; assumption.
  - rewrite in_app_iff, IH. reflexivity.
Qed.

Lemma in_order_nodup : forall l, NoDup (in_order l).
Proof.
  intro l. induction l as [|y l IH] using rev_ind; [constructor|]. rewrite in_order_snoc.
  destruct (mem y (in_order l)) eqn:E; [exact IH|].
  assert (Hn : ~ In y (in_order l)) by (rewrite <- mem_in; congruence).
  apply (Permutation_NoDup (l := y :: in_order l)); [apply Permutation_cons_append|]. constructor; assumption.
Qed.

Lemma total_snoc : forall st l p, total st (l ++ [p]) = if (fst p =? st)%Z then cadd (total st l) (snd p) else total st l.
Proof. intros st l p. unfold total. rewrite fold_left_app. reflexivity. Qed.

Lemma total_absent : forall st l, ~ In st (map fst l) -> total st l = (0, 0, 0)%Z.
Proof.
  intros st l. induction l as [|p l IH] using rev_ind; intro H; [reflexivity|]. rewrite total_snoc. rewrite map_app in H.
  destruct (fst p =? st)%Z eqn:E.
  - apply Z.eqb_eq in E. exfalso. apply H. apply in_or_app. right. left. exact E.
  - apply IH. intro Hc. apply H. apply in_or_app. left. exact Hc.
Qed.

Lemma cadd_0 : forall c, cadd (0, 0, 0)%Z c = c.
Proof. intros [[r g] b]. reflexivity. Qed.

Lemma cadd_assoc : forall a b c, cadd a (cadd b c) = cadd (cadd a b) c.
Proof. intros [[r g] b] [[r1 g1] b1] [[r2 g2] b2]. unfold cadd. cbn [fst snd]. f_equal; [f_equal|]; lia. Qed.

Definition gathered (l : list (Z * color)) : samples := map (fun st => (st, total st l)) (in_order (map fst l)).

Lemma gathered_styles : forall l, map fst (gathered l) = in_order (map fst l).
Proof. intro l. unfold gathered. rewrite map_map. cbn [fst]. apply map_id. Qed.

Lemma add_known_new : forall s free c st, ~ In st (map fst s) ->
  add_known s free c st = match free with O => None | S _ => Some (s ++ [(st, c)]) end.
Proof.
  induction s as [|[st' c'] s IH]; intros free c st H; [reflexivity|]. cbn [add_known map fst] in *.
  destruct (st' =? st)%Z eqn:E; [apply Z.eqb_eq in E; exfalso; apply H; left; exact E|].
  rewrite IH by (intro Hc; apply H; right; exact Hc). destruct free; reflexivity.
Qed.

Lemma add_known_old : forall s free c st, In st (map fst s) -> NoDup (map fst s) ->
  add_known s free c st = Some (map (fun p => if (fst p =? st)%Z then (fst p, cadd (snd p) c) else p) s).
Proof.
  induction s as [|[st' c'] s IH]; intros free c st H ND; [contradiction|]. cbn [add_known map fst snd] in *.
  inversion ND as [|x xs Hn ND' E]; subst. destruct (st' =? st)%Z eqn:E.
  - apply Z.eqb_eq in E. subst st'. do 2 f_equal. rewrite <- (map_id s) at 1. apply map_ext_in. intros p Hp.
    destruct (fst p =? st)%Z eqn:E2; [|reflexivity]. apply Z.eqb_eq in E2. exfalso. apply Hn. rewrite <- E2. apply in_map. exact Hp.
  - destruct H as [H|H]; [apply Z.eqb_neq in E; contradiction|]. rewrite (IH free c st H ND'). reflexivity.
Qed.

Lemma gathered_snoc : forall l p, length (in_order (map fst (l ++ [p]))) <= 4 -> add_sample (gathered l) (snd p) (fst p) = gathered (l ++ [p]).
Proof.
  intros l [st c] L. cbn [fst snd]. rewrite map_app in L. cbn [map fst] in L. rewrite in_order_snoc in L.
  assert (ND : NoDup (map fst (gathered l))) by (rewrite gathered_styles; apply in_order_nodup).
  assert (Lg : length (gathered l) = length (in_order (map fst l))) by (rewrite <- gathered_styles, map_length; reflexivity).
  change (gathered (l ++ [(st, c)])) with (map (fun x => (x, total x (l ++ [(st, c)]))) (in_order (map fst (l ++ [(st, c)])))).
  unfold add_sample. rewrite map_app. cbn [map fst]. rewrite in_order_snoc.
  destruct (mem st (in_order (map fst l))) eqn:E.
  - apply mem_in in E. rewrite add_known_old; [|rewrite gathered_styles; exact E|exact ND].
    unfold gathered. rewrite map_map. apply map_ext. intro x. cbn [fst snd]. rewrite total_snoc. cbn [fst snd].
    rewrite Z.eqb_sym. destruct (st =? x)%Z eqn:E2; [|reflexivity]. reflexivity.
  - assert (Hn : ~ In st (in_order (map fst l))) by (rewrite <- mem_in; congruence).
    rewrite add_known_new by (rewrite gathered_styles; exact Hn).
    rewrite app_length in L. cbn [length] in L. destruct (4 - length (gathered l)) as [|fr] eqn:Ef; [lia|].
    rewrite map_app. unfold gathered. cbn [map]. f_equal.
    + apply map_ext_in. intros x Hx. rewrite total_snoc. cbn [fst snd].
      destruct (st =? x)%Z eqn:E2; [|reflexivity]. apply Z.eqb_eq in E2. subst x. contradiction.
    + rewrite total_snoc. cbn [fst snd]. rewrite Z.eqb_refl. rewrite total_absent; [rewrite cadd_0; reflexivity|].
      rewrite <- in_order_in. exact Hn.
Qed.

Lemma in_order_grows : forall l m, length (in_order l) <= length (in_order (l ++ m)).
Proof.
  intros l m. induction m as [|x m IH] using rev_ind; [rewrite app_nil_r; lia|].
  rewrite app_assoc, in_order_snoc. destruct (mem x (in_order (l ++ m))); [exact IH|]. rewrite app_length. lia.
Qed.

Lemma add_all_gathered : forall l, length (in_order (map fst l)) <= 4 -> add_all l [] = gathered l.
Proof.
  intro l. induction l as [|p l IH] using rev_ind; intro L; [reflexivity|].
  unfold add_all. rewrite fold_left_app. cbn [fold_left]. fold (add_all l []).
  rewrite IH; [apply gathered_snoc; exact L|].
  rewrite map_app in L. pose proof (in_order_grows (map fst l) (map fst [p])). lia.
Qed.

Lemma in_order_app_idem : forall a b, in_order (a ++ in_order b) = in_order (a ++ b).
Proof.
  intros a b. induction b as [|x b IH] using rev_ind; [reflexivity|].
  rewrite in_order_snoc. rewrite app_assoc, in_order_snoc.
  destruct (mem x (in_order b)) eqn:E.
  - rewrite IH. apply mem_in in E. rewrite in_order_in in E.
    assert (H : mem x (in_order (a ++ b)) = true) by (apply mem_in, in_order_in, in_or_app; right; exact E). rewrite H. reflexivity.
  - rewrite app_assoc, in_order_snoc, IH. reflexivity.
Qed.

Lemma total_app : forall st a b, total st (a ++ b) = cadd (total st a) (total st b).
Proof.
  intros st a b. induction b as [|p b IH] using rev_ind.
  - rewrite app_nil_r. change (total st []) with (0, 0, 0)%Z. destruct (total st a) as [[r g] bb]. unfold cadd. cbn [fst snd]. f_equal; [f_equal|]; lia.
  - rewrite app_assoc, !total_snoc, IH. destruct (fst p =? st)%Z; [|reflexivity]. rewrite cadd_assoc. reflexivity.
Qed.

Lemma total_gathered : forall st l, total st (gathered l) = total st l.
Proof.
  intros st l. unfold gathered.
  assert (Gn : forall ks, NoDup ks -> total st (map (fun k => (k, total k l)) ks) = if mem st ks then total st l else (0, 0, 0)%Z).
  { induction ks as [|k ks IH] using rev_ind; intro ND; [reflexivity|].
    rewrite map_app. cbn [map]. rewrite total_snoc. cbn [fst snd].
    apply Permutation_NoDup with (l' := k :: ks) in ND; [|symmetry; apply Permutation_cons_append].
    inversion ND as [|y ys Hn ND' E]; subst. rewrite (IH ND'). unfold mem. rewrite existsb_app. cbn [existsb]. rewrite orb_false_r.
    rewrite (Z.eqb_sym st k). destruct (k =? st)%Z eqn:E.
    - apply Z.eqb_eq in E. subst k. rewrite orb_true_r. destruct (existsb (Z.eqb st) ks) eqn:E2; [|apply cadd_0].
      exfalso. apply Hn. apply mem_in. exact E2.
    - rewrite orb_false_r. reflexivity. }
  rewrite Gn by apply in_order_nodup. destruct (mem st (in_order (map fst l))) eqn:E; [reflexivity|].
  symmetry. apply total_absent. rewrite <- in_order_in, <- mem_in. congruence.
Qed.

Lemma merge_gathered : forall a b, length (in_order (map fst (a ++ b))) <= 4 -> merge (gathered a) (gathered b) = gathered (a ++ b).
Proof.
  intros a b L. unfold merge.
  assert (La : length (in_order (map fst a)) <= 4) by (rewrite map_app in L; pose proof (in_order_grows (map fst a) (map fst b)); lia).
  assert (Es : in_order (map fst (a ++ gathered b)) = in_order (map fst (a ++ b))).
  { rewrite !map_app, gathered_styles. apply in_order_app_idem. }
  assert (E : add_all (gathered b) (gathered a) = add_all (a ++ gathered b) []).
  { unfold add_all. rewrite fold_left_app. fold (add_all a []). rewrite (add_all_gathered a La). reflexivity. }
  rewrite E, add_all_gathered by (rewrite Es; exact L). unfold gathered at 1. rewrite Es. change (gathered (a ++ b)) with (map (fun x => (x, total x (a ++ b))) (in_order (map fst (a ++ b)))). apply map_ext. intro st.
  rewrite !total_app, total_gathered. reflexivity.
Qed.

Lemma dimmest_spec : forall s i best b j, dimmest s i best b = j ->
  (match b with None => s <> [] | Some _ => True end) ->
  (j = best /\ exists m, b = Some m /\ forall p, In p s -> (m <= bright (snd p))%Z) \/
  (i <= j < i + length s /\ exists p, nth_error s (j - i) = Some p /\ (forall q, In q s -> (bright (snd p) <= bright (snd q))%Z) /\
     (forall m, b = Some m -> (bright (snd p) < m)%Z)).
Proof.
  induction s as [|[st c] s IH]; intros i best b j H Hb; cbn [dimmest] in H.
  - destruct b as [m|]; [|congruence]. left. split; [congruence|]. exists m. split; [reflexivity|]. intros p [].
  - destruct (match b with None => true | Some m => (bright c <? m)%Z end) eqn:E.
    + destruct (IH (S i) i (Some (bright c)) j H I) as [(-> & m & Em & Hm)|(R & p & Ep & Hp & Hm)].
      * right. split; [cbn; lia|]. exists (st, c). rewrite Nat.sub_diag. split; [reflexivity|]. injection Em as <-. split.
        -- intros q [<-|Hq]; [cbn; lia|apply Hm; exact Hq].
        -- intros m ->. apply Z.ltb_lt in E. exact E.
      * right. split; [cbn; lia|]. exists p. replace (j - i) with (S (j - S i)) by lia. split; [exact Ep|].
        specialize (Hm _ eq_refl). split.
        -- intros q [<-|Hq]; [cbn [snd]; lia|apply Hp; exact Hq].
        -- intros m ->. apply Z.ltb_lt in E. lia.
    + destruct b as [m|]; [|discriminate]. apply Z.ltb_ge in E.
      destruct (IH (S i) best (Some m) j H I) as [(-> & m' & Em & Hm)|(R & p & Ep & Hp & Hm)].
      * left. split; [reflexivity|]. exists m. split; [reflexivity|]. injection Em as <-. intros p [<-|Hp]; [exact E|apply Hm; exact Hp].
      * right. split; [cbn; lia|]. exists p. replace (j - i) with (S (j - S i)) by lia. split; [exact Ep|].
        specialize (Hm _ eq_refl). split; [|intros m' Em; injection Em as <-; exact Hm].
        intros q [<-|Hq]; [cbn [snd]; lia|apply Hp; exact Hq].
Qed.

(* ---- reading kernels ---- *)

Lemma at_ok : forall im i p, nth_error im i = Some p -> at_ im i = ROk p.
Proof. intros im i p H. unfold at_. rewrite H. reflexivity. Qed.

Lemma reads_spec : forall im is, (forall i, In i is -> i < length im) ->
  exists l, reads im is = ROk l /\ length l = length is /\ map Some l = map (nth_error im) is.
Proof.
  intros im is. induction is as [|i is IH]; intro H; [exists []; repeat split; reflexivity|].
  destruct IH as (l & E & L & M); [intros j Hj; apply H; right; exact Hj|].
  destruct (nth_error im i) as [p|] eqn:Ei.
  - exists (p :: l). cbn [reads]. rewrite (at_ok _ _ _ Ei), E. cbn [rbind length map]. rewrite Ei, L, M. repeat split; reflexivity.
  - apply nth_error_None in Ei. specialize (H i (or_introl eq_refl)). lia.
Qed.

Lemma map_some_in : forall A (l : list A) (f : nat -> option A) is p, map Some l = map f is -> In p l <-> exists i, In i is /\ f i = Some p.
Proof.
  intros A l f is p. revert l. induction is as [|i is IH]; intros [|x l] H; try discriminate.
  - split; [intros []|intros (i & [] & _)].
  - cbn [map] in H. injection H as H1 H2. cbn [In]. rewrite (IH l H2). split.
    + intros [<-|(j & Hj & E)]; [exists i; split; [left; reflexivity|congruence]|exists j; split; [right; exact Hj|exact E]].
    + intros (j & [<-|Hj] & E); [left; congruence|right; exists j; tauto].
Qed.

Lemma reads_in : forall im is l p, (forall i, In i is -> i < length im) -> reads im is = ROk l ->
  (In p l <-> exists i, In i is /\ nth_error im i = Some p).
Proof.
  intros im is l p H E. destruct (reads_spec im is H) as (l' & E' & _ & M). assert (l' = l) by congruence. subst l'.
  apply map_some_in. exact M.
Qed.

Lemma opaque_in : forall l c, In c (opaque l) <-> In (c, true) l.
Proof.
  intros l c. unfold opaque. rewrite in_map_iff. split.
  - intros ([c' b] & E & H). apply filter_In in H. cbn in E, H. destruct H as [H ->]. subst. exact H.
  - intro H. exists (c, true). split; [reflexivity|]. apply filter_In. split; [exact H|reflexivity].
Qed.

(* ---- means ---- *)

Local Open Scope Q_scope.

Lemma sumQ_bounds : forall lo hi l, (forall c, In c l -> lo <= c <= hi) ->
  inject_Z (Z.of_nat (length l)) * lo <= sumQ l <= inject_Z (Z.of_nat (length l)) * hi.
Proof.
  intros lo hi l. induction l as [|c l IH]; intro H.
  - cbn [length sumQ fold_right]. change (inject_Z (Z.of_nat 0)) with 0. split; lra.
  - assert (E : inject_Z (Z.of_nat (length (c :: l))) == 1 + inject_Z (Z.of_nat (length l))).
    { cbn [length]. rewrite Nat2Z.inj_succ. unfold Z.succ. rewrite inject_Z_plus. change (inject_Z 1) with 1. ring. }
    destruct IH as [I1 I2]; [intros d Hd; apply H; right; exact Hd|].
    destruct (H c (or_introl eq_refl)) as [H1 H2]. rewrite !E. cbn [sumQ fold_right]. fold (sumQ l). split; lra.
Qed.

Lemma length_pos : forall A (l : list A), l <> [] -> 0 < inject_Z (Z.of_nat (length l)).
Proof.
  intros A l H. destruct l as [|x l]; [congruence|]. change 0 with (inject_Z 0). rewrite <- Zlt_Qlt. cbn [length]. lia.
Qed.

Lemma mean_bounds : forall lo hi l, l <> [] -> (forall c, In c l -> lo <= c <= hi) -> lo <= mean l <= hi.
Proof.
  intros lo hi l Hn H. unfold mean. pose proof (length_pos _ _ Hn) as P.
  destruct (sumQ_bounds lo hi l H) as [H1 H2]. split.
  - apply Qle_shift_div_l; [exact P|]. lra.
  - apply Qle_shift_div_r; [exact P|]. lra.
Qed.

Local Open Scope nat_scope.

(* ---- flood fill ---- *)

Definition grows (p p' : px) : Prop := (snd p = true -> p' = p) /\ (snd p' = false -> p' = p).
Definition ext (im im' : image) : Prop := Forall2 grows im im'.
Definition clear_count (im : image) : nat := length (filter (fun p => negb (snd p)) im).

Lemma ext_refl : forall im, ext im im.
Proof. induction im as [|p im IH]; constructor; [split; reflexivity|exact IH]. Qed.

Lemma ext_trans : forall a b c, ext a b -> ext b c -> ext a c.
Proof.
  intros a b c H. revert c. induction H as [|p q a b [H1 H2] F IH]; intros c Hc; inversion Hc as [|q' r b' c' [K1 K2] F' E1 E2]; subst; constructor.
  - split.
    + intro Hp. rewrite (H1 Hp) in K1. apply K1. exact Hp.
    + intro Hr. specialize (K2 Hr). subst r. apply H2. exact Hr.
  - apply IH. exact F'.
Qed.

Lemma ext_length : forall a b, ext a b -> length b = length a.
Proof. intros a b H. induction H; cbn; lia. Qed.

Lemma ext_count : forall a b, ext a b -> clear_count b <= clear_count a /\ (clear_count b = clear_count a -> b = a).
Proof.
  intros a b H. induction H as [|[c o] [c' o'] a b [H1 H2] F [IH1 IH2]]; [split; [lia|reflexivity]|].
  unfold clear_count in *. cbn [filter snd] in *. destruct o.
  - specialize (H1 eq_refl). injection H1 as -> ->. cbn [negb]. split; [exact IH1|]. intro E. rewrite (IH2 E). reflexivity.
  - destruct o'; cbn [negb length].
    + split; [lia|]. intro E. exfalso. lia.
    + specialize (H2 eq_refl). injection H2 as <-. split; [lia|]. intro E. rewrite IH2 by lia. reflexivity.
Qed.

Lemma ext_nth : forall a b i p, ext a b -> nth_error a i = Some p -> exists p', nth_error b i = Some p' /\ grows p p'.
Proof.
  intros a b i p H. revert i. induction H as [|q q' a b G F IH]; intros i E; [destruct i; discriminate|].
  destruct i as [|i]; cbn [nth_error] in *; [injection E as <-; exists q'; tauto|apply IH; exact E].
Qed.

Definition trans_at (im : image) (i : nat) : Prop := exists c, nth_error im i = Some (c, false).
Definition no_opaque (im : image) (is : list nat) : Prop := forall i c, In i is -> nth_error im i <> Some (c, true).

Lemma put_ext : forall im i c v, nth_error im i = Some (c, false) -> ext im (put im i (v, true)).
Proof.
  intros im. induction im as [|p im IH]; intros i c v H; [destruct i; discriminate|].
  destruct i as [|i]; cbn [nth_error] in H.
  - injection H as ->. unfold put. cbn [upd]. constructor; [split; discriminate|apply ext_refl].
  - specialize (IH i c v H). unfold put in *. cbn [upd]. destruct (upd_some _ im i (v, true)) as [l' E].
    { apply nth_error_Some. congruence. }
    rewrite E in *. constructor; [split; reflexivity|exact IH].
Qed.

Lemma put_nth : forall A (l : list A) i x j, i < length l -> nth_error (put l i x) j = if j =? i then Some x else nth_error l j.
Proof.
  intros A l i x j H. unfold put. destruct (upd_some _ l i x H) as [l' E]. rewrite E. apply upd_nth_error. exact E.
Qed.

Lemma around_lt : forall n x y, x < n -> In y (around n x) -> y < n.
Proof.
  intros n x y H Hy. unfold around in Hy. apply in_app_or in Hy. destruct Hy as [Hy|Hy].
  - destruct (x =? 0) eqn:E; [contradiction|]. destruct Hy as [<-|[]]. lia.
  - apply in_app_or in Hy. destruct Hy as [[<-|[]]|Hy]; [exact H|].
    destruct (x + 1 <? n) eqn:E; [|contradiction]. apply Nat.ltb_lt in E. destruct Hy as [<-|[]]. exact E.
Qed.

Lemma around_spec : forall n x y, x < n -> y < n -> (In y (around n x) <-> x <= y + 1 /\ y <= x + 1).
Proof.
  intros n x y Hx Hy. unfold around. rewrite !in_app_iff. cbn [In]. split.
  - intros [H|[[H|[]]|H]]; [destruct (x =? 0) eqn:E; [contradiction|]; apply Nat.eqb_neq in E; destruct H as [H|[]]; lia|lia|].
    destruct (x + 1 <? n); [|contradiction]. destruct H as [H|[]]. lia.
  - intros [H1 H2]. destruct (Nat.lt_trichotomy y x) as [H|[H|H]].
    + left. destruct (x =? 0) eqn:E; [apply Nat.eqb_eq in E; lia|]. left. lia.
    + right. left. left. lia.
    + right. right. destruct (x + 1 <? n) eqn:E; [left; lia|]. apply Nat.ltb_ge in E. lia.
Qed.

Lemma idx_lt : forall w h x y, x < w -> y < h -> y * w + x < w * h.
Proof. intros w h x y Hx Hy. nia. Qed.

Lemma neighbours_lt : forall w h x y i, x < w -> y < h -> In i (neighbours w h x y) -> i < w * h.
Proof.
  intros w h x y i Hx Hy H. unfold neighbours in H. apply in_flat_map in H. destruct H as (y1 & H1 & H).
  apply in_map_iff in H. destruct H as (x1 & <- & H2). apply idx_lt; [apply (around_lt w x); assumption|apply (around_lt h y); assumption].
Qed.

Lemma fill_px_spec : forall w h im x y, length im = w * h -> x < w -> y < h ->
  exists im' k, fill_px w h im x y = ROk (im', k) /\ ext im im' /\
    (forall j, j <> y * w + x -> nth_error im' j = nth_error im j) /\
    ((k = 0 /\ ~ trans_at im' (y * w + x)) \/ (k = 1 /\ im' = im /\ trans_at im' (y * w + x))) /\
    (im' = im -> trans_at im (y * w + x) -> no_opaque im (neighbours w h x y)) /\
    (forall lo hi, (forall i c, nth_error im i = Some (c, true) -> (lo <= c <= hi)%Q) ->
                   (forall i c, nth_error im' i = Some (c, true) -> (lo <= c <= hi)%Q)).
Proof.
  intros w h im x y L Hx Hy. pose proof (idx_lt w h x y Hx Hy) as Hi. set (i := y * w + x) in *.
  destruct (nth_error im i) as [[c o]|] eqn:Ei; [|apply nth_error_None in Ei; lia].
  unfold fill_px. fold i. rewrite (at_ok _ _ _ Ei). cbn [rbind snd].
  destruct o.
  - exists im, 0. split; [reflexivity|]. split; [apply ext_refl|]. split; [reflexivity|].
    split; [left; split; [reflexivity|]; intros [c' H]; congruence|]. split; [intros _ [c' H]; congruence|]. tauto.
  - destruct (reads_spec im (neighbours w h x y)) as (l & El & Ll & Ml).
    { intros j Hj. rewrite L. apply (neighbours_lt w h x y); assumption. }
    rewrite El. cbn [rbind].
    assert (Op : forall v, In v (opaque l) <-> exists j, In j (neighbours w h x y) /\ nth_error im j = Some (v, true)).
    { intro v. rewrite opaque_in. apply map_some_in. exact Ml. }
    destruct (opaque l) as [|v0 vs] eqn:Eo.
    + exists im, 1. split; [reflexivity|]. split; [apply ext_refl|]. split; [reflexivity|].
      split; [right; split; [reflexivity|]; split; [reflexivity|]; exists c; exact Ei|]. split; [|tauto].
      intros _ _ j v Hj Ej. assert (H : In v []) by (apply Op; exists j; tauto). contradiction.
    + rewrite <- Eo in *. exists (put im i (mean (opaque l), true)), 0.
      assert (Li : i < length im) by lia.
      split; [reflexivity|]. split; [apply put_ext with (c := c); exact Ei|].
      split; [intros j Hj; rewrite put_nth by exact Li; apply Nat.eqb_neq in Hj; rewrite Hj; reflexivity|].
      split; [left; split; [reflexivity|]; intros [c' H]; rewrite put_nth, Nat.eqb_refl in H by exact Li; congruence|].
      split.
      * intros E _. exfalso. assert (Hn : nth_error (put im i (mean (opaque l), true)) i = nth_error im i) by (rewrite E; reflexivity).
        rewrite put_nth, Nat.eqb_refl in Hn by exact Li. congruence.
      * intros lo hi B j v Hj. rewrite put_nth in Hj by exact Li. destruct (j =? i) eqn:Ej; [|apply (B j); exact Hj].
        injection Hj as <-. apply mean_bounds; [rewrite Eo; discriminate|].
        intros d Hd. apply Op in Hd. destruct Hd as (j' & _ & Ej'). apply (B j'). exact Ej'.
Qed.

Definition idx (w : nat) (p : nat * nat) : nat := snd p * w + fst p.

Definition count_in (im : image) (w : nat) (ps : list (nat * nat)) : nat :=
  length (filter (fun p => match nth_error im (idx w p) with Some (_, false) => true | _ => false end) ps).

Lemma fill_pass_spec : forall w h ps im, length im = w * h -> (forall p, In p ps -> fst p < w /\ snd p < h) -> NoDup (map (idx w) ps) ->
  exists im' k, fill_pass w h ps im = ROk (im', k) /\ ext im im' /\
    (forall j, ~ In j (map (idx w) ps) -> nth_error im' j = nth_error im j) /\
    k = count_in im' w ps /\
    (im' = im -> forall p, In p ps -> trans_at im (idx w p) -> no_opaque im (neighbours w h (fst p) (snd p))) /\
    (forall lo hi, (forall i c, nth_error im i = Some (c, true) -> (lo <= c <= hi)%Q) ->
                   (forall i c, nth_error im' i = Some (c, true) -> (lo <= c <= hi)%Q)).
Proof.
  intros w h ps. induction ps as [|[x y] ps IH]; intros im L R ND.
  - exists im, 0. cbn. split; [reflexivity|]. split; [apply ext_refl|]. split; [reflexivity|]. split; [reflexivity|]. split; [intros _ p []|tauto].
  - destruct (R (x, y) (or_introl eq_refl)) as [Hx Hy]. cbn [fst snd] in Hx, Hy.
    cbn [map] in ND. inversion ND as [|i0 is Hn ND' E0]; subst.
    destruct (fill_px_spec w h im x y L Hx Hy) as (im1 & k1 & E1 & X1 & O1 & K1 & N1 & B1).
    destruct (IH im1) as (im2 & k2 & E2 & X2 & O2 & K2 & N2 & B2).
    { rewrite (ext_length _ _ X1). exact L. }
    { intros p Hp. apply R. right. exact Hp. }
    { exact ND'. }
    exists im2, (k1 + k2). cbn [fill_pass]. rewrite E1. cbn [rbind fst snd]. rewrite E2. cbn [rbind fst snd].
    split; [reflexivity|]. split; [eapply ext_trans; eassumption|].
    split.
    { intros j Hj. cbn [map] in Hj. rewrite O2 by (intro Hc; apply Hj; right; exact Hc). apply O1. intro Hc. apply Hj. left. subst j. reflexivity. }
    split.
    { unfold count_in. cbn [filter]. change (idx w (x, y)) with (y * w + x) in *. rewrite (O2 _ Hn).
      fold (count_in im2 w ps). destruct K1 as [[-> Hk]|(-> & -> & [c Hc])].
      - destruct (nth_error im1 (y * w + x)) as [[c [|]]|] eqn:E; [exact K2| |exact K2].
        exfalso. apply Hk. exists c. exact E.
      - rewrite Hc. cbn [length]. rewrite K2. reflexivity. }
    split.
    { intros E. subst im2.
      assert (Ei : im1 = im).
      { destruct (ext_count _ _ X1) as [C1 C1']. destruct (ext_count _ _ X2) as [C2 _]. apply C1'. lia. }
      subst im1. intros p [<-|Hp]; [apply N1; reflexivity|apply N2; [reflexivity|exact Hp]]. }
    intros lo hi B. apply B2. apply B1. exact B.
Qed.

Lemma coords_in : forall w h p, In p (coords w h) <-> fst p < w /\ snd p < h.
Proof.
  intros w h [x y]. unfold coords. rewrite in_flat_map. cbn [fst snd]. split.
  - intros (y1 & H1 & H). apply in_seq in H1. apply in_map_iff in H. destruct H as (x1 & E & H). injection E as <- <-. apply in_seq in H. lia.
  - intros [Hx Hy]. exists y. split; [apply in_seq; lia|]. apply in_map_iff. exists x. split; [reflexivity|]. apply in_seq. lia.
Qed.

Lemma coords_idx : forall w h, map (idx w) (coords w h) = seq 0 (w * h).
Proof.
  intros w h. induction h as [|h IH]; [rewrite Nat.mul_0_r; reflexivity|].
  assert (E : coords w (S h) = coords w h ++ map (fun x => (x, h)) (seq 0 w)).
  { unfold coords. rewrite seq_S, flat_map_app. cbn [flat_map Nat.add]. rewrite app_nil_r. reflexivity. }
  rewrite E, map_app, IH, map_map. rewrite Nat.mul_succ_r, seq_app. f_equal.
  cbn [Nat.add]. unfold idx. cbn [fst snd]. rewrite (Nat.mul_comm h w). generalize (w * h). intro o.
  clear. assert (G : forall n s, map (fun x => o + x) (seq s n) = seq (o + s) n).
  { induction n as [|n IH]; intro s; [reflexivity|]. cbn [seq map]. rewrite IH, Nat.add_succ_r. reflexivity. }
  rewrite G, Nat.add_0_r. reflexivity.
Qed.

Lemma filter_all : forall A (f : A -> bool) l, length (filter f l) = length l -> forall x, In x l -> f x = true.
Proof.
  intros A f l. induction l as [|a l IH]; intros H x Hx; [contradiction|]. cbn [filter] in H.
  assert (Lf : forall m, length (filter f m) <= length m).
  { induction m as [|b m IHm]; [cbn; lia|]. cbn [filter]. destruct (f b); cbn; lia. }
  destruct (f a) eqn:E; cbn [length] in H.
  - destruct Hx as [<-|Hx]; [exact E|apply IH; [lia|exact Hx]].
  - specialize (Lf l). lia.
Qed.

Lemma filter_none : forall A (f : A -> bool) l, length (filter f l) = 0 -> forall x, In x l -> f x = false.
Proof.
  intros A f l H x Hx. destruct (f x) eqn:E; [|reflexivity]. assert (Hi : In x (filter f l)) by (apply filter_In; tauto).
  destruct (filter f l); [contradiction|discriminate].
Qed.

(** Transparent pixels without opaque neighbours: then all are transparent. *)
Lemma closed_all : forall w h im, length im = w * h ->
  (forall x y, x < w -> y < h -> trans_at im (y * w + x) -> no_opaque im (neighbours w h x y)) ->
  forall x y, x < w -> y < h -> trans_at im (y * w + x) -> forall x' y', x' < w -> y' < h -> trans_at im (y' * w + x').
Proof.
  intros w h im L C.
  assert (St : forall x y x' y', x < w -> y < h -> x' < w -> y' < h -> x <= x' + 1 -> x' <= x + 1 -> y <= y' + 1 -> y' <= y + 1 ->
     trans_at im (y * w + x) -> trans_at im (y' * w + x')).
  { intros x y x' y' Hx Hy Hx' Hy' A1 A2 A3 A4 T. pose proof (idx_lt w h x' y' Hx' Hy') as Hi.
    destruct (nth_error im (y' * w + x')) as [[c [|]]|] eqn:E.
    - exfalso. apply (C x y Hx Hy T (y' * w + x') c); [|exact E].
      unfold neighbours. apply in_flat_map. exists y'. split; [apply around_spec; lia|].
      apply in_map_iff. exists x'. split; [reflexivity|]. apply around_spec; lia.
    - exists c. exact E.
    - apply nth_error_None in E. lia. }
  assert (Up : forall d x y, x + d < w -> y < h -> trans_at im (y * w + x) -> trans_at im (y * w + (x + d))).
  { induction d as [|d IH]; intros x y Hx Hy T; [rewrite Nat.add_0_r; exact T|].
    replace (x + S d) with (S x + d) by lia. apply IH; [lia|exact Hy|]. apply (St x y); try lia. exact T. }
  assert (Dn : forall d x y, x + d < w -> y < h -> trans_at im (y * w + (x + d)) -> trans_at im (y * w + x)).
  { induction d as [|d IH]; intros x y Hx Hy T; [rewrite Nat.add_0_r in T; exact T|].
    apply (St (S x) y); try lia. apply IH; [lia|exact Hy|]. replace (S x + d) with (x + S d) by lia. exact T. }
  assert (Uy : forall d x y, x < w -> y + d < h -> trans_at im (y * w + x) -> trans_at im ((y + d) * w + x)).
  { induction d as [|d IH]; intros x y Hx Hy T; [rewrite Nat.add_0_r; exact T|].
    replace (y + S d) with (S y + d) by lia. apply IH; [exact Hx|lia|]. apply (St x y); try lia. exact T. }
  assert (Dy : forall d x y, x < w -> y + d < h -> trans_at im ((y + d) * w + x) -> trans_at im (y * w + x)).
  { induction d as [|d IH]; intros x y Hx Hy T; [rewrite Nat.add_0_r in T; exact T|].
    apply (St x (S y)); try lia. apply IH; [exact Hx|lia|]. replace (S y + d) with (y + S d) by lia. exact T. }
  intros x y Hx Hy T x' y' Hx' Hy'.
  assert (T1 : trans_at im (y * w + x')).
  { destruct (Nat.le_gt_cases x x') as [H|H].
    - replace x' with (x + (x' - x)) by lia. apply Up; [lia|exact Hy|exact T].
    - apply (Dn (x - x')); [lia|exact Hy|]. replace (x' + (x - x')) with x by lia. exact T. }
  destruct (Nat.le_gt_cases y y') as [H|H].
  - replace y' with (y + (y' - y)) by lia. apply Uy; [exact Hx'|lia|exact T1].
  - apply (Dy (y - y')); [exact Hx'|lia|]. replace (y' + (y - y')) with y by lia. exact T1.
Qed.

Lemma idx_split : forall w h i, i < w * h -> exists x y, x < w /\ y < h /\ i = y * w + x.
Proof.
  intros w h i H. assert (Hw : w <> 0) by (intro E; subst; cbn in H; lia).
  exists (i mod w), (i / w). split; [apply Nat.mod_upper_bound; exact Hw|]. split.
  - apply Nat.div_lt_upper_bound; [exact Hw|exact H].
  - rewrite (Nat.div_mod i w Hw) at 1. lia.
Qed.

Lemma fill_loop_spec : forall w h fuel im, length im = w * h -> clear_count im < fuel ->
  exists im', fill_loop w h (w * h) fuel im = Some (ROk im') /\ ext im im' /\
    ((forall i, i < w * h -> ~ trans_at im' i) \/ (im' = im /\ forall i, i < w * h -> trans_at im i)) /\
    (forall lo hi, (forall i c, nth_error im i = Some (c, true) -> (lo <= c <= hi)%Q) ->
                   (forall i c, nth_error im' i = Some (c, true) -> (lo <= c <= hi)%Q)).
Proof.
  intros w h fuel. induction fuel as [|fuel IH]; intros im L C; [lia|].
  destruct (fill_pass_spec w h (coords w h) im L) as (im1 & k & E1 & X1 & _ & K1 & N1 & B1).
  { intros p Hp. apply coords_in. exact Hp. }
  { rewrite coords_idx. apply seq_NoDup. }
  cbn [fill_loop]. rewrite E1.
  assert (Lc : length (coords w h) = w * h) by (rewrite <- (map_length (idx w)), coords_idx, seq_length; reflexivity).
  assert (L1 : length im1 = w * h) by (rewrite (ext_length _ _ X1); exact L).
  destruct (k =? w * h) eqn:Ek.
  - apply Nat.eqb_eq in Ek. exists im1. split; [reflexivity|]. split; [exact X1|]. split; [|exact B1].
    assert (T1 : forall i, i < w * h -> trans_at im1 i).
    { intros i Hi. destruct (idx_split w h i Hi) as (x & y & Hx & Hy & ->).
      assert (Hf := filter_all _ _ (coords w h) ltac:(rewrite Lc; unfold count_in in K1; rewrite <- K1; exact Ek) (x, y)).
      specialize (Hf ltac:(apply coords_in; split; assumption)). cbn beta in Hf. unfold idx in Hf. cbn [fst snd] in Hf.
      destruct (nth_error im1 (y * w + x)) as [[c [|]]|] eqn:E; try discriminate. exists c. exact E. }
    right. assert (Ei : im1 = im).
    { apply nth_error_ext. intro i. destruct (Nat.lt_ge_cases i (w * h)) as [Hi|Hi].
      - destruct (T1 i Hi) as [c Ec]. destruct (nth_error im i) as [p|] eqn:Ep; [|apply nth_error_None in Ep; lia].
        destruct (ext_nth _ _ _ _ X1 Ep) as (p' & Ep' & G1 & G2). assert (p' = (c, false)) by congruence. subst p'.
        specialize (G2 eq_refl). congruence.
      - assert (H1 : nth_error im1 i = None) by (apply nth_error_None; lia). assert (H2 : nth_error im i = None) by (apply nth_error_None; lia). congruence. }
    subst im1. split; [reflexivity|exact T1].
  - apply Nat.eqb_neq in Ek. destruct (k =? 0) eqn:Ek0.
    + apply Nat.eqb_eq in Ek0. exists im1. split; [reflexivity|]. split; [exact X1|]. split; [|exact B1]. left.
      intros i Hi [c Ec]. destruct (idx_split w h i Hi) as (x & y & Hx & Hy & ->).
      assert (Hf := filter_none _ _ (coords w h) ltac:(unfold count_in in K1; rewrite <- K1; exact Ek0) (x, y)).
      specialize (Hf ltac:(apply coords_in; split; assumption)). cbn beta in Hf. unfold idx in Hf. cbn [fst snd] in Hf. rewrite Ec in Hf. discriminate.
    + apply Nat.eqb_neq in Ek0.
      assert (Hlt : clear_count im1 < clear_count im).
      { destruct (ext_count _ _ X1) as [C1 C2]. destruct (Nat.eq_dec (clear_count im1) (clear_count im)) as [He|Hne]; [|lia].
        exfalso. specialize (C2 He). subst im1. specialize (N1 eq_refl).
        assert (Ex : exists p, In p (coords w h) /\ trans_at im (idx w p)).
        { unfold count_in in K1. set (f := fun p => match nth_error im (idx w p) with Some (_, false) => true | _ => false end) in K1.
          destruct (filter f (coords w h)) as [|p t] eqn:Ef; [cbn in K1; congruence|].
          assert (Hp : In p (filter f (coords w h))) by (rewrite Ef; left; reflexivity). apply filter_In in Hp. destruct Hp as [Hp Hf].
          exists p. split; [exact Hp|]. unfold f in Hf. destruct (nth_error im (idx w p)) as [[c [|]]|] eqn:E; try discriminate. exists c. exact E. }
        destruct Ex as ([x y] & Hp & T). apply coords_in in Hp. destruct Hp as [Hx Hy]. cbn [fst snd] in Hx, Hy.
        assert (All := closed_all w h im L (fun x y Hx Hy => N1 (x, y) (proj2 (coords_in w h (x, y)) (conj Hx Hy))) x y Hx Hy T).
        apply Ek. rewrite K1. unfold count_in. rewrite <- Lc. f_equal.
        assert (G : forall l, (forall p, In p l -> fst p < w /\ snd p < h) ->
          filter (fun p => match nth_error im (idx w p) with Some (_, false) => true | _ => false end) l = l).
        { induction l as [|[x1 y1] l IHl]; intro Hl; [reflexivity|]. cbn [filter].
          destruct (Hl (x1, y1) (or_introl eq_refl)) as [H1 H2]. destruct (All x1 y1 H1 H2) as [c Ec].
          unfold idx at 1. cbn [fst snd] in *. rewrite Ec. f_equal. apply IHl. intros p Hp. apply Hl. right. exact Hp. }
        apply G. intros p Hp. apply coords_in. exact Hp. }
      destruct (IH im1 L1 ltac:(lia)) as (im2 & E2 & X2 & D2 & B2).
      exists im2. split; [exact E2|]. split; [eapply ext_trans; eassumption|]. split; [|intros lo hi B; apply B2, B1, B].
      destruct D2 as [D2|[-> D2]]; [left; exact D2|]. exfalso.
      apply Ek. rewrite K1. unfold count_in. rewrite <- Lc. f_equal.
      assert (G : forall l, (forall p, In p l -> fst p < w /\ snd p < h) ->
        filter (fun p => match nth_error im1 (idx w p) with Some (_, false) => true | _ => false end) l = l).
      { induction l as [|[x1 y1] l IHl]; intro Hl; [reflexivity|]. cbn [filter].
        destruct (Hl (x1, y1) (or_introl eq_refl)) as [H1 H2]. destruct (D2 (y1 * w + x1) (idx_lt w h x1 y1 H1 H2)) as [c Ec].
        unfold idx at 1. cbn [fst snd] in *. rewrite Ec. f_equal. apply IHl. intros p Hp. apply Hl. right. exact Hp. }
      apply G. intros p Hp. apply coords_in. exact Hp.
Qed.

Lemma count_le : forall im, clear_count im <= length im.
Proof. intro im. unfold clear_count. induction im as [|p im IH]; [cbn; lia|]. cbn [filter]. destruct (negb (snd p)); cbn; lia. Qed.

(* ---- kernels ---- *)

Lemma each_spec : forall w h f g, (forall x y, x < w -> y < h -> f x y = ROk (g x y)) ->
  each w h f = ROk (map (fun p => g (fst p) (snd p)) (coords w h)).
Proof.
  intros w h f g H. unfold each. fold (coords w h).
  assert (G : forall l, (forall p, In p l -> fst p < w /\ snd p < h) ->
    fold_right (fun p r => rbind (f (fst p) (snd p)) (fun v => rbind r (fun l => ROk (v :: l)))) (ROk []) l = ROk (map (fun p => g (fst p) (snd p)) l)).
  { induction l as [|[x y] l IH]; intro Hl; [reflexivity|]. cbn [fold_right fst snd map].
    destruct (Hl (x, y) (or_introl eq_refl)) as [Hx Hy]. rewrite (H x y Hx Hy). cbn [rbind].
    rewrite IH by (intros p Hp; apply Hl; right; exact Hp). reflexivity. }
  apply G. intros p Hp. apply coords_in. exact Hp.
Qed.

Lemma coords_nth : forall w h x y, x < w -> y < h -> nth_error (coords w h) (y * w + x) = Some (x, y).
Proof.
  intros w h x y Hx Hy. pose proof (idx_lt w h x y Hx Hy) as Hi.
  assert (Lc : length (coords w h) = w * h) by (rewrite <- (map_length (idx w)), coords_idx, seq_length; reflexivity).
  destruct (nth_error (coords w h) (y * w + x)) as [[x1 y1]|] eqn:E; [|apply nth_error_None in E; lia].
  assert (E2 : nth_error (map (idx w) (coords w h)) (y * w + x) = Some (idx w (x1, y1))) by (rewrite nth_error_map, E; reflexivity).
  rewrite coords_idx in E2. assert (E3 : nth_error (seq 0 (w * h)) (y * w + x) = Some (y * w + x)).
  { rewrite nth_error_nth' with (d := 0) by (rewrite seq_length; exact Hi). rewrite seq_nth by exact Hi. reflexivity. }
  assert (E4 : y1 * w + x1 = y * w + x) by (unfold idx in E2; cbn [fst snd] in E2; congruence).
  apply nth_error_In in E. apply coords_in in E. destruct E as [H1 H2]. cbn [fst snd] in H1, H2.
  assert (y1 = y) by (destruct (Nat.lt_trichotomy y1 y) as [H|[H|H]]; [nia|exact H|nia]). subst y1. f_equal. f_equal. lia.
Qed.

Lemma kernel_spec : forall im is l, (forall i, In i is -> i < length im) -> is <> [] -> reads im is = ROk l ->
  (snd (kernel l) = true <-> exists i c, In i is /\ nth_error im i = Some (c, true)) /\
  (forall lo hi, (forall i c, In i is -> nth_error im i = Some (c, snd (kernel l)) -> (lo <= c <= hi)%Q) -> (lo <= fst (kernel l) <= hi)%Q).
Proof.
  intros im is l R Hn E.
  assert (Hin : forall p, In p l <-> exists i, In i is /\ nth_error im i = Some p) by (intro p; apply (reads_in im is l p R E)).
  destruct (reads_spec im is R) as (l' & E' & L & _). assert (l' = l) by congruence. subst l'.
  unfold kernel. destruct (opaque l) as [|c0 cs] eqn:Eo.
  - cbn [fst snd]. split.
    + split; [discriminate|]. intros (i & c & Hi & Ec). assert (H : In c (opaque l)) by (apply opaque_in, Hin; exists i; tauto). rewrite Eo in H. contradiction.
    + intros lo hi B. apply mean_bounds.
      * intro Hm. apply map_eq_nil in Hm. subst l. destruct is; [congruence|discriminate].
      * intros c Hc. apply in_map_iff in Hc. destruct Hc as ([c' o] & <- & Hc). cbn [fst].
        destruct o; [assert (H : In c' (opaque l)) by (apply opaque_in; exact Hc); rewrite Eo in H; contradiction|].
        apply Hin in Hc. destruct Hc as (i & Hi & Ec). apply (B i); assumption.
  - rewrite <- Eo. cbn [fst snd]. split.
    + split; [|reflexivity]. intros _. assert (H : In c0 (opaque l)) by (rewrite Eo; left; reflexivity).
      apply opaque_in, Hin in H. destruct H as (i & Hi & Ec). exists i, c0. tauto.
    + intros lo hi B. apply mean_bounds; [rewrite Eo; discriminate|]. intros c Hc. apply opaque_in, Hin in Hc.
      destruct Hc as (i & Hi & Ec). apply (B i); assumption.
Qed.

Lemma down_in : forall w h f x y i, f <> 0 -> x < w / f -> y < h / f ->
  (In i (down_kernel w h f x y) <-> i < w * h /\ (i mod w) / f = x /\ (i / w) / f = y).
Proof.
  intros w h f x y i Hf Hx Hy.
  assert (Wx : x * f + f <= w) by (pose proof (Nat.mul_div_le w f Hf); nia).
  assert (Wy : y * f + f <= h) by (pose proof (Nat.mul_div_le h f Hf); nia).
  unfold down_kernel. rewrite in_flat_map. split.
  - intros (y0 & H1 & H). apply in_seq in H1. apply in_flat_map in H. destruct H as (x0 & H2 & H). apply in_seq in H2.
    destruct ((x * f + x0 <? w) && (y * f + y0 <? h)) eqn:E; [|contradiction]. destruct H as [<-|[]].
    apply andb_true_iff in E. destruct E as [E1 E2]. apply Nat.ltb_lt in E1, E2.
    split; [apply idx_lt; assumption|].
    assert (Hw : w <> 0) by lia.
    rewrite (Nat.add_comm (_ * w)), Nat.mod_add, Nat.div_add, (Nat.mod_small (x * f + x0)), (Nat.div_small (x * f + x0) w) by lia. cbn [Nat.add].
    rewrite !(Nat.add_comm (_ * f)), !Nat.div_add, !Nat.div_small by lia. lia.
  - intros (Hi & E1 & E2). assert (Hw : w <> 0) by lia.
    pose proof (Nat.div_mod i w Hw) as D. pose proof (Nat.div_mod (i mod w) f Hf) as Dx. pose proof (Nat.div_mod (i / w) f Hf) as Dy.
    pose proof (Nat.mod_upper_bound (i mod w) f Hf) as Bx. pose proof (Nat.mod_upper_bound (i / w) f Hf) as By.
    rewrite E1 in Dx. rewrite E2 in Dy.
    exists ((i / w) mod f). split; [apply in_seq; lia|]. apply in_flat_map. exists ((i mod w) mod f). split; [apply in_seq; lia|].
    destruct ((x * f + (i mod w) mod f <? w) && (y * f + (i / w) mod f <? h)) eqn:E.
    + left. nia.
    + exfalso. apply andb_false_iff in E. destruct E as [E|E]; apply Nat.ltb_ge in E; lia.
Qed.

Lemma down_nonempty : forall w h f x y, f <> 0 -> x < w / f -> y < h / f -> down_kernel w h f x y <> [].
Proof.
  intros w h f x y Hf Hx Hy E.
  assert (Wx : x * f + f <= w) by (pose proof (Nat.mul_div_le w f Hf); nia).
  assert (Wy : y * f + f <= h) by (pose proof (Nat.mul_div_le h f Hf); nia).
  assert (Hw : w <> 0) by lia.
  assert (H : In ((y * f) * w + x * f) (down_kernel w h f x y)).
  { apply down_in; try assumption. split; [apply idx_lt; lia|].
    rewrite (Nat.add_comm (_ * w)), Nat.mod_add, Nat.div_add, (Nat.mod_small (x * f)), (Nat.div_small (x * f) w) by lia. cbn [Nat.add].
    rewrite !Nat.div_mul by exact Hf. lia. }
  rewrite E in H. contradiction.
Qed.

Lemma downsample_spec : forall im w h f, length im = w * h -> f <> 0 -> exists out, downsample im w h f = ROk out /\
  length out = (w / f) * (h / f) /\
  forall x y, x < w / f -> y < h / f -> exists l, reads im (down_kernel w h f x y) = ROk l /\
    exists p, nth_error out (y * (w / f) + x) = Some p /\ (p = kernel l \/ (f = 1 /\ l = [p])).
Proof.
  intros im w h f L Hf. unfold downsample. destruct (f =? 0) eqn:E0; [apply Nat.eqb_eq in E0; contradiction|].
  assert (Rd : forall x y, x < w / f -> y < h / f -> exists l, reads im (down_kernel w h f x y) = ROk l /\ length l = length (down_kernel w h f x y) /\
     map Some l = map (nth_error im) (down_kernel w h f x y)).
  { intros x y Hx Hy. apply reads_spec. intros i Hi. apply down_in in Hi; try assumption. lia. }
  destruct (f =? 1) eqn:E1.
  - apply Nat.eqb_eq in E1. subst f. exists im. split; [reflexivity|]. rewrite !Nat.div_1_r in *. split; [exact L|].
    intros x y Hx Hy. destruct (Rd x y Hx Hy) as (l & El & _ & Ml). exists l. split; [exact El|].
    pose proof (idx_lt w h x y Hx Hy) as Hi. destruct (nth_error im (y * w + x)) as [p|] eqn:Ep; [|apply nth_error_None in Ep; lia].
    exists p. split; [reflexivity|]. right. split; [reflexivity|].
    assert (Ek : down_kernel w h 1 x y = [y * w + x]).
    { unfold down_kernel. cbn [seq flat_map]. rewrite !Nat.mul_1_r, !Nat.add_0_r, !app_nil_r.
      apply Nat.ltb_lt in Hx, Hy. rewrite Hx, Hy. reflexivity. }
    rewrite Ek in Ml. cbn [map] in Ml. rewrite Ep in Ml. destruct l as [|q [|q2 l]]; cbn [map] in Ml; congruence.
  - set (g := fun x y => match reads im (down_kernel w h f x y) with ROk l => kernel l | _ => (0%Q, false) end).
    rewrite (each_spec _ _ _ g).
    2:{ intros x y Hx Hy. destruct (Rd x y Hx Hy) as (l & El & _). unfold g. rewrite El. reflexivity. }
    eexists. split; [reflexivity|]. split.
    { rewrite map_length, <- (map_length (idx (w / f))), coords_idx, seq_length. reflexivity. }
    intros x y Hx Hy. destruct (Rd x y Hx Hy) as (l & El & _). exists l. split; [exact El|]. exists (kernel l).
    rewrite nth_error_map, coords_nth by assumption. cbn [option_map fst snd]. unfold g. rewrite El. split; [reflexivity|left; reflexivity].
Qed.

Lemma clamp_iff : forall n x r c, x < n -> ((exists d, d <= 2 * r /\ c = clamp_add x d r n) <-> (c < n /\ x <= c + r /\ c <= x + r)).
Proof.
  intros n x r c Hx. unfold clamp_add. split.
  - intros (d & Hd & ->). lia.
  - intros (H1 & H2 & H3). exists (c + r - x). split; lia.
Qed.

Lemma blur_in : forall w h r x y i, x < w -> y < h ->
  (In i (blur_kernel w h r x y) <-> exists x1 y1, x1 < w /\ y1 < h /\ i = y1 * w + x1 /\ x <= x1 + r /\ x1 <= x + r /\ y <= y1 + r /\ y1 <= y + r).
Proof.
  intros w h r x y i Hx Hy. unfold blur_kernel. rewrite in_flat_map. split.
  - intros (dy & H1 & H). apply in_seq in H1. apply in_map_iff in H. destruct H as (dx & <- & H2). apply in_seq in H2.
    exists (clamp_add x dx r w), (clamp_add y dy r h).
    destruct (proj1 (clamp_iff w x r _ Hx) (ex_intro _ dx (conj (ltac:(lia) : dx <= 2 * r) eq_refl))) as (A1 & A2 & A3).
    destruct (proj1 (clamp_iff h y r _ Hy) (ex_intro _ dy (conj (ltac:(lia) : dy <= 2 * r) eq_refl))) as (B1 & B2 & B3). tauto.
  - intros (x1 & y1 & H1 & H2 & -> & H3 & H4 & H5 & H6).
    destruct (proj2 (clamp_iff w x r x1 Hx)) as (dx & Dx & Ex); [tauto|].
    destruct (proj2 (clamp_iff h y r y1 Hy)) as (dy & Dy & Ey); [tauto|].
    exists dy. split; [apply in_seq; lia|]. apply in_map_iff. exists dx. split; [congruence|apply in_seq; lia].
Qed.

Lemma blur_spec : forall im w h r, length im = w * h -> exists out, blur im w h r = ROk out /\ length out = w * h /\
  forall x y, x < w -> y < h -> exists l, reads im (blur_kernel w h r x y) = ROk l /\ nth_error out (y * w + x) = Some (kernel l).
Proof.
  intros im w h r L. unfold blur.
  assert (Rd : forall x y, x < w -> y < h -> exists l, reads im (blur_kernel w h r x y) = ROk l).
  { intros x y Hx Hy. destruct (reads_spec im (blur_kernel w h r x y)) as (l & El & _); [|exists l; exact El].
    intros i Hi. apply blur_in in Hi; try assumption. destruct Hi as (x1 & y1 & A & B & -> & _). rewrite L. apply idx_lt; assumption. }
  set (g := fun x y => match reads im (blur_kernel w h r x y) with ROk l => kernel l | _ => (0%Q, false) end).
  rewrite (each_spec _ _ _ g).
  2:{ intros x y Hx Hy. destruct (Rd x y Hx Hy) as (l & El). unfold g. rewrite El. reflexivity. }
  eexists. split; [reflexivity|]. split.
  { rewrite map_length, <- (map_length (idx w)), coords_idx, seq_length. reflexivity. }
  intros x y Hx Hy. destruct (Rd x y Hx Hy) as (l & El). exists l. split; [exact El|].
  rewrite nth_error_map, coords_nth by assumption. cbn [option_map fst snd]. unfold g. rewrite El. reflexivity.
Qed.

(* ---- the mean of the whole image ---- *)

Lemma nodup_flat_map : forall A B (f : A -> list B) l, NoDup l -> (forall x, In x l -> NoDup (f x)) ->
  (forall x y b, In x l -> In y l -> In b (f x) -> In b (f y) -> x = y) -> NoDup (flat_map f l).
Proof.
  intros A B f l ND. induction ND as [|a l Hn ND IH]; intros H1 H2; [constructor|]. cbn [flat_map].
  assert (Ap : forall (u v : list B), NoDup u -> NoDup v -> (forall b, In b u -> ~ In b v) -> NoDup (u ++ v)).
  { clear. induction u as [|b u IH]; intros v Hu Hv D; [exact Hv|]. inversion Hu as [|c cs Hb Hu' E]; subst. cbn [app]. constructor.
    - intro H. apply in_app_or in H. destruct H as [H|H]; [contradiction|]. apply (D b); [left; reflexivity|exact H].
    - apply IH; [exact Hu'|exact Hv|]. intros x Hx. apply D. right. exact Hx. }
  apply Ap.
  - apply H1. left. reflexivity.
  - apply IH; [intros x Hx; apply H1; right; exact Hx|]. intros x y b Hx Hy. apply H2; right; assumption.
  - intros b Hb Hc. apply in_flat_map in Hc. destruct Hc as (x & Hx & Hc).
    assert (a = x) by (apply (H2 a x b); [left; reflexivity|right; exact Hx|exact Hb|exact Hc]). subst x. contradiction.
Qed.

Lemma down_nodup : forall w h f x y, f <> 0 -> x < w / f -> y < h / f -> NoDup (down_kernel w h f x y) /\ length (down_kernel w h f x y) = f * f.
Proof.
  intros w h f x y Hf Hx Hy.
  assert (Wx : x * f + f <= w) by (pose proof (Nat.mul_div_le w f Hf); nia).
  assert (Wy : y * f + f <= h) by (pose proof (Nat.mul_div_le h f Hf); nia).
  assert (Ek : down_kernel w h f x y = flat_map (fun y0 => map (fun x0 => (y * f + y0) * w + (x * f + x0)) (seq 0 f)) (seq 0 f)).
  { unfold down_kernel. rewrite !flat_map_concat_map. f_equal. apply map_ext_in. intros y0 H0. apply in_seq in H0.
    assert (G : forall l, (forall x0, In x0 l -> x0 < f) ->
       flat_map (fun x0 => if (x * f + x0 <? w) && (y * f + y0 <? h) then [(y * f + y0) * w + (x * f + x0)] else []) l = map (fun x0 => (y * f + y0) * w + (x * f + x0)) l).
    { induction l as [|a l IH]; intro Hl; [reflexivity|]. cbn [flat_map map]. rewrite IH by (intros b Hb; apply Hl; right; exact Hb).
      specialize (Hl a (or_introl eq_refl)).
      destruct ((x * f + a <? w) && (y * f + y0 <? h)) eqn:E; [reflexivity|].
      exfalso. apply andb_false_iff in E. destruct E as [E|E]; apply Nat.ltb_ge in E; lia. }
    apply G. intros x0 H1. apply in_seq in H1. lia. }
  rewrite Ek. split.
  - apply nodup_flat_map; [apply seq_NoDup| |].
    + intros y0 _. apply FinFun.Injective_map_NoDup; [intros a b H; lia|apply seq_NoDup].
    + intros y0 y1 b H0 H1 Hb Hc. apply in_seq in H0, H1. apply in_map_iff in Hb, Hc.
      destruct Hb as (x0 & <- & Hb). destruct Hc as (x1 & E & Hc). apply in_seq in Hb, Hc. nia.
  - assert (G : forall n (g : nat -> nat -> nat) l, length (flat_map (fun a => map (g a) (seq 0 n)) l) = length l * n).
    { intros n g l. induction l as [|a l IH]; [reflexivity|]. cbn [flat_map length]. rewrite app_length, map_length, seq_length, IH. lia. }
    rewrite (G f (fun y0 x0 => (y * f + y0) * w + (x * f + x0))), seq_length. reflexivity.
Qed.

Local Open Scope Q_scope.

Lemma sumQ_cons : forall x l, sumQ (x :: l) = x + sumQ l.
Proof. reflexivity. Qed.

Lemma sumQ_perm : forall a b, Permutation a b -> sumQ a == sumQ b.
Proof.
  intros a b H. induction H as [|x l l' H IH|x y l|l l' l'' H1 IH1 H2 IH2]; rewrite ?sumQ_cons.
  - reflexivity.
  - rewrite IH. reflexivity.
  - ring.
  - rewrite IH1. exact IH2.
Qed.

Lemma sumQ_app : forall a b, sumQ (a ++ b) == sumQ a + sumQ b.
Proof.
  intros a b. induction a as [|x a IH]; cbn [app]; [change (sumQ []) with 0; ring|]. rewrite !sumQ_cons, IH. ring.
Qed.

Definition value (im : image) (i : nat) : Q := match nth_error im i with Some p => fst p | None => 0 end.

Lemma value_all : forall im, map (value im) (seq 0 (length im)) = map fst im.
Proof.
  intro im. apply nth_error_ext. intro i. rewrite !nth_error_map.
  destruct (Nat.lt_ge_cases i (length im)) as [H|H].
  - rewrite nth_error_nth' with (d := 0%nat) by (rewrite seq_length; exact H). rewrite seq_nth by exact H. cbn [option_map Nat.add]. unfold value.
    destruct (nth_error im i) as [p|] eqn:E; [reflexivity|apply nth_error_None in E; lia].
  - assert (E1 : nth_error (seq 0 (length im)) i = None) by (apply nth_error_None; rewrite seq_length; exact H).
    assert (E2 : nth_error im i = None) by (apply nth_error_None; exact H). rewrite E1, E2. reflexivity.
Qed.

Lemma reads_values : forall im is l, (forall i, In i is -> (i < length im)%nat) -> reads im is = ROk l -> map fst l = map (value im) is.
Proof.
  intros im is l R E. destruct (reads_spec im is R) as (l' & E' & _ & M). assert (l' = l) by congruence. subst l'. clear E E' R.
  revert l M. induction is as [|i is IH]; intros [|p l] M; try discriminate; [reflexivity|]. cbn [map] in *. injection M as M1 M2.
  rewrite (IH l M2). unfold value. rewrite <- M1. reflexivity.
Qed.

Lemma all_opaque_kernel : forall l, l <> [] -> (forall p, In p l -> snd p = true) -> kernel l = (mean (map fst l), true).
Proof.
  intros l Hn H. assert (E : filter snd l = l).
  { clear Hn. induction l as [|p l IH]; [reflexivity|]. cbn [filter]. rewrite (H p (or_introl eq_refl)). f_equal. apply IH. intros q Hq. apply H. right. exact Hq. }
  unfold kernel, opaque. rewrite E. destruct l; [congruence|]. reflexivity.
Qed.

Lemma downsample_total : forall im w h f out, length im = (w * h)%nat -> f <> O -> (w mod f = 0)%nat -> (h mod f = 0)%nat ->
  (forall p, In p im -> snd p = true) -> downsample im w h f = ROk out ->
  sumQ (map fst out) * inject_Z (Z.of_nat (f * f)) == sumQ (map fst im).
Proof.
  intros im w h f out L Hf Hw Hh Hop E.
  destruct (downsample_spec im w h f L Hf) as (out' & E' & Lo & Hs). assert (out' = out) by congruence. subst out'.
  set (ow := (w / f)%nat) in *. set (oh := (h / f)%nat) in *.
  assert (Ff : ~ inject_Z (Z.of_nat (f * f)) == 0).
  { intro H. change 0 with (inject_Z 0) in H. rewrite inject_Z_injective in H. nia. }
  (* each output value *)
  assert (Ho : forall x y, (x < ow)%nat -> (y < oh)%nat -> value out (y * ow + x) * inject_Z (Z.of_nat (f * f)) == sumQ (map (value im) (down_kernel w h f x y))).
  { intros x y Hx Hy. destruct (Hs x y Hx Hy) as (l & El & p & Ep & Hp).
    assert (R : forall i, In i (down_kernel w h f x y) -> (i < length im)%nat) by (intros i Hi; apply down_in in Hi; try assumption; lia).
    destruct (down_nodup w h f x y Hf Hx Hy) as [_ Ld].
    pose proof (reads_values im _ l R El) as Ev.
    assert (Ll : length l = (f * f)%nat) by (etransitivity; [symmetry; apply (map_length fst)|]; rewrite Ev, map_length; exact Ld).
    assert (Ol : forall q, In q l -> snd q = true).
    { intros q Hq. apply (reads_in im _ l q R El) in Hq. destruct Hq as (i & _ & Hi). apply Hop. eapply nth_error_In. exact Hi. }
    assert (Nl : l <> []) by (intro Hc; subst l; cbn in Ll; nia).
    unfold value at 1. rewrite Ep, <- Ev.
    assert (Em : fst p * inject_Z (Z.of_nat (f * f)) == sumQ (map fst l)).
    { destruct Hp as [->|[-> ->]].
      - rewrite (all_opaque_kernel l Nl Ol). cbn [fst]. unfold mean. replace (length (map fst l)) with (f * f)%nat by (rewrite <- Ll; symmetry; apply map_length). field. exact Ff.
      - cbn. ring. }
    exact Em. }
  (* sum them *)
  assert (Sm : sumQ (map fst out) * inject_Z (Z.of_nat (f * f)) == sumQ (map (value im) (flat_map (fun p => down_kernel w h f (fst p) (snd p)) (coords ow oh)))).
  { rewrite <- value_all, Lo.
    rewrite <- coords_idx. rewrite map_map.
    assert (G : forall l, (forall p, In p l -> (fst p < ow)%nat /\ (snd p < oh)%nat) ->
       sumQ (map (fun p => value out (idx ow p)) l) * inject_Z (Z.of_nat (f * f)) == sumQ (map (value im) (flat_map (fun p => down_kernel w h f (fst p) (snd p)) l))).
    { induction l as [|[x y] l IH]; intro Hl; [cbn; ring|]. cbn [map flat_map fst snd]. rewrite map_app, sumQ_app.
      change (sumQ (value out (idx ow (x, y)) :: map (fun p => value out (idx ow p)) l)) with (value out (idx ow (x, y)) + sumQ (map (fun p => value out (idx ow p)) l)).
      rewrite Qmult_plus_distr_l, IH by (intros p Hp; apply Hl; right; exact Hp).
      destruct (Hl (x, y) (or_introl eq_refl)) as [Hx Hy]. unfold idx. cbn [fst snd]. rewrite (Ho x y Hx Hy). reflexivity. }
    apply G. intros p Hp. apply coords_in. exact Hp. }
  rewrite Sm. rewrite <- (value_all im). apply sumQ_perm. apply Permutation_map. apply NoDup_Permutation.
  - apply nodup_flat_map.
    + apply (NoDup_map_inv (idx ow)). rewrite coords_idx. apply seq_NoDup.
    + intros [x y] Hp. apply coords_in in Hp. destruct Hp as [Hx Hy]. apply down_nodup; assumption.
    + intros [x y] [x' y'] i Hp Hq Hi Hj. apply coords_in in Hp, Hq. cbn [fst snd] in *.
      apply down_in in Hi; try tauto. apply down_in in Hj; try tauto. f_equal; lia.
  - apply seq_NoDup.
  - intro i. rewrite in_seq, in_flat_map, L. split.
    + intros ([x y] & Hp & Hi). apply coords_in in Hp. cbn [fst snd] in *. apply down_in in Hi; try tauto. lia.
    + intros [_ Hi]. cbn [Nat.add] in Hi. assert (Wz : w <> O) by lia.
      assert (Hx : ((i mod w) / f < ow)%nat).
      { apply Nat.div_lt_upper_bound; [exact Hf|]. unfold ow. pose proof (Nat.div_mod w f Hf). pose proof (Nat.mod_upper_bound i w Wz). lia. }
      assert (Hy : ((i / w) / f < oh)%nat).
      { apply Nat.div_lt_upper_bound; [exact Hf|]. unfold oh. pose proof (Nat.div_mod h f Hf).
        assert (i / w < h)%nat by (apply Nat.div_lt_upper_bound; lia). lia. }
      exists ((i mod w) / f, (i / w) / f)%nat. split; [apply coords_in; split; assumption|]. cbn [fst snd].
      apply down_in; try assumption. split; [exact Hi|]. split; reflexivity.
Qed.
