(* Proofs about LightStylesModel.v. *)
From Coq Require Import List ZArith Bool Lia.
Import ListNotations.
From Verif Require Import LightStylesModel.
Open Scope Z_scope.

Lemma beq_eq : forall a b, beq a b = true <-> a = b.
Proof.
  induction a as [|x a IH]; intros [|y b]; cbn [beq]; try (split; congruence).
  rewrite andb_true_iff, Z.eqb_eq, IH. split; [intros (-> & ->); reflexivity|intro H; injection H; auto].
Qed.
Lemma bytes_dec : forall a b : bytes, {a = b} + {a <> b}.
Proof. apply list_eq_dec, Z.eq_dec. Qed.

Record tab_ok (start : Z) (t : table) : Prop := {
  tk_num : forall k p, nth_error t k = Some p -> snd p = start + Z.of_nat k;
  tk_name : forall i j p q, nth_error t i = Some p -> nth_error t j = Some q -> fst p = fst q -> fst p <> [] -> i = j
}.
Lemma tab_nil : forall start, tab_ok start [].
Proof. intro start. constructor; intros [|?]; cbn; congruence. Qed.
Lemma tab_range : forall start t p, tab_ok start t -> In p t -> start <= snd p < start + Z.of_nat (length t).
Proof.
  intros start t p OK I. apply In_nth_error in I. destruct I as (k & E). rewrite (tk_num _ _ OK k p E).
  assert (k < length t)%nat by (apply nth_error_Some; congruence). lia.
Qed.
Lemma tab_same_num : forall start t p q, tab_ok start t -> In p t -> In q t -> snd p = snd q -> p = q.
Proof.
  intros start t p q OK I J E. apply In_nth_error in I, J. destruct I as (i & I), J as (j & J).
  rewrite (tk_num _ _ OK i p I), (tk_num _ _ OK j q J) in E. assert (i = j) by lia. subst j. congruence.
Qed.
Lemma tab_same_name : forall start t p q, tab_ok start t -> In p t -> In q t -> fst p = fst q -> fst p <> [] -> p = q.
Proof.
  intros start t p q OK I J E NE. apply In_nth_error in I, J. destruct I as (i & I), J as (j & J).
  pose proof (tk_name _ _ OK i j p q I J E NE). subst j. congruence.
Qed.
Lemma find_style_some : forall t n s, find_style t n = Some s -> In (n, s) t /\ n <> [].
Proof.
  induction t as [|[m r] t IH]; intros n s H; [discriminate|]. cbn [find_style fst snd] in H. destruct (beq m n && negb (is_empty n)) eqn:E.
  - injection H as <-. apply andb_true_iff in E. destruct E as (E1 & E2). apply beq_eq in E1. subst m. split; [left; reflexivity|]. intros ->. discriminate.
  - destruct (IH n s H). split; [right; assumption|assumption].
Qed.
Lemma find_style_none : forall t n, find_style t n = None <-> n = [] \/ ~ In n (map fst t).
Proof.
  induction t as [|[m r] t IH]; intro n; cbn [find_style fst snd map].
  - split; [right; intros []|reflexivity].
  - destruct (beq m n && negb (is_empty n)) eqn:E.
    + apply andb_true_iff in E. destruct E as (E1 & E2). apply beq_eq in E1. subst m. split; [discriminate|]. intros [->|X]; [discriminate|]. destruct X. left. reflexivity.
    + rewrite IH. split.
      * intros [->|X]; [left; reflexivity|]. destruct n as [|c n]; [left; reflexivity|right]. cbn [is_empty negb] in E. rewrite andb_true_r in E.
        intros [Y|Y]; [|exact (X Y)]. apply beq_eq in Y. congruence.
      * intros [->|X]; [left; reflexivity|right]. intro Y. apply X. right. exact Y.
Qed.
Lemma style_for_spec : forall start max t n s t2, tab_ok start t -> style_for start max t n = Some (s, t2) ->
  tab_ok start t2 /\ In (n, s) t2 /\
  ((t2 = t /\ n <> [] /\ In n (map fst t)) \/ (t2 = t ++ [(n, s)] /\ s = start + Z.of_nat (length t) /\ s < max /\ (n = [] \/ ~ In n (map fst t)))).
Proof.
  intros start max t n s t2 OK H. unfold style_for in H. destruct (find_style t n) as [r|] eqn:F.
  - injection H as <- <-. destruct (find_style_some t n r F) as (I & NE). split; [exact OK|]. split; [exact I|]. left. split; [reflexivity|]. split; [exact NE|].
    apply in_map_iff. exists (n, r). auto.
  - cbv zeta in H. destruct (start + Z.of_nat (length t) >=? max) eqn:G; [discriminate|]. injection H as <- <-. apply find_style_none in F.
    assert (LT : start + Z.of_nat (length t) < max) by lia.
    split; [|split; [apply in_or_app; right; left; reflexivity|right; auto]]. constructor.
    + intros k p E. destruct (Nat.lt_ge_cases k (length t)) as [L|L].
      * rewrite nth_error_app1 in E by exact L. apply (tk_num _ _ OK k p E).
      * rewrite nth_error_app2 in E by exact L. destruct (k - length t)%nat as [|d] eqn:D; [|destruct d; discriminate]. injection E as <-. cbn [snd]. lia.
    + intros i j p q EI EJ E NE.
      assert (X : forall k r, nth_error (t ++ [(n, start + Z.of_nat (length t))]) k = Some r -> (nth_error t k = Some r /\ In (fst r) (map fst t)) \/ (k = length t /\ fst r = n)).
      { intros k r Q. destruct (Nat.lt_ge_cases k (length t)) as [L|L].
        - rewrite nth_error_app1 in Q by exact L. left. split; [exact Q|]. apply in_map. eapply nth_error_In, Q.
        - rewrite nth_error_app2 in Q by exact L. destruct (k - length t)%nat as [|d] eqn:D; [|destruct d; discriminate]. injection Q as <-. right. split; [lia|reflexivity]. }
      destruct (X i p EI) as [(A1 & A2)|(A1 & A2)], (X j q EJ) as [(B1 & B2)|(B1 & B2)].
      * apply (tk_name _ _ OK i j p q); assumption.
      * exfalso. rewrite E, B2 in A2. destruct F as [->|F]; [congruence|exact (F A2)].
      * exfalso. rewrite <- E, A2 in B2. destruct F as [->|F]; [congruence|exact (F B2)].
      * congruence.
Qed.

Lemma styles_for_spec : forall start max names t ss t2, tab_ok start t -> styles_for start max t names = Some (ss, t2) ->
  tab_ok start t2 /\ length ss = length names /\ (exists ext, t2 = t ++ ext) /\
  (forall i, (i < length names)%nat -> In (nth i names [], nth i ss 0) t2) /\
  (forall i, (i < length names)%nat -> nth i names [] = [] -> start + Z.of_nat (length t) <= nth i ss 0) /\
  (forall i j, (i < j < length names)%nat -> nth j names [] = [] -> nth i ss 0 < nth j ss 0).
Proof.
  intros start max. induction names as [|n names IH]; intros t ss t2 OK H; cbn [styles_for] in H.
  - injection H as <- <-. split; [exact OK|]. split; [reflexivity|]. split; [exists []; symmetry; apply app_nil_r|]. cbn [length]. split; [intros; lia|]. split; intros; lia.
  - destruct (style_for start max t n) as [(s & t1)|] eqn:E; [|discriminate]. destruct (styles_for start max t1 names) as [(rest & t3)|] eqn:F; [|discriminate]. injection H as <- <-.
    destruct (style_for_spec start max t n s t1 OK E) as (OK1 & IN1 & CASE). destruct (IH t1 rest t3 OK1 F) as (OK3 & L & (ext & EX) & A & B & C).
    assert (LE : Z.of_nat (length t) <= Z.of_nat (length t1)) by (destruct CASE as [(-> & _)|(-> & _)]; [lia|rewrite app_length; lia]).
    split; [exact OK3|]. split; [cbn [length]; lia|]. split.
    { destruct CASE as [(-> & _)|(-> & _)]; [exists ext; exact EX|]. rewrite <- app_assoc in EX. eexists. exact EX. }
    split; [|split].
    + intros [|i] Q; cbn [nth]; [rewrite EX; apply in_or_app; left; exact IN1|]. apply A. cbn in Q. lia.
    + intros [|i] Q Z; cbn [nth] in *.
      * destruct CASE as [(_ & NE & _)|(_ & -> & _)]; [congruence|lia].
      * cbn in Q. specialize (B i ltac:(lia) Z). lia.
    + intros [|i] [|j] Q Z; cbn [nth length] in *; try lia.
      * specialize (B j ltac:(lia) Z). pose proof (tab_range start t1 (n, s) OK1 IN1) as R. cbn [snd] in R. lia.
      * apply C; [lia|exact Z].
Qed.
Lemma table_bound : forall start max names t ss t2, (forall p, In p t -> snd p < max) -> tab_ok start t -> styles_for start max t names = Some (ss, t2) -> forall p, In p t2 -> snd p < max.
Proof.
  intros start max. induction names as [|n names IH]; intros t ss t2 B OK H; cbn [styles_for] in H; [injection H as <- <-; exact B|].
  destruct (style_for start max t n) as [(s & t1)|] eqn:E; [|discriminate]. destruct (styles_for start max t1 names) as [(rest & t3)|] eqn:F; [|discriminate]. injection H as <- <-.
  destruct (style_for_spec start max t n s t1 OK E) as (OK1 & _ & CASE). apply (IH t1 rest t3); [|exact OK1|exact F].
  intros p I. destruct CASE as [(-> & _)|(-> & _ & LT & _)]; [apply B, I|]. apply in_app_or in I. destruct I as [I|[<-|[]]]; [apply B, I|exact LT].
Qed.

(** How many new styles [names] need when the names [known] have one. *)
Fixpoint needed (known : list bytes) (names : list bytes) : nat :=
  match names with
  | [] => 0
  | n :: names => if negb (is_empty n) && (if in_dec bytes_dec n known then true else false) then needed known names else S (needed (known ++ [n]) names)
  end.
Lemma styles_for_needed : forall start max names t, tab_ok start t -> start + Z.of_nat (length t) <= max ->
  match styles_for start max t names with
  | Some (_, t2) => length t2 = (length t + needed (map fst t) names)%nat /\ start + Z.of_nat (length t2) <= max
  | None => max < start + Z.of_nat (length t + needed (map fst t) names)
  end.
Proof.
  intros start max. induction names as [|n names IH]; intros t OK LE; cbn [styles_for needed]; [split; lia|].
  destruct (style_for start max t n) as [(s & t1)|] eqn:E.
  - destruct (style_for_spec start max t n s t1 OK E) as (OK1 & _ & CASE). destruct CASE as [(-> & NE & I)|(T1 & S1 & LT & F)].
    + destruct n as [|c n]; [congruence|]. cbn [is_empty negb andb]. destruct (in_dec bytes_dec (c :: n) (map fst t)); [|contradiction].
      specialize (IH t OK LE). destruct (styles_for start max t names) as [(r & t3)|]; exact IH.
    + assert (Q : negb (is_empty n) && (if in_dec bytes_dec n (map fst t) then true else false) = false).
      { destruct F as [->|F]; [reflexivity|]. destruct (in_dec bytes_dec n (map fst t)); [contradiction|]. apply andb_false_r. }
      rewrite Q. assert (M : map fst t1 = map fst t ++ [n]) by (rewrite T1, map_app; reflexivity).
      assert (L1 : length t1 = S (length t)) by (rewrite T1, app_length; cbn; lia).
      specialize (IH t1 OK1 ltac:(lia)). rewrite M, L1 in IH. destruct (styles_for start max t1 names) as [(r & t3)|]; lia.
  - unfold style_for in E. destruct (find_style t n) eqn:F; [discriminate|]. cbv zeta in E. destruct (start + Z.of_nat (length t) >=? max) eqn:G; [|discriminate].
    apply find_style_none in F.
    assert (Q : negb (is_empty n) && (if in_dec bytes_dec n (map fst t) then true else false) = false).
    { destruct F as [->|F]; [reflexivity|]. destruct (in_dec bytes_dec n (map fst t)); [contradiction|]. apply andb_false_r. }
    rewrite Q. lia.
Qed.
Lemma needed_count : forall names known, NoDup (filter (fun n => negb (is_empty n)) known) ->
  (length (filter is_empty known) + length (filter (fun n => negb (is_empty n)) known) + needed known names)%nat =
  (length (filter is_empty (known ++ names)) + length (nodup bytes_dec (filter (fun n => negb (is_empty n)) (known ++ names))))%nat.
Proof.
  assert (ND : forall a b n, In n a -> length (nodup bytes_dec (a ++ n :: b)) = length (nodup bytes_dec (a ++ b))).
  { induction a as [|x a IH]; intros b n I; [destruct I|]. cbn [app nodup].
    assert (IFF : In x (a ++ n :: b) <-> In x (a ++ b) \/ x = n) by (rewrite !in_app_iff; cbn [In]; intuition congruence).
    destruct (in_dec bytes_dec x (a ++ n :: b)) as [J|J], (in_dec bytes_dec x (a ++ b)) as [K|K].
    - destruct I as [->|I]; [|apply IH, I]. apply in_app_or in K. destruct K as [K|K]; [apply IH, K|].
      clear - K. induction a as [|y a IH]; cbn [app nodup].
      + destruct (in_dec bytes_dec n b); [reflexivity|contradiction].
      + destruct (in_dec bytes_dec y (a ++ n :: b)) as [A|A], (in_dec bytes_dec y (a ++ b)) as [B|B]; cbn [length]; try (f_equal; exact IH); try exact IH.
        * exfalso. apply B. apply in_app_or in A. apply in_or_app. cbn [In] in A. intuition (subst; auto).
        * exfalso. apply A. apply in_app_or in B. apply in_or_app. cbn [In]. tauto.
    - assert (x = n) by tauto. subst x. destruct I as [_|I]; [|exfalso; apply K; apply in_or_app; left; exact I].
      cbn [length]. clear - K. induction a as [|y a IH]; cbn [app nodup].
      + destruct (in_dec bytes_dec n b); [contradiction|]. reflexivity.
      + assert (K2 : ~ In n (a ++ b)) by (intro Q; apply K; right; exact Q). specialize (IH K2).
        assert (y <> n) by (intros ->; apply K; left; reflexivity).
        destruct (in_dec bytes_dec y (a ++ n :: b)) as [A|A], (in_dec bytes_dec y (a ++ b)) as [B|B]; cbn [length]; rewrite ?IH; try reflexivity.
        * exfalso. apply B. apply in_app_or in A. apply in_or_app. cbn [In] in A. intuition congruence.
        * exfalso. apply A. apply in_app_or in B. apply in_or_app. cbn [In]. tauto.
    - tauto.
    - cbn [length]. destruct I as [->|I]; [exfalso; apply J; apply in_or_app; right; left; reflexivity|]. f_equal. apply IH, I. }
  induction names as [|n names IH]; intros known KN; cbn [needed].
  - rewrite app_nil_r, Nat.add_0_r. f_equal. rewrite nodup_fixed_point by exact KN. reflexivity.
  - destruct n as [|c n].
    + cbn [is_empty negb andb]. specialize (IH (known ++ [[]])). rewrite <- app_assoc in IH. cbn [app] in IH. rewrite <- IH; rewrite !filter_app; cbn [filter is_empty negb]; [|rewrite app_nil_r; exact KN].
      rewrite !app_length. cbn [length]. lia.
    + cbn [is_empty negb andb]. destruct (in_dec bytes_dec (c :: n) known) as [I|I].
      * rewrite (IH known KN). rewrite !filter_app. cbn [filter is_empty negb]. rewrite ND; [reflexivity|]. apply filter_In. split; [exact I|reflexivity].
      * specialize (IH (known ++ [c :: n])). rewrite <- app_assoc in IH. cbn [app] in IH. rewrite <- IH; rewrite !filter_app; cbn [filter is_empty negb].
        -- rewrite !app_length. cbn [length]. lia.
        -- clear - KN I. assert (J : ~ In (c :: n) (filter (fun m => negb (is_empty m)) known)) by (intro Q; apply filter_In in Q; apply I, Q).
           apply NoDup_Add with (a := c :: n) (l := filter (fun m => negb (is_empty m)) known); [|split; assumption].
           rewrite <- (app_nil_r (filter _ known)) at 1. apply Add_app.
Qed.

(** ** Escape sequences *)
Fixpoint has_esc (s : bytes) : bool :=
  match s with
  | c :: s1 => match s1 with d :: _ => ((c =? 92) && (d =? 98)) || has_esc s1 | [] => false end
  | [] => false
  end.
Lemma parse_esc_id : forall s, has_esc s = false -> parse_esc false s = s.
Proof.
  induction s as [|c s IH]; intro H; [reflexivity|]. destruct s as [|d s]; [reflexivity|].
  change (has_esc (c :: d :: s)) with (((c =? 92) && (d =? 98)) || has_esc (d :: s)) in H. apply orb_false_iff in H. destruct H as (H1 & H2).
  change (parse_esc false (c :: d :: s)) with (if (c =? 92) && (d =? 98) then parse_esc true s else c :: parse_esc false (d :: s)).
  rewrite H1, (IH H2). reflexivity.
Qed.

(** ** The pass over entities *)
Definition lit (e : sent) : bool := se_light e && negb (is_empty (se_name e)).
Record one_ok (start max : Z) (t : table) (e e2 : sent) (t2 : table) : Prop := {
  oo_tab : tab_ok start t2;
  oo_ext : exists ext, t2 = t ++ ext;
  oo_max : (forall p, In p t -> snd p < max) -> forall p, In p t2 -> snd p < max;
  oo_keep : se_light e2 = se_light e /\ se_shadow e2 = se_shadow e /\ se_name e2 = parse_esc false (se_name e);
  oo_style : if lit e then exists s, se_style e2 = Some s /\ In (se_name e, s) t2 else se_style e2 = se_style e;
  oo_shad : if se_shadow e then exists s, se_shadstyle e2 = Some s /\ In (se_name e, s) t2 /\ (se_name e = [] -> s = start + Z.of_nat (length t))
            else se_shadstyle e2 = se_shadstyle e
}.
Lemma style_max : forall start max t n s t2, tab_ok start t -> style_for start max t n = Some (s, t2) -> (forall p, In p t -> snd p < max) -> forall p, In p t2 -> snd p < max.
Proof.
  intros start max t n s t2 OK E B p I. destruct (style_for_spec start max t n s t2 OK E) as (_ & _ & [(-> & _)|(-> & _ & LT & _)]); [apply B, I|].
  apply in_app_or in I. destruct I as [I|[<-|[]]]; [apply B, I|exact LT].
Qed.
Lemma pass_one_ok : forall start max t e e2 t2, tab_ok start t -> pass_one start max t e = Some (e2, t2) -> one_ok start max t e e2 t2.
Proof.
  intros start max t e e2 t2 OK H. unfold pass_one in H. fold (lit e) in H. destruct (lit e) eqn:L.
  - destruct (style_for start max t (se_name e)) as [(s & t1)|] eqn:E; [|discriminate].
    destruct (style_for_spec _ _ _ _ _ _ OK E) as (OK1 & I1 & C1). pose proof (style_max _ _ _ _ _ _ OK E) as M1.
    assert (X1 : exists ext, t1 = t ++ ext) by (destruct C1 as [(-> & _)|(-> & _)]; [exists []; symmetry; apply app_nil_r|eexists; reflexivity]).
    assert (NE : se_name e <> []) by (unfold lit in L; intro Q; rewrite Q, andb_false_r in L; discriminate).
    cbn [set_style se_shadow se_name] in H. destruct (se_shadow e) eqn:SH.
    + destruct (style_for start max t1 (se_name e)) as [(s2 & t3)|] eqn:F; [|discriminate]. injection H as <- <-.
      destruct (style_for_spec _ _ _ _ _ _ OK1 F) as (OK3 & I3 & C3). pose proof (style_max _ _ _ _ _ _ OK1 F) as M3.
      assert (X3 : exists ext, t3 = t1 ++ ext) by (destruct C3 as [(-> & _)|(-> & _)]; [exists []; symmetry; apply app_nil_r|eexists; reflexivity]).
      constructor; cbn; rewrite ?L, ?SH; auto.
      * destruct X1 as (x & ->), X3 as (y & ->). exists (x ++ y). rewrite app_assoc. reflexivity.
      * exists s. split; [reflexivity|]. destruct X3 as (y & ->). apply in_or_app. left. exact I1.
      * exists s2. split; [reflexivity|]. split; [exact I3|]. congruence.
    + injection H as <- <-. constructor; cbn; rewrite ?L, ?SH; auto. exists s. auto.
  - destruct (se_shadow e) eqn:SH.
    + destruct (style_for start max t (se_name e)) as [(s2 & t3)|] eqn:F; [|discriminate]. injection H as <- <-.
      destruct (style_for_spec _ _ _ _ _ _ OK F) as (OK3 & I3 & C3). pose proof (style_max _ _ _ _ _ _ OK F) as M3.
      constructor; cbn; rewrite ?L, ?SH; auto.
      * destruct C3 as [(-> & _)|(-> & _)]; [exists []; symmetry; apply app_nil_r|eexists; reflexivity].
      * exists s2. split; [reflexivity|]. split; [exact I3|]. intro Q. destruct C3 as [(_ & NE & _)|(_ & -> & _)]; [congruence|reflexivity].
    + injection H as <- <-. constructor; cbn; rewrite ?L, ?SH; auto. exists []. symmetry. apply app_nil_r.
Qed.
Definition e0 := mkS false [] false None None.
Definition shad (e : sent) : Z := match se_shadstyle e with Some s => s | None => 0 end.
Record all_ok (start max : Z) (t : table) (es es2 : list sent) (t2 : table) : Prop := {
  ao_tab : tab_ok start t2;
  ao_ext : exists ext, t2 = t ++ ext;
  ao_max : (forall p, In p t -> snd p < max) -> forall p, In p t2 -> snd p < max;
  ao_len : length es2 = length es;
  ao_each : forall i, (i < length es)%nat -> let e := nth i es e0 in let e2 := nth i es2 e0 in
    (se_light e2 = se_light e /\ se_shadow e2 = se_shadow e /\ se_name e2 = parse_esc false (se_name e)) /\
    (if lit e then exists s, se_style e2 = Some s /\ In (se_name e, s) t2 else se_style e2 = se_style e) /\
    (if se_shadow e then exists s, se_shadstyle e2 = Some s /\ In (se_name e, s) t2 else se_shadstyle e2 = se_shadstyle e);
  ao_fresh : forall i, (i < length es)%nat -> se_shadow (nth i es e0) = true -> se_name (nth i es e0) = [] -> start + Z.of_nat (length t) <= shad (nth i es2 e0);
  ao_order : forall i j, (i < j < length es)%nat -> se_shadow (nth i es e0) = true -> se_shadow (nth j es e0) = true -> se_name (nth j es e0) = [] ->
    shad (nth i es2 e0) < shad (nth j es2 e0)
}.
Lemma pass_ok : forall start max es t es2 t2, tab_ok start t -> pass start max t es = Some (es2, t2) -> all_ok start max t es es2 t2.
Proof.
  intros start max. induction es as [|e es IH]; intros t es2 t2 OK H; cbn [pass] in H.
  - injection H as <- <-. constructor; cbn [length]; auto; try (intros; lia). exists []. symmetry. apply app_nil_r.
  - destruct (pass_one start max t e) as [(e1 & t1)|] eqn:E; [|discriminate]. destruct (pass start max t1 es) as [(r & t3)|] eqn:F; [|discriminate]. injection H as <- <-.
    destruct (pass_one_ok _ _ _ _ _ _ OK E) as [O1 (x & O2) O3 O4 O5 O6]. destruct (IH t1 r t3 O1 F) as [A1 (y & A2) A3 A4 A5 A6 A7].
    assert (LE : (length t <= length t1)%nat) by (rewrite O2, app_length; lia).
    assert (UP : forall p, In p t1 -> In p t3) by (intros p I; rewrite A2; apply in_or_app; left; exact I).
    constructor; auto.
    + exists (x ++ y). rewrite A2, O2, app_assoc. reflexivity.
    + cbn [length]. lia.
    + intros [|i] Q; cbn [nth]; [|apply A5; cbn in Q; lia]. split; [exact O4|]. split.
      * destruct (lit e); [|exact O5]. destruct O5 as (s & S1 & S2). exists s. auto.
      * destruct (se_shadow e); [|exact O6]. destruct O6 as (s & S1 & S2 & _). exists s. auto.
    + intros [|i] Q SH NM; cbn [nth] in *.
      * rewrite SH in O6. destruct O6 as (s & S1 & _ & S3). unfold shad. rewrite S1, (S3 NM). lia.
      * cbn in Q. specialize (A6 i ltac:(lia) SH NM). lia.
    + intros [|i] [|j] Q SI SJ NM; cbn [nth length] in *; try lia.
      * rewrite SI in O6. destruct O6 as (s & S1 & S2 & _). specialize (A6 j ltac:(lia) SJ NM). pose proof (tab_range start t1 _ O1 S2) as R. cbn [snd] in R.
        unfold shad at 1. rewrite S1. lia.
      * apply A7; auto. lia.
Qed.
Lemma pass_one_again : forall start max t e e2 t2, has_esc (se_name e) = false -> pass_one start max t e = Some (e2, t2) -> pass_one start max t e2 = Some (e2, t2).
Proof.
  intros start max t e e2 t2 NE H. unfold pass_one in *. destruct (se_light e && negb (is_empty (se_name e))) eqn:L.
  - destruct (style_for start max t (se_name e)) as [(s & t1)|] eqn:E; [|discriminate]. cbn [set_style se_shadow se_name] in H. destruct (se_shadow e) eqn:SH.
    + destruct (style_for start max t1 (se_name e)) as [(s2 & t3)|] eqn:F; [|discriminate]. injection H as <- <-.
      cbn. rewrite (parse_esc_id _ NE), L, E. cbn. rewrite SH, (parse_esc_id _ NE), F. unfold esc_name; cbn; rewrite ?SH, ?(parse_esc_id _ NE), ?(parse_esc_id _ NE); reflexivity.
    + injection H as <- <-. cbn. rewrite (parse_esc_id _ NE), L, E. cbn. rewrite SH. unfold esc_name; cbn; rewrite ?SH, ?(parse_esc_id _ NE), ?(parse_esc_id _ NE); reflexivity.
  - destruct (se_shadow e) eqn:SH.
    + destruct (style_for start max t (se_name e)) as [(s2 & t3)|] eqn:F; [|discriminate]. injection H as <- <-.
      cbn. rewrite (parse_esc_id _ NE), L. cbn. rewrite SH, (parse_esc_id _ NE), F. unfold esc_name; cbn; rewrite ?SH, ?(parse_esc_id _ NE), ?(parse_esc_id _ NE); reflexivity.
    + injection H as <- <-. cbn. rewrite (parse_esc_id _ NE), L. cbn. rewrite SH. unfold esc_name; cbn; rewrite ?SH, ?(parse_esc_id _ NE), ?(parse_esc_id _ NE); reflexivity.
Qed.
