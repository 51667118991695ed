(* Lemmas about DecompEntModel. *)
From Coq Require Import String Ascii List Arith NArith ZArith Bool Lia.
Import ListNotations.
From Verif Require Import Base NumCastModel ParserModel EntModel SettingsModel MapMergeModel DecompEntModel.
Local Open Scope list_scope.

Section keys.
Context {V : Type} (vec3 : bytes -> option (option V)).
Definition is_style (kv : bytes * bytes) : bool := beq (fst kv) (mtext "style").
Definition is_origin (kv : bytes * bytes) : bool := beq (fst kv) (mtext "origin").
Lemma loop_app portal : forall a b st, key_loop vec3 portal st (a ++ b) = rbind (key_loop vec3 portal st a) (fun st => key_loop vec3 portal st b).
Proof.
  induction a as [|kv a IH]; intros b st; [reflexivity|]. cbn [app key_loop]. destruct (key_step vec3 portal st kv) as [st'| |]; cbn [rbind]; [apply IH|reflexivity|reflexivity].
Qed.
(** Without a model so far, all keys are written. *)
Lemma loop_plain portal : forall d st, (forall kv, In kv d -> is_model kv = None) -> (k_model st <= 0)%Z ->
  key_loop vec3 portal st d = ROk (mkK (k_out st ++ filter (fun kv => negb (portal && is_style kv)) d) (k_model st) (k_offset st)).
Proof.
  induction d as [|kv d IH]; intros [out m off] H M; cbn [key_loop filter k_out k_model k_offset] in *; [rewrite app_nil_r; reflexivity|].
  unfold key_step. rewrite (H kv (or_introl eq_refl)). cbn [k_out k_model k_offset]. assert ((0 <? m)%Z = false) as -> by (apply Z.ltb_ge; lia). cbn [andb].
  unfold is_style in *. destruct (portal && beq (fst kv) (mtext "style")); cbn [negb rbind].
  - rewrite IH; [reflexivity|intros k K; apply H; right; exact K|exact M].
  - rewrite IH; [cbn [k_out k_model k_offset]; rewrite <- app_assoc; reflexivity|intros k K; apply H; right; exact K|exact M].
Qed.
(** With a model, origins are not. *)
Lemma loop_brush : forall d st, (forall kv, In kv d -> is_model kv = None) -> (0 < k_model st)%Z -> (forall kv, In kv d -> is_origin kv = false) ->
  key_loop vec3 false st d = ROk (mkK (k_out st ++ d) (k_model st) (k_offset st)).
Proof.
  induction d as [|kv d IH]; intros [out m off] H M O; cbn [key_loop k_out k_model k_offset] in *; [rewrite app_nil_r; reflexivity|].
  unfold key_step. rewrite (H kv (or_introl eq_refl)). cbn [k_out k_model k_offset andb]. pose proof (O kv (or_introl eq_refl)) as OK. unfold is_origin in OK. rewrite OK, andb_false_r. cbn [rbind].
  rewrite IH; [cbn [k_out k_model k_offset]; rewrite <- app_assoc; reflexivity|intros k K; apply H; right; exact K|exact M|intros k K; apply O; right; exact K].
Qed.
End keys.

Lemma filter_true {A} (l : list A) : filter (fun _ => true) l = l.
Proof. induction l as [|a l IH]; [reflexivity|cbn [filter]; f_equal; exact IH]. Qed.

(** ** Area portals *)
Definition portals (i : nat) (brushes : list Z) : list nat := map fst (filter (fun q => areaportal (snd q)) (combine (seq i (length brushes)) brushes)).
Lemma portal_nth : forall brushes n i, (1 <= n < 2 ^ 64)%Z -> portal_brush n i brushes = nth_error (portals i brushes) (Z.to_nat (n - 1)).
Proof.
  induction brushes as [|c l IH]; intros n i H; cbn [portal_brush]; unfold portals; cbn [length seq combine filter snd]; [destruct (Z.to_nat (n - 1)); reflexivity|].
  destruct (areaportal c); [|apply IH; exact H]. cbn [map fst]. destruct (Z.eqb_spec n 1) as [->|N]; [reflexivity|]. rewrite Z.mod_small by lia. rewrite IH by lia.
  replace (Z.to_nat (n - 1)) with (S (Z.to_nat (n - 1 - 1))) by lia. reflexivity.
Qed.
Lemma portal_big : forall brushes n i, (Z.of_nat (length brushes) < n)%Z -> (n < 2 ^ 64)%Z -> portal_brush n i brushes = None.
Proof.
  induction brushes as [|c l IH]; intros n i H L; cbn [portal_brush]; [reflexivity|]. cbn [length] in H. destruct (areaportal c); [|apply IH; lia].
  assert ((n =? 1)%Z = false) as -> by (apply Z.eqb_neq; lia). rewrite Z.mod_small by lia. apply IH; lia.
Qed.
Lemma portal_zero : forall brushes i, (Z.of_nat (length brushes) < 2 ^ 64)%Z -> portal_brush 0 i brushes = None.
Proof.
  induction brushes as [|c l IH]; intros i H; cbn [portal_brush]; [reflexivity|]. cbn [length] in H. destruct (areaportal c); [|apply IH; lia].
  cbn [Z.eqb]. change ((0 - 1) mod 2 ^ 64)%Z with (2 ^ 64 - 1)%Z. apply portal_big; lia.
Qed.
Lemma portals_all : forall brushes i, (forall c, In c brushes -> areaportal c = true) -> portals i brushes = seq i (length brushes).
Proof.
  induction brushes as [|c l IH]; intros i H; unfold portals; cbn [length seq combine filter snd]; [reflexivity|]. rewrite (H c (or_introl eq_refl)). cbn [map fst]. f_equal. apply IH. intros q Q. apply H. right. exact Q.
Qed.
Lemma groups_long : forall (gs : list (list Z)), (forall g, In g gs -> g <> []) -> (length gs <= length (concat gs))%nat.
Proof. induction gs as [|g gs IH]; intros H; [apply le_n|]. cbn [concat length]. rewrite app_length. specialize (IH (fun g G => H g (or_intror G))). destruct g as [|c g]; [exfalso; apply (H [] (or_introl eq_refl)); reflexivity|]. cbn [length]. lia. Qed.
Lemma groups_longer : forall (gs : list (list Z)), (forall g, In g gs -> g <> []) -> (exists g, In g gs /\ (2 <= length g)%nat) -> (length gs < length (concat gs))%nat.
Proof.
  induction gs as [|g gs IH]; intros H (g' & I & L); [destruct I|]. cbn [concat length]. rewrite app_length. pose proof (groups_long gs (fun g G => H g (or_intror G))) as B. destruct I as [->|I]; [lia|].
  specialize (IH (fun g G => H g (or_intror G)) (ex_intro _ g' (conj I L))). assert (g <> []) by (apply H; left; reflexivity). destruct g; [contradiction|cbn [length]; lia].
Qed.
Lemma groups_one : forall (gs : list (list Z)), (forall g, In g gs -> length g = 1%nat) -> length (concat gs) = length gs.
Proof. induction gs as [|g gs IH]; intros H; [reflexivity|]. cbn [concat length]. rewrite app_length, (H g (or_introl eq_refl)), IH by (intros q Q; apply H; right; exact Q). reflexivity. Qed.

(** ** Brushes of a model *)
Definition is_portal (brushes : list Z) (i : nat) : Prop := exists c, nth_error brushes i = Some c /\ areaportal c = true.
Lemma visit_ok brushes : forall l acc, (forall i, In i l -> (i < length brushes)%nat) -> NoDup acc -> exists r, visit_all brushes acc l = ROk r /\ NoDup r /\
  forall i, In i r <-> In i acc \/ (In i l /\ ~ is_portal brushes i).
Proof.
  induction l as [|j l IH]; intros acc H ND; cbn [visit_all].
  - exists acc. split; [reflexivity|]. split; [exact ND|]. intros i. split; [auto|intros [I|[[] _]]; exact I].
  - unfold visit. destruct (nth_error brushes j) as [c|] eqn:E; [|apply nth_error_None in E; specialize (H j (or_introl eq_refl)); lia].
    assert (HL : forall i, In i l -> (i < length brushes)%nat) by (intros i I; apply H; right; exact I).
    assert (STEP : exists acc', (if areaportal c then ROk acc else if existsb (Nat.eqb j) acc then ROk acc else ROk (acc ++ [j])) = ROk acc' /\ NoDup acc' /\ forall i, In i acc' <-> In i acc \/ (i = j /\ ~ is_portal brushes i)).
    { destruct (areaportal c) eqn:A.
      - exists acc. split; [reflexivity|]. split; [exact ND|]. intros i. split; [auto|intros [I|[-> N]]; [exact I|exfalso; apply N; exists c; auto]].
      - destruct (existsb (Nat.eqb j) acc) eqn:X.
        + apply existsb_exists in X. destruct X as (q & Q & EQ). apply Nat.eqb_eq in EQ. subst q. exists acc. split; [reflexivity|]. split; [exact ND|]. intros i. split; [auto|intros [I|[-> _]]; assumption].
        + exists (acc ++ [j]). split; [reflexivity|]. split.
          * assert (NI : ~ In j acc) by (intros I; assert (existsb (Nat.eqb j) acc = true); [apply existsb_exists; exists j; split; [exact I|apply Nat.eqb_refl]|congruence]).
            apply NoDup_rev in ND. rewrite <- (rev_involutive (acc ++ [j])). apply NoDup_rev. rewrite rev_app_distr. cbn [rev app]. constructor; [rewrite <- in_rev; exact NI|exact ND].
          * intros i. rewrite in_app_iff. cbn [In]. split; [intros [I|[<-|[]]]; [auto|right; split; [reflexivity|]; intros (c' & E' & A'); congruence]|intros [I|[-> _]]; auto]. }
    destruct STEP as (acc' & -> & ND' & M). cbn [rbind]. destruct (IH acc' HL ND') as (r & R1 & R2 & R3). exists r. split; [exact R1|]. split; [exact R2|].
    intros i. rewrite R3, M. cbn [In]. split; [intros [[I|[-> N]]|[I N]]; auto|intros [I|[[<-|I] N]]; auto].
Qed.
Lemma visit_bad brushes : forall l acc, (exists i, In i l /\ (length brushes <= i)%nat) -> visit_all brushes acc l = RUB.
Proof.
  induction l as [|j l IH]; intros acc (i & I & L); [destruct I|]. cbn [visit_all]. unfold visit. destruct (nth_error brushes j) as [c|] eqn:E; [|reflexivity].
  destruct I as [->|I]; [apply nth_error_None in L; congruence|]. destruct (areaportal c); [|destruct (existsb (Nat.eqb j) acc)]; cbn [rbind]; apply IH; exists i; auto.
Qed.
