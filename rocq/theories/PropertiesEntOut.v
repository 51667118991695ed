(* Properties of the entities and models that qbsp writes (C131). *)
From Coq Require Import String.
From Coq Require Import List Arith NArith Bool Lia.
From Verif Require Import Base ParserModel EntModel EntProofs CmdlibModel EntOutModel EntOutProofs.
Import ListNotations.
Local Open Scope string_scope.
Local Open Scope list_scope.
Local Open Scope nat_scope.

(** * C131: models and -onlyents *)

Definition world_classes : list string :=
  ["func_detail"; "func_group"; "func_detail_illusionary"; "func_detail_wall"; "func_detail_fence"; "func_illusionary_visblocker"].
Definition eqb_text (a b : bytes) : bool := if list_eq_dec N.eq_dec a b then true else false.
Definition of_classes (l : list string) (e : ment) : bool :=
  existsb (fun s => eqb_text (map lower (ed_get (txt "classname") (me_pairs e))) (map lower (txt s))) l.
(** The entity becomes a model of its own: it has a brush that is no origin brush, its brushes do not go to
    the world, and it is not discarded because the texture of its first brush ends in trigger. *)
Definition own_model (v : env) (e : ment) : bool :=
  let bs := filter (fun b => negb (mb_origin b)) (me_brushes e) in
  negb (length bs =? 0) && negb (of_classes (world_classes ++ ["func_areaportal"%string]) e) &&
  negb (ev_notrigger v && match bs with b :: _ => eqb_text (skipn (length (mb_tex b) - 7) (mb_tex b)) (txt "trigger") | [] => false end).

Lemma iequals_text a : forall b, iequals a b = eqb_text (map lower a) (map lower b).
Proof.
  induction a as [|x a IH]; intros [|y b]; try reflexivity. cbn [iequals map]. rewrite IH. unfold eqb_text.
  destruct (N.eqb_spec (lower x) (lower y)) as [E|E]; cbn [andb].
  - destruct (list_eq_dec N.eq_dec (map lower a) (map lower b)) as [Q|Q], (list_eq_dec N.eq_dec (lower x :: map lower a) (lower y :: map lower b)) as [R|R]; try reflexivity; exfalso; [apply R; congruence|injection R; auto].
  - destruct (list_eq_dec N.eq_dec _ _) as [R|R]; [injection R; congruence|reflexivity].
Qed.
Lemma world_brush_classes e : world_brush e = of_classes world_classes e.
Proof. unfold world_brush, of_classes, is_class, classname, world_classes. cbn [existsb]. rewrite !iequals_text, orb_false_r, !orb_assoc. reflexivity. Qed.
Lemma skip_classes e : world_brush e || area_portal e = of_classes (world_classes ++ ["func_areaportal"%string]) e.
Proof.
  rewrite world_brush_classes. unfold of_classes. rewrite existsb_app. cbn [existsb]. rewrite orb_false_r. unfold area_portal, is_class, classname. rewrite iequals_text. reflexivity.
Qed.
Lemma starts_app p : forall s, starts (fun c => c) p s = true <-> exists r, s = p ++ r.
Proof.
  induction p as [|x p IH]; intros s; cbn [starts app]; [split; [intros _; exists s; reflexivity|reflexivity]|].
  destruct s as [|y s]; [split; [discriminate|intros (r & Q); discriminate]|]. rewrite andb_true_iff, N.eqb_eq, IH. split.
  - intros (-> & r & ->). exists r. reflexivity.
  - intros (r & Q). injection Q as -> ->. eauto.
Qed.
Lemma ends_trigger_text s : ends_trigger s = eqb_text (skipn (length s - 7) s) (txt "trigger").
Proof.
  assert (H : ends_trigger s = true <-> exists r, s = r ++ txt "trigger").
  { unfold ends_trigger. rewrite starts_app. split.
    - intros (r & Q). exists (rev r). rewrite <- (rev_involutive s), Q, rev_app_distr, rev_involutive. reflexivity.
    - intros (r & ->). exists (rev r). apply rev_app_distr. }
  unfold eqb_text. destruct (list_eq_dec N.eq_dec _ _) as [E|E].
  - apply H. exists (firstn (length s - 7) s). rewrite <- E. symmetry. apply firstn_skipn.
  - destruct (ends_trigger s); [|reflexivity]. destruct (proj1 H eq_refl) as (r & ->). exfalso. apply E.
    rewrite app_length. change (length (txt "trigger")) with 7. replace (length r + 7 - 7) with (length r) by lia. rewrite skipn_app, skipn_all, Nat.sub_diag. reflexivity.
Qed.
Lemma bmodel_own v e e' : me_brushes e' = solid_brushes (me_brushes e) -> classname e' = classname e -> bmodel v e' = own_model v e.
Proof.
  intros B C. unfold bmodel, own_model. rewrite (class_world _ _ C), (class_area _ _ C), skip_classes. unfold is_trigger. rewrite B. fold (solid_brushes (me_brushes e)).
  cbv zeta. destruct (solid_brushes (me_brushes e)) as [|b bs]; cbn [is_nil length Nat.eqb negb]; [reflexivity|]. rewrite ends_trigger_text. reflexivity.
Qed.

(** The entity after external maps are loaded: another entity only if it is a misc_external_map. *)
Definition loaded (v : env) (e e1 : ment) : Prop := load_external v e = Some e1.
Lemma map_opt_F2 {A B} (f : A -> option B) l : forall l', map_opt f l = Some l' -> Forall2 (fun x y => f x = Some y) l l'.
Proof.
  induction l as [|x r IH]; intros l' E; cbn [map_opt] in E; [injection E as <-; constructor|].
  destruct (f x) eqn:F; [|discriminate]. destruct (map_opt f r); [|discriminate]. injection E as <-. constructor; auto.
Qed.
Lemma map_opt_cons {A B} (f : A -> option B) x r l : map_opt f (x :: r) = Some l -> exists y r', l = y :: r' /\ f x = Some y /\ map_opt f r = Some r'.
Proof. cbn [map_opt]. destruct (f x); [|discriminate]. destruct (map_opt f r); [|discriminate]. intros E. injection E as <-. eauto. Qed.
Lemma loaded_model v e e1 : load_external v e = Some e1 -> me_model e1 = me_model e.
Proof.
  unfold load_external. destruct (is_class _ e); [|intros E; injection E as <-; reflexivity]. destruct (is_nil _ || _ || _); [discriminate|].
  destruct (ev_external v _) as [bs|]; [|discriminate]. destruct (is_nil bs); [discriminate|]. intros E. injection E as <-. reflexivity.
Qed.

Lemma step2_class e e' : step2 e e' -> classname e' = classname e.
Proof. intros (_ & _ & F & _). eapply frame_class; [exact F|]. cbn. intuition discriminate. Qed.

(** What compile does, in one lemma. *)
Lemma compile_spec v hs w r es n : compile v hs (w :: r) = Some (es, n) -> hs <> [] -> Forall (fun e => me_model e = None) (w :: r) ->
  (forall w1, loaded v w w1 -> of_classes (world_classes ++ ["func_areaportal"%string]) w1 = false) ->
  exists w1 r1 w2 r2 w' r', loaded v w w1 /\ map_opt (load_external v) r = Some r1 /\ process_brushes v [] (w1 :: r1) = w2 :: r2 /\ step2 w1 w2 /\ Forall2 step2 r1 r2 /\
    create_hulls v hs (w2 :: r2) 0 0 = Some (es, n) /\ world_brush w2 || area_portal w2 = false /\ me_model w2 = None /\ Forall (fun e => me_model e = None) r2 /\
    es = w' :: r' /\ stepW v w2 w' /\ Forall2 (stepH v) r2 r' /\ me_model w' = Some 0 /\ n = 1 + models v r2 /\ numbered v 1 r'.
Proof.
  unfold compile. intros E H F W. destruct (map_opt (load_external v) (w :: r)) as [l|] eqn:M; [|discriminate].
  destruct (map_opt_cons _ _ _ _ M) as (w1 & r1 & -> & L1 & L2). destruct (existsb _ (w1 :: r1)); [discriminate|].
  destruct (process_brushes_spec v (w1 :: r1) []) as (l2 & P & F2). cbn [app] in P. destruct l2 as [|w2 r2]; [inversion F2|]. assert (S1 : step2 w1 w2) by (inversion F2; assumption). assert (S2 : Forall2 step2 r1 r2) by (inversion F2; assumption). rewrite P in E.
  assert (MW : me_model w2 = None) by (destruct S1 as (_ & -> & _); rewrite (loaded_model v w w1 L1); inversion F; assumption).
  assert (MR : Forall (fun e => me_model e = None) r2).
  { inversion F as [|x y _ F1]; subst. apply map_opt_F2 in L2. clear -L2 S2 F1. revert r2 S2. induction L2 as [|e e1 r r1 L LL IH]; intros r2 S2; inversion S2 as [|a b c d S S']; subst; constructor; inversion F1; subst.
    - destruct S as (_ & -> & _). rewrite (loaded_model v e e1 L). assumption.
    - auto. }
  assert (WW : world_brush w2 || area_portal w2 = false) by (rewrite (class_world w1 w2), (class_area w1 w2) by (apply step2_class; exact S1); rewrite skip_classes; apply W; exact L1).
  destruct (create_hulls_spec v hs w2 r2 0 0 es n E WW) as (w' & r' & -> & A & B & C); [rewrite MW; auto|]. destruct C as (C1 & C2 & C3); [auto|].
  exists w1, r1, w2, r2, w', r'. unfold loaded. auto 20.
Qed.

Lemma numbered_nth v l : forall b i e, numbered v b l -> nth_error l i = Some e ->
  if bmodel v e then me_model e = Some (b + length (filter (bmodel v) (firstn i l))) /\ assoc (txt "model") (me_pairs e) = Some (modelkey (b + length (filter (bmodel v) (firstn i l))))
  else me_model e = None.
Proof.
  induction l as [|x l IH]; intros b i e F E; [destruct i; discriminate|]. cbn [numbered] in F. destruct i as [|i]; cbn [nth_error firstn filter] in *.
  - injection E as <-. destruct (bmodel v x); [rewrite Nat.add_0_r; tauto|tauto].
  - destruct (bmodel v x).
    + destruct F as (_ & _ & F). specialize (IH (S b) i e F E). cbn [length]. replace (b + S (length (filter (bmodel v) (firstn i l)))) with (S b + length (filter (bmodel v) (firstn i l))) by lia. exact IH.
    + destruct F as (_ & F). apply IH; assumption.
Qed.
Lemma Forall2_nth {A B} (P : A -> B -> Prop) l m : Forall2 P l m -> forall i y, nth_error m i = Some y -> exists x, nth_error l i = Some x /\ P x y.
Proof. induction 1; intros [|i] z E; cbn in *; try discriminate; [injection E as <-; eauto|eauto]. Qed.
Lemma bmodel_firstn v l l' : Forall2 (fun e e' => bmodel v e' = own_model v e) l l' -> forall i, length (filter (bmodel v) (firstn i l')) = length (filter (own_model v) (firstn i l)).
Proof. induction 1 as [|e e' l l' H F IH]; intros [|i]; cbn [firstn filter]; try reflexivity. rewrite H. destruct (own_model v e); cbn [length]; congruence. Qed.

(** Whatever the hulls: the world is model 0, and the entities with a model of their own have the numbers from
    1 on in the order of the map, which their key "model" names; there are no other models. *)
Theorem C131_models : forall v hs w r es n, compile v hs (w :: r) = Some (es, n) -> hs <> [] -> Forall (fun e => me_model e = None) (w :: r) ->
  (forall w1, loaded v w w1 -> of_classes (world_classes ++ ["func_areaportal"%string]) w1 = false) ->
  exists r1 w' r', Forall2 (loaded v) r r1 /\ es = w' :: r' /\ length r' = length r /\ me_model w' = Some 0 /\ n = 1 + length (filter (own_model v) r1) /\
    forall i e e', nth_error r1 i = Some e -> nth_error r' i = Some e' ->
      let k := 1 + length (filter (own_model v) (firstn i r1)) in
      if own_model v e then me_model e' = Some k /\ ed_get (txt "model") (me_pairs e') = 42%N :: dec k
      else me_model e' = None /\ ed_get (txt "model") (me_pairs e') = ed_get (txt "model") (me_pairs e).
Proof.
  intros v hs w r es n E H F W. destruct (compile_spec v hs w r es n E H F W) as (w1 & r1 & w2 & r2 & w' & r' & L1 & L2 & P & S1 & S2 & _ & _ & _ & _ & -> & _ & B & C1 & C2 & C3).
  apply map_opt_F2 in L2. exists r1, w', r'.
  assert (OB : Forall2 (fun e e' => bmodel v e' = own_model v e) r1 r') .
  { eapply Forall2_mid; [|exact S2|exact B]. intros a b c X Y. rewrite (stepH_bmodel v b c Y). apply bmodel_own; [apply X|apply step2_class; exact X]. }
  assert (OB2 : Forall2 (fun e e' => bmodel v e' = own_model v e) r1 r2).
  { clear -S2. induction S2 as [|a b l l' X Y IH]; constructor; [|exact IH]. apply bmodel_own; [apply X|apply step2_class; exact X]. }
  assert (LEN : forall A B (P : A -> B -> Prop) l m, Forall2 P l m -> length m = length l) by (induction 1; cbn; congruence).
  refine (conj L2 (conj eq_refl (conj _ (conj C1 (conj _ _))))).
  - rewrite (LEN _ _ _ _ _ OB). apply (LEN _ _ _ _ _ L2).
  - rewrite C2. unfold models. assert (X := bmodel_firstn v r1 r2 OB2 (length r1)). rewrite firstn_all in X. rewrite <- (LEN _ _ _ _ _ OB2), firstn_all in X. congruence.
  - intros i e e' N1 N2 k. assert (X := numbered_nth v r' 1 i e' C3 N2). rewrite (bmodel_firstn v r1 r' OB i) in X. fold k in X.
    destruct (Forall2_nth _ _ _ OB i e' N2) as (e0 & N3 & Q). rewrite N1 in N3. injection N3 as <-. rewrite Q in X. destruct (own_model v e) eqn:O.
    + destruct X as (X1 & X2). split; [exact X1|]. rewrite get_assoc, X2. reflexivity.
    + split; [exact X|]. destruct (Forall2_nth _ _ _ B i e' N2) as (e2 & N4 & Y). destruct (Forall2_nth _ _ _ S2 i e2 N4) as (e3 & N5 & Z). rewrite N1 in N5. injection N5 as <-.
      destruct Y as (Y1 & Y2). destruct Z as (Z1 & Z2 & Z3 & Z4).
      transitivity (ed_get (txt "model") (me_pairs e2)).
      * apply (frame_get [txt "_lmscale"; txt "mins"; txt "maxs"; txt "style"]); [|cbn; intuition discriminate]. apply Y2.
        -- split; right; cbn; auto.
        -- left. cbn. auto.
        -- right. assert (S' : step2 e e2) by (unfold step2; auto). rewrite (bmodel_own v e e2 Z1 (step2_class _ _ S')). exact O.
      * apply (frame_get [txt "origin"]); [exact Z3|cbn; intuition discriminate].
Qed.
Print Assumptions C131_models.

(** Different numbers have different names. *)
Theorem C131_names : forall m n, 42%N :: dec m = 42%N :: dec n -> m = n.
Proof. intros m n E. injection E as E. apply dec_inj. exact E. Qed.
Print Assumptions C131_names.

(** -onlyents gives all entities the keys and values that a compile gives them, except for "origin"; and for
    "_lmscale" if the option is given and "style" if there are area portals.  This needs that no entity has
    only origin brushes and that triggers are not discarded. *)
Theorem C131_onlyents : forall v hs w r es n es2, compile v hs (w :: r) = Some (es, n) -> only_ents v (w :: r) = Some es2 ->
  hs <> [] -> Forall (fun e => me_model e = None) (w :: r) ->
  (forall w1, loaded v w w1 -> of_classes (world_classes ++ ["func_areaportal"%string]) w1 = false) ->
  ev_notrigger v = false ->
  (forall e e1, In e r -> loaded v e e1 -> me_brushes e1 <> [] -> exists b, In b (me_brushes e1) /\ mb_origin b = false) ->
  length es = length es2 /\
  forall i e e2 k, nth_error es i = Some e -> nth_error es2 i = Some e2 -> k <> txt "origin" ->
    k <> txt "_lmscale" \/ ev_lmscale v = None -> k <> txt "style" \/ (forall x, In x (w :: r) -> forall x1, loaded v x x1 -> of_classes ["func_areaportal"%string] x1 = false) ->
    ed_has k (me_pairs e) = ed_has k (me_pairs e2) /\ ed_get k (me_pairs e) = ed_get k (me_pairs e2).
Proof.
  intros v hs w r es n es2 E O H F W T HB.
  destruct (compile_spec v hs w r es n E H F W) as (w1 & r1 & w2 & r2 & w' & r' & L1 & L2 & P & S1 & S2 & _ & _ & _ & _ & -> & A & B & C1 & C2 & C3).
  destruct (update_ents_spec v r r1 [w] 1 L2) as (u & U1 & U2 & U3 & _).
  unfold only_ents in O. rewrite U1 in O. destruct (existsb _ _) eqn:X in O; [discriminate|]. injection O as <-. cbn [app] in *.
  assert (WN : w1 = w).
  { cbn [existsb] in X. apply orb_false_iff in X. destruct X as [X _]. unfold loaded, load_external in L1. rewrite X in L1. injection L1 as <-. reflexivity. }
  subst w1. apply map_opt_F2 in L2.
  assert (LEN : forall A B (P : A -> B -> Prop) l m, Forall2 P l m -> length m = length l) by (induction 1; cbn; congruence).
  split; [cbn; rewrite (LEN _ _ _ _ _ B), (LEN _ _ _ _ _ S2), (LEN _ _ _ _ _ U2); reflexivity|].
  assert (BR : Forall2 (fun e e' => bmodel v e' = brush_ent e) r1 r').
  { assert (Y : Forall (fun e => solid_brushes (me_brushes e) = [] -> me_brushes e = []) r1).
    { clear -L2 HB. induction L2 as [|e e1 l l1 L LL IH]; constructor.
      - intros Q. destruct (me_brushes e1) as [|b bs] eqn:Q2; [reflexivity|]. exfalso. destruct (HB e e1 (or_introl eq_refl) L) as (x & I & J); [rewrite Q2; discriminate|].
        rewrite Q2 in I. assert (K : In x (solid_brushes (b :: bs))) by (apply filter_In; rewrite J; auto). rewrite Q in K. destruct K.
      - apply IH. intros e' e'' I. apply HB. right. exact I. }
    clear -Y S2 B T. revert r' B. induction S2 as [|e e2 l l2 S F IH]; intros r' B; inversion B as [|a e' c l' X1 X2]; subst; constructor; inversion Y; subst.
    - rewrite (stepH_bmodel v e2 e' X1). unfold bmodel, brush_ent. rewrite T. cbn [andb negb]. rewrite andb_true_r.
      rewrite (class_world e e2), (class_area e e2) by (apply step2_class; exact S). f_equal. destruct S as (-> & _). destruct (me_brushes e) as [|b bs]; [reflexivity|].
      cbn [is_nil]. destruct (solid_brushes (b :: bs)) eqn:Q; [|reflexivity]. exfalso. assert (Z := H1 eq_refl). discriminate.
    - apply IH; assumption. }
  assert (MK : Forall2 (fun e' e2 => assoc (txt "model") (me_pairs e') = assoc (txt "model") (me_pairs e2)) r' u).
  { clear -BR S2 B U2 U3 C3. revert r2 r' u BR S2 B U2 U3 C3. generalize 1. induction r1 as [|e l IH]; intros b r2 r' u BR S2 B U2 U3 C3; inversion U2 as [|a c d ee U U']; inversion BR as [|a' c' d' ee' R R']; inversion S2 as [|a2 c2 d2 ee2 S S']; subst; [constructor|].
    inversion B as [|a3 c3 d3 ee3 X1 X2]; subst. cbn [numbered numberedU] in *. rewrite R in C3. destruct (brush_ent e) eqn:Q.
    - destruct C3 as (_ & C4 & C5). destruct U3 as (U4 & U5). constructor; [congruence|]. eapply IH; eauto.
    - destruct C3 as (_ & C5). constructor; [|eapply IH; eauto].
      transitivity (assoc (txt "model") (me_pairs e)).
      + rewrite (proj2 X1 [txt "_lmscale"; txt "mins"; txt "maxs"; txt "style"]); [|split; right; cbn; auto|left; cbn; auto|right; rewrite <- (stepH_bmodel v c2 c' X1); exact R|cbn; intuition discriminate].
        destruct S as (_ & _ & S3 & _). apply S3. cbn. intuition discriminate.
      + symmetry. apply (U [txt "origin"]); [left; reflexivity|right; exact Q|cbn; intuition discriminate]. }
  assert (AS : forall i e e2 k, nth_error (w' :: r') i = Some e -> nth_error (w :: u) i = Some e2 -> k <> txt "origin" ->
    k <> txt "_lmscale" \/ ev_lmscale v = None -> k <> txt "style" \/ (forall x, In x (w :: r) -> forall x1, loaded v x x1 -> of_classes ["func_areaportal"%string] x1 = false) -> assoc k (me_pairs e) = assoc k (me_pairs e2)).
  { intros i e e2 k N1 N2 K1 K2 K3.
    set (K := (if list_eq_dec N.eq_dec k (txt "_lmscale") then [] else [txt "_lmscale"]) ++ (if list_eq_dec N.eq_dec k (txt "style") then [] else [txt "style"]) ++ [txt "origin"; txt "model"]).
    assert (KO : keys_ok v K).
    { split; [|auto]. unfold K. destruct (list_eq_dec N.eq_dec k (txt "_lmscale")); [left; tauto|right; cbn; auto]. }
    assert (KI : In (txt "origin") K /\ In (txt "model") K) by (unfold K; rewrite !in_app_iff; cbn; tauto).
    assert (KN : k <> txt "model" -> ~ In k K).
    { intros N. unfold K. rewrite !in_app_iff. destruct (list_eq_dec N.eq_dec k (txt "_lmscale")), (list_eq_dec N.eq_dec k (txt "style")); cbn [In]; intuition congruence. }
    assert (FO : forall a b, step2 a b -> frame K (me_pairs a) (me_pairs b)).
    { intros a b (_ & _ & Q & _) k' N. apply Q. intros [<-|[]]. apply N. apply KI. }
    destruct i as [|i]; cbn [nth_error] in N1, N2.
    - injection N1 as <-. injection N2 as <-. destruct (list_eq_dec N.eq_dec k (txt "model")) as [->|NM].
      + rewrite (proj2 A [txt "_lmscale"; txt "mins"; txt "maxs"]); [|split; right; cbn; auto|cbn; intuition discriminate].
        destruct S1 as (_ & _ & S3 & _). apply S3. cbn. intuition discriminate.
      + rewrite (proj2 A K KO k (KN NM)). apply (FO _ _ S1 k (KN NM)).
    - destruct (list_eq_dec N.eq_dec k (txt "model")) as [->|NM].
      + destruct (Forall2_nth _ _ _ MK i e2 N2) as (x & X1 & X2). congruence.
      + destruct (Forall2_nth _ _ _ U2 i e2 N2) as (x & X1 & X2). destruct (Forall2_nth _ _ _ B i e N1) as (y & Y1 & Y2). destruct (Forall2_nth _ _ _ S2 i y Y1) as (z & Z1 & Z2).
        rewrite X1 in Z1. injection Z1 as <-. rewrite (X2 K (proj1 KI) (or_introl (proj2 KI)) k (KN NM)).
        transitivity (assoc k (me_pairs y)); [|apply (FO _ _ Z2 k (KN NM))].
        apply (proj2 Y2 K KO); [|left; apply KI|exact (KN NM)].
        destruct (list_eq_dec N.eq_dec k (txt "style")) as [Q|Q] eqn:QS; [right|left; unfold K; try rewrite QS; rewrite !in_app_iff; cbn [In]; tauto].
        destruct K3 as [K3|K3]; [contradiction|].
        destruct (Forall2_nth _ _ _ L2 i x X1) as (x0 & V1 & V2). assert (V3 := K3 x0 (or_intror (nth_error_In _ _ V1)) x V2).
        rewrite (class_area x y) by (apply step2_class; exact Z2). unfold of_classes in V3. cbn [existsb] in V3. rewrite orb_false_r in V3. unfold area_portal, is_class, classname. rewrite iequals_text. exact V3. }
  intros i e e2 k N1 N2 K1 K2 K3. rewrite !has_assoc, !get_assoc, (AS i e e2 k N1 N2 K1 K2 K3). auto.
Qed.
Print Assumptions C131_onlyents.

Lemma lump_pairs l : forall l', map me_pairs l = map me_pairs l' -> lump_ents l = lump_ents l'.
Proof.
  induction l as [|e l IH]; intros [|e' l'] E; try discriminate; [reflexivity|]. injection E as E1 E2. specialize (IH l' E2). unfold lump_ents in *. cbn [filter].
  assert (KE : kept e = kept e') by (unfold kept; rewrite E1; f_equal; f_equal; apply class_world; unfold classname; rewrite E1; reflexivity).
  rewrite KE. destruct (kept e'); cbn [map]; rewrite ?E1, ?IH; reflexivity.
Qed.
Lemma starts_firstn p : forall s, starts lower p s = true -> firstn (length p) (map lower s) = map lower p.
Proof.
  induction p as [|x p IH]; intros s H; [reflexivity|]. destruct s as [|y s]; [discriminate|]. cbn [starts length map firstn] in *. apply andb_true_iff in H. destruct H as [H1 H2].
  apply N.eqb_eq in H1. rewrite H1, (IH s H2). reflexivity.
Qed.

(** Without origin brushes, rotate_ classes, area portals and -lmscale, -onlyents writes the same entity lump
    as a compile. *)
Theorem C131_onlyents_text : forall v hs w r es n es2, compile v hs (w :: r) = Some (es, n) -> only_ents v (w :: r) = Some es2 ->
  hs <> [] -> Forall (fun e => me_model e = None) (w :: r) ->
  (forall w1, loaded v w w1 -> of_classes world_classes w1 = false) ->
  ev_notrigger v = false -> ev_lmscale v = None ->
  (forall e e1, In e (w :: r) -> loaded v e e1 -> of_classes ["func_areaportal"] e1 = false /\
     firstn 7 (map lower (ed_get (txt "classname") (me_pairs e1))) <> txt "rotate_" /\ forall b, In b (me_brushes e1) -> mb_origin b = false) ->
  ent_lump es = ent_lump es2.
Proof.
  intros v hs w r es n es2 E O H F W T L HB.
  assert (W' : forall w1, loaded v w w1 -> of_classes (world_classes ++ ["func_areaportal"]) w1 = false).
  { intros w1 L1. destruct (HB w w1 (or_introl eq_refl) L1) as (A & _). unfold of_classes. rewrite existsb_app. apply orb_false_iff. split; [apply W; exact L1|exact A]. }
  assert (AP : forall e, of_classes ["func_areaportal"] e = area_portal e).
  { intros e. unfold of_classes. cbn [existsb]. rewrite orb_false_r. unfold area_portal, is_class, classname. rewrite iequals_text. reflexivity. }
  destruct (compile_spec v hs w r es n E H F W') as (w1 & r1 & w2 & r2 & w' & r' & L1 & L2 & P & S1 & S2 & CH & W2 & MW & MR & -> & A & B & C1 & C2 & C3).
  assert (G1 : me_pairs w2 = me_pairs w1).
  { destruct S1 as (_ & _ & _ & G). destruct (HB w w1 (or_introl eq_refl) L1) as (_ & Q1 & Q2). apply G.
    - apply Forall_forall. exact Q2.
    - destruct (starts lower (txt "rotate_") (classname w1)) eqn:X; [|reflexivity]. destruct Q1. exact (starts_firstn _ _ X). }
  destruct (update_ents_spec v r r1 [w] 1 L2) as (u & U1 & U2 & U3 & U4).
  assert (LF := map_opt_F2 _ _ _ L2).
  assert (HB1 : Forall (fun e => area_portal e = false /\ starts lower (txt "rotate_") (classname e) = false /\ Forall (fun b => mb_origin b = false) (me_brushes e)) r1).
  { clear -LF HB AP. induction LF as [|e e1 l l1 X Y IH]; constructor.
    - destruct (HB e e1 (or_intror (or_introl eq_refl)) X) as (Q0 & Q1 & Q2). rewrite AP in Q0. refine (conj Q0 (conj _ _)); [|apply Forall_forall; exact Q2].
      destruct (starts lower (txt "rotate_") (classname e1)) eqn:Z; [|reflexivity]. destruct Q1. exact (starts_firstn _ _ Z).
    - apply IH. intros a b [<-|I]; apply HB; cbn [In]; auto. }
  assert (G2 : Forall2 (fun e e2 => me_pairs e2 = me_pairs e /\ bmodel v e2 = brush_ent e) r1 r2).
  { clear -S2 HB1 T. induction S2 as [|e e2 l l2 X Y IH]; constructor; inversion HB1 as [|x y HE HL]; subst; [|auto]. destruct HE as (_ & HE & HF). destruct X as (X1 & _ & _ & X4).
    assert (PE := X4 HF HE). split; [exact PE|]. assert (CE : classname e2 = classname e) by (unfold classname; rewrite PE; reflexivity).
    unfold bmodel, brush_ent. rewrite T, X1, (class_world _ _ CE), (class_area _ _ CE). cbn [andb negb]. rewrite andb_true_r. f_equal. f_equal. f_equal.
    clear -HF. unfold solid_brushes. induction HF as [|b bs Hb HF IH]; [reflexivity|]. cbn [filter]. rewrite Hb. cbn [negb]. rewrite IH. reflexivity. }
  destruct (create_hulls_pairs v hs w2 r2 0 0 _ _ r2 CH W2 L T) as (w3 & r3 & Q1 & Q2 & Q3).
  { clear -G2 HB1. induction G2 as [|e e2 l l2 X Y IH]; constructor; inversion HB1 as [|x y HE HL]; subst; [|auto]. rewrite (class_area e e2); [apply HE|]. unfold classname. rewrite (proj1 X). reflexivity. }
  { rewrite MW. auto. }
  injection Q1 as <- <-. unfold only_ents in O. rewrite U1 in O. destruct (existsb _ _) eqn:X in O; [discriminate|]. injection O as <-.
  assert (WN : w1 = w).
  { cbn [app existsb] in X. apply orb_false_iff in X. destruct X as [X _]. unfold loaded, load_external in L1. rewrite X in L1. injection L1 as <-. reflexivity. }
  subst w1. unfold ent_lump. f_equal. apply lump_pairs. cbn [app map]. rewrite Q2, Q3, G1. f_equal. rewrite U4; [|revert HB1; apply Forall_impl; intros e X1; apply X1].
  clear -G2. generalize 1. induction G2 as [|e e2 l l2 X Y IH]; intros b; [reflexivity|]. cbn [expected]. destruct X as [-> ->]. rewrite !IH. reflexivity.
Qed.
Print Assumptions C131_onlyents_text.

(** What is read back from the entity lump: the entities in their order but for those without keys and those
    whose brushes went to the world; without the keys that start with _tb_. *)
Definition written (es : list ment) : list entdict :=
  map (fun e => filter (fun kv => negb (eqb_text (firstn 4 (fst kv)) (txt "_tb_"))) (me_pairs e))
    (filter (fun e => negb (length (me_pairs e) =? 0) && negb (of_classes world_classes e)) es).
Lemma starts_tb s : starts (fun c => c) (txt "_tb_") s = eqb_text (firstn 4 s) (txt "_tb_").
Proof.
  unfold eqb_text. destruct (list_eq_dec N.eq_dec _ _) as [E|E].
  - apply starts_app. exists (skipn 4 s). rewrite <- E. symmetry. apply firstn_skipn.
  - destruct (starts _ _ s) eqn:X; [|reflexivity]. apply starts_app in X. destruct X as (r & ->). destruct E. reflexivity.
Qed.
Lemma lump_written es : lump_ents es = written es.
Proof.
  unfold lump_ents, written. rewrite (filter_ext kept (fun e => negb (length (me_pairs e) =? 0) && negb (of_classes world_classes e))).
  - apply map_ext. intros e. unfold no_tb. apply filter_ext. intros kv. rewrite starts_tb. reflexivity.
  - intros e. unfold kept. rewrite negb_orb, world_brush_classes. f_equal. destruct (me_pairs e); reflexivity.
Qed.
Lemma keys_filter f d : NoDup (keys d) -> NoDup (keys (filter f d)).
Proof.
  unfold keys. induction d as [|x d IH]; [auto|]. cbn [map filter]. intros X. inversion X as [|a b N D]; subst. destruct (f x); [|auto]. cbn [map]. constructor; [|auto].
  rewrite in_map_iff in *. intros (y & Y1 & Y2). apply filter_In in Y2. apply N. exists y. tauto.
Qed.
Theorem C131_lump : forall es, Forall (fun e => usable_ent (me_pairs e)) es -> ents_parse (ent_lump es) = E_ok (written es).
Proof.
  intros es F. rewrite <- lump_written. apply ents_roundtrip. apply Forall_forall. intros d I. unfold lump_ents in I. apply in_map_iff in I. destruct I as (e & <- & I).
  apply filter_In in I. destruct I as [I _]. rewrite Forall_forall in F. destruct (F e I) as [N1 N2]. split; [apply keys_filter; exact N1|].
  apply Forall_forall. intros kv K. apply filter_In in K. rewrite Forall_forall in N2. apply N2. apply K.
Qed.
Print Assumptions C131_lump.

Definition pr (k x : string) : bytes * bytes := (txt k, txt x).
Definition wall : mbrush := mkMB false (txt "0 0 0") (txt "wall1").
Definition trig : mbrush := mkMB false (txt "0 0 0") (txt "trigger").
Definition orig : mbrush := mkMB true (txt "8 8 8") (txt "origin").
Definition plain (notrigger : bool) : env :=
  mkEnv notrigger None (fun f => if eqb_text f (txt "lamp.map") then Some [wall; wall] else None) (fun s => if is_nil s then txt "0 0 0" else s) (fun _ _ => (txt "0 0 0", txt "9 9 9")).
Definition ent (c : string) (ps : entdict) (bs : list mbrush) : ment := mkMEnt (pr "classname" c :: ps) bs None.
Definition world : ment := ent "worldspawn" [] [wall].

(** The numbers of the models are written with decimal digits, without leading zeros. *)
Definition value (l : bytes) : nat := fold_left (fun n c => 10 * n + (N.to_nat c - 48)) l 0.
Lemma uint_value u : forall n, fold_left (fun n c => 10 * n + (N.to_nat c - 48)) (uint_text u) n = Nat.of_uint_acc u n.
Proof.
  induction u as [|u IH|u IH|u IH|u IH|u IH|u IH|u IH|u IH|u IH|u IH]; intros n; [reflexivity|..];
    (cbn [uint_text fold_left Nat.of_uint_acc]; rewrite IH; f_equal; rewrite Nat.tail_mul_spec; cbn; lia).
Qed.
Theorem C131_numbers : forall n, value (dec n) = n /\ Forall (fun c => 48 <= c <= 57)%N (dec n) /\ (n <> 0 -> hd 0%N (dec n) <> 48%N).
Proof.
  intros n. split; [|split].
  - unfold value, dec. rewrite uint_value. apply DecimalNat.Unsigned.of_to.
  - unfold dec. induction (Nat.to_uint n); constructor; auto; lia.
  - intros Z. unfold dec. pose proof (DecimalNat.Unsigned.to_of (Nat.to_uint n)) as Q. rewrite DecimalNat.Unsigned.of_to in Q.
    destruct (Nat.to_uint n) as [|u|u|u|u|u|u|u|u|u|u] eqn:E; cbn [uint_text hd]; try discriminate.
    exfalso. pose proof (DecimalNat.Unsigned.of_to n) as R. rewrite E in R. cbn [Decimal.unorm Decimal.nzhead] in Q.
    pose proof (DecimalFacts.unorm_D0 u) as D. 
    assert (NZ : forall v, Decimal.nzhead v <> Decimal.D0 u).
    { intro v. induction v; cbn [Decimal.nzhead]; try discriminate. exact IHv. }
    unfold Decimal.unorm in Q. cbn [Decimal.nzhead] in Q. destruct (Decimal.nzhead u) eqn:H.
    + injection Q as Q. subst u. cbn in R. lia.
    + apply (NZ u). rewrite H. symmetry. exact Q.
    + discriminate.
    + discriminate.
    + discriminate.
    + discriminate.
    + discriminate.
    + discriminate.
    + discriminate.
    + discriminate.
    + discriminate.
Qed.
Print Assumptions C131_numbers.

(** -onlyents writes no "origin" for an entity with an origin brush. *)
Theorem C131_origin_refuted : exists v l es n es2, compile v [0] l = Some (es, n) /\ only_ents v l = Some es2 /\
  map (fun e => ed_get (txt "origin") (me_pairs e)) es = [[]; txt "8 8 8"] /\ map (fun e => ed_get (txt "origin") (me_pairs e)) es2 = [[]; []].
Proof.
  exists (plain false), [world; ent "func_door" [] [orig; wall]]. do 3 eexists. split; [vm_compute; reflexivity|]. split; [vm_compute; reflexivity|]. split; reflexivity.
Qed.
Print Assumptions C131_origin_refuted.

(** An entity with nothing but an origin brush has no model, but -onlyents counts it: all models behind it get
    the number of the next one, the last a number that the file does not have. *)
Theorem C131_shift_refuted : exists v l es es2, compile v [0] l = Some (es, 3) /\ only_ents v l = Some es2 /\
  map (fun e => ed_get (txt "model") (me_pairs e)) es = [[]; []; txt "*1"; txt "*2"] /\
  map (fun e => ed_get (txt "model") (me_pairs e)) es2 = [[]; txt "*1"; txt "*2"; txt "*3"].
Proof.
  exists (plain false), [world; ent "info_pivot" [] [orig]; ent "func_door" [] [wall]; ent "func_plat" [] [wall]]. do 2 eexists. split; [vm_compute; reflexivity|]. split; [vm_compute; reflexivity|]. split; reflexivity.
Qed.
Print Assumptions C131_shift_refuted.

(** So does -onlyents after -notriggermodels; it does not write the bounds of the trigger either. *)
Theorem C131_trigger_refuted : exists v l es es2, compile v [0] l = Some (es, 2) /\ only_ents v l = Some es2 /\
  map (fun e => map (fun k => ed_get (txt k) (me_pairs e)) ["model"; "mins"; "maxs"]%string) es = [[[]; []; []]; [[]; txt "0 0 0"; txt "9 9 9"]; [txt "*1"; []; []]] /\
  map (fun e => map (fun k => ed_get (txt k) (me_pairs e)) ["model"; "mins"; "maxs"]%string) es2 = [[[]; []; []]; [txt "*1"; []; []]; [txt "*2"; []; []]].
Proof.
  exists (plain true), [world; ent "trigger_once" [] [trig]; ent "func_door" [] [wall]]. do 2 eexists. split; [vm_compute; reflexivity|]. split; [vm_compute; reflexivity|]. split; reflexivity.
Qed.
Print Assumptions C131_trigger_refuted.

(** If the first entity of the map is of a class whose brushes go to the world, the first other entity with
    brushes is model 0, and its key says so. *)
Theorem C131_first_refuted : exists v l es, compile v [0] l = Some (es, 1) /\
  map (fun e => ed_get (txt "model") (me_pairs e)) es = [[]; txt "*0"] /\ map me_model es = [None; Some 0].
Proof.
  exists (plain false), [ent "func_group" [] [wall]; ent "func_door" [] [wall]]. eexists. split; [vm_compute; reflexivity|]. split; reflexivity.
Qed.
Print Assumptions C131_first_refuted.

(** Area portals are numbered anew for each hull: with three hulls the first of two is number 5. *)
Theorem C131_portal_refuted : exists v l es, compile v [0; 1; 2] l = Some (es, 1) /\
  map (fun e => ed_get (txt "style") (me_pairs e)) es = [[]; txt "5"; txt "6"].
Proof.
  exists (plain false), [world; ent "func_areaportal" [] [wall]; ent "func_areaportal" [] [wall]]. eexists. split; [vm_compute; reflexivity|]. reflexivity.
Qed.
Print Assumptions C131_portal_refuted.

Definition ex_map : list ment :=
  [world; ent "FUNC_DETAIL" [] [wall]; ent "light" [pr "origin" "1 2 3"; pr "targetname" "t"] []; ent "trigger_once" [pr "model" "x"] [trig];
   ent "misc_external_map" [pr "_external_map" "lamp.map"; pr "_external_map_classname" "func_wall"; pr "_tb_id" "7"] [];
   ent "func_door" [] [wall]].
Example C131_nontrivial :
  exists es es2, compile (plain false) [0; 1; 2] ex_map = Some (es, 4) /\ only_ents (plain false) ex_map = Some es2 /\
    map me_model es = [Some 0; None; None; Some 1; Some 2; Some 3] /\ ent_lump es = ent_lump es2 /\
    ents_parse (ent_lump es) = E_ok
      [[pr "classname" "worldspawn"]; [pr "classname" "light"; pr "origin" "1 2 3"; pr "targetname" "t"]; [pr "classname" "trigger_once"; pr "model" "*1"];
       [pr "classname" "func_wall"; pr "_external_map" "lamp.map"; pr "_external_map_classname" "func_wall"; pr "origin" "0 0 0"; pr "model" "*2"];
       [pr "classname" "func_door"; pr "model" "*3"]].
Proof.
  do 2 eexists. split; [vm_compute; reflexivity|]. split; [vm_compute; reflexivity|]. split; [reflexivity|]. split; vm_compute; reflexivity.
Qed.
