(* Proofs about EntOutModel.v. *)
From Coq Require Import String Ascii.
From Coq Require Import List Arith NArith Bool Lia DecimalNat.
From Verif Require Import Base ParserModel EntModel EntProofs CmdlibModel EntOutModel.
Import ListNotations.

Lemma uint_text_inj a : forall b, uint_text a = uint_text b -> a = b.
Proof. induction a; intros b; destruct b; cbn; intros H; try discriminate; try reflexivity; injection H as H; f_equal; auto. Qed.
Lemma dec_inj m n : dec m = dec n -> m = n.
Proof. unfold dec. intros H. apply uint_text_inj in H. rewrite <- (Unsigned.of_to m), <- (Unsigned.of_to n), H. reflexivity. Qed.

Definition frame (K : list bytes) (d d' : entdict) : Prop := forall k, ~ In k K -> assoc k d' = assoc k d.
Lemma frame_refl K d : frame K d d. Proof. intros k _. reflexivity. Qed.
Lemma frame_trans K a b c : frame K a b -> frame K b c -> frame K a c.
Proof. intros A B k H. rewrite B, A by exact H. reflexivity. Qed.
Lemma frame_set K k v d : In k K -> frame K d (ed_set k v d).
Proof. intros I k' H. rewrite assoc_set. destruct (list_eq_dec N.eq_dec k' k) as [->|_]; [contradiction|reflexivity]. Qed.
Lemma frame_get K d d' k : frame K d d' -> ~ In k K -> ed_get k d' = ed_get k d.
Proof. intros F H. rewrite !get_assoc, F by exact H. reflexivity. Qed.
Lemma frame_class K e e' : frame K (me_pairs e) (me_pairs e') -> ~ In (txt "classname") K -> classname e' = classname e.
Proof. intros F H. apply (frame_get K); assumption. Qed.
Lemma class_is s e e' : classname e' = classname e -> is_class s e' = is_class s e.
Proof. unfold is_class. intros ->. reflexivity. Qed.
Lemma class_world e e' : classname e' = classname e -> world_brush e' = world_brush e.
Proof. intros H. unfold world_brush. rewrite !(class_is _ _ _ H). reflexivity. Qed.
Lemma class_area e e' : classname e' = classname e -> area_portal e' = area_portal e.
Proof. intros H. unfold area_portal. rewrite !(class_is _ _ _ H). reflexivity. Qed.

Lemma set_twice k v d : ed_set k v (ed_set k v d) = ed_set k v d.
Proof.
  unfold ed_set at 2 3. destruct (ed_find k d) as [i|] eqn:E.
  - revert i E. induction d as [|[k' w] d IH]; intros i E; [discriminate|]. cbn [ed_find] in E. destruct (beq k k') eqn:B.
    + injection E as <-. cbn [set_value]. unfold ed_set. cbn [ed_find]. rewrite B. reflexivity.
    + destruct (ed_find k d) as [j|]; [|discriminate]. injection E as <-. cbn [set_value]. specialize (IH j eq_refl).
      unfold ed_set in *. cbn [ed_find]. rewrite B. destruct (ed_find k (set_value d j v)); cbn [option_map set_value]; [f_equal; exact IH|].
      exfalso. apply (f_equal (@length _)) in IH. rewrite app_length in IH. cbn in IH. lia.
  - unfold ed_set. assert (Q : ed_find k (d ++ [(k, v)]) = Some (length d)).
    { clear - E. induction d as [|[k' w] d IH]; cbn [app ed_find length] in *; [rewrite beq_refl; reflexivity|].
      destruct (beq k k'); [discriminate|]. destruct (ed_find k d); [discriminate|]. rewrite IH by reflexivity. reflexivity. }
    rewrite Q. clear. induction d as [|[k' w] d IH]; cbn [app length set_value]; [reflexivity|rewrite IH; reflexivity].
Qed.

(** Origin brushes. *)
Definition solid_brushes (bs : list mbrush) : list mbrush := filter (fun b => negb (mb_origin b)) bs.
Lemma strip_spec w bs : forall d bs' d' rot, strip w bs d = (bs', d', rot) ->
  bs' = solid_brushes bs /\ frame [txt "origin"] d d' /\ (rot = false -> d' = d) /\ (Forall (fun b => mb_origin b = false) bs -> rot = false).
Proof.
  induction bs as [|b r IH]; intros d bs' d' rot E; cbn [strip] in E.
  - injection E as <- <- <-. refine (conj eq_refl (conj (frame_refl _ _) (conj (fun _ => eq_refl) (fun _ => eq_refl)))).
  - unfold solid_brushes. cbn [filter]. destruct (mb_origin b) eqn:O; cbn [negb].
    + destruct (strip w r _) as [[bs1 d1] r1] eqn:S in E. injection E as <- <- <-. destruct (IH _ _ _ _ S) as (A & B & _ & _).
      refine (conj A (conj _ (conj _ _))); [|discriminate|].
      * eapply frame_trans; [|exact B]. destruct w; [apply frame_refl|]. destruct (ed_has _ d); [apply frame_refl|]. apply frame_set. left. reflexivity.
      * intros F. inversion F; congruence.
    + destruct (strip w r d) as [[bs1 d1] r1] eqn:S. injection E as <- <- <-. destruct (IH _ _ _ _ S) as (A & B & C & D).
      refine (conj _ (conj B (conj C _))); [f_equal; exact A|]. intros F. inversion F; auto.
Qed.

Definition step2 (e e' : ment) : Prop :=
  me_brushes e' = solid_brushes (me_brushes e) /\ me_model e' = me_model e /\ frame [txt "origin"] (me_pairs e) (me_pairs e') /\
  (Forall (fun b => mb_origin b = false) (me_brushes e) -> starts lower (txt "rotate_") (classname e) = false -> me_pairs e' = me_pairs e).
Lemma process_brushes_spec v rest : forall done, exists rest', process_brushes v done rest = done ++ rest' /\ Forall2 step2 rest rest'.
Proof.
  induction rest as [|e r IH]; intros done; [exists []; cbn [process_brushes]; rewrite app_nil_r; auto|].
  cbn [process_brushes]. destruct (strip (is_nil done) (me_brushes e) (me_pairs e)) as [[bs d] rot] eqn:S. destruct (strip_spec _ _ _ _ _ _ S) as (A & B & C & D).
  set (e1 := mkMEnt d bs (me_model e)). cbv zeta.
  set (e2 := if negb rot && starts lower (txt "rotate_") (classname e1) then _ else _).
  destruct (IH (done ++ [e2])) as (r' & E & F). exists (e2 :: r'). rewrite E, <- app_assoc. split; [reflexivity|]. constructor; [|exact F].
  unfold step2, e2. assert (CE : classname e1 = classname e) by (apply (frame_class [txt "origin"]); [exact B|cbn; intuition discriminate]).
  destruct (negb rot && starts lower (txt "rotate_") (classname e1)) eqn:Q.
  - refine (conj A (conj eq_refl (conj _ _))).
    + eapply frame_trans; [exact B|]. apply frame_set. left. reflexivity.
    + intros _ N. rewrite CE, N, andb_false_r in Q. discriminate.
  - refine (conj A (conj eq_refl (conj B _))). intros F1 N. cbn [me_pairs e1]. apply C, D, F1.
Qed.

(** Area portals. *)
Definition stepA (e e' : ment) : Prop :=
  me_brushes e' = me_brushes e /\ me_model e' = me_model e /\ frame [txt "style"] (me_pairs e) (me_pairs e') /\ (area_portal e = false -> e' = e).
Lemma area_portals_spec l : forall n l' n', area_portals n l = Some (l', n') -> Forall2 stepA l l'.
Proof.
  induction l as [|e r IH]; intros n l' n' E; cbn [area_portals] in E.
  - injection E as <- <-. constructor.
  - destruct (area_portal e) eqn:A.
    + destruct (length (me_brushes e) =? 1); [|discriminate]. destruct (area_portals (S n) r) as [[r' n1]|] eqn:R; [|discriminate]. injection E as <- <-.
      constructor; [|eapply IH; eauto]. refine (conj eq_refl (conj eq_refl (conj _ _))); [|congruence]. apply frame_set. left. reflexivity.
    + destruct (area_portals n r) as [[r' n1]|] eqn:R; [|discriminate]. injection E as <- <-. constructor; [|eapply IH; eauto].
      refine (conj eq_refl (conj eq_refl (conj (frame_refl _ _) _))). reflexivity.
Qed.

(** Models. *)
Definition bmodel (v : env) (e : ment) : bool :=
  negb (is_nil (me_brushes e)) && negb (world_brush e || area_portal e) && negb (ev_notrigger v && is_trigger e).
Lemma bmodel_ext v e e' : classname e' = classname e -> me_brushes e' = me_brushes e -> bmodel v e' = bmodel v e.
Proof. intros C B. unfold bmodel, is_trigger. rewrite (class_world _ _ C), (class_area _ _ C), B. reflexivity. Qed.

Definition keys_ok (v : env) (K : list bytes) : Prop :=
  (ev_lmscale v = None \/ In (txt "_lmscale") K) /\ (ev_notrigger v = false \/ In (txt "mins") K /\ In (txt "maxs") K).
Definition modelkey (k : nat) : bytes := 42%N :: dec k.

Lemma process_entity_spec v h w e n e' n' : process_entity v h w e n = (e', n') ->
  me_brushes e' = me_brushes e /\
  (forall K, keys_ok v K -> In (txt "model") K \/ w = true \/ bmodel v e = false -> frame K (me_pairs e) (me_pairs e')) /\
  (w = false -> bmodel v e = false -> me_model e' = me_model e /\ n' = n) /\
  (w = false -> bmodel v e = true -> exists k, me_model e' = Some k /\ assoc (txt "model") (me_pairs e') = Some (modelkey k) /\
     match me_model e with Some k' => k = k' /\ n' = n | None => k = n /\ n' = S n end /\
     (ev_lmscale v = None -> ev_notrigger v = false -> me_pairs e' = ed_set (txt "model") (modelkey k) (me_pairs e))) /\
  (w = true -> world_brush e || area_portal e = false -> me_model e' <> None /\ match me_model e with Some k => me_model e' = Some k /\ n' = n | None => me_model e' = Some n /\ n' = S n end) /\
  ((w = true \/ bmodel v e = false) -> ev_lmscale v = None -> ev_notrigger v = false -> me_pairs e' = me_pairs e).
Proof.
  unfold process_entity. intros E. unfold bmodel.
  destruct (is_nil (me_brushes e) && negb w) eqn:Q1.
  { injection E as <- <-. apply andb_true_iff in Q1. destruct Q1 as [Q1 Q2]. rewrite Q1. cbn [negb andb]. destruct w; [discriminate|].
    refine (conj eq_refl (conj _ (conj _ (conj _ (conj _ _))))); intros; try discriminate; try reflexivity; try (split; reflexivity). }
  destruct (world_brush e || area_portal e) eqn:Q2.
  { injection E as <- <-. rewrite andb_false_r. cbn [andb].
    refine (conj eq_refl (conj _ (conj _ (conj _ (conj _ _))))); intros; try discriminate; try reflexivity; try (split; reflexivity). }
  assert (NB : w = false -> is_nil (me_brushes e) = false) by (intros ->; cbn [negb] in Q1; rewrite andb_true_r in Q1; exact Q1).
  cbv zeta in E. destruct (negb w && ev_notrigger v && is_trigger e) eqn:Q3.
  - (* a trigger *)
    injection E as <- <-. apply andb_true_iff in Q3. destruct Q3 as [Q3 Q5]. apply andb_true_iff in Q3. destruct Q3 as [Q3 Q4]. destruct w; [discriminate|].
    rewrite (NB eq_refl), Q4, Q5. cbn [negb andb me_brushes me_model with_pairs me_pairs].
    refine (conj eq_refl (conj _ (conj _ (conj _ (conj _ _))))); intros; try discriminate; try (split; reflexivity).
    + destruct H as [H1 H2]. destruct H2 as [H2|[H2 H3]]; [congruence|].
      eapply frame_trans; [|apply frame_set; exact H3]. eapply frame_trans; [|apply frame_set; exact H2].
      destruct (ev_lmscale v); [|apply frame_refl]. destruct H1 as [H1|H1]; [discriminate|]. destruct (ed_has _ _); [apply frame_refl|apply frame_set; exact H1].
  - destruct (match me_model e with Some k => (k, n) | None => (n, S n) end) as [k n1] eqn:M. cbv zeta iota beta in E. injection E as <- <-.
    cbn [me_brushes me_model with_pairs me_pairs].
    set (d1 := if w then me_pairs e else ed_set (txt "model") (42%N :: dec k) (me_pairs e)).
    assert (BM : w = false -> negb (is_nil (me_brushes e)) && negb false && negb (ev_notrigger v && is_trigger e) = true).
    { intros ->. rewrite (NB eq_refl). cbn [negb andb] in *. rewrite Q3. reflexivity. }
    refine (conj eq_refl (conj _ (conj _ (conj _ (conj _ _))))).
    + intros K (K1 & K2) KM. eapply frame_trans with (b := d1).
      * unfold d1. destruct w; [apply frame_refl|]. apply frame_set. destruct KM as [KM|[KM|KM]]; [exact KM|discriminate|]. rewrite (BM eq_refl) in KM. discriminate.
      * destruct (ev_lmscale v); [|apply frame_refl]. destruct K1 as [K1|K1]; [discriminate|]. destruct (ed_has _ _); [apply frame_refl|apply frame_set; exact K1].
    + intros W B. rewrite (BM W) in B. discriminate.
    + intros W _. exists k. refine (conj eq_refl (conj _ (conj _ _))).
      * assert (A : assoc (txt "model") d1 = Some (modelkey k)) by (unfold d1; rewrite W, assoc_set; destruct (list_eq_dec N.eq_dec _ _); [reflexivity|congruence]).
        destruct (ev_lmscale v); [|exact A]. destruct (ed_has _ _); [exact A|]. rewrite assoc_set. destruct (list_eq_dec N.eq_dec _ _) as [X|_]; [discriminate X|exact A].
      * destruct (me_model e); injection M as <- <-; auto.
      * intros L _. rewrite L. unfold d1. rewrite W. reflexivity.
    + intros W _. split; [discriminate|]. destruct (me_model e); injection M as <- <-; auto.
    + intros W L _. rewrite L. unfold d1. destruct w; [reflexivity|]. destruct W as [W|W]; [discriminate|]. rewrite (BM eq_refl) in W. discriminate.
Qed.

(** The entities behind the world, numbered from b. *)
Fixpoint numbered (v : env) (b : nat) (l : list ment) : Prop :=
  match l with
  | [] => True
  | e :: r => if bmodel v e then me_model e = Some b /\ assoc (txt "model") (me_pairs e) = Some (modelkey b) /\ numbered v (S b) r
              else me_model e = None /\ numbered v b r
  end.
Definition models (v : env) (l : list ment) : nat := length (filter (bmodel v) l).

Definition stepH (v : env) (e e' : ment) : Prop :=
  me_brushes e' = me_brushes e /\
  (forall K, keys_ok v K -> In (txt "style") K \/ area_portal e = false -> In (txt "model") K \/ bmodel v e = false -> frame K (me_pairs e) (me_pairs e')).
Lemma keys_all v : keys_ok v [txt "_lmscale"; txt "mins"; txt "maxs"; txt "model"; txt "style"].
Proof. split; right; cbn; auto. Qed.
Lemma stepH_class v e e' : stepH v e e' -> classname e' = classname e.
Proof.
  intros (_ & F). eapply frame_class; [apply F; [apply keys_all|left; cbn; auto 6|left; cbn; auto 6]|]. cbn. intuition discriminate.
Qed.
Lemma stepH_bmodel v e e' : stepH v e e' -> bmodel v e' = bmodel v e.
Proof. intros S. apply bmodel_ext; [eapply stepH_class; eauto|apply S]. Qed.
Lemma stepH_trans v a b c : stepH v a b -> stepH v b c -> stepH v a c.
Proof.
  intros S1 S2. split; [transitivity (me_brushes b); [apply S2|apply S1]|]. intros K K1 K2 K3. eapply frame_trans; [apply S1; assumption|]. apply S2; try assumption.
  - destruct K2 as [K2|K2]; [left; exact K2|right]. rewrite (class_area a b); [exact K2|]. eapply stepH_class; eauto.
  - destruct K3 as [K3|K3]; [left; exact K3|right]. rewrite (stepH_bmodel v a b); assumption.
Qed.

Lemma process_rest_fresh v h l : forall n l' n', Forall (fun e => me_model e = None) l -> process_rest v h l n = (l', n') ->
  n' = n + models v l /\ numbered v n l' /\ Forall2 (stepH v) l l'.
Proof.
  induction l as [|e r IH]; intros n l' n' F E; cbn [process_rest] in E.
  - injection E as <- <-. refine (conj _ (conj I _)); [cbn; lia|constructor].
  - destruct (process_entity v h false e n) as [e1 n1] eqn:P. destruct (process_rest v h r n1) as [r1 n2] eqn:R. injection E as <- <-.
    inversion F as [|x y F1 F2]; subst. destruct (process_entity_spec _ _ _ _ _ _ _ P) as (A1 & A2 & A3 & A4 & _ & _).
    destruct (IH _ _ _ F2 R) as (B1 & B2 & B3).
    assert (SH : stepH v e e1) by (split; [exact A1|]; intros K K1 _ K3; apply A2; [exact K1|tauto]).
    assert (BM := stepH_bmodel v e e1 SH). unfold models. cbn [filter numbered]. rewrite BM. destruct (bmodel v e) eqn:B.
    + destruct (A4 eq_refl eq_refl) as (k & C1 & C2 & C3 & _). rewrite F1 in C3. destruct C3 as [-> ->]. cbn [length].
      refine (conj _ (conj _ _)); [unfold models in B1; lia|auto|constructor; assumption].
    + destruct (A3 eq_refl eq_refl) as (C1 & ->). refine (conj _ (conj _ _)); [exact B1|split; [congruence|exact B2]|constructor; assumption].
Qed.
Lemma process_rest_again v h l : forall b n l' n', numbered v b l -> process_rest v h l n = (l', n') ->
  n' = n /\ numbered v b l' /\ Forall2 (stepH v) l l'.
Proof.
  induction l as [|e r IH]; intros b n l' n' F E; cbn [process_rest] in E.
  - injection E as <- <-. auto.
  - destruct (process_entity v h false e n) as [e1 n1] eqn:P. destruct (process_rest v h r n1) as [r1 n2] eqn:R. injection E as <- <-.
    destruct (process_entity_spec _ _ _ _ _ _ _ P) as (A1 & A2 & A3 & A4 & _ & _).
    assert (SH : stepH v e e1) by (split; [exact A1|]; intros K K1 _ K3; apply A2; [exact K1|tauto]).
    assert (BM := stepH_bmodel v e e1 SH). cbn [numbered] in *. rewrite BM. destruct (bmodel v e) eqn:B.
    + destruct F as (F1 & F2 & F3). destruct (A4 eq_refl eq_refl) as (k & C1 & C2 & C3 & _). rewrite F1 in C3. destruct C3 as [-> ->].
      destruct (IH _ _ _ _ F3 R) as (B1 & B2 & B3). refine (conj B1 (conj _ _)); [auto|constructor; assumption].
    + destruct F as (F1 & F2). destruct (A3 eq_refl eq_refl) as (C1 & ->). destruct (IH _ _ _ _ F2 R) as (B1 & B2 & B3).
      refine (conj B1 (conj _ _)); [split; [congruence|exact B2]|constructor; assumption].
Qed.

Lemma stepA_H v e e' : stepA e e' -> stepH v e e'.
Proof.
  intros (A & B & C & D). split; [exact A|]. intros K _ [K2|K2] _; [|rewrite (D K2); apply frame_refl].
  intros k N. apply C. intros [<-|[]]. contradiction.
Qed.
Lemma Forall2_mid {A B C} (P : A -> B -> Prop) (Q : B -> C -> Prop) (R : A -> C -> Prop) l m n :
  (forall a b c, P a b -> Q b c -> R a c) -> Forall2 P l m -> Forall2 Q m n -> Forall2 R l n.
Proof. intros H F. revert n. induction F; intros n G; inversion G; subst; constructor; eauto. Qed.
Lemma stepA_numbered v l l' : Forall2 stepA l l' -> forall b, numbered v b l -> numbered v b l'.
Proof.
  induction 1 as [|e e' r r' S F IH]; intros b; cbn [numbered]; [auto|]. assert (BM := stepH_bmodel v e e' (stepA_H v e e' S)). rewrite BM.
  destruct S as (S1 & S2 & S3 & S4). destruct (bmodel v e).
  - intros (A & B & C). rewrite S2. refine (conj A (conj _ (IH _ C))). rewrite S3; [exact B|]. cbn. intuition discriminate.
  - intros (A & C). rewrite S2. auto.
Qed.
Lemma Forall2_refl {A} (P : A -> A -> Prop) l : (forall x, P x x) -> Forall2 P l l.
Proof. intros H. induction l; constructor; auto. Qed.
Lemma stepA_refl e : stepA e e. Proof. refine (conj eq_refl (conj eq_refl (conj (frame_refl _ _) (fun _ => eq_refl)))). Qed.

Lemma single_hull_portals w r p r1 p1 : (if world_brush w || area_portal w then Some (r, p) else area_portals p r) = Some (r1, p1) -> Forall2 stepA r r1.
Proof. destruct (world_brush w || area_portal w); intros E; [injection E as <- <-; apply Forall2_refl, stepA_refl|eapply area_portals_spec; exact E]. Qed.

(** The world with its brushes. *)
Definition stepW (v : env) (e e' : ment) : Prop := me_brushes e' = me_brushes e /\ (forall K, keys_ok v K -> frame K (me_pairs e) (me_pairs e')).
Lemma stepW_class v e e' : stepW v e e' -> classname e' = classname e.
Proof. intros (_ & F). eapply frame_class; [apply F, keys_all|]. cbn. intuition discriminate. Qed.

Lemma create_hulls_spec v hs : forall w r n p l' n', create_hulls v hs (w :: r) n p = Some (l', n') ->
  world_brush w || area_portal w = false ->
  match me_model w with
  | None => n = 0 /\ Forall (fun e => me_model e = None) r
  | Some k => k = 0 /\ n = 1 + models v r /\ numbered v 1 r
  end ->
  exists w' r', l' = w' :: r' /\ stepW v w w' /\ Forall2 (stepH v) r r' /\
    ((hs <> [] \/ me_model w <> None) -> me_model w' = Some 0 /\ n' = 1 + models v r /\ numbered v 1 r').
Proof.
  induction hs as [|h hs IH]; intros w r n p l' n' E W I; cbn [create_hulls] in E.
  - injection E as <- <-. exists w, r. refine (conj eq_refl (conj (conj eq_refl (fun K _ => frame_refl _ _)) (conj _ _))).
    + apply Forall2_refl. intros x. split; [reflexivity|]. intros. apply frame_refl.
    + intros [H|H]; [congruence|]. destruct (me_model w) as [k|]; [|congruence]. destruct I as (-> & -> & I). auto.
  - destruct (single_hull v h (w :: r) n p) as [[[l1 n1] p1]|] eqn:S; [|discriminate]. unfold single_hull in S.
    destruct (if world_brush w || area_portal w then Some (r, p) else area_portals p r) as [[ra pa]|] eqn:PA; [|discriminate].
    apply single_hull_portals in PA.
    destruct (process_entity v h true w n) as [w1 nw] eqn:PW. destruct (process_rest v h ra nw) as [r1 nr] eqn:PR. injection S as <- <- <-.
    destruct (process_entity_spec _ _ _ _ _ _ _ PW) as (A1 & A2 & _ & _ & A5 & _). destruct (A5 eq_refl W) as (A6 & A7).
    assert (SW : stepW v w w1) by (split; [exact A1|]; intros K K1; apply A2; auto).
    assert (W1 : world_brush w1 || area_portal w1 = false) by (rewrite (class_world w w1), (class_area w w1) by (eapply stepW_class; eauto); exact W).
    assert (MR : models v ra = models v r).
    { clear -PA. unfold models. induction PA as [|e e' r r' S F IH]; [reflexivity|]. cbn [filter]. rewrite (stepH_bmodel v e e' (stepA_H v e e' S)). destruct (bmodel v e); cbn [length]; congruence. }
    assert (X : me_model w1 = Some 0 /\ nr = 1 + models v ra /\ numbered v 1 r1 /\ Forall2 (stepH v) ra r1).
    { destruct (me_model w) as [k|] eqn:MW.
      - destruct I as (-> & -> & I). destruct A7 as (A7 & ->). destruct (process_rest_again v h ra 1 _ _ _ (stepA_numbered v r ra PA 1 I) PR) as (B1 & B2 & B3). rewrite MR. auto.
      - destruct I as (-> & I). destruct A7 as (A7 & ->).
        assert (FR : Forall (fun e => me_model e = None) ra).
        { clear -PA I. induction PA as [|e e' r r' S F IH]; constructor; inversion I; subst; [destruct S as (_ & -> & _); assumption|auto]. }
        destruct (process_rest_fresh v h ra _ _ _ FR PR) as (B1 & B2 & B3). auto. }
    destruct X as (X1 & X2 & X3 & X4).
    assert (SR : Forall2 (stepH v) r r1).
    { eapply (Forall2_mid stepA (stepH v)); [|exact PA|exact X4]. intros a b c S1 S2. eapply stepH_trans; [apply stepA_H; exact S1|exact S2]. }
    assert (MR1 : models v r1 = models v r).
    { clear -SR. unfold models. induction SR as [|e e' r r' S F IH]; [reflexivity|]. cbn [filter]. rewrite (stepH_bmodel v e e' S). destruct (bmodel v e); cbn [length]; congruence. }
    destruct (IH w1 r1 nr pa l' n' E W1) as (w' & r' & -> & Y1 & Y2 & Y3).
    { rewrite X1. refine (conj eq_refl (conj _ X3)). congruence. }
    exists w', r'. refine (conj eq_refl (conj _ (conj _ _))).
    + split; [transitivity (me_brushes w1); [apply Y1|apply SW]|]. intros K K1. eapply frame_trans; [apply SW; exact K1|apply Y1; exact K1].
    + eapply Forall2_mid; [|exact SR|exact Y2]. intros a b c. apply stepH_trans.
    + intros _. destruct Y3 as (Y3 & Y4 & Y5); [right; congruence|]. refine (conj Y3 (conj _ Y5)). congruence.
Qed.

(** If nothing but models changes the pairs: what they are. *)
Fixpoint expected (f : ment -> bool) (b : nat) (l : list ment) : list entdict :=
  match l with
  | [] => []
  | e :: r => if f e then ed_set (txt "model") (modelkey b) (me_pairs e) :: expected f (S b) r else me_pairs e :: expected f b r
  end.
Lemma process_rest_pairs v h l : forall b n l' n', process_rest v h l n = (l', n') -> ev_lmscale v = None -> ev_notrigger v = false ->
  (b = n /\ Forall (fun e => me_model e = None) l) \/ numbered v b l -> map me_pairs l' = expected (bmodel v) b l.
Proof.
  induction l as [|e r IH]; intros b n l' n' E L T I; cbn [process_rest] in E; [injection E as <- <-; reflexivity|].
  destruct (process_entity v h false e n) as [e1 n1] eqn:P. destruct (process_rest v h r n1) as [r1 n2] eqn:R. injection E as <- <-.
  destruct (process_entity_spec _ _ _ _ _ _ _ P) as (_ & _ & A3 & A4 & _ & A6). cbn [map expected]. cbn [numbered] in I. destruct (bmodel v e) eqn:B.
  - destruct (A4 eq_refl eq_refl) as (k & C1 & C2 & C3 & C4). rewrite (C4 L T). destruct I as [(-> & I)|(I1 & I2 & I3)].
    + inversion I as [|x y I1 I2]; subst. rewrite I1 in C3. destruct C3 as (-> & ->). f_equal. eapply IH; eauto.
    + rewrite I1 in C3. destruct C3 as (-> & ->). f_equal. eapply IH; eauto.
  - rewrite (A6 (or_intror eq_refl) L T). destruct (A3 eq_refl eq_refl) as (_ & ->). f_equal. eapply IH; eauto.
    destruct I as [(-> & I)|(I1 & I2)]; [left; inversion I; auto|auto].
Qed.
Lemma expected_again v l l' : Forall2 (stepH v) l l' -> forall b, map me_pairs l' = expected (bmodel v) b l -> expected (bmodel v) b l' = expected (bmodel v) b l.
Proof.
  induction 1 as [|e e' r r' S F IH]; intros b; [reflexivity|]. cbn [map expected]. rewrite (stepH_bmodel v e e' S). destruct (bmodel v e); intros E; injection E as E1 E2.
  - rewrite E1, set_twice. f_equal. apply IH. exact E2.
  - rewrite E1. f_equal. apply IH. exact E2.
Qed.
Lemma no_portals l : Forall (fun e => area_portal e = false) l -> forall n l' n', area_portals n l = Some (l', n') -> l' = l.
Proof.
  induction 1 as [|e r A F IH]; intros n l' n' E; cbn [area_portals] in E; [injection E as <- <-; reflexivity|].
  rewrite A in E. destruct (area_portals n r) as [[r1 n1]|] eqn:R; [|discriminate]. injection E as <- <-. f_equal. eapply IH; eauto.
Qed.
Lemma create_hulls_pairs v hs : forall w r n p l' n' l0, create_hulls v hs (w :: r) n p = Some (l', n') ->
  world_brush w || area_portal w = false -> ev_lmscale v = None -> ev_notrigger v = false -> Forall (fun e => area_portal e = false) r ->
  match me_model w with
  | None => n = 0 /\ Forall (fun e => me_model e = None) r /\ hs <> [] /\ l0 = r
  | Some k => k = 0 /\ n = 1 + models v r /\ numbered v 1 r /\ map me_pairs r = expected (bmodel v) 1 l0 /\ Forall2 (stepH v) l0 r
  end ->
  exists w' r', l' = w' :: r' /\ me_pairs w' = me_pairs w /\ map me_pairs r' = expected (bmodel v) 1 l0.
Proof.
  induction hs as [|h hs IH]; intros w r n p l' n' l0 E W L T PO I; cbn [create_hulls] in E.
  - injection E as <- <-. exists w, r. destruct (me_model w); [|destruct I as (_ & _ & I & _); congruence]. destruct I as (_ & _ & _ & I & _). auto.
  - destruct (single_hull v h (w :: r) n p) as [[[l1 n1] p1]|] eqn:S; [|discriminate]. assert (S' := S). unfold single_hull in S.
    rewrite W in S. destruct (area_portals p r) as [[ra pa]|] eqn:PA; [|discriminate]. apply no_portals in PA; [|exact PO]. subst ra.
    destruct (process_entity v h true w n) as [w1 nw] eqn:PW. destruct (process_rest v h r nw) as [r1 nr] eqn:PR. injection S as <- <- <-.
    destruct (process_entity_spec _ _ _ _ _ _ _ PW) as (A1 & A2 & _ & _ & A5 & A6). destruct (A5 eq_refl W) as (_ & A7).
    assert (A8 := A6 (or_introl eq_refl) L T).
    assert (CW : classname w1 = classname w) by (unfold classname; rewrite A8; reflexivity).
    assert (Y : me_model w1 = Some 0 /\ nr = 1 + models v r /\ numbered v 1 r1 /\ map me_pairs r1 = expected (bmodel v) 1 r /\ Forall2 (stepH v) r r1).
    { destruct (me_model w) as [k|] eqn:MW.
      - destruct I as (-> & -> & I & _). destruct A7 as (A7 & ->). destruct (process_rest_again v h r 1 _ _ _ I PR) as (B1 & B2 & B3).
        assert (Z := process_rest_pairs v h r 1 _ _ _ PR L T (or_intror I)). auto.
      - destruct I as (-> & I & _). destruct A7 as (A7 & ->). destruct (process_rest_fresh v h r _ _ _ I PR) as (B1 & B2 & B3).
        assert (Z := process_rest_pairs v h r 1 _ _ _ PR L T (or_introl (conj eq_refl I))). auto. }
    destruct Y as (Y1 & Y2 & Y3 & Y4 & Y5).
    assert (MR : models v r1 = models v r).
    { clear -Y5. unfold models. induction Y5 as [|e e' r r' S F IH]; [reflexivity|]. cbn [filter]. rewrite (stepH_bmodel v e e' S). destruct (bmodel v e); cbn [length]; congruence. }
    assert (P1 : Forall (fun e => area_portal e = false) r1).
    { clear -Y5 PO. induction Y5 as [|e e' r r' S F IH]; constructor; inversion PO; subst; [rewrite (class_area e e'); [assumption|eapply stepH_class; eauto]|auto]. }
    assert (Q : map me_pairs r1 = expected (bmodel v) 1 l0 /\ Forall2 (stepH v) l0 r1).
    { destruct (me_model w) as [k|]; [|destruct I as (_ & _ & _ & ->); auto]. destruct I as (_ & _ & _ & I1 & I2). split.
      - rewrite Y4. apply expected_again; assumption.
      - eapply Forall2_mid; [|exact I2|exact Y5]. intros a b c. apply stepH_trans. }
    destruct Q as (Q1 & Q2).
    destruct (IH w1 r1 nr pa l' n' l0 E) as (w' & r' & -> & Z1 & Z2); try assumption.
    + rewrite (class_world w w1 CW), (class_area w w1 CW). exact W.
    + rewrite Y1. refine (conj eq_refl (conj _ (conj Y3 (conj Q1 Q2)))). congruence.
    + exists w', r'. rewrite Z1, A8. auto.
Qed.

(** -onlyents. *)
Definition brush_ent (e : ment) : bool := negb (is_nil (me_brushes e)) && negb (world_brush e || area_portal e).
Fixpoint numberedU (b : nat) (l l' : list ment) : Prop :=
  match l, l' with
  | e :: r, e' :: r' => if brush_ent e then assoc (txt "model") (me_pairs e') = Some (modelkey b) /\ numberedU (S b) r r' else numberedU b r r'
  | _, _ => True
  end.
Definition stepU (e e' : ment) : Prop :=
  forall K, In (txt "origin") K -> In (txt "model") K \/ brush_ent e = false -> frame K (me_pairs e) (me_pairs e').
Lemma starts_lower p : forall s, map lower p = p -> starts (fun c => c) p s = true -> starts lower p s = true.
Proof.
  induction p as [|x p IH]; intros s L H; [reflexivity|]. destruct s as [|y s]; [discriminate|]. cbn [starts map] in *. injection L as L1 L2.
  apply andb_true_iff in H. destruct H as [H1 H2]. apply N.eqb_eq in H1. subst y. rewrite N.eqb_refl. cbn [andb]. auto.
Qed.
Lemma update_ents_spec v rest : forall es done n, map_opt (load_external v) rest = Some es ->
  exists rest', update_ents v done rest n = done ++ rest' /\ Forall2 stepU es rest' /\ numberedU n es rest' /\
    (Forall (fun e => starts lower (txt "rotate_") (classname e) = false) es -> map me_pairs rest' = expected brush_ent n es).
Proof.
  induction rest as [|e r IH]; intros es done n E; cbn [map_opt] in E.
  - injection E as <-. exists []. cbn [update_ents numberedU]. rewrite app_nil_r. auto.
  - destruct (load_external v e) as [e0|] eqn:LE; [|discriminate]. destruct (map_opt (load_external v) r) as [es0|] eqn:ME; [|discriminate]. injection E as <-.
    cbn [update_ents]. set (ext := is_class "misc_external_map" e) in *.
    set (e1 := if ext then with_pairs e _ else e).
    assert (P1 : me_pairs e1 = me_pairs e0 /\ (negb (is_nil (me_brushes e1) && negb ext)) = negb (is_nil (me_brushes e0))).
    { unfold e1, load_external in *. fold ext in LE. destruct ext.
      - destruct (is_nil _ || is_nil _ || negb (is_nil (me_brushes e))); [discriminate|]. destruct (ev_external v _) as [bs|]; [|discriminate].
        destruct (is_nil bs) eqn:NB; [discriminate|]. injection LE as <-. cbn [me_pairs me_brushes with_pairs]. rewrite NB. cbn [negb]. rewrite andb_false_r. auto.
      - injection LE as <-. rewrite andb_true_r. auto. }
    destruct P1 as (P1 & P2).
    assert (CE : classname e1 = classname e0) by (unfold classname; rewrite P1; reflexivity).
    rewrite P2, (class_world _ _ CE), (class_area _ _ CE). fold (brush_ent e0). destruct (brush_ent e0) eqn:B.
    + cbv zeta. set (e2 := with_pairs e1 (ed_set (txt "model") (42%N :: dec n) (me_pairs e1))).
      set (e3 := if starts (fun c => c) (txt "rotate_") (classname e2) then _ else _).
      destruct (IH es0 (done ++ [e3]) (S n) eq_refl) as (r' & X1 & X2 & X3 & X4). exists (e3 :: r').
      assert (C2 : classname e2 = classname e0) by (rewrite <- CE; apply (frame_class [txt "model"]); [apply frame_set; left; reflexivity|cbn; intuition discriminate]).
      assert (A2 : assoc (txt "model") (me_pairs e2) = Some (modelkey n)) by (unfold e2; cbn [me_pairs with_pairs]; rewrite assoc_set; destruct (list_eq_dec N.eq_dec _ _); [reflexivity|congruence]).
      refine (conj _ (conj _ (conj _ _))).
      * rewrite X1, <- app_assoc. reflexivity.
      * constructor; [|exact X2]. intros K K1 [K2|K2]; [|congruence]. rewrite <- P1. eapply frame_trans with (b := me_pairs e2); [apply frame_set; exact K2|].
        unfold e3. destruct (starts _ _ _); [|apply frame_refl]. apply frame_set. exact K1.
      * cbn [numberedU]. rewrite B. split; [|exact X3]. unfold e3. destruct (starts _ _ _); [|exact A2]. cbn [me_pairs with_pairs]. unfold fix_rotate. cbv zeta.
        rewrite assoc_set. destruct (list_eq_dec N.eq_dec _ _) as [Q|_]; [discriminate Q|exact A2].
      * intros F. inversion F as [|x y F1 F2]; subst. cbn [map expected]. rewrite B, (X4 F2). f_equal. unfold e3.
        destruct (starts (fun c => c) (txt "rotate_") (classname e2)) eqn:Q; [|unfold e2; cbn [me_pairs with_pairs]; rewrite P1; reflexivity].
        apply starts_lower in Q; [|reflexivity]. rewrite C2, F1 in Q. discriminate.
    + destruct (IH es0 (done ++ [e1]) n eq_refl) as (r' & X1 & X2 & X3 & X4). exists (e1 :: r'). refine (conj _ (conj _ (conj _ _))).
      * rewrite X1, <- app_assoc. reflexivity.
      * constructor; [|exact X2]. intros K _ _. rewrite P1. apply frame_refl.
      * cbn [numberedU]. rewrite B. exact X3.
      * intros F. inversion F as [|x y F1 F2]; subst. cbn [map expected]. rewrite B, (X4 F2), P1. reflexivity.
Qed.
