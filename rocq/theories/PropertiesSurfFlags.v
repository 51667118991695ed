(* Statements: flags that sides get from entities, names and surface information (C148). *)
From Coq Require Import String List Arith NArith ZArith QArith Bool Lia.
Import ListNotations.
From Verif Require Import Base NumCastModel ParserModel EntModel EntProofs CmdlibModel CmdlibProofs ContentsModel ContentsProofs EntOutModel DecompEntModel SurfFlagsModel SurfFlagsProofs.
Local Open Scope list_scope.

(** The keys of an entity that mean something to its sides, and those that worldspawn passes on. *)
Definition side_keys : list string :=
  ["classname"; "_shadow"; "_litwater"; "_splitturb"; "_dirt"; "_bounce"; "_minlight"; "_lightignore"; "_surflight_rescale"; "_surflight_color";
   "_surflight_style"; "_surflight_targetname"; "_surflight_minlight_scale"; "_phong_angle"; "_phong"; "_phong_angle_concave"; "_phong_group"; "_maxlight";
   "_lightcolorscale"; "_surflight_group"; "_world_units_per_luxel"; "_object_channel_mask"; "_mincolor"; "_minlight_color"; "_light_alpha"; "_light_twosided";
   "_minlight_exclude"; "_minlight_exclude1"; "_minlight_exclude2"; "_minlight_exclude3"; "_minlight_exclude4"; "_minlight_exclude5"; "_minlight_exclude6";
   "_minlight_exclude7"; "_minlight_exclude8"; "_minlight_exclude9"]%string.
Definition world_keys : list string := ["_phong"; "_phong_angle"; "_surflight_minlight_scale"]%string.

Ltac inkey := unfold side_keys, world_keys; repeat first [left; reflexivity | right].
(** No other key changes anything. *)
Theorem C148_local : forall atof scan3 o name native contents e e2 w w2,
  (forall k, In k side_keys -> assoc (txt k) e = assoc (txt k) e2) -> (forall k, In k world_keys -> assoc (txt k) w = assoc (txt k) w2) ->
  surf_flags atof scan3 o name native contents e w = surf_flags atof scan3 o name native contents e2 w2.
Proof.
  intros atof scan3 o name native contents e e2 w w2 E W.
  assert (GE : forall k, In k side_keys -> ed_get (txt k) e = ed_get (txt k) e2) by (intros k I; rewrite !get_assoc, (E k I); reflexivity).
  assert (HE : forall k, In k side_keys -> ed_has (txt k) e = ed_has (txt k) e2) by (intros k I; rewrite !has_assoc, (E k I); reflexivity).
  assert (GW : forall k, In k world_keys -> ed_get (txt k) w = ed_get (txt k) w2) by (intros k I; rewrite !get_assoc, (W k I); reflexivity).
  assert (HW : forall k, In k world_keys -> ed_has (txt k) w = ed_has (txt k) w2) by (intros k I; rewrite !has_assoc, (W k I); reflexivity).
  assert (X : excluded name e = excluded name e2).
  { unfold excluded. assert (Y : forall l, (forall k, In k l -> In k side_keys) -> existsb (fun k => match ed_get (txt k) e with [] => false | v => iequals name v end) l = existsb (fun k => match ed_get (txt k) e2 with [] => false | v => iequals name v end) l).
    { induction l as [|k l IH]; intro H; [reflexivity|]. cbn [existsb]. rewrite (GE k (H k (or_introl eq_refl))), IH; [reflexivity|]. intros k2 I. apply H. right. exact I. }
    apply Y. intros k I. unfold exclude_keys in I. unfold side_keys. cbn [In] in I |- *. tauto. }
  unfold surf_flags, litwater, surflight_color, mincolor, get_vector, phong_angle, inherited, get_float, get_int, has. rewrite X.
  repeat match goal with
  | |- context [ed_get (txt ?k) e] => rewrite (GE k) by inkey
  | |- context [ed_has (txt ?k) e] => rewrite (HE k) by inkey
  | |- context [ed_get (txt ?k) w] => rewrite (GW k) by inkey
  | |- context [ed_has (txt ?k) w] => rewrite (HW k) by inkey
  end. reflexivity.
Qed.
Print Assumptions C148_local.

(** The three keys of worldspawn are as if written in the entities that do not have them. *)
Definition fill (w e : entdict) : entdict :=
  fold_left (fun e k => match assoc (txt k) e, assoc (txt k) w with None, Some v => ed_set (txt k) v e | _, _ => e end) world_keys e.
Lemma fill_assoc : forall w e k, assoc k (fill w e) = match assoc k e with Some v => Some v | None => if existsb (fun s => beq k (txt s)) world_keys then assoc k w else None end.
Proof.
  intros w e k. unfold fill.
  assert (G : forall l e, assoc k (fold_left (fun e k => match assoc (txt k) e, assoc (txt k) w with None, Some v => ed_set (txt k) v e | _, _ => e end) l e) =
    match assoc k e with Some v => Some v | None => if existsb (fun s => beq k (txt s)) l then assoc k w else None end).
  { induction l as [|s l IH]; intro d; cbn [fold_left existsb]; [destruct (assoc k d); reflexivity|]. rewrite IH. clear IH.
    destruct (beq k (txt s)) eqn:B.
    - apply beq_eq in B. subst k. cbn [orb]. destruct (assoc (txt s) d) eqn:D; [rewrite D; reflexivity|]. destruct (assoc (txt s) w) eqn:E.
      + rewrite assoc_set. destruct (list_eq_dec N.eq_dec (txt s) (txt s)); [reflexivity|congruence].
      + rewrite D. destruct (existsb _ l); reflexivity.
    - apply beq_neq in B. cbn [orb].
      assert (Z : assoc k match assoc (txt s) d with Some _ => d | None => match assoc (txt s) w with Some v => ed_set (txt s) v d | None => d end end = assoc k d).
      { destruct (assoc (txt s) d); [reflexivity|]. destruct (assoc (txt s) w); [|reflexivity]. rewrite assoc_set. destruct (list_eq_dec N.eq_dec k (txt s)); [contradiction|reflexivity]. }
      rewrite Z. reflexivity. }
  apply G.
Qed.
Theorem C148_world : forall atof scan3 o name native contents e w,
  surf_flags atof scan3 o name native contents e w = surf_flags atof scan3 o name native contents (fill w e) [].
Proof.
  intros atof scan3 o name native contents e w.
  assert (A : forall k, existsb (fun s => beq (txt k) (txt s)) world_keys = false -> ed_get (txt k) (fill w e) = ed_get (txt k) e /\ ed_has (txt k) (fill w e) = ed_has (txt k) e).
  { intros k H. rewrite !get_assoc, !has_assoc, fill_assoc, H. destruct (assoc (txt k) e); split; reflexivity. }
  assert (P : forall {A} (get : string -> entdict -> A) k, (forall e2 e3, assoc (txt k) e2 = assoc (txt k) e3 -> get k e2 = get k e3) -> existsb (fun s => beq (txt k) (txt s)) world_keys = true ->
    inherited get k e w = inherited get k (fill w e) [] /\ (has k e || has k w = has k (fill w e) || has k [])).
  { intros A0 get k G H. unfold inherited, has. rewrite !has_assoc, fill_assoc, H. change (assoc (txt k) []) with (@None bytes).
    pose proof (fill_assoc w e (txt k)) as F. rewrite H in F. destruct (assoc (txt k) e) eqn:E; cbn [negb andb orb].
    - split; [apply G; rewrite F; exact E|reflexivity].
    - destruct (assoc (txt k) w) eqn:E2; cbn [negb andb orb]; (split; [|reflexivity]); apply G; rewrite F; [exact E2|exact E]. }
  assert (GF : forall k e2 e3, assoc (txt k) e2 = assoc (txt k) e3 -> get_float atof k e2 = get_float atof k e3) by (intros k e2 e3 H; unfold get_float; rewrite !get_assoc, H; reflexivity).
  assert (GI : forall k e2 e3, assoc (txt k) e2 = assoc (txt k) e3 -> get_int k e2 = get_int k e3) by (intros k e2 e3 H; unfold get_int; rewrite !get_assoc, H; reflexivity).
  assert (X : excluded name (fill w e) = excluded name e).
  { unfold excluded. assert (Y : forall l, (forall k, In k l -> existsb (fun s => beq (txt k) (txt s)) world_keys = false) -> existsb (fun k => match ed_get (txt k) (fill w e) with [] => false | v => iequals name v end) l = existsb (fun k => match ed_get (txt k) e with [] => false | v => iequals name v end) l).
    { induction l as [|k l IH]; intro H; [reflexivity|]. cbn [existsb]. rewrite (proj1 (A k (H k (or_introl eq_refl)))), IH; [reflexivity|]. intros k2 I. apply H. right. exact I. }
    apply Y. intros k I. unfold exclude_keys in I. repeat (destruct I as [<- |I]; [vm_compute; reflexivity|]). destruct I. }
  unfold surf_flags, phong_angle. rewrite X.
  destruct (P num (get_float atof) "_phong_angle"%string (GF _) ltac:(vm_compute; reflexivity)) as (P1 & _). rewrite P1. clear P1.
  destruct (P Z get_int "_phong"%string (GI _) ltac:(vm_compute; reflexivity)) as (P1 & _). rewrite P1. clear P1.
  destruct (P num (get_float atof) "_surflight_minlight_scale"%string (GF _) ltac:(vm_compute; reflexivity)) as (P1 & P2). rewrite P1, P2. clear P P1 P2 GF GI X.
  set (u := inherited (get_float atof) "_phong_angle" (fill w e) []). set (v := inherited get_int "_phong" (fill w e) []).
  set (x := when (has "_surflight_minlight_scale" (fill w e) || has "_surflight_minlight_scale" []) (inherited (get_float atof) "_surflight_minlight_scale" (fill w e) [])).
  clearbody u v x. unfold litwater, surflight_color, mincolor, get_vector, get_float, get_int, has.
  repeat match goal with
  | |- context [ed_get (txt ?k) (fill w e)] => rewrite (proj1 (A k ltac:(vm_compute; reflexivity)))
  | |- context [ed_has (txt ?k) (fill w e)] => rewrite (proj2 (A k ltac:(vm_compute; reflexivity)))
  end. reflexivity.
Qed.
Print Assumptions C148_world.

(** Whatever the values, if none is the text of a NaN: angles are in 0..360, _maxlight in 0..510, scales and opacities in
    0..1, minimum light is not negative, colours are bytes. *)
Theorem C148_ranges : forall atof scan3 o name native contents e w f, (forall v, atof v <> NaN) ->
  surf_flags atof scan3 o name native contents e w = ROk f ->
  between 0 360 (f_phong f) /\ between 0 360 (f_concave f) /\ between 0 510 (f_maxlight f) /\ between 0 1 (f_colorscale f) /\
  (forall a, f_alpha f = Some a -> between 0 1 a) /\ (forall m, f_minlight f = Some m -> exists q, m = Num q /\ (0 <= q)%Q) /\
  (List.length (f_mlcolor f) = 3%nat /\ Forall (fun b => 0 <= b <= 255)%Z (f_mlcolor f)) /\
  (forall c, f_color f = Some c -> List.length c = 3%nat /\ Forall (fun b => 0 <= b <= 255)%Z c).
Proof.
  intros atof scan3 o name native contents e w f NN H.
  assert (NF : forall k d, nonan (get_float atof k d)). { intros k d. unfold get_float. destruct (ed_get (txt k) d); [discriminate|apply NN]. }
  assert (LV : forall k, List.length (snd (get_vector scan3 k e)) = 3%nat).
  { intro k. unfold get_vector. cbn [snd]. rewrite app_length, repeat_length. pose proof (firstn_le_length 3 (scan3 (ed_get (txt k) e))). lia. }
  unfold surf_flags in H. destruct (surflight_color scan3 e) as [color| |] eqn:C; try discriminate H. cbn [rbind] in H.
  destruct (mincolor scan3 e) as [ml| |] eqn:M; try discriminate H. cbn [rbind] in H. injection H as <-.
  cbn [f_phong f_concave f_maxlight f_colorscale f_alpha f_minlight f_mlcolor f_color].
  split. { unfold phong_angle. assert (NA : nonan (inherited (get_float atof) "_phong_angle" e w)) by (unfold inherited; destruct (_ && _); apply NF).
           revert NA. generalize (inherited (get_float atof) "_phong_angle" e w) (inherited get_int "_phong" e w). intros a p NA. cbv zeta.
           destruct (negb (p =? 0)%Z && is_zero a); [exists 89%Q; split; [reflexivity|split; discriminate]|].
           destruct (is_zero a); [exists 0%Q; split; [reflexivity|split; discriminate]|apply clamp_between; [discriminate|exact NA]]. }
  split. { apply clamp_between; [discriminate|apply NF]. }
  split. { match goal with |- between _ _ (if ?b then _ else _) => destruct b end; [apply clamp_between; [discriminate|apply NF]|exists 0%Q; split; [reflexivity|split; discriminate]]. }
  split. { destruct (_ && _); [apply clamp_between; [discriminate|apply NF]|exists 1%Q; split; [reflexivity|split; discriminate]]. }
  split. { intros a E. unfold when in E. destruct (has _ e); [|discriminate E]. injection E as <-. apply clamp_between; [discriminate|apply NF]. }
  split. { intros m E. unfold when in E. destruct (has _ e); [|discriminate E]. injection E as <-. unfold max0. specialize (NF "_minlight"%string e). destruct (get_float atof "_minlight" e) as [|q]; [destruct (NF eq_refl)|]. cbn [lt].
           destruct (q_lt 0 q) eqn:L; [exists q; split; [reflexivity|apply q_lt_iff in L; apply Qlt_le_weak; exact L]|exists 0%Q; split; [reflexivity|discriminate]]. }
  split. { unfold mincolor in M. set (v := normalize_color _) in M. assert (LL : List.length v = 3%nat). { subst v. unfold normalize_color. destruct (forallb _ _); [rewrite map_length|]; match goal with |- List.length (if ?b then _ else _) = _ => destruct b end; apply LV. }
           destruct (small v); [injection M as <-; split; [reflexivity|repeat constructor; discriminate]|].
           destruct (bytes3_cases (map (fun x => clamp x (Num 0) (Num 255)) v)) as [(b & E & L & F & _)|(E & _)]; rewrite E in M; [injection M as <-; rewrite map_length in L; split; [congruence|exact F]|discriminate M]. }
  intros c ->. unfold surflight_color in C. specialize (LV "_surflight_color"%string). destruct (get_vector scan3 "_surflight_color" e) as [n v]. cbn [snd] in LV.
  destruct (has _ e && _); [|discriminate C]. set (v2 := if forallb _ _ then _ else _) in C. assert (L2 : List.length v2 = 3%nat) by (subst v2; destruct (forallb _ _); [rewrite map_length|]; exact LV).
  destruct (bytes3_cases v2) as [(b & E & L & F & _)|(E & _)]; rewrite E in C; [|discriminate C]. injection C as <-. split; [congruence|exact F].
Qed.
Print Assumptions C148_ranges.

(** A side never makes qbsp stop, and computing its flags is defined unless _surflight_color has three numbers one of
    which, as a byte, is too large or negative (for colours without NaN). *)
Theorem C148_color : forall atof scan3 o name native contents e w, (forall v, ~ In NaN (scan3 v)) ->
  (exists f, surf_flags atof scan3 o name native contents e w = ROk f) \/
  (surf_flags atof scan3 o name native contents e w = RUB /\
   exists x y z q, assoc (txt "_surflight_color") e <> None /\ firstn 3 (scan3 (ed_get (txt "_surflight_color") e)) = [Num x; Num y; Num z] /\
     In q (if Qle_bool x 1 && (Qle_bool y 1 && Qle_bool z 1) then [x * 255; y * 255; z * 255] else [x; y; z])%Q /\ ((q <= -1)%Q \/ (256 <= q)%Q)).
Proof.
  intros atof scan3 o name native contents e w NN.
  assert (NV : forall k, Forall nonan (snd (get_vector scan3 k e))).
  { intro k. unfold get_vector. cbn [snd]. apply Forall_app. split; apply Forall_forall; intros x I X; subst x.
    - apply (NN (ed_get (txt k) e)). rewrite <- (firstn_skipn 3). apply in_or_app. left. exact I.
    - apply repeat_spec in I. discriminate I. }
  assert (M : exists ml, mincolor scan3 e = ROk ml).
  { unfold mincolor. set (v := normalize_color _). assert (NV2 : Forall nonan v).
    { subst v. unfold normalize_color. destruct (forallb _ _); [apply Forall_forall; intros x I; apply in_map_iff in I; destruct I as (y & <- & I)|].
      - assert (Y : nonan y). { revert I. match goal with |- In _ (if ?b then _ else _) -> _ => destruct b end; intro I; [pose proof (NV "_minlight_color"%string) as G|pose proof (NV "_mincolor"%string) as G]; rewrite Forall_forall in G; exact (G y I). }
        destruct y; [destruct (Y eq_refl)|discriminate].
      - match goal with |- Forall _ (if ?b then _ else _) => destruct b end; apply NV. }
    destruct (small v); [eexists; reflexivity|]. destruct (bytes3_cases (map (fun x => clamp x (Num 0) (Num 255)) v)) as [(b & E & _)|(_ & u & I & U)]; [exists b; exact E|]. exfalso.
    apply in_map_iff in I. destruct I as (y & <- & I). rewrite Forall_forall in NV2. destruct (clamp_between y 0 255 ltac:(discriminate) (NV2 y I)) as (q & E & R). rewrite E in U.
    destruct (proj1 (to_byte_ok q)) as (b & B & _); [|congruence]. split; [apply Qlt_le_trans with 0%Q; [reflexivity|tauto]|apply Qle_lt_trans with 255%Q; [tauto|reflexivity]]. }
  destruct M as (ml & M). unfold surf_flags. rewrite M. cbn [rbind].
  unfold surflight_color, get_vector. specialize (NV "_surflight_color"%string). unfold get_vector in NV. cbn [snd] in NV. set (l := firstn 3 (scan3 (ed_get (txt "_surflight_color") e))) in *.
  destruct (has "_surflight_color" e && (List.length l =? 3)%nat) eqn:C; [|left; eexists; reflexivity].
  apply andb_true_iff in C. destruct C as (HC & LC). apply Nat.eqb_eq in LC. rewrite LC in NV |- *. cbn [Nat.sub repeat] in NV |- *. rewrite app_nil_r in NV |- *.
  unfold has in HC. rewrite has_assoc in HC.
  destruct l as [|a [|b [|c [|]]]]; try discriminate LC. inversion NV as [|? ? NA N1]; subst. inversion N1 as [|? ? NB N2]; subst. inversion N2 as [|? ? NC _]; subst.
  destruct a as [|x]; [destruct (NA eq_refl)|]. destruct b as [|y]; [destruct (NB eq_refl)|]. destruct c as [|z]; [destruct (NC eq_refl)|].
  cbn [forallb le]. rewrite andb_true_r.
  set (s := Qle_bool x 1 && (Qle_bool y 1 && Qle_bool z 1)).
  assert (EQ : (if s then map times255 [Num x; Num y; Num z] else [Num x; Num y; Num z]) = map Num (if s then [x * 255; y * 255; z * 255] else [x; y; z])%Q) by (destruct s; reflexivity).
  rewrite EQ. destruct (bytes3_cases (map Num (if s then [x * 255; y * 255; z * 255] else [x; y; z])%Q)) as [(b & E & _)|(E & u & I & U)]; rewrite E; cbn [rbind]; [left; eexists; reflexivity|].
  right. split; [reflexivity|]. apply in_map_iff in I. destruct I as (q & <- & I). exists x, y, z, q. split; [destruct (assoc _ e); [discriminate|discriminate HC]|]. split; [reflexivity|]. split; [exact I|].
  destruct (Qlt_le_dec (-1) q) as [A|A]; [|left; exact A]. destruct (Qlt_le_dec q 256) as [B|B]; [|right; exact B]. exfalso. destruct (proj1 (to_byte_ok q) (conj A B)) as (bb & X & _). congruence.
Qed.
Print Assumptions C148_color.

(** Sides of entities without light keys, in a world without them, have only the flags of their names. *)
Theorem C148_default : forall atof scan3 o name native contents e w,
  (forall k, In k side_keys -> k <> "classname"%string -> assoc (txt k) e = None) -> (forall k, In k world_keys -> assoc (txt k) w = None) -> scan3 [] = [] ->
  iequals (txt "func_detail_illusionary") (ed_get (txt "classname") e) = false ->
  surf_flags atof scan3 o name native contents e w = ROk (mkF
    (match o_game o with Q2 => native | Q1 => if special_name o (o_splitturb o) name then 1 else 0 end)%N
    (match o_game o with Q2 => tst native S_NODRAW | Q1 => false end || skip_name o name) (match o_game o with Q2 => tst native S_HINT | Q1 => false end || hint_name name) (noexpand_name name)
    false false false false (is_liquid (o_game o) contents && negb (match o_game o with Q2 => tst native S_TRANS | Q1 => false end))
    None None None None None (Num 0) (Num 0) 0 None (Num 0) (Num 1) 0 None None [0; 0; 0]%Z None None).
Proof.
  intros atof scan3 o name native contents e w E W S C.
  assert (GE : forall k, In k side_keys -> k <> "classname"%string -> ed_get (txt k) e = []) by (intros k I N; rewrite get_assoc, (E k I N); reflexivity).
  assert (HE : forall k, In k side_keys -> k <> "classname"%string -> ed_has (txt k) e = false) by (intros k I N; rewrite has_assoc, (E k I N); reflexivity).
  assert (GW : forall k, In k world_keys -> ed_get (txt k) w = []) by (intros k I; rewrite get_assoc, (W k I); reflexivity).
  assert (HW : forall k, In k world_keys -> ed_has (txt k) w = false) by (intros k I; rewrite has_assoc, (W k I); reflexivity).
  assert (X : excluded name e = false).
  { unfold excluded, exclude_keys. cbn [existsb]. rewrite !GE by (solve [inkey | discriminate]). reflexivity. }
  unfold surf_flags, litwater, surflight_color, mincolor, get_vector, phong_angle, inherited, get_float, get_int, has. rewrite X, C.
  repeat match goal with
  | |- context [ed_get (txt ?k) e] => rewrite (GE k) by (solve [inkey | discriminate])
  | |- context [ed_has (txt ?k) e] => rewrite (HE k) by (solve [inkey | discriminate])
  | |- context [ed_get (txt ?k) w] => rewrite (GW k) by inkey
  | |- context [ed_has (txt ?k) w] => rewrite (HW k) by inkey
  end. rewrite S. cbn [firstn List.length Nat.sub repeat app]. cbv beta iota zeta delta [fst snd]. change (atoi []) with 0%Z. cbn [Z.eqb negb andb orb Nat.eqb].
  change (normalize_color (if small [Num 0; Num 0; Num 0] then [Num 0; Num 0; Num 0] else [Num 0; Num 0; Num 0])) with [Num (0 * 255); Num (0 * 255); Num (0 * 255)].
  change (small [Num (0 * 255); Num (0 * 255); Num (0 * 255)]) with true. cbn [rbind].
  change (clamp (Num 0) (Num 0) (Num 360)) with (Num 0). cbn [is_zero Qeq_bool Qnum Qden Z.mul Z.eqb lt when]. change (q_lt 0 0) with false.
  destruct (o_game o); cbn [andb orb]; rewrite ?andb_true_r; reflexivity.
Qed.
Print Assumptions C148_default.

Lemma rok_inj : forall A (a b : A), ROk a = ROk b -> b = a.
Proof. intros A a b H. injection H as E. symmetry. exact E. Qed.
(** What the flags mean, key by key. *)
Theorem C148_keys : forall atof scan3 o name native contents e w f, surf_flags atof scan3 o name native contents e w = ROk f ->
  (f_no_minlight f = true <-> get_int "_minlight" e = (-1)%Z \/ exists k v, In k exclude_keys /\ assoc (txt k) e = Some v /\ v <> [] /\ map lower name = map lower v) /\
  (f_no_shadow f = true <-> get_int "_shadow" e = (-1)%Z \/ get_int "_shadow" e <> 1%Z /\
     (map lower (ed_get (txt "classname") e) = map lower (txt "func_detail_illusionary") \/ is_liquid (o_game o) contents = true /\ ~ (o_game o = Q2 /\ tst native S_TRANS = true))) /\
  (f_no_dirt f = true <-> get_int "_dirt" e = (-1)%Z) /\ (f_no_bounce f = true <-> get_int "_bounce" e = (-1)%Z) /\ (f_ignore f = true <-> get_int "_lightignore" e = 1%Z).
Proof.
  intros atof scan3 o name native contents e w f H. unfold surf_flags in H. destruct (surflight_color scan3 e); try discriminate H. cbn [rbind] in H. destruct (mincolor scan3 e); try discriminate H. cbn [rbind] in H. apply rok_inj in H. subst f.
  cbn [f_no_minlight f_no_shadow f_no_dirt f_no_bounce f_ignore].
  split; [|split; [|split; [|split]]]; try apply Z.eqb_eq.
  - rewrite orb_true_iff, Z.eqb_eq. unfold excluded. rewrite existsb_exists. split; (intros [H|H]; [left; exact H|right]).
    + destruct H as (k & I & E). rewrite get_assoc in E. destruct (assoc (txt k) e) as [v|] eqn:A; [|discriminate E]. destruct v as [|c v]; [discriminate E|]. exists k, (c :: v). apply iequals_iff in E. repeat split; try assumption. discriminate.
    + destruct H as (k & v & I & A & N & E). exists k. split; [exact I|]. rewrite get_assoc, A. destruct v; [destruct (N eq_refl)|]. apply iequals_iff. exact E.
  - rewrite !orb_true_iff, !andb_true_iff, !negb_true_iff, Z.eqb_eq, Z.eqb_neq, iequals_iff.
    assert (T : (match o_game o with Q2 => true | Q1 => false end && tst native S_TRANS = false) <-> ~ (o_game o = Q2 /\ tst native S_TRANS = true)).
    { destruct (o_game o); cbn [andb]; [split; [intros _ (X & _); discriminate X|reflexivity]|]. destruct (tst native S_TRANS); split; intro X; [discriminate X|destruct (X (conj eq_refl eq_refl))|intros (_ & Y); discriminate Y|reflexivity]. }
    rewrite T. assert (S : forall a b : bytes, map lower a = map lower b <-> map lower b = map lower a) by (intros; split; intro; congruence). rewrite (S (txt "func_detail_illusionary")). tauto.
Qed.
Print Assumptions C148_keys.

(** Keys that give a value: nothing without the key, else its number as it is, or within its limits. *)
Theorem C148_optional : forall atof scan3 o name native contents e w f, surf_flags atof scan3 o name native contents e w = ROk f ->
  let int k := option_map atoi (assoc (txt k) e) in let real k := option_map (fun v => match v with [] => Num 0 | _ => atof v end) (assoc (txt k) e) in
  f_twosided f = option_map (fun z => negb (z =? 0)%Z) (int "_light_twosided"%string) /\ f_rescale f = option_map (fun z => (z =? 1)%Z) (int "_surflight_rescale"%string) /\
  f_target f = assoc (txt "_surflight_targetname") e /\ (forall z, f_style f = Some z <-> int "_surflight_style"%string = Some z /\ z <> 0%Z) /\
  f_channel f = int "_object_channel_mask"%string /\ f_group f = match int "_surflight_group"%string with Some z => z | None => 0%Z end /\
  f_luxel f = real "_world_units_per_luxel"%string /\ f_minlight f = option_map (fun v => if lt (Num 0) v then v else Num 0) (real "_minlight"%string) /\
  f_alpha f = option_map (fun v => clamp v (Num 0) (Num 1)) (real "_light_alpha"%string) /\
  f_pgroup f = match int "_phong_group"%string with Some z => z | None => 0%Z end /\
  f_native f = match o_game o with Q2 => native | Q1 => if special_name o (litwater o e) name then 1%N else 0%N end /\
  f_no_expand f = noexpand_name name.
Proof.
  intros atof scan3 o name native contents e w f H int real. unfold surf_flags in H. destruct (surflight_color scan3 e); try discriminate H. cbn [rbind] in H. destruct (mincolor scan3 e); try discriminate H. cbn [rbind] in H. apply rok_inj in H. subst f.
  cbn [f_twosided f_rescale f_target f_style f_channel f_group f_luxel f_minlight f_alpha f_pgroup f_native f_no_expand]. unfold int, real, has, get_int, get_float, when, max0. rewrite !has_assoc, !get_assoc.
  repeat apply conj; try reflexivity; try (intros z).
  all: try (match goal with |- context[assoc ?k ?d] => destruct (assoc k d) as [[|? ?]|] end; reflexivity).
  - destruct (assoc (txt "_surflight_style") e) as [v|]; cbn [andb option_map]; [|split; [discriminate|intros [H _]; discriminate]].
    destruct (atoi v =? 0)%Z eqn:Z0; cbn [negb].
    + split; [discriminate|]. intros [H N]. injection H as <-. apply Z.eqb_eq in Z0. contradiction.
    + apply Z.eqb_neq in Z0. split; [intros H; split; [exact H|]; injection H as <-; exact Z0|intros [H _]; exact H].
  - destruct (o_game o); reflexivity.
Qed.
Print Assumptions C148_optional.

(** In Quake the contents known here are those of surface information, which is thrown away: liquids keep their shadows,
    although the code means to remove them. *)
Theorem C148_liquid_refuted : forall atof scan3 o e w f r, o_game o = Q1 -> face_flags atof scan3 o e w f = ROk r ->
  ed_get (txt "_shadow") e = [] -> iequals (txt "func_detail_illusionary") (ed_get (txt "classname") e) = false -> f_no_shadow r = false.
Proof.
  intros atof scan3 o e w f r G H S C. unfold face_flags in H. rewrite G in H. unfold surf_flags, get_int in H. rewrite S, C, G in H. destruct (surflight_color scan3 e); try discriminate H. cbn [rbind] in H. destruct (mincolor scan3 e); try discriminate H. cbn [rbind] in H. apply rok_inj in H. subst r. reflexivity.
Qed.
Print Assumptions C148_liquid_refuted.

(** _phong cannot be switched off by an entity in a world with _phong_angle: the key then means nothing. *)
Theorem C148_phong_refuted : forall atof e w v u, assoc (txt "_phong_angle") e = None -> assoc (txt "_phong_angle") w = Some u -> u <> [] -> is_zero (atof u) = false ->
  phong_angle atof (ed_set (txt "_phong") v e) w = phong_angle atof e w /\ (atof u = Num 45 -> phong_angle atof e w = Num 45).
Proof.
  intros atof e w v u E W N Z.
  assert (H : forall d, assoc (txt "_phong_angle") d = None -> phong_angle atof d w = clamp (atof u) (Num 0) (Num 360)).
  { intros d D. unfold phong_angle, inherited, has. rewrite (has_assoc (txt "_phong_angle") d), D, (has_assoc (txt "_phong_angle") w), W. cbn [negb andb].
    unfold get_float. rewrite get_assoc, W. destruct u as [|c u]; [destruct (N eq_refl)|]. rewrite Z, andb_false_r. cbv zeta. rewrite Z. reflexivity. }
  split.
  - rewrite (H e E). apply H. rewrite assoc_set. destruct (list_eq_dec N.eq_dec (txt "_phong_angle") (txt "_phong")) as [X|]; [discriminate X|exact E].
  - intro A. rewrite (H e E), A. reflexivity.
Qed.
Print Assumptions C148_phong_refuted.

(** ** Names *)
(** Quake: for names without a path the flags and the contents agree: sides that are not lit are exactly those of liquids
    and sky (without -splitturb, -splitsky), and hints are exactly the sides with no contents. *)
Theorem C148_names : forall name, ~ In 47%N name ->
  (special_name (mkO Q1 false false false) false (miptex_name Q1 name) = true <-> tst (q1_face_contents (classify name)) (N.lor ALL_LIQUIDS SKY) = true) /\
  (hint_name (miptex_name Q1 name) = true <-> q1_face_contents (classify name) = 0%N).
Proof.
  intros name NP. unfold miptex_name. rewrite base_no_path by exact NP. unfold special_name. cbn [o_splitsky negb]. rewrite !andb_true_r.
  assert (F : forall l, (forall s, In s l -> match txt s with c :: _ => c <> 42%N /\ lower c <> 115%N /\ lower c = c | [] => False end) -> named l name = true -> star name = false /\ begins "sky" name = false).
  { intros l L H. apply existsb_named in H. destruct H as (s & I & E). specialize (L s I). pose proof (first_char s name E) as C. destruct name as [|c name]; [destruct (txt s); [destruct L|destruct C]|]. destruct (txt s) as [|d t]; [destruct C|]. destruct L as (L1 & L2 & L3).
    split.
    - cbn [star]. apply N.eqb_neq. intro X. subst c. rewrite L3 in C. apply L1. rewrite <- C. reflexivity.
    - unfold begins. change (List.length (txt "sky")) with 3%nat. cbn [firstn]. change (txt "sky") with [115; 107; 121]%N. cbn [iequals]. change (lower 115) with 115%N. replace (lower c =? 115)%N with false; [reflexivity|]. symmetry. apply N.eqb_neq. congruence. }
  assert (D : forall l, (forall s, In s l -> match txt s with c :: _ => c <> 42%N /\ lower c <> 115%N /\ lower c = c | [] => False end) -> named l name = true -> star name || begins "sky" name = false) by (intros l L H; destruct (F l L H) as (-> & ->); reflexivity).
  unfold classify, hint_name.
  destruct (named ["origin"]%string name) eqn:A.
  { rewrite (D ["origin"]%string) by (first [exact A | intros s [<- |[]]; vm_compute; repeat split; discriminate]). split; [split; discriminate|]. split; [|discriminate].
    intro H. exfalso. apply existsb_named in A, H. destruct A as (s & [<- |[]] & A). destruct H as (t & I & H). apply iequals_iff in A, H. rewrite A in H. destruct I as [<- |[<- |[]]]; discriminate H. }
  destruct (named ["hint"; "hintskip"]%string name) eqn:B.
  { rewrite (D ["hint"; "hintskip"]%string) by (first [exact B | intros s [<- |[<- |[]]]; vm_compute; repeat split; discriminate]). split; split; try discriminate; reflexivity. }
  destruct (named ["clip"]%string name) eqn:C.
  { rewrite (D ["clip"]%string) by (first [exact C | intros s [<- |[]]; vm_compute; repeat split; discriminate]). split; split; discriminate. }
  destruct (star name); cbn [orb]; [destruct (begins "lava" (tl name)); [|destruct (begins "slime" (tl name))]; split; split; try discriminate; reflexivity|].
  destruct (begins "sky" name); split; split; try discriminate; reflexivity.
Qed.
Print Assumptions C148_names.
(** With a path, as in Quake II maps, the flags are those of the last part and the contents those of the whole name:
    sky that is a solid, clip brushes and triggers that can be seen. *)
Theorem C148_path_refuted : forall dir, ~ In 47%N dir -> star (dir ++ [47%N]) = false ->
  let name s := dir ++ 47%N :: txt s in
  miptex_name Q1 (name "sky1"%string) = txt "sky1" /\ special_name (mkO Q1 false false false) false (miptex_name Q1 (name "sky1"%string)) = true /\
  (begins "sky" (name "sky1"%string) = false -> q1_face_contents (classify (name "sky1"%string)) = SOLID) /\
  miptex_name Q1 (name "hint"%string) = txt "hint" /\ hint_name (miptex_name Q1 (name "hint"%string)) = true /\
  (begins "sky" (name "hint"%string) = false -> q1_face_contents (classify (name "hint"%string)) = SOLID).
Proof.
  intros dir NP ST name.
  assert (BN : forall s, ~ In 47%N (txt s) -> miptex_name Q1 (name s) = txt s).
  { intros s T. unfold miptex_name, name. assert (G : forall d acc, ~ In 47%N d -> base_name (d ++ 47%N :: txt s) acc = txt s).
    { induction d as [|c d IH]; intros acc N; cbn [app base_name]; [change (47 =? 47)%N with true; apply base_no_path; exact T|]. destruct (N.eqb_spec c 47) as [->|X]; [destruct (N (or_introl eq_refl))|]. apply IH. intro I. apply N. right. exact I. }
    apply G. exact NP. }
  assert (SL : forall l s, (forall t, In t l -> ~ In 47%N (map lower (txt t))) -> named l (name s) = false).
  { intros l s L. destruct (named l (name s)) eqn:E; [|reflexivity]. exfalso. apply existsb_named in E. destruct E as (t & I & E). apply (L t I). apply iequals_iff in E. rewrite <- E. unfold name. rewrite map_app. apply in_or_app. right. left. reflexivity. }
  assert (CL : forall s, begins "sky" (name s) = false -> classify (name s) = TOther).
  { intros s B. unfold classify, hint_name. rewrite !SL.
    - replace (star (name s)) with false; [rewrite B; reflexivity|]. unfold name. destruct dir; [reflexivity|exact (eq_sym ST)].
    - intros t [<- |[]]; vm_compute; intuition discriminate.
    - intros t [<- |[<- |[]]]; vm_compute; intuition discriminate.
    - intros t [<- |[]]; vm_compute; intuition discriminate. }
  split; [apply BN; vm_compute; intuition discriminate|]. split; [rewrite BN by (vm_compute; intuition discriminate); vm_compute; reflexivity|]. split; [intro B; rewrite (CL _ B); reflexivity|].
  split; [apply BN; vm_compute; intuition discriminate|]. split; [rewrite BN by (vm_compute; intuition discriminate); vm_compute; reflexivity|]. intro B. rewrite (CL _ B). reflexivity.
Qed.
Print Assumptions C148_path_refuted.

(** ** Quake II *)
(** What is accepted has at most one kind of visible contents, before and after translucency and solids are settled, no
    TRANSLUCENT bit and no monsters, and sky is not NODRAW; no bit but these changes. *)
Theorem C148_q2 : forall c f c2 f2, q2_fix c f = ROk (c2, f2) ->
  (forall i j, i < 7 -> j < 7 -> N.testbit c2 i = true -> N.testbit c2 j = true -> i = j)%N /\ one_visible (q2_face c2 f2) /\
  N.testbit c2 28 = false /\ N.testbit c2 25 = false /\ N.testbit c2 26 = false /\ ~ (N.testbit f2 2 = true /\ N.testbit f2 7 = true) /\
  (forall i, i <> 28 -> i <> 27 -> N.testbit c2 i = N.testbit c i)%N /\ (N.testbit c2 27 = N.testbit c 27 || (N.testbit c 28 && negb (tst f S_TRANS))) /\
  (forall i, i <> 7 -> N.testbit f2 i = N.testbit f i)%N /\ (N.testbit f2 7 = N.testbit f 7 && negb (N.testbit f 2)).
Proof.
  intros c f c2 f2 H. unfold q2_fix in H. set (c1 := if N.testbit c 28 then _ else c) in H. set (f1 := if _ && _ then _ else f) in H. cbv zeta in H.
  destruct (existsb _ _) eqn:V; [discriminate H|]. destruct (tst c1 (2 ^ 25 + 2 ^ 26)) eqn:M; [discriminate H|]. injection H as <- <-.
  pose proof (vis_one c1 V) as V1.
  assert (B : forall i, N.testbit c1 i = if (i =? 28)%N then false else if (i =? 27)%N then N.testbit c 27 || (N.testbit c 28 && negb (tst f S_TRANS)) else N.testbit c i).
  { intro i. subst c1. destruct (N.testbit c 28) eqn:E.
    - destruct (tst f S_TRANS); cbn [andb negb]; rewrite ?N.lor_spec, !N.ldiff_spec, !N.pow2_bits_eqb.
      + rewrite (N.eqb_sym 28 i). destruct (N.eqb_spec i 28) as [->|D]; [apply andb_false_r|]. cbn [negb]. rewrite andb_true_r. destruct (N.eqb_spec i 27) as [->|]; [rewrite orb_false_r|]; reflexivity.
      + rewrite (N.eqb_sym 28 i), (N.eqb_sym 27 i). destruct (N.eqb_spec i 28) as [->|D]; [rewrite andb_false_r; reflexivity|]. cbn [negb]. rewrite andb_true_r. destruct (N.eqb_spec i 27) as [->|]; [rewrite !orb_true_r; reflexivity|apply orb_false_r].
    - cbn [andb]. rewrite orb_false_r. destruct (N.eqb_spec i 28) as [->|D]; [exact E|]. destruct (N.eqb_spec i 27) as [->|]; reflexivity. }
  assert (T4 : tst f S_SKY = N.testbit f 2) by exact (tst_bit f 2). assert (T7 : tst f S_NODRAW = N.testbit f 7) by exact (tst_bit f 7).
  assert (F : forall i, N.testbit f1 i = if (i =? 7)%N then N.testbit f 7 && negb (N.testbit f 2) else N.testbit f i).
  { intro i. subst f1. rewrite T4, T7. destruct (N.testbit f 2) eqn:E2, (N.testbit f 7) eqn:E7; cbn [andb negb].
    - rewrite N.ldiff_spec. change S_NODRAW with (2 ^ 7)%N. rewrite N.pow2_bits_eqb, (N.eqb_sym 7 i). destruct (N.eqb_spec i 7) as [->|]; [apply andb_false_r|apply andb_true_r].
    - destruct (N.eqb_spec i 7) as [->|]; [exact E7|reflexivity].
    - destruct (N.eqb_spec i 7) as [->|]; [exact E7|reflexivity].
    - destruct (N.eqb_spec i 7) as [->|]; [exact E7|reflexivity]. }
  change (2 ^ 25 + 2 ^ 26)%N with (N.lor (2 ^ 25) (2 ^ 26)) in M. rewrite tst_or, !tst_bit in M. apply orb_false_iff in M.
  split; [exact V1|]. split; [apply face_one; exact V1|]. split; [rewrite B; reflexivity|]. split; [tauto|]. split; [tauto|].
  split; [rewrite !F; cbn [N.eqb Pos.eqb]; intros (X & Y); rewrite X in Y; rewrite andb_false_r in Y; discriminate Y|].
  split; [intros i X Y; rewrite B; apply N.eqb_neq in X, Y; rewrite X, Y; reflexivity|]. split; [rewrite B; reflexivity|].
  split; [intros i X; rewrite F; apply N.eqb_neq in X; rewrite X; reflexivity|rewrite F; reflexivity].
Qed.
Print Assumptions C148_q2.

(** ** Hints *)
(** A brush with a hint side: the sides named hint (in Quake II, with the HINT flag) stay splitters and all others are
    skipped; brushes without one are not changed. *)
Theorem C148_hint : forall g l, List.length (hintskips g l) = List.length l /\
  ((forall p, In p l -> f_hint (snd p) = false) -> forall b, In b (hintskips g l) -> b = false) /\
  (forall p, In p l -> f_hint (snd p) = true -> hintskips g l = map (fun p => not_hint g (fst p) (snd p)) l).
Proof.
  intros g l. unfold hintskips. destruct (existsb (fun p => f_hint (snd p)) l) eqn:E.
  - split; [apply map_length|]. split; [|intros; reflexivity]. intros H b _. apply existsb_exists in E. destruct E as (p & I & T). rewrite (H p I) in T. discriminate T.
  - split; [apply map_length|]. split; [intros _ b I; apply in_map_iff in I; destruct I as (p & <- & _); reflexivity|].
    intros p I T. exfalso. assert (X : existsb (fun p : bytes * flags => f_hint (snd p)) l = true) by (apply existsb_exists; exists p; split; assumption). congruence.
Qed.
Print Assumptions C148_hint.
(** Water that keeps its faces and the scale of colours *)
Theorem C148_water : forall o e,
  litwater o e = match assoc (txt "_litwater") e, assoc (txt "_splitturb") e with
                 | Some v, _ => (1 <=? atoi v)%Z | None, Some v => (1 <=? atoi v)%Z | None, None => o_splitturb o end.
Proof.
  intros o e. unfold litwater, has, get_int. rewrite !has_assoc, !get_assoc.
  assert (L : forall z, (0 <? z)%Z = (1 <=? z)%Z) by (intros z; destruct (Z.ltb_spec 0 z), (Z.leb_spec 1 z); try reflexivity; lia).
  destruct (assoc (txt "_litwater") e); [apply L|]. destruct (assoc (txt "_splitturb") e); [apply L|reflexivity].
Qed.
Print Assumptions C148_water.
Theorem C148_colorscale : forall atof scan3 o name native contents e w f, surf_flags atof scan3 o name native contents e w = ROk f ->
  match assoc (txt "_lightcolorscale") e with
  | None => f_colorscale f = Num 1
  | Some [] => f_colorscale f = Num 0
  | Some v => if is_one (atof v) then f_colorscale f = Num 1 else f_colorscale f = clamp (atof v) (Num 0) (Num 1)
  end.
Proof.
  intros atof scan3 o name native contents e w f H. unfold surf_flags in H. destruct (surflight_color scan3 e); try discriminate H. cbn [rbind] in H. destruct (mincolor scan3 e); try discriminate H. cbn [rbind] in H. apply rok_inj in H. subst f.
  cbn [f_colorscale]. unfold has, get_float. rewrite has_assoc, get_assoc. destruct (assoc (txt "_lightcolorscale") e) as [[|c v]|]; [reflexivity| |reflexivity]. cbn [andb]. destruct (is_one (atof (c :: v))); reflexivity.
Qed.
Print Assumptions C148_colorscale.
(** The colour of minimum light for whole numbers: up to 1 they are parts, else bytes, and what is beyond a byte is cut. *)
Theorem C148_mincolor : forall atof scan3 o name native contents e w f t a b c, surf_flags atof scan3 o name native contents e w = ROk f ->
  assoc (txt "_mincolor") e = Some t -> scan3 t = map (fun z => Num (inject_Z z)) [a; b; c] -> [a; b; c] <> [0; 0; 0]%Z ->
  ((forall z, In z [a; b; c] -> (0 <= z <= 1)%Z) -> f_mlcolor f = map (Z.mul 255) [a; b; c]) /\
  ((exists z, In z [a; b; c] /\ ~ (0 <= z <= 1)%Z) -> (exists z, In z [a; b; c] /\ (z > 0)%Z) -> f_mlcolor f = map (fun z => Z.max 0 (Z.min 255 z)) [a; b; c]).
Proof.
  intros atof scan3 o name native contents e w f t a b c H E S N. unfold surf_flags in H. destruct (surflight_color scan3 e); try discriminate H. cbn [rbind] in H. destruct (mincolor scan3 e) as [l| |] eqn:M; try discriminate H. cbn [rbind] in H. apply rok_inj in H. subst f.
  cbn [f_mlcolor]. revert M. unfold mincolor, get_vector. rewrite get_assoc, E, S. cbn [map firstn List.length app repeat Nat.sub snd].
  assert (L1 : forall z, le (Num (-1 # 10000)) (Num (inject_Z z)) && le (Num (inject_Z z)) (Num (1 # 10000)) = (z =? 0)%Z).
  { intros z. cbn [le]. destruct (Z.eqb_spec z 0) as [->|Z0]; [reflexivity|]. apply andb_false_iff. unfold Qle_bool, inject_Z. cbn [Qnum Qden].
    destruct (Z_lt_le_dec z 0); [left|right]; apply Z.leb_gt; lia. }
  assert (L2 : forall z, le (Num 0) (Num (inject_Z z)) && le (Num (inject_Z z)) (Num 1) = (0 <=? z)%Z && (z <=? 1)%Z).
  { intros z. cbn [le]. unfold Qle_bool, inject_Z. cbn [Qnum Qden]. rewrite !Z.mul_1_r, Z.mul_1_l || rewrite !Z.mul_1_r. reflexivity. }
  assert (SM : forall x y z, small [Num (inject_Z x); Num (inject_Z y); Num (inject_Z z)] = (x =? 0)%Z && ((y =? 0)%Z && ((z =? 0)%Z && true))) by (intros x y z; unfold small; cbn [forallb]; rewrite !L1; reflexivity).
  assert (NZ : (a =? 0)%Z && ((b =? 0)%Z && ((c =? 0)%Z && true)) = false).
  { destruct (Z.eqb_spec a 0) as [->|]; [|reflexivity]. destruct (Z.eqb_spec b 0) as [->|]; [|reflexivity]. destruct (Z.eqb_spec c 0) as [->|]; [|reflexivity]. contradiction (N eq_refl). }
  rewrite SM, NZ. unfold normalize_color. cbn [forallb]. rewrite !L2. intros M. split.
  - intros B. assert (Ba := B a (or_introl eq_refl)). assert (Bb := B b (or_intror (or_introl eq_refl))). assert (Bc := B c (or_intror (or_intror (or_introl eq_refl)))).
    assert (Ca : a = 0%Z \/ a = 1%Z) by lia. assert (Cb : b = 0%Z \/ b = 1%Z) by lia. assert (Cc : c = 0%Z \/ c = 1%Z) by lia. clear - Ca Cb Cc N M. revert M.
    destruct Ca as [-> | ->], Cb as [-> | ->], Cc as [-> | ->]; try (contradiction (N eq_refl)); vm_compute; intros M; apply rok_inj in M; subst l; reflexivity.
  - intros (x & I & X) (y & J & Y). assert (F : (0 <=? a)%Z && (a <=? 1)%Z && ((0 <=? b)%Z && (b <=? 1)%Z && ((0 <=? c)%Z && (c <=? 1)%Z && true)) = false).
    { apply not_true_iff_false. rewrite !andb_true_iff, !Z.leb_le. intros F. apply X. destruct I as [<-|[<-|[<-|[]]]]; lia. }
    rewrite F, SM, NZ in M. clear F SM NZ L1 L2.
    assert (K : forall z, to_byte (clamp (Num (inject_Z z)) (Num 0) (Num 255)) = ROk (Z.max 0 (Z.min 255 z))).
    { intros z. unfold clamp, lt, q_lt. assert (Q : forall p q, Qle_bool (inject_Z p) (inject_Z q) = (p <=? q)%Z) by (intros p q; unfold Qle_bool, inject_Z; cbn [Qnum Qden]; rewrite !Z.mul_1_r; reflexivity).
      change 0%Q with (inject_Z 0). change 255%Q with (inject_Z 255). rewrite !Q.
      destruct (Z.leb_spec 0 z) as [G|G]; cbn [negb]; [|replace (Z.max 0 (Z.min 255 z)) with 0%Z by lia; reflexivity].
      destruct (Z.leb_spec z 255) as [G2|G2]; cbn [negb]; [|replace (Z.max 0 (Z.min 255 z)) with 255%Z by lia; reflexivity].
      cbn [to_byte inject_Z Qnum Qden]. rewrite Z.quot_1_r. replace (Z.max 0 (Z.min 255 z)) with z by lia. apply Z.leb_le in G, G2. rewrite G, G2. reflexivity. }
    cbn [map bytes3 fold_right] in M. unfold bytes3 in M. cbn [fold_right] in M. rewrite !K in M. cbn [rbind] in M. apply rok_inj in M. subst l. reflexivity.
Qed.
Print Assumptions C148_mincolor.

(** The sides that stay splitters *)
Theorem C148_splitter : forall name f, (not_hint Q1 name f = false <-> map lower name = map lower (txt "hint")) /\ (not_hint Q2 name f = false <-> N.testbit (f_native f) 8 = true).
Proof.
  intros name f. cbn [not_hint]. rewrite !negb_false_iff, iequals_iff. split; [reflexivity|]. change S_HINT with (2 ^ 8)%N. rewrite tst_pow2. reflexivity.
Qed.
Print Assumptions C148_splitter.
(** Quake II: a brush named hint without the flag is a hint brush none of whose sides splits anything. *)
Theorem C148_q2_hint_refuted : forall atof scan3 o e w l r, o_game o = Q2 ->
  (forall f, In f l -> fc_name f = txt "hint" /\ N.testbit (fc_flags f) 8 = false) ->
  Forall2 (fun f x => face_flags atof scan3 o e w f = ROk x) l r -> r <> [] ->
  (forall x, In x r -> f_hint x = true) /\ forall b, In b (hintskips Q2 (List.combine (map fc_name l) r)) -> b = true.
Proof.
  intros atof scan3 o e w l r G A F N.
  assert (P : Forall (fun x => f_hint x = true /\ tst (f_native x) S_HINT = false) r).
  { clear N. induction F as [|f x l r H F IH]; constructor.
    - destruct (A f (or_introl eq_refl)) as (NM & FL). unfold face_flags in H. rewrite G in H. destruct (q2_fix (fc_contents f) (fc_flags f)) as [[c2 f2]| |] eqn:Q; try discriminate H. cbn [rbind fst snd] in H.
      destruct (C148_q2 _ _ _ _ Q) as (_ & _ & _ & _ & _ & _ & _ & _ & K & _). unfold surf_flags in H. rewrite G in H. destruct (surflight_color scan3 e); try discriminate H. cbn [rbind] in H. destruct (mincolor scan3 e); try discriminate H. cbn [rbind] in H. apply rok_inj in H. subst x. cbn [f_hint f_native].
      split; [rewrite NM; apply orb_true_iff; right; vm_compute; reflexivity|]. change S_HINT with (2 ^ 8)%N. rewrite tst_bit, K by discriminate. exact FL.
    - apply IH. intros g I. apply A. right. exact I. }
  split; [intros x I; rewrite Forall_forall in P; exact (proj1 (P x I))|].
  intros b I. unfold hintskips in I. destruct (existsb _ _) eqn:E.
  - apply in_map_iff in I. destruct I as ([n x] & <- & I). apply in_combine_r in I. rewrite Forall_forall in P. cbn [fst snd not_hint]. rewrite (proj2 (P x I)). reflexivity.
  - exfalso. destruct F as [|f x l r H F]; [apply N; reflexivity|]. cbn [map List.combine existsb snd] in E. inversion P as [|? ? (X & _) _]; subst. rewrite X in E. discriminate E.
Qed.
Print Assumptions C148_q2_hint_refuted.

(** ** The order of keys and brushes *)
(** With the keys first, all sides are given all keys; the world's own sides see the world's keys. *)
Theorem C148_order : forall atof scan3 o w kv brushes,
  let e := fold_left (fun e p => ed_set (fst p) (snd p) e) kv [] in
  read_items atof scan3 o w (map (fun p => IPair (fst p) (snd p)) kv ++ map IBrush brushes) [] [] = (e, map (map (face_flags atof scan3 o e (match w with Some w => w | None => e end))) brushes).
Proof.
  intros atof scan3 o w kv brushes e.
  assert (A : forall kv d l, read_items atof scan3 o w (map (fun p => IPair (fst p) (snd p)) kv ++ l) d [] = read_items atof scan3 o w l (fold_left (fun e p => ed_set (fst p) (snd p) e) kv d) []).
  { induction kv0 as [|p kv0 IH]; intros d l; [reflexivity|]. cbn [map app read_items fold_left]. apply IH. }
  assert (B : forall bs d out, read_items atof scan3 o w (map IBrush bs) d out = (d, out ++ map (map (face_flags atof scan3 o d (match w with Some w => w | None => d end))) bs)).
  { induction bs as [|b bs IH]; intros d out; cbn [map read_items]; [rewrite app_nil_r; reflexivity|]. rewrite IH, <- app_assoc. reflexivity. }
  rewrite A. fold e. rewrite B. reflexivity.
Qed.
Print Assumptions C148_order.
(** A key behind a brush means nothing to it. *)
Theorem C148_order_refuted : forall atof scan3 o w items k v, snd (read_items atof scan3 o w (items ++ [IPair k v]) [] []) = snd (read_items atof scan3 o w items [] []).
Proof.
  intros atof scan3 o w items k v. generalize (@nil (list (res flags))) as out. generalize (@nil (bytes * bytes)) as e. induction items as [|[k2 v2|fs] items IH]; intros e out; [reflexivity| |]; cbn [app read_items]; apply IH.
Qed.
Print Assumptions C148_order_refuted.

(** ** Concrete sides *)
Definition num1 (v : bytes) : num := if beq v (txt "nan") then NaN else Num (inject_Z (atoi v)).
Definition scan1 (v : bytes) : list num := match v with [] => [] | _ => if beq v (txt "nan 1 1") then [NaN; Num 1; Num 1] else if beq v (txt "300 0 0") then [Num 300; Num 0; Num 0] else if beq v (txt "1 0.5 0") then [Num 1; Num (1 # 2); Num 0] else [] end.
Definition opt1 : opts := mkO Q1 false false false.
Definition ent1 (l : list (string * string)) : entdict := map (fun p => (txt (fst p), txt (snd p))) l.
(** NaN: angles and scales are then not numbers, and a colour with one is undefined behaviour. *)
Theorem C148_nan_refuted :
  (exists f, surf_flags num1 scan1 opt1 (txt "wall") 0 0 (ent1 [("_phong_angle", "nan"); ("_light_alpha", "nan"); ("_minlight", "nan")]%string) [] = ROk f /\ f_phong f = NaN /\ f_alpha f = Some NaN /\ f_minlight f = Some (Num 0)) /\
  surf_flags num1 scan1 opt1 (txt "wall") 0 0 (ent1 [("_mincolor", "nan 1 1")]%string) [] = RUB /\
  surf_flags num1 scan1 opt1 (txt "wall") 0 0 (ent1 [("_surflight_color", "300 0 0")]%string) [] = RUB.
Proof. split; [eexists; vm_compute; repeat split|]. split; vm_compute; reflexivity. Qed.
Print Assumptions C148_nan_refuted.
Example C148_nontrivial :
  exists f, surf_flags num1 scan1 opt1 (txt "*WATER1") 0 0
      (ent1 [("classname", "func_detail_illusionary"); ("_minlight", "20"); ("_minlight_exclude3", "*water1"); ("_maxlight", "600"); ("_surflight_color", "1 0.5 0"); ("_phong_group", "7"); ("_litwater", "1")]%string)
      (ent1 [("_phong", "1"); ("_dirt", "-1")]%string) = ROk f /\
    f_native f = 0%N /\ f_phong f = Num 89 /\ f_maxlight f = Num 510 /\ f_color f = Some [255; 127; 0]%Z /\ f_minlight f = Some (Num 20) /\ f_no_minlight f = true /\ f_no_shadow f = true /\ f_no_dirt f = false /\ f_pgroup f = 7%Z.
Proof. eexists. split; [vm_compute; reflexivity|]. repeat split. Qed.
Example C148_names_nontrivial :
  map (fun s => (special_name opt1 false (miptex_name Q1 (txt s)), skip_name opt1 (txt s), hint_name (txt s), q1_face_contents (classify (txt s)))) ["SKY2"; "*lava1"; "*SlimeSkip"; "hintskip"; "Clip"; "brick"; "e1u1/sky1"]%string =
    [(true, false, false, SKY); (true, false, false, LAVA); (true, true, false, SLIME); (false, false, true, 0%N); (false, false, false, PLAYERCLIP); (false, false, false, SOLID); (true, false, false, SOLID)] /\
  q2_fix (2 ^ 28 + 1) 4 = ROk (2 ^ 27 + 1, 4)%N /\ q2_fix 3 0 = RThrow /\ q2_fix (2 ^ 25) 0 = RThrow /\ q2_fix 32 132 = ROk (32, 4)%N /\
  q2_face 1 16 = N.lor (N.lor WINDOW TRANSLUCENT) DETAIL /\ q2_face 1 256 = 0%N /\ q2_face 0 0 = SOLID.
Proof. vm_compute. repeat split. Qed.
