(* C139: keys rewritten by light. *)
From Coq Require Import String Ascii List Arith NArith Bool Lia.
Import ListNotations.
From Verif Require Import Base NumCastModel ParserModel EntModel EntProofs LightKeysModel.
Local Open Scope N_scope.

(** ** C139 *)

(** Without lightmap_scale (or with an empty one) nothing is rewritten; otherwise the key is gone and all
    other keys but _lightmap_scale are as before. *)
Theorem C139_scale : forall d, NoDup (map fst d) ->
  (assoc k_scale d = None \/ assoc k_scale d = Some [] -> fix_scale d = ROk d) /\
  forall d', fix_scale d = ROk d' -> assoc k_scale d <> None -> assoc k_scale d <> Some [] ->
    assoc k_scale d' = None /\ assoc k_scale_ d' <> None /\ forall k, k <> k_scale -> k <> k_scale_ -> assoc k d' = assoc k d.
Proof.
  intros d ND. change (map fst d) with (keys d) in ND. split.
  - intros H. unfold fix_scale. rewrite get_assoc. destruct H as [-> | ->]; reflexivity.
  - intros d' F N1 N2. unfold fix_scale in F. rewrite get_assoc in F. destruct (assoc k_scale d) as [v|] eqn:A; [|congruence].
    destruct v as [|c v]; [exfalso; apply N2; reflexivity|]. pose proof (find_assoc k_scale d) as X. destruct (ed_find k_scale d) as [i|]; [|exfalso; rewrite A in X; discriminate X].
    destruct (nth_error (ed_remove k_scale d) i) as [p|]; [|discriminate F]. injection F as <-.
    split; [|split].
    + rewrite assoc_set. destruct (list_eq_dec N.eq_dec k_scale k_scale_) as [E|_]; [discriminate E|]. rewrite assoc_remove by exact ND.
      destruct (list_eq_dec N.eq_dec k_scale k_scale) as [_|E]; [reflexivity|contradiction].
    + rewrite assoc_set. destruct (list_eq_dec N.eq_dec k_scale_ k_scale_) as [_|E]; [discriminate|contradiction].
    + intros k K1 K2. rewrite assoc_set. destruct (list_eq_dec N.eq_dec k k_scale_); [contradiction|]. rewrite assoc_remove by exact ND.
      destruct (list_eq_dec N.eq_dec k k_scale); [contradiction|reflexivity].
Qed.
Print Assumptions C139_scale.

(** The value is not kept: _lightmap_scale gets the value of the pair that follows lightmap_scale, whatever
    its key is; if no pair follows, a destroyed string is read. *)
Theorem C139_scale_refuted : forall (a : entdict) (v : bytes) (b : entdict), ~ In k_scale (map fst a) -> v <> [] ->
  (b = [] -> fix_scale (a ++ (k_scale, v) :: b) = RUB) /\
  (forall q b', b = q :: b' -> exists d', fix_scale (a ++ (k_scale, v) :: b) = ROk d' /\ assoc k_scale_ d' = Some (snd q)).
Proof.
  intros a v b NA NV.
  assert (F : forall a0 : entdict, ~ In k_scale (map fst a0) -> ed_find k_scale (a0 ++ (k_scale, v) :: b) = Some (length a0)).
  { clear. induction a0 as [|[k w] a0 IH]; intros N; cbn [app ed_find].
    - rewrite beq_refl. reflexivity.
    - cbn [map fst In] in N. destruct (beq k_scale k) eqn:E; [apply beq_eq in E; subst k; exfalso; apply N; left; reflexivity|].
      rewrite IH by (intros X; apply N; right; exact X). reflexivity. }
  specialize (F a NA). unfold fix_scale, ed_get, ed_remove. rewrite F.
  assert (E : erase (length a) (a ++ (k_scale, v) :: b) = a ++ b).
  { unfold erase. rewrite firstn_app, Nat.sub_diag, firstn_all. cbn [firstn]. rewrite app_nil_r. f_equal.
    change (S (length a)) with (1 + length a)%nat. rewrite Nat.add_comm, skipn_app, skipn_all2 by lia.
    replace (length a + 1 - length a)%nat with 1%nat by lia. reflexivity. }
  assert (G : nth_error (a ++ (k_scale, v) :: b) (length a) = Some (k_scale, v)) by (rewrite nth_error_app2, Nat.sub_diag by lia; reflexivity).
  rewrite G, E. cbn [snd]. destruct v as [|c v]; [congruence|]. rewrite nth_error_app2, Nat.sub_diag by lia. split.
  - intros ->. reflexivity.
  - intros q b' ->. cbn [nth_error]. eexists. split; [reflexivity|]. rewrite assoc_set.
    destruct (list_eq_dec N.eq_dec k_scale_ k_scale_) as [_|X]; [reflexivity|contradiction].
Qed.
Print Assumptions C139_scale_refuted.

Lemma assoc_rename : forall from to d, NoDup (keys d) -> from <> to -> assoc to d = None ->
  NoDup (keys (ed_rename from to d)) /\ forall k, assoc k (ed_rename from to d) =
    if list_eq_dec N.eq_dec k to then assoc from d else if list_eq_dec N.eq_dec k from then None else assoc k d.
Proof.
  intros from to d ND NE NT. destruct (assoc from d) as [w|] eqn:A.
  - destruct (rename_spec from to d w ND A (or_intror (proj1 (assoc_none _ _) NT))) as (R1 & R2 & R3 & R4 & _).
    split; [exact R1|]. intros k. destruct (list_eq_dec N.eq_dec k to) as [-> |K1]; [exact R2|].
    destruct (list_eq_dec N.eq_dec k from) as [-> |K2]; [apply R3; congruence|apply R4; assumption].
  - destruct (rename_cases from to d) as [[_ R]|(a & w & b & _ & _ & _ & X)]; [|congruence]. rewrite R. split; [exact ND|].
    intros k. destruct (list_eq_dec N.eq_dec k to) as [-> |K1]; [exact NT|]. destruct (list_eq_dec N.eq_dec k from) as [-> |K2]; [exact A|reflexivity].
Qed.

(** Keys of Arghrad, in an entity that has none of the keys they become: each value moves to its key, the
    angle scale is converted, nothing else changes. *)
Theorem C139_arghrad : forall conv d, NoDup (map fst d) -> assoc k_delay d = None -> assoc k_wait d = None -> assoc k_anglescale d = None ->
  assoc k_angfade d = None \/ assoc k_angwait d = None ->
  let d' := arghrad conv d in
  NoDup (map fst d') /\ assoc k_delay d' = assoc k_falloff d /\ assoc k_falloff d' = assoc k_distance d /\ assoc k_distance d' = None /\
  assoc k_wait d' = assoc k_fade d /\ assoc k_fade d' = None /\ assoc k_angfade d' = None /\ assoc k_angwait d' = None /\
  assoc k_anglescale d' = option_map conv (match assoc k_angfade d with Some v => Some v | None => assoc k_angwait d end) /\
  forall k, ~ In k [k_delay; k_falloff; k_distance; k_wait; k_fade; k_angfade; k_angwait; k_anglescale] -> assoc k d' = assoc k d.
Proof.
  intros conv d ND H1 H2 H3 H4. change (map fst d) with (keys d) in ND. cbn zeta. unfold arghrad. cbn zeta.
  destruct (assoc_rename k_falloff k_delay d ND ltac:(discriminate) H1) as [N1 A1]. set (d1 := ed_rename k_falloff k_delay d) in *.
  destruct (assoc_rename k_distance k_falloff d1 N1 ltac:(discriminate) (A1 k_falloff)) as [N2 A2]. set (d2 := ed_rename k_distance k_falloff d1) in *.
  assert (W2 : assoc k_wait d2 = None) by (rewrite A2; cbn; rewrite A1; exact H2).
  destruct (assoc_rename k_fade k_wait d2 N2 ltac:(discriminate) W2) as [N3 A3]. set (d3 := ed_rename k_fade k_wait d2) in *.
  assert (AL : assoc k_anglescale d3 = None) by (rewrite A3; cbn; rewrite A2; cbn; rewrite A1; exact H3).
  destruct (assoc_rename k_angfade k_anglescale d3 N3 ltac:(discriminate) AL) as [N4 A4]. set (d4 := ed_rename k_angfade k_anglescale d3) in *.
  assert (FD : assoc k_angfade d3 = assoc k_angfade d) by (rewrite A3; cbn; rewrite A2; cbn; rewrite A1; reflexivity).
  assert (FW : assoc k_angwait d4 = assoc k_angwait d) by (rewrite A4; cbn; rewrite A3; cbn; rewrite A2; cbn; rewrite A1; reflexivity).
  set (d5 := ed_rename k_angwait k_anglescale d4) in *.
  assert (X5 : NoDup (keys d5) /\ (forall k, assoc k d5 = if list_eq_dec N.eq_dec k k_anglescale then match assoc k_angfade d with Some v => Some v | None => assoc k_angwait d end
      else if list_eq_dec N.eq_dec k k_angwait then None else assoc k d4)).
  { destruct (assoc k_angfade d) as [v|] eqn:AF.
    - destruct H4 as [H4|H4]; [discriminate H4|]. destruct (rename_cases k_angwait k_anglescale d4) as [[_ R]|(a & w & b & _ & _ & _ & X)]; [|congruence].
      unfold d5. rewrite R. split; [exact N4|]. intros k. destruct (list_eq_dec N.eq_dec k k_anglescale) as [-> |K1]; [rewrite A4; cbn; exact FD|].
      destruct (list_eq_dec N.eq_dec k k_angwait) as [-> |K2]; [congruence|reflexivity].
    - assert (Q : assoc k_anglescale d4 = None) by (rewrite A4; cbn; exact FD).
      destruct (assoc_rename k_angwait k_anglescale d4 N4 ltac:(discriminate) Q) as [N5 A5]. fold d5 in N5, A5. split; [exact N5|]. intros k. rewrite A5, FW. reflexivity. }
  destruct X5 as [N5 A5]. set (m := match assoc k_angfade d with Some v => Some v | None => assoc k_angwait d end) in *.
  assert (X6 : let d6 := if ed_has k_anglescale d5 then ed_set k_anglescale (conv (ed_get k_anglescale d5)) d5 else d5 in
     NoDup (keys d6) /\ forall k, assoc k d6 = if list_eq_dec N.eq_dec k k_anglescale then option_map conv m else assoc k d5).
  { cbn zeta. assert (Q : assoc k_anglescale d5 = m) by (rewrite A5; cbn; reflexivity).
    rewrite has_assoc, get_assoc, Q. destruct m as [v|].
    - split; [apply nodup_set; exact N5|]. intros k. rewrite assoc_set. cbn [option_map]. reflexivity.
    - split; [exact N5|]. intros k. cbn [option_map]. destruct (list_eq_dec N.eq_dec k k_anglescale) as [-> |_]; [exact Q|reflexivity]. }
  cbn zeta in X6. set (d6 := if ed_has k_anglescale d5 then _ else d5) in *. destruct X6 as [N6 A6]. split; [exact N6|].
  split; [rewrite A6; cbn; rewrite A5; cbn; rewrite A4; cbn; rewrite A3; cbn; rewrite A2; cbn; rewrite A1; reflexivity|].
  split; [rewrite A6; cbn; rewrite A5; cbn; rewrite A4; cbn; rewrite A3; cbn; rewrite A2; cbn; rewrite A1; reflexivity|].
  split; [rewrite A6; cbn; rewrite A5; cbn; rewrite A4; cbn; rewrite A3; cbn; rewrite A2; reflexivity|].
  split; [rewrite A6; cbn; rewrite A5; cbn; rewrite A4; cbn; rewrite A3; cbn; rewrite A2; cbn; rewrite A1; reflexivity|].
  split; [rewrite A6; cbn; rewrite A5; cbn; rewrite A4; cbn; rewrite A3; reflexivity|].
  split; [rewrite A6; cbn; rewrite A5; cbn; rewrite A4; reflexivity|].
  split; [rewrite A6; cbn; rewrite A5; reflexivity|].
  split; [rewrite A6; reflexivity|].
  intros k K. cbn [In] in K. rewrite (A6 k), (A5 k), (A4 k), (A3 k), (A2 k), (A1 k).
  destruct (list_eq_dec N.eq_dec k k_anglescale); [exfalso; apply K; subst; tauto|].
  destruct (list_eq_dec N.eq_dec k k_angwait); [exfalso; apply K; subst; tauto|].
  destruct (list_eq_dec N.eq_dec k k_angfade); [exfalso; apply K; subst; tauto|].
  destruct (list_eq_dec N.eq_dec k k_wait); [exfalso; apply K; subst; tauto|].
  destruct (list_eq_dec N.eq_dec k k_fade); [exfalso; apply K; subst; tauto|].
  destruct (list_eq_dec N.eq_dec k k_falloff); [exfalso; apply K; subst; tauto|].
  destruct (list_eq_dec N.eq_dec k k_distance); [exfalso; apply K; subst; tauto|].
  destruct (list_eq_dec N.eq_dec k k_delay); [exfalso; apply K; subst; tauto|]. reflexivity.
Qed.
Print Assumptions C139_arghrad.

(** With both keys for the angle scale there are two pairs: the first is converted, the second, which is the
    one that counts, is not. *)
Theorem C139_arghrad_refuted : forall conv (a b : bytes), exists d : entdict, NoDup (map fst d) /\ assoc k_angfade d = Some a /\ assoc k_angwait d = Some b /\
  arghrad conv d = [(k_anglescale, conv a); (k_anglescale, b)] /\ last_value k_anglescale (arghrad conv d) = Some b.
Proof.
  intros conv a b. exists [(k_angfade, a); (k_angwait, b)]. split; [|split; [reflexivity|split; [reflexivity|]]].
  - cbn [map fst]. constructor; [intros [X|[]]; discriminate X|]. constructor; [intros []|constructor].
  - assert (E : arghrad conv [(k_angfade, a); (k_angwait, b)] = [(k_anglescale, conv a); (k_anglescale, b)]) by reflexivity.
    split; [exact E|]. rewrite E. reflexivity.
Qed.
Print Assumptions C139_arghrad_refuted.

(** The keys by name. *)
Theorem C139_names : map (fun k => string_of_list_ascii (map ascii_of_N k)) [k_scale; k_scale_; k_falloff; k_delay; k_distance; k_fade; k_wait; k_angfade; k_angwait; k_anglescale]
  = ["lightmap_scale"; "_lightmap_scale"; "_falloff"; "delay"; "_distance"; "_fade"; "wait"; "_angfade"; "_angwait"; "_anglescale"]%string.
Proof. reflexivity. Qed.
Print Assumptions C139_names.

(** classname, lightmap_scale 4, target x: the scale becomes "x". *)
Example C139_nontrivial :
  fix_scale [([99], [108]); (k_scale, [52]); ([116], [120])] = ROk [([99], [108]); ([116], [120]); (k_scale_, [120])] /\
  fix_scale [([99], [108]); (k_scale, [52])] = RUB /\
  arghrad (fun v => 33 :: v) [(k_distance, [1]); (k_falloff, [2]); (k_angwait, [3]); ([97], [4])]
    = [([97], [4]); (k_delay, [2]); (k_falloff, [1]); (k_anglescale, [33; 3])].
Proof. split; [|split]; reflexivity. Qed.
