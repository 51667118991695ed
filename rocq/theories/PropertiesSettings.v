(* Settings: precedence, ranges, inverted options, command lines. *)
From Coq Require Import List Arith NArith ZArith Bool Lia.
Import ListNotations.
From Verif Require Import NumCastModel NumCastProofs ParserModel EntModel EntProofs SettingsModel SettingsProofs.
Local Open Scope N_scope.

(** ** C52: precedence of sources *)

(** Any history of assignments to a setting, in any order: either every source was weaker than the
    one it had, and nothing changed, or there is a last assignment from the strongest source and the
    setting holds exactly that one's value and source. *)
Theorem C52_strongest_last : forall T (s : setting T) (l : list (T * source)),
  let s' := fold_left (fun s p => set_val s (fst p) (snd p)) l s in
  (Forall (fun p => (rank (snd p) < rank (s_src s))%nat) l /\ s' = s) \/
  exists pre v src post, l = pre ++ (v, src) :: post /\ (rank (s_src s) <= rank src)%nat /\
    Forall (fun p => (rank (snd p) <= rank src)%nat) pre /\
    Forall (fun p => (rank (snd p) < rank src)%nat) post /\
    s_val s' = v /\ s_src s' = src /\ s_def s' = s_def s.
Proof.
  intros T s l s'. destruct (strongest_split T l (rank (s_src s))) as [A|[pre [v [src [post [E [G [P Q]]]]]]]].
  - left. split; [exact A|]. apply (sets_weak T l s A).
  - right. exists pre, v, src, post.
    assert (X : s' = mkS v src (s_def s)) by (subst s'; rewrite E; apply (sets_last T s pre v src post G P Q)).
    rewrite X. auto 8.
Qed.
Print Assumptions C52_strongest_last.

(** Two assignments from different sources can be made in either order. *)
Theorem C52_order_irrelevant : forall T (s : setting T) pre a b post,
  snd a <> snd b ->
  fold_left (fun s p => set_val s (fst p) (snd p)) (pre ++ a :: b :: post) s =
  fold_left (fun s p => set_val s (fst p) (snd p)) (pre ++ b :: a :: post) s.
Proof.
  intros T s pre [v s1] [w s2] post D. rewrite !fold_left_app. cbn [fold_left fst snd] in *.
  f_equal. set (x := fold_left _ pre s). clearbody x. destruct x as [xv xs xd].
  destruct s1, s2, xs; try (exfalso; apply D; reflexivity); reflexivity.
Qed.
Print Assumptions C52_order_irrelevant.

(** A key of the map, whatever its name and value, never changes a setting that was given on the
    command line; nor does any assignment change a setting with a stronger source. *)
Theorem C52_weaker_source_ignored : forall stod lt src name toks c c' i e,
  set_setting stod lt src name toks c = Some (Some c') ->
  nth_error c i = Some e -> (rank src < rank (s_src (e_set e)))%nat -> nth_error c' i = Some e.
Proof.
  intros stod lt src name toks c c' i e H E L. unfold set_setting in H.
  destruct (find_setting name c) as [j|]; [|discriminate H].
  destruct (parse_entry stod lt src name c j toks) as [[c1 r]|] eqn:P; [|discriminate H].
  injection H as <-. apply parse_entry_frame in P. destruct P as [_ [_ C]].
  destruct (C i e E) as [e' [E' [_ [_ [_ W]]]]]. rewrite (W L) in E'. exact E'.
Qed.
Print Assumptions C52_weaker_source_ignored.

(** After the command line was parsed, any number of map keys leaves the settings it gave. *)
Fixpoint set_settings stod lt src (l : list (bytes * list bytes)) (c : container) : container :=
  match l with
  | [] => c
  | (k, v) :: t => set_settings stod lt src t
                     (match set_setting stod lt src k v c with Some (Some c') => c' | _ => c end)
  end.
Theorem C52_map_after_command_line : forall stod lt c0 argv c rest keys i e,
  parse_command_line stod lt c0 argv = COk c rest ->
  nth_error c i = Some e -> s_src (e_set e) = SCmd ->
  nth_error (set_settings stod lt SMap keys c) i = Some e.
Proof.
  intros stod lt c0 argv c rest keys i e _. revert c.
  induction keys as [|[k v] keys IH]; intros c E S; [exact E|]. cbn [set_settings]. apply IH; [|exact S].
  destruct (set_setting stod lt SMap k v c) as [[c'|]|] eqn:H; [|exact E|exact E].
  apply (C52_weaker_source_ignored _ _ _ _ _ _ _ _ _ H E). rewrite S. simpl. lia.
Qed.
Print Assumptions C52_map_after_command_line.

(* "samples" 3 from the game, 7 on the command line, 5 in the map, in any order: 7. *)
Example C52_nontrivial :
  let s := mkS 1%Z SDefault 1%Z in
  s_val (fold_left (fun s p => set_val s (fst p) (snd p)) [(3%Z, SGame); (7%Z, SCmd); (5%Z, SMap)] s) = 7%Z /\
  s_val (fold_left (fun s p => set_val s (fst p) (snd p)) [(7%Z, SCmd); (5%Z, SMap); (3%Z, SGame)] s) = 7%Z /\
  s_val (fold_left (fun s p => set_val s (fst p) (snd p)) [(5%Z, SMap); (3%Z, SGame); (6%Z, SMap)] s) = 6%Z.
Proof. vm_compute. repeat split; reflexivity. Qed.

(** ** C53: numbers stay in range *)

Definition int_in_range (e : entry) : Prop :=
  match e_kind e, s_val (e_set e) with KInt lo hi _, VInt z => (lo <= z <= hi)%Z | KInt _ _ _, _ => False | _, _ => True end.

(** Every parse of every setting from every text keeps every integer setting within its bounds. *)
Theorem C53_int_range : forall stod lt src name toks c c',
  Forall (fun e => match e_kind e with KInt lo hi _ => (lo <= hi)%Z | _ => True end) c ->
  Forall int_in_range c ->
  set_setting stod lt src name toks c = Some (Some c') -> Forall int_in_range c'.
Proof.
  intros stod lt src name toks c c' B R H. unfold set_setting in H.
  destruct (find_setting name c) as [i|]; [|discriminate H].
  destruct (parse_entry stod lt src name c i toks) as [[c1 r]|] eqn:P; [|discriminate H]. injection H as <-.
  set (bounds_ok := fun e => match e_kind e with KInt lo hi _ => (lo <= hi)%Z | _ => True end) in B.
  assert (One : forall c j toks c1 r, Forall bounds_ok c -> Forall int_in_range c ->
    parse_one stod lt src name c j toks = Some (c1, r) -> Forall bounds_ok c1 /\ Forall int_in_range c1).
  { clear. intros c j toks c1 r B R P. apply parse_one_spec in P. destruct P as [e [v [E [K ->]]]].
    rewrite !Forall_forall in *.
    assert (X : forall x, In x (update c j (fun e => assign e v src)) -> In x c \/ x = assign e v src).
    { intros x I. apply In_nth_error in I. destruct I as [k I]. rewrite update_nth in I.
      destruct (Nat.eqb j k) eqn:Q; [|left; eapply nth_error_In; exact I].
      apply Nat.eqb_eq in Q. subst k. rewrite E in I. injection I as <-. right. reflexivity. }
    assert (Ie := nth_error_In _ _ E). assert (Be := B _ Ie). assert (Re := R _ Ie).
    split; intros x I; destruct (X x I) as [Y| ->]; [apply B, Y|exact Be|apply R, Y|].
    unfold int_in_range, assign in *. cbn [e_kind e_set]. unfold set_val.
    destruct (src_ge src (s_src (e_set e))); [|exact Re]. cbn [s_val].
    unfold bounds_ok in Be. destruct (e_kind e); try exact Logic.I.
    unfold parse_kind in K.
    assert (V : exists z, v = VInt z).
    { destruct (match toks with [] => None | t :: rest => option_map (fun u => (VInt (it_wrap i32 u), rest)) (stoull t) end) as [[v0 r0]|] eqn:Q.
      - injection K as <- <-. destruct toks as [|t l]; [discriminate Q|]. destruct (stoull t); [|discriminate Q].
        injection Q as <- <-. eexists. reflexivity.
      - destruct omit; [|discriminate K]. injection K as <- <-. eexists. reflexivity. }
    destruct V as [z ->]. cbn [store]. apply clampz_range. exact Be. }
  unfold parse_entry in P. destruct (nth_error c i) as [e|] eqn:E; [|discriminate P].
  assert (Many : forall l c toks c1 r, Forall bounds_ok c -> Forall int_in_range c ->
    parse_many stod lt src name c l toks = Some (c1, r) -> Forall bounds_ok c1 /\ Forall int_in_range c1).
  { clear - One. induction l as [|j l IH]; intros c toks c1 r B R P.
    - injection P as <- <-. auto.
    - destruct l as [|k l]; [apply (One _ _ _ _ _ B R P)|].
      change (match parse_one stod lt src name c j toks with
              | Some (c2, _) => parse_many stod lt src name c2 (k :: l) toks | None => None end = Some (c1, r)) in P.
      destruct (parse_one stod lt src name c j toks) as [[c2 r2]|] eqn:Q; [|discriminate P].
      destruct (One _ _ _ _ _ B R Q) as [B2 R2]. apply (IH _ _ _ _ B2 R2 P). }
  destruct (e_kind e); try (apply (One _ _ _ _ _ B R P)). apply (Many _ _ _ _ _ B R P).
Qed.
Print Assumptions C53_int_range.

(** A decimal number, with or without a minus sign, that is within bounds (which are within the
    32-bit range) is stored exactly, and the rest of the command line is left alone. *)
Theorem C53_int_exact : forall stod lt src name c i e lo hi omit ds (neg : bool) rest,
  nth_error c i = Some e -> e_kind e = KInt lo hi omit ->
  (rank (s_src (e_set e)) <= rank src)%nat ->
  (- 2 ^ 31 <= lo)%Z -> (hi < 2 ^ 31)%Z -> ds <> [] -> Forall (fun d => d < 10) ds ->
  let z := (if neg then - dec_val ds else dec_val ds)%Z in
  let text := if neg then 45 :: dec ds else dec ds in
  (lo <= z <= hi)%Z ->
  exists c' e', parse_entry stod lt src name c i (text :: rest) = Some (c', rest) /\
    nth_error c' i = Some e' /\ s_val (e_set e') = VInt z /\ s_src (e_set e') = src.
Proof.
  intros stod lt src name c i e lo hi omit ds neg rest E K S L1 L2 D F z text R.
  assert (Nn := dec_val_nonneg ds 0%Z (Z.le_refl 0)). fold (dec_val ds) in Nn.
  assert (Small : (dec_val ds < 2 ^ 64)%Z) by (subst z; destruct neg; lia).
  destruct (stoull_dec ds D F Small) as [P1 P2].
  assert (P : option_map (it_wrap i32) (stoull text) = Some z).
  { assert (W : it_wrap i32 z = z).
    { apply wrap_id; [cbn [all_ity In]; tauto|]. unfold it_in, it_lo, it_hi. simpl.
      apply andb_true_iff. split; apply Z.leb_le; lia. }
    subst text z. destruct neg; [rewrite P2|rewrite P1]; cbn [option_map]; [rewrite wrap_mod|]; rewrite W; reflexivity. }
  destruct (stoull text) as [u|] eqn:U; [|discriminate P]. cbn [option_map] in P. injection P as P.
  unfold parse_entry. rewrite E, K. unfold parse_one. rewrite E, K. unfold parse_kind. rewrite U. cbn [option_map].
  eexists. eexists. split; [reflexivity|]. rewrite update_nth, Nat.eqb_refl, E. cbn [option_map].
  split; [reflexivity|]. unfold assign. cbn [e_set]. rewrite K. unfold set_val.
  replace (src_ge src (s_src (e_set e))) with true by (symmetry; apply src_ge_iff; exact S).
  cbn [s_val s_src store]. rewrite P, clampz_id by exact R. split; reflexivity.
Qed.
Print Assumptions C53_int_exact.

(** A number above the maximum is not always clamped to it: it is reduced modulo 2^32 first. *)
Theorem C53_out_of_range_refuted : exists stod lt c c' e ds lo hi,
  parse_entry stod lt SCmd [116] c 0 [dec ds] = Some (c', []) /\
  nth_error c' 0 = Some e /\ e_kind e = KInt lo hi None /\
  Forall (fun d => d < 10) ds /\ (lo < hi < dec_val ds)%Z /\ s_val (e_set e) = VInt 1.
Proof.
  exists (fun _ => None), (fun _ _ => false), [mkE [[116]] (KInt 0 100 None) (mkS (VInt 0) SDefault (VInt 0))].
  eexists. eexists. exists [4;2;9;4;9;6;7;2;9;7]%N, 0%Z, 100%Z.
  split; [vm_compute; reflexivity|]. split; [reflexivity|]. split; [reflexivity|].
  split; [repeat constructor|]. split; [|reflexivity]. vm_compute. split; reflexivity.
Qed.
Print Assumptions C53_out_of_range_refuted.

(** A float setting ends within its bounds unless the text reads as a NaN. *)
Theorem C53_float_range_partial : forall stod lt src name c i e lo hi omit t f rest,
  nth_error c i = Some e -> e_kind e = KFloat lo hi omit -> fl_le lo hi = true ->
  (rank (s_src (e_set e)) <= rank src)%nat -> stod t = Some f -> f <> FNaN ->
  exists c' e' g, parse_entry stod lt src name c i (t :: rest) = Some (c', rest) /\
    nth_error c' i = Some e' /\ s_val (e_set e') = VFloat g /\
    fl_le lo g = true /\ fl_le g hi = true /\ (fl_le lo f = true -> fl_le f hi = true -> g = f).
Proof.
  intros stod lt src name c i e lo hi omit t f rest E K L S P Nn.
  unfold parse_entry. rewrite E, K. unfold parse_one. rewrite E, K. unfold parse_kind. rewrite P. cbn [option_map].
  eexists. eexists. exists (clampf f lo hi). split; [reflexivity|]. rewrite update_nth, Nat.eqb_refl, E. cbn [option_map].
  split; [reflexivity|]. unfold assign. cbn [e_set]. rewrite K. unfold set_val.
  replace (src_ge src (s_src (e_set e))) with true by (symmetry; apply src_ge_iff; exact S).
  cbn [s_val store]. split; [reflexivity|]. destruct (clampf_range f lo hi L Nn) as [A B].
  split; [exact A|]. split; [exact B|]. intros X Y. unfold clampf.
  assert (Z1 : fl_lt f lo = false).
  { unfold fl_lt. rewrite X. destruct f as [| |]; destruct lo as [| |]; reflexivity. }
  assert (Z2 : fl_lt hi f = false).
  { unfold fl_lt. rewrite Y. destruct f as [| |]; destruct hi as [| |]; reflexivity. }
  rewrite Z1, Z2. reflexivity.
Qed.
Print Assumptions C53_float_range_partial.

(** The text "nan" is accepted by every float setting and stored, whatever the bounds. *)
Theorem C53_float_nan_refuted : forall stod lt src name c i e lo hi omit t rest,
  nth_error c i = Some e -> e_kind e = KFloat lo hi omit ->
  (rank (s_src (e_set e)) <= rank src)%nat -> stod t = Some FNaN ->
  exists c' e', parse_entry stod lt src name c i (t :: rest) = Some (c', rest) /\
    nth_error c' i = Some e' /\ s_val (e_set e') = VFloat FNaN /\
    fl_le lo FNaN = false /\ fl_le FNaN hi = false.
Proof.
  intros stod lt src name c i e lo hi omit t rest E K S P.
  unfold parse_entry. rewrite E, K. unfold parse_one. rewrite E, K. unfold parse_kind. rewrite P. cbn [option_map].
  eexists. eexists. split; [reflexivity|]. rewrite update_nth, Nat.eqb_refl, E. cbn [option_map].
  split; [reflexivity|]. unfold assign. cbn [e_set]. rewrite K. unfold set_val.
  replace (src_ge src (s_src (e_set e))) with true by (symmetry; apply src_ge_iff; exact S).
  cbn [s_val store]. split; [|split; [destruct lo as [|[]|]; reflexivity|reflexivity]].
  unfold clampf, fl_lt. destruct hi; reflexivity.
Qed.
Print Assumptions C53_float_nan_refuted.

(* "-threads -3" and "250" for bounds -10..100. *)
Example C53_nontrivial :
  let c := [mkE [[116]] (KInt (-10) 100 None) (mkS (VInt 0) SDefault (VInt 0))] in
  let run t := option_map (fun p => map (fun e => s_val (e_set e)) (fst p))
                 (parse_entry (fun _ => None) (fun _ _ => false) SCmd [116] c 0 [t; [120]]) in
  run [45; 51] = Some [VInt (-3)] /\ run [50; 53; 48] = Some [VInt 100] /\ run [45; 57; 57] = Some [VInt (-10)] /\
  run [120] = None.
Proof. vm_compute. repeat split; reflexivity. Qed.

(** ** C54: inverted options *)

Definition no (n : bytes) : bytes := 110 :: 111 :: n.
(** A token that is not taken as the option's own value. *)
Definition not_value (toks : list bytes) : Prop :=
  match toks with t :: _ => t <> [49] /\ t <> [48] /\ t <> [45; 49] | [] => True end.

Lemma parse_bool_plain : forall toks t, not_value toks -> parse_bool toks t = (VBool t, toks).
Proof.
  intros [|x l] t H; [reflexivity|]. destruct H as [A [B C]]. unfold parse_bool.
  destruct (beq x txt_true) eqn:E1; [apply beq_eq in E1; contradiction|].
  destruct (beq x txt_false) eqn:E2; [apply beq_eq in E2; contradiction|].
  destruct (beq x txt_minus) eqn:E3; [apply beq_eq in E3; contradiction|]. reflexivity.
Qed.

(** On the command line: however many hyphens, "-X" sets X and "-noX" clears it, for every
    invertible setting X whose own name starts neither with "no" nor with an underscore. *)
Theorem C54_hyphens : forall stod lt c c0 i e n toks (k : nat) (neg : bool),
  c0 = repeat 45 (S k) ++ (if neg then no n else n) ->
  find_ix n c = Some i -> find_ix (no n) c = Some i ->
  nth_error c i = Some e -> e_kind e = KInv ->
  starts_no n = false -> (match n with 95 :: _ | 45 :: _ | [] => False | _ => True end) ->
  is_help (if neg then no n else n) = false -> not_value toks ->
  exists c1 e1, nth_error c1 i = Some e1 /\ s_val (e_set e1) = VBool (negb neg) /\ s_src (e_set e1) = SCmd /\
    (forall j, j <> i -> nth_error c1 j = nth_error c j) /\
    parse_command_line stod lt c (c0 :: toks) = parse_command_line stod lt c1 toks.
Proof.
  intros stod lt c c0 i e n toks k neg C0 F1 F2 E K Sn Us Hp Nv.
  set (nm := if neg then no n else n) in *.
  assert (O : is_option c0 = true) by (subst c0; reflexivity).
  assert (Nm : option_name c0 = nm).
  { unfold option_name. rewrite C0. apply strip_hyphens_eq. subst nm. destruct neg; [exact I|].
    destruct n as [|x n]; [exact I|]. destruct x as [|p]; [exact I|]. do 6 (destruct p as [p|p|]; try exact I). contradiction. }
  assert (Fd : find_setting nm c = Some i).
  { unfold find_setting. replace (strip_us nm) with nm.
    - subst nm. destruct neg; assumption.
    - symmetry. apply (strip_us_eq 0). subst nm. destruct neg; [exact I|].
      destruct n as [|x n]; [exact I|]. destruct x as [|p]; [exact I|]. do 7 (destruct p as [p|p|]; try exact I). contradiction. }
  assert (Pe : parse_entry stod lt SCmd nm c i toks =
               Some (update c i (fun e => assign e (VBool (negb neg)) SCmd), toks)).
  { unfold parse_entry. rewrite E, K. unfold parse_one. rewrite E, K. unfold parse_kind.
    rewrite (parse_bool_plain toks _ Nv). subst nm. destruct neg; [reflexivity|rewrite Sn; reflexivity]. }
  exists (update c i (fun e => assign e (VBool (negb neg)) SCmd)). eexists.
  split; [rewrite update_nth, Nat.eqb_refl, E; reflexivity|].
  split; [|split; [|split]].
  - unfold assign. cbn [e_set]. rewrite K. unfold set_val.
    replace (src_ge SCmd (s_src (e_set e))) with true by (destruct (s_src (e_set e)); reflexivity). reflexivity.
  - unfold assign. cbn [e_set]. unfold set_val.
    replace (src_ge SCmd (s_src (e_set e))) with true by (destruct (s_src (e_set e)); reflexivity). reflexivity.
  - intros j J. rewrite update_nth. destruct (Nat.eqb i j) eqn:Q; [|reflexivity].
    apply Nat.eqb_eq in Q. congruence.
  - unfold parse_command_line at 1. rewrite parse_args_eq, O, Nm, Hp, Fd, Pe.
    destruct nm as [|x y] eqn:Q.
    + subst nm. destruct neg; [discriminate Q|]. subst n. contradiction.
    + unfold parse_command_line. apply parse_args_fuel; cbn [length]; lia.
Qed.
Print Assumptions C54_hyphens.

(** With any number of leading underscores (the spelling of map keys), the plain name sets. *)
Theorem C54_underscores_plain : forall stod lt src c i e n toks (k : nat),
  find_ix n c = Some i -> nth_error c i = Some e -> e_kind e = KInv -> (rank (s_src (e_set e)) <= rank src)%nat ->
  starts_no n = false -> (match n with 95 :: _ => False | _ => True end) -> not_value toks ->
  exists c' e', set_setting stod lt src (repeat 95 k ++ n) toks c = Some (Some c') /\
    nth_error c' i = Some e' /\ s_val (e_set e') = VBool true.
Proof.
  intros stod lt src c i e n toks k F E K S Sn Us Nv. unfold set_setting, find_setting.
  rewrite strip_us_eq, F by exact Us. unfold parse_entry. rewrite E, K. unfold parse_one. rewrite E, K. unfold parse_kind.
  rewrite (parse_bool_plain toks _ Nv). cbn [option_map fst]. eexists. eexists. split; [reflexivity|].
  rewrite update_nth, Nat.eqb_refl, E. cbn [option_map]. split; [reflexivity|].
  unfold assign. cbn [e_set]. rewrite K. unfold set_val.
  replace (src_ge src (s_src (e_set e))) with true by (symmetry; apply src_ge_iff; exact S). cbn [s_val store].
  destruct k as [|k]; [cbn [repeat app]; rewrite Sn; reflexivity|reflexivity].
Qed.
Print Assumptions C54_underscores_plain.

(** But the inverted name with a leading underscore sets the option too: "_noX" turns X on, for
    every invertible setting, and "_noX" "0" turns it off. *)
Theorem C54_underscore_no_refuted : forall stod lt src c i e n toks (k : nat),
  find_ix (no n) c = Some i -> nth_error c i = Some e -> e_kind e = KInv -> (rank (s_src (e_set e)) <= rank src)%nat ->
  not_value toks ->
  exists c' e', set_setting stod lt src (repeat 95 (S k) ++ no n) toks c = Some (Some c') /\
    nth_error c' i = Some e' /\ s_val (e_set e') = VBool true.
Proof.
  intros stod lt src c i e n toks k F E K S Nv. unfold set_setting, find_setting.
  rewrite strip_us_eq by exact I. rewrite F. unfold parse_entry. rewrite E, K. unfold parse_one. rewrite E, K. unfold parse_kind.
  rewrite (parse_bool_plain toks _ Nv). cbn [option_map fst]. eexists. eexists. split; [reflexivity|].
  rewrite update_nth, Nat.eqb_refl, E. cbn [option_map]. split; [reflexivity|].
  unfold assign. cbn [e_set]. rewrite K. unfold set_val.
  replace (src_ge src (s_src (e_set e))) with true by (symmetry; apply src_ge_iff; exact S). reflexivity.
Qed.
Print Assumptions C54_underscore_no_refuted.

Definition log_name : bytes := [108; 111; 103].
Definition demo : container := [mkE (extend_names [log_name]) KInv (mkS (VBool true) SDefault (VBool true))].
Example C54_nontrivial :
  find_ix log_name demo = Some 0%nat /\ find_ix (no log_name) demo = Some 0%nat /\
  (let val r := match r with COk c _ => map (fun e => s_val (e_set e)) c | _ => [] end in
   val (parse_command_line (fun _ => None) (fun _ _ => false) demo [45 :: 45 :: no log_name; [97]]) = [VBool false] /\
   val (parse_command_line (fun _ => None) (fun _ _ => false) demo [45 :: no log_name; [48]; [97]]) = [VBool true] /\
   val (parse_command_line (fun _ => None) (fun _ _ => false) demo [45 :: 95 :: no log_name; [97]]) = [VBool true]).
Proof. vm_compute. repeat split; reflexivity. Qed.

(** ** C72: command lines *)

(** What is left after the options are the last tokens of the command line, unchanged, and the first
    of them is no option. *)
Theorem C72_remainder : forall stod lt c argv c' rest,
  parse_command_line stod lt c argv = COk c' rest ->
  (exists p, argv = p ++ rest) /\ (forall t r, rest = t :: r -> is_option t = false).
Proof.
  intros stod lt c argv c' rest H. apply parse_args_spec in H. destruct H as [A [B _]].
  split; [exact A|]. intros t r ->. exact B.
Qed.
Print Assumptions C72_remainder.

(** A setting changes only if an option on the command line names it (or a redirect to it). *)
Theorem C72_unnamed_unchanged : forall stod lt c argv c' rest i,
  parse_command_line stod lt c argv = COk c' rest ->
  (forall t j, In t argv -> is_option t = true -> find_setting (option_name t) c = Some j -> ~ In i (targets c j)) ->
  nth_error c' i = nth_error c i.
Proof.
  intros stod lt c argv c' rest i H Q. apply parse_args_spec in H. destruct H as [_ [_ [used [U [_ [F _]]]]]].
  apply F. intro I. apply in_flat_map in I. destruct I as [t [T J]]. rewrite Forall_forall in U. destruct (U t T) as [O In'].
  destruct (find_setting (option_name t) c) as [j|] eqn:Fd; [|exact J]. exact (Q t j In' O Fd J).
Qed.
Print Assumptions C72_unnamed_unchanged.

(** An unknown option is always an error; it is never skipped. *)
Theorem C72_unknown_throws : forall stod lt c t rest,
  is_option t = true -> option_name t <> [] -> find_setting (option_name t) c = None ->
  parse_command_line stod lt c (t :: rest) = CThrow.
Proof.
  intros stod lt c t rest O Nn F. unfold parse_command_line. rewrite parse_args_eq, O.
  destruct (option_name t) as [|x y] eqn:E; [contradiction|]. rewrite F. destruct (is_help _); reflexivity.
Qed.
Print Assumptions C72_unknown_throws.

(** A token of hyphens only reads the front of an empty string. *)
Theorem C72_hyphens_only_refuted : forall stod lt c (k : nat) rest,
  parse_command_line stod lt c (repeat 45 (S k) :: rest) = CUB.
Proof.
  intros. unfold parse_command_line. rewrite parse_args_eq.
  assert (O : option_name (repeat 45 (S k)) = []).
  { unfold option_name. rewrite <- (app_nil_r (repeat 45 (S k))). apply strip_hyphens_eq. exact I. }
  rewrite O. reflexivity.
Qed.
Print Assumptions C72_hyphens_only_refuted.

(** A command line can be accepted and the summary of options then throw: any number is accepted
    for an enumeration, and a number without a label has no text.  "-filepriority 7". *)
Definition fp_name : bytes := [102;105;108;101;112;114;105;111;114;105;116;121].
Theorem C72_summary_refuted : exists stod lt c c' argv,
  summary_ok c = true /\ parse_command_line stod lt c argv = COk c' [[97]] /\ summary_ok c' = false.
Proof.
  exists (fun _ => None), (fun _ _ => true),
    [mkE [fp_name] (KEnum [([108], 0%Z); ([97], 1%Z)]) (mkS (VInt 0) SDefault (VInt 0))].
  eexists. exists [45 :: fp_name; [55]; [97]].
  split; [reflexivity|]. split; [vm_compute; reflexivity|]. vm_compute. reflexivity.
Qed.
Print Assumptions C72_summary_refuted.

Example C72_nontrivial :
  let c := [mkE [[118]] KBool (mkS (VBool false) SDefault (VBool false));
            mkE [[112]] KSet (mkS (VSet []) SDefault (VSet []));
            mkE [[113]] (KRedirect [0%nat; 3%nat]) (mkS VNone SDefault VNone);
            mkE [[115]] KBool (mkS (VBool false) SDefault (VBool false))] in
  match parse_command_line (fun _ => None) (fun _ _ => false) c
          [[45;112]; [97]; [45;45;112]; [98]; [45;113]; [49]; [109]; [45;120]] with
  | COk c' rest => map (fun e => s_val (e_set e)) c' = [VBool true; VSet [[97]; [98]]; VNone; VBool true] /\
                   rest = [[109]; [45;120]]
  | _ => False
  end.
Proof. vm_compute. split; reflexivity. Qed.

(** ** Further theorems about C53 and C72 *)

(** Text that has no digit after blanks and a sign is no integer: the parse fails, or the value for
    a missing argument is used and the text stays on the command line. *)
Theorem C53_no_digits : forall stod lt src name c i e lo hi omit t rest,
  nth_error c i = Some e -> e_kind e = KInt lo hi omit -> (rank (s_src (e_set e)) <= rank src)%nat ->
  (forall b s d u, t = b ++ s ++ d :: u -> Forall (fun x => isspace x = true) b -> s = [] \/ s = [45] \/ s = [43] -> ~ (48 <= d <= 57)) ->
  match omit with
  | None => parse_entry stod lt src name c i (t :: rest) = None
  | Some z => exists c' e', parse_entry stod lt src name c i (t :: rest) = Some (c', t :: rest) /\
      nth_error c' i = Some e' /\ s_val (e_set e') = VInt (clampz z lo hi)
  end.
Proof.
  intros stod lt src name c i e lo hi omit t rest E K S D.
  assert (U : stoull t = None).
  { unfold stoull. assert (X : exists b, t = b ++ skip_space t /\ Forall (fun x => isspace x = true) b).
    { clear. induction t as [|x t [b [A B]]]; [exists []; split; [reflexivity|constructor]|]. cbn [skip_space].
      destruct (isspace x) eqn:Q; [|exists []; split; [reflexivity|constructor]]. exists (x :: b). split; [cbn; f_equal; exact A|constructor; assumption]. }
    destruct X as [b [X1 X2]]. unfold sign. destruct (skip_space t) as [|x u] eqn:Q; [reflexivity|].
    destruct (N.eqb_spec x 45) as [->|N1]; [|destruct (N.eqb_spec x 43) as [->|N2]].
    - destruct u as [|d u]; [reflexivity|]. cbn [starts_digit]. unfold is_digit. specialize (D b [45] d u). destruct ((48 <=? d) && (d <=? 57)) eqn:W; [|reflexivity].
      exfalso. apply D; [rewrite X1; reflexivity|exact X2|auto|]. apply andb_true_iff in W. destruct W as [W1 W2]. apply N.leb_le in W1, W2. split; assumption.
    - destruct u as [|d u]; [reflexivity|]. cbn [starts_digit]. unfold is_digit. specialize (D b [43] d u). destruct ((48 <=? d) && (d <=? 57)) eqn:W; [|reflexivity].
      exfalso. apply D; [rewrite X1; reflexivity|exact X2|auto|]. apply andb_true_iff in W. destruct W as [W1 W2]. apply N.leb_le in W1, W2. split; assumption.
    - cbn [starts_digit]. unfold is_digit. specialize (D b [] x u). destruct ((48 <=? x) && (x <=? 57)) eqn:W; [|reflexivity].
      exfalso. apply D; [rewrite X1; reflexivity|exact X2|auto|]. apply andb_true_iff in W. destruct W as [W1 W2]. apply N.leb_le in W1, W2. split; assumption. }
  unfold parse_entry. rewrite E, K. unfold parse_one. rewrite E, K. unfold parse_kind. rewrite U. cbn [option_map]. destruct omit as [z|]; [|reflexivity].
  eexists. eexists. split; [reflexivity|]. rewrite update_nth, Nat.eqb_refl, E. cbn [option_map].
  split; [reflexivity|]. unfold assign. cbn [e_set]. rewrite K. unfold set_val.
  replace (src_ge src (s_src (e_set e))) with true by (symmetry; apply src_ge_iff; exact S). reflexivity.
Qed.
Print Assumptions C53_no_digits.

(** A label of an enumeration stores its number, whatever the ordering [lt] of labels considers to be
    the same text. *)
Theorem C53_enum_label : forall stod lt src name c i e labels t l z rest,
  nth_error c i = Some e -> e_kind e = KEnum labels -> (rank (s_src (e_set e)) <= rank src)%nat ->
  In (l, z) labels -> lt t l = false -> lt l t = false ->
  (forall l' z', In (l', z') labels -> lt t l' = false -> lt l' t = false -> z' = z) ->
  exists c' e', parse_entry stod lt src name c i (t :: rest) = Some (c', rest) /\
    nth_error c' i = Some e' /\ s_val (e_set e') = VInt z.
Proof.
  intros stod lt src name c i e labels t l z rest E K S I L1 L2 U.
  assert (F : find_label lt t labels = Some z).
  { unfold find_label. destruct (find _ labels) as [[l' z']|] eqn:Q.
    - apply find_some in Q. destruct Q as [Q1 Q2]. apply andb_true_iff in Q2. destruct Q2 as [Q2 Q3]. apply negb_true_iff in Q2, Q3. cbn [option_map snd fst] in *. f_equal. eapply U; eassumption.
    - exfalso. pose proof (find_none _ _ Q _ I) as X. cbn [fst] in X. rewrite L1, L2 in X. discriminate X. }
  unfold parse_entry. rewrite E, K. unfold parse_one. rewrite E, K. unfold parse_kind. rewrite F.
  eexists. eexists. split; [reflexivity|]. rewrite update_nth, Nat.eqb_refl, E. cbn [option_map].
  split; [reflexivity|]. unfold assign. cbn [e_set]. rewrite K. unfold set_val.
  replace (src_ge src (s_src (e_set e))) with true by (symmetry; apply src_ge_iff; exact S). reflexivity.
Qed.
Print Assumptions C53_enum_label.

(** Decimal text that is no label: stored exactly within the 32-bit range, an error outside. *)
Theorem C53_enum_number : forall stod lt src name c i e labels ds (neg : bool) rest,
  nth_error c i = Some e -> e_kind e = KEnum labels -> (rank (s_src (e_set e)) <= rank src)%nat ->
  ds <> [] -> Forall (fun d => d < 10) ds ->
  let z := (if neg then - dec_val ds else dec_val ds)%Z in
  let text := if neg then 45 :: dec ds else dec ds in
  (forall l v, In (l, v) labels -> lt text l = true \/ lt l text = true) ->
  ((- 2147483648 <= z <= 2147483647)%Z -> exists c' e', parse_entry stod lt src name c i (text :: rest) = Some (c', rest) /\
     nth_error c' i = Some e' /\ s_val (e_set e') = VInt z) /\
  (~ (- 2147483648 <= z <= 2147483647)%Z -> parse_entry stod lt src name c i (text :: rest) = None).
Proof.
  intros stod lt src name c i e labels ds neg rest E K S D F z text L.
  assert (FN : find_label lt text labels = None).
  { unfold find_label. destruct (find _ labels) as [[l' z']|] eqn:Q; [|reflexivity]. apply find_some in Q. destruct Q as [Q1 Q2].
    apply andb_true_iff in Q2. destruct Q2 as [Q2 Q3]. apply negb_true_iff in Q2, Q3. cbn [fst] in *. destruct (L _ _ Q1); congruence. }
  assert (P : stoi text = if ((- 2147483648 <=? z) && (z <? 2147483648))%Z then Some z else None).
  { unfold stoi. subst text z. destruct neg.
    - change (sign (skip_space (45 :: dec ds))) with (true, dec ds). cbv iota beta. rewrite (starts_digit_dec ds D F), (digits_val_dec ds 0%Z F). reflexivity.
    - rewrite (sign_dec ds D F), (starts_digit_dec ds D F), (digits_val_dec ds 0%Z F). reflexivity. }
  unfold parse_entry. rewrite E, K. unfold parse_one. rewrite E, K. unfold parse_kind. rewrite FN, P. clearbody z text. split; intro R.
  - replace ((- 2147483648 <=? z) && (z <? 2147483648))%Z with true by (symmetry; apply andb_true_iff; split; [apply Z.leb_le; lia|apply Z.ltb_lt; lia]).
    eexists. eexists. split; [reflexivity|]. rewrite update_nth, Nat.eqb_refl, E. cbn [option_map].
    split; [reflexivity|]. unfold assign. cbn [e_set]. rewrite K. unfold set_val.
    replace (src_ge src (s_src (e_set e))) with true by (symmetry; apply src_ge_iff; exact S). reflexivity.
  - replace ((- 2147483648 <=? z) && (z <? 2147483648))%Z with false; [reflexivity|]. symmetry. apply andb_false_iff.
    destruct (Z.leb_spec (- 2147483648) z); [right; apply Z.ltb_ge; lia|left; reflexivity].
Qed.
Print Assumptions C53_enum_number.

(** "help", "h", "?" and "rst" with any number of hyphens stop the tool; every other option name is
    looked up and parsed. *)
Theorem C72_help : forall stod lt c t rest, is_option t = true -> option_name t <> [] ->
  (In (option_name t) [[104;101;108;112]; [104]; [63]; [114;115;116]] -> parse_command_line stod lt c (t :: rest) = CThrow) /\
  (~ In (option_name t) [[104;101;108;112]; [104]; [63]; [114;115;116]] -> forall i c1 rest1, find_setting (option_name t) c = Some i ->
     parse_entry stod lt SCmd (option_name t) c i rest = Some (c1, rest1) ->
     parse_command_line stod lt c (t :: rest) = parse_command_line stod lt c1 rest1).
Proof.
  intros stod lt c t rest O Nn. unfold parse_command_line at 1 2. rewrite parse_args_eq, O. destruct (option_name t) as [|x y] eqn:E; [contradiction|]. split.
  - intro H. replace (is_help (x :: y)) with true; [reflexivity|]. cbn [In] in H. unfold is_help.
    destruct H as [H|[H|[H|[H|[]]]]]; rewrite <- H; vm_compute; reflexivity.
  - intros H i c1 rest1 F P. rewrite F, P. replace (is_help (x :: y)) with false.
    + unfold parse_command_line. apply parse_entry_suffix in P. apply suffix_length in P. apply parse_args_fuel; cbn [length]; lia.
    + symmetry. unfold is_help. rewrite !orb_false_iff.
      assert (Q : forall k, In k [[104;101;108;112]; [104]; [63]; [114;115;116]] -> beq (x :: y) k = false).
      { intros k K. destruct (beq (x :: y) k) eqn:W; [|reflexivity]. apply beq_eq in W. subst k. contradiction. }
      repeat split; apply Q; cbn [In]; auto.
Qed.
Print Assumptions C72_help.

(** The summary fails exactly when an enumeration that was set has a number without a label. *)
Theorem C72_summary : forall c, summary_ok c = false <->
  exists e labels z, In e c /\ e_kind e = KEnum labels /\ s_src (e_set e) <> SDefault /\ s_val (e_set e) = VInt z /\
    ~ In z (map snd labels).
Proof.
  intro c. unfold summary_ok. split.
  - intro H. induction c as [|e c IH]; [discriminate H|]. cbn [forallb] in H. apply andb_false_iff in H. destruct H as [H|H].
    + destruct (s_src (e_set e)) eqn:S; try discriminate H; unfold string_value_ok in H; destruct (e_kind e) eqn:K; try discriminate H;
        destruct (s_val (e_set e)) as [|z| | | |] eqn:V; try discriminate H;
        exists e, labels, z; (split; [left; reflexivity|]); (split; [exact K|]); (split; [congruence|]); (split; [exact V|]);
        intro I; apply in_map_iff in I; destruct I as [p [P1 P2]];
        assert (existsb (fun p => (snd p =? z)%Z) labels = true) by (apply existsb_exists; exists p; split; [exact P2|apply Z.eqb_eq; exact P1]); congruence.
    + destruct (IH H) as [e' [l [z [A B]]]]. exists e', l, z. split; [right; exact A|exact B].
  - intros [e [l [z [I [K [S [V U]]]]]]]. destruct (forallb _ c) eqn:F; [|reflexivity]. exfalso. rewrite forallb_forall in F. specialize (F _ I). cbv beta in F.
    destruct (s_src (e_set e)); [congruence| | |]; unfold string_value_ok in F; rewrite K, V in F; apply existsb_exists in F; destruct F as [p [P1 P2]]; apply Z.eqb_eq in P2; apply U, in_map_iff; exists p; auto.
Qed.
Print Assumptions C72_summary.
