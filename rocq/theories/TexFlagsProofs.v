(* The .texinfo.json file: lemmas. *)
From Coq Require Import List NArith ZArith Bool String Ascii Lia.
From Verif Require Import NumCastModel ParserModel StreamModel StreamProofs TexFlagsModel.
Import ListNotations.
Local Open Scope string_scope.
Local Open Scope list_scope.

(** ** One object *)

Lemma f_is_zero_true : forall f, f_is_zero f = true -> f = f_zero \/ f = f_minus_zero.
Proof.
  intros f H. unfold f_is_zero in H. apply orb_true_iff in H.
  destruct H as [H|H]; apply N.eqb_eq in H; auto.
Qed.

Lemma f_eq_one : forall f, f_eq f f_one = true -> f = f_one.
Proof.
  intros f H. unfold f_eq in H. apply andb_true_iff in H. destruct H as [_ H].
  change (f_is_zero f_one) with false in H. rewrite andb_false_r, orb_false_r in H.
  apply N.eqb_eq. exact H.
Qed.

Lemma zs_eq_true : forall a b, zs_eq a b = true -> a = b.
Proof.
  induction a as [|x a IH]; intros [|y b] H; cbn [zs_eq] in H; try discriminate; [reflexivity|].
  apply andb_true_iff in H. destruct H as [A B]. apply Z.eqb_eq in A. subst. f_equal. apply IH. exact B.
Qed.

Lemma zs_eq_refl : forall a, zs_eq a a = true.
Proof. induction a as [|x a IH]; cbn [zs_eq]; [reflexivity|]. rewrite Z.eqb_refl. exact IH. Qed.

(** What is finite and what is text. *)
Definition opt_all {A} (P : A -> bool) (o : option A) : bool := match o with Some a => P a | None => true end.
Definition floats_finite (f : sflags) : bool :=
  f_finite (sf_phong f) && f_finite (sf_phong_concave f) && f_finite (sf_maxlight f) && f_finite (sf_colorscale f)
  && opt_all f_finite (sf_mlscale f) && opt_all f_finite (sf_minlight f) && opt_all f_finite (sf_alpha f)
  && opt_all f_finite (sf_luxel f).
Definition name_ok (f : sflags) : bool := opt_all utf8 (sf_target f).

Definition dump_id (kv : string * jval) : Prop := dump_val (snd kv) = ROk (snd kv).
Lemma dump_obj_id : forall o, Forall dump_id o -> dump_obj o = ROk o.
Proof.
  induction 1 as [|[k v] o H _ IH]; [reflexivity|]. cbn [dump_obj]. unfold dump_id in H. cbn [snd] in H.
  rewrite H. cbn [rbind]. rewrite IH. reflexivity.
Qed.
Lemma put_id : forall k c v, (c = true -> dump_val v = ROk v) -> Forall dump_id (put k c v).
Proof. intros k [|] v H; unfold put; [constructor; [exact (H eq_refl)|constructor]|constructor]. Qed.
Lemma puto_id : forall A k (o : option A) f, (forall a, o = Some a -> dump_val (f a) = ROk (f a)) -> Forall dump_id (puto k o f).
Proof. intros A k [a|] f H; unfold puto; [constructor; [exact (H a eq_refl)|constructor]|constructor]. Qed.

Lemma dump_float : forall f, f_finite f = true -> dump_val (JFloat f) = ROk (JFloat f).
Proof. intros f H. unfold dump_val. rewrite H. reflexivity. Qed.

Lemma dump_write : forall f, floats_finite f = true -> name_ok f = true -> dump_obj (write_obj f) = ROk (write_obj f).
Proof.
  intros f F T. unfold floats_finite in F. repeat (apply andb_true_iff in F; destruct F as [F ?H]).
  apply dump_obj_id. unfold write_obj.
  repeat (apply Forall_app; split); try (apply put_id; intros _; try reflexivity; apply dump_float; assumption);
  try (apply puto_id; intros a E; try reflexivity; first [apply dump_float | idtac];
       unfold opt_all in *;
       repeat match goal with H : context[match ?o with _ => _ end], E : ?o = Some _ |- _ => rewrite E in H end; try assumption).
  unfold name_ok, opt_all in T. rewrite E in T. unfold dump_val. rewrite T. reflexivity.
Qed.

(** The object as a list of keys with optional values. *)
Definition wlist (f : sflags) : list (string * option jval) :=
  let b (c : bool) (v : jval) := if c then Some v else None in
  [
    ("is_nodraw", b (sf_nodraw f) (JBool (sf_nodraw f)));
    ("is_hint", b (sf_hint f) (JBool (sf_hint f)));
    ("no_dirt", b (sf_no_dirt f) (JBool (sf_no_dirt f)));
    ("no_shadow", b (sf_no_shadow f) (JBool (sf_no_shadow f)));
    ("no_bounce", b (sf_no_bounce f) (JBool (sf_no_bounce f)));
    ("no_minlight", b (sf_no_minlight f) (JBool (sf_no_minlight f)));
    ("no_expand", b (sf_no_expand f) (JBool (sf_no_expand f)));
    ("no_phong", b (sf_no_phong f) (JBool (sf_no_phong f)));
    ("light_ignore", b (sf_ignore f) (JBool (sf_ignore f)));
    ("surflight_rescale", option_map JBool (sf_rescale f));
    ("surflight_style", option_map JInt (sf_style f));
    ("surflight_targetname", option_map JStr (sf_target f));
    ("surflight_color", option_map JArr (sf_color f));
    ("surflight_minlight_scale", option_map JFloat (sf_mlscale f));
    ("phong_angle", b (negb (f_is_zero (sf_phong f))) (JFloat (sf_phong f)));
    ("phong_angle_concave", b (negb (f_is_zero (sf_phong_concave f))) (JFloat (sf_phong_concave f)));
    ("phong_group", b (negb (Z.eqb (sf_phong_group f) 0)) (JInt (sf_phong_group f)));
    ("minlight", option_map JFloat (sf_minlight f));
    ("maxlight", b (negb (f_is_zero (sf_maxlight f))) (JFloat (sf_maxlight f)));
    ("minlight_color", b (negb (zs_eq (sf_mlcolor f) [0;0;0]%Z)) (JArr (sf_mlcolor f)));
    ("light_alpha", option_map JFloat (sf_alpha f));
    ("light_twosided", option_map JBool (sf_twosided f));
    ("lightcolorscale", b (negb (f_eq (sf_colorscale f) f_one)) (JFloat (sf_colorscale f)));
    ("surflight_group", b (negb (Z.eqb (sf_group f) 0)) (JInt (sf_group f)));
    ("world_units_per_luxel", option_map JFloat (sf_luxel f));
    ("object_channel_mask", option_map JInt (sf_channel f))].
Fixpoint flat (l : list (string * option jval)) : jobj :=
  match l with [] => [] | (k, Some v) :: r => (k, v) :: flat r | (_, None) :: r => flat r end.
Fixpoint jf (k : string) (l : list (string * option jval)) : option jval :=
  match l with
  | [] => None
  | (k', o) :: r => if String.eqb k k' then match o with Some v => Some v | None => jf k r end else jf k r
  end.
Lemma jget_flat : forall k l, jget k (flat l) = jf k l.
Proof.
  induction l as [|[k' [v|]] l IH]; cbn [flat jget jf]; [reflexivity| |].
  - rewrite IH. reflexivity.
  - rewrite IH. destruct (String.eqb k k'); reflexivity.
Qed.
Lemma flat_put : forall k c v r, put k c v ++ flat r = flat ((k, if c then Some v else None) :: r).
Proof. intros k [|] v r; reflexivity. Qed.
Lemma flat_puto : forall A k (o : option A) v r, puto k o v ++ flat r = flat ((k, option_map v o) :: r).
Proof. intros A k [a|] v r; reflexivity. Qed.
Lemma write_flat : forall f, write_obj f = flat (wlist f).
Proof.
  intro f. unfold write_obj, wlist. rewrite <- (app_nil_r (puto "object_channel_mask" (sf_channel f) JInt)).
  change (@nil (string * jval)) with (flat []).
  rewrite !flat_puto. rewrite !flat_put. rewrite !flat_puto.
  repeat first [rewrite flat_put | rewrite flat_puto]. reflexivity.
Qed.

Lemma opt_eta : forall A (o : option A), match o with Some v => Some v | None => None end = o.
Proof. intros A [a|]; reflexivity. Qed.
Ltac jsolve f := rewrite write_flat, jget_flat; unfold wlist;
  cbn [jf String.eqb Ascii.eqb Bool.eqb]; rewrite ?opt_eta; unfold option_map.

Lemma get_bool : forall k (c : bool) o, jget k o = (if c then Some (JBool c) else None) -> rd c_bool k o false = ROk c.
Proof. intros k [|] o H; unfold rd; rewrite H; reflexivity. Qed.
Lemma get_opt : forall A k (o : jobj) (a : option A) (mk : A -> jval) (conv : jval -> res A),
  (forall x, conv (mk x) = ROk x) -> jget k o = match a with Some x => Some (mk x) | None => None end ->
  rd (c_some conv) k o None = ROk a.
Proof. intros A k o [x|] mk conv C H; unfold rd; rewrite H; [|reflexivity]. unfold c_some. rewrite C. reflexivity. Qed.
Lemma get_opt2 : forall A k (o : jobj) (a : option A) (mk : A -> jval) (conv : jval -> res A),
  (forall x, conv (mk x) = ROk x) -> jget k o = match a with Some x => Some (mk x) | None => None end ->
  rd (c_some conv) k o a = ROk a.
Proof. intros A k o [x|] mk conv C H; unfold rd; rewrite H; [|reflexivity]. unfold c_some. rewrite C. reflexivity. Qed.

Definition nz (f : fbits) : fbits := if f_is_zero f then f_zero else f.

(** What comes back from the file. *)
Definition survives (f : sflags) : sflags :=
  mkSF 0 (sf_nodraw f) (sf_hint f) false (sf_no_dirt f) (sf_no_shadow f) (sf_no_bounce f) (sf_no_minlight f)
       (sf_no_expand f || sf_no_phong f) false (sf_ignore f) (sf_rescale f) (sf_style f) (sf_target f) (sf_color f)
       (sf_mlscale f) (nz (sf_phong f)) (nz (sf_phong_concave f)) (sf_phong_group f) (sf_minlight f) (sf_mlcolor f)
       (sf_alpha f) (sf_twosided f) (nz (sf_maxlight f)) (sf_colorscale f) (sf_group f) (sf_luxel f) (sf_channel f).

Lemma get_float0 : forall k o x, jget k o = (if negb (f_is_zero x) then Some (JFloat x) else None) ->
  rd c_float k o f_zero = ROk (nz x).
Proof. intros k o x H. unfold rd, nz. rewrite H. destruct (f_is_zero x); reflexivity. Qed.
Lemma get_float1 : forall k o x, jget k o = (if negb (f_eq x f_one) then Some (JFloat x) else None) ->
  rd c_float k o f_one = ROk x.
Proof. intros k o x H. unfold rd. rewrite H. destruct (f_eq x f_one) eqn:E; [|reflexivity]. cbn [negb]. rewrite (f_eq_one x E). reflexivity. Qed.
Lemma get_int0 : forall k o x, jget k o = (if negb (Z.eqb x 0) then Some (JInt x) else None) -> rd c_int k o 0%Z = ROk x.
Proof. intros k o x H. unfold rd. rewrite H. destruct (Z.eqb x 0) eqn:E; [|reflexivity]. apply Z.eqb_eq in E. subst. reflexivity. Qed.
Lemma get_arr0 : forall k o x, jget k o = (if negb (zs_eq x [0;0;0]%Z) then Some (JArr x) else None) ->
  rd c_arr k o [0;0;0]%Z = ROk x.
Proof. intros k o x H. unfold rd. rewrite H. destruct (zs_eq x _) eqn:E; [|reflexivity]. rewrite (zs_eq_true _ _ E). reflexivity. Qed.

Lemma read_write : forall f, read_obj (write_obj f) sf_default = ROk (survives f).
Proof.
  intro f.
  pose proof (get_bool "is_nodraw" (sf_nodraw f) (write_obj f) ltac:(jsolve f; reflexivity)) as R0.
  pose proof (get_bool "is_hint" (sf_hint f) (write_obj f) ltac:(jsolve f; reflexivity)) as R1.
  pose proof (get_bool "is_hintskip" false (write_obj f) ltac:(jsolve f; reflexivity)) as R2.
  pose proof (get_bool "no_dirt" (sf_no_dirt f) (write_obj f) ltac:(jsolve f; reflexivity)) as R3.
  pose proof (get_bool "no_shadow" (sf_no_shadow f) (write_obj f) ltac:(jsolve f; reflexivity)) as R4.
  pose proof (get_bool "no_bounce" (sf_no_bounce f) (write_obj f) ltac:(jsolve f; reflexivity)) as R5.
  pose proof (get_bool "no_minlight" (sf_no_minlight f) (write_obj f) ltac:(jsolve f; reflexivity)) as R6.
  pose proof (get_bool "no_expand" (sf_no_expand f) (write_obj f) ltac:(jsolve f; reflexivity)) as R7.
  pose proof (get_bool "light_ignore" (sf_ignore f) (write_obj f) ltac:(jsolve f; reflexivity)) as R8.
  pose proof (get_opt _ "surflight_rescale" (write_obj f) (sf_rescale f) JBool c_bool ltac:(reflexivity) ltac:(jsolve f; reflexivity)) as R9.
  pose proof (get_opt _ "surflight_style" (write_obj f) (sf_style f) JInt c_int ltac:(reflexivity) ltac:(jsolve f; reflexivity)) as R10.
  pose proof (get_opt _ "surflight_targetname" (write_obj f) (sf_target f) JStr c_str ltac:(reflexivity) ltac:(jsolve f; reflexivity)) as R11.
  pose proof (get_opt _ "surflight_color" (write_obj f) (sf_color f) JArr c_arr ltac:(reflexivity) ltac:(jsolve f; reflexivity)) as R12.
  pose proof (get_opt _ "surflight_minlight_scale" (write_obj f) (sf_mlscale f) JFloat c_float ltac:(reflexivity) ltac:(jsolve f; reflexivity)) as R13.
  pose proof (get_float0 "phong_angle" (write_obj f) (sf_phong f) ltac:(jsolve f; reflexivity)) as R14.
  pose proof (get_float0 "phong_angle_concave" (write_obj f) (sf_phong_concave f) ltac:(jsolve f; reflexivity)) as R15.
  pose proof (get_int0 "phong_group" (write_obj f) (sf_phong_group f) ltac:(jsolve f; reflexivity)) as R16.
  pose proof (get_opt _ "minlight" (write_obj f) (sf_minlight f) JFloat c_float ltac:(reflexivity) ltac:(jsolve f; reflexivity)) as R17.
  pose proof (get_float0 "maxlight" (write_obj f) (sf_maxlight f) ltac:(jsolve f; reflexivity)) as R18.
  pose proof (get_arr0 "minlight_color" (write_obj f) (sf_mlcolor f) ltac:(jsolve f; reflexivity)) as R19.
  pose proof (get_opt _ "light_alpha" (write_obj f) (sf_alpha f) JFloat c_float ltac:(reflexivity) ltac:(jsolve f; reflexivity)) as R20.
  pose proof (get_opt _ "light_twosided" (write_obj f) (sf_twosided f) JBool c_bool ltac:(reflexivity) ltac:(jsolve f; reflexivity)) as R21.
  pose proof (get_float1 "lightcolorscale" (write_obj f) (sf_colorscale f) ltac:(jsolve f; reflexivity)) as R22.
  pose proof (get_int0 "surflight_group" (write_obj f) (sf_group f) ltac:(jsolve f; reflexivity)) as R23.
  pose proof (get_opt _ "world_units_per_luxel" (write_obj f) (sf_luxel f) JFloat c_float ltac:(reflexivity) ltac:(jsolve f; reflexivity)) as R24.
  pose proof (get_opt _ "object_channel_mask" (write_obj f) (sf_channel f) JInt c_int ltac:(reflexivity) ltac:(jsolve f; reflexivity)) as R25.
  pose proof (get_opt2 _ "surflight_minlight_scale" (write_obj f) (sf_mlscale f) JFloat c_float ltac:(reflexivity) ltac:(jsolve f; reflexivity)) as R26.
  assert (X : rd c_bool "no_phong" (write_obj f) (sf_no_expand f) = ROk (sf_no_expand f || sf_no_phong f)).
  { unfold rd. jsolve f. destruct (sf_no_phong f), (sf_no_expand f); reflexivity. }
  generalize dependent (write_obj f). intros o. intros. unfold read_obj, survives, sf_default.
  cbn [sf_native sf_nodraw sf_hint sf_hintskip sf_no_dirt sf_no_shadow sf_no_bounce sf_no_minlight sf_no_expand sf_no_phong
       sf_ignore sf_rescale sf_style sf_target sf_color sf_mlscale sf_phong sf_phong_concave sf_phong_group sf_minlight sf_mlcolor
       sf_alpha sf_twosided sf_maxlight sf_colorscale sf_group sf_luxel sf_channel].
  repeat match goal with H : ?l = ROk _ |- rbind ?l _ = _ => rewrite H; unfold rbind at 1 end.
  reflexivity.
Qed.

(** Flags that are not written are the default, up to the sign of zeroes. *)
Lemma not_needed : forall f, needs_write f = false -> survives f = sf_default.
Proof.
  intros f H. unfold needs_write in H. apply negb_false_iff in H.
  repeat (apply andb_true_iff in H; destruct H as [H ?H]).
  repeat match goal with
  | X : negb _ = true |- _ => apply negb_true_iff in X
  | X : Z.eqb _ _ = true |- _ => apply Z.eqb_eq in X
  | X : f_eq (sf_colorscale f) f_one = true |- _ => apply f_eq_one in X
  | X : zs_eq _ _ = true |- _ => apply zs_eq_true in X
  | X : is_none ?o = true |- _ => destruct o eqn:?; [discriminate X|clear X]
  end.
  assert (Z : forall x, f_eq x f_zero = true -> nz x = f_zero).
  { intros x E. unfold f_eq in E. apply andb_true_iff in E. destruct E as [_ E]. unfold nz. apply orb_true_iff in E.
    destruct E as [E|E].
    - apply N.eqb_eq in E. subst x. reflexivity.
    - apply andb_true_iff in E. destruct E as [E _]. rewrite E. reflexivity. }
  unfold survives. repeat match goal with X : f_eq ?x f_zero = true |- _ => rewrite (Z x X); clear X end.
  repeat match goal with X : ?a = _ |- _ => match a with sf_native _ => clear X | _ => rewrite X; clear X end end.
  reflexivity.
Qed.

(** ** The file *)

Lemma stoull_print : forall n, (N.of_nat n < 2 ^ 64)%N -> stoull (print_nat n) = ROk (N.of_nat n).
Proof.
  intros n B. destruct (print_nat_spec n) as [D [V [c [r E]]]]. unfold stoull.
  assert (W : drop_ws (print_nat n) = print_nat n).
  { rewrite E in *. inversion D as [|? ? D1 D2]; subst. cbn [drop_ws]. rewrite (digit_not_space c D1). reflexivity. }
  rewrite W. pose proof (take_digits_app (print_nat n) [] D) as T. rewrite app_nil_r in T. rewrite T by discriminate.
  rewrite E in *. rewrite V. rewrite (proj2 (N.ltb_lt _ _) B). reflexivity.
Qed.

Lemma upd_length : forall A (l : list A) i a, List.length (upd l i a) = List.length l.
Proof. induction l as [|x l IH]; intros [|i] a; cbn [upd List.length]; try reflexivity. rewrite IH. reflexivity. Qed.
Lemma upd_nth : forall A (l : list A) i a j d, nth j (upd l i a) d = if Nat.eqb i j && Nat.ltb i (List.length l) then a else nth j l d.
Proof.
  induction l as [|x l IH]; intros i a j d; cbn [upd].
  - cbn [List.length]. replace (Nat.ltb i 0) with false by (symmetry; apply Nat.ltb_ge; lia). rewrite andb_false_r. destruct i; reflexivity.
  - destruct i as [|i].
    + destruct j as [|j]; reflexivity.
    + destruct j as [|j]; cbn [nth]; [reflexivity|]. rewrite IH. cbn [List.length]. reflexivity.
Qed.

(** The flags of texinfo [i] that the file should give. *)
Definition tex_at (txs : list mtex) (i : nat) : option sflags :=
  match find (fun t => match mt_out t with Some n => Nat.eqb n i | None => false end) txs with
  | Some t => Some (mt_flags t) | None => None end.

Definition outs (txs : list mtex) : list nat := flat_map (fun t => match mt_out t with Some n => [n] | None => [] end) txs.
Definition writable (t : mtex) : Prop := floats_finite (mt_flags t) = true /\ name_ok (mt_flags t) = true.

Lemma tex_at_none : forall txs i, ~ In i (outs txs) -> tex_at txs i = None.
Proof.
  induction txs as [|t txs IH]; intros i H; [reflexivity|]. unfold tex_at. cbn [find].
  unfold outs in H. cbn [flat_map] in H. rewrite in_app_iff in H.
  destruct (mt_out t) as [n|].
  - destruct (Nat.eqb n i) eqn:E; [apply Nat.eqb_eq in E; subst; exfalso; apply H; left; left; reflexivity|].
    apply IH. intro X. apply H. right. exact X.
  - apply IH. intro X. apply H. right. exact X.
Qed.

Lemma tex_at_cons : forall t txs i, tex_at (t :: txs) i =
  match mt_out t with Some n => if Nat.eqb n i then Some (mt_flags t) else tex_at txs i | None => tex_at txs i end.
Proof. intros t txs i. unfold tex_at. cbn [find]. destruct (mt_out t) as [n|]; [destruct (Nat.eqb n i)|]; reflexivity. Qed.

(** The file in any order of its entries. *)
Definition entry (t : mtex) : jfile :=
  match mt_out t with
  | Some n => if needs_write (mt_flags t) then [(print_nat n, write_obj (mt_flags t))] else []
  | None => []
  end.
Lemma write_file_ok : forall txs, Forall writable txs -> write_file txs = ROk (flat_map entry txs).
Proof.
  induction 1 as [|t txs [F T] _ IH]; [reflexivity|]. cbn [write_file flat_map]. unfold entry at 1.
  destruct (mt_out t) as [n|]; [|exact IH]. destruct (needs_write (mt_flags t)); [|exact IH].
  rewrite (dump_write _ F T). cbn [rbind]. rewrite IH. reflexivity.
Qed.

Lemma read_entries : forall txs fl, NoDup (outs txs) -> (forall i, In i (outs txs) -> i < List.length fl /\ nth i fl sf_default = sf_default) ->
  (N.of_nat (List.length fl) < 2 ^ 64)%N ->
  exists fl', read_loop (flat_map entry txs) fl = ROk fl' /\ List.length fl' = List.length fl /\
    forall i, i < List.length fl -> nth i fl' sf_default = match tex_at txs i with Some f => survives f | None => nth i fl sf_default end.
Proof.
  induction txs as [|t txs IH]; intros fl ND IN B.
  - exists fl. split; [reflexivity|]. split; [reflexivity|]. intros; reflexivity.
  - cbn [flat_map]. unfold entry at 1. unfold outs in ND, IN. cbn [flat_map] in ND, IN. fold (outs txs) in ND, IN.
    destruct (mt_out t) as [n|] eqn:O.
    + cbn [app] in ND, IN. inversion ND as [|? ? N1 N2]; subst. destruct (IN n (or_introl eq_refl)) as [Ln Dn].
      destruct (needs_write (mt_flags t)) eqn:W.
      * cbn [app read_loop]. rewrite stoull_print by lia. cbn [rbind].
        replace (N.leb (N.of_nat (List.length fl)) (N.of_nat n)) with false by (symmetry; apply N.leb_gt; lia).
        rewrite Nat2N.id, Dn, read_write. cbn [rbind].
        destruct (IH (upd fl n (survives (mt_flags t))) N2) as [fl' [R [L A]]].
        { intros i Hi. rewrite upd_length, upd_nth. destruct (IN i (or_intror Hi)) as [Li Di]. split; [exact Li|].
          destruct (Nat.eqb n i) eqn:E; [apply Nat.eqb_eq in E; subst; contradiction|]. exact Di. }
        { rewrite upd_length. exact B. }
        exists fl'. split; [exact R|]. rewrite upd_length in L, A. split; [exact L|].
        intros i Hi. rewrite (A i Hi), tex_at_cons, O, upd_nth.
        destruct (Nat.eqb n i) eqn:E.
        -- apply Nat.eqb_eq in E. subst i. rewrite (tex_at_none txs n N1). rewrite (proj2 (Nat.ltb_lt _ _) Ln). reflexivity.
        -- reflexivity.
      * destruct (IH fl N2) as [fl' [R [L A]]]; [intros i Hi; exact (IN i (or_intror Hi))|exact B|].
        exists fl'. split; [exact R|]. split; [exact L|]. intros i Hi. rewrite (A i Hi), tex_at_cons, O.
        destruct (Nat.eqb n i) eqn:E; [|reflexivity]. apply Nat.eqb_eq in E. subst i. rewrite (tex_at_none txs n N1), Dn.
        symmetry. apply not_needed. exact W.
    + destruct (IH fl ND) as [fl' [R [L A]]]; [exact IN|exact B|].
      exists fl'. split; [exact R|]. split; [exact L|]. intros i Hi. rewrite (A i Hi), tex_at_cons, O. reflexivity.
Qed.

Lemma nth_repeat_any : forall A (a : A) n i, nth i (repeat a n) a = a.
Proof. induction n as [|n IH]; intros [|i]; cbn [repeat nth]; try reflexivity. apply IH. Qed.

(** ** Reading what was written *)

Lemma in_outs : forall txs t i, In t txs -> mt_out t = Some i -> In i (outs txs).
Proof. intros txs t i H E. unfold outs. apply in_flat_map. exists t. rewrite E. split; [exact H|left; reflexivity]. Qed.

Lemma tex_at_in : forall txs t i, NoDup (outs txs) -> In t txs -> mt_out t = Some i -> tex_at txs i = Some (mt_flags t).
Proof.
  induction txs as [|u txs IH]; intros t i ND H E; [destruct H|]. rewrite tex_at_cons.
  unfold outs in ND. cbn [flat_map] in ND. fold (outs txs) in ND.
  destruct H as [<-|H].
  - rewrite E, Nat.eqb_refl. reflexivity.
  - destruct (mt_out u) as [n|].
    + cbn [app] in ND. inversion ND as [|? ? N1 N2]; subst. destruct (Nat.eqb n i) eqn:X.
      * apply Nat.eqb_eq in X. subst. exfalso. apply N1. exact (in_outs txs t i H E).
      * apply IH; assumption.
    + apply IH; assumption.
Qed.

Lemma roundtrip : forall txs n, Forall writable txs -> NoDup (outs txs) -> Forall (fun i => i < n) (outs txs) -> (N.of_nat n < 2 ^ 64)%N ->
  exists j fl, write_texflags false txs = ROk j /\ read_texflags j n = ROk fl /\ List.length fl = n /\
    (forall t i, In t txs -> mt_out t = Some i -> nth i fl sf_default = survives (mt_flags t)) /\
    (forall i, ~ In i (outs txs) -> nth i fl sf_default = sf_default).
Proof.
  intros txs n W ND LT B. unfold write_texflags. rewrite orb_false_r.
  destruct (existsb (fun t => needs_write (mt_flags t)) txs) eqn:E; cbn [negb].
  - rewrite (write_file_ok txs W). cbn [rbind].
    destruct (read_entries txs (repeat sf_default n) ND) as [fl [R [L A]]].
    { intros i Hi. rewrite repeat_length. rewrite Forall_forall in LT. split; [exact (LT i Hi)|apply nth_repeat_any]. }
    { rewrite repeat_length. exact B. }
    rewrite repeat_length in L, A.
    exists (Some (flat_map entry txs)), fl. split; [reflexivity|]. split; [exact R|]. split; [exact L|]. split.
    + intros t i H O. rewrite (A i); [|rewrite Forall_forall in LT; apply LT; exact (in_outs _ _ _ H O)].
      rewrite (tex_at_in txs t i ND H O). reflexivity.
    + intros i Hi. destruct (Nat.lt_ge_cases i n) as [X|X].
      * rewrite (A i X), (tex_at_none txs i Hi). apply nth_repeat_any.
      * apply nth_overflow. lia.
  - exists None, (repeat sf_default n). split; [reflexivity|]. split; [reflexivity|]. split; [apply repeat_length|]. split.
    + intros t i H O. rewrite nth_repeat_any. symmetry. apply not_needed.
      destruct (needs_write (mt_flags t)) eqn:X; [|reflexivity].
      assert (existsb (fun t => needs_write (mt_flags t)) txs = true) by (apply existsb_exists; exists t; split; assumption). congruence.
    + intros i _. apply nth_repeat_any.
Qed.

(** ** A file that does not match *)

Lemma zeroed_len : forall l : list sflags, map (fun _ => sf_zeroed) l = repeat sf_zeroed (List.length l).
Proof. induction l as [|x l IH]; cbn [map repeat List.length]; [reflexivity|]. rewrite IH. reflexivity. Qed.

Lemma mismatch : forall j fl fl', read_loop j fl = ROk fl' ->
  (exists k o i, In (k, o) j /\ stoull k = ROk i /\ (N.of_nat (List.length fl) <= i)%N) ->
  fl' = repeat sf_zeroed (List.length fl).
Proof.
  induction j as [|[k o] j IH]; intros fl fl' R [k0 [o0 [i0 [H [S L]]]]]; [destruct H|].
  cbn [read_loop] in R. destruct (stoull k) as [i| |] eqn:SK; cbn [rbind] in R; try discriminate.
  destruct (N.leb (N.of_nat (List.length fl)) i) eqn:LE.
  - inversion R. apply zeroed_len.
  - destruct (read_obj o (nth (N.to_nat i) fl sf_default)) as [f| |]; cbn [rbind] in R; try discriminate.
    destruct H as [H|H].
    + inversion H; subst. rewrite SK in S. inversion S; subst. apply N.leb_gt in LE. lia.
    + specialize (IH _ _ R). rewrite upd_length in IH. apply IH. exists k0, o0, i0. split; [exact H|]. split; assumption.
Qed.

(** ** Numbers that are not finite, names that are not text *)

Lemma jget_dump : forall k o o', dump_obj o = ROk o' ->
  match jget k o with Some v => exists v', dump_val v = ROk v' /\ jget k o' = Some v' | None => jget k o' = None end.
Proof.
  induction o as [|[k' v] o IH]; intros o' H.
  - inversion H. reflexivity.
  - cbn [dump_obj] in H. destruct (dump_val v) as [v'| |] eqn:D; cbn [rbind] in H; try discriminate.
    destruct (dump_obj o) as [r| |]; cbn [rbind] in H; try discriminate. inversion H; subst. cbn [jget].
    destruct (String.eqb k k'); [exists v'; split; [exact D|reflexivity]|]. apply IH. reflexivity.
Qed.

Lemma rd_not_ub : forall A (c : jval -> res A) k o d, (forall v, c v <> RUB) -> rd c k o d <> RUB.
Proof. intros A c k o d H. unfold rd. destruct (jget k o); [apply H|discriminate]. Qed.
Lemma c_some_not_ub : forall A (c : jval -> res A), (forall v, c v <> RUB) -> forall v, c_some c v <> RUB.
Proof. intros A c H v. unfold c_some. specialize (H v). destruct (c v); [discriminate|discriminate|exfalso; apply H; reflexivity]. Qed.
Lemma c_bool_ub : forall v, c_bool v <> RUB. Proof. intros []; discriminate. Qed.
Lemma c_int_ub : forall v, c_int v <> RUB. Proof. intros []; discriminate. Qed.
Lemma c_float_ub : forall v, c_float v <> RUB. Proof. intros []; discriminate. Qed.
Lemma c_str_ub : forall v, c_str v <> RUB. Proof. intros []; discriminate. Qed.
Lemma c_arr_ub : forall v, c_arr v <> RUB. Proof. intros []; discriminate. Qed.
Lemma rbind_throw : forall A B (x : res A) (f : A -> res B), x <> RUB -> (forall a, f a = RThrow) -> rbind x f = RThrow.
Proof. intros A B [a| |] f U H; cbn [rbind]; [apply H|reflexivity|congruence]. Qed.

Lemma read_throws : forall o d, jget "phong_angle" o = Some JNull -> read_obj o d = RThrow.
Proof.
  intros o d H. unfold read_obj.
  do 15 (apply rbind_throw; [apply rd_not_ub; first [exact c_bool_ub | apply c_some_not_ub; first [exact c_bool_ub|exact c_int_ub|exact c_str_ub|exact c_arr_ub|exact c_float_ub]]|intro]).
  unfold rd at 1. rewrite H. reflexivity.
Qed.

Lemma dump_no_ub : forall o, dump_obj o <> RUB.
Proof.
  induction o as [|[k v] o IH]; [discriminate|]. cbn [dump_obj]. destruct (dump_val v) as [x| |] eqn:D; cbn [rbind]; try discriminate.
  - destruct (dump_obj o); cbn [rbind]; try discriminate. congruence.
  - destruct v; cbn [dump_val] in D; try discriminate. destruct (utf8 s); discriminate.
Qed.

Lemma dump_name_throws : forall o k s, In (k, JStr s) o -> utf8 s = false -> dump_obj o = RThrow.
Proof.
  induction o as [|[k' v] o IH]; intros k s H U; [destruct H|]. cbn [dump_obj]. destruct H as [H|H].
  - inversion H; subst. cbn [dump_val]. rewrite U. reflexivity.
  - destruct (dump_val v) as [x| |] eqn:D; cbn [rbind]; try reflexivity.
    + rewrite (IH k s H U). reflexivity.
    + destruct v; cbn [dump_val] in D; try discriminate. destruct (utf8 s0); discriminate.
Qed.

Lemma jget_in : forall k o v, jget k o = Some v -> In (k, v) o.
Proof.
  induction o as [|[k' w] o IH]; intros v H; [discriminate|]. cbn [jget] in H. destruct (String.eqb k k') eqn:E.
  - apply String.eqb_eq in E. inversion H; subst. left. reflexivity.
  - right. apply IH. exact H.
Qed.

Lemma finite_zero : forall x, f_finite x = false -> f_is_zero x = false.
Proof.
  intros x H. destruct (f_is_zero x) eqn:E; [|reflexivity]. apply f_is_zero_true in E.
  destruct E; subst; discriminate.
Qed.

Lemma nonfinite_throws : forall f i n, f_finite (sf_phong f) = false -> name_ok f = true -> i < n -> (N.of_nat n < 2 ^ 64)%N ->
  exists j, write_texflags false [mkMT (Some i) f] = ROk (Some j) /\ read_texflags (Some j) n = RThrow.
Proof.
  intros f i n F T Li B.
  assert (NW : needs_write f = true).
  { unfold needs_write. apply negb_true_iff. apply andb_false_iff. left. repeat rewrite <- andb_assoc.
    assert (E : f_eq (sf_phong f) f_zero = false).
    { unfold f_eq. rewrite (finite_zero _ F). cbn [andb]. rewrite orb_false_r.
      destruct (N.eqb (sf_phong f) f_zero) eqn:E; [apply N.eqb_eq in E; rewrite E in F; discriminate|].
      rewrite andb_false_r. reflexivity. }
    rewrite E. rewrite ?andb_false_l, ?andb_false_r. cbn [andb]. rewrite ?andb_false_r. reflexivity. }
  assert (G : jget "phong_angle" (write_obj f) = Some (JFloat (sf_phong f))).
  { jsolve f. rewrite (finite_zero _ F). reflexivity. }
  destruct (dump_obj (write_obj f)) as [o| |] eqn:D.
  - exists [(print_nat i, o)]. split.
    + unfold write_texflags. cbn [existsb mt_flags]. rewrite NW. cbn [orb negb write_file mt_out mt_flags]. rewrite NW, D. reflexivity.
    + unfold read_texflags. cbn [read_loop]. rewrite stoull_print by lia. cbn [rbind]. rewrite repeat_length.
      replace (N.leb (N.of_nat n) (N.of_nat i)) with false by (symmetry; apply N.leb_gt; lia).
      pose proof (jget_dump "phong_angle" _ _ D) as J. rewrite G in J. destruct J as [v [J1 J2]]. cbn [dump_val] in J1. rewrite F in J1.
      inversion J1; subst. rewrite (read_throws o _ J2). reflexivity.
  - exfalso. assert (H : Forall (fun kv => exists v, dump_val (snd kv) = ROk v) (write_obj f)).
    { apply Forall_forall. intros [k v] H. cbn [snd]. destruct v; cbn [dump_val]; try (eexists; reflexivity).
      assert (X : utf8 s = true).
      { unfold write_obj, put in H. repeat (apply in_app_or in H; destruct H as [H|H]);
        try (match type of H with In _ (if ?c then _ else _) => destruct c; [destruct H as [H|[]]; discriminate H|destruct H] end);
        match type of H with In _ (puto _ ?o _) => destruct o eqn:?; cbn [puto] in H; [destruct H as [H|[]]; try discriminate H|destruct H] end.
        inversion H; subst. unfold name_ok, opt_all in T. rewrite Heqo in T. exact T. }
      rewrite X. eexists. reflexivity. }
    clear - H D. revert D. generalize dependent (write_obj f). induction 1 as [|[k v] o [v' E] _ IH]; [discriminate|].
    cbn [dump_obj snd] in *. rewrite E. cbn [rbind]. destruct (dump_obj o); cbn [rbind]; try discriminate. intros _. apply IH. reflexivity.
  - exfalso. exact (dump_no_ub _ D).
Qed.

Lemma name_throws : forall f i s, sf_target f = Some s -> utf8 s = false -> write_texflags false [mkMT (Some i) f] = RThrow.
Proof.
  intros f i s E U.
  assert (NW : needs_write f = true).
  { unfold needs_write. rewrite E. cbn [is_none]. rewrite ?andb_false_r. reflexivity. }
  unfold write_texflags. cbn [existsb mt_flags]. rewrite NW. cbn [orb negb write_file mt_out mt_flags]. rewrite NW.
  rewrite (dump_name_throws (write_obj f) "surflight_targetname" s); [reflexivity| |exact U].
  apply jget_in. jsolve f. rewrite E. reflexivity.
Qed.
