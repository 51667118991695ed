(* Properties of the .texinfo.json file. *)
From Coq Require Import List NArith ZArith Bool String Lia.
From Verif Require Import NumCastModel ParserModel StreamModel TexFlagsModel TexFlagsProofs.
Import ListNotations.
Local Open Scope string_scope.
Local Open Scope list_scope.

(** Equal floats or the same bits. *)
Definition fsame (a b : fbits) : Prop := a = b \/ (f_is_zero a = true /\ f_is_zero b = true).

(** What light uses of the flags of a surface, as qbsp set them in [f] and light sees them in [g].
    native, is_hintskip, no_expand and no_phong are left out. *)
Definition lights_alike (f g : sflags) : Prop :=
  sf_nodraw f = sf_nodraw g /\ sf_hint f = sf_hint g /\ sf_no_dirt f = sf_no_dirt g /\ sf_no_shadow f = sf_no_shadow g /\
  sf_no_bounce f = sf_no_bounce g /\ sf_no_minlight f = sf_no_minlight g /\ sf_ignore f = sf_ignore g /\
  sf_rescale f = sf_rescale g /\ sf_style f = sf_style g /\ sf_target f = sf_target g /\ sf_color f = sf_color g /\
  sf_mlscale f = sf_mlscale g /\ fsame (sf_phong f) (sf_phong g) /\ fsame (sf_phong_concave f) (sf_phong_concave g) /\
  sf_phong_group f = sf_phong_group g /\ sf_minlight f = sf_minlight g /\ sf_mlcolor f = sf_mlcolor g /\
  sf_alpha f = sf_alpha g /\ sf_twosided f = sf_twosided g /\ fsame (sf_maxlight f) (sf_maxlight g) /\
  sf_colorscale f = sf_colorscale g /\ sf_group f = sf_group g /\ sf_luxel f = sf_luxel g /\ sf_channel f = sf_channel g.

Lemma nz_same : forall x, fsame x (nz x).
Proof. intro x. unfold nz. destruct (f_is_zero x) eqn:E; [right; split; [exact E|reflexivity]|left; reflexivity]. Qed.

Lemma survives_alike : forall f, lights_alike f (survives f).
Proof. intro f. unfold lights_alike, survives. cbn. repeat split; apply nz_same. Qed.

(** C83. What qbsp writes to the .texinfo.json file, light reads: every exported texinfo gets its
    flags back, every other one the defaults. *)
Theorem C83_roundtrip_partial : forall txs n,
  (forall t, In t txs -> floats_finite (mt_flags t) = true /\ name_ok (mt_flags t) = true) ->
  NoDup (outs txs) -> (forall t i, In t txs -> mt_out t = Some i -> i < n) -> (N.of_nat n < 2 ^ 64)%N ->
  exists j fl, write_texflags false txs = ROk j /\ read_texflags j n = ROk fl /\ List.length fl = n /\
    (forall t i, In t txs -> mt_out t = Some i ->
       lights_alike (mt_flags t) (nth i fl sf_default) /\
       (sf_no_phong (mt_flags t) = false -> sf_no_expand (nth i fl sf_default) = sf_no_expand (mt_flags t))) /\
    (forall i, (forall t, In t txs -> mt_out t <> Some i) -> nth i fl sf_default = sf_default).
Proof.
  intros txs n W ND LT B. destruct (roundtrip txs n) as [j [fl [R1 [R2 [R3 [R4 R5]]]]]]; [|exact ND| |exact B|].
  - apply Forall_forall. exact W.
  - apply Forall_forall. intros i H. unfold outs in H. apply in_flat_map in H. destruct H as [t [H1 H2]].
    destruct (mt_out t) as [k|] eqn:E; [|destruct H2]. destruct H2 as [<-|[]]. exact (LT t k H1 E).
  - exists j, fl. split; [exact R1|]. split; [exact R2|]. split; [exact R3|]. split.
    + intros t i H E. rewrite (R4 t i H E). split; [apply survives_alike|]. intro P. cbn. rewrite P, orb_false_r. reflexivity.
    + intros i H. apply R5. intro X. unfold outs in X. apply in_flat_map in X. destruct X as [t [H1 H2]].
      destruct (mt_out t) as [k|] eqn:E; [|destruct H2]. destruct H2 as [<-|[]]. exact (H t H1 E).
Qed.

(** C83. A face marked not to be phong shaded loses the mark, and is marked not to be expanded. *)
Theorem C83_no_phong_refuted : forall f, floats_finite f = true -> name_ok f = true -> sf_no_phong f = true ->
  exists j fl, write_texflags false [mkMT (Some 0) f] = ROk j /\ read_texflags j 1 = ROk fl /\
    sf_no_phong (nth 0 fl sf_default) = false /\ sf_no_expand (nth 0 fl sf_default) = true.
Proof.
  intros f F T P. destruct (roundtrip [mkMT (Some 0) f] 1) as [j [fl [R1 [R2 [R3 [R4 R5]]]]]].
  - constructor; [split; assumption|constructor].
  - cbn. constructor; [intros []|constructor].
  - cbn. constructor; [lia|constructor].
  - reflexivity.
  - exists j, fl. split; [exact R1|]. split; [exact R2|]. rewrite (R4 _ 0 (or_introl eq_refl) eq_refl). cbn. rewrite P, orb_true_r. split; reflexivity.
Qed.

(** C83. The mark of the skip sides of hint brushes does not reach the file. *)
Theorem C83_hintskip_refuted : forall f, floats_finite f = true -> name_ok f = true -> sf_hintskip f = true ->
  exists j fl, write_texflags false [mkMT (Some 0) f] = ROk j /\ read_texflags j 1 = ROk fl /\
    sf_hintskip (nth 0 fl sf_default) = false.
Proof.
  intros f F T P. destruct (roundtrip [mkMT (Some 0) f] 1) as [j [fl [R1 [R2 [R3 [R4 R5]]]]]].
  - constructor; [split; assumption|constructor].
  - cbn. constructor; [intros []|constructor].
  - cbn. constructor; [lia|constructor].
  - reflexivity.
  - exists j, fl. split; [exact R1|]. split; [exact R2|]. rewrite (R4 _ 0 (or_introl eq_refl) eq_refl). reflexivity.
Qed.

(** C83. A file with a number the BSP does not have is not ignored: every texinfo ends up with a
    light colour scale of 0, which takes the colour out of all lightmaps, and not with 1. *)
Theorem C83_mismatch_refuted : forall j n fl, read_texflags (Some j) n = ROk fl ->
  (exists k o i, In (k, o) j /\ stoull k = ROk i /\ (N.of_nat n <= i)%N) ->
  forall i, i < n -> sf_colorscale (nth i fl sf_default) = f_zero /\ sf_colorscale (nth i (repeat sf_default n) sf_default) = f_one.
Proof.
  intros j n fl R M i Hi. unfold read_texflags in R. apply mismatch in R; [|rewrite repeat_length; exact M].
  rewrite repeat_length in R. subst fl. split; [|rewrite nth_repeat_any; reflexivity].
  rewrite (nth_indep _ sf_default sf_zeroed) by (rewrite repeat_length; exact Hi). rewrite nth_repeat_any. reflexivity.
Qed.

(** C83. An angle that is not a finite number is written as null, and light stops with an error. *)
Theorem C83_nonfinite_refuted : forall f i n, f_finite (sf_phong f) = false -> name_ok f = true -> i < n -> (N.of_nat n < 2 ^ 64)%N ->
  exists j, write_texflags false [mkMT (Some i) f] = ROk (Some j) /\ read_texflags (Some j) n = RThrow.
Proof. exact nonfinite_throws. Qed.

(** C83. A name that is not UTF-8 (the coloured characters of Quake) makes qbsp stop with an error. *)
Theorem C83_name_refuted : forall f i s, sf_target f = Some s -> utf8 s = false -> write_texflags false [mkMT (Some i) f] = RThrow.
Proof. exact name_throws. Qed.

Print Assumptions C83_roundtrip_partial.
Print Assumptions C83_no_phong_refuted.
Print Assumptions C83_hintskip_refuted.
Print Assumptions C83_mismatch_refuted.
Print Assumptions C83_nonfinite_refuted.
Print Assumptions C83_name_refuted.

(** Two texinfos, one with phong shading at 89 degrees and a style, exported in reverse order. *)
Example C83_nontrivial :
  let f := mkSF 0 false false false true false false false true false false None (Some 3%Z) (Some [116%N]) (Some [1;2;3]%Z) None
                1119092736%N f_minus_zero 7 (Some f_zero) [9;0;0]%Z None (Some false) f_zero f_one 0 None (Some 2%Z) in
  exists j, write_texflags false [mkMT (Some 2) f; mkMT None f; mkMT (Some 0) sf_default; mkMT (Some 1) (survives f)] = ROk (Some j) /\
    List.length j = 2 /\ needs_write sf_default = false /\
    read_texflags (Some j) 3 = ROk [sf_default; survives f; survives f] /\
    read_texflags (Some (rev j)) 3 = ROk [sf_default; survives f; survives f] /\
    read_texflags (Some j) 2 = ROk [sf_zeroed; sf_zeroed] /\
    write_texflags true [mkMT (Some 2) f] = ROk None /\ utf8 [245%N] = false /\ utf8 [195; 169; 240; 159; 152; 128]%N = true.
Proof. eexists. split; [vm_compute; reflexivity|]. repeat split; vm_compute; reflexivity. Qed.
