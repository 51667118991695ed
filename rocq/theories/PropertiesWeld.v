(* C159: which faces may break each other's edges. *)
From Coq Require Import List NArith Bool Lia.
From Verif Require Import ContentsModel WeldModel.
Local Open Scope N_scope.

(** The rule, for all contents: the same type, or neither a detail wall nor empty, and both opaque or neither. *)
Theorem C159_rule : forall g tw a b, welds g tw a b = true <->
  types_equal g a b = true \/
  (is_detail_wall g a = false /\ is_detail_wall g b = false /\ is_empty g a = false /\ is_empty g b = false /\ is_opaque g a tw = is_opaque g b tw).
Proof.
  intros g tw a b. unfold welds. destruct (types_equal g a b); [tauto|].
  destruct (is_detail_wall g a), (is_detail_wall g b), (is_empty g a), (is_empty g b), (is_opaque g a tw), (is_opaque g b tw); cbn; intuition congruence.
Qed.
Print Assumptions C159_rule.

Lemma types_refl : forall g a, types_equal g a a = true.
Proof. intros [|] a; unfold types_equal; apply N.eqb_refl. Qed.
Lemma types_sym : forall g a b, types_equal g a b = types_equal g b a.
Proof. intros [|] a b; unfold types_equal; apply N.eqb_sym. Qed.
(** What lies in front of the faces does not matter; a face interacts with itself, and of two faces either both break each
    other's edges or neither does. *)
Theorem C159_both : forall g tw f1 f2, interact g tw f1 f1 = true /\ interact g tw f1 f2 = interact g tw f2 f1 /\
  (forall x y, interact g tw (x, snd f1) (y, snd f2) = interact g tw f1 f2).
Proof.
  intros g tw f1 f2. unfold interact. cbn [snd]. split; [|split; [|reflexivity]].
  - unfold welds. rewrite types_refl. reflexivity.
  - apply eq_true_iff_eq. rewrite !C159_rule, (types_sym g (snd f2)). intuition congruence.
Qed.
Print Assumptions C159_both.

(** A detail wall never breaks edges of anything without that flag, and the other way round. *)
Lemma tst_bit : forall c, tst c 4 = N.testbit c 2.
Proof.
  intros c. unfold tst. change 4 with (2 ^ 2). destruct (N.testbit c 2) eqn:E.
  - apply negb_true_iff, N.eqb_neq. intros H. apply (f_equal (fun n => N.testbit n 2)) in H. rewrite N.land_spec, E in H. discriminate H.
  - apply negb_false_iff, N.eqb_eq. apply N.bits_inj. intros k. rewrite N.land_spec, N.bits_0. destruct (N.eq_dec k 2) as [->|K]; [rewrite E; reflexivity|]. rewrite N.pow2_bits_false by congruence. apply andb_false_r.
Qed.
Lemma wall_bit : forall g a, is_detail_wall g a = true -> N.testbit a 2 = true.
Proof.
  intros [|] a H; unfold is_detail_wall, is_detail_with in H.
  - apply andb_prop in H. destruct H as (_ & H). unfold DETAIL_WALL in H. rewrite tst_bit in H. exact H.
  - destruct (tst a SOLID); [discriminate|]. apply N.eqb_eq in H. apply (f_equal (fun n => N.testbit n 2)) in H. rewrite N.land_spec in H. change (N.testbit (N.lor DETAIL DETAIL_WALL) 2) with true in H. rewrite andb_true_r in H. exact H.
Qed.
Theorem C159_wall : forall g tw a b, is_detail_wall g a = true -> N.testbit b 2 = false -> welds g tw a b = false /\ welds g tw b a = false.
Proof.
  intros g tw a b W B.
  assert (T : types_equal g a b = false).
  { apply not_true_iff_false. intros T. pose proof (wall_bit g a W) as A. destruct g; unfold types_equal in T; apply N.eqb_eq in T; [congruence|].
    apply (f_equal (fun n => N.testbit n 2)) in T. unfold content_type in T. rewrite !N.land_spec, A, B in T. discriminate T. }
  split; apply not_true_iff_false; rewrite C159_rule; [rewrite T|rewrite types_sym, T]; intuition congruence.
Qed.
Print Assumptions C159_wall.
(** In Quake even two detail walls do not, unless all their flags are the same, as with _mirrorinside on one of them. *)
Theorem C159_walls_refuted : forall tw a b, is_detail_wall Q1 a = true -> is_detail_wall Q1 b = true -> a <> b -> welds Q1 tw a b = false.
Proof. intros tw a b A B N. unfold welds, types_equal. rewrite (proj2 (N.eqb_neq a b) N), A. reflexivity. Qed.
Print Assumptions C159_walls_refuted.
(** In Quake II two detail walls of the same type always do. *)
Theorem C159_walls_q2 : forall tw a b, content_type a = content_type b -> welds Q2 tw a b = true.
Proof. intros tw a b H. unfold welds, types_equal. rewrite H, N.eqb_refl. reflexivity. Qed.
Print Assumptions C159_walls_q2.

(** In Quake the faces fall into groups. *)
Theorem C159_groups_partial : forall tw a b c, welds Q1 tw a b = true -> welds Q1 tw b c = true -> welds Q1 tw a c = true.
Proof.
  intros tw a b c. rewrite !C159_rule. unfold types_equal. rewrite !N.eqb_eq.
  intros [->|(A1 & A2 & A3 & A4 & A5)] [->|(B1 & B2 & B3 & B4 & B5)]; auto; right; repeat split; congruence.
Qed.
Print Assumptions C159_groups_partial.
(** Not so in Quake II: opaque water breaks the edges of solid and of translucent water, which leave each other alone. *)
Theorem C159_groups_refuted : forall tw, let opaque_water := WATER in let water := N.lor WATER TRANSLUCENT in
  welds Q2 tw SOLID opaque_water = true /\ welds Q2 tw opaque_water water = true /\ welds Q2 tw SOLID water = false.
Proof. intros tw. repeat split. Qed.
Print Assumptions C159_groups_refuted.
(** Liquids and solid in Quake: only if water is opaque. *)
Theorem C159_water : forall tw c, In c (WATER :: SLIME :: LAVA :: nil) -> welds Q1 tw SOLID c = negb tw /\ welds Q1 tw SKY c = negb tw /\ welds Q1 tw (N.lor SOLID DETAIL) c = negb tw /\ welds Q1 tw WATER c = true.
Proof. intros tw c I. cbn [In] in I. destruct tw; repeat (destruct I as [<-|I]; [repeat split; vm_compute; reflexivity|]); destruct I. Qed.
Print Assumptions C159_water.

Example C159_nontrivial :
  welds Q1 true SOLID (N.lor SOLID DETAIL) = true /\ welds Q1 true SOLID (N.lor DETAIL_WALL DETAIL) = false /\ welds Q1 true SOLID WATER = false /\ welds Q1 false SOLID WATER = true /\
  welds Q1 true (N.lor WINDOW DETAIL) WATER = true /\ welds Q1 true 0 WATER = false /\ welds Q1 true (N.lor DETAIL_WALL DETAIL) (set_mirrored (N.lor DETAIL_WALL DETAIL) (Some true)) = false.
Proof. repeat split; vm_compute; reflexivity. Qed.
