(* Exact values and outcomes that the more general statements leave open, continued. *)
From Coq Require Import List Arith NArith ZArith Bool Lia.
Import ListNotations.
From Verif Require Import Base Codec LeafBitsModel VisStateModel VisLumpModel.
From Verif Require SettingsModel ContentsModel ContentsProofs FaceEmitModel NumCastModel TexFlagsModel.

(** ** C05: the header of a state file *)

(** The little-endian word at offset [o]. *)
Definition word_le (f : list N) (o : nat) : N :=
  (nth o f 0 + 256 * nth (o + 1) f 0 + 65536 * nth (o + 2) f 0 + 16777216 * nth (o + 3) f 0)%N.

(** A state file written by another version, or for another number of portals or leafs, is refused; one
    that ends inside the header is never used. *)
Theorem C05_header : forall n numportals k f,
  (length f < 20 -> load_state n numportals k f = L_short) /\
  (20 <= length f ->
     word_le f 0 <> 1415139889%N \/ word_le f 4 <> numportals \/ word_le f 8 <> N.of_nat n ->
     load_state n numportals k f = L_error).
Proof.
  intros n numportals k f. split.
  - intro L. unfold load_state.
    do 20 (destruct f as [|? f]; [reflexivity|]). cbn [length] in L. lia.
  - intros L H. do 20 (destruct f as [|? f]; [cbn [length] in L; lia|]). clear L.
    unfold load_state, get_header5, get_pair. cbn [get_le]. unfold word_le in H. cbn [nth Nat.add] in H.
    unfold VIS_STATE_VERSION.
    match goal with |- context [(?x =? 1415139889)%N] => destruct (N.eqb_spec x 1415139889) as [A|A] end; cbn [negb]; [|reflexivity].
    match goal with |- context [(?x =? numportals)%N] => destruct (N.eqb_spec x numportals) as [B|B] end; cbn [negb orb]; [|reflexivity].
    match goal with |- context [(?x =? N.of_nat n)%N] => destruct (N.eqb_spec x (N.of_nat n)) as [D|D] end; cbn [negb orb]; [|reflexivity].
    exfalso. lia.
Qed.
Print Assumptions C05_header.

Example C05_header_nontrivial :
  load_state 8 0 0 (put_le 4 1415139889 ++ put_le 4 0 ++ put_le 4 8 ++ put_le 4 4 ++ put_le 4 77) = L_ok (77%N, []) /\
  load_state 9 0 0 (put_le 4 1415139889 ++ put_le 4 0 ++ put_le 4 8 ++ put_le 4 4 ++ put_le 4 77) = L_error.
Proof. split; reflexivity. Qed.

(** ** C13: unfinished portals *)

(** No lump is written when a portal of a cluster is not done. *)
Theorem C13_unfinished : forall n cl portals order c ps v,
  In c order -> nth_error portals c = Some ps -> In (false, v) ps ->
  clusters_flow n cl portals (vlump_init n (length cl)) order = None.
Proof.
  intros n cl portals order c ps v I P F.
  assert (K : forall ps buf, In (false, v) ps -> collect buf ps = None).
  { induction ps0 as [|[s w] l IH]; intros buf J; [destruct J|]. cbn [collect].
    destruct s; [|reflexivity]. destruct J as [J|J]; [discriminate|]. apply IH. exact J. }
  generalize (vlump_init n (length cl)). induction order as [|d order IH]; intro s; [destruct I|].
  cbn [clusters_flow]. destruct (cluster_flow n cl portals s d) as [s'|] eqn:E; [|reflexivity].
  destruct I as [->|I]; [|apply IH; exact I]. unfold cluster_flow in E. rewrite P, (K ps _ F) in E. discriminate.
Qed.
Print Assumptions C13_unfinished.

Example C13_unfinished_nontrivial :
  build_vislump 1 [0] [[(false, lb_make 1)]] = None /\ build_vislump 1 [0] [[(true, lb_make 1)]] <> None.
Proof. split; [reflexivity|vm_compute; discriminate]. Qed.

(** ** C52: resetting and copying settings *)

Section Settings.
Import SettingsModel.

(** After a history of assignments, resets and copies, the value and the source are those of the
    strongest assignment since the last reset or copy: a reset makes the default assignable again from
    every source, a copy takes over the source of the original. *)
Theorem C52_history : forall T (s : setting T) pre o post,
  match o with OSet _ _ => False | _ => True end ->
  Forall (fun o => match o with OSet _ _ => True | _ => False end) post ->
  let base := match o with OReset => (s_def s, SDefault) | OCopy v src | OSet v src => (v, src) end in
  let s' := fold_left apply_op (pre ++ o :: post) s in
  s_def s' = s_def s /\
  ((s_val s', s_src s') = base \/ In (OSet (s_val s') (s_src s')) post) /\
  (rank (snd base) <= rank (s_src s'))%nat /\
  (forall v src, In (OSet v src) post -> (rank src <= rank (s_src s'))%nat).
Proof.
  intros T s pre o post HO HP base s'.
  assert (D : forall l x, s_def (fold_left apply_op l x) = s_def (T := T) x).
  { induction l as [|a l IH]; intro x; [reflexivity|]. cbn [fold_left]. rewrite IH.
    destruct a; cbn [apply_op]; [unfold set_val; destruct (src_ge src (s_src x)); reflexivity|reflexivity|reflexivity]. }
  split; [apply D|].
  unfold s'. rewrite fold_left_app. cbn [fold_left].
  assert (B : let x := apply_op (fold_left apply_op pre s) o in (s_val x, s_src x) = base).
  { cbn zeta. destruct o; [destruct HO| |reflexivity]. cbn [apply_op s_val s_src]. rewrite D. reflexivity. }
  cbn zeta in B. revert B. generalize (apply_op (fold_left apply_op pre s) o). generalize base. clear - HP.
  induction HP as [|a l A F IH]; intros b x B.
  - cbn [fold_left]. split; [left; exact B|]. split; [rewrite <- B; cbn [snd]; lia|]. intros v src [].
  - cbn [fold_left]. destruct a as [v src| |]; try contradiction. cbn [apply_op]. unfold set_val.
    destruct (src_ge src (s_src x)) eqn:E; unfold src_ge in E.
    + apply Nat.leb_le in E. destruct (IH (v, src) (mkS v src (s_def x)) eq_refl) as (H1 & H2 & H3).
      cbn [snd] in H2. split.
      * right. destruct H1 as [H1|H1]; [left; injection H1 as H1a H1b; rewrite H1a, H1b; reflexivity|right; exact H1].
      * split; [rewrite <- B; cbn [snd]; lia|]. intros w sr [H|H]; [injection H as <- <-; exact H2|eapply H3; exact H].
    + apply Nat.leb_gt in E. destruct (IH b x B) as (H1 & H2 & H3). split; [destruct H1; [left|right; right]; assumption|].
      split; [exact H2|]. intros w sr [H|H]; [|eapply H3; exact H]. injection H as <- <-. rewrite <- B in H2. cbn [snd] in H2. lia.
Qed.
Print Assumptions C52_history.

Example C52_history_nontrivial :
  fold_left apply_op [OSet 7%Z SCmd; OReset; OSet 5%Z SMap; OSet 3%Z SGame] (mkS 1%Z SDefault 1%Z) = mkS 5%Z SMap 1%Z /\
  fold_left apply_op [OSet 7%Z SCmd; OReset] (mkS 1%Z SDefault 1%Z) = mkS 1%Z SDefault 1%Z.
Proof. split; reflexivity. Qed.
End Settings.

(** ** C71: which sides of a brush get a face *)

Section Faces.
Import ContentsModel ContentsProofs.
Local Open Scope N_scope.

(** The outward side of a brush gets a face when the brush has the strongest change of contents; the
    inward side in addition needs _mirrorinside 1 or, without that key, liquid contents in Quake and
    contents other than window and aux in Quake II. *)
Theorem C71_faces : forall g vis brush back,
  generates_face g vis brush back = true <->
  exists k, k <= 8 /\ N.testbit vis k = true /\ (forall j, j < k -> N.testbit vis j = false) /\ N.testbit brush k = true /\
    (back = true ->
       (N.testbit brush 16 = true -> N.testbit brush 15 = true) /\
       (N.testbit brush 16 = false ->
          match g with
          | Q1 => N.testbit brush 5 = true \/ N.testbit brush 6 = true \/ N.testbit brush 7 = true
          | Q2 => N.testbit vis 3 = false /\ N.testbit vis 4 = false
          end)).
Proof.
  intros g vis brush back. unfold generates_face.
  assert (F : forall k, visible_index vis = Some k <-> k <= 8 /\ N.testbit vis k = true /\ (forall j, j < k -> N.testbit vis j = false)).
  { intro k. unfold visible_index. split.
    - intro V. cbn [find] in V.
      repeat match type of V with
      | (if ?t then Some ?n else _) = Some _ => destruct t eqn:?; [injection V as <-; split; [lia|split; [assumption|intros i I;
          assert (C : i = 0 \/ i = 1 \/ i = 2 \/ i = 3 \/ i = 4 \/ i = 5 \/ i = 6 \/ i = 7) by lia;
          repeat (destruct C as [->|C]; [try assumption; exfalso; lia|]); subst i; try assumption; exfalso; lia]]|]
      end. discriminate V.
    - intros (K & T & L). assert (C : k = 0 \/ k = 1 \/ k = 2 \/ k = 3 \/ k = 4 \/ k = 5 \/ k = 6 \/ k = 7 \/ k = 8) by lia.
      cbn [find]. repeat (destruct C as [->|C]; [rewrite T, ?L by lia; reflexivity|]). subst k. rewrite T, ?L by lia. reflexivity. }
  split.
  - destruct (visible_index vis) as [k|] eqn:V; [|discriminate]. pose proof (proj1 (F k) eq_refl) as V'. clear F. destruct V' as (K & T & L).
    intro H. exists k. split; [exact K|]. split; [exact T|]. split; [exact L|].
    destruct (N.testbit brush k); cbn [negb] in H; [|discriminate]. split; [reflexivity|]. intros ->.
    rewrite tst_MIRROR_SET, tst_MIRROR, tst_LIQUIDS, tst_lor, tst_WINDOW, tst_AUX in H. cbn [existsb] in H.
    destruct (N.testbit brush 16); [split; [auto|discriminate]|]. split; [discriminate|]. intros _. destruct g.
    + rewrite !orb_true_iff in H. intuition discriminate.
    + destruct (N.testbit vis 3), (N.testbit vis 4); try discriminate H. split; reflexivity.
  - intros (k & K & T & L & B & H). rewrite (proj2 (F k)) by tauto. rewrite B. cbn [negb]. destruct back; [|reflexivity].
    destruct (H eq_refl) as (H1 & H2). rewrite tst_MIRROR_SET, tst_MIRROR, tst_LIQUIDS, tst_lor, tst_WINDOW, tst_AUX. cbn [existsb].
    destruct (N.testbit brush 16); [apply H1; reflexivity|]. specialize (H2 eq_refl). destruct g.
    + rewrite !orb_true_iff. tauto.
    + destruct H2 as (-> & ->). reflexivity.
Qed.
Print Assumptions C71_faces.

Example C71_faces_nontrivial :
  generates_face Q1 WATER (N.lor WATER (N.lor MIRROR_INSIDE_SET MIRROR_INSIDE)) true = true /\
  generates_face Q1 WINDOW (N.lor WINDOW (N.lor MIRROR_INSIDE_SET MIRROR_INSIDE)) true = true /\
  generates_face Q1 WATER (N.lor WATER MIRROR_INSIDE_SET) true = false.
Proof. vm_compute. repeat split; reflexivity. Qed.
End Faces.

(** ** C77: which texinfos are not written *)

Section Skipped.
Import TexFlagsModel FaceEmitModel NumCastModel.

(** A texinfo that was not written before is left out - its faces are dropped, it is given the number -1
    and nothing changes - exactly when it is marked nodraw, -includeskip was not given, and in Quake II
    it does not emit light.  In every other case it gets a number or the program stops. *)
Theorem C77_skipped : forall o st n s, at_z (t_src st) n = Some s -> ts_out s = None ->
  (o_includeskip o = false /\ sf_nodraw (ts_flags s) = true /\ (o_q2 o = true -> Z.odd (sf_native (ts_flags s)) = false) ->
     export_tex o st n = Some (ROk ((-1)%Z, st))) /\
  (~ (o_includeskip o = false /\ sf_nodraw (ts_flags s) = true /\ (o_q2 o = true -> Z.odd (sf_native (ts_flags s)) = false)) ->
     forall v st', export_tex o st n = Some (ROk (v, st')) -> v = Z.of_nat (length (t_dst st))).
Proof.
  intros o st n s A O. unfold export_tex. cbn [export_texinfo]. rewrite A, O.
  unfold tex_skipped, surf_light. rewrite Z.bit0_odd. split.
  - intros (-> & -> & H). cbn [negb andb]. destruct (o_q2 o); cbn [negb orb]; [|reflexivity]. rewrite (H eq_refl). reflexivity.
  - intros H v st'.
    assert (K : negb (o_includeskip o) && sf_nodraw (ts_flags s) && (negb (o_q2 o) || negb (Z.odd (sf_native (ts_flags s)))) = false).
    { destruct (o_includeskip o), (sf_nodraw (ts_flags s)), (o_q2 o), (Z.odd (sf_native (ts_flags s))); try reflexivity;
        exfalso; apply H; repeat split; congruence. }
    rewrite K. destruct (o_valid o (ts_flags s)); cbn [negb]; [|discriminate].
    destruct (at_z (o_miptex o) (ts_miptex s)) as [[name value]|]; [|discriminate].
    destruct (ts_next s) as [m|]; [|intro E; inversion E; reflexivity].
    match goal with |- context [match ?x with _ => _ end] => destruct x as [[[r st2]| |]|] end; try discriminate.
    destruct (nth_error (t_dst st2) (length (t_dst st))); intro E; inversion E; reflexivity.
Qed.
Print Assumptions C77_skipped.

Example C77_skipped_nontrivial :
  let s := mkTS0 0 0 (mkSF 0 true false false false false false false false false false
       None None None None None f_zero f_zero 0 None [0;0;0]%Z None None f_zero f_one 0 None None) 0 None None in
  let o b := mkTO b false (fun _ => true) [([], 0%Z)] in
  export_tex (o false) (mkTSt [s] []) 0 = Some (ROk ((-1)%Z, mkTSt [s] [])) /\
  match export_tex (o true) (mkTSt [s] []) 0 with Some (ROk (v, st)) => v = 0%Z /\ length (t_dst st) = 1 | _ => False end.
Proof. vm_compute. repeat split; reflexivity. Qed.
End Skipped.
