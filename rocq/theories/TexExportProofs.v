(* Export of planes and texinfos: lemmas. *)
From Coq Require Import List Arith NArith ZArith Bool Lia.
From Verif Require Import NumCastModel ParserModel TexFlagsModel TexFlagsProofs FaceEmitModel.
Import ListNotations.

Lemma nth_error_upd : forall A (l : list A) i a j,
  nth_error (upd l i a) j = if Nat.eqb i j && Nat.ltb i (length l) then Some a else nth_error l j.
Proof.
  induction l as [|x l IH]; intros i a j; cbn [upd].
  - replace (Nat.ltb i (length (@nil A))) with false by (symmetry; apply Nat.ltb_ge; cbn; lia). rewrite andb_false_r. destruct i; reflexivity.
  - destruct i as [|i]; destruct j as [|j]; cbn [nth_error]; try reflexivity. rewrite IH. reflexivity.
Qed.
Lemma nth_error_upd_same : forall A (l : list A) i a, i < length l -> nth_error (upd l i a) i = Some a.
Proof. intros. rewrite nth_error_upd, Nat.eqb_refl. rewrite (proj2 (Nat.ltb_lt _ _)) by assumption. reflexivity. Qed.
Lemma nth_error_upd_other : forall A (l : list A) i a j, i <> j -> nth_error (upd l i a) j = nth_error l j.
Proof. intros A l i a j H. rewrite nth_error_upd. rewrite (proj2 (Nat.eqb_neq _ _) H). reflexivity. Qed.

(** ** Planes *)

(** Every plane with an output number has its copy there; the numbers are different. *)
Definition pinv {P} (st : pstate P) : Prop :=
  (forall n p o, nth_error (ps_src st) n = Some (p, Some o) -> nth_error (ps_out st) o = Some p) /\
  (forall n1 n2 p1 p2 o, nth_error (ps_src st) n1 = Some (p1, Some o) -> nth_error (ps_src st) n2 = Some (p2, Some o) -> n1 = n2).
(** [st1] comes after [st]. *)
Definition pgrows {P} (st st1 : pstate P) : Prop :=
  (exists l, ps_out st1 = ps_out st ++ l) /\
  (forall n, option_map fst (nth_error (ps_src st1) n) = option_map fst (nth_error (ps_src st) n)) /\
  (forall n p o, nth_error (ps_src st) n = Some (p, Some o) -> nth_error (ps_src st1) n = Some (p, Some o)).

Lemma pgrows_refl : forall P (st : pstate P), pgrows st st.
Proof. intros. split; [exists []; rewrite app_nil_r; reflexivity|]. split; [reflexivity|intros n p o H; exact H]. Qed.
Lemma pgrows_trans : forall P (a b c : pstate P), pgrows a b -> pgrows b c -> pgrows a c.
Proof.
  intros P a b c [[l1 A1] [A2 A3]] [[l2 B1] [B2 B3]]. split; [exists (l1 ++ l2); rewrite B1, A1, app_assoc; reflexivity|].
  split; [intro n; rewrite B2; apply A2|]. intros n p o H. apply B3, A3. exact H.
Qed.

Lemma export_plane_spec : forall P (st : pstate P) n o st1, pinv st -> export_plane st n = ROk (o, st1) ->
  pinv st1 /\ pgrows st st1 /\ exists p, nth_error (ps_src st1) n = Some (p, Some o) /\ nth_error (ps_out st1) o = Some p.
Proof.
  intros P st n o st1 [I1 I2] H. unfold export_plane in H. destruct (nth_error (ps_src st) n) as [[p [k|]]|] eqn:E; try discriminate.
  - inversion H; subst. split; [split; assumption|]. split; [apply pgrows_refl|]. exists p. split; [exact E|exact (I1 _ _ _ E)].
  - inversion H; subst. clear H.
    assert (L : n < length (ps_src st)) by (apply nth_error_Some; rewrite E; discriminate).
    assert (OL : forall m q k, nth_error (ps_src st) m = Some (q, Some k) -> k < length (ps_out st)).
    { intros m q k X. apply nth_error_Some. rewrite (I1 _ _ _ X). discriminate. }
    assert (NEW : nth_error (ps_out st ++ [p]) (length (ps_out st)) = Some p).
    { rewrite nth_error_app2 by lia. rewrite Nat.sub_diag. reflexivity. }
    assert (SRC : forall m, nth_error (upd (ps_src st) n (p, Some (length (ps_out st)))) m =
                   if Nat.eqb n m then Some (p, Some (length (ps_out st))) else nth_error (ps_src st) m).
    { intro m. rewrite nth_error_upd. rewrite (proj2 (Nat.ltb_lt _ _) L), andb_true_r. reflexivity. }
    split; [split|split].
    + cbn [ps_src ps_out]. intros m q k X. rewrite SRC in X. destruct (Nat.eqb n m).
      * inversion X; subst. exact NEW.
      * rewrite nth_error_app1 by (exact (OL _ _ _ X)). exact (I1 _ _ _ X).
    + cbn [ps_src ps_out]. intros a b q1 q2 k X1 X2. rewrite SRC in X1, X2.
      destruct (Nat.eqb n a) eqn:Ea, (Nat.eqb n b) eqn:Eb.
      * apply Nat.eqb_eq in Ea, Eb. lia.
      * inversion X1; subst. apply OL in X2. lia.
      * inversion X2; subst. apply OL in X1. lia.
      * exact (I2 _ _ _ _ _ X1 X2).
    + unfold pgrows. cbn [ps_src ps_out]. split; [exists [p]; reflexivity|]. split.
      * intro m. rewrite SRC. destruct (Nat.eqb n m) eqn:Em; [|reflexivity]. apply Nat.eqb_eq in Em. subst. rewrite E. reflexivity.
      * intros m q k X. rewrite SRC. destruct (Nat.eqb n m) eqn:Em; [|exact X]. apply Nat.eqb_eq in Em. subst. congruence.
    + exists p. cbn [ps_src ps_out]. rewrite SRC, Nat.eqb_refl. split; [reflexivity|exact NEW].
Qed.

(** ** Texinfos *)

Section Tex.
Variable o : topts.

(** [d] is what the BSP should say about [s], the link to the next frame aside. *)
Definition describes (s : tsrc) (d : tdst) : Prop :=
  td_vecs d = ts_vecs s /\ td_flags d = ts_flags s /\ td_miptex d = ts_miptex s /\
  exists name, at_z (o_miptex o) (ts_miptex s) = Some (name, td_value d) /\ td_texture d = texture_field name.

(** The link of a record: none, or a texinfo that is not written, gives -1. *)
Definition link_ok (src : list tsrc) (s : tsrc) (r : Z) : Prop :=
  match ts_next s with
  | None => r = (-1)%Z
  | Some m => exists s', at_z src m = Some s' /\
               match ts_out s' with Some j => r = Z.of_nat j | None => tex_skipped o s' = true /\ r = (-1)%Z end
  end.

Definition tinv (st : tstate) (open : list nat) : Prop :=
  (forall n s i, nth_error (t_src st) n = Some s -> ts_out s = Some i -> tex_skipped o s = false /\ o_valid o (ts_flags s) = true /\
     exists d, nth_error (t_dst st) i = Some d /\ describes s d /\ (~ In i open -> link_ok (t_src st) s (td_next d))) /\
  (forall n1 n2 s1 s2 i, nth_error (t_src st) n1 = Some s1 -> nth_error (t_src st) n2 = Some s2 ->
     ts_out s1 = Some i -> ts_out s2 = Some i -> n1 = n2) /\
  (forall i, i < length (t_dst st) -> exists n s, nth_error (t_src st) n = Some s /\ ts_out s = Some i).

(** The same texinfo, possibly exported in the meantime. *)
Definition same_src (s s' : tsrc) : Prop :=
  ts_vecs s = ts_vecs s' /\ ts_miptex s = ts_miptex s' /\ ts_flags s = ts_flags s' /\ ts_value s = ts_value s' /\ ts_next s = ts_next s' /\
  (forall i, ts_out s = Some i -> ts_out s' = Some i).
Definition tgrows (st st1 : tstate) : Prop :=
  length (t_src st1) = length (t_src st) /\
  (forall n s, nth_error (t_src st) n = Some s -> exists s', nth_error (t_src st1) n = Some s' /\ same_src s s') /\
  (forall i, i < length (t_dst st) -> nth_error (t_dst st1) i = nth_error (t_dst st) i) /\
  length (t_dst st) <= length (t_dst st1).

Lemma same_src_refl : forall s, same_src s s.
Proof. intro s. repeat split; auto. Qed.
Lemma same_src_trans : forall a b c, same_src a b -> same_src b c -> same_src a c.
Proof.
  intros a b c [A1 [A2 [A3 [A4 [A5 A6]]]]] [B1 [B2 [B3 [B4 [B5 B6]]]]]. repeat split; try congruence. intros i H. apply B6, A6. exact H.
Qed.
Lemma tgrows_refl : forall st, tgrows st st.
Proof. intro st. split; [reflexivity|]. split; [intros n s H; exists s; split; [exact H|apply same_src_refl]|]. split; [reflexivity|lia]. Qed.
Lemma tgrows_trans : forall a b c, tgrows a b -> tgrows b c -> tgrows a c.
Proof.
  intros a b c [A1 [A2 [A3 A4]]] [B1 [B2 [B3 B4]]]. split; [lia|]. split.
  - intros n s H. destruct (A2 n s H) as [s1 [X1 X2]]. destruct (B2 n s1 X1) as [s2 [Y1 Y2]]. exists s2. split; [exact Y1|].
    exact (same_src_trans _ _ _ X2 Y2).
  - split; [|lia]. intros i H. rewrite (B3 i) by lia. apply A3. exact H.
Qed.

Lemma at_z_nth : forall A (l : list A) n a, at_z l n = Some a -> (0 <= n)%Z /\ nth_error l (Z.to_nat n) = Some a.
Proof. intros A l n a H. unfold at_z in H. destruct (n <? 0)%Z eqn:E; [discriminate|]. apply Z.ltb_ge in E. split; assumption. Qed.
Lemma nth_at_z : forall A (l : list A) n a, (0 <= n)%Z -> nth_error l (Z.to_nat n) = Some a -> at_z l n = Some a.
Proof. intros A l n a H E. unfold at_z. replace (n <? 0)%Z with false by (symmetry; apply Z.ltb_ge; exact H). exact E. Qed.

Lemma link_ok_grows : forall st st1 s r, tgrows st st1 -> link_ok (t_src st) s r ->
  (forall n x, nth_error (t_src st1) n = Some x -> ts_out x <> None -> tex_skipped o x = false) -> link_ok (t_src st1) s r.
Proof.
  intros st st1 s r [G1 [G2 _]] H S. unfold link_ok in *. destruct (ts_next s) as [m|]; [|exact H].
  destruct H as [s' [A B]]. apply at_z_nth in A. destruct A as [Z A]. destruct (G2 _ _ A) as [s2 [A2 [E1 [E2 [E3 [E4 [E5 E6]]]]]]].
  exists s2. split; [exact (nth_at_z _ _ _ _ Z A2)|]. destruct (ts_out s') as [j|] eqn:O.
  - rewrite (E6 j eq_refl). exact B.
  - destruct B as [B1 B2]. assert (SK : tex_skipped o s2 = true) by (unfold tex_skipped in *; rewrite <- E3; exact B1).
    destruct (ts_out s2) as [j|] eqn:O2.
    + exfalso. specialize (S _ _ A2). rewrite O2 in S. rewrite S in SK by discriminate. discriminate.
    + split; assumption.
Qed.

(** How many texinfos are still to be exported. *)
Fixpoint fresh (l : list tsrc) : nat :=
  match l with [] => 0 | s :: r => (match ts_out s with None => 1 | Some _ => 0 end) + fresh r end.
Lemma fresh_le : forall l, fresh l <= length l.
Proof. induction l as [|s l IH]; cbn [fresh length]; [lia|]. destruct (ts_out s); lia. Qed.
Lemma fresh_upd : forall l n s i, nth_error l n = Some s -> ts_out s = None -> fresh l = S (fresh (upd l n (set_out s i))).
Proof.
  induction l as [|x l IH]; intros [|n] s i H O; cbn [nth_error] in H; try discriminate.
  - inversion H; subst. cbn [upd fresh set_out ts_out]. rewrite O. reflexivity.
  - cbn [upd fresh]. rewrite (IH n s i H O). destruct (ts_out x); lia.
Qed.

Lemma export_spec : forall fuel st n open, tinv st open -> fresh (t_src st) < fuel ->
  exists r, export_texinfo fuel o st n = Some r /\
  (r = RThrow \/ exists v st1, r = ROk (v, st1) /\ tinv st1 open /\ tgrows st st1 /\
    exists s, at_z (t_src st1) n = Some s /\
      match ts_out s with Some i => v = Z.of_nat i | None => tex_skipped o s = true /\ v = (-1)%Z end).
Proof.
  induction fuel as [|fuel IH]; intros st n open I F; [lia|]. cbn [export_texinfo].
  destruct (at_z (t_src st) n) as [s|] eqn:A; [|exists RThrow; split; [reflexivity|left; reflexivity]].
  destruct (ts_out s) as [i|] eqn:O.
  { eexists. split; [reflexivity|]. right. exists (Z.of_nat i), st. split; [reflexivity|]. split; [exact I|]. split; [apply tgrows_refl|].
    exists s. split; [exact A|]. rewrite O. reflexivity. }
  destruct (tex_skipped o s) eqn:SK.
  { eexists. split; [reflexivity|]. right. exists (-1)%Z, st. split; [reflexivity|]. split; [exact I|]. split; [apply tgrows_refl|].
    exists s. split; [exact A|]. rewrite O. split; [exact SK|reflexivity]. }
  destruct (o_valid o (ts_flags s)) eqn:VA; cbn [negb]; [|eexists; split; [reflexivity|left; reflexivity]].
  destruct (at_z (o_miptex o) (ts_miptex s)) as [[name value]|] eqn:M; [|eexists; split; [reflexivity|left; reflexivity]].
  set (i := length (t_dst st)). set (s1 := set_out s i).
  set (st1 := mkTSt (upd (t_src st) (Z.to_nat n) s1) (t_dst st ++ [dest_of s name value])).
  apply at_z_nth in A. destruct A as [Zn A].
  assert (Ln : Z.to_nat n < length (t_src st)) by (apply nth_error_Some; rewrite A; discriminate).
  assert (SRC : forall m, nth_error (t_src st1) m = if Nat.eqb (Z.to_nat n) m then Some s1 else nth_error (t_src st) m).
  { intro m. unfold st1. cbn [t_src]. rewrite nth_error_upd, (proj2 (Nat.ltb_lt _ _) Ln), andb_true_r. reflexivity. }
  assert (NEW : nth_error (t_dst st1) i = Some (dest_of s name value)).
  { unfold st1, i. cbn [t_dst]. rewrite nth_error_app2 by lia. rewrite Nat.sub_diag. reflexivity. }
  assert (DL : length (t_dst st1) = S i) by (unfold st1; cbn [t_dst]; rewrite app_length; cbn [length]; unfold i; lia).
  assert (OLD : forall k, k < i -> nth_error (t_dst st1) k = nth_error (t_dst st) k) by (intros k Hk; unfold st1; cbn [t_dst]; apply nth_error_app1; exact Hk).
  destruct I as [I1 [I2 I3]].
  assert (OL : forall m q k, nth_error (t_src st) m = Some q -> ts_out q = Some k -> k < i).
  { intros m q k X Y. destruct (I1 _ _ _ X Y) as [_ [_ [d [D _]]]]. unfold i. apply nth_error_Some. rewrite D. discriminate. }
  assert (G1 : tgrows st st1).
  { split; [unfold st1; cbn [t_src]; apply upd_length|]. split.
    - intros m q X. rewrite SRC. destruct (Nat.eqb (Z.to_nat n) m) eqn:E.
      + apply Nat.eqb_eq in E. subst m. rewrite A in X. inversion X; subst q. exists s1. split; [reflexivity|].
        unfold s1, set_out, same_src. cbn. repeat split; auto. intros k Y. congruence.
      + exists q. split; [exact X|apply same_src_refl].
    - split; [exact OLD|lia]. }
  assert (SKS : forall m x, nth_error (t_src st1) m = Some x -> ts_out x <> None -> tex_skipped o x = false).
  { intros m x X Y. rewrite SRC in X. destruct (Nat.eqb (Z.to_nat n) m).
    - inversion X; subst x. unfold s1, tex_skipped, set_out. cbn. exact SK.
    - destruct (ts_out x) as [k|] eqn:E; [|congruence]. exact (proj1 (I1 _ _ _ X E)). }
  assert (INV1 : tinv st1 (i :: open)).
  { split; [|split].
    - intros m q k X Y. rewrite SRC in X. destruct (Nat.eqb (Z.to_nat n) m) eqn:E.
      + inversion X; subst q. unfold s1, set_out in Y. cbn in Y. inversion Y; subst k. split; [exact SK|]. split; [exact VA|].
        exists (dest_of s name value). split; [exact NEW|]. split.
        * unfold describes, dest_of, s1, set_out. cbn. repeat split. exists name. split; [exact M|reflexivity].
        * intro N. exfalso. apply N. left. reflexivity.
      + destruct (I1 _ _ _ X Y) as [S1 [S2 [d [D1 [D2 D3]]]]]. split; [exact S1|]. split; [exact S2|]. exists d.
        split; [rewrite OLD by (exact (OL _ _ _ X Y)); exact D1|]. split; [exact D2|].
        intro N. apply (link_ok_grows st); [exact G1| |exact SKS]. apply D3. intro X2. apply N. right. exact X2.
    - intros a b q1 q2 k X1 X2 Y1 Y2. rewrite SRC in X1, X2.
      destruct (Nat.eqb (Z.to_nat n) a) eqn:Ea, (Nat.eqb (Z.to_nat n) b) eqn:Eb.
      + apply Nat.eqb_eq in Ea, Eb. lia.
      + inversion X1; subst q1. unfold s1, set_out in Y1. cbn in Y1. inversion Y1; subst k. apply (OL _ _ _ X2) in Y2. lia.
      + inversion X2; subst q2. unfold s1, set_out in Y2. cbn in Y2. inversion Y2; subst k. apply (OL _ _ _ X1) in Y1. lia.
      + exact (I2 _ _ _ _ _ X1 X2 Y1 Y2).
    - intros k Hk. rewrite DL in Hk. destruct (Nat.eq_dec k i) as [->|NE].
      + exists (Z.to_nat n), s1. rewrite SRC, Nat.eqb_refl. split; reflexivity.
      + destruct (I3 k) as [m [q [X Y]]]; [unfold i in *; lia|]. exists m, q. rewrite SRC. destruct (Nat.eqb (Z.to_nat n) m) eqn:E; [|split; assumption].
        apply Nat.eqb_eq in E. subst m. rewrite A in X. inversion X; subst. congruence. }
  destruct (ts_next s) as [m|] eqn:NX.
  - destruct (IH st1 m (i :: open) INV1) as [r [R1 R2]].
    { unfold st1. cbn [t_src]. pose proof (fresh_upd (t_src st) (Z.to_nat n) s i A O) as FU. fold s1 in FU. lia. }
    fold i s1 st1. rewrite R1. destruct R2 as [->|[v [st2 [-> [J [G2 [s2 [B1 B2]]]]]]]].
    + eexists. split; [reflexivity|left; reflexivity].
    + pose proof G2 as [_ [G2s [G2d G2l]]].
      assert (Li : i < length (t_dst st1)) by lia.
      rewrite (G2d i Li), NEW.
      set (d1 := set_next (dest_of s name value) v). set (st3 := mkTSt (t_src st2) (upd (t_dst st2) i d1)).
      assert (L2 : i < length (t_dst st2)) by lia.
      assert (D3 : forall k, nth_error (t_dst st3) k = if Nat.eqb i k then Some d1 else nth_error (t_dst st2) k).
      { intro k. unfold st3. cbn [t_dst]. rewrite nth_error_upd, (proj2 (Nat.ltb_lt _ _) L2), andb_true_r. reflexivity. }
      assert (G3 : tgrows st st3).
      { pose proof (tgrows_trans _ _ _ G1 G2) as [X1 [X2 [X3 X4]]]. split; [exact X1|]. split; [exact X2|]. split.
        - intros k Hk. rewrite D3. replace (Nat.eqb i k) with false by (symmetry; apply Nat.eqb_neq; unfold i; lia). apply X3. exact Hk.
        - unfold st3. cbn [t_dst]. rewrite upd_length. exact X4. }
      destruct (G2s (Z.to_nat n) s1) as [sn [SN1 SN2]]; [rewrite SRC, Nat.eqb_refl; reflexivity|].
      assert (SNO : ts_out sn = Some i) by (apply SN2; reflexivity).
      destruct J as [J1 [J2 J3]].
      eexists. split; [reflexivity|]. right. exists (Z.of_nat i), st3. split; [reflexivity|]. split; [|split; [exact G3|]].
      * split; [|split].
        -- intros a q k X Y. unfold st3 in X. cbn [t_src] in X. destruct (J1 _ _ _ X Y) as [S1 [S2 [d [E1 [E2 E3]]]]].
           split; [exact S1|]. split; [exact S2|]. rewrite D3. destruct (Nat.eqb i k) eqn:E.
           ++ apply Nat.eqb_eq in E. subst k. exists d1. split; [reflexivity|].
              assert (a = Z.to_nat n) by (exact (J2 _ _ _ _ _ X SN1 Y SNO)). subst a. rewrite SN1 in X. inversion X; subst q.
              rewrite (G2d i Li), NEW in E1. inversion E1; subst d. split.
              ** unfold describes in *. unfold d1, set_next. cbn in *. exact E2.
              ** intros _. unfold link_ok. destruct SN2 as [_ [_ [_ [_ [SN5 _]]]]]. rewrite <- SN5. unfold s1, set_out. cbn [ts_next]. rewrite NX.
                 exists s2. split; [exact B1|]. unfold d1, set_next. cbn [td_next]. exact B2.
           ++ exists d. split; [exact E1|]. split; [exact E2|]. intro N. unfold st3. cbn [t_src]. apply E3.
              intros [->|H]; [rewrite Nat.eqb_refl in E; discriminate|exact (N H)].
        -- unfold st3. cbn [t_src]. exact J2.
        -- unfold st3. cbn [t_src t_dst]. rewrite upd_length. exact J3.
      * exists sn. split; [unfold st3; cbn [t_src]; exact (nth_at_z _ _ _ _ Zn SN1)|]. rewrite SNO. reflexivity.
  - fold i s1 st1. eexists. split; [reflexivity|]. right. exists (Z.of_nat i), st1. split; [reflexivity|]. split; [|split; [exact G1|]].
    + destruct INV1 as [J1 [J2 J3]]. split; [|split; [exact J2|exact J3]].
      intros a q k X Y. destruct (J1 _ _ _ X Y) as [S1 [S2 [d [E1 [E2 E3]]]]]. split; [exact S1|]. split; [exact S2|].
      exists d. split; [exact E1|]. split; [exact E2|]. intro N. destruct (Nat.eq_dec k i) as [->|NE].
      * rewrite NEW in E1. inversion E1; subst d. assert (a = Z.to_nat n).
        { apply (J2 _ _ q s1 i X); [rewrite SRC, Nat.eqb_refl; reflexivity|exact Y|reflexivity]. }
        subst a. rewrite SRC, Nat.eqb_refl in X. inversion X; subst q. unfold link_ok, s1, set_out. cbn. rewrite NX. reflexivity.
      * apply E3. intros [->|H]; [congruence|exact (N H)].
    + exists s1. split; [|reflexivity]. apply nth_at_z; [exact Zn|]. rewrite SRC, Nat.eqb_refl. reflexivity.
Qed.

Lemma export_tex_spec : forall st n, tinv st [] ->
  exists r, export_tex o st n = Some r /\
  (r = RThrow \/ exists v st1, r = ROk (v, st1) /\ tinv st1 [] /\ tgrows st st1 /\
    exists s, at_z (t_src st1) n = Some s /\
      match ts_out s with Some i => v = Z.of_nat i | None => tex_skipped o s = true /\ v = (-1)%Z end).
Proof. intros st n I. apply export_spec; [exact I|]. pose proof (fresh_le (t_src st)). lia. Qed.

(** The start: nothing exported. *)
Lemma tinv_init : forall src, Forall (fun s => ts_out s = None) src -> tinv (mkTSt src []) [].
Proof.
  intros src H. rewrite Forall_forall in H. split; [|split]; cbn [t_src t_dst].
  - intros n s i X Y. apply nth_error_In in X. rewrite (H s X) in Y. discriminate.
  - intros n1 n2 s1 s2 i X _ Y _. apply nth_error_In in X. rewrite (H s1 X) in Y. discriminate.
  - cbn. lia.
Qed.

(** Any number of calls. *)
Fixpoint export_many (st : tstate) (l : list Z) : option (res (list Z * tstate)) :=
  match l with
  | [] => Some (ROk ([], st))
  | n :: r =>
      match export_tex o st n with
      | Some (ROk (v, st1)) =>
          match export_many st1 r with
          | Some (ROk (vs, st2)) => Some (ROk (v :: vs, st2))
          | x => x
          end
      | Some RThrow => Some RThrow | Some RUB => Some RUB | None => None
      end
  end.

Lemma export_many_spec : forall l st, tinv st [] ->
  exists r, export_many st l = Some r /\
  (r = RThrow \/ exists vs st1, r = ROk (vs, st1) /\ tinv st1 [] /\ tgrows st st1 /\
    Forall2 (fun n v => exists s, at_z (t_src st1) n = Some s /\
      match ts_out s with Some i => v = Z.of_nat i | None => tex_skipped o s = true /\ v = (-1)%Z end) l vs).
Proof.
  induction l as [|n l IH]; intros st I.
  - eexists. split; [reflexivity|]. right. exists [], st. split; [reflexivity|]. split; [exact I|]. split; [apply tgrows_refl|constructor].
  - cbn [export_many]. destruct (export_tex_spec st n I) as [r [R [->|[v [st1 [-> [I1 [G1 [s [A B]]]]]]]]]]; rewrite R.
    + eexists. split; [reflexivity|left; reflexivity].
    + destruct (IH st1 I1) as [r [R' [->|[vs [st2 [-> [I2 [G2 F]]]]]]]]; rewrite R'.
      * eexists. split; [reflexivity|left; reflexivity].
      * eexists. split; [reflexivity|]. right. exists (v :: vs), st2. split; [reflexivity|]. split; [exact I2|]. split; [exact (tgrows_trans _ _ _ G1 G2)|].
        constructor; [|exact F]. apply at_z_nth in A. destruct A as [Z A]. destruct G2 as [_ [G2 _]].
        destruct (G2 _ _ A) as [s2 [A2 [E1 [E2 [E3 [E4 [E5 E6]]]]]]]. exists s2. split; [exact (nth_at_z _ _ _ _ Z A2)|].
        destruct (ts_out s) as [j|] eqn:O.
        -- rewrite (E6 j eq_refl). exact B.
        -- destruct B as [B1 B2]. destruct (ts_out s2) as [j|] eqn:O2.
           ++ destruct I2 as [I2 _]. destruct (I2 _ _ _ A2 O2) as [SK _]. unfold tex_skipped in *. rewrite E3 in B1. congruence.
           ++ split; [|exact B2]. unfold tex_skipped in *. rewrite <- E3. exact B1.
Qed.
End Tex.
