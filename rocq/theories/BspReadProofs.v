(* Reading from memory streams: what was written is read back. *)
From Coq Require Import List Arith NArith ZArith Bool Lia.
Import ListNotations.
From Verif Require Import Base Codec NumCastModel NumCastProofs BspRecModel BspRecProofs BspFileModel.
Local Open Scope Z_scope.

Lemma size_app : forall a b, size (a ++ b) = size a + size b.
Proof. intros. unfold size. rewrite app_length. lia. Qed.
Lemma size_nonneg : forall a, 0 <= size a.
Proof. intros. unfold size. lia. Qed.

Lemma slice_app : forall a b c, slice (a ++ b ++ c) (size a) (size b) = b.
Proof.
  intros. unfold slice, size. rewrite !Nat2Z.id, skipn_len_app by reflexivity.
  apply firstn_len_app. reflexivity.
Qed.

(** ** One read *)

Lemma mread_ok : forall f a b c, f = a ++ b ++ c -> b ++ c <> [] ->
  mread f (size b) (mkM (size a) true) = ROk (Some b, mkM (size a + size b) true).
Proof.
  intros f a b c -> N. unfold mread, xsgetn. cbn [m_ok m_pos negb].
  assert (S : size (a ++ b ++ c) = size a + size b + size c) by (rewrite !size_app; lia).
  assert (P : 0 < size b + size c).
  { rewrite <- size_app. unfold size. destruct (b ++ c); [congruence|cbn [length]; lia]. }
  pose proof (size_nonneg a). pose proof (size_nonneg b). pose proof (size_nonneg c).
  replace (size a =? size (a ++ b ++ c)) with false by (symmetry; apply Z.eqb_neq; lia).
  replace ((size a <? 0) || (size (a ++ b ++ c) <? size a + size b)) with false
    by (symmetry; apply orb_false_iff; split; apply Z.ltb_ge; lia).
  rewrite andb_false_r. cbn [rbind]. rewrite slice_app.
  replace (Z.min (size (a ++ b ++ c) - size a) (size b)) with (size b) by lia.
  rewrite Z.eqb_refl. reflexivity.
Qed.

(** ** Fields and records *)

Lemma it_bytes_pos : forall t, In t all_ity -> (1 <= it_bytes t)%nat.
Proof. intros t H. simpl in H. repeat (destruct H as [<-|H]; [vm_compute; lia|]). contradiction. Qed.

Lemma mfields_ok : forall l f a c, f = a ++ put_fields l ++ c -> Forall tv_ok l ->
  mfields f (map fst l) (mkM (size a) true)
  = ROk (Some (map snd l), mkM (size a + size (put_fields l)) true).
Proof.
  induction l as [|[t v] l IH]; intros f a c E H.
  - cbn [map mfields put_fields put_list]. unfold size at 3. cbn [length]. rewrite Z.add_0_r. reflexivity.
  - inversion H as [|x y [T V] Hl]; subst x y. cbn [fst snd] in T, V.
    assert (E1 : put_fields ((t, v) :: l) = put_field (t, v) ++ put_fields l) by reflexivity.
    rewrite E1 in E |- *. rewrite <- app_assoc in E.
    pose proof (it_bytes_pos t T) as B. pose proof (put_field_length (t, v)) as L. cbn [fst] in L.
    cbn [map fst snd mfields].
    replace (Z.of_nat (it_bytes t)) with (size (put_field (t, v))) by (unfold size; rewrite L; reflexivity).
    rewrite (mread_ok f a (put_field (t, v)) (put_fields l ++ c) E)
      by (destruct (put_field (t, v)); [cbn in L; lia|discriminate]).
    cbn [rbind fst snd].
    rewrite <- (app_nil_r (put_field (t, v))) at 1. rewrite field_ok by assumption.
    rewrite <- size_app.
    rewrite (IH f (a ++ put_field (t, v)) c) by (try assumption; rewrite E, <- app_assoc; reflexivity).
    cbn [rbind fst snd]. rewrite !size_app, Z.add_assoc. reflexivity.
Qed.

Lemma mrec_ok : forall A (c : rcodec A) wf x f a r, rc_good c wf -> wf x = true ->
  f = a ++ rc_put c x ++ r ->
  mrec f c (mkM (size a) true) = ROk (Some x, mkM (size a + size (rc_put c x)) true).
Proof.
  intros A c wf x f a r G W E. destruct (G x W) as (G1 & G2 & G3).
  unfold mrec. rewrite <- G2. rewrite (mfields_ok (rc_write c x) f a r E) by assumption.
  cbn [rbind fst snd]. rewrite G3. reflexivity.
Qed.

Lemma mrecs_ok : forall A (c : rcodec A) wf l f a r, rc_good c wf -> Forall (fun x => wf x = true) l ->
  f = a ++ put_list (rc_put c) l ++ r ->
  mrecs f c (length l) (mkM (size a) true) = ROk (Some l, mkM (size a + size (put_list (rc_put c) l)) true).
Proof.
  intros A c wf l. induction l as [|x l IH]; intros f a r G W E.
  - cbn [length mrecs put_list]. unfold size at 3. cbn [length]. rewrite Z.add_0_r. reflexivity.
  - inversion W; subst. cbn [length mrecs put_list]. cbn [put_list] in *.
    set (f := a ++ (rc_put c x ++ put_list (rc_put c) l) ++ r) in *.
    rewrite (mrec_ok A c wf x f a (put_list (rc_put c) l ++ r)) by (try assumption; unfold f; rewrite <- !app_assoc; reflexivity).
    cbn [rbind fst snd]. rewrite <- size_app.
    rewrite (IH f (a ++ rc_put c x) r) by (try assumption; unfold f; rewrite <- !app_assoc; reflexivity).
    cbn [rbind fst snd]. rewrite !size_app, Z.add_assoc. reflexivity.
Qed.

(** ** Lumps *)

(** The bytes [b] of a lump lie in the file at the place the directory entry tells. *)
Definition lies (f : list N) (lu : lump) (b : list N) : Prop :=
  exists a c, f = a ++ b ++ c /\ lu = mkLump (size a) (size b).

Lemma mseek_ok : forall a p, mseek (size a) (mkM p true) = mkM (size a) true.
Proof.
  intros. unfold mseek. cbn [m_ok negb].
  replace (size a =? -1) with false by (symmetry; apply Z.eqb_neq; pose proof (size_nonneg a); lia). reflexivity.
Qed.

Lemma put_recs_size : forall A (c : rcodec A) wf l, rc_good c wf -> Forall (fun x => wf x = true) l ->
  size (put_list (rc_put c) l) = Z.of_nat (rc_size c) * Z.of_nat (length l).
Proof.
  intros A c wf l G W. unfold size. rewrite (put_list_length A (rc_put c) (rc_size c)).
  - lia.
  - intros x I. apply (rc_good_size A c wf); [assumption|]. rewrite Forall_forall in W. auto.
Qed.

Lemma read_records_ok : forall A (c : rcodec A) wf l f spec lu, rc_good c wf -> Forall (fun x => wf x = true) l ->
  c_sizeof (rc_types c) = rc_size c -> spec = Z.of_nat (rc_size c) -> 0 < spec ->
  lies f lu (put_list (rc_put c) l) -> read_records f spec c lu = ROk l.
Proof.
  intros A c wf l f spec lu G W S1 S2 P (a & r & E & ->). unfold read_records.
  cbn [lu_len lu_ofs]. rewrite S1, <- S2, Z.eqb_refl. cbn [negb].
  pose proof (put_recs_size A c wf l G W) as L. rewrite <- S2 in L.
  replace (size (put_list (rc_put c) l) <? 0) with false by (symmetry; apply Z.ltb_ge; apply size_nonneg).
  rewrite L. rewrite (Z.mul_comm spec), Z.mod_mul, Z.div_mul by lia. cbn [Z.eqb negb].
  destruct (Z.of_nat (length l) * spec =? 0) eqn:Q.
  - apply Z.eqb_eq in Q. assert (length l = 0%nat) by nia. destruct l; [reflexivity|discriminate].
  - rewrite Nat2Z.id, mseek_ok, (mrecs_ok A c wf l f a r) by assumption. reflexivity.
Qed.

Lemma read_raw_ok : forall f lu b, lies f lu b -> read_raw f lu = ROk b.
Proof.
  intros f lu b (a & c & E & ->). unfold read_raw. cbn [lu_len lu_ofs].
  replace (size b <? 0) with false by (symmetry; apply Z.ltb_ge; apply size_nonneg).
  destruct (size b =? 0) eqn:Q.
  - apply Z.eqb_eq in Q. destruct b; [reflexivity|unfold size in Q; cbn in Q; lia].
  - rewrite mseek_ok, (mread_ok f a b c E); [reflexivity|].
    apply Z.eqb_neq in Q. destruct b; [unfold size in Q; cbn in Q; lia|discriminate].
Qed.

Lemma chop_nul_ok : forall s, chop_nul (s ++ [0%N]) = s.
Proof. intros. unfold chop_nul. rewrite rev_app_distr. cbn [rev app]. apply rev_involutive. Qed.

Lemma read_string_ok : forall f lu b, lies f lu (b ++ [0%N]) -> read_string f lu = ROk b.
Proof.
  intros f lu b H. unfold read_string. rewrite (read_raw_ok _ _ _ H). cbn [rbind]. rewrite chop_nul_ok. reflexivity.
Qed.

(** ** Visibility *)

Definition vis_wf (v : mvis) : Prop :=
  Forall (fun e => edge_wf i32 e = true) (mv_ofs v) /\ Z.of_nat (length (mv_ofs v)) <= it_hi i32.

Lemma wrap_in : forall t v, In t all_ity -> it_in t v = true -> it_wrap t v = v.
Proof.
  intros t v T I. unfold it_in in I. apply andb_true_iff in I. destruct I as [I1 I2].
  apply Z.leb_le in I1. apply Z.leb_le in I2.
  destruct (it_half t T) as [H1 H2]. unfold it_wrap, it_lo, it_hi in *.
  set (M := 2 ^ it_bits t) in *. set (h := 2 ^ (it_bits t - 1)) in *. clearbody M h.
  destruct (it_signed t); cbn [andb].
  - destruct (Z_lt_ge_dec v 0).
    + assert (E : v mod M = v + M) by (symmetry; apply (Z.mod_unique v M (-1)); lia).
      rewrite E. replace (h - 1 <? v + M) with true by (symmetry; apply Z.ltb_lt; lia). lia.
    + rewrite Z.mod_small by lia. replace (h - 1 <? v) with false by (symmetry; apply Z.ltb_ge; lia). reflexivity.
  - apply Z.mod_small. lia.
Qed.

Lemma i32_all : In i32 all_ity. Proof. simpl. auto 10. Qed.
Lemma in_i32 : forall v, -2147483648 <= v <= 2147483647 -> it_in i32 v = true.
Proof. intros. unfold it_in, it_lo, it_hi. cbn. lia. Qed.
Lemma wrap_i32 : forall v, -2147483648 <= v <= 2147483647 -> it_wrap i32 v = v.
Proof. intros. apply wrap_in; [apply i32_all|apply in_i32; assumption]. Qed.

(** A visibility lump is read back; [c] is what follows it in the file. *)
Lemma read_vis_ok : forall v f a c, vis_wf v -> f = a ++ vis_write v ++ c -> c <> [] ->
  read_vis f (mkLump (size a) (size (vis_write v))) = ROk (match mv_ofs v with [] => mkVis [] [] | _ => v end).
Proof.
  intros [ofs bits] f a c [W L] E N. unfold read_vis. cbn [lu_len lu_ofs mv_ofs] in *.
  destruct ofs as [|e ofs].
  - reflexivity.
  - unfold vis_write in *. cbn [mv_ofs mv_bits] in *. set (o := e :: ofs) in *.
    set (h := put_fields [(i32, it_wrap i32 (Z.of_nat (length o)))]) in *.
    assert (HL : size h = 4) by reflexivity.
    assert (Hi : it_wrap i32 (Z.of_nat (length o)) = Z.of_nat (length o)).
    { apply wrap_i32. change (it_hi i32) with 2147483647 in L. lia. }
    set (os := put_list (rc_put (edge_codec i32)) o) in *.
    replace (size (h ++ os ++ bits) =? 0) with false
      by (symmetry; apply Z.eqb_neq; rewrite !size_app; pose proof (size_nonneg os); pose proof (size_nonneg bits); lia).
    rewrite mseek_ok. unfold vis_read. cbn [lu_len lu_ofs].
    change [i32] with (map fst [(i32, it_wrap i32 (Z.of_nat (length o)))]).
    rewrite (mfields_ok _ f a (os ++ bits ++ c)).
    2:{ rewrite E. fold h. rewrite <- !app_assoc. reflexivity. }
    2:{ constructor; [|constructor]. split; [apply i32_all|]. cbn [fst snd]. rewrite Hi. apply in_i32.
        change (it_hi i32) with 2147483647 in L. lia. }
    cbn [rbind fst snd map nth]. fold h. rewrite Hi.
    replace (Z.of_nat (length o) <? 0) with false by (symmetry; apply Z.ltb_ge; lia).
    rewrite Nat2Z.id, <- size_app.
    rewrite (mrecs_ok _ (edge_codec i32) (edge_wf i32) o f (a ++ h) (bits ++ c)).
    2:{ apply edge_good. apply i32_all. }
    2:{ assumption. }
    2:{ rewrite E. unfold os. rewrite <- !app_assoc. reflexivity. }
    cbn [rbind fst snd m_pos]. fold os.
    replace (size (h ++ os ++ bits) - (size (a ++ h) + size os - size a)) with (size bits)
      by (rewrite !size_app; lia).
    replace (size bits <? 0) with false by (symmetry; apply Z.ltb_ge; apply size_nonneg).
    rewrite <- size_app.
    rewrite (mread_ok f ((a ++ h) ++ os) bits c).
    2:{ rewrite E, <- !app_assoc. reflexivity. }
    2:{ destruct bits; [assumption|discriminate]. }
    reflexivity.
Qed.
