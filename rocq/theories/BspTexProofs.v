(* The texture lump: what was written is read back. *)
From Coq Require Import List Arith NArith ZArith Bool Lia.
Import ListNotations.
From Verif Require Import Base Codec NumCastModel NumCastProofs BspRecModel BspRecProofs BspFileModel BspReadProofs.
Local Open Scope Z_scope.

(** A texture that can be read back: it is missing, or it has no data, or its data begin with a
    header whose name is terminated. *)
Definition mip_head (d : list N) (i : mipinfo) : Prop :=
  exists m rest, dmiptex_wf m = true /\ d = rc_put dmiptex_codec m ++ rest /\ cstr (mi_name m) = Some (ip_name i) /\
    ip_w i = mi_w m /\ ip_h i = mi_h m /\ ip_ofs i = mi_ofs m.
Definition tex_ok (t : miptex) : Prop :=
  mx_null t = true \/ mx_data t = [] \/ exists i, mip_head (mx_data t) i.

(** [r] is the texture [t] read back; fewer than four zero bytes may follow its data. *)
Definition tex_same (t : miptex) (r : rmip) : Prop :=
  rm_null r = mx_null t /\
  (mx_null t = true -> rm_data r = [] /\ rm_info r = None) /\
  (mx_null t = false ->
     (exists k, (k < 4)%nat /\ rm_data r = mx_data t ++ repeat 0%N k) /\
     (mx_data t = [] -> rm_data r = [] /\ rm_info r = None) /\
     (mx_data t <> [] -> exists i, rm_info r = Some i /\ mip_head (mx_data t) i)).

Lemma pad4_spec : forall n, (pad4 n < 4)%nat /\ ((n + pad4 n) mod 4 = 0)%nat.
Proof.
  intros n. unfold pad4. pose proof (Nat.mod_upper_bound n 4 ltac:(lia)) as B.
  destruct (n mod 4 =? 0)%nat eqn:E.
  - apply Nat.eqb_eq in E. rewrite Nat.add_0_r. lia.
  - apply Nat.eqb_neq in E. split; [lia|].
    pose proof (Nat.div_mod_eq n 4) as D.
    replace (n + (4 - n mod 4))%nat with ((n / 4 + 1) * 4)%nat by lia. apply Nat.mod_mul. lia.
Qed.

Lemma pad4_0 : forall n, (n mod 4 = 0)%nat -> pad4 n = 0%nat.
Proof. intros n H. unfold pad4. rewrite H. reflexivity. Qed.

Lemma pad4_add : forall a b, (a mod 4 = 0)%nat -> pad4 (a + b) = pad4 b.
Proof.
  intros a b H. unfold pad4. rewrite <- Nat.add_mod_idemp_l, H by lia. reflexivity.
Qed.

Lemma mip_parse_ok : forall d i rest, mip_head d i -> mip_parse (d ++ rest) = ROk i.
Proof.
  intros d i rest (m & r & W & -> & N & E1 & E2 & E3). unfold mip_parse.
  change (mkM 0 true) with (mkM (size []) true).
  rewrite (mrec_ok _ dmiptex_codec dmiptex_wf m _ [] (r ++ rest) dmiptex_good W)
    by (rewrite <- app_assoc; reflexivity).
  cbn [rbind fst]. rewrite N. destruct i as [x1 x2 x3 x4]; cbn [ip_name ip_w ip_h ip_ofs] in *. subst. reflexivity.
Qed.

(** All of the remaining textures are missing. *)
Definition all_null (l : list miptex) : bool := forallb mx_null l.

Lemma tex_data_null : forall l p, all_null l = true -> tex_data p l = [].
Proof.
  induction l as [|t l IH]; intros p H; [reflexivity|]. cbn [all_null forallb] in H.
  apply andb_true_iff in H. destruct H as [H1 H2]. cbn [tex_data]. rewrite H1. apply IH. assumption.
Qed.
Lemma tex_data_pad : forall l p, all_null l = false ->
  tex_data p l = repeat 0%N (pad4 p) ++ tex_data (p + pad4 p) l.
Proof.
  induction l as [|t l IH]; intros p H; [discriminate|]. cbn [all_null forallb] in H.
  cbn [tex_data]. destruct (mx_null t); [apply IH; assumption|].
  destruct (pad4_spec p) as [_ P]. rewrite (pad4_0 _ P). cbn [repeat app]. rewrite Nat.add_0_r. reflexivity.
Qed.
Lemma next_null : forall l p h off len, all_null l = true -> next_offset (tex_offsets p h off l) len = len.
Proof.
  induction l as [|t l IH]; intros p h off len H; [reflexivity|]. cbn [all_null forallb] in H.
  apply andb_true_iff in H. destruct H as [H1 H2]. cbn [tex_offsets]. rewrite H1. cbn [next_offset].
  apply IH. assumption.
Qed.
Lemma next_some : forall l p h off len, all_null l = false -> Z.of_nat (h + off) <= 2147483647 ->
  next_offset (tex_offsets p h off l) len = Z.of_nat (h + off).
Proof.
  induction l as [|t l IH]; intros p h off len H L; [discriminate|]. cbn [all_null forallb] in H.
  cbn [tex_offsets]. destruct (mx_null t).
  - cbn [next_offset]. apply IH; assumption.
  - cbn [next_offset]. rewrite wrap_i32 by lia.
    replace (0 <=? Z.of_nat (h + off)) with true by (symmetry; apply Z.leb_le; lia). reflexivity.
Qed.
Lemma tex_data_long : forall l p, all_null l = false -> (pad4 p <= length (tex_data p l))%nat.
Proof. intros. rewrite tex_data_pad by assumption. rewrite app_length, repeat_length. lia. Qed.

Lemma tex_read_null : forall l f lu p h off st, all_null l = true ->
  tex_read_loop f lu (tex_offsets p h off l) st = ROk (map (fun _ => mkRMip true [] None) l, st).
Proof.
  induction l as [|t l IH]; intros f lu p h off st H; [reflexivity|]. cbn [all_null forallb] in H.
  apply andb_true_iff in H. destruct H as [H1 H2]. cbn [tex_offsets]. rewrite H1. cbn [tex_read_loop map].
  change (-1 <? 0) with true. cbv iota. rewrite IH by assumption. reflexivity.
Qed.

(** The loop over the textures: [a] is the file up to the first remaining texture's data. *)
Lemma tex_read_loop_ok : forall l p h off f a c st,
  (p mod 4 = 0)%nat -> (h mod 4 = 0)%nat -> (off mod 4 = 0)%nat ->
  f = a ++ tex_data (p + h + off) l ++ c -> length a = (p + h + off)%nat -> m_ok st = true ->
  Forall tex_ok l ->
  Z.of_nat (p + h + off + length (tex_data (p + h + off) l)) <= 2147483647 ->
  exists r st',
    tex_read_loop f (mkLump (Z.of_nat p) (Z.of_nat (h + off + length (tex_data (p + h + off) l))))
      (tex_offsets p h off l) st = ROk (r, st') /\ m_ok st' = true /\ Forall2 tex_same l r.
Proof.
  induction l as [|t l IH]; intros p h off f a c st Pp Ph Po E LA S T L.
  - exists [], st. split; [reflexivity|]. split; [assumption|constructor].
  - inversion T as [|x y T1 T2]; subst x y. cbn [tex_offsets tex_data] in *.
    destruct (mx_null t) eqn:N.
    + destruct (IH p h off f a c st Pp Ph Po E LA S T2 L) as (r & st' & R & S' & F).
      exists (mkRMip true [] None :: r), st'. cbn [tex_read_loop]. change (-1 <? 0) with true. cbv iota.
      rewrite R. cbn [rbind fst snd]. split; [reflexivity|]. split; [assumption|].
      constructor; [|assumption]. unfold tex_same. cbn. rewrite N. repeat split; try reflexivity; discriminate.
    + assert (A0 : pad4 (p + h + off) = 0%nat).
      { apply pad4_0. rewrite <- Nat.add_mod_idemp_l by lia.
        rewrite <- (Nat.add_mod_idemp_l p h) by lia. rewrite Pp, Nat.add_0_l, Ph, Nat.add_0_l. assumption. }
      rewrite A0 in *. cbn [repeat app] in *. rewrite Nat.add_0_r in *.
      unfold tex_ok in T1. remember (mx_data t) as d eqn:DE. set (pos1 := (p + h + off + length d)%nat) in *.
      set (off1 := (off + length d)%nat) in *.
      assert (P1 : pad4 pos1 = pad4 (p + off1)).
      { unfold pos1, off1. replace (p + h + off + length d)%nat with (h + (p + off + length d))%nat by lia.
        rewrite pad4_add by assumption. f_equal. lia. }
      rewrite !app_length in *. set (td := tex_data pos1 l) in *.
      cbn [tex_read_loop]. rewrite wrap_i32 by lia.
      replace (Z.of_nat (h + off) <? 0) with false by (symmetry; apply Z.ltb_ge; lia).
      cbn [lu_len lu_ofs].
      replace (Z.of_nat p + Z.of_nat (h + off)) with (size a) by (unfold size; rewrite LA; lia).
      destruct st as [sp so]. cbn [m_ok] in S. subst so. rewrite mseek_ok.
      set (flen := Z.of_nat (h + off + (length d + length td))) in *.
      assert (FE : flen = Z.of_nat (h + off) + Z.of_nat (length d) + Z.of_nat (length td)) by (unfold flen; lia).
      clearbody flen. set (lu := mkLump (Z.of_nat p) flen) in *.
      destruct (all_null l) eqn:AN.
      * (* the last one *)
        assert (TD : td = []) by (apply tex_data_null; assumption).
        rewrite next_null by assumption. rewrite TD in *. cbn [length] in *. rewrite Nat.add_0_r in *.
        assert (FL : Forall2 tex_same l (map (fun _ => mkRMip true [] None) l)).
        { clear -AN. induction l as [|u l IH]; [constructor|]. cbn [all_null forallb] in AN.
          apply andb_true_iff in AN. destruct AN as [H1 H2]. cbn [map]. constructor; [|apply IH; assumption].
          unfold tex_same. cbn. rewrite H1. repeat split; try reflexivity; discriminate. }
        destruct (Z.of_nat (h + off) <? flen) eqn:Q.
        -- apply Z.ltb_lt in Q.
           replace (flen - Z.of_nat (h + off)) with (size d) by (unfold size; lia).
           rewrite app_nil_r in E. rewrite (mread_ok f a d c E).
           2:{ destruct d; [cbn [length] in *; lia|discriminate]. }
           cbn [rbind fst snd].
           assert (DN : d <> []) by (destruct d; [cbn [length] in *; lia|discriminate]).
           assert (HI : exists i, mip_head d i).
           { destruct T1 as [T1|[T1|T1]]; [congruence|contradiction|assumption]. }
           destruct HI as [i HI]. pose proof (mip_parse_ok d i [] HI) as MP. rewrite app_nil_r in MP. rewrite MP.
           cbn [rbind]. rewrite tex_read_null by assumption. cbn [rbind fst snd].
           eexists. eexists. split; [reflexivity|]. split; [reflexivity|]. constructor; [|assumption].
           unfold tex_same. cbn [rm_null rm_data rm_info]. rewrite <- DE, N.
           split; [reflexivity|]. split; [discriminate|]. intros _. split; [|split].
           ++ exists 0%nat. split; [lia|]. cbn [repeat]. rewrite app_nil_r. reflexivity.
           ++ contradiction.
           ++ intros _. exists i. split; [reflexivity|assumption].
        -- apply Z.ltb_ge in Q.
           assert (DN : d = []) by (destruct d; [reflexivity|cbn [length] in *; lia]).
           rewrite tex_read_null by assumption. cbn [rbind fst snd].
           eexists. eexists. split; [reflexivity|]. split; [reflexivity|]. constructor; [|assumption].
           unfold tex_same. cbn [rm_null rm_data rm_info]. rewrite <- DE, N, DN.
           split; [reflexivity|]. split; [discriminate|]. intros _. split; [|split].
           ++ exists 0%nat. split; [lia|reflexivity].
           ++ intros _. split; reflexivity.
           ++ congruence.
      * (* more follow *)
        set (k := pad4 pos1) in *.
        assert (TD : td = repeat 0%N k ++ tex_data (pos1 + k) l) by (apply tex_data_pad; assumption).
        assert (TL : (k + length (tex_data (pos1 + k) l) = length td)%nat).
        { rewrite TD, app_length, repeat_length. reflexivity. }
        destruct (pad4_spec pos1) as [K1 K2]. fold k in K1, K2.
        rewrite <- P1. rewrite next_some by (try assumption; unfold off1; lia).
        set (off2 := (off1 + k)%nat) in *.
        assert (O2 : (off2 mod 4 = 0)%nat).
        { unfold off2, off1, pos1 in *.
          replace (p + h + off + length d + k)%nat with (p + (h + (off + length d + k)))%nat in K2 by lia.
          rewrite <- Nat.add_mod_idemp_l, Pp, Nat.add_0_l in K2 by lia.
          rewrite <- Nat.add_mod_idemp_l, Ph, Nat.add_0_l in K2 by lia. assumption. }
        assert (EQ2 : (p + h + off2 = pos1 + k)%nat) by (unfold off2, off1, pos1; lia).
        specialize (IH p h off2 f (a ++ d ++ repeat 0%N k) c).
        rewrite EQ2 in IH.
        assert (FLEN : Z.of_nat (h + off2 + length (tex_data (pos1 + k) l)) = flen).
        { unfold off2, off1. lia. }
        rewrite FLEN in IH. fold lu in IH.
        assert (IH' : forall st, m_ok st = true -> exists r st', tex_read_loop f lu (tex_offsets p h off2 l) st
                   = ROk (r, st') /\ m_ok st' = true /\ Forall2 tex_same l r).
        { intros st S. apply IH; try assumption.
          - rewrite E, TD, <- !app_assoc. reflexivity.
          - rewrite !app_length, repeat_length. unfold pos1. lia.
          - unfold pos1 in *. lia. }
        destruct (Z.of_nat (h + off) <? Z.of_nat (h + off2)) eqn:Q.
        -- apply Z.ltb_lt in Q.
           set (dd := d ++ repeat 0%N k).
           assert (SD : Z.of_nat (h + off2) - Z.of_nat (h + off) = size dd)
             by (unfold size, dd, off2, off1; rewrite app_length, repeat_length; lia).
           rewrite SD.
           assert (E' : f = a ++ dd ++ tex_data (pos1 + k) l ++ c).
           { rewrite E, TD. unfold dd. rewrite <- !app_assoc. reflexivity. }
           rewrite (mread_ok f a dd _ E').
           2:{ destruct dd; [unfold size in SD; cbn [length] in SD; lia|discriminate]. }
           cbn [rbind fst snd].
           destruct (list_eq_dec N.eq_dec d []) as [ED|DN].
           { (* no data: no padding either *)
             exfalso. unfold off2, off1 in Q. rewrite ED in Q. cbn [length] in Q.
             assert (k = 0)%nat; [|lia]. unfold k, pos1. rewrite ED. cbn [length]. rewrite Nat.add_0_r. assumption. }
                      assert (HI : exists i, mip_head d i).
           { destruct T1 as [T1|[T1|T1]]; [congruence|contradiction|assumption]. }
           destruct HI as [i HI]. unfold dd. rewrite (mip_parse_ok d i _ HI). cbn [rbind].
           destruct (IH' (mkM (size a + size (d ++ repeat 0%N k)) true) eq_refl) as (r & st' & R & S' & F).
           rewrite R. cbn [rbind fst snd]. eexists. eexists. split; [reflexivity|]. split; [assumption|].
           constructor; [|assumption]. unfold tex_same. cbn [rm_null rm_data rm_info]. rewrite <- DE, N.
           split; [reflexivity|]. split; [discriminate|]. intros _. split; [|split].
           ++ exists k. split; [assumption|reflexivity].
           ++ contradiction.
           ++ intros _. exists i. split; [reflexivity|assumption].
        -- apply Z.ltb_ge in Q.
           assert (DN : d = []) by (destruct d; [reflexivity|unfold off2, off1 in Q; cbn [length] in *; lia]).
           destruct (IH' (mkM (size a) true) eq_refl) as (r & st' & R & S' & F).
           rewrite R. cbn [rbind fst snd]. eexists. eexists. split; [reflexivity|]. split; [assumption|].
           constructor; [|assumption]. unfold tex_same. cbn [rm_null rm_data rm_info]. rewrite <- DE, N, DN.
           split; [reflexivity|]. split; [discriminate|]. intros _. split; [|split].
           ++ exists 0%nat. split; [lia|reflexivity].
           ++ intros _. split; reflexivity.
           ++ congruence.
Qed.

Lemma tex_offsets_length : forall l p h off, length (tex_offsets p h off l) = length l.
Proof.
  induction l as [|t l IH]; intros; [reflexivity|]. cbn [tex_offsets]. destruct (mx_null t); cbn [length]; rewrite IH; reflexivity.
Qed.
Lemma tex_offsets_in : forall l p h off, Forall (fun o => it_in i32 o = true) (tex_offsets p h off l).
Proof.
  induction l as [|t l IH]; intros; [constructor|]. cbn [tex_offsets].
  destruct (mx_null t); constructor; try apply IH; [reflexivity|].
  unfold it_wrap, it_in, it_lo, it_hi, i32. cbn [it_bits it_signed andb].
  change (2 ^ (32 - 1)) with 2147483648. change (2 ^ 32) with 4294967296.
  generalize (Z.of_nat (h + off)). intros z. pose proof (Z.mod_pos_bound z 4294967296 ltac:(lia)).
  destruct (2147483648 - 1 <? z mod 4294967296) eqn:Q; [apply Z.ltb_lt in Q|apply Z.ltb_ge in Q];
    apply andb_true_iff; split; apply Z.leb_le; lia.
Qed.

Lemma tex_read_offsets_ok : forall l f a c, f = a ++ put_fields (map (fun o => (i32, o)) l) ++ c ->
  Forall (fun o => it_in i32 o = true) l ->
  tex_read_offsets f (length l) (mkM (size a) true)
  = ROk (l, mkM (size a + size (put_fields (map (fun o => (i32, o)) l))) true).
Proof.
  induction l as [|o l IH]; intros f a c E F.
  - cbn [length tex_read_offsets map put_fields put_list]. unfold size at 3. cbn [length]. rewrite Z.add_0_r. reflexivity.
  - inversion F; subst x l0. cbn [length tex_read_offsets map].
    change (put_fields ((i32, o) :: map (fun o => (i32, o)) l))
      with (put_field (i32, o) ++ put_fields (map (fun o => (i32, o)) l)).
    cbn [map] in E.
    change (put_fields ((i32, o) :: map (fun o => (i32, o)) l))
      with (put_field (i32, o) ++ put_fields (map (fun o => (i32, o)) l)) in E.
    rewrite <- app_assoc in E.
    change [i32] with (map fst [(i32, o)]).
    rewrite (mfields_ok [(i32, o)] f a (put_fields (map (fun o => (i32, o)) l) ++ c)).
    2:{ unfold put_fields at 1. cbn [put_list]. rewrite app_nil_r. assumption. }
    2:{ constructor; [split; [apply i32_all|assumption]|constructor]. }
    cbn [rbind fst snd map]. unfold put_fields at 1 2. cbn [put_list]. rewrite app_nil_r. rewrite <- size_app.
    rewrite (IH f (a ++ put_field (i32, o)) c) by (try assumption; rewrite E, <- app_assoc; reflexivity).
    cbn [rbind fst snd]. rewrite !size_app, Z.add_assoc. reflexivity.
Qed.

Theorem read_textures_ok : forall l f a c,
  f = a ++ tex_write (length a) l ++ c -> (length a mod 4 = 0)%nat -> Forall tex_ok l ->
  size a + size (tex_write (length a) l) <= 2147483647 ->
  exists r, read_textures f (mkLump (size a) (size (tex_write (length a) l))) = ROk r /\ Forall2 tex_same l r.
Proof.
  intros l f a c E A T L. unfold read_textures. cbn [lu_len lu_ofs].
  set (p := length a) in *. set (h := (4 + 4 * length l)%nat).
  set (tv := map (fun o => (i32, o)) (tex_offsets p h 0 l)).
  set (hd := put_fields [(i32, it_wrap i32 (Z.of_nat (length l)))]).
  assert (TW : tex_write p l = hd ++ put_fields tv ++ tex_data (p + h) l) by reflexivity.
  assert (HS : size hd = 4) by reflexivity.
  assert (VS : size (put_fields tv) = 4 * Z.of_nat (length l)).
  { unfold size. rewrite put_fields_length. unfold tv. rewrite map_map. cbn [fst].
    rewrite <- (tex_offsets_length l p h 0). generalize (tex_offsets p h 0 l). intros q.
    induction q as [|x q IH]; [reflexivity|]. cbn [map list_sum fold_right length].
    change (fold_right Nat.add 0%nat (map (fun _ : Z => it_bytes i32) q)) with (list_sum (map (fun _ : Z => it_bytes i32) q)).
    change (it_bytes i32) with 4%nat in *. lia. }
  assert (WS : size (tex_write p l) = Z.of_nat h + size (tex_data (p + h) l)).
  { rewrite TW, !size_app, HS, VS. unfold h. lia. }
  pose proof (size_nonneg (tex_data (p + h) l)) as TN.
  assert (H5 : (4 + 4 * length l <= h)%nat) by (unfold h; lia).
  replace (size (tex_write p l) =? 0) with false by (symmetry; apply Z.eqb_neq; lia).
  rewrite mseek_ok. unfold tex_read. rewrite TW in E.
  assert (LL : Z.of_nat (length l) <= 2147483647) by (rewrite WS in L; pose proof (size_nonneg a); lia).
  change [i32] with (map fst [(i32, it_wrap i32 (Z.of_nat (length l)))]).
  rewrite (mfields_ok _ f a (put_fields tv ++ tex_data (p + h) l ++ c)).
  2:{ rewrite E. fold hd. rewrite <- !app_assoc. reflexivity. }
  2:{ constructor; [split; [apply i32_all|]|constructor]. cbn [fst snd]. rewrite wrap_i32 by lia. apply in_i32. lia. }
  cbn [rbind fst snd map nth]. fold hd. rewrite wrap_i32 by lia.
  replace (Z.of_nat (length l) <? 0) with false by (symmetry; apply Z.ltb_ge; lia).
  rewrite Nat2Z.id. rewrite <- (tex_offsets_length l p h 0), <- size_app.
  rewrite (tex_read_offsets_ok _ f (a ++ hd) (tex_data (p + h) l ++ c)).
  2:{ rewrite E. fold tv. rewrite <- !app_assoc. reflexivity. }
  2:{ apply tex_offsets_in. }
  cbn [rbind fst snd]. fold tv.
  assert (H4 : (h mod 4 = 0)%nat).
  { unfold h. replace (4 + 4 * length l)%nat with ((1 + length l) * 4)%nat by lia. apply Nat.mod_mul. lia. }
  assert (P0 : (p + h + 0 = p + h)%nat) by lia.
  destruct (tex_read_loop_ok l p h 0 f (a ++ hd ++ put_fields tv) c (mkM (size (a ++ hd) + size (put_fields tv)) true) A H4 eq_refl)
    as (r & st' & R & S & F).
  - rewrite P0, E, <- !app_assoc. reflexivity.
  - rewrite P0. apply Nat2Z.inj. change (size (a ++ hd ++ put_fields tv) = Z.of_nat (p + h)).
    rewrite !size_app, HS, VS. unfold size, h. fold p. lia.
  - reflexivity.
  - assumption.
  - rewrite P0. unfold size in L, WS. fold p in L. lia.
  - rewrite P0 in R.
    replace (mkLump (Z.of_nat p) (Z.of_nat (h + 0 + length (tex_data (p + h) l))))
      with (mkLump (size a) (size (tex_write p l))) in R
      by (f_equal; rewrite WS; unfold size; lia).
    rewrite R. cbn [rbind fst snd]. rewrite S. exists r. split; [reflexivity|assumption].
Qed.
