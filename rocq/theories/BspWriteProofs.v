(* The layout of written files. *)
From Coq Require Import List Arith NArith ZArith Bool Lia.
Import ListNotations.
From Verif Require Import Base Codec NumCastModel NumCastProofs BspRecModel BspRecProofs BspFileModel
  BspReadProofs BspTexProofs.
Local Open Scope Z_scope.

Lemma owrite_app : forall bs d, owrite bs (mkO d (length d)) = mkO (d ++ bs) (length (d ++ bs)).
Proof.
  intros. unfold owrite. cbn [o_data o_pos]. rewrite firstn_all, skipn_all2 by lia.
  rewrite app_nil_r, app_length. reflexivity.
Qed.
Lemma owrite_over : forall a b c bs, length b = length bs ->
  owrite bs (mkO (a ++ b ++ c) (length a)) = mkO (a ++ bs ++ c) (length a + length bs).
Proof.
  intros a b c bs H. unfold owrite. cbn [o_data o_pos].
  rewrite firstn_len_app by reflexivity. rewrite <- H, <- app_length, (app_assoc a b c), skipn_len_app by reflexivity.
  reflexivity.
Qed.

(** ** Lumps *)

(** The bytes of a lump with its padding, and of all lumps from file position [p]. *)
Definition padded (b : list N) : list N := b ++ repeat 0%N (pad4 (length b)).
Fixpoint lay_body (l : list wlump) (p : nat) : list N :=
  match l with
  | [] => []
  | w :: l' => let b := padded (w_bytes w p) in b ++ lay_body l' (p + length b)
  end.

Lemma padded_4 : forall b, (length (padded b) mod 4 = 0)%nat.
Proof. intros. unfold padded. rewrite app_length, repeat_length. apply pad4_spec. Qed.

Lemma lay_body_app : forall l1 l2 p, lay_body (l1 ++ l2) p = lay_body l1 p ++ lay_body l2 (p + length (lay_body l1 p)).
Proof.
  induction l1 as [|w l1 IH]; intros l2 p.
  - cbn [app lay_body length]. rewrite Nat.add_0_r. reflexivity.
  - cbn [app lay_body]. rewrite IH, <- app_assoc, app_length. do 3 f_equal. lia.
Qed.
Lemma lay_body_4 : forall l p, (length (lay_body l p) mod 4 = 0)%nat.
Proof.
  induction l as [|w l IH]; intros p; [reflexivity|]. cbn [lay_body]. rewrite app_length.
  rewrite <- Nat.add_mod_idemp_l by lia. rewrite padded_4, Nat.add_0_l. apply IH.
Qed.

(** The asserted sizes of the lumps hold. *)
Definition expect_ok (w : wlump) : Prop :=
  forall p, match w_expect w with Some e => size (w_bytes w p) = e | None => True end.

Lemma wrap_u64 : forall v, 0 <= v < 18446744073709551616 -> it_wrap u64 v = v.
Proof. intros. unfold it_wrap, u64. cbn [it_bits it_signed andb]. apply Z.mod_small. change (2 ^ 64) with 18446744073709551616. lia. Qed.
Lemma wrap_u32 : forall v, 0 <= v < 4294967296 -> it_wrap u32 v = v.
Proof. intros. unfold it_wrap, u32. cbn [it_bits it_signed andb]. apply Z.mod_small. change (2 ^ 32) with 4294967296. lia. Qed.

Lemma write_lump_ok : forall w d hdr, expect_ok w -> (w_idx w < length hdr)%nat ->
  size d + size (padded (w_bytes w (length d))) <= 2147483647 ->
  exists hdr', upd hdr (w_idx w) (mkLump (size d) (size (w_bytes w (length d)))) = Some hdr' /\
    write_lump w (mkO d (length d), hdr)
    = ROk (mkO (d ++ padded (w_bytes w (length d))) (length (d ++ padded (w_bytes w (length d)))), hdr').
Proof.
  intros w d hdr X I L. unfold write_lump. cbn [o_pos]. rewrite owrite_app. cbn [o_pos].
  specialize (X (length d)). set (b := w_bytes w (length d)) in *. clearbody b.
  assert (LB : size d + size b <= 2147483647).
  { unfold padded in L. rewrite size_app in L. pose proof (size_nonneg (repeat 0%N (pad4 (length b)))). lia. }
  pose proof (size_nonneg d). pose proof (size_nonneg b).
  change (Z.of_nat (length d)) with (size d). change (Z.of_nat (length (d ++ b))) with (size (d ++ b)).
  rewrite size_app. rewrite !wrap_i32 by lia.
  replace (size d + size b - size d) with (size b) by lia.
  rewrite in_i32 by lia. cbn [negb]. rewrite wrap_u64 by lia.
  replace (match w_expect w with Some e => negb (size b =? e) | None => false end) with false.
  2:{ destruct (w_expect w); [|reflexivity]. rewrite X, Z.eqb_refl. reflexivity. }
  destruct (upd_some _ hdr (w_idx w) (mkLump (size d) (size b)) I) as [hdr' U]. rewrite U.
  exists hdr'. split; [reflexivity|]. f_equal. f_equal.
  rewrite Z.rem_mod_nonneg by lia.
  unfold padded. unfold pad4.
  assert (M : size b mod 4 = Z.of_nat (length b mod 4)).
  { unfold size. rewrite Nat2Z.inj_mod. reflexivity. }
  rewrite M. destruct (length b mod 4 =? 0)%nat eqn:Q.
  - apply Nat.eqb_eq in Q. rewrite Q. cbn [Z.of_nat Z.eqb repeat]. rewrite app_nil_r. reflexivity.
  - apply Nat.eqb_neq in Q. replace (Z.of_nat (length b mod 4) =? 0) with false by (symmetry; apply Z.eqb_neq; lia).
    pose proof (Nat.mod_upper_bound (length b) 4 ltac:(lia)) as B.
    replace (Z.to_nat (4 - Z.of_nat (length b mod 4))) with (4 - length b mod 4)%nat by lia.
    rewrite owrite_app, <- app_assoc. reflexivity.
Qed.

Lemma write_lumps_ok : forall l d hdr, Forall expect_ok l -> Forall (fun w => (w_idx w < length hdr)%nat) l ->
  NoDup (map w_idx l) ->
  size d + size (lay_body l (length d)) <= 2147483647 ->
  exists hdr', write_lumps l (mkO d (length d), hdr)
    = ROk (mkO (d ++ lay_body l (length d)) (length (d ++ lay_body l (length d))), hdr') /\
    length hdr' = length hdr /\
    (forall i, ~ In i (map w_idx l) -> nth_error hdr' i = nth_error hdr i) /\
    (forall l1 w l2, l = l1 ++ w :: l2 ->
       let p := (length d + length (lay_body l1 (length d)))%nat in
       nth_error hdr' (w_idx w) = Some (mkLump (Z.of_nat p) (size (w_bytes w p)))).
Proof.
  induction l as [|w l IH]; intros d hdr X I D L.
  - exists hdr. cbn [write_lumps lay_body]. rewrite app_nil_r. split; [reflexivity|]. split; [reflexivity|].
    split; [reflexivity|]. intros l1 w l2 E. destruct l1; discriminate.
  - inversion X as [|x y X1 X2]; subst x y. inversion I as [|x y I1 I2]; subst x y.
    cbn [map] in D. inversion D as [|x y D1 D2]; subst x y.
    cbn [lay_body] in *. set (pb := padded (w_bytes w (length d))) in *. rewrite size_app in L.
    pose proof (size_nonneg (lay_body l (length d + length pb))) as N.
    destruct (write_lump_ok w d hdr X1 I1) as (h1 & U & W); [fold pb; lia|]. fold pb in W.
    cbn [write_lumps]. rewrite W. cbn [rbind].
    assert (L1 : length h1 = length hdr) by (apply (upd_length _ _ _ _ _ U)).
    destruct (IH (d ++ pb) h1) as (h2 & W2 & L2 & O2 & P2).
    + assumption.
    + rewrite L1. assumption.
    + assumption.
    + rewrite app_length, size_app. lia.
    + rewrite W2, app_length. exists h2. split; [rewrite <- app_assoc; reflexivity|]. split; [congruence|]. split.
      * intros i Ni. cbn [map In] in Ni. rewrite O2 by tauto. rewrite (upd_nth_error _ _ _ _ _ i U).
        replace (i =? w_idx w)%nat with false by (symmetry; apply Nat.eqb_neq; intros ->; tauto). reflexivity.
      * intros l1 w' l2 E. destruct l1 as [|w1 l1]; cbn [app] in E; injection E as E1 E2.
        -- subst w' l2. cbn [lay_body length]. rewrite Nat.add_0_r. rewrite O2 by assumption.
           rewrite (upd_nth_error _ _ _ _ _ (w_idx w) U), Nat.eqb_refl. reflexivity.
        -- subst w1. cbn [lay_body]. fold pb. rewrite app_length.
           specialize (P2 l1 w' l2 E2). rewrite app_length in P2.
           replace (length d + (length pb + length (lay_body l1 (length d + length pb))))%nat
             with (length d + length pb + length (lay_body l1 (length d + length pb)))%nat by lia.
           exact P2.
Qed.

(** ** BSPX *)

Fixpoint xbody (x : bspx) : list N :=
  match x with [] => [] | (_, d) :: t => padded d ++ xbody t end.
Fixpoint xdir (x : bspx) (p : nat) : list bspxlump :=
  match x with
  | [] => []
  | (n, d) :: t => mkBspxLump (xname n) (Z.of_nat p) (size d) :: xdir t (p + length (padded d))
  end.

Lemma xdir_length : forall x p, length (xdir x p) = length x.
Proof. induction x as [|[n d] x IH]; intros; [reflexivity|]. cbn [xdir length]. rewrite IH. reflexivity. Qed.

Lemma write_xdata_ok : forall x d, size d + size (xbody x) <= 2147483647 ->
  write_xdata x (mkO d (length d)) = (mkO (d ++ xbody x) (length (d ++ xbody x)), xdir x (length d)).
Proof.
  induction x as [|[n e] x IH]; intros d L.
  - cbn [write_xdata xbody xdir]. rewrite app_nil_r. reflexivity.
  - cbn [write_xdata xbody xdir o_pos]. cbn [xbody] in L. rewrite size_app in L.
    pose proof (size_nonneg (xbody x)). pose proof (size_nonneg d). pose proof (size_nonneg (padded e)).
    assert (LE : 0 <= size e <= size (padded e)).
    { unfold padded. rewrite size_app. pose proof (size_nonneg e). pose proof (size_nonneg (repeat 0%N (pad4 (length e)))). lia. }
    change (Z.of_nat (length d)) with (size d). rewrite !wrap_u32 by lia.
    rewrite !owrite_app, <- app_assoc. fold (padded e).
    rewrite IH by (rewrite size_app; lia). rewrite <- app_assoc, (app_length d (padded e)). reflexivity.
Qed.

Definition xhdr (x : bspx) : list N :=
  rc_put bspxhdr_codec (mkBspxHdr [66; 83; 80; 88] (Z.of_nat (length x))).
(** The BSPX section at file position [p]. *)
Definition xsection (x : bspx) (p : nat) : list N :=
  match x with
  | [] => []
  | _ => xhdr x ++ put_list (rc_put bspxlump_codec) (xdir x (p + 8 + 32 * length x)) ++ xbody x
  end.

Definition xlump_good := bspxlump_good.

Lemma xname_length : forall n, length (xname n) = 24%nat.
Proof.
  intros. unfold xname. pose proof (firstn_le_length 23 n) as F. rewrite app_length, map_length, repeat_length. lia.
Qed.

Lemma xput_length : forall nm o l, length nm = 24%nat -> length (rc_put bspxlump_codec (mkBspxLump nm o l)) = 32%nat.
Proof.
  intros nm o l H. unfold rc_put. rewrite put_fields_length. cbn [rc_write bspxlump_codec bl_name bl_ofs bl_len].
  rewrite map_app, map_map. cbn [fst]. rewrite list_sum_app.
  assert (E : forall q : list Z, list_sum (map (fun x : Z => it_bytes u8) q) = length q).
  { induction q as [|x q IH]; [reflexivity|]. cbn [map list_sum fold_right length].
    change (fold_right Nat.add 0%nat (map (fun _ : Z => it_bytes u8) q)) with (list_sum (map (fun _ : Z => it_bytes u8) q)).
    rewrite IH. reflexivity. }
  rewrite E, H. reflexivity.
Qed.

Lemma xdirs_length : forall x p, length (put_list (rc_put bspxlump_codec) (xdir x p)) = (32 * length x)%nat.
Proof.
  induction x as [|[n e] x IH]; intros p; [reflexivity|]. cbn [xdir put_list length]. rewrite app_length, IH.
  rewrite xput_length by apply xname_length. lia.
Qed.

Lemma write_bspx_ok : forall x d, (length d mod 4 = 0)%nat ->
  size d + size (xsection x (length d)) <= 2147483647 ->
  exists p, write_bspx x (mkO d (length d)) = ROk (mkO (d ++ xsection x (length d)) p).
Proof.
  intros x d A L. destruct x as [|e x0]; [exists (length d); cbn [write_bspx xsection]; rewrite app_nil_r; reflexivity|].
  set (x := e :: x0) in *.
  assert (XS : xsection x (length d) = xhdr x ++ put_list (rc_put bspxlump_codec) (xdir x (length d + 8 + 32 * length x)) ++ xbody x) by reflexivity.
  assert (XW : write_bspx x (mkO d (length d)) =
    if negb (o_pos (mkO d (length d)) mod 4 =? 0)%nat then RThrow
    else let s1 := owrite (rc_put bspxhdr_codec (mkBspxHdr [66; 83; 80; 88] (it_wrap u32 (Z.of_nat (length x))))) (mkO d (length d)) in
         let s2 := owrite (put_list (rc_put bspxlump_codec) (map (fun _ => mkBspxLump (repeat 0 24) 0 0) x)) s1 in
         let '(s3, xl) := write_xdata x s2 in
         ROk (owrite (put_list (rc_put bspxlump_codec) xl) (oseek (o_pos s1) s3))) by reflexivity.
  rewrite XW. cbn [o_pos]. rewrite A. cbn [Nat.eqb negb]. cbv zeta.
  set (dirs := put_list (rc_put bspxlump_codec) (xdir x (length d + 8 + 32 * length x))) in *.
  assert (DL : length dirs = (32 * length x)%nat) by apply xdirs_length.
  assert (SL : size d + 8 + 32 * Z.of_nat (length x) + size (xbody x) <= 2147483647).
  { rewrite XS, !size_app in L. change (size (xhdr x)) with 8 in L. unfold size in L at 2. rewrite DL in L. lia. }
  pose proof (size_nonneg d). pose proof (size_nonneg (xbody x)).
  rewrite wrap_u32 by lia. fold (xhdr x). rewrite !owrite_app. cbn [o_pos].
  set (dummy := put_list (rc_put bspxlump_codec) (map (fun _ => mkBspxLump (repeat 0 24) 0 0) x)).
  assert (UL : length dummy = (32 * length x)%nat).
  { unfold dummy. rewrite (put_list_length _ _ 32%nat); [rewrite map_length; reflexivity|].
    intros q Iq. apply in_map_iff in Iq. destruct Iq as (_ & <- & _). apply xput_length. reflexivity. }
  assert (HL : length (xhdr x) = 8%nat) by reflexivity.
  rewrite write_xdata_ok.
  2:{ rewrite !size_app. change (size (xhdr x)) with 8. unfold size at 2. rewrite UL. lia. }
  replace (length ((d ++ xhdr x) ++ dummy)) with (length d + 8 + 32 * length x)%nat
    by (rewrite !app_length, HL, UL; lia).
  fold dirs. unfold oseek. cbn [o_data].
  replace (((d ++ xhdr x) ++ dummy) ++ xbody x) with ((d ++ xhdr x) ++ dummy ++ xbody x) by (rewrite <- !app_assoc; reflexivity).
  rewrite owrite_over by (rewrite UL, DL; reflexivity).
  rewrite XS. eexists. f_equal. f_equal. rewrite <- !app_assoc. reflexivity.
Qed.

(** ** The file *)

Lemma hdr_bytes_length : forall v l, length (hdr_bytes v l) = ((if is_q2 v then 8 else 4) + 8 * length l)%nat.
Proof.
  intros v l. unfold hdr_bytes. rewrite app_length, put_fields_length.
  rewrite (put_list_length _ _ 8%nat) by (intros; reflexivity). destruct v; reflexivity.
Qed.

Definition hlen (v : ver) : nat := ((if is_q2 v then 8 else 4) + 8 * nlumps v)%nat.
Lemma hlen_4 : forall v, (hlen v mod 4 = 0)%nat.
Proof. destruct v; reflexivity. Qed.

(** The bytes of a written file with the directory [hdr]. *)
Definition file_of (v : ver) (b : bspv (list miptex)) (x : bspx) (hdr : list lump) : list N :=
  let body := lay_body (wlumps v b) (hlen v) in
  hdr_bytes v hdr ++ body ++ xsection x (hlen v + length body).

(** The number of bytes a file takes. *)
Definition file_size (v : ver) (b : bspv (list miptex)) (x : bspx) : Z :=
  let body := lay_body (wlumps v b) (hlen v) in
  Z.of_nat (hlen v) + size body + size (xsection x (hlen v + length body)).

Theorem write_file_ok : forall v b x, Forall expect_ok (wlumps v b) ->
  Forall (fun w => (w_idx w < nlumps v)%nat) (wlumps v b) -> NoDup (map w_idx (wlumps v b)) ->
  file_size v b x <= 2147483647 ->
  exists hdr, write_file v b x = ROk (file_of v b x hdr) /\ length hdr = nlumps v /\
    (forall i, (i < nlumps v)%nat -> ~ In i (map w_idx (wlumps v b)) -> nth_error hdr i = Some (mkLump 0 0)) /\
    (forall l1 w l2, wlumps v b = l1 ++ w :: l2 ->
       let p := (hlen v + length (lay_body l1 (hlen v)))%nat in
       nth_error hdr (w_idx w) = Some (mkLump (Z.of_nat p) (size (w_bytes w p)))).
Proof.
  intros v b x X I D L. unfold write_file. set (zero := repeat (mkLump 0 0) (nlumps v)).
  assert (Z0 : length zero = nlumps v) by apply repeat_length.
  change (mkO [] 0) with (mkO [] (length (@nil N))). rewrite owrite_app. cbn [app].
  assert (H0 : length (hdr_bytes v zero) = hlen v) by (rewrite hdr_bytes_length, Z0; reflexivity).
  unfold file_size in L. set (body := lay_body (wlumps v b) (hlen v)) in *.
  pose proof (size_nonneg (xsection x (hlen v + length body))).
  destruct (write_lumps_ok (wlumps v b) (hdr_bytes v zero) zero X) as (hdr & W & LH & O & P).
  - rewrite Z0. assumption.
  - assumption.
  - unfold size at 1. rewrite H0. fold body. lia.
  - rewrite W. cbn [rbind fst snd]. rewrite H0. fold body.
    assert (LB : length (hdr_bytes v zero ++ body) = (hlen v + length body)%nat) by (rewrite app_length, H0; reflexivity).
    destruct (write_bspx_ok x (hdr_bytes v zero ++ body)) as [p WX].
    + rewrite LB, <- Nat.add_mod_idemp_l by lia. rewrite hlen_4. apply lay_body_4.
    + rewrite LB, size_app. unfold size at 1. rewrite H0. lia.
    + rewrite WX. cbn [rbind]. rewrite LB.
      unfold oseek. cbn [o_data]. rewrite <- app_assoc.
      change (mkO (hdr_bytes v zero ++ body ++ xsection x (hlen v + length body)) 0)
        with (mkO ([] ++ hdr_bytes v zero ++ body ++ xsection x (hlen v + length body)) (length (@nil N))).
      rewrite owrite_over by (rewrite !hdr_bytes_length; congruence).
      cbn [o_data app].
      exists hdr. split; [reflexivity|]. split; [congruence|]. split.
      * intros i Hi Ni. rewrite O by assumption. unfold zero. rewrite nth_error_repeat by assumption. reflexivity.
      * intros l1 w l2 E. specialize (P l1 w l2 E). rewrite H0 in P. exact P.
Qed.
