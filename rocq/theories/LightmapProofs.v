(* Proofs about the lightmap storage of light. *)
From Coq Require Import List Arith NArith ZArith Bool Lia Permutation.
Import ListNotations.
From Verif Require Import Base NumCastModel LightmapModel.

(* ---- writes in any order ---- *)

Definition wkey (w : byte_w) : nat * nat := fst w.

Lemma do_writes_spec : forall buf ws l, NoDup (map wkey ws) ->
  (forall a v, In (buf, a, v) ws -> a < length l) ->
  exists r, do_writes buf ws l = ROk r /\ length r = length l /\
    (forall a v, In (buf, a, v) ws -> nth_error r a = Some v) /\
    (forall a, ~ In (buf, a) (map wkey ws) -> nth_error r a = nth_error l a).
Proof.
  induction ws as [|[[k a] v] t IH]; intros l ND R.
  - exists l. cbn. split; [reflexivity|]. split; [reflexivity|]. split; [intros a v []|reflexivity].
  - cbn [map] in ND. inversion ND as [|x xs NI ND' E]; subst. cbn [do_writes].
    destruct (k =? buf) eqn:Ek.
    + apply Nat.eqb_eq in Ek. subst k.
      destruct (upd_some _ l a v) as [l' El]; [apply (R a v); left; reflexivity|]. rewrite El.
      pose proof (upd_length _ _ _ _ _ El) as Ll.
      destruct (IH l' ND') as (r & Er & Lr & H1 & H2).
      { intros a' v' Hin. rewrite Ll. apply (R a' v'). right. exact Hin. }
      exists r. split; [exact Er|]. split; [lia|]. split.
      * intros a' v' [E|Hin]; [|apply H1; exact Hin]. injection E as <- <-.
        rewrite H2 by exact NI. rewrite (upd_nth_error _ _ _ _ _ a El), Nat.eqb_refl. reflexivity.
      * intros a' Hn. cbn [map] in Hn. rewrite H2 by (intro Hc; apply Hn; right; exact Hc).
        rewrite (upd_nth_error _ _ _ _ _ a' El). destruct (a' =? a) eqn:Ea; [|reflexivity].
        apply Nat.eqb_eq in Ea. subst a'. exfalso. apply Hn. left. reflexivity.
    + apply Nat.eqb_neq in Ek.
      destruct (IH l ND') as (r & Er & Lr & H1 & H2).
      { intros a' v' Hin. apply (R a' v'). right. exact Hin. }
      exists r. split; [exact Er|]. split; [exact Lr|]. split.
      * intros a' v' [E|Hin]; [congruence|]. apply H1. exact Hin.
      * intros a' Hn. apply H2. intro Hc. apply Hn. right. exact Hc.
Qed.

(* ---- the space ---- *)

Definition rkey (r : req) : nat * bool := fst r.

Lemma align4_ge : forall n, n <= align4 n.
Proof. intro n. unfold align4. destruct (n mod 4 =? 0); lia. Qed.

Lemma align4_mod : forall n, align4 n mod 4 = 0.
Proof.
  intro n. unfold align4. destruct (n mod 4 =? 0) eqn:E; [apply Nat.eqb_eq in E; exact E|].
  pose proof (Nat.div_mod n 4 ltac:(lia)) as D. pose proof (Nat.mod_upper_bound n 4 ltac:(lia)) as U.
  replace (n + (4 - n mod 4)) with ((n / 4 + 1) * 4) by lia. apply Nat.mod_mul. lia.
Qed.

Lemma allocate_cons : forall i k n t ofs, allocate ((i, k, n) :: t) ofs =
  if (2147483647 <? Z.of_nat ofs)%Z then RThrow
  else rbind (allocate t (ofs + align4 n)) (fun r => ROk ((i, k, ofs) :: fst r, snd r)).
Proof. reflexivity. Qed.

Lemma allocate_spec : forall rs ofs t total, NoDup (map rkey rs) -> allocate rs ofs = ROk (t, total) ->
  ofs <= total /\
  total = ofs + list_sum (map (fun r => align4 (snd r)) rs) /\
  (forall i k n, In (i, k, n) rs -> exists o, offset t i k = Some o /\ ofs <= o /\ o + align4 n <= total /\
      (ofs mod 4 = 0 -> o mod 4 = 0) /\ (Z.of_nat o <= 2147483647)%Z) /\
  (forall i k n i' k' n' o o', In (i, k, n) rs -> In (i', k', n') rs -> (i, k) <> (i', k') ->
      offset t i k = Some o -> offset t i' k' = Some o' -> o + n <= o' \/ o' + n' <= o) /\
  (forall i k, ~ In (i, k) (map rkey rs) -> offset t i k = None).
Proof.
  induction rs as [|[[i k] n] rs IH]; intros ofs t total ND H.
  - cbn in H. injection H as <- <-. split; [lia|]. split; [cbn; lia|]. split; [intros ? ? ? []|].
    split; [intros ? ? ? ? ? ? ? ? []|reflexivity].
  - rewrite allocate_cons in H. destruct (2147483647 <? Z.of_nat ofs)%Z eqn:Eb; [discriminate|].
    apply Z.ltb_ge in Eb.
    destruct (allocate rs (ofs + align4 n)) as [[t0 total0]| |] eqn:E; [|discriminate|discriminate].
    cbn [rbind fst snd] in H. injection H as <- <-.
    cbn [map rkey fst] in ND. inversion ND as [|x xs NI ND' Ex]; subst.
    destruct (IH _ _ _ ND' E) as (H0 & Hs & H1 & H2 & H3).
    pose proof (align4_ge n) as Ga.
    split; [lia|]. split; [cbn [map list_sum fold_right snd]; unfold list_sum in Hs; lia|]. split; [|split].
    + intros i' k' n' [Ei|Hin].
      * injection Ei as <- <- <-. exists ofs. cbn [offset]. rewrite Nat.eqb_refl, eqb_reflx. cbn [andb].
        split; [reflexivity|]. split; [lia|]. split; [lia|]. split; [tauto|lia].
      * destruct (H1 _ _ _ Hin) as (o & Eo & B1 & B2 & B3 & B4). exists o. cbn [offset].
        assert (Hne : (i' =? i) && eqb k' k = false).
        { destruct (i' =? i) eqn:E1; [|reflexivity]. destruct (eqb k' k) eqn:E2; [|reflexivity].
          apply Nat.eqb_eq in E1. apply eqb_prop in E2. subst. exfalso. apply NI. apply in_map_iff. exists (i, k, n'). tauto. }
        rewrite Hne. split; [exact Eo|]. split; [lia|]. split; [lia|]. split; [|exact B4].
        intro Em. apply B3. rewrite Nat.add_mod by lia. rewrite Em, align4_mod. reflexivity.
    + intros i1 k1 n1 i2 k2 n2 o1 o2 I1 I2 Hne E1 E2. cbn [offset] in E1, E2.
      assert (A : forall i' k' n' o', In (i', k', n') rs -> (if (i' =? i) && eqb k' k then Some ofs else offset t0 i' k') = Some o' ->
                  offset t0 i' k' = Some o' /\ ofs + n <= o').
      { intros i' k' n' o' Hin Ho.
        destruct ((i' =? i) && eqb k' k) eqn:E3.
        - apply andb_true_iff in E3. destruct E3 as [E3 E4]. apply Nat.eqb_eq in E3. apply eqb_prop in E4. subst.
          exfalso. apply NI. apply in_map_iff. exists (i, k, n'). tauto.
        - split; [exact Ho|]. destruct (H1 _ _ _ Hin) as (o & Eo & B & _). assert (o = o') by congruence. lia. }
      destruct I1 as [I1|I1]; destruct I2 as [I2|I2].
      * exfalso. apply Hne. congruence.
      * injection I1 as <- <- <-. rewrite Nat.eqb_refl, eqb_reflx in E1. cbn [andb] in E1. injection E1 as <-.
        left. apply (A _ _ _ _ I2 E2).
      * injection I2 as <- <- <-. rewrite Nat.eqb_refl, eqb_reflx in E2. cbn [andb] in E2. injection E2 as <-.
        right. apply (A _ _ _ _ I1 E1).
      * apply (H2 i1 k1 n1 i2 k2 n2); try assumption; [apply (A _ _ _ _ I1 E1)|apply (A _ _ _ _ I2 E2)].
    + intros i' k' Hn. cbn [map rkey fst] in Hn. cbn [offset].
      destruct ((i' =? i) && eqb k' k) eqn:E3.
      * apply andb_true_iff in E3. destruct E3 as [E3 E4]. apply Nat.eqb_eq in E3. apply eqb_prop in E4. subst.
        exfalso. apply Hn. left. reflexivity.
      * apply H3. intro Hc. apply Hn. right. exact Hc.
Qed.

Lemma requests_key : forall m i s j k n, In (j, k, n) (requests m i s) -> j = i.
Proof.
  intros m i s j k n H. unfold requests in H. apply in_app_or in H. destruct H as [H|H].
  - destruct m as [|v|nov]; [contradiction|destruct v; [|contradiction]|destruct (nov || sf_same s); [contradiction|]];
      destruct H as [H|[]]; congruence.
  - destruct (nst s =? 0); [contradiction|]. destruct H as [H|[]]. congruence.
Qed.

Lemma requests_nodup : forall m i s, NoDup (map rkey (requests m i s)).
Proof.
  intros m i s. unfold requests. rewrite map_app.
  destruct m as [|[|]|nov]; [|..|destruct (nov || sf_same s)]; destruct (nst s =? 0); cbn; repeat constructor; cbn; intuition congruence.
Qed.

Lemma all_requests_key : forall m ss i j k n, In (j, k, n) (all_requests m i ss) -> i <= j.
Proof.
  induction ss as [|o ss IH]; intros i j k n H; [contradiction|]. cbn [all_requests] in H. apply in_app_or in H.
  destruct H as [H|H]; [|apply IH in H; lia].
  destruct o as [s|]; [|contradiction]. apply requests_key in H. lia.
Qed.

Lemma nodup_app : forall A (a b : list A), NoDup a -> NoDup b -> (forall x, In x a -> ~ In x b) -> NoDup (a ++ b).
Proof.
  induction a as [|h t IH]; intros b Ha Hb Hd; [exact Hb|]. inversion Ha as [|x xs Hn Ht E]; subst.
  cbn [app]. constructor.
  - intro Hi. apply in_app_or in Hi. destruct Hi as [Hi|Hi]; [contradiction|]. apply (Hd h); [left; reflexivity|exact Hi].
  - apply IH; [exact Ht|exact Hb|]. intros x Hx. apply Hd. right. exact Hx.
Qed.

Lemma all_requests_nodup : forall m ss i, NoDup (map rkey (all_requests m i ss)).
Proof.
  induction ss as [|o ss IH]; intro i; cbn [all_requests]; [constructor|]. rewrite map_app. apply nodup_app.
  - destruct o as [s|]; [apply requests_nodup|constructor].
  - apply IH.
  - intros [j k] H1 H2. apply in_map_iff in H1. destruct H1 as ([[j1 k1] n1] & E1 & I1).
    apply in_map_iff in H2. destruct H2 as ([[j2 k2] n2] & E2 & I2). cbn in E1, E2.
    destruct o as [s|]; [|contradiction]. apply requests_key in I1. apply all_requests_key in I2. assert (j1 = j2) by congruence. lia.
Qed.

Lemma all_requests_in : forall m ss i j s, nth_error ss j = Some (Some s) -> forall r, In r (requests m (i + j) s) -> In r (all_requests m i ss).
Proof.
  induction ss as [|o ss IH]; intros i j s E r Hr; [destruct j; discriminate|]. cbn [all_requests]. apply in_or_app.
  destruct j as [|j]; cbn [nth_error] in E.
  - injection E as ->. left. rewrite Nat.add_0_r in Hr. exact Hr.
  - right. apply (IH (S i) j s E). replace (S i + j) with (i + S j) by lia. exact Hr.
Qed.

(* ---- what is written for a block ---- *)

Definition g_ (p : pix) := fst (fst p).
Definition c_ (p : pix) := snd (fst p).
Definition d_ (p : pix) := snd p.
Definition pix_ok (size : nat) (p : pix) : Prop := length (g_ p) = size /\ length (c_ p) = 3 * size /\ length (d_ p) = 3 * size.

Lemma put_bytes_in : forall buf o l j v, nth_error l j = Some v -> In (buf, o + j, v) (put_bytes buf o l).
Proof.
  intros buf o l. revert o. induction l as [|x l IH]; intros o j v H; [destruct j; discriminate|].
  destruct j as [|j]; cbn [nth_error] in H; unfold put_bytes; cbn [length seq combine map fst snd].
  - injection H as ->. left. rewrite Nat.add_0_r. reflexivity.
  - right. replace (o + S j) with (S o + j) by lia. apply (IH (S o) j v H).
Qed.

Lemma put_bytes_range : forall buf o l b a v, In (b, a, v) (put_bytes buf o l) -> b = buf /\ o <= a < o + length l.
Proof.
  intros buf o l b a v H. unfold put_bytes in H. apply in_map_iff in H. destruct H as ([a' v'] & E & H). cbn [fst snd] in E.
  injection E as <- <- <-. apply in_combine_l in H. apply in_seq in H. split; [reflexivity|lia].
Qed.

Lemma put_bytes_nodup : forall buf o l, NoDup (map wkey (put_bytes buf o l)).
Proof.
  intros buf o l. revert o. induction l as [|x l IH]; intro o; [constructor|].
  unfold put_bytes. cbn [length seq combine map fst snd wkey]. constructor; [|apply (IH (S o))].
  intro H. apply in_map_iff in H. destruct H as ([[b a] v] & E & H). cbn in E. injection E as -> ->.
  apply (put_bytes_range buf (S o)) in H. lia.
Qed.

Definition in_block (o n : nat) (w : byte_w) : Prop :=
  match fst (fst w) with O => o <= snd (fst w) < o + n | _ => 3 * o <= snd (fst w) < 3 * (o + n) end.

Lemma put_maps_spec : forall b size ps o, Forall (pix_ok size) ps ->
  Forall (in_block o (size * length ps)) (put_maps b o size ps) /\
  NoDup (map wkey (put_maps b o size ps)) /\
  (forall k p, nth_error ps k = Some p ->
     (has_out b = true -> forall j v, nth_error (g_ p) j = Some v -> In (0, o + k * size + j, v) (put_maps b o size ps)) /\
     (has_lit b = true -> forall j v, nth_error (c_ p) j = Some v -> In (1, 3 * (o + k * size) + j, v) (put_maps b o size ps)) /\
     (has_lux b = true -> forall j v, nth_error (d_ p) j = Some v -> In (2, 3 * (o + k * size) + j, v) (put_maps b o size ps))).
Proof.
  induction ps as [|[[g c] d] ps IH]; intros o F.
  - cbn. split; [constructor|]. split; [constructor|]. intros k p H. destruct k; discriminate.
  - inversion F as [|x xs Fx Fs E]; subst. destruct Fx as (Lg & Lc & Ld). cbn [g_ c_ d_ fst snd] in Lg, Lc, Ld.
    destruct (IH (o + size) Fs) as (R & ND & I).
    cbn [put_maps length].
    set (wg := if has_out b then put_bytes 0 o g else []).
    set (wc := if has_lit b then put_bytes 1 (o * 3) c else []).
    set (wd := if has_lux b then put_bytes 2 (o * 3) d else []).
    set (wr := put_maps b (o + size) size ps) in *.
    assert (Rg : forall bb a v, In (bb, a, v) wg -> bb = 0 /\ o <= a < o + size).
    { intros bb a v H. unfold wg in H. destruct (has_out b); [|contradiction]. apply put_bytes_range in H. lia. }
    assert (Rc : forall bb a v, In (bb, a, v) wc -> bb = 1 /\ 3 * o <= a < 3 * (o + size)).
    { intros bb a v H. unfold wc in H. destruct (has_lit b); [|contradiction]. apply put_bytes_range in H. lia. }
    assert (Rd : forall bb a v, In (bb, a, v) wd -> bb = 2 /\ 3 * o <= a < 3 * (o + size)).
    { intros bb a v H. unfold wd in H. destruct (has_lux b); [|contradiction]. apply put_bytes_range in H. lia. }
    rewrite Forall_forall in R.
    split; [|split].
    + apply Forall_forall. intros [[bb a] v] H. unfold in_block. cbn [fst snd].
      rewrite Nat.mul_succ_r.
      apply in_app_or in H. destruct H as [H|H]; [apply Rg in H; destruct H as [-> H]; lia|].
      apply in_app_or in H. destruct H as [H|H]; [apply Rc in H; destruct H as [-> H]; lia|].
      apply in_app_or in H. destruct H as [H|H]; [apply Rd in H; destruct H as [-> H]; lia|].
      apply R in H. unfold in_block in H. cbn [fst snd] in H. destruct bb; lia.
    + rewrite !map_app.
      assert (NDx : forall (f : bool) buf oo l, NoDup (map wkey (if f then put_bytes buf oo l else []))).
      { intros f buf oo l. destruct f; [apply put_bytes_nodup|constructor]. }
      assert (K : forall l x, In x (map wkey l) -> exists v, In (x, v) l).
      { intros l x H. apply in_map_iff in H. destruct H as ([x' v] & E1 & H). cbn in E1. subst x'. exists v. exact H. }
      assert (Rr : forall bb a v, In (bb, a, v) wr -> match bb with O => o + size <= a | _ => 3 * (o + size) <= a end).
      { intros bb a v H. apply R in H. unfold in_block in H. cbn [fst snd] in H. destruct bb; lia. }
      apply nodup_app; [apply NDx| |].
      apply nodup_app; [apply NDx| |].
      apply nodup_app; [apply NDx|exact ND|].
      * intros [bb a] H1 H2. apply K in H1. destruct H1 as [v1 H1]. apply K in H2. destruct H2 as [v2 H2].
        apply Rd in H1. destruct H1 as [-> H1]. apply Rr in H2. lia.
      * intros [bb a] H1 H2. apply K in H1. destruct H1 as [v1 H1]. apply Rc in H1. destruct H1 as [-> H1].
        apply in_app_or in H2. destruct H2 as [H2|H2]; apply K in H2; destruct H2 as [v2 H2].
        -- apply Rd in H2. lia.
        -- apply Rr in H2. lia.
      * intros [bb a] H1 H2. apply K in H1. destruct H1 as [v1 H1]. apply Rg in H1. destruct H1 as [-> H1].
        apply in_app_or in H2. destruct H2 as [H2|H2]; [apply K in H2; destruct H2 as [v2 H2]; apply Rc in H2; lia|].
        apply in_app_or in H2. destruct H2 as [H2|H2]; apply K in H2; destruct H2 as [v2 H2].
        -- apply Rd in H2. lia.
        -- apply Rr in H2. lia.
    + intros k p H. destruct k as [|k]; cbn [nth_error] in H.
      * injection H as <-. cbn [g_ c_ d_ fst snd]. rewrite Nat.mul_0_l, Nat.add_0_r. split; [|split].
        -- intros Hb j v Hj. apply in_or_app. left. unfold wg. rewrite Hb. apply put_bytes_in. exact Hj.
        -- intros Hb j v Hj. apply in_or_app. right. apply in_or_app. left. unfold wc. rewrite Hb.
           rewrite (Nat.mul_comm 3 o). apply put_bytes_in. exact Hj.
        -- intros Hb j v Hj. do 2 (apply in_or_app; right). apply in_or_app. left. unfold wd. rewrite Hb.
           rewrite (Nat.mul_comm 3 o). apply put_bytes_in. exact Hj.
      * destruct (I k p H) as (I1 & I2 & I3). replace (o + S k * size) with (o + size + k * size) by lia.
        split; [|split]; intros Hb j v Hj; do 3 (apply in_or_app; right); [apply I1|apply I2|apply I3]; assumption.
Qed.

(* ---- one face ---- *)

Definition good (m : mode) (s : surf) : Prop := match m with Sup nov => nov || sf_same s = true | _ => True end.

Definition face_blocks (m : mode) (s : surf) (px vpx : nat -> pix) : list (bool * nat * (nat -> pix)) :=
  if nst s =? 0 then [] else
  (false, sf_size s, px) :: match m with Decoupled true => [(true, sf_vsize s, vpx)] | _ => [] end.

Definition off (t : table) (i : nat) (k : bool) : nat := match offset t i k with Some o => o | None => 0 end.

Definition block_writes (b : bufs) (t : table) (i : nat) (s : surf) (x : bool * nat * (nat -> pix)) : list byte_w :=
  put_maps b (off t i (fst (fst x))) (snd (fst x)) (map (snd x) (seq 0 (nst s))).

Definition val (rgb : bool) (o : nat) : Z := if rgb then (3 * Z.of_nat o)%Z else Z.of_nat o.

Lemma ofs_value_ok : forall rgb b o v, ofs_value rgb b o = ROk v -> v = val rgb o.
Proof. intros rgb b o v. unfold ofs_value, val. destruct (_ && _); [discriminate|]. intro H. injection H as <-. reflexivity. Qed.

Lemma ofs_value_succ : forall rgb b o, (3 * Z.of_nat o <= 2147483647)%Z -> ofs_value rgb b o = ROk (val rgb o).
Proof.
  intros rgb b o H. unfold ofs_value, val. destruct (2147483647 <? 3 * Z.of_nat o)%Z eqn:E; [apply Z.ltb_lt in E; lia|].
  rewrite andb_false_r. reflexivity.
Qed.

Definition fields (m : mode) (rgb : bool) (t : table) (i : nat) (s : surf) (f f' : out_face) : Prop :=
  match m with
  | Plain => f_ofs f' = (if nst s =? 0 then f_ofs f else val rgb (off t i false)) /\
             f_styles f' = (if nst s =? 0 then f_styles f else face_styles (sf_styles s))
  | Decoupled v => d_ofs f' = (if nst s =? 0 then d_ofs f else val rgb (off t i false)) /\
                   f_ofs f' = (if nst s =? 0 then f_ofs f else if v then val rgb (off t i true) else (-1)%Z) /\
                   f_styles f' = (if nst s =? 0 then f_styles f else face_styles (sf_styles s))
  | Sup _ => s_ofs f' = (if nst s =? 0 then s_ofs f else val rgb (off t i false)) /\
             s_styles f' = (if nst s =? 0 then s_styles f else sup_styles (sf_styles s)) /\
             f_ofs f' = (if sf_same s then s_ofs f else (-1)%Z)
  end.

Lemma save_face_spec : forall m rgb b t total i s px vpx f f' w, good m s ->
  save_face m rgb b t total i s px vpx f = ROk (f', w) ->
  w = flat_map (block_writes b t i s) (face_blocks m s px vpx) /\ fields m rgb t i s f f'.
Proof.
  intros m rgb b t total i s px vpx f f' w G H.
  assert (Sv : forall to f0 f1 w1, save rgb b t total i (sf_styles s) (sf_size s) px vpx (sf_vsize s) to f0 = ROk (f1, w1) ->
    (nst s = 0 -> f1 = f0 /\ w1 = []) /\
    (nst s <> 0 -> 
      match to with
      | ToFace => w1 = put_maps b (off t i false) (sf_size s) (map px (seq 0 (nst s))) /\
                  f1 = mkOut (val rgb (off t i false)) (face_styles (sf_styles s)) (s_ofs f0) (s_styles f0) (d_ofs f0)
      | ToSup => w1 = put_maps b (off t i false) (sf_size s) (map px (seq 0 (nst s))) /\
                 f1 = mkOut (f_ofs f0) (f_styles f0) (val rgb (off t i false)) (sup_styles (sf_styles s)) (d_ofs f0)
      | ToDecoupled v => w1 = put_maps b (off t i false) (sf_size s) (map px (seq 0 (nst s))) ++
                              (if v then put_maps b (off t i true) (sf_vsize s) (map vpx (seq 0 (nst s))) else []) /\
                 f1 = mkOut (if v then val rgb (off t i true) else (-1)%Z) (face_styles (sf_styles s)) (s_ofs f0) (s_styles f0) (val rgb (off t i false))
      end)).
  { intros to f0 f1 w1 E. unfold save in E. unfold nst. destruct (sf_styles s) as [|st0 sts] eqn:Es.
    - injection E as <- <-. split; [tauto|]. intro Hc. cbn in Hc. congruence.
    - split; [intro Hc; cbn in Hc; congruence|]. intros _. rewrite <- Es in *. unfold off.
      destruct (offset t i false) as [o|] eqn:Eo; [|discriminate].
      destruct (ofs_value rgb b o) as [v| |] eqn:Ev; [|discriminate|discriminate]. cbn [rbind] in E.
      apply ofs_value_ok in Ev. subst v.
      destruct (total <? o + sf_size s * length (sf_styles s)); [discriminate|].
      destruct to as [| |[|]].
      + injection E as <- <-. tauto.
      + injection E as <- <-. tauto.
      + destruct (offset t i true) as [o2|] eqn:Eo2; [|discriminate].
        destruct (ofs_value rgb b o2) as [v2| |] eqn:Ev2; [|discriminate|discriminate]. cbn [rbind] in E.
        apply ofs_value_ok in Ev2. subst v2. injection E as <- <-. tauto.
      + injection E as <- <-. rewrite app_nil_r. tauto. }
  unfold face_blocks, fields. destruct m as [|v|nov].
  - cbn [save_face] in H. apply Sv in H. destruct H as [H0 H1].
    destruct (nst s =? 0) eqn:En; [apply Nat.eqb_eq in En|apply Nat.eqb_neq in En].
    + destruct (H0 En) as [-> ->]. cbn. tauto.
    + destruct (H1 En) as [-> ->]. cbn [flat_map block_writes fst snd]. unfold block_writes. cbn [fst snd]. rewrite app_nil_r. cbn. tauto.
  - cbn [save_face] in H. apply Sv in H. destruct H as [H0 H1].
    destruct (nst s =? 0) eqn:En; [apply Nat.eqb_eq in En|apply Nat.eqb_neq in En].
    + destruct (H0 En) as [-> ->]. cbn. tauto.
    + destruct (H1 En) as [-> ->]. destruct v; cbn [flat_map]; unfold block_writes; cbn [fst snd]; rewrite ?app_nil_r; cbn; tauto.
  - cbn [save_face good] in *. rewrite G in H.
    destruct (save rgb b t total i (sf_styles s) (sf_size s) px vpx (sf_vsize s) ToSup _) as [[f1 w1]| |] eqn:E;
      [|discriminate|discriminate]. cbn [rbind fst snd] in H. injection H as <- <-. apply Sv in E. destruct E as [H0 H1].
    destruct (nst s =? 0) eqn:En; [apply Nat.eqb_eq in En|apply Nat.eqb_neq in En].
    + destruct (H0 En) as [-> ->]. cbn. tauto.
    + destruct (H1 En) as [-> ->]. cbn [flat_map]. unfold block_writes. cbn [fst snd]. rewrite app_nil_r. cbn. tauto.
Qed.

Lemma blocks_requested : forall m i s px vpx k size p, In (k, size, p) (face_blocks m s px vpx) -> In (i, k, size * nst s) (requests m i s).
Proof.
  intros m i s px vpx k size p H. unfold face_blocks, requests in *.
  destruct (nst s =? 0); [contradiction|]. apply in_or_app.
  destruct H as [H|H]; [injection H as <- <- <-; right; left; reflexivity|].
  destruct m as [|[|]|nov]; try contradiction. destruct H as [H|[]]. injection H as <- <- <-. left. left. reflexivity.
Qed.

Definition table_ok (rs : list req) (t : table) (total : nat) : Prop :=
  (forall i k n, In (i, k, n) rs -> exists o, offset t i k = Some o /\ o + n <= total) /\
  (forall i k n i' k' n' o o', In (i, k, n) rs -> In (i', k', n') rs -> (i, k) <> (i', k') ->
      offset t i k = Some o -> offset t i' k' = Some o' -> o + n <= o' \/ o' + n' <= o).

Lemma allocate_table : forall rs t total, NoDup (map rkey rs) -> allocate rs 0 = ROk (t, total) -> table_ok rs t total.
Proof.
  intros rs t total ND H. destruct (allocate_spec rs 0 t total ND H) as (_ & _ & H1 & H2 & _). split; [|exact H2].
  intros i k n Hin. destruct (H1 i k n Hin) as (o & Eo & _ & B & _). exists o. pose proof (align4_ge n). split; [exact Eo|lia].
Qed.

Lemma save_face_succ : forall m rgb b t total i s px vpx f rs, good m s ->
  table_ok rs t total -> incl (requests m i s) rs -> (3 * Z.of_nat total <= 2147483647)%Z ->
  exists f' w, save_face m rgb b t total i s px vpx f = ROk (f', w).
Proof.
  intros m rgb b t total i s px vpx f rs G [T1 _] I B.
  assert (Sv : forall to f0, (to = ToDecoupled true -> m = Decoupled true) ->
     exists f1 w1, save rgb b t total i (sf_styles s) (sf_size s) px vpx (sf_vsize s) to f0 = ROk (f1, w1)).
  { intros to f0 Hto. unfold save. destruct (sf_styles s) as [|st0 sts] eqn:Es; [eauto|]. rewrite <- Es.
    assert (En : (nst s =? 0) = false) by (unfold nst; rewrite Es; reflexivity).
    destruct (T1 i false (sf_size s * nst s)) as (o & Eo & Bo).
    { apply I. unfold requests. rewrite En. apply in_or_app. right. left. reflexivity. }
    rewrite Eo. rewrite ofs_value_succ by lia. cbn [rbind]. unfold nst in Bo.
    destruct (total <? o + sf_size s * length (sf_styles s)) eqn:Et; [apply Nat.ltb_lt in Et; lia|].
    destruct to as [| |[|]]; try (eexists; eexists; reflexivity).
    destruct (T1 i true (sf_vsize s * nst s)) as (o2 & Eo2 & Bo2).
    { apply I. unfold requests. rewrite (Hto eq_refl). left. reflexivity. }
    rewrite Eo2. rewrite ofs_value_succ by lia. cbn [rbind]. eexists; eexists; reflexivity. }
  destruct m as [|v|nov]; cbn [save_face].
  - apply Sv. discriminate.
  - apply Sv. intro E. congruence.
  - cbn [good] in G. rewrite G. destruct (Sv ToSup (mkOut (if sf_same s then s_ofs f else (-1)%Z) (f_styles f) (s_ofs f) (s_styles f) (d_ofs f))) as (f1 & w1 & E); [discriminate|].
    rewrite E. cbn [rbind]. eexists; eexists; reflexivity.
Qed.

(* ---- all faces ---- *)

Definition pixels_ok (m : mode) (ss : list (option surf)) (px vpx : nat -> nat -> pix) : Prop :=
  forall i s k, nth_error ss i = Some (Some s) -> k < nst s -> pix_ok (sf_size s) (px i k) /\ pix_ok (sf_vsize s) (vpx i k).

Definition written_by (t : table) (rs : list req) (w : byte_w) : Prop :=
  exists j k n o, In (j, k, n) rs /\ offset t j k = Some o /\ in_block o n w.

Lemma in_block_disjoint : forall o n o' n' w, in_block o n w -> in_block o' n' w -> o + n <= o' \/ o' + n' <= o -> False.
Proof. intros o n o' n' [[b a] v] H H' D. unfold in_block in *. cbn [fst snd] in *. destruct b; lia. Qed.

Lemma in_block_key : forall o n w w', wkey w = wkey w' -> in_block o n w -> in_block o n w'.
Proof. intros o n [x v] [x' v'] E H. cbn in E. subst x'. exact H. Qed.

Lemma written_disjoint : forall rs t total r1 r2 w1 w2, table_ok rs t total ->
  incl r1 rs -> incl r2 rs -> (forall x y, In x r1 -> In y r2 -> rkey x <> rkey y) ->
  written_by t r1 w1 -> written_by t r2 w2 -> wkey w1 <> wkey w2.
Proof.
  intros rs t total r1 r2 w1 w2 [_ T2] I1 I2 D (j1 & k1 & n1 & o1 & A1 & B1 & C1) (j2 & k2 & n2 & o2 & A2 & B2 & C2) E.
  assert (Hk : (j1, k1) <> (j2, k2)) by apply (D _ _ A1 A2).
  apply (in_block_disjoint o1 n1 o2 n2 w2); [apply (in_block_key _ _ w1); assumption|assumption|].
  apply (T2 j1 k1 n1 j2 k2 n2); auto.
Qed.

Lemma face_writes_ok : forall m rs b t total i s px vpx, table_ok rs t total -> incl (requests m i s) rs -> 
  (forall k, k < nst s -> pix_ok (sf_size s) (px k) /\ pix_ok (sf_vsize s) (vpx k)) ->
  NoDup (map wkey (flat_map (block_writes b t i s) (face_blocks m s px vpx))) /\
  Forall (written_by t (requests m i s)) (flat_map (block_writes b t i s) (face_blocks m s px vpx)).
Proof.
  intros m rs b t total i s px vpx T I P.
  assert (Bl : forall k size p, In (k, size, p) (face_blocks m s px vpx) ->
     NoDup (map wkey (block_writes b t i s (k, size, p))) /\
     Forall (written_by t [(i, k, size * nst s)]) (block_writes b t i s (k, size, p))).
  { intros k size p Hin. unfold block_writes. cbn [fst snd].
    assert (F : Forall (pix_ok size) (map p (seq 0 (nst s)))).
    { apply Forall_forall. intros q Hq. apply in_map_iff in Hq. destruct Hq as (j & <- & Hj). apply in_seq in Hj.
      destruct (P j) as [P1 P2]; [lia|]. unfold face_blocks in Hin. destruct (nst s =? 0); [contradiction|].
      destruct Hin as [Hin|Hin]; [injection Hin as <- <- <-; exact P1|].
      destruct m as [|[|]|]; try contradiction. destruct Hin as [Hin|[]]. injection Hin as <- <- <-. exact P2. }
    destruct (put_maps_spec b size _ (off t i k) F) as (R & ND & _). split; [exact ND|].
    rewrite map_length, seq_length in R.
    eapply Forall_impl; [|exact R]. intros w Hw. exists i, k, (size * nst s), (off t i k).
    split; [left; reflexivity|]. split; [|exact Hw].
    destruct T as [T1 _]. destruct (T1 i k (size * nst s)) as (o & Eo & _).
    { apply I. eapply blocks_requested. exact Hin. }
    unfold off. rewrite Eo. reflexivity. }
  assert (Wm : forall k size p w, In (k, size, p) (face_blocks m s px vpx) -> written_by t [(i, k, size * nst s)] w -> written_by t (requests m i s) w).
  { intros k size p w Hin (j & k' & n & o & [A|[]] & Bo & C). injection A as <- <- <-. exists i, k, (size * nst s), o.
    split; [eapply blocks_requested; exact Hin|]. split; assumption. }
  split.
  - unfold face_blocks in *. destruct (nst s =? 0) eqn:En; [constructor|].
    destruct m as [|[|]|nov]; cbn [flat_map]; rewrite ?app_nil_r.
    + apply (Bl false (sf_size s) px). left. reflexivity.
    + rewrite map_app. destruct (Bl false (sf_size s) px (or_introl eq_refl)) as [N1 F1].
      destruct (Bl true (sf_vsize s) vpx (or_intror (or_introl eq_refl))) as [N2 F2].
      apply nodup_app; [exact N1|exact N2|]. intros x H1 H2. apply in_map_iff in H1. destruct H1 as (w1 & E1 & H1).
      apply in_map_iff in H2. destruct H2 as (w2 & E2 & H2). rewrite Forall_forall in F1, F2.
      apply (written_disjoint rs t total [(i, false, sf_size s * nst s)] [(i, true, sf_vsize s * nst s)] w1 w2 T).
      * intros r [<-|[]]. apply I. unfold requests. rewrite En. right. left. reflexivity.
      * intros r [<-|[]]. apply I. left. reflexivity.
      * intros x0 y0 [<-|[]] [<-|[]]. cbn. congruence.
      * apply F1. exact H1.
      * apply F2. exact H2.
      * congruence.
    + apply (Bl false (sf_size s) px). left. reflexivity.
    + apply (Bl false (sf_size s) px). left. reflexivity.
  - apply Forall_forall. intros w Hw. apply in_flat_map in Hw. destruct Hw as ([[k size] p] & Hb & Hw).
    destruct (Bl k size p Hb) as [_ F]. rewrite Forall_forall in F. apply (Wm k size p w Hb). apply F. exact Hw.
Qed.

Lemma save_all_spec : forall m rgb b rs t total px vpx ss i fs fs' ws,
  table_ok rs t total -> incl (all_requests m i ss) rs -> length fs = length ss ->
  (forall j s, nth_error ss j = Some (Some s) -> good m s) ->
  (forall j s k, nth_error ss j = Some (Some s) -> k < nst s -> pix_ok (sf_size s) (px (i + j) k) /\ pix_ok (sf_vsize s) (vpx (i + j) k)) ->
  save_all m rgb b t total i ss px vpx fs = ROk (fs', ws) ->
  NoDup (map wkey ws) /\ Forall (written_by t (all_requests m i ss)) ws /\ length fs' = length fs /\
  (forall j o f, nth_error ss j = Some o -> nth_error fs j = Some f -> exists f', nth_error fs' j = Some f' /\
     match o with None => f' = f
     | Some s => exists w, save_face m rgb b t total (i + j) s (px (i + j)) (vpx (i + j)) f = ROk (f', w) /\ incl w ws end).
Proof.
  induction ss as [|o ss IH]; intros i fs fs' ws T I L G P H.
  - destruct fs; [|discriminate]. cbn in H. injection H as <- <-. cbn. split; [constructor|]. split; [constructor|].
    split; [reflexivity|]. intros j o f E. destruct j; discriminate.
  - destruct fs as [|f fs]; [discriminate|]. cbn [save_all] in H.
    destruct (match o with Some s => save_face m rgb b t total i s (px i) (vpx i) f | None => ROk (f, []) end) as [[f1 w1]| |] eqn:E1;
      [|discriminate|discriminate]. cbn [rbind] in H.
    destruct (save_all m rgb b t total (S i) ss px vpx fs) as [[fs1 ws1]| |] eqn:E2; [|discriminate|discriminate].
    cbn [rbind fst snd] in H. injection H as <- <-.
    cbn [all_requests] in I.
    assert (I1 : incl (match o with Some s => requests m i s | None => [] end) rs) by (intros r Hr; apply I, in_or_app; left; exact Hr).
    assert (I2 : incl (all_requests m (S i) ss) rs) by (intros r Hr; apply I, in_or_app; right; exact Hr).
    destruct (IH (S i) fs fs1 ws1 T I2) as (ND & F & L' & Hn); [cbn in L; lia|..|exact E2|].
    { intros j s Ej. apply (G (S j) s). exact Ej. }
    { intros j s k Ej Hk. specialize (P (S j) s k Ej Hk). replace (i + S j) with (S i + j) in P by lia. exact P. }
    assert (W1 : NoDup (map wkey w1) /\ Forall (written_by t (match o with Some s => requests m i s | None => [] end)) w1).
    { destruct o as [s|]; [|injection E1 as <- <-; split; constructor].
      destruct (save_face_spec m rgb b t total i s _ _ f f1 w1 (G 0 s eq_refl) E1) as [-> _].
      apply (face_writes_ok m rs b t total i s (px i) (vpx i) T I1). intros k Hk.
      specialize (P 0 s k eq_refl Hk). rewrite Nat.add_0_r in P. exact P. }
    destruct W1 as [N1 F1]. rewrite Forall_forall in F, F1.
    split; [|split; [|split]].
    + rewrite map_app. apply nodup_app; [exact N1|exact ND|]. intros x H1 H2.
      apply in_map_iff in H1. destruct H1 as (w & Ew & H1). apply in_map_iff in H2. destruct H2 as (w' & Ew' & H2).
      apply (written_disjoint rs t total _ _ w w' T I1 I2); [|apply F1; exact H1|apply F; exact H2|congruence].
      intros [[j1 k1] n1] [[j2 k2] n2] R1 R2 Ek. cbn in Ek. destruct o as [s|]; [|contradiction].
      apply requests_key in R1. apply all_requests_key in R2. assert (j1 = j2) by congruence. lia.
    + apply Forall_forall. intros w Hw. cbn [all_requests].
      assert (Mono : forall r1 r2, incl r1 r2 -> written_by t r1 w -> written_by t r2 w).
      { intros r1 r2 Hi (j & k & n & oo & A & B & C). exists j, k, n, oo. split; [apply Hi; exact A|]. split; assumption. }
      apply in_app_or in Hw. destruct Hw as [Hw|Hw].
      * eapply Mono; [|apply F1; exact Hw]. apply incl_appl, incl_refl.
      * eapply Mono; [|apply F; exact Hw]. apply incl_appr, incl_refl.
    + cbn [length]. lia.
    + intros j o0 f0 Eo Ef. destruct j as [|j]; cbn [nth_error] in Eo, Ef |- *.
      * injection Eo as <-. injection Ef as <-. exists f1. split; [reflexivity|]. rewrite Nat.add_0_r.
        destruct o as [s|]; [|injection E1 as -> _; reflexivity]. exists w1. split; [exact E1|]. apply incl_appl, incl_refl.
      * destruct (Hn j o0 f0 Eo Ef) as (f' & Ef' & Hf'). exists f'. split; [exact Ef'|].
        replace (i + S j) with (S i + j) by lia. destruct o0 as [s|]; [|exact Hf'].
        destruct Hf' as (w & Esf & Hi). exists w. split; [exact Esf|]. apply incl_appr. exact Hi.
Qed.

Lemma save_all_succ : forall m rgb b rs t total px vpx ss i fs,
  table_ok rs t total -> incl (all_requests m i ss) rs -> length fs = length ss ->
  (forall j s, nth_error ss j = Some (Some s) -> good m s) -> (3 * Z.of_nat total <= 2147483647)%Z ->
  exists fs' ws, save_all m rgb b t total i ss px vpx fs = ROk (fs', ws).
Proof.
  induction ss as [|o ss IH]; intros i fs T I L G B.
  - destruct fs; [|discriminate]. eexists; eexists; reflexivity.
  - destruct fs as [|f fs]; [discriminate|]. cbn [save_all]. cbn [all_requests] in I.
    assert (H1 : exists f1 w1, match o with Some s => save_face m rgb b t total i s (px i) (vpx i) f | None => ROk (f, []) end = ROk (f1, w1)).
    { destruct o as [s|]; [|eexists; eexists; reflexivity]. apply (save_face_succ m rgb b t total i s _ _ f rs (G 0 s eq_refl) T); [|exact B].
      intros r Hr. apply I, in_or_app. left. exact Hr. }
    destruct H1 as (f1 & w1 & ->). cbn [rbind].
    destruct (IH (S i) fs T) as (fs' & ws & ->); [intros r Hr; apply I, in_or_app; right; exact Hr|cbn in L; lia| |exact B|].
    { intros j s Ej. apply (G (S j) s). exact Ej. }
    cbn [rbind]. eexists; eexists; reflexivity.
Qed.

Lemma allocate_succ : forall rs ofs, (Z.of_nat (ofs + list_sum (map (fun r : req => align4 (snd r)) rs)) <= 2147483647)%Z ->
  exists t, allocate rs ofs = ROk (t, ofs + list_sum (map (fun r : req => align4 (snd r)) rs)).
Proof.
  induction rs as [|[[i k] n] rs IH]; intros ofs H.
  - cbn. rewrite Nat.add_0_r. eexists. reflexivity.
  - rewrite allocate_cons. cbn [map list_sum fold_right snd] in *. fold (list_sum (map (fun r : req => align4 (snd r)) rs)) in *.
    destruct (2147483647 <? Z.of_nat ofs)%Z eqn:E; [apply Z.ltb_lt in E; lia|].
    destruct (IH (ofs + align4 n)) as [t ->]; [rewrite <- Nat.add_assoc; exact H|].
    cbn [rbind fst snd]. rewrite <- Nat.add_assoc. eexists. reflexivity.
Qed.

(* ---- reading back ---- *)

Definition slice (l : list N) (o n : nat) : list N := firstn n (skipn o l).

Lemma slice_eq : forall l o d, (forall j v, nth_error d j = Some v -> nth_error l (o + j) = Some v) -> slice l o (length d) = d.
Proof.
  intros l o d. revert o. induction d as [|x d IH]; intros o H; [reflexivity|].
  unfold slice in *. cbn [length].
  pose proof (H 0 x eq_refl) as H0. rewrite Nat.add_0_r in H0.
  assert (E : skipn o l = x :: skipn (S o) l).
  { clear IH H. revert o H0. induction l as [|y l IHl]; intros o H0; [destruct o; discriminate|].
    destruct o as [|o]; cbn [nth_error] in H0; [injection H0 as ->; reflexivity|]. cbn [skipn]. rewrite (IHl o H0).
    destruct l; reflexivity. }
  rewrite E. cbn [firstn]. f_equal. apply IH. intros j v Hj. rewrite Nat.add_succ_comm. apply H. exact Hj.
Qed.

Lemma store_reads : forall m rgb b ss rs t total px vpx fs fs' ws,
  Permutation rs (all_requests m 0 ss) -> allocate rs 0 = ROk (t, total) -> length fs = length ss ->
  (forall i s, nth_error ss i = Some (Some s) -> good m s) -> pixels_ok m ss px vpx ->
  save_all m rgb b t total 0 ss px vpx fs = ROk (fs', ws) ->
  forall ws', Permutation ws ws' ->
  exists B0 B1 B2, final 0 total ws' = ROk B0 /\ final 1 total ws' = ROk B1 /\ final 2 total ws' = ROk B2 /\
    length B0 = total /\ length B1 = 3 * total /\ length B2 = 3 * total /\
    forall i s, nth_error ss i = Some (Some s) -> forall kd size p k, In (kd, size, p) (face_blocks m s (px i) (vpx i)) -> k < nst s ->
      (has_out b = true -> slice B0 (off t i kd + k * size) size = g_ (p k)) /\
      (has_lit b = true -> slice B1 (3 * (off t i kd + k * size)) (3 * size) = c_ (p k)) /\
      (has_lux b = true -> slice B2 (3 * (off t i kd + k * size)) (3 * size) = d_ (p k)).
Proof.
  intros m rgb b ss rs t total px vpx fs fs' ws Pr Al L G P Sv ws' Pw.
  assert (NDr : NoDup (map rkey rs)).
  { eapply Permutation_NoDup; [|apply (all_requests_nodup m ss 0)]. apply Permutation_map. symmetry. exact Pr. }
  pose proof (allocate_table rs t total NDr Al) as T.
  assert (I : incl (all_requests m 0 ss) rs) by (intros r Hr; eapply Permutation_in; [symmetry; exact Pr|exact Hr]).
  destruct (save_all_spec m rgb b rs t total px vpx ss 0 fs fs' ws T I L G P Sv) as (ND & F & L' & Hn).
  assert (ND' : NoDup (map wkey ws')) by (eapply Permutation_NoDup; [apply Permutation_map; exact Pw|exact ND]).
  rewrite Forall_forall in F.
  assert (Rng : forall buf a v, In (buf, a, v) ws' -> a < buf_size buf total).
  { intros buf a v Hin. apply (Permutation_in _ (Permutation_sym Pw)) in Hin. apply F in Hin.
    destruct Hin as (j & k & n & o & A & Eo & C). destruct T as [T1 _]. destruct (T1 j k n (I _ A)) as (o' & Eo' & Bo).
    assert (o' = o) by congruence. subst o'. unfold in_block in C. cbn [fst snd] in C. destruct buf; cbn [buf_size]; lia. }
  assert (Fin : forall buf, exists r, final buf total ws' = ROk r /\ length r = buf_size buf total /\ forall a v, In (buf, a, v) ws' -> nth_error r a = Some v).
  { intro buf. destruct (do_writes_spec buf ws' (repeat 0%N (buf_size buf total)) ND') as (r & Er & Lr & H1 & _).
    - intros a v Hin. rewrite repeat_length. eapply Rng. exact Hin.
    - exists r. rewrite repeat_length in Lr. split; [exact Er|]. split; [exact Lr|exact H1]. }
  destruct (Fin 0) as (B0 & E0 & L0 & R0). destruct (Fin 1) as (B1 & E1 & L1 & R1). destruct (Fin 2) as (B2 & E2 & L2 & R2).
  exists B0, B1, B2. split; [exact E0|]. split; [exact E1|]. split; [exact E2|]. split; [exact L0|]. split; [exact L1|]. split; [exact L2|].
  intros i s Es kd size p k Hb Hk.
  assert (Ef : exists f, nth_error fs i = Some f).
  { destruct (nth_error fs i) as [f|] eqn:Ef; [eauto|]. apply nth_error_None in Ef.
    assert (i < length ss) by (apply nth_error_Some; congruence). lia. }
  destruct Ef as [f Ef]. destruct (Hn i (Some s) f Es Ef) as (f' & _ & w & Esf & Hi). cbn [Nat.add] in Esf.
  destruct (save_face_spec _ _ _ _ _ _ _ _ _ _ _ _ (G i s Es) Esf) as [Ew _].
  assert (Fp : Forall (pix_ok size) (map p (seq 0 (nst s)))).
  { apply Forall_forall. intros q Hq. apply in_map_iff in Hq. destruct Hq as (j & <- & Hj). apply in_seq in Hj.
    destruct (P i s j Es ltac:(lia)) as [P1 P2]. unfold face_blocks in Hb. destruct (nst s =? 0); [contradiction|].
    destruct Hb as [Hb|Hb]; [injection Hb as <- <- <-; exact P1|].
    destruct m as [|[|]|]; try contradiction. destruct Hb as [Hb|[]]. injection Hb as <- <- <-. exact P2. }
  destruct (put_maps_spec b size _ (off t i kd) Fp) as (_ & _ & M).
  destruct (M k (p k)) as (M1 & M2 & M3).
  { rewrite nth_error_map. replace (nth_error (seq 0 (nst s)) k) with (Some k); [reflexivity|].
    symmetry. rewrite nth_error_nth' with (d := 0) by (rewrite seq_length; exact Hk). rewrite seq_nth by exact Hk. reflexivity. }
  assert (Wi : forall x, In x (put_maps b (off t i kd) size (map p (seq 0 (nst s)))) -> In x ws').
  { intros x Hx. apply (Permutation_in _ Pw). apply Hi. rewrite Ew. apply in_flat_map. exists (kd, size, p). split; [exact Hb|exact Hx]. }
  rewrite Forall_forall in Fp. destruct (Fp (p k)) as (Lg & Lc & Ld).
  { apply in_map. apply in_seq. lia. }
  split; [|split]; intro Hb'.
  - rewrite <- Lg at 2. apply slice_eq. intros j v Hj. apply R0, Wi, M1; assumption.
  - rewrite <- Lc. apply slice_eq. intros j v Hj. apply R1, Wi, M2; assumption.
  - rewrite <- Ld. apply slice_eq. intros j v Hj. apply R2, Wi, M3; assumption.
Qed.

(* ---- the choice of styles ---- *)

Local Open Scope Z_scope.

Lemma insert_perm : forall a l, Permutation (insert a l) (a :: l).
Proof.
  induction l as [|b t IH]; [reflexivity|]. cbn [insert]. destruct (before a b); [reflexivity|].
  rewrite IH. apply perm_swap.
Qed.

Lemma sort_perm : forall l, Permutation (sort_desc l) l.
Proof. induction l as [|a l IH]; [reflexivity|]. unfold sort_desc in *. cbn [fold_right]. rewrite insert_perm, IH. reflexivity. Qed.

Inductive desc : list (Z * nat) -> Prop :=
| desc_nil : desc []
| desc_cons : forall a l, (forall b, In b l -> fst b < fst a \/ (fst a = fst b /\ (snd b <= snd a)%nat)) -> desc l -> desc (a :: l).

Lemma insert_desc : forall a l, desc l -> desc (insert a l).
Proof.
  intros a l D. induction D as [|b l Hb D IH]; [repeat constructor; contradiction|]. cbn [insert].
  destruct (before a b) eqn:E; unfold before in E.
  - assert (Hab : fst b < fst a \/ (fst a = fst b /\ (snd b <= snd a)%nat)).
    { apply orb_true_iff in E. destruct E as [E|E]; [apply Z.ltb_lt in E; lia|]. apply andb_true_iff in E. destruct E as [E1 E2].
      apply Z.eqb_eq in E1. apply Nat.ltb_lt in E2. lia. }
    constructor; [|constructor; assumption]. intros c [<-|Hc]; [exact Hab|]. specialize (Hb c Hc). lia.
  - apply orb_false_iff in E. destruct E as [E1 E2]. apply Z.ltb_ge in E1.
    assert (Hba : fst a < fst b \/ (fst b = fst a /\ (snd a <= snd b)%nat)).
    { apply andb_false_iff in E2. destruct E2 as [E2|E2]; [apply Z.eqb_neq in E2; lia|apply Nat.ltb_ge in E2; lia]. }
    constructor; [|exact IH]. intros c Hc. apply (Permutation_in _ (insert_perm a l)) in Hc. destruct Hc as [<-|Hc]; [exact Hba|apply Hb; exact Hc].
Qed.

Lemma sort_is_desc : forall l, desc (sort_desc l).
Proof. induction l as [|a l IH]; [constructor|]. unfold sort_desc. cbn [fold_right]. apply insert_desc. exact IH. Qed.

Lemma desc_firstn : forall n l a b, desc l -> In a (firstn n l) -> In b (skipn n l) ->
  fst b < fst a \/ (fst a = fst b /\ (snd b <= snd a)%nat).
Proof.
  intros n l. revert n. induction l as [|x l IH]; intros n a b D Ha Hb; [rewrite firstn_nil in Ha; contradiction|].
  destruct n as [|n]; [contradiction|]. cbn [firstn skipn] in *. inversion D as [|y m Hx D' E]; subst.
  destruct Ha as [<-|Ha]; [|apply (IH n); assumption].
  apply Hx. rewrite <- (firstn_skipn n l). apply in_or_app. right. exact Hb.
Qed.

Lemma sortable_in : forall q2 sup ls v i, In (v, i) (sortable q2 sup ls) <->
  exists l, nth_error ls i = Some l /\ considered q2 sup l = true /\ v = lm_avg l.
Proof.
  intros q2 sup ls v i. unfold sortable.
  assert (C : forall l, In (i, l) (combine (seq 0 (length ls)) ls) <-> nth_error ls i = Some l).
  { intro l. assert (Gn : forall xs s, In (i, l) (combine (seq s (length xs)) xs) <-> (s <= i)%nat /\ nth_error xs (i - s) = Some l).
    { induction xs as [|x xs IH]; intro s; cbn [length seq combine].
      - split; [intros []|]. intros [_ H]. destruct (i - s)%nat; discriminate.
      - cbn [In]. rewrite IH. split.
        + intros [H|[H1 H2]]; [injection H as -> ->; split; [lia|]; rewrite Nat.sub_diag; reflexivity|].
          split; [lia|]. replace (i - s)%nat with (S (i - S s)) by lia. exact H2.
        + intros [H1 H2]. destruct (i - s)%nat as [|d] eqn:Ed.
          * left. cbn in H2. injection H2 as ->. f_equal. lia.
          * right. split; [lia|]. replace (i - S s)%nat with d by lia. exact H2. }
    rewrite (Gn ls 0%nat), Nat.sub_0_r. split; [tauto|]. intro H. split; [lia|exact H]. }
  rewrite in_map_iff. split.
  - intros ([j l] & E & H). cbn [fst snd] in E. injection E as <- <-. apply filter_In in H. destruct H as [H1 H2].
    cbn [snd] in H2. exists l. rewrite <- C. tauto.
  - intros (l & E & H & ->). exists (i, l). split; [reflexivity|]. apply filter_In. rewrite C. tauto.
Qed.

Lemma sortable_nodup : forall q2 sup ls, NoDup (map snd (sortable q2 sup ls)).
Proof.
  intros q2 sup ls. unfold sortable. rewrite map_map. cbn [snd].
  set (l := combine (seq 0 (length ls)) ls).
  assert (N0 : NoDup (map fst l)).
  { unfold l. assert (Gn : forall (xs : list lm) (ns : list nat), length ns = length xs -> map fst (combine ns xs) = ns).
    { clear. induction xs as [|x xs IH]; intros [|n ns] H; try reflexivity; try discriminate. cbn. f_equal. apply (IH ns). cbn in H. lia. }
    rewrite Gn by apply seq_length. apply seq_NoDup. }
  clearbody l. induction l as [|[i x] l IH]; [constructor|]. cbn [map fst] in N0. inversion N0 as [|y ys Hn Nd E]; subst.
  cbn [filter]. destruct (considered q2 sup (snd (i, x))); [|apply IH; exact Nd].
  cbn [map fst]. constructor; [|apply IH; exact Nd]. intro H. apply Hn. apply in_map_iff in H. destruct H as (p & <- & Hp).
  apply filter_In in Hp. apply in_map. tauto.
Qed.
