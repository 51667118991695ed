From Coq Require Import List Arith NArith ZArith Bool Lia.
Import ListNotations.
From Verif Require Import Base Codec LeafBitsModel LeafBitsProofs VisRleModel VisRleProofs VisSchedProofs VisLumpModel.
Ltac Zify.zify_post_hook ::= Z.div_mod_to_equations.

(** Bit [k] of a row of bytes. *)
Definition row_bit (row : list N) (k : nat) : bool := N.testbit (nth (k / 8) row 0%N) (N.of_nat (k mod 8)).

(** Cluster [c] sees cluster [d]: itself, or through a portal. *)
Definition cluster_sees (portals : list (list (bool * leafbits))) (c d : nat) : Prop :=
  d = c \/ exists ps v, nth_error portals c = Some ps /\ In (true, v) ps /\ lb_get v d = Some true.

Definition portals_ok (n : nat) (portals : list (list (bool * leafbits))) : Prop :=
  length portals = n /\
  Forall (Forall (fun p => fst p = true /\ lb_wf (snd p) /\ lb_size (snd p) = n)) portals.

Lemma collect_spec : forall n ps buf, Forall (fun p => fst p = true /\ lb_wf (snd p) /\ lb_size (snd p) = n) ps ->
  lb_wf buf -> lb_size buf = n ->
  exists b, collect buf ps = Some b /\ lb_wf b /\ lb_size b = n /\
    forall d, d < n -> exists x, lb_get b d = Some x /\
      (x = true <-> lb_get buf d = Some true \/ exists v, In (true, v) ps /\ lb_get v d = Some true).
Proof.
  induction ps as [|[s v] ps IH]; intros buf HF Hw Hs; cbn [collect].
  - exists buf. split; [reflexivity|]. split; [assumption|]. split; [assumption|]. intros d Hd.
    assert (Hx : exists x, lb_get buf d = Some x).
    { unfold lb_get. destruct (nth_error (lb_bits buf) (d / 32)) as [w|] eqn:E; [eauto|].
      apply nth_error_None in E. destruct Hw as [L _]. rewrite L, Hs in E. pose proof (block_index _ _ Hd). lia. }
    destruct Hx as (x & Ex). exists x. split; [assumption|]. rewrite Ex. split; [intros ->; auto|].
    intros [H|(v & [] & _)]. congruence.
  - inversion HF as [|? ? (E1 & E2 & E3) HF']; subst. cbn [fst snd] in *. subst s.
    destruct (lb_or_spec buf v Hw E2 E3) as (A & B & C).
    destruct (IH (lb_or buf v) HF' A ltac:(lia)) as (b & D & E & F & G).
    exists b. split; [assumption|]. split; [assumption|]. split; [lia|]. intros d Hd.
    destruct (G d Hd) as (x & X1 & X2). exists x. split; [assumption|]. rewrite X2.
    destruct (C d ltac:(lia)) as (xa & xb & Xa & Xb & Xo). rewrite Xo, Xa. simpl. split.
    + intros [H|(v' & H1 & H2)]; [|eauto]. injection H as H'. apply orb_true_iff in H'.
      destruct H' as [->| ->]; [auto|right; exists v; auto].
    + intros [H|(v' & [H1|H1] & H2)].
      * inversion H. left. reflexivity.
      * inversion H1; subst v'. left. rewrite Xb in H2. inversion H2. rewrite orb_true_r. reflexivity.
      * right. eauto.
Qed.

Lemma testbit_or_bit : forall b i k, N.testbit (N.lor b (N.shiftl 1 i)) k = N.testbit b k || (k =? i)%N.
Proof.
  intros. rewrite N.lor_spec, N.shiftl_1_l. f_equal. destruct (N.eqb_spec k i) as [->|H].
  - apply N.pow2_bits_true.
  - apply N.pow2_bits_false. congruence.
Qed.

Lemma byte_bits : forall b, is_byte b <-> forall k, (8 <= k)%N -> N.testbit b k = false.
Proof.
  unfold is_byte. intro b. split.
  - intros H k Hk. destruct (N.eq_dec b 0) as [->|Hb]; [apply N.bits_0|]. apply N.bits_above_log2.
    assert (N.log2 b < 8)%N by (apply N.log2_lt_pow2; [lia|exact H]). lia.
  - intro H. destruct (N.eq_dec b 0) as [->|Hb]; [lia|]. change 256%N with (2 ^ 8)%N. apply N.log2_lt_pow2; [lia|].
    destruct (N.lt_ge_cases (N.log2 b) 8) as [?|Hge]; [assumption|].
    pose proof (H _ Hge) as F. rewrite N.bit_log2 in F by assumption. discriminate.
Qed.

Lemma or_bit_byte : forall b i, is_byte b -> (i < 8)%N -> is_byte (N.lor b (N.shiftl 1 i)).
Proof.
  intros b i Hb Hi. apply byte_bits. intros k Hk. rewrite testbit_or_bit. rewrite (proj1 (byte_bits b) Hb k Hk).
  destruct (N.eqb_spec k i); [lia|reflexivity].
Qed.

Lemma nth_of_error : forall A (l : list A) i x d, nth_error l i = Some x -> nth i l d = x.
Proof. induction l as [|h t IH]; intros [|i] x d H; simpl in *; try discriminate; [inversion H; reflexivity|eauto]. Qed.

(** What [expand] does to byte [j], bit [b]. *)
Definition want (buf : leafbits) (cl : list nat) (i k : nat) : bool :=
  if Nat.leb i k then match nth_error cl (k - i) with
                      | Some c => match lb_get buf c with Some true => true | _ => false end
                      | None => false
                      end else false.

Lemma want_step : forall buf c t i k, want buf (c :: t) i k =
  (Nat.eqb k i && match lb_get buf c with Some true => true | _ => false end) || want buf t (S i) k.
Proof.
  intros. unfold want. destruct (Nat.eqb_spec k i) as [->|Hne].
  - rewrite Nat.leb_refl, Nat.sub_diag. simpl. replace (match i with 0 => false | S m' => i <=? m' end) with (Nat.leb (S i) i) by reflexivity.
    destruct (Nat.leb_spec (S i) i); [lia|]. rewrite orb_false_r. reflexivity.
  - simpl andb. rewrite orb_false_l. destruct (Nat.leb_spec i k), (Nat.leb_spec (S i) k); try lia; try reflexivity.
    replace (k - i) with (S (k - S i)) by lia. reflexivity.
Qed.

Lemma expand_spec : forall n base buf cl i unc, lb_wf buf -> lb_size buf = n -> Forall (fun c => c < n) cl ->
  base + (i + length cl + 7) / 8 <= length unc -> Forall is_byte unc ->
  exists unc', expand unc base buf cl i = Some unc' /\ length unc' = length unc /\ Forall is_byte unc' /\
    (forall j, j < base \/ base + (i + length cl + 7) / 8 <= j -> nth_error unc' j = nth_error unc j) /\
    (forall k, N.testbit (nth (base + k / 8) unc' 0%N) (N.of_nat (k mod 8)) =
               N.testbit (nth (base + k / 8) unc 0%N) (N.of_nat (k mod 8)) || want buf cl i k).
Proof.
  intros n base buf. induction cl as [|c t IH]; intros i unc Hw Hs HF HL HB; cbn [expand].
  - exists unc. split; [reflexivity|]. split; [reflexivity|]. split; [assumption|]. split; [reflexivity|].
    intro k. unfold want. destruct (Nat.leb i k); [|rewrite orb_false_r; reflexivity].
    destruct (k - i); rewrite orb_false_r; reflexivity.
  - inversion HF as [|? ? Hc HF']; subst. cbn [length] in HL.
    assert (Hx : exists x, lb_get buf c = Some x).
    { unfold lb_get. destruct (nth_error (lb_bits buf) (c / 32)) as [w|] eqn:E; [eauto|].
      apply nth_error_None in E. destruct Hw as [L _]. rewrite L in E. pose proof (block_index _ _ Hc). lia. }
    destruct Hx as (x & Ex). rewrite Ex. destruct x.
    + destruct (nth_error unc (base + i / 8)) as [b|] eqn:Eb.
      2:{ apply nth_error_None in Eb. lia. }
      assert (Hb : is_byte b) by (rewrite Forall_forall in HB; apply HB; eapply nth_error_In; eassumption).
      destruct (upd_some _ unc (base + i / 8) (N.lor b (N.shiftl 1 (N.of_nat (i mod 8))))) as (u & Hu); [lia|].
      rewrite Hu. pose proof (upd_length _ _ _ _ _ Hu) as Lu.
      destruct (IH (S i) u Hw eq_refl HF') as (unc' & A & B & C & D & E).
      { rewrite Lu. replace (S i + length t + 7) with (i + S (length t) + 7) by lia. assumption. }
      { apply (Forall_upd _ _ _ _ _ _ HB) with (2 := Hu). apply or_bit_byte; [assumption|lia]. }
      exists unc'. split; [assumption|]. split; [congruence|]. split; [assumption|]. cbn [length]. split.
      * intros j Hj. rewrite D by (destruct Hj; [left; assumption|right; replace (S i + length t + 7) with (i + S (length t) + 7) by lia; assumption]).
        apply (upd_other _ _ _ _ _ _ Hu). lia.
      * intro k. rewrite E, want_step, Ex, andb_true_r, orb_assoc. f_equal.
        destruct (Nat.eq_dec (k / 8) (i / 8)) as [Hk|Hk].
        -- rewrite Hk. rewrite (nth_of_error _ _ _ _ 0%N (upd_same _ _ _ _ _ Hu)), (nth_of_error _ _ _ _ 0%N Eb).
           rewrite testbit_or_bit. f_equal. destruct (Nat.eqb_spec k i) as [->|Hki]; [apply N.eqb_refl|].
           apply N.eqb_neq. lia.
        -- replace (Nat.eqb k i) with false by (symmetry; apply Nat.eqb_neq; congruence). rewrite orb_false_r.
           f_equal. assert (Hn : base + k / 8 <> base + i / 8) by lia.
           pose proof (upd_other _ _ _ _ _ _ Hu Hn) as Ho.
           destruct (nth_error unc (base + k / 8)) as [y|] eqn:Ey.
           ++ rewrite (nth_of_error _ _ _ _ 0%N Ey), (nth_of_error _ _ _ _ 0%N Ho). reflexivity.
           ++ apply nth_error_None in Ey, Ho. rewrite !nth_overflow by assumption. reflexivity.
    + destruct (IH (S i) unc Hw eq_refl HF') as (unc' & A & B & C & D & E).
      { replace (S i + length t + 7) with (i + S (length t) + 7) by lia. assumption. }
      { assumption. }
      exists unc'. split; [assumption|]. split; [congruence|]. split; [assumption|]. cbn [length]. split.
      * intros j Hj. apply D. replace (S i + length t + 7) with (i + S (length t) + 7) by lia. assumption.
      * intro k. rewrite E, want_step, Ex, andb_false_r. reflexivity.
Qed.

(** The row of cluster [c]. *)
Definition row_good (cl : list nat) (portals : list (list (bool * leafbits))) (c : nat) (row : list N) : Prop :=
  length row = row_bytes (length cl) /\ Forall is_byte row /\
  forall k, row_bit row k = true <-> exists d, nth_error cl k = Some d /\ cluster_sees portals c d.

Record lump_inv (n : nat) (cl : list nat) (portals : list (list (bool * leafbits))) (done : list nat) (s : vlump) : Prop := {
  li_unc : length (vl_unc s) = n * stride (length cl);
  li_byte : Forall is_byte (vl_unc s);
  li_zero : forall c j, c < n -> ~ In c done -> j < stride (length cl) -> nth_error (vl_unc s) (c * stride (length cl) + j) = Some 0%N;
  li_ofs : length (vl_ofs s) = n;
  li_leaf : length (vl_leaf s) = length cl;
  li_len : length (vl_map s) <= length done * (2 * row_bytes (length cl));
  li_row : forall c, In c done -> exists row pre comp rest, row_good cl portals c row /\ compress_row row = Some comp /\
     vl_map s = pre ++ comp ++ rest /\ nth_error (vl_ofs s) c = Some (Z.of_nat (length pre)) /\
     (forall i, nth_error cl i = Some c -> nth_error (vl_leaf s) i = Some (Z.of_nat (length pre)));
  li_lt : forall c, In c done -> c < n;
  li_keep : forall c k, In c done -> k / 8 < row_bytes (length cl) ->
     (N.testbit (nth (c * stride (length cl) + k / 8) (vl_unc s) 0%N) (N.of_nat (k mod 8)) = true <->
      exists d, nth_error cl k = Some d /\ cluster_sees portals c d)
}.

Lemma set_visofs_length : forall leaf cl c v, length (set_visofs leaf cl c v) = length leaf.
Proof. induction leaf as [|o leaf IH]; intros [|k cl] c v; simpl; auto. Qed.

Lemma set_visofs_nth : forall leaf cl c v i d, length leaf = length cl -> nth_error cl i = Some d ->
  nth_error (set_visofs leaf cl c v) i = if Nat.eqb d c then Some v else nth_error leaf i.
Proof.
  induction leaf as [|o leaf IH]; intros [|k cl] c v [|i] d HL H; simpl in *; try discriminate.
  - inversion H; subst. destruct (Nat.eqb d c); reflexivity.
  - apply IH; [lia|assumption].
Qed.

Lemma stride_ge : forall nr, row_bytes nr <= stride nr.
Proof. intro. unfold row_bytes, stride. lia. Qed.

Lemma nth_firstn_lt : forall A (l : list A) m i d, i < m -> nth i (firstn m l) d = nth i l d.
Proof. induction l as [|h t IH]; intros [|m] [|i] d H; simpl; try lia; auto. apply IH. lia. Qed.
Lemma nth_skipn_add : forall A (l : list A) m i d, nth i (skipn m l) d = nth (m + i) l d.
Proof. induction l as [|h t IH]; intros [|m] i d; simpl; auto. destruct i; reflexivity. Qed.

Lemma cluster_flow_ok : forall n cl portals done s c, portals_ok n portals -> Forall (fun d => d < n) cl ->
  lump_inv n cl portals done s -> c < n -> ~ In c done ->
  (Z.of_nat (length done * (2 * row_bytes (length cl))) < 2 ^ 31)%Z ->
  exists s', cluster_flow n cl portals s c = Some s' /\ lump_inv n cl portals (c :: done) s'.
Proof.
  intros n cl portals done s c [HPl HP] HF Inv Hc Hnd Hsz. unfold cluster_flow.
  destruct (nth_error portals c) as [ps|] eqn:Eps; [|apply nth_error_None in Eps; lia].
  assert (Hps := HP). rewrite Forall_forall in Hps. specialize (Hps _ (nth_error_In _ _ Eps)).
  destruct (collect_spec n ps (lb_make n) Hps (wf_make n) eq_refl) as (b & C1 & C2 & C3 & C4). rewrite C1.
  destruct (lb_set_spec b c true C2 ltac:(lia)) as (b' & S1 & S2 & S3 & S4). rewrite S1.
  set (nr := length cl) in *. set (st := stride nr).
  pose proof (stride_ge nr) as Hst. fold st in Hst.
  pose proof (li_unc _ _ _ _ _ Inv) as LU. fold nr st in LU.
  assert (Hroom : c * st + row_bytes nr <= length (vl_unc s)) by (rewrite LU; nia).
  destruct (expand_spec n (c * st) b' cl 0 (vl_unc s) S2 ltac:(lia) HF) as (unc & E1 & E2 & E3 & E4 & E5).
  { exact Hroom. } { apply (li_byte _ _ _ _ _ Inv). }
  rewrite E1. destruct (Nat.ltb_spec (length unc) (c * st + row_bytes nr)); [lia|].
  set (row := firstn (row_bytes nr) (skipn (c * st) unc)).
  destruct (compress_row_total row) as (comp & Hcomp). rewrite Hcomp.
  destruct (upd_some _ (vl_ofs s) c (of_unsigned 4 (N.of_nat (length (vl_map s)) mod 2 ^ 32))) as (ofs & Hofs).
  { rewrite (li_ofs _ _ _ _ _ Inv). assumption. }
  rewrite Hofs. eexists. split; [reflexivity|].
  assert (Hv : of_unsigned 4 (N.of_nat (length (vl_map s)) mod 2 ^ 32) = Z.of_nat (length (vl_map s))).
  { pose proof (li_len _ _ _ _ _ Inv). fold nr in H0. rewrite N.mod_small by lia. unfold of_unsigned.
    change (256 ^ Z.of_nat 4)%Z with 4294967296%Z. destruct (Z.leb_spec 4294967296 (2 * Z.of_N (N.of_nat (length (vl_map s))))); lia. }
  rewrite Hv in *.
  assert (Hrl : length row = row_bytes nr) by (unfold row; rewrite firstn_length, skipn_length; lia).
  assert (Hrow : row_good cl portals c row).
  { split; [assumption|]. split.
    { apply Forall_forall. intros x Hx. rewrite Forall_forall in E3. apply E3. unfold row in Hx.
      apply (fun H => in_or_app (firstn (row_bytes nr) (skipn (c * st) unc)) (skipn (row_bytes nr) (skipn (c * st) unc)) x (or_introl H)) in Hx.
      rewrite firstn_skipn in Hx.
      rewrite <- (firstn_skipn (c * st) unc). apply in_or_app. right. assumption. }
    intro k. unfold row_bit. destruct (Nat.lt_ge_cases (k / 8) (row_bytes nr)) as [Hk|Hk].
    - unfold row. rewrite nth_firstn_lt, nth_skipn_add by assumption. rewrite E5.
      assert (Hz : nth (c * st + k / 8) (vl_unc s) 0%N = 0%N).
      { apply nth_of_error. apply (li_zero _ _ _ _ _ Inv c (k / 8) Hc Hnd). fold nr st. lia. }
      rewrite Hz, N.bits_0, orb_false_l. unfold want. cbn [Nat.leb]. rewrite Nat.sub_0_r.
      destruct (nth_error cl k) as [d|] eqn:Ed.
      2:{ split; [discriminate|]. intros (d & H0 & _). discriminate. }
      assert (Hd : d < n) by (rewrite Forall_forall in HF; apply HF; eapply nth_error_In; eassumption).
      rewrite S4. destruct (C4 d Hd) as (x & X1 & X2). rewrite X1.
      transitivity (cluster_sees portals c d); [|split; [eauto|intros (d' & H1 & H2); inversion H1; subst; assumption]].
      unfold cluster_sees. destruct (Nat.eqb_spec d c) as [->|Hdc]; [tauto|].
      destruct x.
      + split; [intros _|reflexivity]. right. destruct (proj1 X2 eq_refl) as [H0|(v & H0 & H1)]; [rewrite lb_make_get in H0 by assumption; discriminate|].
        exists ps, v. auto.
      + split; [discriminate|]. intros [H0|(ps' & v & H0 & H1 & H2)]; [contradiction|]. rewrite Eps in H0. inversion H0; subst ps'.
        apply X2. right. eauto.
    - rewrite nth_overflow by lia. rewrite N.bits_0. split; [discriminate|]. intros (d & H0 & _).
      assert (k < nr) by (apply nth_error_Some; congruence). unfold row_bytes in Hk. lia. }
  pose proof (compress_size row comp Hcomp) as (_ & Hcl & _).
  assert (Hother : forall d, d < n -> d <> c -> forall j, j < st -> nth_error unc (d * st + j) = nth_error (vl_unc s) (d * st + j)).
  { intros d Hd Hdc j Hj. apply E4. change (0 + length cl + 7) with (nr + 7). fold (row_bytes nr).
    destruct (Nat.lt_ge_cases d c); [left; nia|right; nia]. }
  constructor; cbn [vl_unc vl_map vl_ofs vl_leaf].
  - rewrite E2. exact LU.
  - exact E3.
  - intros d j Hd Hnin Hj. simpl in Hnin. rewrite Hother; auto; try tauto.
    apply (li_zero _ _ _ _ _ Inv); tauto.
  - rewrite (upd_length _ _ _ _ _ Hofs). apply (li_ofs _ _ _ _ _ Inv).
  - rewrite set_visofs_length. apply (li_leaf _ _ _ _ _ Inv).
  - rewrite app_length. pose proof (li_len _ _ _ _ _ Inv). fold nr in H0. fold nr. cbn [length]. nia.
  - intros d Hd. destruct (Nat.eq_dec d c) as [->|Hdc].
    + exists row, (vl_map s), comp, []. split; [assumption|]. split; [assumption|]. split; [rewrite app_nil_r; reflexivity|].
      split; [apply (upd_same _ _ _ _ _ Hofs)|]. intros i Hi.
      rewrite (set_visofs_nth _ _ _ _ _ c (li_leaf _ _ _ _ _ Inv) Hi), Nat.eqb_refl. reflexivity.
    + destruct Hd as [Hd|Hd]; [congruence|].
      destruct (li_row _ _ _ _ _ Inv d Hd) as (row' & pre & comp' & rest & R1 & R2 & R3 & R4 & R5).
      exists row', pre, comp', (rest ++ comp). split; [assumption|]. split; [assumption|].
      split; [rewrite R3, <- !app_assoc; reflexivity|].
      split; [rewrite (upd_other _ _ _ _ _ _ Hofs Hdc); assumption|]. intros i Hi.
      rewrite (set_visofs_nth _ _ _ _ _ d (li_leaf _ _ _ _ _ Inv) Hi).
      destruct (Nat.eqb_spec d c); [contradiction|]. apply R5. assumption.
  - intros d [<-|Hd]; [assumption|]. apply (li_lt _ _ _ _ _ Inv d Hd).
  - intros d k Hd Hk. destruct (Nat.eq_dec d c) as [->|Hdc].
    + destruct Hrow as (_ & _ & Hrow). rewrite <- (Hrow k). unfold row_bit, row. rewrite nth_firstn_lt, nth_skipn_add by assumption. reflexivity.
    + destruct Hd as [Hd|Hd]; [congruence|]. pose proof (li_lt _ _ _ _ _ Inv d Hd) as Hdn. rewrite <- (li_keep _ _ _ _ _ Inv d k Hd Hk). fold nr st.
      assert (Hks : k / 8 < st) by (fold nr in Hk; lia). pose proof (Hother d Hdn Hdc (k / 8) Hks) as Ho.
      destruct (nth_error (vl_unc s) (d * st + k / 8)) as [y|] eqn:Ey.
      * rewrite (nth_of_error _ _ _ _ 0%N Ey), (nth_of_error _ _ _ _ 0%N Ho). reflexivity.
      * apply nth_error_None in Ey, Ho. rewrite !nth_overflow by assumption. reflexivity.
Qed.

Lemma clusters_flow_ok : forall cs n cl portals done s, portals_ok n portals -> Forall (fun d => d < n) cl ->
  lump_inv n cl portals done s -> Forall (fun c => c < n) cs -> NoDup (cs ++ done) ->
  (Z.of_nat ((length cs + length done) * (2 * row_bytes (length cl))) < 2 ^ 31)%Z ->
  exists s', clusters_flow n cl portals s cs = Some s' /\ exists done', lump_inv n cl portals done' s' /\
    forall c, In c done' <-> In c cs \/ In c done.
Proof.
  induction cs as [|c cs IH]; intros n cl portals done s HP HF Inv Hcs Hnd Hsz; cbn [clusters_flow].
  - exists s. split; [reflexivity|]. exists done. split; [assumption|]. simpl. tauto.
  - inversion Hcs as [|? ? Hc Hcs']; subst. cbn [app] in Hnd. inversion Hnd as [|? ? Hni Hnd']; subst. cbn [length] in Hsz.
    destruct (cluster_flow_ok n cl portals done s c HP HF Inv Hc) as (s1 & A & B).
    { intro H. apply Hni. apply in_or_app. auto. }
    { nia. }
    rewrite A. destruct (IH n cl portals (c :: done) s1 HP HF B Hcs') as (s2 & C & done' & D & E).
    { apply NoDup_Add with (a := c) (l := cs ++ done); [apply Add_app|]. split; assumption. }
    { cbn [length]. nia. }
    exists s2. split; [assumption|]. exists done'. split; [assumption|]. intro x. rewrite E. simpl. intuition.
Qed.

Lemma repeat_nth_error : forall A (x : A) m i, i < m -> nth_error (repeat x m) i = Some x.
Proof. induction m as [|m IH]; intros [|i] H; simpl; try lia; auto. apply IH. lia. Qed.

Lemma lump_init_ok : forall n cl portals, lump_inv n cl portals [] (vlump_init n (length cl)).
Proof.
  intros. constructor; cbn [vl_unc vl_map vl_ofs vl_leaf vlump_init length]; try rewrite repeat_length; try reflexivity; try lia.
  - apply Forall_forall. intros x Hx. apply repeat_spec in Hx. subst. unfold is_byte. lia.
  - intros c j Hc _ Hj. apply repeat_nth_error. nia.
  - intros c [].
  - intros c [].
  - intros c k [].
Qed.

Lemma vislump_rows : forall n cl portals order, portals_ok n portals -> Forall (fun d => d < n) cl ->
  NoDup order -> (forall c, In c order <-> c < n) ->
  (Z.of_nat (n * (2 * row_bytes (length cl))) < 2 ^ 31)%Z ->
  exists s, clusters_flow n cl portals (vlump_init n (length cl)) order = Some s /\
    length (vl_ofs s) = n /\ length (vl_leaf s) = length cl /\
    forall c, c < n -> exists ofs row, nth_error (vl_ofs s) c = Some (Z.of_nat ofs) /\
      (forall i, nth_error cl i = Some c -> nth_error (vl_leaf s) i = Some (Z.of_nat ofs)) /\
      (forall outb, length outb = row_bytes (length cl) -> decompress_vis (vl_map s) ofs outb = D_done row) /\
      row_good cl portals c row.
Proof.
  intros n cl portals order HP HF Hnd Hin Hsz.
  assert (Hlen : length order = n).
  { apply Nat.le_antisymm.
    - rewrite <- (seq_length n 0). apply NoDup_incl_length; [assumption|]. intros c Hc. apply in_seq. apply Hin in Hc. lia.
    - rewrite <- (seq_length n 0) at 1. apply NoDup_incl_length; [apply seq_NoDup|]. intros c Hc. apply in_seq in Hc. apply Hin. lia. }
  destruct (clusters_flow_ok order n cl portals [] (vlump_init n (length cl)) HP HF (lump_init_ok n cl portals)) as (s & A & done & B & C).
  { apply Forall_forall. intros c Hc. apply Hin. assumption. }
  { rewrite app_nil_r. assumption. }
  { simpl. rewrite Nat.add_0_r, Hlen. assumption. }
  exists s. split; [assumption|]. split; [apply (li_ofs _ _ _ _ _ B)|]. split; [apply (li_leaf _ _ _ _ _ B)|].
  intros c Hc. destruct (li_row _ _ _ _ _ B c) as (row & pre & comp & rest & R1 & R2 & R3 & R4 & R5).
  { apply C. left. apply Hin. assumption. }
  exists (length pre), row. split; [assumption|]. split; [assumption|]. split; [|assumption].
  intros outb Ho. rewrite R3. apply roundtrip; [assumption|]. destruct R1 as [R1 _]. congruence.
Qed.

(** The row buffer after all clusters. *)
Lemma vislump_buffer : forall n cl portals order, portals_ok n portals -> Forall (fun d => d < n) cl ->
  NoDup order -> (forall c, In c order <-> c < n) ->
  (Z.of_nat (n * (2 * row_bytes (length cl))) < 2 ^ 31)%Z ->
  exists s, clusters_flow n cl portals (vlump_init n (length cl)) order = Some s /\
    length (vl_unc s) = n * stride (length cl) /\
    forall c k, c < n -> k / 8 < row_bytes (length cl) ->
      (N.testbit (nth (c * stride (length cl) + k / 8) (vl_unc s) 0%N) (N.of_nat (k mod 8)) = true <->
       exists d, nth_error cl k = Some d /\ cluster_sees portals c d).
Proof.
  intros n cl portals order HP HF Hnd Hin Hsz.
  assert (Hlen : length order = n).
  { apply Nat.le_antisymm.
    - rewrite <- (seq_length n 0). apply NoDup_incl_length; [assumption|]. intros c Hc. apply in_seq. apply Hin in Hc. lia.
    - rewrite <- (seq_length n 0) at 1. apply NoDup_incl_length; [apply seq_NoDup|]. intros c Hc. apply in_seq in Hc. apply Hin. lia. }
  destruct (clusters_flow_ok order n cl portals [] (vlump_init n (length cl)) HP HF (lump_init_ok n cl portals)) as (s & A & done & B & C).
  { apply Forall_forall. intros c Hc. apply Hin. assumption. }
  { rewrite app_nil_r. assumption. }
  { simpl. rewrite Nat.add_0_r, Hlen. assumption. }
  exists s. split; [assumption|]. split; [apply (li_unc _ _ _ _ _ B)|].
  intros c k Hc Hk. apply (li_keep _ _ _ _ _ B c k); [|assumption]. apply C. left. apply Hin. assumption.
Qed.
