(* C125: lights skipped for a face since the face cannot see them. *)
From Coq Require Import List Arith NArith ZArith Bool Lia.
From Verif Require Import VisRleModel VisRleProofs LeafBitsModel VisLumpModel VisLumpProofs PropertiesVisOut LightPvsModel.
Import ListNotations.

(** Bit k of a row. *)
Definition bit (row : list N) (k : nat) : bool := N.testbit (nth (k / 8) row 0%N) (N.of_nat (k mod 8)).

Lemma or_rows_length a : forall c, length (or_rows a c) = length a.
Proof. induction a as [|x a IH]; intros [|y c]; cbn [or_rows length]; try reflexivity. rewrite IH. reflexivity. Qed.

Lemma or_rows_nth a : forall c i, length c = length a -> nth i (or_rows a c) 0%N = N.lor (nth i a 0%N) (nth i c 0%N).
Proof.
  induction a as [|x a IH]; intros [|y c] i L; cbn [length] in L; try discriminate.
  - destruct i; reflexivity.
  - destruct i as [|i]; cbn [or_rows nth]; [reflexivity|]. apply IH. lia.
Qed.

Lemma or_rows_bit a c k : length c = length a -> bit (or_rows a c) k = bit a k || bit c k.
Proof. intro L. unfold bit. rewrite (or_rows_nth a c _ L), N.lor_spec. reflexivity. Qed.

Lemma bit_zeros n k : bit (repeat 0%N n) k = false.
Proof.
  unfold bit. destruct (nth_in_or_default (k / 8) (repeat 0%N n) 0%N) as [I|E].
  - apply repeat_spec in I. rewrite I. apply N.bits_0.
  - rewrite E. apply N.bits_0.
Qed.

Lemma bit_ones n k : (k < 8 * n)%nat -> bit (repeat 255%N n) k = true.
Proof.
  intro H. unfold bit. rewrite (nth_indep _ _ 255%N) by (rewrite repeat_length; apply Nat.div_lt_upper_bound; lia).
  assert (E : nth (k / 8) (repeat 255%N n) 255%N = 255%N).
  { destruct (nth_in_or_default (k / 8) (repeat 255%N n) 255%N) as [I|E]; [apply repeat_spec in I; exact I|exact E]. }
  rewrite E. assert (M : (k mod 8 < 8)%nat) by (apply Nat.mod_upper_bound; lia).
  generalize (k mod 8)%nat, M. intros r R. do 8 (destruct r as [|r]; [reflexivity|]). lia.
Qed.

Lemma find_row_in m k r : find_row m k = Some r -> In (k, r) m.
Proof.
  induction m as [|[j x] m IH]; cbn [find_row]; [discriminate|]. destruct (Z.eqb_spec j k) as [->|N].
  - intro E. injection E as <-. left. reflexivity.
  - intro E. right. apply IH. exact E.
Qed.
Lemma find_row_none m k : find_row m k = None -> ~ In k (map fst m).
Proof.
  induction m as [|[j x] m IH]; cbn [find_row]; [intros _ []|]. destruct (Z.eqb_spec j k) as [->|N]; [discriminate|].
  intros E [F|F]; [exact (N F)|exact (IH E F)].
Qed.

Lemma merge_length b m ls : forall acc, length (merge_pvs b m acc ls) = length acc.
Proof.
  induction ls as [|l ls IH]; intro acc; [reflexivity|]. cbn [merge_pvs]. destruct (pl_kind l); rewrite ?IH; apply or_rows_length.
Qed.

Lemma merge_bit b m ls : (forall l, length (leaf_pvs b m l) = vis_size b) -> forall acc k, length acc = vis_size b -> (k < 8 * vis_size b)%nat ->
  (bit (merge_pvs b m acc ls) k = true <-> bit acc k = true \/ exists l, In l ls /\ (pl_kind l = Liquid \/ bit (leaf_pvs b m l) k = true)).
Proof.
  intro L. induction ls as [|l ls IH]; intros acc k A K.
  - cbn [merge_pvs]. split; [intro H; left; exact H|]. intros [H|(l & [] & _)]. exact H.
  - assert (LV : forall kd, pl_kind l = kd -> kd <> Liquid -> (bit (merge_pvs b m (or_rows acc (leaf_pvs b m l)) ls) k = true <->
       bit acc k = true \/ exists l0, In l0 (l :: ls) /\ (pl_kind l0 = Liquid \/ bit (leaf_pvs b m l0) k = true))).
    { intros kd E N. rewrite IH by (rewrite ?or_rows_length; assumption). rewrite or_rows_bit by (rewrite L, A; reflexivity).
      rewrite orb_true_iff. split.
      - intros [[H|H]|(l0 & I & H)]; [left; exact H|right; exists l; split; [left; reflexivity|right; exact H]|right; exists l0; split; [right; exact I|exact H]].
      - intros [H|(l0 & [<-|I] & H)]; [left; left; exact H| |right; exists l0; split; [exact I|exact H]].
        destruct H as [H|H]; [congruence|left; right; exact H]. }
    cbn [merge_pvs]. destruct (pl_kind l) eqn:E; [apply (LV Air); congruence| |apply (LV Blocked); congruence].
    rewrite or_rows_bit by (rewrite repeat_length, A; reflexivity). rewrite bit_ones by exact K. rewrite orb_true_r. split; [|reflexivity].
    intros _. right. exists l. split; [left; reflexivity|left; exact E].
Qed.

(** The number by which the rows know a leaf: its number less one in Quake, its cluster in Quake II. *)
Definition vis_index (b : pbsp) (num : nat) (l : pleaf) (k : nat) : Prop :=
  if pb_q2 b then pl_cluster l = Z.of_nat k /\ (exists o, nth_error (pb_offsets b) k = Some o /\ (0 <= o < Z.of_nat (length (pb_bits b)))%Z)
  else num = S k /\ (k < pb_visleafs b)%nat.

Lemma q2_keys bits size offs : forall c m, decompress_all_q2 bits size c offs = Some m -> Forall (fun e => length (snd e) = size) m.
Proof. intros c m E. destruct (decompress_all_q2_safe offs bits size c) as (m' & E' & F). rewrite E in E'. injection E' as <-. exact F. Qed.

Lemma rows_length b m : uncompressed b = Some m -> Forall (fun e => length (snd e) = vis_size b) m.
Proof.
  unfold uncompressed. destruct (pb_q2 b); intro E.
  - destruct (decompress_all_q2 _ _ _ _) as [x|] eqn:D; [|discriminate]. injection E as <-. apply q2_keys in D.
    rewrite Forall_forall in D. apply Forall_forall. intros e I. apply in_map_iff in I. destruct I as (y & <- & I). cbn [snd]. apply D. exact I.
  - destruct (decompress_all_q1_safe (map pl_visofs (pb_leafs b)) (pb_bits b) (vis_size b) []) as (m' & E' & _ & F & _).
    rewrite E in E'. injection E' as <-. apply F. constructor.
Qed.

Lemma leaf_pvs_length b m l : uncompressed b = Some m -> length (leaf_pvs b m l) = vis_size b.
Proof.
  intro E. unfold leaf_pvs. destruct (find_row m (leaf_key b l)) as [r|] eqn:F; [|apply repeat_length].
  apply find_row_in in F. assert (G := rows_length b m E). rewrite Forall_forall in G. exact (G _ F).
Qed.

Lemma index_small b num l k : vis_index b num l k -> (k < 8 * vis_size b)%nat.
Proof.
  unfold vis_index, vis_size. intro H.
  assert (G : forall n, (k < n)%nat -> (k < 8 * ((n + 7) / 8))%nat).
  { intros n Hn. assert (D := Nat.div_mod (n + 7) 8 ltac:(lia)). assert (M := Nat.mod_upper_bound (n + 7) 8 ltac:(lia)). lia. }
  destruct (pb_q2 b).
  - destruct H as (_ & o & E & _). apply G. apply nth_error_Some. congruence.
  - apply G. exact (proj2 H).
Qed.

(** Decompressing never leaves its buffers, and so never fails. *)
Theorem C125_total : forall b, exists m, uncompressed b = Some m.
Proof.
  intro b. unfold uncompressed. destruct (pb_q2 b).
  - destruct (decompress_all_q2_safe (pb_offsets b) (pb_bits b) (vis_size b) 0) as (m & E & _). rewrite E. eexists. reflexivity.
  - destruct (decompress_all_q1_safe (map pl_visofs (pb_leafs b)) (pb_bits b) (vis_size b) []) as (m & E & _). exists m. exact E.
Qed.
Print Assumptions C125_total.

(** The light in leaf number num is skipped exactly if its leaf is neither liquid, sky nor solid,
    no leaf of the face is liquid, and each leaf of the face has a row without the light's leaf. *)
Theorem C125_cull : forall b m ls num le k, uncompressed b = Some m -> pb_bits b <> [] ->
  nth_error (pb_leafs b) num = Some le -> vis_index b num le k ->
  exists r, vis_cull b (calc_pvs b m ls) num = Some r /\
    (r = true <-> pl_kind le = Air /\ forall l, In l ls -> pl_kind l <> Liquid /\
       exists row, find_row m (leaf_key b l) = Some row /\ bit row k = false).
Proof.
  intros b m ls num le k E NB Hl Ix. assert (K := index_small b num le k Ix).
  assert (C : calc_pvs b m ls = merge_pvs b m (repeat 0%N (vis_size b)) ls). { unfold calc_pvs. destruct (pb_bits b); [contradiction|reflexivity]. }
  set (pvs := merge_pvs b m (repeat 0%N (vis_size b)) ls) in *.
  assert (Lp : length pvs = vis_size b). { unfold pvs. rewrite merge_length. apply repeat_length. }
  assert (B := merge_bit b m ls (fun l => leaf_pvs_length b m l E) (repeat 0%N (vis_size b)) k (repeat_length _ _) K). fold pvs in B.
  assert (PB : pvs_bit pvs k = Some (bit pvs k)).
  { unfold pvs_bit, bit. destruct (nth_error pvs (k / 8)) as [x|] eqn:Q.
    - rewrite (nth_error_nth _ _ 0%N Q). reflexivity.
    - apply nth_error_None in Q. exfalso. assert (D : (k / 8 < vis_size b)%nat) by (apply Nat.div_lt_upper_bound; lia). lia. }
  assert (V : leaf_visible b pvs num = Some (bit pvs k)).
  { unfold leaf_visible. rewrite Hl. unfold vis_index in Ix. destruct (pb_q2 b).
    - destruct Ix as (Ec & o & Eo & Ro). rewrite Ec. assert (k < length (pb_offsets b))%nat by (apply nth_error_Some; congruence).
      destruct (Z.ltb_spec (Z.of_nat k) 0); [lia|]. destruct (Z.leb_spec (Z.of_nat (length (pb_offsets b))) (Z.of_nat k)); [lia|].
      rewrite Nat2Z.id, Eo. destruct (Z.ltb_spec o 0); [lia|]. destruct (Z.leb_spec (Z.of_nat (length (pb_bits b))) o); [lia|]. exact PB.
    - destruct Ix as (-> & Hk). destruct (Nat.leb_spec (pb_visleafs b) k); [lia|exact PB]. }
  assert (NE : pvs <> []). { intro F. rewrite F in Lp. cbn [length] in Lp. lia. }
  rewrite C. clearbody pvs. unfold vis_cull. destruct pvs as [|x pvs]; [contradiction|]. rewrite Hl.
  assert (Bz := bit_zeros (vis_size b) k).
  assert (X : bit (x :: pvs) k = false <-> forall l, In l ls -> pl_kind l <> Liquid /\ exists row, find_row m (leaf_key b l) = Some row /\ bit row k = false).
  { split.
    - intros F l I. split.
      + intro Q. assert (bit (x :: pvs) k = true) by (apply B; right; exists l; split; [exact I|left; exact Q]). congruence.
      + destruct (bit (leaf_pvs b m l) k) eqn:G.
        * assert (bit (x :: pvs) k = true) by (apply B; right; exists l; split; [exact I|right; exact G]). congruence.
        * unfold leaf_pvs in G. destruct (find_row m (leaf_key b l)) as [row|]; [exists row; split; [reflexivity|exact G]|].
          rewrite bit_ones in G by exact K. discriminate.
    - intro H. apply not_true_iff_false. intro G. apply B in G.
      destruct G as [G|(l & I & G)]; [congruence|]. destruct (H l I) as (H1 & row & H2 & H3). destruct G as [G|G]; [contradiction|].
      unfold leaf_pvs in G. rewrite H2 in G. congruence. }
  destruct (pl_kind le) eqn:Kd.
  - rewrite V. cbn [option_map]. eexists. split; [reflexivity|]. rewrite negb_true_iff, X. split; [intro H; split; [reflexivity|exact H]|intros [_ H]; exact H].
  - exists false. split; [reflexivity|]. split; [discriminate|]. intros [H _]. discriminate.
  - exists false. split; [reflexivity|]. split; [discriminate|]. intros [H _]. discriminate.
Qed.
Print Assumptions C125_cull.

(** A map without visibility data has no light skipped. *)
Theorem C125_unvised : forall b m ls num, pb_bits b = [] -> vis_cull b (calc_pvs b m ls) num = Some false.
Proof. intros b m ls num E. unfold calc_pvs. rewrite E. reflexivity. Qed.
Print Assumptions C125_unvised.

(** What the map of rows holds. *)
Lemma q1_rows bits size visofs : forall acc m, decompress_all_q1 bits size visofs acc = Some m ->
  Forall (fun e => Some (snd e) = dres_buffer (decompress_vis bits (Z.to_nat (fst e)) (repeat 0%N size))) acc ->
  Forall (fun e => Some (snd e) = dres_buffer (decompress_vis bits (Z.to_nat (fst e)) (repeat 0%N size))) m.
Proof.
  induction visofs as [|v l IH]; intros acc m E F; cbn [decompress_all_q1] in E.
  - injection E as <-. exact F.
  - destruct (v <? 0)%Z; [exact (IH _ _ E F)|]. destruct (existsb _ acc); [exact (IH _ _ E F)|]. destruct (_ <=? v)%Z; [exact (IH _ _ E F)|].
    destruct (dres_buffer _) as [row|] eqn:D; [|discriminate]. apply (IH _ _ E). apply Forall_app. split; [exact F|]. constructor; [|constructor].
    cbn [fst snd]. symmetry. exact D.
Qed.

Lemma q2_rows bits size offs : forall c m, decompress_all_q2 bits size c offs = Some m ->
  forall i o, nth_error offs i = Some o -> (0 <= o < Z.of_nat (length bits))%Z ->
  find_row (map (fun e => (Z.of_nat (fst e), snd e)) m) (Z.of_nat (c + i)) = dres_buffer (decompress_vis bits (Z.to_nat o) (repeat 0%N size)) /\
  (forall e, In e m -> (c <= fst e)%nat).
Proof.
  induction offs as [|v l IH]; intros c m E i o Hi Ho; [destruct i; discriminate|]. cbn [decompress_all_q2] in E.
  assert (LO : forall l c m, decompress_all_q2 bits size c l = Some m -> forall e, In e m -> (c <= fst e)%nat).
  { clear. induction l as [|v l IH]; intros c m E e I; cbn [decompress_all_q2] in E.
    - injection E as <-. destruct I.
    - destruct (_ || _)%bool. { assert (G := IH _ _ E e I). lia. }
      destruct (dres_buffer _); [|discriminate]. destruct (decompress_all_q2 bits size (S c) l) as [x|] eqn:D; [|discriminate]. injection E as <-.
      destruct I as [<-|I]; [cbn; lia|]. assert (G := IH _ _ D e I). lia. }
  destruct ((v <? 0)%Z || (Z.of_nat (length bits) <=? v)%Z)%bool eqn:Q.
  - destruct i as [|i]; cbn [nth_error] in Hi.
    + injection Hi as ->. apply orb_true_iff in Q. destruct Q as [Q|Q]; [apply Z.ltb_lt in Q|apply Z.leb_le in Q]; lia.
    + destruct (IH (S c) m E i o Hi Ho) as (A & B). replace (c + S i)%nat with (S c + i)%nat by lia. split; [exact A|].
      intros e I. assert (G := B e I). lia.
  - destruct (dres_buffer _) as [row|] eqn:D; [|discriminate]. destruct (decompress_all_q2 bits size (S c) l) as [x|] eqn:D2; [|discriminate].
    injection E as <-. split.
    + destruct i as [|i]; cbn [nth_error] in Hi.
      * injection Hi as ->. cbn [map find_row fst snd]. rewrite Nat.add_0_r, Z.eqb_refl. symmetry. exact D.
      * destruct (IH (S c) x D2 i o Hi Ho) as (A & B). cbn [map find_row fst snd]. destruct (Z.eqb_spec (Z.of_nat c) (Z.of_nat (c + S i))); [lia|].
        replace (c + S i)%nat with (S c + i)%nat by lia. exact A.
    + intros e [<-|I]; [cbn; lia|]. assert (G := LO _ _ _ D2 e I). lia.
Qed.

Lemma done_pos bits ofs size row : decompress_vis bits ofs (repeat 0%N size) = D_done row -> (0 < size)%nat -> (ofs < length bits)%nat.
Proof.
  intros E Sz. destruct (Nat.lt_ge_cases ofs (length bits)) as [L|L]; [exact L|exfalso].
  unfold decompress_vis in E. cbn [decompress_f] in E. rewrite repeat_length in E. destruct (Nat.ltb_spec 0 size); [|lia].
  destruct (Nat.eqb_spec ofs (length bits)); [discriminate|].
  assert (Nn : nth_error bits ofs = None) by (apply nth_error_None; lia). rewrite Nn in E. discriminate.
Qed.

(** Quake: with the visibility that vis writes for a map (portals: what each cluster sees; cl: the
    cluster of leaf i + 1), a light in leaf j + 1 is skipped for a face with leafs ls exactly if its
    leaf is neither liquid, sky nor solid, no leaf of the face is liquid, and no cluster of the face
    sees the cluster of the light. *)
Theorem C125_quake : forall n cl portals b m ls j d le,
  portals_ok n portals -> Forall (fun d => d < n)%nat cl -> (Z.of_nat (n * (2 * ((length cl + 7) / 8))) < 2 ^ 31)%Z ->
  (exists s, build_vislump n cl portals = Some s /\ pb_bits b = vl_map s /\
     forall i, (i < length cl)%nat -> option_map pl_visofs (nth_error (pb_leafs b) (S i)) = nth_error (vl_leaf s) i) ->
  pb_q2 b = false -> pb_visleafs b = length cl -> uncompressed b = Some m ->
  (forall l, In l ls -> exists i, (i < length cl)%nat /\ nth_error (pb_leafs b) (S i) = Some l) ->
  nth_error cl j = Some d -> nth_error (pb_leafs b) (S j) = Some le ->
  exists r, vis_cull b (calc_pvs b m ls) (S j) = Some r /\
    (r = true <-> pl_kind le = Air /\ forall l i c, In l ls -> nth_error (pb_leafs b) (S i) = Some l -> nth_error cl i = Some c ->
       pl_kind l <> Liquid /\ ~ cluster_sees portals c d).
Proof.
  intros n cl portals b m ls j d le HP HF Hsz (s & Bs & Bb & Bl) Q2 Vl E IL Hj Hle.
  destruct (C13_vis_lump_in_order n cl portals HP HF Hsz) as (s' & Bs' & R). rewrite Bs in Bs'. injection Bs' as <-.
  assert (Jl : (j < length cl)%nat) by (apply nth_error_Some; congruence).
  assert (Vs : vis_size b = ((length cl + 7) / 8)%nat). { unfold vis_size. rewrite Q2, Vl. reflexivity. }
  assert (Vp : (0 < vis_size b)%nat). { rewrite Vs. apply Nat.div_str_pos. lia. }
  (* the row of a leaf *)
  assert (Row : forall i c l, nth_error cl i = Some c -> nth_error (pb_leafs b) (S i) = Some l ->
            exists row, find_row m (leaf_key b l) = Some row /\ (bit row j = true <-> cluster_sees portals c d)).
  { intros i c l Hi Hl. destruct (R i c Hi) as (ofs & row & A & B & C).
    assert (Ii : (i < length cl)%nat) by (apply nth_error_Some; congruence).
    assert (Ov : pl_visofs l = Z.of_nat ofs). { specialize (Bl i Ii). rewrite Hl, A in Bl. injection Bl as ->. reflexivity. }
    rewrite <- Vs in B. rewrite <- Bb in B.
    assert (Po := done_pos _ _ _ _ B Vp).
    unfold uncompressed in E. rewrite Q2 in E.
    destruct (decompress_all_q1_safe (map pl_visofs (pb_leafs b)) (pb_bits b) (vis_size b) []) as (m' & E' & _ & _ & K).
    rewrite E in E'. injection E' as <-.
    specialize (K (pl_visofs l) (in_map pl_visofs _ _ (nth_error_In _ _ Hl)) ltac:(rewrite Ov; lia)).
    unfold leaf_key. rewrite Q2.
    destruct (find_row m (pl_visofs l)) as [row'|] eqn:F; [|apply find_row_none in F; contradiction].
    exists row'. split; [reflexivity|].
    assert (G := q1_rows _ _ _ _ _ E (Forall_nil _)). rewrite Forall_forall in G. specialize (G _ (find_row_in _ _ _ F)).
    cbn [fst snd] in G. rewrite Ov, Nat2Z.id, B in G. cbn [dres_buffer] in G. injection G as ->. exact (C j d Hj). }
  assert (NB : pb_bits b <> []).
  { destruct (R j d Hj) as (ofs & row & _ & B & _). rewrite <- Vs, <- Bb in B. assert (Po := done_pos _ _ _ _ B Vp). intro F. rewrite F in Po. cbn in Po. lia. }
  destruct (C125_cull b m ls (S j) le j E NB Hle) as (r & A & B). { unfold vis_index. rewrite Q2. split; [reflexivity|lia]. }
  exists r. split; [exact A|]. rewrite B. split; intros [K1 K2]; (split; [exact K1|]).
  - intros l i c I Hl Hi. destruct (K2 l I) as (Nl & row & F & Bf). split; [exact Nl|]. intro Se.
    destruct (Row i c l Hi Hl) as (row' & F' & Rb). rewrite F in F'. injection F' as <-. apply Rb in Se. congruence.
  - intros l I. destruct (IL l I) as (i & Ii & Hl). destruct (nth_error cl i) as [c|] eqn:Hi; [|apply nth_error_None in Hi; lia].
    destruct (K2 l i c I Hl Hi) as (Nl & Ns). split; [exact Nl|]. destruct (Row i c l Hi Hl) as (row & F & Rb). exists row. split; [exact F|].
    apply not_true_iff_false. intro G. apply Ns, Rb. exact G.
Qed.
Print Assumptions C125_quake.

(** Quake II: the same by clusters; leafs of the face without a cluster keep every light. *)
Theorem C125_quake2 : forall n portals b m ls num d le,
  portals_ok n portals -> (Z.of_nat (n * (2 * ((n + 7) / 8))) < 2 ^ 31)%Z ->
  (exists s, build_vislump n (seq 0 n) portals = Some s /\ pb_bits b = vl_map s /\ pb_offsets b = vl_ofs s) ->
  pb_q2 b = true -> uncompressed b = Some m ->
  nth_error (pb_leafs b) num = Some le -> pl_cluster le = Z.of_nat d -> (d < n)%nat ->
  exists r, vis_cull b (calc_pvs b m ls) num = Some r /\
    (r = true <-> pl_kind le = Air /\ forall l, In l ls -> pl_kind l <> Liquid /\
       exists c, (c < n)%nat /\ pl_cluster l = Z.of_nat c /\ ~ cluster_sees portals c d).
Proof.
  intros n portals b m ls num d le HP Hsz (s & Bs & Bb & Bo) Q2 E Hle Hd Dn.
  assert (HF : Forall (fun d => (d < n)%nat) (seq 0 n)). { apply Forall_forall. intros x I. apply in_seq in I. lia. }
  assert (Hs2 : (Z.of_nat (n * (2 * row_bytes (length (seq 0 n)))) < 2 ^ 31)%Z). { rewrite seq_length. exact Hsz. }
  destruct (vislump_rows n (seq 0 n) portals (seq 0 n) HP HF (seq_NoDup _ _)) as (s' & Bs' & Lo & _ & R); [intro c; rewrite in_seq; lia|exact Hs2|].
  unfold build_vislump in Bs. rewrite Bs in Bs'. injection Bs' as <-. rewrite seq_length in R.
  assert (Vs : vis_size b = row_bytes n). { unfold vis_size. rewrite Q2, Bo, Lo. reflexivity. }
  assert (Vp : (0 < vis_size b)%nat). { rewrite Vs. unfold row_bytes. apply Nat.div_str_pos. lia. }
  assert (Row : forall c, (c < n)%nat -> exists ofs row, nth_error (pb_offsets b) c = Some (Z.of_nat ofs) /\ (ofs < length (pb_bits b))%nat /\
            find_row m (Z.of_nat c) = Some row /\ (bit row d = true <-> cluster_sees portals c d)).
  { intros c Hc. destruct (R c Hc) as (ofs & row & A & _ & B & C). exists ofs, row. rewrite Bo. split; [exact A|].
    specialize (B (repeat 0%N (row_bytes n)) (repeat_length _ _)). rewrite <- Vs, <- Bb in B. assert (Po := done_pos _ _ _ _ B Vp). split; [exact Po|].
    unfold uncompressed in E. rewrite Q2 in E. destruct (decompress_all_q2 _ _ _ _) as [x|] eqn:D; [|discriminate]. injection E as <-.
    destruct (q2_rows _ _ _ _ _ D c (Z.of_nat ofs)) as (F & _); [rewrite Bo; exact A|lia|]. rewrite Nat2Z.id, B in F. cbn [dres_buffer Nat.add] in F.
    split; [exact F|]. destruct C as (_ & _ & C) || destruct C as (_ & C). unfold row_bit in C. unfold bit. rewrite (C d). split.
    - intros (d' & Ed & Sd). rewrite nth_error_nth' with (d := O) in Ed by (rewrite seq_length; lia). rewrite seq_nth in Ed by lia. injection Ed as <-. exact Sd.
    - intro Sd. exists d. split; [|exact Sd]. rewrite nth_error_nth' with (d := O) by (rewrite seq_length; lia). rewrite seq_nth by lia. reflexivity. }
  destruct (Row d Dn) as (od & _ & Od & Pd & _).
  assert (NB : pb_bits b <> []). { intro F. rewrite F in Pd. cbn in Pd. lia. }
  destruct (C125_cull b m ls num le d E NB Hle) as (r & A & B).
  { unfold vis_index. rewrite Q2. split; [exact Hd|]. exists (Z.of_nat od). split; [exact Od|lia]. }
  exists r. split; [exact A|]. rewrite B. split; intros [K1 K2]; (split; [exact K1|]); intros l I; destruct (K2 l I) as (Nl & K3); (split; [exact Nl|]).
  - destruct K3 as (row & F & Bf). unfold leaf_key in F. rewrite Q2 in F.
    assert (Ic : exists c, (c < n)%nat /\ pl_cluster l = Z.of_nat c).
    { apply find_row_in in F. unfold uncompressed in E. rewrite Q2 in E. destruct (decompress_all_q2 _ _ _ _) as [x|] eqn:D; [|discriminate]. injection E as <-.
      apply in_map_iff in F. destruct F as ([c rw] & Ec & Ix). cbn [fst snd] in Ec. injection Ec as Ec _. exists c. split; [|symmetry; exact Ec].
      assert (UB : forall l c0 m, decompress_all_q2 (pb_bits b) (vis_size b) c0 l = Some m -> forall e, In e m -> (fst e < c0 + length l)%nat).
      { clear. induction l as [|v l IH]; intros c0 m E e I; cbn [decompress_all_q2] in E.
        - injection E as <-. destruct I.
        - cbn [length]. destruct (_ || _)%bool. { assert (G := IH _ _ E e I). lia. }
          destruct (dres_buffer _); [|discriminate]. destruct (decompress_all_q2 _ _ (S c0) l) as [x|] eqn:D; [|discriminate]. injection E as <-.
          destruct I as [<-|I]; [cbn; lia|]. assert (G := IH _ _ D e I). lia. }
      assert (G := UB _ _ _ D _ Ix). cbn [fst] in G. rewrite Bo, Lo in G. lia. }
    destruct Ic as (c & Hc & Ec). exists c. split; [exact Hc|]. split; [exact Ec|]. intro Sd.
    destruct (Row c Hc) as (_ & row' & _ & _ & F' & Rb). rewrite Ec in F. rewrite F in F'. injection F' as <-. apply Rb in Sd. congruence.
  - destruct K3 as (c & Hc & Ec & Ns). destruct (Row c Hc) as (_ & row & _ & _ & F & Rb). exists row. unfold leaf_key. rewrite Q2, Ec. split; [exact F|].
    apply not_true_iff_false. intro G. apply Ns, Rb. exact G.
Qed.
Print Assumptions C125_quake2.

(** A leaf without a row of its own is seen by nothing: a light in it that is not in liquid, sky or solid
    is skipped for every face of a map with visibility.  Without a row are, in Quake II, leafs whose
    cluster is negative or too great or has an offset outside of the lump; in Quake, leaf 0 and the
    leafs after those that the first model counts. *)
Definition rowless (b : pbsp) (num : nat) (l : pleaf) : Prop :=
  if pb_q2 b then
    (pl_cluster l < 0 \/ Z.of_nat (length (pb_offsets b)) <= pl_cluster l \/
     exists o, nth_error (pb_offsets b) (Z.to_nat (pl_cluster l)) = Some o /\ (o < 0 \/ Z.of_nat (length (pb_bits b)) <= o))%Z
  else (num = 0 \/ pb_visleafs b < num)%nat.
Theorem C125_no_row : forall b pvs num l, pvs <> [] -> nth_error (pb_leafs b) num = Some l -> rowless b num l ->
  vis_cull b pvs num = Some (match pl_kind l with Air => true | _ => false end).
Proof.
  intros b pvs num l P L H. unfold vis_cull. destruct pvs as [|p0 pvs]; [contradiction|]. rewrite L.
  destruct (pl_kind l); try reflexivity.
  assert (E : leaf_visible b (p0 :: pvs) num = Some false); [|rewrite E; reflexivity].
  unfold leaf_visible. rewrite L. unfold rowless in H. destruct (pb_q2 b).
  - destruct (Z.ltb_spec (pl_cluster l) 0) as [|H1]; [reflexivity|].
    destruct (Z.leb_spec (Z.of_nat (length (pb_offsets b))) (pl_cluster l)) as [|H2]; [reflexivity|].
    destruct H as [H|[H|(o & O & H)]]; [lia|lia|]. rewrite O.
    destruct (Z.ltb_spec o 0); [reflexivity|]. destruct (Z.leb_spec (Z.of_nat (length (pb_bits b))) o); [reflexivity|lia].
  - destruct num as [|k]; [reflexivity|]. destruct (Nat.leb_spec (pb_visleafs b) k); [reflexivity|lia].
Qed.
Print Assumptions C125_no_row.

(** The leafs taken for a face of the world are those that list the face. *)
Theorem C125_world : forall b face l, In l (world_leafs b face) <-> In l (pb_leafs b) /\ In face (pl_marks l).
Proof.
  intros b face l. unfold world_leafs. rewrite in_flat_map. split.
  - intros (x & I & J). apply in_map_iff in J. destruct J as (f & <- & J). apply filter_In in J. destruct J as [J E]. apply Nat.eqb_eq in E. subst f. split; assumption.
  - intros [I J]. exists l. split; [exact I|]. apply in_map_iff. exists face. split; [reflexivity|]. apply filter_In. split; [exact J|apply Nat.eqb_refl].
Qed.
Print Assumptions C125_world.

(** A face of the world that no leaf lists loses every light outside of liquid, sky and solid, even
    in a map where every leaf sees every leaf. *)
Theorem C125_world_refuted : exists b m, uncompressed b = Some m /\ world_leafs b 0 = [] /\
  (forall l, In l (pb_leafs b) -> (0 <= pl_visofs l)%Z -> find_row m (leaf_key b l) = Some [3%N]) /\
  vis_cull b (calc_pvs b m (world_leafs b 0)) 1 = Some true /\ vis_cull b (calc_pvs b m (world_leafs b 0)) 2 = Some true.
Proof.
  exists (mkPB false [3%N] [] 2 [mkPL (-1) 0 Blocked []; mkPL 0 0 Air [1]; mkPL 0 0 Air [1]]), [(0%Z, [3%N])].
  split; [reflexivity|]. split; [reflexivity|]. split; [|split; reflexivity].
  intros l [<-|[<-|[<-|[]]]] H; try reflexivity. cbn in H. lia.
Qed.
Print Assumptions C125_world_refuted.

(** Three leafs in a row, where the first does not see the third: the light in leaf 3 is skipped for
    a face of leaf 1, not for a face of leafs 1 and 2, and not if leaf 2 is liquid. *)
Example C125_nontrivial :
  let row := [mkPL (-1) 0 Blocked []; mkPL 0 0 Air [0; 1]; mkPL 1 0 Air [1]; mkPL 2 0 Air []] in
  let b := mkPB false [3; 7; 6]%N [] 3 row in
  let m := [(0%Z, [3%N]); (1%Z, [7%N]); (2%Z, [6%N])] in
  uncompressed b = Some m /\
  vis_cull b (calc_pvs b m (world_leafs b 0)) 3 = Some true /\ vis_cull b (calc_pvs b m (world_leafs b 0)) 2 = Some false /\
  vis_cull b (calc_pvs b m (world_leafs b 1)) 3 = Some false /\
  (let lq := mkPB false [3; 7; 6]%N [] 3 [mkPL (-1) 0 Blocked []; mkPL 0 0 Liquid [0]; mkPL 1 0 Air []; mkPL 2 0 Air []] in
   vis_cull lq (calc_pvs lq m (world_leafs lq 0)) 3 = Some false) /\
  (let lq := mkPB false [3; 7; 6]%N [] 3 [mkPL (-1) 0 Blocked []; mkPL 0 0 Air [0]; mkPL 1 0 Air []; mkPL 2 0 Liquid []] in
   vis_cull lq (calc_pvs lq m (world_leafs lq 0)) 3 = Some false) /\
  (let nv := mkPB false [3; 7; 6]%N [] 3 [mkPL (-1) 0 Blocked []; mkPL (-1) 0 Air [0]; mkPL 1 0 Air []; mkPL 2 0 Air []] in
   vis_cull nv (calc_pvs nv [(1%Z, [7%N]); (2%Z, [6%N])] (world_leafs nv 0)) 3 = Some false).
Proof. repeat split. Qed.
