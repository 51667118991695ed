(* Lemmas about the light grid lump. *)
From Coq Require Import List Arith NArith ZArith Bool Lia.
Import ListNotations.
From Verif Require Import Base Codec NumCastModel LightgridModel.
Local Open Scope Z_scope.

Lemma it_in_i32 : forall v, it_in i32 v = true <-> - 2 ^ 31 <= v < 2 ^ 31.
Proof.
  intro v. unfold it_in. change (it_lo i32) with (- 2 ^ 31). change (it_hi i32) with (2 ^ 31 - 1).
  rewrite andb_true_iff, !Z.leb_le. lia.
Qed.
Lemma chk_ok : forall v, - 2 ^ 31 <= v < 2 ^ 31 -> chk v = ROk v.
Proof. intros v H. unfold chk. rewrite (proj2 (it_in_i32 v) H). reflexivity. Qed.
Lemma chk_bad : forall v, ~ (- 2 ^ 31 <= v < 2 ^ 31) -> chk v = RUB.
Proof.
  intros v H. unfold chk. destruct (it_in i32 v) eqn:E; [|reflexivity]. apply it_in_i32 in E. contradiction.
Qed.

(** A point in a box. *)
Definition inside (p m s : v3) : Prop :=
  vx m <= vx p < vx m + vx s /\ vy m <= vy p < vy m + vy s /\ vz m <= vz p < vz m + vz s.
Definition insideb (p m s : v3) : bool :=
  (vx m <=? vx p) && (vx p <? vx m + vx s) && (vy m <=? vy p) && (vy p <? vy m + vy s) && (vz m <=? vz p) && (vz p <? vz m + vz s).
Lemma insideb_spec : forall p m s, insideb p m s = true <-> inside p m s.
Proof. intros. unfold insideb, inside. rewrite !andb_true_iff, !Z.leb_le, !Z.ltb_lt. lia. Qed.

Definition pos3 (s : v3) : Prop := 0 < vx s /\ 0 < vy s /\ 0 < vz s.

(** A grid as LightGrid makes it. *)
Definition grid_ok (g : grid) : Prop :=
  pos3 (g_size g) /\ vol (g_size g) < 2 ^ 31 /\
  Z.of_nat (length (g_occ g)) = vol (g_size g) /\ Z.of_nat (length (g_result g)) = vol (g_size g).

(** The index of a point, and what is stored there. *)
Definition ix (sz p : v3) : Z := vx sz * vy sz * vz p + vx sz * vy p + vx p.
Definition occ (g : grid) (p : v3) : bool := nth (Z.to_nat (ix (g_size g) p)) (g_occ g) false.
Definition smp (g : grid) (p : v3) : list sample := nth (Z.to_nat (ix (g_size g) p)) (g_result g) [].
Definition ingrid (g : grid) (p : v3) : Prop := inside p (0, 0, 0) (g_size g).

Lemma ix_range : forall sz p, inside p (0, 0, 0) sz -> 0 <= ix sz p < vol sz.
Proof.
  intros [[sx sy] sz] [[x y] z] (A & B & C). unfold ix, vol, vx, vy, vz in *. cbn [fst snd] in *.
  assert (Q : 0 < sx * sy) by (apply Z.mul_pos_pos; lia).
  assert (R1 : 0 <= sx * sy * z) by (apply Z.mul_nonneg_nonneg; lia).
  assert (R2 : 0 <= sx * y) by (apply Z.mul_nonneg_nonneg; lia).
  assert (R3 : sx * (y + 1) <= sx * sy) by (apply Z.mul_le_mono_nonneg_l; lia).
  assert (R4 : sx * sy * (z + 1) <= sx * sy * sz) by (apply Z.mul_le_mono_nonneg_l; lia).
  lia.
Qed.

Lemma gidx_ok : forall sz p, vol sz < 2 ^ 31 -> inside p (0, 0, 0) sz -> gidx sz p = ROk (ix sz p).
Proof.
  intros sz p V I. pose proof (ix_range sz p I) as R. destruct I as (A & B & C). unfold gidx.
  unfold ix, vol in *. cbn [vx vy vz fst snd] in A, B, C.
  assert (P1 : 0 < vx sz) by lia. assert (P2 : 0 < vy sz) by lia. assert (P3 : 0 < vz sz) by lia.
  assert (Q : 0 < vx sz * vy sz) by nia.
  assert (Q1 : vx sz * vy sz <= vx sz * vy sz * vz sz) by nia.
  assert (Q2 : 0 <= vx sz * vy sz * vz p) by nia.
  assert (Q3 : 0 <= vx sz * vy p) by nia.
  rewrite chk_ok by lia. cbn [rbind]. rewrite chk_ok by lia. cbn [rbind]. rewrite chk_ok by lia. cbn [rbind].
  rewrite chk_ok by lia. cbn [rbind]. rewrite chk_ok by lia. reflexivity.
Qed.

Lemma at_ok : forall A (l : list A) i d, 0 <= i < Z.of_nat (length l) -> at_ l i = ROk (nth (Z.to_nat i) l d).
Proof.
  intros A l i d H. unfold at_. replace (i <? 0) with false by (symmetry; apply Z.ltb_ge; lia).
  rewrite (nth_error_nth' l d) by lia. reflexivity.
Qed.

Lemma occ_at_ok : forall g p, grid_ok g -> ingrid g p ->
  gidx (g_size g) p = ROk (ix (g_size g) p) /\ at_ (g_occ g) (ix (g_size g) p) = ROk (occ g p) /\
  at_ (g_result g) (ix (g_size g) p) = ROk (smp g p).
Proof.
  intros g p (P & V & L1 & L2) I. pose proof (ix_range _ _ I). split; [apply gidx_ok; assumption|].
  split; apply at_ok; lia.
Qed.

(** Cells of a box. *)
Lemma in_zrange : forall m n v, In v (zrange m n) <-> m <= v < m + n.
Proof.
  intros m n v. unfold zrange. rewrite in_map_iff. split.
  - intros (k & E & I). apply in_seq in I. lia.
  - intro H. exists (Z.to_nat (v - m)). split; [lia|]. apply in_seq. lia.
Qed.
Lemma in_cells : forall m s p, In p (cells m s) <-> inside p m s.
Proof.
  intros m s [[x y] z]. unfold cells, inside. rewrite in_flat_map. split.
  - intros (z' & Z & I). apply in_flat_map in I. destruct I as (y' & Y & I). apply in_map_iff in I. destruct I as (x' & E & X).
    inversion E; subst. apply in_zrange in X. apply in_zrange in Y. apply in_zrange in Z. tauto.
  - intros (X & Y & Z). exists z. split; [apply in_zrange; assumption|]. apply in_flat_map. exists y.
    split; [apply in_zrange; assumption|]. apply in_map_iff. exists x. split; [reflexivity|]. apply in_zrange. assumption.
Qed.

Lemma zrange_length : forall m n, length (zrange m n) = Z.to_nat n.
Proof. intros. unfold zrange. rewrite map_length, seq_length. reflexivity. Qed.
Lemma nth_zrange : forall m n k d, (k < Z.to_nat n)%nat -> nth k (zrange m n) d = m + Z.of_nat k.
Proof.
  intros m n k d H. unfold zrange. rewrite (nth_indep _ d (m + Z.of_nat 0)) by (rewrite map_length, seq_length; assumption).
  change (m + Z.of_nat 0) with ((fun k => m + Z.of_nat k) 0%nat). rewrite map_nth, seq_nth by assumption. f_equal.
Qed.

(** Elements of concatenated rows of one length. *)
Lemma flat_map_length_const : forall A B (f : A -> list B) n l, (forall a, In a l -> length (f a) = n) ->
  length (flat_map f l) = (length l * n)%nat.
Proof.
  induction l as [|a l IH]; intro H; [reflexivity|]. cbn [flat_map length Nat.mul]. rewrite app_length, H by (left; reflexivity).
  rewrite IH by (intros; apply H; right; assumption). reflexivity.
Qed.
Lemma nth_error_flat_map : forall A B (f : A -> list B) n l k j a,
  (forall a, In a l -> length (f a) = n) -> nth_error l k = Some a -> (j < n)%nat ->
  nth_error (flat_map f l) (k * n + j) = nth_error (f a) j.
Proof.
  induction l as [|b l IH]; intros k j a H E J; [destruct k; discriminate|].
  cbn [flat_map]. destruct k as [|k].
  - inversion E; subst. rewrite nth_error_app1; [reflexivity|]. rewrite H by (left; reflexivity). exact J.
  - cbn [nth_error] in E. rewrite nth_error_app2; rewrite (H b) by (left; reflexivity); [|cbn [Nat.mul]; lia].
    replace (S k * n + j - n)%nat with (k * n + j)%nat by (cbn [Nat.mul]; lia).
    apply IH; [intros; apply H; right; assumption|exact E|exact J].
Qed.

Lemma cells_row : forall m s (y z : Z), length (map (fun x => (x, y, z)) (zrange (vx m) (vx s))) = Z.to_nat (vx s).
Proof. intros. rewrite map_length, zrange_length. reflexivity. Qed.
Lemma cells_slab : forall m s (z : Z),
  length (flat_map (fun y => map (fun x => (x, y, z)) (zrange (vx m) (vx s))) (zrange (vy m) (vy s))) = (Z.to_nat (vy s) * Z.to_nat (vx s))%nat.
Proof.
  intros. rewrite (flat_map_length_const _ _ _ (Z.to_nat (vx s))) by (intros; apply cells_row). rewrite zrange_length. reflexivity.
Qed.
Lemma cells_length : forall m s, pos3 s -> length (cells m s) = Z.to_nat (vol s).
Proof.
  intros m s (X & Y & Z). unfold cells. rewrite (flat_map_length_const _ _ _ (Z.to_nat (vy s) * Z.to_nat (vx s))%nat) by (intros; apply cells_slab).
  rewrite zrange_length. unfold vol. nia.
Qed.

Definition off (p m s : v3) : Z := ((vz p - vz m) * vy s + (vy p - vy m)) * vx s + (vx p - vx m).
Lemma nth_error_zrange : forall m n k, (k < Z.to_nat n)%nat -> nth_error (zrange m n) k = Some (m + Z.of_nat k).
Proof.
  intros. rewrite (nth_error_nth' _ 0) by (rewrite zrange_length; assumption). rewrite nth_zrange by assumption. reflexivity.
Qed.
Lemma cells_at : forall m s p, inside p m s -> nth_error (cells m s) (Z.to_nat (off p m s)) = Some p.
Proof.
  intros m s p (X & Y & Z). unfold cells, off.
  replace (Z.to_nat (((vz p - vz m) * vy s + (vy p - vy m)) * vx s + (vx p - vx m)))
    with (Z.to_nat (vz p - vz m) * (Z.to_nat (vy s) * Z.to_nat (vx s)) + (Z.to_nat (vy p - vy m) * Z.to_nat (vx s) + Z.to_nat (vx p - vx m)))%nat.
  2:{ assert (0 <= (vz p - vz m) * vy s) by (apply Z.mul_nonneg_nonneg; lia).
      assert (0 <= ((vz p - vz m) * vy s + (vy p - vy m)) * vx s) by (apply Z.mul_nonneg_nonneg; lia).
      apply Nat2Z.inj. rewrite !Nat2Z.inj_add, !Nat2Z.inj_mul, !Z2Nat.id by lia. ring. }
  rewrite (nth_error_flat_map _ _ _ _ _ _ _ (vz p)).
  - rewrite (nth_error_flat_map _ _ _ _ _ _ _ (vy p)).
    + erewrite map_nth_error; [|apply nth_error_zrange; lia]. destruct p as [[x y] z]. unfold vx, vy, vz in *. cbn [fst snd] in *.
      rewrite Z2Nat.id by lia. rewrite Zplus_minus. reflexivity.
    + intros. apply cells_row.
    + rewrite nth_error_zrange by lia. f_equal. lia.
    + lia.
  - intros. apply cells_slab.
  - rewrite nth_error_zrange by lia. f_equal. lia.
  - nia.
Qed.

(** Counting. *)
Definition n_occ (g : grid) (ps : list v3) : Z := Z.of_nat (length (filter (occ g) ps)).
Definition n_free (g : grid) (ps : list v3) : Z := Z.of_nat (length (filter (fun p => negb (occ g p)) ps)).
Lemma count_ok : forall g ps, grid_ok g -> Forall (ingrid g) ps -> count_occ g ps = ROk (n_occ g ps, n_free g ps).
Proof.
  intros g ps G. induction 1 as [|p ps I F IH]; [reflexivity|]. cbn [count_occ].
  destruct (occ_at_ok g p G I) as (A & B & _). rewrite A. cbn [rbind]. rewrite B. cbn [rbind]. rewrite IH. cbn [rbind fst snd].
  unfold n_occ, n_free. cbn [filter]. destruct (occ g p); cbn [negb length]; f_equal; f_equal; lia.
Qed.

(** Octants. *)
Definition within (p m s : v3) : Prop := inside p m s.
Lemma octant_child : forall i p m s d, (i < 8)%nat -> inside p m s ->
  vx m <= vx d <= vx m + vx s -> vy m <= vy d <= vy m + vy s -> vz m <= vz d <= vz m + vz s ->
  (inside p (fst (octant i m s d)) (snd (octant i m s d)) <-> i = child_index d p).
Proof.
  intros i p m s d L I DX DY DZ.
  assert (K : forall k, (k < 8)%nat -> (inside p (fst (octant k m s d)) (snd (octant k m s d)) <->
     (Nat.testbit k 2 = (vx d <=? vx p) /\ Nat.testbit k 1 = (vy d <=? vy p) /\ Nat.testbit k 0 = (vz d <=? vz p)))).
  { intros k LK. unfold octant, inside in *. unfold half.
    assert (B : forall b m s d x, m <= x < m + s -> m <= d <= m + s ->
      (fst (if b : bool then (d, m + s - d) else (m, d - m)) <= x <
       fst (if b then (d, m + s - d) else (m, d - m)) + snd (if b then (d, m + s - d) else (m, d - m)) <-> b = (d <=? x))).
    { intros b m0 s0 d0 x0 H1 H2. destruct b; cbn [fst snd]; destruct (d0 <=? x0) eqn:E;
        (apply Z.leb_le in E || apply Z.leb_gt in E); split; intro; try reflexivity; try discriminate; lia. }
    cbn [fst snd vx vy vz]. unfold vx at 1 2 3, vy at 1 2 3, vz at 1 2 3. cbn [fst snd].
    fold (vx p) (vy p) (vz p).
    pose proof (B (Nat.testbit k 2) (vx m) (vx s) (vx d) (vx p)) as BX.
    pose proof (B (Nat.testbit k 1) (vy m) (vy s) (vy d) (vy p)) as BY.
    pose proof (B (Nat.testbit k 0) (vz m) (vz s) (vz d) (vz p)) as BZ.
    cbn [vx vy vz fst snd] in *. tauto. }
  rewrite K by assumption. unfold child_index, bit.
  destruct (vx d <=? vx p), (vy d <=? vy p), (vz d <=? vz p);
    do 8 (destruct i as [|i]; [cbn; split; [intros (A1 & A2 & A3); discriminate || reflexivity|intro; try discriminate; repeat split]|]); lia.
Qed.

(** The index [r] stands for the box [m], [s]. *)
Fixpoint oct (g : grid) (d : nat) (nodes : list onode) (leafs : list (v3 * v3)) (r : N) (m s : v3) : Prop :=
  (r = FLAG_OCCLUDED /\ forall p, inside p m s -> occ g p = true) \/
  (exists k, r = (FLAG_LEAF + N.of_nat k)%N /\ (N.of_nat k < 2 ^ 30)%N /\ nth_error leafs k = Some (m, s)) \/
  match d with
  | O => False
  | S d => exists k dv ch, r = N.of_nat k /\ (N.of_nat k < 2 ^ 30)%N /\ nth_error nodes k = Some (mkONode dv ch) /\ length ch = 8%nat /\
      (vx m < vx dv < vx m + vx s /\ vy m < vy dv < vy m + vy s /\ vz m < vz dv < vz m + vz s) /\
      forall i, (i < 8)%nat -> oct g d nodes leafs (nth i ch 0%N) (fst (octant i m s dv)) (snd (octant i m s dv))
  end.

Lemma nth_error_more : forall A (l x : list A) k a, nth_error l k = Some a -> nth_error (l ++ x) k = Some a.
Proof. intros A l x k a E. rewrite nth_error_app1; [exact E|]. apply nth_error_Some. congruence. Qed.
Lemma oct_more : forall g d nodes leafs x y r m s, oct g d nodes leafs r m s -> oct g d (nodes ++ x) (leafs ++ y) r m s.
Proof.
  intros g. induction d as [|d IH]; intros nodes leafs x y r m s H.
  - destruct H as [H|[(k & A & B & C)|[]]]; [left; exact H|]. right. left. exists k. split; [exact A|]. split; [exact B|].
    apply nth_error_more. exact C.
  - destruct H as [H|[(k & A & B & C)|(k & dv & ch & A & B & C & D & E & F)]]; [left; exact H| |].
    + right. left. exists k. split; [exact A|]. split; [exact B|]. apply nth_error_more. exact C.
    + right. right. exists k, dv, ch. split; [exact A|]. split; [exact B|]. split; [apply nth_error_more; exact C|].
      split; [exact D|]. split; [exact E|]. intros i I. apply IH. apply F. exact I.
Qed.

Fixpoint maxn (d : nat) : nat := match d with O => 0 | S d => 1 + 8 * maxn d end.
Fixpoint maxl (d : nat) : nat := match d with O => 1 | S d => 8 * maxl d end.
Lemma maxl_pos : forall d, (1 <= maxl d)%nat.
Proof. induction d; cbn [maxl]; lia. Qed.

Definition stored (ls : list (v3 * v3)) : Z := fold_right (fun l a => vol (snd l) + a) 0 ls.
Lemma stored_app : forall a b, stored (a ++ b) = stored a + stored b.
Proof. induction a as [|x a IH]; intro b; [reflexivity|]. cbn [app stored fold_right]. fold (stored (a ++ b)) (stored a). rewrite IH. lia. Qed.
Definition cover (p : v3) (ls : list (v3 * v3)) : nat := length (filter (fun l => insideb p (fst l) (snd l)) ls).
Lemma cover_app : forall p a b, cover p (a ++ b) = (cover p a + cover p b)%nat.
Proof. intros. unfold cover. rewrite filter_app, app_length. reflexivity. Qed.

Lemma lor_leaf : forall k, (k < 2 ^ 30)%N -> N.lor FLAG_LEAF k = (FLAG_LEAF + k)%N.
Proof.
  intros k H. rewrite <- N.lxor_lor; [symmetry; apply N.add_nocarry_lxor|].
  - apply N.bits_inj_0. intro i. rewrite N.land_spec. change FLAG_LEAF with (2 ^ 31)%N. rewrite N.pow2_bits_eqb.
    destruct (N.eqb_spec 31 i) as [<-|]; [|reflexivity].
    destruct (N.eq_dec k 0) as [->|NZ]; [reflexivity|].
    rewrite N.bits_above_log2; [reflexivity|]. apply N.log2_lt_pow2; [lia|]. eapply N.lt_trans; [exact H|reflexivity].
  - apply N.bits_inj_0. intro i. rewrite N.land_spec. change FLAG_LEAF with (2 ^ 31)%N. rewrite N.pow2_bits_eqb.
    destruct (N.eqb_spec 31 i) as [<-|]; [|reflexivity].
    destruct (N.eq_dec k 0) as [->|NZ]; [reflexivity|].
    rewrite N.bits_above_log2; [reflexivity|]. apply N.log2_lt_pow2; [lia|]. eapply N.lt_trans; [exact H|reflexivity].
Qed.

(** A node as it is written. *)
Definition nodewf (g : grid) (n : onode) : Prop :=
  ingrid g (on_div n) /\ length (on_children n) = 8%nat /\ Forall (fun c => c < 2 ^ 32)%N (on_children n).
Lemma oct_word : forall g d nodes leafs r m s, oct g d nodes leafs r m s -> (r < 2 ^ 32)%N.
Proof.
  assert (L : forall k, (N.of_nat k < 2 ^ 30)%N -> (FLAG_LEAF + N.of_nat k < 2 ^ 32)%N).
  { intros k K. change (2 ^ 30)%N with 1073741824%N in K. change (2 ^ 32)%N with 4294967296%N. unfold FLAG_LEAF. lia. }
  intros g [|d] nodes leafs r m s H.
  - destruct H as [(-> & _)|[(k & -> & K & _)|[]]]; [reflexivity|apply L; exact K].
  - destruct H as [(-> & _)|[(k & -> & K & _)|(k & dv & ch & -> & K & _)]]; [reflexivity|apply L; exact K|].
    eapply N.lt_trans; [exact K|reflexivity].
Qed.

(** What a call adds to the state. *)
Definition adds (g : grid) (d : nat) (m s : v3) (r : N) (st st' : ostate) : Prop :=
  exists x y, o_nodes st' = o_nodes st ++ x /\ o_leafs st' = o_leafs st ++ y /\
    (length x <= maxn d)%nat /\ (length y <= maxl d)%nat /\
    oct g d (o_nodes st') (o_leafs st') r m s /\ Forall (nodewf g) x /\
    o_occluded st' + stored y = o_occluded st + vol s /\
    Forall (fun l => pos3 (snd l) /\ forall p, inside p (fst l) (snd l) -> inside p m s) y /\
    forall p, (cover p y <= if insideb p m s then 1 else 0)%nat /\ (inside p m s -> cover p y = 0%nat -> occ g p = true).

Definition box_in (g : grid) (m s : v3) : Prop := pos3 s /\ forall p, inside p m s -> ingrid g p.

Lemma free_zero : forall g ps, n_free g ps = 0 -> forall p, In p ps -> occ g p = true.
Proof.
  intros g ps H p I. unfold n_free in H. destruct (occ g p) eqn:E; [reflexivity|].
  assert (J : In p (filter (fun p => negb (occ g p)) ps)) by (apply filter_In; rewrite E; tauto).
  destruct (filter (fun p => negb (occ g p)) ps); [destruct J|]. cbn [length] in H. lia.
Qed.

Lemma inside_empty : forall p m s l, cover p [(m, s)] = l -> l = (if insideb p m s then 1 else 0)%nat.
Proof. intros p m s l <-. unfold cover. cbn [filter fst snd]. destruct (insideb p m s); reflexivity. Qed.

Lemma new_leaf_adds : forall g d m s st, pos3 s -> (N.of_nat (length (o_leafs st)) < 2 ^ 30)%N ->
  exists r st', new_leaf m s st = ROk (r, st') /\ adds g d m s r st st' /\ o_occluded st' = o_occluded st.
Proof.
  intros g d m s st P L. unfold new_leaf. eexists. eexists. split; [reflexivity|]. split; [|reflexivity].
  exists [], [(m, s)]. cbn [o_nodes o_leafs o_occluded]. rewrite app_nil_r.
  split; [reflexivity|]. split; [reflexivity|]. split; [cbn [length]; lia|]. split; [cbn [length]; apply maxl_pos|].
  split.
  - rewrite N.mod_small by (eapply N.lt_trans; [exact L|reflexivity]). rewrite lor_leaf by exact L.
    assert (K : exists k, (FLAG_LEAF + N.of_nat (length (o_leafs st)))%N = (FLAG_LEAF + N.of_nat k)%N /\ (N.of_nat k < 2 ^ 30)%N /\
      nth_error (o_leafs st ++ [(m, s)]) k = Some (m, s)).
    { exists (length (o_leafs st)). split; [reflexivity|]. split; [exact L|]. rewrite nth_error_app2, Nat.sub_diag by lia. reflexivity. }
    destruct d; right; left; exact K.
  - split; [constructor|]. split; [cbn [stored fold_right snd]; lia|]. split; [constructor; [cbn [snd fst]; tauto|constructor]|].
    intro p. pose proof (inside_empty p m s _ eq_refl) as C. rewrite C. split; [lia|].
    intros I E. apply insideb_spec in I. rewrite I in E. discriminate.
Qed.

(** Octants of a box that is cut inside. *)
Definition cut (m s d : v3) : Prop :=
  vx m < vx d < vx m + vx s /\ vy m < vy d < vy m + vy s /\ vz m < vz d < vz m + vz s.
Lemma octant_pos : forall i m s d, cut m s d -> pos3 (snd (octant i m s d)).
Proof.
  intros i m s d (X & Y & Z). unfold octant, pos3, half.
  destruct (Nat.testbit i 2), (Nat.testbit i 1), (Nat.testbit i 0); cbn [fst snd vx vy vz]; unfold vx, vy, vz in *; cbn [fst snd]; lia.
Qed.
Lemma octant_sub : forall i m s d p, cut m s d -> inside p (fst (octant i m s d)) (snd (octant i m s d)) -> inside p m s.
Proof.
  intros i m s d p (X & Y & Z). unfold octant, inside, half.
  destruct (Nat.testbit i 2), (Nat.testbit i 1), (Nat.testbit i 0); unfold vx, vy, vz in *; cbn [fst snd]; lia.
Qed.
Lemma octant_vol : forall m s d,
  vol s = fold_right (fun i a => vol (snd (octant i m s d)) + a) 0 (seq 0 8).
Proof.
  intros [[mx my] mz] [[sx sy] sz] [[dx dy] dz].
  cbn [seq fold_right]. unfold octant, half, vol.
  cbn -[Z.mul Z.add Z.sub]. ring.
Qed.
Lemma cut_division : forall m s, 4 <= vx s -> 4 <= vy s -> 4 <= vz s -> cut m s (division m s).
Proof.
  intros m s X Y Z.
  assert (H : forall v, 4 <= v -> 0 < Z.quot v 2 < v).
  { intros v V. rewrite Z.quot_div_nonneg by lia. split; [apply Z.div_str_pos; lia|apply Z.div_lt; lia]. }
  pose proof (H _ X). pose proof (H _ Y). pose proof (H _ Z).
  unfold cut, division. cbn [vx vy vz fst snd]. unfold vx, vy, vz in *. cbn [fst snd] in *. lia.
Qed.

Lemma vol_pos : forall s, pos3 s -> 0 < vol s.
Proof. intros s (X & Y & Z). unfold vol. apply Z.mul_pos_pos; [apply Z.mul_pos_pos|]; assumption. Qed.
Lemma vol_xy : forall s, pos3 s -> 0 < vx s * vy s <= vol s.
Proof. intros s (X & Y & Z). unfold vol. assert (0 < vx s * vy s) by (apply Z.mul_pos_pos; assumption). nia. Qed.
Lemma stored_nonneg : forall y, Forall (fun l => pos3 (snd l)) y -> 0 <= stored y.
Proof.
  induction 1 as [|l y P F IH]; [reflexivity|]. cbn [stored fold_right]. fold (stored y). pose proof (vol_pos _ P). lia.
Qed.

(** The room that is left. *)
Definition room (nn nl : nat) (v : Z) (st : ostate) : Prop :=
  (N.of_nat (length (o_nodes st) + nn) <= 2 ^ 30)%N /\ (N.of_nat (length (o_leafs st) + nl) <= 2 ^ 30)%N /\
  0 <= o_occluded st /\ Forall (fun l => pos3 (snd l)) (o_leafs st) /\ o_occluded st + stored (o_leafs st) + v < 2 ^ 31.

Fixpoint hits (p : v3) (m s d : v3) (is : list nat) : nat :=
  match is with
  | [] => 0
  | i :: t => (if insideb p (fst (octant i m s d)) (snd (octant i m s d)) then 1 else 0) + hits p m s d t
  end%nat.
Definition ovol (m s d : v3) (is : list nat) : Z := fold_right (fun i a => vol (snd (octant i m s d)) + a) 0 is.

Lemma children_ok : forall g f d m s dv,
  (forall m s st, box_in g m s -> room (maxn d) (maxl d) (vol s) st ->
     exists r st', f m s st = ROk (r, st') /\ adds g d m s r st st' /\ 0 <= o_occluded st') ->
  box_in g m s -> cut m s dv ->
  forall is st, room (length is * maxn d) (length is * maxl d) (ovol m s dv is) st ->
  exists ch st' x y, build_children f m s dv is st = ROk (ch, st') /\
    o_nodes st' = o_nodes st ++ x /\ o_leafs st' = o_leafs st ++ y /\
    (length x <= length is * maxn d)%nat /\ (length y <= length is * maxl d)%nat /\
    Forall2 (fun c i => oct g d (o_nodes st') (o_leafs st') c (fst (octant i m s dv)) (snd (octant i m s dv))) ch is /\ Forall (nodewf g) x /\
    o_occluded st' + stored y = o_occluded st + ovol m s dv is /\ 0 <= o_occluded st' /\
    Forall (fun l => pos3 (snd l) /\ forall p, inside p (fst l) (snd l) -> inside p m s) y /\
    forall p, (cover p y <= hits p m s dv is)%nat /\
      (cover p y = 0%nat -> forall i, In i is -> inside p (fst (octant i m s dv)) (snd (octant i m s dv)) -> occ g p = true).
Proof.
  intros g f d m s dv F B C. induction is as [|i is IH]; intros st R.
  - exists [], st, [], []. cbn [build_children]. rewrite !app_nil_r. split; [reflexivity|]. split; [reflexivity|].
    split; [reflexivity|]. split; [cbn; lia|]. split; [cbn; lia|]. split; [constructor|]. split; [constructor|]. split; [cbn; lia|].
    destruct R as (_ & _ & R & _). split; [exact R|]. split; [constructor|].
    intro p. split; [cbn; lia|]. intros _ i [].
  - destruct R as (R1 & R2 & R3 & R4 & R5). cbn [length Nat.mul] in R1, R2. cbn [ovol fold_right] in R5. fold (ovol m s dv is) in R5.
    assert (VN : 0 <= ovol m s dv is).
    { clear - C. induction is as [|j is IH]; [reflexivity|]. cbn [ovol fold_right]. fold (ovol m s dv is).
      pose proof (vol_pos _ (octant_pos j m s dv C)). lia. }
    assert (SN : 0 <= stored (o_leafs st)) by (apply stored_nonneg; exact R4).
    assert (BI : box_in g (fst (octant i m s dv)) (snd (octant i m s dv))).
    { split; [apply octant_pos; exact C|]. intros p I. destruct B as (_ & B). apply B. eapply octant_sub; [exact C|exact I]. }
    destruct (F _ _ st BI) as (r & st1 & E1 & (x1 & y1 & A1 & A2 & A3 & A4 & A5 & AN & A6 & A7 & A8) & O1).
    { split; [lia|]. split; [lia|]. split; [exact R3|]. split; [exact R4|]. lia. }
    assert (P1 : Forall (fun l : v3 * v3 => pos3 (snd l)) y1).
    { rewrite Forall_forall in *. intros l I. destruct (A7 l I) as (P & _). exact P. }
    destruct (IH st1) as (ch & st2 & x2 & y2 & E2 & B1 & B2 & B3 & B4 & B5 & BN & B6 & B7 & B8 & B9).
    { unfold room. rewrite A1, A2, !app_length, stored_app.
      split; [lia|]. split; [lia|]. split; [exact O1|]. split; [apply Forall_app; tauto|]. lia. }
    cbn [build_children]. rewrite E1. cbn [rbind fst snd]. rewrite E2. cbn [rbind fst snd].
    exists (r :: ch), st2, (x1 ++ x2), (y1 ++ y2). split; [reflexivity|].
    split; [rewrite B1, A1, app_assoc; reflexivity|]. split; [rewrite B2, A2, app_assoc; reflexivity|].
    split; [rewrite app_length; cbn [length Nat.mul]; lia|]. split; [rewrite app_length; cbn [length Nat.mul]; lia|].
    split; [constructor; [rewrite B1, B2; apply oct_more; exact A5|exact B5]|]. split; [apply Forall_app; split; assumption|].
    split; [rewrite stored_app; cbn [ovol fold_right]; fold (ovol m s dv is); lia|]. split; [exact B7|].
    split.
    { apply Forall_app. split; [|exact B8]. rewrite Forall_forall in *. intros l I. destruct (A7 l I) as (P & Q).
      split; [exact P|]. intros p J. eapply octant_sub; [exact C|]. apply Q. exact J. }
    intro p. destruct (A8 p) as (K1 & K2). destruct (B9 p) as (K3 & K4). rewrite cover_app. split; [cbn [hits]; lia|].
    intros Z j [->|J] I; [apply K2; [exact I|lia]|apply (K4 ltac:(lia) j J I)].
Qed.

Lemma hits_one : forall p m s d, cut m s d -> (hits p m s d (seq 0 8) <= if insideb p m s then 1 else 0)%nat.
Proof.
  intros p m s d C. destruct (insideb p m s) eqn:E.
  - apply insideb_spec in E.
    assert (K : forall i, (i < 8)%nat -> (if insideb p (fst (octant i m s d)) (snd (octant i m s d)) then 1 else 0)%nat = (if Nat.eqb i (child_index d p) then 1 else 0)%nat).
    { intros i L. pose proof (octant_child i p m s d L E ltac:(unfold cut in C; lia) ltac:(unfold cut in C; lia) ltac:(unfold cut in C; lia)) as H.
      destruct (insideb p (fst (octant i m s d)) (snd (octant i m s d))) eqn:J.
      - apply insideb_spec in J. apply H in J. rewrite <- J, Nat.eqb_refl. reflexivity.
      - destruct (Nat.eqb_spec i (child_index d p)) as [Q|Q]; [|reflexivity]. apply H in Q. apply insideb_spec in Q. congruence. }
    cbn [seq hits]. rewrite !K by lia. generalize (child_index d p). intro c.
    do 8 (destruct c as [|c]; [cbn; lia|]). cbn. lia.
  - assert (K : forall i, insideb p (fst (octant i m s d)) (snd (octant i m s d)) = false).
    { intro i. destruct (insideb p (fst (octant i m s d)) (snd (octant i m s d))) eqn:J; [|reflexivity].
      apply insideb_spec in J. apply octant_sub in J; [|exact C]. apply insideb_spec in J. congruence. }
    cbn [seq hits]. rewrite !K. lia.
Qed.

Lemma forall2_len : forall A B (R : A -> B -> Prop) l l', Forall2 R l l' -> length l = length l'.
Proof. induction 1; cbn [length]; congruence. Qed.
Lemma forall2_nth : forall A B (R : A -> B -> Prop) l l' d d' i, Forall2 R l l' -> (i < length l')%nat -> R (nth i l d) (nth i l' d').
Proof.
  intros A B R l l' d d' i H. revert i. induction H as [|a b l l' H F IH]; intros i L; [cbn in L; lia|].
  destruct i; [exact H|]. cbn [nth]. apply IH. cbn [length] in L. lia.
Qed.

Lemma build_ok : forall g, grid_ok g -> forall d m s st, box_in g m s -> room (maxn d) (maxl d) (vol s) st ->
  exists r st', build g d m s st = ROk (r, st') /\ adds g d m s r st st' /\ 0 <= o_occluded st'.
Proof.
  intros g G. induction d as [|d IH]; intros m s st B R.
  - pose proof B as (P & BG). pose proof R as (R1 & R2 & R3 & R4 & R5). cbn [build].
    rewrite count_ok; [|exact G|apply Forall_forall; intros p I; apply BG; apply in_cells; exact I].
    cbn [rbind fst snd]. pose proof (vol_xy s P) as VP. pose proof (stored_nonneg _ R4) as SN.
    destruct (Z.eqb_spec (n_free g (cells m s)) 0) as [E|E].
    + rewrite chk_ok by lia. cbn [rbind]. fold (vol s). rewrite chk_ok by lia. cbn [rbind]. rewrite chk_ok by lia. cbn [rbind].
      eexists. eexists. split; [reflexivity|]. split; [|cbn [o_occluded]; lia].
      exists [], []. cbn [o_nodes o_leafs o_occluded]. rewrite !app_nil_r. split; [reflexivity|]. split; [reflexivity|].
      split; [cbn; lia|]. split; [cbn; lia|].
      assert (OC : forall p, inside p m s -> occ g p = true) by (intros p I; apply (free_zero g _ E); apply in_cells; exact I).
      split; [left; split; [reflexivity|exact OC]|]. split; [constructor|]. split; [cbn; lia|]. split; [constructor|].
      intro p. split; [cbn; lia|]. intros I _. apply OC. exact I.
    + cbn [maxl] in R2. destruct (new_leaf_adds g 0 m s st P) as (r & st' & E1 & E2 & O); [lia|].
      destruct ((vx s <? 4) || (vy s <? 4) || (vz s <? 4) || (n_occ g (cells m s) <? 8));
        (exists r, st'; split; [exact E1|split; [exact E2|lia]]).
  - pose proof B as (P & BG). pose proof R as (R1 & R2 & R3 & R4 & R5). cbn [build].
    rewrite count_ok; [|exact G|apply Forall_forall; intros p I; apply BG; apply in_cells; exact I].
    cbn [rbind fst snd]. pose proof (vol_xy s P) as VP. pose proof (stored_nonneg _ R4) as SN.
    destruct (Z.eqb_spec (n_free g (cells m s)) 0) as [E|E].
    + rewrite chk_ok by lia. cbn [rbind]. fold (vol s). rewrite chk_ok by lia. cbn [rbind]. rewrite chk_ok by lia. cbn [rbind].
      eexists. eexists. split; [reflexivity|]. split; [|cbn [o_occluded]; lia].
      exists [], []. cbn [o_nodes o_leafs o_occluded]. rewrite !app_nil_r. split; [reflexivity|]. split; [reflexivity|].
      split; [cbn; lia|]. split; [cbn; lia|].
      assert (OC : forall p, inside p m s -> occ g p = true) by (intros p I; apply (free_zero g _ E); apply in_cells; exact I).
      split; [left; split; [reflexivity|exact OC]|]. split; [constructor|]. split; [cbn; lia|]. split; [constructor|].
      intro p. split; [cbn; lia|]. intros I _. apply OC. exact I.
    + pose proof (maxl_pos (S d)) as ML.
      destruct (new_leaf_adds g (S d) m s st P) as (r & st' & E1 & E2 & O); [lia|].
      destruct ((vx s <? 4) || (vy s <? 4) || (vz s <? 4) || (n_occ g (cells m s) <? 8)) eqn:LF;
        [exists r, st'; split; [exact E1|split; [exact E2|lia]]|].
      clear r st' E1 E2 O. rewrite !orb_false_iff, !Z.ltb_ge in LF. destruct LF as (((LX & LY) & LZ) & _).
      pose proof (cut_division m s LX LY LZ) as C. set (dv := division m s) in *. clearbody dv.
      cbn [maxn maxl] in R1, R2.
      destruct (children_ok g (build g d) d m s dv IH B C (seq 0 8) st) as (ch & st2 & x & y & E1 & B1 & B2 & B3 & B4 & B5 & BN & B6 & B7 & B8 & B9).
      { split; [rewrite seq_length; lia|]. split; [rewrite seq_length; lia|]. split; [exact R3|]. split; [exact R4|].
        unfold ovol. rewrite <- octant_vol. lia. }
      rewrite E1. cbn [rbind fst snd]. eexists. eexists. split; [reflexivity|]. split; [|cbn [o_occluded]; exact B7].
      rewrite seq_length in B3, B4. unfold ovol in B6. rewrite <- octant_vol in B6.
      assert (LN : (N.of_nat (length (o_nodes st2)) < 2 ^ 30)%N) by (rewrite B1, app_length; lia).
      exists (x ++ [mkONode dv ch]), y. cbn [o_nodes o_leafs o_occluded]. split; [rewrite B1, app_assoc; reflexivity|].
      split; [exact B2|]. split; [rewrite app_length; cbn [length maxn]; lia|]. split; [cbn [maxl]; lia|].
      pose proof (forall2_len _ _ _ _ _ B5) as LC. rewrite seq_length in LC.
      split.
      { right. right. exists (length (o_nodes st2)), dv, ch. rewrite N.mod_small by (eapply N.lt_trans; [exact LN|reflexivity]).
        split; [reflexivity|]. split; [exact LN|]. split; [rewrite nth_error_app2, Nat.sub_diag by lia; reflexivity|].
        split; [exact LC|]. split; [exact C|]. intros i I.
        pose proof (forall2_nth _ _ _ _ _ 0%N 0%nat i B5 ltac:(rewrite seq_length; exact I)) as H. cbn beta in H. rewrite seq_nth in H by exact I.
        cbn [Nat.add] in H. rewrite <- (app_nil_r (o_leafs st2)). apply oct_more. exact H. }
      split.
      { apply Forall_app. split; [exact BN|]. constructor; [|constructor]. split; [|split; [exact LC|]].
        - cbn [on_div]. apply BG. unfold cut in C. unfold inside. lia.
        - cbn [on_children]. clear - B5. induction B5 as [|c i cs is H F IH]; constructor; [eapply oct_word; exact H|exact IH]. }
      split; [exact B6|]. split; [exact B8|].
      intro p. destruct (B9 p) as (K1 & K2). pose proof (hits_one p m s dv C) as H. split; [lia|].
      intros I Z. assert (L8 : (child_index dv p < 8)%nat).
      { unfold child_index, bit. destruct (vx dv <=? vx p), (vy dv <=? vy p), (vz dv <=? vz p); lia. }
      apply (K2 Z (child_index dv p)); [apply in_seq; lia|].
      apply octant_child; try assumption; try (unfold cut in C; lia).
Qed.

Lemma root_ok : forall g, grid_ok g -> exists r st, build_root g = ROk (r, st) /\ adds g 5 (0, 0, 0) (g_size g) r (mkO [] [] 0) st.
Proof.
  intros g G. destruct (build_ok g G 5 (0, 0, 0) (g_size g) (mkO [] [] 0)) as (r & st & E & A & _).
  - destruct G as (P & _). split; [exact P|]. intros p I. exact I.
  - destruct G as (P & V & _). split; [apply N.leb_le; vm_compute; reflexivity|]. split; [apply N.leb_le; vm_compute; reflexivity|].
    split; [reflexivity|]. split; [constructor|]. cbn [o_occluded o_leafs stored fold_right]. lia.
  - exists r, st. split; assumption.
Qed.
