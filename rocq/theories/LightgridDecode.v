(* Decoding what the writer of the light grid lump wrote. *)
From Coq Require Import List Arith NArith ZArith Bool Lia.
Import ListNotations.
From Verif Require Import Base Codec NumCastModel ContentsProofs LightgridModel LightgridSpec LightgridProofs.
Local Open Scope Z_scope.

(** ** Finding the leaf *)

Lemma land_pow : forall r k, (N.land r (2 ^ k) =? 0)%N = negb (N.testbit r k).
Proof. intros r k. pose proof (tst_pow2 r k) as H. unfold ContentsModel.tst in H. rewrite <- H, negb_involutive. reflexivity. Qed.
Lemma high_bits : forall k j, (N.of_nat k < 2 ^ 30)%N -> (30 <= j)%N -> N.testbit (N.of_nat k) j = false.
Proof.
  intros k j K J. destruct (N.eq_dec (N.of_nat k) 0) as [->|NZ]; [apply N.bits_0|].
  apply N.bits_above_log2. apply N.log2_lt_pow2; [lia|]. eapply N.lt_le_trans; [exact K|]. apply N.pow_le_mono_r; lia.
Qed.
Lemma leaf_bit : forall k j, (N.of_nat k < 2 ^ 30)%N ->
  N.testbit (FLAG_LEAF + N.of_nat k) j = ((31 =? j)%N || N.testbit (N.of_nat k) j).
Proof.
  intros k j K. rewrite <- lor_leaf by exact K. rewrite N.lor_spec. change FLAG_LEAF with (2 ^ 31)%N. rewrite N.pow2_bits_eqb. reflexivity.
Qed.

Lemma find_ok : forall g nodes leafs p d f r m s, (d <= f)%nat -> oct g d nodes leafs r m s -> inside p m s ->
  (find_leaf f nodes r p = ROk None /\ occ g p = true) \/
  exists k m' s', find_leaf f nodes r p = ROk (Some (N.of_nat k)) /\ nth_error leafs k = Some (m', s') /\ inside p m' s'.
Proof.
  intros g nodes leafs p.
  assert (OC : forall f, find_leaf f nodes FLAG_OCCLUDED p = ROk None).
  { intros [|f]; reflexivity. }
  assert (LF : forall f k, (N.of_nat k < 2 ^ 30)%N -> find_leaf f nodes (FLAG_LEAF + N.of_nat k) p = ROk (Some (N.of_nat k))).
  { intros f k K. assert (E : N.ldiff (FLAG_LEAF + N.of_nat k) FLAG_LEAF = N.of_nat k).
    { apply N.bits_inj. intro j. rewrite N.ldiff_spec, leaf_bit by exact K. change FLAG_LEAF with (2 ^ 31)%N. rewrite N.pow2_bits_eqb.
      destruct (N.eqb_spec 31 j) as [<-|]; cbn [orb negb andb]; [|rewrite andb_true_r; reflexivity]. symmetry. apply high_bits; [exact K|lia]. }
    assert (B1 : (N.land (FLAG_LEAF + N.of_nat k) FLAG_OCCLUDED =? 0)%N = true).
    { change FLAG_OCCLUDED with (2 ^ 30)%N. rewrite land_pow, leaf_bit by exact K. cbn [N.eqb Pos.eqb orb]. rewrite high_bits; [reflexivity|exact K|lia]. }
    assert (B2 : (N.land (FLAG_LEAF + N.of_nat k) FLAG_LEAF =? 0)%N = false).
    { change FLAG_LEAF with (2 ^ 31)%N at 2. rewrite land_pow, leaf_bit by exact K. reflexivity. }
    destruct f; cbn [find_leaf]; rewrite B1, B2; cbn [negb]; rewrite E; reflexivity. }
  induction d as [|d IH]; intros f r m s L O I.
  - destruct O as [(-> & A)|[(k & -> & K & E)|[]]].
    + left. split; [apply OC|apply A; exact I].
    + right. exists k, m, s. split; [apply LF; exact K|]. split; assumption.
  - destruct O as [(-> & A)|[(k & -> & K & E)|(k & dv & ch & -> & K & E & LC & C & F)]].
    + left. split; [apply OC|apply A; exact I].
    + right. exists k, m, s. split; [apply LF; exact K|]. split; assumption.
    + destruct f as [|f]; [lia|]. cbn [find_leaf].
      change FLAG_OCCLUDED with (2 ^ 30)%N. change FLAG_LEAF with (2 ^ 31)%N. rewrite !land_pow, !high_bits by (exact K || lia).
      cbn [negb]. rewrite Nat2N.id, E. cbn [on_children on_div].
      assert (L8 : (child_index dv p < 8)%nat).
      { unfold child_index, bit. destruct (vx dv <=? vx p), (vy dv <=? vy p), (vz dv <=? vz p); lia. }
      rewrite (nth_error_nth' ch 0%N) by lia. apply (IH f _ _ _ ltac:(lia) (F _ L8)).
      apply octant_child; try assumption; try lia.
Qed.

(** ** Decoding *)

Lemma get3_ok : forall A w (p : A -> list N) g, codec_ok w p g ->
  forall v rest, w (fst (fst v)) -> w (snd (fst v)) -> w (snd v) -> get3 g (put3 p v ++ rest) = Some (v, rest).
Proof.
  intros A w p g C [[a b] c] rest WA WB WC. unfold get3, put3, get_pair. cbn [fst snd] in *.
  rewrite <- !app_assoc, !C by assumption. reflexivity.
Qed.
Lemma u8_ok : forall v rest, (v < 256)%N -> get_le 1 (put_u8 v ++ rest) = Some (v, rest).
Proof. intros v rest H. apply (le_ok 1). exact H. Qed.

Definition rgb_ok (s : sample) : Prop := let '(r, g, b) := sm_rgb s in (r < 256 /\ g < 256 /\ b < 256)%N.
Definition samples_ok (l : list sample) : Prop := (used_styles l < 255)%nat /\ Forall rgb_ok l.
Definition seen (l : list sample) : list (N * (N * N * N)) :=
  map (fun s => (to_unsigned 1 (sm_style s), sm_rgb s)) (firstn (used_styles l) l).

Lemma used_le : forall l, (used_styles l <= length l)%nat.
Proof. induction l as [|s l IH]; cbn [used_styles length]; [lia|]. destruct (sm_used s); lia. Qed.
Lemma Forall_firstn : forall A (P : A -> Prop) n l, Forall P l -> Forall P (firstn n l).
Proof. intros A P n l F. revert n. induction F; intros [|n]; cbn [firstn]; constructor; auto. Qed.

Lemma sample_ok : forall s rest, rgb_ok s ->
  get_pair (get_le 1) (get3 (get_le 1)) (put_sample s ++ rest) = Some ((to_unsigned 1 (sm_style s), sm_rgb s), rest).
Proof.
  intros s rest R. unfold put_sample, get_pair. rewrite <- app_assoc.
  rewrite u8_ok by (apply (to_unsigned_range 1)). unfold rgb_ok in R. destruct (sm_rgb s) as [[r g] b].
  change put_u8 with (put_le 1). rewrite (get3_ok N (urange 1) (put_le 1) (get_le 1) (le_ok 1)); [reflexivity| | |]; cbn [fst snd]; unfold urange; lia.
Qed.
Lemma samples_list_ok : forall l rest, Forall rgb_ok l ->
  get_list (get_pair (get_le 1) (get3 (get_le 1))) (length l) (put_list put_sample l ++ rest) =
  Some (map (fun s => (to_unsigned 1 (sm_style s), sm_rgb s)) l, rest).
Proof.
  intros l rest F. revert rest. induction F as [|s l R F IH]; intro rest; [reflexivity|].
  cbn [length get_list put_list map]. rewrite <- app_assoc, sample_ok by exact R. rewrite IH. reflexivity.
Qed.

Definition cellv (g : grid) (p : v3) : option (list (N * (N * N * N))) := if occ g p then None else Some (seen (smp g p)).
Lemma cell_ok : forall g p, grid_ok g -> ingrid g p -> samples_ok (smp g p) ->
  exists b, put_cell g p = ROk b /\ forall rest, get_cell (b ++ rest) = Some (cellv g p, rest).
Proof.
  intros g p G I (U & R). destruct (occ_at_ok g p G I) as (A & B & C). unfold put_cell. rewrite A. cbn [rbind]. rewrite B. cbn [rbind].
  unfold cellv. destruct (occ g p).
  - eexists. split; [reflexivity|]. reflexivity.
  - rewrite C. cbn [rbind]. eexists. split; [reflexivity|]. intro rest. unfold get_cell.
    rewrite <- app_assoc, u8_ok by lia.
    destruct (N.eqb_spec (N.of_nat (used_styles (smp g p))) 255) as [E|E]; [lia|].
    rewrite Nat2N.id.
    pose proof (samples_list_ok (firstn (used_styles (smp g p)) (smp g p)) rest (Forall_firstn _ _ _ _ R)) as H.
    rewrite firstn_length_le in H by apply used_le. rewrite H. reflexivity.
Qed.
Lemma cells_ok : forall g ps, grid_ok g -> Forall (fun p => ingrid g p /\ samples_ok (smp g p)) ps ->
  exists b, rmap (put_cell g) ps = ROk b /\ forall rest, get_list get_cell (length ps) (concat b ++ rest) = Some (map (cellv g) ps, rest).
Proof.
  intros g ps G. induction 1 as [|p ps (I & S) F (b & E & D)]; [exists []; split; reflexivity|].
  destruct (cell_ok g p G I S) as (c & E1 & D1). cbn [rmap]. rewrite E1. cbn [rbind]. rewrite E. cbn [rbind].
  eexists. split; [reflexivity|]. intro rest. cbn [concat length get_list map]. rewrite <- app_assoc, D1, D. reflexivity.
Qed.

Definition small (z : Z) : Prop := - 2 ^ 31 <= z < 2 ^ 31.
Lemma small_s : forall z, small z -> srange 4 z.
Proof. unfold small, srange. intros z H. change (256 ^ Z.of_nat 4) with 4294967296. lia. Qed.
Definition small3 (v : v3) : Prop := small (vx v) /\ small (vy v) /\ small (vz v).
Lemma v3_ok : forall v rest, small3 v -> get3 (get_s 4) (put3 (put_s 4) v ++ rest) = Some (v, rest).
Proof.
  intros v rest (X & Y & Z). apply (get3_ok _ (srange 4)); [apply s_ok| | |]; apply small_s; assumption.
Qed.

Definition corner (m s : v3) : v3 := (vx m + vx s - 1, vy m + vy s - 1, vz m + vz s - 1).
Lemma box_small : forall g m s, grid_ok g -> pos3 s -> (forall p, inside p m s -> ingrid g p) -> small3 m /\ small3 s.
Proof.
  intros g m s (P & V & _) Q H.
  assert (A : ingrid g m) by (apply H; unfold inside, pos3 in *; lia).
  assert (B : ingrid g (corner m s)) by (apply H; unfold inside, pos3, corner in *; cbn [vx vy vz fst snd]; unfold vx, vy, vz in *; cbn [fst snd]; lia).
  assert (S : vx (g_size g) <= vol (g_size g) /\ vy (g_size g) <= vol (g_size g) /\ vz (g_size g) <= vol (g_size g)).
  { destruct P as (X & Y & Z). unfold vol. assert (0 < vx (g_size g) * vy (g_size g)) by (apply Z.mul_pos_pos; assumption). nia. }
  unfold ingrid, inside, corner, pos3, small3, small in *. cbn [vx vy vz fst snd] in *. unfold vx, vy, vz in *. cbn [fst snd] in *. lia.
Qed.

Lemma leaf_ok : forall g m s, grid_ok g -> (forall p, ingrid g p -> samples_ok (smp g p)) -> pos3 s -> (forall p, inside p m s -> ingrid g p) ->
  exists b, put_leaf g (m, s) = ROk b /\ forall rest, get_leaf (b ++ rest) = Some ((m, s, map (cellv g) (cells m s)), rest).
Proof.
  intros g m s G S P I. destruct (box_small g m s G P I) as (SM & SS).
  destruct (cells_ok g (cells m s) G) as (b & E & D).
  { apply Forall_forall. intros p J. apply in_cells in J. split; [apply I; exact J|apply S; apply I; exact J]. }
  unfold put_leaf. cbn [fst snd]. rewrite E. cbn [rbind]. eexists. split; [reflexivity|]. intro rest.
  unfold get_leaf, get_pair. rewrite <- !app_assoc, !v3_ok by assumption. cbn [snd].
  rewrite <- (cells_length m s P), D. reflexivity.
Qed.
Lemma leafs_ok : forall g ls, grid_ok g -> (forall p, ingrid g p -> samples_ok (smp g p)) ->
  Forall (fun l => pos3 (snd l) /\ forall p, inside p (fst l) (snd l) -> ingrid g p) ls ->
  exists b, rmap (put_leaf g) ls = ROk b /\ forall rest,
    get_list get_leaf (length ls) (concat b ++ rest) = Some (map (fun l => (fst l, snd l, map (cellv g) (cells (fst l) (snd l)))) ls, rest).
Proof.
  intros g ls G S. induction 1 as [|[m s] ls (P & I) F (b & E & D)]; [exists []; split; reflexivity|]. cbn [fst snd] in *.
  destruct (leaf_ok g m s G S P I) as (c & E1 & D1). cbn [rmap]. rewrite E1. cbn [rbind]. rewrite E. cbn [rbind].
  eexists. split; [reflexivity|]. intro rest. cbn [concat length get_list map]. rewrite <- app_assoc, D1, D. reflexivity.
Qed.

Definition node_ok (n : onode) : Prop := small3 (on_div n) /\ length (on_children n) = 8%nat /\ Forall (urange 4) (on_children n).
Lemma onode_ok : forall n rest, node_ok n -> get_onode (put_onode n ++ rest) = Some (n, rest).
Proof.
  intros [d c] rest (S & L & U). cbn [on_div on_children] in *. unfold get_onode, put_onode, get_pair. cbn [on_div on_children].
  rewrite <- app_assoc, v3_ok by exact S.
  rewrite (list_ok N (urange 4) (put_le 4) (get_le 4) 8 (le_ok 4)) by tauto. reflexivity.
Qed.
Lemma onodes_ok : forall ns rest, Forall node_ok ns -> get_list get_onode (length ns) (put_list put_onode ns ++ rest) = Some (ns, rest).
Proof.
  intros ns rest F. revert rest. induction F as [|n ns O F IH]; intro rest; [reflexivity|].
  cbn [length get_list put_list]. rewrite <- app_assoc, onode_ok by exact O. rewrite IH. reflexivity.
Qed.
