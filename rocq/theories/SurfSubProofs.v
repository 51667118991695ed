From Coq Require Import Reals ZArith List Bool Lra Lia Arith Sorting.Sorted.
From Verif Require Import WindClipModel WindClipProofs PolyGeoModel SurfSubModel.
Import ListNotations.
Open Scope R_scope.

(** ** Polygons that turn one way *)
Definition vert (w : list vec) (k : nat) : vec := nth k (w ++ firstn 1 w) (mkV 0 0 0).
(** No plane has four points, in their order, alternately on its two sides. *)
Definition round (w : list vec) : Prop := forall pl i j k l, (i < j)%nat -> (j < k)%nat -> (k < l)%nat -> (l < length w)%nat ->
  ~ (0 < dist_to pl (nth i w (mkV 0 0 0)) /\ dist_to pl (nth j w (mkV 0 0 0)) < 0 /\ 0 < dist_to pl (nth k w (mkV 0 0 0)) /\ dist_to pl (nth l w (mkV 0 0 0)) < 0).

Lemma vert_nth w k : (k < length w)%nat -> vert w k = nth k w (mkV 0 0 0).
Proof. intro H. unfold vert. apply app_nth1. exact H. Qed.
Lemma vert_wrap w : vert w (length w) = vert w 0.
Proof. destruct w as [|a w]; [reflexivity|]. unfold vert. rewrite app_nth2 by lia. rewrite Nat.sub_diag. reflexivity. Qed.
Lemma vert_in w k : (k < length w)%nat -> In (vert w k) w.
Proof. intro H. rewrite vert_nth by exact H. apply nth_In. exact H. Qed.
Lemma vert_in' w k : (k < length w)%nat -> In (vert w (S k)) w.
Proof. intro H. destruct (Nat.eq_dec (S k) (length w)) as [E|N]; [rewrite E, vert_wrap; apply vert_in; lia|apply vert_in; lia]. Qed.
Lemma edges_vert w : edges w = map (fun k => (vert w k, vert w (S k))) (seq 0 (length w)).
Proof.
  destruct w as [|a w]; [reflexivity|]. unfold edges. apply (nth_ext _ _ (mkV 0 0 0, mkV 0 0 0) (vert (a :: w) 0, vert (a :: w) 1)).
  - rewrite combine_length, app_length, map_length, seq_length. cbn [length]. lia.
  - intros k K. rewrite combine_length, app_length in K. cbn [length] in K. rewrite combine_nth by (rewrite app_length; cbn [length]; lia).
    change (vert (a :: w) 0, vert (a :: w) 1) with ((fun k => (vert (a :: w) k, vert (a :: w) (S k))) 0%nat). rewrite map_nth, seq_nth by (cbn [length]; lia). cbn [Nat.add].
    rewrite (vert_nth (a :: w) k) by (cbn [length]; lia). reflexivity.
Qed.
Lemma neg_dist' pl x : dist_to (neg_plane pl) x = - dist_to pl x.
Proof. apply neg_dist. Qed.

(** Points on the edges, in their order. *)
Definition at_pos (w : list vec) (p : nat * R) : vec := mix (snd p) (vert w (fst p)) (vert w (S (fst p))).
Definition picks (pl : plane) (w : list vec) (p : nat * R) (c : nat) : Prop :=
  0 < dist_to pl (vert w c) /\ (c = fst p \/ c = S (fst p) /\ dist_to pl (vert w (fst p)) <= 0).
Lemma pick_ex pl w p : 0 <= snd p < 1 -> 0 < dist_to pl (at_pos w p) -> exists c, picks pl w p c.
Proof.
  intros T H. unfold at_pos in H. rewrite dist_mix in H. unfold picks. destruct (Rlt_le_dec 0 (dist_to pl (vert w (fst p)))) as [P|P].
  - exists (fst p). auto.
  - exists (S (fst p)). split; [|right; auto]. destruct (Rlt_le_dec 0 (dist_to pl (vert w (S (fst p))))) as [Q|Q]; [exact Q|]. exfalso. nra.
Qed.
Lemma pick_lt pl w p q c d : 0 <= snd p < 1 -> 0 <= snd q < 1 -> ltp p q -> 0 < dist_to pl (at_pos w p) -> dist_to pl (at_pos w q) < 0 ->
  picks pl w p c -> picks (neg_plane pl) w q d -> (c < d)%nat.
Proof.
  intros TP TQ L HP HQ (C & CC) (D & DD). rewrite !neg_dist' in *. assert (N : c <> d) by (intros ->; lra).
  destruct L as [L|(L & Z & Y)].
  - assert (c <= d)%nat; [|lia]. destruct CC as [->|(-> & _)], DD as [->|(-> & _)]; lia.
  - unfold at_pos in HP, HQ. rewrite dist_mix in HP, HQ. rewrite Z in HP. rewrite L in *. destruct CC as [->|(-> & CC)].
    + destruct DD as [->|(-> & _)]; [lra|lia].
    + exfalso. lra.
Qed.
Lemma round_pos w ps : round w -> StronglySorted ltp ps -> (forall p, In p ps -> (fst p < length w)%nat /\ 0 <= snd p < 1) -> round (map (at_pos w) ps).
Proof.
  intros R S B pl i j k l IJ JK KL LN (H1 & H2 & H3 & H4). rewrite map_length in LN.
  assert (E : forall x, (x < length ps)%nat -> nth x (map (at_pos w) ps) (mkV 0 0 0) = at_pos w (nth x ps (0%nat, 0))).
  { intros x X. rewrite (nth_indep _ _ (at_pos w (0%nat, 0))) by (rewrite map_length; exact X). apply map_nth. }
  rewrite E in H1, H2, H3, H4 by lia.
  assert (BB : forall x, (x < length ps)%nat -> (fst (nth x ps (O, 0%R)) < length w)%nat /\ (0 <= snd (nth x ps (0%nat, 0)) < 1)%R) by (intros x X; apply B, nth_In; exact X).
  assert (L12 := sorted_nth ps (0%nat, 0) S i j IJ ltac:(lia)). assert (L23 := sorted_nth ps (0%nat, 0) S j k JK ltac:(lia)). assert (L34 := sorted_nth ps (0%nat, 0) S k l KL ltac:(lia)).
  pose proof (BB i ltac:(lia)) as (N1 & T1). pose proof (BB j ltac:(lia)) as (N2 & T2). pose proof (BB k ltac:(lia)) as (N3 & T3). pose proof (BB l ltac:(lia)) as (N4 & T4).
  set (p1 := nth i ps (0%nat, 0)) in *. set (p2 := nth j ps (0%nat, 0)) in *. set (p3 := nth k ps (0%nat, 0)) in *. set (p4 := nth l ps (0%nat, 0)) in *. clearbody p1 p2 p3 p4. clear E BB.
  assert (NN : forall x, dist_to (neg_plane (neg_plane pl)) x = dist_to pl x) by (intro x; rewrite !neg_dist'; ring).
  destruct (pick_ex pl w p1 T1 H1) as (c1 & P1). destruct (pick_ex (neg_plane pl) w p2 T2) as (c2 & P2); [rewrite neg_dist'; lra|].
  destruct (pick_ex pl w p3 T3 H3) as (c3 & P3). destruct (pick_ex (neg_plane pl) w p4 T4) as (c4 & P4); [rewrite neg_dist'; lra|].
  pose proof (pick_lt pl w p1 p2 c1 c2 T1 T2 L12 H1 H2 P1 P2) as C12.
  assert (C23 : (c2 < c3)%nat).
  { apply (pick_lt (neg_plane pl) w p2 p3 c2 c3 T2 T3 L23); [rewrite neg_dist'; lra|rewrite neg_dist'; lra|exact P2|]. destruct P3 as (X & Y). split; rewrite NN; assumption. }
  pose proof (pick_lt pl w p3 p4 c3 c4 T3 T4 L34 H3 H4 P3 P4) as C34.
  destruct P1 as (V1 & _), P2 as (V2 & _), P3 as (V3 & _), P4 as (V4 & Q4). rewrite neg_dist' in V2, V4.
  assert (C4 : (c4 <= length w)%nat) by (destruct Q4 as [->|(-> & _)]; lia).
  destruct (Nat.eq_dec c4 (length w)) as [E|N].
  - rewrite E, vert_wrap in V4. assert (c1 <> 0)%nat by (intros ->; lra).
    apply (R (neg_plane pl) 0%nat c1 c2 c3); try lia. rewrite !neg_dist', <- !vert_nth by lia. lra.
  - apply (R pl c1 c2 c3 c4); try lia. rewrite <- !vert_nth by lia. lra.
Qed.

(** ** Halves *)
Definition axis (i : nat) (m : R) : plane := mkPl (axis_vec i) m.
Lemma dist_axis i m v : dist_to (axis i m) v = coord i v - m.
Proof. unfold dist_to, axis, dot, axis_vec, coord. destruct i as [|[|i]]; cbn [p_n p_d vx vy vz]; ring. Qed.
Lemma crosses_iff d e : crosses d e = true <-> 0 < d /\ e < 0 \/ d < 0 /\ 0 < e.
Proof.
  unfold crosses, is0, ltb. destruct (Req_EM_T d 0), (Req_EM_T e 0), (Rlt_dec 0 d), (Rlt_dec 0 e); cbn; split; intro H; try discriminate; try reflexivity; try lra; try (right; lra); left; lra.
Qed.
Lemma cross_ratio d e : crosses d e = true -> 0 < d / (d - e) < 1.
Proof.
  intro H. apply crosses_iff in H. destruct H as [H|H].
  - split; [apply Rdiv_lt_0_compat; lra|]. apply (Rmult_lt_reg_r (d - e)); [lra|]. unfold Rdiv. rewrite Rmult_assoc, Rinv_l; lra.
  - replace (d / (d - e)) with ((- d) / (e - d)) by (field; lra). split; [apply Rdiv_lt_0_compat; lra|]. apply (Rmult_lt_reg_r (e - d)); [lra|]. unfold Rdiv. rewrite Rmult_assoc, Rinv_l; lra.
Qed.
Section Half.
Context (i : nat) (m : R) (w : list vec).
Definition gd (k : nat) : R := coord i (vert w k) - m.
Definition keeps (s : bool) (d : R) : bool := if s then if Rle_dec 0 d then true else false else if Rle_dec d 0 then true else false.
Lemma keeps_iff s d : keeps s d = true <-> if s then 0 <= d else d <= 0.
Proof. unfold keeps. destruct s; [destruct (Rle_dec 0 d)|destruct (Rle_dec d 0)]; split; intro; try discriminate; try reflexivity; lra. Qed.
Definition ratio_at (k : nat) : R := gd k / (gd k - gd (S k)).
Definition pos_at (s : bool) (k : nat) : list (nat * R) :=
  (if keeps s (gd k) then [(k, 0)] else []) ++ (if crosses (gd k) (gd (S k)) then [(k, ratio_at k)] else []).
Definition pos (s : bool) : list (nat * R) := flat_map (pos_at s) (seq 0 (length w)).
Lemma half_pos s : half s i m w = map (at_pos w) (pos s).
Proof.
  unfold half, pos. rewrite edges_vert. generalize (seq 0 (length w)) as l. induction l as [|k l IH]; [reflexivity|]. cbn [map flat_map]. rewrite map_app, IH. f_equal.
  unfold emit, pos_at. fold (gd k) (gd (S k)). change (if s then if Rle_dec 0 (gd k) then true else false else if Rle_dec (gd k) 0 then true else false) with (keeps s (gd k)).
  rewrite map_app. f_equal.
  - destruct (keeps s (gd k)); [|reflexivity]. unfold at_pos. cbn [map fst snd]. rewrite mix_0. reflexivity.
  - destruct (crosses (gd k) (gd (S k))); [|reflexivity]. reflexivity.
Qed.
Lemma pos_in s p : In p (pos s) <-> (fst p < length w)%nat /\ (snd p = 0 /\ keeps s (gd (fst p)) = true \/ snd p = ratio_at (fst p) /\ crosses (gd (fst p)) (gd (S (fst p))) = true).
Proof.
  unfold pos. rewrite in_flat_map. split.
  - intros (k & K & H). apply in_seq in K. unfold pos_at in H. apply in_app_or in H. destruct H as [H|H].
    + destruct (keeps s (gd k)) eqn:E; [|destruct H]. destruct H as [<- |[]]. cbn [fst snd]. split; [lia|left; auto].
    + destruct (crosses (gd k) (gd (S k))) eqn:E; [|destruct H]. destruct H as [<- |[]]. cbn [fst snd]. split; [lia|right; auto].
  - intros (K & H). exists (fst p). split; [apply in_seq; lia|]. unfold pos_at. apply in_or_app. destruct p as [k t]. cbn [fst snd] in *. destruct H as [(-> & E)|(-> & E)].
    + left. rewrite E. left. reflexivity.
    + right. rewrite E. left. reflexivity.
Qed.
Lemma ratio_ok k : crosses (gd k) (gd (S k)) = true -> 0 < ratio_at k < 1.
Proof. intro H. apply cross_ratio in H. exact H. Qed.
Lemma pos_ok s p : In p (pos s) -> (fst p < length w)%nat /\ 0 <= snd p < 1.
Proof. intro H. apply pos_in in H. destruct H as (K & H). split; [exact K|]. destruct H as [(-> & _)|(-> & C)]; [lra|]. apply ratio_ok in C. lra. Qed.
Lemma pos_sorted s : StronglySorted ltp (pos s).
Proof.
  apply sorted_chunks.
  - intros k p H. unfold pos_at in H. apply in_app_or in H. destruct H as [H|H]; [destruct (keeps s (gd k))|destruct (crosses _ _)]; try destruct H as [<- |[]]; try destruct H; reflexivity.
  - intro k. unfold pos_at. destruct (keeps s (gd k)), (crosses (gd k) (gd (S k))) eqn:C; cbn [app]; [constructor; [constructor; constructor|constructor; [|constructor]]|constructor; constructor|constructor; constructor|constructor].
    apply ratio_ok in C. right. cbn [fst snd]. split; [reflexivity|split; [reflexivity|lra]].
Qed.
Lemma half_round s : round w -> round (half s i m w).
Proof. intro H. rewrite half_pos. apply round_pos; [exact H|apply pos_sorted|apply pos_ok]. Qed.
Lemma half_hull s v : In v (half s i m w) -> hull (pts w) v.
Proof.
  rewrite half_pos. intro H. apply in_map_iff in H. destruct H as (p & <- & H). apply pos_ok in H. destruct H as (K & T). unfold at_pos.
  apply hull_mix; [lra|apply hull_pt; apply vert_in; exact K|apply hull_pt; apply vert_in'; exact K].
Qed.
Lemma cross_coord k : crosses (gd k) (gd (S k)) = true -> coord i (at_pos w (k, ratio_at k)) = m.
Proof.
  intro C. assert (D : dist_to (axis i m) (at_pos w (k, ratio_at k)) = 0); [|rewrite dist_axis in D; lra].
  unfold at_pos. cbn [fst snd]. rewrite dist_mix, !dist_axis. fold (gd k) (gd (S k)). unfold ratio_at. apply crosses_iff in C. field. lra.
Qed.
Lemma half_side s v : In v (half s i m w) -> if s then m <= coord i v else coord i v <= m.
Proof.
  rewrite half_pos. intro H. apply in_map_iff in H. destruct H as ((k & t) & <- & H). apply pos_in in H. cbn [fst snd] in H. destruct H as (K & [(-> & H)|(-> & H)]).
  - apply keeps_iff in H. unfold at_pos. cbn [fst snd]. rewrite mix_0. unfold gd in H. destruct s; lra.
  - rewrite cross_coord by exact H. destruct s; lra.
Qed.
Lemma half_keeps (s : bool) v : In v w -> (if s then m <= coord i v else coord i v <= m) -> In v (half s i m w).
Proof.
  intros I H. rewrite half_pos. apply (In_nth _ _ (mkV 0 0 0)) in I. destruct I as (k & K & E). apply in_map_iff. exists ((k, 0) : nat * R). split; [unfold at_pos; cbn [fst snd]; rewrite mix_0, vert_nth, E by exact K; reflexivity|].
  apply pos_in. cbn [fst snd]. split; [exact K|]. left. split; [reflexivity|]. apply keeps_iff. unfold gd. rewrite vert_nth, E by exact K. destruct s; lra.
Qed.
End Half.

(** ** Nothing is lost *)
Definition plane_sum (a : plane) (k : R) (b : plane) : plane := mkPl (WindClipModel.add (p_n a) (WindClipModel.scale k (p_n b))) (p_d a + k * p_d b).
Lemma dist_sum a k b v : dist_to (plane_sum a k b) v = dist_to a v + k * dist_to b v.
Proof. unfold dist_to, plane_sum, dot. cbn [p_n p_d WindClipModel.add WindClipModel.scale vx vy vz]. ring. Qed.
Lemma dot_zero u : dot u u <= 0 -> u = mkV 0 0 0.
Proof.
  unfold dot. intro H. destruct u as [x y z]. cbn [vx vy vz] in H. pose proof (Rle_0_sqr x) as X. pose proof (Rle_0_sqr y) as Y. pose proof (Rle_0_sqr z) as Z. unfold Rsqr in *.
  assert (x * x = 0) by lra. assert (y * y = 0) by lra. assert (z * z = 0) by lra. apply Rmult_integral in H0, H1, H2. f_equal; tauto.
Qed.
(** A point is on a segment or there is a plane between them. *)
Lemma seg_or_plane x p q : (exists t, 0 <= t <= 1 /\ x = mix t p q) \/ exists pl, 0 < dist_to pl x /\ dist_to pl p < 0 /\ dist_to pl q < 0.
Proof.
  set (e := sub q p). set (de := dot e e). set (dx := dot (sub x p) e).
  assert (DE : 0 <= de) by (unfold de, dot; pose proof (Rle_0_sqr (vx e)); pose proof (Rle_0_sqr (vy e)); pose proof (Rle_0_sqr (vz e)); unfold Rsqr in *; lra).
  assert (T : exists t, 0 <= t <= 1 /\ 0 <= t * (dx - t * de) /\ (1 - t) * (dx - t * de) <= 0).
  { destruct (Rle_lt_dec dx 0) as [N|P]; [exists 0; split; [lra|split; lra]|]. destruct (Rle_lt_dec de dx) as [L|G]; [exists 1; split; [lra|split; lra]|].
    exists (dx / de). assert (I : dx / de * de = dx) by (field; lra). split; [|rewrite I; split; lra]. split; [left; apply Rdiv_lt_0_compat; lra|]. apply (Rmult_le_reg_r de); [lra|]. rewrite I. lra. }
  destruct T as (t & T & TP & TQ). set (c := mix t p q). set (u := sub x c).
  assert (EP : dot (sub p c) u = - (t * (dx - t * de))) by (unfold u, c, dx, de, e, mix, dot, sub, WindClipModel.add, WindClipModel.scale; cbn [vx vy vz]; ring).
  assert (EQ : dot (sub q c) u = (1 - t) * (dx - t * de)) by (unfold u, c, dx, de, e, mix, dot, sub, WindClipModel.add, WindClipModel.scale; cbn [vx vy vz]; ring).
  destruct (Rle_lt_dec (dot u u) 0) as [Z|P].
  - left. exists t. split; [exact T|]. apply dot_zero in Z. fold c. clearbody c. unfold u, sub in Z. injection Z as Z1 Z2 Z3. apply vec_eq; lra.
  - right. exists (mkPl u (dot c u + dot u u / 2)).
    assert (D : forall y, dist_to (mkPl u (dot c u + dot u u / 2)) y = dot (sub y c) u - dot u u / 2) by (intro y; unfold dist_to, dot, sub; cbn [p_n p_d vx vy vz]; field).
    rewrite !D, EP, EQ. fold u. lra.
Qed.
Lemma meet_four g a b p q : 0 < dist_to g a -> dist_to g b < 0 -> dist_to g p = 0 -> dist_to g q = 0 ->
  (forall pl, ~ (0 < dist_to pl a /\ 0 < dist_to pl b /\ dist_to pl p < 0 /\ dist_to pl q < 0)) -> exists r, 0 <= r <= 1 /\ hull (pts [p; q]) (mix r a b).
Proof.
  intros A B P Q N. set (r := dist_to g a / (dist_to g a - dist_to g b)).
  assert (R : 0 < r < 1).
  { unfold r. split; [apply Rdiv_lt_0_compat; lra|]. apply (Rmult_lt_reg_r (dist_to g a - dist_to g b)); [lra|]. unfold Rdiv. rewrite Rmult_assoc, Rinv_l; lra. }
  assert (X : dist_to g (mix r a b) = 0) by (rewrite dist_mix; unfold r; field; lra).
  exists r. split; [lra|]. destruct (seg_or_plane (mix r a b) p q) as [(t & T & E)|(h & HX & HP & HQ)].
  - rewrite E. apply hull_mix; [exact T|apply hull_pt; left; reflexivity|apply hull_pt; right; left; reflexivity].
  - exfalso. set (hx := dist_to h (mix r a b)) in *. set (k := plane_sum h ((hx - dist_to h a) / dist_to g a) g).
    assert (KA : dist_to k a = hx) by (unfold k; rewrite dist_sum; field; lra).
    assert (KX : dist_to k (mix r a b) = hx) by (unfold k; rewrite dist_sum, X; unfold hx; ring).
    assert (KB : dist_to k b = hx) by (rewrite dist_mix, KA in KX; apply (Rmult_eq_reg_l r); lra).
    apply (N k). rewrite KA, KB. unfold k. rewrite !dist_sum, P, Q. lra.
Qed.

Section Cover.
Context (i : nat) (m : R) (w : list vec) (RW : round w).
Notation g := (gd i m w).
Lemma gd_dist k : g k = dist_to (axis i m) (vert w k).
Proof. unfold gd. rewrite dist_axis. reflexivity. Qed.
Definition on_pos (p : nat * R) : Prop := (fst p < length w)%nat /\ (snd p = 0 /\ g (fst p) = 0 \/ snd p = ratio_at i m w (fst p) /\ crosses (g (fst p)) (g (S (fst p))) = true).
Lemma on_both p s : on_pos p -> In (at_pos w p) (half s i m w).
Proof.
  intros (K & H). rewrite half_pos. apply in_map, pos_in. split; [exact K|]. destruct H as [(Z & G)|(E & C)]; [left|right; auto]. split; [exact Z|]. apply keeps_iff. rewrite G. destruct s; lra.
Qed.
Lemma on_bounds p : on_pos p -> (fst p < length w)%nat /\ 0 <= snd p < 1.
Proof. intros (K & H). split; [exact K|]. destruct H as [(-> & _)|(-> & C)]; [lra|]. apply ratio_ok in C. lra. Qed.
Lemma on_dist p : on_pos p -> dist_to (axis i m) (at_pos w p) = 0.
Proof.
  intros (K & H). rewrite dist_axis. destruct p as [k t]. cbn [fst snd] in H. destruct H as [(-> & G)|(-> & C)].
  - unfold at_pos. cbn [fst snd]. rewrite mix_0. exact G.
  - rewrite cross_coord by exact C. ring.
Qed.
Lemma crossing x : forall n c, (c + n <= length w)%nat -> 0 < x * g c -> x * g (c + n)%nat < 0 -> exists p, on_pos p /\ ltp (c, 0) p /\ (fst p < c + n)%nat.
Proof.
  induction n as [|n IH]; intros c L C D; [rewrite Nat.add_0_r in D; lra|].
  destruct (Rlt_le_dec 0 (x * g (S c))) as [P|P].
  - destruct (IH (S c)) as (p & O & LT & B); [lia|exact P|replace (S c + n)%nat with (c + S n)%nat by lia; exact D|]. exists p. split; [exact O|]. split; [|lia].
    destruct LT as [LT|(E & _)]; left; cbn [fst] in *; lia.
  - destruct (Req_EM_T (g (S c)) 0) as [Z|NZ].
    + destruct n as [|n]; [replace (c + 1)%nat with (S c) in D by lia; rewrite Z in D; lra|]. exists (S c, 0). split; [split; [cbn [fst]; lia|left; auto]|]. split; [left; cbn [fst]; lia|cbn [fst]; lia].
    + assert (CR : crosses (g c) (g (S c)) = true) by (clear IH L D; apply crosses_iff; set (y := g c) in *; set (z := g (S c)) in *; clearbody y z; destruct (Rtotal_order x 0) as [X|[X|X]];
        [right; split; [apply Rnot_le_lt; intro; assert (x * y <= 0) by nra; lra|apply Rnot_le_lt; intro; assert (0 < x * z) by nra; lra]
        |subst x; lra
        |left; split; [apply Rnot_le_lt; intro; assert (x * y <= 0) by nra; lra|apply Rnot_le_lt; intro; assert (0 < x * z) by nra; lra]]).
      exists (c, ratio_at i m w c). split; [split; [cbn [fst]; lia|right; auto]|]. pose proof (ratio_ok i m w c CR) as RO. split; [right; cbn [fst snd]; split; [reflexivity|split; [reflexivity|lra]]|cbn [fst]; lia].
Qed.
Lemma crossing2 c d : (c < d)%nat -> (d < length w)%nat -> forall x, 0 < x * g c -> x * g d < 0 -> exists p, on_pos p /\ ltp (c, 0) p /\ ltp p (d, 0).
Proof.
  intros CD D x C E. destruct (crossing x (d - c) c) as (p & O & L & B); [lia|exact C|replace (c + (d - c))%nat with d by lia; exact E|].
  exists p. split; [exact O|]. split; [exact L|]. left. cbn [fst]. lia.
Qed.
(** From the second to the first over the end. *)
Lemma crossing_wrap c d : (c < d)%nat -> (d < length w)%nat -> forall x, 0 < x * g d -> x * g c < 0 -> exists p, on_pos p /\ (ltp (d, 0) p \/ ltp p (c, 0)).
Proof.
  intros CD D x C E. assert (W : g (length w) = g 0%nat) by (unfold gd; rewrite vert_wrap; reflexivity).
  destruct (Rlt_le_dec (x * g 0%nat) 0) as [N|N].
  - destruct (crossing x (length w - d) d) as (p & O & L & B); [lia|exact C|replace (d + (length w - d))%nat with (length w) by lia; rewrite W; exact N|].
    exists p. auto.
  - assert (c <> 0)%nat by (intros ->; lra). destruct (Req_EM_T (g 0%nat) 0) as [Z|NZ].
    + exists (0%nat, 0). split; [split; [cbn [fst]; lia|left; auto]|]. right. left. cbn [fst]. lia.
    + destruct (crossing x c 0%nat) as (p & O & L & B); [lia|assert (x <> 0) by (intros ->; lra); assert (x * g 0%nat <> 0) by (intro Q; apply Rmult_integral in Q; tauto); lra|exact E|].
      exists p. split; [exact O|]. right. left. cbn [fst]. lia.
Qed.
Lemma ltp_trans p q r : 0 <= snd p < 1 -> ltp p q -> ltp q r -> ltp p r.
Proof. unfold ltp. intros T [A|(A & B & C)] [D|(D & E & F)]; [left; lia|left; lia|left; lia|]. lra. Qed.
Lemma four p1 p2 p3 p4 : ltp p1 p2 -> ltp p2 p3 -> ltp p3 p4 -> (forall p, In p [p1; p2; p3; p4] -> (fst p < length w)%nat /\ 0 <= snd p < 1) ->
  forall pl, ~ (0 < dist_to pl (at_pos w p1) /\ dist_to pl (at_pos w p2) < 0 /\ 0 < dist_to pl (at_pos w p3) /\ dist_to pl (at_pos w p4) < 0).
Proof.
  intros A B C H pl. assert (T := fun p I => proj2 (H p I)).
  assert (T1 := T p1 (or_introl eq_refl)). assert (T2 := T p2 (or_intror (or_introl eq_refl))). assert (T3 := T p3 (or_intror (or_intror (or_introl eq_refl)))).
  assert (S : StronglySorted ltp [p1; p2; p3; p4]).
  { constructor; [constructor; [constructor; [constructor; constructor|]|]|]; repeat (apply Forall_cons || apply Forall_nil); auto; eauto using ltp_trans. }
  exact (round_pos w [p1; p2; p3; p4] RW S H pl 0%nat 1%nat 2%nat 3%nat ltac:(lia) ltac:(lia) ltac:(lia) ltac:(cbn; lia)).
Qed.
Lemma cover_meet a b : In a (half true i m w) -> In b (half false i m w) -> meet (fun p => In p (half true i m w) /\ In p (half false i m w)) a b.
Proof.
  intros A B.
  assert (V : forall s v, In v (half s i m w) -> coord i v = m \/ exists k, (k < length w)%nat /\ v = vert w k).
  { intros s v I. rewrite half_pos in I. apply in_map_iff in I. destruct I as ((k & t) & <- & I). apply pos_in in I. cbn [fst snd] in I. destruct I as (K & [(-> & _)|(-> & C)]).
    - right. exists k. split; [exact K|]. unfold at_pos. cbn [fst snd]. apply mix_0.
    - left. apply cross_coord. exact C. }
  assert (M : forall s v, In v (half s i m w) -> coord i v = m -> In v (half (negb s) i m w)).
  { intros s v I E. rewrite half_pos in I |- *. apply in_map_iff in I. destruct I as ((k & t) & EV & I). apply in_map_iff. exists (k, t). split; [exact EV|]. apply pos_in in I. apply pos_in. cbn [fst snd] in *. destruct I as (K & [(-> & H)|(-> & H)]); (split; [exact K|]); [left|right; auto].
    split; [reflexivity|]. apply keeps_iff. subst v. unfold at_pos in E. cbn [fst snd] in E. rewrite mix_0 in E. unfold gd. destruct s; cbn [negb]; lra. }
  pose proof (half_side i m w true a A) as SA. pose proof (half_side i m w false b B) as SB. cbn in SA, SB.
  destruct (V true a A) as [ZA|(ka & KA & ->)]; [exists 0; rewrite mix_0; split; [lra|apply hull_pt; split; [exact A|exact (M true a A ZA)]]|].
  destruct (V false b B) as [ZB|(kb & KB & ->)]; [exists 1; rewrite mix_1; split; [lra|apply hull_pt; split; [exact (M false b B ZB)|exact B]]|].
  destruct (Req_EM_T (coord i (vert w ka)) m) as [ZA|NA]; [exists 0; rewrite mix_0; split; [lra|apply hull_pt; split; [exact A|exact (M true _ A ZA)]]|].
  destruct (Req_EM_T (coord i (vert w kb)) m) as [ZB|NB]; [exists 1; rewrite mix_1; split; [lra|apply hull_pt; split; [exact (M false _ B ZB)|exact B]]|].
  assert (GA : 0 < g ka) by (unfold gd; lra). assert (GB : g kb < 0) by (unfold gd; lra).
  assert (EA : vert w ka = at_pos w (ka, 0)) by (unfold at_pos; cbn [fst snd]; rewrite mix_0; reflexivity).
  assert (EB : vert w kb = at_pos w (kb, 0)) by (unfold at_pos; cbn [fst snd]; rewrite mix_0; reflexivity).
  assert (BA : (fst (ka, 0) < length w)%nat /\ 0 <= snd (ka, 0) < 1) by (cbn [fst snd]; split; [exact KA|lra]).
  assert (BB : (fst (kb, 0) < length w)%nat /\ 0 <= snd (kb, 0) < 1) by (cbn [fst snd]; split; [exact KB|lra]).
  assert (FIN : forall p q, on_pos p -> on_pos q -> (forall pl, ~ (0 < dist_to pl (vert w ka) /\ 0 < dist_to pl (vert w kb) /\ dist_to pl (at_pos w p) < 0 /\ dist_to pl (at_pos w q) < 0)) ->
    meet (fun p => In p (half true i m w) /\ In p (half false i m w)) (vert w ka) (vert w kb)).
  { intros p q P Q N. destruct (meet_four (axis i m) (vert w ka) (vert w kb) (at_pos w p) (at_pos w q)) as (r & RR & H); try (rewrite <- gd_dist; assumption); try (apply on_dist; assumption); [exact N|].
    exists r. split; [exact RR|]. revert H. apply hull_sub. intros v [<- |[<- |[]]]; split; apply on_both; assumption. }
  assert (NG : forall pl v, dist_to (neg_plane pl) v = - dist_to pl v) by (intros; apply neg_dist).
  assert (N : ka <> kb) by (intros ->; lra). destruct (Nat.lt_ge_cases ka kb) as [LT|GE].
  - destruct (crossing2 ka kb LT KB 1) as (p & OP & L1 & L2); [lra|lra|]. destruct (crossing_wrap ka kb LT KB (-1)) as (q & OQ & L3); [lra|lra|]. apply (FIN p q OP OQ). intros pl (H1 & H2 & H3 & H4). rewrite EA in H1. rewrite EB in H2.
    pose proof (on_bounds p OP) as BP. pose proof (on_bounds q OQ) as BQ. destruct L3 as [L3|L3].
    + apply (four (ka, 0) p (kb, 0) q L1 L2 L3) with (pl := pl); [|lra]. intros x [<- |[<- |[<- |[<- |[]]]]]; assumption.
    + apply (four q (ka, 0) p (kb, 0) L3 L1 L2) with (pl := neg_plane pl); [|rewrite !NG; lra]. intros x [<- |[<- |[<- |[<- |[]]]]]; assumption.
  - assert (LT : (kb < ka)%nat) by lia. destruct (crossing2 kb ka LT KA (-1)) as (p & OP & L1 & L2); [lra|lra|]. destruct (crossing_wrap kb ka LT KA 1) as (q & OQ & L3); [lra|lra|]. apply (FIN p q OP OQ). intros pl (H1 & H2 & H3 & H4). rewrite EA in H1. rewrite EB in H2.
    pose proof (on_bounds p OP) as BP. pose proof (on_bounds q OQ) as BQ. destruct L3 as [L3|L3].
    + apply (four (kb, 0) p (ka, 0) q L1 L2 L3) with (pl := pl); [|lra]. intros x [<- |[<- |[<- |[<- |[]]]]]; assumption.
    + apply (four q (kb, 0) p (ka, 0) L3 L1 L2) with (pl := neg_plane pl); [|rewrite !NG; lra]. intros x [<- |[<- |[<- |[<- |[]]]]]; assumption.
Qed.
Lemma half_cover x : hull (pts w) x -> hull (pts (half true i m w)) x \/ hull (pts (half false i m w)) x.
Proof.
  intro H. apply (cover_hull (fun p => In p (half true i m w) /\ In p (half false i m w)) (pts (half true i m w)) (pts (half false i m w))).
  - exact cover_meet.
  - intros p K. exact K.
  - revert H. apply hull_sub. intros v I. unfold pts in *. destruct (Rle_lt_dec m (coord i v)) as [L|G]; [left; apply (half_keeps i m w true); assumption|right; apply (half_keeps i m w false); [exact I|lra]].
Qed.

(** ** At most two new points *)
Lemma once n (f : nat -> bool) : (forall a b, (a < b)%nat -> (b < n)%nat -> f a = true -> f b = true -> False) -> (length (filter f (seq 0 n)) <= 1)%nat.
Proof.
  intro H. pose proof (NoDup_filter f (seq_NoDup n 0)) as ND. destruct (filter f (seq 0 n)) as [|x [|y l]] eqn:E; cbn [length]; try lia. exfalso.
  assert (X : In x (filter f (seq 0 n))) by (rewrite E; left; reflexivity). assert (Y : In y (filter f (seq 0 n))) by (rewrite E; right; left; reflexivity).
  apply filter_In in X, Y. destruct X as (X & FX), Y as (Y & FY). apply in_seq in X, Y. assert (N : x <> y) by (intros ->; inversion ND as [|? ? NI _]; apply NI; left; reflexivity).
  destruct (Nat.lt_ge_cases x y); [apply (H x y); [lia|lia|assumption..]|apply (H y x); [lia|lia|assumption..]].
Qed.
Lemma one_way s a b : (a < b)%nat -> (b < length w)%nat -> (s = 1 \/ s = -1) -> 0 < s * g a -> s * g (S a) < 0 -> 0 < s * g b -> s * g (S b) < 0 -> False.
Proof.
  intros AB BN SS A A' B B'. assert (S a <> b) by (intros <-; lra). rewrite !gd_dist in *.
  assert (PS : exists pl, forall v, dist_to pl v = s * dist_to (axis i m) v).
  { destruct SS as [-> | ->]; [exists (axis i m); intro v; ring|exists (neg_plane (axis i m)); intro v; rewrite neg_dist; ring]. }
  destruct PS as (pl & PS). rewrite <- !PS in *. destruct (Nat.eq_dec (Datatypes.S b) (length w)) as [E|N].
  - rewrite E, vert_wrap in B'. assert (a <> 0)%nat by (intros ->; lra). apply (RW (neg_plane pl) 0%nat a (Datatypes.S a) b); try lia. rewrite !neg_dist, <- !vert_nth by lia. lra.
  - apply (RW pl a (Datatypes.S a) b (Datatypes.S b)); try lia. rewrite <- !vert_nth by lia. lra.
Qed.
Lemma two_new : (length (filter (fun k => crosses (g k) (g (S k))) (seq 0 (length w))) <= 2)%nat.
Proof.
  set (up := fun k => crosses (g k) (g (S k)) && (if Rlt_dec 0 (g k) then true else false)). set (dn := fun k => crosses (g k) (g (S k)) && negb (if Rlt_dec 0 (g k) then true else false)).
  assert (U : forall k, up k = true -> 0 < g k /\ g (S k) < 0).
  { intros k H. unfold up in H. apply andb_true_iff in H. destruct H as (C & H). apply crosses_iff in C. destruct (Rlt_dec 0 (g k)); [lra|discriminate H]. }
  assert (D : forall k, dn k = true -> g k < 0 /\ 0 < g (S k)).
  { intros k H. unfold dn in H. apply andb_true_iff in H. destruct H as (C & H). apply crosses_iff in C. destruct (Rlt_dec 0 (g k)); [discriminate H|lra]. }
  assert (C1 : (length (filter up (seq 0 (length w))) <= 1)%nat) by (apply once; intros a b AB BN A B; apply U in A, B; apply (one_way 1 a b); auto; lra).
  assert (C2 : (length (filter dn (seq 0 (length w))) <= 1)%nat) by (apply once; intros a b AB BN A B; apply D in A, B; apply (one_way (-1) a b); auto; lra).
  assert (SUM : forall l, length (filter (fun k => crosses (g k) (g (S k))) l) = (length (filter up l) + length (filter dn l))%nat).
  { induction l as [|k l IH]; [reflexivity|]. cbn [filter]. unfold up at 1, dn at 1. destruct (crosses (g k) (g (S k))); cbn [andb]; [|exact IH]. destruct (Rlt_dec 0 (g k)); cbn [negb length]; lia. }
  rewrite SUM. lia.
Qed.
End Cover.

(** ** Bounds *)
Lemma lowest_spec i : forall w a, (exists v, In v (a :: w) /\ coord i v = lowest i a w) /\ forall v, In v (a :: w) -> lowest i a w <= coord i v.
Proof.
  induction w as [|b w IH]; intro a; cbn [lowest]; [split; [exists a; split; [left; reflexivity|reflexivity]|intros v [<- |[]]; lra]|].
  destruct (IH b) as ((v & I & E) & H). unfold Rmin. destruct (Rle_dec (coord i a) (lowest i b w)) as [L|G]; split.
  - exists a. split; [left; reflexivity|reflexivity].
  - intros x [<- |X]; [lra|]. specialize (H x X). lra.
  - exists v. split; [right; exact I|exact E].
  - intros x [<- |X]; [lra|]. exact (H x X).
Qed.
Lemma highest_spec i : forall w a, (exists v, In v (a :: w) /\ coord i v = highest i a w) /\ forall v, In v (a :: w) -> coord i v <= highest i a w.
Proof.
  induction w as [|b w IH]; intro a; cbn [highest]; [split; [exists a; split; [left; reflexivity|reflexivity]|intros v [<- |[]]; lra]|].
  destruct (IH b) as ((v & I & E) & H). unfold Rmax. destruct (Rle_dec (coord i a) (highest i b w)) as [L|G]; split.
  - exists v. split; [right; exact I|exact E].
  - intros x [<- |X]; [lra|]. exact (H x X).
  - exists a. split; [left; reflexivity|reflexivity].
  - intros x [<- |X]; [lra|]. specialize (H x X). lra.
Qed.
Lemma lo_spec i w : w <> [] -> (exists v, In v w /\ coord i v = lo i w) /\ forall v, In v w -> lo i w <= coord i v.
Proof. destruct w as [|a w]; [congruence|]. intros _. apply lowest_spec. Qed.
Lemma hi_spec i w : w <> [] -> (exists v, In v w /\ coord i v = hi i w) /\ forall v, In v w -> coord i v <= hi i w.
Proof. destruct w as [|a w]; [congruence|]. intros _. apply highest_spec. Qed.
Lemma hull_coord i (P : vec -> Prop) a b : (forall v, P v -> a <= coord i v <= b) -> forall x, hull P x -> a <= coord i x <= b.
Proof.
  intros H x X. assert (G := hull_ge (axis i 0) a P). assert (L := hull_le (axis i 0) b P). setoid_rewrite dist_axis in G. setoid_rewrite dist_axis in L.
  specialize (G ltac:(intros p K; specialize (H p K); lra) x X). specialize (L ltac:(intros p K; specialize (H p K); lra) x X). lra.
Qed.
Lemma first_cut_spec size w i m : first_cut size w = Some (i, m) -> (i < 3)%nat /\ w <> [] /\ m = cut_at size i w /\ lo i w + 8 <= m <= hi i w - 8.
Proof.
  unfold first_cut. destruct w as [|a w]; [discriminate|]. set (u := a :: w). assert (U : u <> []) by discriminate. clearbody u. intro H.
  assert (C : forall j, cuts size j u = true -> lo j u + 8 <= cut_at size j u <= hi j u - 8).
  { intros j E. unfold cuts in E. destruct (Rlt_dec (hi j u - cut_at size j u) 8); [discriminate|]. destruct (Rlt_dec (cut_at size j u - lo j u) 8); [discriminate|]. lra. }
  destruct (cuts size 0 u) eqn:E0; [injection H as <- <-; split; [lia|auto]|]. destruct (cuts size 1 u) eqn:E1; [injection H as <- <-; split; [lia|auto]|]. destruct (cuts size 2 u) eqn:E2; [injection H as <- <-; split; [lia|auto]|]. discriminate H.
Qed.
Lemma floor_spec r : IZR (Int_part r) <= r < IZR (Int_part r) + 1.
Proof. unfold Int_part. pose proof (archimed r) as (A & B). rewrite minus_IZR. lra. Qed.
Lemma no_cut_small size w i : 0 < size -> (i < 3)%nat -> first_cut size w = None -> hi i w - lo i w < size + 16.
Proof.
  intros S I H. unfold first_cut in H. destruct w as [|a w]; [unfold hi, lo; lra|]. set (u := a :: w) in *. clearbody u.
  assert (C : cuts size i u = false).
  { destruct (cuts size 0 u) eqn:E0; [discriminate H|]. destruct (cuts size 1 u) eqn:E1; [discriminate H|]. destruct (cuts size 2 u) eqn:E2; [discriminate H|]. destruct i as [|[|[|i]]]; [assumption..|lia]. }
  set (mid := (lo i u + hi i u) * (1 / 2)). assert (N : - (size / 2) <= mid - cut_at size i u <= size / 2).
  { unfold cut_at. fold mid. pose proof (floor_spec (mid / size + 1 / 2)) as (A & B). set (z := IZR (Int_part (mid / size + 1 / 2))) in *. clearbody z.
    assert (E : mid = size * (mid / size)) by (field; lra). assert (size * z <= mid + size / 2) by (rewrite E at 1; nra). assert (mid - size / 2 <= size * z) by (rewrite E at 1; nra). lra. }
  unfold cuts in C. unfold mid in N. destruct (Rlt_dec (hi i u - cut_at size i u) 8); [lra|]. destruct (Rlt_dec (cut_at size i u - lo i u) 8); [lra|discriminate C].
Qed.
Definition width (w : list vec) : R := (hi 0 w - lo 0 w) / 8 + (hi 1 w - lo 1 w) / 8 + (hi 2 w - lo 2 w) / 8.
Lemma half_some s size w i m : first_cut size w = Some (i, m) -> half s i m w <> [].
Proof.
  intro H. apply first_cut_spec in H. destruct H as (_ & N & _ & B). destruct (hi_spec i w N) as ((v & V & EV) & _), (lo_spec i w N) as ((u & U & EU) & _).
  destruct s; intro E; [assert (X : In v (half true i m w)) by (apply half_keeps; [exact V|lra])|assert (X : In u (half false i m w)) by (apply half_keeps; [exact U|lra])]; rewrite E in X; destruct X.
Qed.
Lemma half_bounds s size w i m : first_cut size w = Some (i, m) -> forall j, lo j w <= lo j (half s i m w) /\ hi j (half s i m w) <= hi j w /\ lo j (half s i m w) <= hi j (half s i m w) /\
  (j = i -> if s then m <= lo j (half s i m w) else hi j (half s i m w) <= m).
Proof.
  intros H j. pose proof (half_some s size w i m H) as NE. apply first_cut_spec in H. destruct H as (_ & N & _ & B).
  destruct (lo_spec j _ NE) as ((u & U & EU) & LU), (hi_spec j _ NE) as ((v & V & EV) & HV).
  assert (C : forall x, In x (half s i m w) -> lo j w <= coord j x <= hi j w).
  { intros x X. apply (hull_coord j (pts w)); [|exact (half_hull i m w s x X)]. intros y Y. split; [apply lo_spec|apply hi_spec]; assumption. }
  pose proof (C u U). pose proof (C v V). specialize (LU v V). split; [lra|]. split; [lra|]. split; [lra|]. intros ->. pose proof (half_side i m w s u U). pose proof (half_side i m w s v V). destruct s; lra.
Qed.
Lemma half_width s size w i m : first_cut size w = Some (i, m) -> width (half s i m w) <= width w - 1 /\ 0 <= width (half s i m w).
Proof.
  intro H. pose proof (half_bounds s size w i m H) as B. pose proof (first_cut_spec _ _ _ _ H) as (I & N & _ & M).
  destruct (B 0%nat) as (A1 & A2 & A3 & A4), (B 1%nat) as (B1 & B2 & B3 & B4), (B 2%nat) as (C1 & C2 & C3 & C4). unfold width. destruct i as [|[|[|i]]]; [| | |lia].
  - specialize (A4 eq_refl). destruct s; lra.
  - specialize (B4 eq_refl). destruct s; lra.
  - specialize (C4 eq_refl). destruct s; lra.
Qed.
Lemma subdivide_ends size : forall fuel w, width w < INR fuel -> subdivide fuel size w <> Fuel.
Proof.
  induction fuel as [|fuel IH]; intros w H; [cbn [INR] in H; exfalso|].
  - assert (0 <= width w); [|lra]. unfold width. destruct w as [|a w]; [unfold hi, lo; lra|]. set (u := a :: w) in *. assert (N : u <> []) by discriminate. clearbody u.
    assert (forall j, lo j u <= hi j u); [|pose proof (H0 0%nat); pose proof (H0 1%nat); pose proof (H0 2%nat); lra]. intro j. destruct (lo_spec j u N) as ((v & V & E) & _). pose proof (proj2 (hi_spec j u N) v V). lra.
  - rewrite S_INR in H. cbn [subdivide]. destruct (64 <? length w)%nat; [discriminate|]. destruct (first_cut size w) as [[i m]|] eqn:C; [|discriminate]. destruct (length w =? 64)%nat; [discriminate|]. cbv zeta.
    destruct (_ || _); [discriminate|]. pose proof (half_width true size w i m C). pose proof (half_width false size w i m C).
    pose proof (IH (half true i m w) ltac:(lra)) as F. pose proof (IH (half false i m w) ltac:(lra)) as G. unfold both. destruct (subdivide fuel size (half true i m w)); try discriminate; [|congruence]. destruct (subdivide fuel size (half false i m w)); try discriminate. congruence.
Qed.
Lemma rounds_enough w : width w < INR (rounds w).
Proof.
  unfold rounds. fold (width w). set (r := width w). clearbody r. rewrite S_INR, INR_IZR_INZ. pose proof (archimed r) as (A & _). destruct (Z.le_gt_cases 0 (up r)) as [P|N].
  - rewrite Z2Nat.id by exact P. lra.
  - apply IZR_lt in N. replace (Z.to_nat (up r)) with 0%nat by (apply lt_IZR in N; lia). cbn. lra.
Qed.

(** ** Where points come from *)
Definition cnt (c : nat) (l : list nat) : nat := length (filter (Nat.eqb c) l).
Lemma cnt_app c a b : cnt c (a ++ b) = (cnt c a + cnt c b)%nat.
Proof. unfold cnt. rewrite filter_app, app_length. reflexivity. Qed.
Lemma cnt_all l : Forall (fun c => c <= 6)%nat l -> length l = (cnt 0 l + cnt 1 l + cnt 2 l + cnt 3 l + cnt 4 l + cnt 5 l + cnt 6 l)%nat.
Proof.
  induction 1 as [|c l C _ IH]; [reflexivity|]. change (c :: l) with ([c] ++ l). rewrite !cnt_app, app_length, IH. assert (E : (length [c] = cnt 0 [c] + cnt 1 [c] + cnt 2 [c] + cnt 3 [c] + cnt 4 [c] + cnt 5 [c] + cnt 6 [c])%nat) by (do 7 (destruct c as [|c]; [reflexivity|]); lia). lia.
Qed.
Lemma map_nth_seq (l : list nat) d : map (fun k => nth k l d) (seq 0 (length l)) = l.
Proof. induction l as [|x l IH]; [reflexivity|]. cbn [length seq map nth]. rewrite <- seq_shift, map_map. f_equal. exact IH. Qed.
Definition mark (i : nat) (s : bool) : nat := S (2 * i + if s then 1 else 0).
Definition new_label (labs : list nat) (new : nat) (p : nat * R) : nat := if Req_EM_T (snd p) 0 then nth (fst p) labs 0%nat else new.
Definition half_labels (s : bool) (i : nat) (m : R) (w : list vec) (labs : list nat) : list nat := map (new_label labs (mark i s)) (pos i m w s).
Lemma half_cnt s i m w labs c : length labs = length w ->
  (c <> mark i s -> (cnt c (half_labels s i m w labs) <= cnt c labs)%nat) /\
  ((forall k, (k < length w)%nat -> nth k labs 0%nat = mark i s -> keeps s (gd i m w k) = false) -> c = mark i s -> (cnt c (half_labels s i m w labs) <= length (filter (fun k => crosses (gd i m w k) (gd i m w (S k))) (seq 0 (length w))))%nat).
Proof.
  intro L. unfold half_labels, pos.
  assert (ONE : forall k, map (new_label labs (mark i s)) (pos_at i m w s k) = (if keeps s (gd i m w k) then [nth k labs 0%nat] else []) ++ (if crosses (gd i m w k) (gd i m w (S k)) then [mark i s] else [])).
  { intro k. unfold pos_at. rewrite map_app. f_equal; [destruct (keeps s (gd i m w k)); [|reflexivity]|destruct (crosses _ _) eqn:C; [|reflexivity]]; cbn [map]; unfold new_label; cbn [fst snd].
    - destruct (Req_EM_T 0 0); [reflexivity|congruence].
    - apply ratio_ok in C. destruct (Req_EM_T (ratio_at i m w k) 0); [lra|reflexivity]. }
  split.
  - intro N. assert (G : forall l, (cnt c (map (new_label labs (mark i s)) (flat_map (pos_at i m w s) l)) <= cnt c (map (fun k => nth k labs 0%nat) l))%nat).
    { induction l as [|k l IH]; [apply le_n|]. cbn [flat_map map]. rewrite map_app, ONE, !cnt_app. change (nth k labs 0%nat :: map (fun k => nth k labs 0%nat) l) with ([nth k labs 0%nat] ++ map (fun k => nth k labs 0%nat) l). rewrite cnt_app.
      assert (X : cnt c (if crosses (gd i m w k) (gd i m w (S k)) then [mark i s] else []) = 0%nat) by (destruct (crosses _ _); [|reflexivity]; unfold cnt; cbn [filter]; replace (c =? mark i s)%nat with false by (symmetry; apply Nat.eqb_neq; exact N); reflexivity).
      rewrite X. destruct (keeps s (gd i m w k)); [lia|]. change (cnt c []) with 0%nat. lia. }
    specialize (G (seq 0 (length w))). rewrite <- L, map_nth_seq in G. rewrite <- L. exact G.
  - intros K ->. assert (G : forall l, (forall k, In k l -> (k < length w)%nat) -> (cnt (mark i s) (map (new_label labs (mark i s)) (flat_map (pos_at i m w s) l)) <= length (filter (fun k => crosses (gd i m w k) (gd i m w (S k))) l))%nat).
    { induction l as [|k l IH]; intro B; [apply le_n|]. cbn [flat_map filter]. rewrite map_app, ONE, !cnt_app. specialize (IH (fun k I => B k (or_intror I))).
      assert (X : cnt (mark i s) (if keeps s (gd i m w k) then [nth k labs 0%nat] else []) = 0%nat).
      { destruct (keeps s (gd i m w k)) eqn:E; [|reflexivity]. unfold cnt. cbn [filter]. destruct (Nat.eqb_spec (mark i s) (nth k labs 0%nat)) as [Q|Q]; [|reflexivity]. rewrite (K k (B k (or_introl eq_refl)) (eq_sym Q)) in E. discriminate E. }
      rewrite X. destruct (crosses (gd i m w k) (gd i m w (S k))); cbn [length].
      - assert (cnt (mark i s) [mark i s] = 1%nat) by (unfold cnt; cbn [filter]; rewrite Nat.eqb_refl; reflexivity). lia.
      - change (cnt (mark i s) []) with 0%nat. lia. }
    apply G. intros k I. apply in_seq in I. lia.
Qed.
Definition marked (n : nat) (w : list vec) (labs : list nat) : Prop :=
  length labs = length w /\ (cnt 0 labs <= n)%nat /\ Forall (fun c => c <= 6)%nat labs /\
  forall i s, (i < 3)%nat -> (cnt (mark i s) labs <= 2)%nat /\
    exists b, (forall k, (k < length w)%nat -> nth k labs 0%nat = mark i s -> coord i (vert w k) = b) /\ (forall v, In v w -> if s then b <= coord i v else coord i v <= b).
Lemma marked_length n w labs : marked n w labs -> (length w <= n + 12)%nat.
Proof.
  intros (L & Z & F & M). rewrite <- L, (cnt_all labs F).
  pose proof (proj1 (M 0%nat true ltac:(lia))). pose proof (proj1 (M 0%nat false ltac:(lia))). pose proof (proj1 (M 1%nat true ltac:(lia))). pose proof (proj1 (M 1%nat false ltac:(lia))). pose proof (proj1 (M 2%nat true ltac:(lia))). pose proof (proj1 (M 2%nat false ltac:(lia))).
  unfold mark in *. cbn [Nat.mul Nat.add] in *. lia.
Qed.
Lemma mark_inj i s j t : mark i s = mark j t -> i = j /\ s = t.
Proof. unfold mark. destruct s, t; intro H; try (exfalso; lia); split; try lia; reflexivity. Qed.
Lemma marked_half n w labs s size i m : round w -> marked n w labs -> first_cut size w = Some (i, m) -> marked n (half s i m w) (half_labels s i m w labs).
Proof.
  intros RW (L & Z & F & M) C. pose proof (first_cut_spec _ _ _ _ C) as (I3 & NE & _ & B).
  assert (NK : forall k, (k < length w)%nat -> nth k labs 0%nat = mark i s -> keeps s (gd i m w k) = false).
  { intros k K E. destruct (M i s I3) as (_ & b & MB & AB). specialize (MB k K E). destruct (keeps s (gd i m w k)) eqn:KE; [|reflexivity]. exfalso. apply keeps_iff in KE. unfold gd in KE.
    destruct (lo_spec i w NE) as ((u & U & EU) & _), (hi_spec i w NE) as ((v & V & EV) & _). pose proof (AB u U). pose proof (AB v V). destruct s; lra. }
  split; [unfold half_labels; rewrite half_pos, !map_length; reflexivity|].
  split; [pose proof (proj1 (half_cnt s i m w labs 0%nat L) ltac:(unfold mark; lia)); lia|].
  split. { unfold half_labels. apply Forall_forall. intros c X. apply in_map_iff in X. destruct X as ((k & t) & <- & X). unfold new_label. cbn [fst snd]. destruct (Req_EM_T t 0); [|unfold mark; destruct s; lia].
    rewrite Forall_forall in F. destruct (Nat.lt_ge_cases k (length labs)) as [K|K]; [apply F, nth_In; exact K|rewrite nth_overflow by exact K; lia]. }
  intros j t J. split.
  { destruct (Nat.eq_dec (mark j t) (mark i s)) as [E|N].
    - pose proof (proj2 (half_cnt s i m w labs (mark j t) L) NK E). pose proof (two_new i m w RW). lia.
    - pose proof (proj1 (half_cnt s i m w labs (mark j t) L) N). pose proof (proj1 (M j t J)). lia. }
  assert (LAB : forall k, (k < length (half s i m w))%nat -> exists q r, In (q, r) (pos i m w s) /\ vert (half s i m w) k = at_pos w (q, r) /\ nth k (half_labels s i m w labs) 0%nat = if Req_EM_T r 0 then nth q labs 0%nat else mark i s).
  { intros k K. rewrite half_pos in K |- *. rewrite map_length in K. exists (fst (nth k (pos i m w s) (0%nat, 0%R))), (snd (nth k (pos i m w s) (0%nat, 0%R))). rewrite <- surjective_pairing. split; [apply nth_In; exact K|]. split.
    - rewrite vert_nth by (rewrite map_length; exact K). rewrite (nth_indep _ _ (at_pos w (0%nat, 0%R))) by (rewrite map_length; exact K). apply map_nth.
    - unfold half_labels. rewrite (nth_indep _ _ (new_label labs (mark i s) (0%nat, 0%R))) by (rewrite map_length; exact K). rewrite map_nth. reflexivity. }
  destruct (Nat.eq_dec (mark j t) (mark i s)) as [E|N].
  - apply mark_inj in E. destruct E as (-> & ->). exists m. split; [|intros v V; exact (half_side i m w s v V)].
    intros k K E. destruct (LAB k K) as (q & r & Q & -> & LQ). rewrite LQ in E. apply pos_in in Q. cbn [fst snd] in Q. destruct Q as (QW & [(-> & KE)|(-> & CR)]).
    + destruct (Req_EM_T 0 0); [|congruence]. rewrite (NK q QW E) in KE. discriminate KE.
    + apply cross_coord. exact CR.
  - destruct (M j t J) as (_ & b & MB & AB). exists b. split.
    + intros k K E. destruct (LAB k K) as (q & r & Q & -> & LQ). rewrite LQ in E. apply pos_ok in Q. cbn [fst snd] in Q. destruct (Req_EM_T r 0) as [->|]; [|congruence]. unfold at_pos. cbn [fst snd]. rewrite mix_0. apply MB; [exact (proj1 Q)|exact E].
    + intros v V. apply half_hull in V. destruct t.
      * apply (hull_coord j (pts w) b (hi j w)); [|exact V]. intros x X. split; [exact (AB x X)|apply hi_spec; assumption].
      * apply (hull_coord j (pts w) (lo j w) b); [|exact V]. intros x X. split; [apply lo_spec; assumption|exact (AB x X)].
Qed.
Lemma filter_le (f : nat -> bool) l : (length (filter f l) <= length l)%nat.
Proof. induction l as [|x l IH]; cbn [filter length]; [lia|]. destruct (f x); cbn [length]; lia. Qed.
Lemma marked_start w : w <> [] -> marked (length w) w (repeat 0%nat (length w)).
Proof.
  intro N. split; [apply repeat_length|]. split; [unfold cnt; pose proof (filter_le (Nat.eqb 0) (repeat 0%nat (length w))); rewrite repeat_length in *; lia|].
  assert (R : forall c, In c (repeat 0%nat (length w)) -> c = 0%nat) by (intros c C; apply repeat_spec in C; exact C).
  split; [apply Forall_forall; intros c C; rewrite (R c C); lia|]. intros i s I. split.
  - unfold cnt. replace (filter (Nat.eqb (mark i s)) (repeat 0%nat (length w))) with (@nil nat); [cbn; lia|]. symmetry. clear N. generalize (length w) as k. induction k as [|k IH]; [reflexivity|]. cbn [repeat filter]. unfold mark at 1. cbn [Nat.eqb]. exact IH.
  - assert (X : forall k, nth k (repeat 0%nat (length w)) 0%nat <> mark i s) by (intro k; destruct (nth_in_or_default k (repeat 0%nat (length w)) 0%nat) as [Y|Y]; [rewrite (R _ Y)|rewrite Y]; unfold mark; lia).
    exists (if s then lo i w else hi i w). split; [intros k _ E; destruct (X k E)|]. intros v V. destruct s; [apply lo_spec|apply hi_spec]; assumption.
Qed.

(** ** The pieces *)
Lemma subdivide_ok size n : 0 < size -> (n <= 51)%nat -> forall fuel w labs, round w -> w <> [] -> marked n w labs -> subdivide fuel size w <> Fuel ->
  exists l, subdivide fuel size w = Pieces l.
Proof.
  intros S N. induction fuel as [|fuel IH]; intros w labs RW NE M F; [cbn in F; congruence|]. cbn [subdivide] in *. pose proof (marked_length _ _ _ M) as ML.
  replace (64 <? length w)%nat with false in * by (symmetry; apply Nat.ltb_ge; lia). destruct (first_cut size w) as [[i m]|] eqn:C; [|eauto].
  replace (length w =? 64)%nat with false in * by (symmetry; apply Nat.eqb_neq; lia). cbv zeta in *.
  pose proof (marked_half n w labs true size i m RW M C) as M1. pose proof (marked_half n w labs false size i m RW M C) as M2. pose proof (marked_length _ _ _ M1) as L1. pose proof (marked_length _ _ _ M2) as L2.
  replace (64 <? length (half true i m w))%nat with false in * by (symmetry; apply Nat.ltb_ge; lia). replace (64 <? length (half false i m w))%nat with false in * by (symmetry; apply Nat.ltb_ge; lia). cbn [orb] in *.
  assert (F1 : subdivide fuel size (half true i m w) <> Fuel) by (intro E; rewrite E in F; apply F; reflexivity).
  destruct (IH _ _ (half_round i m w true RW) (half_some true _ _ _ _ C) M1 F1) as (l1 & E1). rewrite E1 in *.
  assert (F2 : subdivide fuel size (half false i m w) <> Fuel) by (intro E; rewrite E in F; apply F; reflexivity).
  destruct (IH _ _ (half_round i m w false RW) (half_some false _ _ _ _ C) M2 F2) as (l2 & E2). rewrite E2. cbn [both]. eauto.
Qed.
Lemma subdivide_pieces size : forall fuel w l, subdivide fuel size w = Pieces l ->
  (forall p, In p l -> first_cut size p = None /\ (w <> [] -> p <> []) /\ (round w -> round p) /\ forall v, In v p -> hull (pts w) v) /\
  (round w -> forall x, hull (pts w) x -> exists p, In p l /\ hull (pts p) x).
Proof.
  induction fuel as [|fuel IH]; intros w l H; [discriminate H|]. cbn [subdivide] in H. destruct (64 <? length w)%nat; [discriminate H|]. destruct (first_cut size w) as [[i m]|] eqn:C.
  - destruct (length w =? 64)%nat; [discriminate H|]. cbv zeta in H. destruct (_ || _); [discriminate H|]. unfold both in H.
    destruct (subdivide fuel size (half true i m w)) as [l1| | |] eqn:E1; try discriminate H. destruct (subdivide fuel size (half false i m w)) as [l2| | |] eqn:E2; try discriminate H. injection H as <-.
    destruct (IH _ _ E1) as (A1 & B1), (IH _ _ E2) as (A2 & B2). split.
    + intros p P. apply in_app_or in P. destruct P as [P|P]; [destruct (A1 p P) as (X & Y & Z & T)|destruct (A2 p P) as (X & Y & Z & T)].
      * split; [exact X|]. split; [intros _; apply Y; exact (half_some true _ _ _ _ C)|]. split; [intro RW; apply Z, half_round, RW|]. intros v V. apply (hull_incl (pts (half true i m w))); [exact (half_hull i m w true)|exact (T v V)].
      * split; [exact X|]. split; [intros _; apply Y; exact (half_some false _ _ _ _ C)|]. split; [intro RW; apply Z, half_round, RW|]. intros v V. apply (hull_incl (pts (half false i m w))); [exact (half_hull i m w false)|exact (T v V)].
    + intros RW x X. destruct (half_cover i m w RW x X) as [Y|Y]; [destruct (B1 (half_round i m w true RW) x Y) as (p & P & Q)|destruct (B2 (half_round i m w false RW) x Y) as (p & P & Q)]; exists p; (split; [apply in_or_app; auto|exact Q]).
  - injection H as <-. split; [intros p [<- |[]]; split; [exact C|]; split; [auto|]; split; [auto|]; intros v V; apply hull_pt; exact V|]. intros _ x X. exists w. split; [left; reflexivity|exact X].
Qed.
