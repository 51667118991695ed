From Coq Require Import Reals List Bool Lra Lia Arith Sorting.Sorted.
From Coq Require Nsatz.
From Verif Require Import WindClipModel.
Import ListNotations.
Open Scope R_scope.

Lemma vec_eq a b : vx a = vx b -> vy a = vy b -> vz a = vz b -> a = b.
Proof. destruct a, b; simpl; congruence. Qed.
Definition mix (t : R) (a b : vec) : vec := add a (scale t (sub b a)).
(** The convex hull of a set of points. *)
Inductive hull (S : vec -> Prop) : vec -> Prop :=
| hull_pt p : S p -> hull S p
| hull_mix t a b : 0 <= t <= 1 -> hull S a -> hull S b -> hull S (mix t a b).
Definition pts (l : list vec) : vec -> Prop := fun p => In p l.
Lemma hull_incl (P Q : vec -> Prop) : (forall p, P p -> hull Q p) -> forall x, hull P x -> hull Q x.
Proof. intros H x. induction 1; auto using hull_mix. Qed.
Lemma hull_sub (P Q : vec -> Prop) : (forall p, P p -> Q p) -> forall x, hull P x -> hull Q x.
Proof. intros H. apply hull_incl. intros p K. apply hull_pt. auto. Qed.
Lemma dist_mix pl t a b : dist_to pl (mix t a b) = (1 - t) * dist_to pl a + t * dist_to pl b.
Proof. unfold dist_to, mix, add, scale, sub, dot. simpl. ring. Qed.
Lemma hull_ge pl c (P : vec -> Prop) : (forall p, P p -> c <= dist_to pl p) -> forall x, hull P x -> c <= dist_to pl x.
Proof. intros H x. induction 1; auto. rewrite dist_mix. nra. Qed.
Lemma hull_le pl c (P : vec -> Prop) : (forall p, P p -> dist_to pl p <= c) -> forall x, hull P x -> dist_to pl x <= c.
Proof. intros H x. induction 1; auto. rewrite dist_mix. nra. Qed.

(** ** Split points *)
Lemma mid1_ok n0 n1 n2 d p1 q1 p2 q2 p3 q3 t :
  n0 * n0 + n1 * n1 + n2 * n2 = 1 ->
  (p1 + t * (q1 - p1)) * n0 + (p2 + t * (q2 - p2)) * n1 + (p3 + t * (q3 - p3)) * n2 = d ->
  mid1 n0 d p1 q1 t = p1 + t * (q1 - p1).
Proof.
  intros U E. unfold mid1. destruct (Req_EM_T n0 1) as [->|N1].
  - assert (n1 = 0) by nra. assert (n2 = 0) by nra. subst. lra.
  - destruct (Req_EM_T n0 (-1)) as [->|N2]; [|reflexivity].
    assert (n1 = 0) by nra. assert (n2 = 0) by nra. subst. lra.
Qed.
Definition unit_plane (pl : plane) : Prop := dot (p_n pl) (p_n pl) = 1.
Definition ratio (pl : plane) (a b : vec) : R := dist_to pl a / (dist_to pl a - dist_to pl b).
Lemma dist_mid0 pl a b : dist_to pl a - dist_to pl b <> 0 -> dist_to pl (mix (ratio pl a b) a b) = 0.
Proof. intro D. rewrite dist_mix. unfold ratio. field. exact D. Qed.
Lemma mid_mix pl a b : unit_plane pl -> dist_to pl a - dist_to pl b <> 0 -> mid pl a b = mix (ratio pl a b) a b.
Proof.
  intros U D. unfold mid. fold (ratio pl a b). pose proof (dist_mid0 pl a b D) as E. set (t := ratio pl a b) in *.
  clearbody t. unfold unit_plane, dot in U. unfold dist_to, mix, dot, add, scale, sub in *. simpl in *. destruct pl as [[n0 n1 n2] d]. simpl in *.
  apply vec_eq; simpl.
  - apply (mid1_ok n0 n1 n2 d _ _ (vy a) (vy b) (vz a) (vz b)); lra.
  - apply (mid1_ok n1 n0 n2 d _ _ (vx a) (vx b) (vz a) (vz b)); lra.
  - apply (mid1_ok n2 n0 n1 d _ _ (vx a) (vx b) (vy a) (vy b)); lra.
Qed.
(** Opposite sides. *)
Definition opp (x y : side) : Prop := x = Front /\ y = Back \/ x = Back /\ y = Front.
Lemma side_front pl eps p : side_of pl eps p = Front <-> eps < dist_to pl p.
Proof. unfold side_of. destruct (Rlt_dec eps (dist_to pl p)); [tauto|]. destruct (Rlt_dec (dist_to pl p) (- eps)); split; (discriminate || tauto). Qed.
Lemma side_back pl eps p : 0 <= eps -> side_of pl eps p = Back <-> dist_to pl p < - eps.
Proof.
  intro E. unfold side_of. destruct (Rlt_dec eps (dist_to pl p)); [split; [discriminate|lra]|].
  destruct (Rlt_dec (dist_to pl p) (- eps)); split; (discriminate || tauto).
Qed.
Lemma opp_ratio pl eps a b : 0 <= eps -> opp (side_of pl eps a) (side_of pl eps b) ->
  dist_to pl a - dist_to pl b <> 0 /\ 0 < ratio pl a b < 1.
Proof.
  intros E [[A B]|[A B]]; [apply side_front in A; apply side_back in B; [|exact E]|apply side_back in A; [|exact E]; apply side_front in B].
  - assert (D : 0 < dist_to pl a - dist_to pl b) by lra. split; [lra|]. unfold ratio. split.
    + apply Rdiv_lt_0_compat; lra.
    + apply (Rmult_lt_reg_r (dist_to pl a - dist_to pl b)); [exact D|]. unfold Rdiv. rewrite Rmult_assoc, Rinv_l; lra.
  - assert (D : dist_to pl a - dist_to pl b < 0) by lra. split; [lra|]. unfold ratio.
    replace (dist_to pl a / (dist_to pl a - dist_to pl b)) with ((- dist_to pl a) / (dist_to pl b - dist_to pl a)) by (field; lra). split.
    + apply Rdiv_lt_0_compat; lra.
    + apply (Rmult_lt_reg_r (dist_to pl b - dist_to pl a)); [lra|]. unfold Rdiv. rewrite Rmult_assoc, Rinv_l; lra.
Qed.

(** ** Segments that meet a hull *)
Definition meet (C : vec -> Prop) (a b : vec) : Prop := exists r, 0 <= r <= 1 /\ hull C (mix r a b).
Lemma mix_flip r a b : mix r a b = mix (1 - r) b a.
Proof. unfold mix, add, scale, sub. simpl. f_equal; ring. Qed.
Lemma meet_sym C a b : meet C a b -> meet C b a.
Proof. intros (r & B & H). exists (1 - r). split; [lra|]. rewrite mix_flip in H. exact H. Qed.
Lemma mix_0 a b : mix 0 a b = a. Proof. unfold mix, add, scale, sub. destruct a; simpl. f_equal; ring. Qed.
Lemma mix_1 a b : mix 1 a b = b. Proof. unfold mix, add, scale, sub. destruct b; simpl. f_equal; ring. Qed.
(* b is the common end *)
Lemma meet_mix C t a1 a2 b : 0 <= t <= 1 -> meet C b a1 -> meet C b a2 -> meet C b (mix t a1 a2).
Proof.
  intros T (s1 & B1 & H1) (s2 & B2 & H2).
  destruct (Req_EM_T s1 0) as [->|N1]; [exists 0; rewrite mix_0 in *; split; [lra|exact H1]|].
  destruct (Req_EM_T s2 0) as [->|N2]; [exists 0; rewrite mix_0 in *; split; [lra|exact H2]|].
  assert (P1 : 0 < s1) by lra. assert (P2 : 0 < s2) by lra. assert (P12 : 0 < s1 * s2) by (apply Rmult_lt_0_compat; lra).
  set (D := (1 - t) * s2 + t * s1). assert (DP : 0 < D).
  { unfold D. destruct (Req_EM_T t 0) as [->|NT]; [lra|]. assert (0 < t * s1) by (apply Rmult_lt_0_compat; lra). assert (0 <= (1 - t) * s2) by (apply Rmult_le_pos; lra). lra. }
  assert (D1 : s1 * s2 <= D).
  { unfold D. assert (0 <= (1 - t) * (s2 * (1 - s1))) by (apply Rmult_le_pos; [lra|apply Rmult_le_pos; lra]).
    assert (0 <= t * (s1 * (1 - s2))) by (apply Rmult_le_pos; [lra|apply Rmult_le_pos; lra]). lra. }
  assert (D2 : t * s1 <= D) by (unfold D; assert (0 <= (1 - t) * s2) by (apply Rmult_le_pos; lra); lra).
  assert (D3 : 0 <= t * s1) by (apply Rmult_le_pos; lra).
  exists (s1 * s2 / D). split.
  - split; [apply Rmult_le_pos; [lra|left; apply Rinv_0_lt_compat; exact DP]|].
    apply (Rmult_le_reg_r D); [exact DP|]. unfold Rdiv. rewrite Rmult_assoc, Rinv_l by lra. lra.
  - replace (mix (s1 * s2 / D) b (mix t a1 a2)) with (mix (t * s1 / D) (mix s1 b a1) (mix s2 b a2)).
    + apply hull_mix; [|exact H1|exact H2]. split; [apply Rmult_le_pos; [lra|left; apply Rinv_0_lt_compat; exact DP]|].
      apply (Rmult_le_reg_r D); [exact DP|]. unfold Rdiv. rewrite Rmult_assoc, Rinv_l by lra. lra.
    + unfold mix, add, scale, sub. simpl. f_equal; unfold D in *; field; lra.
Qed.
Lemma meet_hull C (P : vec -> Prop) b : (forall a, P a -> meet C b a) -> forall a, hull P a -> meet C b a.
Proof. intros H a. induction 1; auto using meet_mix. Qed.
Lemma meet_hulls C (P Q : vec -> Prop) : (forall a b, P a -> Q b -> meet C a b) -> forall a b, hull P a -> hull Q b -> meet C a b.
Proof.
  intros H a b HP HQ. revert b HQ. apply (meet_hull C Q). intros q Qq. apply meet_sym. revert a HP. apply meet_hull. intros p Pp.
  apply meet_sym. apply H; assumption.
Qed.
Lemma cover_hull (C P Q : vec -> Prop) : (forall a b, P a -> Q b -> meet C a b) -> (forall p, C p -> P p /\ Q p) ->
  forall x, hull (fun p => P p \/ Q p) x -> hull P x \/ hull Q x.
Proof.
  intros M CC x. pose proof (meet_hulls C P Q M) as MH.
  assert (X : forall t a b, 0 <= t <= 1 -> hull P a -> hull Q b -> hull P (mix t a b) \/ hull Q (mix t a b)).
  { intros t a b T A B. destruct (MH a b A B) as (r & Br & HC).
    destruct (Rle_lt_dec t r) as [LE|GT].
    - left. destruct (Req_EM_T r 0) as [->|NZ].
      + replace t with 0 by lra. rewrite mix_0. exact A.
      + replace (mix t a b) with (mix (t / r) a (mix r a b)).
        * apply hull_mix; [|exact A|apply (hull_sub C); [intros p K; apply CC; exact K|exact HC]].
          split; [apply Rmult_le_pos; [lra|left; apply Rinv_0_lt_compat; lra]|]. apply (Rmult_le_reg_r r); [lra|]. unfold Rdiv. rewrite Rmult_assoc, Rinv_l; lra.
        * unfold mix, add, scale, sub. simpl. f_equal; field; lra.
    - right. replace (mix t a b) with (mix ((t - r) / (1 - r)) (mix r a b) b).
      + apply hull_mix; [|apply (hull_sub C); [intros p K; apply CC; exact K|exact HC]|exact B].
        split; [apply Rmult_le_pos; [lra|left; apply Rinv_0_lt_compat; lra]|]. apply (Rmult_le_reg_r (1 - r)); [lra|]. unfold Rdiv. rewrite Rmult_assoc, Rinv_l; lra.
      + unfold mix, add, scale, sub. simpl. f_equal; field; lra. }
  induction 1 as [p [K|K]|t a b T _ IHa _ IHb]; [left; apply hull_pt; exact K|right; apply hull_pt; exact K|].
  destruct IHa as [A|A], IHb as [B|B].
  - left. apply hull_mix; assumption.
  - apply X; assumption.
  - rewrite mix_flip. apply X; [lra|assumption..].
  - right. apply hull_mix; assumption.
Qed.

(** ** Polygons in a plane *)
Definition pt2 := (R * R)%type.
Definition o2 (a b c : pt2) : R := (fst b - fst a) * (snd c - snd a) - (snd b - snd a) * (fst c - fst a).
Definition mix2 (t : R) (a b : pt2) : pt2 := (fst a + t * (fst b - fst a), snd a + t * (snd b - snd a)).
Definition emb (o e1 e2 : vec) (u : pt2) : vec := add o (add (scale (fst u) e1) (scale (snd u) e2)).
Lemma emb_mix o e1 e2 t a b : emb o e1 e2 (mix2 t a b) = mix t (emb o e1 e2 a) (emb o e1 e2 b).
Proof. unfold emb, mix2, mix, add, scale, sub. simpl. f_equal; ring. Qed.
Lemma o2_cyc a b c : o2 a b c = o2 b c a. Proof. unfold o2. ring. Qed.
Lemma o2_aab a b : o2 a a b = 0. Proof. unfold o2. ring. Qed.
Lemma o2_abb a b : o2 a b b = 0. Proof. unfold o2. ring. Qed.
Lemma o2_aba a b : o2 a b a = 0. Proof. unfold o2. ring. Qed.
Lemma o2_mix1 t a a' b c : o2 (mix2 t a a') b c = (1 - t) * o2 a b c + t * o2 a' b c. Proof. unfold o2, mix2. simpl. ring. Qed.
Lemma o2_mix2 t a b b' c : o2 a (mix2 t b b') c = (1 - t) * o2 a b c + t * o2 a b' c. Proof. unfold o2, mix2. simpl. ring. Qed.
Lemma o2_mix3 t a b c c' : o2 a b (mix2 t c c') = (1 - t) * o2 a b c + t * o2 a b c'. Proof. unfold o2, mix2. simpl. ring. Qed.

(** A polygon whose points turn left: each three of them in order do. *)
Definition convex (us : list pt2) : Prop :=
  forall i j k, (i < j)%nat -> (j < k)%nat -> (k < length us)%nat -> 0 < o2 (nth i us (0, 0)) (nth j us (0, 0)) (nth k us (0, 0)).

Section Poly.
Context (us : list pt2) (CV : convex us) (n : nat) (LN : n = length us) (N0 : (0 < n)%nat).
Definition uu (k : nat) : pt2 := nth (k mod n) us (0, 0).
Lemma uu_lt k : (k < n)%nat -> uu k = nth k us (0, 0).
Proof. intro H. unfold uu. rewrite Nat.mod_small by exact H. reflexivity. Qed.
Lemma uu_n k : uu (k + n) = uu k.
Proof. unfold uu. rewrite <- (Nat.mul_1_l n) at 1. rewrite Nat.mod_add by lia. reflexivity. Qed.
Lemma uu_mod k : uu (k mod n) = uu k.
Proof. unfold uu. rewrite Nat.mod_mod by lia. reflexivity. Qed.
Lemma tri a b c : (a < b)%nat -> (b < c)%nat -> (c < a + n)%nat -> (b < n)%nat -> 0 < o2 (uu a) (uu b) (uu c).
Proof.
  intros H1 H2 H3 H4. destruct (Nat.lt_ge_cases c n) as [L|G].
  - rewrite !uu_lt by lia. apply CV; lia.
  - replace (uu c) with (uu (c - n)) by (rewrite <- (uu_n (c - n)); f_equal; lia). rewrite <- o2_cyc. rewrite !uu_lt by lia. apply CV; lia.
Qed.
Lemma trile a b c : (a <= b)%nat -> (b <= c)%nat -> (c <= a + n)%nat -> (b < n)%nat \/ b = c -> 0 <= o2 (uu a) (uu b) (uu c).
Proof.
  intros H1 H2 H3 H4. destruct (Nat.eq_dec a b) as [->|]; [rewrite o2_aab; lra|]. destruct (Nat.eq_dec b c) as [->|]; [rewrite o2_abb; lra|].
  destruct (Nat.eq_dec c (a + n)) as [->|]; [rewrite uu_n, o2_aba; lra|]. left. apply tri; lia.
Qed.

(** Changes of side on the way from i to i + m. *)
Context (lab : nat -> side) (rat : nat -> R).
Context (RAT : forall k, opp (lab k) (lab (S k)) -> 0 < rat k < 1).
Definition change (k : nat) (t : R) : Prop := t = 0 /\ lab k = On \/ t = rat k /\ opp (lab k) (lab (S k)).
Definition pp (k : nat) (t : R) : pt2 := mix2 t (uu k) (uu (S k)).
Lemma transit x y : opp x y -> forall m i, lab i = x -> lab (i + m) = y ->
  exists k t, (i <= k < i + m)%nat /\ change k t /\ (t = 0 -> (i < k)%nat).
Proof.
  intros O. assert (XY : x <> y /\ x <> On /\ y <> On) by (destruct O as [[-> ->]|[-> ->]]; repeat split; discriminate).
  destruct XY as (XY & XO & YO). induction m as [|m IH]; intros i Li Lm.
  { rewrite Nat.add_0_r in Lm. congruence. }
  assert (C : lab (S i) = x \/ lab (S i) = On \/ lab (S i) = y).
  { destruct O as [[-> ->]|[-> ->]]; destruct (lab (S i)); auto. }
  destruct C as [C|[C|C]].
  - destruct (IH (S i) C) as (k & t & K & H & Z). { rewrite <- Lm. f_equal. lia. }
    exists k, t. split; [lia|]. split; [exact H|]. intro T. specialize (Z T). lia.
  - exists (S i), 0. split; [|split; [left; auto|intros; lia]]. destruct m; [|lia]. exfalso. apply YO. rewrite <- Lm, <- C. f_equal. lia.
  - exists i, (rat i). split; [lia|]. assert (OP : opp (lab i) (lab (S i))) by (rewrite Li, C; exact O).
    split; [right; auto|]. intro T. specialize (RAT i OP). lra.
Qed.

(** The segment between two points on opposite sides meets one between changes of side. *)
Lemma seg_meets i j : (i < j)%nat -> (j < n)%nat -> opp (lab i) (lab j) -> (forall k, lab (k + n) = lab k) ->
  exists k t l s r q, change k t /\ change l s /\ 0 <= r <= 1 /\ 0 <= q <= 1 /\ mix2 r (uu i) (uu j) = mix2 q (pp k t) (pp l s) .
Proof.
  intros IJ JN O PER. destruct (transit _ _ O (j - i) i eq_refl) as (k & t & K & CK & ZK). { f_equal. lia. }
  assert (O' : opp (lab j) (lab i)) by (destruct O as [[-> ->]|[-> ->]]; unfold opp; auto).
  destruct (transit _ _ O' (i + n - j) j eq_refl) as (l & s & L & CL & ZL). { rewrite <- (PER i). f_equal. lia. }
  assert (RT : forall k t, change k t -> t = 0 \/ 0 < t < 1).
  { intros k' t' [[-> _]|[-> H]]; [left; reflexivity|right; apply RAT; exact H]. }
  pose proof (RT _ _ CK) as TK. pose proof (RT _ _ CL) as TL.
  exists k, t, l, s.
  assert (EDGE : t <> 0 -> k = i -> S k = j -> mix2 t (uu i) (uu j) = mix2 0 (pp k t) (pp l s)).
  { intros _ -> <-. unfold pp, mix2. simpl. f_equal; ring. }
  set (f := uu i) in *. set (b := uu j) in *. set (A := pp k t) in *. set (B := pp l s) in *.
  assert (D : 0 < o2 f A b \/ (t <> 0 /\ k = i /\ S k = j)).
  { destruct (Nat.eq_dec k i) as [->|NE]; [destruct (Nat.eq_dec (S i) j) as [<-|NE]|].
    - right. repeat split; auto. intro T. specialize (ZK T). lia.
    - left. unfold A, pp. rewrite o2_mix2. unfold f. rewrite o2_aab. assert (0 < o2 (uu i) (uu (S i)) b) by (apply tri; lia).
      destruct TK as [T|T]; [specialize (ZK T); lia|]. nra.
    - left. unfold A, pp. rewrite o2_mix2. assert (0 < o2 f (uu k) b) by (apply tri; lia). assert (0 <= o2 f (uu (S k)) b) by (apply trile; lia).
      destruct TK as [T|T]; nra. }
  destruct D as [D|(T & K1 & K2)].
  2:{ exists t, 0. destruct TK as [T'|T']; [contradiction|]. split; [exact CK|]. split; [exact CL|]. split; [lra|]. split; [lra|]. apply EDGE; assumption. }
  assert (Kle : (S k <= j)%nat) by lia. assert (Lle : (S l <= i + n)%nat) by lia.
  assert (T01 : 0 <= t <= 1) by (destruct TK; lra). assert (S01 : 0 <= s <= 1) by (destruct TL; lra).
  assert (G : 0 <= o2 f b B).
  { unfold B, pp. rewrite o2_mix3. assert (0 <= o2 f b (uu l)) by (apply trile; lia). assert (0 <= o2 f b (uu (S l))) by (apply trile; lia). nra. }
  assert (Al : 0 <= o2 A b B).
  { unfold A, pp. rewrite o2_mix1. unfold B, pp. rewrite !o2_mix3.
    assert (0 <= o2 (uu k) b (uu l)) by (apply trile; lia). assert (0 <= o2 (uu k) b (uu (S l))) by (apply trile; lia).
    assert (0 <= o2 (uu (S k)) b (uu l)) by (apply trile; lia). assert (0 <= o2 (uu (S k)) b (uu (S l))) by (apply trile; lia).
    assert (0 <= (1 - s) * o2 (uu k) b (uu l) + s * o2 (uu k) b (uu (S l))) by nra.
    assert (0 <= (1 - s) * o2 (uu (S k)) b (uu l) + s * o2 (uu (S k)) b (uu (S l))) by nra. nra. }
  assert (Be : 0 <= o2 f A B).
  { unfold A, pp. rewrite o2_mix2. unfold B, pp. rewrite !o2_mix3.
    assert (0 <= o2 f (uu k) (uu l)) by (apply trile; lia). assert (0 <= o2 f (uu k) (uu (S l))) by (apply trile; lia).
    assert (0 <= o2 f (uu (S k)) (uu l)) by (apply trile; lia). assert (0 <= o2 f (uu (S k)) (uu (S l))) by (apply trile; lia).
    assert (0 <= (1 - s) * o2 f (uu k) (uu l) + s * o2 f (uu k) (uu (S l))) by nra.
    assert (0 <= (1 - s) * o2 f (uu (S k)) (uu l) + s * o2 f (uu (S k)) (uu (S l))) by nra. nra. }
  assert (SUM : o2 A b B + o2 f A B = o2 f b B + o2 f A b) by (unfold o2; ring).
  clearbody f b A B. set (T := o2 f b B + o2 f A b) in *. assert (TP : 0 < T) by (unfold T; lra).
  exists (o2 f A B / T), (o2 f A b / T). split; [exact CK|]. split; [exact CL|]. split; [|split].
  - split; [apply Rmult_le_pos; [lra|left; apply Rinv_0_lt_compat; lra]|]. apply (Rmult_le_reg_r T); [lra|]. unfold Rdiv. rewrite Rmult_assoc, Rinv_l; lra.
  - split; [apply Rmult_le_pos; [lra|left; apply Rinv_0_lt_compat; lra]|]. apply (Rmult_le_reg_r T); [lra|]. unfold Rdiv. rewrite Rmult_assoc, Rinv_l; [unfold T; lra|lra].
  - unfold mix2. f_equal.
    + apply (Rmult_eq_reg_r T); [|lra]. replace ((fst f + o2 f A B / T * (fst b - fst f)) * T) with (T * fst f + o2 f A B * (fst b - fst f)) by (field; lra).
      replace ((fst A + o2 f A b / T * (fst B - fst A)) * T) with (T * fst A + o2 f A b * (fst B - fst A)) by (field; lra). unfold T, o2. ring.
    + apply (Rmult_eq_reg_r T); [|lra]. replace ((snd f + o2 f A B / T * (snd b - snd f)) * T) with (T * snd f + o2 f A B * (snd b - snd f)) by (field; lra).
      replace ((snd A + o2 f A b / T * (snd B - snd A)) * T) with (T * snd A + o2 f A b * (snd B - snd A)) by (field; lra). unfold T, o2. ring.
Qed.
End Poly.

(** ** Clipping a polygon *)
Definition ltp (a b : nat * R) : Prop := (fst a < fst b)%nat \/ fst a = fst b /\ snd a = 0 /\ 0 < snd b.
Lemma sorted_chunks (f : nat -> list (nat * R)) : (forall k p, In p (f k) -> fst p = k) -> (forall k, StronglySorted ltp (f k)) ->
  forall m a, StronglySorted ltp (flat_map f (seq a m)).
Proof.
  intros F1 F2. assert (APP : forall l1 l2, StronglySorted ltp l1 -> StronglySorted ltp l2 -> (forall p q, In p l1 -> In q l2 -> ltp p q) -> StronglySorted ltp (l1 ++ l2)).
  { induction l1 as [|p l1 IH]; intros l2 H1 H2 H; [exact H2|]. inversion H1 as [|? ? A B]; subst. simpl. constructor.
    - apply IH; auto. intros; apply H; simpl; auto.
    - rewrite Forall_app. split; [exact B|]. apply Forall_forall. intros q Q. apply H; simpl; auto. }
  induction m as [|m IH]; intro a; [constructor|]. simpl. apply APP; [apply F2|apply IH|].
  intros p q P Q. rewrite in_flat_map in Q. destruct Q as (k & K & Q). apply in_seq in K. left. rewrite (F1 _ _ P), (F1 _ _ Q). lia.
Qed.
Lemma sorted_nth l d : StronglySorted ltp l -> forall i j, (i < j)%nat -> (j < length l)%nat -> ltp (nth i l d) (nth j l d).
Proof.
  induction 1 as [|p l A IH B]; intros i j IJ J; simpl in J; [lia|]. destruct j as [|j]; [lia|]. destruct i as [|i].
  - simpl. rewrite Forall_forall in B. apply B. apply nth_In. lia.
  - simpl. apply IH; lia.
Qed.

Section Clip.
Context (o e1 e2 : vec) (us : list pt2) (CV : convex us) (N3 : (3 <= length us)%nat).
Context (pl : plane) (U : unit_plane pl) (eps : R) (E0 : 0 <= eps).
Notation n := (length us).
Notation w := (map (emb o e1 e2) us).
Definition pv (k : nat) : vec := emb o e1 e2 (uu us n k).
Definition lab (k : nat) : side := side_of pl eps (pv k).
Definition rat (k : nat) : R := ratio pl (pv k) (pv (S k)).
Notation P := (fun p : nat * R => pp us n (fst p) (snd p)).

Lemma lab_per k : lab (k + n) = lab k.
Proof. unfold lab, pv. rewrite uu_n by lia. reflexivity. Qed.
Lemma rat_ok k : opp (lab k) (lab (S k)) -> dist_to pl (pv k) - dist_to pl (pv (S k)) <> 0 /\ 0 < rat k < 1.
Proof. intro H. exact (opp_ratio pl eps _ _ E0 H). Qed.
Lemma edges_map : edges w = map (fun k => (pv k, pv (S k))) (seq 0 n).
Proof.
  assert (NE : exists a l, us = a :: l) by (destruct us; [simpl in N3; lia|eauto]). destruct NE as (a & l & EU).
  unfold edges. rewrite EU. cbn [map].
  set (w' := emb o e1 e2 a :: map (emb o e1 e2) l). set (v := map (emb o e1 e2) l ++ [emb o e1 e2 a]).
  assert (LW : length w' = n) by (unfold w'; rewrite EU; simpl; rewrite map_length; reflexivity).
  assert (LV : length v = n) by (unfold v; rewrite EU, app_length, map_length; simpl; lia).
  rewrite <- EU. clear N3. apply (nth_ext _ _ (o, o) (pv 0, pv 1)).
  - rewrite combine_length, map_length, seq_length, LW, LV. lia.
  - intros k K. rewrite combine_length, LW, LV, Nat.min_id in K. rewrite combine_nth by lia.
    assert (NM : forall j, (j < n)%nat -> nth j w' o = pv j).
    { intros j J. unfold pv. rewrite uu_lt by lia. unfold w'. change (emb o e1 e2 a :: map (emb o e1 e2) l) with (map (emb o e1 e2) (a :: l)). rewrite <- EU.
      rewrite (nth_indep _ o (emb o e1 e2 (0, 0))) by (rewrite map_length; exact J). apply map_nth. }
    change (pv 0, pv 1) with ((fun k => (pv k, pv (S k))) 0%nat). rewrite map_nth, seq_nth by exact K. cbn [Nat.add]. rewrite NM by exact K. f_equal.
    unfold v. destruct (Nat.eq_dec (S k) n) as [EQ|NE'].
    + rewrite app_nth2; rewrite map_length; [|rewrite EU in EQ; simpl in EQ; lia].
      replace (k - length l)%nat with 0%nat by (rewrite EU in EQ; simpl in EQ; lia). cbn [nth].
      rewrite EQ. unfold pv, uu. rewrite Nat.mod_same by lia. rewrite EU. reflexivity.
    + rewrite app_nth1 by (rewrite map_length; rewrite EU in K, NE'; simpl in K, NE'; lia).
      rewrite <- (NM (S k)) by lia. reflexivity.
Qed.

(** The points of the part on side s: (k, 0) is the k-th point, (k, t) the split point after it. *)
Definition emit_at (s : side) (k : nat) : list (nat * R) :=
  match lab k, lab (S k) with
  | On, _ => [(k, 0)]
  | Front, Back => match s with Front => [(k, 0); (k, rat k)] | _ => [(k, rat k)] end
  | Front, _ => match s with Front => [(k, 0)] | _ => [] end
  | Back, Front => match s with Back => [(k, 0); (k, rat k)] | _ => [(k, rat k)] end
  | Back, _ => match s with Back => [(k, 0)] | _ => [] end
  end.
Definition ann (s : side) : list (nat * R) := flat_map (emit_at s) (seq 0 n).
Lemma emb_vertex k : emb o e1 e2 (pp us n k 0) = pv k.
Proof. unfold pp. rewrite emb_mix, mix_0. reflexivity. Qed.
Lemma emb_split k : opp (lab k) (lab (S k)) -> emb o e1 e2 (pp us n k (rat k)) = mid pl (pv k) (pv (S k)).
Proof. intro H. unfold pp. rewrite emb_mix. symmetry. apply mid_mix; [exact U|]. apply rat_ok. exact H. Qed.
Lemma part_ann s : part pl eps s w = map (emb o e1 e2) (map P (ann s)).
Proof.
  unfold part, ann. rewrite edges_map. generalize (seq 0 n) as l. induction l as [|k l IH]; [reflexivity|].
  cbn [map flat_map]. rewrite map_app, map_app, <- IH. f_equal. unfold emit, emit_at. fold (lab k). fold (lab (S k)).
  destruct (lab k) eqn:L1; destruct (lab (S k)) eqn:L2; destruct s; cbn [map fst snd]; rewrite ?emb_vertex; try reflexivity;
    rewrite emb_split; (reflexivity || (rewrite L1, L2; unfold opp; auto)).
Qed.
Lemma in_ann s k t : s <> On -> In (k, t) (ann s) <->
  (k < n)%nat /\ (t = 0 /\ (lab k = On \/ lab k = s) \/ t = rat k /\ opp (lab k) (lab (S k))).
Proof.
  intro NS. unfold ann. rewrite in_flat_map. split.
  - intros (j & J & H). apply in_seq in J. unfold emit_at in H.
    assert (j = k). { destruct (lab j), (lab (S j)), s; simpl in H; intuition congruence. } subst j. split; [lia|].
    unfold opp. destruct (lab k), (lab (S k)), s; simpl in H; intuition congruence.
  - intros (K & H). exists k. split; [apply in_seq; lia|]. unfold emit_at, opp in *.
    destruct (lab k), (lab (S k)), s; simpl; intuition congruence.
Qed.
Lemma ann_sorted s : StronglySorted ltp (ann s).
Proof.
  apply sorted_chunks.
  - intros k p H. unfold emit_at in H. destruct (lab k), (lab (S k)), s; simpl in H; intuition (subst; reflexivity).
  - intro k. unfold emit_at. assert (R : opp (lab k) (lab (S k)) -> 0 < rat k) by (intro H; apply rat_ok; exact H). unfold opp in R.
    destruct (lab k), (lab (S k)), s; repeat (apply SSorted_cons || apply SSorted_nil || apply Forall_cons || apply Forall_nil);
      right; simpl; repeat split; apply R; auto.
Qed.
Lemma change_in s k t : s <> On -> change lab rat k t -> In (pp us n k t) (map P (ann s)).
Proof.
  intros NS C. rewrite in_map_iff. exists ((k mod n)%nat, t). cbn [fst snd].
  assert (M : forall j, uu us n (j mod n) = uu us n j) by (intro; apply uu_mod; lia).
  assert (M2 : uu us n (S (k mod n)) = uu us n (S k)).
  { unfold uu. f_equal. rewrite <- (Nat.add_1_r (k mod n)), <- (Nat.add_1_r k). rewrite Nat.add_mod_idemp_l by lia. reflexivity. }
  split; [unfold pp; rewrite M, M2; reflexivity|]. apply in_ann; [exact NS|]. split; [apply Nat.mod_upper_bound; lia|].
  assert (LM : lab (k mod n) = lab k) by (unfold lab, pv; rewrite M; reflexivity).
  assert (LM2 : lab (S (k mod n)) = lab (S k)) by (unfold lab, pv; rewrite M2; reflexivity).
  assert (RM : rat (k mod n) = rat k) by (unfold rat, pv; rewrite M, M2; reflexivity).
  rewrite LM, LM2, RM. destruct C as [[-> L]|[-> O]]; auto.
Qed.

Lemma mid_lab k t s : s <> On -> In (k, t) (ann s) -> 0 < t -> t = rat k /\ opp (lab k) (lab (S k)) /\ t < 1.
Proof.
  intros NS H T. apply in_ann in H; [|exact NS]. destruct H as (_ & [[-> _]|[-> O]]); [lra|]. split; [reflexivity|]. split; [exact O|]. apply rat_ok. exact O.
Qed.
Lemma vert_lab k s : s <> On -> In (k, 0) (ann s) -> lab k = On \/ lab k = s.
Proof.
  intros NS H. apply in_ann in H; [|exact NS]. destruct H as (_ & [[_ H]|[Z O]]); [exact H|]. apply rat_ok in O. lra.
Qed.
(** A split point is not between two points that are kept. *)
Lemma no_flat s k t : s <> On -> In (k, t) (ann s) -> 0 < t -> In (k, 0) (ann s) -> In ((S k mod n)%nat, 0) (ann s) -> False.
Proof.
  intros NS H T H0 H1. destruct (mid_lab _ _ _ NS H T) as (_ & O & _). apply vert_lab in H0; [|exact NS]. apply vert_lab in H1; [|exact NS].
  assert (LM : lab (S k mod n) = lab (S k)) by (unfold lab, pv; rewrite uu_mod by lia; reflexivity). rewrite LM in H1.
  unfold opp in O. destruct O as [[A B]|[A B]]; rewrite A, B in *; destruct H0, H1; congruence.
Qed.
Lemma part_convex s : s <> On -> convex (map P (ann s)).
Proof.
  intros NS i j k IJ JK K. rewrite map_length in K.
  assert (NM : forall i, (i < length (ann s))%nat -> nth i (map P (ann s)) (0, 0) = P (nth i (ann s) (0%nat, 0))).
  { intros m M. rewrite (nth_indep _ (0, 0) (P (0%nat, 0))) by (rewrite map_length; exact M). apply (map_nth P). }
  rewrite !NM by lia. clear NM.
  pose proof (sorted_nth _ (0%nat, 0) (ann_sorted s) i j IJ ltac:(lia)) as S1. pose proof (sorted_nth _ (0%nat, 0) (ann_sorted s) j k JK ltac:(lia)) as S2.
  assert (I1 : In (nth i (ann s) (0%nat, 0)) (ann s)) by (apply nth_In; lia).
  assert (I2 : In (nth j (ann s) (0%nat, 0)) (ann s)) by (apply nth_In; lia).
  assert (I3 : In (nth k (ann s) (0%nat, 0)) (ann s)) by (apply nth_In; lia).
  destruct (nth i (ann s) (0%nat, 0)) as [a ta]. destruct (nth j (ann s) (0%nat, 0)) as [b tb]. destruct (nth k (ann s) (0%nat, 0)) as [c tc].
  unfold ltp in S1, S2. cbn [fst snd] in *. clear i j k IJ JK K.
  assert (RG : forall k t, In (k, t) (ann s) -> (k < n)%nat /\ (t = 0 \/ 0 < t < 1)).
  { intros k t H. pose proof H as H'. apply in_ann in H; [|exact NS]. destruct H as (K & [[-> _]|[-> O]]); split; auto. right. apply rat_ok. exact O. }
  destruct (RG _ _ I1) as [LA TA]. destruct (RG _ _ I2) as [LB TB]. destruct (RG _ _ I3) as [LC TC]. clear RG.
  assert (N0 : (0 < n)%nat) by lia.
  unfold pp. set (u := uu us n) in *.
  assert (TRI : forall a b c, (a < b)%nat -> (b < c)%nat -> (c < a + n)%nat -> (b < n)%nat -> 0 < o2 (u a) (u b) (u c)) by (intros; apply tri; auto).
  assert (TRL : forall a b c, (a <= b)%nat -> (b <= c)%nat -> (c <= a + n)%nat -> (b < n)%nat \/ b = c -> 0 <= o2 (u a) (u b) (u c)) by (intros; apply trile; auto).
  assert (NF : forall k t, In (k, t) (ann s) -> 0 < t -> In (k, 0) (ann s) -> In ((S k mod n)%nat, 0) (ann s) -> False) by (intros k t; apply no_flat; exact NS).
  destruct (Nat.eq_dec a b) as [->|NAB]; [|destruct (Nat.eq_dec b c) as [->|NBC]].
  - (* a point, the split point after it, another one *)
    destruct S1 as [S1|(_ & -> & TB0)]; [lia|]. assert (BC : (b < c)%nat) by (destruct S2 as [?|(_ & ? & _)]; [assumption|lra]).
    replace (mix2 0 (u b) (u (S b))) with (u b) by (unfold mix2; destruct (u b); simpl; f_equal; ring).
    rewrite o2_mix2, o2_aab. assert (X : 0 < o2 (u b) (u (S b)) (mix2 tc (u c) (u (S c)))).
    { rewrite o2_mix3. destruct (Nat.eq_dec c (S b)) as [->|NC].
      - rewrite o2_abb. destruct TC as [->|TC]; [exfalso; apply (NF b tb I2 TB0 I1); rewrite Nat.mod_small by lia; exact I3|].
        assert (0 < o2 (u b) (u (S b)) (u (S (S b)))) by (apply TRI; lia). nra.
      - assert (0 < o2 (u b) (u (S b)) (u c)) by (apply TRI; lia). assert (0 <= o2 (u b) (u (S b)) (u (S c))) by (apply TRL; lia).
        destruct TC as [->|TC]; nra. }
    nra.
  - (* one point, another one and the split point after that *)
    assert (AC : (a < c)%nat) by (destruct S1 as [?|(? & _)]; [assumption|lia]).
    destruct S2 as [S2|(_ & -> & TC0)]; [lia|].
    replace (mix2 0 (u c) (u (S c))) with (u c) by (unfold mix2; destruct (u c); simpl; f_equal; ring).
    rewrite o2_mix3, o2_abb. assert (X : 0 < o2 (mix2 ta (u a) (u (S a))) (u c) (u (S c))).
    { rewrite o2_mix1. destruct (Nat.eq_dec (S c) (a + n)) as [EC|NC].
      - assert (a = 0%nat) by lia. subst a. simpl in EC.
        assert (Z : o2 (u 0%nat) (u c) (u (S c)) = 0). { assert (UN : u n = u 0%nat) by (unfold u, uu; rewrite Nat.mod_same, Nat.mod_0_l by lia; reflexivity). rewrite EC, UN. apply o2_aba. }
        rewrite Z. destruct TA as [->|TA]; [exfalso; apply (NF c tc I3 TC0 I2); rewrite EC, Nat.mod_same by lia; exact I1|].
        assert (0 < o2 (u 1%nat) (u c) (u (S c))) by (apply TRI; lia). nra.
      - assert (0 < o2 (u a) (u c) (u (S c))) by (apply TRI; lia). assert (0 <= o2 (u (S a)) (u c) (u (S c))) by (apply TRL; lia).
        destruct TA as [->|TA]; nra. }
    nra.
  - assert (AB : (a < b)%nat) by (destruct S1 as [?|(? & _)]; [assumption|lia]). assert (BC : (b < c)%nat) by (destruct S2 as [?|(? & _)]; [assumption|lia]).
    assert (LIN : forall t x y, t = 0 \/ 0 < t < 1 -> 0 < x -> 0 <= y -> 0 < (1 - t) * x + t * y) by (intros t x y [->|T] Hx Hy; nra).
    assert (LI2 : forall t x y, t = 0 \/ 0 < t < 1 -> 0 <= x -> 0 <= y -> 0 <= (1 - t) * x + t * y) by (intros t x y [->|T] Hx Hy; nra).
    rewrite o2_mix1. apply LIN; [exact TA| |].
    + rewrite o2_mix2. apply LIN; [exact TB| |]; rewrite o2_mix3; [apply LIN|apply LI2]; try exact TC; try (apply TRI; lia); apply TRL; lia.
    + rewrite o2_mix2. apply LI2; [exact TB| |]; rewrite o2_mix3; apply LI2; try exact TC; apply TRL; lia.
Qed.

(** With points on both sides a part has at least three points. *)
Lemma part_three s i j : s <> On -> (i < j)%nat -> (j < n)%nat -> opp (lab i) (lab j) -> (3 <= length (ann s))%nat.
Proof.
  intros NS IJ JN O.
  destruct (transit us n eq_refl ltac:(lia) lab rat (fun k H => proj2 (rat_ok k H)) _ _ O (j - i) i eq_refl) as (k & t & K & CK & ZK). { f_equal. lia. }
  assert (O' : opp (lab j) (lab i)) by (destruct O as [[-> ->]|[-> ->]]; unfold opp; auto).
  destruct (transit us n eq_refl ltac:(lia) lab rat (fun k H => proj2 (rat_ok k H)) _ _ O' (i + n - j) j eq_refl) as (l & r & L & CL & ZL). { rewrite <- (lab_per i). f_equal. lia. }
  assert (AN : forall m q, change lab rat m q -> In ((m mod n)%nat, q) (ann s)).
  { intros m q C. apply in_ann; [exact NS|]. split; [apply Nat.mod_upper_bound; lia|].
    assert (M : uu us n (m mod n) = uu us n m) by (apply uu_mod; lia).
    assert (M2 : uu us n (S (m mod n)) = uu us n (S m)).
    { unfold uu. f_equal. rewrite <- (Nat.add_1_r (m mod n)), <- (Nat.add_1_r m). rewrite Nat.add_mod_idemp_l by lia. reflexivity. }
    replace (lab (m mod n)) with (lab m) by (unfold lab, pv; rewrite M; reflexivity).
    replace (lab (S (m mod n))) with (lab (S m)) by (unfold lab, pv; rewrite M2; reflexivity).
    replace (rat (m mod n)) with (rat m) by (unfold rat, pv; rewrite M, M2; reflexivity).
    destruct C as [[-> C]|[-> C]]; auto. }
  assert (V : In (i, 0) (ann s) \/ In (j, 0) (ann s)).
  { rewrite !in_ann by exact NS. destruct O as [[A B]|[A B]]; destruct s; try congruence; [left|right|right|left]; (split; [lia|left; auto]). }
  assert (TT : forall m q, change lab rat m q -> q = 0 \/ 0 < q) by (intros m q [[-> _]|[-> C]]; [auto|right; apply rat_ok; exact C]).
  assert (KM : (k mod n = k)%nat) by (apply Nat.mod_small; lia).
  assert (LM : ((l < n)%nat /\ (l mod n = l)%nat) \/ ((n <= l)%nat /\ (l mod n = l - n)%nat)).
  { destruct (Nat.lt_ge_cases l n); [left; split; [assumption|apply Nat.mod_small; assumption]|right; split; [assumption|]].
    replace l with (l - n + 1 * n)%nat at 1 by lia. rewrite Nat.mod_add by lia. apply Nat.mod_small. lia. }
  assert (D12 : ((k mod n)%nat, t) <> ((l mod n)%nat, r)) by (intro Q; inversion Q; subst; lia).
  assert (DI : ((k mod n)%nat, t) <> (i, 0) /\ ((l mod n)%nat, r) <> (i, 0)).
  { split; intro Q; inversion Q; subst.
    - specialize (ZK eq_refl). lia.
    - specialize (ZL eq_refl). lia. }
  assert (DJ : ((k mod n)%nat, t) <> (j, 0) /\ ((l mod n)%nat, r) <> (j, 0)).
  { split; intro Q; inversion Q; subst; [lia|specialize (ZL eq_refl); lia]. }
  pose proof (AN _ _ CK) as A1. pose proof (AN _ _ CL) as A2.
  destruct V as [V|V].
  - apply (NoDup_incl_length (l := [(i, 0); ((k mod n)%nat, t); ((l mod n)%nat, r)])).
    + destruct DI. repeat constructor; simpl; intuition congruence.
    + intros q Q. simpl in Q. intuition congruence.
  - apply (NoDup_incl_length (l := [(j, 0); ((k mod n)%nat, t); ((l mod n)%nat, r)])).
    + destruct DJ. repeat constructor; simpl; intuition congruence.
    + intros q Q. simpl in Q. intuition congruence.
Qed.

(** Both parts together cover the polygon. *)
Lemma in_part s x : s <> On -> In x (part pl eps s w) ->
  (exists i, (i < n)%nat /\ x = pv i /\ lab i = s) \/ (forall s', s' <> On -> In x (part pl eps s' w)).
Proof.
  intros NS H. rewrite part_ann, in_map_iff in H. destruct H as (u & <- & H). rewrite in_map_iff in H. destruct H as ([k t] & <- & H). cbn [fst snd].
  apply in_ann in H; [|exact NS]. destruct H as (K & [[-> [L|L]]|[-> O]]).
  - right. intros s' NS'. rewrite part_ann. apply in_map. apply change_in; [exact NS'|]. left. auto.
  - left. exists k. split; [exact K|]. split; [apply emb_vertex|exact L].
  - right. intros s' NS'. rewrite part_ann. apply in_map. apply change_in; [exact NS'|]. right. auto.
Qed.
Lemma in_w x : In x w -> In x (part pl eps Front w) \/ In x (part pl eps Back w).
Proof.
  intro H. rewrite in_map_iff in H. destruct H as (u & <- & H). apply (In_nth _ _ (0, 0)) in H. destruct H as (k & K & <-).
  assert (E : emb o e1 e2 (nth k us (0, 0)) = emb o e1 e2 (P (k, 0))) by (cbn [fst snd]; rewrite (emb_vertex k); unfold pv, uu; rewrite Nat.mod_small by exact K; reflexivity).
  match goal with |- In ?x _ \/ _ => change x with (emb o e1 e2 (nth k us (0, 0))) end. rewrite E, !part_ann. destruct (lab k) eqn:L; [left|right|left]; apply in_map; apply (in_map P (ann _) (k, 0)); (apply in_ann; [discriminate|]); (split; [exact K|]); left; auto.
Qed.
Lemma clip_cover x : hull (pts w) x -> hull (pts (part pl eps Front w)) x \/ hull (pts (part pl eps Back w)) x.
Proof.
  intro H. apply (cover_hull (fun p => pts (part pl eps Front w) p /\ pts (part pl eps Back w) p)).
  - intros a b A B.
    assert (CA : forall c, (forall s', s' <> On -> In c (part pl eps s' w)) -> pts (part pl eps Front w) c /\ pts (part pl eps Back w) c).
    { intros c C. split; apply C; discriminate. }
    destruct (in_part Front a ltac:(discriminate) A) as [(i & I & -> & LI)|CO]; [|exists 0; split; [lra|rewrite mix_0; apply hull_pt; auto]].
    destruct (in_part Back b ltac:(discriminate) B) as [(j & J & -> & LJ)|CO]; [|exists 1; split; [lra|rewrite mix_1; apply hull_pt; auto]].
    assert (MM : forall i j, (i < j)%nat -> (j < n)%nat -> opp (lab i) (lab j) ->
      meet (fun p => pts (part pl eps Front w) p /\ pts (part pl eps Back w) p) (pv i) (pv j)).
    { clear - CV N3 U E0. intros i j IJ J O.
      destruct (seg_meets us CV n eq_refl ltac:(lia) lab rat (fun k H => proj2 (rat_ok k H)) i j IJ J O lab_per) as (k & t & l & s & r & q & CK & CL & R & Q & E).
      exists r. split; [exact R|]. unfold pv. rewrite <- emb_mix, E, emb_mix. apply hull_mix; [exact Q| |]; apply hull_pt; unfold pts; rewrite !part_ann;
        split; apply in_map; apply change_in; (discriminate || assumption). }
    destruct (Nat.lt_trichotomy i j) as [LT|[->|GT]].
    + apply MM; [exact LT|exact J|]. left. auto.
    + congruence.
    + apply meet_sym. apply MM; [exact GT|exact I|]. right. auto.
  - intros p Hp. exact Hp.
  - revert x H. apply hull_sub. intros p Hp. apply in_w. exact Hp.
Qed.
End Clip.

(** ** Windings *)
(** A strictly convex polygon in the plane through o along e1 and e2, with its points in order. *)
Definition polygon (o e1 e2 : vec) (w : list vec) : Prop :=
  0 < len (cross e1 e2) /\ exists us : list (R * R), (3 <= length us)%nat /\ convex us /\ w = map (emb o e1 e2) us.

Lemma count_pos pl eps s w : s <> On -> (count pl eps s w <> 0%nat <-> exists p, In p w /\ side_of pl eps p = s).
Proof.
  intro NS. unfold count. set (g := fun p => _). split.
  - intro H. destruct (filter g w) as [|p l] eqn:F; [simpl in H; lia|]. exists p.
    assert (I : In p (filter g w)) by (rewrite F; left; reflexivity). apply filter_In in I. destruct I as [I G]. split; [exact I|].
    unfold g in G. destruct s, (side_of pl eps p); congruence.
  - intros (p & I & E) Z. assert (F : In p (filter g w)) by (apply filter_In; split; [exact I|unfold g; rewrite E; destruct s; congruence]).
    destruct (filter g w); [destruct F|simpl in Z; lia].
Qed.
Lemma count_zero pl eps s w : s <> On -> count pl eps s w = 0%nat -> forall p, In p w -> side_of pl eps p <> s.
Proof. intros NS Z p I E. apply (count_pos pl eps s w NS); [exists p; auto|exact Z]. Qed.

Lemma in_edges w a b : In (a, b) (edges w) -> In a w /\ In b w.
Proof.
  unfold edges. destruct w as [|x l]; [intros []|]. intro H. split; [apply in_combine_l in H; exact H|].
  apply in_combine_r in H. apply in_app_iff in H. destruct H as [H|[<-|[]]]; simpl; auto.
Qed.
(** Points of a part: kept points and split points. *)
Lemma in_part_any pl eps s w p : In p (part pl eps s w) ->
  (In p w /\ (side_of pl eps p = s \/ side_of pl eps p = On)) \/
  (exists a b, In a w /\ In b w /\ opp (side_of pl eps a) (side_of pl eps b) /\ p = mid pl a b).
Proof.
  unfold part. rewrite in_flat_map. intros ([a b] & E & H). apply in_edges in E. destruct E as [A B]. unfold emit in H.
  destruct (side_of pl eps a) eqn:SA; destruct (side_of pl eps b) eqn:SB; destruct s; simpl in H;
    repeat match goal with H : _ \/ _ |- _ => destruct H as [H|H] | H : False |- _ => destruct H end; subst;
    try (left; split; [assumption|]; auto; fail); right; exists a, b; rewrite SA, SB; unfold opp; auto 10.
Qed.
Lemma part_in_hull pl eps s w : unit_plane pl -> 0 <= eps -> forall p, In p (part pl eps s w) -> hull (pts w) p.
Proof.
  intros U E0 p H. apply in_part_any in H. destruct H as [[H _]|(a & b & A & B & O & ->)]; [apply hull_pt; exact H|].
  destruct (opp_ratio pl eps a b E0 O) as [NZ R]. rewrite mid_mix by assumption. apply hull_mix; [lra| |]; apply hull_pt; assumption.
Qed.
Lemma part_side pl eps s w : unit_plane pl -> 0 <= eps -> forall p, In p (part pl eps s w) ->
  (s = Front -> - eps <= dist_to pl p) /\ (s = Back -> dist_to pl p <= eps).
Proof.
  intros U E0 p H. apply in_part_any in H. destruct H as [[_ H]|(a & b & A & B & O & ->)].
  - unfold side_of in H. destruct (Rlt_dec eps (dist_to pl p)); [|destruct (Rlt_dec (dist_to pl p) (- eps))]; split; intros ->; destruct H; try discriminate; lra.
  - destruct (opp_ratio pl eps a b E0 O) as [NZ R]. rewrite mid_mix, dist_mid0 by assumption. split; intros; lra.
Qed.
Lemma hull_sub_hull (A B : vec -> Prop) : (forall p, A p -> hull B p) -> forall x, hull A x -> hull B x.
Proof. intros H x X. induction X as [p Hp|t p q T _ IP _ IQ]; [apply H; exact Hp|apply hull_mix; assumption]. Qed.

Lemma clip_front_fst pl eps k w : clip_front pl eps k w = fst (clip pl eps k w).
Proof. unfold clip_front, clip. destruct (k && _); [reflexivity|]. destruct (Nat.eqb _ 0); [reflexivity|]. destruct (Nat.eqb _ 0); reflexivity. Qed.
Lemma clip_back_snd pl eps k w : clip_back pl eps k w = snd (clip pl eps k w).
Proof. unfold clip_back, clip. destruct (k && _); [reflexivity|]. destruct (Nat.eqb _ 0); [reflexivity|]. destruct (Nat.eqb _ 0); reflexivity. Qed.

(** The cases of clip. *)
Lemma clip_cases pl eps k w f b : clip pl eps k w = (f, b) ->
  (f = Some w /\ b = None /\ (count pl eps Back w = 0)%nat /\ ((count pl eps Front w <> 0)%nat \/ k = true)) \/
  (f = None /\ b = Some w /\ (count pl eps Front w = 0)%nat) \/
  (f = Some (part pl eps Front w) /\ b = Some (part pl eps Back w) /\ (count pl eps Front w <> 0)%nat /\ (count pl eps Back w <> 0)%nat).
Proof.
  unfold clip. destruct (Nat.eqb_spec (count pl eps Front w) 0) as [F|F]; destruct (Nat.eqb_spec (count pl eps Back w) 0) as [B|B]; destruct k; simpl; intro H; inversion H; subst; auto 10.
Qed.

Theorem clip_inside pl eps k w f b : unit_plane pl -> 0 <= eps -> clip pl eps k w = (f, b) ->
  (forall v, f = Some v -> forall x, hull (pts v) x -> hull (pts w) x /\ - eps <= dist_to pl x) /\
  (forall v, b = Some v -> forall x, hull (pts v) x -> hull (pts w) x /\ dist_to pl x <= eps).
Proof.
  intros U E0 C. apply clip_cases in C. destruct C as [(-> & -> & B & _)|[(-> & -> & F)|(-> & -> & F & B)]]; split; intros v E x X; inversion E; subst v; clear E.
  - split; [exact X|]. revert x X. apply hull_ge. intros p I. apply (count_zero pl eps Back w ltac:(discriminate) B) in I. unfold side_of in I.
    destruct (Rlt_dec eps (dist_to pl p)); [lra|]. destruct (Rlt_dec (dist_to pl p) (- eps)); [congruence|lra].
  - split; [exact X|]. revert x X. apply hull_le. intros p I. apply (count_zero pl eps Front w ltac:(discriminate) F) in I. unfold side_of in I.
    destruct (Rlt_dec eps (dist_to pl p)); [congruence|lra].
  - split.
    + revert x X. apply hull_sub_hull. intros p I. apply (part_in_hull pl eps Front w U E0 p I).
    + revert x X. apply hull_ge. intros p I. apply (part_side pl eps Front w U E0 p I). reflexivity.
  - split.
    + revert x X. apply hull_sub_hull. intros p I. apply (part_in_hull pl eps Back w U E0 p I).
    + revert x X. apply hull_le. intros p I. apply (part_side pl eps Back w U E0 p I). reflexivity.
Qed.
Theorem clip_covers pl eps k w f b o e1 e2 : polygon o e1 e2 w -> unit_plane pl -> 0 <= eps -> clip pl eps k w = (f, b) ->
  forall x, hull (pts w) x -> (exists v, f = Some v /\ hull (pts v) x) \/ (exists v, b = Some v /\ hull (pts v) x).
Proof.
  intros (_ & us & N3 & CV & ->) U E0 C x X. apply clip_cases in C. destruct C as [(-> & -> & B & _)|[(-> & -> & F)|(-> & -> & F & B)]]; eauto.
  destruct (clip_cover o e1 e2 us CV N3 pl U eps E0 x X) as [H|H]; eauto.
Qed.
Theorem clip_polygon pl eps k w f b o e1 e2 : polygon o e1 e2 w -> unit_plane pl -> 0 <= eps -> clip pl eps k w = (f, b) ->
  (forall v, f = Some v -> polygon o e1 e2 v) /\ (forall v, b = Some v -> polygon o e1 e2 v).
Proof.
  intros P U E0 C. apply clip_cases in C. destruct C as [(-> & -> & B & _)|[(-> & -> & F)|(-> & -> & F & B)]]; split; intros v E; inversion E; subst v; clear E; auto.
  all: destruct P as (ND & us & N3 & CV & ->); split; [exact ND|]; clear ND.
  all: apply count_pos in F; [|discriminate]; apply count_pos in B; [|discriminate].
  all: destruct F as (pf & IF & SF); destruct B as (pb & IB & SB).
  all: apply in_map_iff in IF; destruct IF as (uf & <- & IF); apply in_map_iff in IB; destruct IB as (ub & <- & IB).
  all: apply (In_nth _ _ (0, 0)) in IF; destruct IF as (i & I & EI); apply (In_nth _ _ (0, 0)) in IB; destruct IB as (j & J & EJ).
  all: assert (LI : lab o e1 e2 us pl eps i = Front) by (unfold lab, pv, uu; rewrite Nat.mod_small by exact I; etransitivity; [|exact SF]; do 2 f_equal; exact EI).
  all: assert (LJ : lab o e1 e2 us pl eps j = Back) by (unfold lab, pv, uu; rewrite Nat.mod_small by exact J; etransitivity; [|exact SB]; do 2 f_equal; exact EJ).
  all: match goal with |- exists _, _ /\ _ /\ part _ _ ?s _ = _ => exists (map (fun p => pp us (length us) (fst p) (snd p)) (ann o e1 e2 us pl eps s)) end.
  all: split; [rewrite map_length|split; [apply part_convex; auto; discriminate|apply part_ann; auto]].
  all: destruct (Nat.lt_trichotomy i j) as [LT|[->|GT]]; [|congruence|].
  all: match goal with L : (?a < ?b)%nat |- _ => apply (part_three o e1 e2 us N3 pl eps E0 _ a b); auto; try discriminate; unfold opp; auto end.
Qed.

(** ** Chains of planes *)
Lemma clip_all_keeps o e1 e2 eps pls : 0 <= eps -> (forall pl, In pl pls -> unit_plane pl) ->
  forall w x, polygon o e1 e2 w -> hull (pts w) x -> (forall pl, In pl pls -> eps < dist_to pl x) ->
  exists v, clip_all eps pls (Some w) = Some v /\ hull (pts v) x.
Proof.
  intros E0. induction pls as [|pl pls IH]; intros U w x P X F; [exists w; auto|]. cbn [clip_all]. rewrite clip_front_fst.
  destruct (clip pl eps false w) as [f b] eqn:C. cbn [fst].
  assert (U1 : unit_plane pl) by (apply U; left; reflexivity).
  destruct (clip_covers pl eps false w f b o e1 e2 P U1 E0 C x X) as [(v & -> & V)|(v & -> & V)].
  - apply (IH ltac:(intros; apply U; right; assumption) v x); [|exact V|intros; apply F; right; assumption].
    apply (proj1 (clip_polygon pl eps false w _ _ o e1 e2 P U1 E0 C)). reflexivity.
  - exfalso. destruct (clip_inside pl eps false w _ _ U1 E0 C) as [_ H]. destruct (H v eq_refl x V) as [_ D]. specialize (F pl (or_introl eq_refl)). lra.
Qed.
Lemma clip_all_inside o e1 e2 eps pls : 0 <= eps -> (forall pl, In pl pls -> unit_plane pl) ->
  forall w v, polygon o e1 e2 w -> clip_all eps pls (Some w) = Some v ->
  polygon o e1 e2 v /\ forall x, hull (pts v) x -> hull (pts w) x /\ forall pl, In pl pls -> - eps <= dist_to pl x.
Proof.
  intros E0. induction pls as [|pl pls IH]; intros U w v P H; cbn [clip_all] in H.
  - inversion H; subst v. split; [exact P|]. intros x X. split; [exact X|intros pl []].
  - rewrite clip_front_fst in H. destruct (clip pl eps false w) as [f b] eqn:C. cbn [fst] in H.
    assert (U1 : unit_plane pl) by (apply U; left; reflexivity).
    destruct f as [v1|]; [|destruct pls; discriminate H].
    pose proof (proj1 (clip_polygon pl eps false w _ _ o e1 e2 P U1 E0 C) v1 eq_refl) as P1.
    destruct (IH ltac:(intros; apply U; right; assumption) v1 v P1 H) as [PV IN]. split; [exact PV|].
    intros x X. destruct (IN x X) as [X1 D]. destruct (proj1 (clip_inside pl eps false w _ _ U1 E0 C) v1 eq_refl x X1) as [X0 D0].
    split; [exact X0|]. intros q [<-|Q]; [exact D0|apply D; exact Q].
Qed.

(** ** The winding of a plane *)
Lemma normalize_unit a : 0 < dot a a -> exists k, 0 < k /\ normalize a = scale k a /\ dot (normalize a) (normalize a) = 1.
Proof.
  intro H. unfold normalize, len. pose proof (sqrt_lt_R0 _ H) as S0. destruct (Req_EM_T (sqrt (dot a a)) 0); [lra|].
  exists (/ sqrt (dot a a)). split; [apply Rinv_0_lt_compat; exact S0|]. split; [reflexivity|].
  assert (E : dot (scale (/ sqrt (dot a a)) a) (scale (/ sqrt (dot a a)) a) = / sqrt (dot a a) * / sqrt (dot a a) * dot a a) by (unfold dot, scale; simpl; ring).
  rewrite E. pose proof (sqrt_sqrt _ (Rlt_le _ _ H)) as Q. set (r := sqrt (dot a a)) in *. rewrite <- Q. field. lra.
Qed.
Definition up_of (n : vec) : vec :=
  let e := match major n with 2%nat => mkV 1 0 0 | _ => mkV 0 0 1 end in normalize (add e (scale (- dot e n) n)).
Lemma sq_le a b : Rabs a <= Rabs b -> a * a <= b * b.
Proof. intro H. apply Rsqr_le_abs_1 in H. exact H. Qed.
Lemma up_ok n : dot n n = 1 -> dot (up_of n) (up_of n) = 1 /\ dot (up_of n) n = 0.
Proof.
  intro U. unfold up_of. set (e := match major n with 2%nat => mkV 1 0 0 | _ => mkV 0 0 1 end). cbv zeta. set (a := add e (scale (- dot e n) n)).
  assert (EE : dot e e = 1) by (unfold e; destruct (major n) as [|[|[|m]]]; unfold dot; simpl; lra).
  assert (A1 : dot a n = 0). { unfold a. replace (dot (add e (scale (- dot e n) n)) n) with (dot e n - dot e n * dot n n) by (unfold dot, add, scale; simpl; ring). rewrite U. ring. }
  assert (A2 : dot a a = 1 - dot e n * dot e n).
  { unfold a. replace (dot (add e (scale (- dot e n) n)) (add e (scale (- dot e n) n))) with (dot e e - 2 * dot e n * dot e n + dot e n * dot e n * dot n n) by (unfold dot, add, scale; simpl; ring).
    rewrite U, EE. ring. }
  assert (A3 : dot e n * dot e n < 1).
  { unfold e. destruct n as [x y z]. unfold dot in U. simpl in U. unfold major. simpl.
    destruct (Rlt_dec (Rabs x) (Rabs y)) as [H1|H1]; [destruct (Rlt_dec (Rabs y) (Rabs z)) as [H2|H2]|destruct (Rlt_dec (Rabs x) (Rabs z)) as [H2|H2]]; unfold dot; simpl.
    - assert (x * x <= z * z) by (apply sq_le; lra). nra.
    - assert (z * z <= y * y) by (apply sq_le; lra). nra.
    - assert (x * x <= z * z) by (apply sq_le; lra). nra.
    - assert (z * z <= x * x) by (apply sq_le; lra). nra. }
  destruct (normalize_unit a ltac:(lra)) as (k & K & E & UN). split; [exact UN|]. rewrite E.
  replace (dot (scale k a) n) with (k * dot a n) by (unfold dot, scale; simpl; ring). rewrite A1. ring.
Qed.
Section Frame.
Import Nsatz.
Lemma frame n u : dot n n = 1 -> dot u u = 1 -> dot u n = 0 -> forall p,
  p = add (scale (dot p n) n) (add (scale (dot p u) u) (scale (dot p (cross u n)) (cross u n))).
Proof.
  destruct n as [n0 n1 n2], u as [u0 u1 u2]. unfold dot, cross, add, scale. simpl. intros H1 H2 H3 [p0 p1 p2]. simpl.
  f_equal; nsatz.
Qed.
End Frame.
Definition corners : list (R * R) := [(1, -1); (1, 1); (-1, 1); (-1, -1)].
Lemma from_plane_shape pl E : from_plane pl E =
  map (emb (scale (p_d pl) (p_n pl)) (scale E (up_of (p_n pl))) (scale E (cross (up_of (p_n pl)) (p_n pl)))) corners.
Proof.
  unfold from_plane, up_of. cbv zeta. set (u := normalize _). set (r := cross u (p_n pl)). unfold corners, emb, add, sub, scale. simpl.
  f_equal; [|f_equal; [|f_equal; [|f_equal]]]; apply vec_eq; simpl; ring.
Qed.
Lemma from_plane_polygon pl E : unit_plane pl -> 0 < E ->
  polygon (scale (p_d pl) (p_n pl)) (scale E (up_of (p_n pl))) (scale E (cross (up_of (p_n pl)) (p_n pl))) (from_plane pl E).
Proof.
  intros U HE. destruct (up_ok _ U) as [UU UN]. split.
  - unfold len. apply sqrt_lt_R0. set (u := up_of (p_n pl)) in *. unfold unit_plane in U. set (n := p_n pl) in *. clearbody u n.
    assert (Q : dot (cross (scale E u) (scale E (cross u n))) (cross (scale E u) (scale E (cross u n))) =
      (E * E) * (E * E) * (dot u u * (dot u u * dot n n - dot u n * dot u n))).
    { destruct n, u. unfold dot, cross, scale. simpl. ring. }
    rewrite Q, UU, U, UN. assert (0 < E * E) by nra. nra.
  - exists corners. split; [simpl; lia|]. split; [|apply from_plane_shape].
    intros i j k IJ JK K. simpl in K.
    assert (C : (i = 0 /\ j = 1 /\ k = 2)%nat \/ (i = 0 /\ j = 1 /\ k = 3)%nat \/ (i = 0 /\ j = 2 /\ k = 3)%nat \/ (i = 1 /\ j = 2 /\ k = 3)%nat) by lia.
    destruct C as [(-> & -> & ->)|[(-> & -> & ->)|[(-> & -> & ->)|(-> & -> & ->)]]]; unfold corners, o2; simpl; lra.
Qed.
Lemma from_plane_on pl E x : unit_plane pl -> hull (pts (from_plane pl E)) x -> dist_to pl x = 0.
Proof.
  intros U X. destruct (up_ok _ U) as [_ UN]. rewrite from_plane_shape in X.
  assert (Z : forall p, pts (map (emb (scale (p_d pl) (p_n pl)) (scale E (up_of (p_n pl))) (scale E (cross (up_of (p_n pl)) (p_n pl)))) corners) p -> dist_to pl p = 0).
  { intros p P. unfold pts in P. apply in_map_iff in P. destruct P as ([s t] & <- & _). unfold unit_plane in U. unfold dist_to.
    set (n := p_n pl) in *. set (u := up_of n) in *. clearbody u n. 
    replace (dot (emb (scale (p_d pl) n) (scale E u) (scale E (cross u n)) (s, t)) n) with (p_d pl * dot n n + s * E * dot u n) by (destruct n, u; unfold emb, dot, cross, add, scale; simpl; ring).
    rewrite U, UN. ring. }
  apply Rle_antisym; [revert x X; apply hull_le|revert x X; apply hull_ge]; intros p P; rewrite (Z p P); lra.
Qed.
Lemma square_hull o e1 e2 s t : -1 <= s <= 1 -> -1 <= t <= 1 -> hull (pts (map (emb o e1 e2) corners)) (emb o e1 e2 (s, t)).
Proof.
  intros S T. replace (emb o e1 e2 (s, t)) with
    (mix ((1 - s) / 2) (mix ((t + 1) / 2) (emb o e1 e2 (1, -1)) (emb o e1 e2 (1, 1))) (mix ((t + 1) / 2) (emb o e1 e2 (-1, -1)) (emb o e1 e2 (-1, 1)))).
  - apply hull_mix; [lra| |]; (apply hull_mix; [lra| |]); apply hull_pt; unfold pts, corners; simpl; auto 10.
  - unfold mix, emb, add, scale, sub. simpl. f_equal; field.
Qed.
Lemma cauchy p u E : dot u u = 1 -> 0 < E -> dot p p <= E * E -> -1 <= dot p u / E <= 1.
Proof.
  intros U HE P.
  assert (C : dot p u * dot p u <= dot p p * dot u u).
  { assert (L : dot p p * dot u u - dot p u * dot p u = dot (cross p u) (cross p u)) by (destruct p, u; unfold dot, cross; simpl; ring).
    assert (0 <= dot (cross p u) (cross p u)) by (unfold dot; nra). lra. }
  rewrite U in C. set (q := dot p u) in *. assert (Q : - E <= q <= E) by (split; nra).
  split; apply (Rmult_le_reg_r E); try exact HE; unfold Rdiv; rewrite ?Rmult_assoc, ?Rinv_l by lra; lra.
Qed.
Lemma from_plane_covers pl E p : unit_plane pl -> 0 < E -> dist_to pl p = 0 -> dot p p <= E * E -> hull (pts (from_plane pl E)) p.
Proof.
  intros U HE D B. destruct (up_ok _ U) as [UU UN]. rewrite from_plane_shape. unfold unit_plane in U. unfold dist_to in D.
  set (n := p_n pl) in *. set (u := up_of n) in *. set (r := cross u n).
  assert (RR : dot r r = 1).
  { unfold r. replace (dot (cross u n) (cross u n)) with (dot u u * dot n n - dot u n * dot u n) by (destruct n, u; unfold dot, cross; simpl; ring). rewrite UU, U, UN. ring. }
  replace p with (emb (scale (p_d pl) n) (scale E u) (scale E r) (dot p u / E, dot p r / E)).
  - apply square_hull; apply cauchy; assumption.
  - pose proof (frame n u U UU UN p) as F. fold r in F. rewrite F at 3. replace (dot p n) with (p_d pl) by lra.
    unfold emb, add, scale. simpl. f_equal; field; lra.
Qed.

(** ** Windings of brush sides *)
Lemma neg_dist pl x : dist_to (neg_plane pl) x = - dist_to pl x.
Proof. unfold dist_to, neg_plane, dot, scale. simpl. ring. Qed.
Lemma neg_unit pl : unit_plane pl -> unit_plane (neg_plane pl).
Proof. unfold unit_plane, neg_plane, dot, scale. simpl. intro H. rewrite <- H. ring. Qed.
Section Side.
Context (extent eps : R) (HE : 0 < extent) (E0 : 0 <= eps) (pl : plane) (others : list plane).
Context (U : unit_plane pl) (UO : forall q, In q others -> unit_plane q).
Let UN : forall q, In q (map neg_plane others) -> unit_plane q.
Proof. intros q Q. apply in_map_iff in Q. destruct Q as (q' & <- & Q). apply neg_unit. apply UO. exact Q. Qed.
Theorem side_keeps x : dist_to pl x = 0 -> dot x x <= extent * extent -> (forall q, In q others -> dist_to q x < - eps) ->
  brush_side extent eps pl others = Undefined \/ exists v, brush_side extent eps pl others = Winding v /\ hull (pts v) x.
Proof.
  intros D B F. pose proof (from_plane_covers pl extent x U HE D B) as X.
  destruct (clip_all_keeps _ _ _ eps (map neg_plane others) E0 UN _ x (from_plane_polygon pl extent U HE) X) as (v & C & V).
  { intros q Q. apply in_map_iff in Q. destruct Q as (q' & <- & Q). rewrite neg_dist. specialize (F q' Q). lra. }
  unfold brush_side. rewrite C. destruct (existsb (too_far extent) v); [left; reflexivity|right; eauto].
Qed.
Theorem side_inside v : brush_side extent eps pl others = Winding v ->
  (exists o e1 e2, polygon o e1 e2 v) /\
  (forall x, hull (pts v) x -> dist_to pl x = 0 /\ (forall q, In q others -> dist_to q x <= eps)) /\
  (forall p, In p v -> Rabs (vx p) <= extent /\ Rabs (vy p) <= extent /\ Rabs (vz p) <= extent).
Proof.
  unfold brush_side. destruct (clip_all eps (map neg_plane others) (Some (from_plane pl extent))) as [w|] eqn:C; [|discriminate].
  destruct (existsb (too_far extent) w) eqn:T; [discriminate|]. intro H. inversion H; subst w. clear H.
  destruct (clip_all_inside _ _ _ eps (map neg_plane others) E0 UN _ v (from_plane_polygon pl extent U HE) C) as [P I].
  split; [eauto|]. split.
  - intros x X. destruct (I x X) as [X0 D]. split; [apply (from_plane_on pl extent x U X0)|].
    intros q Q. assert (N1 : In (neg_plane q) (map neg_plane others)) by (apply in_map; exact Q). apply D in N1. rewrite neg_dist in N1. lra.
  - intros p Q. assert (NT : too_far extent p = false).
    { destruct (too_far extent p) eqn:TP; [|reflexivity]. exfalso. assert (existsb (too_far extent) v = true) by (apply existsb_exists; eauto). congruence. }
    unfold too_far in NT. destruct (Rlt_dec extent (Rabs (vx p))); [discriminate|]. destruct (Rlt_dec extent (Rabs (vy p))); [discriminate|].
    destruct (Rlt_dec extent (Rabs (vz p))); [discriminate|]. lra.
Qed.
(** No side is too far out if no point of the brush is. *)
Theorem side_defined : (forall p, dist_to pl p = 0 -> (forall q, In q others -> dist_to q p <= eps) ->
    Rabs (vx p) <= extent /\ Rabs (vy p) <= extent /\ Rabs (vz p) <= extent) -> brush_side extent eps pl others <> Undefined.
Proof.
  intros NEAR. unfold brush_side. destruct (clip_all eps (map neg_plane others) (Some (from_plane pl extent))) as [w|] eqn:C; [|discriminate].
  destruct (existsb (too_far extent) w) eqn:T; [|discriminate]. exfalso. apply existsb_exists in T. destruct T as (p & P & T).
  destruct (clip_all_inside _ _ _ eps (map neg_plane others) E0 UN _ w (from_plane_polygon pl extent U HE) C) as [_ I].
  destruct (I p (hull_pt _ _ P)) as [X0 D]. destruct (NEAR p) as (A1 & A2 & A3).
  - apply (from_plane_on pl extent p U X0).
  - intros q Q. assert (N1 : In (neg_plane q) (map neg_plane others)) by (apply in_map; exact Q). apply D in N1. rewrite neg_dist in N1. lra.
  - unfold too_far in T. destruct (Rlt_dec extent (Rabs (vx p))); [lra|]. destruct (Rlt_dec extent (Rabs (vy p))); [lra|].
    destruct (Rlt_dec extent (Rabs (vz p))); [lra|]. discriminate.
Qed.
(** A side that is too far out. *)
Theorem side_far x : dist_to pl x = 0 -> hull (pts (from_plane pl extent)) x -> (forall q, In q others -> dist_to q x < - eps) ->
  (forall p, dist_to pl p = 0 -> too_far extent p = true) -> brush_side extent eps pl others = Undefined.
Proof.
  intros D X F FAR.
  destruct (clip_all_keeps _ _ _ eps (map neg_plane others) E0 UN _ x (from_plane_polygon pl extent U HE) X) as (v & C & V).
  { intros q Q. apply in_map_iff in Q. destruct Q as (q' & <- & Q). rewrite neg_dist. specialize (F q' Q). lra. }
  unfold brush_side. rewrite C.
  destruct (clip_all_inside _ _ _ eps (map neg_plane others) E0 UN _ v (from_plane_polygon pl extent U HE) C) as [(_ & us & L & _ & EV) I].
  destruct us as [|a us]; [simpl in L; lia|]. replace (existsb (too_far extent) v) with true; [reflexivity|]. symmetry. apply existsb_exists.
  rewrite EV. cbn [map]. eexists. split; [left; reflexivity|]. apply FAR. apply (from_plane_on pl extent _ U).
  apply I. apply hull_pt. unfold pts. rewrite EV. left. reflexivity.
Qed.
End Side.
