(* Proofs about merging of faces. *)
From Coq Require Import Reals List ZArith Bool Arith Lia Lra Psatz Permutation.
From Verif Require Import WindClipModel LightValProofs MergeModel.
Import ListNotations.
Open Scope R_scope.

(** * The alternating form of a normal *)
Definition br (n u v : vec) : R := dot n (cross u v).
(** Negative: x lies inside of the edge from a to b (polygons are clockwise seen from the front). *)
Definition side (n a b x : vec) : R := br n (sub b a) (sub x a).

Lemma plucker n u v w z : br n u v * br n w z + br n v w * br n u z + br n w u * br n v z = 0.
Proof. unfold br, dot, cross; cbn [vx vy vz]. ring. Qed.
Lemma br_anti n u v : br n u v = - br n v u.
Proof. unfold br, dot, cross; cbn [vx vy vz]. ring. Qed.

(** The core: a point x beyond the edge from p2 to p1 of a polygon, inside of the edges next to it, is
    inside of any other edge from a to b. *)
Lemma beyond n p1 p2 q1 a b x :
  let ds := sub p1 p2 in let d1 := sub q1 p1 in let de := sub b a in
  br n ds d1 < 0 -> 0 <= side n p2 p1 x -> side n p1 q1 x <= 0 ->
  side n p2 p1 a <= 0 -> side n p1 q1 a <= 0 -> side n p2 p1 b <= 0 -> side n p1 q1 b <= 0 ->
  (side n p2 p1 a < 0 \/ side n p2 p1 b < 0) ->
  side n a b p1 <= 0 -> br n ds de <= 0 ->
  side n a b x <= side n a b p1.
Proof.
  cbv zeta. intros T SX X1 SA A1 SB B1 ST P1 DE.
  set (y := sub x p1). set (al := sub a p1).
  assert (E1 : side n p2 p1 x = br n (sub p1 p2) y) by (unfold side, br, y, dot, cross, sub; cbn [vx vy vz]; ring).
  assert (E2 : side n p1 q1 x = br n (sub q1 p1) y) by reflexivity.
  assert (E3 : side n p2 p1 a = br n (sub p1 p2) al) by (unfold side, br, al, dot, cross, sub; cbn [vx vy vz]; ring).
  assert (E4 : side n p1 q1 a = br n (sub q1 p1) al) by reflexivity.
  assert (E5 : side n p2 p1 b = br n (sub p1 p2) al + br n (sub p1 p2) (sub b a)) by (unfold side, br, al, dot, cross, sub; cbn [vx vy vz]; ring).
  assert (E6 : side n p1 q1 b = br n (sub q1 p1) al + br n (sub q1 p1) (sub b a)) by (unfold side, br, al, dot, cross, sub; cbn [vx vy vz]; ring).
  assert (E7 : side n a b p1 = - br n (sub b a) al) by (unfold side, br, al, dot, cross, sub; cbn [vx vy vz]; ring).
  assert (E8 : side n a b x = br n (sub b a) y - br n (sub b a) al) by (unfold side, br, al, y, dot, cross, sub; cbn [vx vy vz]; ring).
  rewrite E8, E7. rewrite E1 in SX. rewrite E2 in X1. rewrite E3 in SA, ST. rewrite E4 in A1. rewrite E5 in SB, ST. rewrite E6 in B1. rewrite E7 in P1.
  pose proof (plucker n (sub p1 p2) (sub q1 p1) (sub b a) y) as PY. pose proof (plucker n (sub p1 p2) (sub q1 p1) (sub b a) al) as PA.
  rewrite (br_anti n (sub b a) (sub p1 p2)) in PY, PA.
  set (s1 := br n (sub p1 p2) (sub q1 p1)) in *. set (se := br n (sub p1 p2) (sub b a)) in *. set (oe := br n (sub q1 p1) (sub b a)) in *.
  set (ey := br n (sub b a) y) in *. set (sy := br n (sub p1 p2) y) in *. set (oy := br n (sub q1 p1) y) in *.
  set (ea := br n (sub b a) al) in *. set (sa := br n (sub p1 p2) al) in *. set (oa := br n (sub q1 p1) al) in *.
  clearbody s1 se oe ey sy oy ea sa oa. clear - T SX X1 SA A1 SB B1 ST P1 DE PY PA.
  assert (O : oe <= 0).
  { destruct (Rle_or_lt oe 0) as [|O]; [assumption|exfalso].
    assert (0 <= ea) by lra. assert (s1 * ea <= 0) by nra. assert (oe * sa <= 0) by nra. assert (0 <= - se * - oa) by nra.
    assert (- se * oa <= 0) by nra.
    assert (oe * sa = 0) by lra. assert (sa = 0) by nra. subst sa.
    assert (se < 0) by lra. assert (s1 * ea = 0) by lra. assert (- se * oa = 0) by lra. assert (oa = 0) by nra. subst oa. lra. }
  assert (s1 * ey >= 0) by nra. assert (ey <= 0) by nra. lra.
Qed.

(** The same at the other end. *)
Lemma beyond' n p1 p2 q2 a b x :
  let ds := sub p1 p2 in let d2 := sub p2 q2 in let de := sub b a in
  br n d2 ds < 0 -> 0 <= side n p2 p1 x -> side n q2 p2 x <= 0 ->
  side n p2 p1 a <= 0 -> side n q2 p2 a <= 0 -> side n p2 p1 b <= 0 -> side n q2 p2 b <= 0 ->
  (side n p2 p1 a < 0 \/ side n p2 p1 b < 0) ->
  side n a b p2 <= 0 -> 0 <= br n ds de ->
  side n a b x <= side n a b p2.
Proof.
  cbv zeta. intros T SX X1 SA A1 SB B1 ST P1 DE.
  set (y := sub x p2). set (al := sub b p2).
  assert (E1 : side n p2 p1 x = br n (sub p1 p2) y) by reflexivity.
  assert (E2 : side n q2 p2 x = br n (sub p2 q2) y) by (unfold side, br, y, dot, cross, sub; cbn [vx vy vz]; ring).
  assert (E3 : side n p2 p1 b = br n (sub p1 p2) al) by reflexivity.
  assert (E4 : side n q2 p2 b = br n (sub p2 q2) al) by (unfold side, br, al, dot, cross, sub; cbn [vx vy vz]; ring).
  assert (E5 : side n p2 p1 a = br n (sub p1 p2) al - br n (sub p1 p2) (sub b a)) by (unfold side, br, al, dot, cross, sub; cbn [vx vy vz]; ring).
  assert (E6 : side n q2 p2 a = br n (sub p2 q2) al - br n (sub p2 q2) (sub b a)) by (unfold side, br, al, dot, cross, sub; cbn [vx vy vz]; ring).
  assert (E7 : side n a b p2 = - br n (sub b a) al) by (unfold side, br, al, dot, cross, sub; cbn [vx vy vz]; ring).
  assert (E8 : side n a b x = br n (sub b a) y - br n (sub b a) al) by (unfold side, br, al, y, dot, cross, sub; cbn [vx vy vz]; ring).
  rewrite E8, E7. rewrite E1 in SX. rewrite E2 in X1. rewrite E3 in SB, ST. rewrite E4 in B1. rewrite E5 in SA, ST. rewrite E6 in A1. rewrite E7 in P1.
  pose proof (plucker n (sub p1 p2) (sub p2 q2) (sub b a) y) as PY. pose proof (plucker n (sub p1 p2) (sub p2 q2) (sub b a) al) as PA.
  rewrite (br_anti n (sub b a) (sub p1 p2)) in PY, PA. rewrite (br_anti n (sub p1 p2) (sub p2 q2)) in PY, PA.
  set (s1 := br n (sub p2 q2) (sub p1 p2)) in *. set (se := br n (sub p1 p2) (sub b a)) in *. set (oe := br n (sub p2 q2) (sub b a)) in *.
  set (ey := br n (sub b a) y) in *. set (sy := br n (sub p1 p2) y) in *. set (oy := br n (sub p2 q2) y) in *.
  set (ea := br n (sub b a) al) in *. set (sa := br n (sub p1 p2) al) in *. set (oa := br n (sub p2 q2) al) in *.
  clearbody s1 se oe ey sy oy ea sa oa. clear - T SX X1 SA A1 SB B1 ST P1 DE PY PA.
  assert (O : 0 <= oe).
  { destruct (Rle_or_lt 0 oe) as [|O]; [assumption|exfalso].
    assert (0 <= ea) by lra. assert (- s1 * ea >= 0) by nra. assert (oe * sa >= 0) by nra. assert (- se * oa >= 0) by nra.
    assert (oe * sa = 0) by lra. assert (sa = 0) by nra. subst sa.
    assert (0 < se) by lra. assert (- se * oa = 0) by lra. assert (oa = 0) by nra. subst oa. lra. }
  assert (- s1 * ey <= 0) by nra. assert (ey <= 0) by nra. lra.
Qed.

(** At a joint: x inside of the edges of one polygon at p1 is inside of the first edge of the other. *)
Lemma joint n b1 p1 p2 q1 x : side n b1 p1 p2 < 0 -> 0 < side n p1 p2 q1 -> side n b1 p1 q1 <= 0 ->
  side n b1 p1 x <= 0 -> side n p1 p2 x <= 0 -> side n p1 q1 x <= 0.
Proof.
  intros A B C D E.
  assert (E1 : side n b1 p1 p2 = br n (sub p1 b1) (sub p2 p1)) by (unfold side, br, dot, cross, sub; cbn [vx vy vz]; ring).
  assert (E2 : side n b1 p1 q1 = br n (sub p1 b1) (sub q1 p1)) by (unfold side, br, dot, cross, sub; cbn [vx vy vz]; ring).
  assert (E3 : side n b1 p1 x = br n (sub p1 b1) (sub x p1)) by (unfold side, br, dot, cross, sub; cbn [vx vy vz]; ring).
  pose proof (plucker n (sub p1 b1) (sub p2 p1) (sub q1 p1) (sub x p1)) as P. rewrite (br_anti n (sub q1 p1) (sub p1 b1)) in P.
  rewrite E1 in A. rewrite E2 in C. rewrite E3 in D. unfold side in B, E |- *.
  set (u := br n (sub p1 b1) (sub p2 p1)) in *. set (v := br n (sub p1 b1) (sub q1 p1)) in *. set (w := br n (sub p1 b1) (sub x p1)) in *.
  set (r := br n (sub p2 p1) (sub q1 p1)) in *. set (s := br n (sub p2 p1) (sub x p1)) in *. set (t := br n (sub q1 p1) (sub x p1)) in *.
  clearbody u v w r s t. assert (r * w <= 0) by nra. assert (v * s >= 0) by nra. nra.
Qed.
(** Strictly so where the joint is strict and x is not on the common edge. *)
Lemma joint_strict n b1 p1 p2 q1 x : side n b1 p1 p2 < 0 -> 0 < side n p1 p2 q1 -> side n b1 p1 q1 < 0 ->
  side n b1 p1 x <= 0 -> side n p1 p2 x < 0 -> side n p1 q1 x < 0.
Proof.
  intros A B C D E.
  assert (E1 : side n b1 p1 p2 = br n (sub p1 b1) (sub p2 p1)) by (unfold side, br, dot, cross, sub; cbn [vx vy vz]; ring).
  assert (E2 : side n b1 p1 q1 = br n (sub p1 b1) (sub q1 p1)) by (unfold side, br, dot, cross, sub; cbn [vx vy vz]; ring).
  assert (E3 : side n b1 p1 x = br n (sub p1 b1) (sub x p1)) by (unfold side, br, dot, cross, sub; cbn [vx vy vz]; ring).
  pose proof (plucker n (sub p1 b1) (sub p2 p1) (sub q1 p1) (sub x p1)) as P. rewrite (br_anti n (sub q1 p1) (sub p1 b1)) in P.
  rewrite E1 in A. rewrite E2 in C. rewrite E3 in D. unfold side in B, E |- *.
  set (u := br n (sub p1 b1) (sub p2 p1)) in *. set (v := br n (sub p1 b1) (sub q1 p1)) in *. set (w := br n (sub p1 b1) (sub x p1)) in *.
  set (r := br n (sub p2 p1) (sub q1 p1)) in *. set (s := br n (sub p2 p1) (sub x p1)) in *. set (t := br n (sub q1 p1) (sub x p1)) in *.
  clearbody u v w r s t. assert (r * w <= 0) by nra. assert (v * s > 0) by nra. nra.
Qed.

Lemma side_rot n a b c : side n a b c = side n b c a.
Proof. unfold side, br, dot, cross, sub; cbn [vx vy vz]; ring. Qed.
Lemma side_swap n a b c : side n a b c = - side n b a c.
Proof. unfold side, br, dot, cross, sub; cbn [vx vy vz]; ring. Qed.
Lemma side_same n a b : side n a b a = 0 /\ side n a b b = 0.
Proof. split; unfold side, br, dot, cross, sub; cbn [vx vy vz]; ring. Qed.

(** The joint at the other end. *)
Lemma joint' n p1 p2 r1 q2 x : side n p1 p2 r1 < 0 -> 0 < side n p1 p2 q2 -> side n q2 p2 r1 <= 0 ->
  side n p2 r1 x <= 0 -> side n p1 p2 x <= 0 -> side n q2 p2 x <= 0.
Proof.
  intros A B C D E.
  assert (E1 : side n p1 p2 r1 = br n (sub p2 p1) (sub r1 p2)) by (unfold side, br, dot, cross, sub; cbn [vx vy vz]; ring).
  assert (E2 : side n q2 p2 r1 = br n (sub p2 q2) (sub r1 p2)) by (unfold side, br, dot, cross, sub; cbn [vx vy vz]; ring).
  assert (E3 : side n p1 p2 x = br n (sub p2 p1) (sub x p2)) by (unfold side, br, dot, cross, sub; cbn [vx vy vz]; ring).
  assert (E4 : side n p1 p2 q2 = - br n (sub p2 p1) (sub p2 q2)) by (unfold side, br, dot, cross, sub; cbn [vx vy vz]; ring).
  assert (E5 : side n q2 p2 x = br n (sub p2 q2) (sub x p2)) by (unfold side, br, dot, cross, sub; cbn [vx vy vz]; ring).
  pose proof (plucker n (sub p2 p1) (sub p2 q2) (sub r1 p2) (sub x p2)) as P. rewrite (br_anti n (sub r1 p2) (sub p2 p1)) in P.
  rewrite E1 in A. rewrite E2 in C. rewrite E3 in E. rewrite E4 in B. rewrite E5. unfold side in D.
  set (u := br n (sub p2 p1) (sub r1 p2)) in *. set (v := br n (sub p2 q2) (sub r1 p2)) in *. set (w := br n (sub p2 p1) (sub x p2)) in *.
  set (r := br n (sub p2 p1) (sub p2 q2)) in *. set (s := br n (sub r1 p2) (sub x p2)) in *. set (t := br n (sub p2 q2) (sub x p2)) in *.
  clearbody u v w r s t. assert (r * s >= 0) by nra. assert (v * w >= 0) by nra. nra.
Qed.
Lemma joint'_strict n p1 p2 r1 q2 x : side n p1 p2 r1 < 0 -> 0 < side n p1 p2 q2 -> side n q2 p2 r1 < 0 ->
  side n p2 r1 x <= 0 -> side n p1 p2 x < 0 -> side n q2 p2 x < 0.
Proof.
  intros A B C D E.
  assert (E1 : side n p1 p2 r1 = br n (sub p2 p1) (sub r1 p2)) by (unfold side, br, dot, cross, sub; cbn [vx vy vz]; ring).
  assert (E2 : side n q2 p2 r1 = br n (sub p2 q2) (sub r1 p2)) by (unfold side, br, dot, cross, sub; cbn [vx vy vz]; ring).
  assert (E3 : side n p1 p2 x = br n (sub p2 p1) (sub x p2)) by (unfold side, br, dot, cross, sub; cbn [vx vy vz]; ring).
  assert (E4 : side n p1 p2 q2 = - br n (sub p2 p1) (sub p2 q2)) by (unfold side, br, dot, cross, sub; cbn [vx vy vz]; ring).
  assert (E5 : side n q2 p2 x = br n (sub p2 q2) (sub x p2)) by (unfold side, br, dot, cross, sub; cbn [vx vy vz]; ring).
  pose proof (plucker n (sub p2 p1) (sub p2 q2) (sub r1 p2) (sub x p2)) as P. rewrite (br_anti n (sub r1 p2) (sub p2 p1)) in P.
  rewrite E1 in A. rewrite E2 in C. rewrite E3 in E. rewrite E4 in B. rewrite E5. unfold side in D.
  set (u := br n (sub p2 p1) (sub r1 p2)) in *. set (v := br n (sub p2 q2) (sub r1 p2)) in *. set (w := br n (sub p2 p1) (sub x p2)) in *.
  set (r := br n (sub p2 p1) (sub p2 q2)) in *. set (s := br n (sub r1 p2) (sub x p2)) in *. set (t := br n (sub p2 q2) (sub x p2)) in *.
  clearbody u v w r s t. assert (r * s >= 0) by nra. assert (v * w > 0) by nra. nra.
Qed.

(** A straight joint. *)
Lemma straight_sum n b p q x : side n b p q = 0 -> side n b q x = side n b p x + side n p q x.
Proof. intros H. assert (side n b q x = side n b p x + side n p q x - side n b p q) by (unfold side, br, dot, cross, sub; cbn [vx vy vz]; ring). lra. Qed.
Lemma straight_both n b p q o x : side n b p q = 0 -> side n b p o < 0 -> 0 < side n p o q -> side n b q x <= 0 ->
  side n b p x <= 0 /\ side n p q x <= 0.
Proof.
  intros Z A B S. rewrite (straight_sum n b p q x Z) in S.
  assert (E1 : side n b p q = br n (sub p b) (sub q p)) by (unfold side, br, dot, cross, sub; cbn [vx vy vz]; ring).
  assert (E2 : side n b p o = br n (sub p b) (sub o p)) by (unfold side, br, dot, cross, sub; cbn [vx vy vz]; ring).
  assert (E3 : side n b p x = br n (sub p b) (sub x p)) by (unfold side, br, dot, cross, sub; cbn [vx vy vz]; ring).
  pose proof (plucker n (sub p b) (sub q p) (sub o p) (sub x p)) as P. rewrite (br_anti n (sub o p) (sub p b)) in P. rewrite (br_anti n (sub q p) (sub o p)) in P.
  rewrite E1 in Z. rewrite E2 in A. rewrite E3 in S |- *. unfold side in B, S |- *.
  set (u := br n (sub p b) (sub q p)) in *. set (v := br n (sub p b) (sub o p)) in *. set (w := br n (sub p b) (sub x p)) in *.
  set (r := br n (sub o p) (sub q p)) in *. set (s := br n (sub o p) (sub x p)) in *. set (t := br n (sub q p) (sub x p)) in *.
  clearbody u v w r s t. subst u. assert (r * w = - v * t) by lra. destruct (Rle_or_lt w 0) as [W|W].
  - split; [exact W|]. nra.
  - assert (0 < r * w) by nra. assert (0 < t) by nra. lra.
Qed.

(** * Polygons as lists *)
Fixpoint steps (l : list vec) : list (vec * vec) := match l with a :: (b :: _) as r => (a, b) :: steps r | _ => [] end.
Definition hd_ (l : list vec) : vec := hd vzero l.
Definition last_ (l : list vec) : vec := last l vzero.

Lemma steps_app l1 l2 : l1 <> [] -> l2 <> [] -> steps (l1 ++ l2) = steps l1 ++ (last_ l1, hd_ l2) :: steps l2.
Proof.
  intros N1 N2. induction l1 as [|a [|b l1] IH]; [congruence| |].
  - destruct l2 as [|c l2]; [congruence|]. reflexivity.
  - cbn [app]. change (steps (a :: b :: l1 ++ l2)) with ((a, b) :: steps (b :: l1 ++ l2)). change (b :: l1 ++ l2) with ((b :: l1) ++ l2).
    rewrite IH by discriminate. reflexivity.
Qed.
Lemma edges_steps a l : edges (a :: l) = steps (a :: l ++ [a]).
Proof.
  unfold edges. enough (forall z l, combine (a :: l) (l ++ [z]) = steps (a :: l ++ [z])) as H by apply H.
  clear l. intros z l. revert a. induction l as [|b l IH]; intros a; [reflexivity|].
  cbn [app combine]. change (steps (a :: b :: l ++ [z])) with ((a, b) :: steps (b :: l ++ [z])). f_equal. apply IH.
Qed.
Lemma edges_app l1 l2 e : l1 <> [] -> l2 <> [] ->
  In e (edges (l1 ++ l2)) <-> In e (steps l1) \/ e = (last_ l1, hd_ l2) \/ In e (steps l2) \/ e = (last_ l2, hd_ l1).
Proof.
  intros N1 N2. destruct l1 as [|a l1]; [congruence|]. change ((a :: l1) ++ l2) with (a :: l1 ++ l2). rewrite edges_steps.
  change (a :: (l1 ++ l2) ++ [a]) with (((a :: l1) ++ l2) ++ [a]). rewrite <- app_assoc.
  rewrite steps_app; [|discriminate|destruct l2; discriminate]. rewrite steps_app; [|exact N2|discriminate].
  replace (hd_ (l2 ++ [a])) with (hd_ l2) by (destruct l2; [congruence|reflexivity]).
  cbn [steps hd_ hd]. rewrite !in_app_iff. cbn [In]. rewrite in_app_iff. cbn [In]. intuition congruence.
Qed.
Lemma edges_comm l1 l2 e : In e (edges (l1 ++ l2)) <-> In e (edges (l2 ++ l1)).
Proof.
  destruct l1 as [|a l1]; [rewrite app_nil_r; reflexivity|]. destruct l2 as [|b l2]; [rewrite app_nil_r; reflexivity|].
  rewrite !edges_app by discriminate. tauto.
Qed.

Definition strict (n : vec) (w : list vec) : Prop := (3 <= length w)%nat /\ NoDup w /\
  forall a b v, In (a, b) (edges w) -> In v w -> v <> a -> v <> b -> side n a b v < 0.
Definition inside (n : vec) (w : list vec) (x : vec) : Prop := forall a b, In (a, b) (edges w) -> side n a b x <= 0.

Lemma strict_comm n l1 l2 : strict n (l1 ++ l2) -> strict n (l2 ++ l1).
Proof.
  intros (L & D & H). refine (conj _ (conj _ _)).
  - rewrite app_length in *. lia.
  - apply (Permutation_NoDup (Permutation_app_comm l1 l2) D).
  - intros a b v E I. apply edges_comm in E. apply H; [exact E|]. apply in_app_iff in I. apply in_app_iff. tauto.
Qed.
Lemma inside_comm n l1 l2 x : inside n (l1 ++ l2) x -> inside n (l2 ++ l1) x.
Proof. intros H a b E. apply H, edges_comm, E. Qed.
Lemma steps_in l a b : In (a, b) (steps l) -> In a l /\ In b l.
Proof.
  induction l as [|x [|y l] IH]; [intros []|intros []|]. cbn [steps]. intros [E|I].
  - inversion E; subst. cbn; auto.
  - destruct (IH I). split; right; assumption.
Qed.
Lemma hd_in l : l <> [] -> In (hd_ l) l. Proof. destruct l; [congruence|]. intros _. left. reflexivity. Qed.
Lemma last_in l : l <> [] -> In (last_ l) l.
Proof. intros H. unfold last_. rewrite (app_removelast_last vzero H) at 2. apply in_app_iff. right. left. reflexivity. Qed.

(** * Two polygons with a common edge *)
Record pair (n p1 p2 : vec) (A B : list vec) : Prop := mkPair {
  pr_1 : strict n (p1 :: p2 :: A); pr_2 : strict n (p2 :: p1 :: B);
  pr_j1 : side n (last_ A) p1 (hd_ B) <= 0; pr_j2 : side n (last_ B) p2 (hd_ A) <= 0 }.
Lemma pair_sym n p1 p2 A B : pair n p1 p2 A B -> pair n p2 p1 B A.
Proof. intros [S1 S2 J1 J2]. constructor; assumption. Qed.

Section Geometry.
Variables (n p1 p2 : vec) (A B : list vec).
Hypothesis P : pair n p1 p2 A B.
Lemma A_ne : A <> []. Proof. destruct (pr_1 _ _ _ _ _ P) as (L & _). cbn in L. destruct A; [cbn in L; lia|discriminate]. Qed.
Lemma e1 e : In e (edges (p1 :: p2 :: A)) <-> e = (p1, p2) \/ e = (p2, hd_ A) \/ In e (steps A) \/ e = (last_ A, p1).
Proof. change (p1 :: p2 :: A) with ([p1; p2] ++ A). rewrite edges_app; [|discriminate|apply A_ne]. cbn. intuition. Qed.
Lemma p_ne : p1 <> p2 /\ ~ In p1 A /\ ~ In p2 A.
Proof. destruct (pr_1 _ _ _ _ _ P) as (_ & D & _). inversion D as [|? ? X D']; subst. inversion D'; subst. cbn in X. intuition congruence. Qed.
Lemma a_shared v : In v A -> side n p1 p2 v < 0.
Proof.
  intros I. destruct p_ne as (_ & X & Y). destruct (pr_1 _ _ _ _ _ P) as (_ & _ & H). apply H; [apply e1; auto|right; right; exact I|congruence|congruence].
Qed.
Lemma a_last v : In v (p2 :: A) -> v <> last_ A -> side n (last_ A) p1 v < 0.
Proof.
  intros I N. destruct p_ne as (Z & X & Y). destruct (pr_1 _ _ _ _ _ P) as (_ & _ & H). apply H; [apply e1; auto|right; exact I|exact N|].
  destruct I as [<-|I]; congruence.
Qed.
Lemma a_last_p2 : side n (last_ A) p1 p2 < 0.
Proof. apply a_last; [left; reflexivity|]. intros E. destruct p_ne as (_ & _ & Y). apply Y. rewrite E. apply last_in, A_ne. Qed.
Lemma a_first v : In v (p1 :: A) -> v <> hd_ A -> side n p2 (hd_ A) v < 0.
Proof.
  intros I N. destruct p_ne as (Z & X & Y). destruct (pr_1 _ _ _ _ _ P) as (_ & _ & H). apply H; [apply e1; auto|destruct I; [left|right; right]; assumption| |exact N].
  destruct I as [<-|I]; congruence.
Qed.
Lemma a_steps a b v : In (a, b) (steps A) -> In v (p1 :: p2 :: A) -> v <> a -> v <> b -> side n a b v < 0.
Proof. intros E. destruct (pr_1 _ _ _ _ _ P) as (_ & _ & H). apply H, e1. auto. Qed.
Lemma a_steps_p a b : In (a, b) (steps A) -> side n a b p1 < 0 /\ side n a b p2 < 0.
Proof.
  intros E. destruct (steps_in _ _ _ E) as [I J]. destruct p_ne as (_ & X & Y).
  split; (apply (a_steps a b); [exact E|cbn; auto|congruence|congruence]).
Qed.
Lemma a_in v : In v A -> side n (last_ A) p1 v <= 0 /\ side n p2 (hd_ A) v <= 0.
Proof.
  intros I. split.
  - destruct (Req_EM_T (side n (last_ A) p1 v) 0) as [|N]; [lra|]. assert (v <> last_ A) as X by (intros ->; apply N, side_same).
    left. apply a_last; [right; exact I|exact X].
  - destruct (Req_EM_T (side n p2 (hd_ A) v) 0) as [|N]; [lra|]. assert (v <> hd_ A) as X by (intros ->; apply N, side_same).
    left. apply a_first; [right; exact I|exact X].
Qed.

(** A point beyond the common edge and inside of the edges next to it. *)
Lemma others x a b : 0 <= side n p1 p2 x -> side n p2 (hd_ A) x <= 0 -> side n (last_ A) p1 x <= 0 -> In (a, b) (steps A) -> side n a b x < 0.
Proof.
  intros S X1 X2 E. destruct (steps_in _ _ _ E) as [IA IB]. destruct (a_steps_p a b E) as [P1 P2].
  pose proof (a_shared a IA). pose proof (a_shared b IB). destruct (a_in a IA). destruct (a_in b IB).
  destruct (Rle_or_lt (br n (sub p2 p1) (sub b a)) 0) as [D|D].
  - assert (side n a b x <= side n a b p2); [|lra]. apply (beyond n p2 p1 (hd_ A)); try assumption; try lra.
    + pose proof (a_shared (hd_ A) (hd_in A A_ne)) as Q. assert (side n p1 p2 (hd_ A) = br n (sub p2 p1) (sub (hd_ A) p2)) by (unfold side, br, dot, cross, sub; cbn [vx vy vz]; ring). lra.
  - assert (side n a b x <= side n a b p1); [|lra]. apply (beyond' n p2 p1 (last_ A)); try assumption; try lra.
    + pose proof a_last_p2 as Q. assert (side n (last_ A) p1 p2 = br n (sub p1 (last_ A)) (sub p2 p1)) by (unfold side, br, dot, cross, sub; cbn [vx vy vz]; ring). lra.
Qed.
End Geometry.

Section Both.
Variables (n p1 p2 : vec) (A B : list vec).
Hypothesis P : pair n p1 p2 A B.
Let P' : pair n p2 p1 B A := pair_sym _ _ _ _ _ P.
Lemma b_beyond : 0 < side n p1 p2 (hd_ B) /\ 0 < side n p1 p2 (last_ B).
Proof.
  pose proof (a_shared _ _ _ _ _ P' (hd_ B) (hd_in _ (A_ne _ _ _ _ _ P'))). pose proof (a_shared _ _ _ _ _ P' (last_ B) (last_in _ (A_ne _ _ _ _ _ P'))).
  rewrite (side_swap n p1 p2 (hd_ B)), (side_swap n p1 p2 (last_ B)). lra.
Qed.
Lemma weak x : side n (last_ A) p1 x <= 0 -> side n p2 (hd_ A) x <= 0 -> side n p1 p2 x <= 0 ->
  side n p1 (hd_ B) x <= 0 /\ side n (last_ B) p2 x <= 0 /\ forall a b, In (a, b) (steps B) -> side n a b x < 0.
Proof.
  intros X1 X2 X3. destruct b_beyond as [Q1 Q2].
  assert (Y1 : side n p1 (hd_ B) x <= 0) by (apply (joint n (last_ A) p1 p2); [apply (a_last_p2 _ _ _ _ _ P)|exact Q1|apply (pr_j1 _ _ _ _ _ P)|exact X1|exact X3]).
  assert (Y2 : side n (last_ B) p2 x <= 0) by (apply (joint' n p1 p2 (hd_ A)); [apply (a_shared _ _ _ _ _ P), hd_in, (A_ne _ _ _ _ _ P)|exact Q2|apply (pr_j2 _ _ _ _ _ P)|exact X2|exact X3]).
  refine (conj Y1 (conj Y2 _)). intros a b E. apply (others _ _ _ _ _ P'); [rewrite side_swap; lra|exact Y1|exact Y2|exact E].
Qed.
Lemma strong x : side n (last_ A) p1 x <= 0 -> side n p2 (hd_ A) x <= 0 -> side n p1 p2 x < 0 ->
  (side n (last_ A) p1 (hd_ B) < 0 -> side n p1 (hd_ B) x < 0) /\ (side n (last_ B) p2 (hd_ A) < 0 -> side n (last_ B) p2 x < 0).
Proof.
  intros X1 X2 X3. destruct b_beyond as [Q1 Q2]. split; intros J.
  - apply (joint_strict n (last_ A) p1 p2); [apply (a_last_p2 _ _ _ _ _ P)|exact Q1|exact J|exact X1|exact X3].
  - apply (joint'_strict n p1 p2 (hd_ A)); [apply (a_shared _ _ _ _ _ P), hd_in, (A_ne _ _ _ _ _ P)|exact Q2|exact J|exact X2|exact X3].
Qed.
Lemma disjoint v : In v A -> In v B -> False.
Proof. intros I J. pose proof (a_shared _ _ _ _ _ P v I). pose proof (a_shared _ _ _ _ _ P' v J). rewrite side_swap in H. lra. Qed.
End Both.

Definition merged (k1 k2 : bool) (p1 p2 : vec) (A B : list vec) : list vec :=
  ((if k2 then [p2] else []) ++ A) ++ ((if k1 then [p1] else []) ++ B).
Definition joints (n : vec) (k1 k2 : bool) (p1 p2 : vec) (A B : list vec) : Prop :=
  (if k1 then side n (last_ A) p1 (hd_ B) < 0 else side n (last_ A) p1 (hd_ B) = 0) /\
  (if k2 then side n (last_ B) p2 (hd_ A) < 0 else side n (last_ B) p2 (hd_ A) = 0).

Lemma merged_edges k1 k2 p1 p2 A B e : A <> [] -> B <> [] -> In e (edges (merged k1 k2 p1 p2 A B)) <->
  In e (steps A) \/ In e (steps B) \/ (if k1 then e = (last_ A, p1) \/ e = (p1, hd_ B) else e = (last_ A, hd_ B)) \/
  (if k2 then e = (last_ B, p2) \/ e = (p2, hd_ A) else e = (last_ B, hd_ A)).
Proof.
  intros NA NB. unfold merged. rewrite edges_app; [|destruct k2; [discriminate|exact NA]|destruct k1; [discriminate|exact NB]].
  assert (L : forall p l, l <> [] -> last_ (p :: l) = last_ l) by (intros p [|x l] N0; [congruence|reflexivity]).
  assert (S0 : forall p l, l <> [] -> steps (p :: l) = (p, hd_ l) :: steps l) by (intros p [|x l] N0; [congruence|reflexivity]).
  destruct k1, k2; cbn [app]; rewrite ?L, ?S0 by assumption; cbn [hd_ hd In]; unfold hd_; intuition congruence.
Qed.

Lemma NoDup_app_intro (l1 l2 : list vec) : NoDup l1 -> NoDup l2 -> (forall v, In v l1 -> In v l2 -> False) -> NoDup (l1 ++ l2).
Proof.
  intros D1 D2 X. induction D1 as [|a l1 N1 D1 IH]; [exact D2|]. cbn [app]. constructor.
  - rewrite in_app_iff. intros [I|I]; [contradiction|]. apply (X a); [left; reflexivity|exact I].
  - apply IH. intros v I J. apply (X v); [right; exact I|exact J].
Qed.

Theorem merged_strict n k1 k2 p1 p2 A B : strict n (p1 :: p2 :: A) -> strict n (p2 :: p1 :: B) -> joints n k1 k2 p1 p2 A B ->
  strict n (merged k1 k2 p1 p2 A B).
Proof.
  intros S1 S2 [J1 J2].
  assert (P : pair n p1 p2 A B) by (constructor; [exact S1|exact S2|destruct k1; lra|destruct k2; lra]).
  pose proof (pair_sym _ _ _ _ _ P) as P'. pose proof (A_ne _ _ _ _ _ P) as NA. pose proof (A_ne _ _ _ _ _ P') as NB.
  destruct (p_ne _ _ _ _ _ P) as (E12 & X1 & X2). destruct (p_ne _ _ _ _ _ P') as (_ & Y2 & Y1).
  assert (DA : NoDup A) by (destruct S1 as (_ & D & _); inversion D as [|? ? _ D']; inversion D'; assumption).
  assert (DB : NoDup B) by (destruct S2 as (_ & D & _); inversion D as [|? ? _ D']; inversion D'; assumption).
  refine (conj _ (conj _ _)).
  - unfold merged. rewrite !app_length. destruct A as [|a A]; [congruence|]. destruct B as [|b B]; [congruence|]. destruct k1, k2; cbn [length]; try lia.
    destruct A as [|a' A]; cbn [length]; [|lia]. destruct B as [|b' B]; cbn [length]; [|lia]. exfalso.
    cbn in J1, J2. pose proof (a_shared _ _ _ _ _ P a ltac:(left; reflexivity)). pose proof (a_shared _ _ _ _ _ P' b ltac:(left; reflexivity)).
    assert (side n p1 p2 b = side n p1 p2 a - side n b p2 a - side n a p1 b) by (unfold side, br, dot, cross, sub; cbn [vx vy vz]; ring).
    rewrite (side_swap n p2 p1 b) in *. lra.
  - unfold merged. apply NoDup_app_intro.
    + destruct k2; [constructor; assumption|exact DA].
    + destruct k1; [constructor; assumption|exact DB].
    + intros v I J. destruct k1, k2; cbn [app In] in I, J; repeat match goal with H : _ \/ _ |- _ => destruct H as [H|H] end; subst; try contradiction; try (exact (disjoint _ _ _ _ _ P v I J)); congruence.
  - intros a b v E I NVA NVB. apply merged_edges in E; [|exact NA|exact NB].
    (* where v is *)
    assert (V : In v A \/ In v B \/ v = p1 \/ v = p2).
    { unfold merged in I. rewrite !in_app_iff in I. destruct k1, k2; cbn in I; intuition. }
    assert (VA : In v A -> side n p1 p2 v < 0 /\ side n (last_ A) p1 v <= 0 /\ side n p2 (hd_ A) v <= 0).
    { intros IA. split; [apply (a_shared _ _ _ _ _ P v IA)|apply (a_in _ _ _ _ _ P v IA)]. }
    assert (VB : In v B -> side n p2 p1 v < 0 /\ side n (last_ B) p2 v <= 0 /\ side n p1 (hd_ B) v <= 0).
    { intros IB. split; [apply (a_shared _ _ _ _ _ P' v IB)|apply (a_in _ _ _ _ _ P' v IB)]. }
    destruct E as [E|[E|[E|E]]].
    + destruct V as [V|[V|[V|V]]].
      * apply (a_steps _ _ _ _ _ P); [exact E|right; right; exact V|exact NVA|exact NVB].
      * destruct (VB V) as (Q1 & Q2 & Q3). apply (weak _ _ _ _ _ P' v); [exact Q2|exact Q3|lra|exact E].
      * subst. apply (a_steps_p _ _ _ _ _ P _ _ E).
      * subst. apply (a_steps_p _ _ _ _ _ P _ _ E).
    + destruct V as [V|[V|[V|V]]].
      * destruct (VA V) as (Q1 & Q2 & Q3). apply (weak _ _ _ _ _ P v); [exact Q2|exact Q3|lra|exact E].
      * apply (a_steps _ _ _ _ _ P'); [exact E|right; right; exact V|exact NVA|exact NVB].
      * subst. apply (a_steps_p _ _ _ _ _ P' _ _ E).
      * subst. apply (a_steps_p _ _ _ _ _ P' _ _ E).
    + destruct k1.
      * destruct E as [E|E]; injection E as -> ->.
        -- destruct V as [V|[V|[V|V]]].
           ++ apply (a_last _ _ _ _ _ P); [right; exact V|exact NVA].
           ++ destruct (VB V) as (Q1 & Q2 & Q3). apply (strong _ _ _ _ _ P' v); [exact Q2|exact Q3|exact Q1|exact J1].
           ++ congruence.
           ++ subst. apply (a_last_p2 _ _ _ _ _ P).
        -- destruct V as [V|[V|[V|V]]].
           ++ destruct (VA V) as (Q1 & Q2 & Q3). apply (strong _ _ _ _ _ P v); [exact Q2|exact Q3|exact Q1|exact J1].
           ++ apply (a_first _ _ _ _ _ P'); [right; exact V|exact NVB].
           ++ congruence.
           ++ subst. apply (a_first _ _ _ _ _ P'); [left; reflexivity|exact NVB].
      * injection E as -> ->. rewrite (straight_sum n (last_ A) p1 (hd_ B) v J1). destruct V as [V|[V|[V|V]]].
        -- destruct (VA V) as (Q1 & Q2 & Q3). pose proof (a_last _ _ _ _ _ P v ltac:(right; exact V) NVA). destruct (weak _ _ _ _ _ P v Q2 Q3 ltac:(lra)) as (W1 & _). lra.
        -- destruct (VB V) as (Q1 & Q2 & Q3). pose proof (a_first _ _ _ _ _ P' v ltac:(right; exact V) NVB). destruct (weak _ _ _ _ _ P' v Q2 Q3 ltac:(lra)) as (_ & W1 & _). lra.
        -- exfalso. subst v. unfold merged in I. rewrite !in_app_iff in I. destruct k2; cbn in I; intuition congruence.
        -- subst v. pose proof (a_last_p2 _ _ _ _ _ P). pose proof (a_first _ _ _ _ _ P' p2 ltac:(left; reflexivity) NVB). lra.
    + destruct k2.
      * destruct E as [E|E]; injection E as -> ->.
        -- destruct V as [V|[V|[V|V]]].
           ++ destruct (VA V) as (Q1 & Q2 & Q3). apply (strong _ _ _ _ _ P v); [exact Q2|exact Q3|exact Q1|exact J2].
           ++ apply (a_last _ _ _ _ _ P'); [right; exact V|exact NVA].
           ++ subst. apply (a_last_p2 _ _ _ _ _ P').
           ++ congruence.
        -- destruct V as [V|[V|[V|V]]].
           ++ apply (a_first _ _ _ _ _ P); [right; exact V|exact NVB].
           ++ destruct (VB V) as (Q1 & Q2 & Q3). apply (strong _ _ _ _ _ P' v); [exact Q2|exact Q3|exact Q1|exact J2].
           ++ subst. apply (a_first _ _ _ _ _ P); [left; reflexivity|exact NVB].
           ++ congruence.
      * injection E as -> ->. rewrite (straight_sum n (last_ B) p2 (hd_ A) v J2). destruct V as [V|[V|[V|V]]].
        -- destruct (VA V) as (Q1 & Q2 & Q3). pose proof (a_first _ _ _ _ _ P v ltac:(right; exact V) NVB). destruct (weak _ _ _ _ _ P v Q2 Q3 ltac:(lra)) as (_ & W1 & _). lra.
        -- destruct (VB V) as (Q1 & Q2 & Q3). pose proof (a_last _ _ _ _ _ P' v ltac:(right; exact V) NVA). destruct (weak _ _ _ _ _ P' v Q2 Q3 ltac:(lra)) as (W1 & _). lra.
        -- subst v. pose proof (a_last_p2 _ _ _ _ _ P'). pose proof (a_first _ _ _ _ _ P p1 ltac:(left; reflexivity) NVB). lra.
        -- exfalso. subst v. unfold merged in I. rewrite !in_app_iff in I. destruct k1; cbn in I; intuition congruence.
Qed.

Theorem merged_region n k1 k2 p1 p2 A B x : strict n (p1 :: p2 :: A) -> strict n (p2 :: p1 :: B) -> joints n k1 k2 p1 p2 A B ->
  (inside n (merged k1 k2 p1 p2 A B) x <-> inside n (p1 :: p2 :: A) x \/ inside n (p2 :: p1 :: B) x).
Proof.
  intros S1 S2 [J1 J2].
  assert (P : pair n p1 p2 A B) by (constructor; [exact S1|exact S2|destruct k1; lra|destruct k2; lra]).
  pose proof (pair_sym _ _ _ _ _ P) as P'. pose proof (A_ne _ _ _ _ _ P) as NA. pose proof (A_ne _ _ _ _ _ P') as NB.
  destruct (b_beyond _ _ _ _ _ P) as [Q1 Q2]. destruct (b_beyond _ _ _ _ _ P') as [R1 R2].
  (* the edges that a point of either polygon satisfies *)
  assert (ALL : side n (last_ A) p1 x <= 0 -> side n p2 (hd_ A) x <= 0 -> side n p1 (hd_ B) x <= 0 -> side n (last_ B) p2 x <= 0 ->
    (forall a b, In (a, b) (steps A) -> side n a b x <= 0) -> (forall a b, In (a, b) (steps B) -> side n a b x <= 0) -> inside n (merged k1 k2 p1 p2 A B) x).
  { intros X1 X2 X3 X4 XA XB a b E. apply merged_edges in E; [|exact NA|exact NB]. destruct E as [E|[E|[E|E]]]; [auto|auto| |].
    - destruct k1; [destruct E as [E|E]; injection E as -> ->; assumption|]. injection E as -> ->. rewrite (straight_sum n _ p1 _ x J1). lra.
    - destruct k2; [destruct E as [E|E]; injection E as -> ->; assumption|]. injection E as -> ->. rewrite (straight_sum n _ p2 _ x J2). lra. }
  split.
  - intros H.
    assert (XA : forall a b, In (a, b) (steps A) -> side n a b x <= 0) by (intros a b E; apply H, merged_edges; auto).
    assert (XB : forall a b, In (a, b) (steps B) -> side n a b x <= 0) by (intros a b E; apply H, merged_edges; auto).
    assert (X1 : side n (last_ A) p1 x <= 0 /\ side n p1 (hd_ B) x <= 0).
    { destruct k1.
      - split; apply H, merged_edges; auto.
      - apply (straight_both n (last_ A) p1 (hd_ B) p2); [exact J1|apply (a_last_p2 _ _ _ _ _ P)|exact Q1|]. apply H, merged_edges; auto. }
    assert (X2 : side n (last_ B) p2 x <= 0 /\ side n p2 (hd_ A) x <= 0).
    { destruct k2.
      - split; apply H, merged_edges; auto 6.
      - apply (straight_both n (last_ B) p2 (hd_ A) p1); [exact J2|apply (a_last_p2 _ _ _ _ _ P')|exact R1|]. apply H, merged_edges; auto. }
    destruct (Rle_or_lt (side n p1 p2 x) 0) as [D|D].
    + left. intros a b E. apply (e1 _ _ _ _ _ P) in E. destruct E as [E|[E|[E|E]]]; [injection E as -> ->; exact D|injection E as -> ->; tauto|auto|injection E as -> ->; tauto].
    + right. intros a b E. apply (e1 _ _ _ _ _ P') in E. destruct E as [E|[E|[E|E]]]; [injection E as -> ->; rewrite side_swap; lra|injection E as -> ->; tauto|auto|injection E as -> ->; tauto].
  - intros [H|H].
    + assert (X1 : side n (last_ A) p1 x <= 0) by (apply H, (e1 _ _ _ _ _ P); auto). assert (X2 : side n p2 (hd_ A) x <= 0) by (apply H, (e1 _ _ _ _ _ P); auto).
      assert (X3 : side n p1 p2 x <= 0) by (apply H, (e1 _ _ _ _ _ P); auto).
      destruct (weak _ _ _ _ _ P x X1 X2 X3) as (W1 & W2 & W3). apply ALL; auto.
      * intros a b E. apply H, (e1 _ _ _ _ _ P); auto.
      * intros a b E. left. auto.
    + assert (X1 : side n (last_ B) p2 x <= 0) by (apply H, (e1 _ _ _ _ _ P'); auto). assert (X2 : side n p1 (hd_ B) x <= 0) by (apply H, (e1 _ _ _ _ _ P'); auto).
      assert (X3 : side n p2 p1 x <= 0) by (apply H, (e1 _ _ _ _ _ P'); auto).
      destruct (weak _ _ _ _ _ P' x X1 X2 X3) as (W1 & W2 & W3). apply ALL; auto.
      * intros a b E. left. auto.
      * intros a b E. apply H, (e1 _ _ _ _ _ P'); auto.
Qed.

(** * Walks around a winding *)
Definition rot (i : nat) (w : list vec) : list vec := skipn i w ++ firstn i w.
Lemma rot_length i w : length (rot i w) = length w.
Proof. unfold rot. rewrite app_length, Nat.add_comm, <- app_length, firstn_skipn. reflexivity. Qed.
Lemma nth_skipn_ (w : list vec) i k : nth k (skipn i w) vzero = nth (i + k) w vzero.
Proof. revert w; induction i as [|i IH]; intros [|a w]; cbn; [destruct k; reflexivity|reflexivity|destruct k; reflexivity|]. apply IH. Qed.
Lemma nth_firstn_ (w : list vec) i k : (k < i)%nat -> nth k (firstn i w) vzero = nth k w vzero.
Proof. revert w k; induction i as [|i IH]; intros [|a w] k L; [lia|lia|destruct k; reflexivity|]. destruct k as [|k]; [reflexivity|]. cbn. apply IH. lia. Qed.
Lemma rot_nth i w k : (i < length w)%nat -> (k < length w)%nat -> nth k (rot i w) vzero = nth ((i + k) mod length w) w vzero.
Proof.
  intros I K. unfold rot. destruct (Nat.lt_ge_cases (i + k) (length w)) as [L|L].
  - rewrite app_nth1 by (rewrite skipn_length; lia). rewrite nth_skipn_, Nat.mod_small by exact L. reflexivity.
  - rewrite app_nth2 by (rewrite skipn_length; lia). rewrite skipn_length, nth_firstn_ by lia.
    replace ((i + k) mod length w)%nat with (i + k - length w)%nat.
    + f_equal. lia.
    + apply Nat.mod_unique with 1%nat; lia.
Qed.
Lemma skipn_nth (l : list vec) m : (m < length l)%nat -> skipn m l = nth m l vzero :: skipn (S m) l.
Proof. revert m; induction l as [|a l IH]; intros [|m] L; cbn in L; try lia; [reflexivity|]. cbn [skipn nth]. rewrite IH by lia. destruct l; reflexivity. Qed.
Lemma walk_rot w i : (i < length w)%nat -> forall fuel m, (1 <= m <= length w)%nat -> (length w - m <= fuel)%nat ->
  walk fuel w ((i + m) mod length w) i = skipn m (rot i w).
Proof.
  intros I. induction fuel as [|fuel IH]; intros m M F.
  - assert (m = length w) by lia. subst m. rewrite skipn_all2 by (rewrite rot_length; lia). reflexivity.
  - cbn [walk]. destruct (Nat.eq_dec m (length w)) as [E|NE].
    + subst m. rewrite skipn_all2 by (rewrite rot_length; lia).
      replace ((i + length w) mod length w)%nat with i; [rewrite Nat.eqb_refl; reflexivity|]. apply Nat.mod_unique with 1%nat; lia.
    + assert (X : ((i + m) mod length w <> i)%nat).
      { destruct (Nat.lt_ge_cases (i + m) (length w)) as [L|L]; [rewrite Nat.mod_small by exact L; lia|].
        rewrite <- (Nat.mod_unique (i + m) (length w) 1 (i + m - length w)) by lia. lia. }
      apply Nat.eqb_neq in X. rewrite X. rewrite skipn_nth by (rewrite rot_length; lia). rewrite rot_nth by lia. f_equal.
      rewrite Nat.add_mod_idemp_l by lia. replace (i + m + 1)%nat with (i + S m)%nat by lia. apply IH; lia.
Qed.
Lemma walk_rot' w i m : (i < length w)%nat -> (m = 1 \/ m = 2)%nat -> walk (length w) w ((i + m) mod length w) i = skipn m (rot i w).
Proof.
  intros I M. destruct (Nat.le_gt_cases m (length w)) as [L|L]; [apply walk_rot; [exact I|lia|lia]|].
  assert (length w = 1)%nat by lia. assert (m = 2)%nat by lia. subst m. destruct w as [|a [|b w]]; cbn in *; [lia| |lia]. assert (i = 0)%nat by lia. subst i. reflexivity.
Qed.

(** * The common edge *)
Lemma first_some {A} (f : nat -> option A) l x : first f l = Some x -> exists l1 i l2, l = l1 ++ i :: l2 /\ f i = Some x /\ forall k, In k l1 -> f k = None.
Proof.
  induction l as [|i l IH]; cbn [first]; [discriminate|]. destruct (f i) eqn:E.
  - intros H. injection H as <-. exists [], i, l. split; [reflexivity|]. split; [exact E|intros ? []].
  - intros H. destruct (IH H) as (l1 & k & l2 & -> & F & G). exists (i :: l1), k, l2. split; [reflexivity|]. split; [exact F|].
    intros j [->|J]; auto.
Qed.
Lemma first_none {A} (f : nat -> option A) l : first f l = None <-> forall i, In i l -> f i = None.
Proof.
  induction l as [|i l IH]; cbn [first]; [split; [intros _ ? []|reflexivity]|]. destruct (f i) eqn:E.
  - split; [discriminate|]. intros H. rewrite (H i) in E by (left; reflexivity). discriminate.
  - rewrite IH. split; intros H j; [intros [<-|J]; auto|intros J; apply H; right; exact J].
Qed.
Lemma seq_split_lt n l1 i l2 : seq 0 n = l1 ++ i :: l2 -> (i < n)%nat /\ forall k, In k l1 <-> (k < i)%nat.
Proof.
  intros H. assert (L : length l1 = i).
  { assert (E : nth (length l1) (seq 0 n) 0%nat = i) by (rewrite H, app_nth2, Nat.sub_diag by lia; reflexivity).
    assert (length l1 < n)%nat by (rewrite <- (seq_length n 0), H, app_length; cbn; lia). rewrite seq_nth in E by lia. lia. }
  assert (F : l1 = seq 0 i).
  { assert (i < n)%nat by (rewrite <- (seq_length n 0), H, app_length; cbn; lia).
    replace n with (i + (n - i))%nat in H by lia. rewrite seq_app in H.
    assert (E : firstn i (seq 0 i ++ seq (0 + i) (n - i)) = firstn i (l1 ++ i :: l2)) by (rewrite H; reflexivity).
    rewrite !firstn_app in E. rewrite seq_length, L, Nat.sub_diag in E. cbn [firstn] in E. rewrite !app_nil_r in E.
    rewrite !firstn_all2 in E by (rewrite ?seq_length; lia). congruence. }
  assert (I : In i (seq 0 n)) by (rewrite H; apply in_app_iff; right; left; reflexivity). apply in_seq in I.
  split; [lia|]. intros k. rewrite F, in_seq. lia.
Qed.
Lemma common_edge_some w1 w2 i j : common_edge w1 w2 = Some (i, j) ->
  (i < length w1)%nat /\ (j < length w2)%nat /\ match_at w1 w2 i j = true /\
  forall i' j', (j' < length w2)%nat -> (i' < i \/ (i' = i /\ j' < j))%nat -> match_at w1 w2 i' j' = false.
Proof.
  intros H. unfold common_edge in H. apply first_some in H. destruct H as (l1 & i0 & l2 & E & F & G). apply seq_split_lt in E. destruct E as [Li K].
  apply first_some in F. destruct F as (m1 & j0 & m2 & E' & F & G'). apply seq_split_lt in E'. destruct E' as [Lj K'].
  destruct (match_at w1 w2 i0 j0) eqn:M; [|discriminate]. injection F as <- <-.
  refine (conj Li (conj Lj (conj M _))). intros i' j' J' [D|[-> D]].
  - specialize (G i' (proj2 (K i') D)). rewrite first_none in G. specialize (G j' (proj2 (in_seq (length w2) 0 j') ltac:(lia))). cbn in G. destruct (match_at w1 w2 i' j'); [discriminate|reflexivity].
  - specialize (G' j' (proj2 (K' j') D)). cbn in G'. destruct (match_at w1 w2 i0 j'); [discriminate|reflexivity].
Qed.
Lemma common_edge_none w1 w2 : common_edge w1 w2 = None <-> forall i j, (i < length w1)%nat -> (j < length w2)%nat -> match_at w1 w2 i j = false.
Proof.
  unfold common_edge. rewrite first_none. split.
  - intros H i j I J. specialize (H i (proj2 (in_seq (length w1) 0 i) ltac:(lia))). rewrite first_none in H. specialize (H j (proj2 (in_seq (length w2) 0 j) ltac:(lia))). cbn in H.
    destruct (match_at w1 w2 i j); [discriminate|reflexivity].
  - intros H i I. apply first_none. intros j J. apply in_seq in I, J. rewrite H by lia. reflexivity.
Qed.

Lemma rot_decomp i w : (i < length w)%nat -> (3 <= length w)%nat ->
  exists A, rot i w = at_ w i :: at_ w (i + 1) :: A /\ A <> [] /\ hd_ A = at_ w (i + 2) /\ last_ A = at_ w (i + length w - 1).
Proof.
  intros I L. pose proof (rot_length i w) as RL. pose proof (rot_nth i w 0 I ltac:(lia)) as R0. pose proof (rot_nth i w 1 I ltac:(lia)) as R1.
  pose proof (rot_nth i w 2 I ltac:(lia)) as R2. pose proof (rot_nth i w (length w - 1) I ltac:(lia)) as R3.
  destruct (rot i w) as [|a [|b A]] eqn:E; cbn in RL; [lia|lia|]. destruct A as [|c A]; cbn in RL; [lia|].
  exists (c :: A). unfold at_. cbn [nth] in R0, R1, R2. rewrite Nat.add_0_r in R0. rewrite <- R0, <- R1, <- R2.
  refine (conj eq_refl (conj _ (conj eq_refl _))); [discriminate|]. replace (i + length w - 1)%nat with (i + (length w - 1))%nat by lia. rewrite <- R3.
  rewrite <- RL. replace (S (S (S (length A))) - 1)%nat with (S (S (length A))) by lia.
  unfold last_. clear. revert c. induction A as [|d A IH]; intros c; [reflexivity|]. cbn [length nth]. change (last (c :: d :: A) vzero) with (last (d :: A) vzero). rewrite IH. reflexivity.
Qed.

(** * Distances from the line through an edge *)
Definition off (n a b x : vec) : R := dot (sub x a) (normalize (cross n (sub b a))).
Lemma off_side n a b : exists k, 0 < k /\ forall x, off n a b x = k * side n a b x.
Proof.
  unfold off, normalize. destruct (Req_EM_T (len (cross n (sub b a))) 0) as [E|E].
  - exists 1. split; [lra|]. intros x. unfold side, br, dot, cross, sub; cbn [vx vy vz]; ring.
  - exists (/ len (cross n (sub b a))). split; [apply Rinv_0_lt_compat; pose proof (sqrt_pos (dot (cross n (sub b a)) (cross n (sub b a)))); unfold len in *; lra|].
    intros x. set (k := / len _). unfold side, br, dot, cross, sub, scale; cbn [vx vy vz]; ring.
Qed.
Lemma off_len n a b x : Rabs (side n a b x) = Rabs (off n a b x) * len (cross n (sub b a)).
Proof.
  unfold off, normalize. destruct (Req_EM_T (len (cross n (sub b a))) 0) as [E|E].
  - rewrite E, Rmult_0_r. assert (Z : side n a b x = 0).
    { unfold len in E. apply sqrt_eq_0 in E; [|apply dot_self_nonneg]. set (c := cross n (sub b a)) in *.
      assert (vx c = 0 /\ vy c = 0 /\ vz c = 0) as (c1 & c2 & c3) by (unfold dot in E; repeat split; nra).
      replace (side n a b x) with (dot (sub x a) c) by (subst c; unfold side, br, dot, cross, sub; cbn [vx vy vz]; ring).
      unfold dot. rewrite c1, c2, c3. ring. }
    rewrite Z. apply Rabs_R0.
  - assert (P : 0 < len (cross n (sub b a))) by (pose proof (len_nonneg (cross n (sub b a))); lra).
    rewrite <- (Rabs_right (len (cross n (sub b a)))) at 2 by lra. rewrite <- Rabs_mult. f_equal. set (k := len (cross n (sub b a))) in *.
    replace (side n a b x) with (dot (sub x a) (cross n (sub b a))) by (unfold side, br, dot, cross, sub; cbn [vx vy vz]; ring).
    replace (dot (sub x a) (scale (/ k) (cross n (sub b a)))) with (/ k * dot (sub x a) (cross n (sub b a))) by (unfold dot, scale; cbn [vx vy vz]; ring).
    field. exact E.
Qed.
Lemma bend_off1 n a b c : bend n (sub b a) (sub c b) = off n a b c.
Proof.
  unfold bend, off, normalize. destruct (Req_EM_T _ 0) as [E|E]; [|set (k := / len _)]; unfold dot, cross, sub, scale; cbn [vx vy vz]; ring.
Qed.
Lemma bend_off2 n a b c : bend n (sub b a) (sub c a) = off n a b c. Proof. reflexivity. Qed.

(** * TryMerge *)
Definition prev (w : list vec) i := at_ w (i + length w - 1).
Lemma try_merge_spec nm ns f1 f2 g : try_merge nm ns f1 f2 = Some g ->
  exists i j (k1 k2 : bool), let w1 := f_w f1 in let w2 := f_w f2 in let n := ns (f_plane f1) in
  compatible nm f1 f2 = true /\ common_edge w1 w2 = Some (i, j) /\
  (let d1 := off n (prev w1 i) (at_ w1 i) (at_ w2 (j + 2)) in d1 <= cont_eps /\ (k1 = true <-> d1 < - cont_eps)) /\
  (let d2 := off n (at_ w1 (i + 1)) (at_ w1 (i + 2)) (prev w2 j) in d2 <= cont_eps /\ (k2 = true <-> d2 < - cont_eps)) /\
  g = mkFace (f_plane f1) (f_tex f1) (f_shift f1) (f_liquid f1) (f_sky f1) (f_rest f1)
        (skipn (if k2 then 1 else 2) (rot i w1) ++ skipn (if k1 then 1 else 2) (rot j w2)).
Proof.
  unfold try_merge. destruct (compatible nm f1 f2) eqn:C; cbn [negb]; [|discriminate].
  destruct (common_edge (f_w f1) (f_w f2)) as [[i j]|] eqn:E; [|discriminate]. destruct (common_edge_some _ _ _ _ E) as (I & J & _).
  rewrite bend_off1, bend_off2. fold (prev (f_w f1) i). fold (prev (f_w f2) j).
  set (d1 := off _ (prev (f_w f1) i) _ _). set (d2 := off _ _ _ (prev (f_w f2) j)).
  destruct (Rlt_dec cont_eps d1) as [|D1]; [discriminate|]. destruct (Rlt_dec cont_eps d2) as [|D2]; [discriminate|].
  intros H. injection H as <-. exists i, j, (if Rlt_dec d1 (- cont_eps) then true else false), (if Rlt_dec d2 (- cont_eps) then true else false).
  cbv zeta. refine (conj eq_refl (conj eq_refl (conj _ (conj _ _)))).
  - fold d1. split; [apply Rnot_lt_le, D1|]. destruct (Rlt_dec d1 (- cont_eps)); split; intros; [assumption|reflexivity|discriminate|contradiction].
  - fold d2. split; [apply Rnot_lt_le, D2|]. destruct (Rlt_dec d2 (- cont_eps)); split; intros; [assumption|reflexivity|discriminate|contradiction].
  - f_equal. f_equal.
    + destruct (Rlt_dec d2 (- cont_eps)); apply walk_rot'; auto.
    + destruct (Rlt_dec d1 (- cont_eps)); apply walk_rot'; auto.
Qed.
Lemma try_merge_none nm ns f1 f2 : try_merge nm ns f1 f2 = None <->
  compatible nm f1 f2 = false \/ common_edge (f_w f1) (f_w f2) = None \/
  exists i j, common_edge (f_w f1) (f_w f2) = Some (i, j) /\ let w1 := f_w f1 in let w2 := f_w f2 in let n := ns (f_plane f1) in
   (cont_eps < off n (prev w1 i) (at_ w1 i) (at_ w2 (j + 2)) \/ cont_eps < off n (at_ w1 (i + 1)) (at_ w1 (i + 2)) (prev w2 j)).
Proof.
  unfold try_merge. destruct (compatible nm f1 f2) eqn:C; cbn [negb]; [|tauto].
  destruct (common_edge (f_w f1) (f_w f2)) as [[i j]|] eqn:E; [|tauto].
  rewrite bend_off1, bend_off2. fold (prev (f_w f1) i). fold (prev (f_w f2) j). cbv zeta.
  set (d1 := off _ (prev (f_w f1) i) _ _). set (d2 := off _ _ _ (prev (f_w f2) j)). split.
  - intros H. right. right. exists i, j. split; [reflexivity|]. fold d1 d2. destruct (Rlt_dec cont_eps d1); [tauto|]. destruct (Rlt_dec cont_eps d2); [tauto|discriminate].
  - intros [H|[H|(i' & j' & H & D)]]; [discriminate|discriminate|]. injection H as <- <-. fold d1 d2 in D.
    destruct (Rlt_dec cont_eps d1); [reflexivity|]. destruct (Rlt_dec cont_eps d2); [reflexivity|]. tauto.
Qed.

(** Points that are either equal or far apart, and either on a line or far from it. *)
Definition clean (n : vec) (V : list vec) : Prop := forall a b c, In a V -> In b V -> In c V ->
  (near a b = true -> a = b) /\ (side n a b c <> 0 -> cont_eps < Rabs (off n a b c)).
Lemma clean_incl n V W : (forall v, In v W -> In v V) -> clean n V -> clean n W.
Proof. intros H C a b c A B D. apply C; apply H; assumption. Qed.
Lemma at_in w k : w <> [] -> In (at_ w k) w.
Proof. intros N0. apply nth_In. apply Nat.mod_upper_bound. destruct w; [congruence|cbn; lia]. Qed.
Lemma rot_in i w v : In v (rot i w) <-> In v w.
Proof. unfold rot. rewrite in_app_iff, or_comm, <- in_app_iff, firstn_skipn. reflexivity. Qed.
Lemma rot_strict n i w : strict n w <-> strict n (rot i w).
Proof. unfold rot. split; intros H. - apply strict_comm. rewrite firstn_skipn. exact H. - apply strict_comm in H. rewrite firstn_skipn in H. exact H. Qed.
Lemma rot_inside n i w x : inside n w x <-> inside n (rot i w) x.
Proof. unfold rot. split; intros H. - apply inside_comm. rewrite firstn_skipn. exact H. - apply inside_comm in H. rewrite firstn_skipn in H. exact H. Qed.

Theorem try_merge_exact nm ns f1 f2 g : let n := ns (f_plane f1) in
  strict n (f_w f1) -> strict n (f_w f2) -> clean n (f_w f1 ++ f_w f2) -> try_merge nm ns f1 f2 = Some g ->
  strict n (f_w g) /\ (forall x, inside n (f_w g) x <-> inside n (f_w f1) x \/ inside n (f_w f2) x) /\
  (forall v, In v (f_w g) -> In v (f_w f1) \/ In v (f_w f2)).
Proof.
  intros n S1 S2 C H. destruct (try_merge_spec _ _ _ _ _ H) as (i & j & k1 & k2 & X). cbv zeta in X. fold n in X.
  destruct X as (_ & E & (D1 & K1) & (D2 & K2) & G). set (w1 := f_w f1) in *. set (w2 := f_w f2) in *.
  destruct (common_edge_some _ _ _ _ E) as (I & J & M & _).
  destruct (rot_decomp i w1 I (proj1 S1)) as (A & RA & NA & HA & LA). destruct (rot_decomp j w2 J (proj1 S2)) as (B & RB & NB & HB & LB).
  fold (prev w1 i) in LA. fold (prev w2 j) in LB. rewrite <- LA, <- HB in D1, K1. rewrite <- HA, <- LB in D2, K2.
  unfold match_at in M. apply andb_prop in M. destruct M as [M1 M2].
  assert (N1 : w1 <> []) by (intros Z; rewrite Z in I; cbn in I; lia). assert (N2 : w2 <> []) by (intros Z; rewrite Z in J; cbn in J; lia).
  assert (I1 : forall k, In (at_ w1 k) (w1 ++ w2)) by (intros k; apply in_app_iff; left; apply at_in, N1).
  assert (I2 : forall k, In (at_ w2 k) (w1 ++ w2)) by (intros k; apply in_app_iff; right; apply at_in, N2).
  assert (IA : forall v, In v A -> In v (w1 ++ w2)) by (intros v IV; apply in_app_iff; left; apply (rot_in i); rewrite RA; right; right; exact IV).
  assert (IB : forall v, In v B -> In v (w1 ++ w2)) by (intros v IV; apply in_app_iff; right; apply (rot_in j); rewrite RB; right; right; exact IV).
  apply (proj1 (C _ _ _ (I1 i) (I2 (j + 1)%nat) (I1 i))) in M1. apply (proj1 (C _ _ _ (I1 (i + 1)%nat) (I2 j) (I1 i))) in M2.
  rewrite <- M1, <- M2 in RB. set (p1 := at_ w1 i) in *. set (p2 := at_ w1 (i + 1)) in *.
  apply (rot_strict n i) in S1. apply (rot_strict n j) in S2. rewrite RA in S1, G. rewrite RB in S2, G.
  assert (W : f_w g = merged k1 k2 p1 p2 A B) by (rewrite G; cbn [f_w]; unfold merged; destruct k1, k2; reflexivity).
  assert (JJ : joints n k1 k2 p1 p2 A B).
  { assert (IP1 : In p1 (w1 ++ w2)) by apply I1. assert (IP2 : In p2 (w1 ++ w2)) by apply I1.
    pose proof (proj2 (C (last_ A) p1 (hd_ B) (IA _ (last_in _ NA)) IP1 (IB _ (hd_in _ NB)))) as C1.
    pose proof (proj2 (C p2 (hd_ A) (last_ B) IP2 (IA _ (hd_in _ NA)) (IB _ (last_in _ NB)))) as C2.
    destruct (off_side n (last_ A) p1) as (s1 & P1 & O1). destruct (off_side n p2 (hd_ A)) as (s2 & P2 & O2). rewrite O1 in D1, K1, C1. rewrite O2 in D2, K2, C2.
    assert (CE : 0 < cont_eps) by (unfold cont_eps; lra).
    unfold joints. rewrite (side_rot n (last_ B) p2 (hd_ A)). split.
    - destruct k1; [pose proof (proj1 K1 eq_refl); nra|]. destruct (Req_dec (side n (last_ A) p1 (hd_ B)) 0) as [Z|Z]; [exact Z|]. specialize (C1 Z).
      exfalso. assert (~ s1 * side n (last_ A) p1 (hd_ B) < - cont_eps) by (intros Y; apply K1 in Y; discriminate). unfold Rabs in C1. destruct (Rcase_abs _); lra.
    - destruct k2; [pose proof (proj1 K2 eq_refl); nra|]. destruct (Req_dec (side n p2 (hd_ A) (last_ B)) 0) as [Z|Z]; [exact Z|]. specialize (C2 Z).
      exfalso. assert (~ s2 * side n p2 (hd_ A) (last_ B) < - cont_eps) by (intros Y; apply K2 in Y; discriminate). unfold Rabs in C2. destruct (Rcase_abs _); lra. }
  rewrite W. refine (conj _ (conj _ _)).
  - apply merged_strict; assumption.
  - intros x. rewrite (merged_region n k1 k2 p1 p2 A B x S1 S2 JJ). rewrite (rot_inside n i w1), (rot_inside n j w2), RA, RB. reflexivity.
  - intros v IV. unfold merged in IV. rewrite !in_app_iff in IV. rewrite <- (rot_in i w1), <- (rot_in j w2), RA, RB. destruct k1, k2; cbn in IV |- *; tauto.
Qed.

(** * Areas: twice the area of a polygon, in the direction of the normal *)
Definition sumR (l : list R) : R := fold_right Rplus 0 l.
Definition area2 (n : vec) (w : list vec) : R := sumR (map (fun e => br n (fst e) (snd e)) (edges w)).
Definition ssum (n : vec) (l : list vec) : R := sumR (map (fun e => br n (fst e) (snd e)) (steps l)).
Lemma ssum_app n l1 l2 : l1 <> [] -> l2 <> [] -> ssum n (l1 ++ l2) = ssum n l1 + br n (last_ l1) (hd_ l2) + ssum n l2.
Proof.
  intros N1 N2. unfold ssum. rewrite steps_app by assumption. rewrite map_app. cbn [map fst snd].
  assert (forall a b, sumR (a ++ b) = sumR a + sumR b) as Q by (unfold sumR; induction a; intros; cbn; [ring|rewrite IHa; ring]). rewrite Q. cbn. unfold sumR. ring.
Qed.
Lemma area2_app n l1 l2 : l1 <> [] -> l2 <> [] -> area2 n (l1 ++ l2) = ssum n l1 + br n (last_ l1) (hd_ l2) + ssum n l2 + br n (last_ l2) (hd_ l1).
Proof.
  intros N1 N2. destruct l1 as [|a l1]; [congruence|]. unfold area2. change ((a :: l1) ++ l2) with (a :: l1 ++ l2). rewrite edges_steps.
  change (a :: (l1 ++ l2) ++ [a]) with (((a :: l1) ++ l2) ++ [a]). fold (ssum n (((a :: l1) ++ l2) ++ [a])).
  rewrite ssum_app; [|discriminate|discriminate]. rewrite ssum_app by (try discriminate; assumption).
  replace (last_ ((a :: l1) ++ l2)) with (last_ l2).
  - cbn [hd_ hd]. unfold hd_. cbn [hd]. change (ssum n [a]) with 0. ring.
  - unfold last_. rewrite (app_removelast_last vzero N2) at 2. rewrite app_assoc, last_last. reflexivity.
Qed.
Lemma area2_rot n i w : area2 n (rot i w) = area2 n w.
Proof.
  unfold rot. rewrite <- (firstn_skipn i w) at 3. destruct (firstn i w) as [|a l1] eqn:E1; [rewrite app_nil_r; reflexivity|].
  destruct (skipn i w) as [|b l2] eqn:E2; [rewrite app_nil_r; reflexivity|]. rewrite !area2_app by discriminate. ring.
Qed.
Lemma area2_pp n p q A : A <> [] -> area2 n (p :: q :: A) = br n p q + br n q (hd_ A) + ssum n A + br n (last_ A) p.
Proof.
  intros NA. change (p :: q :: A) with ([p; q] ++ A). rewrite area2_app; [|discriminate|exact NA].
  replace (ssum n [p; q]) with (br n p q) by (unfold ssum; cbn; ring). change (last_ [p; q]) with q. change (hd_ [p; q]) with p. ring.
Qed.
Lemma br_side n b p q : br n b q = br n b p + br n p q - side n b p q.
Proof. unfold side, br, dot, cross, sub; cbn [vx vy vz]; ring. Qed.
Lemma area2_merged n k1 k2 p1 p2 A B : A <> [] -> B <> [] -> area2 n (merged k1 k2 p1 p2 A B) =
  area2 n (p1 :: p2 :: A) + area2 n (p2 :: p1 :: B) - (if k1 then 0 else side n (last_ A) p1 (hd_ B)) - (if k2 then 0 else side n (last_ B) p2 (hd_ A)).
Proof.
  intros NA NB. rewrite !area2_pp by assumption. rewrite (br_anti n p2 p1). unfold merged.
  rewrite area2_app; [|destruct k2; [discriminate|exact NA]|destruct k1; [discriminate|exact NB]].
  assert (L : forall p l, l <> [] -> last_ (p :: l) = last_ l) by (intros p [|x l] N0; [congruence|reflexivity]).
  assert (S0 : forall p l, l <> [] -> ssum n (p :: l) = br n p (hd_ l) + ssum n l).
  { intros p l N0. change (p :: l) with ([p] ++ l). rewrite ssum_app; [|discriminate|exact N0]. change (ssum n [p]) with 0. change (last_ [p]) with p. ring. }
  pose proof (br_side n (last_ A) p1 (hd_ B)) as Q1. pose proof (br_side n (last_ B) p2 (hd_ A)) as Q2.
  destruct k1, k2; cbn [app]; rewrite ?L, ?S0 by assumption; change (hd_ (p1 :: B)) with p1; change (hd_ (p2 :: A)) with p2; lra.
Qed.
Lemma len_cross n d : dot n n = 1 -> len (cross n d) <= len d.
Proof.
  intros U. unfold len. apply sqrt_le_1_alt.
  assert (Lg : dot (cross n d) (cross n d) = dot n n * dot d d - dot n d * dot n d) by (unfold dot, cross; cbn [vx vy vz]; ring).
  rewrite Lg, U. nra.
Qed.

Theorem try_merge_area nm ns f1 f2 g L : let n := ns (f_plane f1) in dot n n = 1 ->
  (3 <= length (f_w f1))%nat -> (3 <= length (f_w f2))%nat -> (forall a b, In a (f_w f1) -> In b (f_w f2) -> near a b = true -> a = b) ->
  (forall a b, In (a, b) (edges (f_w f1)) -> len (sub b a) <= L) -> try_merge nm ns f1 f2 = Some g ->
  Rabs (area2 n (f_w g) - (area2 n (f_w f1) + area2 n (f_w f2))) <= 2 * L * cont_eps.
Proof.
  intros n U L1 L2 EX LB0 H. destruct (try_merge_spec _ _ _ _ _ H) as (i & j & k1 & k2 & X). cbv zeta in X. fold n in X.
  destruct X as (_ & E & (D1 & K1) & (D2 & K2) & G). set (w1 := f_w f1) in *. set (w2 := f_w f2) in *.
  destruct (common_edge_some _ _ _ _ E) as (I & J & M & _).
  destruct (rot_decomp i w1 I L1) as (A & RA & NA & HA & LA). destruct (rot_decomp j w2 J L2) as (B & RB & NB & HB & LB).
  fold (prev w1 i) in LA. fold (prev w2 j) in LB. rewrite <- LA, <- HB in D1, K1. rewrite <- HA, <- LB in D2, K2.
  unfold match_at in M. apply andb_prop in M. destruct M as [M1 M2].
  assert (N1 : w1 <> []) by (intros Z; rewrite Z in I; cbn in I; lia). assert (N2 : w2 <> []) by (intros Z; rewrite Z in J; cbn in J; lia).
  apply EX in M1; [|apply at_in, N1|apply at_in, N2]. apply EX in M2; [|apply at_in, N1|apply at_in, N2].
  rewrite <- M1, <- M2 in RB. set (p1 := at_ w1 i) in *. set (p2 := at_ w1 (i + 1)) in *. rewrite RA, RB in G.
  assert (W : f_w g = merged k1 k2 p1 p2 A B) by (rewrite G; cbn [f_w]; unfold merged; destruct k1, k2; reflexivity).
  rewrite W, area2_merged by assumption. rewrite <- RA, <- RB, !area2_rot.
  assert (EA : forall a b, In (a, b) (edges (rot i w1)) -> len (sub b a) <= L).
  { intros a b IE. apply LB0. unfold rot in IE. apply edges_comm in IE. rewrite firstn_skipn in IE. exact IE. }
  assert (LP1 : len (sub p1 (last_ A)) <= L).
  { apply EA. rewrite RA. change (p1 :: p2 :: A) with ([p1; p2] ++ A). apply edges_app; [discriminate|exact NA|]. right. right. right. reflexivity. }
  assert (LP2 : len (sub (hd_ A) p2) <= L).
  { apply EA. rewrite RA. change (p1 :: p2 :: A) with ([p1; p2] ++ A). apply edges_app; [discriminate|exact NA|]. right. left. reflexivity. }
  pose proof (len_cross n (sub p1 (last_ A)) U) as C1. pose proof (len_cross n (sub (hd_ A) p2) U) as C2.
  assert (CE : 0 < cont_eps) by (unfold cont_eps; lra).
  assert (B1 : Rabs (if k1 then 0 else side n (last_ A) p1 (hd_ B)) <= L * cont_eps).
  { destruct k1; [rewrite Rabs_R0; pose proof (len_nonneg (sub p1 (last_ A))); nra|]. rewrite off_len.
    assert (~ off n (last_ A) p1 (hd_ B) < - cont_eps) by (intros Y; apply K1 in Y; discriminate).
    assert (Rabs (off n (last_ A) p1 (hd_ B)) <= cont_eps) by (apply Rabs_le; lra). pose proof (Rabs_pos (off n (last_ A) p1 (hd_ B))). pose proof (len_nonneg (cross n (sub p1 (last_ A)))). nra. }
  assert (B2 : Rabs (if k2 then 0 else side n (last_ B) p2 (hd_ A)) <= L * cont_eps).
  { destruct k2; [rewrite Rabs_R0; pose proof (len_nonneg (sub p1 (last_ A))); nra|]. rewrite side_rot, off_len.
    assert (~ off n p2 (hd_ A) (last_ B) < - cont_eps) by (intros Y; apply K2 in Y; discriminate).
    assert (Rabs (off n p2 (hd_ A) (last_ B)) <= cont_eps) by (apply Rabs_le; lra). pose proof (Rabs_pos (off n p2 (hd_ A) (last_ B))). pose proof (len_nonneg (cross n (sub (hd_ A) p2))). nra. }
  set (u := if k1 then 0 else _) in *. set (v := if k2 then 0 else _) in *. set (s := area2 n w1 + area2 n w2).
  replace (s - u - v - s) with (- (u + v)) by ring. rewrite Rabs_Ropp. pose proof (Rabs_triang u v). lra.
Qed.

(** * Lists of faces *)
Lemma merge_to_fuel tm : forall fuel f before after, (length after + 1 + (length before + length after) * (length before + length after) <= fuel)%nat ->
  merge_to fuel tm f before after <> None.
Proof.
  induction fuel as [|fuel IH]; intros f before after F; [lia|]. cbn [merge_to]. destruct after as [|g r]; [discriminate|].
  cbn [length] in F. destruct (tm f g).
  - apply IH. rewrite app_length. cbn [length]. nia.
  - apply IH. rewrite app_length. cbn [length] in *. nia.
Qed.
Lemma merge_list_total tm input result : merge_list tm input result <> None.
Proof.
  revert result. induction input as [|f r IH]; intros result; [discriminate|]. cbn [merge_list].
  destruct (merge_to (fuel_for result) tm f [] result) eqn:E; [apply IH|]. exfalso. revert E. apply merge_to_fuel. unfold fuel_for. cbn. nia.
Qed.

(** Any relation of lists of faces that holds of a list and itself, and is kept by replacing two faces by
    what they merge to, relates the input and the result. *)
Inductive merges (tm : face -> face -> option face) : list face -> list face -> Prop :=
  | m_perm l l' : Permutation l l' -> merges tm l l'
  | m_step l f g h r l' : Permutation l (f :: g :: r) -> tm f g = Some h -> merges tm (h :: r) l' -> merges tm l l'.
Lemma merges_perm tm l0 l l' : Permutation l0 l -> merges tm l l' -> merges tm l0 l'.
Proof.
  intros P H. destruct H as [l l' Q|l f g h r l' Q T M].
  - apply m_perm. transitivity l; assumption.
  - apply m_step with f g h r; [transitivity l; assumption|exact T|exact M].
Qed.
Lemma merges_trans tm l1 l2 l3 : merges tm l1 l2 -> merges tm l2 l3 -> merges tm l1 l3.
Proof.
  intros H. revert l3. induction H as [l l' P|l f g h r l' P T M IH]; intros l3 H3.
  - apply merges_perm with l'; assumption.
  - apply m_step with f g h r; [exact P|exact T|apply IH, H3].
Qed.
Lemma merges_app tm l1 l2 r : merges tm l1 l2 -> merges tm (l1 ++ r) (l2 ++ r).
Proof.
  intros H. induction H as [l l' P|l f g h q l' P T M IH].
  - apply m_perm, Permutation_app_tail, P.
  - apply m_step with f g h (q ++ r); [apply (Permutation_app_tail r P)|exact T|exact IH].
Qed.
Lemma merge_to_merges tm : forall fuel f before after l, merge_to fuel tm f before after = Some l -> merges tm (f :: before ++ after) l.
Proof.
  induction fuel as [|fuel IH]; intros f before after l; [discriminate|]. cbn [merge_to]. destruct after as [|g r].
  - intros H. injection H as <-. apply m_perm. rewrite app_nil_r. apply Permutation_cons_append.
  - destruct (tm f g) as [h|] eqn:T; intros H; apply IH in H.
    + apply m_step with f g h (before ++ r); [|exact T|exact H]. apply perm_skip. symmetry. apply Permutation_middle.
    + rewrite <- app_assoc in H. exact H.
Qed.
Lemma merge_list_merges tm input result l : merge_list tm input result = Some l -> merges tm (result ++ input) l.
Proof.
  revert result. induction input as [|f r IH]; intros result; cbn [merge_list].
  - intros H. injection H as <-. rewrite app_nil_r. apply m_perm. reflexivity.
  - destruct (merge_to (fuel_for result) tm f [] result) as [m|] eqn:E; [|discriminate]. intros H. apply IH in H. apply merge_to_merges in E. cbn [app] in E.
    apply merges_trans with (m ++ r); [|exact H]. apply merges_perm with ((f :: result) ++ r); [cbn [app]; symmetry; apply Permutation_middle|apply merges_app, E].
Qed.

(** No face of the result merges with an earlier one. *)
Definition settled (tm : face -> face -> option face) (l : list face) : Prop :=
  forall l1 a l2 b l3, l = l1 ++ a :: l2 ++ b :: l3 -> tm b a = None.
Lemma settled_remove tm l1 g l2 : settled tm (l1 ++ g :: l2) -> settled tm (l1 ++ l2).
Proof.
  intros H a1 a a2 b a3 E. unfold settled in H.
  assert (Q : exists m1 m2 m3, l1 ++ g :: l2 = m1 ++ a :: m2 ++ b :: m3); [|destruct Q as (m1 & m2 & m3 & Q); apply (H _ _ _ _ _ Q)].
  clear H. revert a1 E. induction l1 as [|x l1 IH]; cbn [app]; intros a1 E.
  - exists (g :: a1), a2, a3. rewrite E. reflexivity.
  - destruct a1 as [|y a1]; cbn [app] in E; injection E as <- E.
    + assert (R : exists m2 m3, l1 ++ g :: l2 = m2 ++ b :: m3).
      { assert (IB : In b (l1 ++ g :: l2)) by (assert (IB : In b (l1 ++ l2)) by (rewrite E; apply in_app_iff; right; left; reflexivity); apply in_app_iff in IB; apply in_app_iff; cbn; tauto).
        apply in_split in IB. destruct IB as (m2 & m3 & IB). exists m2, m3. exact IB. }
      destruct R as (m2 & m3 & R). exists [], m2, m3. rewrite R. reflexivity.
    + destruct (IH a1 E) as (m1 & m2 & m3 & Q). exists (x :: m1), m2, m3. rewrite Q. reflexivity.
Qed.
Lemma settled_snoc tm l f : settled tm l -> (forall g, In g l -> tm f g = None) -> settled tm (l ++ [f]).
Proof.
  intros H N0 l1 a l2 b l3 E. destruct (exists_last (l := b :: l3)) as (q & z & Q); [discriminate|].
  destruct l3 as [|c l3] using rev_ind.
  - assert (E' : l ++ [f] = (l1 ++ a :: l2) ++ [b]) by (rewrite E, <- app_assoc; reflexivity). apply app_inj_tail in E'. destruct E' as [E' <-].
    apply N0. rewrite E'. apply in_app_iff. right. left. reflexivity.
  - assert (E' : l ++ [f] = (l1 ++ a :: l2 ++ b :: l3) ++ [c]) by (rewrite E; rewrite <- !app_assoc; cbn [app]; rewrite <- app_assoc; reflexivity).
    apply app_inj_tail in E'. destruct E' as [E' _]. apply (H _ _ _ _ _ E').
Qed.
Lemma merge_to_settled tm : forall fuel f before after l, settled tm (before ++ after) -> (forall g, In g before -> tm f g = None) ->
  merge_to fuel tm f before after = Some l -> settled tm l.
Proof.
  induction fuel as [|fuel IH]; intros f before after l S0 N0; [discriminate|]. cbn [merge_to]. destruct after as [|g r].
  - intros H. injection H as <-. rewrite app_nil_r in S0. apply settled_snoc; assumption.
  - destruct (tm f g) as [h|] eqn:T; intros H; apply IH in H; try exact H.
    + cbn [app]. apply settled_remove in S0. exact S0.
    + intros ? [].
    + rewrite <- app_assoc. exact S0.
    + intros g' I. apply in_app_iff in I. destruct I as [I|[<-|[]]]; auto.
Qed.
Lemma merge_list_settled tm input result l : settled tm result -> merge_list tm input result = Some l -> settled tm l.
Proof.
  revert result. induction input as [|f r IH]; intros result S0; cbn [merge_list]; [intros Q; injection Q as <-; exact S0|].
  destruct (merge_to (fuel_for result) tm f [] result) as [m|] eqn:E; [|discriminate]. apply IH. apply merge_to_settled in E; [exact E|exact S0|intros ? []].
Qed.

(** What merging keeps: the regions of faces of each kind, when the points are clean. *)
Definition key (f : face) := (f_plane f, f_tex f, f_shift f, f_sky f).
Definition verts (p : Z) (l : list face) : list vec := flat_map (fun f => if (f_plane f =? p)%Z then f_w f else []) l.
Lemma verts_in p l v : In v (verts p l) <-> exists f, In f l /\ f_plane f = p /\ In v (f_w f).
Proof.
  unfold verts. rewrite in_flat_map. split; intros (f & I & H); exists f; (split; [exact I|]).
  - destruct (f_plane f =? p)%Z eqn:E; [apply Z.eqb_eq in E; tauto|destruct H].
  - destruct H as [E H]. apply Z.eqb_eq in E. rewrite E. exact H.
Qed.
Lemma try_merge_key nm ns f1 f2 g : try_merge nm ns f1 f2 = Some g -> key f1 = key f2 /\ key g = key f1 /\ f_rest g = f_rest f1 /\ f_liquid g = f_liquid f1 /\
  (nm = true -> f_liquid f1 = f_liquid f2).
Proof.
  intros H. destruct (try_merge_spec _ _ _ _ _ H) as (i & j & k1 & k2 & X). cbv zeta in X. destruct X as (C & _ & _ & _ & G).
  unfold compatible in C. rewrite !andb_true_iff in C. destruct C as ((((((_ & _) & C1) & C2) & C3) & C4) & C5).
  apply Z.eqb_eq in C1, C2, C3. apply Bool.eqb_prop in C5. unfold key. rewrite G. cbn [f_plane f_tex f_shift f_sky f_rest f_liquid].
  rewrite C1, C2, C3, C5. refine (conj eq_refl (conj eq_refl (conj eq_refl (conj eq_refl _)))). intros ->. cbn in C4. apply Bool.eqb_prop in C4. exact C4.
Qed.
Theorem merges_region nm ns l l' : merges (try_merge nm ns) l l' ->
  (forall f, In f l -> strict (ns (f_plane f)) (f_w f)) -> (forall p, clean (ns p) (verts p l)) ->
  (forall f, In f l' -> strict (ns (f_plane f)) (f_w f)) /\
  (forall k x, (exists f, In f l' /\ key f = k /\ inside (ns (f_plane f)) (f_w f) x) <-> (exists f, In f l /\ key f = k /\ inside (ns (f_plane f)) (f_w f) x)) /\
  (forall p v, In v (verts p l') -> In v (verts p l)).
Proof.
  intros H. induction H as [l l' P|l f g h r l' P T M IH]; intros SS CC.
  - refine (conj _ (conj _ _)).
    + intros f I. apply SS. apply (Permutation_in f (Permutation_sym P) I).
    + intros k x. split; intros (f & I & Q); exists f; (split; [|exact Q]); [apply (Permutation_in f (Permutation_sym P) I)|apply (Permutation_in f P I)].
    + intros p v I. apply verts_in in I. apply verts_in. destruct I as (f & I & Q). exists f. split; [apply (Permutation_in f (Permutation_sym P) I)|exact Q].
  - assert (IN : forall q, In q (f :: g :: r) <-> In q l) by (intros q; split; [apply (Permutation_in q (Permutation_sym P))|apply (Permutation_in q P)]).
    destruct (try_merge_key _ _ _ _ _ T) as (K1 & K2 & _).
    assert (PG : f_plane g = f_plane f) by (unfold key in K1; congruence). assert (PH : f_plane h = f_plane f) by (unfold key in K2; congruence).
    assert (SF := SS f (proj1 (IN f) (or_introl eq_refl))). assert (SG := SS g (proj1 (IN g) (or_intror (or_introl eq_refl)))). rewrite PG in SG.
    destruct (try_merge_exact nm ns f g h SF SG) as (SH & RH & VH); [|exact T|].
    { apply clean_incl with (verts (f_plane f) l); [|apply CC]. intros v I. apply verts_in. apply in_app_iff in I. destruct I as [I|I]; [exists f|exists g]; (split; [apply IN; cbn; tauto|]); auto. }
    assert (VV : forall p v, In v (verts p (h :: r)) -> In v (verts p l)).
    { intros p v I. apply verts_in in I. apply verts_in. destruct I as (q & [<-|I] & Q1 & Q2).
      - destruct (VH v Q2) as [V|V]; [exists f|exists g]; (split; [apply IN; cbn; tauto|]); split; solve [congruence|assumption].
      - exists q. split; [apply IN; cbn; tauto|]. auto. }
    destruct IH as (I1 & I2 & I3).
    + intros q [<-|I]; [rewrite PH; exact SH|apply SS, IN; cbn; tauto].
    + intros p. apply clean_incl with (verts p l); [apply VV|apply CC].
    + refine (conj I1 (conj _ _)).
      * intros k x. rewrite I2. split.
        -- intros (q & [<-|I] & Q1 & Q2).
           ++ rewrite PH in Q2. apply RH in Q2. destruct Q2 as [Q2|Q2].
              ** exists f. split; [apply IN; cbn; tauto|]. split; [congruence|exact Q2].
              ** exists g. split; [apply IN; cbn; tauto|]. rewrite PG. split; [congruence|exact Q2].
           ++ exists q. split; [apply IN; cbn; tauto|]. auto.
        -- intros (q & I & Q1 & Q2). apply IN in I. destruct I as [<-|[<-|I]].
           ++ exists h. split; [left; reflexivity|]. rewrite PH. split; [congruence|apply RH; left; exact Q2].
           ++ exists h. split; [left; reflexivity|]. rewrite PH. rewrite PG in Q2. split; [congruence|apply RH; right; exact Q2].
           ++ exists q. split; [right; exact I|]. auto.
      * intros p v I. apply VV, I3, I.
Qed.

(** * Evaluation *)
Lemma common_edge_00 w1 w2 : w1 <> [] -> w2 <> [] -> match_at w1 w2 0 0 = true -> common_edge w1 w2 = Some (0, 0)%nat.
Proof. intros N1 N2 M. unfold common_edge. destruct w1 as [|a w1]; [congruence|]. destruct w2 as [|b w2]; [congruence|]. cbn [length seq first]. rewrite M. reflexivity. Qed.
Lemma try_merge_00 nm ns f1 f2 : let w1 := f_w f1 in let w2 := f_w f2 in let n := ns (f_plane f1) in
  compatible nm f1 f2 = true -> w1 <> [] -> w2 <> [] -> match_at w1 w2 0 0 = true ->
  Rabs (off n (prev w1 0) (at_ w1 0) (at_ w2 2)) <= cont_eps -> Rabs (off n (at_ w1 1) (at_ w1 2) (prev w2 0)) <= cont_eps ->
  try_merge nm ns f1 f2 = Some (mkFace (f_plane f1) (f_tex f1) (f_shift f1) (f_liquid f1) (f_sky f1) (f_rest f1) (skipn 2 w1 ++ skipn 2 w2)).
Proof.
  intros w1 w2 n C N1 N2 M D1 D2. pose proof (common_edge_00 _ _ N1 N2 M) as E.
  assert (A1 : forall x, Rabs x <= cont_eps -> - cont_eps <= x <= cont_eps) by (intros x; unfold Rabs; destruct (Rcase_abs x); lra).
  apply A1 in D1. apply A1 in D2.
  destruct (try_merge nm ns f1 f2) as [g|] eqn:T.
  - destruct (try_merge_spec _ _ _ _ _ T) as (i & j & k1 & k2 & X). cbv zeta in X. fold n w1 w2 in X. destruct X as (_ & E' & (_ & K1) & (_ & K2) & G).
    rewrite E in E'. injection E' as <- <-. cbn [Nat.add] in K1, K2.
    destruct k1; [pose proof (proj1 K1 eq_refl); lra|]. destruct k2; [pose proof (proj1 K2 eq_refl); lra|].
    rewrite G. unfold rot. cbn [skipn firstn]. rewrite !app_nil_r. reflexivity.
  - exfalso. apply try_merge_none in T. cbv zeta in T. fold n w1 w2 in T. destruct T as [T|[T|(i & j & T & D)]]; [congruence|congruence|].
    rewrite E in T. injection T as <- <-. cbn [Nat.add] in D. lra.
Qed.
Lemma near_refl a : near a a = true.
Proof.
  unfold near, near1, equal_eps. rewrite !Rminus_diag_eq, Rabs_R0 by reflexivity. destruct (Rle_dec 0 (1 / 10000)); [reflexivity|lra].
Qed.
