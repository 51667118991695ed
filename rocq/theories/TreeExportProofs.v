(* Export of planes, draw trees and clip hulls. *)
From Coq Require Import List Arith NArith ZArith Bool Lia.
Import ListNotations.
From Verif Require Import Base ParserModel StreamModel PrtModel TreeModel.

Section S.
Context {C P Q : Type}.
Variable solid : C -> bool.
Variable q2 : bool.
Variable narrow : P -> Q.
Variable export_contents : C -> option Z.
Variable native : C -> option Z.

Notation ltree := (tree nodeD (leafD C)).
Notation st := (xst P Q).

(** Output numbers refer to the plane written for them, and no two planes share one. *)
Definition planes_wf (s : st) : Prop :=
  (forall n p k, nth_error (x_planes s) n = Some (p, Some k) -> nth_error (x_dplanes s) k = Some (narrow p)) /\
  (forall n m p p' k, nth_error (x_planes s) n = Some (p, Some k) -> nth_error (x_planes s) m = Some (p', Some k) -> n = m).

Definition prefix {A} (a b : list A) : Prop := exists x, b = a ++ x.

Lemma prefix_refl : forall A (a : list A), prefix a a.
Proof. intros. exists []. rewrite app_nil_r. reflexivity. Qed.
Lemma prefix_trans : forall A (a b c : list A), prefix a b -> prefix b c -> prefix a c.
Proof. intros A a b c [x X] [y Y]. exists (x ++ y). subst. rewrite app_assoc. reflexivity. Qed.
Lemma prefix_nth : forall A (a b : list A) i x, prefix a b -> nth_error a i = Some x -> nth_error b i = Some x.
Proof.
  intros A a b i x [y Y] H. subst. rewrite nth_error_app1; [exact H|]. apply nth_error_Some. congruence.
Qed.
Lemma prefix_length : forall A (a b : list A), prefix a b -> length a <= length b.
Proof. intros A a b [x X]. subst. rewrite app_length. lia. Qed.

(** What later exports keep. *)
Definition ext (s s' : st) : Prop :=
  map fst (x_planes s') = map fst (x_planes s) /\ prefix (x_dplanes s) (x_dplanes s') /\
  prefix (x_nodes s) (x_nodes s') /\ prefix (x_leafs s) (x_leafs s') /\ prefix (x_marks s) (x_marks s') /\
  prefix (x_clip s) (x_clip s').

Lemma ext_refl : forall s, ext s s.
Proof. intro s. repeat split; apply prefix_refl. Qed.
Lemma ext_trans : forall a b c, ext a b -> ext b c -> ext a c.
Proof.
  intros a b c [A1 [A2 [A3 [A4 [A5 A6]]]]] [B1 [B2 [B3 [B4 [B5 B6]]]]].
  split; [congruence|]. repeat split; eapply prefix_trans; eassumption.
Qed.

Lemma upd_map_fst : forall (l : list (P * option nat)) n p k o l', nth_error l n = Some (p, o) -> upd l n (p, k) = Some l' ->
  map fst l' = map fst l.
Proof.
  induction l as [|x l IH]; intros n p k o l' H U; [destruct n; discriminate|].
  destruct n as [|n]; cbn [nth_error upd] in *.
  - injection H as ->. injection U as <-. reflexivity.
  - destruct (upd l n (p, k)) as [l2|] eqn:E; [|discriminate]. injection U as <-. cbn [map]. rewrite (IH _ _ _ _ _ H E). reflexivity.
Qed.

Lemma export_plane_spec : forall n s k s', planes_wf s -> export_plane narrow n s = X_ok (k, s') ->
  planes_wf s' /\ ext s s' /\ x_nodes s' = x_nodes s /\ x_leafs s' = x_leafs s /\ x_marks s' = x_marks s /\ x_clip s' = x_clip s /\
  exists p, nth_error (x_planes s') n = Some (p, Some k) /\ nth_error (x_dplanes s') k = Some (narrow p) /\
  (forall m q j, nth_error (x_planes s) m = Some (q, Some j) -> nth_error (x_planes s') m = Some (q, Some j)).
Proof.
  intros n s k s' [W1 W2] H. unfold export_plane in H.
  destruct (nth_error (x_planes s) n) as [[p [j|]]|] eqn:N; [| |discriminate].
  - injection H as <- <-. split; [split; assumption|]. split; [apply ext_refl|]. repeat split; auto.
    exists p. split; [exact N|]. split; [exact (W1 _ _ _ N)|auto].
  - destruct (upd (x_planes s) n (p, Some (length (x_dplanes s)))) as [pl|] eqn:U; [|discriminate].
    injection H as <- <-.
    assert (NE : forall m, nth_error pl m = if m =? n then Some (p, Some (length (x_dplanes s))) else nth_error (x_planes s) m)
      by (intro m; exact (upd_nth_error _ _ _ _ _ m U)).
    assert (DL : forall m q j, nth_error (x_planes s) m = Some (q, Some j) -> j < length (x_dplanes s)).
    { intros m q j X. apply W1 in X. apply nth_error_Some. congruence. }
    split; [|split; [|cbn [x_nodes x_leafs x_marks x_clip]; repeat split; auto]].
    + split; cbn [x_planes x_dplanes].
      * intros m q j X. rewrite NE in X. destruct (m =? n).
        -- injection X as <- <-. rewrite nth_error_app2 by lia. rewrite Nat.sub_diag. reflexivity.
        -- rewrite nth_error_app1 by (eapply DL; exact X). exact (W1 _ _ _ X).
      * intros a b q q' j X Y. rewrite NE in X, Y. destruct (a =? n) eqn:A; destruct (b =? n) eqn:B.
        -- apply Nat.eqb_eq in A. apply Nat.eqb_eq in B. congruence.
        -- injection X as <- <-. apply DL in Y. lia.
        -- injection Y as <- <-. apply DL in X. lia.
        -- exact (W2 _ _ _ _ _ X Y).
    + split; [cbn [x_planes]; eapply upd_map_fst; eassumption|]. cbn [x_dplanes x_nodes x_leafs x_marks x_clip].
      split; [exists [narrow p]; reflexivity|]. repeat split; apply prefix_refl.
    + exists p. cbn [x_planes x_dplanes]. split; [rewrite NE, Nat.eqb_refl; reflexivity|]. split.
      * rewrite nth_error_app2 by lia. rewrite Nat.sub_diag. reflexivity.
      * intros m q j X. rewrite NE. destruct (m =? n) eqn:M; [|exact X]. apply Nat.eqb_eq in M. subst. congruence.
Qed.

Lemma export_plane_ok : forall n s, n < length (x_planes s) -> exists k s', export_plane narrow n s = X_ok (k, s').
Proof.
  intros n s H. unfold export_plane. destruct (nth_error (x_planes s) n) as [[p [j|]]|] eqn:N.
  - eauto.
  - destruct (upd_some _ (x_planes s) n (p, Some (length (x_dplanes s))) H) as [l E]. rewrite E. eauto.
  - apply nth_error_None in N. lia.
Qed.

(** A sequence of export requests; the results in order. *)
Fixpoint export_planes (ns : list nat) (s : st) : xres (list nat * st) :=
  match ns with
  | [] => X_ok ([], s)
  | n :: r => xbind (export_plane narrow n s) (fun '(k, s1) => xbind (export_planes r s1) (fun '(ks, s2) => X_ok (k :: ks, s2)))
  end.

Lemma export_planes_spec : forall ns s, planes_wf s -> Forall (fun n => n < length (x_planes s)) ns ->
  exists ks s', export_planes ns s = X_ok (ks, s') /\ length ks = length ns /\ planes_wf s' /\
  map fst (x_planes s') = map fst (x_planes s) /\
  (forall m q j, nth_error (x_planes s) m = Some (q, Some j) -> nth_error (x_planes s') m = Some (q, Some j)) /\
  forall i n k, nth_error ns i = Some n -> nth_error ks i = Some k -> exists p, nth_error (x_planes s') n = Some (p, Some k).
Proof.
  induction ns as [|n ns IH]; intros s W F.
  - exists [], s. repeat split; auto; try apply W. intros i n k H. destruct i; discriminate.
  - inversion F as [|? ? N F']. subst. destruct (export_plane_ok n s N) as [k [s1 E]]. cbn [export_planes]. rewrite E. cbn [xbind].
    destruct (export_plane_spec _ _ _ _ W E) as [W1 [[X1 _] [_ [_ [_ [_ [p [H1 [H2 H3]]]]]]]]].
    assert (L1 : length (x_planes s1) = length (x_planes s)) by (rewrite <- (map_length fst (x_planes s1)), X1, map_length; reflexivity).
    destruct (IH s1 W1) as [ks [s2 [E2 [L2 [W2 [M2 [K2 R2]]]]]]].
    { rewrite L1. exact F'. }
    rewrite E2. cbn [xbind]. exists (k :: ks), s2. split; [reflexivity|]. split; [cbn [length]; congruence|].
    split; [exact W2|]. split; [congruence|]. split; [intros m q j X; apply K2; apply H3; exact X|].
    intros i n0 k0 A B. destruct i as [|i]; cbn [nth_error] in *.
    + injection A as <-. injection B as <-. exists p. apply K2. exact H1.
    + exact (R2 i n0 k0 A B).
Qed.

(* ------------------------------------------------------------------------------------------- *)
(** ** Draw tree *)

Definition exported_leaf (l : leafD C) : bool := q2 || negb (lsolid solid l).
Definition exported (t : ltree) : list (leafD C) := filter exported_leaf (tleafs t).

Definition ec (c : C) : Z := match export_contents c with Some z => z | None => 0%Z end.

Fixpoint recs (ls : list (leafD C)) (first : nat) : list dleaf :=
  match ls with
  | [] => []
  | l :: r => mkDL (ec (lf_contents l)) first (length (lf_marks l)) :: recs r (first + length (lf_marks l))
  end.

Lemma recs_app : forall a b f, recs (a ++ b) f = recs a f ++ recs b (f + length (concat (map lf_marks a))).
Proof.
  induction a as [|l a IH]; intros b f; cbn [app recs map concat length].
  - rewrite Nat.add_0_r. reflexivity.
  - rewrite IH, app_length, Nat.add_assoc. reflexivity.
Qed.

Lemma recs_length : forall a f, length (recs a f) = length a.
Proof. induction a as [|l a IH]; intro f; cbn [recs length]; [reflexivity|]. rewrite IH. reflexivity. Qed.

Lemma recs_nth : forall a f i l, nth_error a i = Some l ->
  nth_error (recs a f) i = Some (mkDL (ec (lf_contents l)) (f + length (concat (map lf_marks (firstn i a)))) (length (lf_marks l))).
Proof.
  induction a as [|x a IH]; intros f i l H; [destruct i; discriminate|].
  destruct i as [|i]; cbn [nth_error recs firstn map concat] in *.
  - injection H as ->. cbn [length]. rewrite Nat.add_0_r. reflexivity.
  - rewrite (IH _ _ _ H), app_length, Nat.add_assoc. reflexivity.
Qed.

(** [l] is stored as BSP leaf [i]: contents, and its face list at the place recorded. *)
Definition leaf_at (s : st) (i : nat) (l : leafD C) : Prop :=
  exists c first, nth_error (x_leafs s) i = Some (mkDL c first (length (lf_marks l))) /\
  export_contents (lf_contents l) = Some c /\
  firstn (length (lf_marks l)) (skipn first (x_marks s)) = lf_marks l /\ first + length (lf_marks l) <= length (x_marks s).

(** [r] as child number stands for tree [t]; the nodes used are at [lo] or later. *)
Fixpoint repr (lo : nat) (s : st) (t : ltree) (r : Z) : Prop :=
  match t with
  | Leaf l => if negb q2 && lsolid solid l then r = (-1)%Z
              else exists i, r = (- (Z.of_nat i + 1))%Z /\ leaf_at s i l
  | Node d a b => exists k n p, lo <= k /\ r = Z.of_nat k /\ nth_error (x_nodes s) k = Some n /\
                  nth_error (map fst (x_planes s)) (nd_plane d) = Some p /\
                  nth_error (x_dplanes s) (dn_plane n) = Some (narrow p) /\
                  repr lo s a (dn_c0 n) /\ repr lo s b (dn_c1 n)
  end.

Lemma firstn_skipn_app : forall A n f (l x : list A), f + n <= length l -> firstn n (skipn f (l ++ x)) = firstn n (skipn f l).
Proof.
  intros A n f l x H. rewrite skipn_app, firstn_app, skipn_length.
  replace (n - (length l - f)) with 0 by lia. cbn [firstn]. rewrite app_nil_r. reflexivity.
Qed.

Lemma leaf_at_mono : forall s s' i l, prefix (x_leafs s) (x_leafs s') -> prefix (x_marks s) (x_marks s') -> leaf_at s i l -> leaf_at s' i l.
Proof.
  intros s s' i l L [x M] [c [f [H1 [H2 [H3 H4]]]]]. exists c, f. split; [eapply prefix_nth; eassumption|]. split; [exact H2|].
  rewrite M. rewrite firstn_skipn_app by exact H4. split; [exact H3|]. rewrite app_length. lia.
Qed.

(** [repr] only looks at nodes from [lo] on, so earlier nodes may change. *)
Lemma repr_mono : forall t lo lo' s s' r, lo' <= lo ->
  (forall k n, lo <= k -> nth_error (x_nodes s) k = Some n -> nth_error (x_nodes s') k = Some n) ->
  map fst (x_planes s') = map fst (x_planes s) -> prefix (x_dplanes s) (x_dplanes s') ->
  prefix (x_leafs s) (x_leafs s') -> prefix (x_marks s) (x_marks s') ->
  repr lo s t r -> repr lo' s' t r.
Proof.
  induction t as [l|d a IHa b IHb]; intros lo lo' s s' r LO HN HP HD HL HM H; cbn [repr] in *.
  - destruct (negb q2 && lsolid solid l); [exact H|]. destruct H as [i [E A]]. exists i. split; [exact E|].
    eapply leaf_at_mono; eassumption.
  - destruct H as [k [n [p [K [E [N [PL [DP [A B]]]]]]]]]. exists k, n, p. split; [lia|]. split; [exact E|].
    split; [apply HN; assumption|]. split; [congruence|]. split; [eapply prefix_nth; eassumption|].
    split; [eapply IHa; eassumption|eapply IHb; eassumption].
Qed.

Lemma repr_ext : forall t lo s s' r, ext s s' -> repr lo s t r -> repr lo s' t r.
Proof.
  intros t lo s s' r [E1 [E2 [E3 [E4 [E5 _]]]]] H. eapply repr_mono; [apply le_n| | | | | |exact H]; try eassumption.
  intros k n _ X. eapply prefix_nth; eassumption.
Qed.

Definition next_ref (t : ltree) (s : st) : Z :=
  match t with
  | Leaf l => if negb q2 && lsolid solid l then (-1)%Z else (- (Z.of_nat (length (x_leafs s)) + 1))%Z
  | Node _ _ _ => Z.of_nat (length (x_nodes s))
  end.

Lemma export_leaf_spec : forall l s s', export_leaf export_contents l s = X_ok s' ->
  x_planes s' = x_planes s /\ x_dplanes s' = x_dplanes s /\ x_nodes s' = x_nodes s /\ x_clip s' = x_clip s /\
  x_leafs s' = x_leafs s ++ recs [l] (length (x_marks s)) /\ x_marks s' = x_marks s ++ lf_marks l /\
  leaf_at s' (length (x_leafs s)) l.
Proof.
  intros l s s' H. unfold export_leaf in H. destruct (export_contents (lf_contents l)) as [c|] eqn:E; [|discriminate].
  injection H as <-. cbn [x_planes x_dplanes x_nodes x_leafs x_marks x_clip recs]. unfold ec. rewrite E.
  repeat split; auto. exists c, (length (x_marks s)). cbn [x_leafs x_marks]. split.
  - rewrite nth_error_app2 by lia. rewrite Nat.sub_diag. reflexivity.
  - split; [exact E|]. rewrite skipn_app, skipn_all, Nat.sub_diag. cbn [skipn app]. rewrite firstn_all, app_length. auto.
Qed.

Lemma export_draw_spec : forall t s r s', planes_wf s ->
  export_draw solid q2 narrow export_contents t s = X_ok (r, s') ->
  r = next_ref t s /\ planes_wf s' /\ ext s s' /\ repr (length (x_nodes s)) s' t r /\
  x_leafs s' = x_leafs s ++ recs (exported t) (length (x_marks s)) /\
  x_marks s' = x_marks s ++ concat (map lf_marks (exported t)) /\
  x_clip s' = x_clip s /\
  (match t with Node _ _ _ => length (x_nodes s) < length (x_nodes s') | _ => True end).
Proof.
  induction t as [l|d a IHa b IHb]; intros s r s' W H; cbn [export_draw] in H.
  - unfold exported, exported_leaf. cbn [tleafs filter repr next_ref].
    destruct (negb q2 && lsolid solid l) eqn:E.
    + injection H as <- <-. apply andb_true_iff in E. destruct E as [E1 E2]. apply negb_true_iff in E1. rewrite E1, E2. cbn [orb negb].
      split; [reflexivity|]. split; [exact W|]. split; [apply ext_refl|]. cbn [recs map concat]. rewrite !app_nil_r. auto 8.
    + destruct (export_leaf export_contents l s) as [s1| |] eqn:X; try discriminate. cbn [xbind] in H. injection H as <- <-.
      destruct (export_leaf_spec _ _ _ X) as [H1 [H2 [H3 [H4 [H5 [H6 H7]]]]]].
      replace (q2 || negb (lsolid solid l)) with true by (destruct q2; destruct (lsolid solid l); cbn in *; congruence).
      split; [reflexivity|]. split; [unfold planes_wf; rewrite H1, H2; exact W|].
      split; [split; [rewrite H1; reflexivity|]; rewrite H2, H3, H4, H5, H6; repeat split; try apply prefix_refl; eexists; reflexivity|].
      split; [exists (length (x_leafs s)); split; [reflexivity|exact H7]|].
      cbn [map concat]. rewrite app_nil_r. auto.
  - set (k := length (x_nodes s)) in *. set (s0 := set_nodes s (x_nodes s ++ [mkDN 0 0 0])) in *.
    destruct (export_plane narrow (nd_plane d) s0) as [[p s1]| |] eqn:EP; try discriminate. cbn [xbind] in H.
    destruct (export_draw solid q2 narrow export_contents a s1) as [[c0 s2]| |] eqn:EA; try discriminate. cbn [xbind] in H.
    destruct (export_draw solid q2 narrow export_contents b s2) as [[c1 s3]| |] eqn:EB; try discriminate. cbn [xbind] in H.
    destruct (((c0 =? -1) && (c1 =? -1) || (c0 =? c1))%Z); [discriminate|].
    destruct (upd (x_nodes s3) k (mkDN p c0 c1)) as [n|] eqn:U; [|discriminate]. injection H as <- <-.
    assert (W0 : planes_wf s0) by exact W.
    destruct (export_plane_spec _ _ _ _ W0 EP) as [W1 [X1 [N1 [L1 [M1 [C1 [pl [PN [PD _]]]]]]]]].
    destruct (IHa _ _ _ W1 EA) as [RA [W2 [X2 [A1 [A2 [A3 [A4 _]]]]]]].
    destruct (IHb _ _ _ W2 EB) as [RB [W3 [X3 [B1 [B2 [B3 [B4 _]]]]]]].
    assert (L0 : x_leafs s0 = x_leafs s /\ x_marks s0 = x_marks s /\ x_clip s0 = x_clip s) by (repeat split; reflexivity).
    destruct L0 as [L0 [M0 C0]]. rewrite L0 in L1. rewrite M0 in M1. rewrite C0 in C1.
    assert (N1' : x_nodes s1 = x_nodes s ++ [mkDN 0 0 0]) by (rewrite N1; reflexivity).
    assert (PX : ext s1 s3) by (eapply ext_trans; eassumption).
    destruct PX as [Y1 [Y2 [Y3 [Y4 [Y5 Y6]]]]].
    assert (NN : exists x, x_nodes s3 = x_nodes s ++ mkDN 0 0 0 :: x).
    { destruct Y3 as [x Y3]. rewrite N1', <- app_assoc in Y3. exists x. exact Y3. }
    destruct NN as [x NN]. rewrite NN in U. unfold k in U. rewrite upd_app in U. injection U as <-.
    assert (KN : forall j m, S k <= j -> nth_error (x_nodes s3) j = Some m -> nth_error (x_nodes s ++ mkDN p c0 c1 :: x) j = Some m).
    { intros j m J X. rewrite NN in X. unfold k in J. rewrite nth_error_app2 in * by lia.
      destruct (j - length (x_nodes s)) as [|i] eqn:JJ; [lia|]. exact X. }
    split; [reflexivity|]. split; [exact W3|].
    destruct X1 as [Z1 [Z2 [Z3 [Z4 [Z5 Z6]]]]].
    split; [|split; [|split; [|split; [|split]]]].
    + split; [cbn [set_nodes x_planes]; rewrite Y1, Z1; reflexivity|]. cbn [set_nodes x_dplanes x_nodes x_leafs x_marks x_clip].
      split; [eapply prefix_trans; [exact Z2|exact Y2]|]. split; [eexists; reflexivity|].
      split; [eapply prefix_trans; [exact Z4|exact Y4]|]. split; [eapply prefix_trans; [exact Z5|exact Y5]|eapply prefix_trans; [exact Z6|exact Y6]].
    + cbn [repr]. exists k, (mkDN p c0 c1), pl. split; [apply le_n|]. split; [reflexivity|].
      split; [cbn [set_nodes x_nodes]; rewrite nth_error_app2 by (unfold k; lia); unfold k; rewrite Nat.sub_diag; reflexivity|].
      split; [cbn [set_nodes x_planes]; rewrite Y1, nth_error_map, PN; reflexivity|].
      split; [cbn [set_nodes x_dplanes dn_plane]; eapply prefix_nth; [exact Y2|exact PD]|].
      cbn [dn_c0 dn_c1].
      assert (LS1 : length (x_nodes s1) = S k) by (rewrite N1', app_length; cbn [length]; unfold k; lia).
      split.
      * assert (LE : k <= S k) by lia.
        eapply (repr_mono a (S k) k s3); [exact LE|exact KN|reflexivity|apply prefix_refl|apply prefix_refl|apply prefix_refl|].
        rewrite <- LS1. eapply repr_ext; [exact X3|exact A1].
      * assert (LE : k <= S k) by lia.
        eapply (repr_mono b (S k) k s3); [exact LE|exact KN|reflexivity|apply prefix_refl|apply prefix_refl|apply prefix_refl|].
        assert (LS2 : S k <= length (x_nodes s2)) by (rewrite <- LS1; apply prefix_length; apply X2).
        eapply repr_mono; [exact LS2| | | | | |exact B1]; auto; apply prefix_refl.
    + cbn [set_nodes x_leafs]. unfold exported in *. cbn [tleafs]. rewrite filter_app, recs_app.
      rewrite B2, A2, A3, L1, M1, app_length, <- app_assoc. reflexivity.
    + cbn [set_nodes x_marks]. unfold exported in *. cbn [tleafs]. rewrite filter_app, map_app, concat_app.
      rewrite B3, A3, M1, <- app_assoc. reflexivity.
    + cbn [set_nodes x_clip]. congruence.
    + cbn [set_nodes x_nodes]. rewrite app_length. cbn [length]. lia.
Qed.

Fixpoint depth {N L} (t : tree N L) : nat :=
  match t with Leaf _ => 0 | Node _ a b => S (Nat.max (depth a) (depth b)) end.

(** Side of each map plane, judged by the plane as written. *)
Definition sides (front : Q -> bool) (s : st) (n : nat) : bool :=
  match nth_error (map fst (x_planes s)) n with Some p => front (narrow p) | None => false end.

Lemma find_leaf_repr : forall t lo s r front fuel, depth t <= fuel -> repr lo s t r ->
  exists i, find_leaf fuel front s r = Some i /\
  let l := locate (sides front s) t in
  if negb q2 && lsolid solid l then i = 0 else leaf_at s i l.
Proof.
  induction t as [l|d a IHa b IHb]; intros lo s r front fuel D R; cbn [repr locate] in *.
  - destruct (negb q2 && lsolid solid l) eqn:E.
    + subst r. exists 0. split; [destruct fuel; reflexivity|]. cbn zeta. rewrite ?E. reflexivity.
    + destruct R as [i [E1 A]]. subst r. exists i. split; [|cbn zeta; rewrite ?E; exact A].
      assert (F : forall fu, find_leaf fu front s (- (Z.of_nat i + 1)) = Some i).
      { intro fu. destruct fu; cbn [find_leaf]; (replace (- (Z.of_nat i + 1) <? 0)%Z with true by (symmetry; apply Z.ltb_lt; lia));
          f_equal; lia. }
      apply F.
  - destruct R as [k [n [p [_ [E [N [PL [DP [A B]]]]]]]]]. subst r.
    cbn [depth] in D. destruct fuel as [|fuel]; [lia|]. cbn [find_leaf].
    replace (Z.of_nat k <? 0)%Z with false by (symmetry; apply Z.ltb_ge; lia).
    rewrite Nat2Z.id, N, DP. assert (SD : sides front s (nd_plane d) = front (narrow p)) by (unfold sides; rewrite PL; reflexivity).
    rewrite SD. destruct (front (narrow p)).
    + apply (IHa lo s (dn_c0 n) front fuel); [lia|exact A].
    + apply (IHb lo s (dn_c1 n) front fuel); [lia|exact B].
Qed.

(** When the export succeeds. *)
Fixpoint planes_below (m : nat) (t : ltree) : Prop :=
  match t with Leaf _ => True | Node d a b => nd_plane d < m /\ planes_below m a /\ planes_below m b end.

Fixpoint no_solid_pair (t : ltree) : Prop :=
  match t with
  | Leaf _ => True
  | Node _ a b => no_solid_pair a /\ no_solid_pair b /\ ~ (any_solid_leaf solid a = true /\ any_solid_leaf solid b = true)
  end.

Definition contents_ok (t : ltree) : Prop :=
  Forall (fun l => exported_leaf l = true -> export_contents (lf_contents l) <> None) (tleafs t).

Lemma export_draw_ok : forall t s, planes_wf s -> 1 <= length (x_leafs s) -> planes_below (length (x_planes s)) t ->
  (q2 = true \/ no_solid_pair t) -> contents_ok t ->
  exists r s', export_draw solid q2 narrow export_contents t s = X_ok (r, s').
Proof.
  induction t as [l|d a IHa b IHb]; intros s W L1 PB NS CO; cbn [export_draw].
  - destruct (negb q2 && lsolid solid l) eqn:E; [eauto|].
    unfold contents_ok in CO. cbn [tleafs] in CO. inversion CO as [|? ? X _]. subst.
    unfold export_leaf. destruct (export_contents (lf_contents l)) as [c|]; [cbn [xbind]; eauto|].
    exfalso. apply X; [|reflexivity]. unfold exported_leaf. destruct q2; destruct (lsolid solid l); cbn in *; congruence.
  - destruct PB as [P0 [PA PB]]. unfold contents_ok in CO. cbn [tleafs] in CO. apply Forall_app in CO. destruct CO as [CA CB].
    set (s0 := set_nodes s (x_nodes s ++ [mkDN 0 0 0])).
    destruct (export_plane_ok (nd_plane d) s0 P0) as [p [s1 EP]]. rewrite EP. cbn [xbind].
    assert (W0 : planes_wf s0) by exact W.
    destruct (export_plane_spec _ _ _ _ W0 EP) as [W1 [X1 [N1 [LL1 [M1 [C1 _]]]]]].
    assert (PL1 : length (x_planes s1) = length (x_planes s)).
    { destruct X1 as [X1 _]. rewrite <- (map_length fst (x_planes s1)), X1, map_length. reflexivity. }
    assert (LF1 : x_leafs s1 = x_leafs s) by (rewrite LL1; reflexivity).
    assert (NSA : q2 = true \/ no_solid_pair a) by (destruct NS as [NS|[NS _]]; auto).
    assert (NSB : q2 = true \/ no_solid_pair b) by (destruct NS as [NS|[_ [NS _]]]; auto).
    destruct (IHa s1 W1) as [c0 [s2 EA]]; [rewrite LF1; exact L1|rewrite PL1; exact PA|exact NSA|exact CA|].
    rewrite EA. cbn [xbind].
    destruct (export_draw_spec _ _ _ _ W1 EA) as [RA [W2 [X2 [_ [A2 [_ [_ A5]]]]]]].
    assert (PL2 : length (x_planes s2) = length (x_planes s)).
    { destruct X2 as [X2 _]. rewrite <- (map_length fst (x_planes s2)), X2, map_length. exact PL1. }
    assert (LF2 : 1 <= length (x_leafs s2)) by (rewrite A2, app_length, LF1; lia).
    destruct (IHb s2 W2) as [c1 [s3 EB]]; [exact LF2|rewrite PL2; exact PB|exact NSB|exact CB|].
    rewrite EB. cbn [xbind].
    destruct (export_draw_spec _ _ _ _ W2 EB) as [RB [W3 [X3 [_ [B2 [_ [_ B5]]]]]]].
    assert (DIFF : c0 <> c1).
    { subst c0 c1. unfold next_ref. rewrite ?LF1.
      destruct a as [la|da a1 a2]; destruct b as [lb|db b1 b2]; cbn [tleafs] in *.
      - destruct (negb q2 && lsolid solid la) eqn:E1; destruct (negb q2 && lsolid solid lb) eqn:E2; try lia.
        + destruct NS as [NS|[_ [_ NS]]]; [rewrite NS in E1; discriminate|].
          exfalso. apply NS. cbn [any_solid_leaf]. apply andb_true_iff in E1. apply andb_true_iff in E2. tauto.
        + rewrite A2, app_length, LF1. unfold exported, exported_leaf. cbn [tleafs filter].
          replace (q2 || negb (lsolid solid la)) with true by (destruct q2; destruct (lsolid solid la); cbn in *; congruence).
          rewrite recs_length. cbn [length]. lia.
      - destruct (negb q2 && lsolid solid la); lia.
      - destruct (negb q2 && lsolid solid lb); lia.
      - lia. }
    assert (ND : ((c0 =? -1) && (c1 =? -1) || (c0 =? c1))%Z = false).
    { apply orb_false_iff. split; [|apply Z.eqb_neq; exact DIFF].
      apply andb_false_iff. destruct (Z.eq_dec c0 (-1)) as [Y|Y]; [right|left]; apply Z.eqb_neq; congruence. }
    rewrite ND.
    assert (KL : length (x_nodes s) < length (x_nodes s3)).
    { assert (H1 : length (x_nodes s1) <= length (x_nodes s3)).
      { apply prefix_length. eapply prefix_trans; [apply X2|apply X3]. }
      rewrite N1 in H1. unfold s0 in H1. cbn [set_nodes x_nodes] in H1. rewrite app_length in H1. cbn [length] in H1. lia. }
    destruct (upd_some _ (x_nodes s3) (length (x_nodes s)) (mkDN p c0 c1) KL) as [n U]. rewrite U. eauto.
Qed.

(* ------------------------------------------------------------------------------------------- *)
(** ** Clip hull *)

Fixpoint crepr (lo : nat) (s : st) (t : ltree) (r : Z) : Prop :=
  match t with
  | Leaf l => native (lf_contents l) = Some r
  | Node d a b => exists k n p, lo <= k /\ r = Z.of_nat k /\ nth_error (x_clip s) k = Some n /\
                  nth_error (map fst (x_planes s)) (nd_plane d) = Some p /\
                  nth_error (x_dplanes s) (dn_plane n) = Some (narrow p) /\
                  crepr lo s a (dn_c0 n) /\ crepr lo s b (dn_c1 n)
  end.

Lemma crepr_mono : forall t lo lo' s s' r, lo' <= lo ->
  (forall k n, lo <= k -> nth_error (x_clip s) k = Some n -> nth_error (x_clip s') k = Some n) ->
  map fst (x_planes s') = map fst (x_planes s) -> prefix (x_dplanes s) (x_dplanes s') ->
  crepr lo s t r -> crepr lo' s' t r.
Proof.
  induction t as [l|d a IHa b IHb]; intros lo lo' s s' r LO HN HP HD H; cbn [crepr] in *; [exact H|].
  destruct H as [k [n [p [K [E [N [PL [DP [A B]]]]]]]]]. exists k, n, p. split; [lia|]. split; [exact E|].
  split; [apply HN; assumption|]. split; [congruence|]. split; [eapply prefix_nth; eassumption|].
  split; [eapply IHa; eassumption|eapply IHb; eassumption].
Qed.

Lemma crepr_ext : forall t lo s s' r, ext s s' -> crepr lo s t r -> crepr lo s' t r.
Proof.
  intros t lo s s' r [E1 [E2 [E3 [E4 [E5 E6]]]]] H. eapply crepr_mono; [apply le_n| | | |exact H]; try eassumption.
  intros k n _ X. eapply prefix_nth; eassumption.
Qed.

Lemma export_clip_spec : forall t s r s', planes_wf s -> export_clip narrow native t s = X_ok (r, s') ->
  planes_wf s' /\ ext s s' /\ crepr (length (x_clip s)) s' t r.
Proof.
  induction t as [l|d a IHa b IHb]; intros s r s' W H; cbn [export_clip] in H.
  - destruct (native (lf_contents l)) as [c|] eqn:E; [|discriminate]. injection H as <- <-.
    split; [exact W|]. split; [apply ext_refl|exact E].
  - set (k := length (x_clip s)) in *. set (s0 := set_clip s (x_clip s ++ [mkDN 0 0 0])) in *.
    destruct (export_clip narrow native a s0) as [[c0 s1]| |] eqn:EA; try discriminate. cbn [xbind] in H.
    destruct (export_clip narrow native b s1) as [[c1 s2]| |] eqn:EB; try discriminate. cbn [xbind] in H.
    destruct (export_plane narrow (nd_plane d) s2) as [[p s3]| |] eqn:EP; try discriminate. cbn [xbind] in H.
    destruct (upd (x_clip s3) k (mkDN p c0 c1)) as [n|] eqn:U; [|discriminate]. injection H as <- <-.
    assert (W0 : planes_wf s0) by exact W.
    destruct (IHa _ _ _ W0 EA) as [W1 [X1 A1]]. destruct (IHb _ _ _ W1 EB) as [W2 [X2 B1]].
    destruct (export_plane_spec _ _ _ _ W2 EP) as [W3 [X3 [N1 [L1 [M1 [C1 [pl [PN [PD _]]]]]]]]].
    assert (PX : ext s0 s3) by (eapply ext_trans; [exact X1|]; eapply ext_trans; eassumption).
    destruct PX as [Y1 [Y2 [Y3 [Y4 [Y5 Y6]]]]].
    assert (NN : exists x, x_clip s3 = x_clip s ++ mkDN 0 0 0 :: x).
    { destruct Y6 as [x Y6]. unfold s0 in Y6. cbn [set_clip x_clip] in Y6. rewrite <- app_assoc in Y6. exists x. exact Y6. }
    destruct NN as [x NN]. rewrite NN in U. unfold k in U. rewrite upd_app in U. injection U as <-.
    assert (KN : forall j m, S k <= j -> nth_error (x_clip s3) j = Some m -> nth_error (x_clip s ++ mkDN p c0 c1 :: x) j = Some m).
    { intros j m J X. rewrite NN in X. unfold k in J. rewrite nth_error_app2 in * by lia.
      destruct (j - length (x_clip s)) as [|i] eqn:JJ; [lia|]. exact X. }
    split; [exact W3|]. split.
    + split; [cbn [set_clip x_planes]; rewrite Y1; reflexivity|]. cbn [set_clip x_dplanes x_nodes x_leafs x_marks x_clip].
      split; [exact Y2|]. split; [exact Y3|]. split; [exact Y4|]. split; [exact Y5|]. eexists. reflexivity.
    + cbn [crepr]. exists k, (mkDN p c0 c1), pl. split; [apply le_n|]. split; [reflexivity|].
      split; [cbn [set_clip x_clip]; rewrite nth_error_app2 by (unfold k; lia); unfold k; rewrite Nat.sub_diag; reflexivity|].
      split; [cbn [set_clip x_planes]; rewrite nth_error_map, PN; reflexivity|].
      split; [exact PD|]. cbn [dn_c0 dn_c1].
      assert (LS0 : length (x_clip s0) = S k) by (unfold s0; cbn [set_clip x_clip]; rewrite app_length; cbn [length]; unfold k; lia).
      assert (LE : k <= S k) by lia.
      split.
      * eapply (crepr_mono a (S k) k s3); [exact LE|exact KN|reflexivity|apply prefix_refl|].
        rewrite <- LS0. eapply crepr_ext; [exact X3|]. eapply crepr_ext; [exact X2|exact A1].
      * eapply (crepr_mono b (S k) k s3); [exact LE|exact KN|reflexivity|apply prefix_refl|].
        assert (LS1 : S k <= length (x_clip s1)) by (rewrite <- LS0; apply prefix_length; apply X1).
        eapply crepr_ext; [exact X3|]. eapply crepr_mono; [exact LS1| | | |exact B1]; auto; apply prefix_refl.
Qed.

Hypothesis native_neg : forall c z, native c = Some z -> (z < 0)%Z.

Lemma find_contents_repr : forall t lo s r front fuel, depth t <= fuel -> crepr lo s t r ->
  find_contents fuel front (x_dplanes s) (x_clip s) r = native (lf_contents (locate (sides front s) t)).
Proof.
  induction t as [l|d a IHa b IHb]; intros lo s r front fuel D R; cbn [crepr locate] in *.
  - rewrite R. apply native_neg in R.
    assert (F : forall fu, find_contents fu front (x_dplanes s) (x_clip s) r = Some r).
    { intro fu. destruct fu; cbn [find_contents]; (replace (r <? 0)%Z with true by (symmetry; apply Z.ltb_lt; lia)); reflexivity. }
    apply F.
  - destruct R as [k [n [p [_ [E [N [PL [DP [A B]]]]]]]]]. subst r.
    cbn [depth] in D. destruct fuel as [|fuel]; [lia|]. cbn [find_contents].
    replace (Z.of_nat k <? 0)%Z with false by (symmetry; apply Z.ltb_ge; lia).
    rewrite Nat2Z.id, N, DP. assert (SD : sides front s (nd_plane d) = front (narrow p)) by (unfold sides; rewrite PL; reflexivity).
    rewrite SD. destruct (front (narrow p)).
    + apply (IHa lo s (dn_c0 n) front fuel); [lia|exact A].
    + apply (IHb lo s (dn_c1 n) front fuel); [lia|exact B].
Qed.
End S.

Lemma up_down : forall v u, downcast v = Some u -> upcast u = v.
Proof.
  intros v u H. unfold downcast in H. destruct ((v <? -15) || (v >? 65520))%Z eqn:E; [discriminate|].
  apply orb_false_iff in E. destruct E as [E1 E2]. apply Z.ltb_ge in E1. rewrite Z.gtb_ltb in E2. apply Z.ltb_ge in E2.
  injection H as <-. unfold upcast. destruct (v <? 0)%Z eqn:N.
  - apply Z.ltb_lt in N. replace (v + 65536 >? 65520)%Z with true by (symmetry; rewrite Z.gtb_ltb; apply Z.ltb_lt; lia). lia.
  - apply Z.ltb_ge in N. replace (v >? 65520)%Z with false by (symmetry; rewrite Z.gtb_ltb; apply Z.ltb_ge; lia). reflexivity.
Qed.

Lemma clip16_id : forall clip l, clip16 clip = Some l -> l = clip.
Proof.
  intros clip. unfold clip16. induction clip as [|d clip IH]; intros l H; cbn [map all_some] in H.
  - injection H as <-. reflexivity.
  - unfold downcast_node in H at 1. destruct (downcast (dn_c0 d)) as [a|] eqn:A; [|discriminate].
    destruct (downcast (dn_c1 d)) as [b|] eqn:B; [|discriminate].
    destruct (all_some (map downcast_node clip)) as [r|]; [|discriminate]. injection H as <-. cbn [map].
    rewrite (IH _ eq_refl). unfold upcast_node. cbn [dn_plane dn_c0 dn_c1].
    rewrite (up_down _ _ A), (up_down _ _ B). destruct d. reflexivity.
Qed.
