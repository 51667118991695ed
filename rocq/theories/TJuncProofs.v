(** Proofs about the T-junction fixer model of TJuncModel.v. *)

From Coq Require Import List Arith Bool ZArith Lia Permutation Sorted.
From Verif Require Import TJuncModel.
Import ListNotations.

(* ------------------------------------------------------------------ *)
(** * Specification vocabulary *)

(** The triangles a polygon is drawn as: a fan from its first vertex. *)
Definition fan_tris (p : list nat) : list tri :=
  match p with
  | [] => []
  | v :: r => map (fun '(a, b) => (v, a, b)) (combine r (tl r))
  end.

(** The same triangle, starting at another of its vertices. *)
Definition same_tri (s t : tri) : Prop :=
  let '(a, b, c) := s in t = (a, b, c) \/ t = (b, c, a) \/ t = (c, a, b).

(** [T] cuts the polygon of vertices i, i+1, ..., j into triangles. *)
Inductive Triangulation : nat -> nat -> list tri -> Prop :=
| TrEdge : forall i, Triangulation i (S i) []
| TrCut : forall i k j t1 t2, i < k < j ->
    Triangulation i k t1 -> Triangulation k j t2 ->
    Triangulation i j ((i, k, j) :: t1 ++ t2).

(** Sum of [f] over the edges of the closed polygon [p]. *)
Fixpoint path_sum (f : nat -> nat -> Z) (v : nat) (r : list nat) (back : nat) : Z :=
  match r with
  | [] => f v back
  | w :: r' => (f v w + path_sum f w r' back)%Z
  end.

Definition loop_sum (f : nat -> nat -> Z) (p : list nat) : Z :=
  match p with [] => 0%Z | v :: r => path_sum f v r v end.

Definition sum_map {A} (f : A -> Z) (l : list A) : Z := fold_right (fun x a => (f x + a)%Z) 0%Z l.

Definition antisym (f : nat -> nat -> Z) : Prop := forall a b, f a b = (- f b a)%Z.

(** Neighbours in a list. *)
Definition consecutive {A} (a b : A) (l : list A) : Prop :=
  exists l1 l2, l = l1 ++ a :: b :: l2.

(* ------------------------------------------------------------------ *)
(** * General *)

Lemma sum_map_app : forall A (f : A -> Z) l1 l2,
  sum_map f (l1 ++ l2) = (sum_map f l1 + sum_map f l2)%Z.
Proof.
  intros A f l1 l2; induction l1 as [|x l1 IH].
  - reflexivity.
  - cbn [app sum_map fold_right] in *.
    change (fold_right (fun x a => (f x + a)%Z) 0%Z (l1 ++ l2)) with (sum_map f (l1 ++ l2)).
    change (fold_right (fun x a => (f x + a)%Z) 0%Z l1) with (sum_map f l1).
    rewrite IH. lia.
Qed.

Lemma sum_map_cons : forall A (f : A -> Z) x l, sum_map f (x :: l) = (f x + sum_map f l)%Z.
Proof. reflexivity. Qed.

Lemma sum_map_perm : forall A (f : A -> Z) l1 l2,
  Permutation l1 l2 -> sum_map f l1 = sum_map f l2.
Proof.
  intros A f l1 l2 H; induction H; rewrite ?sum_map_cons in *; try lia; reflexivity.
Qed.

Lemma sum_map_flat_map : forall A B (f : B -> Z) (g : A -> list B) l,
  sum_map f (flat_map g l) = sum_map (fun x => sum_map f (g x)) l.
Proof.
  intros A B f g l; induction l as [|x l IH]; [reflexivity|].
  cbn [flat_map]. rewrite sum_map_app, sum_map_cons, IH. reflexivity.
Qed.

Lemma sum_map_forall2 : forall A B (f : A -> Z) (g : B -> Z) l1 l2,
  Forall2 (fun a b => f a = g b) l1 l2 -> sum_map f l1 = sum_map g l2.
Proof.
  intros A B f g l1 l2 H; induction H; [reflexivity|].
  rewrite !sum_map_cons. lia.
Qed.

Definition tri_sum (f : nat -> nat -> Z) (t : tri) : Z :=
  let '(a, b, c) := t in (f a b + f b c + f c a)%Z.

Lemma sum_tri_cons : forall f (t : tri) (l : list tri),
  sum_map (tri_sum f) (t :: l) = (tri_sum f t + sum_map (tri_sum f) l)%Z.
Proof. reflexivity. Qed.

Lemma sum_tri_app : forall f (l1 l2 : list tri),
  sum_map (tri_sum f) (l1 ++ l2) = (sum_map (tri_sum f) l1 + sum_map (tri_sum f) l2)%Z.
Proof. intros; apply sum_map_app. Qed.

Lemma same_tri_sum : forall f s t, same_tri s t -> tri_sum f s = tri_sum f t.
Proof.
  intros f [[a b] c] t H; unfold same_tri in H; destruct H as [H|[H|H]]; subst t;
    unfold tri_sum; lia.
Qed.

Lemma fan_tris_cons : forall v a b r,
  fan_tris (v :: a :: b :: r) = (v, a, b) :: fan_tris (v :: b :: r).
Proof. intros; reflexivity. Qed.

Lemma path_sum_fan : forall f, antisym f -> forall v r a,
  path_sum f a r v = (sum_map (tri_sum f) (fan_tris (v :: a :: r)) - f v a)%Z.
Proof.
  intros f Hf v r; induction r as [|b r IH]; intros a.
  - cbn. pose proof (Hf a v). lia.
  - rewrite fan_tris_cons, sum_tri_cons. cbn [path_sum]. rewrite IH.
    change (tri_sum f (v, a, b)) with (f v a + f a b + f b v)%Z. pose proof (Hf b v). lia.
Qed.

(** Summing an antisymmetric function over the edges of a polygon is summing it
    over the triangles it is drawn as. *)
Lemma loop_sum_fan : forall f, antisym f -> forall p,
  loop_sum f p = sum_map (tri_sum f) (fan_tris p).
Proof.
  intros f Hf [|v [|a r]].
  - reflexivity.
  - cbn. specialize (Hf v v). lia.
  - cbn [loop_sum path_sum]. rewrite (path_sum_fan f Hf). lia.
Qed.

Lemma path_sum_app : forall f v r1 w r2 back,
  path_sum f v (r1 ++ w :: r2) back = (path_sum f v r1 w + path_sum f w r2 back)%Z.
Proof.
  intros f v r1; revert v; induction r1 as [|x r1 IH]; intros v w r2 back.
  - reflexivity.
  - cbn [app path_sum]. rewrite IH. lia.
Qed.

Lemma loop_sum_rotate : forall f i p, i <= length p -> loop_sum f (rotate i p) = loop_sum f p.
Proof.
  intros f i p Hi. unfold rotate.
  rewrite <- (firstn_skipn i p) at 3.
  generalize (firstn i p) (skipn i p); intros l1 l2.
  destruct l1 as [|a l1]; [rewrite app_nil_r; reflexivity|].
  destruct l2 as [|b l2]; [rewrite app_nil_r; reflexivity|].
  cbn [app loop_sum]. rewrite !path_sum_app. lia.
Qed.

(** The triangles of a triangulation add up to the polygon. *)
Lemma triangulation_range : forall i j T, Triangulation i j T -> i < j.
Proof. intros i j T H; induction H; lia. Qed.

Lemma triangulation_length : forall i j T, Triangulation i j T -> length T = j - i - 1.
Proof.
  intros i j T H; induction H as [i|i k j t1 t2 Hk H1 IH1 H2 IH2]; [cbn [length]; lia|].
  cbn [length]. rewrite app_length, IH1, IH2.
  pose proof (triangulation_range _ _ _ H1). pose proof (triangulation_range _ _ _ H2). lia.
Qed.

Lemma triangulation_bounds : forall i j T, Triangulation i j T ->
  Forall (fun t => let '(a, b, c) := t in i <= a /\ a < b /\ b < c /\ c <= j) T.
Proof.
  intros i j T H; induction H as [i|i k j t1 t2 Hk H1 IH1 H2 IH2]; [constructor|].
  constructor; [lia|].
  apply Forall_app; split; (eapply Forall_impl; [|eassumption]); intros [[a b] c]; cbn; lia.
Qed.

Lemma triangulation_nodup : forall i j T, Triangulation i j T -> NoDup T.
Proof.
  intros i j T H; induction H as [i|i k j t1 t2 Hk H1 IH1 H2 IH2]; [constructor|].
  pose proof (triangulation_bounds _ _ _ H1) as B1.
  pose proof (triangulation_bounds _ _ _ H2) as B2.
  rewrite Forall_forall in B1, B2.
  constructor.
  - rewrite in_app_iff. intros [Hin|Hin]; [apply B1 in Hin|apply B2 in Hin]; lia.
  - clear H1 H2. induction t1 as [|x t1 IH]; [exact IH2|].
    inversion IH1 as [|? ? Hn Hd]; subst.
    cbn [app]. constructor.
    + rewrite in_app_iff. intros [Hin|Hin]; [contradiction|].
      apply B2 in Hin. specialize (B1 x (or_introl eq_refl)).
      destruct x as [[a b] c]. lia.
    + apply IH; [exact Hd|]. intros y Hy. apply B1. right. exact Hy.
Qed.

Lemma triangulation_sum : forall f, antisym f -> forall i j T, Triangulation i j T ->
  sum_map (tri_sum f) T =
  (path_sum f i (seq (S i) (j - i - 1)) j - f i j)%Z.
Proof.
  intros f Hf i j T H; induction H as [i|i k j t1 t2 Hk H1 IH1 H2 IH2].
  - replace (S i - i - 1) with 0 by lia. cbn. lia.
  - rewrite sum_tri_cons, sum_tri_app, IH1, IH2.
    replace (j - i - 1) with ((k - i - 1) + S (j - k - 1)) by lia.
    rewrite seq_app. replace (S i + (k - i - 1)) with k by lia.
    cbn [seq]. rewrite path_sum_app. unfold tri_sum. rewrite (Hf j i). lia.
Qed.

(* ------------------------------------------------------------------ *)
(** * Vertices on an edge *)

(** The pushed vertices together with their distances. *)
Fixpoint test_edge_d (rd : Z -> Z) (pos : nat -> option Z) (s e : Z) (p1 p2 : nat)
  (cs : list nat) : list (nat * Z) :=
  if p1 =? p2 then []
  else
    match cs with
    | [] => [(p1, s)]
    | j :: cs' =>
        if (j =? p1) || (j =? p2) then test_edge_d rd pos s e p1 p2 cs'
        else
          match point_on_edge rd pos j s e with
          | None => test_edge_d rd pos s e p1 p2 cs'
          | Some d =>
              test_edge_d rd pos s d p1 j cs' ++ test_edge_d rd pos d e j p2 cs'
          end
    end.

Lemma test_edge_d_fst : forall rd pos cs s e p1 p2,
  map fst (test_edge_d rd pos s e p1 p2 cs) = test_edge rd pos s e p1 p2 cs.
Proof.
  intros rd pos cs; induction cs as [|j cs IH]; intros s e p1 p2;
    cbn [test_edge_d test_edge]; destruct (p1 =? p2); try reflexivity.
  destruct ((j =? p1) || (j =? p2)); [apply IH|].
  destruct (point_on_edge rd pos j s e); [|apply IH].
  rewrite map_app, !IH. reflexivity.
Qed.

Lemma point_on_edge_some : forall rd pos v s e d,
  point_on_edge rd pos v s e = Some d -> pos v = Some d /\ (rd s < d < rd e)%Z.
Proof.
  intros rd pos v s e d H; unfold point_on_edge in H.
  destruct (pos v) as [d'|]; [|discriminate].
  destruct ((d' <=? rd s)%Z || (rd e <=? d')%Z) eqn:E; [discriminate|].
  apply orb_false_iff in E. destruct E as [E1 E2].
  apply Z.leb_gt in E1. apply Z.leb_gt in E2.
  injection H as ->. split; [reflexivity|lia].
Qed.

Lemma test_edge_d_head : forall rd pos cs s e p1 p2, p1 <> p2 ->
  exists r, test_edge_d rd pos s e p1 p2 cs = (p1, s) :: r /\
    Forall (fun vd => pos (fst vd) = Some (snd vd) /\ In (fst vd) cs) r.
Proof.
  intros rd pos cs; induction cs as [|j cs IH]; intros s e p1 p2 Hne;
    cbn [test_edge_d]; apply Nat.eqb_neq in Hne; rewrite Hne.
  - exists []. split; [reflexivity|constructor].
  - apply Nat.eqb_neq in Hne.
    assert (Hw : forall r, Forall (fun vd : nat * Z => pos (fst vd) = Some (snd vd) /\ In (fst vd) cs) r ->
              Forall (fun vd : nat * Z => pos (fst vd) = Some (snd vd) /\ In (fst vd) (j :: cs)) r).
    { intros r Hr. eapply Forall_impl; [|exact Hr]. intros a [H1 H2]. split; [exact H1|right; exact H2]. }
    destruct ((j =? p1) || (j =? p2)) eqn:Ej.
    + destruct (IH s e p1 p2 Hne) as (r & Hr & Hf). exists r. split; [exact Hr|]. apply Hw, Hf.
    + apply orb_false_iff in Ej. destruct Ej as [Ej1 Ej2].
      apply Nat.eqb_neq in Ej1. apply Nat.eqb_neq in Ej2.
      destruct (point_on_edge rd pos j s e) as [d|] eqn:Ed.
      * destruct (IH s d p1 j (not_eq_sym Ej1)) as (r1 & Hr1 & Hf1).
        destruct (IH d e j p2 Ej2) as (r2 & Hr2 & Hf2).
        exists (r1 ++ (j, d) :: r2). rewrite Hr1, Hr2. split; [reflexivity|].
        apply Forall_app. split; [apply Hw, Hf1|].
        constructor; [|apply Hw, Hf2].
        apply point_on_edge_some in Ed. cbn. split; [tauto|left; reflexivity].
      * destruct (IH s e p1 p2 Hne) as (r & Hr & Hf). exists r. split; [exact Hr|]. apply Hw, Hf.
Qed.

Lemma consecutive_app : forall A (a b x : A) l1 l2,
  consecutive a b (l1 ++ x :: l2) -> consecutive a b (l1 ++ [x]) \/ consecutive a b (x :: l2).
Proof.
  intros A a b x l1; induction l1 as [|y l1 IH]; intros l2 H.
  - right. exact H.
  - destruct H as (m1 & m2 & H).
    destruct m1 as [|z m1].
    + cbn [app] in H. injection H as Hy H. subst y.
      left. destruct l1 as [|w l1].
      * cbn [app] in H. injection H as Hx _. subst. exists [], []. reflexivity.
      * cbn [app] in H. injection H as Hx _. subst. exists [], (l1 ++ [x]). reflexivity.
    + cbn [app] in H. injection H as Hz H.
      destruct (IH l2 (ex_intro _ m1 (ex_intro _ m2 H))) as [(q1 & q2 & Hq)|Hq].
      * left. exists (y :: q1), q2. cbn [app]. rewrite Hq. reflexivity.
      * right. exact Hq.
Qed.

(** Once a vertex is off a stretch of the edge, it is off every part of it. *)
Definition rounding (rd : Z -> Z) : Prop :=
  (forall x y, (x <= y)%Z -> (rd x <= rd y)%Z) /\ (forall x, rd (rd x) = rd x).

Lemma test_edge_inside : forall rd pos, rounding rd -> forall cs s e p1 p2 a b,
  (rd s <= rd e)%Z ->
  consecutive a b (map snd (test_edge_d rd pos s e p1 p2 cs) ++ [e]) ->
  (rd s <= rd a)%Z /\ (rd b <= rd e)%Z.
Proof.
  intros rd pos [Hm Hi] cs; induction cs as [|j cs IH]; intros s e p1 p2 a b Hse Hc;
    cbn [test_edge_d] in Hc; destruct (p1 =? p2) eqn:Ep.
  - destruct Hc as ([|x l1] & l2 & Hc); cbn in Hc; [|destruct l1]; discriminate.
  - cbn in Hc. destruct Hc as ([|x [|y l1]] & l2 & Hc); cbn in Hc.
    + injection Hc as -> -> _. lia.
    + discriminate.
    + destruct l1; discriminate.
  - destruct Hc as ([|x l1] & l2 & Hc); cbn in Hc; [|destruct l1]; discriminate.
  - destruct ((j =? p1) || (j =? p2)) eqn:Ej; [eapply IH; eassumption|].
    destruct (point_on_edge rd pos j s e) as [d|] eqn:Ed; [|eapply IH; eassumption].
    apply orb_false_iff in Ej. destruct Ej as [Ej1 Ej2].
    apply Nat.eqb_neq in Ej1. apply Nat.eqb_neq in Ej2.
    apply point_on_edge_some in Ed. destruct Ed as [_ [Hd1 Hd2]].
    assert (H1 : (rd s <= rd d)%Z) by (rewrite <- (Hi s); apply Hm; lia).
    assert (H2 : (rd d <= rd e)%Z) by (rewrite <- (Hi e); apply Hm; lia).
    destruct (test_edge_d_head rd pos cs d e j p2 Ej2) as (r2 & Hr2 & _).
    rewrite map_app, <- app_assoc in Hc. rewrite Hr2 in Hc. cbn [map snd app] in Hc.
    apply consecutive_app in Hc. destruct Hc as [Hc|Hc].
    + apply IH in Hc; [|exact H1]. lia.
    + assert (Hc' : consecutive a b (map snd (test_edge_d rd pos d e j p2 cs) ++ [e]))
        by (rewrite Hr2; exact Hc).
      apply IH in Hc'; [|exact H2]. lia.
Qed.

Lemma test_edge_complete : forall rd pos, rounding rd -> forall cs s e p1 p2,
  p1 <> p2 -> (rd s <= rd e)%Z ->
  forall j, In j cs ->
    In j (map fst (test_edge_d rd pos s e p1 p2 cs) ++ [p2]) \/
    forall a b, consecutive a b (map snd (test_edge_d rd pos s e p1 p2 cs) ++ [e]) ->
      point_on_edge rd pos j a b = None.
Proof.
  intros rd pos Hrd cs; induction cs as [|x cs IH]; intros s e p1 p2 Hne Hse j Hj; [destruct Hj|].
  destruct (test_edge_d_head rd pos (x :: cs) s e p1 p2 Hne) as (r0 & Hr0 & _).
  assert (Hp1 : In p1 (map fst (test_edge_d rd pos s e p1 p2 (x :: cs)) ++ [p2]))
    by (rewrite Hr0; left; reflexivity).
  assert (Hp2 : In p2 (map fst (test_edge_d rd pos s e p1 p2 (x :: cs)) ++ [p2]))
    by (apply in_or_app; right; left; reflexivity).
  clear Hr0 r0.
  destruct (point_on_edge rd pos j s e) as [dj|] eqn:Edj.
  2: { right. intros a b Hc.
       apply (test_edge_inside rd pos Hrd) in Hc; [|exact Hse].
       unfold point_on_edge in *. destruct (pos j) as [d|]; [|reflexivity].
       destruct ((d <=? rd s)%Z || (rd e <=? d)%Z) eqn:E; [|discriminate].
       replace ((d <=? rd a)%Z || (rd b <=? d)%Z) with true; [reflexivity|].
       symmetry. apply orb_true_iff in E. apply orb_true_iff.
       destruct E as [E|E]; [left|right]; apply Z.leb_le in E; apply Z.leb_le; lia. }
  cbn [test_edge_d] in *. pose proof Hne as Hne'. apply Nat.eqb_neq in Hne'. rewrite Hne' in *.
  destruct ((x =? p1) || (x =? p2)) eqn:Ex.
  { destruct Hj as [Hj|Hj].
    - subst x. left. apply orb_true_iff in Ex.
      destruct Ex as [Ex|Ex]; apply Nat.eqb_eq in Ex; subst j; assumption.
    - apply IH; assumption. }
  apply orb_false_iff in Ex. destruct Ex as [Ex1 Ex2].
  apply Nat.eqb_neq in Ex1. apply Nat.eqb_neq in Ex2.
  destruct (point_on_edge rd pos x s e) as [d|] eqn:Ed.
  2: { destruct Hj as [Hj|Hj]; [subst x; congruence|]. apply IH; assumption. }
  apply point_on_edge_some in Ed. destruct Ed as [_ [Hd1 Hd2]].
  destruct Hrd as [Hm Hi].
  assert (H1 : (rd s <= rd d)%Z) by (rewrite <- (Hi s); apply Hm; lia).
  assert (H2 : (rd d <= rd e)%Z) by (rewrite <- (Hi e); apply Hm; lia).
  destruct (test_edge_d_head rd pos cs d e x p2 Ex2) as (r2 & Hr2 & _).
  destruct Hj as [Hj|Hj].
  { subst x. left. rewrite map_app, Hr2. apply in_or_app. left. apply in_or_app. right. left. reflexivity. }
  destruct (IH s d p1 x (not_eq_sym Ex1) H1 j Hj) as [HL|HL].
  { left. rewrite map_app, Hr2. apply in_app_or in HL.
    destruct HL as [HL|[HL|[]]].
    - apply in_or_app. left. apply in_or_app. left. exact HL.
    - subst j. apply in_or_app. left. apply in_or_app. right. left. reflexivity. }
  destruct (IH d e x p2 Ex2 H2 j Hj) as [HR|HR].
  { left. rewrite map_app, <- app_assoc. apply in_or_app. right. exact HR. }
  right. intros a b Hc. rewrite map_app, <- app_assoc in Hc.
  rewrite Hr2 in Hc. cbn [map snd app] in Hc.
  apply consecutive_app in Hc. destruct Hc as [Hc|Hc]; [apply HL, Hc|].
  apply HR. rewrite Hr2. exact Hc.
Qed.

Lemma sorted_app : forall (l1 : list Z) x l2,
  StronglySorted Z.lt (l1 ++ [x]) -> StronglySorted Z.lt (x :: l2) ->
  StronglySorted Z.lt (l1 ++ x :: l2).
Proof.
  intros l1 x l2; induction l1 as [|a l1 IH]; intros H1 H2; [exact H2|].
  cbn [app] in *. inversion H1 as [|? ? Hs Hf]; subst.
  constructor; [apply IH; assumption|].
  apply Forall_app in Hf. destruct Hf as [Hf1 Hf2].
  inversion Hf2 as [|? ? Hx _]; subst.
  apply Forall_app. split; [exact Hf1|]. constructor; [exact Hx|].
  inversion H2 as [|? ? _ Hf]; subst. eapply Forall_impl; [|exact Hf]. cbn. intros; lia.
Qed.

(** With exact distances the vertices come in order along the edge. *)
Lemma test_edge_sorted : forall pos cs s e p1 p2, (s < e)%Z -> p1 <> p2 ->
  StronglySorted Z.lt (map snd (test_edge_d (fun x => x) pos s e p1 p2 cs) ++ [e]).
Proof.
  intros pos cs; induction cs as [|x cs IH]; intros s e p1 p2 Hse Hne;
    cbn [test_edge_d]; pose proof Hne as Hne'; apply Nat.eqb_neq in Hne'; rewrite Hne'.
  - cbn. repeat constructor. exact Hse.
  - destruct ((x =? p1) || (x =? p2)) eqn:Ex; [apply IH; assumption|].
    apply orb_false_iff in Ex. destruct Ex as [Ex1 Ex2].
    apply Nat.eqb_neq in Ex1. apply Nat.eqb_neq in Ex2.
    destruct (point_on_edge (fun x => x) pos x s e) as [d|] eqn:Ed; [|apply IH; assumption].
    apply point_on_edge_some in Ed. destruct Ed as [_ [Hd1 Hd2]].
    destruct (test_edge_d_head (fun x => x) pos cs d e x p2 Ex2) as (r2 & Hr2 & _).
    rewrite map_app, <- app_assoc.
    pose proof (IH s d p1 x Hd1 (not_eq_sym Ex1)) as S1.
    pose proof (IH d e x p2 Hd2 Ex2) as S2.
    rewrite Hr2 in S2 |- *. cbn [map snd app] in *.
    apply sorted_app; assumption.
Qed.

(* ------------------------------------------------------------------ *)
(** * Cutting large faces *)

Lemma combine_tl_app : forall (l : list nat) x r,
  combine (l ++ x :: r) (tl (l ++ x :: r)) =
  combine (l ++ [x]) (tl (l ++ [x])) ++ combine (x :: r) r.
Proof.
  induction l as [|y l IH]; intros x r.
  - cbn [app tl combine]. reflexivity.
  - cbn [app tl]. destruct l as [|z l].
    + reflexivity.
    + specialize (IH x r). cbn [app tl] in *. cbn [combine]. rewrite <- app_comm_cons. f_equal.
      exact IH.
Qed.

Lemma fan_tris_split : forall v l x r,
  fan_tris (v :: l ++ x :: r) = fan_tris (v :: l ++ [x]) ++ fan_tris (v :: x :: r).
Proof.
  intros v l x r. unfold fan_tris. rewrite combine_tl_app, map_app. reflexivity.
Qed.

Lemma split_face_spec : forall m, 3 <= m -> forall fuel sf,
  length sf <= fuel -> 3 <= length sf ->
  exists rest new, split_face fuel m sf = Some (rest, new) /\
    3 <= length rest <= m /\ Forall (fun p => length p = m) new /\
    flat_map fan_tris new ++ fan_tris rest = fan_tris sf /\
    (length sf <= m -> rest = sf /\ new = []).
Proof.
  intros m Hm fuel; induction fuel as [|fuel IH]; intros sf Hf Hl; [lia|].
  cbn [split_face]. destruct (length sf <=? m) eqn:E.
  - apply Nat.leb_le in E. exists sf, []. repeat split; auto; lia.
  - apply Nat.leb_gt in E.
    destruct sf as [|v sf]; [cbn in Hl; lia|].
    assert (Hd : exists l x r, sf = l ++ x :: r /\ length l = m - 2).
    { exists (firstn (m - 2) sf). cbn [length] in *.
      destruct (skipn (m - 2) sf) as [|x r] eqn:Es.
      - assert (length (skipn (m - 2) sf) = 0) by (rewrite Es; reflexivity).
        rewrite skipn_length in *. lia.
      - exists x, r. rewrite <- Es, firstn_skipn. split; [reflexivity|].
        rewrite firstn_length. lia. }
    destruct Hd as (l & x & r & -> & Hlen).
    assert (Hs : skipn (m - 1) (v :: l ++ x :: r) = x :: r).
    { replace (m - 1) with (S (length l)) by lia. cbn [skipn].
      rewrite skipn_app, skipn_all, Nat.sub_diag. reflexivity. }
    assert (Hfn : firstn m (v :: l ++ x :: r) = v :: l ++ [x]).
    { replace m with (S (length l + 1)) by lia. cbn [firstn].
      rewrite firstn_app_2. reflexivity. }
    rewrite Hs, Hfn. cbn [firstn app].
    cbn [length] in *. rewrite app_length in *. cbn [length] in *.
    destruct (IH (v :: x :: r)) as (rest & new & He & Hr & Hn & Ht & _).
    { cbn [length]. lia. }
    { cbn [length]. lia. }
    rewrite He. exists rest, ((v :: l ++ [x]) :: new).
    split; [reflexivity|]. split; [exact Hr|]. split.
    { constructor; [|exact Hn]. cbn [length]. rewrite app_length. cbn. lia. }
    split; [|intros; lia].
    cbn [flat_map]. rewrite <- app_assoc, Ht, <- fan_tris_split. reflexivity.
Qed.

(** Only the first face of the list is ever looked at. *)
Lemma split_faces_spec : forall m, 3 <= m -> forall fuel f fs, 3 <= length f ->
  exists rest new, split_faces (S fuel) m (f :: fs) 0 = Some (fs ++ new ++ [rest]) /\
    3 <= length rest <= m /\ Forall (fun p => length p = m) new /\
    flat_map fan_tris new ++ fan_tris rest = fan_tris f /\
    (length f <= m -> rest = f /\ new = []).
Proof.
  intros m Hm fuel f fs Hl.
  destruct (split_face_spec m Hm (length f) f (le_n _) Hl) as (rest & new & He & Hr & Hn & Ht & Hs).
  exists rest, new. split; [|auto].
  cbn [split_faces nth_error].
  replace (length f <? 3) with false by (symmetry; apply Nat.ltb_ge; lia).
  rewrite He.
  replace (length rest <? 3) with false by (symmetry; apply Nat.ltb_ge; lia).
  cbn [set_nth splice_front app Nat.eqb].
  rewrite <- app_assoc.
  set (L := fs ++ new ++ [rest]).
  assert (HL : length L <> 0) by (unfold L; rewrite !app_length; cbn; lia).
  replace (length L - 1 + 1) with (length L) by lia.
  assert (Hnone : nth_error L (length L) = None) by (apply nth_error_None; lia).
  destruct fuel; cbn [split_faces]; rewrite Hnone; reflexivity.
Qed.

(* ------------------------------------------------------------------ *)
(** * Minimum weight triangulation *)

(** What the code computes for each candidate [k]. *)
Definition cand_weight (w : weights) (f i j k : nat) : Z :=
  if w_valid w i j k
  then w_sum w i j k (fst (mwt_entry w f i k)) (fst (mwt_entry w f k j))
  else w_near w.

Lemma fold_min_spec : forall (g : nat -> Z) (ks : list nat) acc,
  let r := fold_left (fun (acc : Z * option nat) k =>
             if (g k <? fst acc)%Z then (g k, Some k) else acc) ks acc in
  (fst r <= fst acc)%Z /\ Forall (fun k => (fst r <= g k)%Z) ks /\
  (r = acc \/ exists k, In k ks /\ r = (g k, Some k)).
Proof.
  intros g ks; induction ks as [|k ks IH]; intros acc; cbn [fold_left].
  - repeat split; [lia|constructor|left; reflexivity].
  - destruct (g k <? fst acc)%Z eqn:E.
    + apply Z.ltb_lt in E. destruct (IH (g k, Some k)) as (H1 & H2 & H3). cbn [fst] in H1.
      repeat split; [lia|constructor; assumption|].
      right. destruct H3 as [H3|(k' & Hk' & H3)].
      * exists k. split; [left; reflexivity|exact H3].
      * exists k'. split; [right; exact Hk'|exact H3].
    + apply Z.ltb_ge in E. destruct (IH acc) as (H1 & H2 & H3).
      repeat split; [lia|constructor; [lia|assumption]|].
      destruct H3 as [H3|(k' & Hk' & H3)]; [left; exact H3|].
      right. exists k'. split; [right; exact Hk'|exact H3].
Qed.

Lemma mwt_entry_short : forall w f i j, j < i + 2 -> mwt_entry w f i j = (0%Z, None).
Proof.
  intros w [|f] i j H; cbn [mwt_entry]; [reflexivity|].
  replace (j <? i + 2) with true by (symmetry; apply Nat.ltb_lt; lia). reflexivity.
Qed.

Lemma mwt_entry_long : forall w f i j, i + 2 <= j ->
  let r := mwt_entry w (S f) i j in
  (fst r <= w_max w)%Z /\
  (forall k, i < k < j -> (fst r <= cand_weight w f i j k)%Z) /\
  (r = (w_max w, None) \/ exists k, i < k < j /\ r = (cand_weight w f i j k, Some k)).
Proof.
  intros w f i j H. cbn [mwt_entry].
  replace (j <? i + 2) with false by (symmetry; apply Nat.ltb_ge; lia).
  destruct (fold_min_spec (cand_weight w f i j) (seq (i + 1) (j - i - 1)) (w_max w, None))
    as (H1 & H2 & H3).
  fold (cand_weight w f i j). unfold cand_weight in H1, H2, H3 at 1.
  split; [exact H1|]. split.
  - intros k Hk. rewrite Forall_forall in H2. apply H2. apply in_seq. lia.
  - destruct H3 as [H3|(k & Hk & H3)]; [left; exact H3|].
    right. exists k. apply in_seq in Hk. split; [lia|exact H3].
Qed.

Lemma fold_left_ext_in : forall A B (f g : A -> B -> A) l a,
  (forall a b, In b l -> f a b = g a b) -> fold_left f l a = fold_left g l a.
Proof.
  intros A B f g l; induction l as [|b l IH]; intros a H; [reflexivity|].
  cbn [fold_left]. rewrite (H a b (or_introl eq_refl)). apply IH.
  intros; apply H; right; assumption.
Qed.

Lemma mwt_entry_fuel : forall w f1 f2 i j, j - i <= f1 -> j - i <= f2 ->
  mwt_entry w f1 i j = mwt_entry w f2 i j.
Proof.
  intros w f1; induction f1 as [|f1 IH]; intros f2 i j H1 H2.
  - rewrite !mwt_entry_short by lia. reflexivity.
  - destruct (j <? i + 2) eqn:E.
    + apply Nat.ltb_lt in E. rewrite !mwt_entry_short by lia. reflexivity.
    + apply Nat.ltb_ge in E. destruct f2 as [|f2]; [lia|].
      cbn [mwt_entry]. replace (j <? i + 2) with false by (symmetry; apply Nat.ltb_ge; lia).
      apply fold_left_ext_in. intros a k Hk. apply in_seq in Hk.
      rewrite (IH f2 i k) by lia. rewrite (IH f2 k j) by lia. reflexivity.
Qed.

(** The triangulation that table [K] describes. *)
Inductive KTri (K : nat -> nat -> option nat) : nat -> nat -> list tri -> Prop :=
| KEdge : forall i, K i (S i) = None -> KTri K i (S i) []
| KCut : forall i k j t1 t2, i < k < j -> K i j = Some k ->
    KTri K i k t1 -> KTri K k j t2 -> KTri K i j ((i, k, j) :: t1 ++ t2).

Lemma ktri_triangulation : forall K i j T, KTri K i j T -> Triangulation i j T.
Proof. intros K i j T H; induction H; constructor; assumption. Qed.

(** The doubles involved behave: the table entries of a polygon that needs a
    zero-area triangle do not exceed [w_near]. *)
Definition absorbs (w : weights) : Prop :=
  (0 <= w_near w < w_max w)%Z /\
  forall i j k t, (t <= w_near w)%Z -> (w_sum w i j k 0 t <= w_near w)%Z.

Lemma mwt_entry_near : forall w, absorbs w -> forall f i j, (fst (mwt_entry w f i j) <= w_near w)%Z.
Proof.
  intros w [Hn Ha] f; induction f as [|f IH]; intros i j.
  - cbn [mwt_entry fst]. lia.
  - destruct (Nat.lt_ge_cases j (i + 2)) as [H|H].
    + rewrite mwt_entry_short by lia. cbn [fst]. lia.
    + destruct (mwt_entry_long w f i j H) as (_ & H2 & _).
      specialize (H2 (i + 1) ltac:(lia)). unfold cand_weight in H2.
      destruct (w_valid w i j (i + 1)); [|exact H2].
      rewrite (mwt_entry_short w f i (i + 1)) in H2 by lia. cbn [fst] in H2.
      specialize (Ha i j (i + 1) _ (IH (i + 1) j)). lia.
Qed.

Lemma ktri_exists : forall w n, absorbs w -> forall d i j, j - i <= d -> i < j -> j - i <= n ->
  exists T, KTri (fun a b => snd (mwt_entry w n a b)) i j T.
Proof.
  intros w n Hw d; induction d as [|d IH]; intros i j Hd Hij Hn; [lia|].
  destruct (Nat.eq_dec j (S i)) as [->|Hj].
  - exists []. constructor. rewrite mwt_entry_short by lia. reflexivity.
  - destruct n as [|n]; [lia|].
    destruct (mwt_entry_long w n i j ltac:(lia)) as (H1 & H2 & H3).
    pose proof (mwt_entry_near w Hw (S n) i j) as Hle.
    destruct H3 as [H3|(k & Hk & H3)].
    + rewrite H3 in Hle. cbn [fst] in Hle. destruct Hw as [Hw _]. lia.
    + destruct (IH i k ltac:(lia) ltac:(lia) ltac:(lia)) as (T1 & HT1).
      destruct (IH k j ltac:(lia) ltac:(lia) ltac:(lia)) as (T2 & HT2).
      exists ((i, k, j) :: T1 ++ T2). constructor; auto.
      rewrite H3. reflexivity.
Qed.

Lemma sort3_sorted : forall a b c, a < c -> c < b -> sort3 a b c = (a, c, b).
Proof.
  intros a b c H1 H2. unfold sort3.
  replace (Nat.min a (Nat.min b c)) with a by lia.
  replace (Nat.max a (Nat.max b c)) with b by lia.
  replace (a + b + c - a - b) with c by lia. reflexivity.
Qed.

Definition queue_cost (q : list (nat * nat)) : nat :=
  fold_right (fun e s => 2 * (snd e - fst e) - 1 + s) 0 q.

Lemma queue_cost_app : forall q1 q2, queue_cost (q1 ++ q2) = queue_cost q1 + queue_cost q2.
Proof.
  induction q1 as [|e q1 IH]; intros q2; [reflexivity|].
  unfold queue_cost in *. cbn [app fold_right]. rewrite IH. lia.
Qed.

Lemma queue_cost_cons : forall a b q, queue_cost ((a, b) :: q) = 2 * (b - a) - 1 + queue_cost q.
Proof. reflexivity. Qed.

Lemma mwt_queue_spec : forall K fuel q tris Ts,
  Forall2 (fun e T => KTri K (fst e) (snd e) T) q Ts -> queue_cost q <= fuel ->
  exists R, mwt_queue fuel K q tris = Some (tris ++ R) /\ Permutation R (concat Ts).
Proof.
  intros K fuel; induction fuel as [|fuel IH]; intros q tris Ts HF Hc.
  - inversion HF as [|[a b] T q' Ts' HT HF' E1 E2]; subst.
    + exists []. cbn [mwt_queue]. rewrite app_nil_r. split; [reflexivity|constructor].
    + cbn [fst snd] in HT. apply ktri_triangulation, triangulation_range in HT.
      rewrite queue_cost_cons in Hc. lia.
  - inversion HF as [|[a b] T q' Ts' HT HF' E1 E2]; subst; clear HF.
    + exists []. cbn [mwt_queue]. rewrite app_nil_r. split; [reflexivity|constructor].
    + cbn [fst snd] in HT. rewrite queue_cost_cons in Hc.
      pose proof (triangulation_range _ _ _ (ktri_triangulation _ _ _ _ HT)) as Hab.
      cbn [mwt_queue].
      replace (a =? b) with false by (symmetry; apply Nat.eqb_neq; lia).
      inversion HT as [i HK|i k j t1 t2 Hk HK HT1 HT2]; subst.
      * rewrite HK. destruct (IH q' tris Ts' HF') as (R & HR & HP); [lia|].
        exists R. split; [exact HR|exact HP].
      * rewrite HK. rewrite sort3_sorted by lia.
        destruct (IH (q' ++ [(a, k); (k, b)]) (tris ++ [(a, k, b)]) (Ts' ++ [t1; t2]))
          as (R & HR & HP).
        { apply Forall2_app; [exact HF'|]. constructor; [exact HT1|].
          constructor; [exact HT2|constructor]. }
        { rewrite queue_cost_app, !queue_cost_cons. cbn [queue_cost fold_right]. lia. }
        exists ((a, k, b) :: R). split.
        { etransitivity; [exact HR|]. rewrite <- app_assoc. reflexivity. }
        cbn [concat app]. constructor.
        rewrite HP, concat_app. cbn [concat]. rewrite app_nil_r.
        apply Permutation_app_comm.
Qed.

Lemma mwt_of_ktri : forall w n T, 2 <= n ->
  KTri (fun a b => snd (mwt_entry w n a b)) 0 (n - 1) T ->
  exists R, mwt w n = Some R /\ Permutation R T.
Proof.
  intros w n T Hn HT.
  destruct (mwt_queue_spec (fun a b => snd (mwt_entry w n a b)) (2 * n) [(0, n - 1)] [] [T]) as (R & HR & HP).
  - constructor; [exact HT|constructor].
  - rewrite queue_cost_cons. cbn [queue_cost fold_right]. lia.
  - cbn [app] in HR. cbn [concat] in HP. rewrite app_nil_r in HP.
    exists R. split; [|exact HP]. unfold mwt. rewrite HR.
    pose proof (triangulation_length _ _ _ (ktri_triangulation _ _ _ _ HT)) as HL.
    rewrite (Permutation_length HP), HL.
    replace (n - 1 - 0 - 1) with (n - 2) by lia. rewrite Nat.eqb_refl. reflexivity.
Qed.

Lemma mwt_total : forall w n, absorbs w -> 3 <= n ->
  exists R T, mwt w n = Some R /\ Permutation R T /\ Triangulation 0 (n - 1) T.
Proof.
  intros w n Hw Hn.
  destruct (ktri_exists w n Hw n 0 (n - 1) ltac:(lia) ltac:(lia) ltac:(lia)) as (T & HT).
  destruct (mwt_of_ktri w n T ltac:(lia) HT) as (R & HR & HP).
  exists R, T. split; [exact HR|]. split; [exact HP|]. eapply ktri_triangulation; exact HT.
Qed.

(** ** No zero-area triangle unless needed *)

(** A triangle of the triangulation of a polygon has an area: the code asks
    with the three corners in the order first, last, middle. *)
Definition tri_ok (w : weights) (t : tri) : Prop :=
  let '(i, k, j) := t in w_valid w i j k = true.

(** A sum with an entry of [w_near] or more is no smaller. *)
Definition sums_grow (w : weights) : Prop :=
  forall i j k a b, (0 <= a)%Z -> (0 <= b)%Z ->
    (0 <= w_sum w i j k a b)%Z /\
    ((w_near w <= a \/ w_near w <= b)%Z -> (w_near w <= w_sum w i j k a b)%Z).

Lemma mwt_entry_pos : forall w, sums_grow w -> (0 <= w_near w < w_max w)%Z ->
  forall f i j, (0 <= fst (mwt_entry w f i j))%Z.
Proof.
  intros w Hg Hn f; induction f as [|f IH]; intros i j.
  - cbn [mwt_entry fst]. lia.
  - destruct (Nat.lt_ge_cases j (i + 2)) as [H|H].
    + rewrite mwt_entry_short by lia. cbn [fst]. lia.
    + destruct (mwt_entry_long w f i j H) as (_ & _ & [H3|(k & Hk & H3)]); rewrite H3; cbn [fst]; [lia|].
      unfold cand_weight. destruct (w_valid w i j k); [|lia].
      apply Hg; apply IH.
Qed.

Lemma ktri_below_near : forall w n, (0 <= w_near w < w_max w)%Z -> sums_grow w ->
  forall d i j, j - i <= d -> i < j -> j - i <= n ->
  (fst (mwt_entry w n i j) < w_near w)%Z ->
  exists T, KTri (fun a b => snd (mwt_entry w n a b)) i j T /\ Forall (tri_ok w) T.
Proof.
  intros w n Hmax Hg d; induction d as [|d IH]; intros i j Hd Hij Hn Hlt; [lia|].
  destruct (Nat.eq_dec j (S i)) as [->|Hj].
  - exists []. split; [|constructor]. constructor. rewrite mwt_entry_short by lia. reflexivity.
  - destruct n as [|n]; [lia|].
    destruct (mwt_entry_long w n i j ltac:(lia)) as (H1 & H2 & H3).
    destruct H3 as [H3|(k & Hk & H3)].
    + rewrite H3 in Hlt. cbn [fst] in Hlt. lia.
    + rewrite H3 in Hlt. cbn [fst] in Hlt. unfold cand_weight in Hlt.
      destruct (w_valid w i j k) eqn:Ev; [|lia].
      rewrite (mwt_entry_fuel w n (S n) i k) in Hlt by lia.
      rewrite (mwt_entry_fuel w n (S n) k j) in Hlt by lia.
      assert (Ha : (fst (mwt_entry w (S n) i k) < w_near w)%Z).
      { apply Z.nle_gt. intro Hc.
        destruct (Hg i j k _ _ (mwt_entry_pos w Hg Hmax (S n) i k) (mwt_entry_pos w Hg Hmax (S n) k j))
          as [_ Hx].
        specialize (Hx (or_introl Hc)). lia. }
      assert (Hb : (fst (mwt_entry w (S n) k j) < w_near w)%Z).
      { apply Z.nle_gt. intro Hc.
        destruct (Hg i j k _ _ (mwt_entry_pos w Hg Hmax (S n) i k) (mwt_entry_pos w Hg Hmax (S n) k j))
          as [_ Hx].
        specialize (Hx (or_intror Hc)). lia. }
      destruct (IH i k ltac:(lia) ltac:(lia) ltac:(lia) Ha) as (T1 & HT1 & HV1).
      destruct (IH k j ltac:(lia) ltac:(lia) ltac:(lia) Hb) as (T2 & HT2 & HV2).
      exists ((i, k, j) :: T1 ++ T2). split.
      * constructor; auto. rewrite H3. reflexivity.
      * constructor; [exact Ev|]. apply Forall_app. split; assumption.
Qed.

(** A bound on what one triangle adds to a sum that is not enormous. *)
Definition adds_at_most (w : weights) (bound P : Z) : Prop :=
  (0 <= P)%Z /\
  forall i j k a b, (0 <= a)%Z -> (0 <= b)%Z -> (a + b <= bound)%Z ->
    (w_sum w i j k a b <= a + b + P)%Z.

Lemma mwt_entry_bound : forall w P n, (0 <= w_near w < w_max w)%Z -> sums_grow w ->
  adds_at_most w (Z.of_nat n * P) P ->
  forall i j T, Triangulation i j T -> Forall (tri_ok w) T -> j - i <= n ->
  (fst (mwt_entry w n i j) <= Z.of_nat (j - i - 1) * P)%Z.
Proof.
  intros w P n Hmax Hg [HP Ha] i j T HT.
  induction HT as [i|i k j t1 t2 Hk HT1 IH1 HT2 IH2]; intros HV Hn.
  - rewrite mwt_entry_short by lia. cbn [fst]. lia.
  - inversion HV as [|? ? Hv HV']; subst. apply Forall_app in HV'. destruct HV' as [HV1 HV2].
    specialize (IH1 HV1 ltac:(lia)). specialize (IH2 HV2 ltac:(lia)).
    destruct n as [|n]; [lia|].
    destruct (mwt_entry_long w n i j ltac:(lia)) as (_ & H2 & _).
    specialize (H2 k Hk). unfold cand_weight in H2. cbn [tri_ok] in Hv. rewrite Hv in H2.
    rewrite (mwt_entry_fuel w n (S n) i k) in H2 by lia.
    rewrite (mwt_entry_fuel w n (S n) k j) in H2 by lia.
    specialize (Ha i j k (fst (mwt_entry w (S n) i k)) (fst (mwt_entry w (S n) k j))
      (mwt_entry_pos w Hg Hmax _ _ _) (mwt_entry_pos w Hg Hmax _ _ _)).
    assert (Hs : (Z.of_nat (k - i - 1) * P + Z.of_nat (j - k - 1) * P = Z.of_nat (j - i - 2) * P)%Z).
    { rewrite <- Z.mul_add_distr_r. f_equal. lia. }
    assert (Hb : (Z.of_nat (j - i - 2) * P <= Z.of_nat (S n) * P)%Z).
    { apply Z.mul_le_mono_nonneg_r; lia. }
    specialize (Ha ltac:(lia)).
    replace (Z.of_nat (j - i - 1)) with (Z.of_nat (j - i - 2) + 1)%Z by lia.
    lia.
Qed.

Lemma mwt_valid : forall w P n, (0 <= w_near w < w_max w)%Z -> sums_grow w ->
  adds_at_most w (Z.of_nat n * P) P -> (Z.of_nat n * P < w_near w)%Z -> 3 <= n ->
  (exists T0, Triangulation 0 (n - 1) T0 /\ Forall (tri_ok w) T0) ->
  exists R T, mwt w n = Some R /\ Permutation R T /\ Triangulation 0 (n - 1) T /\
    Forall (tri_ok w) R.
Proof.
  intros w P n Hmax Hg Hadd Hsmall Hn (T0 & HT0 & HV0).
  pose proof (mwt_entry_bound w P n Hmax Hg Hadd 0 (n - 1) T0 HT0 HV0 ltac:(lia)) as Hb.
  assert (Hle : (Z.of_nat (n - 1 - 0 - 1) * P <= Z.of_nat n * P)%Z).
  { destruct Hadd. apply Z.mul_le_mono_nonneg_r; lia. }
  destruct (ktri_below_near w n Hmax Hg n 0 (n - 1) ltac:(lia) ltac:(lia) ltac:(lia) ltac:(lia))
    as (T & HT & HV).
  destruct (mwt_of_ktri w n T ltac:(lia) HT) as (R & HR & HPm).
  exists R, T. split; [exact HR|]. split; [exact HPm|].
  split; [eapply ktri_triangulation; exact HT|].
  eapply Permutation_Forall; [symmetry; exact HPm|exact HV].
Qed.

(** ** Minimality, with exact sums *)

Definition tri_weight (per : nat -> nat -> nat -> Z) (t : tri) : Z :=
  let '(i, k, j) := t in per i j k.

Definition exact_sums (w : weights) (per : nat -> nat -> nat -> Z) : Prop :=
  (forall i j k a b, w_sum w i j k a b = (per i j k + a + b)%Z) /\
  (forall i j k, (0 <= per i j k)%Z).

Lemma mwt_entry_nonneg : forall w per, exact_sums w per -> (0 <= w_near w < w_max w)%Z ->
  forall f i j, (0 <= fst (mwt_entry w f i j))%Z.
Proof.
  intros w per [He Hp] Hn f; induction f as [|f IH]; intros i j.
  - cbn [mwt_entry fst]. lia.
  - destruct (Nat.lt_ge_cases j (i + 2)) as [H|H].
    + rewrite mwt_entry_short by lia. cbn [fst]. lia.
    + destruct (mwt_entry_long w f i j H) as (_ & _ & [H3|(k & Hk & H3)]); rewrite H3; cbn [fst]; [lia|].
      unfold cand_weight. destruct (w_valid w i j k); [|lia].
      rewrite He. specialize (Hp i j k). pose proof (IH i k). pose proof (IH k j). lia.
Qed.

Lemma mwt_entry_le : forall w per n, exact_sums w per ->
  forall i j T, Triangulation i j T -> Forall (tri_ok w) T -> j - i <= n ->
  (fst (mwt_entry w n i j) <= sum_map (tri_weight per) T)%Z.
Proof.
  intros w per n [He Hp] i j T HT.
  induction HT as [i|i k j t1 t2 Hk HT1 IH1 HT2 IH2]; intros HV Hn.
  - rewrite mwt_entry_short by lia. cbn. lia.
  - inversion HV as [|? ? Hv HV']; subst. apply Forall_app in HV'. destruct HV' as [HV1 HV2].
    specialize (IH1 HV1 ltac:(lia)). specialize (IH2 HV2 ltac:(lia)).
    destruct n as [|n]; [lia|].
    destruct (mwt_entry_long w n i j ltac:(lia)) as (_ & H2 & _).
    specialize (H2 k Hk). unfold cand_weight in H2. cbn [tri_ok] in Hv. rewrite Hv in H2.
    rewrite (mwt_entry_fuel w n (S n) i k) in H2 by lia.
    rewrite (mwt_entry_fuel w n (S n) k j) in H2 by lia.
    rewrite He in H2.
    change (sum_map (tri_weight per) ((i, k, j) :: t1 ++ t2))
      with (per i j k + sum_map (tri_weight per) (t1 ++ t2))%Z.
    rewrite sum_map_app. lia.
Qed.

Lemma ktri_weight : forall w per n, exact_sums w per -> (0 <= w_near w < w_max w)%Z ->
  forall i j T, KTri (fun a b => snd (mwt_entry w n a b)) i j T ->
  Forall (tri_ok w) T -> j - i <= n ->
  sum_map (tri_weight per) T = fst (mwt_entry w n i j).
Proof.
  intros w per n Hx Hn i j T HT.
  induction HT as [i HK|i k j t1 t2 Hk HK HT1 IH1 HT2 IH2]; intros HV Hle.
  - rewrite mwt_entry_short by lia. reflexivity.
  - inversion HV as [|? ? Hv HV']; subst. apply Forall_app in HV'. destruct HV' as [HV1 HV2].
    specialize (IH1 HV1 ltac:(lia)). specialize (IH2 HV2 ltac:(lia)).
    destruct n as [|n]; [lia|].
    destruct (mwt_entry_long w n i j ltac:(lia)) as (_ & _ & [H3|(k' & Hk' & H3)]).
    + rewrite H3 in HK. discriminate HK.
    + rewrite H3 in HK |- *. cbn [snd] in HK. cbn [fst]. injection HK as ->.
      unfold cand_weight. cbn [tri_ok] in Hv. rewrite Hv.
      destruct Hx as [He Hp]. rewrite He.
      rewrite (mwt_entry_fuel w n (S n) i k) by lia.
      rewrite (mwt_entry_fuel w n (S n) k j) by lia.
      change (sum_map (tri_weight per) ((i, k, j) :: t1 ++ t2))
        with (per i j k + sum_map (tri_weight per) (t1 ++ t2))%Z.
      rewrite sum_map_app. lia.
Qed.

Lemma exact_grow : forall w per, exact_sums w per -> (0 <= w_near w < w_max w)%Z ->
  forall d n i j, j - i <= d -> i < j -> j - i <= n ->
  (fst (mwt_entry w n i j) < w_near w)%Z ->
  exists T, KTri (fun a b => snd (mwt_entry w n a b)) i j T /\ Forall (tri_ok w) T.
Proof.
  intros w per Hx Hnear d; induction d as [|d IH]; intros n i j Hd Hij Hn Hlt; [lia|].
  destruct (Nat.eq_dec j (S i)) as [->|Hj].
  - exists []. split; [|constructor]. constructor. rewrite mwt_entry_short by lia. reflexivity.
  - destruct n as [|n]; [lia|].
    destruct (mwt_entry_long w n i j ltac:(lia)) as (H1 & H2 & H3).
    destruct H3 as [H3|(k & Hk & H3)].
    + rewrite H3 in Hlt. cbn [fst] in Hlt. lia.
    + rewrite H3 in Hlt. cbn [fst] in Hlt. unfold cand_weight in Hlt.
      destruct (w_valid w i j k) eqn:Ev; [|lia].
      rewrite (mwt_entry_fuel w n (S n) i k) in Hlt by lia.
      rewrite (mwt_entry_fuel w n (S n) k j) in Hlt by lia.
      destruct Hx as [He Hp]. rewrite He in Hlt. pose proof (Hp i j k) as Hpk.
      pose proof (mwt_entry_nonneg w per (conj He Hp) Hnear (S n) i k).
      pose proof (mwt_entry_nonneg w per (conj He Hp) Hnear (S n) k j).
      destruct (IH (S n) i k ltac:(lia) ltac:(lia) ltac:(lia) ltac:(lia)) as (T1 & HT1 & HV1).
      destruct (IH (S n) k j ltac:(lia) ltac:(lia) ltac:(lia) ltac:(lia)) as (T2 & HT2 & HV2).
      exists ((i, k, j) :: T1 ++ T2). split.
      * constructor; auto. rewrite H3. reflexivity.
      * constructor; [exact Ev|]. apply Forall_app. split; assumption.
Qed.

Lemma mwt_minimal : forall w per n T0, exact_sums w per -> (0 <= w_near w < w_max w)%Z ->
  3 <= n -> Triangulation 0 (n - 1) T0 -> Forall (tri_ok w) T0 ->
  (sum_map (tri_weight per) T0 < w_near w)%Z ->
  exists R T, mwt w n = Some R /\ Permutation R T /\ Triangulation 0 (n - 1) T /\
    (sum_map (tri_weight per) R <= sum_map (tri_weight per) T0)%Z.
Proof.
  intros w per n T0 Hx Hnear Hn HT0 HV0 Hlt.
  pose proof (mwt_entry_le w per n Hx 0 (n - 1) T0 HT0 HV0 ltac:(lia)) as Hle.
  destruct (exact_grow w per Hx Hnear n n 0 (n - 1) ltac:(lia) ltac:(lia) ltac:(lia) ltac:(lia))
    as (T & HT & HV).
  destruct (mwt_of_ktri w n T ltac:(lia) HT) as (R & HR & HPm).
  exists R, T. split; [exact HR|]. split; [exact HPm|].
  split; [eapply ktri_triangulation; exact HT|].
  rewrite (sum_map_perm _ _ _ _ HPm).
  rewrite (ktri_weight w per n Hx Hnear 0 (n - 1) T HT HV ltac:(lia)). exact Hle.
Qed.

