(* Properties of bounding boxes, of the bounds of trees and of the search for vertices (C132). *)
From Coq Require Import Reals List Bool Lra Lia.
From Verif Require Import AabbModel AabbProofs.
Import ListNotations.
Open Scope R_scope.

Ltac fl := unfold ranged, valid, inside, in1, ok_pts in *; repeat first [apply Forall_cons | apply Forall2_cons | apply Forall_nil | apply Forall2_nil | apply conj; [reflexivity|]].

(** * C132: bounding boxes *)
(* inside p b: every coordinate of p is between the corners of b; valid b: no corner is beyond the other;
   ranged MAX p: the coordinates are numbers of the type whose largest number is MAX. *)

(** The box of points is the smallest one that has them. *)
Theorem C132_points : forall MAX n ps, ps <> [] -> Forall (fun p => length p = n /\ ranged MAX p) ps ->
  (forall p, In p ps -> inside p (of_points MAX n ps)) /\
  (forall c, (forall p, In p ps -> inside p c) -> forall q, inside q (of_points MAX n ps) -> inside q c).
Proof.
  intros MAX n ps NE F. destruct (of_points_spec MAX n ps NE F) as (_ & A & B). split; [exact A|]. intros c I q Q. eapply sub_inside; [apply B; exact I|exact Q].
Qed.
Print Assumptions C132_points.

(** Both unions are the smallest box around two boxes. *)
Theorem C132_union : forall a b, valid a -> valid b -> length a = length b ->
  union a b = union_in_place a b /\
  (forall p, inside p a \/ inside p b -> inside p (union a b)) /\
  (forall c, (forall p, inside p a \/ inside p b -> inside p c) -> forall q, inside q (union a b) -> inside q c).
Proof.
  intros a b V W L. rewrite union_eq. destruct (union_subs a b V W L) as [A B]. refine (conj eq_refl (conj _ _)).
  - intros p [P|P]; [exact (sub_inside _ _ A p P)|exact (sub_inside _ _ B p P)].
  - intros c H q Q. eapply sub_inside; [|exact Q]. apply union_least; [exact W|..]; apply inside_sub; auto using mins_inside, maxs_inside.
Qed.
Print Assumptions C132_union.

(** But the union with an empty box is the box of all points, not the other box. *)
Theorem C132_union_empty_refuted : forall MAX a, Forall (fun i => - MAX <= fst i <= MAX /\ - MAX <= snd i <= MAX) a ->
  union a (empty MAX (length a)) = repeat (- MAX, MAX) (length a) /\ union_in_place a (empty MAX (length a)) = repeat (- MAX, MAX) (length a).
Proof.
  intros MAX a F. rewrite union_eq. assert (H : union_in_place a (empty MAX (length a)) = repeat (- MAX, MAX) (length a)); [|auto].
  induction F as [|i a H F IH]; [reflexivity|]. cbn [length empty repeat union_in_place zip]. f_equal; [|exact IH]. cbn [fst snd]. f_equal; mm.
Qed.
Print Assumptions C132_union_empty_refuted.

(** An empty box that is converted to another type of numbers is no longer empty: with a point added it reaches
    from the point to the largest number. *)
Theorem C132_convert : forall b, valid b -> convert b = b.
Proof. exact convert_valid. Qed.
Print Assumptions C132_convert.
Theorem C132_convert_refuted : forall MAX p, 0 <= MAX -> ranged MAX p ->
  expand_in_place (convert (empty MAX (length p))) p = map (fun x => (x, MAX)) p /\ expand_in_place (empty MAX (length p)) p = map (fun x => (x, x)) p.
Proof.
  intros MAX p M Rg. induction Rg as [|x p H F [IH1 IH2]]; [split; reflexivity|]. cbn [length]. split.
  - cbn [empty repeat convert mins maxs map make zip expand_in_place]. f_equal; [|exact IH1].
    assert (X : fix1 MAX (- MAX) = (MAX, MAX)) by (unfold fix1; destruct (ltb (- MAX) MAX) eqn:Q; [reflexivity|apply ltb_false in Q; f_equal; lra]). cbn [fst snd]. rewrite X. cbn [fst snd]. f_equal; mm.
  - cbn [empty repeat zip map expand_in_place]. f_equal; [|exact IH2]. cbn [fst snd]. f_equal; mm.
Qed.
Print Assumptions C132_convert_refuted.

(** The tests say what they say about points. *)
Theorem C132_contains : forall a b p, length a = length b -> length p = length a ->
  (contains_point a p = true <-> inside p a) /\ (valid b -> (contains a b = true <-> forall q, inside q b -> inside q a)).
Proof.
  intros a b p L LP. split; [apply contains_point_spec; exact LP|]. intros V. rewrite contains_spec by exact L. split.
  - intros S q. apply sub_inside. exact S.
  - intros H. apply inside_sub; auto using mins_inside, maxs_inside.
Qed.
Print Assumptions C132_contains.

Theorem C132_disjoint : forall eps a b, 0 <= eps -> valid a -> valid b -> length a = length b ->
  (disjoint eps a b = true <-> forall p q, inside p a -> inside q b -> ~ Forall2 (fun x y => Rabs (x - y) <= eps) p q).
Proof.
  intros eps a b E V W L. split; [apply disjoint_far|]. intros H. destruct (disjoint eps a b) eqn:D; [reflexivity|].
  destruct (near_disjoint eps a E b V W L D) as (p & q & P & Q & F). destruct (H p q P Q F).
Qed.
Print Assumptions C132_disjoint.

(** For boxes with a volume, disjoint_or_touching says that no point is inside of both, when one of them is made
    larger by eps on all sides, and on the surface of neither. *)
Theorem C132_touching : forall eps a b, 0 <= eps -> Forall (fun i => fst i < snd i) a -> Forall (fun i => fst i < snd i) b -> length a = length b ->
  (disjoint_or_touching eps a b = true <-> ~ exists p, strictly p (map (fun i => (fst i - eps, snd i + eps)) a) /\ strictly p b).
Proof.
  intros eps a b E V W L. set (wide := map (fun i : R * R => (fst i - eps, snd i + eps)) a).
  assert (EQ : disjoint_or_touching eps a b = disjoint_or_touching 0 wide b).
  { unfold disjoint_or_touching, wide. clear. revert b. induction a as [|i a IH]; intros [|j b]; [reflexivity..|].
    cbn [map zip existsb fst snd]. rewrite IH. f_equal. f_equal.
    - destruct (leb (snd i + eps) (fst j - 0)) eqn:Q; [apply leb_true in Q; apply leb_true; lra|apply leb_false in Q; apply leb_false; lra].
    - destruct (leb (snd j + 0) (fst i - eps)) eqn:Q; [apply leb_true in Q; apply leb_true; lra|apply leb_false in Q; apply leb_false; lra]. }
  assert (V' : Forall (fun i => fst i < snd i) wide).
  { unfold wide. apply Forall_map. eapply Forall_impl; [|exact V]. intros i H. cbn [fst snd]. lra. }
  assert (L' : length wide = length b) by (unfold wide; rewrite map_length; exact L).
  rewrite EQ. split.
  - intros D (p & P & Q). eapply touching_no; eassumption.
  - intros H. destruct (disjoint_or_touching 0 wide b) eqn:D; [reflexivity|]. destruct H. apply touching_yes; assumption.
Qed.
Print Assumptions C132_touching.

Theorem C132_intersect : forall a b, length a = length b ->
  match intersect a b with
  | Some c => valid c /\ forall p, inside p c <-> inside p a /\ inside p b
  | None => forall p, ~ (inside p a /\ inside p b)
  end.
Proof. exact intersect_spec. Qed.
Print Assumptions C132_intersect.

(** A box grown by v has the points that are at most v from the box; a translated box the translated points. *)
Theorem C132_grow : forall b v p, valid b -> length v = length b ->
  (Forall (fun x => 0 <= x) v -> (inside p (grow b v) <-> exists q, inside q b /\ Forall2 (fun xy z => Rabs (fst xy - snd xy) <= z) (combine p q) v /\ length p = length q)) /\
  (inside p (translate b v) <-> exists q, inside q b /\ p = zip Rplus q v).
Proof. intros b v p V L. split; [intros F; apply grow_spec; assumption|apply translate_spec; assumption]. Qed.
Print Assumptions C132_grow.

(** Growing by a negative amount can leave the box. *)
Theorem C132_shrink_refuted : exists b v p, valid b /\ inside p (grow b v) /\ ~ inside p b.
Proof.
  exists [(0, 1)], [-3], [3]. refine (conj _ (conj _ _)).
  - fl. cbn. lra.
  - cbn. unfold fix1, ltb. destruct (Rlt_dec _ _); [|lra]. constructor; [split; cbn; lra|constructor].
  - intros H. inversion H as [|x y p q A B]; subst. unfold in1 in A. cbn in A. lra.
Qed.
Print Assumptions C132_shrink_refuted.

(** ** Bounds of the nodes of a tree *)
(* below t s: s is t or a node under it; fat P: two points of P have different first coordinates. *)

(** Every node has all points of the portals of the leafs below it that have a volume, and the boxes of its
    children if one of them has a volume. *)
Theorem C132_tree : forall MAX t bt, 0 <= MAX -> tree_bounds MAX None t = Some bt -> ok_tree MAX t ->
  forall s, below bt s ->
  (forall bd ps, below s (BLeaf bd ps) -> fat (fun p => In p ps) -> forall p, In p ps -> inside p (bounds s)) /\
  (forall bd x y, s = BNode bd x y -> fat (fun p => inside p (bounds x)) \/ fat (fun p => inside p (bounds y)) ->
     forall p, inside p (bounds x) \/ inside p (bounds y) -> inside p bd).
Proof.
  intros MAX t bt M E O s I. destruct (tree_bounds_below MAX t None bt E O Logic.I s I) as (t' & par & E' & O' & P'). split.
  - intros bd ps J F p Q. exact (proj2 (tree_bounds_leaf MAX M t' par s E' O' P' bd ps J F p Q)).
  - intros bd x y -> F p Q. destruct (tree_bounds_node MAX M t' par _ E' O' P' bd x y) as (_ & A & B); [cbn [below]; auto|exact F|].
    destruct Q as [Q|Q]; [exact (sub_inside _ _ A p Q)|exact (sub_inside _ _ B p Q)].
Qed.
Print Assumptions C132_tree.

(** Without leafs that lack portals there is nothing else in the bounds: a leaf has the smallest box around the
    points of its portals, a node the smallest box around its children. *)
Fixpoint all_fat (t : tree) : Prop := match t with Leaf ps => fat (fun p => In p ps) | Node _ a b => all_fat a /\ all_fat b end.
Fixpoint tight (t : btree) : Prop :=
  match t with
  | BLeaf bd ps => forall c, (forall p, In p ps -> inside p c) -> forall q, inside q bd -> inside q c
  | BNode bd x y => (forall c, (forall p, inside p (bounds x) \/ inside p (bounds y) -> inside p c) -> forall q, inside q bd -> inside q c) /\ tight x /\ tight y
  end.
Lemma tight_tree MAX : 0 <= MAX -> forall t par bt, tree_bounds MAX par t = Some bt -> ok_tree MAX t -> par3 par -> all_fat t -> tight bt /\ fat (fun p => inside p (bounds bt)).
Proof.
  intros M. induction t as [ps|old a IHa b IHb]; intros par bt E O P F; assert (E' := E); cbn [tree_bounds ok_tree all_fat] in *.
  - destruct (settle par (of_points MAX 3 ps)) as [bd|] eqn:S; [|discriminate]. injection E as <-. assert (F' := F). destruct F as (p & q & P1 & Q1 & L).
    assert (NE : ps <> []) by (intros ->; destruct P1). destruct (of_points_spec MAX 3 ps NE O) as (A & B & C).
    apply settle_fat in S; [|exact A|exists p, q; auto]. subst bd. split; [|exists p, q; cbn [bounds]; auto]. cbn [tight]. intros c I r Hr. eapply sub_inside; [apply C; exact I|exact Hr].
  - destruct O as (O1 & O2 & O3). destruct F as [Fa Fb]. destruct (tree_bounds MAX (Some old) a) as [x|] eqn:A; [|discriminate]. destruct (tree_bounds MAX (Some old) b) as [y|] eqn:B; [|discriminate].
    destruct (settle par _) as [bd|] eqn:S; [|discriminate]. injection E as <-. destruct (IHa _ _ A O2 O1 Fa) as [Ta Xa]. destruct (IHb _ _ B O3 O1 Fb) as [Tb Xb].
    destruct (tree_bounds_ok MAX M _ _ _ A O2 O1) as [La Va]. destruct (tree_bounds_ok MAX M _ _ _ B O3 O1) as [Lb Vb].
    destruct (tree_bounds_node MAX M (Node old a b) par (BNode bd x y)) with (bd := bd) (x := x) (y := y) as (U & Sx & Sy); auto.
    + cbn [tree_bounds]. rewrite A, B, S. reflexivity.
    + cbn [ok_tree]. auto.
    + cbn [below]. auto.
    + split.
      * cbn [tight]. refine (conj _ (conj Ta Tb)). intros c H q Q. rewrite U in Q. eapply sub_inside; [|exact Q]. apply union_least; [exact Vb|..]; apply inside_sub; auto using mins_inside, maxs_inside.
      * destruct Xa as (p & q & P1 & Q1 & L). exists p, q. cbn [bounds]. refine (conj _ (conj _ L)); apply (sub_inside _ _ Sx); assumption.
Qed.
Theorem C132_tree_tight : forall MAX t bt, 0 <= MAX -> tree_bounds MAX None t = Some bt -> ok_tree MAX t -> all_fat t -> tight bt.
Proof. intros MAX t bt M E O F. exact (proj1 (tight_tree MAX M t None bt E O Logic.I F)). Qed.
Print Assumptions C132_tree_tight.

Lemma tree_bounds_eq MAX par old a b : tree_bounds MAX par (Node old a b) =
  match tree_bounds MAX (Some old) a, tree_bounds MAX (Some old) b with
  | Some x, Some y => match settle par (union (bounds x) (bounds y)) with Some b => Some (BNode b x y) | None => None end
  | _, _ => None
  end.
Proof. reflexivity. Qed.
Definition cube (a b : R) : list pt := [[a; a; a]; [b; b; b]].
(** A leaf without portals stretches the bounds of all nodes above it to the corner of the box that its parent
    had before, wherever the portals are. *)
Theorem C132_no_portals_refuted : exists MAX t bt, tree_bounds MAX None t = Some bt /\ ok_tree MAX t /\
  inside [-99; -99; -99] (bounds bt) /\ (forall p, In p (cube 0 10) -> Forall (fun x => 0 <= x) p) /\ t = Node [(-99, 99); (-99, 99); (-99, 99)] (Leaf (cube 0 10)) (Leaf []).
Proof.
  exists 1000, (Node [(-99, 99); (-99, 99); (-99, 99)] (Leaf (cube 0 10)) (Leaf [])).
  assert (A : tree_bounds 1000 (@Some box [(-99, 99); (-99, 99); (-99, 99)]) (Leaf (cube 0 10)) = Some (BLeaf [(0, 10); (0, 10); (0, 10)] (cube 0 10))).
  { cbn [tree_bounds]. replace (of_points 1000 3 (cube 0 10)) with [(0, 10); (0, 10); (0, 10)].
    - unfold settle. cbn [no_volume]. replace (leb 10 0) with false by (symmetry; apply leb_false; lra). reflexivity.
    - unfold of_points, cube, empty. cbn [fold_left repeat expand_in_place zip fst snd]. assert (X : (Rmin (Rmin 1000 0) 10, Rmax (Rmax (- (1000)) 0) 10) = (0, 10)) by (mm; f_equal; lra). rewrite X. reflexivity. }
  assert (B : tree_bounds 1000 (@Some box [(-99, 99); (-99, 99); (-99, 99)]) (Leaf []) = Some (BLeaf [(-99, -99); (-99, -99); (-99, -99)] [])).
  { cbn [tree_bounds of_points fold_left empty repeat]. unfold settle. cbn [no_volume]. replace (leb (- (1000)) 1000) with true by (symmetry; apply leb_true; lra). rewrite make_same. reflexivity. }
  rewrite tree_bounds_eq, A, B. cbn [bounds]. rewrite union_eq. cbn [union_in_place zip fst snd].
  assert (X : (Rmin (Rmin 0 (-99)) (-99), Rmax (Rmax 10 (-99)) (-99)) = (-99, 10)) by (mm; f_equal; lra). rewrite X. unfold settle. cbn [no_volume].
  replace (leb 10 (-99)) with false by (symmetry; apply leb_false; lra). eexists. split; [reflexivity|]. cbn [bounds ok_tree]. refine (conj _ (conj _ (conj _ eq_refl))).
  - refine (conj eq_refl (conj _ _)); fl; lra.
  - fl; cbn; lra.
  - cbn. intros p [<-|[<-|[]]]; fl; lra.
Qed.
Print Assumptions C132_no_portals_refuted.
(** A tree that is a leaf without portals has no parent to take a box from. *)
Theorem C132_head_refuted : forall MAX, 0 <= MAX -> tree_bounds MAX None (Leaf []) = None.
Proof. intros MAX M. cbn [tree_bounds of_points fold_left empty repeat]. unfold settle. cbn [no_volume]. replace (leb (- MAX) MAX) with true by (symmetry; apply leb_true; lra). reflexivity. Qed.
Print Assumptions C132_head_refuted.

(** ** Vertices near an edge *)

(** If no vertex of a face at a node or below it is farther than d from the bounds of the node, every vertex of
    a matching face that is at most 1 - d from the edge is found; and only vertices of matching faces are that
    are at most 1 from the box of the edge. *)
Definition close (d : R) (p q : pt) : Prop := Forall2 (fun x y => Rabs (x - y) <= d) p q.
Definition segment (s : R) (p q : pt) : pt := zip (fun x y => x + s * (y - x)) p q.
Lemma edge_box_spec MAX p1 p2 : length p1 = 3%nat -> length p2 = 3%nat -> ranged MAX p1 -> ranged MAX p2 ->
  exists e, valid e /\ length e = 3%nat /\ edge_box MAX p1 p2 = grow e [1; 1; 1] /\ forall s, 0 <= s <= 1 -> inside (segment s p1 p2) e.
Proof.
  intros L1 L2 R1 R2. destruct p1 as [|a [|b [|c [|]]]]; try discriminate. destruct p2 as [|a' [|b' [|c' [|]]]]; try discriminate.
  exists [(Rmin a a', Rmax a a'); (Rmin b b', Rmax b b'); (Rmin c c', Rmax c c')].
  repeat match goal with H : ranged _ (_ :: _) |- _ => inversion H; clear H; subst | H : Forall _ (_ :: _) |- _ => inversion H; clear H; subst end.
  refine (conj _ (conj eq_refl (conj _ _))).
  - fl; cbn; mm.
  - unfold edge_box. f_equal. unfold empty. cbn [repeat expand zip fst snd].
    assert (X : forall x x', - MAX <= x <= MAX -> fix1 (Rmin (fst (fix1 (Rmin MAX x) (Rmax (- MAX) x))) x') (Rmax (snd (fix1 (Rmin MAX x) (Rmax (- MAX) x))) x') = (Rmin x x', Rmax x x')).
    { intros x x' H. rewrite (fix1_le (Rmin MAX x) (Rmax (- MAX) x)) by mm. cbn [fst snd]. replace (Rmin MAX x) with x by mm. replace (Rmax (- MAX) x) with x by mm. apply fix1_le. mm. }
    rewrite !X by assumption. reflexivity.
  - intros s S. assert (X : forall x x', in1 (x + s * (x' - x)) (Rmin x x', Rmax x x')).
    { intros x x'. unfold in1. cbn [fst snd]. mm; split; nra. }
    fl; apply X.
Qed.
Theorem C132_edge_vertices : forall MAX pos t p1 p2 d, 0 <= d <= 1 -> length p1 = 3%nat -> length p2 = 3%nat -> ranged MAX p1 -> ranged MAX p2 -> (forall v, length (pos v) = 3%nat) ->
  good (fun b f => length b = 3%nat /\ forall v, In v (snd f) -> exists q, inside q b /\ close d (pos v) q) t ->
  (forall v vs s, has_face t (true, vs) -> In v vs -> 0 <= s <= 1 -> close (1 - d) (pos v) (segment s p1 p2) -> In v (edge_verts MAX pos t p1 p2)) /\
  (forall v, In v (edge_verts MAX pos t p1 p2) -> exists vs, has_face t (true, vs) /\ In v vs /\ inside (pos v) (edge_box MAX p1 p2)).
Proof.
  intros MAX pos t p1 p2 d D L1 L2 R1 R2 LP G. destruct (edge_box_spec MAX p1 p2 L1 L2 R1 R2) as (e & V & Le & EE & SE).
  assert (LB : length (edge_box MAX p1 p2) = 3%nat) by (rewrite EE; destruct e as [|i [|j [|k [|]]]]; try discriminate; reflexivity).
  assert (GR : forall p, inside p (edge_box MAX p1 p2) <-> exists q, inside q e /\ close 1 p q).
  { intros p. rewrite EE, grow_spec; [|exact V|symmetry; exact Le|fl; lra]. split.
    - intros (q & Q & F & L). exists q. split; [exact Q|]. assert (L3 := inside_len _ _ Q). rewrite Le in L3. destruct q as [|x [|y [|z [|]]]]; try discriminate. destruct p as [|x' [|y' [|z' [|]]]]; try discriminate.
      cbn [combine] in F. repeat match goal with H : Forall2 _ (_ :: _) _ |- _ => inversion H; clear H; subst end. cbn [fst snd] in *. fl; assumption.
    - intros (q & Q & F). exists q. split; [exact Q|]. assert (L3 := inside_len _ _ Q). rewrite Le in L3. assert (L4 := F2_len _ _ _ F). split; [|exact L4].
      destruct q as [|x [|y [|z [|]]]]; try discriminate. destruct p as [|x' [|y' [|z' [|]]]]; try discriminate. unfold close in F. repeat match goal with H : Forall2 _ (_ :: _) _ |- _ => inversion H; clear H; subst end. fl; assumption. }
  assert (TR : forall a b p q r, close a p q -> close b p r -> close (a + b) q r).
  { clear. intros a b p q r H. revert r. induction H as [|x y p q H F IH]; intros r K; inversion K as [|x1 z p' r' K1 K2]; subst; constructor; [|apply IH; exact K2]. unfold Rabs in *. destruct (Rcase_abs (x - y)), (Rcase_abs (x - z)), (Rcase_abs (y - z)); lra. }
  split.
  - intros v vs s HF IV S C. apply find_verts_complete with (vs := vs); [|exact HF|exact IV|].
    + clear HF IV. induction t as [|b fs x IHx y IHy]; [exact Logic.I|]. cbn [good] in *. destruct G as (G1 & G2 & G3). refine (conj _ (conj (IHx G2) (IHy G3))).
      intros f HF IV. destruct (G1 f HF) as (Lb & GV). destruct (GV v IV) as (q & Q & CQ). destruct (disjoint 0 b (edge_box MAX p1 p2)) eqn:DJ; [|reflexivity]. exfalso.
      eapply (disjoint_far 0 b _ DJ q q Q).
      * apply GR. exists (segment s p1 p2). split; [apply SE; exact S|]. replace 1 with (d + (1 - d)) by lra. eapply TR; eassumption.
      * clear. induction q; constructor; [|assumption]. replace (a - a) with 0 by lra. rewrite Rabs_R0. lra.
    + apply contains_point_spec; [rewrite LP; symmetry; exact LB|]. apply GR. exists (segment s p1 p2). split; [apply SE; exact S|].
      revert C. unfold close. clear -D. generalize (pos v) (segment s p1 p2). intros p q H. induction H; constructor; [lra|assumption].
  - intros v I. destruct (find_verts_sound _ _ _ _ I) as (vs & A & B & C). exists vs. refine (conj A (conj B _)). apply contains_point_spec; [rewrite LP; symmetry; exact LB|exact C].
Qed.
Print Assumptions C132_edge_vertices.

Example C132_nontrivial :
  let pos v := match v with 0%nat => [0; 0; 0] | 1%nat => [8; 0; 0] | 2%nat => [4; 1 / 20; 0] | _ => [4; 30; 0] end in
  let t := FNode [(0, 8); (0, 30); (0, 9)] [(true, [0; 1; 3]%nat)] (FNode [(0, 8); (0, 9); (0, 9)] [(true, [2]%nat); (false, [1]%nat)] FLeaf FLeaf) FLeaf in
  In 2%nat (edge_verts 1000 pos t [0; 0; 0] [8; 0; 0]) /\ ~ In 3%nat (edge_verts 1000 pos t [0; 0; 0] [8; 0; 0]).
Proof.
  intros pos t.
  assert (LP : forall v, length (pos v) = 3%nat) by (intros [|[|[|v]]]; reflexivity).
  assert (RG : forall a b c, -1000 <= a <= 1000 -> -1000 <= b <= 1000 -> -1000 <= c <= 1000 -> ranged 1000 [a; b; c]) by (intros; fl; lra).
  assert (SELF : forall b p, inside p b -> exists q, inside q b /\ close (1 / 2) p q).
  { intros b p H. exists p. split; [exact H|]. unfold close. clear. induction p as [|x p IH]; constructor; [|exact IH]. replace (x - x) with 0 by lra. rewrite Rabs_R0. lra. }
  destruct (C132_edge_vertices 1000 pos t [0; 0; 0] [8; 0; 0] (1 / 2)) as [A B]; [lra|reflexivity|reflexivity|apply RG; lra|apply RG; lra|exact LP| |split].
  - cbn [t good has_face In snd]. refine (conj _ (conj (conj _ (conj Logic.I Logic.I)) Logic.I)).
    + intros f H. split; [reflexivity|]. intros v IV. apply SELF. destruct H as [[<-|[]]|[[[<-|[<-|[]]]|[[]|[]]]|[]]]; cbn [snd In] in IV; (destruct IV as [<-|[<-|[<-|[]]]] || destruct IV as [<-|[]]); fl; cbn; lra.
    + intros f H. split; [reflexivity|]. intros v IV. apply SELF. destruct H as [[<-|[<-|[]]]|[[]|[]]]; cbn [snd In] in IV; destruct IV as [<-|[]]; fl; cbn; lra.
  - apply (A 2%nat [2]%nat (1 / 2)); [cbn; auto|cbn; auto|lra|]. unfold close. cbn. fl; unfold Rabs; destruct (Rcase_abs _); lra.
  - intros H. destruct (B _ H) as (vs & _ & _ & C). destruct (edge_box_spec 1000 [0; 0; 0] [8; 0; 0]) as (e & _); try reflexivity; try (apply RG; lra).
    unfold edge_box, grow, empty in C. cbn [repeat expand zip mins maxs map fst snd] in C. unfold make in C. cbn [zip] in C.
    inversion C as [|x1 i1 p1 b1 _ C1]; subst. inversion C1 as [|x2 i2 p2 b2 C2 _]; subst. revert C2. unfold in1. cbn [fst snd].
    replace (Rmax (- (1000)) 0) with 0 by mm. replace (Rmin 1000 0) with 0 by mm. replace (ltb 0 0) with false by (symmetry; apply ltb_false; lra).
    replace (Rmin 0 0) with 0 by mm. replace (Rmax 0 0) with 0 by mm. replace (ltb 0 0) with false by (symmetry; apply ltb_false; lra).
    rewrite (fix1_le (0 - 1) (0 + 1)) by lra. cbn [fst snd]. lra.
Qed.
