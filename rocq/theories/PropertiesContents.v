(* C46-C51, C71: contents flags. *)
From Coq Require Import List Arith NArith ZArith Bool Lia.
Import ListNotations.
From Verif Require Import NumCastModel ContentsModel ContentsProofs.
Local Open Scope N_scope.

(** ** C46 *)

(** Every Quake contents value comes back unchanged; any other number is refused. *)
Theorem C46_quake_native : forall n,
  (In n [-1; -2; -3; -4; -5; -6]%Z ->
     exists c, q1_from_native n = ROk c /\ q1_to_native c = ROk n) /\
  (~ In n [-1; -2; -3; -4; -5; -6]%Z -> q1_from_native n = RThrow).
Proof.
  intros n. split.
  - intros I. cbn [In] in I.
    destruct I as [<-|[<-|[<-|[<-|[<-|[<-|[]]]]]]]; eexists; split; reflexivity.
  - intros I. cbn [In] in I. destruct n as [|p|p]; [reflexivity|reflexivity|].
    do 3 (try destruct p as [p|p|]); try reflexivity; exfalso; apply I; tauto.
Qed.
Print Assumptions C46_quake_native.

(** -7 (a current, in engines that have it) is refused; sky comes back as sky. *)
Example C46_nontrivial :
  q1_from_native (-7) = RThrow /\ q1_from_native 0 = RThrow /\
  q1_from_native (-6) = ROk SKY /\ q1_to_native (N.lor WATER DETAIL) = ROk (-3)%Z.
Proof. vm_compute. repeat split; reflexivity. Qed.

(** ** C47 *)

(** Every 32-bit value comes back unchanged. *)
Theorem C47_quake2_native : forall n, (- 2 ^ 31 <= n < 2 ^ 31)%Z ->
  q2_to_native (q2_from_native n) = ROk n.
Proof. exact q2_round. Qed.
Print Assumptions C47_quake2_native.

(** The other way around, writing keeps every flag but the three the tools keep for themselves
    (mirroring and clipping of faces, bits 15-17), and refuses the three a Quake II file cannot hold. *)
Theorem C47_flags_kept : forall c, c < 2 ^ 38 ->
  match q2_to_native c with
  | ROk n => (- 2 ^ 31 <= n < 2 ^ 31)%Z /\
             forall k, N.testbit (q2_from_native n) k =
                       N.testbit c k && negb (existsb (N.eqb k) [15; 16; 17])
  | RThrow => N.testbit c 1 = true \/ N.testbit c 2 = true \/ N.testbit c 13 = true
  | RUB => False
  end.
Proof.
  intros c L. destruct (q2_to_native c) as [n| |] eqn:E.
  - split.
    + unfold q2_to_native in E. destruct (tst c SKY); [discriminate E|].
      destruct (tst c DETAIL_WALL); [discriminate E|]. destruct (tst c VISBLOCKER); [discriminate E|].
      injection E as <-. apply i32_range, to_lt.
    + intros k. rewrite (q2_round_back c n k E).
      destruct (N.lt_ge_cases k 38) as [K|K]; [|rewrite (high_bits c 38 k L K); reflexivity].
      destruct (existsb (N.eqb k) [1; 2; 13]) eqn:X.
      * assert (Z : N.testbit c k = false).
        { unfold q2_to_native in E. rewrite tst_SKY, tst_WALL, tst_VISBLOCKER in E.
          cbn [existsb] in X.
          destruct (N.eqb_spec k 1) as [->|_]; [destruct (N.testbit c 1); [discriminate E|reflexivity]|].
          destruct (N.eqb_spec k 2) as [->|_]; [destruct (N.testbit c 1); [discriminate E|]; destruct (N.testbit c 2); [discriminate E|reflexivity]|].
          destruct (N.eqb_spec k 13) as [->|_]; [|discriminate X].
          destruct (N.testbit c 1); [discriminate E|]; destruct (N.testbit c 2); [discriminate E|].
          destruct (N.testbit c 13); [discriminate E|reflexivity]. }
        rewrite Z. reflexivity.
      * f_equal.
        assert (C : forallb (fun k => Bool.eqb (existsb (fun p : N * N => fst p =? N.of_nat k) q2_to_table)
                       (negb (existsb (N.eqb (N.of_nat k)) [1; 2; 13; 15; 16; 17]))) (seq 0 38) = true)
          by (vm_compute; reflexivity).
        rewrite forallb_forall in C. specialize (C (N.to_nat k)). rewrite N2Nat.id in C.
        specialize (C ltac:(apply in_seq; lia)). apply Bool.eqb_prop in C. rewrite C.
        cbn [existsb] in X |- *. destruct (k =? 1), (k =? 2), (k =? 13); try discriminate X. reflexivity.
  - unfold q2_to_native in E. rewrite tst_SKY, tst_WALL, tst_VISBLOCKER in E.
    destruct (N.testbit c 1); [auto|]. destruct (N.testbit c 2); [auto|].
    destruct (N.testbit c 13); [auto|discriminate E].
  - unfold q2_to_native in E. destruct (tst c SKY), (tst c DETAIL_WALL), (tst c VISBLOCKER); discriminate E.
Qed.
Print Assumptions C47_flags_kept.

Example C47_nontrivial :
  q2_from_native 134217729 = N.lor SOLID DETAIL /\
  q2_to_native (N.lor (N.lor SOLID DETAIL) MIRROR_INSIDE) = ROk 134217729%Z /\
  q2_to_native (q2_from_native (-1)) = ROk (-1)%Z /\
  q2_to_native (N.lor WATER SKY) = RThrow.
Proof. vm_compute. repeat split; reflexivity. Qed.

(** ** C48 *)

(** The contents of a leaf depend only on which contents its brushes have, not on their order or
    number: solid if one of them is structural solid, else sky if one is sky (Quake), else all
    their flags together. *)
Theorem C48_leaf_contents : forall g l,
  (forall l', (forall x, In x l <-> In x l') -> leaf_contents g l' = leaf_contents g l) /\
  ((exists c, In c l /\ N.testbit c 0 = true /\ N.testbit c 14 = false) -> leaf_contents g l = SOLID) /\
  (~ (exists c, In c l /\ N.testbit c 0 = true /\ N.testbit c 14 = false) ->
     g = Q1 -> (exists c, In c l /\ N.testbit c 1 = true) -> leaf_contents g l = SKY) /\
  (~ (exists c, In c l /\ N.testbit c 0 = true /\ N.testbit c 14 = false) ->
     g = Q2 \/ ~ (exists c, In c l /\ N.testbit c 1 = true) ->
     forall k, N.testbit (leaf_contents g l) k = true <-> exists c, In c l /\ N.testbit c k = true).
Proof.
  intros g l.
  assert (SS : existsb is_solid l = true <-> exists c, In c l /\ N.testbit c 0 = true /\ N.testbit c 14 = false).
  { rewrite existsb_exists. split.
    - intros (c & I & S). exists c. rewrite is_solid_bits in S. apply andb_true_iff in S. destruct S as [A B].
      apply negb_true_iff in B. auto.
    - intros (c & I & A & B). exists c. split; [exact I|]. rewrite is_solid_bits, A, B. reflexivity. }
  assert (KK : existsb (is_sky Q1) l = true <-> exists c, In c l /\ N.testbit c 1 = true).
  { rewrite existsb_exists. split; intros (c & I & S); exists c; split; auto; cbn [is_sky] in *;
      rewrite tst_SKY in *; exact S. }
  pose proof (leaf_ok g l) as L. unfold leaf_spec in L.
  repeat match goal with |- _ /\ _ => split end.
  - intros l' H. symmetry. apply leaf_order, H.
  - intros S. apply SS in S. rewrite S in L. exact L.
  - intros S -> K. apply KK in K. destruct (existsb is_solid l); [exfalso; apply S, SS; reflexivity|].
    rewrite K in L. exact L.
  - intros S G k. destruct (existsb is_solid l); [exfalso; apply S, SS; reflexivity|].
    assert (E : existsb (is_sky g) l = false).
    { destruct G as [->|G].
      - clear. induction l as [|x l IH]; [reflexivity|exact IH].
      - destruct g.
        + destruct (existsb (is_sky Q1) l); [exfalso; apply G, KK; reflexivity|reflexivity].
        + clear. induction l as [|x l IH]; [reflexivity|exact IH]. }
    rewrite E in L. rewrite L, existsb_exists. reflexivity.
Qed.
Print Assumptions C48_leaf_contents.

(** The step itself is commutative and associative. *)
Theorem C48_combine_laws : forall g a b c,
  combine g a b = combine g b a /\ combine g (combine g a b) c = combine g a (combine g b c).
Proof. intros. split; [apply combine_comm|apply combine_assoc]. Qed.
Print Assumptions C48_combine_laws.

(** A cluster is solid only if every leaf of it is; any other flag is there if some leaf has it. *)
Theorem C48_cluster_contents : forall t,
  (N.testbit (cluster_contents t) 0 = true <-> forall c, In c (cleaves t) -> N.testbit c 0 = true) /\
  (forall k, k <> 0 ->
     (N.testbit (cluster_contents t) k = true <-> exists c, In c (cleaves t) /\ N.testbit c k = true)).
Proof.
  intros t. split.
  - rewrite cluster_contents_bits. apply forallb_forall.
  - intros k D. rewrite cluster_contents_bits. destruct (N.eqb_spec k 0) as [E|_]; [contradiction|].
    apply existsb_exists.
Qed.
Print Assumptions C48_cluster_contents.

(** A detail-solid contribution does not keep a leaf solid: in Quake, a sky brush overlapping a
    func_detail leaves sky, which players fall through, in either order. *)
Theorem C48_detail_solid_in_sky_refuted :
  let d := detail_solid Q1 SOLID in
  N.testbit d 0 = true /\ leaf_contents Q1 [d; SKY] = SKY /\ leaf_contents Q1 [SKY; d] = SKY /\
  export_leaf Q1 (leaf_contents Q1 [d; SKY]) = ROk (-6)%Z /\
  export_leaf Q1 (leaf_contents Q1 [d; WATER]) = ROk (-2)%Z.
Proof. vm_compute. repeat split; reflexivity. Qed.
Print Assumptions C48_detail_solid_in_sky_refuted.

Example C48_nontrivial :
  leaf_contents Q1 [WATER; N.lor WATER MIRROR_INSIDE; N.lor MIST DETAIL] = N.lor WATER (N.lor MIRROR_INSIDE (N.lor MIST DETAIL)) /\
  leaf_contents Q2 [WATER; SOLID; SLIME] = SOLID /\
  cluster_contents (CNode (CLeaf SOLID) (CNode (CLeaf WATER) (CLeaf 0))) = WATER /\
  cluster_contents (CNode (CLeaf (N.lor SOLID DETAIL)) (CLeaf SOLID)) = N.lor SOLID DETAIL.
Proof. vm_compute. repeat split; reflexivity. Qed.

(** ** C49 *)

(** Vis sees the same through both sides of a portal; a side that is solid, or belongs to a
    func_illusionary_visblocker, blocks; two sides with the same visible contents, neither solid,
    do not. *)
Theorem C49_portal_vis : forall g tw on l r,
  portal_vis_flood g tw on l r = portal_vis_flood g tw on r l /\
  (N.testbit (cluster_contents l) 0 = true -> portal_vis_flood g tw on l r = false) /\
  ((exists c, In c (cleaves l) /\ N.testbit c 13 = true) -> portal_vis_flood g tw on l r = false) /\
  (on = true ->
   N.testbit (cluster_contents l) 0 = false ->
   (forall c, In c (cleaves l ++ cleaves r) -> N.testbit c 13 = false) ->
   (forall k, k <= 8 -> N.testbit (cluster_contents l) k = N.testbit (cluster_contents r) k) ->
   portal_vis_flood g tw on l r = true).
Proof.
  intros g tw on l r.
  assert (VB : forall t, tst (cluster_contents t) VISBLOCKER = existsb (fun c => N.testbit c 13) (cleaves t)).
  { intros t. rewrite tst_VISBLOCKER, cluster_contents_bits. reflexivity. }
  unfold portal_vis_flood. cbv zeta. repeat match goal with |- _ /\ _ => split end.
  - rewrite (orb_comm (tst (cluster_contents r) VISBLOCKER)), (see_sym g (cluster_contents r)). reflexivity.
  - intros S. rewrite <- tst_SOLID in S. rewrite (see_solid g _ _ tw S).
    destruct (negb on), (tst (cluster_contents l) VISBLOCKER || tst (cluster_contents r) VISBLOCKER); reflexivity.
  - intros H. apply existsb_exists in H. rewrite VB, H. destruct (negb on); reflexivity.
  - intros -> S V K. cbn [negb].
    assert (Z : forall t, (forall c, In c (cleaves t) -> N.testbit c 13 = false) -> tst (cluster_contents t) VISBLOCKER = false).
    { intros t H. rewrite VB. apply not_true_is_false. intros X. apply existsb_exists in X.
      destruct X as (c & I & X). rewrite (H c I) in X. discriminate X. }
    rewrite (Z l), (Z r) by (intros c I; apply V, in_or_app; auto). cbn [orb].
    apply see_same_visible.
    + rewrite tst_SOLID. exact S.
    + rewrite tst_SOLID, <- K by lia. exact S.
    + apply not_true_is_false. intros X. apply tst_exists in X. destruct X as (k & X & Y).
      apply visible_bit in Y. rewrite N.lxor_spec, (K k Y), xorb_nilpotent in X. discriminate X.
Qed.
Print Assumptions C49_portal_vis.

(** In Quake, water is opaque without -transwater and transparent with it; detail never blocks
    against air. *)
Example C49_nontrivial :
  portal_vis_flood Q1 false true (CLeaf WATER) (CLeaf 0) = false /\
  portal_vis_flood Q1 true true (CLeaf WATER) (CLeaf 0) = true /\
  portal_vis_flood Q1 false true (CLeaf (N.lor WINDOW DETAIL)) (CLeaf 0) = true /\
  portal_vis_flood Q1 false true (CLeaf SOLID) (CLeaf SOLID) = false.
Proof. vm_compute. repeat split; reflexivity. Qed.

(** In Quake the rest of the rule is this: with different visible contents, neither solid, vis sees
    through exactly when the visible contents of the sides that are neither detail nor (with
    -transwater) liquid agree, those that are counting as air. *)
Theorem C49_quake_rule : forall a b tw,
  N.testbit a 0 = false -> N.testbit b 0 = false ->
  let clear x := N.testbit x 14 || (tw && (N.testbit x 5 || N.testbit x 6 || N.testbit x 7)) in
  let seen x k := negb (clear x) && N.testbit x k in
  (q1_see_through a b tw = true <->
   (forall k, k <= 8 -> N.testbit a k = N.testbit b k) \/ (forall k, k <= 8 -> seen a k = seen b k)).
Proof.
  intros a b tw A B clear seen.
  assert (T : forall x y, tst (N.lxor x y) ALL_VISIBLE = false <-> forall k, k <= 8 -> N.testbit x k = N.testbit y k).
  { intros x y. split.
    - intros H k K. destruct (N.testbit x k) eqn:X; destruct (N.testbit y k) eqn:Y; try reflexivity; exfalso;
        (assert (Q : tst (N.lxor x y) ALL_VISIBLE = true) by
          (apply tst_exists; exists k; split; [rewrite N.lxor_spec, X, Y; reflexivity|apply visible_bit, K]));
        rewrite Q in H; discriminate H.
    - intros H. apply not_true_is_false. intros X. apply tst_exists in X. destruct X as (k & X & Y).
      apply visible_bit in Y. rewrite N.lxor_spec, (H k Y), xorb_nilpotent in X. discriminate X. }
  assert (CL : forall x, tst x DETAIL || (if tw then tst x ALL_LIQUIDS else false) = clear x).
  { intros x. unfold clear. rewrite tst_DETAIL, tst_LIQUIDS. cbn [existsb]. rewrite orb_false_r.
    destruct tw; cbn [andb]; [f_equal; apply orb_assoc|reflexivity]. }
  assert (SE : forall x k, N.testbit (if clear x then 0 else x) k = seen x k).
  { intros x k. unfold seen. destruct (clear x); [apply N.bits_0|reflexivity]. }
  unfold q1_see_through. rewrite !tst_SOLID, A, B. cbn [orb]. cbv zeta. rewrite !CL.
  destruct (tst (N.lxor a b) ALL_VISIBLE) eqn:V; cbn [negb].
  - assert (NV : ~ forall k, k <= 8 -> N.testbit a k = N.testbit b k).
    { intros H. apply T in H. rewrite H in V. discriminate V. }
    assert (R : (if N.lxor (if clear a then 0 else a) (if clear b then 0 else b) =? 0 then true
                 else if negb (tst (N.lxor (if clear a then 0 else a) (if clear b then 0 else b)) ALL_VISIBLE)
                      then true else false) =
                negb (tst (N.lxor (if clear a then 0 else a) (if clear b then 0 else b)) ALL_VISIBLE)).
    { destruct (N.eqb_spec (N.lxor (if clear a then 0 else a) (if clear b then 0 else b)) 0) as [E|E].
      - rewrite E. reflexivity.
      - destruct (negb _); reflexivity. }
    rewrite R, negb_true_iff, T. split.
    + intros H. right. intros k K. rewrite <- !SE. apply H, K.
    + intros [H|H]; [contradiction|]. intros k K. rewrite !SE. apply H, K.
  - split; [|reflexivity]. intros _. left. apply T, V.
Qed.
Print Assumptions C49_quake_rule.

(** ** C50 *)

(** In Quake II contents that differ only in invisible flags never block. *)
Theorem C50_invisible_difference_partial : forall a b tw,
  N.testbit a 0 = false -> (forall k, k <= 8 -> N.testbit a k = N.testbit b k) ->
  see_through Q2 a b tw = true.
Proof.
  intros a b tw A K. apply see_same_visible.
  - rewrite tst_SOLID. exact A.
  - rewrite tst_SOLID, <- K by lia. exact A.
  - apply not_true_is_false. intros X. apply tst_exists in X. destruct X as (k & X & Y).
    apply visible_bit in Y. rewrite N.lxor_spec, (K k Y), xorb_nilpotent in X. discriminate X.
Qed.
Print Assumptions C50_invisible_difference_partial.

(** Opaque contents never block vis in Quake II: whenever two non-solid sides, neither translucent
    nor detail, have different visible contents, vis sees through the portal. *)
Theorem C50_opaque_refuted : forall a b tw k,
  N.testbit a 0 = false -> N.testbit b 0 = false ->
  N.testbit a 14 = false -> N.testbit b 14 = false -> N.testbit a 24 = false -> N.testbit b 24 = false ->
  k <= 8 -> N.testbit a k <> N.testbit b k ->
  see_through Q2 a b tw = true.
Proof.
  intros a b tw k A0 B0 A1 B1 A2 B2 K D. cbn [see_through]. unfold q2_see_through.
  assert (V : tst (N.lxor a b) ALL_VISIBLE = true).
  { apply tst_exists. exists k. split; [|apply visible_bit, K]. rewrite N.lxor_spec.
    destruct (N.testbit a k), (N.testbit b k); try reflexivity; exfalso; apply D; reflexivity. }
  rewrite !tst_SOLID, !tst_DETAIL, !tst_TRANSLUCENT, A0, B0, A1, B1, A2, B2, V. cbn [orb negb]. cbv zeta.
  rewrite V. destruct (N.lxor a b =? 0); reflexivity.
Qed.
Print Assumptions C50_opaque_refuted.

(** And translucent contents block when the other side carries only invisible flags: translucent
    water next to a player clip, between which Quake lets vis through. *)
Theorem C50_translucent_refuted :
  let water := N.lor WATER (N.lor TRANSLUCENT DETAIL) in
  see_through Q2 water PLAYERCLIP false = false /\ see_through Q2 water 0 false = true /\
  see_through Q1 water PLAYERCLIP true = true /\
  see_through Q2 WATER 0 false = true /\ see_through Q1 WATER 0 false = false.
Proof. vm_compute. repeat split; reflexivity. Qed.
Print Assumptions C50_translucent_refuted.

Example C50_nontrivial :
  see_through Q2 WATER (N.lor WATER PLAYERCLIP) false = true /\
  see_through Q2 SOLID 0 false = false.
Proof. vm_compute. repeat split; reflexivity. Qed.

(** ** C51 *)

(** The contents of every leaf and of every brush can be written, whatever the entity keys, the
    options and the classes of the entities, in Quake; and in Quake II when no brush belongs to a
    func_illusionary_visblocker.  Also, in a clipping hull, where leafs are written without
    remapping. *)
Theorem C51_export_partial : forall g (bs : list (ent_opts * load_opts * list face_src)) cs,
  Forall (fun b => let '(e, o, fs) := b in
            Forall (fun f => face_game f = g) fs /\ (g = Q1 \/ e_visblocker e = false)) bs ->
  Forall2 (fun b c => let '(e, o, fs) := b in load_contents g o (brush_contents g e fs) = Some c) bs cs ->
  (exists n, export_leaf g (leaf_contents g cs) = ROk n) /\
  (forall c, In c cs -> exists n, export_brush g c = ROk n) /\
  (Forall (fun b => let '(e, o, fs) := b in exists h, o_hull o = Some h /\ h <> 0) bs ->
   to_native g (leaf_contents g cs) = match cs with [] => to_native g 0 | _ => to_native g SOLID end).
Proof.
  intros g bs cs F L.
  assert (FF : Forall (fun c => fine g c = true) cs).
  { revert F. induction L as [|[[e o] fs] c bs cs H L IH]; intros F; [constructor|].
    inversion F as [|? ? AB F']; subst. destruct AB as [A B]. constructor.
    - eapply load_fine; [|exact H]. apply brush_plain; assumption.
    - apply IH, F'. }
  repeat match goal with |- _ /\ _ => split end.
  - apply export_leaf_ok, leaf_fine, FF.
  - intros c I. rewrite Forall_forall in FF. apply export_ok, FF, I.
  - intros H. destruct cs as [|c cs]; [reflexivity|].
    assert (S : leaf_contents g (c :: cs) = SOLID).
    { destruct bs as [|[[e o] fs] bs]; inversion L as [|? ? ? ? X L']; subst.
      inversion H as [|? ? HE HF]; subst. destruct HE as (h & E & N0).
      pose proof (load_hull_solid g o _ c h E N0 X) as S.
      pose proof (leaf_ok g (c :: cs)) as K. unfold leaf_spec in K. cbn [existsb] in K. rewrite S in K. exact K. }
    rewrite S. reflexivity.
Qed.
Print Assumptions C51_export_partial.

(** In Quake II a func_illusionary_visblocker brush of water cannot be written: neither its leaf
    nor the brush. *)
Theorem C51_visblocker_refuted :
  let e := mkEO None None true false in
  let o := mkLO false false false false false DNone false None true true in
  let c := brush_contents Q2 e [FQ2 false false 32] in
  load_contents Q2 o c = Some (N.lor WATER VISBLOCKER) /\
  export_leaf Q2 (leaf_contents Q2 [N.lor WATER VISBLOCKER]) = RThrow /\
  export_brush Q2 (N.lor WATER VISBLOCKER) = RThrow.
Proof. vm_compute. repeat split; reflexivity. Qed.
Print Assumptions C51_visblocker_refuted.

(** A func_detail_wall overlapping water is written as solid, a func_detail_illusionary in water as
    water. *)
Example C51_nontrivial :
  let e := mkEO None None false false in
  let o d := mkLO false false false false false d false (Some 0) true false in
  load_contents Q1 (o DWall) (brush_contents Q1 e [FQ1 TOther]) = Some (N.lor DETAIL_WALL DETAIL) /\
  export_leaf Q1 (leaf_contents Q1 [N.lor DETAIL_WALL DETAIL; WATER]) = ROk (-2)%Z /\
  load_contents Q1 (o DIllusionary) (brush_contents Q1 e [FQ1 TOther]) = Some (N.lor MIST DETAIL) /\
  export_leaf Q1 (leaf_contents Q1 [N.lor MIST DETAIL; WATER]) = ROk (-3)%Z.
Proof. vm_compute. repeat split; reflexivity. Qed.

(** ** C71 *)

(** A portal that needs a face always has a brush to take it from: if the visible contents change
    across the portal between two leafs, some brush of one of the two leafs generates the outward
    face.  And which contents are strongest does not depend on the side order. *)
Theorem C71_visible_portal_has_brush : forall g l r,
  portal_visible g (leaf_contents g l) (leaf_contents g r) <> 0 ->
  exists b, (In b l \/ In b r) /\
    generates_face g (portal_visible g (leaf_contents g l) (leaf_contents g r)) b false = true.
Proof.
  intros g l r H. set (v := portal_visible g (leaf_contents g l) (leaf_contents g r)) in *.
  destruct (visible_index v) as [k|] eqn:E.
  - destruct (portal_visible_source g _ _ k E) as [K [S|S]];
      apply leaf_bit_source in S; destruct S as (b & I & T); exists b; (split; [auto|]);
      unfold generates_face; rewrite E, T; reflexivity.
  - exfalso. apply H.
    assert (Q : forall x, visible_index (visible_contents x) = None -> visible_contents x = 0).
    { intros x X. destruct (visible_cases x) as [[Z _]|(j & J & Z & _)]; [exact Z|].
      rewrite Z, visible_index_pow in X by exact J. discriminate X. }
    unfold v, portal_visible in *. destruct g; [|apply Q, E].
    destruct (tst _ _ && tst _ _); [reflexivity|apply Q, E].
Qed.
Print Assumptions C71_visible_portal_has_brush.

(** The chosen contents are a single visible flag, the lowest on which the sides differ (or, with
    _noclipfaces, that a side has), and do not depend on the order of the sides. *)
Theorem C71_strongest_change : forall g a b,
  portal_visible g a b = portal_visible g b a /\
  (portal_visible g a b = 0 \/ exists k, k <= 8 /\ portal_visible g a b = 2 ^ k /\
     (N.testbit a k = true \/ N.testbit b k = true)) /\
  (N.testbit a 17 = false -> N.testbit b 17 = false ->
   g = Q2 \/ ~ ((N.testbit a 0 = true \/ N.testbit a 1 = true) /\ (N.testbit b 0 = true \/ N.testbit b 1 = true)) ->
   forall k, k <= 8 -> N.testbit a k <> N.testbit b k ->
   exists j, j <= k /\ portal_visible g a b = 2 ^ j /\ N.testbit a j <> N.testbit b j /\
             forall i, i < j -> N.testbit a i = N.testbit b i).
Proof.
  intros g a b. repeat match goal with |- _ /\ _ => split end.
  - unfold portal_visible. rewrite (orb_comm (tst b SUPPRESS_CLIPPING)), (N.lor_comm b a), (N.lxor_comm b a).
    rewrite (andb_comm (tst b (N.lor SOLID SKY))). reflexivity.
  - assert (Q : forall x, portal_visible g a b = visible_contents x ->
       portal_visible g a b = 0 \/ exists k, k <= 8 /\ portal_visible g a b = 2 ^ k /\
         (N.testbit a k = true \/ N.testbit b k = true)).
    { intros x X. destruct (visible_cases x) as [[Z _]|(j & J & Z & _ & _)].
      - left. congruence.
      - right. exists j. split; [exact J|]. split; [congruence|].
        apply (portal_visible_source g a b j). rewrite X, Z. apply visible_index_pow, J. }
    unfold portal_visible in *. destruct g; [|eapply Q; reflexivity].
    destruct (tst a (N.lor SOLID SKY) && tst b (N.lor SOLID SKY)); [left; reflexivity|].
    eapply Q. reflexivity.
  - intros SA SB G k K D.
    assert (E : portal_visible g a b = visible_contents (N.lxor a b)).
    { unfold portal_visible. rewrite !tst_SUPPRESS, SA, SB. cbn [orb]. cbv zeta.
      destruct g; [|reflexivity]. rewrite !tst_lor, !tst_SOLID, !tst_SKY.
      destruct G as [G|G]; [discriminate G|].
      destruct (N.testbit a 0), (N.testbit a 1), (N.testbit b 0), (N.testbit b 1); cbn [orb andb];
        try reflexivity; exfalso; apply G; tauto. }
    rewrite E. unfold visible_contents.
    assert (X : forall i, N.testbit (N.lxor a b) i = true <-> N.testbit a i <> N.testbit b i).
    { intros i. rewrite N.lxor_spec. destruct (N.testbit a i), (N.testbit b i); cbn; split; congruence. }
    destruct (visible_index (N.lxor a b)) as [j|] eqn:V.
    + exists j. unfold visible_index in V.
      assert (M : N.testbit (N.lxor a b) j = true /\ forall i, i < j -> N.testbit (N.lxor a b) i = false).
      { cbn [find] in V.
        repeat match type of V with
        | (if ?t then Some ?n else _) = Some _ => destruct t eqn:?; [injection V as <-; split; [assumption|intros i I;
            assert (C : i = 0 \/ i = 1 \/ i = 2 \/ i = 3 \/ i = 4 \/ i = 5 \/ i = 6 \/ i = 7) by lia;
            repeat (destruct C as [->|C]; [try assumption; exfalso; lia|]); subst i; try assumption; exfalso; lia]|]
        end. discriminate V. }
      destruct M as [M1 M2].
      repeat match goal with |- _ /\ _ => split end.
      * destruct (N.le_gt_cases j k) as [L|L]; [exact L|]. specialize (M2 k L). apply X in D. congruence.
      * reflexivity.
      * apply X, M1.
      * intros i I. specialize (M2 i I). destruct (Bool.bool_dec (N.testbit a i) (N.testbit b i)) as [Y|Y]; [exact Y|].
        apply X in Y. congruence.
    + exfalso. unfold visible_index in V.
      assert (Z : N.testbit (N.lxor a b) k = false).
      { apply (find_none _ _ V k).
        assert (C : k = 0 \/ k = 1 \/ k = 2 \/ k = 3 \/ k = 4 \/ k = 5 \/ k = 6 \/ k = 7 \/ k = 8) by lia.
        cbn [In]. intuition. }
      apply X in D. congruence.
Qed.
Print Assumptions C71_strongest_change.

Example C71_nontrivial :
  portal_visible Q1 (N.lor WATER (N.lor WINDOW DETAIL)) WATER = WINDOW /\
  generates_face Q1 WINDOW (N.lor WINDOW DETAIL) false = true /\
  generates_face Q1 WINDOW (N.lor WINDOW DETAIL) true = false /\
  generates_face Q1 WATER WATER true = true /\
  generates_face Q2 WATER (N.lor WATER MIRROR_INSIDE_SET) true = false /\
  portal_visible Q1 SOLID SKY = 0 /\ portal_visible Q2 SOLID WATER = SOLID.
Proof. vm_compute. repeat split; reflexivity. Qed.

(** ** Further theorems about C46, C49 and C51 *)

(** What a Quake file gets for a leaf is decided by its lowest visible flag: solid, sky, then what
    the file cannot hold (an error), lava, slime, water; mist is an error, no flag is empty. *)
Theorem C46_written_value : forall c,
  match find (N.testbit c) [0;1;2;3;4;5;6;7;8] with
  | Some k => q1_to_native c = nth (N.to_nat k) [ROk (-2); ROk (-6); RThrow; RThrow; RThrow; ROk (-5); ROk (-4); ROk (-3); RThrow]%Z RUB
  | None => q1_to_native c = ROk (-1)%Z
  end.
Proof.
  intro c. unfold q1_to_native. autorewrite with tst. cbn [find].
  repeat match goal with |- context [N.testbit c ?k] => destruct (N.testbit c k) end; reflexivity.
Qed.
Print Assumptions C46_written_value.

(** Which contents block sight.  Quake: decided by the lowest visible flag (solid, sky and detail
    wall; liquids unless -transwater).  Quake II: any visible flag unless translucent. *)
Theorem C49_opaque : forall c tw,
  is_opaque Q1 c tw = match find (N.testbit c) [0;1;2;3;4;5;6;7;8] with
                      | Some k => existsb (N.eqb k) [0;1;2] || (negb tw && existsb (N.eqb k) [5;6;7])
                      | None => false
                      end /\
  is_opaque Q2 c tw = existsb (N.testbit c) [0;1;2;3;4;5;6;7;8] && negb (N.testbit c 24).
Proof.
  intros c tw. unfold is_opaque, visible_contents, visible_index. autorewrite with tst. cbn [find existsb]. split.
  - repeat match goal with |- context [N.testbit c ?k] => destruct (N.testbit c k) end; destruct tw; reflexivity.
  - repeat match goal with |- context [N.testbit c ?k] => destruct (N.testbit c k) end; reflexivity.
Qed.
Print Assumptions C49_opaque.

(** Empty contents: Quake II looks at bits 0 to 13, Quake at the visible flags, origin and clip. *)
Theorem C49_empty : forall c,
  (is_empty Q2 c = true <-> forall k, k <= 13 -> N.testbit c k = false) /\
  (is_empty Q1 c = true <-> forall k, k <= 10 -> N.testbit c k = false).
Proof.
  intro c. split.
  - unfold is_empty, content_type. rewrite N.eqb_eq. change (N.lor ALL_VISIBLE ALL_INVIS) with (N.ones 14). split.
    + intros H k K. pose proof (f_equal (fun x => N.testbit x k) H) as X. cbv beta in X. rewrite N.land_spec, N.bits_0, N.ones_spec_low, andb_true_r in X by lia. exact X.
    + intro H. apply N.bits_inj. intro k. rewrite N.land_spec, N.bits_0. destruct (N.lt_ge_cases k 14) as [L|L]; [rewrite H by lia; reflexivity|rewrite N.ones_spec_high by lia; apply andb_false_r].
  - unfold is_empty. autorewrite with tst. rewrite tst_VISIBLE. split.
    + intros H k K. cbn [existsb] in H. destruct (N.testbit c 9) eqn:B9; [discriminate H|]. destruct (N.testbit c 10) eqn:B10; [discriminate H|].
      apply negb_true_iff in H. rewrite !orb_false_iff in H. destruct H as [A0 [A1 [A2 [A3 [A4 [A5 [A6 [A7 [A8 _]]]]]]]]].
      assert (k = 0 \/ k = 1 \/ k = 2 \/ k = 3 \/ k = 4 \/ k = 5 \/ k = 6 \/ k = 7 \/ k = 8 \/ k = 9 \/ k = 10) as E by lia.
      repeat (destruct E as [->|E]; [assumption|]). subst. assumption.
    + intro H. rewrite !H by lia. cbn [existsb]. rewrite !H by lia. reflexivity.
Qed.
Print Assumptions C49_empty.

Lemma bit_SOLID : forall b, N.testbit SOLID b = (0 =? b).
Proof. intro b. replace SOLID with (2 ^ 0) by reflexivity. apply N.pow2_bits_eqb. Qed.
Lemma bit_WINDOW : forall b, N.testbit WINDOW b = (3 =? b).
Proof. intro b. replace WINDOW with (2 ^ 3) by reflexivity. apply N.pow2_bits_eqb. Qed.
Lemma bit_TRANSLUCENT : forall b, N.testbit TRANSLUCENT b = (24 =? b).
Proof. intro b. replace TRANSLUCENT with (2 ^ 24) by reflexivity. apply N.pow2_bits_eqb. Qed.
Lemma bit_DETAIL : forall b, N.testbit DETAIL b = (14 =? b).
Proof. intro b. replace DETAIL with (2 ^ 14) by reflexivity. apply N.pow2_bits_eqb. Qed.
Lemma step_lor : forall (b : bool) x m k, N.testbit (if b then N.lor x m else x) k = N.testbit x k || (b && N.testbit m k).
Proof. intros b x m k. destruct b; [apply N.lor_spec|rewrite orb_false_r; reflexivity]. Qed.
Lemma step_window : forall x k, N.testbit (if tst x SOLID then N.lor (N.ldiff x SOLID) WINDOW else x) k =
  (N.testbit x k && negb (0 =? k)) || (N.testbit x 0 && (3 =? k)).
Proof.
  intros x k. rewrite tst_SOLID. destruct (N.testbit x 0) eqn:E.
  - rewrite N.lor_spec, N.ldiff_spec, bit_SOLID, bit_WINDOW. reflexivity.
  - rewrite orb_false_r. destruct (N.eqb_spec 0 k) as [<-|D]; [rewrite E; reflexivity|rewrite andb_true_r; reflexivity].
Qed.
Lemma step_detail : forall x k, N.testbit (if tst x TRANSLUCENT then N.lor x DETAIL else if tst x (N.lor MIST AUX) then N.lor x DETAIL else x) k =
  N.testbit x k || ((N.testbit x 24 || N.testbit x 8 || N.testbit x 4) && (14 =? k)).
Proof.
  intros x k. rewrite tst_lor, tst_TRANSLUCENT, tst_MIST, tst_AUX. destruct (N.testbit x 24); cbn [orb]; [rewrite N.lor_spec, bit_DETAIL; reflexivity|].
  rewrite step_lor, bit_DETAIL. reflexivity.
Qed.
Lemma type_zero : forall c, (content_type c =? 0) = negb (existsb (N.testbit c) [0;1;2;3;4;5;6;7;8;9;10;11;12;13]).
Proof.
  intro c. pose proof (proj1 (C49_empty c)) as [E1 E2]. unfold is_empty in E1, E2. destruct (content_type c =? 0).
  - specialize (E1 eq_refl). cbn [existsb]. rewrite !E1 by lia. reflexivity.
  - destruct (existsb (N.testbit c) _) eqn:X; [reflexivity|]. discriminate E2. intros k K. cbn [existsb] in X. rewrite !orb_false_iff in X.
    assert (k = 0 \/ k = 1 \/ k = 2 \/ k = 3 \/ k = 4 \/ k = 5 \/ k = 6 \/ k = 7 \/ k = 8 \/ k = 9 \/ k = 10 \/ k = 11 \/ k = 12 \/ k = 13) as E by lia.
    destruct X as [A0 [A1 [A2 [A3 [A4 [A5 [A6 [A7 [A8 [A9 [A10 [A11 [A12 [A13 _]]]]]]]]]]]]]].
    repeat (destruct E as [->|E]; [assumption|]). subst. assumption.
Qed.
(** The bits after all steps, [e] standing for "no type". *)
Definition face_bit (c : N) (e tr : bool) (k : N) : bool :=
  let b1 := fun k => N.testbit c k || (e && (0 =? k)) in
  let b2 := fun k => if tr then ((b1 k || (24 =? k)) && negb (0 =? k)) || (b1 0 && (3 =? k)) else b1 k in
  let b3 := fun k => b2 k || ((b2 24 || b2 8 || b2 4) && (14 =? k)) in
  b3 k || ((b3 11 || b3 10) && (14 =? k)).
Lemma face_bits : forall tr n k, N.testbit (q2_face_contents false tr n) k = face_bit (q2_from_native n) (content_type (q2_from_native n) =? 0) tr k.
Proof.
  intros tr n k. unfold q2_face_contents, face_bit. set (c := q2_from_native n). set (e := content_type c =? 0). clearbody e. clearbody c. cbv zeta.
  rewrite step_lor, (tst_lor _ MONSTERCLIP PLAYERCLIP), tst_MONSTERCLIP, tst_PLAYERCLIP, bit_DETAIL, !step_detail.
  destruct tr.
  - rewrite !step_window, !N.lor_spec, !bit_TRANSLUCENT, !step_lor, !bit_SOLID. change (24 =? 0) with false. rewrite (orb_false_r (_ || (e && _))). reflexivity.
  - rewrite !step_lor, !bit_SOLID. reflexivity.
Qed.

(** The contents of a Quake II face that is neither hint nor skip, flag by flag, from the contents
    [n] of the map file: without a type it is solid; with a transparent surface it is translucent,
    and a window if it would be solid; translucent, mist, aux and clip contents are detail. *)
Theorem C51_quake2_face : forall tr n,
  let c := q2_from_native n in
  let s := q2_face_contents false tr n in
  let solid := N.testbit c 0 || negb (existsb (N.testbit c) [0;1;2;3;4;5;6;7;8;9;10;11;12;13]) in
  N.testbit s 0 = (solid && negb tr) /\
  N.testbit s 3 = (N.testbit c 3 || (solid && tr)) /\
  N.testbit s 24 = (N.testbit c 24 || tr) /\
  N.testbit s 14 = (N.testbit c 14 || tr || N.testbit c 24 || N.testbit c 8 || N.testbit c 4 || N.testbit c 10 || N.testbit c 11) /\
  forall k, k <> 0 -> k <> 3 -> k <> 24 -> k <> 14 -> N.testbit s k = N.testbit c k.
Proof.
  intros tr n c s solid. subst s solid. fold c. pose proof (face_bits tr n) as F. rewrite type_zero in F. fold c in F.
  set (e := negb (existsb _ _)) in *. clearbody e. rewrite !F. unfold face_bit in *. cbv zeta in *.
  split; [|split; [|split; [|split]]].
  - clear F. clearbody c. cbn [N.eqb Pos.eqb]. rewrite ?andb_false_r, ?orb_false_r, ?andb_true_r. destruct e, tr, (N.testbit c 0); reflexivity.
  - clear F. clearbody c. cbn [N.eqb Pos.eqb]. rewrite ?andb_false_r, ?orb_false_r, ?andb_true_r. destruct e, tr, (N.testbit c 0), (N.testbit c 3); reflexivity.
  - clear F. clearbody c. cbn [N.eqb Pos.eqb]. rewrite ?andb_false_r, ?orb_false_r, ?andb_true_r. destruct e, tr, (N.testbit c 0), (N.testbit c 24); reflexivity.
  - clear F. clearbody c. cbn [N.eqb Pos.eqb]. rewrite ?andb_false_r, ?orb_false_r, ?andb_true_r. destruct e, tr, (N.testbit c 0), (N.testbit c 14), (N.testbit c 24), (N.testbit c 8), (N.testbit c 4), (N.testbit c 11), (N.testbit c 10); reflexivity.
  - intros k D0 D3 D24 D14. rewrite F.
    replace (0 =? k) with false by (symmetry; apply N.eqb_neq; congruence). replace (3 =? k) with false by (symmetry; apply N.eqb_neq; congruence).
    replace (24 =? k) with false by (symmetry; apply N.eqb_neq; congruence). replace (14 =? k) with false by (symmetry; apply N.eqb_neq; congruence).
    rewrite !andb_false_r, !orb_false_r, andb_true_r. destruct tr; reflexivity.
Qed.
Print Assumptions C51_quake2_face.

(** The flags a detail entity gives to a solid brush, in the tree that is drawn: [added] are set; in
    Quake nothing else, in Quake II everything the brush had, but solid only for func_detail. *)
Definition added (g : game) (d : detail_class) : list N :=
  match d with
  | DNone => [] | DDetail => [0; 14] | DWall => [2; 14] | DIllusionary => [8; 14]
  | DFence => match g with Q1 => [3; 14] | Q2 => [3; 14; 24] end
  end.
Lemma tail_bits : forall mb c k, ~ In k [15;16;17] ->
  N.testbit (set_clips_same_type (set_mirrored c (mirror_inside mb)) (clips_same_type mb)) k = N.testbit c k.
Proof.
  intros mb c k K.
  assert (B : forall n, n <> k -> N.testbit (2 ^ n) k = false) by (intros n D; rewrite N.pow2_bits_eqb; apply N.eqb_neq; exact D).
  assert (K15 : 15 <> k) by (intro X; apply K; cbn [In]; auto).
  assert (K16 : 16 <> k) by (intro X; apply K; cbn [In]; auto).
  assert (K17 : 17 <> k) by (intro X; apply K; cbn [In]; auto).
  unfold clips_same_type, mirror_inside. replace SUPPRESS_CLIPPING with (2 ^ 17) by reflexivity.
  assert (S : forall v, N.testbit (set_mirrored c v) k = N.testbit c k).
  { intros v. unfold set_mirrored. replace MIRROR_INSIDE_SET with (2 ^ 16) by reflexivity. replace MIRROR_INSIDE with (2 ^ 15) by reflexivity.
    destruct v as [[|]|]; bits; rewrite ?N.lor_spec, ?B by assumption; cbn; rewrite ?orb_false_r, ?andb_true_r; reflexivity. }
  unfold set_clips_same_type. destruct (tst mb (2 ^ 17)); [|apply S]. replace SUPPRESS_CLIPPING with (2 ^ 17) by reflexivity. bits. rewrite S, (B 17) by exact K17. apply orb_false_r.
Qed.
Theorem C51_entity_class : forall g o mb, o_nodetail o = false -> o_omitdetail o = false -> o_omitillus o = false -> o_omitfence o = false -> o_omitwall o = false ->
  o_hint o = false -> (o_world o = true \/ o_bmodelcontents o = true) -> (o_hull o = None \/ o_hull o = Some 0 /\ is_clip g mb = false) ->
  N.testbit mb 0 = true -> o_class o <> DNone ->
  exists c, load_contents g o mb = Some c /\ forall k, ~ In k [15;16;17] ->
    N.testbit c k = (existsb (N.eqb k) (added g (o_class o)) ||
                     match g with Q1 => false | Q2 => N.testbit mb k && (negb (k =? 0) || existsb (N.eqb 0) (added g (o_class o))) end).
Proof.
  intros g o mb H1 H2 H3 H4 H5 H6 H7 H8 H9 H10. unfold load_contents. rewrite H1, H2, H3, H4, H5, H6.
  assert (A : is_any_solid mb = true) by (unfold is_any_solid; rewrite tst_SOLID; exact H9).
  assert (HF : match o_hull o with Some h => negb (h =? 0) | None => false end = false) by (destruct H8 as [->|[-> _]]; reflexivity).
  rewrite HF, A. cbn [andb orb negb].
  assert (W : negb (o_world o) && negb (o_bmodelcontents o) = false) by (destruct H7 as [->| ->]; [reflexivity|apply andb_false_r]). rewrite W.
  set (d := match o_class o with DNone => mb | DDetail => detail_solid g mb | DWall => detail_wall g mb | DFence => detail_fence g mb | DIllusionary => detail_illusionary g mb end).
  assert (CL : match o_hull o with Some h => if is_clip g d then if h =? 0 then None else Some SOLID else Some d | None => Some d end = Some d).
  { destruct H8 as [->|[-> C]]; [reflexivity|]. replace (is_clip g d) with false; [reflexivity|]. symmetry. unfold is_clip in *.
    subst d. destruct g, (o_class o); try contradiction; cbn [detail_solid detail_wall detail_fence detail_illusionary]; rewrite ?tst_lor in *; autorewrite with tst in *; bits; try reflexivity;
      try (apply orb_false_iff in C; destruct C as [C1 C2]; rewrite C1, C2; reflexivity). }
  rewrite CL. destruct (o_class o) eqn:K; try contradiction; cbn [andb];
    (eexists; split; [reflexivity|]; intros k D; rewrite tail_bits by exact D; subst d; clear - H9 D;
     assert (P : forall n, N.testbit (2 ^ n) k = (k =? n)) by (intros n; rewrite N.pow2_bits_eqb; apply N.eqb_sym);
     pose proof (P 0) as P0; pose proof (P 2) as P2; pose proof (P 3) as P3; pose proof (P 8) as P8; pose proof (P 14) as P14; pose proof (P 24) as P24;
     change (2 ^ 0) with SOLID in P0; change (2 ^ 2) with DETAIL_WALL in P2; change (2 ^ 3) with WINDOW in P3; change (2 ^ 8) with MIST in P8; change (2 ^ 14) with DETAIL in P14; change (2 ^ 24) with TRANSLUCENT in P24; clear P;
     destruct g; cbn [detail_solid detail_wall detail_fence detail_illusionary added existsb]; rewrite ?N.lor_spec, ?N.ldiff_spec, ?P0, ?P2, ?P3, ?P8, ?P14, ?P24; cbn [N.eqb orb]; rewrite ?orb_false_r, ?orb_true_r, ?andb_true_r;
     repeat match goal with |- context [k =? ?n] => destruct (k =? n) end; destruct (N.testbit mb k); reflexivity).
Qed.
Print Assumptions C51_entity_class.

(** In the clipping hulls a brush is kept exactly if it is solid, clip, sky or a fence, and is then
    solid and nothing else. *)
Theorem C51_hulls : forall g o mb h, o_nodetail o = false -> o_omitdetail o = false -> o_class o = DNone ->
  o_hint o = false -> (o_world o = true \/ o_bmodelcontents o = true) -> o_hull o = Some h -> h <> 0 ->
  (load_contents g o mb <> None <-> N.testbit mb 0 = true \/ is_clip g mb = true \/ (g = Q1 /\ N.testbit mb 1 = true) \/
     is_detail_fence g mb = true \/ is_detail_illusionary g mb = true) /\
  forall c k, load_contents g o mb = Some c -> ~ In k [15;16;17] -> N.testbit c k = (k =? 0).
Proof.
  intros g o mb h H1 H2 H3 H4 H5 H6 H7. unfold load_contents. rewrite H1, H2, H3, H4, H6. apply N.eqb_neq in H7. rewrite H7.
  assert (W : negb (o_world o) && negb (o_bmodelcontents o) = false) by (destruct H5 as [->| ->]; [reflexivity|apply andb_false_r]). rewrite W.
  rewrite !andb_false_r. cbn [negb andb]. split.
  - destruct (is_clip g mb) eqn:C.
    + replace (is_any_solid SOLID) with true by reflexivity. cbn [negb andb]. split; [intros _; right; left; reflexivity|discriminate].
    + unfold is_any_solid, is_fence. rewrite tst_SOLID. split.
      * intro X. destruct (N.testbit mb 0); [left; reflexivity|]. destruct (is_sky g mb) eqn:S.
        { right. right. left. destruct g; [|discriminate S]. split; [reflexivity|]. unfold is_sky in S. rewrite tst_SKY in S. exact S. }
        destruct (is_detail_fence g mb); [auto|]. destruct (is_detail_illusionary g mb); [auto|]. cbn in X. congruence.
      * intros [->|[X|[[-> X]|[X|X]]]]; [discriminate|discriminate X| | |].
        { unfold is_sky. rewrite tst_SKY, X. rewrite andb_false_r. discriminate. }
        { rewrite X. rewrite !andb_false_r. discriminate. }
        { rewrite X, orb_true_r. rewrite !andb_false_r. discriminate. }
  - intros c k X D.
    assert (Y : c = set_clips_same_type (set_mirrored SOLID (mirror_inside mb)) (clips_same_type mb)).
    { destruct (is_clip g mb).
      - replace (is_any_solid SOLID) with true in X by reflexivity. inversion X. reflexivity.
      - destruct (negb (is_any_solid mb) && negb (is_sky g mb) && negb (is_fence g mb)); [discriminate X|]. inversion X. reflexivity. }
    rewrite Y, tail_bits by exact D. rewrite bit_SOLID. apply N.eqb_sym.
Qed.
Print Assumptions C51_hulls.
