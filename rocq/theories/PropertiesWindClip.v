(* C112, C113: clipping of windings and the windings of brush sides. *)
From Coq Require Import Reals List Bool Lra Lia.
From Verif Require Import WindClipModel WindClipProofs.
Import ListNotations.
Open Scope R_scope.

(** Nothing of a convex polygon is lost: each of its points is in the front part or in the back part. *)
Theorem C112_cover pl eps keepon w f b o e1 e2 : polygon o e1 e2 w -> dot (p_n pl) (p_n pl) = 1 -> 0 <= eps ->
  clip pl eps keepon w = (f, b) ->
  forall x, hull (fun p => In p w) x -> (exists v, f = Some v /\ hull (fun p => In p v) x) \/ (exists v, b = Some v /\ hull (fun p => In p v) x).
Proof. intros P U E C x X. exact (clip_covers pl eps keepon w f b o e1 e2 P U E C x X). Qed.
Print Assumptions C112_cover.

(** Nothing is added: the front part is in the winding and not behind the plane, the back part is in the winding and not in
    front of it, by more than the epsilon. *)
Theorem C112_inside pl eps keepon w f b : dot (p_n pl) (p_n pl) = 1 -> 0 <= eps -> clip pl eps keepon w = (f, b) ->
  (forall v, f = Some v -> forall x, hull (fun p => In p v) x -> hull (fun p => In p w) x /\ - eps <= dot x (p_n pl) - p_d pl) /\
  (forall v, b = Some v -> forall x, hull (fun p => In p v) x -> hull (fun p => In p w) x /\ dot x (p_n pl) - p_d pl <= eps).
Proof. intros U E C. exact (clip_inside pl eps keepon w f b U E C). Qed.
Print Assumptions C112_inside.

(** Both parts are again convex polygons with at least three points, in the same plane and order. *)
Theorem C112_convex pl eps keepon w f b o e1 e2 : polygon o e1 e2 w -> dot (p_n pl) (p_n pl) = 1 -> 0 <= eps ->
  clip pl eps keepon w = (f, b) ->
  (forall v, f = Some v -> polygon o e1 e2 v) /\ (forall v, b = Some v -> polygon o e1 e2 v).
Proof. intros P U E C. exact (clip_polygon pl eps keepon w f b o e1 e2 P U E C). Qed.
Print Assumptions C112_convex.

(** clip_front and clip_back give the two results of clip. *)
Theorem C112_same pl eps keepon w : clip pl eps keepon w = (clip_front pl eps keepon w, clip_back pl eps keepon w).
Proof. rewrite clip_front_fst, clip_back_snd. destruct (clip pl eps keepon w); reflexivity. Qed.
Print Assumptions C112_same.

(** A winding in the plane (up to the epsilon) goes to the back, or to the front if asked to keep it. *)
Theorem C112_on pl eps keepon w : 0 <= eps -> (forall p, In p w -> - eps <= dot p (p_n pl) - p_d pl <= eps) ->
  clip pl eps keepon w = if keepon then (Some w, None) else (None, Some w).
Proof.
  intros E H. assert (Z : forall s, s <> On -> count pl eps s w = 0%nat).
  { intros s NS. destruct (count pl eps s w) eqn:C; [reflexivity|]. exfalso. assert (count pl eps s w <> 0%nat) as K by lia.
    apply count_pos in K; [|exact NS]. destruct K as (p & I & SD). specialize (H p I). unfold side_of, dist_to in SD.
    destruct (Rlt_dec eps (dot p (p_n pl) - p_d pl)); [lra|]. destruct (Rlt_dec (dot p (p_n pl) - p_d pl) (- eps)); [lra|]. congruence. }
  unfold clip. rewrite !Z by discriminate. destruct keepon; reflexivity.
Qed.
Print Assumptions C112_on.

(** A normal with a component 1 is taken as axial even if it has other components: split points are then off the plane. *)
Theorem C112_axial_refuted delta : 0 < delta < 1 -> let pl := mkPl (mkV 1 delta 0) 0 in
  exists f b p, clip pl 0 false [mkV 1 1 0; mkV (-2) 1 0; mkV 1 1 1] = (Some f, b) /\ In p f /\ dot p (p_n pl) - p_d pl = delta.
Proof.
  intros D pl.
  assert (S1 : side_of pl 0 (mkV 1 1 0) = Front) by (apply side_front; unfold dist_to, dot; simpl; lra).
  assert (S2 : side_of pl 0 (mkV (-2) 1 0) = Back) by (apply side_back; [lra|]; unfold dist_to, dot; simpl; lra).
  assert (S3 : side_of pl 0 (mkV 1 1 1) = Front) by (apply side_front; unfold dist_to, dot; simpl; lra).
  assert (C : clip pl 0 false [mkV 1 1 0; mkV (-2) 1 0; mkV 1 1 1] =
    (Some [mkV 1 1 0; mid pl (mkV 1 1 0) (mkV (-2) 1 0); mid pl (mkV (-2) 1 0) (mkV 1 1 1); mkV 1 1 1],
     Some [mid pl (mkV 1 1 0) (mkV (-2) 1 0); mkV (-2) 1 0; mid pl (mkV (-2) 1 0) (mkV 1 1 1)])).
  { unfold clip, count, part, edges, emit. cbn [filter flat_map combine app]. rewrite S1, S2, S3. reflexivity. }
  do 2 eexists. exists (mid pl (mkV 1 1 0) (mkV (-2) 1 0)). split; [exact C|]. split; [simpl; auto|].
  assert (M : mid pl (mkV 1 1 0) (mkV (-2) 1 0) = mkV 0 1 0).
  { unfold mid, mid1. simpl. destruct (Req_EM_T 1 1); [|congruence]. destruct (Req_EM_T delta 1); [lra|]. destruct (Req_EM_T delta (-1)); [lra|].
    destruct (Req_EM_T 0 1); [lra|]. destruct (Req_EM_T 0 (-1)); [lra|]. f_equal; ring. }
  rewrite M. unfold dot. simpl. ring.
Qed.
Print Assumptions C112_axial_refuted.

(** The winding made for a plane is a polygon on the plane, and it has all points of the plane in the extents. *)
Theorem C113_plane pl extent : dot (p_n pl) (p_n pl) = 1 -> 0 < extent ->
  (exists o e1 e2, polygon o e1 e2 (from_plane pl extent)) /\
  (forall x, hull (fun p => In p (from_plane pl extent)) x -> dot x (p_n pl) = p_d pl) /\
  (forall x, dot x (p_n pl) = p_d pl -> dot x x <= extent * extent -> hull (fun p => In p (from_plane pl extent)) x).
Proof.
  intros U HE. split; [do 3 eexists; apply (from_plane_polygon pl extent U HE)|]. split.
  - intros x X. pose proof (from_plane_on pl extent x U X) as D. unfold dist_to in D. lra.
  - intros x D B. apply (from_plane_covers pl extent x U HE); [unfold dist_to; lra|exact B].
Qed.
Print Assumptions C113_plane.

(** A point of a side of a brush that is strictly inside the other sides is in the winding of the side. *)
Theorem C113_keeps extent eps pl others e x : 0 < extent -> 0 <= eps ->
  (forall q, In q (pl :: others) -> dot (p_n q) (p_n q) = 1) ->
  2 * e <= extent -> Rabs (vx x) <= e -> Rabs (vy x) <= e -> Rabs (vz x) <= e ->
  dot x (p_n pl) = p_d pl -> (forall q, In q others -> dot x (p_n q) < p_d q - eps) ->
  brush_side extent eps pl others = Undefined \/ exists v, brush_side extent eps pl others = Winding v /\ hull (fun p => In p v) x.
Proof.
  intros HE E0 U EE X Y Z D F. apply (side_keeps extent eps HE E0 pl others).
  - apply U. left. reflexivity.
  - intros q Q. apply U. right. exact Q.
  - unfold dist_to. lra.
  - assert (SQ : forall c, Rabs c <= e -> c * c <= e * e).
    { intros c C. apply sq_le. pose proof (Rabs_pos c). rewrite (Rabs_right e) by lra. exact C. }
    pose proof (SQ _ X). pose proof (SQ _ Y). pose proof (SQ _ Z). assert (0 <= e * e) by nra. assert (e * e * 4 <= extent * extent) by (assert (0 <= e) by (pose proof (Rabs_pos (vx x)); lra); nra). unfold dot. lra.
  - intros q Q. specialize (F q Q). unfold dist_to. lra.
Qed.
Print Assumptions C113_keeps.

(** The winding of a side is a polygon in the plane of the side, inside all other sides up to the epsilon and in the extents. *)
Theorem C113_inside extent eps pl others v : 0 < extent -> 0 <= eps ->
  (forall q, In q (pl :: others) -> dot (p_n q) (p_n q) = 1) -> brush_side extent eps pl others = Winding v ->
  (exists o e1 e2, polygon o e1 e2 v) /\
  (forall x, hull (fun p => In p v) x -> dot x (p_n pl) = p_d pl /\ (forall q, In q others -> dot x (p_n q) <= p_d q + eps)) /\
  (forall p, In p v -> Rabs (vx p) <= extent /\ Rabs (vy p) <= extent /\ Rabs (vz p) <= extent).
Proof.
  intros HE E0 U H. destruct (side_inside extent eps HE E0 pl others (U pl (or_introl eq_refl)) (fun q Q => U q (or_intror Q)) v H) as (P & I & B).
  split; [exact P|]. split; [|exact B]. intros x X. destruct (I x X) as [D F]. unfold dist_to in D. split; [lra|].
  intros q Q. specialize (F q Q). unfold dist_to in F. lra.
Qed.
Print Assumptions C113_inside.

(** With all points of the brush in the extents no side is undefined. *)
Theorem C113_defined extent eps pl others : 0 < extent -> 0 <= eps ->
  (forall q, In q (pl :: others) -> dot (p_n q) (p_n q) = 1) ->
  (forall p, dot p (p_n pl) = p_d pl -> (forall q, In q others -> dot p (p_n q) <= p_d q + eps) ->
    Rabs (vx p) <= extent /\ Rabs (vy p) <= extent /\ Rabs (vz p) <= extent) ->
  brush_side extent eps pl others <> Undefined.
Proof.
  intros HE E0 U NEAR. apply (side_defined extent eps HE E0 pl others (U pl (or_introl eq_refl)) (fun q Q => U q (or_intror Q))).
  intros p D F. apply NEAR; [unfold dist_to in D; lra|]. intros q Q. specialize (F q Q). unfold dist_to in F. lra.
Qed.
Print Assumptions C113_defined.

(** A side beyond the extents is read from an empty optional after the warning, whatever the other sides are. *)
Theorem C113_far_refuted extent eps d others : 0 < extent -> 0 <= eps -> extent < d ->
  (forall q, In q others -> dot (p_n q) (p_n q) = 1) ->
  (forall q, In q others -> dot (mkV d 0 0) (p_n q) < p_d q - eps) ->
  brush_side extent eps (mkPl (mkV 1 0 0) d) others = Undefined.
Proof.
  intros HE E0 HD U F. set (pl := mkPl (mkV 1 0 0) d). assert (U1 : unit_plane pl) by (unfold unit_plane, pl, dot; simpl; ring).
  apply (side_far extent eps HE E0 pl others U1 U (mkV d 0 0)).
  - unfold dist_to, pl, dot. simpl. ring.
  - rewrite from_plane_shape. match goal with |- hull (pts (map (emb ?o ?a ?b) _)) ?x => replace x with (emb o a b (0, 0)) end.
    + apply square_hull; lra.
    + unfold emb, add, scale, pl. simpl. f_equal; ring.
  - intros q Q. specialize (F q Q). unfold dist_to. lra.
  - intros p D. unfold dist_to, pl, dot in D. simpl in D. unfold too_far. replace (vx p) with d by lra. rewrite Rabs_right by lra.
    destruct (Rlt_dec extent d); [reflexivity|lra].
Qed.
Print Assumptions C113_far_refuted.

(** The top of a cube: its winding exists, has the point (3, -4, 16) and nothing beyond x = 16. *)
Definition cube_sides : list plane :=
  [mkPl (mkV 1 0 0) 16; mkPl (mkV (-1) 0 0) 16; mkPl (mkV 0 1 0) 16; mkPl (mkV 0 (-1) 0) 16; mkPl (mkV 0 0 (-1)) 16].
Example C113_nontrivial : exists v, brush_side 64 0 (mkPl (mkV 0 0 1) 16) cube_sides = Winding v /\
  hull (fun p => In p v) (mkV 3 (-4) 16) /\ ~ hull (fun p => In p v) (mkV 17 0 16).
Proof.
  assert (U : forall q, In q (mkPl (mkV 0 0 1) 16 :: cube_sides) -> dot (p_n q) (p_n q) = 1).
  { intros q Q. unfold cube_sides in Q. simpl in Q. repeat destruct Q as [<-|Q]; try (destruct Q; fail); unfold dot; simpl; ring. }
  destruct (C113_keeps 64 0 (mkPl (mkV 0 0 1) 16) cube_sides 16 (mkV 3 (-4) 16)) as [H|(v & H & X)]; simpl; try lra; try exact U.
  - rewrite Rabs_right; lra.
  - rewrite Rabs_left; lra.
  - rewrite Rabs_right; lra.
  - unfold dot; simpl; ring.
  - intros q Q. unfold cube_sides in Q. simpl in Q. repeat destruct Q as [<-|Q]; try (destruct Q; fail); unfold dot; simpl; lra.
  - exfalso. revert H. apply C113_defined; [lra|lra|exact U|]. intros p D F.
    assert (G : forall q, In q cube_sides -> dot p (p_n q) <= p_d q + 0) by exact F.
    pose proof (G _ (or_introl eq_refl)) as G1. pose proof (G _ (or_intror (or_introl eq_refl))) as G2.
    pose proof (G _ (or_intror (or_intror (or_introl eq_refl)))) as G3. pose proof (G _ (or_intror (or_intror (or_intror (or_introl eq_refl))))) as G4.
    unfold dot in *. simpl in *. repeat split; apply Rabs_le; lra.
  - exists v. split; [exact H|]. split; [exact X|]. intro Y. destruct (C113_inside 64 0 _ _ v ltac:(lra) ltac:(lra) U H) as (_ & I & _).
    destruct (I _ Y) as [_ B]. specialize (B _ (or_introl eq_refl)). unfold dot in B. simpl in B. lra.
Qed.
(** A square of side 16 that is split at x = 1: a point of each part is not in the other. *)
Example C112_nontrivial : exists f b, clip (mkPl (mkV 1 0 0) 1) 0 false (from_plane (mkPl (mkV 0 0 1) 0) 8) = (Some f, Some b) /\
  hull (fun p => In p f) (mkV 4 1 0) /\ ~ hull (fun p => In p b) (mkV 4 1 0) /\ hull (fun p => In p b) (mkV (-4) 1 0) /\ ~ hull (fun p => In p f) (mkV (-4) 1 0).
Proof.
  destruct (clip (mkPl (mkV 1 0 0) 1) 0 false (from_plane (mkPl (mkV 0 0 1) 0) 8)) as [f b] eqn:C.
  assert (U1 : dot (p_n (mkPl (mkV 0 0 1) 0)) (p_n (mkPl (mkV 0 0 1) 0)) = 1) by (unfold dot; simpl; ring).
  assert (U2 : dot (p_n (mkPl (mkV 1 0 0) 1)) (p_n (mkPl (mkV 1 0 0) 1)) = 1) by (unfold dot; simpl; ring).
  destruct (C113_plane (mkPl (mkV 0 0 1) 0) 8 U1 ltac:(lra)) as ((o & e1 & e2 & P) & _ & CV).
  assert (X1 : hull (fun p => In p (from_plane (mkPl (mkV 0 0 1) 0) 8)) (mkV 4 1 0)) by (apply CV; unfold dot; simpl; lra).
  assert (X2 : hull (fun p => In p (from_plane (mkPl (mkV 0 0 1) 0) 8)) (mkV (-4) 1 0)) by (apply CV; unfold dot; simpl; lra).
  destruct (C112_inside _ 0 false _ f b U2 ltac:(lra) C) as [IF IB]. unfold dot in IF, IB. simpl in IF, IB.
  destruct (C112_cover _ 0 false _ f b o e1 e2 P U2 ltac:(lra) C _ X1) as [(vf & -> & H1)|(vb & -> & H1)];
    [|destruct (IB _ eq_refl _ H1) as [_ K]; simpl in K; lra].
  destruct (C112_cover _ 0 false _ (Some vf) b o e1 e2 P U2 ltac:(lra) C _ X2) as [(v & E & H2)|(vb & -> & H2)].
  { inversion E; subst v. destruct (IF _ eq_refl _ H2) as [_ K]; simpl in K; lra. }
  exists vf, vb. split; [reflexivity|]. split; [exact H1|]. split; [intro K; destruct (IB _ eq_refl _ K) as [_ L]; simpl in L; lra|].
  split; [exact H2|]. intro K; destruct (IF _ eq_refl _ K) as [_ L]; simpl in L; lra.
Qed.
