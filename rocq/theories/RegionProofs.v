(* Lemmas about region brushes. *)
From Coq Require Import String Ascii.
From Coq Require Import Reals List ZArith Bool Arith Lra Lia.
From Verif Require Import AabbModel WindClipModel RegionModel.
Import ListNotations.
Open Scope R_scope.

Definition within (pls : list plane) (p : vec) : Prop := Forall (fun pl => dist_to pl p <= 0) pls.
Definition opposite (k s : plane) : Prop := p_n s = scale (-1) (p_n k).

Lemma vec_eqb_spec a b : vec_eqb a b = true <-> a = b.
Proof.
  unfold vec_eqb. destruct a as [a1 a2 a3], b as [b1 b2 b3]. cbn [vx vy vz]. split.
  - destruct (Req_EM_T _ _); [|discriminate]. destruct (Req_EM_T _ _); [|discriminate]. destruct (Req_EM_T _ _); [|discriminate]. intros _. congruence.
  - intros E. injection E as -> -> ->. destruct (Req_EM_T _ _); [|contradiction]. destruct (Req_EM_T _ _); [|contradiction]. destruct (Req_EM_T _ _); [reflexivity|contradiction].
Qed.
Lemma plane_eqb_spec a b : plane_eqb a b = true <-> a = b.
Proof.
  unfold plane_eqb. rewrite andb_true_iff, vec_eqb_spec. destruct a as [n d], b as [n' d']. cbn [p_n p_d]. split.
  - intros [-> H]. destruct (Req_EM_T d d'); [congruence|discriminate].
  - intros H. injection H as -> ->. split; [reflexivity|]. destruct (Req_EM_T d' d'); [reflexivity|contradiction].
Qed.
Lemma shell_side_cases k s : (s = k /\ shell_side k s = mkPl (p_n k) (p_d k + 16)) \/
  (s <> k /\ opposite k s /\ shell_side k s = neg_plane k) \/ (s <> k /\ ~ opposite k s /\ shell_side k s = s).
Proof.
  unfold shell_side, opposite. destruct (plane_eqb s k) eqn:E.
  - apply plane_eqb_spec in E. subst. auto.
  - assert (N : s <> k) by (intros ->; rewrite (proj2 (plane_eqb_spec k k) eq_refl) in E; discriminate).
    destruct (vec_eqb (p_n s) (scale (-1) (p_n k))) eqn:V.
    + apply vec_eqb_spec in V. right. left. auto.
    + right. right. repeat split; auto. intros O. rewrite (proj2 (vec_eqb_spec _ _) O) in V. discriminate.
Qed.
Lemma dist_neg k p : dist_to (neg_plane k) p = - dist_to k p.
Proof. unfold dist_to, neg_plane, dot, scale. cbn [p_n p_d vx vy vz]. ring. Qed.
Lemma dist_out k p d : dist_to (mkPl (p_n k) (p_d k + d)) p = dist_to k p - d.
Proof. unfold dist_to. cbn [p_n p_d]. ring. Qed.

(** The set of points of a brush of the shell. *)
Lemma shell_points sides k p : In k sides -> p_n k <> mkV 0 0 0 -> (exists s, In s sides /\ opposite k s) ->
  (within (map (shell_side k) sides) p <-> 0 <= dist_to k p <= 16 /\ forall s, In s sides -> s <> k -> ~ opposite k s -> dist_to s p <= 0).
Proof.
  intros K NZ (s0 & I0 & O0). unfold within. rewrite Forall_map, Forall_forall. split.
  - intros H. split; [split|].
    + pose proof (H s0 I0) as H0. destruct (shell_side_cases k s0) as [[-> _]|[(_ & _ & E)|(_ & N & _)]].
      * exfalso. apply NZ. unfold opposite in O0. destruct (p_n k) as [a b c]. unfold scale in O0. cbn [vx vy vz] in O0. injection O0 as A B C. f_equal; lra.
      * rewrite E, dist_neg in H0. lra.
      * contradiction.
    + pose proof (H k K) as H0. destruct (shell_side_cases k k) as [[_ E]|[(N & _)|(N & _)]]; try contradiction. rewrite E, dist_out in H0. lra.
    + intros s I N NO. pose proof (H s I) as H0. destruct (shell_side_cases k s) as [[-> _]|[(_ & O & _)|(_ & _ & E)]]; try contradiction. rewrite E in H0. exact H0.
  - intros [D R] s I. destruct (shell_side_cases k s) as [[-> E]|[(_ & _ & E)|(N & NO & E)]]; rewrite E.
    + rewrite dist_out. lra.
    + rewrite dist_neg. lra.
    + apply R; assumption.
Qed.

Definition mix (t : R) (a b : vec) : vec := add (scale (1 - t) a) (scale t b).
Lemma dist_mix pl t a b : dist_to pl (mix t a b) = (1 - t) * dist_to pl a + t * dist_to pl b.
Proof. unfold dist_to, mix, dot, add, scale. cbn [vx vy vz]. ring. Qed.

(** A segment that leaves a convex set does so through one of its sides. *)
Lemma leave pls p q : within pls p -> ~ within pls q -> exists t k, 0 <= t <= 1 /\ In k pls /\ dist_to k (mix t p q) = 0 /\ within pls (mix t p q).
Proof.
  intros P Q.
  assert (G : forall l, incl l pls -> ~ within l q -> exists t k, 0 <= t <= 1 /\ In k l /\ dist_to k (mix t p q) = 0 /\ 0 < dist_to k q /\ within l (mix t p q)).
  { induction l as [|k l IH]; intros S N; [destruct N; constructor|].
    assert (Pk : dist_to k p <= 0) by (unfold within in P; rewrite Forall_forall in P; apply P, S; left; reflexivity).
    assert (Pl : within l p) by (unfold within in *; rewrite Forall_forall in *; intros s I; apply P, S; right; exact I).
    destruct (Forall_dec (fun pl => dist_to pl q <= 0) (fun pl => Rle_dec _ _) l) as [A|A].
    - assert (B : 0 < dist_to k q) by (destruct (Rle_lt_dec (dist_to k q) 0); [destruct N; constructor; assumption|assumption]).
      set (t := - dist_to k p / (dist_to k q - dist_to k p)).
      assert (D : 0 < dist_to k q - dist_to k p) by lra.
      assert (T : 0 <= t <= 1).
      { unfold t. split; [apply Rmult_le_pos; [lra|left; apply Rinv_0_lt_compat; exact D]|]. apply (Rmult_le_reg_r (dist_to k q - dist_to k p)); [exact D|]. unfold Rdiv. rewrite Rmult_assoc, Rinv_l; lra. }
      assert (E : dist_to k (mix t p q) = 0) by (rewrite dist_mix; unfold t; field; lra).
      exists t, k. split; [exact T|]. split; [left; reflexivity|]. split; [exact E|]. split; [exact B|]. constructor; [lra|].
      unfold within in Pl. rewrite Forall_forall in *. intros s I. rewrite dist_mix. specialize (A s I). specialize (Pl s I). cbv beta in A. nra.
    - destruct (IH (fun s I => S s (or_intror I)) A) as (t & k' & T & I' & E & B' & W).
      destruct (Rle_lt_dec (dist_to k (mix t p q)) 0) as [L|L].
      + exists t, k'. split; [exact T|]. split; [right; exact I'|]. split; [exact E|]. split; [exact B'|]. constructor; assumption.
      + (* k is crossed before *)
        assert (B : 0 < dist_to k q).
        { rewrite dist_mix in L. destruct (Rle_lt_dec (dist_to k q) 0); [|assumption]. exfalso. nra. }
        assert (D : 0 < dist_to k q - dist_to k p) by lra.
        set (u := - dist_to k p / (dist_to k q - dist_to k p)).
        assert (UE : u * (dist_to k q - dist_to k p) = - dist_to k p) by (unfold u; field; lra).
        assert (U : 0 <= u <= t).
        { split; [unfold u; apply Rmult_le_pos; [lra|left; apply Rinv_0_lt_compat; exact D]|]. rewrite dist_mix in L.
          apply (Rmult_le_reg_r (dist_to k q - dist_to k p)); [exact D|]. rewrite UE. lra. }
        assert (E' : dist_to k (mix u p q) = 0) by (rewrite dist_mix; lra).
        exists u, k. split; [lra|]. split; [left; reflexivity|]. split; [exact E'|]. split; [exact B|]. constructor; [lra|].
        unfold within in *. rewrite Forall_forall in *. intros s I. specialize (W s I). specialize (Pl s I). rewrite dist_mix in *.
        destruct (Rle_lt_dec (dist_to s q) 0); [nra|]. nra. }
  destruct (G pls (fun s I => I) Q) as (t & k & T & I & E & _ & W). exists t, k. auto.
Qed.

(** The loop over entities without antiregions, and without a region. *)
Lemma drop_region fuel b l : (length l < fuel)%nat ->
  drop_ents fuel (Some b) [] l = Some (filter (fun e => negb (re_brushes e =? 0)%nat || contains_point b (re_origin e)) l).
Proof.
  revert l. induction fuel as [|fuel IH]; intros l L; [lia|]. destruct l as [|e r]; [reflexivity|]. cbn [length] in L. cbn [drop_ents filter in_anti existsb].
  rewrite IH by lia. destruct (re_brushes e =? 0)%nat; cbn [negb orb]; [|reflexivity]. destruct (contains_point b (re_origin e)); reflexivity.
Qed.
Lemma drop_anti fuel anti l : (length l < fuel)%nat ->
  drop_ents fuel None anti l = Some (filter (fun e => negb (re_brushes e =? 0)%nat || negb (existsb (fun a => contains_point a (re_origin e)) anti)) l).
Proof.
  revert l. induction fuel as [|fuel IH]; intros l L; [lia|]. destruct l as [|e r]; [reflexivity|]. cbn [length] in L. cbn [drop_ents filter].
  rewrite IH by lia. unfold in_anti. destruct (re_brushes e =? 0)%nat; cbn [negb orb]; [|reflexivity]. destruct (existsb _ anti); reflexivity.
Qed.
