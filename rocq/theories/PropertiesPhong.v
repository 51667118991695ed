(* C134: smoothed normals of faces (model in PhongModel.v). *)
From Coq Require Import Reals List Bool Arith ZArith NArith Lia Lra Psatz Permutation.
From Verif Require Import WindClipModel WindClipProofs PolyGeoModel PolyGeoProofs LightValProofs PhongModel PhongProofs.
Import ListNotations.
Open Scope R_scope.

(* The normals of the planes have length 1. *)
Definition unit_normals (b : pmap) : Prop := forall f, In f (pm_faces b) -> dot (p_n (pf_plane f)) (p_n (pf_plane f)) = 1.
Definition normal (b : pmap) (i : nat) : vec := p_n (pf_plane (face b i)).
Definition share_vertex (f g : pface) : Prop := exists v, In v (pf_verts f) /\ In v (pf_verts g).
Definition nfaces (b : pmap) : nat := length (pm_faces b).

(** Two faces are smoothed exactly if they share a vertex, both want it and do not refuse it, the flags of
    their textures agree, they are in the same group, and the angle between them is at most the lesser of
    the two angles allowed (the concave ones if the other face rises above the plane of the first). *)
Theorem C134_pairs : forall b i j, unit_normals b -> (i < nfaces b)%nat -> (j < nfaces b)%nat ->
  (threshold b (face b i) (face b j) <= 180)%nat ->
  (faces_smoothed b i j = true <->
   i <> j /\ share_vertex (face b i) (face b j) /\
   (forall f, f = face b i \/ f = face b j -> pe_no (ext_of b f) = false /\ (0 < angle_of b f \/ 0 < concave_of b f)%nat) /\
   (forall n, N.testbit (phong_mask (pm_q2 b)) n = true ->
      N.testbit (pt_flags (tex_of b (face b i))) n = N.testbit (pt_flags (tex_of b (face b j))) n) /\
   phong_value b (face b i) = phong_value b (face b j) /\
   acos (dot (normal b i) (normal b j)) <= INR (threshold b (face b i) (face b j)) * PI / 180).
Proof.
  intros b i j U I J T. rewrite faces_smoothed_iff, in_neighbours, smooths_iff.
  assert (D : -1 <= dot (normal b i) (normal b j) <= 1) by (apply unit_dot; apply U, face_in; assumption).
  assert (A : cos (deg2rad (threshold b (face b i) (face b j))) <= dot (normal b i) (normal b j) <->
              acos (dot (normal b i) (normal b j)) <= INR (threshold b (face b i) (face b j)) * PI / 180).
  { rewrite acos_le by (first [exact D|split; [apply deg2rad_pos|apply deg2rad_180; exact T]]). unfold deg2rad.
    replace (INR (threshold b (face b i) (face b j)) * (PI / 180)) with (INR (threshold b (face b i) (face b j)) * PI / 180) by field. reflexivity. }
  assert (W : forall f, wants b f = true <-> pe_no (ext_of b f) = false /\ (0 < angle_of b f \/ 0 < concave_of b f)%nat).
  { intros f. unfold wants. rewrite andb_true_iff, orb_true_iff, !negb_true_iff, !Nat.eqb_neq. intuition lia. }
  assert (M : may_phong b (face b i) (face b j) = true <-> forall n, N.testbit (phong_mask (pm_q2 b)) n = true ->
      N.testbit (pt_flags (tex_of b (face b i))) n = N.testbit (pt_flags (tex_of b (face b j))) n).
  { unfold may_phong. rewrite N.eqb_eq. split.
    - intros E n H. assert (Q := f_equal (fun x => N.testbit x n) E). cbn beta in Q. rewrite !N.land_spec, H, !andb_true_r in Q. exact Q.
    - intros H. apply N.bits_inj. intros n. rewrite !N.land_spec. destruct (N.testbit (phong_mask (pm_q2 b)) n) eqn:E.
      + rewrite (H n E). reflexivity.
      + rewrite !andb_false_r. reflexivity. }
  unfold normal in *. rewrite M, A, !W. unfold share_vertex, nfaces in *. split.
  - intros (_ & N1 & S & W1 & W2 & M1 & P & Q). split; [congruence|]. split; [exact S|]. split; [intros f [->| ->]; assumption|auto].
  - intros (N1 & S & F & M1 & P & Q). split; [exact J|]. split; [congruence|]. split; [exact S|]. split; [apply F; auto|]. split; [apply F; auto|]. auto.
Qed.
Print Assumptions C134_pairs.

(** If the angles for concave edges are the usual ones, a face is smoothed with another exactly if the
    other is smoothed with it. *)
Theorem C134_symmetric_partial : forall b i j, (i < nfaces b)%nat -> (j < nfaces b)%nat ->
  concave_of b (face b i) = angle_of b (face b i) -> concave_of b (face b j) = angle_of b (face b j) ->
  faces_smoothed b i j = faces_smoothed b j i.
Proof.
  assert (G : forall b i j, (i < nfaces b)%nat -> (j < nfaces b)%nat ->
    concave_of b (face b i) = angle_of b (face b i) -> concave_of b (face b j) = angle_of b (face b j) ->
    faces_smoothed b i j = true -> faces_smoothed b j i = true).
  { intros b i j I J Ci Cj H. rewrite faces_smoothed_iff, in_neighbours, smooths_iff in *.
    destruct H as (_ & N1 & (v & V1 & V2) & W1 & W2 & M & P & Q). split; [exact I|]. split; [congruence|]. split; [exists v; auto|].
    split; [exact W2|]. split; [exact W1|]. split; [unfold may_phong in *; rewrite N.eqb_sym; exact M|]. split; [congruence|].
    replace (threshold b (face b j) (face b i)) with (threshold b (face b i) (face b j)).
    - replace (dot (p_n (pf_plane (face b j))) (p_n (pf_plane (face b i)))) with (dot (p_n (pf_plane (face b i))) (p_n (pf_plane (face b j)))) by (unfold dot; ring).
      exact Q.
    - unfold threshold. rewrite Ci, Cj, Nat.min_comm. destruct (is_concave b (face b i) (face b j)), (is_concave b (face b j) (face b i)); apply Nat.min_comm || reflexivity. }
  intros b i j I J Ci Cj. destruct (faces_smoothed b i j) eqn:E.
  - symmetry. apply G; assumption.
  - destruct (faces_smoothed b j i) eqn:F; [|reflexivity]. rewrite (G b j i) in E by assumption. discriminate.
Qed.
Print Assumptions C134_symmetric_partial.

(** Every corner of a face with three or more has a normal, of length 1; a face with fewer has zero vectors. *)
Theorem C134_unit : forall b i k, unit_normals b -> (i < nfaces b)%nat ->
  let n := length (pf_verts (face b i)) in
  ((3 <= n)%nat -> (k < n)%nat -> exists v, surface_normal b i k = Some v /\ len v = 1) /\
  ((3 <= n)%nat -> (n <= k)%nat -> surface_normal b i k = None) /\
  ((n < 3)%nat -> surface_normal b i k = Some (mkV 0 0 0)).
Proof.
  intros b i k U I n. unfold surface_normal, vertex_normals. fold n. destruct (Nat.ltb_spec n 3) as [L|L].
  - split; [lia|]. split; [lia|]. reflexivity.
  - split; [|split; [|lia]]; intros _ K.
    + destruct (nth_error (pf_verts (face b i)) k) as [v|] eqn:E; [|apply nth_error_None in E; lia].
      exists (smoothed b i v). split; [apply map_nth_error; exact E|]. rewrite smoothed_unfold.
      destruct (is0 (len (sumr (parts b i v)))) eqn:Z.
      * apply len_unit, U, face_in, I.
      * apply is0_f in Z. apply len_normalize, Z.
    + apply nth_error_None. rewrite map_length. exact K.
Qed.
Print Assumptions C134_unit.

(** A face that is smoothed with no other, or only with faces of the same normal, keeps its normal. *)
Theorem C134_flat : forall b i k v, unit_normals b -> (i < nfaces b)%nat ->
  (forall j, faces_smoothed b i j = true -> normal b j = normal b i) ->
  (3 <= length (pf_verts (face b i)))%nat -> surface_normal b i k = Some v -> v = normal b i.
Proof.
  intros b i k v U I H L E. unfold surface_normal, vertex_normals in E. apply Nat.ltb_ge in L. rewrite L in E.
  rewrite nth_error_map in E. destruct (nth_error (pf_verts (face b i)) k) as [w|]; [|discriminate]. injection E as <-.
  assert (Un : dot (normal b i) (normal b i) = 1) by (apply U, face_in, I).
  assert (S : forall l, (forall c, In c l -> exists t, 0 <= t /\ c = scale t (normal b i)) -> exists t, 0 <= t /\ sumr l = scale t (normal b i)).
  { induction l as [|c l IH]; intros Q.
    - exists 0. split; [lra|]. apply vec_eq; cbn; ring.
    - destruct (Q c (or_introl eq_refl)) as (t1 & T1 & ->). destruct IH as (t2 & T2 & E2); [intros x X; apply Q; right; exact X|].
      exists (t1 + t2). split; [lra|]. cbn [sumr fold_right]. fold (sumr l). rewrite E2. apply vec_eq; cbn; ring. }
  destruct (S (parts b i w)) as (t & T & E).
  { intros c C. apply in_parts in C. destruct C as (j & J & C). apply in_contribs in C. destruct C as (t & T & ->). exists t. split; [exact T|].
    f_equal. destruct J as [->|J]; [reflexivity|]. apply H, faces_smoothed_iff, J. }
  rewrite smoothed_unfold, E, len_scale, (len_unit _ Un), Rmult_1_r by exact T. destruct (is0 t) eqn:Z; [reflexivity|]. apply is0_f in Z.
  unfold normalize. rewrite len_scale, (len_unit _ Un), Rmult_1_r by exact T. destruct (Req_EM_T t 0); [contradiction|].
  unfold normal. apply vec_eq; cbn; field; exact Z.
Qed.
Print Assumptions C134_flat.

(** With angles of at most T <= 90 degrees no normal of a corner is more than T degrees off the normal of
    the face. *)
Theorem C134_within : forall b i k v T, unit_normals b -> (i < nfaces b)%nat -> (T <= 90)%nat ->
  (angle_of b (face b i) <= T)%nat -> (concave_of b (face b i) <= T)%nat ->
  (3 <= length (pf_verts (face b i)))%nat -> surface_normal b i k = Some v -> acos (dot v (normal b i)) <= INR T * PI / 180.
Proof.
  intros b i k v T U I T90 A C L E.
  assert (Un : dot (normal b i) (normal b i) = 1) by (apply U, face_in, I).
  assert (Len : len v = 1).
  { destruct (proj1 (C134_unit b i k U I)) as (w & W & Lw); [exact L| |congruence].
    destruct (Nat.lt_ge_cases k (length (pf_verts (face b i)))) as [|G]; [assumption|].
    rewrite (proj1 (proj2 (C134_unit b i k U I))) in E by assumption. discriminate. }
  assert (D : -1 <= dot v (normal b i) <= 1) by (apply unit_dot; [rewrite <- len_sq, Len; ring|exact Un]).
  replace (INR T * PI / 180) with (deg2rad T) by (unfold deg2rad; field).
  apply acos_le; [exact D|split; [apply deg2rad_pos|apply deg2rad_180; lia]|].
  unfold surface_normal, vertex_normals in E. apply Nat.ltb_ge in L. rewrite L in E.
  rewrite nth_error_map in E. destruct (nth_error (pf_verts (face b i)) k) as [w|]; [|discriminate]. injection E as <-.
  assert (K : 0 <= cos (deg2rad T)).
  { apply cos_ge_0; [pose proof (deg2rad_pos T); pose proof PI_RGT_0; lra|apply deg2rad_90; exact T90]. }
  rewrite smoothed_unfold in *. destruct (is0 (len (sumr (parts b i w)))) eqn:Z.
  - unfold normal in Un. fold (normal b i) in Un |- *. rewrite Un. apply COS_bound.
  - apply is0_f in Z. rewrite dot_normalize by exact Z.
    assert (Q : cos (deg2rad T) * len (sumr (parts b i w)) <= dot (sumr (parts b i w)) (normal b i)).
    { apply cone_sum; [exact K|]. intros c X. apply in_parts in X. destruct X as (j & J & X).
      assert (Uj : dot (normal b j) (normal b j) = 1).
      { destruct J as [->|J]; [exact Un|]. apply in_neighbours in J. apply U, face_in, J. }
      assert (Cj : cos (deg2rad T) <= dot (normal b j) (normal b i)).
      { destruct J as [->|J]; [rewrite Un; apply COS_bound|]. apply in_neighbours in J. destruct J as (_ & _ & _ & J).
        apply smooths_iff in J. destruct J as (_ & _ & _ & _ & J).
        pose proof (cos_deg_le _ T (threshold_own b (face b i) (face b j) T A C)) as G.
        replace (dot (normal b j) (normal b i)) with (dot (p_n (pf_plane (face b i))) (p_n (pf_plane (face b j)))) by (unfold normal, dot; ring).
        assert (T <= 180)%nat by lia. specialize (G H). lra. }
      rewrite (contrib_len b (face b j) w c Uj X) at 2. rewrite dot_scale_l. fold (normal b j). rewrite Rmult_comm.
      apply Rmult_le_compat_l; [apply len_nonneg|exact Cj]. }
    pose proof (len_nonneg (sumr (parts b i w))) as P. assert (P' : 0 < len (sumr (parts b i w))) by lra.
    apply Rmult_le_reg_l with (len (sumr (parts b i w))); [exact P'|]. rewrite <- Rmult_assoc, Rinv_r, Rmult_1_l by exact Z. lra.
Qed.
Print Assumptions C134_within.

(** Two faces that are smoothed with the same faces at a vertex (themselves and each other among them)
    have the same normal there, or each has its own because nothing there has an area. *)
Theorem C134_seamless : forall b i j ki kj v, 
  (forall k, In v (pf_verts (face b k)) -> (k = i \/ faces_smoothed b i k = true) <-> (k = j \/ faces_smoothed b j k = true)) ->
  (3 <= length (pf_verts (face b i)))%nat -> (3 <= length (pf_verts (face b j)))%nat ->
  nth_error (pf_verts (face b i)) ki = Some v -> nth_error (pf_verts (face b j)) kj = Some v ->
  surface_normal b i ki = surface_normal b j kj \/
  (surface_normal b i ki = Some (normal b i) /\ surface_normal b j kj = Some (normal b j)).
Proof.
  intros b i j ki kj v H Li Lj Ei Ej. unfold surface_normal, vertex_normals. apply Nat.ltb_ge in Li, Lj. rewrite Li, Lj, !nth_error_map, Ei, Ej.
  cbn [option_map]. rewrite !smoothed_unfold.
  assert (P : Permutation (parts b i v) (parts b j v)).
  { apply parts_perm. intros k K. specialize (H k K). rewrite !faces_smoothed_iff in H. exact H. }
  rewrite (sumr_perm _ _ P). destruct (is0 (len (sumr (parts b j v)))); [right; split; reflexivity|left; reflexivity].
Qed.
Print Assumptions C134_seamless.

(** The keys of models: the angle of a texinfo is the one of the last model that asks for smoothing and has
    a face with the texinfo, else the one from the .texinfo file; nothing else is changed. *)
Theorem C134_keys : forall b ms t, (t < length (pm_ext b))%nat ->
  let e := nth t (pm_ext b) (mkPE 0 0 false 0) in
  let r := nth t (pm_ext (apply_models b ms)) (mkPE 0 0 false 0) in
  let has m := (0 < fst (fst m))%nat /\ exists j, (snd (fst m) <= j < snd (fst m) + snd m)%nat /\ pf_tex (face b j) = t in
  (pe_concave r = pe_concave e /\ pe_no r = pe_no e /\ pe_group r = pe_group e) /\
  ((forall m, In m ms -> ~ has m) -> r = e) /\
  (forall pre m post, ms = pre ++ m :: post -> has m -> (forall m', In m' post -> ~ has m') -> pe_angle r = fst (fst m)).
Proof.
  intros b ms t L e r has.
  assert (H : forall m, has m <-> asks (pm_faces b) t m).
  { intros [[a f] n]. unfold has, asks. cbn [fst snd mangle mfaces]. unfold face. split.
    - intros [A (j & J & Q)]. split; [lia|]. exists j. split; [apply (in_seq n f j); lia|exact Q].
    - intros [A (j & J & Q)]. split; [lia|]. exists j. split; [apply (in_seq n f j) in J; lia|exact Q]. }
  unfold r, e, apply_models. cbn [pm_ext]. split; [apply apply_models_other, L|]. split.
  - intros N. apply apply_models_none; [exact L|]. intros m M A. apply (N m M), H, A.
  - intros pre m post -> Hm N. rewrite fold_left_app. cbn [fold_left].
    assert (L1 : (t < length (fold_left (apply_model (pm_faces b)) pre (pm_ext b)))%nat).
    { rewrite (apply_models_length (mkPE 0 0 false 0) _ t) by exact L. exact L. }
    destruct (apply_model_spec (mkPE 0 0 false 0) (pm_faces b) m _ t L1) as (A & B & _).
    rewrite apply_models_none; [|lia|intros m' M' A'; apply (N m' M'), H, A'].
    rewrite B by (apply H, Hm). destruct m as [[a f] n]. reflexivity.
Qed.
Print Assumptions C134_keys.

(** The face across an edge: it has the edge the other way round, is not the face itself, and is smoothed
    with it or on the same side of the same plane; none is found only if there is none. *)
Theorem C134_value : forall b f, let e := ext_of b f in let t := tex_of b f in
  (pe_group e <> 0%Z -> phong_value b f = pe_group e) /\
  (pe_group e = 0%Z -> phong_value b f = if N.odd (pt_flags t) then 0%Z else pt_value t) /\
  (pe_angle e <> 0%nat \/ phong_value b f = 0%Z -> angle_of b f = pe_angle e) /\
  (pe_angle e = 0%nat -> phong_value b f <> 0%Z -> angle_of b f = 89%nat).
Proof.
  intros b f e t. unfold angle_of, phong_value. fold e t. rewrite N.bit0_odd. repeat split.
  - intro H. apply Z.eqb_neq in H. rewrite H. reflexivity.
  - intros ->. cbn [Z.eqb negb]. destruct (N.odd (pt_flags t)); [rewrite andb_false_r; reflexivity|]. destruct (Z.eqb_spec (pt_value t) 0) as [-> |]; reflexivity.
  - intros [H|H]; [apply Nat.eqb_neq in H; rewrite H; reflexivity|]. rewrite H. cbn [Z.eqb negb]. rewrite andb_false_r. reflexivity.
  - intros -> H. apply Z.eqb_neq in H. rewrite H. reflexivity.
Qed.
Print Assumptions C134_value.

Theorem C134_edge : forall b i k v0 v1, (k < length (pf_verts (face b i)))%nat ->
  v0 = nth k (pf_verts (face b i)) 0%nat -> v1 = nth (S k mod length (pf_verts (face b i))) (pf_verts (face b i)) 0%nat -> v0 <> v1 ->
  let edge j := exists m, (m < length (pf_verts (face b j)))%nat /\ nth m (pf_verts (face b j)) 0%nat = v1 /\
                          nth (S m mod length (pf_verts (face b j))) (pf_verts (face b j)) 0%nat = v0 in
  let across j := (j < nfaces b)%nat /\ j <> i /\ edge j /\
    (faces_smoothed b i j = true \/ pf_num (face b j) = pf_num (face b i) /\ pf_side (face b j) = pf_side (face b i)) in
  match edge_smoothed b i k with Some j => across j | None => forall j, ~ across j end.
Proof.
  intros b i k v0 v1 K E0 E1 D edge across.
  assert (NX : forall l m, (m < length l)%nat -> nth_error (combine l (next_of l)) m = Some (nth m l 0%nat, nth (S m mod length l) l 0%nat)).
  { intros l m M. destruct l as [|a l]; [cbn in M; lia|]. cbn [next_of].
    assert (A : nth_error (a :: l) m = Some (nth m (a :: l) 0%nat)) by (apply nth_error_nth'; exact M).
    assert (B : nth_error (l ++ [a]) m = Some (nth (S m mod length (a :: l)) (a :: l) 0%nat)).
    { cbn [length] in *. destruct (Nat.eq_dec m (length l)) as [->|Q].
      - rewrite Nat.mod_same by lia. cbn [nth]. rewrite nth_error_app2 by lia. rewrite Nat.sub_diag. reflexivity.
      - rewrite Nat.mod_small by lia. cbn [nth]. rewrite nth_error_app1 by lia. apply nth_error_nth'. lia. }
    revert A B. generalize (nth m (a :: l) 0%nat) (nth (S m mod length (a :: l)) (a :: l) 0%nat) (l ++ [a]). generalize (a :: l). clear.
    induction m as [|m IH]; intros [|x xs] p q [|y ys] A B; cbn [nth_error combine] in *; try discriminate; [congruence|]. apply IH; assumption. }
  assert (ED : forall j, has_edge (face b j) v1 v0 = true <-> edge j).
  { intros j. unfold has_edge. destruct (Nat.eqb_spec v1 v0) as [Q|_]; [congruence|]. cbn [negb andb]. rewrite existsb_exists. unfold edge. split.
    - intros ([x y] & X & Q). cbn [fst snd] in Q. apply andb_prop in Q. destruct Q as [Q1 Q2]. apply Nat.eqb_eq in Q1, Q2. subst x y.
      apply In_nth_error in X. destruct X as (m & X). assert (M : (m < length (pf_verts (face b j)))%nat).
      { assert (m < length (combine (pf_verts (face b j)) (next_of (pf_verts (face b j)))))%nat by (apply nth_error_Some; congruence). rewrite combine_length in H. lia. }
      rewrite (NX _ _ M) in X. injection X as X1 X2. exists m. auto.
    - intros (m & M & Q1 & Q2). exists (v1, v0). split; [|cbn; rewrite !Nat.eqb_refl; reflexivity].
      apply nth_error_In with m. rewrite (NX _ _ M), Q1, Q2. reflexivity. }
  unfold edge_smoothed. rewrite (NX _ _ K), <- E0, <- E1.
  assert (IN : forall j, In j (edge_faces b v1 v0) <-> (j < nfaces b)%nat /\ edge j).
  { intros j. unfold edge_faces. rewrite filter_In, (in_seq (length (pm_faces b)) 0 j), ED. unfold nfaces. intuition lia. }
  match goal with |- match find ?g ?l with _ => _ end => assert (TG : forall j, g j = true <-> j <> i /\
    (faces_smoothed b i j = true \/ pf_num (face b j) = pf_num (face b i) /\ pf_side (face b j) = pf_side (face b i))) end.
  { intros j. rewrite andb_true_iff, negb_true_iff, Nat.eqb_neq, orb_true_iff, andb_true_iff, Nat.eqb_eq, eqb_true_iff. tauto. }
  match goal with |- match find ?g ?l with _ => _ end => destruct (find g l) as [j|] eqn:F end.
  - apply find_some in F. destruct F as [F1 F2]. apply IN in F1. apply TG in F2. unfold across. tauto.
  - intros j (J & N1 & Ej & S). assert (X : In j (edge_faces b v1 v0)) by (apply IN; auto).
    pose proof (find_none _ _ F j X) as Q. cbn beta in Q. rewrite (proj2 (TG j)) in Q by auto. discriminate.
Qed.
Print Assumptions C134_edge.

(* Triangles with the vertices 0 and 1, which lie on the z axis at 0 and 1, and a third each; one texinfo with
   the given angles. *)
Definition fan_map (a c : nat) (l : list (vec * vec)) : pmap :=
  mkPM (map (fun k => mkPF [0; 1; 2 + k]%nat (mkPl (snd (nth k l (zero, zero))) 0) k false 0) (seq 0 (length l)))
       [mkPE a c false 0] [mkPT 0 0]
       (fun v => match v with 0 => mkV 0 0 0 | 1 => mkV 0 0 1 | S (S k) => fst (nth k l (zero, zero)) end%nat) false.

Lemma fan_smoothed_iff a c l i j : (i < length l)%nat -> (j < length l)%nat -> i <> j -> (0 < a)%nat ->
  (c = 0 \/ c = a)%nat ->
  faces_smoothed (fan_map a c l) i j = true <-> cos (deg2rad a) <= dot (snd (nth i l (zero, zero))) (snd (nth j l (zero, zero))).
Proof.
  intros I J D A C. rewrite faces_smoothed_iff, in_neighbours, smooths_iff.
  assert (F : forall k, (k < length l)%nat -> face (fan_map a c l) k = mkPF [0; 1; 2 + k]%nat (mkPl (snd (nth k l (zero, zero))) 0) k false 0).
  { intros k K. unfold face, fan_map. cbn [pm_faces].
    rewrite (nth_indep _ no_face (mkPF [0; 1; 2 + 0]%nat (mkPl (snd (nth 0 l (zero, zero))) 0) 0 false 0)) by (rewrite map_length, seq_length; exact K).
    rewrite (map_nth (fun k => mkPF [0; 1; 2 + k]%nat (mkPl (snd (nth k l (zero, zero))) 0) k false 0) (seq 0 (length l)) 0%nat k).
    rewrite seq_nth by exact K. reflexivity. }
  assert (L : length (pm_faces (fan_map a c l)) = length l) by (unfold fan_map; cbn [pm_faces]; rewrite map_length, seq_length; reflexivity).
  rewrite L, !F by assumption.
  set (f := mkPF [0; 1; 2 + i]%nat _ _ _ _). set (g := mkPF [0; 1; 2 + j]%nat _ _ _ _).
  assert (AN : forall h, pf_tex h = 0%nat -> angle_of (fan_map a c l) h = a /\ concave_of (fan_map a c l) h = a).
  { intros h H. assert (E : ext_of (fan_map a c l) h = mkPE a c false 0) by (unfold ext_of, fan_map; cbn [pm_ext]; rewrite H; reflexivity).
    assert (X : angle_of (fan_map a c l) h = a).
    { unfold angle_of. rewrite E. cbn [pe_angle]. destruct a; [lia|]. reflexivity. }
    split; [exact X|]. unfold concave_of. rewrite E, X. cbn [pe_concave]. destruct C as [->| ->]; [reflexivity|]. destruct (Nat.eqb a 0); reflexivity. }
  assert (T : threshold (fan_map a c l) f g = a).
  { unfold threshold. destruct (AN f eq_refl) as [-> ->]. destruct (AN g eq_refl) as [-> ->]. destruct (is_concave _ f g); apply Nat.min_id. }
  assert (W : forall h, pf_tex h = 0%nat -> wants (fan_map a c l) h = true).
  { intros h H. unfold wants. destruct (AN h H) as [-> ->]. unfold ext_of, fan_map. cbn [pm_ext]. rewrite H. destruct a; [lia|reflexivity]. }
  rewrite T. cbn [p_n pf_plane f g]. split; [tauto|]. intros Q.
  refine (conj J (conj (not_eq_sym D) (conj _ (conj (W f eq_refl) (conj (W g eq_refl) (conj _ (conj _ Q))))))).
  - exists 0%nat. split; left; reflexivity.
  - unfold may_phong. apply N.eqb_refl.
  - reflexivity.
Qed.

Definition n0 : vec := mkV 1 0 0.
Definition n1 : vec := mkV (3 / 5) (4 / 5) 0.
Definition n2 : vec := mkV (- (7 / 25)) (24 / 25) 0.

Lemma fan_contribs a c l k v : (k < length l)%nat -> (v < 2)%nat ->
  cross (sub (fst (nth k l (zero, zero))) (mkV 0 0 0)) (sub (mkV 0 0 1) (mkV 0 0 0)) <> zero ->
  exists w, 0 < w /\ contribs (fan_map a c l) (face (fan_map a c l) k) v = [scale w (snd (nth k l (zero, zero)))].
Proof.
  intros K V C. 
  assert (F : face (fan_map a c l) k = mkPF [0; 1; 2 + k]%nat (mkPl (snd (nth k l (zero, zero))) 0) k false 0).
  { unfold face, fan_map. cbn [pm_faces].
    rewrite (nth_indep _ no_face (mkPF [0; 1; 2 + 0]%nat (mkPl (snd (nth 0 l (zero, zero))) 0) 0 false 0)) by (rewrite map_length, seq_length; exact K).
    rewrite (map_nth (fun k => mkPF [0; 1; 2 + k]%nat (mkPl (snd (nth k l (zero, zero))) 0) k false 0) (seq 0 (length l)) 0%nat k).
    rewrite seq_nth by exact K. reflexivity. }
  rewrite F. apply tri_contribs; [lia|lia|lia|exact C|]. destruct v as [|[|v]]; cbn; [auto|auto|lia].
Qed.

(** Refuted: smoothing gives no common normal along an edge of two faces that are smoothed with each other.
    Three faces, each 53 degrees from the next; the second is also smoothed with the third, the first is not. *)
Theorem C134_seamless_refuted : exists b, unit_normals b /\ nfaces b = 3%nat /\
  (forall i, (i < 3)%nat -> concave_of b (face b i) = angle_of b (face b i)) /\
  faces_smoothed b 0 1 = true /\ faces_smoothed b 1 0 = true /\
  nth_error (pf_verts (face b 0)) 0 = nth_error (pf_verts (face b 1)) 0 /\ surface_normal b 0 0 <> surface_normal b 1 0.
Proof.
  set (l := [(mkV 0 1 0, n0); (mkV (-4) 3 0, n1); (mkV (-24) (-7) 0, n2)]). exists (fan_map 60 0 l).
  assert (S01 : faces_smoothed (fan_map 60 0 l) 0 1 = true).
  { apply fan_smoothed_iff; [cbn; lia|cbn; lia|lia|lia|auto|]. rewrite cos_60. cbn. unfold dot; cbn. lra. }
  assert (S10 : faces_smoothed (fan_map 60 0 l) 1 0 = true).
  { apply fan_smoothed_iff; [cbn; lia|cbn; lia|lia|lia|auto|]. rewrite cos_60. cbn. unfold dot; cbn. lra. }
  assert (S12 : faces_smoothed (fan_map 60 0 l) 1 2 = true).
  { apply fan_smoothed_iff; [cbn; lia|cbn; lia|lia|lia|auto|]. rewrite cos_60. cbn. unfold dot; cbn. lra. }
  assert (S02 : faces_smoothed (fan_map 60 0 l) 0 2 = false).
  { apply not_true_iff_false. intros H. apply fan_smoothed_iff in H; [|cbn; lia|cbn; lia|lia|lia|auto]. rewrite cos_60 in H. revert H. cbn. unfold dot; cbn. lra. }
  assert (SS : forall i, faces_smoothed (fan_map 60 0 l) i i = false).
  { intros i. apply not_true_iff_false. intros H. apply faces_smoothed_iff, in_neighbours in H. tauto. }
  split; [|split; [reflexivity|split; [|split; [exact S01|split; [exact S10|split; [reflexivity|]]]]]].
  - intros f [<-|[<-|[<-|[]]]]; unfold dot, n0, n1, n2; cbn; lra.
  - intros i H. destruct i as [|[|[|i]]]; [reflexivity|reflexivity|reflexivity|lia].
  - assert (N0 : neighbours (fan_map 60 0 l) 0 = [1%nat]).
    { rewrite neighbours_filter. change (length _) with 3%nat. cbn [seq filter]. rewrite SS, S01, S02. reflexivity. }
    assert (N1 : neighbours (fan_map 60 0 l) 1 = [0; 2]%nat).
    { rewrite neighbours_filter. change (length _) with 3%nat. cbn [seq filter]. rewrite SS, S10, S12. reflexivity. }
    change (surface_normal (fan_map 60 0 l) 0 0) with (Some (smoothed (fan_map 60 0 l) 0 0)).
    change (surface_normal (fan_map 60 0 l) 1 0) with (Some (smoothed (fan_map 60 0 l) 1 0)).
    rewrite !smoothed_unfold. unfold parts. rewrite N0, N1. cbn [flat_map].
    destruct (fan_contribs 60 0 l 0 0) as (w0 & W0 & ->); [cbn; lia|lia|intros Q; injection Q; intros; lra|].
    destruct (fan_contribs 60 0 l 1 0) as (w1 & W1 & ->); [cbn; lia|lia|intros Q; injection Q; intros; lra|].
    destruct (fan_contribs 60 0 l 2 0) as (w2 & W2 & ->); [cbn; lia|lia|intros Q; injection Q; intros; lra|].
    cbn [app sumr fold_right l nth snd].
    set (s := add (scale w0 n0) (add (scale w1 n1) zero)). set (s' := add (scale w1 n1) (add (scale w0 n0) (add (scale w2 n2) zero))).
    assert (Y : 0 < vy s) by (unfold s; cbn; lra). assert (Y' : 0 < vy s') by (unfold s'; cbn; lra).
    assert (P : 0 < len s) by (apply len_gt; intros Q; rewrite Q in Y; cbn in Y; lra).
    assert (P' : 0 < len s') by (apply len_gt; intros Q; rewrite Q in Y'; cbn in Y'; lra).
    destruct (is0 (len s)) eqn:Z; [apply is0_t in Z; lra|]. destruct (is0 (len s')) eqn:Z'; [apply is0_t in Z'; lra|].
    unfold normalize. destruct (Req_EM_T (len s) 0); [lra|]. destruct (Req_EM_T (len s') 0); [lra|].
    intros E. assert (E' : scale (/ len s) s = scale (/ len s') s') by congruence. clear E. rename E' into E. assert (E1 : / len s * vx s = / len s' * vx s') by exact (f_equal vx E). assert (E2 : / len s * vy s = / len s' * vy s') by exact (f_equal vy E). apply Rinv_0_lt_compat in P. apply Rinv_0_lt_compat in P'. set (k := / len s) in *. set (k' := / len s') in *.
    assert (C : k * (vx s * vy s' - vy s * vx s') = 0).
    { replace (k * (vx s * vy s' - vy s * vx s')) with ((k * vx s) * vy s' - (k * vy s) * vx s') by ring. rewrite E1, E2. ring. }
    assert (C' : 0 < vx s * vy s' - vy s * vx s').
    { replace (vx s * vy s' - vy s * vx s') with (w2 * (w0 * (24 / 25) + w1 * (3 / 5 * (24 / 25) + 4 / 5 * (7 / 25)))) by (unfold s, s', n0, n1, n2; cbn; ring).
      apply Rmult_lt_0_compat; [exact W2|lra]. }
    pose proof (Rmult_lt_0_compat _ _ P C'). lra.
Qed.
Print Assumptions C134_seamless_refuted.

(** Refuted: a greater angle smooths more.  Beyond 180 degrees the cosine grows again: of two faces 127 degrees
    apart, which 180 degrees smooth, 240 degrees do not. *)
Theorem C134_angle_refuted : exists l, (forall x, In x l -> dot (snd x) (snd x) = 1) /\
  faces_smoothed (fan_map 180 0 l) 0 1 = true /\ faces_smoothed (fan_map 240 0 l) 0 1 = false.
Proof.
  exists [(mkV 0 1 0, n0); (mkV 4 3 0, mkV (- (3 / 5)) (4 / 5) 0)]. split; [|split].
  - intros x [<-|[<-|[]]]; unfold dot, n0; cbn; lra.
  - apply fan_smoothed_iff; [cbn; lia|cbn; lia|lia|lia|auto|]. rewrite cos_180. cbn. unfold dot; cbn. lra.
  - apply not_true_iff_false. intros H. apply fan_smoothed_iff in H; [|cbn; lia|cbn; lia|lia|lia|auto]. rewrite cos_240 in H. revert H. cbn. unfold dot; cbn. lra.
Qed.
Print Assumptions C134_angle_refuted.

(** Refuted: with a lesser angle for concave edges being smoothed is mutual.  A wide face rises from the edge of
    a narrow one: its middle is more than 0.1 above the narrow face, but the middle of the narrow face is not
    0.1 above it. *)
Theorem C134_symmetric_refuted : exists b, unit_normals b /\ nfaces b = 2%nat /\ faces_smoothed b 1 0 = true /\ faces_smoothed b 0 1 = false.
Proof.
  set (P := fun v : nat => match v with 0 => mkV 0 0 0 | 1 => mkV 0 1 0 | 2 => mkV (- (1 / 4)) 0 0 | _ => mkV 40 0 30 end%nat).
  set (f := mkPF [0; 1; 2]%nat (mkPl (mkV 0 0 1) 0) 0 false 0). set (g := mkPF [0; 1; 3]%nat (mkPl (mkV (- (3 / 5)) 0 (4 / 5)) 0) 1 false 0).
  set (b := mkPM [f; g] [mkPE 60 30 false 0] [mkPT 0 0] P false). exists b.
  split; [intros x [<-|[<-|[]]]; unfold dot; cbn; lra|]. split; [reflexivity|].
  assert (AF : angle_of b f = 60%nat /\ concave_of b f = 30%nat) by (split; reflexivity).
  assert (AG : angle_of b g = 60%nat /\ concave_of b g = 30%nat) by (split; reflexivity).
  assert (CE : forall x y z, cross (sub z x) (sub y x) <> zero -> poly_centroid [x; y; z] = Some (scale (1 / 3) (add (add x y) z))).
  { intros x y z H. apply len_gt in H. unfold poly_centroid, poly_area, poly_moment, fan, fan_from. cbn [fold_right map tri_area' tri_moment].
    assert (T : 0 < tri_area x y z) by (unfold tri_area; lra). destruct (is0 (tri_area x y z + 0)) eqn:Z; [apply is0_t in Z; lra|]. f_equal.
    apply vec_eq; unfold scale, add, zero; cbn; field; lra. }
  split.
  - apply faces_smoothed_iff, in_neighbours. split; [cbn; lia|]. split; [lia|]. split; [exists 0%nat; cbn; auto|]. change (face b 1) with g. change (face b 0) with f.
    apply smooths_iff. split; [reflexivity|]. split; [reflexivity|]. split; [reflexivity|]. split; [reflexivity|].
    assert (T : threshold b g f = 60%nat).
    { unfold threshold. destruct AF as [-> ->]. destruct AG as [-> ->]. unfold is_concave, points. cbn [pf_verts f map].
      change (pm_pos b) with P. cbn [P]. rewrite CE by (intros Q; injection Q; intros; lra).
      destruct (ltb _ _) eqn:E; [|reflexivity]. apply ltb_t in E. revert E. unfold dist_to, dot, g. cbn. intros E. exfalso. lra. }
    rewrite T, cos_60. unfold dot; cbn. lra.
  - apply not_true_iff_false. intros H. apply faces_smoothed_iff, in_neighbours in H. destruct H as (_ & _ & _ & H).
    change (face b 1) with g in H. change (face b 0) with f in H. apply smooths_iff in H. destruct H as (_ & _ & _ & _ & H).
    assert (T : threshold b f g = 30%nat).
    { unfold threshold. destruct AF as [-> ->]. destruct AG as [-> ->]. unfold is_concave, points. cbn [pf_verts g map].
      change (pm_pos b) with P. cbn [P]. rewrite CE by (intros Q; injection Q; intros; lra).
      destruct (ltb _ _) eqn:E; [reflexivity|]. apply ltb_f in E. revert E. unfold dist_to, dot, f. cbn. intros E. exfalso. lra. }
    rewrite T in H. pose proof cos_30. revert H. unfold dot; cbn. lra.
Qed.
Print Assumptions C134_symmetric_refuted.

(** Refuted: the keys of a model concern its own faces.  Texinfos are shared: two faces of model 0 (faces 0 and
    1) become smoothed by the key of model 1 (face 2), which has the same texture on it. *)
Theorem C134_keys_refuted : exists b, 
  faces_smoothed (apply_models b [(0, 0, 2); (0, 2, 1)]%nat) 0 1 = false /\
  faces_smoothed (apply_models b [(0, 0, 2); (60, 2, 1)]%nat) 0 1 = true.
Proof.
  set (l := [(mkV 0 1 0, n0); (mkV (-4) 3 0, n1); (mkV (-24) (-7) 0, n2)]). exists (fan_map 0 0 l). split.
  - change (apply_models (fan_map 0 0 l) [(0, 0, 2); (0, 2, 1)]%nat) with (fan_map 0 0 l).
    apply not_true_iff_false. intros H. apply faces_smoothed_iff, in_neighbours in H. destruct H as (_ & _ & _ & H). apply smooths_iff in H. destruct H as (H & _). discriminate.
  - change (apply_models (fan_map 0 0 l) [(0, 0, 2); (60, 2, 1)]%nat) with (fan_map 60 0 l).
    apply fan_smoothed_iff; [cbn; lia|cbn; lia|lia|lia|auto|]. rewrite cos_60. cbn. unfold dot; cbn. lra.
Qed.
Print Assumptions C134_keys_refuted.

(** Two faces 53 degrees apart are smoothed by 60 degrees and not by 30; then they have one normal at the
    vertices they share, which is neither of theirs, and their own at the others. *)
Example C134_nontrivial :
  let l := [(mkV 0 1 0, n0); (mkV (-4) 3 0, n1)] in let b := fan_map 60 0 l in
  unit_normals b /\ faces_smoothed (fan_map 30 0 l) 0 1 = false /\ faces_smoothed b 0 1 = true /\
  surface_normal b 0 0 = surface_normal b 1 0 /\ surface_normal b 0 0 <> Some n0 /\ surface_normal b 0 2 = Some n0.
Proof.
  intros l b.
  assert (S01 : faces_smoothed b 0 1 = true).
  { apply fan_smoothed_iff; [cbn; lia|cbn; lia|lia|lia|auto|]. rewrite cos_60. cbn. unfold dot; cbn. lra. }
  assert (S10 : faces_smoothed b 1 0 = true).
  { apply fan_smoothed_iff; [cbn; lia|cbn; lia|lia|lia|auto|]. rewrite cos_60. cbn. unfold dot; cbn. lra. }
  assert (SS : forall i, faces_smoothed b i i = false).
  { intros i. apply not_true_iff_false. intros H. apply faces_smoothed_iff, in_neighbours in H. tauto. }
  assert (N0 : neighbours b 0 = [1%nat]).
  { rewrite neighbours_filter. change (length _) with 2%nat. cbn [seq filter]. rewrite SS, S01. reflexivity. }
  assert (N1 : neighbours b 1 = [0%nat]).
  { rewrite neighbours_filter. change (length _) with 2%nat. cbn [seq filter]. rewrite SS, S10. reflexivity. }
  assert (U : unit_normals b) by (intros f [<-|[<-|[]]]; unfold dot, n0, n1; cbn; lra).
  destruct (fan_contribs 60 0 l 0 0) as (w0 & W0 & C0); [cbn; lia|lia|intros Q; injection Q; intros; lra|].
  destruct (fan_contribs 60 0 l 1 0) as (w1 & W1 & C1); [cbn; lia|lia|intros Q; injection Q; intros; lra|].
  fold b in C0, C1. cbn [l nth snd] in C0, C1.
  split; [exact U|]. split; [|split; [exact S01|]].
  { apply not_true_iff_false. intros H. apply fan_smoothed_iff in H; [|cbn; lia|cbn; lia|lia|lia|auto]. pose proof cos_30. revert H. cbn. unfold dot; cbn. lra. }
  assert (Y : 0 < vy (sumr (parts b 0 0))).
  { unfold parts. rewrite N0. cbn [flat_map]. rewrite C0, C1. cbn. lra. }
  assert (Z : is0 (len (sumr (parts b 0 0))) = false).
  { apply is0_f. intros Z. apply len_0 in Z. rewrite Z in Y. cbn in Y. lra. }
  split; [|split].
  - change (surface_normal b 0 0) with (Some (smoothed b 0 0)). change (surface_normal b 1 0) with (Some (smoothed b 1 0)). f_equal.
    rewrite !smoothed_unfold. rewrite (sumr_perm (parts b 1 0) (parts b 0 0)).
    + rewrite Z. reflexivity.
    + unfold parts. rewrite N0, N1. cbn [flat_map]. rewrite C0, C1. cbn [app]. apply perm_swap.
  - change (surface_normal b 0 0) with (Some (smoothed b 0 0)). rewrite smoothed_unfold, Z. intros E0. assert (E : normalize (sumr (parts b 0 0)) = n0) by congruence.
    unfold normalize in E. destruct (Req_EM_T (len (sumr (parts b 0 0))) 0) as [Q|Q]; [apply is0_f in Z; contradiction|].
    assert (E' : / len (sumr (parts b 0 0)) * vy (sumr (parts b 0 0)) = 0) by exact (f_equal vy E). pose proof (len_nonneg (sumr (parts b 0 0))) as L.
    assert (L' : 0 < / len (sumr (parts b 0 0))) by (apply Rinv_0_lt_compat; lra). pose proof (Rmult_lt_0_compat _ _ L' Y). lra.
  - change (surface_normal b 0 2) with (Some (smoothed b 0 2)). f_equal. rewrite smoothed_unfold. unfold parts. rewrite N0. cbn [flat_map].
    rewrite (contribs_absent b (face b 1) 2) by (cbn; lia).
    destruct (tri_contribs b (mkPl n0 0) 0 false 0 0 1 2 2)%nat as (w & W & C); [lia|lia|lia|intros Q; apply (f_equal vx) in Q; cbn in Q; lra|cbn; auto|].
    change (mkPF [0; 1; 2]%nat (mkPl n0 0) 0 false 0) with (face b 0) in C. rewrite C. cbn [app sumr fold_right p_n]. rewrite add_zero.
    assert (L : len (scale w n0) = w) by (apply len_eq; [lra|unfold dot, n0; cbn; ring]).
    rewrite L. destruct (is0 w) eqn:Zw; [apply is0_t in Zw; lra|]. unfold normalize. rewrite L. destruct (Req_EM_T w 0); [lra|].
    unfold n0. apply vec_eq; cbn; field; lra.
Qed.
