From Coq Require Import Reals List Bool Arith Lia Lra Permutation FinFun.
From Verif Require Import WindClipModel WindClipProofs BevelModel.
Import ListNotations.
Open Scope R_scope.

Lemma Reqb_true a b : Reqb a b = true <-> a = b.
Proof. unfold Reqb. destruct (Req_EM_T a b); split; auto; discriminate. Qed.
Lemma Rltb_true a b : Rltb a b = true <-> a < b.
Proof. unfold Rltb. destruct (Rlt_dec a b); split; auto; discriminate. Qed.
Lemma Rltb_false a b : Rltb a b = false <-> b <= a.
Proof. unfold Rltb. destruct (Rlt_dec a b); split; intros; try discriminate; try lra; auto. Qed.
Lemma Rleb_true a b : Rleb a b = true <-> a <= b.
Proof. unfold Rleb. destruct (Rle_dec a b); split; auto; discriminate. Qed.

(** ** Swapping *)
Lemma upd_length : forall l n x, length (upd l n x) = length l.
Proof. induction l; intros [|n] x; simpl; auto. Qed.
Lemma upd_nth : forall l n x m, (n < length l)%nat ->
  nth_error (upd l n x) m = if Nat.eqb m n then Some x else nth_error l m.
Proof.
  induction l as [|y l IH]; intros n x m H; simpl in H; [lia|].
  destruct n as [|n], m as [|m]; simpl; auto. apply IH. lia.
Qed.
Lemma swap_some : forall l a b, (a < length l)%nat -> (b < length l)%nat ->
  exists l', swap l a b = Some l' /\ length l' = length l /\ Permutation l l' /\
    nth_error l' a = nth_error l b /\ nth_error l' b = nth_error l a /\
    forall k, k <> a -> k <> b -> nth_error l' k = nth_error l k.
Proof.
  intros l a b Ha Hb. unfold swap.
  destruct (nth_error l a) as [x|] eqn:Ea; [|apply nth_error_None in Ea; lia].
  destruct (nth_error l b) as [y|] eqn:Eb; [|apply nth_error_None in Eb; lia].
  exists (upd (upd l a y) b x).
  assert (Nx : forall k, nth_error (upd (upd l a y) b x) k =
     if Nat.eqb k b then Some x else if Nat.eqb k a then Some y else nth_error l k).
  { intros k. rewrite upd_nth by (rewrite upd_length; assumption).
    destruct (Nat.eqb k b); auto. apply upd_nth; assumption. }
  split; [reflexivity|]. split; [rewrite !upd_length; reflexivity|]. split.
  - apply Permutation_nth_error. split; [rewrite !upd_length; reflexivity|].
    exists (fun k => if Nat.eqb k b then a else if Nat.eqb k a then b else k). split.
    + intros p q. destruct (Nat.eqb_spec p b), (Nat.eqb_spec q b), (Nat.eqb_spec p a), (Nat.eqb_spec q a); lia.
    + intros k. rewrite Nx. destruct (Nat.eqb k b); auto. destruct (Nat.eqb k a); auto.
  - split; [|split].
    + rewrite Nx, Nat.eqb_refl. destruct (Nat.eqb_spec a b); [subst; congruence|reflexivity].
    + rewrite Nx, Nat.eqb_refl. reflexivity.
    + intros k K1 K2. rewrite Nx. destruct (Nat.eqb_spec k b); [lia|]. destruct (Nat.eqb_spec k a); [lia|reflexivity].
Qed.

Lemma find_face_spec : forall P l, 
  (find_face P l <= length l)%nat /\
  (forall k f, (k < find_face P l)%nat -> nth_error l k = Some f -> P f = false) /\
  (forall f, nth_error l (find_face P l) = Some f -> P f = true).
Proof.
  induction l as [|y l (H1 & H2 & H3)]; simpl.
  - split; [lia|]. split; [intros; lia|]. intros; discriminate.
  - destruct (P y) eqn:E.
    + split; [lia|]. split; [intros; lia|]. simpl; intros f H; congruence.
    + split; [lia|]. split.
      * intros [|k] f K1 K2; simpl in K2; [congruence|]. apply (H2 k); auto; lia.
      * exact H3.
Qed.

(** ** Closeness of planes *)
Definition near_plane (a b : R) (p q : plane) : Prop :=
  Rabs (vx (p_n p) - vx (p_n q)) <= a /\ Rabs (vy (p_n p) - vy (p_n q)) <= a /\
  Rabs (vz (p_n p) - vz (p_n q)) <= a /\ Rabs (p_d p - p_d q) <= b.
Definition one_norm (v : vec) : R := Rabs (vx v) + Rabs (vy v) + Rabs (vz v).

Lemma mul_near : forall x u v a, Rabs (u - v) <= a -> x * u <= x * v + a * Rabs x.
Proof.
  intros x u v a H. assert (x * (u - v) <= Rabs x * a).
  { apply Rle_trans with (Rabs (x * (u - v))); [apply Rle_abs|].
    rewrite Rabs_mult. apply Rmult_le_compat_l; [apply Rabs_pos|assumption]. }
  lra.
Qed.

Lemma near_dist : forall a b p q x, near_plane a b p q ->
  dist_to p x <= dist_to q x + (a * one_norm x + b).
Proof.
  intros a b p q x (H1 & H2 & H3 & H4). unfold dist_to, dot, one_norm.
  pose proof (mul_near (vx x) _ _ a H1). pose proof (mul_near (vy x) _ _ a H2).
  pose proof (mul_near (vz x) _ _ a H3).
  assert (p_d q - p_d p <= b). { apply Rle_trans with (Rabs (p_d p - p_d q)); [|assumption].
    rewrite Rabs_minus_sym. apply Rle_abs. }
  lra.
Qed.

(** ** Axial bevels *)
Section A.
Variable ask : list face -> plane -> plane.
Variable mins maxs : vec.
Variable hn hd : R.
Hypothesis ask_near : forall fs p, near_plane hn hd (ask fs p) p.
Hypothesis hn_small : hn < 1.
Variable fs0 : list face.
Hypothesis units : forall f, In f fs0 -> dot (p_n (f_plane f)) (p_n (f_plane f)) = 1.

Definition is_bevel (f : face) : Prop := f_winding f = [] /\ f_bevel f = true.
Definition box_bevel (f : face) (k : nat) : Prop :=
  is_bevel f /\ (exists fs, f_plane f = ask fs (axial_plane mins maxs k)) /\ (fs0 = [] \/ exists h, In h fs0 /\ f_tex f = f_tex h) /\
  (forall h, In h fs0 -> vcomp (axis_of k) (p_n (f_plane h)) <> dir_of k).
Definition slot (k : nat) (added : list face) (f : face) : Prop :=
  (In f fs0 /\ vcomp (axis_of k) (p_n (f_plane f)) = dir_of k) \/ (In f added /\ box_bevel f k).

Lemma unit_one : forall v i j, dot v v = 1 -> (i < 3)%nat -> (j < 3)%nat -> i <> j ->
  vcomp i v = 1 \/ vcomp i v = -1 -> vcomp j v = 0.
Proof.
  intros [x y z] i j U Hi Hj Ne H. unfold dot in U; simpl in U.
  assert (S0 : forall u v w : R, u * u + v * v + w * w = 1 -> u = 1 \/ u = -1 -> v = 0 /\ w = 0).
  { intros u v w E [->| ->]; split; nra. }
  destruct i as [|[|[|i]]]; [| | |lia]; destruct j as [|[|[|j]]]; try lia; simpl in *.
  - apply (S0 x y z U H). - apply (S0 x y z U H).
  - apply (S0 y x z); [lra|assumption]. - apply (S0 y x z); [lra|assumption].
  - apply (S0 z x y); [lra|assumption]. - apply (S0 z x y); [lra|assumption].
Qed.

Lemma dir_cases : forall k, dir_of k = 1 \/ dir_of k = -1.
Proof. intros; unfold dir_of. destruct (Nat.even k); auto. Qed.

Lemma axis_lt : forall k, (k < 6)%nat -> (axis_of k < 3)%nat.
Proof. intros k H. unfold axis_of. do 6 (destruct k as [|k]; [simpl; lia|]). lia. Qed.

Lemma axis_dir : forall k m, (k < 6)%nat -> (m < 6)%nat -> k <> m ->
  axis_of k <> axis_of m \/ (axis_of k = axis_of m /\ dir_of m = - dir_of k).
Proof.
  intros k m Hk Hm Ne. unfold axis_of, dir_of.
  do 6 (destruct k as [|k]; [do 6 (destruct m as [|m]; [simpl; solve [lia | left; lia | right; split; [lia|lra]]|]); lia|]). lia.
Qed.

Lemma vcomp_axis : forall i j d, (i < 3)%nat -> (j < 3)%nat -> vcomp i (axis_vec j d) = if Nat.eqb i j then d else 0.
Proof.
  intros i j d Hi Hj. destruct i as [|[|[|i]]]; [| | |lia]; destruct j as [|[|[|j]]]; try lia; reflexivity.
Qed.

Lemma near_comp : forall p q i, near_plane hn hd p q -> Rabs (vcomp i (p_n p) - vcomp i (p_n q)) <= hn.
Proof. intros p q [|[|i]] (H1 & H2 & H3 & _); simpl; assumption. Qed.

Lemma no_match : forall k m added f, (k < 6)%nat -> (m < 6)%nat -> k <> m -> slot k added f ->
  vcomp (axis_of m) (p_n (f_plane f)) <> dir_of m.
Proof.
  intros k m added f Hk Hm Ne S0 E.
  pose proof (axis_lt k Hk) as Lk. pose proof (axis_lt m Hm) as Lm.
  destruct S0 as [[I C]|[_ (_ & (fs & C) & _)]].
  - destruct (axis_dir k m Hk Hm Ne) as [A|[A D]].
    + assert (V : vcomp (axis_of m) (p_n (f_plane f)) = 0).
      { apply (unit_one (p_n (f_plane f)) (axis_of k)); auto. rewrite C. apply dir_cases. }
      destruct (dir_cases m); lra.
    + rewrite <- A in E. destruct (dir_cases k); lra.
  - pose proof (near_comp _ _ (axis_of m) (ask_near fs (axial_plane mins maxs k))) as B.
    rewrite <- C in B. rewrite E in B. unfold axial_plane in B; cbn [p_n] in B.
    rewrite vcomp_axis in B by assumption.
    apply Rabs_def2 in B || idtac.
    destruct (axis_dir k m Hk Hm Ne) as [A|[A D]].
    + destruct (Nat.eqb_spec (axis_of m) (axis_of k)); [congruence|].
      destruct (dir_cases m) as [M|M]; rewrite M in B; unfold Rabs in B; destruct Rcase_abs; lra.
    + rewrite A, Nat.eqb_refl, D in B.
      destruct (dir_cases k) as [M|M]; rewrite M in B; unfold Rabs in B; destruct Rcase_abs; lra.
Qed.

Definition axinv (m : nat) (fs : list face) : Prop :=
  exists added, Permutation fs (fs0 ++ added) /\ (length added <= m)%nat /\ (m <= length fs)%nat /\
    (forall g, In g added -> exists k, (k < m)%nat /\ box_bevel g k) /\
    forall k, (k < m)%nat -> exists f, nth_error fs k = Some f /\ slot k added f.

Lemma slot_app : forall k added g f, slot k added f -> slot k (added ++ [g]) f.
Proof. intros k added g f [H|[H1 H2]]; [left; auto|right]. split; auto. apply in_or_app; auto. Qed.

Lemma axial_step_inv : forall m fs, (m < 6)%nat -> axinv m fs ->
  exists fs', axial_step ask mins maxs m fs = Some fs' /\ axinv (S m) fs'.
Proof.
  intros m fs Hm (added & P & La & Lm & B & Sl).
  unfold axial_step. cbv zeta.
  set (i := find_face _ fs).
  destruct (find_face_spec (fun f => Reqb (vcomp (axis_of m) (p_n (f_plane f))) (dir_of m)) fs) as (F1 & F2 & F3).
  fold i in F1, F2, F3.
  assert (Hi : (m <= i)%nat).
  { destruct (Nat.lt_ge_cases i m) as [L|L]; auto. exfalso.
    destruct (Sl i L) as (f & N1 & S1). specialize (F3 f N1). apply Reqb_true in F3.
    apply (no_match i m added f) in S1; auto; lia. }
  clearbody i.
  assert (In0 : forall f, In f fs -> In f fs0 \/ In f added).
  { intros f H. apply in_app_or. apply (Permutation_in _ P). exact H. }
  destruct (Nat.eqb_spec i (length fs)) as [El|El].
  - set (new := mkF (ask fs (axial_plane mins maxs m)) [] true (match fs with f :: _ => f_tex f | [] => O end)).
    assert (Bn : box_bevel new m).
    { split; [split; reflexivity|]. split; [exists fs; reflexivity|].
      split.
      2:{ intros h Hh E.
          assert (Hh' : In h fs) by (apply (Permutation_in h (Permutation_sym P)); apply in_or_app; auto).
          apply In_nth_error in Hh' as [j Hj].
          assert (Lj : (j < i)%nat) by (rewrite El; apply nth_error_Some; congruence).
          specialize (F2 j h Lj Hj). apply Reqb_true in E. congruence. }
      destruct fs as [|f r].
      - left. apply Permutation_nil in P. apply app_eq_nil in P. tauto.
      - destruct (In0 f (or_introl eq_refl)) as [I|I]; [right; exists f; auto|].
        destruct (B f I) as (k & Hk & (_ & _ & [Z1|(h & Hh & Eh)] & _)); [left; exact Z1|].
        right. exists h. split; auto. }
    assert (P' : Permutation (fs ++ [new]) (fs0 ++ (added ++ [new]))).
    { rewrite app_assoc. apply Permutation_app_tail. exact P. }
    assert (Nn : nth_error (fs ++ [new]) i = Some new).
    { rewrite El, nth_error_app2, Nat.sub_diag by lia. reflexivity. }
    assert (Bs : forall g, In g (added ++ [new]) -> exists k, (k < S m)%nat /\ box_bevel g k).
    { intros g I. apply in_app_or in I as [I|[<-|[]]].
      - destruct (B g I) as (k & K1 & K2). exists k; split; auto; lia.
      - exists m; split; auto. }
    assert (Sn : slot m (added ++ [new]) new).
    { right. split; auto. apply in_or_app; right; left; reflexivity. }
    destruct (Nat.eqb_spec i m) as [Em|Em].
    + exists (fs ++ [new]). split; [reflexivity|]. exists (added ++ [new]).
      split; [exact P'|]. rewrite !app_length; simpl. split; [lia|]. split; [lia|]. split; [exact Bs|].
      intros k Hk. destruct (Nat.eq_dec k m) as [->|Nk].
      * exists new. rewrite <- Em. auto. split; auto. rewrite Em. exact Sn.
      * destruct (Sl k) as (f & S1 & S2); [lia|]. exists f. rewrite nth_error_app1 by lia.
        split; auto. apply slot_app; auto.
    + destruct (swap_some (fs ++ [new]) m i) as (l' & W1 & W2 & W3 & W4 & W5 & W6);
        [rewrite app_length; simpl; lia|rewrite app_length; simpl; lia|].
      exists l'. split; [exact W1|]. exists (added ++ [new]).
      split; [eapply Permutation_trans; [apply Permutation_sym; exact W3|exact P']|].
      rewrite W2, !app_length; simpl. split; [lia|]. split; [lia|]. split; [exact Bs|].
      intros k Hk. destruct (Nat.eq_dec k m) as [->|Nk].
      * exists new. rewrite W4. auto.
      * destruct (Sl k) as (f & S1 & S2); [lia|]. exists f. rewrite W6 by lia.
        rewrite nth_error_app1 by lia. split; auto. apply slot_app; auto.
  - assert (Li : (i < length fs)%nat) by lia.
    destruct (nth_error fs i) as [f|] eqn:Ef; [|apply nth_error_None in Ef; lia].
    specialize (F3 f eq_refl). apply Reqb_true in F3.
    assert (Sf : slot m added f).
    { destruct (In0 f (nth_error_In _ _ Ef)) as [I|I]; [left; auto|exfalso].
      destruct (B f I) as (k & Hk & Bk).
      apply (no_match k m added f); auto; try lia. right; auto. }
    destruct (Nat.eqb_spec i m) as [Em|Em].
    + exists fs. split; [reflexivity|]. exists added. split; [exact P|]. split; [lia|]. split; [lia|]. split.
      * intros g I. destruct (B g I) as (k & K1 & K2). exists k; split; auto; lia.
      * intros k Hk. destruct (Nat.eq_dec k m) as [->|Nk].
        -- exists f. rewrite <- Em. split; auto. rewrite Em; exact Sf.
        -- apply Sl. lia.
    + destruct (swap_some fs m i) as (l' & W1 & W2 & W3 & W4 & W5 & W6); [lia|lia|].
      exists l'. split; [exact W1|]. exists added.
      split; [eapply Permutation_trans; [apply Permutation_sym; exact W3|exact P]|].
      rewrite W2. split; [lia|]. split; [lia|]. split.
      * intros g I. destruct (B g I) as (k & K1 & K2). exists k; split; auto; lia.
      * intros k Hk. destruct (Nat.eq_dec k m) as [->|Nk].
        -- exists f. rewrite W4. auto.
        -- destruct (Sl k) as (h & S1 & S2); [lia|]. exists h. rewrite W6 by lia. auto.
Qed.

Lemma axial_loop_inv : exists fs, axial_loop ask mins maxs [0; 1; 2; 3; 4; 5]%nat fs0 = Some fs /\ axinv 6 fs.
Proof.
  assert (I0 : axinv 0 fs0).
  { exists []. rewrite app_nil_r. split; [apply Permutation_refl|]. split; [auto|]. split; [lia|]. split.
    - intros g [].
    - intros; lia. }
  destruct (axial_step_inv 0 fs0 ltac:(lia) I0) as (f1 & E1 & I1).
  destruct (axial_step_inv 1 f1 ltac:(lia) I1) as (f2 & E2 & I2).
  destruct (axial_step_inv 2 f2 ltac:(lia) I2) as (f3 & E3 & I3).
  destruct (axial_step_inv 3 f3 ltac:(lia) I3) as (f4 & E4 & I4).
  destruct (axial_step_inv 4 f4 ltac:(lia) I4) as (f5 & E5 & I5).
  destruct (axial_step_inv 5 f5 ltac:(lia) I5) as (f6 & E6 & I6).
  exists f6. split; [|exact I6].
  cbn [axial_loop]. rewrite E1, E2, E3, E4, E5, E6. reflexivity.
Qed.
End A.

(** ** Edge bevels *)
Section E.
Variable ask : list face -> plane -> plane.
Variable eps ne de : R.

Definition edge_bevel (base : list face) (g : face) : Prop :=
  is_bevel g /\ exists pre pl f a b axis dir,
    f_plane g = ask pre pl /\ incl base pre /\ forallb (passes eps ne de pl) pre = true /\
    In f base /\ In (a, b) (edges (f_winding f)) /\ f_tex g = f_tex f /\
    Rltb (len (sub a b)) (1 / 2) = false /\ axial_vec (snap ne (normalize (sub a b))) = false /\
    In (axis, dir) six /\ slanted ne a (snap ne (normalize (sub a b))) axis dir = Some pl.

(** fs' is fs and edge bevels *)
Definition grows (base fs fs' : list face) (n : nat) : Prop :=
  exists l, fs' = fs ++ l /\ (length l <= n)%nat /\ forall g, In g l -> edge_bevel base g.

Lemma grows_refl base fs : grows base fs fs 0.
Proof. exists []. rewrite app_nil_r. split; auto. split; [simpl; lia|]. intros g []. Qed.
Lemma grows_trans base a b c n m : grows base a b n -> grows base b c m -> grows base a c (n + m).
Proof.
  intros (l & -> & L1 & H1) (k & -> & L2 & H2). exists (l ++ k). rewrite app_assoc, app_length.
  split; auto. split; [lia|]. intros g I. apply in_app_or in I as [I|I]; auto.
Qed.
Lemma grows_le base a b n m : grows base a b n -> (n <= m)%nat -> grows base a b m.
Proof. intros (l & H1 & H2 & H3) L. exists l. split; auto. split; auto; lia. Qed.
Lemma grows_incl base a b n : grows base a b n -> incl a b.
Proof. intros (l & -> & _) x H. apply in_or_app; auto. Qed.

(** what is known of a plane that was tried *)
Definition covered (fs : list face) (pl : plane) : Prop :=
  (exists g, In g fs /\ same_plane ne de (f_plane g) pl = true) \/
  (exists g p, In g fs /\ In p (f_winding g) /\ eps < dist_to pl p) \/
  (exists g pre, In g fs /\ f_plane g = ask pre pl).
Lemma covered_incl fs fs' pl : incl fs fs' -> covered fs pl -> covered fs' pl.
Proof.
  intros I [(g & H1 & H2)|[(g & p & H1 & H2)|(g & pre & H1 & H2)]].
  - left; exists g; auto. - right; left; exists g, p; auto. - right; right; exists g, pre; auto.
Qed.

Lemma forallb_not (P : face -> bool) l : forallb P l = false -> exists x, In x l /\ P x = false.
Proof.
  induction l as [|y l IH]; simpl; [discriminate|]. intros H. apply andb_false_iff in H as [H|H].
  - exists y; auto. - destruct (IH H) as (x & X & Y). exists x; auto.
Qed.
Lemma forallb_notv (P : vec -> bool) l : forallb P l = false -> exists x, In x l /\ P x = false.
Proof.
  induction l as [|y l IH]; simpl; [discriminate|]. intros H. apply andb_false_iff in H as [H|H].
  - exists y; auto. - destruct (IH H) as (x & X & Y). exists x; auto.
Qed.

Lemma try_grows base f a b fs ad : In f base -> In (a, b) (edges (f_winding f)) ->
  Rltb (len (sub a b)) (1 / 2) = false -> axial_vec (snap ne (normalize (sub a b))) = false ->
  In ad six -> incl base fs ->
  grows base fs (bevel_try ask eps ne de f a (snap ne (normalize (sub a b))) fs ad) 1 /\
  (forall pl, slanted ne a (snap ne (normalize (sub a b))) (fst ad) (snd ad) = Some pl ->
     covered (bevel_try ask eps ne de f a (snap ne (normalize (sub a b))) fs ad) pl).
Proof.
  intros Hf He L A I B. destruct ad as [axis dir]. unfold bevel_try. cbn [fst snd].
  set (v := snap ne (normalize (sub a b))) in *.
  destruct (slanted ne a v axis dir) as [pl|] eqn:Sl.
  - destruct (forallb (passes eps ne de pl) fs) eqn:P.
    + split.
      * eexists. split; [reflexivity|]. split; [simpl; lia|]. intros g [<-|[]].
        split; [split; reflexivity|]. exists fs, pl, f, a, b, axis, dir. cbn [f_plane f_tex].
        split; [reflexivity|]. split; [exact B|]. split; [exact P|]. split; [exact Hf|]. split; [exact He|].
        split; [reflexivity|]. split; [exact L|]. split; [exact A|]. split; [exact I|]. exact Sl.
      * intros pl' E; injection E as <-. right; right.
        exists (mkF (ask fs pl) [] true (f_tex f)), fs. split; [|reflexivity].
        apply in_or_app; right; left; reflexivity.
    + split; [apply grows_le with 0%nat; [apply grows_refl|lia]|].
      intros pl' E; injection E as <-. apply forallb_not in P as (g & G1 & G2).
      unfold passes in G2. apply andb_false_iff in G2 as [G2|G2].
      * left. exists g. split; auto. apply negb_false_iff in G2. exact G2.
      * right; left. apply forallb_notv in G2 as (p & P1 & P2). exists g, p.
        split; auto. split; auto. apply negb_false_iff in P2. apply Rltb_true; exact P2.
  - split; [apply grows_le with 0%nat; [apply grows_refl|lia]|]. discriminate.
Qed.

Lemma tries_grow base f a b : forall l fs, In f base -> In (a, b) (edges (f_winding f)) ->
  Rltb (len (sub a b)) (1 / 2) = false -> axial_vec (snap ne (normalize (sub a b))) = false ->
  incl l six -> incl base fs ->
  grows base fs (fold_left (bevel_try ask eps ne de f a (snap ne (normalize (sub a b)))) l fs) (length l) /\
  (forall ad pl, In ad l -> slanted ne a (snap ne (normalize (sub a b))) (fst ad) (snd ad) = Some pl ->
     covered (fold_left (bevel_try ask eps ne de f a (snap ne (normalize (sub a b)))) l fs) pl).
Proof.
  induction l as [|ad l IH]; intros fs Hf He L A I B.
  - split; [apply grows_refl|]. intros ad pl [].
  - cbn [fold_left length].
    destruct (try_grows base f a b fs ad Hf He L A (I _ (or_introl eq_refl)) B) as [G C].
    set (fs1 := bevel_try ask eps ne de f a (snap ne (normalize (sub a b))) fs ad) in *.
    assert (B1 : incl base fs1) by (intros x X; apply (grows_incl _ _ _ _ G); auto).
    destruct (IH fs1 Hf He L A (fun x X => I x (or_intror X)) B1) as [G' C'].
    split; [apply (grows_trans _ _ _ _ 1 (length l) G G')|].
    intros ad' pl [<-|X] E.
    + apply (covered_incl fs1); [apply (grows_incl _ _ _ _ G')|]. apply C; exact E.
    + eapply C'; eauto.
Qed.

Lemma edge_grows base f a b fs : In f base -> In (a, b) (edges (f_winding f)) -> incl base fs ->
  grows base fs (bevel_edge ask eps ne de f fs (a, b)) 6 /\
  (forall ad pl, Rltb (len (sub a b)) (1 / 2) = false -> axial_vec (snap ne (normalize (sub a b))) = false ->
     In ad six -> slanted ne a (snap ne (normalize (sub a b))) (fst ad) (snd ad) = Some pl ->
     covered (bevel_edge ask eps ne de f fs (a, b)) pl).
Proof.
  intros Hf He B. unfold bevel_edge. cbn [fst snd]. cbv zeta.
  destruct (Rltb (len (sub a b)) (1 / 2)) eqn:L.
  - split; [apply grows_le with 0%nat; [apply grows_refl|lia]|]. discriminate.
  - destruct (axial_vec (snap ne (normalize (sub a b)))) eqn:A.
    + split; [apply grows_le with 0%nat; [apply grows_refl|lia]|]. discriminate.
    + destruct (tries_grow base f a b six fs Hf He L A (incl_refl _) B) as [G C].
      split; [exact G|]. intros ad pl _ _ I E. eapply C; eauto.
Qed.

Lemma edges_grow base f : In f base -> forall l fs, incl l (edges (f_winding f)) -> incl base fs ->
  grows base fs (fold_left (bevel_edge ask eps ne de f) l fs) (6 * length l) /\
  (forall a b ad pl, In (a, b) l -> Rltb (len (sub a b)) (1 / 2) = false ->
     axial_vec (snap ne (normalize (sub a b))) = false ->
     In ad six -> slanted ne a (snap ne (normalize (sub a b))) (fst ad) (snd ad) = Some pl ->
     covered (fold_left (bevel_edge ask eps ne de f) l fs) pl).
Proof.
  intros Hf. induction l as [|[a b] l IH]; intros fs I B.
  - split; [apply grows_refl|]. intros a b ad pl [].
  - cbn [fold_left length].
    destruct (edge_grows base f a b fs Hf (I _ (or_introl eq_refl)) B) as [G C].
    set (fs1 := bevel_edge ask eps ne de f fs (a, b)) in *.
    assert (B1 : incl base fs1) by (intros x X; apply (grows_incl _ _ _ _ G); auto).
    destruct (IH fs1 (fun x X => I x (or_intror X)) B1) as [G' C'].
    split.
    + replace (6 * S (length l))%nat with (6 + 6 * length l)%nat by lia. eapply grows_trans; eauto.
    + intros a' b' ad pl [X|X] L A Ad E.
      * injection X as <- <-. apply (covered_incl fs1); [apply (grows_incl _ _ _ _ G')|]. eapply C; eauto.
      * eapply C'; eauto.
Qed.

Lemma edges_length w : length (edges w) = length w.
Proof. destruct w as [|a l]; [reflexivity|]. unfold edges. rewrite combine_length, app_length; cbn [length]. lia. Qed.

Lemma face_grows base f fs : In f base -> incl base fs ->
  grows base fs (bevel_face ask eps ne de f fs) (6 * length (f_winding f)) /\
  (forall a b ad pl, In (a, b) (edges (f_winding f)) -> Rltb (len (sub a b)) (1 / 2) = false ->
     axial_vec (snap ne (normalize (sub a b))) = false ->
     In ad six -> slanted ne a (snap ne (normalize (sub a b))) (fst ad) (snd ad) = Some pl ->
     covered (bevel_face ask eps ne de f fs) pl).
Proof.
  intros Hf B. unfold bevel_face. rewrite <- (edges_length (f_winding f)).
  apply edges_grow; auto. apply incl_refl.
Qed.

Definition wsum (l : list face) : nat := list_sum (map (fun f => length (f_winding f)) l).
Lemma wsum_app a b : wsum (a ++ b) = (wsum a + wsum b)%nat.
Proof. unfold wsum. rewrite map_app. apply list_sum_app. Qed.
Lemma wsum_bevels base l : (forall g, In g l -> edge_bevel base g) -> wsum l = O.
Proof.
  induction l as [|g l IH]; intros H; [reflexivity|]. unfold wsum in *; simpl.
  destruct (H g (or_introl eq_refl)) as ((W & _) & _). rewrite W. simpl. apply IH. intros; apply H; right; auto.
Qed.
Lemma skipn_nth (l : list face) i f : nth_error l i = Some f -> skipn i l = f :: skipn (S i) l.
Proof. revert i. induction l as [|y l IH]; intros [|i] H; try discriminate; simpl in *; [congruence|]. apply IH; auto. Qed.

Lemma loop_grows base : forall fuel i fs, (exists l, fs = base ++ l /\ forall g, In g l -> edge_bevel base g) ->
  (i <= length fs)%nat -> (length fs - i + 6 * wsum (skipn i fs) < fuel)%nat ->
  exists fs', bevel_loop ask eps ne de fuel i fs = Some fs' /\
    (exists l, fs' = fs ++ l /\ forall g, In g l -> edge_bevel base g) /\
    (forall k f a b ad pl, (i <= k)%nat -> nth_error fs k = Some f -> In (a, b) (edges (f_winding f)) ->
       Rltb (len (sub a b)) (1 / 2) = false -> axial_vec (snap ne (normalize (sub a b))) = false ->
       In ad six -> slanted ne a (snap ne (normalize (sub a b))) (fst ad) (snd ad) = Some pl -> covered fs' pl).
Proof.
  induction fuel as [|fuel IH]; intros i fs (l0 & E0 & H0) Li F; [lia|].
  cbn [bevel_loop]. destruct (nth_error fs i) as [f|] eqn:N1.
  - assert (Hl : (i < length fs)%nat) by (apply nth_error_Some; congruence).
    rewrite (skipn_nth _ _ _ N1) in F. unfold wsum in F; cbn [map list_sum fold_right] in F.
    assert (Inb : incl base fs) by (subst fs; intros x X; apply in_or_app; auto).
    assert (Z : f_winding f = [] \/ In f base).
    { apply nth_error_In in N1. subst fs. apply in_app_or in N1 as [X|X]; auto.
      left. apply (H0 f X). }
    assert (G : exists l1, bevel_face ask eps ne de f fs = fs ++ l1 /\ (length l1 <= 6 * length (f_winding f))%nat /\
       (forall g, In g l1 -> edge_bevel base g) /\
       (forall a b ad pl, In (a, b) (edges (f_winding f)) -> Rltb (len (sub a b)) (1 / 2) = false ->
         axial_vec (snap ne (normalize (sub a b))) = false ->
         In ad six -> slanted ne a (snap ne (normalize (sub a b))) (fst ad) (snd ad) = Some pl ->
         covered (bevel_face ask eps ne de f fs) pl)).
    { destruct Z as [Z|Z].
      - exists []. unfold bevel_face. rewrite Z. cbn [edges fold_left]. rewrite app_nil_r.
        split; auto. split; [simpl; lia|]. split; [intros g []|intros a b ad pl []].
      - destruct (face_grows base f fs Z Inb) as [(l1 & G1 & G2 & G3) C]. exists l1. auto. }
    destruct G as (l1 & G1 & G2 & G3 & C).
    destruct (IH (S i) (bevel_face ask eps ne de f fs)) as (fs' & R1 & (l2 & R2 & R3) & R4).
    + exists (l0 ++ l1). rewrite G1, E0, app_assoc. split; auto.
      intros g X. apply in_app_or in X as [X|X]; auto.
    + rewrite G1, app_length. lia.
    + rewrite G1, app_length, skipn_app, wsum_app.
      rewrite (wsum_bevels base (skipn (S i - length fs) l1)).
      2:{ intros g X. apply G3. rewrite <- (firstn_skipn (S i - length fs) l1). apply in_or_app; auto. }
      unfold wsum. change (fold_right Nat.add 0%nat) with list_sum in F. lia.
    + exists fs'. split; [exact R1|]. split.
      * exists (l1 ++ l2). rewrite R2, G1, app_assoc. split; auto.
        intros g X. apply in_app_or in X as [X|X]; auto.
      * intros k h a b ad pl Hk Nk He L A I Sl.
        destruct (Nat.eq_dec k i) as [->|Nki].
        -- rewrite N1 in Nk; injection Nk as <-. apply (covered_incl (bevel_face ask eps ne de f fs)).
           ++ rewrite R2. intros x X. apply in_or_app; auto.
           ++ eapply C; eauto.
        -- eapply (R4 k h); eauto; [lia|]. rewrite G1. rewrite nth_error_app1; auto.
           apply nth_error_Some; congruence.
  - exists fs. split; [reflexivity|]. split; [exists []; rewrite app_nil_r; split; auto; intros g []|].
    intros k f a b ad pl Hk Nk. apply nth_error_None in N1.
    assert (k < length fs)%nat by (apply nth_error_Some; congruence). lia.
Qed.
End E.

(** ** The slanted planes *)
Lemma dot_nonneg v : 0 <= dot v v.
Proof. unfold dot. nra. Qed.
Lemma len_sq v : len v * len v = dot v v.
Proof. unfold len. apply sqrt_sqrt. apply dot_nonneg. Qed.
Lemma normalize_unit v : 0 < len v -> dot (normalize v) (normalize v) = 1.
Proof.
  intros L. unfold normalize. destruct (Req_EM_T (len v) 0); [lra|].
  pose proof (len_sq v) as E. unfold dot, scale in *; cbn [vx vy vz].
  set (k := len v) in *. clearbody k.
  replace (/ k * vx v * (/ k * vx v) + / k * vy v * (/ k * vy v) + / k * vz v * (/ k * vz v))
    with (/ k * / k * (vx v * vx v + vy v * vy v + vz v * vz v)) by ring.
  rewrite <- E. field. lra.
Qed.
Lemma normalize_dot v w : dot w v = 0 -> dot w (normalize v) = 0.
Proof.
  intros D. unfold normalize. destruct (Req_EM_T (len v) 0); [exact D|].
  unfold dot, scale in *; cbn [vx vy vz].
  replace (vx w * (/ len v * vx v) + vy w * (/ len v * vy v) + vz w * (/ len v * vz v))
    with (/ len v * (vx w * vx v + vy w * vy v + vz w * vz v)) by ring.
  rewrite D. ring.
Qed.
Lemma snap_id ne v : axial_vec (snap ne v) = false -> snap ne v = v.
Proof.
  assert (T : forall a, Reqb a a = true) by (intros; apply Reqb_true; reflexivity).
  unfold snap. repeat (match goal with |- context [if ?b then _ else _] => destruct b end);
  auto; unfold axial_vec; cbn [vx vy vz]; rewrite T; rewrite ?orb_true_r; intros; discriminate.
Qed.
Lemma slanted_geo ne a b axis dir pl : 0 < ne -> Rltb (len (sub a b)) (1 / 2) = false ->
  axial_vec (snap ne (normalize (sub a b))) = false ->
  slanted ne a (snap ne (normalize (sub a b))) axis dir = Some pl ->
  dot (p_n pl) (p_n pl) = 1 /\ dist_to pl a = 0 /\ dist_to pl b = 0 /\ dot (axis_vec axis dir) (p_n pl) = 0.
Proof.
  intros Hn L A Sl. apply Rltb_false in L. rewrite (snap_id _ _ A) in Sl. unfold slanted in Sl.
  set (n := cross (normalize (sub a b)) (axis_vec axis dir)) in *.
  destruct (Rltb (len n) ne) eqn:Ln; [discriminate|]. apply Rltb_false in Ln.
  injection Sl as <-. cbn [p_n p_d].
  assert (D1 : dot (axis_vec axis dir) n = 0) by (unfold n, cross, dot; cbn [vx vy vz]; ring).
  assert (D2 : dot (sub a b) n = 0).
  { unfold n, normalize. destruct (Req_EM_T (len (sub a b)) 0); [lra|].
    unfold cross, scale, dot; cbn [vx vy vz]. ring. }
  split; [apply normalize_unit; lra|]. split; [unfold dist_to; cbn [p_n p_d]; ring|]. split.
  - pose proof (normalize_dot n (sub a b) D2) as D. unfold dist_to; cbn [p_n p_d].
    unfold dot, sub in *; cbn [vx vy vz] in *. lra.
  - apply normalize_dot. exact D1.
Qed.

(** ** Expansion *)
Definition in_hull_box (lo hi q : vec) : Prop :=
  vx lo <= vx q <= vx hi /\ vy lo <= vy q <= vy hi /\ vz lo <= vz q <= vz hi.

Lemma corner1_max n lo hi x : lo <= x <= hi -> x * n <= corner1 n lo hi * n.
Proof.
  intros [H1 H2]. unfold corner1. destruct (Rltb 0 n) eqn:A; [apply Rltb_true in A; nra|].
  destruct (Rltb n 0) eqn:B; [apply Rltb_true in B; nra|].
  apply Rltb_false in A, B. assert (n = 0) by lra. subst. lra.
Qed.
Lemma corner_max n lo hi q : in_hull_box lo hi q -> dot q n <= dot (corner n lo hi) n.
Proof.
  intros (H1 & H2 & H3). unfold dot, corner; cbn [vx vy vz].
  pose proof (corner1_max (vx n) _ _ _ H1). pose proof (corner1_max (vy n) _ _ _ H2).
  pose proof (corner1_max (vz n) _ _ _ H3). lra.
Qed.
Lemma corner_in n lo hi : in_hull_box lo hi (mkV 0 0 0) -> in_hull_box lo hi (corner n lo hi).
Proof.
  intros (H1 & H2 & H3). cbn [vx vy vz] in *.
  unfold in_hull_box, corner; cbn [vx vy vz]; unfold corner1.
  repeat (match goal with |- context [if ?b then _ else _] => destruct b end); repeat split; lra.
Qed.

Lemma expand_dist lo hi pl p q : in_hull_box lo hi q -> dist_to (expanded lo hi pl) (add p q) <= dist_to pl p.
Proof.
  intros B. unfold dist_to, expanded; cbn [p_n p_d]. pose proof (corner_max (p_n pl) lo hi q B) as C.
  unfold dot, add in *; cbn [vx vy vz] in *. lra.
Qed.

Lemma expand_sides_spec ask no_expand lo hi : forall fs done,
  exists l, expand_sides ask no_expand lo hi done fs = done ++ l /\
    Forall2 (fun f s => exists pre, s = expand_side ask no_expand lo hi pre f) fs l.
Proof.
  induction fs as [|f r IH]; intros done; cbn [expand_sides].
  - exists []. rewrite app_nil_r. split; auto.
  - destruct (IH (done ++ [expand_side ask no_expand lo hi (done ++ f :: r) f])) as (l & E & F).
    exists (expand_side ask no_expand lo hi (done ++ f :: r) f :: l). split.
    + rewrite E, <- app_assoc. reflexivity.
    + constructor; [eexists; reflexivity|exact F].
Qed.
