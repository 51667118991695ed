(* Lemmas about SideOutModel. *)
From Coq Require Import Reals List ZArith Bool Arith Lra Lia.
From Verif Require Import WindClipModel WindClipProofs DecompModel DecompProofs SideOutModel.
Import ListNotations.
Open Scope R_scope.

Definition comp (n : vec) (k : nat) : R := match k with O => vx n | S O => vy n | _ => vz n end.
Lemma vec_eta a b : vx a = vx b -> vy a = vy b -> vz a = vz b -> a = b.
Proof. destruct a as [a1 a2 a3], b as [b1 b2 b3]. cbn [vx vy vz]. intros -> -> ->. reflexivity. Qed.
Lemma major_cases n : (major n = 0 \/ major n = 1 \/ major n = 2)%nat.
Proof. unfold major. destruct (Rlt_dec _ _); destruct (Rlt_dec _ _); auto. Qed.
Lemma major_largest n : Rabs (vx n) <= Rabs (comp n (major n)) /\ Rabs (vy n) <= Rabs (comp n (major n)) /\ Rabs (vz n) <= Rabs (comp n (major n)).
Proof. unfold major, comp. destruct (Rlt_dec _ _); destruct (Rlt_dec _ _); lra. Qed.
Lemma major_nonzero n : 0 < dot n n -> comp n (major n) <> 0.
Proof.
  intros D Z. destruct (major_largest n) as (A & B & C). rewrite Z, Rabs_R0 in A, B, C.
  assert (H : forall x, Rabs x <= 0 -> x = 0) by (intros x L; pose proof (Rabs_pos x); destruct (Req_dec x 0) as [E|E]; [exact E|apply Rabs_pos_lt in E; lra]).
  unfold dot in D. rewrite (H _ A), (H _ B), (H _ C) in D. lra.
Qed.
Lemma cross_axes n : cross (cross n (axis ((major n + 1) mod 3))) (cross n (axis ((major n + 2) mod 3))) = scale (comp n (major n)) n.
Proof. destruct (major_cases n) as [-> | [-> | ->]]; apply vec_eta; unfold cross, scale, axis, comp; simpl; ring. Qed.
Lemma tangents_ok n t b : 0 < dot n n -> tangents n = (t, b) -> exists k, 0 < k /\ cross t b = scale k n.
Proof.
  intros D H. unfold tangents in H. pose proof (cross_axes n) as C. revert H C. generalize (cross n (axis ((major n + 1) mod 3))) (cross n (axis ((major n + 2) mod 3))). intros t0 b0 H C. pose proof (major_nonzero n D) as NZ. rewrite C in H.
  assert (DD : dot (scale (comp n (major n)) n) n = comp n (major n) * dot n n) by (unfold dot, scale; cbn [vx vy vz]; ring). rewrite DD in H.
  destruct (Rlt_dec (comp n (major n) * dot n n) 0) as [L|L]; injection H as <- <-.
  - exists (- comp n (major n)). split.
    + destruct (Rlt_dec (comp n (major n)) 0) as [K|K]; [lra|]. assert (0 <= comp n (major n) * dot n n) by (apply Rmult_le_pos; lra). lra.
    + transitivity (scale (-1) (cross t0 b0)); [apply vec_eta; unfold cross, scale; cbn [vx vy vz]; ring|]. rewrite C. apply vec_eta; unfold scale; cbn [vx vy vz]; ring.
  - exists (comp n (major n)). split; [|exact C]. destruct (Rlt_dec 0 (comp n (major n))) as [K|K]; [exact K|]. exfalso. apply L.
    assert (N : comp n (major n) < 0) by lra. replace 0 with (0 * dot n n) by ring. apply Rmult_lt_compat_r; assumption.
Qed.
Lemma tangents_perp n t b : tangents n = (t, b) -> dot t n = 0 /\ dot b n = 0.
Proof. unfold tangents. intros H. destruct (Rlt_dec _ _); injection H as <- <-; unfold dot, cross; cbn [vx vy vz]; split; ring. Qed.
Lemma normalize_scaled k n : 0 < k -> dot n n = 1 -> normalize (scale k n) = n.
Proof.
  intros K U. unfold normalize, len. assert (D : dot (scale k n) (scale k n) = k * k) by (transitivity (k * k * dot n n); [unfold dot, scale; cbn [vx vy vz]; ring|rewrite U; ring]).
  rewrite D. rewrite sqrt_square by lra. destruct (Req_EM_T k 0); [lra|]. apply vec_eta; unfold scale; cbn [vx vy vz]; field; lra.
Qed.
Lemma points_back n d o : dot n n = 1 -> points_plane (moved o (three_points (mkPl n d))) = mkPl n (d + match o with None => 0 | Some o => dot n o end).
Proof.
  intros U. unfold three_points. cbn [p_n p_d]. destruct (tangents n) as [t b] eqn:T. destruct (tangents_ok n t b ltac:(lra) T) as (k & K & C). destruct (tangents_perp n t b T) as [PT PB].
  assert (X : forall p, cross (sub p (add p b)) (sub (add p t) (add p b)) = scale k n) by (intros p; rewrite <- C; apply vec_eta; unfold cross, sub, add; cbn [vx vy vz]; ring).
  assert (Y : forall p o, cross (sub (add p o) (add (add p b) o)) (sub (add (add p t) o) (add (add p b) o)) = scale k n) by (intros p q; rewrite <- C; apply vec_eta; unfold cross, sub, add; cbn [vx vy vz]; ring).
  unfold moved, points_plane. destruct o as [o|].
  - rewrite Y, (normalize_scaled k n K U). f_equal. transitivity (d * dot n n + dot b n + dot n o); [unfold dot, add, scale; cbn [vx vy vz]; ring|rewrite U, PB; ring].
  - rewrite X, (normalize_scaled k n K U). f_equal. transitivity (d * dot n n + dot b n); [unfold dot, add, scale; cbn [vx vy vz]; ring|rewrite U, PB; ring].
Qed.
Lemma len_zero v : len v = 0 -> v = mkV 0 0 0.
Proof.
  unfold len. intros H. assert (D : 0 <= dot v v) by (unfold dot; nra). apply sqrt_eq_0 in H; [|exact D]. destruct v as [x y z]. unfold dot in H. cbn [vx vy vz] in H.
  f_equal; nra.
Qed.
Lemma len_nonzero v : v <> mkV 0 0 0 -> 0 < len v.
Proof. intros N. pose proof (sqrt_pos (dot v v)) as P. fold (len v) in P. destruct (Req_dec (len v) 0) as [E|E]; [apply len_zero in E; contradiction|lra]. Qed.
Lemma normalize_one v : v <> mkV 0 0 0 -> dot (normalize v) (normalize v) = 1 /\ normalize v = scale (/ len v) v.
Proof.
  intros N. pose proof (len_nonzero v N) as L. unfold normalize. destruct (Req_EM_T (len v) 0); [lra|]. split; [|reflexivity].
  transitivity (/ len v * / len v * dot v v); [unfold dot, scale; cbn [vx vy vz]; ring|]. assert (Q : dot v v = len v * len v) by (unfold len; symmetry; apply sqrt_sqrt; unfold dot; nra). rewrite Q. field. lra.
Qed.

(** ** Names *)
Section names.
Context (skip dflt : Z).
Definition spec_best (best : option (R * Z)) (l : list (nat * (Z * vec))) (k : nat) (n : vec) (r : option (R * Z)) : Prop :=
  match r with
  | None => best = None /\ forall s, In s l -> fst s = k \/ fst (snd s) = skip
  | Some (d, nm) => (best = Some (d, nm) \/ exists s, In s l /\ fst s <> k /\ fst (snd s) = nm /\ nm <> skip /\ d = dot (scale (-1) n) (snd (snd s))) /\
      (forall s, In s l -> fst s <> k -> fst (snd s) <> skip -> dot (scale (-1) n) (snd (snd s)) <= d) /\
      (forall b x, best = Some (b, x) -> b <= d)
  end.
Lemma closer_spec k n : forall l best, spec_best best l k n (fold_left (closer skip k n) l best).
Proof.
  induction l as [|[j [nm m]] l IH]; intros best; cbn [fold_left].
  - unfold spec_best. destruct best as [[d x]|]; [|split; [reflexivity|intros s []]]. split; [left; reflexivity|]. split; [intros s []|]. intros b y E. injection E as <- _. lra.
  - specialize (IH (closer skip k n best (j, (nm, m)))). unfold spec_best in *. destruct (fold_left (closer skip k n) l _) as [[d x]|].
    + destruct IH as (A & B & C). unfold closer in A, C. destruct (Nat.eqb_spec j k) as [->|NJ].
      * split; [destruct A as [A|(s & I & H)]; [left; exact A|right; exists s; split; [right; exact I|exact H]]|]. split; [|exact C]. intros s [<-|I]; [cbn [fst]; contradiction|apply B; exact I].
      * destruct (Z.eqb_spec nm skip) as [->|NN].
        -- split; [destruct A as [A|(s & I & H)]; [left; exact A|right; exists s; split; [right; exact I|exact H]]|]. split; [|exact C]. intros s [<-|I]; [cbn [fst snd]; contradiction|apply B; exact I].
        -- cbn zeta in A, C. destruct best as [[b y]|].
           ++ destruct (Rlt_dec b (dot (scale (-1) n) m)) as [L|L].
              ** split; [destruct A as [A|(s & I & H)]; [injection A as <- <-; right; exists (j, (nm, m)); split; [left; reflexivity|]; auto|right; exists s; split; [right; exact I|exact H]]|]. specialize (C _ _ eq_refl). split; [|intros b' x' E; injection E as <- _; lra].
                 intros s [<-|I]; [intros _ _; cbn [snd]; exact C|apply B; exact I].
              ** split; [destruct A as [A|(s & I & H)]; [left; exact A|right; exists s; split; [right; exact I|exact H]]|]. specialize (C _ _ eq_refl). split; [|intros b' x' E; injection E as <- _; lra]. intros s [<-|I]; [intros _ _; cbn [snd]; lra|apply B; exact I].
           ++ split; [destruct A as [A|(s & I & H)]; [injection A as <- <-; right; exists (j, (nm, m)); split; [left; reflexivity|]; auto|right; exists s; split; [right; exact I|exact H]]|]. specialize (C _ _ eq_refl). split; [|intros b' x' E; discriminate E].
              intros s [<-|I]; [intros _ _; cbn [snd]; exact C|apply B; exact I].
    + destruct IH as (A & B). unfold closer in A. destruct (Nat.eqb_spec j k) as [->|NJ]; [split; [exact A|]; intros s [<-|I]; [left; reflexivity|apply B; exact I]|].
      destruct (Z.eqb_spec nm skip) as [->|NN]; [split; [exact A|]; intros s [<-|I]; [right; reflexivity|apply B; exact I]|]. cbn zeta in A. destruct best as [[b y]|]; [destruct (Rlt_dec _ _); discriminate A|discriminate A].
Qed.
(** The name is that of another named side with the most opposite normal, or the default if there is none. *)
Lemma closest_spec k n sides :
  (exists j nm m, j <> k /\ nth_error sides j = Some (nm, m) /\ nm <> skip /\ closest skip dflt k n sides = nm /\
     forall i nm' m', i <> k -> nth_error sides i = Some (nm', m') -> nm' <> skip -> dot (scale (-1) n) m' <= dot (scale (-1) n) m) \/
  ((forall j nm m, j <> k -> nth_error sides j = Some (nm, m) -> nm = skip) /\ closest skip dflt k n sides = dflt).
Proof.
  unfold closest. pose proof (closer_spec k n (combine (seq 0 (length sides)) sides) None) as H. unfold spec_best in H.
  destruct (fold_left (closer skip k n) (combine (seq 0 (length sides)) sides) None) as [[d nm]|].
  - left. destruct H as ([H|([j [nm' m]] & I & NJ & E & NS & D)] & B & _); [discriminate H|]. cbn [fst snd] in *. subst nm' d. apply in_combine_seq in I. rewrite Nat.sub_0_r in I. exists j, nm, m. split; [exact NJ|]. split; [apply I|]. split; [exact NS|]. split; [reflexivity|].
    intros i nm' m' NI E NS'. apply (B (i, (nm', m'))); [apply in_combine_seq; rewrite Nat.sub_0_r; split; [lia|exact E]|exact NI|exact NS'].
  - right. destruct H as [_ H]. split; [|reflexivity]. intros j nm m NJ E. destruct (H (j, (nm, m))) as [F|F]; [apply in_combine_seq; rewrite Nat.sub_0_r; split; [lia|exact E]|contradiction|exact F].
Qed.
(** Invariant of the pass: same normals, named sides as they were, replaced ones named by P. *)
Definition names_inv (P : Z -> Prop) (orig sides : list (Z * vec)) (k : nat) : Prop :=
  map snd sides = map snd orig /\
  forall i nm m, nth_error orig i = Some (nm, m) -> (nm <> skip -> nth_error sides i = Some (nm, m)) /\
    (nm = skip -> exists nm', nth_error sides i = Some (nm', m) /\ ((k <= i)%nat -> nm' = skip) /\ ((i < k)%nat -> P nm')).
Lemma map_snd_put k x (l : list (Z * vec)) nm n : nth_error l k = Some (nm, n) -> map snd (put k (x, n) l) = map snd l.
Proof. revert k. induction l as [|[a b] l IH]; intros [|k] E; cbn [put map] in *; try discriminate E; [injection E as -> ->; reflexivity|f_equal; apply IH; exact E]. Qed.
Lemma clean_inv (P : Z -> Prop) orig : (forall k nm n sides, names_inv P orig sides k -> nth_error sides k = Some (nm, n) -> nm = skip -> P (closest skip dflt k n sides)) ->
  forall todo k sides, names_inv P orig sides k -> (length orig <= k + todo)%nat -> names_inv P orig (clean skip dflt todo k sides) (length orig).
Proof.
  intros HP. induction todo as [|todo IH]; intros k sides I L; cbn [clean].
  - destruct I as [I1 I2]. split; [exact I1|]. intros i nm m E. destruct (I2 i nm m E) as [A B]. split; [exact A|]. intros S. destruct (B S) as (nm' & F & G & H). exists nm'. split; [exact F|]. assert (i < length orig)%nat by (apply nth_error_Some; congruence). split; [lia|]. intros _. apply H. lia.
  - assert (LN : length sides = length orig) by (destruct I as [I1 _]; apply (f_equal (@length vec)) in I1; rewrite !map_length in I1; exact I1).
    destruct (nth_error sides k) as [[nm n]|] eqn:N.
    + apply IH; [|lia]. destruct (Z.eqb_spec nm skip) as [E|E].
      * pose proof (HP k nm n sides I N E) as Q. destruct I as [I1 I2]. split; [rewrite (map_snd_put k _ sides nm n N); exact I1|]. intros i nm0 m F. destruct (I2 i nm0 m F) as [A B]. split.
        -- intros S. rewrite nth_put. destruct (Nat.eqb_spec i k) as [->|NE]; [|apply A; exact S]. exfalso. specialize (A S). rewrite N in A. injection A as A1 A2. congruence.
        -- intros S. destruct (B S) as (nm' & F1 & G & H). destruct (Nat.eq_dec i k) as [->|NE].
           ++ exists (closest skip dflt k n sides). rewrite nth_put, Nat.eqb_refl. assert (k < length sides)%nat by (apply nth_error_Some; congruence). replace (k <? length sides)%nat with true by (symmetry; apply Nat.ltb_lt; lia). cbn [andb]. rewrite N in F1. injection F1 as _ <-. split; [reflexivity|]. split; [lia|intros _; exact Q].
           ++ exists nm'. rewrite nth_put. replace (i =? k)%nat with false by (symmetry; apply Nat.eqb_neq; exact NE). cbn [andb]. split; [exact F1|]. split; [intros GE; apply G; lia|intros LT; apply H; lia].
      * destruct I as [I1 I2]. split; [exact I1|]. intros i nm0 m F. destruct (I2 i nm0 m F) as [A B]. split; [exact A|]. intros S. destruct (B S) as (nm' & F1 & G & H). exists nm'. split; [exact F1|]. split; [intros GE; apply G; lia|]. intros LT. destruct (Nat.eq_dec i k) as [->|NE]; [|apply H; lia]. exfalso. rewrite N in F1. injection F1 as F1 _. apply E. rewrite F1. apply G. lia.
    + apply nth_error_None in N. destruct I as [I1 I2]. split; [exact I1|]. intros i nm m E. destruct (I2 i nm m E) as [A B]. split; [exact A|]. intros S. destruct (B S) as (nm' & F & G & H). exists nm'. split; [exact F|]. assert (i < length orig)%nat by (apply nth_error_Some; congruence). split; [lia|]. intros _. apply H. lia.
Qed.
Lemma inv_begin P orig : names_inv P orig orig 0.
Proof. split; [reflexivity|]. intros i nm m E. split; [auto|]. intros ->. exists skip. split; [exact E|]. split; [reflexivity|lia]. Qed.
End names.
