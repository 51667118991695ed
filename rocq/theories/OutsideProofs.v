(* Proofs about outside filling. *)
From Coq Require Import List Arith NArith ZArith Bool Lia Sorted.
Import ListNotations.
From Verif Require Import TreeModel OutsideModel.

(* ------------------------------------------------------------------------------------------- *)
(** ** Breadth-first search *)

Section Bfs.
Variable nbr : nat -> list nat.

Fixpoint bfs (fuel : nat) (marks : nat -> option nat) (q : list (nat * nat)) : option (nat -> option nat) :=
  match q with
  | [] => Some marks
  | (v, d) :: q' =>
    match fuel with
    | O => None
    | S f => match marks v with
             | Some _ => bfs f marks q'
             | None => bfs f (fset marks v (Some d)) (q' ++ map (fun w => (w, d + 1)) (nbr v))
             end
    end
  end.

Inductive steps (starts : list nat) : nat -> nat -> Prop :=
| steps_0 : forall v, In v starts -> steps starts 0 v
| steps_S : forall k u v, steps starts k u -> In v (nbr u) -> steps starts (S k) v.

Definition dist_is (starts : list nat) (v d : nat) : Prop := steps starts d v /\ forall m, steps starts m v -> d <= m.

Definition le2 (a b : nat * nat) : Prop := snd a <= snd b.

Record binv (starts : list nat) (marks : nat -> option nat) (q : list (nat * nat)) : Prop := {
  b_sorted : StronglySorted le2 q;
  b_near : forall e e', In e q -> In e' q -> snd e <= S (snd e');
  b_steps : forall v d, In (v, d) q -> steps starts d v;
  b_dist : forall v d, marks v = Some d -> dist_is starts v d;
  b_next : forall u d w, marks u = Some d -> In w (nbr u) -> marks w <> None \/ In (w, d + 1) q;
  b_start : forall s, In s starts -> marks s <> None \/ In (s, 0) q }.

Lemma binv_queue : forall starts marks q, binv starts marks q ->
  forall m v, steps starts m v -> marks v = None -> exists w k, In (w, k) q /\ k <= m.
Proof.
  intros starts marks q I m v ST. induction ST as [v HV|k u v ST IH HV]; intro U.
  - destruct (b_start _ _ _ I v HV) as [H|H]; [congruence|]. exists v, 0. split; [exact H|lia].
  - destruct (marks u) as [d|] eqn:E.
    + destruct (b_next _ _ _ I u d v E HV) as [H|H]; [congruence|].
      exists v, (d + 1). split; [exact H|]. destruct (b_dist _ _ _ I u d E) as [_ M]. specialize (M k ST). lia.
    + destruct (IH eq_refl) as [w [j [J1 J2]]]. exists w, j. split; [exact J1|lia].
Qed.

Lemma sorted_app : forall q l d, StronglySorted le2 q -> (forall e, In e q -> snd e <= d) ->
  StronglySorted le2 (q ++ map (fun w : nat => (w, d)) l).
Proof.
  induction q as [|e q IH]; intros l d S H; cbn [app].
  - induction l as [|w l IHl]; cbn [map]; constructor; [exact IHl|].
    apply Forall_forall. intros x X. apply in_map_iff in X. destruct X as [y [<- _]]. unfold le2. cbn. lia.
  - inversion S as [|? ? S1 S2]. subst. constructor.
    + apply IH; [exact S1|]. intros x X. apply H. right. exact X.
    + apply Forall_forall. intros x X. apply in_app_or in X. destruct X as [X|X].
      * rewrite Forall_forall in S2. apply S2. exact X.
      * apply in_map_iff in X. destruct X as [y [<- _]]. unfold le2. cbn [snd]. apply H. left. reflexivity.
Qed.

Lemma binv_skip : forall starts marks v d q, binv starts marks ((v, d) :: q) -> marks v <> None -> binv starts marks q.
Proof.
  intros starts marks v d q [I1 I2 I3 I4 I5 I6] M. constructor.
  - inversion I1. assumption.
  - intros e e' H H'. apply I2; right; assumption.
  - intros w k H. apply I3. right. exact H.
  - exact I4.
  - intros u k w E H. destruct (I5 u k w E H) as [G|[G|G]]; auto. injection G as -> ->. auto.
  - intros s H. destruct (I6 s H) as [G|[G|G]]; auto. injection G as -> ->. auto.
Qed.

Lemma binv_visit : forall starts marks v d q, binv starts marks ((v, d) :: q) -> marks v = None ->
  binv starts (fset marks v (Some d)) (q ++ map (fun w => (w, d + 1)) (nbr v)).
Proof.
  intros starts marks v d q I M. pose proof (binv_queue _ _ _ I) as QQ. destruct I as [I1 I2 I3 I4 I5 I6].
  inversion I1 as [|? ? S1 S2]. subst. rewrite Forall_forall in S2.
  assert (UP : forall e, In e q -> snd e <= d + 1).
  { intros e H. specialize (I2 e (v, d) (or_intror H) (or_introl eq_refl)). cbn in I2. lia. }
  assert (LO : forall e, In e q -> d <= snd e) by (intros e H; apply (S2 e H)).
  assert (DV : dist_is starts v d).
  { split; [apply I3; left; reflexivity|]. intros m ST. destruct (QQ m v ST M) as [w [k [[W|W] K]]].
    - injection W as <- <-. exact K.
    - specialize (LO _ W). cbn in LO. lia. }
  assert (BD : forall e, In e (q ++ map (fun w => (w, d + 1)) (nbr v)) -> d <= snd e <= d + 1).
  { intros e H. apply in_app_or in H. destruct H as [H|H]; [auto|]. apply in_map_iff in H. destruct H as [w [<- _]]. cbn. lia. }
  constructor.
  - apply sorted_app; assumption.
  - intros e e' H H'. apply BD in H. apply BD in H'. lia.
  - intros w k H. apply in_app_or in H. destruct H as [H|H]; [apply I3; right; exact H|].
    apply in_map_iff in H. destruct H as [x [E H]]. injection E as <- <-. rewrite Nat.add_1_r. eapply steps_S; [|exact H]. apply DV.
  - intros w k. unfold fset. destruct (Nat.eqb_spec w v) as [->|NE]; [intro E; injection E as <-; exact DV|apply I4].
  - intros u k w. unfold fset. destruct (Nat.eqb_spec u v) as [->|NE].
    + intros E H. injection E as <-. right. apply in_or_app. right. apply in_map_iff. exists w. auto.
    + intros E H. destruct (I5 u k w E H) as [G|[G|G]].
      * left. destruct (w =? v); [discriminate|exact G].
      * injection G as -> ->. left. rewrite Nat.eqb_refl. discriminate.
      * right. apply in_or_app. left. exact G.
  - intros s H. unfold fset. destruct (I6 s H) as [G|[G|G]].
    + left. destruct (s =? v); [discriminate|exact G].
    + injection G as -> ->. left. rewrite Nat.eqb_refl. discriminate.
    + right. apply in_or_app. left. exact G.
Qed.

Definition todo (n : nat) (marks : nat -> option nat) : nat :=
  list_sum (map (fun v => match marks v with None => length (nbr v) | Some _ => 0 end) (seq 0 n)).

Lemma todo_visit : forall n marks v d, v < n -> marks v = None ->
  todo n marks = length (nbr v) + todo n (fset marks v (Some d)).
Proof.
  intros n marks v d L M. unfold todo.
  assert (G : forall k b, b <= v < b + k ->
    list_sum (map (fun x => match marks x with None => length (nbr x) | Some _ => 0 end) (seq b k)) =
    length (nbr v) + list_sum (map (fun x => match fset marks v (Some d) x with None => length (nbr x) | Some _ => 0 end) (seq b k))).
  { assert (SAME : forall k b, v < b \/ b + k <= v ->
      list_sum (map (fun x => match fset marks v (Some d) x with None => length (nbr x) | Some _ => 0 end) (seq b k)) =
      list_sum (map (fun x => match marks x with None => length (nbr x) | Some _ => 0 end) (seq b k))).
    { induction k as [|k IH]; intros b H; cbn [seq map list_sum fold_right]; [reflexivity|].
      unfold list_sum in IH. rewrite (IH (S b)) by lia. unfold fset. destruct (Nat.eqb_spec b v); [lia|reflexivity]. }
    induction k as [|k IH]; intros b H; [lia|].
    cbn [seq map list_sum fold_right]. destruct (Nat.eq_dec b v) as [->|NE].
    - unfold list_sum in SAME. rewrite (SAME k (S v)) by lia. rewrite M. unfold fset. rewrite Nat.eqb_refl. lia.
    - unfold list_sum in IH. rewrite (IH (S b)) by lia. unfold fset at 2. destruct (Nat.eqb_spec b v); [lia|]. lia. }
  rewrite (G n 0) by lia. reflexivity.
Qed.

Lemma bfs_spec : forall n starts, (forall v w, v < n -> In w (nbr v) -> w < n) ->
  forall fuel marks q, binv starts marks q -> (forall v d, In (v, d) q -> v < n) ->
  length q + todo n marks <= fuel ->
  exists marks', bfs fuel marks q = Some marks' /\ forall v,
    match marks' v with Some d => dist_is starts v d | None => forall m, ~ steps starts m v end.
Proof.
  intros n starts HN. induction fuel as [|f IH]; intros marks q I HQ F.
  - destruct q as [|e q]; [|cbn in F; lia]. exists marks. split; [reflexivity|]. intro v.
    destruct (marks v) eqn:E; [exact (b_dist _ _ _ I _ _ E)|]. intros m ST.
    destruct (binv_queue _ _ _ I m v ST E) as [w [k [[] _]]].
  - destruct q as [|[v d] q].
    + exists marks. split; [reflexivity|]. intro v.
      destruct (marks v) eqn:E; [exact (b_dist _ _ _ I _ _ E)|]. intros m ST.
      destruct (binv_queue _ _ _ I m v ST E) as [w [k [[] _]]].
    + cbn [bfs]. cbn [length] in F. assert (VN : v < n) by (apply (HQ v d); left; reflexivity).
      destruct (marks v) eqn:E.
      * apply IH; [eapply binv_skip; [exact I|congruence]|intros; eapply HQ; right; eassumption|lia].
      * apply IH.
        -- apply binv_visit; assumption.
        -- intros w k H. apply in_app_or in H. destruct H as [H|H]; [eapply HQ; right; exact H|].
           apply in_map_iff in H. destruct H as [x [X1 X2]]. injection X1 as <- _. eapply HN; eassumption.
        -- rewrite app_length, map_length. rewrite (todo_visit n marks v d VN E) in F. lia.
Qed.

Lemma binv_init : forall starts, binv starts (fun _ => None) (map (fun v => (v, 0)) starts).
Proof.
  intro starts. assert (Z0 : forall e, In e (map (fun v => (v, 0)) starts) -> snd e = 0 /\ In (fst e) starts).
  { intros e H. apply in_map_iff in H. destruct H as [x [<- X]]. auto. }
  constructor; try discriminate.
  - apply (sorted_app [] starts 0); [constructor|intros e []].
  - intros e e' H H'. apply Z0 in H. lia.
  - intros v d H. apply Z0 in H. cbn in H. destruct H as [-> H]. constructor. exact H.
  - intros s H. right. apply in_map_iff. eauto.
Qed.

Lemma bfs_all : forall n starts, (forall v w, v < n -> In w (nbr v) -> w < n) -> (forall v, In v starts -> v < n) ->
  exists marks, bfs (flood_fuel nbr n (length starts)) (fun _ => None) (map (fun v => (v, 0)) starts) = Some marks /\
  forall v, match marks v with Some d => dist_is starts v d | None => forall m, ~ steps starts m v end.
Proof.
  intros n starts H S. apply (bfs_spec n starts H); [apply binv_init| |].
  - intros v d I. apply in_map_iff in I. destruct I as [x [E I]]. injection E as <- _. auto.
  - rewrite map_length. unfold flood_fuel, todo. lia.
Qed.

(** The two loops of the code are this search. *)
Lemma occ_loop_bfs : forall fuel marks occ q, (forall v, occ v = match marks v with None => 0 | Some d => S d end) ->
  match bfs fuel marks q, occ_loop fuel nbr occ (map (fun e => (fst e, S (snd e))) q) with
  | Some m, Some o => forall v, o v = match m v with None => 0 | Some d => S d end
  | None, None => True
  | _, _ => False
  end.
Proof.
  induction fuel as [|f IH]; intros marks occ q H; destruct q as [|[v d] q]; cbn [bfs occ_loop map fst snd]; auto.
  pose proof (H v) as HV. destruct (marks v) as [k|]; rewrite HV; cbn [Nat.eqb]; [apply IH; exact H|].
  replace (map (fun e : nat * nat => (fst e, S (snd e))) q ++ map (fun w => (w, S d + 1)) (nbr v))
    with (map (fun e : nat * nat => (fst e, S (snd e))) (q ++ map (fun w => (w, d + 1)) (nbr v))).
  - apply IH. intro w. unfold fset. destruct (w =? v); [reflexivity|apply H].
  - rewrite map_app, map_map. reflexivity.
Qed.

Lemma void_loop_bfs : forall fuel marks visited outd q,
  (forall v, visited v = match marks v with None => false | Some _ => true end) ->
  (forall v, outd v = match marks v with None => (-1)%Z | Some d => Z.of_nat d end) ->
  match bfs fuel marks q, void_loop fuel nbr visited outd q with
  | Some m, Some o => forall v, o v = match m v with None => (-1)%Z | Some d => Z.of_nat d end
  | None, None => True
  | _, _ => False
  end.
Proof.
  induction fuel as [|f IH]; intros marks visited outd q H H2; destruct q as [|[v d] q]; cbn [bfs void_loop]; auto.
  pose proof (H v) as HV. destruct (marks v) as [k|]; rewrite HV; [apply IH; assumption|].
  apply IH; intro w; unfold fset; destruct (w =? v); auto.
Qed.

End Bfs.

(* ------------------------------------------------------------------------------------------- *)
(** ** Point location *)

(** The leafs whose closed region contains the point. *)
Fixpoint touching {P} (side : P -> comparison) (t : tree P nat) : list nat :=
  match t with
  | Leaf l => [l]
  | Node p a b => match side p with Gt => touching side a | Lt => touching side b | Eq => touching side a ++ touching side b end
  end.

Lemma point_in_leaf_spec : forall P (side : P -> comparison) kind prefer t,
  In (point_in_leaf side kind prefer t) (touching side t) /\
  ((exists l, In l (touching side t) /\ kind l = prefer) -> kind (point_in_leaf side kind prefer t) = prefer).
Proof.
  intros P side kind prefer. induction t as [l|p a IHa b IHb]; cbn [point_in_leaf touching].
  - split; [left; reflexivity|]. intros [l' [[<-|[]] H]]. exact H.
  - destruct (side p).
    + cbv zeta. destruct IHa as [A1 A2], IHb as [B1 B2].
      destruct (Bool.eqb prefer (kind (point_in_leaf side kind prefer a))) eqn:E.
      * apply eqb_prop in E. split; [apply in_or_app; left; exact A1|intros _; auto].
      * apply eqb_false_iff in E. split; [apply in_or_app; right; exact B1|].
        intros [l [I K]]. apply in_app_or in I. destruct I as [I|I].
        -- exfalso. apply E. symmetry. apply A2. exists l. auto.
        -- apply B2. exists l. auto.
    + exact IHb.
    + exact IHa.
Qed.

Lemma point_in_leaf_in : forall P (side : P -> comparison) kind prefer t, In (point_in_leaf side kind prefer t) (tleafs t).
Proof.
  intros P side kind prefer. induction t as [l|p a IHa b IHb]; cbn [point_in_leaf tleafs]; [left; reflexivity|].
  apply in_or_app. destruct (side p); auto. cbv zeta. destruct (Bool.eqb _ _); auto.
Qed.

(* ------------------------------------------------------------------------------------------- *)
(** ** Portal graphs *)

(** Every leaf's portal list holds portals of the leaf; a portal on a node joins two different
    leafs and is in the list of both; the first portal of the outside node joins it to a leaf. *)
Definition graph_ok (g : pgraph) : Prop :=
  (forall v p, v < pg_leafs g -> In p (pg_chain g v) -> gp_on (pg_portal g p) = true ->
     exists w, w < pg_leafs g /\ w <> v /\ In p (pg_chain g w) /\
     (gp_n0 (pg_portal g p) = Some v /\ gp_n1 (pg_portal g p) = Some w \/
      gp_n0 (pg_portal g p) = Some w /\ gp_n1 (pg_portal g p) = Some v)) /\
  (exists p r f, pg_outside g = p :: r /\ f < pg_leafs g /\
     (gp_n0 (pg_portal g p) = None /\ gp_n1 (pg_portal g p) = Some f \/
      gp_n0 (pg_portal g p) = Some f /\ gp_n1 (pg_portal g p) = None)).

(** A portal of [v]'s list leading to [w]. *)
Definition leads (g : pgraph) (v p w : nat) : Prop :=
  In p (pg_chain g v) /\
  (gp_n0 (pg_portal g p) = Some v /\ gp_n1 (pg_portal g p) = Some w \/
   gp_n0 (pg_portal g p) = Some w /\ gp_n1 (pg_portal g p) = Some v).

(** A sequence of portals, each allowed by [ok], from leaf [v] to leaf [w]. *)
Fixpoint path (ok : nat -> Prop) (g : pgraph) (v : nat) (ps : list nat) (w : nat) : Prop :=
  match ps with
  | [] => v = w
  | p :: r => ok p /\ exists u, leads g v p u /\ path ok g u r w
  end.

Section Graph.
Variable pass : gportal -> bool.
Variable g : pgraph.
Hypothesis GO : graph_ok g.
Hypothesis PON : forall p, pass p = true -> gp_on p = true.

Let ok (p : nat) : Prop := pass (pg_portal g p) = true.

Lemma pushed_in : forall v ps w, In w (pushed pass g v ps) <->
  exists p, In p ps /\ pass (pg_portal g p) = true /\ across (pg_portal g p) v = Some w.
Proof.
  intros v. induction ps as [|p ps IH]; intro w; cbn [pushed In].
  - split; [tauto|]. intros [p [[] _]].
  - destruct (pass (pg_portal g p)) eqn:E.
    + destruct (across (pg_portal g p) v) as [u|] eqn:A.
      * cbn [In]. rewrite IH. split.
        -- intros [<-|[q [Q1 [Q2 Q3]]]]; [exists p; auto|exists q; auto].
        -- intros [q [[<-|Q1] [Q2 Q3]]]; [left; congruence|right; exists q; auto].
      * rewrite IH. split.
        -- intros [q [Q1 [Q2 Q3]]]; exists q; auto.
        -- intros [q [[<-|Q1] [Q2 Q3]]]; [congruence|exists q; auto].
    + rewrite IH. split.
      * intros [q [Q1 [Q2 Q3]]]; exists q; auto.
      * intros [q [[<-|Q1] [Q2 Q3]]]; [congruence|exists q; auto].
Qed.

Lemma across_leads : forall v p w, v < pg_leafs g -> In p (pg_chain g v) -> ok p ->
  (across (pg_portal g p) v = Some w <-> leads g v p w).
Proof.
  intros v p w L I O. destruct GO as [G _]. destruct (G v p L I (PON _ O)) as [u [U1 [U2 [U3 U4]]]]. unfold across, leads, is_node.
  destruct U4 as [[A B]|[A B]]; rewrite A, B.
  - rewrite Nat.eqb_refl. split; [intro E; injection E as <-; auto|]. intros [_ [[_ E]|[E1 E2]]]; [exact E|congruence].
  - destruct (Nat.eqb_spec u v); [contradiction|]. split; [intro E; injection E as <-; auto|].
    intros [_ [[E1 E2]|[E1 E2]]]; congruence.
Qed.

Lemma leads_lt : forall v p w, v < pg_leafs g -> ok p -> leads g v p w -> w < pg_leafs g /\ w <> v /\ leads g w p v.
Proof.
  intros v p w L O [I E]. destruct GO as [G _]. destruct (G v p L I (PON _ O)) as [u [U1 [U2 [U3 U4]]]].
  assert (w = u) by (destruct E as [[E1 E2]|[E1 E2]], U4 as [[F1 F2]|[F1 F2]]; congruence). subst u.
  split; [exact U1|]. split; [exact U2|]. split; [exact U3|]. tauto.
Qed.

Lemma neighbours_in : forall v w, v < pg_leafs g -> (In w (neighbours pass g v) <-> exists p, ok p /\ leads g v p w).
Proof.
  intros v w L. unfold neighbours. rewrite pushed_in. split.
  - intros [p [I [O A]]]. exists p. split; [exact O|]. apply across_leads; assumption.
  - intros [p [O LD]]. exists p. split; [apply LD|]. split; [exact O|]. apply across_leads; [exact L|apply LD|exact O|exact LD].
Qed.

Lemma neighbours_lt : forall v w, v < pg_leafs g -> In w (neighbours pass g v) -> w < pg_leafs g.
Proof. intros v w L I. apply neighbours_in in I; [|exact L]. destruct I as [p [O LD]]. eapply leads_lt; eassumption. Qed.

Lemma path_app : forall ps qs u v w, path ok g u ps v -> path ok g v qs w -> path ok g u (ps ++ qs) w.
Proof.
  induction ps as [|p ps IH]; intros qs u v w A B; cbn [path app] in *; [subst; exact B|].
  destruct A as [A1 [x [A2 A3]]]. split; [exact A1|]. exists x. split; [exact A2|]. eapply IH; eassumption.
Qed.

Lemma path_rev : forall ps u v, u < pg_leafs g -> path ok g u ps v -> v < pg_leafs g /\ path ok g v (rev ps) u.
Proof.
  induction ps as [|p ps IH]; intros u v L A; cbn [path rev] in *; [subst; auto|].
  destruct A as [A1 [x [A2 A3]]]. destruct (leads_lt u p x L A1 A2) as [X1 [X2 X3]].
  destruct (IH x v X1 A3) as [V1 V2]. split; [exact V1|]. eapply path_app; [exact V2|].
  cbn [path]. split; [exact A1|]. exists u. auto.
Qed.

Lemma steps_path : forall starts, (forall v, In v starts -> v < pg_leafs g) ->
  forall k v, steps (neighbours pass g) starts k v <-> exists s ps, In s starts /\ length ps = k /\ path ok g s ps v.
Proof.
  intros starts HS k v. split.
  - intro ST. induction ST as [v I|k u v ST IH I]; [exists v, []; cbn; auto|].
    destruct IH as [s [ps [I1 [I2 I3]]]].
    assert (U : u < pg_leafs g) by (eapply path_rev; [apply HS; exact I1|exact I3]).
    apply neighbours_in in I; [|exact U]. destruct I as [p [O LD]].
    exists s, (ps ++ [p]). split; [exact I1|]. split; [rewrite app_length; cbn; lia|].
    eapply path_app; [exact I3|]. cbn [path]. split; [exact O|]. exists v. auto.
  - intros [s [ps [I1 [<- I3]]]]. revert v I3. induction ps as [|p ps IH] using rev_ind; intros v I3.
    + cbn in I3. subst. constructor. exact I1.
    + rewrite app_length, Nat.add_1_r. 
      assert (SPLIT : forall qs a, path ok g a (qs ++ [p]) v -> exists u, path ok g a qs u /\ ok p /\ leads g u p v).
      { induction qs as [|x qs IHq]; intros a A; cbn [app path] in A.
        - destruct A as [A1 [y [A2 A3]]]. subst y. exists a. cbn. auto.
        - destruct A as [A1 [y [A2 A3]]]. destruct (IHq y A3) as [u [U1 [U2 U3]]]. exists u. cbn [path]. split; [split; [exact A1|]; exists y; auto|auto]. }
      destruct (SPLIT ps s I3) as [u [U1 [U2 U3]]].
      assert (U : u < pg_leafs g) by (eapply path_rev; [apply HS; exact I1|exact U1]).
      cbn [length]. eapply steps_S; [apply IH; exact U1|]. apply neighbours_in; [exact U|]. eauto.
Qed.

(** [d] is the least number of portals from a start leaf. *)
Definition nearest (starts : list nat) (v d : nat) : Prop :=
  (exists s ps, In s starts /\ length ps = d /\ path ok g s ps v) /\
  forall s ps, In s starts -> path ok g s ps v -> d <= length ps.
Definition unreachable (starts : list nat) (v : nat) : Prop := forall s ps, In s starts -> ~ path ok g s ps v.

Lemma dist_nearest : forall starts, (forall v, In v starts -> v < pg_leafs g) -> forall v d,
  dist_is (neighbours pass g) starts v d -> nearest starts v d.
Proof.
  intros starts HS v d [A B]. split; [apply steps_path; assumption|]. intros s ps I P. apply B. apply steps_path; eauto.
Qed.

Lemma flood_occupied_spec : forall starts, (forall v, In v starts -> v < pg_leafs g) ->
  exists occ, flood_occupied pass g starts = Some occ /\ forall v,
    (occ v = 0 /\ unreachable starts v) \/ exists d, occ v = S d /\ nearest starts v d.
Proof.
  intros starts HS. destruct (bfs_all (neighbours pass g) (pg_leafs g) starts neighbours_lt HS) as [m [E M]].
  pose proof (occ_loop_bfs (neighbours pass g) (flood_fuel (neighbours pass g) (pg_leafs g) (length starts))
    (fun _ => None) (fun _ => 0) (map (fun v => (v, 0)) starts) (fun _ => eq_refl)) as H.
  rewrite E in H. rewrite map_map in H. cbn [fst snd] in H. unfold flood_occupied.
  destruct (occ_loop _ _ _ _) as [o|]; [|contradiction]. exists o. split; [reflexivity|]. intro v. specialize (M v). rewrite (H v).
  destruct (m v) as [d|].
  - right. exists d. split; [reflexivity|]. apply dist_nearest; assumption.
  - left. split; [reflexivity|]. intros s ps I P. apply (M (length ps)). apply steps_path; eauto.
Qed.

Lemma flood_void_spec : forall f, f < pg_leafs g ->
  exists outd, flood_void pass g f = Some outd /\ forall v,
    (outd v = (-1)%Z /\ unreachable [f] v) \/ exists d, outd v = Z.of_nat d /\ nearest [f] v d.
Proof.
  intros f HF. assert (HS : forall v, In v [f] -> v < pg_leafs g) by (intros v [<-|[]]; exact HF).
  destruct (bfs_all (neighbours pass g) (pg_leafs g) [f] neighbours_lt HS) as [m [E M]].
  pose proof (void_loop_bfs (neighbours pass g) (flood_fuel (neighbours pass g) (pg_leafs g) 1)
    (fun _ => None) (fun _ => false) (fun _ => (-1)%Z) [(f, 0)] (fun _ => eq_refl) (fun _ => eq_refl)) as H.
  cbn [length map] in E. rewrite E in H. unfold flood_void.
  destruct (void_loop _ _ _ _ _) as [o|]; [|contradiction]. exists o. split; [reflexivity|]. intro v. specialize (M v). rewrite (H v).
  destruct (m v) as [d|].
  - right. exists d. split; [reflexivity|]. apply dist_nearest; assumption.
  - left. split; [reflexivity|]. intros s ps I P. apply (M (length ps)). apply steps_path; eauto.
Qed.

(* ------------------------------------------------------------------------------------------- *)
(** ** Walking back *)

(** What both walks need of their field: [lo] more than the distance from [starts]. *)
Variable starts : list nat.
Hypothesis HS : forall v, In v starts -> v < pg_leafs g.
Variable val : nat -> Z.
Variable lo : Z.
Hypothesis VAL : forall v, ((val v < lo)%Z /\ unreachable starts v) \/ exists d, val v = (lo + Z.of_nat d)%Z /\ nearest starts v d.

Lemma best_step_spec : forall v, v < pg_leafs g -> (lo <= val v)%Z -> forall ps best bv,
  (forall p, In p ps -> In p (pg_chain g v)) ->
  (bv <= val v)%Z -> match best with Some (w, p) => ok p /\ leads g v p w /\ bv = val w /\ (bv < val v)%Z | None => bv = val v end ->
  exists r, best_step pass g val lo v ps best bv = A_ok r /\
  match r with
  | Some (w, p) => ok p /\ leads g v p w /\ (val w < val v)%Z
  | None => best = None /\ forall p w, In p ps -> ok p -> leads g v p w -> (val v <= val w)%Z
  end.
Proof.
  intros v L LO. induction ps as [|p ps IH]; intros best bv SUB BV BB; cbn [best_step].
  - exists best. split; [reflexivity|]. destruct best as [[w p]|]; [destruct BB as [B1 [B2 [B3 B4]]]; rewrite <- B3; auto|].
    split; [reflexivity|]. intros p w [].
  - assert (IP : In p (pg_chain g v)) by (apply SUB; left; reflexivity).
    assert (SUB' : forall q, In q ps -> In q (pg_chain g v)) by (intros q Q; apply SUB; right; exact Q).
    destruct (pass (pg_portal g p)) eqn:O.
    + assert (AC : exists w, across (pg_portal g p) v = Some w /\ leads g v p w).
      { destruct GO as [G _]. destruct (G v p L IP (PON _ O)) as [u [U1 [U2 [U3 U4]]]]. exists u.
        assert (LD : leads g v p u) by (split; assumption). split; [apply across_leads; assumption|exact LD]. }
      destruct AC as [w [A LD]]. rewrite A. destruct (leads_lt v p w L O LD) as [WL [WN _]].
      destruct (Nat.eqb_spec w v); [contradiction|].
      assert (VW : (lo <= val w)%Z).
      { destruct (VAL w) as [[_ UN]|[d [D1 _]]]; [|lia]. exfalso.
        destruct (VAL v) as [[V1 _]|[d [D1 [[s [qs [S1 [S2 S3]]]] _]]]]; [lia|].
        apply (UN s (qs ++ [p]) S1). eapply path_app; [exact S3|]. cbn [path]. split; [exact O|]. exists w. auto. }
      destruct (Z.ltb_spec (val w) lo); [lia|].
      destruct (Z.ltb_spec (val w) bv) as [LT|GE].
      * destruct (IH (Some (w, p)) (val w) SUB') as [r [R1 R2]]; [lia|cbn beta iota; split; [exact O|]; split; [exact LD|]; split; [reflexivity|lia]|].
        exists r. split; [exact R1|]. destruct r as [[w' p']|]; [exact R2|]. destruct R2 as [R2 _]. discriminate.
      * destruct (IH best bv SUB' BV BB) as [r [R1 R2]]. exists r. split; [exact R1|]. destruct r as [[w' p']|]; [exact R2|].
        destruct R2 as [R2 R3]. split; [exact R2|]. intros q x [<-|Q] QO QL; [|eauto].
        subst best. apply across_leads in QL; [|assumption..]. assert (x = w) by congruence. subst x. lia.
    + destruct (IH best bv SUB' BV BB) as [r [R1 R2]]. exists r. split; [exact R1|]. destruct r as [[w' p']|]; [exact R2|].
      destruct R2 as [R2 R3]. split; [exact R2|]. intros q x [<-|Q] QO QL; [unfold ok in QO; congruence|eauto].
Qed.

Lemma path_split_last : forall ps p a v, path ok g a (ps ++ [p]) v -> exists u, path ok g a ps u /\ ok p /\ leads g u p v.
Proof.
  induction ps as [|x qs IHq]; intros p a v A; cbn [app path] in A.
  - destruct A as [A1 [y [A2 A3]]]. subst y. exists a. cbn. auto.
  - destruct A as [A1 [y [A2 A3]]]. destruct (IHq p y v A3) as [u [U1 [U2 U3]]]. exists u. cbn [path]. split; [split; [exact A1|]; exists y; auto|auto].
Qed.

Lemma descend_spec : forall fuel v d, v < pg_leafs g -> val v = (lo + Z.of_nat d)%Z -> d <= fuel ->
  exists line e, descend fuel pass g val lo v = A_ok (line, e) /\ In e starts /\ path ok g v line e /\ length line = d.
Proof.
  induction fuel as [|f IH]; intros v d L V D; cbn [descend].
  - destruct (Z.eqb_spec (val v) lo); [|lia]. exists [], v. split; [reflexivity|].
    assert (d = 0) by lia. subst d.
    destruct (VAL v) as [[V1 _]|[k [K1 [[s [qs [S1 [S2 S3]]]] _]]]]; [lia|].
    assert (k = 0) by lia. subst k. destruct qs; [|discriminate]. cbn in S3. subst s. cbn. auto.
  - destruct (Z.eqb_spec (val v) lo) as [EQ|NE].
    + exists [], v. split; [reflexivity|]. assert (d = 0) by lia. subst d.
      destruct (VAL v) as [[V1 _]|[k [K1 [[s [qs [S1 [S2 S3]]]] _]]]]; [lia|].
      assert (k = 0) by lia. subst k. destruct qs; [|discriminate]. cbn in S3. subst s. cbn. auto.
    + destruct (VAL v) as [[V1 _]|[k [K1 [[s [qs [S1 [S2 S3]]]] KM]]]]; [lia|].
      assert (KD : k = d) by lia. rewrite KD in *. clear KD k. destruct d as [|d]; [lia|].
      destruct (best_step_spec v L ltac:(lia) (pg_chain g v) None (val v) (fun _ H => H) ltac:(lia) eq_refl) as [r [R1 R2]].
      rewrite R1.
      (* a predecessor at distance d exists *)
      assert (PRE : exists p u, ok p /\ leads g v p u /\ (val u < val v)%Z).
      { destruct (exists_last (l := qs)) as [qs0 [q EQ]]; [intros ->; discriminate|]. subst qs. rename qs0 into qs.
        destruct (path_split_last qs q s v S3) as [u [U1 [U2 U3]]].
        assert (UL : u < pg_leafs g) by (eapply path_rev; [apply HS; exact S1|exact U1]).
        destruct (leads_lt u q v UL U2 U3) as [_ [_ LR]]. exists q, u. split; [exact U2|]. split; [exact LR|].
        rewrite app_length in S2. cbn in S2.
        destruct (VAL u) as [[X1 X2]|[k [X1 [_ X2]]]]; [exfalso; eapply X2; eassumption|].
        specialize (X2 s qs S1 U1). lia. }
      destruct r as [[w p]|].
      * destruct R2 as [O [LD LT]]. destruct (leads_lt v p w L O LD) as [WL [_ LR]].
        destruct (VAL w) as [[X1 X2]|[k [X1 [[s' [qs' [X2 [X3 X4]]]] X5]]]].
        -- exfalso. apply (X2 s (qs ++ [p]) S1). eapply path_app; [exact S3|]. cbn [path]. split; [exact O|]. exists w. auto.
        -- assert (KD : k = d).
           { assert (S d <= length (qs' ++ [p])).
             { apply (KM s'); [exact X2|]. eapply path_app; [exact X4|]. cbn [path]. split; [exact O|]. exists v. auto. }
             rewrite app_length in H. cbn in H. lia. }
           rewrite KD in X1. destruct (IH w d WL X1 ltac:(lia)) as [line [e [E1 [E2 [E3 E4]]]]]. rewrite E1.
           exists (p :: line), e. split; [reflexivity|]. split; [exact E2|]. split; [|cbn; lia].
           cbn [path]. split; [exact O|]. exists w. auto.
      * destruct R2 as [_ R2]. destruct PRE as [p [u [P1 [P2 P3]]]]. specialize (R2 p u (proj1 P2) P1 P2). lia.
Qed.

End Graph.

(* ------------------------------------------------------------------------------------------- *)
(** ** Entities *)

Section Ents.
Context {C P : Type}.
Variable seals : C -> bool.
Variable contents : nat -> C.
Variable prefer : bool.
Variable t : tree P nat.

Notation loc := (fun e => point_in_leaf (fe_side P e) (fun v => seals (contents v)) prefer t).

(** Entity [e] counts: not at the origin, not exempt, not inside a sealing leaf. *)
Definition counts (e : fent P) : Prop :=
  fe_zero _ e = false /\ fe_nofill _ e = false /\ seals (contents (loc e)) = false.

Lemma mark_occupied_spec : forall es i occ,
  (forall v j, occ v = Some j -> mark_occupied seals contents prefer t i es occ v = Some j) /\
  (forall v j, mark_occupied seals contents prefer t i es occ v = Some j ->
     occ v = Some j \/ (i <= j /\ exists e, nth_error es (j - i) = Some e /\ counts e /\ loc e = v)) /\
  (forall e, In e es -> counts e -> mark_occupied seals contents prefer t i es occ (loc e) <> None).
Proof.
  induction es as [|e es IH]; intros i occ; cbn [mark_occupied].
  - split; [auto|]. split; [auto|]. intros e [].
  - assert (SHIFT : forall j v, (S i <= j /\ exists e0, nth_error es (j - S i) = Some e0 /\ counts e0 /\ loc e0 = v) ->
      (i <= j /\ exists e0, nth_error (e :: es) (j - i) = Some e0 /\ counts e0 /\ loc e0 = v)).
    { intros j v [A [e0 B]]. split; [lia|]. exists e0. replace (j - i) with (S (j - S i)) by lia. exact B. }
    destruct (fe_zero P e || fe_nofill P e) eqn:Z.
    + destruct (IH (S i) occ) as [A [B D]]. split; [exact A|]. split.
      * intros v j H. destruct (B v j H) as [H'|H']; auto.
      * intros e0 [<-|I] CE; [|auto]. destruct CE as [C1 [C2 _]]. rewrite C1, C2 in Z. discriminate.
    + apply orb_false_iff in Z. destruct Z as [Z1 Z2]. cbv zeta.
      destruct (seals (contents (loc e))) eqn:SE.
      * destruct (IH (S i) occ) as [A [B D]]. split; [exact A|]. split.
        -- intros v j H. destruct (B v j H) as [H'|H']; auto.
        -- intros e0 [<-|I] CE; [|auto]. destruct CE as [_ [_ C3]]. cbn beta in C3. congruence.
      * destruct (occ (loc e)) as [k|] eqn:OC.
        -- destruct (IH (S i) occ) as [A [B D]]. split; [exact A|]. split.
           ++ intros v j H. destruct (B v j H) as [H'|H']; auto.
           ++ intros e0 [<-|I] CE; [|auto]. cbn beta. rewrite (A _ _ OC). discriminate.
        -- destruct (IH (S i) (fset occ (loc e) (Some i))) as [A [B D]]. split; [|split].
           ++ intros v j H. apply A. unfold fset. destruct (Nat.eqb_spec v (loc e)) as [->|_]; [cbn beta in *; congruence|exact H].
           ++ intros v j H. destruct (B v j H) as [H'|H']; [|auto]. unfold fset in H'.
              destruct (Nat.eqb_spec v (loc e)) as [->|_]; [|auto]. injection H' as <-. right. split; [lia|].
              exists e. rewrite Nat.sub_diag. split; [reflexivity|]. split; [|reflexivity]. split; [exact Z1|]. split; [exact Z2|exact SE].
           ++ intros e0 [<-|I] CE; [|auto]. cbn beta.
              rewrite (A (loc e) i) by (unfold fset; rewrite Nat.eqb_refl; reflexivity). discriminate.
Qed.

(** The start leafs are those of the counting entities. *)
Lemma starts_spec : forall es v,
  In v (find_occupied t (mark_occupied seals contents prefer t 1 es (fun _ => None))) <->
  exists e, In e es /\ counts e /\ loc e = v.
Proof.
  intros es v. unfold find_occupied. rewrite filter_In.
  destruct (mark_occupied_spec es 1 (fun _ => None)) as [_ [B D]]. split.
  - intros [_ H]. destruct (mark_occupied _ _ _ _ _ _ _ v) as [j|] eqn:E; [|discriminate].
    destruct (B v j E) as [X|[_ [e [E1 [E2 E3]]]]]; [discriminate|]. exists e. split; [eapply nth_error_In; exact E1|auto].
  - intros [e [I [CE <-]]]. split; [apply point_in_leaf_in|]. specialize (D e I CE).
    destruct (mark_occupied _ _ _ _ _ _ _ _); [reflexivity|contradiction].
Qed.

Lemma occupant_spec : forall es v j, mark_occupied seals contents prefer t 1 es (fun _ => None) v = Some j ->
  1 <= j /\ exists e, nth_error es (j - 1) = Some e /\ counts e /\ loc e = v.
Proof.
  intros es v j E. destruct (mark_occupied_spec es 1 (fun _ => None)) as [_ [B _]].
  destruct (B v j E) as [X|X]; [discriminate|exact X].
Qed.

End Ents.

Lemma passable_on : forall C (seals : C -> bool) contents p, passable seals contents p = true -> gp_on p = true.
Proof. intros C seals contents p. unfold passable. destruct (gp_on p); [reflexivity|discriminate]. Qed.

Lemma fill_node_ok : forall g, graph_ok g -> exists f, fill_node g = Some f /\ f < pg_leafs g.
Proof.
  intros g [_ [p [r [f [E [L [[A B]|[A B]]]]]]]]; unfold fill_node; rewrite E, A; exists f; split; auto.
Qed.

Lemma best_leak_spec : forall outd ls best bd,
  match best with Some b => bd = Some (outd b) /\ outd b <> (-1)%Z | None => bd = None end ->
  match best_leak outd ls best bd with
  | None => best = None /\ forall v, In v ls -> outd v = (-1)%Z
  | Some b => (In b ls \/ best = Some b) /\ outd b <> (-1)%Z /\
      (forall v, In v ls -> outd v <> (-1)%Z -> (outd b <= outd v)%Z) /\
      match best with Some b0 => (outd b <= outd b0)%Z | None => True end
  end.
Proof.
  intros outd. induction ls as [|v ls IH]; intros best bd H; cbn [best_leak].
  - destruct best as [b|]; [|split; [reflexivity|intros v []]]. destruct H as [_ H]. split; [auto|]. split; [exact H|]. split; [intros v []|lia].
  - destruct (Z.eqb_spec (outd v) (-1)) as [E|NE].
    + specialize (IH best bd H). destruct (best_leak outd ls best bd) as [b|].
      * destruct IH as [A [B [D F]]]. split; [cbn [In]; tauto|]. split; [exact B|]. split; [|exact F].
        intros w [<-|I] NW; [contradiction|auto].
      * destruct IH as [A B]. split; [exact A|]. intros w [<-|I]; auto.
    + destruct (match bd with None => true | Some b => (outd v <? b)%Z end) eqn:LT.
      * specialize (IH (Some v) (Some (outd v)) (conj eq_refl NE)). destruct (best_leak outd ls (Some v) (Some (outd v))) as [b|].
        -- destruct IH as [A [B [D F]]]. split; [left; destruct A as [A|A]; [right; exact A|left; congruence]|].
           split; [exact B|]. split.
           ++ intros w [<-|I] NW; [exact F|auto].
           ++ destruct best as [b0|]; [|exact I]. destruct H as [H _]. subst bd. apply Z.ltb_lt in LT. lia.
        -- destruct IH as [A _]. discriminate.
      * specialize (IH best bd H). destruct best as [b0|]; [|subst bd; discriminate]. destruct H as [H1 H2]. subst bd. apply Z.ltb_ge in LT.
        destruct (best_leak outd ls (Some b0) (Some (outd b0))) as [b|].
        -- destruct IH as [A [B [D F]]]. split; [cbn [In]; tauto|]. split; [exact B|]. split; [|exact F].
           intros w [<-|I] NW; [lia|auto].
        -- destruct IH as [A _]. discriminate.
Qed.

(* ------------------------------------------------------------------------------------------- *)
(** ** Visibility of brush sides *)

Lemma mark_sides_spec : forall same plane sides vis k,
  mark_sides same plane sides vis k = true <->
  vis k = true \/ exists s, In s sides /\ bs_source s = Some k /\ same (bs_plane s) plane = true.
Proof.
  intros same plane. unfold mark_sides. induction sides as [|s sides IH]; intros vis k; cbn [fold_left].
  - split; [auto|]. intros [H|[s [[] _]]]. exact H.
  - rewrite IH. clear IH. destruct (bs_source s) as [j|] eqn:E.
    + destruct (same (bs_plane s) plane) eqn:S.
      * unfold fset. destruct (Nat.eqb_spec k j) as [->|NE].
        -- split; [|auto]. intros _. right. exists s. cbn [In]. auto.
        -- split.
           ++ intros [H|[x [X1 X2]]]; [auto|right; exists x; cbn [In]; auto].
           ++ intros [H|[x [[<-|X1] [X2 X3]]]]; [auto|congruence|right; exists x; auto].
      * split.
        -- intros [H|[x [X1 X2]]]; [auto|right; exists x; cbn [In]; auto].
        -- intros [H|[x [[<-|X1] [X2 X3]]]]; [auto|congruence|right; exists x; auto].
    + split.
      * intros [H|[x [X1 X2]]]; [auto|right; exists x; cbn [In]; auto].
      * intros [H|[x [[<-|X1] [X2 X3]]]]; [auto|congruence|right; exists x; auto].
Qed.

Lemma mark_invisible_spec : forall hint brushes vis k,
  mark_invisible hint brushes vis k = true <->
  ((exists s, In s (concat brushes) /\ bs_source s = Some k) /\ hint k = true) \/
  ((forall s, In s (concat brushes) -> bs_source s <> Some k) /\ vis k = true).
Proof.
  intros hint brushes. unfold mark_invisible. generalize (concat brushes). clear brushes.
  assert (G : forall (l : list bside) k, (exists s, In s l /\ bs_source s = Some k) \/ (forall s, In s l -> bs_source s <> Some k)).
  { induction l as [|s l IH]; intros k; [right; intros s []|].
    destruct (bs_source s) as [j|] eqn:E.
    - destruct (Nat.eq_dec j k) as [->|NE]; [left; exists s; cbn [In]; auto|].
      destruct (IH k) as [[x [X1 X2]]|H]; [left; exists x; cbn [In]; auto|right]. intros x [<-|X]; [congruence|auto].
    - destruct (IH k) as [[x [X1 X2]]|H]; [left; exists x; cbn [In]; auto|right]. intros x [<-|X]; [congruence|auto]. }
  induction l as [|s l IH]; intros vis k; cbn [fold_left].
  - split; [right; split; [intros s []|assumption]|]. intros [[[s [[] _]] _]|[_ H]]. exact H.
  - rewrite IH. clear IH. destruct (G l k) as [HE|HN].
    + split.
      * intros [[_ H]|[H _]]; [left|destruct HE as [x [X1 X2]]; exfalso; eapply H; eassumption].
        split; [|exact H]. destruct HE as [x [X1 X2]]. exists x. cbn [In]. auto.
      * intros [[_ H]|[H _]]; [left; auto|]. destruct HE as [x [X1 X2]]. exfalso. apply (H x); [right; exact X1|exact X2].
    + split.
      * intros [[[x [X1 X2]] _]|[_ H]]; [exfalso; eapply HN; eassumption|].
        destruct (bs_source s) as [j|] eqn:E.
        -- unfold fset in H. destruct (Nat.eqb_spec k j) as [->|NE].
           ++ left. split; [exists s; cbn [In]; auto|exact H].
           ++ right. split; [|exact H]. intros x [<-|X]; [congruence|auto].
        -- right. split; [|exact H]. intros x [<-|X]; [congruence|auto].
      * intros [[[x [[<-|X1] X2]] H]|[HA H]].
        -- right. split; [exact HN|]. rewrite X2. unfold fset. rewrite Nat.eqb_refl. exact H.
        -- exfalso. eapply HN; eassumption.
        -- right. split; [exact HN|]. destruct (bs_source s) as [j|] eqn:E; [|exact H].
           unfold fset. destruct (Nat.eqb_spec k j) as [->|NE]; [|exact H]. exfalso. apply (HA s); [left; reflexivity|exact E].
Qed.

Definition touches {C} (same : nat -> nat -> bool) (dseals : C -> bool) (contents : nat -> C) (g : pgraph)
    (orig : nat -> list (list bside)) (v k : nat) : Prop :=
  dseals (contents v) = false /\ exists p w b s, In p (pg_chain g v) /\ across (pg_portal g p) v = Some w /\
    In b (orig w) /\ In s b /\ bs_source s = Some k /\ same (bs_plane s) (gp_plane (pg_portal g p)) = true.

Lemma mark_leaf_spec : forall C same (dseals : C -> bool) contents g orig v vis k,
  mark_leaf same dseals contents g orig v vis k = true <-> vis k = true \/ touches same dseals contents g orig v k.
Proof.
  intros C same dseals contents g orig v vis k. unfold mark_leaf, touches. destruct (dseals (contents v)).
  - split; [auto|]. intros [H|[H _]]; [exact H|discriminate].
  - assert (G : forall ps vi, fold_left (fun vi p => match across (pg_portal g p) v with
                              | Some w => mark_sides same (gp_plane (pg_portal g p)) (concat (orig w)) vi
                              | None => vi end) ps vi k = true <->
      vi k = true \/ exists p w b s, In p ps /\ across (pg_portal g p) v = Some w /\
        In b (orig w) /\ In s b /\ bs_source s = Some k /\ same (bs_plane s) (gp_plane (pg_portal g p)) = true).
    { induction ps as [|p ps IH]; intro vi; cbn [fold_left].
      - split; [auto|]. intros [H|[p [w [b [s [[] _]]]]]]. exact H.
      - rewrite IH. clear IH. destruct (across (pg_portal g p) v) as [w|] eqn:A.
        + rewrite mark_sides_spec. split.
          * intros [[H|[s [S1 S2]]]|[q [w' [b [s [Q1 Q2]]]]]]; [auto| |].
            -- right. apply in_concat in S1. destruct S1 as [b [B1 B2]]. exists p, w, b, s. cbn [In]. tauto.
            -- right. exists q, w', b, s. cbn [In]. tauto.
          * intros [H|[q [w' [b [s [[<-|Q1] [Q2 [Q3 [Q4 Q5]]]]]]]]]; [auto| |].
            -- left. right. exists s. assert (w' = w) by congruence. subst w'. split; [|exact Q5]. apply in_concat. exists b. auto.
            -- right. exists q, w', b, s. tauto.
        + split.
          * intros [H|[q [w' [b [s [Q1 Q2]]]]]]; [auto|]. right. exists q, w', b, s. cbn [In]. tauto.
          * intros [H|[q [w' [b [s [[<-|Q1] [Q2 Q3]]]]]]]; [auto|congruence|]. right. exists q, w', b, s. tauto. }
    rewrite G. split; (intros [H|H]; [auto|right]); [split; [reflexivity|exact H]|apply H].
Qed.

Lemma mark_visible_spec : forall C P same (dseals : C -> bool) contents g orig (t : tree P nat) vis k,
  mark_visible same dseals contents g orig t vis k = true <->
  vis k = true \/ exists v, In v (tleafs t) /\ touches same dseals contents g orig v k.
Proof.
  intros C P same dseals contents g orig t vis k. unfold mark_visible. revert vis. generalize (tleafs t).
  induction l as [|v l IH]; intro vis; cbn [fold_left].
  - split; [auto|]. intros [H|[v [[] _]]]. exact H.
  - rewrite IH, mark_leaf_spec. split.
    + intros [[H|H]|[w [W1 W2]]]; [auto|right; exists v; cbn [In]; auto|right; exists w; cbn [In]; auto].
    + intros [H|[w [[<-|W1] W2]]]; [auto|auto|right; exists w; auto].
Qed.
