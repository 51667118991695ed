From Coq Require Import List Arith Bool Lia.
From Verif Require Import PortalTreeModel.
Import ListNotations.

(** The numbers of all nodes and leafs; of those where portals end. *)
Fixpoint pids (t : ptree) : list nat := match t with PLeaf i => [i] | PNode i _ f b => i :: pids f ++ pids b end.
Fixpoint terminals (vis : bool) (t : ptree) : list nat :=
  match t with PLeaf i => [i] | PNode i d f b => if vis && d then [i] else terminals vis f ++ terminals vis b end.
(** [sub vis t s]: portals are pushed down from t to s. *)
Inductive sub (vis : bool) (t : ptree) : ptree -> Prop :=
| sub_refl : sub vis t t
| sub_f n d f b : vis && d = false -> sub vis t (PNode n d f b) -> sub vis t f
| sub_b n d f b : vis && d = false -> sub vis t (PNode n d f b) -> sub vis t b.
Lemma pid_in t : In (pid t) (pids t).
Proof. destruct t; simpl; auto. Qed.
Lemma term_in vis t k : In k (terminals vis t) -> In k (pids t).
Proof.
  induction t as [i|i d f IHf b IHb]; simpl; auto.
  destruct (vis && d); [simpl; tauto|]. rewrite !in_app_iff. tauto.
Qed.

Lemma nd_node n d f b : NoDup (pids (PNode n d f b)) ->
  ~ In n (pids f) /\ ~ In n (pids b) /\ NoDup (pids f) /\ NoDup (pids b) /\ (forall k, In k (pids f) -> In k (pids b) -> False).
Proof.
  simpl. intro H. inversion H as [|? ? H1 H2]; subst. rewrite in_app_iff in H1.
  assert (K : NoDup (pids f) /\ NoDup (pids b) /\ (forall k, In k (pids f) -> In k (pids b) -> False)).
  { clear H1 H. revert H2. generalize (pids f) as l1, (pids b) as l2. induction l1 as [|a l1 IH]; simpl; intros l2 H.
    - repeat split; auto using NoDup_nil.
    - inversion H as [|? ? A B]; subst. destruct (IH _ B) as (? & ? & ?). rewrite in_app_iff in A. repeat split; auto.
      + constructor; tauto.
      + intros k [->|K1] K2; [tauto|eauto]. }
  destruct K as (? & ? & ?). tauto.
Qed.

Lemma sub_trans vis t s u : sub vis t s -> sub vis s u -> sub vis t u.
Proof. intros H1 H2. induction H2; eauto using sub_f, sub_b. Qed.
Lemma sub_pids vis t s : sub vis t s -> forall k, In k (pids s) -> In k (pids t).
Proof. induction 1; intros k K; auto; apply IHsub; simpl; rewrite in_app_iff; tauto. Qed.
Lemma sub_terms vis t s : sub vis t s -> forall k, In k (terminals vis s) -> In k (terminals vis t).
Proof. induction 1 as [|n d f b V _ IH|n d f b V _ IH]; intros k K; auto; apply IH; cbn [terminals]; rewrite V, in_app_iff; tauto. Qed.
Lemma sub_nd vis t s : NoDup (pids t) -> sub vis t s -> NoDup (pids s).
Proof. intros ND. induction 1 as [|n d f b V _ IH|n d f b V _ IH]; auto; destruct (nd_node _ _ _ _ IH) as (_ & _ & ? & ? & _); assumption. Qed.

Section P.
Context {W X : Type} (base : nat -> option W) (cut : W -> bportal W -> bool -> option W) (tiny : W -> bool)
  (split : nat -> W -> option W * option W) (mem : W -> X -> bool) (side : nat -> bool -> X -> bool).
Notation parts n w := (drop_tiny tiny (fst (split n w)), drop_tiny tiny (snd (split n w))).
Notation bp := (bportal W).

(** The points on the way down to a node. *)
Fixpoint region (t : ptree) (k : nat) (x : X) : Prop :=
  match t with
  | PLeaf i => i = k
  | PNode i _ f b => i = k \/ side i true x = true /\ region f k x \/ side i false x = true /\ region b k x
  end.
(** The parts lie on their sides; a portal that is not split is on one side. *)
Definition sound_split : Prop :=
  forall n w x,
    match parts n w with
    | (Some wf, Some wb) => (mem wf x = true -> mem w x = true /\ side n true x = true) /\
                            (mem wb x = true -> mem w x = true /\ side n false x = true)
    | (Some _, None) => mem w x = true -> side n true x = true
    | (None, Some _) => mem w x = true -> side n false x = true
    | (None, None) => True
    end.
Definition generic (n : nat) (x : X) : Prop := side n true x = negb (side n false x).
(** No point is lost or duplicated, but for those on the plane. *)
Definition exact_split : Prop :=
  forall n w x, generic n x ->
    match parts n w with
    | (Some wf, Some wb) => mem w x = xorb (mem wf x) (mem wb x) /\ mem wf x && mem wb x = false
    | (None, None) => mem w x = false
    | _ => True
    end.
Definition cnt (x : X) (l : list bp) : nat := length (filter (fun q => mem (bp_w q) x) l).

Definition ext (t : ptree) (e : option nat) : Prop := forall k, e = Some k -> ~ In k (pids t).
Definition linked1 (t : ptree) (p : bp) : Prop :=
  (bp_f p = Some (pid t) /\ ext t (bp_b p)) \/ (bp_b p = Some (pid t) /\ ext t (bp_f p)).
Definition linked t l := Forall (linked1 t) l.

(** q is a piece of p: the end of p at t became the end k. *)
Definition piece (t : ptree) (k : nat) (p q : bp) : Prop :=
  bp_on q = bp_on p /\
  ((bp_f p = Some (pid t) /\ ext t (bp_b p) /\ bp_b q = bp_b p /\ bp_f q = Some k) \/
   (bp_b p = Some (pid t) /\ ext t (bp_f p) /\ bp_f q = bp_f p /\ bp_b q = Some k)) /\
  (sound_split -> forall x, mem (bp_w q) x = true -> mem (bp_w p) x = true /\ region t k x).

Lemma is_node_some n : is_node (Some n) n = true. Proof. apply Nat.eqb_refl. Qed.
Lemma is_node_ext t e : ext t e -> is_node e (pid t) = false.
Proof.
  intro H. destruct e as [k|]; [|reflexivity]. simpl. apply Nat.eqb_neq. intro; subst. exact (H _ eq_refl (pid_in t)).
Qed.

Lemma ext_f n d f b e : ext (PNode n d f b) e -> ext f e.
Proof. intros H k K I. apply (H k K). simpl. rewrite in_app_iff. tauto. Qed.
Lemma ext_b n d f b e : ext (PNode n d f b) e -> ext b e.
Proof. intros H k K I. apply (H k K). simpl. rewrite in_app_iff. tauto. Qed.

(** What splitting does. *)
Definition part1 (t c : ptree) (s : bool) (p q : bp) : Prop :=
  bp_on q = bp_on p /\
  ((bp_f p = Some (pid t) /\ ext t (bp_b p) /\ bp_b q = bp_b p /\ bp_f q = Some (pid c)) \/
   (bp_b p = Some (pid t) /\ ext t (bp_f p) /\ bp_f q = bp_f p /\ bp_b q = Some (pid c))) /\
  (sound_split -> forall x, mem (bp_w q) x = true -> mem (bp_w p) x = true /\ side (pid t) s x = true).

Lemma split_spec n d f b l (t := PNode n d f b) : linked t l ->
  exists lf lb, split_portals tiny split n (pid f) (pid b) l = Some (lf, lb) /\
    (forall q, In q lf -> exists p, In p l /\ part1 t f true p q) /\
    (forall q, In q lb -> exists p, In p l /\ part1 t b false p q) /\
    (exact_split -> forall x, generic n x -> cnt x lf + cnt x lb = cnt x l).
Proof.
  intro H. induction H as [|p l L1 _ IH].
  { exists [], []. repeat split; simpl; tauto. }
  destruct IH as (lf & lb & E & Pf & Pb & C). simpl. rewrite E.
  assert (Ff : forall q, In q lf -> exists p0, In p0 (p :: l) /\ part1 t f true p0 q).
  { intros q Q. destruct (Pf q Q) as (p0 & ? & ?). exists p0. simpl. tauto. }
  assert (Fb : forall q, In q lb -> exists p0, In p0 (p :: l) /\ part1 t b false p0 q).
  { intros q Q. destruct (Pb q Q) as (p0 & ? & ?). exists p0. simpl. tauto. }
  assert (OK : is_node (bp_f p) n || is_node (bp_b p) n = true).
  { destruct L1 as [[A _]|[A _]]; rewrite A; change (pid t) with n; rewrite is_node_some; auto using orb_true_r. }
  rewrite OK.
  set (to := fun (k : nat) (w : W) => if is_node (bp_f p) n
        then mkBP (bp_on p) (Some k) (if is_node (bp_f p) n then bp_b p else bp_f p) w
        else mkBP (bp_on p) (if is_node (bp_f p) n then bp_b p else bp_f p) (Some k) w).
  assert (TO : forall c s w, (sound_split -> forall x, mem w x = true -> mem (bp_w p) x = true /\ side n s x = true) ->
     part1 t c s p (to (pid c) w)).
  { intros c s w HW. unfold to. destruct L1 as [[A B]|[A B]].
    - rewrite A. change (pid t) with n. rewrite is_node_some. split; [reflexivity|]. split; [left; simpl; auto|exact HW].
    - apply is_node_ext in B as B'. change (pid t) with n in B'. rewrite B'. split; [reflexivity|]. split; [right; simpl; auto|exact HW]. }
  assert (TW : forall k w, bp_w (to k w) = w) by (intros; unfold to; destruct (is_node (bp_f p) n); reflexivity).
  assert (HS : sound_split -> forall x, match parts n (bp_w p) with
    | (Some wf, Some wb) => (mem wf x = true -> mem (bp_w p) x = true /\ side n true x = true) /\
                            (mem wb x = true -> mem (bp_w p) x = true /\ side n false x = true)
    | (Some _, None) => mem (bp_w p) x = true -> side n true x = true
    | (None, Some _) => mem (bp_w p) x = true -> side n false x = true
    | (None, None) => True
    end) by (intros S0 x; apply S0).
  assert (HX : exact_split -> forall x, generic n x -> match parts n (bp_w p) with
    | (Some wf, Some wb) => mem (bp_w p) x = xorb (mem wf x) (mem wb x) /\ mem wf x && mem wb x = false
    | (None, None) => mem (bp_w p) x = false
    | _ => True
    end) by (intros S0 x G; apply S0; exact G).
  destruct (drop_tiny tiny (fst (split n (bp_w p)))) as [wf|] eqn:DF; destruct (drop_tiny tiny (snd (split n (bp_w p)))) as [wb|] eqn:DB;
    cbn iota beta in HS, HX.
  - exists (to (pid f) wf :: lf), (to (pid b) wb :: lb). split; [reflexivity|]. split; [|split].
    + intros q [<-|Q]; [|auto]. exists p. split; [left; reflexivity|]. apply TO. intros S0 x. apply (HS S0 x).
    + intros q [<-|Q]; [|auto]. exists p. split; [left; reflexivity|]. apply TO. intros S0 x. apply (HS S0 x).
    + intros S0 x G. specialize (C S0 x G). destruct (HX S0 x G) as [M1 M2]. unfold cnt in *. cbn [filter]. rewrite !TW.
      destruct (mem wf x), (mem wb x); simpl in M1, M2; try discriminate; rewrite M1; simpl; lia.
  - exists (to (pid f) (bp_w p) :: lf), lb. split; [reflexivity|]. split; [|split]; auto.
    + intros q [<-|Q]; [|auto]. exists p. split; [left; reflexivity|]. apply TO. intros S0 x M. split; [exact M|apply (HS S0 x M)].
    + intros S0 x G. specialize (C S0 x G). unfold cnt in *. cbn [filter]. rewrite !TW. destruct (mem (bp_w p) x); simpl; lia.
  - exists lf, (to (pid b) (bp_w p) :: lb). split; [reflexivity|]. split; [|split]; auto.
    + intros q [<-|Q]; [|auto]. exists p. split; [left; reflexivity|]. apply TO. intros S0 x M. split; [exact M|apply (HS S0 x M)].
    + intros S0 x G. specialize (C S0 x G). unfold cnt in *. cbn [filter]. rewrite !TW. destruct (mem (bp_w p) x); simpl; lia.
  - exists lf, lb. split; [reflexivity|]. split; [|split]; auto.
    intros S0 x G. specialize (C S0 x G). unfold cnt in *. cbn [filter]. rewrite (HX S0 x G). exact C.
Qed.

Lemma part1_linked t c s p q n d f b : t = PNode n d f b -> NoDup (pids t) -> (c = f \/ c = b) -> part1 t c s p q -> linked1 c q.
Proof.
  intros -> ND C (_ & [(A & B & E & F)|(A & B & E & F)] & _); [left|right]; (split; [exact F|]); rewrite E;
    destruct C; subst; eauto using ext_f, ext_b.
Qed.
Lemma part1_piece t c s p q k r n d f b : t = PNode n d f b -> NoDup (pids t) -> (c = f /\ s = true \/ c = b /\ s = false) ->
  part1 t c s p q -> piece c k q r -> piece t k p r.
Proof.
  intros -> ND C (O1 & E1 & S1) (O2 & E2 & S2). split; [congruence|]. split.
  - destruct E1 as [(A & B & E & F)|(A & B & E & F)]; [left|right]; (split; [exact A|]; split; [exact B|]).
    + destruct E2 as [(A2 & B2 & E2 & F2)|(A2 & B2 & E2 & F2)]; [split; congruence|].
      exfalso. apply (B (pid c)); [congruence|]. simpl. rewrite in_app_iff. pose proof (pid_in c). destruct C as [[-> _]|[-> _]]; tauto.
    + destruct E2 as [(A2 & B2 & E2 & F2)|(A2 & B2 & E2 & F2)]; [|split; congruence].
      exfalso. apply (B (pid c)); [congruence|]. simpl. rewrite in_app_iff. pose proof (pid_in c). destruct C as [[-> _]|[-> _]]; tauto.
  - intros S0 x M. destruct (S2 S0 x M) as [M1 R]. destruct (S1 S0 x M1) as [M2 R2]. split; [exact M2|].
    simpl in R2 |- *. destruct C as [[-> ->]|[-> ->]]; auto.
Qed.
Lemma piece_refl t p : linked1 t p -> (forall x, region t (pid t) x) -> piece t (pid t) p p.
Proof.
  intros L R. split; [reflexivity|]. split; [destruct L as [[? ?]|[? ?]]; [left|right]; auto|]. auto.
Qed.
Lemma region_self t x : region t (pid t) x.
Proof. destruct t; simpl; auto. Qed.

Lemma clip_spec vis t : NoDup (pids t) -> forall l, linked t l ->
  exists r, clip_tree tiny split vis t l = Some r /\
    (forall q, In q r -> exists p k, In p l /\ In k (terminals vis t) /\ piece t k p q) /\
    (exact_split -> forall x, (forall n, In n (pids t) -> generic n x) -> cnt x r = cnt x l).
Proof.
  assert (STOP : forall t l, In (pid t) (terminals vis t) -> linked t l ->
    forall q, In q l -> exists p k, In p l /\ In k (terminals vis t) /\ piece t k p q).
  { intros u l T L q Q. exists q, (pid u). repeat split; auto. 1: unfold linked in L; rewrite Forall_forall in L; destruct (L q Q) as [[? ?]|[? ?]]; [left|right]; auto. apply region_self. }
  induction t as [i|n d f IHf b IHb]; intros ND l L.
  { exists l. split; [destruct l; reflexivity|]. split; [apply STOP; simpl; auto|reflexivity]. }
  destruct l as [|p0 l0]; [exists []; repeat split; simpl; tauto|]. remember (p0 :: l0) as l eqn:El.
  assert (E : clip_tree tiny split vis (PNode n d f b) l =
    (if vis && d then Some l
      else match split_portals tiny split n (pid f) (pid b) l with
           | None => None
           | Some (lf, lb) => match clip_tree tiny split vis f lf, clip_tree tiny split vis b lb with
                              | Some x, Some y => Some (x ++ y)
                              | _, _ => None
                              end
           end)) by (subst l; reflexivity).
  rewrite E. clear E. destruct (vis && d) eqn:V.
  { exists l. split; [reflexivity|]. split; [apply STOP; auto; simpl; rewrite V; simpl; auto|reflexivity]. }
  destruct (nd_node _ _ _ _ ND) as (N1 & N2 & NF & NB & DJ).
  destruct (split_spec _ _ _ _ _ L) as (lf & lb & E & Pf & Pb & C). rewrite E.
  destruct (IHf NF lf) as (rf & Ef & Qf & Cf).
  { apply Forall_forall. intros q Q. destruct (Pf q Q) as (p & _ & P1). eapply part1_linked; eauto. }
  destruct (IHb NB lb) as (rb & Eb & Qb & Cb).
  { apply Forall_forall. intros q Q. destruct (Pb q Q) as (p & _ & P1). eapply part1_linked; eauto. }
  rewrite Ef, Eb. exists (rf ++ rb). split; [reflexivity|]. split.
  - intros q Q. cbn [terminals]. rewrite V. apply in_app_or in Q. destruct Q as [Q|Q].
    + destruct (Qf q Q) as (p1 & k & I1 & K & P2). destruct (Pf p1 I1) as (p & I & P1). exists p, k. split; [exact I|].
      split; [apply in_or_app; auto|]. apply (part1_piece _ f true p p1 k q n d f b eq_refl ND ltac:(auto) P1 P2).
    + destruct (Qb q Q) as (p1 & k & I1 & K & P2). destruct (Pb p1 I1) as (p & I & P1). exists p, k. split; [exact I|].
      split; [apply in_or_app; auto|]. apply (part1_piece _ b false p p1 k q n d f b eq_refl ND ltac:(auto) P1 P2).
  - intros S0 x G. unfold cnt in *. rewrite filter_app, app_length.
    rewrite (Cf S0 x), (Cb S0 x), (C S0 x); [reflexivity| | |]; try (intros m M; apply G; simpl; rewrite in_app_iff; tauto).
    apply G. left. reflexivity.
Qed.

Lemma clip_all_ok t w l : linked t l -> exists nw, clip_all cut (pid t) w l = Some nw.
Proof.
  intro H. revert w. induction H as [|p l L1 _ IH]; intros w.
  { exists w. reflexivity. }
  destruct w as [v|]; [|exists None; reflexivity]. simpl.
  destruct (is_node (bp_f p) (pid t)) eqn:A; [apply IH|].
  destruct L1 as [[B _]|[B _]]; rewrite B, is_node_some in *; [discriminate|apply IH].
Qed.
Definition sound_cut : Prop := forall v p s v' x, cut v p s = Some v' -> mem v' x = true -> mem v x = true.
Lemma clip_all_base n w l v x : sound_cut -> clip_all cut n w l = Some (Some v) -> mem v x = true -> exists w0, w = Some w0 /\ mem w0 x = true.
Proof.
  intros SC. revert w. induction l as [|p l IH]; intros w E M; simpl in E.
  { destruct w as [w0|]; [|discriminate]. inversion E; subst. eauto. }
  destruct w as [w0|]; [|discriminate]. exists w0. split; [reflexivity|].
  destruct (is_node (bp_f p) n); [|destruct (is_node (bp_b p) n); [|discriminate]];
    (destruct (IH _ E M) as (w1 & E1 & M1); exact (SC _ _ _ _ _ E1 M1)).
Qed.

(** The list of portals around a node that is reached from t with the list l. *)
Inductive bounds_at (vis : bool) (t : ptree) (l : list bp) : ptree -> list bp -> Prop :=
| ba_here : bounds_at vis t l t l
| ba_f n d f b l1 lf lb : bounds_at vis t l (PNode n d f b) l1 -> vis && d = false ->
    split_portals tiny split n (pid f) (pid b) l1 = Some (lf, lb) -> bounds_at vis t l f lf
| ba_b n d f b l1 lf lb : bounds_at vis t l (PNode n d f b) l1 -> vis && d = false ->
    split_portals tiny split n (pid f) (pid b) l1 = Some (lf, lb) -> bounds_at vis t l b lb.

(** A portal on the plane of the node s = (n, f, b). *)
Definition created (vis : bool) (t : ptree) (q : bp) : Prop :=
  exists n d f b kf kb, sub vis t (PNode n d f b) /\ vis && d = false /\ bp_on q = Some n /\
    bp_f q = Some kf /\ In kf (terminals vis f) /\ bp_b q = Some kb /\ In kb (terminals vis b) /\
    (sound_split -> sound_cut -> forall x, mem (bp_w q) x = true ->
       (exists w, base n = Some w /\ mem w x = true) /\ region f kf x /\ region b kb x).

Lemma nw_ok t l : linked t l -> exists nw, node_winding base cut tiny (pid t) l = Some nw.
Proof.
  intro L. unfold node_winding. destruct (clip_all_ok t (base (pid t)) l L) as (r & ->). destruct r as [w|]; eauto.
Qed.
Lemma nw_base n l w x : sound_cut -> node_winding base cut tiny n l = Some (Some w) -> mem w x = true -> exists w0, base n = Some w0 /\ mem w0 x = true.
Proof.
  intros SC E M. unfold node_winding in E. destruct (clip_all cut n (base n) l) as [[v|]|] eqn:C; [|discriminate..].
  destruct (tiny v); inversion E; subst. eapply clip_all_base; eauto.
Qed.

(** The portals on a node. *)
Lemma on_spec vis n d f b w : NoDup (pids (PNode n d f b)) -> 
  exists half on, clip_tree tiny split vis f [mkBP (Some n) (Some (pid f)) (Some (pid b)) w] = Some half /\ clip_tree tiny split vis b half = Some on /\
    (forall q, In q on -> exists kf kb, bp_on q = Some n /\ bp_f q = Some kf /\ In kf (terminals vis f) /\ bp_b q = Some kb /\ In kb (terminals vis b) /\
       (sound_split -> forall x, mem (bp_w q) x = true -> mem w x = true /\ region f kf x /\ region b kb x)) /\
    (exact_split -> forall x, (forall m, In m (pids f ++ pids b) -> generic m x) -> cnt x on = if mem w x then 1 else 0).
Proof.
  intro ND. destruct (nd_node _ _ _ _ ND) as (N1 & N2 & NF & NB & DJ).
  set (p0 := mkBP (Some n) (Some (pid f)) (Some (pid b)) w).
  assert (L0 : linked f [p0]).
  { constructor; [|constructor]. left. split; [reflexivity|]. intros k K I. inversion K; subst. exact (DJ _ I (pid_in b)). }
  destruct (clip_spec vis f NF _ L0) as (half & E1 & P1 & C1).
  assert (FR : forall q, In q half -> exists k, In k (terminals vis f) /\ bp_on q = Some n /\ bp_f q = Some k /\ bp_b q = Some (pid b) /\
     (sound_split -> forall x, mem (bp_w q) x = true -> mem w x = true /\ region f k x)).
  { intros q Q. destruct (P1 q Q) as (p & k & [<-|[]] & K & (O & [(A & B & E & F)|(A & B & E & F)] & S0)).
    - exists k. repeat split; auto; apply S0; auto.
    - exfalso. simpl in A. inversion A as [A']. apply (DJ (pid f)); [apply pid_in|]. rewrite <- A'. apply pid_in. }
  assert (L1 : linked b half).
  { apply Forall_forall. intros q Q. destruct (FR q Q) as (k & K & _ & Ef & Eb & _). right. split; [exact Eb|]. rewrite Ef.
    intros k' K' I. inversion K'; subst. exact (DJ _ (term_in _ _ _ K) I). }
  destruct (clip_spec vis b NB _ L1) as (on & E2 & P2 & C2).
  exists half, on. split; [exact E1|]. split; [exact E2|]. split.
  - intros q Q. destruct (P2 q Q) as (p & kb & I & K & (O & [(A & B & E & F)|(A & B & E & F)] & S0)).
    + destruct (FR p I) as (k & Kf & _ & Ef & _). rewrite A in Ef. inversion Ef; subst. exfalso. exact (DJ _ (term_in _ _ _ Kf) (pid_in b)).
    + destruct (FR p I) as (k & Kf & On & Ef & Eb & S1). exists k, kb. repeat split; try congruence.
      * apply (S1 H). apply (S0 H). assumption.
      * apply (S1 H). apply (S0 H). assumption.
      * apply (S0 H). assumption.
  - intros S0 x G. rewrite (C2 S0 x), (C1 S0 x); [|intros m M; apply G; apply in_or_app; tauto..].
    unfold cnt. simpl. destruct (mem w x); reflexivity.
Qed.

(** Boundary portals have no node of t as their onnode. *)
Definition foreign (t : ptree) (l : list bp) : Prop := forall p k, In p l -> bp_on p = Some k -> ~ In k (pids t).

Lemma tree_spec vis t : NoDup (pids t) -> forall l, linked t l ->
  exists r, tree_portals base cut tiny split vis t l = Some r /\
    (forall q, In q r -> (exists p k, In p l /\ In k (terminals vis t) /\ piece t k p q) \/ created vis t q).
Proof.
  assert (STOP : forall t l, In (pid t) (terminals vis t) -> linked t l ->
    forall q, In q l -> (exists p k, In p l /\ In k (terminals vis t) /\ piece t k p q) \/ created vis t q).
  { intros u l T L q Q. left. exists q, (pid u). split; [exact Q|]. split; [exact T|]. apply piece_refl; [|apply region_self].
    unfold linked in L. rewrite Forall_forall in L. exact (L q Q). }
  induction t as [i|n d f IHf b IHb]; intros ND l L.
  { exists l. split; [reflexivity|]. apply STOP; simpl; auto. }
  simpl. destruct (vis && d) eqn:V.
  { exists l. split; [reflexivity|]. intros q Q. destruct (STOP (PNode n d f b) l ltac:(simpl; rewrite V; simpl; auto) L q Q) as [(p & k & I & K & P)|C]; [|auto].
    left. exists p, k. split; [exact I|]. split; [cbn [terminals] in K; rewrite V in K; exact K|exact P]. }
  destruct (nd_node _ _ _ _ ND) as (N1 & N2 & NF & NB & DJ).
  destruct (split_spec _ _ _ _ _ L) as (lf & lb & E & Pf & Pb & _). rewrite E.
  destruct (nw_ok _ _ L) as (nw & EW). change (pid (PNode n d f b)) with n in EW. rewrite EW.
  destruct (IHf NF lf) as (rf & Ef & Qf).
  { apply Forall_forall. intros q Q. destruct (Pf q Q) as (p & _ & P1). eapply part1_linked; eauto. }
  destruct (IHb NB lb) as (rb & Eb & Qb).
  { apply Forall_forall. intros q Q. destruct (Pb q Q) as (p & _ & P1). eapply part1_linked; eauto. }
  rewrite Ef, Eb.
  assert (SF : sub vis (PNode n d f b) f) by (eapply sub_f; [exact V|apply sub_refl]).
  assert (SB : sub vis (PNode n d f b) b) by (eapply sub_b; [exact V|apply sub_refl]).
  assert (CR : forall c q, sub vis (PNode n d f b) c -> created vis c q -> created vis (PNode n d f b) q).
  { intros c q SC (n' & d' & f' & b' & kf & kb & HS & R). exists n', d', f', b', kf, kb. split; [eapply sub_trans; eauto|exact R]. }
  assert (RR : forall q, In q (rf ++ rb) -> (exists p k, In p l /\ In k (terminals vis f ++ terminals vis b) /\ piece (PNode n d f b) k p q) \/ created vis (PNode n d f b) q).
  { intros q Q. apply in_app_or in Q. destruct Q as [Q|Q].
    - destruct (Qf q Q) as [(p1 & k & I1 & K & P2)|C]; [left|right; eauto]. destruct (Pf p1 I1) as (p & I & P1). exists p, k.
      split; [exact I|]. split; [apply in_or_app; auto|]. apply (part1_piece _ f true p p1 k q n d f b eq_refl ND ltac:(auto) P1 P2).
    - destruct (Qb q Q) as [(p1 & k & I1 & K & P2)|C]; [left|right; eauto]. destruct (Pb p1 I1) as (p & I & P1). exists p, k.
      split; [exact I|]. split; [apply in_or_app; auto|]. apply (part1_piece _ b false p p1 k q n d f b eq_refl ND ltac:(auto) P1 P2). }
  destruct nw as [w|].
  2:{ exists (rf ++ rb). split; [reflexivity|exact RR]. }
  destruct (on_spec vis n d f b w ND) as (half & on & E1 & E2 & PO & _). rewrite E1, E2.
  exists (rf ++ rb ++ on). split; [reflexivity|]. intros q Q. rewrite app_assoc in Q. apply in_app_or in Q. destruct Q as [Q|Q]; [auto|].
  right. destruct (PO q Q) as (kf & kb & On & Kf & If & Kb & Ib & S0). exists n, d, f, b, kf, kb.
  split; [apply sub_refl|]. repeat (split; [assumption|]). intros S1 SC x M. destruct (S0 S1 x M) as (M1 & R1 & R2).
  split; [|auto]. eapply nw_base; eauto.
Qed.

Lemma bounds_linked vis t l s ls : NoDup (pids t) -> linked t l -> bounds_at vis t l s ls -> sub vis t s /\ linked s ls.
Proof.
  intros ND L. induction 1 as [|n d f b l1 lf lb _ [IS IL] V E|n d f b l1 lf lb _ [IS IL] V E]; [split; [apply sub_refl|exact L]| |];
    pose proof (sub_nd _ _ _ ND IS) as ND1; destruct (split_spec _ _ _ _ _ IL) as (lf' & lb' & E' & Pf & Pb & _);
    rewrite E in E'; inversion E'; subst lf' lb'.
  - split; [eapply sub_f; eauto|]. apply Forall_forall. intros q Q. destruct (Pf q Q) as (p & _ & P1). eapply part1_linked; eauto.
  - split; [eapply sub_b; eauto|]. apply Forall_forall. intros q Q. destruct (Pb q Q) as (p & _ & P1). eapply part1_linked; eauto.
Qed.

(** Portals that are on the node n. *)
Definition on_node (n : nat) (l : list bp) : list bp := filter (fun q => is_node (bp_on q) n) l.

Lemma cnt_app x l1 l2 : cnt x (l1 ++ l2) = cnt x l1 + cnt x l2.
Proof. unfold cnt. rewrite filter_app, app_length. reflexivity. Qed.
Lemma on_node_app n l1 l2 : on_node n (l1 ++ l2) = on_node n l1 ++ on_node n l2.
Proof. unfold on_node. apply filter_app. Qed.
Lemma on_node_none n l : (forall q, In q l -> bp_on q <> Some n) -> on_node n l = [].
Proof.
  induction l as [|q l IH]; intro H; [reflexivity|]. simpl. destruct (is_node (bp_on q) n) eqn:E.
  - exfalso. destruct (bp_on q) as [k|] eqn:O; [|discriminate]. apply Nat.eqb_eq in E. subst. exact (H q (or_introl eq_refl) O).
  - apply IH. intros; apply H; right; assumption.
Qed.
Lemma on_node_all n l : (forall q, In q l -> bp_on q = Some n) -> on_node n l = l.
Proof.
  induction l as [|q l IH]; intro H; [reflexivity|]. simpl. rewrite (H q (or_introl eq_refl)), is_node_some, IH; [reflexivity|].
  intros; apply H; right; assumption.
Qed.
Lemma created_on vis t q : created vis t q -> exists n, bp_on q = Some n /\ In n (pids t).
Proof. intros (n & d & f & b & kf & kb & HS & _ & O & _). exists n. split; [exact O|]. eapply sub_pids; eauto. simpl; auto. Qed.
Lemma tree_on vis t l r q n : NoDup (pids t) -> linked t l -> foreign t l -> tree_portals base cut tiny split vis t l = Some r ->
  In q r -> bp_on q = Some n -> In n (pids t) \/ exists p, In p l /\ bp_on p = Some n.
Proof.
  intros ND L F E Q O. destruct (tree_spec vis t ND l L) as (r' & E' & P). rewrite E in E'. inversion E'; subst r'.
  destruct (P q Q) as [(p & k & I & K & PC)|C].
  - right. exists p. split; [exact I|]. destruct PC as (O1 & _). congruence.
  - left. destruct (created_on _ _ _ C) as (m & O1 & I). congruence.
Qed.

Lemma node_step vis n d f b l r : NoDup (pids (PNode n d f b)) -> linked (PNode n d f b) l -> vis && d = false ->
  tree_portals base cut tiny split vis (PNode n d f b) l = Some r ->
  exists lf lb rf rb nw on, split_portals tiny split n (pid f) (pid b) l = Some (lf, lb) /\ linked f lf /\ linked b lb /\
    tree_portals base cut tiny split vis f lf = Some rf /\ tree_portals base cut tiny split vis b lb = Some rb /\
    node_winding base cut tiny n l = Some nw /\ r = rf ++ rb ++ on /\ (forall q, In q on -> bp_on q = Some n) /\
    (forall q, In q lf \/ In q lb -> exists p, In p l /\ bp_on q = bp_on p) /\
    (exact_split -> forall x, generic n x -> cnt x lf + cnt x lb = cnt x l) /\
    (exact_split -> forall x, (forall m, In m (pids f ++ pids b) -> generic m x) ->
      cnt x on = match nw with Some w => if mem w x then 1 else 0 | None => 0 end) /\
    (sound_split -> sound_cut -> forall x, cnt x on <> 0 -> exists w, base n = Some w /\ mem w x = true).
Proof.
  intros ND L V H. destruct (nd_node _ _ _ _ ND) as (N1 & N2 & NF & NB & DJ).
  destruct (split_spec _ _ _ _ _ L) as (lf & lb & E & Pf & Pb & C).
  assert (LF : linked f lf) by (apply Forall_forall; intros q Q; destruct (Pf q Q) as (p & _ & P1); eapply part1_linked; eauto).
  assert (LB : linked b lb) by (apply Forall_forall; intros q Q; destruct (Pb q Q) as (p & _ & P1); eapply part1_linked; eauto).
  destruct (nw_ok _ _ L) as (nw & EW). change (pid (PNode n d f b)) with n in EW.
  destruct (tree_spec vis f NF lf LF) as (rf & Ef & _). destruct (tree_spec vis b NB lb LB) as (rb & Eb & _).
  assert (OL : forall q, In q lf \/ In q lb -> exists p, In p l /\ bp_on q = bp_on p).
  { intros q [Q|Q]; [destruct (Pf q Q) as (p & I & O & _)|destruct (Pb q Q) as (p & I & O & _)]; eauto. }
  simpl in H. rewrite V, E, EW, Ef, Eb in H. destruct nw as [w|].
  - destruct (on_spec vis n d f b w ND) as (half & on & E1 & E2 & PO & CO). rewrite E1, E2 in H. inversion H; subst r.
    exists lf, lb, rf, rb, (Some w), on. repeat (split; [assumption || reflexivity|]). split.
    { intros q Q. destruct (PO q Q) as (? & ? & ? & _). assumption. }
    repeat (split; [assumption|]). intros S0 SC x NZ.
    assert (K : exists q, In q on /\ mem (bp_w q) x = true).
    { unfold cnt in NZ. destruct (filter (fun q => mem (bp_w q) x) on) as [|q l0] eqn:F; [simpl in NZ; lia|]. exists q.
      apply (filter_In (fun q => mem (bp_w q) x)). rewrite F. left. reflexivity. }
    destruct K as (q & Q & M). destruct (PO q Q) as (kf & kb & _ & _ & _ & _ & _ & S1). destruct (S1 S0 x M) as (M1 & _).
    eapply nw_base; eauto.
  - inversion H; subst r. exists lf, lb, rf, rb, None, []. rewrite app_nil_r. repeat (split; [assumption || reflexivity|]).
    split; [intros q []|]. repeat (split; [assumption|]). split; [reflexivity|]. intros _ _ x NZ. unfold cnt in NZ. simpl in NZ. lia.
Qed.

(** Base windings lie in their planes. *)
Definition base_plane : Prop := forall n w x, base n = Some w -> mem w x = true -> side n true x = true /\ side n false x = true.

Lemma tree_count vis t : NoDup (pids t) -> forall l r, linked t l -> tree_portals base cut tiny split vis t l = Some r ->
  sound_split -> sound_cut -> exact_split -> base_plane -> forall x, (forall n, In n (pids t) -> generic n x) -> cnt x r = cnt x l.
Proof.
  induction t as [i|n d f IHf b IHb]; intros ND l r L H SS SC EX BP x G.
  { simpl in H. congruence. }
  destruct (vis && d) eqn:V; [simpl in H; rewrite V in H; congruence|].
  destruct (nd_node _ _ _ _ ND) as (N1 & N2 & NF & NB & DJ).
  destruct (node_step _ _ _ _ _ _ _ ND L V H) as (lf & lb & rf & rb & nw & on & E & LF & LB & Ef & Eb & EW & -> & _ & _ & C & _ & Z).
  rewrite !cnt_app. rewrite (IHf NF lf rf LF Ef SS SC EX BP x), (IHb NB lb rb LB Eb SS SC EX BP x);
    [|intros m M; apply G; simpl; rewrite in_app_iff; tauto..].
  assert (Gn : generic n x) by (apply G; left; reflexivity).
  assert (Z0 : cnt x on = 0).
  { destruct (Nat.eq_dec (cnt x on) 0) as [|NZ]; [assumption|]. destruct (Z SS SC x NZ) as (w & B & M). destruct (BP _ _ _ B M) as [A1 A2].
    unfold generic in Gn. rewrite A1, A2 in Gn. discriminate. }
  rewrite Z0, Nat.add_0_r. apply C; assumption.
Qed.

(** The portals on one node anywhere in the tree. *)
Lemma foreign_part n d f b l lf : foreign (PNode n d f b) l -> (forall q, In q lf -> exists p, In p l /\ bp_on q = bp_on p) ->
  forall c, (c = f \/ c = b) -> foreign c lf /\ (forall q, In q lf -> bp_on q <> Some n).
Proof.
  intros F H c C. split.
  - intros q k Q O I. destruct (H q Q) as (p & Ip & Op). apply (F p k Ip); [congruence|]. simpl. rewrite in_app_iff. destruct C; subst; tauto.
  - intros q Q O. destruct (H q Q) as (p & Ip & Op). apply (F p n Ip); [congruence|]. simpl. auto.
Qed.
Lemma bounds_on vis t l : NoDup (pids t) -> linked t l -> foreign t l -> forall r, tree_portals base cut tiny split vis t l = Some r ->
  forall s ls, bounds_at vis t l s ls ->
  foreign s ls /\ exists rs, tree_portals base cut tiny split vis s ls = Some rs /\
    (forall n, In n (pids s) -> on_node n r = on_node n rs).
Proof.
  intros ND L F r H s ls B. induction B as [|n d f b l1 lf lb B [IF IR] V E|n d f b l1 lf lb B [IF IR] V E].
  - split; [exact F|]. exists r. auto.
  - destruct (bounds_linked _ _ _ _ _ ND L B) as [IS IL]. pose proof (sub_nd _ _ _ ND IS) as ND1.
    destruct (nd_node _ _ _ _ ND1) as (N1 & N2 & NF & NB & DJ). destruct IR as (rs & Er & On).
    destruct (node_step _ _ _ _ _ _ _ ND1 IL V Er) as (lf' & lb' & rf & rb & nw & on & E' & LF & LB & Ef & Eb & EW & R & Oon & OL & _).
    rewrite E in E'. inversion E'; subst lf' lb'.
    destruct (foreign_part _ _ _ _ _ lf IF (fun q Q => OL q (or_introl Q)) f (or_introl eq_refl)) as [FF _].
    destruct (foreign_part _ _ _ _ _ lb IF (fun q Q => OL q (or_intror Q)) b (or_intror eq_refl)) as [FB _].
    split; [exact FF|]. exists rf. split; [exact Ef|]. intros m M.
    rewrite (On m) by (simpl; rewrite in_app_iff; tauto). rewrite R, !on_node_app.
    rewrite (on_node_none m rb), (on_node_none m on); [rewrite !app_nil_r; reflexivity| |].
    + intros q Q O. rewrite (Oon q Q) in O. inversion O; subst. contradiction.
    + intros q Q O. destruct (tree_on _ _ _ _ _ _ NB LB FB Eb Q O) as [I|(p & I & Op)]; [exact (DJ _ M I)|].
      destruct (OL p (or_intror I)) as (p' & I' & Op'). apply (IF p' m I'); [congruence|]. simpl. rewrite in_app_iff. tauto.
  - destruct (bounds_linked _ _ _ _ _ ND L B) as [IS IL]. pose proof (sub_nd _ _ _ ND IS) as ND1.
    destruct (nd_node _ _ _ _ ND1) as (N1 & N2 & NF & NB & DJ). destruct IR as (rs & Er & On).
    destruct (node_step _ _ _ _ _ _ _ ND1 IL V Er) as (lf' & lb' & rf & rb & nw & on & E' & LF & LB & Ef & Eb & EW & R & Oon & OL & _).
    rewrite E in E'. inversion E'; subst lf' lb'.
    destruct (foreign_part _ _ _ _ _ lf IF (fun q Q => OL q (or_introl Q)) f (or_introl eq_refl)) as [FF _].
    destruct (foreign_part _ _ _ _ _ lb IF (fun q Q => OL q (or_intror Q)) b (or_intror eq_refl)) as [FB _].
    split; [exact FB|]. exists rb. split; [exact Eb|]. intros m M.
    rewrite (On m) by (simpl; rewrite in_app_iff; tauto). rewrite R, !on_node_app.
    rewrite (on_node_none m rf), (on_node_none m on); [rewrite !app_nil_r; reflexivity| |].
    + intros q Q O. rewrite (Oon q Q) in O. inversion O; subst. contradiction.
    + intros q Q O. destruct (tree_on _ _ _ _ _ _ NF LF FF Ef Q O) as [I|(p & I & Op)]; [exact (DJ _ I M)|].
      destruct (OL p (or_introl I)) as (p' & I' & Op'). apply (IF p' m I'); [congruence|]. simpl. rewrite in_app_iff. tauto.
Qed.
Lemma on_count vis t l r n d f b ls nw : NoDup (pids t) -> linked t l -> foreign t l ->
  tree_portals base cut tiny split vis t l = Some r -> bounds_at vis t l (PNode n d f b) ls -> vis && d = false ->
  node_winding base cut tiny n ls = Some nw -> exact_split ->
  forall x, (forall m, In m (pids f ++ pids b) -> generic m x) ->
  cnt x (on_node n r) = match nw with Some w => if mem w x then 1 else 0 | None => 0 end.
Proof.
  intros ND L F H B V EW EX x G. destruct (bounds_linked _ _ _ _ _ ND L B) as [IS IL]. pose proof (sub_nd _ _ _ ND IS) as ND1.
  destruct (bounds_on _ _ _ ND L F r H _ _ B) as (IF & rs & Er & On). rewrite (On n) by (simpl; auto).
  destruct (nd_node _ _ _ _ ND1) as (N1 & N2 & NF & NB & DJ).
  destruct (node_step _ _ _ _ _ _ _ ND1 IL V Er) as (lf & lb & rf & rb & nw' & on & E & LF & LB & Ef & Eb & EW' & R & Oon & OL & _ & C & _).
  rewrite EW in EW'. inversion EW'; subst nw'.
  destruct (foreign_part _ _ _ _ _ lf IF (fun q Q => OL q (or_introl Q)) f (or_introl eq_refl)) as [FF Of].
  destruct (foreign_part _ _ _ _ _ lb IF (fun q Q => OL q (or_intror Q)) b (or_intror eq_refl)) as [FB Ob].
  rewrite R, !on_node_app, (on_node_none n rf), (on_node_none n rb), (on_node_all n on Oon); [apply C; assumption| |].
  - intros q Q O. destruct (tree_on _ _ _ _ _ _ NB LB FB Eb Q O) as [I|(p & I & Op)]; [exact (N2 I)|exact (Ob p I Op)].
  - intros q Q O. destruct (tree_on _ _ _ _ _ _ NF LF FF Ef Q O) as [I|(p & I & Op)]; [exact (N1 I)|exact (Of p I Op)].
Qed.

Lemma head_linked t sd w : linked t (head_portals (pid t) sd w).
Proof.
  apply Forall_forall. intros p P. unfold head_portals in P. rewrite in_map_iff in P. destruct P as (i & <- & _).
  destruct (sd i); [right|left]; (split; [reflexivity|]); intros k K; discriminate K.
Qed.
Lemma head_foreign t sd w : foreign t (head_portals (pid t) sd w).
Proof.
  intros p k P. unfold head_portals in P. rewrite in_map_iff in P. destruct P as (i & <- & _). destruct (sd i); discriminate.
Qed.
Lemma region_sub vis t s : sub vis t s -> forall k x, NoDup (pids t) -> region t (pid s) x -> region s k x -> region t k x.
Proof using side.
  assert (IN : forall u k x, region u k x -> In k (pids u)).
  { induction u as [|i d f IHf b IHb]; simpl; intros k x; [auto|]. rewrite in_app_iff. intros [->|[[_ H]|[_ H]]]; eauto. }
  intros HS k x.
  revert s HS. induction t as [i|n d f IHf b IHb]; intros s HS ND R1 R2.
  - assert (s = PLeaf i). { clear -HS. remember (PLeaf i) as u. induction HS; [reflexivity|..]; congruence. }
    subst. exact R2.
  - assert (OCC : forall u, sub vis (PNode n d f b) u -> u = PNode n d f b \/ sub vis f u \/ sub vis b u).
    { clear. remember (PNode n d f b) as t0. induction 1 as [|n' d' f' b' V HS IH|n' d' f' b' V HS IH]; [left; reflexivity| |]; right.
      - destruct IH as [E|[I|I]]; [rewrite Heqt0 in E; inversion E; subst; left; apply sub_refl|left; eapply sub_f; eauto|right; eapply sub_f; eauto].
      - destruct IH as [E|[I|I]]; [rewrite Heqt0 in E; inversion E; subst; right; apply sub_refl|left; eapply sub_b; eauto|right; eapply sub_b; eauto]. }
    destruct (nd_node _ _ _ _ ND) as (N1 & N2 & NF & NB & DJ).
    destruct (OCC _ HS) as [->|[I|I]]; [exact R2| |].
    + pose proof (sub_pids _ _ _ I _ (pid_in s)) as PI. simpl in R1 |- *. destruct R1 as [->|[[A R1]|[A R1]]].
      * contradiction.
      * right. left. split; [exact A|]. eauto.
      * exfalso. exact (DJ _ PI (IN _ _ _ R1)).
    + pose proof (sub_pids _ _ _ I _ (pid_in s)) as PI. simpl in R1 |- *. destruct R1 as [->|[[A R1]|[A R1]]].
      * contradiction.
      * exfalso. exact (DJ _ (IN _ _ _ R1) PI).
      * right. right. split; [exact A|]. eauto.
Qed.
End P.

(** ** Lists at nodes *)
Lemma node_eqb_eq a b : node_eqb a b = true <-> a = b.
Proof.
  destruct a, b; simpl; try (split; (discriminate || reflexivity)). rewrite Nat.eqb_eq. split; congruence.
Qed.
Lemma node_eqb_neq a b : node_eqb a b = false <-> a <> b.
Proof. rewrite <- node_eqb_eq. destruct (node_eqb a b); split; congruence. Qed.

(** The portals of node n among the first portals, newest first. *)
Definition at_node (n : option nat) (p : option nat * option nat) : bool := node_eqb (fst p) n || node_eqb (snd p) n.
Fixpoint incident (n : option nat) (i : nat) (l : list (option nat * option nat)) : list nat :=
  match l with [] => [] | p :: l => if at_node n p then i :: incident n (S i) l else incident n (S i) l end.
Lemma incident_app n i l1 l2 : incident n i (l1 ++ l2) = incident n i l1 ++ incident n (i + length l1) l2.
Proof.
  revert i. induction l1 as [|p l IH]; intro i; simpl; [rewrite Nat.add_0_r; reflexivity|].
  rewrite IH. replace (S i + length l) with (i + S (length l)) by lia. destruct (at_node n p); reflexivity.
Qed.
Lemma incident_lt n i l k : In k (incident n i l) -> i <= k < i + length l.
Proof.
  revert i. induction l as [|p l IH]; intro i; simpl; [tauto|]. destruct (at_node n p); simpl.
  - intros [->|H]; [lia|]. apply IH in H. lia.
  - intro H. apply IH in H. lia.
Qed.

Fixpoint chain (ps : list lportal) (n : option nat) (cur : option nat) (r : list nat) : Prop :=
  match r with
  | [] => cur = None
  | i :: r => cur = Some i /\ exists p, nth_error ps i = Some p /\ chain ps n (if node_eqb (lp_b p) n then lp_nb p else lp_nf p) r
  end.
Lemma chain_more ps q n cur r : chain ps n cur r -> chain (ps ++ q) n cur r.
Proof.
  revert cur. induction r as [|i r IH]; intros cur; simpl; [auto|]. intros (-> & p & E & C). split; [reflexivity|]. exists p.
  split; [|auto]. rewrite nth_error_app1; [exact E|]. apply nth_error_Some. congruence.
Qed.
Lemma chain_walk ps n cur r fuel : chain ps n cur r -> length r <= fuel -> walk ps n cur fuel = Some r.
Proof.
  revert cur fuel. induction r as [|i r IH]; intros cur fuel; simpl; [intros -> _; destruct fuel; reflexivity|].
  intros (-> & p & E & C) L. destruct fuel as [|fuel]; [lia|]. simpl. rewrite E, (IH _ _ C) by lia. reflexivity.
Qed.
Lemma link_inv l : (forall p, In p l -> fst p <> snd p) ->
  length (fst (link_portals l)) = length l /\
  (forall i p, nth_error l i = Some p -> exists q, nth_error (fst (link_portals l)) i = Some q /\ lp_f q = fst p /\ lp_b q = snd p) /\
  (forall n, chain (fst (link_portals l)) n (snd (link_portals l) n) (rev (incident n 0 l))).
Proof.
  induction l as [|p l IH] using rev_ind; intro D.
  { split; [reflexivity|]. split; [intros [|i] p E; discriminate E|]. intro n. reflexivity. }
  destruct IH as (LEN & NTH & CH); [intros q Q; apply D; apply in_or_app; auto|].
  specialize (D p ltac:(apply in_or_app; simpl; auto)).
  unfold link_portals in *. rewrite fold_left_app. cbn [fold_left].
  destruct (fold_left (fun s p => add_portal s (fst p) (snd p)) l ([], fun _ => None)) as [ps h]. simpl in LEN, NTH, CH.
  unfold add_portal. cbn [fst snd]. destruct p as [a b]. cbn [fst snd] in *.
  split; [rewrite !app_length; simpl; lia|]. split.
  - intros i p E. destruct (Nat.lt_ge_cases i (length l)) as [LT|GE].
    + rewrite nth_error_app1 in E by lia. destruct (NTH i p E) as (q & Eq & R). exists q. split; [|exact R].
      rewrite nth_error_app1 by lia. exact Eq.
    + rewrite nth_error_app2 in E by lia. destruct (i - length l) as [|m] eqn:S0; [|destruct m; discriminate E].
      inversion E; subst p. rewrite nth_error_app2 by lia. rewrite LEN, S0. simpl. eexists. split; [reflexivity|]. split; reflexivity.
  - intro n. rewrite incident_app, rev_app_distr. simpl. rewrite <- LEN. unfold at_node. cbn [fst snd]. unfold set_head.
    assert (NE : nth_error (ps ++ [mkLP a b (h a) (if node_eqb a b then Some (length ps) else h b)]) (length ps)
        = Some (mkLP a b (h a) (if node_eqb a b then Some (length ps) else h b))).
    { rewrite nth_error_app2, Nat.sub_diag by lia. reflexivity. }
    assert (AB : node_eqb a b = false) by (apply node_eqb_neq; exact D). rewrite AB in *.
    destruct (node_eqb b n) eqn:EB.
    + rewrite orb_true_r. simpl. apply node_eqb_eq in EB. subst n. split; [reflexivity|]. eexists. split; [exact NE|].
      cbn [lp_b lp_nb]. replace (node_eqb b b) with true by (symmetry; apply node_eqb_eq; reflexivity). apply chain_more. apply CH.
    + destruct (node_eqb a n) eqn:EA; simpl.
      * apply node_eqb_eq in EA. subst n. split; [reflexivity|]. eexists. split; [exact NE|].
        cbn [lp_b lp_nf]. rewrite EB. apply chain_more. apply CH.
      * apply chain_more. apply CH.
Qed.
Lemma incident_len n i l : length (incident n i l) <= length l.
Proof. revert i. induction l as [|p l IH]; intro i; simpl; [lia|]. specialize (IH (S i)). destruct (at_node n p); simpl; lia. Qed.
Lemma incident_in n i l k : In k (incident n i l) <-> exists p, i <= k /\ nth_error l (k - i) = Some p /\ (fst p = n \/ snd p = n).
Proof.
  revert i. induction l as [|p l IH]; intro i; simpl.
  { split; [tauto|]. intros (p & _ & E & _). destruct (k - i); discriminate. }
  assert (A : at_node n p = true <-> fst p = n \/ snd p = n) by (unfold at_node; rewrite orb_true_iff, !node_eqb_eq; tauto).
  assert (STEP : In k (incident n (S i) l) <-> exists p0, i < k /\ nth_error (p :: l) (k - i) = Some p0 /\ (fst p0 = n \/ snd p0 = n)).
  { rewrite IH. split.
    - intros (q & L & E & H). exists q. split; [lia|]. split; [|exact H]. replace (k - i) with (S (k - S i)) by lia. exact E.
    - intros (q & L & E & H). exists q. split; [lia|]. split; [|exact H]. replace (k - i) with (S (k - S i)) in E by lia. exact E. }
  destruct (at_node n p) eqn:AT; simpl; rewrite STEP; split.
  - intros [->|(q & L & R)]; [|exists q; split; [lia|exact R]]. exists p. rewrite Nat.sub_diag. simpl. repeat split; auto. apply A; reflexivity.
  - intros (q & L & R). destruct (Nat.eq_dec i k) as [->|NE]; [auto|]. right. exists q. split; [lia|exact R].
  - intros (q & L & R). exists q. split; [lia|exact R].
  - intros (q & L & R & H). destruct (Nat.eq_dec i k) as [->|NE]; [|exists q; split; [lia|auto]]. rewrite Nat.sub_diag in R. simpl in R. inversion R; subst.
    apply A in H. congruence.
Qed.
Lemma incident_nodup n i l : NoDup (incident n i l).
Proof.
  revert i. induction l as [|p l IH]; intro i; simpl; [constructor|]. destruct (at_node n p); [|apply IH].
  constructor; [|apply IH]. intro H. apply incident_lt in H. lia.
Qed.
