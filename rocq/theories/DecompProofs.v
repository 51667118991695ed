(* Lemmas about DecompModel. *)
From Coq Require Import Reals List ZArith Bool Arith Lra Lia.
From Verif Require Import WindClipModel WindClipProofs BspQueryModel BspQueryProofs DecompModel.
Import ListNotations.
Open Scope R_scope.

(** The point is strictly behind all planes. *)
Definition contains (pls : list plane) (p : vec) : bool := forallb (fun pl => if Rlt_dec (dist_to pl p) 0 then true else false) pls.
Definition hits (p : vec) (ts : list task) : list Z := map t_contents (filter (fun t => contains (t_planes t) p) ts).
(** Planes marked as axial are. *)
Definition axial (pl : dplane) : Prop :=
  (dp_type pl = 0%Z -> dp_n pl = mkV 1 0 0) /\ (dp_type pl = 1%Z -> dp_n pl = mkV 0 1 0) /\ (dp_type pl = 2%Z -> dp_n pl = mkV 0 0 1).

Lemma axial_dist pl p : axial pl -> distance_fast pl p = dist_to (mkPl (dp_n pl) (dp_d pl)) p.
Proof.
  intros (A & B & C). unfold distance_fast. destruct (dp_type pl) as [|q|q]; [rewrite A by reflexivity; unfold dist_to, dot; simpl; ring| |reflexivity].
  destruct q as [q|[q|q|]|]; try reflexivity; [rewrite C by reflexivity|rewrite B by reflexivity]; unfold dist_to, dot; simpl; ring.
Qed.
Lemma contains_app a b p : contains (a ++ b) p = contains a p && contains b p.
Proof. apply forallb_app. Qed.
Lemma contains_spec pls p : contains pls p = true <-> forall pl, In pl pls -> dist_to pl p < 0.
Proof. unfold contains. rewrite forallb_forall. split; intros H pl I; specialize (H pl I); destruct (Rlt_dec (dist_to pl p) 0); auto; discriminate. Qed.
Lemma hits_app p a b : hits p (a ++ b) = hits p a ++ hits p b.
Proof. unfold hits. rewrite filter_app, map_app. reflexivity. Qed.
Lemma neg_dist' pl p : dist_to (neg_plane pl) p = - dist_to pl p.
Proof. unfold dist_to, neg_plane, dot, scale. simpl. ring. Qed.
Lemma hits_leaf p stack c : hits p (leaf_task stack c) = if contains stack p && negb (c =? -1)%Z then [c] else [].
Proof. unfold leaf_task, hits. destruct (c =? -1)%Z; cbn [filter map negb t_planes]; [rewrite andb_false_r; reflexivity|]. rewrite andb_true_r. destruct (contains stack p); reflexivity. Qed.
Lemma contains_out stack pl front p : distance_fast pl p = dist_to (mkPl (dp_n pl) (dp_d pl)) p -> distance_fast pl p <> 0 ->
  contains (stack ++ [outward pl front]) p = contains stack p && (if Rle_dec 0 (distance_fast pl p) then front else negb front).
Proof.
  intros D N. rewrite contains_app. f_equal. unfold contains. cbn [forallb]. rewrite andb_true_r. unfold outward. destruct front.
  - rewrite neg_dist', <- D. destruct (Rlt_dec (- distance_fast pl p) 0), (Rle_dec 0 (distance_fast pl p)); try reflexivity; exfalso; apply N; lra.
  - rewrite <- D. destruct (Rlt_dec (distance_fast pl p) 0), (Rle_dec 0 (distance_fast pl p)); try reflexivity; exfalso; apply N; lra.
Qed.

Definition child_task (fuel : nat) (b : bsp) (stack : list plane) (num : Z) : ans (list task) :=
  if (num <? 0)%Z then abind (leaf_of b num) (fun '(_, l) => Got (leaf_task stack (l_contents l))) else decompile_node fuel b stack num.
Lemma decompile_points b p : (forall pl, In pl (b_planes b) -> axial pl /\ distance_fast pl p <> 0) ->
  forall num t, tree_at b num t -> forall fuel stack, (height t <= fuel)%nat -> exists ts i l, child_task fuel b stack num = Got ts /\
    find_leaf fuel b num p = Got (i, l) /\
    hits p ts = if contains stack p && negb (l_contents l =? -1)%Z then [l_contents l] else [].
Proof.
  intros OK num t T. induction T as [num l Hn Hl|num n pl f k Hn Hno Hp Hpl Tf IHf Tk IHk]; intros fuel stack H.
  - exists (leaf_task stack (l_contents l)), (-1 - num)%Z, l. unfold child_task. assert ((num <? 0)%Z = true) as -> by (apply Z.ltb_lt; exact Hn). rewrite (leaf_of_ok b num l) by assumption. split; [reflexivity|]. split; [|apply hits_leaf].
    destruct fuel; cbn [find_leaf]; neg_num Hn; apply leaf_of_ok; assumption.
  - cbn [height] in H. destruct fuel as [|fuel]; [lia|]. unfold child_task. assert ((num <? 0)%Z = false) as E0 by (apply Z.ltb_ge; exact Hn). rewrite E0.
    cbn [decompile_node find_leaf]. rewrite E0. rewrite (node_of_ok b num n pl) by assumption. cbn [abind]. rewrite at_z_nth by exact Hn. rewrite Hno. rewrite at_z_nth by exact Hp. rewrite Hpl.
    destruct (OK pl (nth_error_In _ _ Hpl)) as [AX ND]. pose proof (axial_dist pl p AX) as D.
    destruct (IHf fuel (stack ++ [outward pl true]) ltac:(lia)) as (t1 & i1 & l1 & A1 & B1 & C1).
    destruct (IHk fuel (stack ++ [outward pl false]) ltac:(lia)) as (t2 & i2 & l2 & A2 & B2 & C2).
    unfold child_task in A1, A2. rewrite A1. cbn [abind]. rewrite A2. cbn [abind].
    rewrite (contains_out stack pl true p D ND) in C1. rewrite (contains_out stack pl false p D ND) in C2.
    destruct (Rle_dec 0 (distance_fast pl p)).
    + exists (t1 ++ t2), i1, l1. split; [reflexivity|]. split; [exact B1|]. rewrite hits_app, C1, C2. cbn [negb]. rewrite andb_true_r, andb_false_r. cbn [andb]. apply app_nil_r.
    + exists (t1 ++ t2), i2, l2. split; [reflexivity|]. split; [exact B2|]. rewrite hits_app, C1, C2. cbn [negb]. rewrite andb_true_r, andb_false_r. reflexivity.
Qed.

Definition child_clip (fuel : nat) (b : bsp) (stack : list plane) (num : Z) : ans (list task) :=
  if (num <? 0)%Z then Got (leaf_task stack num) else decompile_clip fuel b stack num.
Lemma clip_points b p : (forall pl, In pl (b_planes b) -> axial pl /\ distance_fast pl p <> 0) ->
  forall num t, ctree_at b num t -> forall fuel stack par sd, (cheight t <= fuel)%nat -> exists ts par' sd' c, child_clip fuel b stack num = Got ts /\
    find_clip fuel b par sd num p = Got (par', sd', c) /\
    hits p ts = if contains stack p && negb (c =? -1)%Z then [c] else [].
Proof.
  intros OK num t T. induction T as [num Hn|num n pl f k Hn Hno Hp Hpl Tf IHf Tk IHk]; intros fuel stack par sd H.
  - exists (leaf_task stack num), par, sd, num. unfold child_clip. assert ((num <? 0)%Z = true) as E0 by (apply Z.ltb_lt; exact Hn). rewrite E0. split; [reflexivity|]. split; [|apply hits_leaf].
    destruct fuel; cbn [find_clip]; rewrite E0; reflexivity.
  - cbn [cheight] in H. destruct fuel as [|fuel]; [lia|]. unfold child_clip. assert ((num <? 0)%Z = false) as E0 by (apply Z.ltb_ge; exact Hn). rewrite E0.
    cbn [decompile_clip find_clip]. rewrite E0. rewrite at_z_nth by exact Hn. rewrite Hno. rewrite at_z_nth by exact Hp. rewrite Hpl.
    destruct (OK pl (nth_error_In _ _ Hpl)) as [AX ND]. pose proof (axial_dist pl p AX) as D.
    destruct (IHf fuel (stack ++ [outward pl true]) num (Some false) ltac:(lia)) as (t1 & pa1 & s1 & c1 & A1 & B1 & C1).
    destruct (IHk fuel (stack ++ [outward pl false]) num (Some true) ltac:(lia)) as (t2 & pa2 & s2 & c2 & A2 & B2 & C2).
    unfold child_clip in A1, A2. rewrite A1. cbn [abind]. rewrite A2. cbn [abind].
    rewrite (contains_out stack pl true p D ND) in C1. rewrite (contains_out stack pl false p D ND) in C2.
    destruct (Rle_dec 0 (distance_fast pl p)).
    + exists (t1 ++ t2), pa1, s1, c1. split; [reflexivity|]. split; [exact B1|]. rewrite hits_app, C1, C2. cbn [negb]. rewrite andb_true_r, andb_false_r. cbn [andb]. apply app_nil_r.
    + exists (t1 ++ t2), pa2, s2, c2. split; [reflexivity|]. split; [exact B2|]. rewrite hits_app, C1, C2. cbn [negb]. rewrite andb_true_r, andb_false_r. reflexivity.
Qed.

(** Every task begins with the planes of the stack. *)
Lemma node_stack b : forall fuel stack num ts, decompile_node fuel b stack num = Got ts -> forall t, In t ts -> exists r, t_planes t = stack ++ r.
Proof.
  induction fuel as [|fuel IH]; intros stack num ts H t I; [discriminate H|]. cbn [decompile_node] in H.
  destruct (at_z (b_nodes b) num) as [n|]; [|discriminate H]. destruct (at_z (b_planes b) (dn_plane n)) as [pl|]; [|discriminate H].
  assert (S : forall front child ts, (if (child <? 0)%Z then abind (leaf_of b child) (fun '(_, l) => Got (leaf_task (stack ++ [outward pl front]) (l_contents l))) else decompile_node fuel b (stack ++ [outward pl front]) child) = Got ts ->
            forall t, In t ts -> exists r, t_planes t = stack ++ r).
  { intros front child ts' E t' I'. destruct (child <? 0)%Z.
    - destruct (leaf_of b child) as [[? l]| | |]; cbn [abind] in E; try discriminate E. injection E as <-. unfold leaf_task in I'. destruct (l_contents l =? -1)%Z; [destruct I'|]. destruct I' as [<-|[]]. exists [outward pl front]. reflexivity.
    - destruct (IH _ _ _ E t' I') as [r R]. rewrite <- app_assoc in R. exists ([outward pl front] ++ r). exact R. }
  cbn zeta in H. match type of H with abind ?X _ = _ => destruct X as [f| | |] eqn:F; cbn [abind] in H; try discriminate H end.
  match type of H with abind ?X _ = _ => destruct X as [g| | |] eqn:G; cbn [abind] in H; try discriminate H end.
  injection H as <-. apply in_app_or in I. destruct I as [I|I]; [apply (S true _ _ F t I)|apply (S false _ _ G t I)].
Qed.
Lemma clip_stack b : forall fuel stack num ts, decompile_clip fuel b stack num = Got ts -> forall t, In t ts -> exists r, t_planes t = stack ++ r.
Proof.
  induction fuel as [|fuel IH]; intros stack num ts H t I; [discriminate H|]. cbn [decompile_clip] in H.
  destruct (at_z (b_clips b) num) as [n|]; [|discriminate H]. destruct (at_z (b_planes b) (dc_plane n)) as [pl|]; [|discriminate H].
  assert (S : forall front child ts, (if (child <? 0)%Z then Got (leaf_task (stack ++ [outward pl front]) child) else decompile_clip fuel b (stack ++ [outward pl front]) child) = Got ts ->
            forall t, In t ts -> exists r, t_planes t = stack ++ r).
  { intros front child ts' E t' I'. destruct (child <? 0)%Z.
    - injection E as <-. unfold leaf_task in I'. destruct (child =? -1)%Z; [destruct I'|]. destruct I' as [<-|[]]. exists [outward pl front]. reflexivity.
    - destruct (IH _ _ _ E t' I') as [r R]. rewrite <- app_assoc in R. exists ([outward pl front] ++ r). exact R. }
  cbn zeta in H. match type of H with abind ?X _ = _ => destruct X as [f| | |] eqn:F; cbn [abind] in H; try discriminate H end.
  match type of H with abind ?X _ = _ => destruct X as [g| | |] eqn:G; cbn [abind] in H; try discriminate H end.
  injection H as <-. apply in_app_or in I. destruct I as [I|I]; [apply (S true _ _ F t I)|apply (S false _ _ G t I)].
Qed.

Lemma bounds_contains mins maxs p : contains (bound_planes mins maxs) p = true <->
  vx mins < vx p < vx maxs /\ vy mins < vy p < vy maxs /\ vz mins < vz p < vz maxs.
Proof.
  rewrite contains_spec. unfold bound_planes. split.
  - intros H. assert (G : forall pl, In pl (bound_planes mins maxs) -> dist_to pl p < 0) by exact H. unfold bound_planes in G.
    pose proof (G _ (or_introl eq_refl)) as H1. pose proof (G _ (or_intror (or_introl eq_refl))) as H2. pose proof (G _ (or_intror (or_intror (or_introl eq_refl)))) as H3.
    pose proof (G _ (or_intror (or_intror (or_intror (or_introl eq_refl))))) as H4. pose proof (G _ (or_intror (or_intror (or_intror (or_intror (or_introl eq_refl)))))) as H5.
    pose proof (G _ (or_intror (or_intror (or_intror (or_intror (or_intror (or_introl eq_refl))))))) as H6.
    unfold dist_to, dot in *. cbn [p_n p_d vx vy vz] in *. lra.
  - intros H pl [<-|[<-|[<-|[<-|[<-|[<-|[]]]]]]]; unfold dist_to, dot; cbn [p_n p_d vx vy vz]; lra.
Qed.

(** ** RemoveRedundantPlanes *)
Lemma nth_put {A} : forall (l : list A) k x i, nth_error (put k x l) i = if (i =? k)%nat && (k <? length l)%nat then Some x else nth_error l i.
Proof.
  induction l as [|y l IH]; intros k x i.
  - cbn [length]. replace (k <? 0)%nat with false by (symmetry; apply Nat.ltb_ge; lia). rewrite andb_false_r. destruct k; reflexivity.
  - destruct k as [|k]; cbn [put length].
    + destruct i; reflexivity.
    + destruct i as [|i]; [reflexivity|]. cbn [nth_error]. rewrite IH. reflexivity.
Qed.
Lemma length_put {A} : forall (l : list A) k x, length (put k x l) = length l.
Proof. induction l as [|y l IH]; intros [|k] x; cbn [put length]; auto. Qed.
Lemma in_del {A} : forall (l : list A) k x, In x (del k l) <-> exists i, i <> k /\ nth_error l i = Some x.
Proof.
  induction l as [|y l IH]; intros k x.
  - unfold del. rewrite firstn_nil, skipn_nil. split; [intros []|]. intros (i & _ & E). destruct i; discriminate E.
  - destruct k as [|k].
    + unfold del. cbn [firstn skipn app]. split.
      * intros I. apply In_nth_error in I. destruct I as [i E]. exists (S i). split; [lia|exact E].
      * intros ([|i] & N & E); [lia|]. apply (nth_error_In l i). exact E.
    + change (del (S k) (y :: l)) with (y :: del k l). cbn [In]. rewrite IH. split.
      * intros [->|(i & N & E)]; [exists O; split; [lia|reflexivity]|exists (S i); split; [lia|exact E]].
      * intros ([|i] & N & E); [left; injection E as E; exact E|right; exists i; split; [lia|exact E]].
Qed.

(** What the loop keeps: arr agrees with the planes from k on, before it every place holds a plane of an earlier place. *)
Section redundant.
Context (eps : R) (planes : list plane).
Definition inv (k res : nat) (arr : list plane) : Prop :=
  length arr = length planes /\ (res <= k)%nat /\ (forall i, (k <= i)%nat -> nth_error arr i = nth_error planes i) /\
  (forall i q, (i < k)%nat -> nth_error arr i = Some q -> exists j, (j < k)%nat /\ nth_error planes j = Some q).
Lemma inv_skip k res arr : inv k res arr -> inv (S k) res arr.
Proof.
  intros (A & B & C & D). split; [exact A|]. split; [lia|]. split; [intros i H; apply C; lia|]. intros i q H E.
  destruct (Nat.eq_dec i k) as [->|N]; [exists k; split; [lia|]; rewrite <- C by lia; exact E|]. destruct (D i q ltac:(lia) E) as (j & J & F). exists j. split; [lia|exact F].
Qed.
Lemma inv_put k res arr pl : inv k res arr -> nth_error arr k = Some pl -> inv (S k) (S res) (put res pl arr).
Proof.
  intros (A & B & C & D) N. assert (L : (k < length arr)%nat) by (apply nth_error_Some; congruence). split; [rewrite length_put; exact A|]. split; [lia|]. split.
  - intros i H. rewrite nth_put. replace (i =? res)%nat with false by (symmetry; apply Nat.eqb_neq; lia). apply C. lia.
  - intros i q H E. rewrite nth_put in E. destruct ((i =? res)%nat && (res <? length arr)%nat).
    + injection E as <-. exists k. split; [lia|]. rewrite <- C by lia. exact N.
    + destruct (Nat.eq_dec i k) as [->|NE]; [exists k; split; [lia|]; rewrite <- C by lia; exact E|]. destruct (D i q ltac:(lia) E) as (j & J & F). exists j. split; [lia|exact F].
Qed.
Lemma in_firstn_put {A} : forall (l : list A) res x y, In y (firstn res l) -> In y (firstn (S res) (put res x l)).
Proof. induction l as [|z l IH]; intros [|res] x y I; cbn [firstn put In] in *; try contradiction. destruct I as [I|I]; [left; exact I|right]. exact (IH res x y I). Qed.
Lemma put_in {A} : forall (l : list A) res x, (res < length l)%nat -> In x (firstn (S res) (put res x l)).
Proof. induction l as [|z l IH]; intros [|res] x H; cbn [length] in H; try lia; [left; reflexivity|]. right. apply IH. lia. Qed.

(** Planes found not redundant at their time stay. *)
Lemma loop_keeps : forall todo k res arr, inv k res arr -> (length planes <= k + todo)%nat ->
  (forall y, In y (firstn res arr) -> In y (remove_if_loop eps todo k res arr)) /\
  (forall j pl, (k <= j)%nat -> nth_error planes j = Some pl -> (forall others, (forall q, In q others -> exists i, i <> j /\ nth_error planes i = Some q) -> clipped_away eps pl others = false) ->
     In pl (remove_if_loop eps todo k res arr)).
Proof.
  induction todo as [|todo IH]; intros k res arr I L.
  - split; [auto|]. intros j pl H N. assert (j < length planes)%nat by (apply nth_error_Some; congruence). lia.
  - cbn [remove_if_loop]. destruct (nth_error arr k) as [p|] eqn:N.
    + assert (K1 : forall y, In y (firstn res arr) -> In y (if clipped_away eps p (del k arr) then remove_if_loop eps todo (S k) res arr else remove_if_loop eps todo (S k) (S res) (put res p arr))).
      { intros y Y. destruct (clipped_away eps p (del k arr)).
        - apply (IH (S k) res arr (inv_skip k res arr I) ltac:(lia)). exact Y.
        - apply (IH (S k) (S res) _ (inv_put k res arr p I N) ltac:(lia)). apply in_firstn_put. exact Y. }
      split; [exact K1|]. intros j pl H E W. destruct (Nat.eq_dec j k) as [->|NE].
      * assert (p = pl) as -> by (destruct I as (_ & _ & C & _); rewrite C in N by lia; congruence).
        rewrite (W (del k arr)).
        -- apply (IH (S k) (S res) _ (inv_put k res arr pl I N) ltac:(lia)). apply put_in. destruct I as (LA & LE & _). assert (k < length arr)%nat by (apply nth_error_Some; congruence). lia.
        -- intros q Q. apply in_del in Q. destruct Q as (i & NI & Q). destruct I as (_ & _ & C & D). destruct (Nat.lt_ge_cases i k) as [LT|GE].
           ++ destruct (D i q LT Q) as (j & J & F). exists j. split; [lia|exact F].
           ++ exists i. split; [exact NI|]. rewrite <- C by exact GE. exact Q.
      * destruct (clipped_away eps p (del k arr)).
        -- apply (IH (S k) res arr (inv_skip k res arr I) ltac:(lia)) with (j := j); [lia|exact E|exact W].
        -- apply (IH (S k) (S res) _ (inv_put k res arr p I N) ltac:(lia)) with (j := j); [lia|exact E|exact W].
    + split; [auto|]. intros j pl H E _. assert (j < length planes)%nat by (apply nth_error_Some; congruence). destruct I as (LA & _). apply nth_error_None in N. lia.
Qed.
(** Nothing is added. *)
Lemma loop_from : forall todo k res arr, inv k res arr -> forall y, In y (remove_if_loop eps todo k res arr) -> In y planes.
Proof.
  assert (F : forall k res arr, inv k res arr -> forall y, In y (firstn res arr) -> In y planes).
  { intros k res arr (_ & L & C & D) y Y. apply In_nth_error in Y. destruct Y as [i E].
    assert (E2 : nth_error arr i = Some y) by (rewrite <- (firstn_skipn res arr); rewrite nth_error_app1; [exact E|apply nth_error_Some; congruence]).
    destruct (Nat.lt_ge_cases i k) as [LT|GE]; [destruct (D i y LT E2) as (j & _ & G); apply (nth_error_In _ _ G)|rewrite C in E2 by exact GE; apply (nth_error_In _ _ E2)]. }
  induction todo as [|todo IH]; intros k res arr I y Y; [apply (F k res arr I y Y)|]. cbn [remove_if_loop] in Y. destruct (nth_error arr k) as [p|] eqn:N; [|apply (F k res arr I y Y)].
  destruct (clipped_away eps p (del k arr)); [apply (IH _ _ _ (inv_skip k res arr I) y Y)|apply (IH _ _ _ (inv_put k res arr p I N) y Y)].
Qed.
End redundant.
Lemma inv_start planes : inv planes 0 0 planes.
Proof. split; [reflexivity|]. split; [lia|]. split; [reflexivity|]. intros i q H. lia. Qed.

(** A plane is clipped away by one that is parallel and not farther out. *)
Lemma clip_front_none pl eps w : 0 <= eps -> (forall p, In p w -> dist_to pl p <= eps) -> clip_front pl eps false w = None.
Proof.
  intros E H. unfold clip_front. cbn [andb]. assert (C : count pl eps Front w = 0%nat).
  { destruct (count pl eps Front w) eqn:C; [reflexivity|]. exfalso. assert (count pl eps Front w <> 0%nat) as K by lia. apply count_pos in K; [|discriminate]. destruct K as (p & I & S). apply side_front in S. specialize (H p I). lra. }
  rewrite C. reflexivity.
Qed.
Lemma clip_all_none eps l : clip_all eps l None = None. Proof. destruct l; reflexivity. Qed.
Lemma clip_front_sub pl eps w v : unit_plane pl -> 0 <= eps -> clip_front pl eps false w = Some v -> forall p, In p v -> hull (pts w) p.
Proof.
  intros U E H p I. unfold clip_front in H. cbn [andb] in H. destruct (count pl eps Front w =? 0)%nat; [discriminate H|]. destruct (count pl eps Back w =? 0)%nat; injection H as <-.
  - apply hull_pt. exact I.
  - apply (part_in_hull pl eps Front w U E p I).
Qed.
Lemma clip_all_away eps n : 0 <= eps -> forall l w d c, (forall q, In q l -> unit_plane q) -> (forall p, hull (pts w) p -> dot p n = d) -> In (neg_plane (mkPl n c)) l -> c <= d ->
  clip_all eps l (Some w) = None.
Proof.
  intros E l. induction l as [|q l IH]; intros w d c U W I L; [destruct I|]. cbn [clip_all]. destruct I as [->|I].
  - rewrite clip_front_none; [apply clip_all_none|exact E|]. intros p P. rewrite neg_dist'. unfold dist_to. cbn [p_n p_d]. rewrite (W p (hull_pt _ _ P)). lra.
  - destruct (clip_front q eps false w) as [v|] eqn:C; [|apply clip_all_none]. apply (IH v d c); [intros q' Q; apply U; right; exact Q| |exact I|exact L].
    intros p P. apply W. revert p P. apply hull_incl. intros p P. apply (clip_front_sub q eps w v (U q (or_introl eq_refl)) E C p P).
Qed.
Lemma away_parallel eps n d c others : 0 <= eps -> dot n n = 1 -> (forall q, In q others -> dot (p_n q) (p_n q) = 1) -> In (mkPl n c) others -> c <= d ->
  clipped_away eps (mkPl n d) others = true.
Proof.
  intros E U UO I L. unfold clipped_away. rewrite (clip_all_away eps n E (map neg_plane others) (from_plane (mkPl n d) far) d c); [reflexivity| | |apply in_map; exact I|exact L].
  - intros q Q. apply in_map_iff in Q. destruct Q as (q' & <- & Q). apply neg_unit. apply UO. exact Q.
  - intros p P. pose proof (from_plane_on (mkPl n d) far p U P) as D. unfold dist_to in D. cbn [p_n p_d] in D. lra.
Qed.

(** The loop does nothing while all planes are clipped away. *)
Lemma loop_skip eps planes : forall j todo k, (forall i pl, (k <= i < k + j)%nat -> nth_error planes i = Some pl -> clipped_away eps pl (del i planes) = true) -> (k + j <= length planes)%nat ->
  remove_if_loop eps (j + todo) k 0 planes = remove_if_loop eps todo (k + j) 0 planes.
Proof.
  induction j as [|j IH]; intros todo k H L; [rewrite Nat.add_0_r; reflexivity|]. cbn [Nat.add remove_if_loop].
  destruct (nth_error planes k) as [pl|] eqn:N; [|apply nth_error_None in N; lia]. rewrite (H k pl ltac:(lia) N). rewrite (IH todo (S k)); [f_equal; lia| |lia].
  intros i q I E. apply H; [lia|exact E].
Qed.
Lemma nth_skipn {A} : forall m (l : list A) k, (m <= k)%nat -> nth_error (skipn m l) (k - m) = nth_error l k.
Proof.
  induction m as [|m IH]; intros l k M; [rewrite Nat.sub_0_r; reflexivity|]. destruct k as [|k]; [lia|]. destruct l as [|q l]; [destruct (S k - S m)%nat; reflexivity|]. cbn [skipn nth_error Nat.sub]. apply IH. lia.
Qed.
Lemma firstn_put {A} : forall (l : list A) res p, (res < length l)%nat -> firstn (S res) (put res p l) = firstn res l ++ [p].
Proof.
  induction l as [|a l IH]; intros res p LT; [cbn in LT; lia|]. destruct res as [|res]; [reflexivity|]. cbn [length] in LT.
  change (firstn (S (S res)) (put (S res) p (a :: l))) with (a :: firstn (S res) (put res p l)). rewrite IH by lia. reflexivity.
Qed.
Lemma loop_suffix eps planes : forall todo k res arr, inv planes k res arr ->
  forall y m, (m <= k)%nat -> (forall z, In z (firstn res arr) -> In z (skipn m planes)) -> In y (remove_if_loop eps todo k res arr) -> In y (skipn m planes).
Proof.
  intros todo. induction todo as [|todo IH]; intros k res arr I y m M HS Y; [apply HS; exact Y|]. cbn [remove_if_loop] in Y. destruct (nth_error arr k) as [p|] eqn:N; [|apply HS; exact Y].
  destruct (clipped_away eps p (del k arr)).
  - exact (IH (S k) res arr (inv_skip planes k res arr I) y m ltac:(lia) HS Y).
  - refine (IH (S k) (S res) _ (inv_put planes k res arr p I N) y m ltac:(lia) _ Y).
    intros z Z. assert (LT : (res < length arr)%nat). { destruct I as (_ & LE & _). assert (k < length arr)%nat by (apply nth_error_Some; congruence). lia. }
    rewrite firstn_put in Z by exact LT. apply in_app_or in Z. destruct Z as [Z|[<-|[]]]; [apply HS; exact Z|].
    destruct I as (_ & _ & C & _). rewrite C in N by lia. apply (nth_error_In _ (k - m)). rewrite nth_skipn by exact M. exact N.
Qed.
Lemma redundant_suffix eps before rest : (forall i pl, (i < length before)%nat -> nth_error before i = Some pl -> clipped_away eps pl (del i (before ++ rest)) = true) ->
  forall y, In y (remove_redundant eps (before ++ rest)) -> In y rest.
Proof.
  intros H y Y. unfold remove_redundant in Y. rewrite app_length in Y. rewrite (loop_skip eps (before ++ rest) (length before) (length rest) 0) in Y.
  - cbn [Nat.add] in Y. apply (loop_suffix eps (before ++ rest) (length rest) (length before) 0 (before ++ rest)) with (m := length before) in Y.
    + rewrite skipn_app, skipn_all, Nat.sub_diag in Y. exact Y.
    + split; [reflexivity|]. split; [lia|]. split; [reflexivity|]. intros i q I E. exists i. split; [exact I|exact E].
    + lia.
    + intros z [].
  - intros i pl I E. rewrite nth_error_app1 in E by lia. apply H; [lia|exact E].
  - rewrite app_length. lia.
Qed.
(** A plane with a point inside all others is not clipped away. *)
Lemma not_away eps pl others x : 0 <= eps -> dot (p_n pl) (p_n pl) = 1 -> (forall q, In q others -> dot (p_n q) (p_n q) = 1) ->
  dist_to pl x = 0 -> dot x x <= far * far -> (forall q, In q others -> dist_to q x < - eps) ->
  exists v, clip_all eps (map neg_plane others) (Some (from_plane pl far)) = Some v /\ hull (pts v) x.
Proof.
  intros E U UO D B F. assert (FP : 0 < far) by (unfold far; lra).
  apply (clip_all_keeps _ _ _ eps (map neg_plane others) E) with (1 := ltac:(intros q Q; apply in_map_iff in Q; destruct Q as (q' & <- & Q); apply neg_unit; apply UO; exact Q) : forall q, In q (map neg_plane others) -> unit_plane q) (2 := from_plane_polygon pl far U FP).
  - apply from_plane_covers; assumption.
  - intros q Q. apply in_map_iff in Q. destruct Q as (q' & <- & Q). rewrite neg_dist'. specialize (F q' Q). lra.
Qed.

(** ** Quake 2 brushes *)
Section q2p.
Context (eps : R) (flat : list vec -> bool) (planes : list plane).
Hypothesis (E0 : 0 <= eps) (U : forall q, In q planes -> dot (p_n q) (p_n q) = 1).
Lemma in_combine_seq {A} (l : list A) : forall s k x, In (k, x) (combine (seq s (length l)) l) <-> (s <= k)%nat /\ nth_error l (k - s) = Some x.
Proof.
  induction l as [|a l IH]; intros s k x; cbn [length seq combine In].
  - split; [intros []|]. intros [_ H]. destruct (k - s)%nat; discriminate H.
  - rewrite IH. split.
    + intros [H|[L H]]; [injection H as <- <-; split; [lia|]; rewrite Nat.sub_diag; reflexivity|]. split; [lia|]. replace (k - s)%nat with (S (k - S s)) by lia. exact H.
    + intros [L H]. destruct (Nat.eq_dec k s) as [->|N]; [left; rewrite Nat.sub_diag in H; injection H as ->; reflexivity|right]. split; [lia|]. replace (k - s)%nat with (S (k - S s)) in H by lia. exact H.
Qed.
Lemma in_others away i q : In q (q2_others planes away i) <-> exists j, j <> i /\ ~ In j away /\ nth_error planes j = Some q.
Proof.
  unfold q2_others. rewrite in_map_iff. split.
  - intros ([j q'] & <- & H). apply filter_In in H. destruct H as [H1 H2]. cbn [fst snd] in *. apply in_combine_seq in H1. destruct H1 as [_ H1]. rewrite Nat.sub_0_r in H1.
    apply andb_true_iff in H2. destruct H2 as [H2 H3]. apply negb_true_iff in H2, H3. apply Nat.eqb_neq in H2. exists j. split; [exact H2|]. split; [|exact H1].
    intros I. assert (existsb (Nat.eqb j) away = true); [|congruence]. apply existsb_exists. exists j. split; [exact I|apply Nat.eqb_refl].
  - intros (j & N & A & H). exists (j, q). split; [reflexivity|]. apply filter_In. cbn [fst]. split; [apply in_combine_seq; rewrite Nat.sub_0_r; split; [lia|exact H]|].
    apply andb_true_iff. split; apply negb_true_iff; [apply Nat.eqb_neq; exact N|]. destruct (existsb (Nat.eqb j) away) eqn:X; [|reflexivity]. apply existsb_exists in X. destruct X as (j' & I & Q). apply Nat.eqb_eq in Q. subst j'. contradiction.
Qed.
Definition dup (j : nat) : Prop := exists k, (k < j)%nat /\ nth_error planes k = nth_error planes j.
Definition away_ok (i : nat) (away : list nat) : Prop := (forall j, In j away -> (i <= j)%nat) /\ (forall j, (i <= j < length planes)%nat -> dup j -> In j away).
Lemma dup_clipped i away pl : away_ok (S i) away -> nth_error planes i = Some pl -> dup i -> clip_all eps (map neg_plane (q2_others planes away i)) (Some (from_plane pl far)) = None.
Proof.
  intros (A & _) N (k & K & D). rewrite N in D. pose proof (U pl (nth_error_In _ _ N)) as UP. destruct pl as [n d]. cbn [p_n] in UP.
  apply (clip_all_away eps n E0 _ _ d d); [| | |lra].
  - intros q Q. apply in_map_iff in Q. destruct Q as (q' & <- & Q). apply neg_unit. apply in_others in Q. destruct Q as (j & _ & _ & Q). apply U. apply (nth_error_In _ _ Q).
  - intros p P. pose proof (from_plane_on (mkPl n d) far p UP P) as Z. unfold dist_to in Z. cbn [p_n p_d] in Z. lra.
  - apply in_map. apply in_others. exists k. split; [lia|]. split; [|exact D]. intros I. apply A in I. lia.
Qed.
Lemma dup_dec j : dup j \/ ~ dup j.
Proof.
  unfold dup. assert (G : forall m, (exists k, (k < m)%nat /\ nth_error planes k = nth_error planes j) \/ ~ (exists k, (k < m)%nat /\ nth_error planes k = nth_error planes j)).
  { induction m as [|m IH]; [right; intros (k & K & _); lia|]. destruct IH as [(k & K & H)|H]; [left; exists k; split; [lia|exact H]|].
    assert (D : nth_error planes m = nth_error planes j \/ nth_error planes m <> nth_error planes j).
    { destruct (nth_error planes m) as [[[a b c] d]|], (nth_error planes j) as [[[a' b' c'] d']|]; try (right; discriminate); [|left; reflexivity].
      destruct (Req_EM_T a a') as [<-|N]; [|right; congruence]. destruct (Req_EM_T b b') as [<-|N]; [|right; congruence]. destruct (Req_EM_T c c') as [<-|N]; [|right; congruence]. destruct (Req_EM_T d d') as [<-|N]; [|right; congruence]. left. reflexivity. }
    destruct D as [D|D]; [left; exists m; split; [lia|exact D]|]. right. intros (k & K & Q). destruct (Nat.eq_dec k m) as [->|N]; [contradiction|]. apply H. exists k. split; [lia|exact Q]. }
  apply G.
Qed.
Lemma away_push i away : away_ok (S i) away -> away_ok i (i :: away).
Proof. intros (A & B). split; [intros j [<-|I]; [lia|apply A in I; lia]|]. intros j J D. destruct (Nat.eq_dec i j) as [->|N]; [left; reflexivity|right; apply B; [lia|exact D]]. Qed.
Lemma away_skip i away : away_ok (S i) away -> ~ dup i -> away_ok i away.
Proof. intros (A & B) N. split; [intros j I; apply A in I; lia|]. intros j J D. destruct (Nat.eq_dec i j) as [->|NE]; [contradiction|apply B; [lia|exact D]]. Qed.

(** The planes of the result are planes of the list, by numbers that are not repetitions. *)
Lemma q2_sound : forall i away, (i <= length planes)%nat -> away_ok i away -> exists ks, map fst (q2_loop eps flat i planes away) = flat_map (fun k => match nth_error planes k with Some pl => [pl] | None => [] end) ks /\
  NoDup ks /\ forall k, In k ks -> (k < i)%nat /\ ~ dup k.
Proof.
  induction i as [|i IH]; intros away L A; cbn [q2_loop]; [exists []; split; [reflexivity|]; split; [constructor|intros k []]|].
  destruct (nth_error planes i) as [pl|] eqn:N; [|apply nth_error_None in N; lia].
  destruct (clip_all eps (map neg_plane (q2_others planes away i)) (Some (from_plane pl far))) as [w|] eqn:C.
  - assert (ND : ~ dup i) by (intros D; rewrite (dup_clipped i away pl A N D) in C; discriminate C). destruct (IH away ltac:(lia) (away_skip i away A ND)) as (ks & K1 & K2 & K3).
    destruct (flat w).
    + exists ks. split; [exact K1|]. split; [exact K2|]. intros k K. destruct (K3 k K). split; [lia|assumption].
    + exists (i :: ks). cbn [map flat_map fst]. rewrite N, K1. split; [reflexivity|]. split; [constructor; [intros K; destruct (K3 i K); lia|exact K2]|]. intros k [<-|K]; [split; [lia|exact ND]|]. destruct (K3 k K). split; [lia|assumption].
  - destruct (IH (i :: away) ltac:(lia) (away_push i away A)) as (ks & K1 & K2 & K3). exists ks. split; [exact K1|]. split; [exact K2|]. intros k K. destruct (K3 k K). split; [lia|assumption].
Qed.
Lemma NoDup_planes ks : NoDup ks -> (forall k, In k ks -> ~ dup k) -> NoDup (flat_map (fun k => match nth_error planes k with Some pl => [pl] | None => [] end) ks).
Proof.
  induction ks as [|k ks IH]; intros ND F; cbn [flat_map]; [constructor|]. inversion ND as [|? ? NI ND']; subst. specialize (IH ND' (fun k K => F k (or_intror K))).
  destruct (nth_error planes k) as [pl|] eqn:N; [|exact IH]. cbn [app]. constructor; [|exact IH]. intros I. apply in_flat_map in I. destruct I as (j & J & I).
  destruct (nth_error planes j) as [q|] eqn:M; [|destruct I]. destruct I as [<-|[]]. destruct (Nat.lt_trichotomy j k) as [LT|[->|GT]]; [|contradiction|].
  - apply (F k (or_introl eq_refl)). exists j. split; [exact LT|congruence].
  - apply (F j (or_intror J)). exists k. split; [exact GT|congruence].
Qed.
(** A plane with a point inside all the others is kept. *)
Lemma q2_keeps pl k x : nth_error planes k = Some pl -> ~ dup k -> dist_to pl x = 0 -> dot x x <= far * far ->
  (forall q, In q planes -> q <> pl -> dist_to q x < - eps) -> (forall w, hull (pts w) x -> flat w = false) ->
  forall i away, (k < i)%nat -> (i <= length planes)%nat -> away_ok i away -> exists w, In (pl, w) (q2_loop eps flat i planes away) /\ hull (pts w) x.
Proof.
  intros NK ND D B F FL. induction i as [|i IH]; intros away KI L A; [lia|]. cbn [q2_loop]. destruct (nth_error planes i) as [q|] eqn:N; [|apply nth_error_None in N; lia].
  destruct (Nat.eq_dec i k) as [->|NE].
  - assert (q = pl) as -> by congruence. destruct (not_away eps pl (q2_others planes away k) x) as (v & V & HV); try assumption.
    + apply U. apply (nth_error_In _ _ NK).
    + intros q Q. apply in_others in Q. destruct Q as (j & _ & _ & Q). apply U. apply (nth_error_In _ _ Q).
    + intros q Q. apply in_others in Q. destruct Q as (j & NJ & NA & Q). apply F; [apply (nth_error_In _ _ Q)|]. intros ->. destruct A as (A1 & A2). destruct (Nat.lt_trichotomy j k) as [LT|[->|GT]]; [apply ND; exists j; split; [exact LT|congruence]|apply NJ; reflexivity|].
      apply NA. apply A2; [split; [lia|apply nth_error_Some; congruence]|]. exists k. split; [exact GT|congruence].
    + rewrite V, (FL v HV). exists v. split; [left; reflexivity|exact HV].
  - destruct (clip_all eps (map neg_plane (q2_others planes away i)) (Some (from_plane q far))) as [w|] eqn:C.
    + assert (NDi : ~ dup i) by (intros Di; rewrite (dup_clipped i away q A N Di) in C; discriminate C). destruct (IH away ltac:(lia) ltac:(lia) (away_skip i away A NDi)) as (w' & W & HW). destruct (flat w); [exists w'; auto|]. exists w'. split; [right; exact W|exact HW].
    + apply (IH (i :: away)); [lia|lia|apply away_push; exact A].
Qed.
End q2p.
Lemma away_start planes : away_ok planes (length planes) [].
Proof. split; [intros j []|]. intros j J. lia. Qed.

(** ** Faces and splitting *)
Definition piece (f g : face) : Prop := f_tex f = f_tex g /\ forall x, hull (pts (f_w f)) x -> hull (pts (f_w g)) x.
Lemma piece_refl f : piece f f. Proof. split; [reflexivity|auto]. Qed.
Lemma piece_trans f g h : piece f g -> piece g h -> piece f h. Proof. intros [A B] [C D]. split; [congruence|auto]. Qed.
Lemma front_piece eps pl fs f : dot (p_n pl) (p_n pl) = 1 -> 0 <= eps -> In f (front_faces eps pl fs) -> exists g, In g fs /\ piece f g /\ forall x, hull (pts (f_w f)) x -> - eps <= dist_to pl x.
Proof.
  intros U E I. apply in_flat_map in I. destruct I as (g & G & I). destruct (clip pl eps false (f_w g)) as [a b] eqn:C. cbn [fst] in I. unfold with_w in I. destruct a as [w|]; [|destruct I]. destruct I as [<-|[]].
  destruct (clip_inside pl eps false (f_w g) _ _ U E C) as [H _]. exists g. split; [exact G|]. split; [split; [reflexivity|]|]; intros x X; apply (H w eq_refl x X).
Qed.
Lemma back_piece eps pl fs f : dot (p_n pl) (p_n pl) = 1 -> 0 <= eps -> In f (back_faces eps pl fs) -> exists g, In g fs /\ piece f g /\ forall x, hull (pts (f_w f)) x -> dist_to pl x <= eps.
Proof.
  intros U E I. apply in_flat_map in I. destruct I as (g & G & I). destruct (clip pl eps false (f_w g)) as [a b] eqn:C. cbn [snd] in I. unfold with_w in I. destruct b as [w|]; [|destruct I]. destruct I as [<-|[]].
  destruct (clip_inside pl eps false (f_w g) _ _ U E C) as [_ H]. exists g. split; [exact G|]. split; [split; [reflexivity|]|]; intros x X; apply (H w eq_refl x X).
Qed.
Lemma back_fold eps qs : 0 <= eps -> forall fs f, (forall q, In q qs -> dot (p_n (fst q)) (p_n (fst q)) = 1) -> In f (fold_left (fun fs (q : plane * list face) => back_faces eps (fst q) fs) qs fs) ->
  exists g, In g fs /\ piece f g /\ forall q, In q qs -> forall x, hull (pts (f_w f)) x -> dist_to (fst q) x <= eps.
Proof.
  intros E. induction qs as [|q qs IH]; intros fs f U I; cbn [fold_left] in I; [exists f; split; [exact I|]; split; [apply piece_refl|intros q []]|].
  destruct (IH _ _ (fun q' Q => U q' (or_intror Q)) I) as (g & G & P & H). destruct (back_piece eps (fst q) fs g (U q (or_introl eq_refl)) E G) as (h & Hh & PH & HB). exists h. split; [exact Hh|]. split; [exact (piece_trans f g h P PH)|].
  intros q' [<-|Q] x X; [apply HB; apply P; exact X|apply (H q' Q x X)].
Qed.

Section splitp.
Context (eps : R) (edges : list vec -> list plane).
Definition cnt (outs : list (list bside)) (p : vec) : nat := length (filter (fun o => contains (map s_plane o) p) outs).
Lemma cnt_app a b p : cnt (a ++ b) p = (cnt a p + cnt b p)%nat. Proof. unfold cnt. rewrite filter_app, app_length. reflexivity. Qed.
Lemma front_planes pl br : map s_plane (brush_front eps pl br) = map s_plane br ++ [neg_plane pl].
Proof. unfold brush_front. rewrite map_app, map_map. reflexivity. Qed.
Lemma back_planes pl br : map s_plane (brush_back eps pl br) = map s_plane br ++ [pl].
Proof. unfold brush_back. rewrite map_app, map_map. reflexivity. Qed.
Lemma contains_one pl p : contains [pl] p = true <-> dist_to pl p < 0.
Proof. unfold contains. cbn [forallb]. rewrite andb_true_r. destruct (Rlt_dec (dist_to pl p) 0); split; auto; discriminate. Qed.
Ltac cases_split H := cbn [split_r] in H; destruct (find needs_split _) as [s|] eqn:FD; [destruct (suggest eps edges s) as [pl|] eqn:SG; [destruct (zero_plane pl) eqn:ZP; [|
   destruct (split_r eps edges _ (brush_front eps pl _)) as [fo| | |] eqn:EF; cbn [abind] in H; try discriminate H; destruct (split_r eps edges _ (brush_back eps pl _)) as [ba| | |] eqn:EB; cbn [abind] in H; try discriminate H]|]|]; injection H as <-.
Lemma split_planes : forall fuel br outs, split_r eps edges fuel br = Got outs -> forall o, In o outs -> exists extra, map s_plane o = map s_plane br ++ extra.
Proof.
  induction fuel as [|fuel IH]; intros br outs H o O; [discriminate H|]. cases_split H; try destruct O as [].
  - apply in_app_or in O. destruct O as [O|O]; [destruct (IH _ _ EF o O) as [x X]; rewrite front_planes, <- app_assoc in X|destruct (IH _ _ EB o O) as [x X]; rewrite back_planes, <- app_assoc in X]; eexists; exact X.
  - exists []. subst. rewrite app_nil_r. reflexivity.
  - contradiction.
Qed.
Lemma split_once : forall fuel br outs, split_r eps edges fuel br = Got outs -> forall p, (cnt outs p <= if contains (map s_plane br) p then 1 else 0)%nat.
Proof.
  induction fuel as [|fuel IH]; intros br outs H p; [discriminate H|]. cases_split H; try apply Nat.le_0_l.
  - rewrite cnt_app. pose proof (IH _ _ EF p) as F. pose proof (IH _ _ EB p) as B. rewrite front_planes, contains_app in F. rewrite back_planes, contains_app in B.
    destruct (contains (map s_plane br) p); cbn [andb] in F, B; [|lia]. destruct (contains [neg_plane pl] p) eqn:C1, (contains [pl] p) eqn:C2; try lia.
    apply contains_one in C1, C2. rewrite neg_dist' in C1. lra.
  - unfold cnt. cbn [filter]. destruct (contains (map s_plane br) p); apply le_n.
Qed.
Lemma split_uniform : forall fuel br outs, split_r eps edges fuel br = Got outs -> forall o s, In o outs -> In s o -> needs_split s = false.
Proof.
  induction fuel as [|fuel IH]; intros br outs H o s' O I; [discriminate H|]. cases_split H; try destruct O as [].
  - apply in_app_or in O. destruct O as [O|O]; [apply (IH _ _ EF o s' O I)|apply (IH _ _ EB o s' O I)].
  - subst. apply (find_none _ _ FD s' I).
  - contradiction.
Qed.
(** Brushes met on the way. *)
Inductive reach (br : list bside) : list bside -> Prop :=
| reach_refl : reach br br
| reach_front b pl : reach br b -> reach br (brush_front eps pl b)
| reach_back b pl : reach br b -> reach br (brush_back eps pl b).
Lemma reach_trans a b c : reach a b -> reach b c -> reach a c.
Proof. intros A B. induction B; [exact A|apply reach_front; assumption|apply reach_back; assumption]. Qed.
Definition stuck (b : list bside) : Prop := exists s, In s b /\ needs_split s = true /\ match suggest eps edges s with None => True | Some pl => zero_plane pl = true end.
Lemma split_covers : forall fuel br outs, split_r eps edges fuel br = Got outs -> exists cuts, forall p, contains (map s_plane br) p = true -> (forall pl, In pl cuts -> dist_to pl p <> 0) ->
  cnt outs p = 1%nat \/ exists b, reach br b /\ stuck b /\ contains (map s_plane b) p = true.
Proof.
  induction fuel as [|fuel IH]; intros br outs H; [discriminate H|]. cases_split H.
  - exists []. intros p C _. right. exists br. split; [constructor|]. split; [|exact C]. apply find_some in FD. destruct FD. exists s. rewrite SG. auto.
  - destruct (IH _ _ EF) as [c1 H1]. destruct (IH _ _ EB) as [c2 H2]. exists (pl :: c1 ++ c2). intros p C O. pose proof (O pl (or_introl eq_refl)) as N. rewrite front_planes in H1. rewrite back_planes in H2.
    pose proof (split_once fuel _ _ EF p) as F. pose proof (split_once fuel _ _ EB p) as B. rewrite front_planes, contains_app in F. rewrite back_planes, contains_app in B.
    destruct (Rlt_dec (dist_to pl p) 0) as [L|L].
    + assert (C2 : contains [pl] p = true) by (apply contains_one; exact L). assert (C1 : contains [neg_plane pl] p = false). { destruct (contains [neg_plane pl] p) eqn:K; [|reflexivity]. apply contains_one in K. rewrite neg_dist' in K. lra. }
      rewrite C1, andb_false_r in F. destruct (H2 p) as [K|(b & R & S & CB)]; [rewrite contains_app, C, C2; reflexivity|intros q Q; apply O; right; apply in_or_app; right; exact Q|left; rewrite cnt_app; lia|]. right. exists b. split; [|split; assumption]. apply (reach_trans br (brush_back eps pl br) b); [apply reach_back; constructor|exact R].
    + assert (C1 : contains [neg_plane pl] p = true) by (apply contains_one; rewrite neg_dist'; lra). assert (C2 : contains [pl] p = false). { destruct (contains [pl] p) eqn:K; [|reflexivity]. apply contains_one in K. lra. }
      rewrite C2, andb_false_r in B. destruct (H1 p) as [K|(b & R & S & CB)]; [rewrite contains_app, C, C1; reflexivity|intros q Q; apply O; right; apply in_or_app; left; exact Q|left; rewrite cnt_app; lia|]. right. exists b. split; [|split; assumption]. apply (reach_trans br (brush_front eps pl br) b); [apply reach_front; constructor|exact R].
  - exists []. intros p C _. right. exists br. split; [constructor|]. split; [|exact C]. apply find_some in FD. destruct FD. exists s. rewrite SG. auto.
  - exists []. intros p C _. left. unfold cnt. cbn [filter]. rewrite C. reflexivity.
Qed.
(** Faces are pieces of the faces of the same side. *)
Lemma suggest_edge s pl : suggest eps edges s = Some pl -> exists f, In f (s_faces s) /\ In pl (edges (f_w f)).
Proof.
  unfold suggest. intros H. assert (G : forall l acc n q, fold_left (better eps (s_faces s)) l acc = Some (n, q) -> In q l \/ acc = Some (n, q)).
  { induction l as [|a l IH]; intros acc n q E; [right; exact E|]. cbn [fold_left] in E. destruct (IH _ _ _ E) as [I|A]; [left; right; exact I|]. unfold better in A.
    destruct (length (front_faces eps a (s_faces s)) =? 0)%nat; [right; exact A|]. destruct (length (back_faces eps a (s_faces s)) =? 0)%nat; [right; exact A|]. destruct acc as [[m q']|].
    - destruct (_ <? m)%nat; [injection A as _ <-; left; left; reflexivity|right; exact A].
    - injection A as _ <-. left. left. reflexivity. }
  destruct (fold_left _ _ None) as [[n q]|] eqn:E; [|discriminate H]. injection H as <-. destruct (G _ _ _ _ E) as [I|I]; [|discriminate I]. apply in_flat_map in I. destruct I as (f & F & I). exists f. auto.
Qed.
Hypothesis (E0 : 0 <= eps) (EU : forall w pl, In pl (edges w) -> dot (p_n pl) (p_n pl) = 1).
Definition from_side (br : list bside) (k : nat) (s : bside) : Prop := forall f, In f (s_faces s) -> exists s0 g, nth_error br k = Some s0 /\ In g (s_faces s0) /\ piece f g.
Lemma split_faces : forall fuel br outs, split_r eps edges fuel br = Got outs -> forall o k s, In o outs -> nth_error o k = Some s -> from_side br k s.
Proof.
  assert (ST : forall (cut : plane -> list face -> list face) last pl br, (forall fs f, In f (cut pl fs) -> exists g, In g fs /\ piece f g) -> s_faces last = [] ->
     forall k s, from_side (map (fun s => mkSide (s_plane s) (cut pl (s_faces s))) br ++ [last]) k s -> from_side br k s).
  { intros cut last pl br C LA k s FS f F. destruct (FS f F) as (s0 & g & N & G & P). destruct (Nat.lt_ge_cases k (length br)) as [LT|GE].
    - rewrite nth_error_app1 in N by (rewrite map_length; exact LT). rewrite nth_error_map in N. destruct (nth_error br k) as [s1|] eqn:N1; [|discriminate N]. injection N as <-. cbn [s_faces] in G. destruct (C _ _ G) as (h & H & PH). exists s1, h. split; [reflexivity|]. split; [exact H|apply (piece_trans f g h); assumption].
    - rewrite nth_error_app2 in N by (rewrite map_length; exact GE). apply nth_error_In in N. destruct N as [<-|[]]. rewrite LA in G. destruct G. }
  induction fuel as [|fuel IH]; intros br outs H o k s' O N; [discriminate H|]. cases_split H; try destruct O as [].
  - destruct (suggest_edge s pl SG) as (f & _ & I). pose proof (EU _ _ I) as UP. apply in_app_or in O. destruct O as [O|O].
    + apply (ST (front_faces eps) (mkSide (neg_plane pl) []) pl br); [|reflexivity|apply (IH _ _ EF o k s' O N)]. intros fs g G. destruct (front_piece eps pl fs g UP E0 G) as (h & A & B & _). exists h. auto.
    + apply (ST (back_faces eps) (mkSide pl []) pl br); [|reflexivity|apply (IH _ _ EB o k s' O N)]. intros fs g G. destruct (back_piece eps pl fs g UP E0 G) as (h & A & B & _). exists h. auto.
  - subst. intros f F. exists s', f. split; [exact N|]. split; [exact F|apply piece_refl].
  - contradiction.
Qed.
End splitp.
