(* C110: portals of a BSP tree connect the right leafs. *)
From Coq Require Import List Arith Bool Lia ZArith.
From Verif Require Import PortalTreeModel PortalTreeProofs.
Import ListNotations.

Section S.
Context {W X : Type} (base : nat -> option W) (cut : W -> bportal W -> bool -> option W) (tiny : W -> bool)
  (split : nat -> W -> option W * option W) (mem : W -> X -> bool) (side : nat -> bool -> X -> bool).

(** None of the "mislinked portal" errors is raised, whatever the windings are. *)
Theorem C110_no_error vis t sd w : NoDup (pids t) -> make_portals base cut tiny split vis t sd w <> None.
Proof.
  intros ND. destruct (tree_spec (X := X) base cut tiny split mem side vis t ND _ (head_linked t sd w)) as (r & E & _).
  unfold make_portals. rewrite E. discriminate.
Qed.

(** A portal leads from a leaf to the outside, or it lies on a node and leads from a leaf in front of that node to one
    behind it.  For visibility a detail separator counts as a leaf, and no portal lies on one. *)
Theorem C110_ends vis t sd w r q : NoDup (pids t) -> make_portals base cut tiny split vis t sd w = Some r -> In q r ->
  (bp_on q = None /\ exists k, In k (terminals vis t) /\
     (bp_f q = Some k /\ bp_b q = None \/ bp_f q = None /\ bp_b q = Some k)) \/
  (exists n d f b kf kb, sub vis t (PNode n d f b) /\ vis && d = false /\ bp_on q = Some n /\
     bp_f q = Some kf /\ In kf (terminals vis f) /\ bp_b q = Some kb /\ In kb (terminals vis b) /\ kf <> kb).
Proof.
  intros ND E Q. destruct (tree_spec (X := X) base cut tiny split mem side vis t ND _ (head_linked t sd w)) as (r' & E' & P).
  unfold make_portals in E. rewrite E in E'. inversion E'; subst r'. destruct (P q Q) as [(p & k & I & K & PC)|C].
  - left. destruct PC as (O & En & _). unfold head_portals in I. rewrite in_map_iff in I. destruct I as (i & <- & _).
    destruct (sd i); simpl in O, En; (split; [exact O|]); exists k; (split; [exact K|]);
      destruct En as [(A & _ & B & D)|(A & _ & B & D)]; try discriminate A; auto.
  - right. destruct C as (n & d & f & b & kf & kb & HS & V & O & A1 & A2 & A3 & A4 & _). exists n, d, f, b, kf, kb.
    repeat (split; [assumption|]). intros ->.
    destruct (nd_node _ _ _ _ (sub_nd _ _ _ ND HS)) as (_ & _ & _ & _ & DJ). exact (DJ _ (term_in _ _ _ A2) (term_in _ _ _ A4)).
Qed.

(** If windings are clipped right, every point of a portal belongs to the leafs at both of its ends. *)
Theorem C110_inside vis t sd w r q e k x : NoDup (pids t) -> make_portals base cut tiny split vis t sd w = Some r -> In q r ->
  sound_split tiny split mem side -> sound_cut cut mem ->
  (forall n v y, base n = Some v -> mem v y = true -> region side t n y /\ side n true y = true /\ side n false y = true) ->
  mem (bp_w q) x = true -> e = bp_f q \/ e = bp_b q -> e = Some k -> region side t k x /\ In k (terminals vis t).
Proof.
  intros ND E Q SS SC BR M EE EK. destruct (tree_spec base cut tiny split mem side vis t ND _ (head_linked t sd w)) as (r' & E' & P).
  unfold make_portals in E. rewrite E in E'. inversion E'; subst r'. destruct (P q Q) as [(p & k' & I & K & PC)|C].
  - destruct PC as (O & En & S0). destruct (S0 SS x M) as [_ R]. unfold head_portals in I. rewrite in_map_iff in I. destruct I as (i & <- & _).
    assert (k = k') as ->; [|auto]. destruct (sd i); simpl in En; destruct En as [(A & _ & B & D)|(A & _ & B & D)]; try discriminate A;
      rewrite B, D in EE; destruct EE; congruence.
  - destruct C as (n & d & f & b & kf & kb & HS & V & O & A1 & A2 & A3 & A4 & S0).
    destruct (S0 SS SC x M) as ((v & Bv & Mv) & Rf & Rb). destruct (BR _ _ _ Bv Mv) as (Rn & Sf & Sb).
    assert (TT : forall k0, In k0 (terminals vis f) \/ In k0 (terminals vis b) -> In k0 (terminals vis t)).
    { intros k0 K0. apply (sub_terms _ _ _ HS). cbn [terminals]. rewrite V. apply in_or_app. exact K0. }
    destruct EE as [->| ->]; [rewrite A1 in EK|rewrite A3 in EK]; inversion EK; subst.
    + split; [|auto]. apply (region_sub side vis t _ HS _ _ ND); [exact Rn|]. simpl. auto.
    + split; [|auto]. apply (region_sub side vis t _ HS _ _ ND); [exact Rn|]. simpl. auto.
Qed.

(** If windings are split without loss, the portals to the outside cover the box around the map: each point that is on
    no plane is in as many portals as in sides of the box. *)
Theorem C110_box vis t sd w r x : NoDup (pids t) -> make_portals base cut tiny split vis t sd w = Some r ->
  sound_split tiny split mem side -> sound_cut cut mem -> exact_split tiny split mem side -> base_plane base mem side ->
  (forall n, In n (pids t) -> generic side n x) ->
  length (filter (fun q => mem (bp_w q) x) r) = length (filter (fun i => mem (w i) x) (seq 0 6)).
Proof.
  intros ND E SS SC EX BP G. pose proof (tree_count base cut tiny split mem side vis t ND _ _ (head_linked t sd w) E SS SC EX BP x G) as C.
  unfold cnt in C. rewrite C. unfold head_portals. generalize (seq 0 6) as l. induction l as [|i l IH]; [reflexivity|].
  simpl. destruct (sd i); simpl; destruct (mem (w i) x); simpl; rewrite IH; reflexivity.
Qed.

(** Likewise the portals on each node cover the winding of that node, without overlaps: a point that is on no plane
    below the node is in exactly one of them if it is in the winding, in none otherwise. *)
Theorem C110_node vis t sd w r n d f b bl nw x : NoDup (pids t) -> make_portals base cut tiny split vis t sd w = Some r ->
  bounds_at tiny split vis t (head_portals (pid t) sd w) (PNode n d f b) bl -> vis && d = false ->
  node_winding base cut tiny n bl = Some nw -> exact_split tiny split mem side ->
  (forall m, In m (pids f ++ pids b) -> generic side m x) ->
  length (filter (fun q => mem (bp_w q) x) (filter (fun q => is_node (bp_on q) n) r)) =
  match nw with Some v => if mem v x then 1 else 0 | None => 0 end.
Proof.
  intros ND E B V EW EX G.
  exact (on_count base cut tiny split mem side vis t _ r n d f b bl nw ND (head_linked t sd w) (head_foreign t sd w) E B V EW EX x G).
Qed.

(** The winding of a node is within the portals around the node: it is cut by the plane of each of them, and the part
    kept is the one in front if the node is in front of the portal, else the one behind. *)
Theorem C110_winding (half : bportal W -> bool -> X -> Prop) n bl v x :
  (forall w p s w' y, cut w p s = Some w' -> mem w' y = true -> mem w y = true /\ half p s y) ->
  node_winding base cut tiny n bl = Some (Some v) -> mem v x = true ->
  tiny v = false /\ (exists b, base n = Some b /\ mem b x = true) /\
  forall p, In p bl -> (bp_f p = Some n /\ half p true x) \/ (bp_f p <> Some n /\ bp_b p = Some n /\ half p false x).
Proof.
  intros SC H M. unfold node_winding in H.
  destruct (clip_all cut n (base n) bl) as [[u|]|] eqn:E; try discriminate.
  destruct (tiny u) eqn:T; [discriminate|]. assert (u = v) as -> by congruence. split; [exact T|].
  revert E. generalize (base n) as w0. induction bl as [|p bl IH]; intros w0 E.
  - cbn in E. assert (w0 = Some v) as -> by congruence. split; [exists v; auto|]. intros p [].
  - cbn [clip_all] in E. destruct w0 as [w|]; [|discriminate].
    destruct (is_node (bp_f p) n) eqn:F.
    + destruct (IH _ E) as ((b & B & Mb) & R). destruct (SC _ _ _ _ _ B Mb) as (Mw & Hh).
      split; [exists w; auto|]. intros q [<-|Q]; [|auto]. left. split; [|exact Hh].
      destruct (bp_f p); [|discriminate]. cbn in F. apply Nat.eqb_eq in F. congruence.
    + destruct (is_node (bp_b p) n) eqn:G; [|discriminate].
      destruct (IH _ E) as ((b & B & Mb) & R). destruct (SC _ _ _ _ _ B Mb) as (Mw & Hh).
      split; [exists w; auto|]. intros q [<-|Q]; [|auto]. right. split; [|split; [|exact Hh]].
      * intros Z. rewrite Z in F. cbn in F. rewrite Nat.eqb_refl in F. discriminate.
      * destruct (bp_b p); [|discriminate]. cbn in G. apply Nat.eqb_eq in G. congruence.
Qed.
End S.

(** From every node its list of portals can be walked to its end, and it has each portal of the node exactly once. *)
Theorem C110_lists {W : Type} (base : nat -> option W) cut tiny split vis t sd w r n : NoDup (pids t) ->
  make_portals base cut tiny split vis t sd w = Some r ->
  let s := link_portals (map (fun q => (bp_f q, bp_b q)) r) in
  exists l, walk (fst s) n (snd s n) (length r) = Some l /\ NoDup l /\
    (forall i, In i l <-> exists q, nth_error r i = Some q /\ (bp_f q = n \/ bp_b q = n)).
Proof.
  intros ND E s.
  assert (D : forall p, In p (map (fun q => (bp_f q, bp_b q)) r) -> fst p <> snd p).
  { intros p P. rewrite in_map_iff in P. destruct P as (q & <- & Q). simpl.
    destruct (C110_ends (X := unit) base cut tiny split (fun _ _ => true) (fun _ _ _ => true) vis t sd w r q ND E Q)
      as [(_ & k & _ & [[-> ->]|[-> ->]])|(? & ? & ? & ? & kf & kb & _ & _ & _ & -> & _ & -> & _ & NE)]; congruence. }
  destruct (link_inv _ D) as (LEN & _ & CH). fold s in LEN, CH. specialize (CH n). set (l0 := map (fun q => (bp_f q, bp_b q)) r) in *.
  exists (rev (incident n 0 l0)). split; [|split].
  - apply chain_walk; [exact CH|]. rewrite rev_length. pose proof (incident_len n 0 l0) as H. unfold l0 in H. rewrite map_length in H. exact H.
  - apply NoDup_rev. apply incident_nodup.
  - intro i. rewrite <- in_rev, incident_in. unfold l0. rewrite Nat.sub_0_r. split.
    + intros (p & _ & Ep & H). rewrite nth_error_map in Ep. destruct (nth_error r i) as [q|]; [|discriminate]. inversion Ep; subst p. eauto.
    + intros (q & Eq & H). exists (bp_f q, bp_b q). split; [lia|]. rewrite nth_error_map, Eq. split; [reflexivity|exact H].
Qed.

(** ** An example: windings are sets of points of a grid *)
Definition pt := (Z * Z)%type.
Definition pteqb (a b : pt) : bool := (fst a =? fst b)%Z && (snd a =? snd b)%Z.
Definition gmem (w : list pt) (x : pt) : bool := existsb (pteqb x) w.
(** Even nodes are the plane x = n, odd nodes y = n. *)
Definition gside (n : nat) (f : bool) (x : pt) : bool :=
  let d := ((if Nat.even n then fst x else snd x) - Z.of_nat n)%Z in if f then (0 <=? d)%Z else (d <=? 0)%Z.
Definition some (w : list pt) : option (list pt) := match w with [] => None | _ => Some w end.
Definition gsplit (n : nat) (w : list pt) : option (list pt) * option (list pt) :=
  (some (filter (gside n true) w), some (filter (gside n false) w)).
Definition grid : list pt := flat_map (fun x => map (fun y => (Z.of_nat x, Z.of_nat y)) (seq 0 9)) (seq 0 9).
Definition gtree : ptree := PNode 4 false (PNode 3 true (PLeaf 101) (PLeaf 102)) (PNode 5 false (PLeaf 103) (PLeaf 104)).
Definition gbase (n : nat) : option (list pt) := some (filter (fun x => gside n true x && gside n false x &&
   (if n =? 3 then gside 4 true x else if n =? 5 then gside 4 false x else true)) grid).
Definition gcut (w : list pt) (_ : bportal (list pt)) (_ : bool) : option (list pt) := some w.
Definition gbox (i : nat) : list pt := match i with
  | 0 => filter (fun x => fst x =? 0)%Z grid | 1 => filter (fun x => snd x =? 0)%Z grid
  | 3 => filter (fun x => fst x =? 8)%Z grid | 4 => filter (fun x => snd x =? 8)%Z grid | _ => [] end.
Definition gmake (tiny : list pt -> bool) (vis : bool) := make_portals gbase gcut tiny gsplit vis gtree Nat.even gbox.
Definition gends (r : option (list (bportal (list pt)))) := option_map (map (fun q => (bp_on q, bp_f q, bp_b q))) r.

Lemma gmem_filter p w x : gmem (filter p w) x = gmem w x && p x.
Proof.
  induction w as [|y w IH]; [reflexivity|]. cbn [filter]. destruct (p y) eqn:P; simpl; unfold gmem in *; rewrite ?IH.
  - destruct (pteqb x y) eqn:Q; simpl; [|reflexivity]. assert (x = y) as ->; [|rewrite P; reflexivity].
    unfold pteqb in Q. destruct x, y. simpl in Q. apply andb_true_iff in Q. rewrite !Z.eqb_eq in Q. destruct Q; congruence.
  - destruct (pteqb x y) eqn:Q; simpl; [|reflexivity]. assert (x = y) as ->; [|rewrite P, andb_false_r; reflexivity].
    unfold pteqb in Q. destruct x, y. simpl in Q. apply andb_true_iff in Q. rewrite !Z.eqb_eq in Q. destruct Q; congruence.
Qed.
Lemma gside_total n x : gside n true x = true \/ gside n false x = true.
Proof. unfold gside. rewrite !Z.leb_le. lia. Qed.
Definition never (w : list pt) : bool := false.
Lemma some_none w : some w = None -> w = []. Proof. destruct w; [reflexivity|discriminate]. Qed.
Lemma some_some w v : some w = Some v -> v = w. Proof. destruct w; simpl; congruence. Qed.
Lemma drop_never w : drop_tiny never w = w. Proof. destruct w; reflexivity. Qed.
Lemma gsound : sound_split never gsplit gmem gside.
Proof.
  intros n w x. cbn zeta. rewrite !drop_never. unfold gsplit. cbn [fst snd].
  pose proof (gmem_filter (gside n true) w x) as A. pose proof (gmem_filter (gside n false) w x) as B. pose proof (gside_total n x) as T.
  destruct (some (filter (gside n true) w)) as [wf|] eqn:E1; destruct (some (filter (gside n false) w)) as [wb|] eqn:E2.
  - apply some_some in E1, E2. subst wf wb. rewrite A, B, !andb_true_iff. tauto.
  - apply some_none in E2. rewrite E2 in B. intro M. rewrite M in B. change (gmem [] x) with false in B. cbn [andb] in B. destruct T as [T|T]; congruence.
  - apply some_none in E1. rewrite E1 in A. intro M. rewrite M in A. change (gmem [] x) with false in A. cbn [andb] in A. destruct T as [T|T]; congruence.
  - exact I.
Qed.
Lemma gexact : exact_split never gsplit gmem gside.
Proof.
  intros n w x G. unfold generic in G. cbn zeta. rewrite !drop_never. unfold gsplit. cbn [fst snd].
  pose proof (gmem_filter (gside n true) w x) as A. pose proof (gmem_filter (gside n false) w x) as B. pose proof (gside_total n x) as T.
  destruct (some (filter (gside n true) w)) as [wf|] eqn:E1; destruct (some (filter (gside n false) w)) as [wb|] eqn:E2; try exact I.
  - apply some_some in E1, E2. subst wf wb. rewrite A, B, G. destruct (gmem w x), (gside n false x); split; reflexivity.
  - apply some_none in E1, E2. rewrite E1 in A. rewrite E2 in B. change (gmem [] x) with false in A, B. destruct (gmem w x); [|reflexivity].
    cbn [andb] in A, B. destruct T as [T|T]; congruence.
Qed.
Lemma gcut_sound : sound_cut gcut gmem.
Proof. intros v p s v' x E M. unfold gcut in E. apply some_some in E. congruence. Qed.
Lemma gbase_plane n w x : gbase n = Some w -> gmem w x = true -> gside n true x = true /\ gside n false x = true.
Proof.
  intros E M. apply some_some in E. subst. rewrite gmem_filter in M. rewrite !andb_true_iff in M. tauto.
Qed.

(** All hypotheses of the theorems hold for the example, and its portals are these. *)
Example C110_nontrivial :
  NoDup (pids gtree) /\ sound_split never gsplit gmem gside /\ exact_split never gsplit gmem gside /\ sound_cut gcut gmem /\
  base_plane gbase gmem gside /\
  gends (gmake never false) = Some [
    (None, Some 101, None); (None, None, Some 101); (None, Some 102, None); (None, Some 102, None); (Some 3, Some 101, Some 102);
    (None, None, Some 103); (None, None, Some 103); (None, None, Some 104); (None, Some 104, None); (Some 5, Some 103, Some 104);
    (Some 4, Some 101, Some 103); (Some 4, Some 101, Some 104); (Some 4, Some 102, Some 104)] /\
  gends (gmake never true) = Some [
    (None, Some 3, None); (None, Some 3, None); (None, None, Some 3);
    (None, None, Some 103); (None, None, Some 103); (None, None, Some 104); (None, Some 104, None); (Some 5, Some 103, Some 104);
    (Some 4, Some 3, Some 103); (Some 4, Some 3, Some 104)].
Proof.
  split; [|split; [exact gsound|split; [exact gexact|split; [exact gcut_sound|split; [exact gbase_plane|]]]]].
  - simpl. repeat constructor; simpl; intuition discriminate.
  - vm_compute. split; reflexivity.
Qed.

(** Pieces that are taken for tiny do harm: the rest of the portal is not clipped.  Then a portal has points that do not
    belong to the leaf it leads to, and the leaf they belong to has no portal there. *)
Definition few (w : list pt) : bool := length w <=? 4.
Theorem C110_tiny_refuted : exists r q x,
  gmake few false = Some r /\ In q r /\ bp_on q = Some 4 /\ bp_f q = Some 101 /\ gmem (bp_w q) x = true /\
  ~ region gside gtree 101 x /\ region gside gtree 102 x /\
  forall p, In p r -> bp_on p = Some 4 -> bp_f p <> Some 102.
Proof.
  assert (E : exists r, gmake few false = Some r) by (vm_compute; eexists; reflexivity). destruct E as (r & E).
  exists r. vm_compute in E. inversion E; subst r. clear E.
  match goal with |- context [mkBP (Some 4) (Some 101) (Some 104) ?w] => exists (mkBP (Some 4) (Some 101) (Some 104) w) end.
  exists (4, 0)%Z. split; [vm_compute; reflexivity|]. split; [simpl; tauto|]. split; [reflexivity|]. split; [reflexivity|]. split; [reflexivity|].
  split; [|split].
  - unfold region, gtree, gside. simpl. intuition discriminate.
  - unfold region, gtree, gside. simpl. intuition.
  - intros p P. simpl in P. repeat (destruct P as [<-|P]; [simpl; discriminate|]). destruct P.
Qed.

Print Assumptions C110_no_error.
Print Assumptions C110_ends.
Print Assumptions C110_inside.
Print Assumptions C110_box.
Print Assumptions C110_node.
Print Assumptions C110_winding.
Print Assumptions C110_lists.
Print Assumptions C110_tiny_refuted.
