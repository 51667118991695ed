(* Statements: surface lights in the manner of Quake (C149). *)
From Coq Require Import Reals ZArith NArith List Bool Lra Lia Arith Sorting.Sorted.
From Verif Require Import CmdlibModel CmdlibProofs WindClipModel WindClipProofs PolyGeoModel PropertiesPolyGeo LightValModel SunModel SurfSubModel SurfSubProofs.
Import ListNotations.
Open Scope R_scope.

(** ** Pieces of a face *)
(** Convex polygons are round; points on edges, as T junctions leave them, do not change this. *)
Theorem C149_convex : forall o e1 e2 w, polygon o e1 e2 w -> round w.
Proof.
  intros o e1 e2 w (_ & us & N3 & CV & EW) pl i j k l IJ JK KL LN (A & B & C & D). subst w. rewrite map_length in LN. unfold convex, pt2 in *.
  assert (E : forall x, (x < length us)%nat -> nth x (map (emb o e1 e2) us) (mkV 0 0 0) = emb o e1 e2 (nth x us (0, 0))).
  { intros x X. rewrite (nth_indep _ _ (emb o e1 e2 (0, 0))) by (rewrite map_length; exact X). apply map_nth. }
  rewrite E in A, B, C, D by lia.
  pose proof (CV i j k IJ JK (Nat.lt_trans _ _ _ KL LN)) as H1. pose proof (CV i j l IJ (Nat.lt_trans _ _ _ JK KL) LN) as H2. pose proof (CV i k l (Nat.lt_trans _ _ _ IJ JK) KL LN) as H3. pose proof (CV j k l JK KL LN) as H4.
  set (a := nth i us (0, 0)) in *. set (b := nth j us (0, 0)) in *. set (c := nth k us (0, 0)) in *. set (d := nth l us (0, 0)) in *. clearbody a b c d.
  assert (X : o2 b c d * dist_to pl (emb o e1 e2 a) + o2 a b d * dist_to pl (emb o e1 e2 c) = o2 a c d * dist_to pl (emb o e1 e2 b) + o2 a b c * dist_to pl (emb o e1 e2 d)).
  { destruct a, b, c, d. unfold o2, dist_to, dot, emb, WindClipModel.add, WindClipModel.scale. cbn [vx vy vz fst snd]. ring. }
  assert (0 < o2 b c d * dist_to pl (emb o e1 e2 a)) by (apply Rmult_lt_0_compat; assumption). assert (0 < o2 a b d * dist_to pl (emb o e1 e2 c)) by (apply Rmult_lt_0_compat; assumption).
  assert (o2 a c d * dist_to pl (emb o e1 e2 b) < 0) by nra. assert (o2 a b c * dist_to pl (emb o e1 e2 d) < 0) by nra. lra.
Qed.
Print Assumptions C149_convex.
Theorem C149_tjunc : forall l1 a b l2 t, 0 < t < 1 -> round (l1 ++ a :: b :: l2) -> round (l1 ++ a :: mix t a b :: b :: l2).
Proof.
  intros l1 a b l2 t T H. set (w := l1 ++ a :: b :: l2) in *. set (n := length l1).
  assert (LW : length w = (n + S (S (length l2)))%nat) by (unfold w; rewrite app_length; reflexivity).
  assert (G : forall k, at_pos w (k, 0) = vert w k) by (intro k; unfold at_pos; cbn [fst snd]; apply mix_0).
  set (f := fun k => if Nat.eqb k n then [(k, 0); (k, t)] else [(k, 0)]).
  assert (FN : forall k, k <> n -> f k = [(k, 0)]) by (intros k N; unfold f; rewrite (proj2 (Nat.eqb_neq k n)) by exact N; reflexivity).
  assert (PLAIN : forall c s, (forall k, In k (seq s c) -> k <> n) -> map (at_pos w) (flat_map f (seq s c)) = map (vert w) (seq s c)).
  { induction c as [|c IH]; intros s B; [reflexivity|]. cbn [seq flat_map map]. rewrite (FN s) by (apply B; left; reflexivity). cbn [app map]. rewrite G, IH; [reflexivity|]. intros k I. apply B. right. exact I. }
  assert (NTH : forall u s, (s + length u <= length w)%nat -> (forall x, (x < length u)%nat -> nth (s + x) w (mkV 0 0 0) = nth x u (mkV 0 0 0)) -> map (vert w) (seq s (length u)) = u).
  { induction u as [|x u IH]; intros s B E; [reflexivity|]. cbn [length seq map] in *. rewrite (IH (S s)); [|lia|].
    - rewrite vert_nth by lia. pose proof (E 0%nat ltac:(lia)) as E0. rewrite Nat.add_0_r in E0. rewrite E0. reflexivity.
    - intros y Y. pose proof (E (S y) ltac:(lia)) as ES. replace (S s + y)%nat with (s + S y)%nat by lia. exact ES. }
  replace (l1 ++ a :: mix t a b :: b :: l2) with (map (at_pos w) (flat_map f (seq 0 (length w)))).
  - apply round_pos; [exact H| |].
    + apply sorted_chunks; intro k; unfold f; destruct (Nat.eqb k n).
      * intros p [<- |[<- |[]]]; reflexivity.
      * intros p [<- |[]]; reflexivity.
      * constructor; [constructor; constructor|constructor; [|constructor]]. right. cbn [fst snd]. split; [reflexivity|split; [reflexivity|lra]].
      * constructor; constructor.
    + intros p P. apply in_flat_map in P. destruct P as (k & K & P). apply in_seq in K. unfold f in P. destruct (Nat.eqb k n); [destruct P as [<- |[<- |[]]]|destruct P as [<- |[]]]; cbn [fst snd]; (split; [lia|lra]).
  - rewrite LW, seq_app, flat_map_app, map_app. cbn [Nat.add]. rewrite PLAIN by (intros k I; apply in_seq in I; lia). cbn [seq flat_map]. rewrite !map_app. fold n.
    f_equal; [apply (NTH l1 0%nat); [unfold n in *; lia|intros x X; cbn [Nat.add]; unfold w; rewrite app_nth1 by exact X; reflexivity]|].
    replace (f n) with [(n, 0); (n, t)] by (unfold f; rewrite Nat.eqb_refl; reflexivity). rewrite (FN (S n)) by lia. cbn [map app]. rewrite !G.
    assert (VA : vert w n = a) by (rewrite vert_nth by lia; unfold w, n; rewrite app_nth2 by lia; rewrite Nat.sub_diag; reflexivity).
    assert (VB : vert w (S n) = b) by (rewrite vert_nth by lia; unfold w, n; rewrite app_nth2 by lia; replace (S (length l1) - length l1)%nat with 1%nat by lia; reflexivity).
    f_equal; [exact VA|]. f_equal; [unfold at_pos; cbn [fst snd]; rewrite VA, VB; reflexivity|]. f_equal; [exact VB|].
    rewrite PLAIN by (intros k I; apply in_seq in I; lia). apply (NTH l2 (S (S n))); [lia|]. intros x X. unfold w, n. rewrite app_nth2 by lia. replace (S (S (length l1)) + x - length l1)%nat with (S (S x)) by lia. reflexivity.
Qed.
Print Assumptions C149_tjunc.

(** The recursion ends for all polygons and sizes. *)
Theorem C149_ends : forall size w, pieces size w <> Fuel.
Proof. intros size w. unfold pieces. destruct (64 <? length w)%nat; [discriminate|]. apply subdivide_ends, rounds_enough. Qed.
Print Assumptions C149_ends.

(** A round face with at most 51 points is cut without a write outside of the arrays.  The pieces cover the face and nothing
    else, and all of them are round, not empty and less than 16 units wider than the size asked for. *)
Theorem C149_pieces : forall size w, 0 < size -> w <> [] -> (length w <= 51)%nat -> round w ->
  exists l, pieces size w = Pieces l /\ (forall x, hull (pts w) x <-> exists p, In p l /\ hull (pts p) x) /\
    forall p, In p l -> p <> [] /\ round p /\ forall i u v, (i < 3)%nat -> In u p -> In v p -> coord i u - coord i v < size + 16.
Proof.
  intros size w S NE N RW. unfold pieces. replace (64 <? length w)%nat with false by (symmetry; apply Nat.ltb_ge; lia).
  destruct (subdivide_ok size (length w) S N (rounds w) w (repeat 0%nat (length w)) RW NE (marked_start w NE) (subdivide_ends size _ w (rounds_enough w))) as (l & E).
  exists l. split; [exact E|]. destruct (subdivide_pieces size _ _ _ E) as (A & B). split.
  - intro x. split; [apply B; exact RW|]. intros (p & P & H). apply (hull_incl (pts p)); [|exact H]. intros v V. exact (proj2 (proj2 (proj2 (A p P))) v V).
  - intros p P. destruct (A p P) as (C & X & Y & _). split; [exact (X NE)|]. split; [exact (Y RW)|]. intros i u v I U V. pose proof (no_cut_small size p i S I C) as Q. specialize (X NE).
    pose proof (proj2 (hi_spec i p X) u U). pose proof (proj2 (lo_spec i p X) v V). lra.
Qed.
Print Assumptions C149_pieces.

(** Faces may have 64 points (-maxedges), but one with 64 points that must be cut is written past the ends of dist and verts;
    faces with more points are written past the end of verts before their number is checked. *)
Theorem C149_overflow_refuted : forall size, 0 < size ->
  (forall w, (64 < length w)%nat -> pieces size w = Overflow) /\
  (forall w i u v, length w = 64%nat -> (i < 3)%nat -> In u w -> In v w -> size + 16 <= coord i u - coord i v -> pieces size w = Overflow) /\
  exists o e1 e2 w, polygon o e1 e2 w /\ length w = 64%nat /\ pieces size w = Overflow.
Proof.
  intros size S. split; [intros w L; unfold pieces; replace (64 <? length w)%nat with true by (symmetry; apply Nat.ltb_lt; exact L); reflexivity|].
  assert (G : forall w i u v, length w = 64%nat -> (i < 3)%nat -> In u w -> In v w -> size + 16 <= coord i u - coord i v -> pieces size w = Overflow).
  { intros w i u v L I U V D. assert (NE : w <> []) by (intros ->; discriminate L). unfold pieces. rewrite L. change (64 <? 64)%nat with false. unfold rounds. cbn [subdivide]. rewrite L. change (64 <? 64)%nat with false. change (64 =? 64)%nat with true.
    destruct (first_cut size w) as [[j m]|] eqn:C; [reflexivity|]. pose proof (no_cut_small size w i S I C). pose proof (proj2 (hi_spec i w NE) u U). pose proof (proj2 (lo_spec i w NE) v V). lra. }
  split; [exact G|].
  set (g := fun k => (INR k * (size + 16), INR k * INR k)). set (us := map g (seq 0 64)). assert (LU : length us = 64%nat) by reflexivity.
  exists (mkV 0 0 0), (mkV 1 0 0), (mkV 0 1 0), (map (emb (mkV 0 0 0) (mkV 1 0 0) (mkV 0 1 0)) us).
  assert (NT : forall k, (k < 64)%nat -> nth k us (0, 0) = (INR k * (size + 16), INR k * INR k)).
  { intros k K. unfold us. rewrite (nth_indep _ _ (g 0%nat)) by (rewrite map_length, seq_length; exact K). rewrite map_nth, seq_nth by exact K. reflexivity. }
  split; [|split; [rewrite map_length; exact LU|]].
  - split; [cbn; unfold len, cross, dot; cbn [vx vy vz]; apply sqrt_lt_R0; lra|]. exists us. split; [rewrite LU; lia|]. split; [|reflexivity]. unfold convex, pt2. intros i j k IJ JK KN. rewrite LU in KN. rewrite !NT by lia. unfold o2. cbn [fst snd]. apply lt_INR in IJ, JK.
    set (x := INR i) in *. set (y := INR j) in *. set (z := INR k) in *. clearbody x y z. replace (_ - _) with ((size + 16) * ((y - x) * ((z - x) * (z - y)))) by ring.
    apply Rmult_lt_0_compat; [lra|]. apply Rmult_lt_0_compat; [lra|]. apply Rmult_lt_0_compat; lra.
  - assert (IN : forall k, (k < 64)%nat -> In (emb (mkV 0 0 0) (mkV 1 0 0) (mkV 0 1 0) (INR k * (size + 16), INR k * INR k)) (map (emb (mkV 0 0 0) (mkV 1 0 0) (mkV 0 1 0)) us)) by (intros k K; apply in_map; rewrite <- NT by exact K; apply nth_In; rewrite LU; exact K).
    apply (G _ 0%nat _ _ (eq_trans (map_length _ _) LU) ltac:(lia) (IN 1%nat ltac:(lia)) (IN 0%nat ltac:(lia))). unfold emb, WindClipModel.add, WindClipModel.scale, coord. cbn [vx vy vz fst snd INR]. lra.
Qed.
Print Assumptions C149_overflow_refuted.

(** ** Faces and templates *)
Theorem C149_match : forall def f t, matches def f t = true <->
  match t_radiosity t with Some r => r | None => def end = 0%Z /\ (f_group f = 0 \/ t_group t = 0 \/ t_group t = f_group f)%Z /\ map lower (f_name f) = map lower (t_surface t).
Proof. intros def f t. unfold matches. rewrite !andb_true_iff, !orb_true_iff, !Z.eqb_eq, iequals_iff. tauto. Qed.
Print Assumptions C149_match.

(** Each face is handled once, if some leaf that is not under water, or any leaf for a face that is not translucent, has it. *)
Theorem C149_once : forall faces ls v, leafs faces ls [] = Some v -> NoDup v /\
  forall k, In k v <-> exists f under ks, nth_error faces k = Some f /\ In (under, ks) ls /\ In k ks /\ f_model f <> None /\ (under = false \/ f_trans f = false).
Proof.
  intros faces ls v.
  assert (SK : forall under f, skipped under f = false <-> f_model f <> None /\ (under = false \/ f_trans f = false)).
  { intros under f. unfold skipped. destruct (f_model f); [|split; [discriminate|intros (X & _); congruence]]. rewrite andb_false_iff. split; [intro H; split; [discriminate|exact H]|intros (_ & H); exact H]. }
  assert (MK : forall under ks vis v, marks faces under ks vis = Some v -> NoDup vis -> NoDup v /\ forall k, In k v <-> In k vis \/ In k ks /\ exists f, nth_error faces k = Some f /\ skipped under f = false).
  { intros under. induction ks as [|k ks IH]; intros vis v0 H ND; cbn [marks] in H; [injection H as <-; split; [exact ND|]; intro k; split; [auto|intros [X|([] & _)]; exact X]|].
    destruct (nth_error faces k) as [f|] eqn:F; [|discriminate H].
    assert (IN : existsb (Nat.eqb k) vis = true <-> In k vis).
    { rewrite existsb_exists. split; [intros (x & X & E); apply Nat.eqb_eq in E; subst x; exact X|intro X; exists k; split; [exact X|apply Nat.eqb_refl]]. }
    destruct (skipped under f || existsb (Nat.eqb k) vis) eqn:E.
    - destruct (IH _ _ H ND) as (A & B). split; [exact A|]. intro x. rewrite B. split.
      + intros [X|(X & Y)]; [left; exact X|right; split; [right; exact X|exact Y]].
      + intros [X|([<- |X] & (f2 & Y & Z))]; [left; exact X| |right; split; [exact X|exists f2; split; assumption]].
        rewrite F in Y. injection Y as <-. apply orb_true_iff in E. rewrite Z in E. destruct E as [E|E]; [discriminate E|]. left. apply IN, E.
    - apply orb_false_iff in E. destruct E as (E1 & E2). assert (NI : ~ In k vis) by (intro X; apply IN in X; congruence).
      assert (ND2 : NoDup (vis ++ [k])) by (apply NoDup_rev in ND; rewrite <- (rev_involutive (vis ++ [k])), rev_app_distr; apply NoDup_rev; cbn [rev app]; constructor; [intro X; apply NI, in_rev, X|exact ND]).
      destruct (IH _ _ H ND2) as (A & B). split; [exact A|]. intro x. rewrite B, in_app_iff. cbn [In]. split.
      + intros [[X|[<- |[]]]|(X & Y)]; [left; exact X|right; split; [left; reflexivity|exists f; split; assumption]|right; split; [right; exact X|exact Y]].
      + intros [X|([<- |X] & Y)]; [left; left; exact X|left; right; left; reflexivity|right; split; assumption]. }
  assert (G : forall ls vis v, leafs faces ls vis = Some v -> NoDup vis -> NoDup v /\ forall k, In k v <-> In k vis \/ exists f under ks, nth_error faces k = Some f /\ In (under, ks) ls /\ In k ks /\ skipped under f = false).
  { clear ls v. induction ls as [|[under ks] ls IH]; intros vis v H ND; cbn [leafs] in H; [injection H as <-; split; [exact ND|]; intro k; split; [auto|intros [X|(f & u & ks & _ & [] & _)]; exact X]|].
    destruct (marks faces under ks vis) as [vis2|] eqn:M; [|discriminate H]. destruct (MK _ _ _ _ M ND) as (A & B). destruct (IH _ _ H A) as (C & D). split; [exact C|]. intro k. rewrite D, B. split.
    - intros [[X|(X & f & Y & Z)]|(f & u & kk & X & Y & Z)]; [left; exact X|right; exists f, under, ks; split; [exact Y|split; [left; reflexivity|split; assumption]]|right; exists f, u, kk; split; [exact X|split; [right; exact Y|exact Z]]].
    - intros [X|(f & u & kk & X & [Y|Y] & Z & W)]; [left; left; exact X|injection Y as <- <-; left; right; split; [exact Z|exists f; split; assumption]|right; exists f, u, kk; repeat split; assumption]. }
  intro H. destruct (G _ _ _ H (NoDup_nil _)) as (A & B). split; [exact A|]. intro k. rewrite B. split.
  - intros [[]|(f & u & ks & X & Y & Z & W)]. exists f, u, ks. apply SK in W. tauto.
  - intros (f & u & ks & X & Y & Z & W). right. exists f, u, ks. apply SK in W. tauto.
Qed.
Print Assumptions C149_once.

(** The lights: one for each piece and template that matches, in front of the centroid of the piece, moved with the model; a
    spotlight shines along the normal. *)
Theorem C149_lights : forall def size rad ents faces ls out, surface_lights def size rad ents faces ls = Some out -> templates rad ents <> [] ->
  exists v, leafs faces ls [] = Some v /\
  (forall e spot, In (e, spot) out <-> exists k f t l p c, In k v /\ nth_error faces k = Some f /\ In t (templates rad ents) /\ matches def f t = true /\ pieces size (f_pts f) = Pieces l /\ In p l /\ poly_centroid p = Some c /\
     e = with_origin (t_ent t) (WindClipModel.add (WindClipModel.add c (WindClipModel.scale (if Req_EM_T (t_offset t) 0 then 2 else t_offset t) (f_normal f))) (match f_model f with Some o => o | None => zero end)) /\
     spot = if t_spot t then Some (f_normal f) else None).
Proof.
  intros def size rad ents faces ls out H NT. unfold surface_lights in H. destruct (templates rad ents) as [|t0 ts0] eqn:ET; [congruence|]. rewrite <- ET in *. clear ET t0 ts0 NT. set (ts := templates rad ents) in *. clearbody ts. clear rad ents.
  destruct (leafs faces ls []) as [v|]; [|discriminate H]. exists v. split; [reflexivity|]. clear ls. revert out H. induction v as [|k v IH]; intros out H e spot; cbn [lights_of] in H.
  - injection H as <-. split; [intros []|intros (k & f & t & l & p & c & [] & _)].
  - destruct (nth_error faces k) as [f|] eqn:F; [|discriminate H]. set (off := match f_model f with Some o => o | None => zero end) in *.
    destruct (on_face def size ts f off) as [a|] eqn:OF; [|discriminate H]. destruct (lights_of def size ts faces v) as [b|]; [|discriminate H]. injection H as <-. rewrite in_app_iff, (IH b eq_refl e spot).
    assert (OA : In (e, spot) a <-> exists t l p c, In t ts /\ matches def f t = true /\ pieces size (f_pts f) = Pieces l /\ In p l /\ poly_centroid p = Some c /\
      e = with_origin (t_ent t) (WindClipModel.add (WindClipModel.add c (WindClipModel.scale (if Req_EM_T (t_offset t) 0 then 2 else t_offset t) (f_normal f))) off) /\ spot = if t_spot t then Some (f_normal f) else None).
    { unfold on_face in OF. destruct (existsb (matches def f) ts) eqn:EX.
      - destruct (pieces size (f_pts f)) as [l| | |] eqn:P; try discriminate OF. injection OF as <-. rewrite in_flat_map. split.
        + intros (p & IP & X). apply in_flat_map in X. destruct X as (t & IT & X). destruct (matches def f t) eqn:M; [|destruct X]. unfold on_piece in X. destruct (poly_centroid p) as [c|] eqn:C; [|destruct X]. destruct X as [X|[]]. injection X as <- <-.
          exists t, l, p, c. repeat split; try assumption. unfold is0. destruct (Req_EM_T (t_offset t) 0); reflexivity.
        + intros (t & l2 & p & c & IT & M & P2 & IP & C & E & S). injection P2 as <-. exists p. split; [exact IP|]. apply in_flat_map. exists t. split; [exact IT|]. rewrite M. unfold on_piece. rewrite C. left. rewrite E, S. unfold is0. destruct (Req_EM_T (t_offset t) 0); reflexivity.
      - injection OF as <-. split; [intros []|]. intros (t & l & p & c & IT & M & _). assert (X : existsb (matches def f) ts = true) by (apply existsb_exists; exists t; split; assumption). congruence. }
    rewrite OA. split.
    + intros [(t & l & p & c & X)|(k2 & f2 & t & l & p & c & IK & X)]; [exists k, f, t, l, p, c; split; [left; reflexivity|split; [exact F|exact X]]|exists k2, f2, t, l, p, c; split; [right; exact IK|exact X]].
    + intros (k2 & f2 & t & l & p & c & [<- |IK] & F2 & X); [left; rewrite F in F2; injection F2 as <-; exists t, l, p, c; exact X|right; exists k2, f2, t, l, p, c; split; [exact IK|split; [exact F2|exact X]]].
Qed.
Print Assumptions C149_lights.

(** So a face that matches is lit all over: next to each of its points there is a light, as long as all its pieces have an
    area. *)
Theorem C149_near : forall def size rad ents faces ls out f under ks k t x, surface_lights def size rad ents faces ls = Some out -> 0 < size ->
  In t (templates rad ents) -> nth_error faces k = Some f -> In (under, ks) ls -> In k ks -> f_model f <> None -> under = false -> matches def f t = true ->
  f_pts f <> [] -> (length (f_pts f) <= 51)%nat -> round (f_pts f) ->
  (forall l p, pieces size (f_pts f) = Pieces l -> In p l -> (3 <= length p)%nat /\ 0 < poly_area p) -> hull (pts (f_pts f)) x ->
  exists e spot c o, In (e, spot) out /\ f_model f = Some o /\ hull (pts (f_pts f)) c /\
    le_origin e = WindClipModel.add (WindClipModel.add c (WindClipModel.scale (if Req_EM_T (t_offset t) 0 then 2 else t_offset t) (f_normal f))) o /\
    forall i, (i < 3)%nat -> Rabs (coord i c - coord i x) < size + 16.
Proof.
  intros def size rad ents faces ls out f under ks k t x H S IT F IL IK FM U M NE N RW AR X.
  assert (NT : templates rad ents <> []) by (intro E; rewrite E in IT; destruct IT). destruct (C149_lights _ _ _ _ _ _ _ H NT) as (v & EV & OUT). destruct (C149_once _ _ _ EV) as (_ & VIS).
  destruct (C149_pieces size (f_pts f) S NE N RW) as (l & PL & COV & EACH). destruct (proj1 (COV x) X) as (p & IP & HX). destruct (AR l p PL IP) as (L3 & A). destruct (C133_centroid p L3 A) as (c & C & HC).
  destruct (f_model f) as [o|] eqn:EM; [|congruence].
  exists (with_origin (t_ent t) (WindClipModel.add (WindClipModel.add c (WindClipModel.scale (if Req_EM_T (t_offset t) 0 then 2 else t_offset t) (f_normal f))) o)), (if t_spot t then Some (f_normal f) else None), c, o.
  split; [apply OUT; exists k, f, t, l, p, c; rewrite EM; repeat split; try assumption; apply VIS; exists f, under, ks; rewrite EM; repeat split; try assumption; left; exact U|].
  split; [reflexivity|]. split; [apply COV; exists p; split; assumption|]. split; [reflexivity|].
  intros i I. destruct (EACH p IP) as (NP & _ & W).
  assert (B : forall y, hull (pts p) y -> lo i p <= coord i y <= hi i p).
  { intros y Y. apply (hull_coord i (pts p)); [|exact Y]. intros z Z. split; [apply lo_spec|apply hi_spec]; assumption. }
  destruct (lo_spec i p NP) as ((u & IU & EU) & _), (hi_spec i p NP) as ((z & IZ & EZ) & _). pose proof (W i z u I IZ IU). pose proof (B x HX). pose proof (B c HC). apply Rabs_def1; lra.
Qed.
Print Assumptions C149_near.

(** ** Brightness *)
(** Templates give no light of their own and keep their place and all but the light; other lights stay. *)
Theorem C149_own : forall ents, length (own_lights ents) = length ents /\
  forall k t, nth_error ents k = Some t -> nth_error (own_lights ents) k = Some (match t_surface t with [] => t_ent t | _ => with_light (t_ent t) 0 end).
Proof.
  intro ents. unfold own_lights. split; [apply map_length|]. intros k t H. rewrite (map_nth_error _ _ _ H). destruct (t_surface t); reflexivity.
Qed.
Print Assumptions C149_own.
(** A template from an entity has gone through CheckEntityFields: without _deviance each light stays one.  A template from a
    file of lights has not, and keeps the default of 16 samples: each of its lights is there sixteen times, none of them
    divided. *)
Theorem C149_radlights_refuted : forall addmin rnd n e, le_sun e = false -> le_dev e = 0 -> le_samples e = 16%Z ->
  jitter_all rnd n [check_samples addmin e] = [check_samples addmin e] /\ jitter_all rnd n [e] = repeat e 16.
Proof.
  intros addmin rnd n e SUN DEV SAM. split.
  - unfold jitter_all, check_samples. rewrite DEV, SAM. destruct (Rlt_dec 0 0); [lra|]. destruct (Rle_dec 0 0); [|lra]. cbn [jitter_new]. unfold jitter_one. cbn [le_sun le_samples]. rewrite SUN. reflexivity.
  - unfold jitter_all. cbn [jitter_new]. unfold jitter_one. rewrite SUN, SAM, app_nil_r.
    assert (C : forall k, jitter_copy rnd k e = e).
    { intro k. unfold jitter_copy, jit, with_origin. rewrite DEV. destruct e as [a b c d f g h o p q r]. cbn [le_light le_formula le_dev le_samples le_sun le_up le_down le_origin le_mangle le_target le_tag] in *. subst c. f_equal. destruct o as [x y z]. cbn [vx vy vz]. f_equal; ring. }
    change (Z.to_nat (16 - 1)) with 15%nat. cbn [seq map app repeat]. rewrite !C. reflexivity.
Qed.
Print Assumptions C149_radlights_refuted.

(** A square of 256 units, cut in four at size 128, with a light two units in front of each quarter: the first. *)
Example C149_nontrivial :
  let w := [mkV 0 0 0; mkV 0 256 0; mkV 256 256 0; mkV 256 0 0] in
  round w /\ hull (pts w) (mkV 64 64 0) /\ (exists l, pieces 128 w = Pieces l) /\ first_cut 128 w = Some (0%nat, 128) /\
  half true 0 128 w = [mkV 128 256 0; mkV 256 256 0; mkV 256 0 0; mkV 128 0 0] /\ half false 0 128 w = [mkV 0 0 0; mkV 0 256 0; mkV 128 256 0; mkV 128 0 0].
Proof.
  intro w.
  assert (RW : round w).
  { intros pl i j k l IJ JK KL LN (A & B & C & D). cbn [length w] in LN. assert (i = 0 /\ j = 1 /\ k = 2 /\ l = 3)%nat as (-> & -> & -> & ->) by lia. unfold dist_to, dot in *. cbn [w nth vx vy vz] in *. lra. }
  split; [exact RW|]. split.
  { assert (H1 : hull (pts w) (mkV 0 64 0)). { replace (mkV 0 64 0) with (mix (1 / 4) (mkV 0 0 0) (mkV 0 256 0)) by (unfold mix, WindClipModel.add, WindClipModel.scale, sub; cbn [vx vy vz]; f_equal; lra). apply hull_mix; [lra|apply hull_pt; left; reflexivity|apply hull_pt; right; left; reflexivity]. }
    assert (H2 : hull (pts w) (mkV 256 64 0)). { replace (mkV 256 64 0) with (mix (1 / 4) (mkV 256 0 0) (mkV 256 256 0)) by (unfold mix, WindClipModel.add, WindClipModel.scale, sub; cbn [vx vy vz]; f_equal; lra). apply hull_mix; [lra|apply hull_pt; do 3 right; left; reflexivity|apply hull_pt; do 2 right; left; reflexivity]. }
    replace (mkV 64 64 0) with (mix (1 / 4) (mkV 0 64 0) (mkV 256 64 0)) by (unfold mix, WindClipModel.add, WindClipModel.scale, sub; cbn [vx vy vz]; f_equal; lra). apply hull_mix; [lra|exact H1|exact H2]. }
  assert (LO : lo 0 w = 0) by (unfold lo, lowest, w, coord, Rmin; cbn [vx]; repeat destruct (Rle_dec _ _); lra).
  assert (HI : hi 0 w = 256) by (unfold hi, highest, w, coord, Rmax; cbn [vx]; repeat destruct (Rle_dec _ _); lra).
  assert (CA : cut_at 128 0 w = 128).
  { unfold cut_at. rewrite LO, HI. replace ((0 + 256) * (1 / 2) / 128 + 1 / 2) with (3 / 2) by lra. replace (Int_part (3 / 2)) with 1%Z; [lra|]. unfold Int_part. rewrite <- (tech_up (3 / 2) 2); [reflexivity|lra|lra]. }
  split; [destruct (C149_pieces 128 w ltac:(lra) ltac:(discriminate) ltac:(cbn [length w]; lia) RW) as (l & E & _); exists l; exact E|].
  split; [unfold first_cut, w; fold w; unfold cuts; rewrite CA, LO, HI; destruct (Rlt_dec (256 - 128) 8); [lra|]; destruct (Rlt_dec (128 - 0) 8); [lra|]; reflexivity|].
  split; unfold half, w, edges; cbn [combine app flat_map SurfSubModel.emit]; unfold crosses, is0, ltb, coord; cbn [vx vy vz];
    repeat match goal with
    | |- context [Rle_dec ?a ?b] => destruct (Rle_dec a b); try (exfalso; lra)
    | |- context [Req_EM_T ?a ?b] => destruct (Req_EM_T a b); try (exfalso; lra)
    | |- context [Rlt_dec ?a ?b] => destruct (Rlt_dec a b); try (exfalso; lra)
    end; cbn [negb andb xorb app]; unfold WindClipModel.add, WindClipModel.scale, sub; cbn [vx vy vz]; repeat (f_equal; try lra).
Qed.
