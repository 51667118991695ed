(* C142: brushes made out of the tree of a BSP (bsputil --decompile). *)
From Coq Require Import Reals List ZArith Bool Arith Lra Lia.
From Verif Require Import WindClipModel WindClipProofs BspQueryModel BspQueryProofs DecompModel DecompProofs.
Import ListNotations.
Open Scope R_scope.

(** A point strictly inside the bounds and off all planes of the BSP is in exactly one brush, with the contents of its leaf, or
    in none if the leaf is empty. *)
Theorem C142_points b p num t fuel mins maxs : tree_at b num t -> (0 <= num)%Z -> (height t <= fuel)%nat ->
  (forall pl, In pl (b_planes b) -> axial pl /\ distance_fast pl p <> 0) ->
  vx mins < vx p < vx maxs -> vy mins < vy p < vy maxs -> vz mins < vz p < vz maxs ->
  exists ts i l, decompile_model fuel b mins maxs num = Got ts /\ find_leaf fuel b num p = Got (i, l) /\
    map t_contents (filter (fun t => forallb (fun pl => if Rlt_dec (dot p (p_n pl) - p_d pl) 0 then true else false) (t_planes t)) ts) =
    if (l_contents l =? -1)%Z then [] else [l_contents l].
Proof.
  intros T N F OK X Y Z. destruct (decompile_points b p OK num t T fuel (bound_planes mins maxs) F) as (ts & i & l & A & B & C).
  unfold child_task in A. assert ((num <? 0)%Z = false) as E by (apply Z.ltb_ge; exact N). rewrite E in A. exists ts, i, l. split; [exact A|]. split; [exact B|].
  change (hits p ts = if (l_contents l =? -1)%Z then [] else [l_contents l]). rewrite C. assert (contains (bound_planes mins maxs) p = true) as -> by (apply bounds_contains; auto). destruct (l_contents l =? -1)%Z; reflexivity.
Qed.
Print Assumptions C142_points.

(** The same for the brushes of a clipping hull. *)
Theorem C142_hull_points b p num t fuel mins maxs par sd : ctree_at b num t -> (0 <= num)%Z -> (cheight t <= fuel)%nat ->
  (forall pl, In pl (b_planes b) -> axial pl /\ distance_fast pl p <> 0) ->
  vx mins < vx p < vx maxs -> vy mins < vy p < vy maxs -> vz mins < vz p < vz maxs ->
  exists ts par' sd' c, decompile_hull fuel b mins maxs num = Got ts /\ find_clip fuel b par sd num p = Got (par', sd', c) /\
    map t_contents (filter (fun t => forallb (fun pl => if Rlt_dec (dot p (p_n pl) - p_d pl) 0 then true else false) (t_planes t)) ts) =
    if (c =? -1)%Z then [] else [c].
Proof.
  intros T N F OK X Y Z. destruct (clip_points b p OK num t T fuel (bound_planes mins maxs) par sd F) as (ts & pa & s & c & A & B & C).
  unfold child_clip in A. assert ((num <? 0)%Z = false) as E by (apply Z.ltb_ge; exact N). rewrite E in A. exists ts, pa, s, c. split; [exact A|]. split; [exact B|].
  change (hits p ts = if (c =? -1)%Z then [] else [c]). rewrite C. assert (contains (bound_planes mins maxs) p = true) as -> by (apply bounds_contains; auto). destruct (c =? -1)%Z; reflexivity.
Qed.
Print Assumptions C142_hull_points.

(** Nothing outside the bounds is in a brush, whatever the tree says; for a hull the bounds are those of the model, which are
    smaller than the hull. *)
Theorem C142_bounds_refuted b fuel mins maxs num ts p :
  decompile_model fuel b mins maxs num = Got ts \/ decompile_hull fuel b mins maxs num = Got ts ->
  ~ (vx mins < vx p < vx maxs /\ vy mins < vy p < vy maxs /\ vz mins < vz p < vz maxs) ->
  forall t, In t ts -> exists pl, In pl (t_planes t) /\ 0 <= dot p (p_n pl) - p_d pl.
Proof.
  intros H O t T. assert (R : exists r, t_planes t = bound_planes mins maxs ++ r) by (destruct H as [H|H]; [exact (node_stack b _ _ _ _ H t T)|exact (clip_stack b _ _ _ _ H t T)]).
  destruct R as [r R]. destruct (contains (bound_planes mins maxs) p) eqn:C; [apply bounds_contains in C; contradiction|].
  assert (E : exists pl, In pl (bound_planes mins maxs) /\ 0 <= dist_to pl p).
  { unfold contains in C. revert C. generalize (bound_planes mins maxs). intros l. induction l as [|q l IH]; intros C; [discriminate C|]. cbn [forallb] in C. destruct (Rlt_dec (dist_to q p) 0) as [L|L].
    - destruct (IH C) as (pl & I & D). exists pl. split; [right; exact I|exact D].
    - exists q. split; [left; reflexivity|lra]. }
  destruct E as (pl & I & D). exists pl. split; [rewrite R; apply in_or_app; left; exact I|exact D].
Qed.
Print Assumptions C142_bounds_refuted.

(** A model whose head is a leaf stops the program; a hull whose head is a leaf reads outside of the clipnodes. *)
Theorem C142_leaf_refuted b fuel mins maxs num : (num < 0)%Z ->
  decompile_model (S fuel) b mins maxs num = Throws /\ decompile_hull (S fuel) b mins maxs num = Undef.
Proof.
  intros N. unfold decompile_model, decompile_hull. cbn [decompile_node decompile_clip]. unfold at_z.
  assert ((num <? 0)%Z = true) as E by (apply Z.ltb_lt; exact N). rewrite E. split; reflexivity.
Qed.
Print Assumptions C142_leaf_refuted.

(** A plane with a point on it that is inside all planes at other places by more than the epsilon stays, and no plane is added. *)
Theorem C142_kept eps planes k pl x : 0 <= eps -> (forall q, In q planes -> dot (p_n q) (p_n q) = 1) -> nth_error planes k = Some pl ->
  dot x (p_n pl) = p_d pl -> dot x x <= far * far -> (forall j q, j <> k -> nth_error planes j = Some q -> dot x (p_n q) < p_d q - eps) ->
  In pl (remove_redundant eps planes) /\ (forall q, In q (remove_redundant eps planes) -> In q planes).
Proof.
  intros E U N D B F. split; [|intros q Q; apply (loop_from eps planes _ _ _ _ (inv_start planes) q Q)].
  apply (loop_keeps eps planes (length planes) 0 0 planes (inv_start planes) ltac:(lia)) with (j := k); [lia|exact N|]. intros others O.
  destruct (not_away eps pl others x E) as (v & V & _); [apply U; apply (nth_error_In _ _ N)| | |exact B| |unfold clipped_away; rewrite V; reflexivity].
  - intros q Q. destruct (O q Q) as (i & _ & I). apply U. apply (nth_error_In _ _ I).
  - unfold dist_to. lra.
  - intros q Q. destruct (O q Q) as (i & NI & I). specialize (F i q NI I). unfold dist_to. lra.
Qed.
Print Assumptions C142_kept.

(** A plane that has been found redundant is still there when later ones are checked, as long as nothing was kept: if all planes
    before one have a parallel plane elsewhere that is not farther out, and so has this one, all of them are dropped. *)
Theorem C142_duplicate_refuted eps before pl rest : 0 <= eps -> (forall q, In q (before ++ pl :: rest) -> dot (p_n q) (p_n q) = 1) ->
  (forall k q, nth_error (before ++ [pl]) k = Some q -> exists j r, j <> k /\ nth_error (before ++ pl :: rest) j = Some r /\ p_n r = p_n q /\ p_d r <= p_d q) ->
  forall q, In q (remove_redundant eps (before ++ pl :: rest)) -> In q rest.
Proof.
  intros E U H q Q. replace (before ++ pl :: rest) with ((before ++ [pl]) ++ rest) in * by (rewrite <- app_assoc; reflexivity).
  apply (redundant_suffix eps (before ++ [pl]) rest); [|exact Q]. intros i r L N. destruct (H i r N) as (j & s & J & S & SN & SD).
  destruct r as [n d], s as [n' c]. cbn [p_n p_d] in *. subst n'.
  assert (UN : dot n n = 1) by (apply (U (mkPl n d)); apply in_or_app; left; apply (nth_error_In _ _ N)).
  apply (away_parallel eps n d c); [exact E|exact UN| |apply in_del; exists j; auto|exact SD]. intros s I. apply U. apply in_del in I. destruct I as (m & _ & I). apply (nth_error_In _ _ I).
Qed.
Print Assumptions C142_duplicate_refuted.

(** Every plane twice: no plane is left. *)
Theorem C142_twice_refuted eps planes : 0 <= eps -> (forall q, In q planes -> dot (p_n q) (p_n q) = 1) -> remove_redundant eps (planes ++ planes) = [].
Proof.
  intros E U. assert (G : forall q, ~ In q (remove_redundant eps (planes ++ planes))).
  { intros q Q. replace (planes ++ planes) with ((planes ++ planes) ++ []) in Q by apply app_nil_r. apply redundant_suffix in Q; [destruct Q|].
    intros i [n d] L N. rewrite app_nil_r. rewrite app_length in L.
    assert (UO : forall q, In q (planes ++ planes) -> dot (p_n q) (p_n q) = 1) by (intros s S; apply in_app_or in S; destruct S; auto).
    apply (away_parallel eps n d d); [exact E|apply (UO (mkPl n d)); apply (nth_error_In _ _ N)| | |lra].
    - intros s I. apply UO. apply in_del in I. destruct I as (m & _ & I). apply (nth_error_In _ _ I).
    - apply in_del. destruct (Nat.lt_ge_cases i (length planes)) as [LT|GE].
      + exists (i + length planes)%nat. split; [lia|]. rewrite nth_error_app2 by lia. rewrite nth_error_app1 in N by exact LT. replace (i + length planes - length planes)%nat with i by lia. exact N.
      + exists (i - length planes)%nat. split; [lia|]. rewrite nth_error_app1 by lia. rewrite nth_error_app2 in N by exact GE. exact N. }
  destruct (remove_redundant eps (planes ++ planes)) as [|q l]; [reflexivity|]. exfalso. apply (G q). left. reflexivity.
Qed.
Print Assumptions C142_twice_refuted.

(** The brush has the planes in order; the faces of its sides are pieces of the faces of the node of that plane, with their
    texinfo, and inside of the other planes up to the epsilon. *)
Theorem C142_build eps planes : 0 <= eps -> (forall q, In q planes -> dot (p_n (fst q)) (p_n (fst q)) = 1) ->
  map s_plane (build_brush eps planes) = map fst planes /\
  forall k s f, nth_error (build_brush eps planes) k = Some s -> In f (s_faces s) -> exists pl fs g, nth_error planes k = Some (pl, fs) /\ In g fs /\
    f_tex f = f_tex g /\ (forall x, hull (fun p => In p (f_w f)) x -> hull (fun p => In p (f_w g)) x) /\
    (forall j q, j <> k -> nth_error planes j = Some q -> forall x, hull (fun p => In p (f_w f)) x -> dot x (p_n (fst q)) <= p_d (fst q) + eps).
Proof.
  intros E U. split.
  - unfold build_brush. rewrite map_map. transitivity (map (fun k => match nth_error planes k with None => mkPl (mkV 0 0 0) 0 | Some q => fst q end) (seq 0 (length planes))).
    + apply map_ext. intros k. destruct (nth_error planes k) as [[pl fs]|]; reflexivity.
    + clear U. induction planes as [|q planes IH]; [reflexivity|]. cbn [length seq map nth_error]. f_equal. rewrite <- seq_shift, map_map. exact IH.
  - intros k s f N F. unfold build_brush in N. rewrite nth_error_map in N. destruct (nth_error (seq 0 (length planes)) k) as [k'|] eqn:K; [|discriminate N].
    assert (L : (k < length planes)%nat) by (rewrite <- (seq_length (length planes) 0); apply nth_error_Some; congruence).
    assert (k' = k) as -> by (apply nth_error_nth with (d := O) in K; rewrite seq_nth in K by exact L; lia). injection N as <-.
    destruct (nth_error planes k) as [[pl fs]|] eqn:P; [|destruct F]. cbn [s_faces] in F.
    destruct (back_fold eps (del k planes) E fs f) as (g & G & (PT & PH) & H); [intros q Q; apply in_del in Q; destruct Q as (i & _ & Q); apply U; apply (nth_error_In _ _ Q)|exact F|].
    exists pl, fs, g. split; [reflexivity|]. split; [exact G|]. split; [exact PT|]. split; [exact PH|]. intros j q J Q x X.
    assert (D : dist_to (fst q) x <= eps) by (apply (H q); [apply in_del; exists j; auto|exact X]). unfold dist_to in D. lra.
Qed.
Print Assumptions C142_build.

(** Splitting: every part has the planes of the brush and some more; no two parts share an inner point; no side of a part has
    faces of two texinfos; the faces are pieces of those of the same side; and every inner point of the brush that is off finitely
    many planes is in exactly one part, or in a part given up because no plane was found that splits a side. *)
Theorem C142_split eps edges fuel br outs : 0 <= eps -> (forall w pl, In pl (edges w) -> dot (p_n pl) (p_n pl) = 1) ->
  split_r eps edges fuel br = Got outs ->
  (forall o, In o outs -> exists extra, map s_plane o = map s_plane br ++ extra) /\
  (forall p, (length (filter (fun o => contains (map s_plane o) p) outs) <= 1)%nat) /\
  (forall o s f g, In o outs -> In s o -> In f (s_faces s) -> In g (s_faces s) -> f_tex f = f_tex g) /\
  (forall o k s f, In o outs -> nth_error o k = Some s -> In f (s_faces s) -> exists s0 g, nth_error br k = Some s0 /\ In g (s_faces s0) /\
     f_tex f = f_tex g /\ forall x, hull (fun p => In p (f_w f)) x -> hull (fun p => In p (f_w g)) x) /\
  exists cuts, forall p, (forall pl, In pl (map s_plane br) -> dot p (p_n pl) < p_d pl) -> (forall pl, In pl cuts -> dot p (p_n pl) <> p_d pl) ->
    length (filter (fun o => contains (map s_plane o) p) outs) = 1%nat \/
    exists b s, reach eps br b /\ In s b /\ needs_split s = true /\ (suggest eps edges s = None \/ exists pl, suggest eps edges s = Some pl /\ zero_plane pl = true) /\
      forall pl, In pl (map s_plane b) -> dot p (p_n pl) < p_d pl.
Proof.
  intros E EU H. split; [exact (split_planes eps edges fuel br outs H)|]. split; [|split; [|split]].
  - intros p. pose proof (split_once eps edges fuel br outs H p) as L. unfold cnt in L. destruct (contains (map s_plane br) p); lia.
  - intros o s f g O S F G. pose proof (split_uniform eps edges fuel br outs H o s O S) as NS. unfold needs_split in NS.
    destruct (s_faces s) as [|h t]; [destruct F|]. assert (A : forall q, In q (h :: t) -> f_tex q = f_tex h).
    { intros q [->|Q]; [reflexivity|]. destruct (Z.eq_dec (f_tex h) (f_tex q)) as [EQ|NE]; [auto|]. exfalso. assert (existsb (fun g => negb (f_tex h =? f_tex g)%Z) t = true); [|congruence]. apply existsb_exists. exists q. split; [exact Q|]. apply negb_true_iff. apply Z.eqb_neq. exact NE. }
    rewrite (A f F), (A g G). reflexivity.
  - intros o k s f O N F. destruct (split_faces eps edges E EU fuel br outs H o k s O N f F) as (s0 & g & A & B & C & D). exists s0, g. auto.
  - destruct (split_covers eps edges fuel br outs H) as [cuts C]. exists cuts. intros p I O.
    destruct (C p) as [K|(b & R & (s & S1 & S2 & S3) & CB)]; [| |left; exact K|right].
    + apply contains_spec. intros pl P. specialize (I pl P). unfold dist_to. lra.
    + intros pl P D. apply (O pl P). unfold dist_to in D. lra.
    + exists b, s. split; [exact R|]. split; [exact S1|]. split; [exact S2|]. split.
      * destruct (suggest eps edges s) as [pl|]; [right; exists pl; auto|left; reflexivity].
      * intros pl P. pose proof (proj1 (contains_spec _ _) CB pl P) as D. unfold dist_to in D. lra.
Qed.
Print Assumptions C142_split.

(** A brush is split only if a side has faces of two texinfos, and only given up as a vector of zeros if it is one. *)
Theorem C142_needs s : needs_split s = true <-> exists f g, In f (s_faces s) /\ In g (s_faces s) /\ f_tex f <> f_tex g.
Proof.
  unfold needs_split. destruct (s_faces s) as [|h t]; [split; [discriminate|intros (f & g & [] & _)]|]. rewrite existsb_exists. split.
  - intros (g & G & H). apply negb_true_iff, Z.eqb_neq in H. exists h, g. split; [left; reflexivity|]. split; [right; exact G|exact H].
  - intros (f & g & F & G & N). destruct (Z.eq_dec (f_tex h) (f_tex f)) as [E|E].
    + exists g. destruct G as [<- |G]; [congruence|]. split; [exact G|]. apply negb_true_iff, Z.eqb_neq. congruence.
    + exists f. destruct F as [<- |F]; [congruence|]. split; [exact F|]. apply negb_true_iff, Z.eqb_neq. exact E.
Qed.
Print Assumptions C142_needs.
Theorem C142_zero pl : zero_plane pl = true <-> pl = mkPl (mkV 0 0 0) 0.
Proof.
  destruct pl as [[x y z] d]. unfold zero_plane. cbn [p_n p_d vx vy vz]. destruct (Req_EM_T x 0) as [-> |N]; [|split; [discriminate|intro H; injection H; intros; congruence]].
  destruct (Req_EM_T y 0) as [-> |N]; [|split; [discriminate|intro H; injection H; intros; congruence]]. destruct (Req_EM_T z 0) as [-> |N]; [|split; [discriminate|intro H; injection H; intros; congruence]].
  destruct (Req_EM_T d 0) as [-> |N]; [split; reflexivity|split; [discriminate|intro H; injection H; intros; congruence]].
Qed.
Print Assumptions C142_zero.

(** If every edge plane has all faces of the side in front (as for two faces with the same winding), the brush disappears. *)
Theorem C142_split_refuted eps edges fuel br s : 0 <= eps -> find needs_split br = Some s ->
  (forall f g pl p, In f (s_faces s) -> In g (s_faces s) -> In pl (edges (f_w f)) -> In p (f_w g) -> - eps <= dot p (p_n pl) - p_d pl) ->
  (forall g pl, In g (s_faces s) -> (exists f, In f (s_faces s) /\ In pl (edges (f_w f))) -> exists p, In p (f_w g) /\ eps < dot p (p_n pl) - p_d pl) ->
  split_r eps edges (S fuel) br = Got [].
Proof.
  intros E FD H H2. cbn [split_r]. rewrite FD. assert (SG : suggest eps edges s = None); [|rewrite SG; reflexivity].
  unfold suggest. assert (G : forall l, (forall pl, In pl l -> exists f, In f (s_faces s) /\ In pl (edges (f_w f))) -> fold_left (better eps (s_faces s)) l None = None).
  { induction l as [|pl l IH]; intros L; [reflexivity|]. cbn [fold_left]. assert (B : better eps (s_faces s) None pl = None); [|rewrite B; apply IH; intros q Q; apply L; right; exact Q].
    destruct (L pl (or_introl eq_refl)) as (f & F & I). unfold better. assert (NB : back_faces eps pl (s_faces s) = []).
    { unfold back_faces. assert (K : forall fs, (forall g, In g fs -> In g (s_faces s)) -> flat_map (fun f => with_w f (snd (clip pl eps false (f_w f)))) fs = []).
      { induction fs as [|g fs IHf]; intros SB; [reflexivity|]. cbn [flat_map]. rewrite IHf by (intros q Q; apply SB; right; exact Q). rewrite app_nil_r. unfold clip.
        assert (CB : count pl eps Back (f_w g) = 0%nat). { destruct (count pl eps Back (f_w g)) eqn:C; [reflexivity|]. exfalso. assert (count pl eps Back (f_w g) <> 0%nat) as N by lia. apply count_pos in N; [|discriminate]. destruct N as (p & P & SD). specialize (H f g pl p F (SB g (or_introl eq_refl)) I P). unfold side_of, dist_to in SD. destruct (Rlt_dec eps (dot p (p_n pl) - p_d pl)); [discriminate SD|]. destruct (Rlt_dec (dot p (p_n pl) - p_d pl) (- eps)); [lra|discriminate SD]. }
        destruct (H2 g pl (SB g (or_introl eq_refl)) (ex_intro _ f (conj F I))) as (p & P & D).
        assert (CF : count pl eps Front (f_w g) <> 0%nat). { assert (SF : side_of pl eps p = Front) by (unfold side_of, dist_to; destruct (Rlt_dec eps (dot p (p_n pl) - p_d pl)); [reflexivity|lra]). intros C. apply (count_zero pl eps Front) with (p := p) in C; [|discriminate|exact P]. contradiction. }
        rewrite CB. apply Nat.eqb_neq in CF. rewrite CF. reflexivity. }
      apply K. auto. }
    rewrite NB. destruct (length (front_faces eps pl (s_faces s)) =? 0)%nat; reflexivity. }
  rewrite G; [reflexivity|]. intros pl P. apply in_flat_map in P. destruct P as (f & F & I). exists f. auto.
Qed.
Print Assumptions C142_split_refuted.

(** Brush sides of Quake 2: no plane comes twice, and a plane with a point on it that is inside all other planes by more than the
    epsilon has a side with that point, even if the plane comes more than once. *)
Theorem C142_q2 eps flat planes : 0 <= eps -> (forall q, In q planes -> dot (p_n q) (p_n q) = 1) ->
  NoDup (map fst (build_brush_q2 eps flat planes)) /\ (forall q, In q (map fst (build_brush_q2 eps flat planes)) -> In q planes) /\
  forall pl x, In pl planes -> dot x (p_n pl) = p_d pl -> dot x x <= far * far -> (forall q, In q planes -> q <> pl -> dot x (p_n q) < p_d q - eps) ->
    (forall w, hull (fun p => In p w) x -> flat w = false) ->
    exists w, In (pl, w) (build_brush_q2 eps flat planes) /\ hull (fun p => In p w) x.
Proof.
  intros E U. destruct (q2_sound eps flat planes E U (length planes) [] (le_n _) (away_start planes)) as (ks & K1 & K2 & K3). unfold build_brush_q2. rewrite K1. split; [|split].
  - apply NoDup_planes; [exact K2|intros k K; apply (K3 k K)].
  - intros q Q. apply in_flat_map in Q. destruct Q as (k & _ & Q). destruct (nth_error planes k) as [r|] eqn:N; [|destruct Q]. destruct Q as [<-|[]]. apply (nth_error_In _ _ N).
  - intros pl x P D B F FL. assert (FI : exists k, nth_error planes k = Some pl /\ ~ dup planes k).
    { apply In_nth_error in P. destruct P as [k N]. revert N. induction k as [k IH] using lt_wf_ind. intros N. destruct (dup_dec planes k) as [(j & J & EQ)|ND]; [apply (IH j J); congruence|exists k; auto]. }
    destruct FI as (k & N & ND). apply (q2_keeps eps flat planes E U pl k x N ND); [unfold dist_to; lra|exact B|intros q Q NE; specialize (F q Q NE); unfold dist_to; lra|exact FL|apply nth_error_Some; congruence|lia|apply away_start].
Qed.
Print Assumptions C142_q2.

(** A box of eight units with its six planes as nodes. If the bounds of the head node are those of the box, the only brush has each
    plane twice, and loses all of them; the same brush keeps its six sides when it is made the way of Quake 2. *)
Definition box_bsp : bsp := mkBsp false
  [mkDP (mkV 1 0 0) 4 0; mkDP (mkV 1 0 0) (-4) 0; mkDP (mkV 0 1 0) 4 1; mkDP (mkV 0 1 0) (-4) 1; mkDP (mkV 0 0 1) 4 2; mkDP (mkV 0 0 1) (-4) 2]
  [mkDN 0 (-2) 1 0 0; mkDN 1 2 (-2) 0 0; mkDN 2 (-2) 3 0 0; mkDN 3 4 (-2) 0 0; mkDN 4 (-2) 5 0 0; mkDN 5 (-1) (-2) 0 0]
  [mkDLf (-2) 0; mkDLf (-1) 0] [] [].
Lemma box_center pl : In pl (bound_planes (mkV (-4) (-4) (-4)) (mkV 4 4 4)) ->
  dot (p_n pl) (p_n pl) = 1 /\ exists x, dot x (p_n pl) = p_d pl /\ dot x x <= far * far /\
  forall q, In q (bound_planes (mkV (-4) (-4) (-4)) (mkV 4 4 4)) -> q = pl \/ dot x (p_n q) < p_d q - 1 / 10.
Proof.
  intros I. split.
  - repeat destruct I as [<-|I]; try destruct I; unfold dot; cbn [p_n vx vy vz]; ring.
  - exists (scale 4 (p_n pl)). repeat destruct I as [<-|I]; try destruct I; unfold dot, scale, far; cbn [p_n p_d vx vy vz];
      (split; [ring|split; [lra|]]; intros q Q; repeat destruct Q as [<-|Q]; try destruct Q; cbn [p_n p_d vx vy vz];
       first [left; reflexivity|right; lra]).
Qed.
Example C142_nontrivial :
  (exists t, tree_at box_bsp 0 t /\ height t = 6%nat) /\
  (forall pl, In pl (b_planes box_bsp) -> axial pl /\ distance_fast pl (mkV 1 2 3) <> 0) /\
  (let bp := bound_planes (mkV (-4) (-4) (-4)) (mkV 4 4 4) in
   decompile_model 6 box_bsp (mkV (-4) (-4) (-4)) (mkV 4 4 4) 0 = Got [mkTask (bp ++ bp) (-2)] /\
   remove_redundant (1 / 10) (bp ++ bp) = [] /\
   (forall pl, In pl bp -> exists w, In (pl, w) (build_brush_q2 (1 / 10) (fun _ => false) (bp ++ bp))) /\
   (forall pl, In pl bp -> In pl (remove_redundant (1 / 10) bp))).
Proof.
  split; [|split].
  - eexists. split.
    + eapply TA_node; [lia|reflexivity|cbn; lia|reflexivity|eapply TA_leaf; [cbn; lia|reflexivity]|].
      eapply TA_node; [cbn; lia|reflexivity|cbn; lia|reflexivity| |eapply TA_leaf; [cbn; lia|reflexivity]].
      eapply TA_node; [cbn; lia|reflexivity|cbn; lia|reflexivity|eapply TA_leaf; [cbn; lia|reflexivity]|].
      eapply TA_node; [cbn; lia|reflexivity|cbn; lia|reflexivity| |eapply TA_leaf; [cbn; lia|reflexivity]].
      eapply TA_node; [cbn; lia|reflexivity|cbn; lia|reflexivity|eapply TA_leaf; [cbn; lia|reflexivity]|].
      eapply TA_node; [cbn; lia|reflexivity|cbn; lia|reflexivity|eapply TA_leaf; [cbn; lia|reflexivity]|eapply TA_leaf; [cbn; lia|reflexivity]].
    + reflexivity.
  - intros pl I. cbn [b_planes box_bsp] in I. repeat destruct I as [<-|I]; try destruct I;
      (split; [unfold axial; cbn [dp_type dp_n]; repeat split; intros; (reflexivity || discriminate)|unfold distance_fast; cbn [dp_type dp_d vx vy vz]; lra]).
  - cbv zeta. assert (U : forall q, In q (bound_planes (mkV (-4) (-4) (-4)) (mkV 4 4 4)) -> dot (p_n q) (p_n q) = 1) by (intros q Q; apply box_center; exact Q).
    split; [|split; [apply C142_twice_refuted; [lra|exact U]|split]].
    + cbv -[IZR Rmult Ropp Rplus Rminus]. do 2 f_equal. f_equal. repeat (apply (f_equal2 (@cons plane)); [|]; try reflexivity); apply (f_equal2 mkPl); try (apply (f_equal3 mkV)); lra.
    + intros pl I. destruct (box_center pl I) as (_ & x & D & B & F). destruct (C142_q2 (1 / 10) (fun _ => false) (bound_planes (mkV (-4) (-4) (-4)) (mkV 4 4 4) ++ bound_planes (mkV (-4) (-4) (-4)) (mkV 4 4 4))) as (_ & _ & H); [lra|intros q Q; apply in_app_or in Q; destruct Q; apply U; assumption|].
      destruct (H pl x) as (w & W & _); [apply in_or_app; left; exact I|exact D|exact B| |reflexivity|exists w; exact W].
      intros q Q NE. apply in_app_or in Q. destruct (F q ltac:(destruct Q; assumption)) as [EQ|L]; [contradiction|exact L].
    + intros pl I. destruct (box_center pl I) as (_ & x & D & B & F). apply In_nth_error in I. destruct I as [k N].
      apply (C142_kept (1 / 10) (bound_planes (mkV (-4) (-4) (-4)) (mkV 4 4 4)) k pl x); [lra|exact U|exact N|exact D|exact B|].
      intros j q J Q. destruct (F q (nth_error_In _ _ Q)) as [EQ|L]; [|exact L]. exfalso. subst q.
      unfold bound_planes in N, Q. do 6 (destruct j as [|j]; [do 6 (destruct k as [|k]; [cbn in N, Q; first [contradiction (J eq_refl)|rewrite <- N in Q; injection Q; intros; lra]|]); destruct k; discriminate N|]); destruct j; discriminate Q.
Qed.
