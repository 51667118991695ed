(** Properties of the T-junction fixer (C78 - C81). *)

From Coq Require Import List Arith Bool ZArith Lia Permutation Sorted.
From Verif Require Import TJuncModel TJuncProofs TJuncFanProofs TJuncFaceProofs.
Import ListNotations.

(* ------------------------------------------------------------------ *)
(** * C78: the vertices put on the edges of a face *)

(** The vertices of an edge: its first one, then only candidates that are on
    the line of the edge; [ds] are their distances.  No candidate that is not
    itself a vertex of the result lies strictly inside one of the pieces. *)
Theorem C78_no_junction_left :
  forall rd pos cs s e p1 p2,
    (forall x y, (x <= y)%Z -> (rd x <= rd y)%Z) -> (forall x, rd (rd x) = rd x) ->
    p1 <> p2 -> (s <= e)%Z ->
    exists vs ds,
      test_edge rd pos s e p1 p2 cs = p1 :: vs /\
      Forall2 (fun v d => pos v = Some d /\ In v cs) vs ds /\
      forall j d, In j cs -> pos j = Some d ->
        In j (p1 :: vs ++ [p2]) \/
        forall a b, consecutive a b (s :: ds ++ [e]) -> ~ (rd a < d < rd b)%Z.
Proof.
  intros rd pos cs s e p1 p2 Hm Hi Hne Hse.
  destruct (test_edge_d_head rd pos cs s e p1 p2 Hne) as (r & Hr & Hf).
  exists (map fst r), (map snd r).
  rewrite <- test_edge_d_fst, Hr. cbn [map fst]. split; [reflexivity|]. split.
  - clear Hr. induction r as [|x r IH]; [constructor|].
    inversion Hf as [|? ? H1 H2]; subst. constructor; [exact H1|apply IH, H2].
  - intros j d Hj Hpos.
    destruct (test_edge_complete rd pos (conj Hm Hi) cs s e p1 p2 Hne (Hm _ _ Hse) j Hj) as [H|H].
    + left. rewrite Hr in H. exact H.
    + right. intros a b Hc Hd. rewrite Hr in H. specialize (H a b Hc).
      unfold point_on_edge in H. rewrite Hpos in H.
      replace ((d <=? rd a)%Z || (rd b <=? d)%Z) with false in H; [discriminate|].
      symmetry. apply orb_false_iff. split; apply Z.leb_gt; lia.
Qed.
Print Assumptions C78_no_junction_left.

(** If the ends of the pieces are not rounded, the vertices come in the order
    of their distances, no two at the same place. *)
Theorem C78_in_order :
  forall pos cs s e p1 p2, p1 <> p2 -> (s < e)%Z ->
    exists vs ds,
      test_edge (fun x => x) pos s e p1 p2 cs = p1 :: vs /\
      Forall2 (fun v d => pos v = Some d) vs ds /\
      StronglySorted Z.lt (s :: ds ++ [e]).
Proof.
  intros pos cs s e p1 p2 Hne Hse.
  destruct (test_edge_d_head (fun x => x) pos cs s e p1 p2 Hne) as (r & Hr & Hf).
  exists (map fst r), (map snd r).
  rewrite <- test_edge_d_fst, Hr. cbn [map fst]. split; [reflexivity|]. split.
  - clear Hr. induction r as [|x r IH]; [constructor|].
    inversion Hf as [|? ? H1 H2]; subst. constructor; [apply H1|apply IH, H2].
  - pose proof (test_edge_sorted pos cs s e p1 p2 Hse Hne) as H. rewrite Hr in H. exact H.
Qed.
Print Assumptions C78_in_order.

(** Every vertex of the face stays, in its place, except where two neighbours
    are the same vertex; each is followed by what was found on its edge. *)
Theorem C78_keeps_vertices :
  forall rd info orig,
    exists extra,
      superface_of rd info orig =
        flat_map (fun i =>
          if nth i orig 0 =? nth ((i + 1) mod length orig) orig 0 then []
          else nth i orig 0 :: extra i) (seq 0 (length orig)) /\
      forall i v, In v (extra i) -> In v (ei_verts (info i)) /\ ei_pos (info i) v <> None.
Proof.
  intros rd info orig.
  exists (fun i => tl (test_edge rd (ei_pos (info i)) 0 (ei_len (info i))
      (nth i orig 0) (nth ((i + 1) mod length orig) orig 0) (ei_verts (info i)))).
  split.
  - unfold superface_of. rewrite !flat_map_concat_map. f_equal. apply map_ext. intros i.
    destruct (nth i orig 0 =? nth ((i + 1) mod length orig) orig 0) eqn:E.
    + destruct (ei_verts (info i)); cbn [test_edge]; rewrite E; reflexivity.
    + apply Nat.eqb_neq in E.
      destruct (test_edge_d_head rd (ei_pos (info i)) (ei_verts (info i)) 0 (ei_len (info i)) _ _ E)
        as (r & Hr & _).
      rewrite <- test_edge_d_fst, Hr. reflexivity.
  - intros i v Hv.
    destruct (Nat.eq_dec (nth i orig 0) (nth ((i + 1) mod length orig) orig 0)) as [E|E].
    + apply Nat.eqb_eq in E. destruct (ei_verts (info i)); cbn [test_edge] in Hv; rewrite E in Hv; destruct Hv.
    + destruct (test_edge_d_head rd (ei_pos (info i)) (ei_verts (info i)) 0 (ei_len (info i)) _ _ E)
        as (r & Hr & Hf).
      rewrite <- test_edge_d_fst, Hr in Hv. cbn [map tl] in Hv.
      apply in_map_iff in Hv. destruct Hv as ([v' d] & <- & Hin).
      rewrite Forall_forall in Hf. destruct (Hf _ Hin) as [H1 H2]. cbn [fst snd] in *.
      split; [exact H2|congruence].
Qed.
Print Assumptions C78_keeps_vertices.

(** Vertices 10, 11 and 12 are found near the edge from 1 to 2, the last one
    beyond its end. *)
Example C78_nontrivial :
  let pos (v : nat) := match v with 10 => Some 30%Z | 11 => Some 10%Z | 12 => Some 70%Z | 2 => Some 64%Z | _ => None end in
  test_edge (fun x => x) pos 0 64 1 2 [10; 12; 7; 2; 11; 10] = [1; 11; 10].
Proof. reflexivity. Qed.

(* ------------------------------------------------------------------ *)
(** * C79: minimum weight triangulation *)

(** Fixing a face with -tjunc mwt (the default) always succeeds; what is drawn
    for its fragments are the triangles of a triangulation of the face, each
    once, and any sum over edges that cancels on inner edges - a signed area,
    say - is the same for the fragments as for the face. *)
Theorem C79_mwt_fragments :
  forall maxedges geo valid onseg pick orig sf,
    absorbs (geo sf) -> (forall l, l <> [] -> In (pick l) l) ->
    maxedges = 0 \/ 3 <= maxedges -> 3 < length sf ->
    exists frags T P,
      fix_face TJMwt maxedges geo valid onseg pick orig sf = Some frags /\
      Forall (fun p => 3 <= length p) frags /\
      Triangulation 0 (length sf - 1) T /\ Permutation P T /\
      drawn_as sf frags P /\
      forall f, antisym f -> sum_map (loop_sum f) frags = loop_sum f sf.
Proof.
  intros maxedges geo valid onseg pick orig sf Hw Hp Hm Hn.
  destruct (mwt_total (geo sf) (length sf) Hw ltac:(lia)) as (R & T & HR & HP & HT).
  destruct (mwt_face_of (geo sf) pick sf R T Hp ltac:(lia) HR HP HT)
    as (faces & P & Hf & HPR & (Q & HQ & HF) & Hl & Hne).
  destruct (fix_face_from TJMwt maxedges geo valid onseg pick orig sf faces Hn ltac:(discriminate) Hm)
    as (frags & H1 & H2 & H3).
  { rewrite Hf. destruct faces; [congruence|reflexivity]. }
  { exact Hl. }
  assert (Hd : drawn_as sf frags P).
  { exists Q. split; [|exact HF]. rewrite H3. destruct faces; [congruence|exact HQ]. }
  assert (HPT : Permutation P T) by (rewrite HPR; exact HP).
  exists frags, T, P. repeat (split; [assumption|]).
  intros f Hanti. apply (drawn_sum f sf frags P T Hanti ltac:(lia) Hd HPT HT).
Qed.
Print Assumptions C79_mwt_fragments.

(** If the face can be cut up without a zero-area triangle, no triangle drawn
    for its fragments has zero area. *)
Theorem C79_mwt_no_degenerate :
  forall maxedges geo valid onseg pick orig sf per,
    (0 <= w_near (geo sf) < w_max (geo sf))%Z -> sums_grow (geo sf) ->
    adds_at_most (geo sf) (Z.of_nat (length sf) * per) per ->
    (Z.of_nat (length sf) * per < w_near (geo sf))%Z ->
    (forall l, l <> [] -> In (pick l) l) ->
    maxedges = 0 \/ 3 <= maxedges -> 3 < length sf ->
    (exists T0, Triangulation 0 (length sf - 1) T0 /\
       Forall (fun '(i, k, j) => w_valid (geo sf) i j k = true) T0) ->
    exists frags P,
      fix_face TJMwt maxedges geo valid onseg pick orig sf = Some frags /\
      drawn_as sf frags P /\
      Forall (fun '(i, k, j) => w_valid (geo sf) i j k = true) P.
Proof.
  intros maxedges geo valid onseg pick orig sf per Hmax Hg Ha Hs Hp Hm Hn HT0.
  assert (E : forall T, Forall (fun '(i, k, j) => w_valid (geo sf) i j k = true) T <->
                        Forall (tri_ok (geo sf)) T).
  { intros T. split; intros H; (eapply Forall_impl; [|exact H]); intros [[i k] j] Hx; exact Hx. }
  destruct (mwt_valid (geo sf) per (length sf) Hmax Hg Ha Hs ltac:(lia)) as (R & T & HR & HP & HT & HV).
  { destruct HT0 as (T0 & H1 & H2). exists T0. split; [exact H1|apply E, H2]. }
  destruct (mwt_face_of (geo sf) pick sf R T Hp ltac:(lia) HR HP HT)
    as (faces & P & Hf & HPR & (Q & HQ & HF) & Hl & Hne).
  destruct (fix_face_from TJMwt maxedges geo valid onseg pick orig sf faces Hn ltac:(discriminate) Hm)
    as (frags & H1 & H2 & H3).
  { rewrite Hf. destruct faces; [congruence|reflexivity]. }
  { exact Hl. }
  exists frags, P. split; [exact H1|]. split.
  - exists Q. split; [|exact HF]. rewrite H3. destruct faces; [congruence|exact HQ].
  - apply E. eapply Permutation_Forall; [symmetry; exact HPR|exact HV].
Qed.
Print Assumptions C79_mwt_no_degenerate.

(** With exact sums, no triangulation without zero-area triangles has a smaller
    total perimeter. *)
Theorem C79_mwt_minimal :
  forall w per n T0,
    (forall i j k a b, w_sum w i j k a b = (per i j k + a + b)%Z) ->
    (forall i j k, (0 <= per i j k)%Z) ->
    (0 <= w_near w < w_max w)%Z -> 3 <= n ->
    Triangulation 0 (n - 1) T0 ->
    Forall (fun '(i, k, j) => w_valid w i j k = true) T0 ->
    (sum_map (fun '(i, k, j) => per i j k) T0 < w_near w)%Z ->
    exists R T, mwt w n = Some R /\ Permutation R T /\ Triangulation 0 (n - 1) T /\
      (sum_map (fun '(i, k, j) => per i j k) R <= sum_map (fun '(i, k, j) => per i j k) T0)%Z.
Proof.
  intros w per n T0 He Hp Hnear Hn HT0 HV Hlt.
  assert (E : forall T, sum_map (fun '(i, k, j) => per i j k) T = sum_map (tri_weight per) T).
  { intros T. induction T as [|[[i k] j] T IH]; [reflexivity|].
    rewrite !sum_map_cons, IH. reflexivity. }
  assert (HV' : Forall (tri_ok w) T0)
    by (eapply Forall_impl; [|exact HV]; intros [[i k] j] Hx; exact Hx).
  rewrite E in Hlt.
  destruct (mwt_minimal w per n T0 (conj He Hp) Hnear Hn HT0 HV' Hlt) as (R & T & H1 & H2 & H3 & H4).
  exists R, T. rewrite !E. auto.
Qed.
Print Assumptions C79_mwt_minimal.

(** ** Concrete faces *)

(** Geometry in the plane with integer coordinates: zero-area triangles, points
    between two others, and perimeters in millionths of a unit. *)
Definition cross (pts : list (Z * Z)) (a b c : nat) : Z :=
  let p v := nth v pts (0, 0)%Z in
  ((fst (p b) - fst (p a)) * (snd (p c) - snd (p a)) -
   (snd (p b) - snd (p a)) * (fst (p c) - fst (p a)))%Z.

Definition flat_valid (pts : list (Z * Z)) (a b c : nat) : bool :=
  negb (cross pts a b c =? 0)%Z.

Definition flat_onseg (pts : list (Z * Z)) (p a b : nat) : bool :=
  let q v := nth v pts (0, 0)%Z in
  let dx := (fst (q b) - fst (q a))%Z in
  let dy := (snd (q b) - snd (q a))%Z in
  let d := ((fst (q p) - fst (q a)) * dx + (snd (q p) - snd (q a)) * dy)%Z in
  (cross pts a b p =? 0)%Z && (0 <? d)%Z && (d <? dx * dx + dy * dy)%Z.

Definition flat_dist (pts : list (Z * Z)) (a b : nat) : Z :=
  let q v := nth v pts (0, 0)%Z in
  let dx := (fst (q b) - fst (q a))%Z in
  let dy := (snd (q b) - snd (q a))%Z in
  Z.sqrt (10 ^ 12 * (dx * dx + dy * dy)).

(** Sums above [near] stay there, as they do for doubles. *)
Definition flat_weights (pts : list (Z * Z)) (sf : list nat) : weights :=
  let v i := nth i sf 0 in
  mk_weights (fun i j k => flat_valid pts (v i) (v j) (v k))
    (fun i j k a b =>
       Z.min (10 ^ 40 - 1)
         (flat_dist pts (v i) (v j) + flat_dist pts (v j) (v k) + flat_dist pts (v k) (v i) + a + b))
    (10 ^ 40 - 1) (10 ^ 40).

Definition first_of (l : list nat) : nat := hd 0 l.

(** A square with one vertex on its second side and two on its last one. *)
Definition square_7 : list (Z * Z) :=
  [(0, 0); (0, 60); (30, 60); (60, 60); (60, 0); (40, 0); (20, 0)]%Z.

Example C79_nontrivial :
  fix_face TJMwt 0 (flat_weights square_7) (flat_valid square_7) (flat_onseg square_7) first_of
    [0; 1; 3; 4] [0; 1; 2; 3; 4; 5; 6] = Some [[6; 0; 1; 2; 5]; [3; 4; 5; 2]] /\
  absorbs (flat_weights square_7 [0; 1; 2; 3; 4; 5; 6]).
Proof.
  split; [vm_compute; reflexivity|].
  split; [split; [apply Z.leb_le|apply Z.ltb_lt]; vm_compute; reflexivity|].
  intros i j k t _. apply Z.le_min_l.
Qed.

(** The hypotheses of [C79_mwt_no_degenerate] hold for every face in the plane
    whose sides are not longer than 10000 units. *)
Example C79_hypotheses :
  forall pts sf,
    (forall a b, (flat_dist pts a b <= 10 ^ 10)%Z) -> length sf <= 1000 ->
    (0 <= w_near (flat_weights pts sf) < w_max (flat_weights pts sf))%Z /\
    sums_grow (flat_weights pts sf) /\
    adds_at_most (flat_weights pts sf) (Z.of_nat (length sf) * (3 * 10 ^ 10)) (3 * 10 ^ 10) /\
    (Z.of_nat (length sf) * (3 * 10 ^ 10) < w_near (flat_weights pts sf))%Z /\
    absorbs (flat_weights pts sf).
Proof.
  intros pts sf Hd Hl. unfold absorbs.
  assert (H0 : (0 <= w_near (flat_weights pts sf) < w_max (flat_weights pts sf))%Z)
    by (split; [apply Z.leb_le|apply Z.ltb_lt]; vm_compute; reflexivity).
  assert (Hnn : forall a b, (0 <= flat_dist pts a b)%Z) by (intros; apply Z.sqrt_nonneg).
  split; [exact H0|]. split; [|split; [|split; [|split; [exact H0|]]]].
  - intros i j k a b Ha Hb.
    cbn [flat_weights w_sum w_near].
    pose proof (Hnn (nth i sf 0) (nth j sf 0)) as N1.
    pose proof (Hnn (nth j sf 0) (nth k sf 0)) as N2.
    pose proof (Hnn (nth k sf 0) (nth i sf 0)) as N3.
    cbn [flat_weights w_near] in H0. destruct H0 as [H0 _].
    set (near := (10 ^ 40 - 1)%Z) in *. clearbody near.
    set (d1 := flat_dist _ _ _) in *. clearbody d1.
    set (d2 := flat_dist _ _ _) in *. clearbody d2.
    set (d3 := flat_dist _ _ _) in *. clearbody d3.
    lia.
  - split; [apply Z.leb_le; vm_compute; reflexivity|].
    intros i j k a b Ha Hb _. cbn [flat_weights w_sum].
    pose proof (Hd (nth i sf 0) (nth j sf 0)) as N1.
    pose proof (Hd (nth j sf 0) (nth k sf 0)) as N2.
    pose proof (Hd (nth k sf 0) (nth i sf 0)) as N3.
    set (near := (10 ^ 40 - 1)%Z) in *. clearbody near.
    set (d1 := flat_dist _ _ _) in *. clearbody d1.
    set (d2 := flat_dist _ _ _) in *. clearbody d2.
    set (d3 := flat_dist _ _ _) in *. clearbody d3.
    set (c := (10 ^ 10)%Z) in *. clearbody c.
    lia.
  - apply Z.le_lt_trans with (1000 * (3 * 10 ^ 10))%Z;
      [|apply Z.ltb_lt; vm_compute; reflexivity].
    apply Z.mul_le_mono_nonneg_r; [apply Z.leb_le; vm_compute; reflexivity|lia].
  - intros i j k t _. apply Z.le_min_l.
Qed.

(* ------------------------------------------------------------------ *)
(** * C80: rotation, the edge limit, and no assertion failing *)

(** Whatever the level and the geometry, no assertion fails, and fragments have
    three vertices or more. *)
Theorem C80_never_asserts :
  forall level maxedges geo valid onseg pick orig sf,
    (level = TJMwt -> absorbs (geo sf)) -> (forall l, l <> [] -> In (pick l) l) ->
    maxedges = 0 \/ 3 <= maxedges -> 3 <= length orig ->
    exists frags, fix_face level maxedges geo valid onseg pick orig sf = Some frags /\
      Forall (fun p => 3 <= length p) frags.
Proof.
  intros level maxedges geo valid onseg pick orig sf Hw Hp Hm Ho.
  destruct (level) eqn:El.
  { exists [orig]. split; [reflexivity|]. repeat constructor. exact Ho. }
  all: destruct (Nat.lt_ge_cases 3 (length sf)) as [Hn|Hn];
    [|unfold fix_face; destruct (length sf <? 3) eqn:E3;
        [exists []; split; [reflexivity|constructor]|];
      apply Nat.ltb_ge in E3;
      replace (length sf =? 3) with true by (symmetry; apply Nat.eqb_eq; lia);
      exists [orig]; split; [reflexivity|]; repeat constructor; exact Ho].
  - destruct (rotate_or_retopo_total false valid onseg sf ltac:(lia)) as (faces & Hf & Hl).
    destruct (fix_face_from TJRotate maxedges geo valid onseg pick orig sf faces Hn
                ltac:(discriminate) Hm Hf Hl) as (frags & H1 & H2 & _).
    exists frags. auto.
  - destruct (rotate_or_retopo_total true valid onseg sf ltac:(lia)) as (faces & Hf & Hl).
    destruct (fix_face_from TJRetopologize maxedges geo valid onseg pick orig sf faces Hn
                ltac:(discriminate) Hm Hf Hl) as (frags & H1 & H2 & _).
    exists frags. auto.
  - destruct (C79_mwt_fragments maxedges geo valid onseg pick orig sf (Hw eq_refl) Hp Hm Hn)
      as (frags & T & P & H1 & H2 & _).
    exists frags. auto.
Qed.
Print Assumptions C80_never_asserts.

(** With -tjunc rotate the face is drawn as the fan from one of its vertices;
    if there is a vertex whose fan has no zero-area triangle, it is one. *)
Theorem C80_rotate :
  forall maxedges geo valid onseg pick orig sf,
    maxedges = 0 \/ 3 <= maxedges -> 3 < length sf ->
    exists frags i,
      fix_face TJRotate maxedges geo valid onseg pick orig sf = Some frags /\
      i < length sf /\
      Permutation (flat_map fan_tris frags) (fan_tris (rotate i sf)) /\
      (maxedges = 0 -> frags = [rotate i sf]) /\
      ((exists i0, i0 < length sf /\
          Forall (fun '(a, b, c) => valid a b c = true) (fan_tris (rotate i0 sf))) ->
       Forall (fun '(a, b, c) => valid a b c = true) (fan_tris (rotate i sf))).
Proof.
  intros maxedges geo valid onseg pick orig sf Hm Hn.
  assert (Hr : exists faces i, rotate_or_retopo false valid onseg sf = Some faces /\
            Forall (fun p => 3 <= length p) faces /\ i < length sf /\
            match faces with [] => [sf] | _ => faces end = [rotate i sf] /\
            ((exists i0, i0 < length sf /\ rotation_ok valid sf i0 = true) ->
             rotation_ok valid sf i = true)).
  { assert (R0 : rotate 0 sf = sf) by (unfold rotate; cbn; apply app_nil_r).
    unfold rotate_or_retopo, find_rotation.
    pose proof (find_first _ (rotation_ok valid sf) (seq 0 (length sf))) as Hf.
    destruct (find (rotation_ok valid sf) (seq 0 (length sf))) as [[|i]|].
    - exists [], 0. rewrite R0. destruct Hf as [_ Hf]. repeat split; auto. lia.
    - exists [rotate (S i) sf], (S i). destruct Hf as [Hi Hf]. apply in_seq in Hi.
      repeat split; auto; [|lia]. repeat constructor. rewrite rotate_length. lia.
    - exists [], 0. rewrite R0. repeat split; auto; [lia|].
      intros (i0 & Hi0 & Hok). rewrite (Hf i0) in Hok; [discriminate|]. apply in_seq. lia. }
  destruct Hr as (faces & i & Hf & Hl & Hi & Hface & Hok).
  destruct (fix_face_from TJRotate maxedges geo valid onseg pick orig sf faces Hn
              ltac:(discriminate) Hm Hf Hl) as (frags & H1 & H2 & H3).
  exists frags, i. split; [exact H1|]. split; [exact Hi|]. split; [|split].
  - rewrite H3, Hface. cbn [flat_map]. rewrite app_nil_r. reflexivity.
  - intros ->. unfold fix_face in H1.
    replace (length sf <? 3) with false in H1 by (symmetry; apply Nat.ltb_ge; lia).
    replace (length sf =? 3) with false in H1 by (symmetry; apply Nat.eqb_neq; lia).
    rewrite Hf in H1. cbn zeta in H1. rewrite Hface in H1. cbn [Nat.eqb] in H1.
    destruct (forallb _ _) in H1; congruence.
  - intros (i0 & Hi0 & Hv0). apply rotation_ok_tris; [exact Hi|lia|].
    apply Hok. exists i0. split; [exact Hi0|]. apply rotation_ok_tris; [exact Hi0|lia|exact Hv0].
Qed.
Print Assumptions C80_rotate.

(** With an edge limit, a face that is not cut into several faces beforehand is
    cut into pieces that keep to the limit.  Missing: faces that the
    triangulation or the retopology has cut up already, see
    [C80_max_edges_refuted]. *)
Theorem C80_max_edges_partial :
  forall maxedges geo valid onseg pick orig sf frags,
    3 <= maxedges -> 3 < length sf ->
    fix_face TJRotate maxedges geo valid onseg pick orig sf = Some frags ->
    Forall (fun p => 3 <= length p <= maxedges) frags.
Proof.
  intros maxedges geo valid onseg pick orig sf frags Hm Hn H.
  unfold fix_face in H.
  replace (length sf <? 3) with false in H by (symmetry; apply Nat.ltb_ge; lia).
  replace (length sf =? 3) with false in H by (symmetry; apply Nat.eqb_neq; lia).
  replace (maxedges =? 0) with false in H by (symmetry; apply Nat.eqb_neq; lia).
  assert (Hone : exists faces p, rotate_or_retopo false valid onseg sf = Some faces /\
            match faces with [] => [sf] | _ => faces end = [p] /\ 3 <= length p).
  { unfold rotate_or_retopo. destruct (find_rotation valid sf) as [[|i]|].
    - exists [], sf. repeat split. lia.
    - exists [rotate (S i) sf], (rotate (S i) sf). rewrite rotate_length. repeat split. lia.
    - exists [], sf. repeat split. lia. }
  destruct Hone as (faces & p & Hf & Hp & Hl).
  rewrite Hf in H. cbn zeta in H. rewrite Hp in H. cbn [length] in H.
  destruct (split_faces_spec maxedges Hm 0 p [] Hl) as (rest & new & H1 & H2 & H3 & _).
  rewrite H1 in H. cbn [app] in H.
  destruct (forallb _ _) in H; [|discriminate]. injection H as <-.
  apply Forall_app. split.
  - eapply Forall_impl; [|exact H3]. cbn. intros; lia.
  - repeat constructor; lia.
Qed.
Print Assumptions C80_max_edges_partial.

(** With -maxedges 3, the fan (3, 4, 5, 2) of the square is left with four
    edges; writing the face out ends in an error ("face->numpoints > max edges",
    qbsp/faces.cc).  It is the second face in the list, and only the first one
    is looked at. *)
Theorem C80_max_edges_refuted :
  exists pts sf frags p,
    fix_face TJMwt 3 (flat_weights pts) (flat_valid pts) (flat_onseg pts) first_of sf sf
      = Some frags /\
    In p frags /\ 3 < length p.
Proof.
  exists square_7, [0; 1; 2; 3; 4; 5; 6].
  eexists. exists [3; 4; 5; 2].
  split; [vm_compute; reflexivity|]. cbn. split; [tauto|lia].
Qed.
Print Assumptions C80_max_edges_refuted.

(** What exactly happens: of the faces in the list only the first is cut. *)
Theorem C80_only_first_split :
  forall maxedges f fs, 3 <= maxedges -> 3 <= length f ->
    exists pieces,
      split_faces (length (f :: fs)) maxedges (f :: fs) 0 = Some (fs ++ pieces) /\
      Forall (fun p => 3 <= length p <= maxedges) pieces /\
      flat_map fan_tris pieces = fan_tris f.
Proof.
  intros maxedges f fs Hm Hl.
  destruct (split_faces_spec maxedges Hm (length fs) f fs Hl) as (rest & new & H1 & H2 & H3 & H4 & _).
  exists (new ++ [rest]). split; [exact H1|]. split.
  - apply Forall_app. split; [|repeat constructor; lia].
    eapply Forall_impl; [|exact H3]. cbn. intros; lia.
  - rewrite flat_map_app. cbn [flat_map]. rewrite app_nil_r. exact H4.
Qed.
Print Assumptions C80_only_first_split.

Example C80_nontrivial :
  fix_face TJRotate 4 (flat_weights square_7) (flat_valid square_7) (flat_onseg square_7) first_of
    [0; 1; 3; 4] [0; 1; 2; 3; 4; 5; 6] = Some [[2; 3; 4; 5]; [2; 5; 6; 0]; [2; 0; 1]].
Proof. vm_compute. reflexivity. Qed.

(* ------------------------------------------------------------------ *)
(** * C81: retopologizing *)

(** [RetopologizeFace] ends, and gives nothing or fans that add up to the face.
    Missing: the rounds in which the fan ends before its first vertex in the
    array. *)
Theorem C81_retopologize_partial :
  forall valid onseg sf,
    exists fans, retopo (length sf + 1) valid onseg sf = Some fans /\
      Forall (fun p => 3 <= length p) fans /\
      (never_wraps (length sf + 1) valid onseg sf -> fans <> [] ->
       forall f, antisym f -> sum_map (loop_sum f) fans = loop_sum f sf).
Proof.
  intros valid onseg sf.
  destruct (retopo_total valid onseg (length sf + 1) sf ltac:(lia)) as (fans & Hr & Hl).
  exists fans. split; [exact Hr|]. split; [exact Hl|].
  intros Hw Hne f Hf. eapply retopo_sum; eassumption.
Qed.
Print Assumptions C81_retopologize_partial.

(** In such a round the last triangle of the fan is lost: the fan and the rest
    of the face are short of it. *)
Theorem C81_lost_triangle_refuted :
  forall valid onseg input fan rest,
    retopo_step valid onseg input = RWrapCut fan rest ->
    forall f, antisym f ->
      loop_sum f input =
      (loop_sum f fan + loop_sum f rest +
       tri_sum f (hd 0%nat fan, last fan 0%nat, hd 0%nat rest))%Z.
Proof.
  intros valid onseg input fan rest H f Hf.
  pose proof (retopo_step_spec valid onseg input) as Hs. rewrite H in Hs.
  destruct Hs as (seed & e & H1 & H2 & _ & -> & ->).
  apply retopo_wrap_sum; assumption.
Qed.
Print Assumptions C81_lost_triangle_refuted.

(** A triangle with three vertices on one side and two on another.  It can be
    cut up without a zero-area triangle, but of the two fans it is cut into one
    is drawn with one: the search for the end of the second fan stops at once,
    and stepping back from there is taken for having gone all the way round. *)
Definition triangle_8 : list (Z * Z) :=
  [(60, 0); (45, 0); (30, 0); (15, 0); (0, 0); (0, 60); (20, 40); (40, 20)]%Z.

Theorem C81_degenerate_refuted :
  exists pts sf fans a b c,
    fix_face TJRetopologize 0 (flat_weights pts) (flat_valid pts) (flat_onseg pts) first_of sf sf
      = Some fans /\
    In (a, b, c) (flat_map fan_tris fans) /\ flat_valid pts a b c = false /\
    exists good,
      fix_face TJMwt 0 (flat_weights pts) (flat_valid pts) (flat_onseg pts) first_of sf sf
        = Some good /\
      Forall (fun '(a, b, c) => flat_valid pts a b c = true) (flat_map fan_tris good).
Proof.
  exists triangle_8, [0; 1; 2; 3; 4; 5; 6; 7]. eexists. exists 2, 0, 1.
  split; [vm_compute; reflexivity|]. split; [cbn; tauto|]. split; [reflexivity|].
  eexists. split; [vm_compute; reflexivity|].
  cbn [flat_map fan_tris combine tl map app].
  repeat constructor.
Qed.
Print Assumptions C81_degenerate_refuted.

(** A square with two vertices on each of two opposite sides is cut right. *)
Example C81_nontrivial :
  let pts := [(0, 0); (0, 60); (20, 60); (40, 60); (60, 60); (60, 0); (40, 0); (20, 0)]%Z in
  fix_face TJRetopologize 0 (flat_weights pts) (flat_valid pts) (flat_onseg pts) first_of
    [0; 1; 4; 5] [0; 1; 2; 3; 4; 5; 6; 7] = Some [[0; 1; 2; 3; 4]; [4; 5; 6; 7; 0]] /\
  never_wraps 9 (flat_valid pts) (flat_onseg pts) [0; 1; 2; 3; 4; 5; 6; 7].
Proof. split; vm_compute; [reflexivity|exact I]. Qed.
