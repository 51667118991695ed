(* Lemmas about BspQueryModel. *)
From Coq Require Import Reals List ZArith Bool Lra Lia.
From Verif Require Import WindClipModel LightValProofs BspQueryModel.
Import ListNotations.
Open Scope R_scope.

(** The tree that the node numbers of a file stand for. *)
Inductive btree := TLeaf (i : Z) (l : dleaf) | TNode (n : dnode) (pl : dplane) (f k : btree).
Inductive tree_at (b : bsp) : Z -> btree -> Prop :=
| TA_leaf num l : (num < 0)%Z -> nth_error (b_leafs b) (Z.to_nat (-1 - num)) = Some l -> tree_at b num (TLeaf (-1 - num) l)
| TA_node num n pl f k : (0 <= num)%Z -> nth_error (b_nodes b) (Z.to_nat num) = Some n ->
    (0 <= dn_plane n)%Z -> nth_error (b_planes b) (Z.to_nat (dn_plane n)) = Some pl ->
    tree_at b (dn_front n) f -> tree_at b (dn_back n) k -> tree_at b num (TNode n pl f k).
Fixpoint height (t : btree) : nat := match t with TLeaf _ _ => O | TNode _ _ f k => S (Nat.max (height f) (height k)) end.

(** The leafs of a tree from the front to the back, each with the planes above it; true is the back. *)
Fixpoint leafs (t : btree) : list (list (dplane * bool) * (Z * dleaf)) :=
  match t with
  | TLeaf i l => [([], (i, l))]
  | TNode _ pl f k => map (fun x => ((pl, false) :: fst x, snd x)) (leafs f) ++ map (fun x => ((pl, true) :: fst x, snd x)) (leafs k)
  end.
(** The nodes of a tree, each with the planes above it. *)
Fixpoint nodes (t : btree) : list (list (dplane * bool) * (dnode * dplane)) :=
  match t with
  | TLeaf _ _ => []
  | TNode n pl f k => ([], (n, pl)) :: map (fun x => ((pl, false) :: fst x, snd x)) (nodes f) ++ map (fun x => ((pl, true) :: fst x, snd x)) (nodes k)
  end.

(** The point is on the given side of the plane; on it or at most 1/10 off. *)
Definition on_side (p : vec) (h : dplane * bool) : Prop :=
  if snd h then distance_fast (fst h) p < 0 else 0 <= distance_fast (fst h) p.
Definition near_side (p : vec) (h : dplane * bool) : Prop :=
  if snd h then distance_fast (fst h) p <= 1 / 10 else - (1 / 10) <= distance_fast (fst h) p.

Lemma at_z_nth {A} (l : list A) i : (0 <= i)%Z -> at_z l i = nth_error l (Z.to_nat i).
Proof. intro H. unfold at_z. destruct (Z.ltb_spec i 0); [lia|reflexivity]. Qed.

Lemma node_of_ok b num n pl : (0 <= num)%Z -> nth_error (b_nodes b) (Z.to_nat num) = Some n ->
  (0 <= dn_plane n)%Z -> nth_error (b_planes b) (Z.to_nat (dn_plane n)) = Some pl -> node_of b num = Got (n, pl).
Proof. intros A B C D. unfold node_of. rewrite !at_z_nth by assumption. rewrite B, at_z_nth by assumption. rewrite D. reflexivity. Qed.

Lemma leaf_of_ok b num l : (num < 0)%Z -> nth_error (b_leafs b) (Z.to_nat (-1 - num)) = Some l -> leaf_of b num = Got ((-1 - num)%Z, l).
Proof. intros A B. unfold leaf_of. rewrite at_z_nth by lia. rewrite B. reflexivity. Qed.

Ltac neg_num H := match type of H with (?n < 0)%Z => destruct (Z.ltb_spec n 0); [|lia] end.
Ltac pos_num H := match type of H with (0 <= ?n)%Z => destruct (Z.ltb_spec n 0); [lia|] end.

Lemma find_leaf_ok b num t : tree_at b num t -> forall fuel p, (height t <= fuel)%nat ->
  exists path x, In (path, x) (leafs t) /\ Forall (on_side p) path /\ find_leaf fuel b num p = Got x /\
    forall path' x', In (path', x') (leafs t) -> Forall (on_side p) path' -> path' = path /\ x' = x.
Proof.
  induction 1 as [num l Hn Hl|num n pl f k Hn Hno Hp Hpl Tf IHf Tk IHk]; intros fuel p Hh.
  - exists [], ((-1 - num)%Z, l). split; [left; reflexivity|]. split; [constructor|]. split.
    + destruct fuel; cbn [find_leaf]; neg_num Hn; apply leaf_of_ok; assumption.
    + intros path' x' [E|[]] _. injection E as <- <-. split; reflexivity.
  - cbn [height] in Hh. destruct fuel as [|fuel]; [lia|].
    assert (Ef : find_leaf (S fuel) b num p = if Rle_dec 0 (distance_fast pl p) then find_leaf fuel b (dn_front n) p else find_leaf fuel b (dn_back n) p).
    { cbn [find_leaf]. pos_num Hn. rewrite (node_of_ok b num n pl) by assumption. reflexivity. }
    rewrite Ef. destruct (Rle_dec 0 (distance_fast pl p)) as [D|D].
    + destruct (IHf fuel p ltac:(lia)) as (path & x & A & B & C & U).
      exists ((pl, false) :: path), x. split; [|split; [|split; [exact C|]]].
      * cbn [leafs]. apply in_or_app. left. apply in_map_iff. exists (path, x). split; [reflexivity|exact A].
      * constructor; [exact D|exact B].
      * intros path' x' I F. cbn [leafs] in I. apply in_app_or in I.
        destruct I as [I|I]; apply in_map_iff in I; destruct I as ([q y] & E & I); cbn [fst snd] in E; injection E as <- <-; inversion F as [|? ? F1 F2]; subst.
        -- destruct (U q y I F2) as [-> ->]. split; reflexivity.
        -- unfold on_side in F1. cbn [fst snd] in F1. lra.
    + destruct (IHk fuel p ltac:(lia)) as (path & x & A & B & C & U).
      exists ((pl, true) :: path), x. split; [|split; [|split; [exact C|]]].
      * cbn [leafs]. apply in_or_app. right. apply in_map_iff. exists (path, x). split; [reflexivity|exact A].
      * constructor; [unfold on_side; cbn [fst snd]; lra|exact B].
      * intros path' x' I F. cbn [leafs] in I. apply in_app_or in I.
        destruct I as [I|I]; apply in_map_iff in I; destruct I as ([q y] & E & I); cbn [fst snd] in E; injection E as <- <-; inversion F as [|? ? F1 F2]; subst.
        -- unfold on_side in F1. cbn [fst snd] in F1. lra.
        -- destruct (U q y I F2) as [-> ->]. split; reflexivity.
Qed.

Lemma point_in_leaf_r_ok b num t : tree_at b num t -> forall fuel p, point_in_leaf_r fuel b num p = find_leaf fuel b num p.
Proof.
  induction 1 as [num l Hn Hl|num n pl f k Hn Hno Hp Hpl Tf IHf Tk IHk]; intros fuel p.
  - destruct fuel; cbn [find_leaf point_in_leaf_r]; neg_num Hn; rewrite (leaf_of_ok b num l) by assumption; rewrite at_z_nth by lia; rewrite Hl; reflexivity.
  - destruct fuel as [|fuel]; cbn [find_leaf point_in_leaf_r]; pos_num Hn; [reflexivity|].
    rewrite (node_of_ok b num n pl) by assumption. cbn [abind].
    destruct (Rlt_dec (distance_fast pl p) 0), (Rle_dec 0 (distance_fast pl p)); try lra; [apply IHk|apply IHf].
Qed.

Lemma point_in_solid_ok b num t : tree_at b num t -> forall fuel p, (height t <= fuel)%nat ->
  exists s, point_in_solid fuel b num p = Got s /\
    (s = true <-> exists path i l, In (path, (i, l)) (leafs t) /\ Forall (near_side p) path /\ solid_leaf (b_q2 b) l = true).
Proof.
  induction 1 as [num l Hn Hl|num n pl f k Hn Hno Hp Hpl Tf IHf Tk IHk]; intros fuel p Hh.
  - exists (solid_leaf (b_q2 b) l). split.
    + destruct fuel; cbn [point_in_solid]; neg_num Hn; rewrite (leaf_of_ok b num l) by assumption; reflexivity.
    + cbn [leafs]. split.
      * intro E. exists [], (-1 - num)%Z, l. split; [left; reflexivity|]. split; [constructor|exact E].
      * intros (path & i & l' & [E|[]] & _ & S). injection E as <- <- <-. exact S.
  - cbn [height] in Hh. destruct fuel as [|fuel]; [lia|].
    destruct (IHf fuel p ltac:(lia)) as (sf & Ef & Sf). destruct (IHk fuel p ltac:(lia)) as (sk & Ek & Sk).
    assert (K : forall path i l, In (path, (i, l)) (leafs (TNode n pl f k)) ->
              (exists q, path = (pl, false) :: q /\ In (q, (i, l)) (leafs f)) \/ (exists q, path = (pl, true) :: q /\ In (q, (i, l)) (leafs k))).
    { intros path i l I. cbn [leafs] in I. apply in_app_or in I.
      destruct I as [I|I]; apply in_map_iff in I; destruct I as ([q y] & E & I); cbn [fst snd] in E; injection E as <- ->; [left|right]; exists q; split; [reflexivity|exact I|reflexivity|exact I]. }
    assert (Kf : forall q x, In (q, x) (leafs f) -> In ((pl, false) :: q, x) (leafs (TNode n pl f k))).
    { intros q x I. cbn [leafs]. apply in_or_app. left. apply in_map_iff. exists (q, x). split; [reflexivity|exact I]. }
    assert (Kk : forall q x, In (q, x) (leafs k) -> In ((pl, true) :: q, x) (leafs (TNode n pl f k))).
    { intros q x I. cbn [leafs]. apply in_or_app. right. apply in_map_iff. exists (q, x). split; [reflexivity|exact I]. }
    cbn [point_in_solid]. pos_num Hn. rewrite (node_of_ok b num n pl) by assumption. cbn [abind].
    destruct (Rlt_dec (1 / 10) (distance_fast pl p)) as [D|D]; [|destruct (Rlt_dec (distance_fast pl p) (- (1 / 10))) as [D'|D']].
    + exists sf. split; [exact Ef|]. rewrite Sf. split.
      * intros (q & i & l & I & F & S). exists ((pl, false) :: q), i, l. split; [apply Kf; exact I|]. split; [|exact S].
        constructor; [unfold near_side; cbn [fst snd]; lra|exact F].
      * intros (path & i & l & I & F & S). destruct (K path i l I) as [(q & -> & J)|(q & -> & J)]; inversion F as [|? ? F1 F2]; subst.
        -- exists q, i, l. split; [exact J|]. split; [exact F2|exact S].
        -- unfold near_side in F1. cbn [fst snd] in F1. lra.
    + exists sk. split; [exact Ek|]. rewrite Sk. split.
      * intros (q & i & l & I & F & S). exists ((pl, true) :: q), i, l. split; [apply Kk; exact I|]. split; [|exact S].
        constructor; [unfold near_side; cbn [fst snd]; lra|exact F].
      * intros (path & i & l & I & F & S). destruct (K path i l I) as [(q & -> & J)|(q & -> & J)]; inversion F as [|? ? F1 F2]; subst.
        -- unfold near_side in F1. cbn [fst snd] in F1. lra.
        -- exists q, i, l. split; [exact J|]. split; [exact F2|exact S].
    + exists (sf || sk)%bool. split.
      * rewrite Ef. cbn [abind]. destruct sf; [reflexivity|exact Ek].
      * rewrite orb_true_iff, Sf, Sk. split.
        -- intros [(q & i & l & I & F & S)|(q & i & l & I & F & S)].
           ++ exists ((pl, false) :: q), i, l. split; [apply Kf; exact I|]. split; [|exact S].
              constructor; [unfold near_side; cbn [fst snd]; lra|exact F].
           ++ exists ((pl, true) :: q), i, l. split; [apply Kk; exact I|]. split; [|exact S].
              constructor; [unfold near_side; cbn [fst snd]; lra|exact F].
        -- intros (path & i & l & I & F & S). destruct (K path i l I) as [(q & -> & J)|(q & -> & J)]; inversion F as [|? ? F1 F2]; subst; [left|right];
             exists q, i, l; (split; [exact J|]; split; [exact F2|exact S]).
Qed.

(** Planes whose distances change no faster than the point moves. *)
Definition plane_ok (pl : dplane) : Prop := dp_type pl = 0%Z \/ dp_type pl = 1%Z \/ dp_type pl = 2%Z \/ len (dp_n pl) <= 1.

Lemma comp_le v : Rabs (vx v) <= len v /\ Rabs (vy v) <= len v /\ Rabs (vz v) <= len v.
Proof.
  assert (S : len v * len v = vx v * vx v + vy v * vy v + vz v * vz v) by (rewrite len_sq; reflexivity).
  assert (P := len_nonneg v).
  split; [|split]; apply sq_abs_le; try exact P; rewrite S; nra.
Qed.

Lemma sub_comp p q : vx (sub p q) = vx p - vx q /\ vy (sub p q) = vy p - vy q /\ vz (sub p q) = vz p - vz q.
Proof. repeat split; reflexivity. Qed.

Lemma distance_lip pl p q : plane_ok pl -> Rabs (distance_fast pl p - distance_fast pl q) <= len (sub p q).
Proof.
  intro H. destruct (comp_le (sub p q)) as (X & Y & Z). destruct (sub_comp p q) as (X1 & Y1 & Z1). rewrite X1 in X. rewrite Y1 in Y. rewrite Z1 in Z.
  destruct H as [H|[H|[H|H]]]; unfold distance_fast.
  1-3: rewrite H; cbn iota.
  - replace (vx p - dp_d pl - (vx q - dp_d pl)) with (vx p - vx q) by ring. exact X.
  - replace (vy p - dp_d pl - (vy q - dp_d pl)) with (vy p - vy q) by ring. exact Y.
  - replace (vz p - dp_d pl - (vz q - dp_d pl)) with (vz p - vz q) by ring. exact Z.
  - assert (G : Rabs (dist_to (mkPl (dp_n pl) (dp_d pl)) p - dist_to (mkPl (dp_n pl) (dp_d pl)) q) <= len (sub p q)).
    { replace (dist_to (mkPl (dp_n pl) (dp_d pl)) p - dist_to (mkPl (dp_n pl) (dp_d pl)) q) with (dot (sub p q) (dp_n pl))
        by (unfold dist_to, dot, sub; cbn [p_n p_d vx vy vz]; ring).
      eapply Rle_trans; [apply cauchy|]. assert (P := len_nonneg (sub p q)). nra. }
    destruct (dp_type pl) as [|[[|[]|]|[|[]|]|]|]; try exact G.
    + replace (vx p - dp_d pl - (vx q - dp_d pl)) with (vx p - vx q) by ring. exact X.
    + replace (vz p - dp_d pl - (vz q - dp_d pl)) with (vz p - vz q) by ring. exact Z.
    + replace (vy p - dp_d pl - (vy q - dp_d pl)) with (vy p - vy q) by ring. exact Y.
Qed.

Lemma on_near p q h : plane_ok (fst h) -> len (sub p q) <= 1 / 10 -> on_side q h -> near_side p h.
Proof.
  intros A L O. assert (D := distance_lip (fst h) p q A).
  assert (D2 : - (1 / 10) <= distance_fast (fst h) p - distance_fast (fst h) q <= 1 / 10).
  { assert (E : Rabs (distance_fast (fst h) p - distance_fast (fst h) q) <= 1 / 10) by lra.
    unfold Rabs in E. destruct (Rcase_abs _); lra. }
  unfold on_side in O. unfold near_side. destruct (snd h); lra.
Qed.

(** *** Faces *)

Definition face_hit (b : bsp) (want : option vec) (p : vec) (i : Z) : Prop :=
  exists f pl, (0 <= i)%Z /\ nth_error (b_faces b) (Z.to_nat i) = Some f /\ (0 <= df_plane f)%Z /\ nth_error (b_planes b) (Z.to_nat (df_plane f)) = Some pl /\
    (let n := if df_side f then scale (-1) (dp_n pl) else dp_n pl in
     (forall w, want = Some w -> 0 <= dot n w) /\
     forall e, In e (edges (df_pts f)) -> 0 <= dot (sub p (fst e)) (cross (normalize (sub (snd e) (fst e))) n)).

Definition faces_ok (b : bsp) (first num : Z) : Prop :=
  forall i, (first <= i < first + num)%Z -> exists f pl, (0 <= i)%Z /\ nth_error (b_faces b) (Z.to_nat i) = Some f /\
    (0 <= df_plane f)%Z /\ nth_error (b_planes b) (Z.to_nat (df_plane f)) = Some pl.

Lemma inside_spec n f p : inside_face n f p = true <->
  forall e, In e (edges (df_pts f)) -> 0 <= dot (sub p (fst e)) (cross (normalize (sub (snd e) (fst e))) n).
Proof.
  unfold inside_face. rewrite forallb_forall. split; intros H e I; specialize (H e I).
  - destruct (Rlt_dec (dist_to (edge_plane n e) p) 0) as [L|L]; [discriminate|].
    unfold dist_to, edge_plane in L. cbn [p_n p_d] in L.
    set (c := cross (normalize (sub (snd e) (fst e))) n) in *. clearbody c.
    unfold dot, sub in *. cbn [vx vy vz]. lra.
  - destruct (Rlt_dec (dist_to (edge_plane n e) p) 0) as [L|L]; [|reflexivity]. exfalso.
    unfold dist_to, edge_plane in L. cbn [p_n p_d] in L.
    set (c := cross (normalize (sub (snd e) (fst e))) n) in *. clearbody c.
    unfold dot, sub in *. cbn [vx vy vz] in H. lra.
Qed.

Lemma faces_on_ok b want p num : forall first, faces_ok b first (Z.of_nat num) ->
  exists l, faces_on b want p first num = Got l /\ (forall i, In i l <-> (first <= i < first + Z.of_nat num)%Z /\ face_hit b want p i).
Proof.
  induction num as [|num IH]; intros first H.
  - exists []. split; [reflexivity|]. intro i. split; [intros []|]. intros [A _]. lia.
  - destruct (H first ltac:(lia)) as (f & pl & A & B & C & D).
    destruct (IH (first + 1)%Z) as (l & El & Sl). { intros i I. apply H. lia. }
    set (n := if df_side f then scale (-1) (dp_n pl) else dp_n pl).
    set (facing := match want with None => true | Some w => if Rlt_dec (dot n w) 0 then false else true end).
    assert (Fp : exists fp, face_plane b f = Got fp /\ p_n fp = n).
    { unfold face_plane. rewrite at_z_nth by assumption. rewrite D. eexists. split; [reflexivity|]. unfold n. destruct (df_side f); reflexivity. }
    destruct Fp as (fp & Fp1 & Fp2).
    assert (E : faces_on b want p first (S num) = Got (if facing && inside_face n f p then first :: l else l)).
    { cbn [faces_on]. rewrite at_z_nth by assumption. rewrite B, Fp1. cbn [abind]. rewrite El. cbn [abind]. rewrite Fp2. reflexivity. }
    eexists. split; [exact E|]. intro i.
    assert (Hf : facing = true <-> forall w, want = Some w -> 0 <= dot n w).
    { unfold facing. destruct want as [w|].
      - destruct (Rlt_dec (dot n w) 0) as [L|L]; split; intro G; try discriminate; try reflexivity.
        + exfalso. specialize (G w eq_refl). lra.
        + intros w' Ew. injection Ew as <-. lra.
      - split; [intros _ w Ew; discriminate|reflexivity]. }
    assert (Hh : (facing && inside_face n f p)%bool = true <-> face_hit b want p first).
    { rewrite andb_true_iff, Hf, inside_spec. split.
      - intros [G1 G2]. exists f, pl. split; [exact A|]. split; [exact B|]. split; [exact C|]. split; [exact D|]. split; assumption.
      - intros (f' & pl' & _ & B' & _ & D' & G). rewrite B in B'. injection B' as <-. rewrite D in D'. injection D' as <-. exact G. }
    destruct (facing && inside_face n f p)%bool eqn:Q.
    + split.
      * intros [<-|I]. { split; [lia|]. apply Hh. reflexivity. } apply Sl in I. destruct I as [I1 I2]. split; [lia|exact I2].
      * intros [I1 I2]. destruct (Z.eq_dec first i) as [->|Ne]; [left; reflexivity|right]. apply Sl. split; [lia|exact I2].
    + split.
      * intro I. apply Sl in I. destruct I as [I1 I2]. split; [lia|exact I2].
      * intros [I1 I2]. apply Sl. destruct (Z.eq_dec first i) as [->|Ne]; [|split; [lia|exact I2]].
        apply Hh in I2. discriminate.
Qed.

Lemma find_faces_ok b num t : tree_at b num t ->
  (forall path n pl, In (path, (n, pl)) (nodes t) -> (0 <= dn_num n)%Z /\ faces_ok b (dn_first n) (dn_num n)) ->
  forall want fuel p, (height t <= fuel)%nat ->
  exists l, find_faces fuel b want num p = Got l /\
    forall i, In i l <-> exists path n pl, In (path, (n, pl)) (nodes t) /\ Forall (near_side p) path /\
      - (1 / 10) <= distance_fast pl p <= 1 / 10 /\ (dn_first n <= i < dn_first n + dn_num n)%Z /\ face_hit b want p i.
Proof.
  induction 1 as [num l Hn Hl|num n pl f k Hn Hno Hp Hpl Tf IHf Tk IHk]; intros W want fuel p Hh.
  - exists []. split. { destruct fuel; cbn [find_faces]; neg_num Hn; reflexivity. }
    intro i. split; [intros []|]. intros (path & n & pl & [] & _).
  - cbn [height] in Hh. destruct fuel as [|fuel]; [lia|].
    assert (Kf : forall q x, In (q, x) (nodes f) -> In ((pl, false) :: q, x) (nodes (TNode n pl f k))).
    { intros q x I. cbn [nodes]. right. apply in_or_app. left. apply in_map_iff. exists (q, x). split; [reflexivity|exact I]. }
    assert (Kk : forall q x, In (q, x) (nodes k) -> In ((pl, true) :: q, x) (nodes (TNode n pl f k))).
    { intros q x I. cbn [nodes]. right. apply in_or_app. right. apply in_map_iff. exists (q, x). split; [reflexivity|exact I]. }
    assert (K : forall path x, In (path, x) (nodes (TNode n pl f k)) -> (path = [] /\ x = (n, pl)) \/
              (exists q, path = (pl, false) :: q /\ In (q, x) (nodes f)) \/ (exists q, path = (pl, true) :: q /\ In (q, x) (nodes k))).
    { intros path x I. cbn [nodes] in I. destruct I as [I|I]. { injection I as <- <-. left. split; reflexivity. }
      right. apply in_app_or in I.
      destruct I as [I|I]; apply in_map_iff in I; destruct I as ([q y] & E & I); cbn [fst snd] in E; injection E as <- <-; [left|right]; exists q; (split; [reflexivity|exact I]). }
    destruct (IHf (fun path n' pl' I => W _ n' pl' (Kf path _ I)) want fuel p ltac:(lia)) as (lf & Ef & Sf).
    destruct (IHk (fun path n' pl' I => W _ n' pl' (Kk path _ I)) want fuel p ltac:(lia)) as (lk & Ek & Sk).
    destruct (W [] n pl (or_introl eq_refl)) as (Nn & Fn).
    destruct (faces_on_ok b want p (Z.to_nat (dn_num n)) (dn_first n)) as (lo & Eo & So). { rewrite Z2Nat.id by exact Nn. exact Fn. }
    rewrite Z2Nat.id in So by exact Nn.
    cbn [find_faces]. pos_num Hn. rewrite (node_of_ok b num n pl) by assumption. cbn [abind].
    destruct (Rlt_dec (1 / 10) (distance_fast pl p)) as [D|D]; [|destruct (Rlt_dec (distance_fast pl p) (- (1 / 10))) as [D'|D']].
    + exists lf. split; [exact Ef|]. intro i. rewrite Sf. split.
      * intros (q & n' & pl' & I & F & G). exists ((pl, false) :: q), n', pl'. split; [apply Kf; exact I|]. split; [|exact G].
        constructor; [unfold near_side; cbn [fst snd]; lra|exact F].
      * intros (path & n' & pl' & I & F & G). destruct (K _ _ I) as [[-> E]|[(q & -> & J)|(q & -> & J)]].
        -- injection E as -> ->. lra.
        -- inversion F as [|? ? F1 F2]; subst. exists q, n', pl'. split; [exact J|]. split; [exact F2|exact G].
        -- inversion F as [|? ? F1 F2]; subst. unfold near_side in F1. cbn [fst snd] in F1. lra.
    + exists lk. split; [exact Ek|]. intro i. rewrite Sk. split.
      * intros (q & n' & pl' & I & F & G). exists ((pl, true) :: q), n', pl'. split; [apply Kk; exact I|]. split; [|exact G].
        constructor; [unfold near_side; cbn [fst snd]; lra|exact F].
      * intros (path & n' & pl' & I & F & G). destruct (K _ _ I) as [[-> E]|[(q & -> & J)|(q & -> & J)]].
        -- injection E as -> ->. lra.
        -- inversion F as [|? ? F1 F2]; subst. unfold near_side in F1. cbn [fst snd] in F1. lra.
        -- inversion F as [|? ? F1 F2]; subst. exists q, n', pl'. split; [exact J|]. split; [exact F2|exact G].
    + exists (lo ++ lf ++ lk). split. { rewrite Eo. cbn [abind]. rewrite Ef. cbn [abind]. rewrite Ek. reflexivity. }
      intro i. rewrite !in_app_iff, So, Sf, Sk. split.
      * intros [[I1 I2]|[(q & n' & pl' & I & F & G)|(q & n' & pl' & I & F & G)]].
        -- exists [], n, pl. split; [left; reflexivity|]. split; [constructor|]. split; [lra|]. split; assumption.
        -- exists ((pl, false) :: q), n', pl'. split; [apply Kf; exact I|]. split; [|exact G].
           constructor; [unfold near_side; cbn [fst snd]; lra|exact F].
        -- exists ((pl, true) :: q), n', pl'. split; [apply Kk; exact I|]. split; [|exact G].
           constructor; [unfold near_side; cbn [fst snd]; lra|exact F].
      * intros (path & n' & pl' & I & F & G). destruct (K _ _ I) as [[-> E]|[(q & -> & J)|(q & -> & J)]].
        -- injection E as -> ->. left. destruct G as (_ & G1 & G2). split; assumption.
        -- right. left. inversion F as [|? ? F1 F2]; subst. exists q, n', pl'. split; [exact J|]. split; [exact F2|exact G].
        -- right. right. inversion F as [|? ? F1 F2]; subst. exists q, n', pl'. split; [exact J|]. split; [exact F2|exact G].
Qed.

(** *** Visits *)
Lemma visit_ok b num t : tree_at b num t -> forall fuel, (height t <= fuel)%nat -> visit_leafs fuel b num = Got (map snd (leafs t)).
Proof.
  induction 1 as [num l Hn Hl|num n pl f k Hn Hno Hp Hpl Tf IHf Tk IHk]; intros fuel Hh.
  - destruct fuel; cbn [visit_leafs]; neg_num Hn; rewrite (leaf_of_ok b num l) by assumption; reflexivity.
  - cbn [height] in Hh. destruct fuel as [|fuel]; [lia|]. cbn [visit_leafs]. pos_num Hn. rewrite at_z_nth by assumption. rewrite Hno.
    rewrite IHf, IHk by lia. cbn [abind leafs]. rewrite map_app, !map_map. reflexivity.
Qed.

(** *** Files whose nodes come before their children, as qbsp writes them *)
Definition file_ok (b : bsp) : Prop :=
  forall i n, nth_error (b_nodes b) i = Some n ->
    ((0 <= dn_plane n < Z.of_nat (length (b_planes b)))%Z /\
     forall c, c = dn_front n \/ c = dn_back n ->
       (Z.of_nat i < c < Z.of_nat (length (b_nodes b)))%Z \/ ((c < 0)%Z /\ (-1 - c < Z.of_nat (length (b_leafs b)))%Z)).

Lemma nth_some {A} (l : list A) i : (i < length l)%nat -> exists x, nth_error l i = Some x.
Proof. intro H. destruct (nth_error l i) eqn:E; [eexists; reflexivity|]. apply nth_error_None in E. lia. Qed.

Lemma file_tree b : file_ok b -> forall m num, (Z.of_nat (length (b_nodes b)) - num <= Z.of_nat m)%Z ->
  ((0 <= num < Z.of_nat (length (b_nodes b)))%Z \/ ((num < 0)%Z /\ (-1 - num < Z.of_nat (length (b_leafs b)))%Z)) ->
  exists t, tree_at b num t /\ ((0 <= num)%Z -> (Z.of_nat (height t) <= Z.of_nat (length (b_nodes b)) - num)%Z) /\ ((num < 0)%Z -> height t = O).
Proof.
  intro OK. induction m as [|m IH]; intros num Hm Hr.
  - destruct Hr as [Hr|[Hn Hl]]; [lia|].
    destruct (nth_some (b_leafs b) (Z.to_nat (-1 - num)) ltac:(lia)) as (l & El).
    exists (TLeaf (-1 - num) l). split; [constructor; assumption|]. split; [lia|reflexivity].
  - destruct Hr as [Hr|[Hn Hl]].
    + destruct (nth_some (b_nodes b) (Z.to_nat num) ltac:(lia)) as (n & En).
      destruct (OK _ _ En) as (Hp & Hc).
      destruct (nth_some (b_planes b) (Z.to_nat (dn_plane n)) ltac:(lia)) as (pl & Epl).
      assert (G : forall c, c = dn_front n \/ c = dn_back n -> exists t, tree_at b c t /\ (Z.of_nat (height t) < Z.of_nat (length (b_nodes b)) - num)%Z).
      { intros c Ec. specialize (Hc c Ec). rewrite Z2Nat.id in Hc by lia. destruct Hc as [Hc|[Hc1 Hc2]].
        - destruct (IH c ltac:(lia) ltac:(left; lia)) as (t & T & H1 & _). exists t. split; [exact T|]. specialize (H1 ltac:(lia)). lia.
        - destruct (nth_some (b_leafs b) (Z.to_nat (-1 - c)) ltac:(lia)) as (l & El).
          exists (TLeaf (-1 - c) l). split; [constructor; assumption|]. cbn [height]. lia. }
      destruct (G _ (or_introl eq_refl)) as (tf & Tf & Hf). destruct (G _ (or_intror eq_refl)) as (tk & Tk & Hk).
      exists (TNode n pl tf tk). split; [constructor; try assumption; lia|]. split; [|lia].
      intros _. cbn [height]. lia.
    + destruct (nth_some (b_leafs b) (Z.to_nat (-1 - num)) ltac:(lia)) as (l & El).
      exists (TLeaf (-1 - num) l). split; [constructor; assumption|]. split; [lia|reflexivity].
Qed.

(** *** Clip nodes *)
Inductive ctree := CLeaf (c : Z) | CNode (num : Z) (pl : dplane) (f k : ctree).
Inductive ctree_at (b : bsp) : Z -> ctree -> Prop :=
| CA_leaf num : (num < 0)%Z -> ctree_at b num (CLeaf num)
| CA_node num n pl f k : (0 <= num)%Z -> nth_error (b_clips b) (Z.to_nat num) = Some n ->
    (0 <= dc_plane n)%Z -> nth_error (b_planes b) (Z.to_nat (dc_plane n)) = Some pl ->
    ctree_at b (dc_front n) f -> ctree_at b (dc_back n) k -> ctree_at b num (CNode num pl f k).
Fixpoint cheight (t : ctree) : nat := match t with CLeaf _ => O | CNode _ _ f k => S (Nat.max (cheight f) (cheight k)) end.
(** The contents at the ends of a clip tree, each with the numbers, planes and sides above it. *)
Fixpoint cleafs (t : ctree) : list (list (Z * (dplane * bool)) * Z) :=
  match t with
  | CLeaf c => [([], c)]
  | CNode num pl f k => map (fun x => ((num, (pl, false)) :: fst x, snd x)) (cleafs f) ++ map (fun x => ((num, (pl, true)) :: fst x, snd x)) (cleafs k)
  end.
Definition last_of (parent : Z) (side : option bool) (path : list (Z * (dplane * bool))) : Z * option bool :=
  fold_left (fun _ h => (fst h, Some (snd (snd h)))) path (parent, side).

Lemma find_clip_ok b num t : ctree_at b num t -> forall fuel parent side p, (cheight t <= fuel)%nat ->
  exists path c, In (path, c) (cleafs t) /\ Forall (fun h => on_side p (snd h)) path /\
    find_clip fuel b parent side num p = Got (fst (last_of parent side path), snd (last_of parent side path), c) /\
    forall path' c', In (path', c') (cleafs t) -> Forall (fun h => on_side p (snd h)) path' -> path' = path /\ c' = c.
Proof.
  induction 1 as [num Hn|num n pl f k Hn Hno Hp Hpl Tf IHf Tk IHk]; intros fuel parent side p Hh.
  - exists [], num. split; [left; reflexivity|]. split; [constructor|]. split.
    + destruct fuel; cbn [find_clip]; neg_num Hn; reflexivity.
    + intros path' c' [E|[]] _. injection E as <- <-. split; reflexivity.
  - cbn [cheight] in Hh. destruct fuel as [|fuel]; [lia|]. cbn [find_clip]. pos_num Hn.
    rewrite at_z_nth by assumption. rewrite Hno. rewrite at_z_nth by assumption. rewrite Hpl.
    destruct (Rle_dec 0 (distance_fast pl p)) as [D|D].
    + destruct (IHf fuel num (Some false) p ltac:(lia)) as (path & c & A & B & C & U).
      exists ((num, (pl, false)) :: path), c. split; [|split; [|split; [exact C|]]].
      * cbn [cleafs]. apply in_or_app. left. apply in_map_iff. exists (path, c). split; [reflexivity|exact A].
      * constructor; [exact D|exact B].
      * intros path' x' I F. cbn [cleafs] in I. apply in_app_or in I.
        destruct I as [I|I]; apply in_map_iff in I; destruct I as ([q y] & E & I); cbn [fst snd] in E; injection E as <- <-; inversion F as [|? ? F1 F2]; subst.
        -- destruct (U q y I F2) as [-> ->]. split; reflexivity.
        -- unfold on_side in F1. cbn [fst snd] in F1. lra.
    + destruct (IHk fuel num (Some true) p ltac:(lia)) as (path & c & A & B & C & U).
      exists ((num, (pl, true)) :: path), c. split; [|split; [|split; [exact C|]]].
      * cbn [cleafs]. apply in_or_app. right. apply in_map_iff. exists (path, c). split; [reflexivity|exact A].
      * constructor; [unfold on_side; cbn [fst snd]; lra|exact B].
      * intros path' x' I F. cbn [cleafs] in I. apply in_app_or in I.
        destruct I as [I|I]; apply in_map_iff in I; destruct I as ([q y] & E & I); cbn [fst snd] in E; injection E as <- <-; inversion F as [|? ? F1 F2]; subst.
        -- unfold on_side in F1. cbn [fst snd] in F1. lra.
        -- destruct (U q y I F2) as [-> ->]. split; reflexivity.
Qed.

(** *** Moving lights and samples out of solid *)
Lemma first_open_spec solid none l : forall r, first_open solid l none = r ->
  (forall q, In q l -> exists s, solid q = Got s) ->
  (exists pre q post, l = pre ++ q :: post /\ Forall (fun x => solid x = Got true) pre /\ solid q = Got false /\ r = Got (q, true)) \/
  (Forall (fun x => solid x = Got true) l /\ r = none).
Proof.
  induction l as [|p l IH]; intros r E H; cbn [first_open] in E.
  - right. split; [constructor|]. symmetry. exact E.
  - destruct (H p (or_introl eq_refl)) as (s & Es). rewrite Es in E. cbn [abind] in E. destruct s.
    + destruct (IH r E (fun q I => H q (or_intror I))) as [(pre & q & post & A & B & C & D)|[A B]].
      * left. exists (p :: pre), q, post. split; [rewrite A; reflexivity|]. split; [constructor; assumption|]. split; assumption.
      * right. split; [constructor; assumption|exact B].
    + left. exists [], p, l. split; [reflexivity|]. split; [constructor|]. split; [exact Es|]. symmetry. exact E.
Qed.

Lemma first_jitter_spec solid off p l : (forall q, exists s, solid q = Got s) ->
  (exists j, In j l /\ solid (add (add p j) off) = Got false /\ first_jitter solid off p l = Got (Some (add p j))) \/
  (Forall (fun j => solid (add (add p j) off) = Got true) l /\ first_jitter solid off p l = Got None).
Proof.
  intro H. induction l as [|j l IH].
  - right. split; [constructor|reflexivity].
  - cbn [first_jitter]. destruct (H (add (add p j) off)) as (s & Es). rewrite Es. cbn [abind]. destruct s.
    + destruct IH as [(j' & I & A & B)|[A B]].
      * left. exists j'. split; [right; exact I|]. split; assumption.
      * right. split; [constructor; assumption|exact B].
    + left. exists j. split; [left; reflexivity|]. split; [exact Es|reflexivity].
Qed.

Lemma in_casters_spec fuel b channel p casters :
  (forall m, In m casters -> exists s, point_in_solid fuel b (mi_head m) (sub p (mi_offset m)) = Got s) ->
  exists s, in_casters fuel b channel casters p = Got s /\
    (s = true <-> exists m, In m casters /\ mi_channel m = channel /\ mi_opaque m = true /\ point_in_solid fuel b (mi_head m) (sub p (mi_offset m)) = Got true).
Proof.
  induction casters as [|m l IH]; intro H.
  - exists false. split; [reflexivity|]. split; [discriminate|]. intros (m & [] & _).
  - destruct (IH (fun m' I => H m' (or_intror I))) as (s & Es & Ss). cbn [in_casters].
    destruct (Z.eqb_spec (mi_channel m) channel) as [E|E]; cbn [negb].
    + destruct (H m (or_introl eq_refl)) as (w & Ew). rewrite Ew. cbn [abind]. destruct (w && mi_opaque m)%bool eqn:Q.
      * exists true. split; [reflexivity|]. split; [intros _|reflexivity]. apply andb_true_iff in Q. destruct Q as [-> Q].
        exists m. split; [left; reflexivity|]. split; [exact E|]. split; assumption.
      * exists s. split; [exact Es|]. rewrite Ss. split.
        -- intros (m' & I & G). exists m'. split; [right; exact I|exact G].
        -- intros (m' & [<-|I] & G1 & G2 & G3); [|exists m'; split; [exact I|]; split; [exact G1|]; split; assumption].
           rewrite Ew in G3. injection G3 as ->. rewrite G2 in Q. discriminate.
    + exists s. split; [exact Es|]. rewrite Ss. split.
      * intros (m' & I & G). exists m'. split; [right; exact I|exact G].
      * intros (m' & [<-|I] & G1 & G2); [congruence|]. exists m'. split; [exact I|]. split; assumption.
Qed.
