(* C101-C104: BSP trees built from brushes, and chopping of brushes. *)
From Coq Require Import List Arith ZArith Bool Lia.
Import ListNotations.
From Verif Require Import NumCastModel BrushBspModel BrushBspProofs.

(** ** Brushes on a line, used in the examples

    Brush [lo,hi] has the sides x = hi (plane 2*hi, front is x > hi) and x = lo (plane 2*lo+1, front is x < lo).
    [pt x] is the point x + 1/2.  The cells are half a unit wide. *)
Definition hi_of (b : brush) : nat := match filter (fun s => Nat.even (s_plane s)) (b_sides b) with s :: _ => Nat.div2 (s_plane s) | [] => 0 end.
Definition lo_of (b : brush) : nat := match filter (fun s => Nat.odd (s_plane s)) (b_sides b) with s :: _ => Nat.div2 (s_plane s) | [] => 0 end.
Definition evens (b : brush) := map (fun s => Nat.even (s_plane s)) (b_sides b).
Definition odds (b : brush) := map (fun s => Nat.odd (s_plane s)) (b_sides b).
Definition line_split (b : brush) (n : nat) : verdict :=
  let k := Nat.div2 n in
  if k <=? lo_of b then (if Nat.even n then VFront else VBack)
  else if hi_of b <=? k then (if Nat.even n then VBack else VFront)
  else if Nat.even n then VBoth (evens b) (odds b) true true else VBoth (odds b) (evens b) true true.
Definition line_box (b : brush) (n : nat) : bool * bool :=
  let k := Nat.div2 n in if Nat.even n then (k <? hi_of b, lo_of b <? k) else (lo_of b <? k, k <? hi_of b).
Definition line : geo := mkGeo line_split
  (fun b n => let k := Nat.div2 n in (lo_of b <? k) && (k <? hi_of b))
  line_box (fun _ _ => 1)
  (fun b n => existsb s_hint (b_sides b))
  (fun b n => let k := Nat.div2 n in (hi_of b <=? S k) || (k <=? S (lo_of b)))
  (fun _ => true) (fun _ _ => 0%Z) (fun _ _ => false)
  (fun a b => (hi_of a <=? lo_of b) || (hi_of b <=? lo_of a)).
Definition pt (x : nat) : nat -> bool := fun n => Nat.div2 n <=? x.
Definition sd (n : nat) : side := mkSide n false false true true false false.
Definition seg (id lo hi c : nat) (detail solid : bool) : brush := mkBrush id [sd (2 * hi); sd (S (2 * lo))] c detail solid false.

Definition is_seg (b : brush) (lo hi : nat) : Prop := lo < hi /\
  exists s t, (b_sides b = [s; t] \/ b_sides b = [t; s]) /\ s_plane s = 2 * hi /\ s_plane t = S (2 * lo).
Lemma even2 : forall k, Nat.even (2 * k) = true. Proof. intro k. rewrite Nat.even_mul. reflexivity. Qed.
Lemma even2S : forall k, Nat.even (S (2 * k)) = false. Proof. intro k. rewrite Nat.even_succ, <- Nat.negb_even, even2. reflexivity. Qed.
Lemma half2 : forall k, Nat.div2 (2 * k) = k. Proof. intro k. apply Nat.div2_double. Qed.
Lemma half2S : forall k, Nat.div2 (S (2 * k)) = k. Proof. intro k. apply Nat.div2_succ_double. Qed.
Lemma above_even : forall x k, above (pt x) (2 * k) = (k <=? x).
Proof. intros. unfold above, pt. rewrite even2, half2. reflexivity. Qed.
Lemma above_odd : forall x k, above (pt x) (S (2 * k)) = negb (k <=? x).
Proof. intros. unfold above, pt. rewrite even2S. cbn [Nat.pred]. rewrite half2. reflexivity. Qed.
Lemma seg_facts : forall b lo hi, is_seg b lo hi -> hi_of b = hi /\ lo_of b = lo /\ (forall x, insideb (pt x) b = (lo <=? x) && negb (hi <=? x)).
Proof.
  intros b lo hi (_ & s & t & [E|E] & HS & HT); unfold hi_of, lo_of, insideb; rewrite E; cbn [filter forallb];
    rewrite <- !Nat.negb_even, HS, HT, even2, even2S; cbn [negb]; rewrite ?HS, ?HT, half2, half2S; repeat split;
    intro x; rewrite above_even, above_odd, negb_involutive; destruct (lo <=? x), (hi <=? x); reflexivity.
Qed.
Lemma parity : forall n, n = 2 * Nat.div2 n \/ n = S (2 * Nat.div2 n).
Proof.
  intro n. pose proof (Nat.div2_odd n) as H. destruct (Nat.odd n); cbn in H; [right|left]; lia.
Qed.
Lemma line_split_seg : forall b lo hi n, is_seg b lo hi ->
  (forall c, fst (split line b n) = Some c \/ snd (split line b n) = Some c -> exists l h, is_seg c l h) /\
  forall x, in_opt (pt x) (fst (split line b n)) = insideb (pt x) b && above (pt x) n /\
            in_opt (pt x) (snd (split line b n)) = insideb (pt x) b && negb (above (pt x) n).
Proof.
  intros b lo hi n SG. destruct (seg_facts b lo hi SG) as (HI & LO & IN). pose proof SG as SG0. destruct SG as (LT & s & t & SH & HS & HT).
  set (k := Nat.div2 n).
  assert (AB : forall x, above (pt x) n = if Nat.even n then k <=? x else negb (k <=? x)).
  { intro x. destruct (parity n) as [P|P]; rewrite P; fold k; [rewrite above_even, even2|rewrite above_odd, even2S]; reflexivity. }
  assert (EQ : (Nat.even n = true /\ n = 2 * k) \/ (Nat.even n = false /\ n = S (2 * k))).
  { destruct (parity n) as [P|P]; fold k in P; [left|right]; rewrite P at 1; rewrite ?even2, ?even2S; auto. }
  assert (KE : keep (evens b) (b_sides b) = [s]).
  { unfold keep, evens. destruct SH as [E|E]; rewrite E; cbn [map combine]; rewrite HS, HT, even2, even2S; reflexivity. }
  assert (KO : keep (odds b) (b_sides b) = [t]).
  { unfold keep, odds. destruct SH as [E|E]; rewrite E; cbn [map combine]; rewrite <- !Nat.negb_even, HS, HT, even2, even2S; reflexivity. }
  unfold split. cbn [line g_split]. unfold line_split. fold k. rewrite HI, LO.
  destruct (Nat.leb_spec k lo) as [KL|KL].
  { destruct (Nat.even n) eqn:EV; cbn [fst snd in_opt].
    - split; [intros c [H|H]; [injection H as <-; eauto|discriminate]|]. intro x. rewrite AB, IN.
      destruct (Nat.leb_spec lo x), (Nat.leb_spec hi x), (Nat.leb_spec k x); cbn; try lia; auto.
    - split; [intros c [H|H]; [discriminate|injection H as <-; eauto]|]. intro x. rewrite AB, IN.
      destruct (Nat.leb_spec lo x), (Nat.leb_spec hi x), (Nat.leb_spec k x); cbn; try lia; auto. }
  destruct (Nat.leb_spec hi k) as [KH|KH].
  { destruct (Nat.even n) eqn:EV; cbn [fst snd in_opt].
    - split; [intros c [H|H]; [discriminate|injection H as <-; eauto]|]. intro x. rewrite AB, IN.
      destruct (Nat.leb_spec lo x), (Nat.leb_spec hi x), (Nat.leb_spec k x); cbn; try lia; auto.
    - split; [intros c [H|H]; [injection H as <-; eauto|discriminate]|]. intro x. rewrite AB, IN.
      destruct (Nat.leb_spec lo x), (Nat.leb_spec hi x), (Nat.leb_spec k x); cbn; try lia; auto. }
  assert (UP : is_seg (piece b (evens b) (S (2 * k))) k hi).
  { split; [exact KH|]. exists s, (cut (S (2 * k))). cbn [piece b_sides]. rewrite KE. auto. }
  assert (DN : is_seg (piece b (odds b) (2 * k)) lo k).
  { split; [exact KL|]. exists (cut (2 * k)), t. cbn [piece b_sides]. rewrite KO. auto. }
  destruct (seg_facts _ _ _ UP) as (_ & _ & UI). destruct (seg_facts _ _ _ DN) as (_ & _ & DI).
  assert (X0 : xor1 (2 * k) = S (2 * k)) by (unfold xor1; rewrite even2; reflexivity).
  assert (X1 : xor1 (S (2 * k)) = 2 * k) by (unfold xor1; rewrite even2S; reflexivity).
  destruct EQ as [(EV & EN)|(EV & EN)]; rewrite EV; cbn [fst snd in_opt]; rewrite EN, ?X0, ?X1.
  - split; [intros c [H|H]; injection H as <-; eauto|]. intro x. rewrite UI, DI, IN, above_even.
    destruct (Nat.leb_spec lo x), (Nat.leb_spec hi x), (Nat.leb_spec k x); cbn; try lia; auto.
  - split; [intros c [H|H]; injection H as <-; eauto|]. intro x. rewrite UI, DI, IN, above_odd.
    destruct (Nat.leb_spec lo x), (Nat.leb_spec hi x), (Nat.leb_spec k x); cbn; try lia; auto.
Qed.
Lemma mark_seg : forall n b lo hi, is_seg b lo hi -> is_seg (mark n b) lo hi.
Proof.
  intros n b lo hi (LT & s & t & SH & HS & HT). split; [exact LT|].
  set (f := fun s => if pos (s_plane s) =? n then mkSide (s_plane s) true (s_bevel s) (s_wind s) (s_vis s) (s_hint s) (s_hintskip s) else s).
  assert (FP : forall u, s_plane (f u) = s_plane u) by (intro u; unfold f; destruct (_ =? _); reflexivity).
  exists (f s), (f t). rewrite !FP. cbn [mark b_sides]. fold f. destruct SH as [->| ->]; auto.
Qed.
Lemma derived_seg : forall bs, Forall (fun b => exists lo hi, is_seg b lo hi) bs -> forall b, derived line bs b -> exists lo hi, is_seg b lo hi.
Proof.
  intros bs F b D. induction D as [b I|b n f D (lo & hi & IH) P E|b n k D (lo & hi & IH) P E|b n D (lo & hi & IH)].
  - rewrite Forall_forall in F. apply F, I.
  - apply (proj1 (line_split_seg b lo hi n IH)). auto.
  - apply (proj1 (line_split_seg b lo hi n IH)). auto.
  - exists lo, hi. apply mark_seg, IH.
Qed.
(** The hypotheses of the theorems below hold on the line at every point. *)
Lemma line_exact : forall bs x, Forall (fun b => exists lo hi, is_seg b lo hi) bs -> exact_at line bs (pt x) /\ box_at line bs (pt x).
Proof.
  intros bs x F. split; intros b n D P; destruct (derived_seg bs F b D) as (lo & hi & SG).
  - apply (proj2 (line_split_seg b lo hi n SG)).
  - destruct (seg_facts b lo hi SG) as (HI & LO & IN). rewrite IN. cbn [line g_box]. unfold line_box. rewrite HI, LO.
    set (k := Nat.div2 n). pose proof (parity n) as PN; fold k in PN; clearbody k; destruct PN as [Q|Q]; subst n; rewrite ?above_even, ?above_odd, ?even2, ?even2S;
      destruct (Nat.leb_spec lo x), (Nat.leb_spec hi x), (Nat.leb_spec k x); cbn; intro HYP; try discriminate; apply Nat.ltb_lt; lia.
Qed.
Lemma seg_is_seg : forall id lo hi c d s, lo < hi -> exists l h, is_seg (seg id lo hi c d s) l h.
Proof. intros. exists lo, hi. split; [assumption|]. exists (sd (2 * hi)), (sd (S (2 * lo))). auto. Qed.

(** ** C101: a leaf has the contents of the brushes around it *)

Lemma reset_inside : forall p b, insideb p (reset b) = insideb p b.
Proof.
  intros p b. unfold insideb. cbn [reset b_sides]. induction (b_sides b) as [|s l IH]; [reflexivity|]. cbn [map forallb s_plane]. rewrite IH. reflexivity.
Qed.
Lemma reset_keys : forall p bs, inside_keys p (map reset bs) = inside_keys p bs.
Proof.
  intros p bs. unfold inside_keys. induction bs as [|b bs IH]; [reflexivity|]. cbn [map filter]. rewrite reset_inside. destruct (insideb p b); [|exact IH].
  cbn [map]. rewrite IH. reflexivity.
Qed.
Lemma reset_settled : forall p bs, Forall proper bs -> Forall (fun b => proper b /\ settled p b) (map reset bs).
Proof.
  intros p bs F. induction F as [|b bs P F IH]; [constructor|]. cbn [map]. constructor; [|exact IH]. split.
  - intros s t IS IT. cbn [reset b_sides] in IS, IT. apply in_map_iff in IS, IT. destruct IS as (s' & <- & IS), IT as (t' & <- & IT). apply (P s' t' IS IT).
  - intros s IS O. cbn [reset b_sides] in IS. apply in_map_iff in IS. destruct IS as (s' & <- & _). discriminate.
Qed.

(** For every point [p] off all planes at which splitting loses nothing: the leaf around [p] holds a piece
    containing [p] of exactly the brushes that contain [p], in the same order and with the same contents; all
    sides that became nodes have [p] behind them; and if [p] is also behind the other sides of the brushes of
    the leaf then the contents of the leaf are combined from exactly the brushes that contain [p]. *)
Theorem C101_leaf_contents : forall g vmax md fuel vol bs t p,
  brush_bsp g vmax md fuel vol bs = BOk t -> exact_at g (map reset bs) p -> box_at g (map reset bs) p ->
  map key (filter (insideb p) (leaf_at p t)) = map key (filter (insideb p) bs) /\
  (Forall proper bs ->
   (forall b s, In b (leaf_at p t) -> In s (b_sides b) -> s_onnode s = true -> above p (s_plane s) = false) /\
   ((forall b s, In b (leaf_at p t) -> In s (b_sides b) -> s_onnode s = false -> above p (s_plane s) = false) ->
    forall combine empty, leaf_contents combine empty (leaf_at p t) = fold_left combine (map b_cont (filter (insideb p) bs)) empty)).
Proof.
  intros g vmax md fuel vol bs t p B EX BX.
  assert (K : inside_keys p (leaf_at p t) = inside_keys p bs).
  { unfold brush_bsp in B. destruct bs as [|b bs].
    - injection B as <-. cbn [leaf_at]. destruct (above p 0); reflexivity.
    - rewrite (leaf_keys g vmax md (map reset (b :: bs)) p _ _ _ _ _ EX BX) with (2 := B); [apply reset_keys|].
      apply Forall_forall. intros c I. apply d_in, I. }
  split; [exact K|]. intro PR.
  assert (ST : Forall (fun b => proper b /\ settled p b) (leaf_at p t)).
  { unfold brush_bsp in B. destruct bs as [|b bs].
    - injection B as <-. cbn [leaf_at]. destruct (above p 0); constructor.
    - eapply leaf_settled; [apply reset_settled, PR|exact B]. }
  rewrite Forall_forall in ST. split.
  - intros b s IB IS O. apply (proj2 (ST b IB)); assumption.
  - intros OFF combine empty.
    assert (ALL : filter (insideb p) (leaf_at p t) = leaf_at p t).
    { assert (X : forall l, (forall b, In b l -> insideb p b = true) -> filter (insideb p) l = l).
      { induction l as [|b l IH]; intro H; [reflexivity|]. cbn [filter]. rewrite (H b (or_introl eq_refl)), IH; [reflexivity|]. intros; apply H; right; assumption. }
      apply X. intros b IB. unfold insideb. apply forallb_forall. intros s IS. apply negb_true_iff. destruct (s_onnode s) eqn:O; [apply (proj2 (ST b IB)); assumption|eapply OFF; eassumption]. }
    unfold leaf_contents. rewrite <- ALL.
    assert (C : forall l m, inside_keys p l = inside_keys p m -> map b_cont (filter (insideb p) l) = map b_cont (filter (insideb p) m)).
    { intros l m E. unfold inside_keys in E. apply (f_equal (map (fun k => snd (fst (fst (fst k)))))) in E. rewrite !map_map in E. exact E. }
    rewrite <- (C _ _ K). generalize (filter (insideb p) (leaf_at p t)), empty. clear. induction l as [|b l IH]; intro e; [reflexivity|]. cbn [fold_left map]. apply IH.
Qed.
Print Assumptions C101_leaf_contents.

(** Two overlapping brushes on the line: three leafs with contents 1, 1+2 and 2. *)
Example C101_nontrivial :
  let bs := [seg 0 3 8 1 false true; seg 1 5 12 2 false true] in
  exists t, brush_bsp line 100 MPrecise 10 (seg 9 0 20 0 false false) bs = BOk t /\
    map (fun x => leaf_contents Nat.add 0 (leaf_at (pt x) t)) [1; 4; 6; 9; 15] = [0; 1; 3; 2; 0] /\
    (forall x, exact_at line (map reset bs) (pt x) /\ box_at line (map reset bs) (pt x)) /\ Forall proper bs.
Proof.
  cbv zeta. eexists. split; [vm_compute; reflexivity|]. split; [vm_compute; reflexivity|]. split.
  - intro x. apply line_exact. repeat constructor; [exists 3, 8|exists 5, 12]; (split; [lia|]); [exists (sd 16), (sd 7)|exists (sd 24), (sd 11)]; cbn; auto.
  - repeat constructor; intros s t IS IT; cbn in IS, IT; intuition subst; cbn; discriminate.
Qed.

(** Not always: with a hundred brushes that end less than a unit beyond a plane no value is above -99999, no
    plane is chosen, and the leaf mixes the contents of both sides of the plane. *)
Theorem C101_unresolved_refuted : exists g vmax fuel vol bs t x,
  brush_bsp g vmax MPrecise fuel vol bs = BOk t /\ exact_at g (map reset bs) (pt x) /\ box_at g (map reset bs) (pt x) /\ Forall proper bs /\
  leaf_contents Nat.lor 0 (leaf_at (pt x) t) = 3 /\ fold_left Nat.lor (map b_cont (filter (insideb (pt x)) bs)) 0 = 2.
Proof.
  exists line, 100%Z, 10, (seg 999 0 40 0 false false), (seg 0 3 10 1 false true :: map (fun i => seg (S i) 3 11 2 false false) (seq 0 100)).
  assert (SG : Forall (fun b => exists lo hi, is_seg b lo hi) (map reset (seg 0 3 10 1 false true :: map (fun i => seg (S i) 3 11 2 false false) (seq 0 100)))).
  { apply Forall_forall. intros b I. apply in_map_iff in I. destruct I as (c & <- & I).
    destruct I as [<-|I]; [exists 3, 10; split; [lia|]; exists (sd 20), (sd 7); auto|].
    apply in_map_iff in I. destruct I as (i & <- & _). exists 3, 11. split; [lia|]. exists (sd 22), (sd 7). auto. }
  eexists. exists 10. split; [vm_compute; reflexivity|]. split; [apply line_exact, SG|]. split; [apply line_exact, SG|]. split.
  - constructor.
    + intros s t IS IT; cbn in IS, IT; intuition subst; cbn; discriminate.
    + apply Forall_forall. intros b I. apply in_map_iff in I. destruct I as (i & <- & _). intros s t IS IT; cbn in IS, IT; intuition subst; cbn; discriminate.
  - split; vm_compute; reflexivity.
Qed.
Print Assumptions C101_unresolved_refuted.

(** ** C102: building ends and never stops with an internal error *)

Fixpoint height (t : tree) : nat := match t with Leaf _ => 0 | Node _ _ f k => S (Nat.max (height f) (height k)) end.
Fixpoint nodes_on (t : tree) : list nat := match t with Leaf _ => [] | Node n _ f k => n :: nodes_on f ++ nodes_on k end.

Lemma build_height : forall g vmax md fuel path vol bs t, build g vmax md fuel path vol bs = BOk t -> height t <= length (open_planes bs).
Proof.
  intros g vmax md. induction fuel as [|fuel IH]; intros path vol bs t H; [discriminate|]. cbn [build] in H.
  destruct (select_side g vmax md path vol bs) as [[[[s l] d]|]| |] eqn:E; try discriminate; [|injection H as <-; apply Nat.le_0_l].
  destruct (select_some _ _ _ _ _ _ _ _ _ E) as ((b & IB & IS & O) & ->). set (n := pos (s_plane s)) in *.
  assert (EV : Nat.even n = true) by apply pos_even.
  assert (IN : In n (open_planes bs)) by (apply open_planes_in; exists b, s; auto).
  destruct (build g vmax md fuel ((n, true) :: path) _ _) as [f| |] eqn:BF; [|discriminate|destruct (build g vmax md fuel ((n, false) :: path) _ _); discriminate].
  destruct (build g vmax md fuel ((n, false) :: path) _ _) as [k| |] eqn:BK; try discriminate. injection H as <-. cbn [height].
  apply IH in BF, BK. pose proof (child_open g n bs true EV IN) as X. pose proof (child_open g n bs false EV IN) as Y. cbv zeta in X, Y. cbv iota in X, Y. lia.
Qed.

(** For all brushes and all geometry: BrushBSP ends, without "Tried parent" and "PSIDE_FACING with splits"; no
    plane is used twice on a path, so the tree is not higher than the number of different planes. *)
Theorem C102_builds : forall g vmax md fuel vol bs, length (nodup Nat.eq_dec (planes bs)) < fuel ->
  exists t, brush_bsp g vmax md fuel vol bs = BOk t /\ (bs <> [] -> height t <= length (nodup Nat.eq_dec (planes bs))).
Proof.
  intros g vmax md fuel vol bs L. destruct bs as [|b bs]; [eexists; split; [reflexivity|congruence]|]. unfold brush_bsp.
  assert (O : length (open_planes (map reset (b :: bs))) <= length (nodup Nat.eq_dec (planes (b :: bs)))).
  { apply NoDup_incl_length; [apply NoDup_nodup|]. intros n I. apply open_planes_in in I. destruct I as (c & s & IC & IS & _ & <-).
    apply in_map_iff in IC. destruct IC as (d & <- & ID). cbn [reset b_sides] in IS. apply in_map_iff in IS. destruct IS as (s' & <- & IS').
    apply nodup_In. unfold planes. apply in_map_iff. exists s'. split; [reflexivity|]. apply in_flat_map. exists d. auto. }
  destruct (build_ok g vmax md fuel [] (Some vol) (map reset (b :: bs))) as (t & E).
  { intros q c s []. }
  { lia. }
  exists t. split; [exact E|]. intros _. apply build_height in E. lia.
Qed.
Print Assumptions C102_builds.

(** The value a side would have. *)
Definition value_of (g : geo) (bs : list brush) (s : side) : Z := value g s (map (fun b => test_brush g b (pos (s_plane s))) bs).

(** What the state knows after some sides. *)
Definition sinv (g : geo) (bs : list brush) (vol : option brush) (st : bests) : Prop :=
  (forall n, In n (be_tried st) -> exists s, fresh bs s /\ pos (s_plane s) = n /\ (value_of g bs s <= be_value st)%Z) /\
  (forall s l, be_side st = Some (s, l) -> be_value st = value_of g bs s) /\
  (be_side st = None -> be_value st = (-99999)%Z).
Lemma sel_step_sinv : forall g bs path vol st s st', fresh bs s -> sel_step g bs path vol st s = ROk st' -> sinv g bs vol st ->
  sinv g bs vol st' /\ (In (pos (s_plane s)) (be_tried st') \/ check_volume g vol (pos (s_plane s)) = false) /\
  (forall n, In n (be_tried st) -> In n (be_tried st')) /\ (be_value st <= be_value st')%Z.
Proof.
  intros g bs path vol st s st' FR H (T & B & N). unfold sel_step in H.
  destruct (existsb (Nat.eqb (pos (s_plane s))) (be_tried st)) eqn:E.
  { injection H as <-. split; [split; auto|]. split; [left|split; [auto|lia]].
    apply existsb_exists in E. destruct E as (n & I & E). apply Nat.eqb_eq in E. rewrite E. exact I. }
  destruct (existsb (fun q => fst q =? pos (s_plane s)) path); [discriminate|].
  destruct (check_volume g vol (pos (s_plane s))) eqn:CV; cbn [negb] in H.
  2: { injection H as <-. split; [split; auto|]. split; [auto|split; [auto|lia]]. }
  destruct (existsb (fun t => negb (t_splits t =? 0) && ps_facing (t_side t)) _); [discriminate|].
  fold (value_of g bs s) in H. injection H as <-. destruct (Z.ltb_spec (be_value st) (value_of g bs s)); unfold sinv; cbn [be_tried be_side be_value].
  - repeat split.
    + intros n [<-|I]; [exists s; split; [exact FR|split; [reflexivity|lia]]|]. destruct (T n I) as (t & ? & ? & ?). exists t. repeat split; auto. lia.
    + intros t l E2. injection E2 as <- _. reflexivity.
    + discriminate.
    + left. left. reflexivity.
    + intros n I. right. exact I.
    + lia.
  - repeat split; auto.
    + intros n [<-|I]; [exists s; auto|]. apply T, I.
    + left. left. reflexivity.
    + intros n I. right. exact I.
    + lia.
Qed.
Lemma sel_sides_sinv : forall g bs path vol l st st', (forall s, In s l -> fresh bs s) -> sel_sides g bs path vol l st = ROk st' -> sinv g bs vol st ->
  sinv g bs vol st' /\ (forall s, In s l -> In (pos (s_plane s)) (be_tried st') \/ check_volume g vol (pos (s_plane s)) = false) /\
  (forall n, In n (be_tried st) -> In n (be_tried st')) /\ (be_value st <= be_value st')%Z.
Proof.
  intros g bs path vol. induction l as [|s l IH]; intros st st' FR H I; cbn [sel_sides] in H.
  - injection H as <-. split; [exact I|]. split; [intros s []|]. split; [auto|lia].
  - destruct (sel_step g bs path vol st s) as [st1| |] eqn:E; try discriminate. cbn [rbind] in H.
    destruct (sel_step_sinv g bs path vol st s st1 (FR s (or_introl eq_refl)) E I) as (I1 & A1 & M1 & V1).
    destruct (IH st1 st' (fun t T => FR t (or_intror T)) H I1) as (I2 & A2 & M2 & V2).
    split; [exact I2|]. split; [|split; [auto|lia]]. intros t [<-|T]; [|apply A2, T]. destruct A1 as [A1|A1]; auto.
Qed.
Lemma fresh_pass : forall p bs s, In s (sides_of_pass p bs) -> fresh bs s.
Proof. intros p bs s H. apply sides_of_pass_in in H. destruct H as (b & I & _ & J & U). exists b. repeat split; auto. eapply usable_onnode, U. Qed.

(** [s] is no candidate: the node has no room for its plane, or a side on its plane has too low a value. *)
Definition rejected (g : geo) (bs : list brush) (vol : option brush) (limit : Z) (s : side) : Prop :=
  check_volume g vol (pos (s_plane s)) = false \/
  exists s', fresh bs s' /\ pos (s_plane s') = pos (s_plane s) /\ (value_of g bs s' <= limit)%Z.
Lemma sel_passes_sinv : forall g bs path vol ps st r, sel_passes g bs path vol ps st = ROk r -> sinv g bs vol st -> be_side st = None ->
  match r with
  | None => forall p s, In p ps -> In s (sides_of_pass p bs) -> rejected g bs vol (-99999) s
  | Some (s, _, d) => exists p pre post, ps = pre ++ p :: post /\ In s (sides_of_pass p bs) /\ d = (2 <=? p) /\
      (forall t, In t (sides_of_pass p bs) -> rejected g bs vol (value_of g bs s) t) /\
      (forall q t, In q pre -> In t (sides_of_pass q bs) -> rejected g bs vol (-99999) t) /\ ((-99999) < value_of g bs s)%Z
  end.
Proof.
  intros g bs path vol. induction ps as [|p ps IH]; intros st r H I N; cbn [sel_passes] in H.
  - injection H as <-. intros q s [].
  - destruct (sel_sides g bs path vol (sides_of_pass p bs) st) as [st1| |] eqn:E; try discriminate. cbn [rbind] in H.
    destruct (sel_sides_sinv g bs path vol _ _ _ (fresh_pass p bs) E I) as (INV1 & A1 & M1 & V1). pose proof INV1 as (T1 & B1 & N1).
    assert (RJ : forall t, In t (sides_of_pass p bs) -> rejected g bs vol (be_value st1) t).
    { intros t IT. destruct (A1 t IT) as [X|X]; [right|left; exact X]. apply T1, X. }
    destruct (be_side st1) as [[s l]|] eqn:BS.
    + injection H as <-. exists p, [], ps. split; [reflexivity|].
      destruct (sel_sides_inv g bs path vol (fun t => In t (sides_of_pass p bs)) _ _ _ E) with (t := s) (k := l) as (IS & _); auto.
      { rewrite N. discriminate. }
      rewrite <- (B1 s l eq_refl). split; [exact IS|]. split; [reflexivity|]. split; [exact RJ|]. split; [intros q t []|].
      (* strictly above the start value *)
      assert (G : forall l0 a b, sel_sides g bs path vol l0 a = ROk b -> be_side a = None -> be_side b <> None -> (be_value a < be_value b)%Z).
      { clear. induction l0 as [|x l0 IH]; intros a b H NA NB; cbn [sel_sides] in H; [injection H as <-; congruence|].
        destruct (sel_step g bs path vol a x) as [c| |] eqn:C; try discriminate. cbn [rbind] in H.
        assert (MONO : forall l1 a b, sel_sides g bs path vol l1 a = ROk b -> (be_value a <= be_value b)%Z).
        { clear. induction l1 as [|y l1 IH]; intros a b H; cbn [sel_sides] in H; [injection H as <-; lia|].
          destruct (sel_step g bs path vol a y) as [c| |] eqn:C; try discriminate. cbn [rbind] in H. apply IH in H.
          unfold sel_step in C. destruct (existsb _ (be_tried a)); [injection C as <-; exact H|]. destruct (existsb _ path); [discriminate|].
          destruct (check_volume _ _ _); cbn [negb] in C; [|injection C as <-; exact H]. destruct (existsb _ _); [discriminate|]. injection C as <-.
          destruct (Z.ltb_spec (be_value a) (value g y (map (fun b => test_brush g b (pos (s_plane y))) bs))); cbn [be_value] in H; lia. }
        unfold sel_step in C. destruct (existsb _ (be_tried a)); [injection C as <-; apply IH; auto|]. destruct (existsb _ path); [discriminate|].
        destruct (check_volume _ _ _); cbn [negb] in C; [|injection C as <-; apply IH; auto]. destruct (existsb _ _); [discriminate|]. injection C as <-.
        destruct (Z.ltb_spec (be_value a) (value g x (map (fun b => test_brush g b (pos (s_plane x))) bs))).
        - apply MONO in H. cbn [be_value] in H. lia.
        - apply IH in H; [exact H|exact NA|exact NB]. }
      destruct I as (_ & _ & N0). rewrite <- (N0 N). apply (G _ _ _ E N). rewrite BS. discriminate.
    + specialize (IH st1 r H INV1 BS). destruct r as [[[s l] d]|].
      * destruct IH as (q & pre & post & -> & IS & ED & R1 & R2 & LT). exists q, (p :: pre), post. split; [reflexivity|]. repeat split; auto.
        intros q' t [<-|Q] IT; [|eapply R2; eassumption]. rewrite <- (N1 eq_refl). apply RJ, IT.
      * intros q s [<-|Q] IT; [|eapply IH; eassumption]. rewrite <- (N1 eq_refl). apply RJ, IT.
Qed.
Lemma sinv0 : forall g bs vol, sinv g bs vol (mkBest [] (-99999) None).
Proof. intros. split; [intros n []|]. split; [discriminate|reflexivity]. Qed.

(** A leaf is only made when every side is a bevel, has no winding, is on a node already, is hintskip, or is
    rejected: the volume of the node has no room for its plane or the value of its plane is at most -99999. *)
Theorem C102_leaf : forall g vmax md path vol bs, select_side g vmax md path vol bs = ROk None ->
  forall b s, In b bs -> In s (b_sides b) ->
  s_bevel s = true \/ s_wind s = false \/ s_onnode s = true \/ s_hintskip s = true \/ rejected g bs vol (-99999) s.
Proof.
  intros g vmax md path vol bs H b s IB IS. unfold select_side in H. destruct bs as [|b0 bs]; [destruct IB|]. set (bb := b0 :: bs) in *.
  match goal with H : match ?x with Some _ => _ | None => _ end = _ |- _ => destruct x; [discriminate|] end.
  pose proof (sel_passes_sinv g bb path vol _ _ _ H (sinv0 g bb vol) eq_refl) as R. cbv iota beta in R.
  destruct (s_bevel s) eqn:E1; [auto|]. destruct (s_wind s) eqn:E2; [|auto]. destruct (s_onnode s) eqn:E3; [auto|]. destruct (s_hintskip s) eqn:E4; [auto|].
  do 4 right. assert (X : exists p, In p [0; 1; 2; 3] /\ b_detail b = (2 <=? p) /\ s_vis s = Nat.even p).
  { destruct (b_detail b), (s_vis s); [exists 2|exists 3|exists 0|exists 1]; cbn; auto 10. }
  destruct X as (p & IP & DP & VP). apply (R p s IP). apply sides_of_pass_in. exists b. repeat split; auto.
  unfold usable. rewrite E1, E2, E3, E4, VP, eqb_reflx. reflexivity.
Qed.
Print Assumptions C102_leaf.

Example C102_nontrivial : exists t, brush_bsp line 100 MPrecise 5 (seg 9 0 20 0 false false) [seg 0 3 8 1 false true; seg 1 5 12 2 false true] = BOk t /\
  height t = 4 /\ length (nodes_on t) = 4 /\ length (nodup Nat.eq_dec (planes [seg 0 3 8 1 false true; seg 1 5 12 2 false true])) = 4.
Proof. eexists. split; [vm_compute; reflexivity|]. vm_compute. repeat split. Qed.

(** ** C103: chopping *)

Definition is_solid (b : brush) : bool := b_solid b.
Definition is_structural (b : brush) : bool := b_solid b && negb (b_detail b).

(** For every point off all planes at which splitting loses nothing: it is inside a solid brush after chopping
    iff it was before, and inside a structural solid brush iff it was before; the brushes around it are some of
    those that were around it, in the same order; brushes that are not solid or are excluded from chopping are
    left as they are, in the same order. *)
Theorem C103_chop : forall g frag fuel bs r p, chop g frag fuel [] bs = Some r -> exact_at g bs p ->
  covers is_solid p r = covers is_solid p bs /\
  covers is_structural p r = covers is_structural p bs /\
  subseq (map key (filter (insideb p) r)) (map key (filter (insideb p) bs)) /\
  filter (fun b => negb (b_solid b)) r = filter (fun b => negb (b_solid b)) bs /\
  filter b_nochop r = filter b_nochop bs.
Proof.
  intros g frag fuel bs r p H EX. apply chop_bites in H. cbn [rev app] in H.
  destruct (bites_all g bs p bs r EX) as (A & F & S); [apply Forall_forall; intros; apply d_in; assumption|exact H|].
  assert (GE : forall a b, brush_ge b a = true -> b_solid a = true /\ b_solid b = true /\ (b_detail a = false -> b_detail b = false)).
  { intros a b G. unfold brush_ge in G. destruct (b_detail b), (b_detail a), (b_solid a), (b_solid b); cbn in *; try discriminate; auto. }
  repeat split.
  - apply (A f_solid). intros a b G _. apply GE in G. apply G.
  - apply (A (fun k => f_solid k && negb (f_detail k))). intros a b G X. destruct (GE a b G) as (_ & SB & DD). change (b_solid b && negb (b_detail b) = true).
    change (b_solid a && negb (b_detail a) = true) in X. apply andb_true_iff in X. destruct X as (_ & X). apply negb_true_iff in X. rewrite SB, (DD X). reflexivity.
  - exact S.
  - apply (F (fun k => negb (f_solid k))). intros a b G _. destruct (GE a b G) as (SA & _). change (negb (b_solid a) = false). rewrite SA. reflexivity.
  - apply (F (fun k => snd k)). intros a b G N. exact N.
Qed.
Print Assumptions C103_chop.

(** It ends, when there are finitely many points such that splitting is exact at them and every piece contains
    one of them (one point for each cell the planes of the brushes cut out). *)
Theorem C103_ends : forall g frag bs W, (forall w, In w W -> exact_at g bs w) ->
  (forall b, derived g bs b -> exists w, In w W /\ insideb w b = true) ->
  exists fuel r, chop g frag fuel [] bs = Some r.
Proof.
  intros g frag bs W EX HT. apply (chop_ends g frag bs W EX) with (k := weight W bs) (m := match bs with [] => 0 | b :: l => near g b l end).
  - intros c D. destruct (HT c D) as (w & I & IN). unfold hits. assert (X : In w (filter (fun w => insideb w c) W)) by (apply filter_In; auto).
    destruct (filter (fun w => insideb w c) W); [destruct X|cbn; lia].
  - apply le_n.
  - destruct bs; auto.
  - apply Forall_forall. intros b I. apply d_in, I.
Qed.
Print Assumptions C103_ends.

(** The hypotheses hold on the line. *)
Lemma line_hit : forall bs top, Forall (fun b => exists lo hi, is_seg b lo hi /\ hi <= top) bs ->
  (forall w, In w (map pt (seq 0 top)) -> exact_at line bs w) /\ (forall b, derived line bs b -> exists w, In w (map pt (seq 0 top)) /\ insideb w b = true).
Proof.
  intros bs top F. assert (F0 : Forall (fun b => exists lo hi, is_seg b lo hi) bs) by (eapply Forall_impl; [|exact F]; intros b (lo & hi & SG & _); eauto).
  split.
  - intros w I. apply in_map_iff in I. destruct I as (x & <- & _). apply line_exact, F0.
  - intros b D. assert (X : exists lo hi, is_seg b lo hi /\ hi <= top).
    { assert (PL : forall n, In n (planes bs) -> Nat.div2 n <= top).
      { intros n I. unfold planes in I. apply in_map_iff in I. destruct I as (s & <- & I). apply in_flat_map in I. destruct I as (c & IC & IS).
        rewrite Forall_forall in F. destruct (F c IC) as (lo & hi & (LT & s1 & s2 & SH & H1 & H2) & HT).
        assert (s = s1 \/ s = s2) by (destruct SH as [E|E]; rewrite E in IS; cbn in IS; intuition).
        unfold pos. destruct H as [->| ->]; [rewrite H1, even2, half2|rewrite H2, even2S; cbn [Nat.pred]; rewrite half2]; lia. }
      destruct (derived_seg bs F0 b D) as (lo & hi & SG). exists lo, hi. split; [exact SG|]. destruct SG as (_ & s & t & SH & HS & _).
      assert (IS : In s (b_sides b)) by (destruct SH as [E|E]; rewrite E; cbn; auto).
      specialize (PL _ (derived_planes line bs b D s IS)). unfold pos in PL. rewrite HS, even2, half2 in PL. exact PL. }
    destruct X as (lo & hi & SG & LE). exists (pt lo). pose proof (proj1 SG). split; [apply in_map, in_seq; lia|].
    rewrite (proj2 (proj2 (seg_facts b lo hi SG))). destruct (Nat.leb_spec lo lo), (Nat.leb_spec hi lo); cbn; auto; lia.
Qed.
Definition show (b : brush) : nat * nat * nat := (b_id b, lo_of b, hi_of b).
Example C103_nontrivial :
  let bs := [seg 0 0 10 1 false true; seg 1 5 15 1 false true; seg 2 3 12 2 false false; seg 3 6 9 1 false true; seg 4 2 20 1 true true] in
  (exists r, chop line false 100 [] bs = Some r /\ map show r = [(0, 0, 10); (1, 10, 15); (2, 3, 12); (4, 15, 20)]) /\
  (forall x, exact_at line bs (pt x)) /\
  (forall w, In w (map pt (seq 0 20)) -> exact_at line bs w) /\ (forall b, derived line bs b -> exists w, In w (map pt (seq 0 20)) /\ insideb w b = true).
Proof.
  cbv zeta. split; [eexists; split; vm_compute; reflexivity|]. split.
  - intro x. apply line_exact. repeat constructor; apply seg_is_seg; lia.
  - apply line_hit. repeat constructor; [exists 0, 10|exists 5, 15|exists 3, 12|exists 6, 9|exists 2, 20]; (split; [|lia]); (split; [lia|]); eexists; eexists; cbn; (split; [left; reflexivity|cbn; auto]).
Qed.

(** Not claimed by the theorem, and false: "non-intersecting brushes".  After the first brush was cut by a later
    one the loop goes on behind its pieces, which are therefore never compared with the brushes after them. *)
Theorem C103_intersecting_refuted : exists bs r a b x,
  chop line true 100 [] bs = Some r /\ Forall (fun b => b_solid b = true /\ b_nochop b = false) bs /\ (forall y, exact_at line bs (pt y)) /\
  In a r /\ In b r /\ b_id a <> b_id b /\ insideb (pt x) a = true /\ insideb (pt x) b = true /\
  (exists o, subtract line a b = Some o /\ brush_ge b a = true).
Proof.
  exists [seg 0 0 10 1 true true; seg 1 5 15 1 false true; seg 2 2 3 1 false true]. eexists. eexists. eexists. exists 2.
  split; [vm_compute; reflexivity|]. split; [repeat constructor|]. split; [intro y; apply line_exact; repeat constructor; apply seg_is_seg; lia|].
  split; [left; reflexivity|]. split; [right; right; left; reflexivity|]. split; [discriminate|]. split; [reflexivity|]. split; [reflexivity|].
  eexists. split; [vm_compute; reflexivity|reflexivity].
Qed.
Print Assumptions C103_intersecting_refuted.

(** Without fragmentation, chopping never makes more brushes. *)
Lemma scan_count : forall g b1 l pre, match scan g false b1 pre l with
  | AKeep | ASwallow1 => True | ASplit1 sub => length sub <= 1 | ARest r => length r <= length pre + length l end.
Proof.
  intros g b1 l. induction l as [|b2 l IH]; intro pre; [exact I|]. cbn [scan]. set (next := scan g false b1 (b2 :: pre) l).
  assert (N : match next with AKeep | ASwallow1 => True | ASplit1 sub => length sub <= 1 | ARest r => length r <= length pre + length (b2 :: l) end).
  { specialize (IH (b2 :: pre)). fold next in IH. destruct next; auto. cbn [length] in *. lia. }
  clearbody next. destruct (b_nochop b2); [exact N|]. destruct (disjoint g b1 b2); [exact N|].
  assert (R : forall s, length s <= 1 -> length (rev pre ++ s ++ l) <= length pre + length (b2 :: l)) by (intros; rewrite !app_length, rev_length; cbn [length]; lia).
  assert (T : forall a (s : list brush), (a <? length s) = true -> a < length s) by (intros; apply Nat.ltb_lt; assumption).
  assert (D : forall c1 c2, match (match c1, c2 with
          | None, None => next
          | Some s1, None => if negb false && (1 <? length s1) then next else ASplit1 s1
          | None, Some s2 => if negb false && (1 <? length s2) then next else ARest (rev pre ++ s2 ++ l)
          | Some s1, Some s2 => if negb false && (1 <? length s1) && (1 <? length s2) then next
                                else if length s1 <? length s2 then ASplit1 s1 else ARest (rev pre ++ s2 ++ l)
          end) with AKeep | ASwallow1 => True | ASplit1 sub => length sub <= 1 | ARest r => length r <= length pre + length (b2 :: l) end).
  { intros [s1|] [s2|]; cbn [negb andb]; try exact N.
    - destruct (Nat.ltb_spec 1 (length s1)); destruct (Nat.ltb_spec 1 (length s2)); cbn [andb]; try exact N; destruct (Nat.ltb_spec (length s1) (length s2)); try lia; apply R; lia.
    - destruct (Nat.ltb_spec 1 (length s1)); [exact N|lia].
    - destruct (Nat.ltb_spec 1 (length s2)); [exact N|apply R; lia]. }
  assert (E : length (rev pre ++ l) <= length pre + length (b2 :: l)) by (rewrite app_length, rev_length; cbn [length]; lia).
  destruct (brush_ge b2 b1), (brush_ge b1 b2).
  - destruct (subtract g b1 b2) as [[|x s1]|]; [exact I| |exact N]. destruct (subtract g b2 b1) as [[|y s2]|]; [exact E| |exact N]. apply (D (Some (x :: s1)) (Some (y :: s2))).
  - destruct (subtract g b1 b2) as [[|x s1]|]; [exact I| |exact N]. apply (D (Some (x :: s1)) None).
  - destruct (subtract g b2 b1) as [[|y s2]|]; [exact E| |exact N]. apply (D None (Some (y :: s2))).
  - exact N.
Qed.
Theorem C103_count : forall g fuel bs r, chop g false fuel [] bs = Some r -> length r <= length bs.
Proof.
  intros g fuel bs r H. assert (X : forall fuel done l r, chop g false fuel done l = Some r -> length r <= length done + length l).
  { clear. induction fuel as [|fuel IH]; intros done l r H; [discriminate|]. cbn [chop] in H. destruct l as [|b1 l]; [injection H as <-; rewrite rev_length; lia|].
    destruct (b_nochop b1); [apply IH in H; cbn [length] in *; lia|]. pose proof (scan_count g b1 l []) as C. destruct (scan g false b1 [] l); apply IH in H; rewrite ?app_length, ?rev_length in H; cbn [length] in *; lia. }
  apply X in H. exact H.
Qed.
Print Assumptions C103_count.
(** With fragmentation it may. *)
Example C103_count_nontrivial :
  option_map (@length brush) (chop line true 100 [] [seg 0 0 10 1 true true; seg 1 3 5 1 false true]) = Some 3 /\
  option_map (@length brush) (chop line false 100 [] [seg 0 0 10 1 true true; seg 1 3 5 1 false true]) = Some 2.
Proof. split; vm_compute; reflexivity. Qed.

(** ** C104: which plane is chosen *)

(** With the precise method: the side comes from a detail brush iff the node becomes a detail separator; it has
    the best value of its pass; all usable sides of structural brushes were rejected when it is from a detail
    brush, and all visible ones when it is not visible. *)
Theorem C104_precise : forall g vmax path vol bs s l d, select_side g vmax MPrecise path vol bs = ROk (Some (s, l, d)) ->
  exists b, In b bs /\ In s (b_sides b) /\ b_detail b = d /\ s_bevel s = false /\ s_wind s = true /\ s_onnode s = false /\ s_hintskip s = false /\
  check_volume g vol (pos (s_plane s)) = true /\
  (forall c t, In c bs -> In t (b_sides c) -> s_bevel t = false -> s_wind t = true -> s_onnode t = false -> s_hintskip t = false ->
    (b_detail c = false /\ d = true -> rejected g bs vol (-99999) t) /\
    (b_detail c = d /\ s_vis t = true /\ s_vis s = false -> rejected g bs vol (-99999) t) /\
    (b_detail c = d /\ s_vis t = s_vis s -> rejected g bs vol (value_of g bs s) t)).
Proof.
  intros g vmax path vol bs s l d H. unfold select_side in H. destruct bs as [|b0 bs]; [discriminate|]. set (bb := b0 :: bs) in *. cbv iota in H.
  assert (CV : check_volume g vol (pos (s_plane s)) = true).
  { assert (G : forall ps st, be_side st = None -> sel_passes g bb path vol ps st = ROk (Some (s, l, d)) -> check_volume g vol (pos (s_plane s)) = true).
    { induction ps as [|p ps IH]; intros st N K; cbn [sel_passes] in K; [discriminate|].
      destruct (sel_sides g bb path vol (sides_of_pass p bb) st) as [st1| |] eqn:E; try discriminate. cbn [rbind] in K.
      destruct (be_side st1) as [[t k]|] eqn:B; [|apply (IH st1 B K)]. injection K as -> -> _.
      assert (Q : forall l0 a b, sel_sides g bb path vol l0 a = ROk b -> (forall t k, be_side a = Some (t, k) -> check_volume g vol (pos (s_plane t)) = true) ->
        forall t k, be_side b = Some (t, k) -> check_volume g vol (pos (s_plane t)) = true).
      { clear. induction l0 as [|x l0 IH]; intros a b H A; cbn [sel_sides] in H; [injection H as <-; exact A|].
        destruct (sel_step g bb path vol a x) as [c| |] eqn:C; try discriminate. cbn [rbind] in H. apply (IH c b H).
        unfold sel_step in C. destruct (existsb _ (be_tried a)); [injection C as <-; exact A|]. destruct (existsb _ path); [discriminate|].
        destruct (check_volume g vol (pos (s_plane x))) eqn:V; cbn [negb] in C; [|injection C as <-; exact A]. destruct (existsb _ _); [discriminate|]. injection C as <-.
        destruct (_ <? _)%Z; cbn [be_side]; [|exact A]. intros t k E. injection E as <- _. exact V. }
      apply (Q _ _ _ E) with (k := l); [rewrite N; discriminate|exact B]. }
    eapply G; [|exact H]. reflexivity. }
  pose proof (sel_passes_sinv g bb path vol _ _ _ H (sinv0 g bb vol) eq_refl) as R. cbv iota beta in R.
  destruct R as (p & pre & post & EP & IS & ED & R1 & R2 & LT). pose proof IS as IS0. apply sides_of_pass_in in IS. destruct IS as (b & IB & DB & ISB & U).
  exists b. pose proof U as U0. unfold usable in U. repeat (apply andb_true_iff in U; destruct U as [U ?]).
  repeat match goal with H : negb _ = true |- _ => apply negb_true_iff in H end. match goal with H : eqb _ _ = true |- _ => apply eqb_prop in H; rename H into VS end.
  assert (USE : forall c t q, In c bb -> In t (b_sides c) -> s_bevel t = false -> s_wind t = true -> s_onnode t = false -> s_hintskip t = false ->
    b_detail c = (2 <=? q) -> s_vis t = Nat.even q -> In t (sides_of_pass q bb)).
  { intros c t q IC IT T1 T2 T3 T4 DQ VQ. apply sides_of_pass_in. exists c. repeat split; auto. unfold usable. rewrite T1, T2, T3, T4, VQ, eqb_reflx. reflexivity. }
  do 7 (split; [auto; congruence|]). split; [exact CV|]. intros c t IC IT T1 T2 T3 T4. split; [|split]; intro C.
  - destruct C as (DC & DT). subst d.
    assert (X : exists q, In q pre /\ b_detail c = (2 <=? q) /\ s_vis t = Nat.even q).
    { rewrite DC. assert (P01 : In 0 pre /\ In 1 pre).
      { destruct pre as [|a [|a2 pre]]; cbn in EP; injection EP; intros; subst; cbn in DT; try discriminate. cbn. auto. }
      destruct (s_vis t); [exists 0|exists 1]; cbn; tauto. }
    destruct X as (q & IQ & DQ & VQ). apply (R2 q t IQ). eapply USE; eassumption.
  - destruct C as (DC & VT & VN).
    assert (X : exists q, In q pre /\ b_detail c = (2 <=? q) /\ s_vis t = Nat.even q).
    { rewrite DC, VT, ED. rewrite VN in VS. destruct pre as [|a [|a2 [|a3 [|a4 pre]]]]; cbn in EP; injection EP; intros; subst; cbn in VS; try discriminate; [exists 0|exists 2|]; cbn; auto.
      destruct pre; discriminate. }
    destruct X as (q & IQ & DQ & VQ). apply (R2 q t IQ). eapply USE; eassumption.
  - destruct C as (DC & VT). apply R1. eapply USE; eauto; congruence.
Qed.
Print Assumptions C104_precise.

(** The pieces of the volume of a node. *)
Inductive vpiece (g : geo) (vol : brush) : brush -> Prop :=
| vp_self : vpiece g vol vol
| vp_split : forall v n c, vpiece g vol v -> fst (split g v n) = Some c \/ snd (split g v n) = Some c -> vpiece g vol c.
Fixpoint all_detail (t : tree) : Prop := match t with Leaf _ => True | Node _ d f k => d = true /\ all_detail f /\ all_detail k end.
(** No unused side of a structural brush has room in the volume. *)
Definition no_structural (g : geo) (vol : option brush) (bs : list brush) : Prop :=
  forall b s, In b bs -> b_detail b = false -> In s (b_sides b) -> s_bevel s = false -> s_wind s = true -> s_onnode s = false -> s_hintskip s = false ->
  check_volume g vol (pos (s_plane s)) = false.
Lemma place_key : forall g n b c, let r := place g n b (t_side (test_brush g b n)) in In c (fst r) \/ In c (snd r) -> key c = key b.
Proof.
  intros g n b c r H. unfold r, place in H. clear r. destruct (split_key g b n) as (KF & KK).
  destruct (ps_front (t_side (test_brush g b n)) && ps_back (t_side (test_brush g b n)) && negb (ps_facing (t_side (test_brush g b n)))); cbn [fst snd] in H.
  - destruct (fst (split g b n)) as [f|], (snd (split g b n)) as [k|]; cbn [opt In] in H; repeat (destruct H as [H|H]); try contradiction; subst c; auto.
  - assert (X : c = (if ps_facing (t_side (test_brush g b n)) then mark n b else b)).
    { destruct (ps_front (t_side (test_brush g b n))); [|destruct (ps_back (t_side (test_brush g b n)))]; simpl in H; intuition. }
    subst c. destruct (ps_facing _); reflexivity.
Qed.

(** Below a node at which no unused side of a structural brush has room, all nodes are detail separators, as
    long as pieces of a volume have no more room than the volume. *)
Theorem C104_detail_below : forall g vmax vol0,
  (forall v n m c, vpiece g vol0 v -> fst (split g v n) = Some c \/ snd (split g v n) = Some c -> g_check g v m = false -> g_check g c m = false) ->
  forall fuel path vol bs t, (forall v, vol = Some v -> vpiece g vol0 v) -> no_structural g vol bs ->
  build g vmax MPrecise fuel path vol bs = BOk t -> all_detail t.
Proof.
  intros g vmax vol0 MONO. induction fuel as [|fuel IH]; intros path vol bs t VP NS H; [discriminate|]. cbn [build] in H.
  destruct (select_side g vmax MPrecise path vol bs) as [[[[s l] d]|]| |] eqn:E; try discriminate; [|injection H as <-; exact I].
  destruct (select_some _ _ _ _ _ _ _ _ _ E) as (_ & ->). set (n := pos (s_plane s)) in *.
  assert (EV : Nat.even n = true) by apply pos_even.
  assert (CH : forall sd : bool, let r := split_list g n bs (map (fun b => t_side (test_brush g b n)) bs) in
    let vs := match vol with Some v => split g v n | None => (None, None) end in
    (forall v, (if sd then fst vs else snd vs) = Some v -> vpiece g vol0 v) /\ no_structural g (if sd then fst vs else snd vs) (if sd then fst r else snd r)).
  { intros sd r vs. split.
    - intros v EQ. unfold vs in EQ. destruct vol as [w|]; [|destruct sd; discriminate]. eapply vp_split; [apply VP; reflexivity|]. destruct sd; [left|right]; exact EQ.
    - intros c u IC DC IU U1 U2 U3 U4. assert (IC' : In c (fst r) \/ In c (snd r)) by (destruct sd; auto).
      destruct (split_list_in g n bs c IC') as (b & IB & Q). cbn zeta in Q.
      destruct (place_sides g n b c u EV Q IU) as [(IUB & _)|(O & _)]; [|congruence].
      apply place_key, key_fields in Q. destruct Q as (_ & _ & DQ & _).
      assert (X := NS b u IB (eq_trans (eq_sym DQ) DC) IUB U1 U2 U3 U4). unfold vs. destruct vol as [w|]; [|destruct sd; reflexivity].
      cbn [check_volume] in X. destruct sd; [destruct (fst (split g w n)) as [z|] eqn:Z|destruct (snd (split g w n)) as [z|] eqn:Z]; cbn [check_volume]; auto;
        (eapply MONO; [apply VP; reflexivity| |exact X]); [left|right]; exact Z. }
  assert (D : d = true).
  { destruct (C104_precise _ _ _ _ _ _ _ _ E) as (b & IB & IS & DB & U1 & U2 & U3 & U4 & CV & _). destruct d; [reflexivity|].
    pose proof (NS b s IB DB IS U1 U2 U3 U4) as X. congruence. }
  destruct (build g vmax MPrecise fuel ((n, true) :: path) _ _) as [f| |] eqn:BF; [|discriminate|destruct (build g vmax MPrecise fuel ((n, false) :: path) _ _); discriminate].
  destruct (build g vmax MPrecise fuel ((n, false) :: path) _ _) as [k| |] eqn:BK; try discriminate. injection H as <-. cbn [all_detail].
  destruct (CH true) as (V1 & N1). destruct (CH false) as (V2 & N2). repeat split; [exact D|eapply IH; [exact V1|exact N1|exact BF]|eapply IH; [exact V2|exact N2|exact BK]].
Qed.
Print Assumptions C104_detail_below.

(** With the fast method it is not: the plane of a detail brush is chosen and the node is no detail separator. *)
Theorem C104_fast_refuted : exists vol bs s l, select_side line 100 MFast [] (Some vol) bs = ROk (Some (s, l, false)) /\
  Forall (fun b => b_detail b = true) bs /\ no_structural line (Some vol) bs.
Proof.
  exists (seg 9 0 20 0 false false), [seg 0 3 8 1 true true]. do 2 eexists. split; [vm_compute; reflexivity|]. split; [repeat constructor|].
  intros b s [<-|[]] D. discriminate.
Qed.
Print Assumptions C104_fast_refuted.

(** The fast choice: a side of the first pass with a plane that may be used; an axial one if there is any in that pass, and among
    these (or, without axial ones, among all) one of least metric.  None only if no side may be used. *)
Definition fits (g : geo) (vmax : Z) (path : list (nat * bool)) (vol : option brush) (s : side) : Prop :=
  check_volume g vol (pos (s_plane s)) = true /\ (g_metric g path (pos (s_plane s)) < vmax)%Z.
Lemma mid_fold : forall g vmax path vol l seen m,
  (forall s, m_any m = Some s -> In s seen /\ fits g vmax path vol s /\ m_anym m = g_metric g path (pos (s_plane s))) ->
  (m_any m = None -> m_anym m = vmax) ->
  (forall s, m_ax m = Some s -> In s seen /\ fits g vmax path vol s /\ g_axial g (pos (s_plane s)) = true /\ m_axm m = g_metric g path (pos (s_plane s))) ->
  (m_ax m = None -> m_axm m = vmax) ->
  (forall t, In t seen -> fits g vmax path vol t -> (m_anym m <= g_metric g path (pos (s_plane t)))%Z /\
     (g_axial g (pos (s_plane t)) = true -> (m_axm m <= g_metric g path (pos (s_plane t)))%Z)) ->
  let m' := fold_left (mid_step g path vol) l m in
  (forall s, m_any m' = Some s -> In s (seen ++ l) /\ fits g vmax path vol s /\ m_anym m' = g_metric g path (pos (s_plane s))) /\
  (m_any m' = None -> m_anym m' = vmax) /\
  (forall s, m_ax m' = Some s -> In s (seen ++ l) /\ fits g vmax path vol s /\ g_axial g (pos (s_plane s)) = true /\ m_axm m' = g_metric g path (pos (s_plane s))) /\
  (m_ax m' = None -> m_axm m' = vmax) /\
  (forall t, In t (seen ++ l) -> fits g vmax path vol t -> (m_anym m' <= g_metric g path (pos (s_plane t)))%Z /\
     (g_axial g (pos (s_plane t)) = true -> (m_axm m' <= g_metric g path (pos (s_plane t)))%Z)).
Proof.
  intros g vmax path vol l. induction l as [|s l IH]; intros seen m A1 A2 A3 A4 A5.
  - cbn [fold_left]. rewrite app_nil_r. auto 10.
  - cbn [fold_left]. replace (seen ++ s :: l) with ((seen ++ [s]) ++ l) by (rewrite <- app_assoc; reflexivity).
    assert (LA : (m_anym m <= vmax)%Z) by (destruct (m_any m) as [x|]; [destruct (A1 x eq_refl) as (_ & (_ & F) & ->); lia|rewrite A2 by reflexivity; lia]).
    assert (LX : (m_axm m <= vmax)%Z) by (destruct (m_ax m) as [x|]; [destruct (A3 x eq_refl) as (_ & (_ & F) & _ & ->); lia|rewrite A4 by reflexivity; lia]).
    assert (I0 : forall x, In x seen -> In x (seen ++ [s])) by (intros; apply in_or_app; auto).
    assert (I1 : In s (seen ++ [s])) by (apply in_or_app; right; left; reflexivity).
    apply IH; unfold mid_step; destruct (check_volume g vol (pos (s_plane s))) eqn:CV; cbn [negb].
    all: destruct (Z.ltb_spec (g_metric g path (pos (s_plane s))) (m_anym m)); cbn [m_axm m_ax m_anym m_any];
      destruct (g_axial g (pos (s_plane s))) eqn:AX; cbn [andb];
      try destruct (Z.ltb_spec (g_metric g path (pos (s_plane s))) (m_axm m)); cbn [m_axm m_ax m_anym m_any].
    all: try (intros x E; injection E as <-; repeat split; (assumption || lia || reflexivity || auto); fail).
    all: try (intros x E; destruct (A1 x E) as (? & ? & ?); auto; fail).
    all: try (intros x E; destruct (A3 x E) as (? & ? & ? & ?); auto; fail).
    all: try discriminate.
    all: try assumption.
    all: intros t IT F; apply in_app_or in IT; destruct IT as [IT|[<-|[]]];
      try (destruct (A5 t IT F) as [B1 B2]; split; [lia|intro AT; specialize (B2 AT); lia]); try (destruct F as [F1 F2]; congruence);
      split; try lia; intro; try congruence; lia.
Qed.
Lemma in_passes : forall g vmax path vol bs ps, match mid_passes g path vol bs ps (mkMid vmax None vmax None) with
  | None => forall p t, In p ps -> In t (sides_of_pass p bs) -> ~ fits g vmax path vol t
  | Some s => exists pre p post, ps = pre ++ p :: post /\ In s (sides_of_pass p bs) /\ fits g vmax path vol s /\
      (forall q t, In q pre -> In t (sides_of_pass q bs) -> ~ fits g vmax path vol t) /\
      (forall t, In t (sides_of_pass p bs) -> fits g vmax path vol t -> g_axial g (pos (s_plane t)) = true -> g_axial g (pos (s_plane s)) = true) /\
      (forall t, In t (sides_of_pass p bs) -> fits g vmax path vol t -> g_axial g (pos (s_plane t)) = g_axial g (pos (s_plane s)) ->
        (g_metric g path (pos (s_plane s)) <= g_metric g path (pos (s_plane t)))%Z)
  end.
Proof.
  intros g vmax path vol bs. induction ps as [|p ps IH]; [intros p t []|]. cbn [mid_passes].
  destruct (mid_fold g vmax path vol (sides_of_pass p bs) [] (mkMid vmax None vmax None)) as (A1 & A2 & A3 & A4 & A5); cbn [m_axm m_ax m_anym m_any];
    try discriminate; try reflexivity; [intros t []|].
  cbn [app] in *. set (m := fold_left (mid_step g path vol) (sides_of_pass p bs) (mkMid vmax None vmax None)) in *.
  destruct (mid_best m) as [s|] eqn:B; unfold mid_best in B.
  - exists [], p, ps. split; [reflexivity|]. destruct (m_ax m) as [a|] eqn:EA.
    + injection B as ->. destruct (A3 s eq_refl) as (I & F & AX & E). split; [exact I|]. split; [exact F|]. split; [intros q t []|]. split; [auto|].
      intros t IT FT AT. rewrite <- E. apply (A5 t IT FT). congruence.
    + destruct (A1 s B) as (I & F & E). specialize (A4 eq_refl).
      assert (NA : forall t, In t (sides_of_pass p bs) -> fits g vmax path vol t -> g_axial g (pos (s_plane t)) = true -> False).
      { intros t IT FT AT. destruct (A5 t IT FT) as [_ X]. specialize (X AT). destruct FT as [_ FT]. lia. }
      split; [exact I|]. split; [exact F|]. split; [intros q t []|]. split; [intros t IT FT AT; destruct (NA t IT FT AT)|].
      intros t IT FT _. rewrite <- E. apply (A5 t IT FT).
  - destruct (m_ax m) as [a|] eqn:EA; [discriminate|]. 
    assert (M0 : m = mkMid vmax None vmax None) by (specialize (A2 B); specialize (A4 eq_refl); destruct m; cbn in *; congruence).
    assert (NF : forall t, In t (sides_of_pass p bs) -> ~ fits g vmax path vol t).
    { intros t IT FT. destruct (A5 t IT FT) as [X _]. rewrite (A2 B) in X. destruct FT as [_ FT]. lia. }
    rewrite M0. clear - IH NF. destruct (mid_passes g path vol bs ps (mkMid vmax None vmax None)) as [s|].
    + destruct IH as (pre & q & post & -> & I & F & P & R). exists (p :: pre), q, post. split; [reflexivity|]. split; [exact I|]. split; [exact F|]. split; [|exact R].
      intros r t [<-|IR] IT; [apply NF; exact IT|apply (P r t IR IT)].
    + intros r t [<-|IR] IT; [apply NF; exact IT|apply (IH r t IR IT)].
Qed.
(** Passes: structural visible, structural invisible, detail visible, detail invisible. *)
Definition candidate (bs : list brush) (detail vis : bool) (s : side) : Prop :=
  exists b, In b bs /\ In s (b_sides b) /\ b_detail b = detail /\ s_bevel s = false /\ s_wind s = true /\ s_onnode s = false /\ s_hintskip s = false /\ s_vis s = vis.
Lemma pass_candidate : forall p bs s, In s (sides_of_pass p bs) <-> candidate bs (2 <=? p) (Nat.even p) s.
Proof.
  intros p bs s. unfold sides_of_pass, candidate. rewrite in_flat_map. split.
  - intros (b & IB & IS). apply filter_In in IB. destruct IB as [IB PB]. apply filter_In in IS. destruct IS as [IS US].
    unfold in_pass in PB. apply eqb_prop in PB. unfold usable in US. rewrite !andb_true_iff, !negb_true_iff in US. destruct US as ((((U1 & U2) & U3) & U4) & U5). apply eqb_prop in U5.
    exists b. auto 10.
  - intros (b & IB & IS & D & U1 & U2 & U3 & U4 & U5). exists b. split; apply filter_In; split; auto; [unfold in_pass; rewrite D; apply eqb_reflx|].
    unfold usable. rewrite U1, U2, U3, U4, U5, eqb_reflx. reflexivity.
Qed.
Theorem C104_fast : forall g vmax path vol bs,
  match choose_mid g vmax path vol bs with
  | None => forall d v t, candidate bs d v t -> ~ fits g vmax path vol t
  | Some s => exists d v, candidate bs d v s /\ fits g vmax path vol s /\
      (forall d' v' t, candidate bs d' v' t -> fits g vmax path vol t -> (d' = false -> d = false) /\ (d' = d -> v' = true -> v = true)) /\
      (forall t, candidate bs d v t -> fits g vmax path vol t -> (g_axial g (pos (s_plane t)) = true -> g_axial g (pos (s_plane s)) = true) /\
        (g_axial g (pos (s_plane t)) = g_axial g (pos (s_plane s)) -> (g_metric g path (pos (s_plane s)) <= g_metric g path (pos (s_plane t)))%Z))
  end.
Proof.
  intros g vmax path vol bs. unfold choose_mid. pose proof (in_passes g vmax path vol bs [0; 1; 2; 3]) as H.
  assert (P : forall d v, exists p, In p [0; 1; 2; 3] /\ (2 <=? p) = d /\ Nat.even p = v /\ p = (if d then 2 else 0) + (if v then 0 else 1)).
  { intros [|] [|]; [exists 2|exists 3|exists 0|exists 1]; simpl; auto 10. }
  destruct (mid_passes g path vol bs [0; 1; 2; 3] (mkMid vmax None vmax None)) as [s|].
  - destruct H as (pre & p & post & EP & I & F & PRE & AX & MIN). exists (2 <=? p), (Nat.even p). split; [apply pass_candidate; exact I|]. split; [exact F|]. split.
    + intros d v t C FT. destruct (P d v) as (q & IQ & Q1 & Q2 & Q3).
      assert (NP : ~ In q pre) by (intro IN; apply (PRE q t IN); [apply pass_candidate; rewrite Q1, Q2; exact C|exact FT]).
      assert (LE : p <= q).
      { destruct pre as [|a [|b [|c [|e pre]]]]; injection EP; intros; subst; simpl in NP, IQ |- *; lia. }
      assert (PB : p <= 3) by (assert (IP : In p [0; 1; 2; 3]) by (rewrite EP; apply in_or_app; right; left; reflexivity); simpl in IP; lia).
      split.
      * intros ->. apply Nat.leb_gt. destruct v; lia.
      * intros ED ->. rewrite ED in Q3. clear ED Q1. destruct (2 <=? p) eqn:LP; cbv iota in Q3; [apply Nat.leb_le in LP; assert (p = 2) by lia; subst p; reflexivity|].
        apply Nat.leb_gt in LP. assert (p = 0) by lia. subst p. reflexivity.
    + intros t C FT. apply pass_candidate in C. split; [apply AX; assumption|apply MIN; assumption].
  - intros d v t C FT. destruct (P d v) as (q & IQ & Q1 & Q2 & _). apply (H q t IQ); [|exact FT]. apply pass_candidate. rewrite Q1, Q2. exact C.
Qed.
Print Assumptions C104_fast.

(** A side that is no hint is never chosen when the last brush of the list has a hint side split by it ... *)
Theorem C104_hint_partial : forall g vmax path vol bs b s l d, select_side g vmax MPrecise path vol (bs ++ [b]) = ROk (Some (s, l, d)) ->
  t_hint (test_brush g b (pos (s_plane s))) = true -> s_hint s = true.
Proof.
  intros g vmax path vol bs b s l d H TH. unfold select_side in H. destruct (bs ++ [b]) as [|b0 bb] eqn:EB; [discriminate|]. cbv iota in H. rewrite <- EB in H. clear EB b0 bb.
  pose proof (sel_passes_sinv g (bs ++ [b]) path vol _ _ _ H (sinv0 g _ vol) eq_refl) as R. cbv iota beta in R.
  destruct R as (p & pre & post & _ & _ & _ & _ & _ & LT). unfold value_of, value in LT. rewrite !map_app in LT. cbn [map] in LT. rewrite last_last, TH in LT.
  destruct (s_hint s); [reflexivity|]. cbn [andb negb] in LT. lia.
Qed.
Print Assumptions C104_hint_partial.
(** ... but "never split a hint side except with another hint" fails for the other brushes, because each test
    of a brush clears the flag. *)
Theorem C104_hint_refuted : exists vol bs s l d, select_side line 100 MPrecise [] (Some vol) bs = ROk (Some (s, l, d)) /\
  s_hint s = false /\ exists b, In b bs /\ t_hint (test_brush line b (pos (s_plane s))) = true.
Proof.
  exists (seg 9 0 10 0 false false), [mkBrush 0 [mkSide 20 false false true true true false; mkSide 1 false false true true true false] 0 false false false; seg 1 3 8 1 false true].
  do 3 eexists. split; [vm_compute; reflexivity|]. split; [reflexivity|]. eexists. split; [left; reflexivity|]. reflexivity.
Qed.
Print Assumptions C104_hint_refuted.

(** A structural brush and a detail brush: the structural planes come first, the two nodes of the detail brush
    are detail separators. *)
Example C104_nontrivial : exists t, brush_bsp line 100 MPrecise 9 (seg 9 0 20 0 false false) [seg 0 12 15 1 true true; seg 1 3 8 2 false true] = BOk t /\
  t = Node 16 false
    (Node 30 true (Leaf []) (Node 24 true (Leaf [mkBrush 0 [mkSide 30 true false true true false false; mkSide 25 true false true true false false] 1 true true false]) (Leaf [])))
    (Node 6 false (Leaf [mkBrush 1 [mkSide 16 true false true true false false; mkSide 7 true false true true false false] 2 false true false]) (Leaf [])).
Proof. eexists. split; vm_compute; reflexivity. Qed.
