(* Proofs about BrushBspModel.v. *)
From Coq Require Import List Arith ZArith Bool Lia.
Import ListNotations.
From Verif Require Import NumCastModel BrushBspModel.

(** ** Points off all planes *)

(** A point that lies on no plane is given by the planes it is in front of. *)
Definition above (p : nat -> bool) (n : nat) : bool := if Nat.even n then p n else negb (p (Nat.pred n)).
Definition insideb (p : nat -> bool) (b : brush) : bool := forallb (fun s => negb (above p (s_plane s))) (b_sides b).

Lemma even_pred : forall n, Nat.even n = false -> Nat.even (Nat.pred n) = true /\ S (Nat.pred n) = n.
Proof.
  intros [|n] H; [discriminate|]. rewrite Nat.even_succ in H. rewrite <- Nat.negb_even in H. apply negb_false_iff in H. split; [exact H|reflexivity].
Qed.
Lemma above_xor1 : forall p n, above p (xor1 n) = negb (above p n).
Proof.
  intros p n. unfold above, xor1. destruct (Nat.even n) eqn:E.
  - rewrite Nat.even_succ, <- Nat.negb_even, E. reflexivity.
  - destruct (even_pred n E) as (-> & _). rewrite negb_involutive. reflexivity.
Qed.
Lemma xor1_xor1 : forall n, xor1 (xor1 n) = n.
Proof.
  intro n. unfold xor1. destruct (Nat.even n) eqn:E.
  - rewrite Nat.even_succ, <- Nat.negb_even, E. reflexivity.
  - destruct (even_pred n E) as (-> & X). exact X.
Qed.
Lemma pos_even : forall n, Nat.even (pos n) = true.
Proof. intro n. unfold pos. destruct (Nat.even n) eqn:E; [exact E|apply even_pred, E]. Qed.
Lemma pos_cases : forall n, n = pos n \/ n = xor1 (pos n).
Proof.
  intro n. unfold pos, xor1. destruct (Nat.even n) eqn:E; [left; reflexivity|right]. destruct (even_pred n E) as (-> & X). auto.
Qed.
Lemma pos_id : forall n, Nat.even n = true -> pos n = n /\ pos (xor1 n) = n.
Proof.
  intros n E. unfold pos, xor1. rewrite E. rewrite Nat.even_succ, <- Nat.negb_even, E. split; reflexivity.
Qed.
Lemma pos_pos : forall n, pos (pos n) = pos n.
Proof. intro n. apply pos_id, pos_even. Qed.
Lemma pos_iff : forall m n, Nat.even n = true -> (pos m = n <-> m = n \/ m = xor1 n).
Proof.
  intros m n E. split.
  - intros <-. apply pos_cases.
  - intros [->| ->]; apply pos_id; exact E.
Qed.

(** ** Facing sides *)

Lemma facing_none : forall l n, facing_side l n = None <-> Forall (fun s => s_plane s <> n /\ s_plane s <> xor1 n) l.
Proof.
  induction l as [|s l IH]; intro n; simpl; [split; auto|].
  destruct (Nat.eqb_spec (s_plane s) n); [split; [discriminate|]; intro H; inversion H; subst; tauto|].
  destruct (Nat.eqb_spec (s_plane s) (xor1 n)); [split; [discriminate|]; intro H; inversion H; subst; tauto|].
  rewrite IH. split; intro H; [constructor; tauto|inversion H; assumption].
Qed.
Lemma facing_some : forall l n r, facing_side l n = Some r ->
  (exists s, In s l /\ s_plane s = n /\ r = mkPs false true true) \/ (exists s, In s l /\ s_plane s = xor1 n /\ r = mkPs true false true).
Proof.
  induction l as [|s l IH]; intros n r; simpl; [discriminate|].
  destruct (Nat.eqb_spec (s_plane s) n); [intro H; injection H as <-; left; exists s; auto|].
  destruct (Nat.eqb_spec (s_plane s) (xor1 n)); [intro H; injection H as <-; right; exists s; auto|].
  intro H. destruct (IH n r H) as [(t & I & E & R)|(t & I & E & R)]; [left|right]; exists t; auto.
Qed.
Definition on_plane (n : nat) (b : brush) : Prop := Exists (fun s => pos (s_plane s) = n) (b_sides b).

(** What the test of a brush says. *)
Lemma test_cases : forall g b n, let t := test_brush g b n in
  (ps_facing (t_side t) = true /\ t_splits t = 0 /\ t_hint t = false /\ t_eps t = false /\ facing_side (b_sides b) n = Some (t_side t) /\
   ps_front (t_side t) = negb (ps_back (t_side t))) \/
  (ps_facing (t_side t) = false /\ facing_side (b_sides b) n = None /\ t_side t = mkPs (fst (g_box g b n)) (snd (g_box g b n)) false).
Proof.
  intros g b n. cbn zeta. unfold test_brush. destruct (facing_side (b_sides b) n) as [r|] eqn:F.
  - left. destruct (facing_some _ _ _ F) as [(s & I & E & ->)|(s & I & E & ->)]; repeat split; reflexivity.
  - right. destruct (g_box g b n) as [[] []]; repeat split; reflexivity.
Qed.

(** ** What select returns *)

Lemma sides_of_pass_in : forall pass bs s, In s (sides_of_pass pass bs) <->
  exists b, In b bs /\ b_detail b = (2 <=? pass) /\ In s (b_sides b) /\ usable pass s = true.
Proof.
  intros pass bs s. unfold sides_of_pass. rewrite in_flat_map. split.
  - intros (b & I & J). apply filter_In in I, J. destruct I as (I & P), J as (J & U). exists b.
    unfold in_pass in P. apply eqb_prop in P. auto.
  - intros (b & I & P & J & U). exists b. split; apply filter_In; split; auto. unfold in_pass. rewrite P. apply eqb_reflx.
Qed.
Lemma usable_onnode : forall pass s, usable pass s = true -> s_onnode s = false.
Proof.
  intros pass s H. unfold usable in H. repeat (apply andb_true_iff in H; destruct H as [H ?]). apply negb_true_iff. assumption.
Qed.

(** [s] is a side of one of the brushes that was not used yet. *)
Definition fresh (bs : list brush) (s : side) : Prop := exists b, In b bs /\ In s (b_sides b) /\ s_onnode s = false.

Lemma mid_step_in : forall g path vol l m (Q : side -> Prop),
  (forall s, In s l -> Q s) ->
  (forall s, m_ax m = Some s \/ m_any m = Some s -> Q s) ->
  let r := fold_left (mid_step g path vol) l m in forall s, m_ax r = Some s \/ m_any r = Some s -> Q s.
Proof.
  intros g path vol l. induction l as [|x l IH]; intros m Q HL HM; cbn zeta; simpl; [exact HM|].
  apply IH; [intros; apply HL; right; assumption|].
  intros s H. unfold mid_step in H. destruct (check_volume g vol (pos (s_plane x))); cbn [negb] in H; [|apply HM; assumption].
  set (m1 := if (g_metric g path (pos (s_plane x)) <? m_anym m)%Z then mkMid (m_axm m) (m_ax m) (g_metric g path (pos (s_plane x))) (Some x) else m) in H.
  assert (M1 : forall s, m_ax m1 = Some s \/ m_any m1 = Some s -> Q s).
  { intros t T. unfold m1 in T. destruct (_ <? _)%Z; cbn [m_ax m_any] in T; [|apply HM; assumption].
    destruct T as [T|T]; [apply HM; left; assumption|]. injection T as <-. apply HL. left. reflexivity. }
  clearbody m1. destruct (g_axial g (pos (s_plane x)) && (g_metric g path (pos (s_plane x)) <? m_axm m1)%Z); cbn [m_ax m_any] in H; [|apply M1; assumption].
  destruct H as [H|H]; [injection H as <-; apply HL; left; reflexivity|]. apply M1. right. assumption.
Qed.
Lemma mid_best_in : forall m s, mid_best m = Some s -> m_ax m = Some s \/ m_any m = Some s.
Proof. intros m s. unfold mid_best. destruct (m_ax m); intro H; auto. Qed.
Lemma mid_passes_in : forall g path vol bs (Q : side -> Prop) ps m,
  (forall p s, In p ps -> In s (sides_of_pass p bs) -> Q s) ->
  (forall s, m_ax m = Some s \/ m_any m = Some s -> Q s) ->
  forall s, mid_passes g path vol bs ps m = Some s -> Q s.
Proof.
  intros g path vol bs Q. induction ps as [|p ps IH]; intros m HP HM s; simpl.
  - intro H. apply HM, mid_best_in, H.
  - pose proof (mid_step_in g path vol (sides_of_pass p bs) m Q (fun t T => HP p t (or_introl eq_refl) T) HM) as A. cbn zeta in A.
    destruct (mid_best _) as [t|] eqn:E; intro H.
    + injection H as <-. apply A, mid_best_in, E.
    + revert H. apply IH; [intros q t I; apply HP; right; exact I|exact A].
Qed.
Lemma choose_mid_fresh : forall g vmax path vol bs s, choose_mid g vmax path vol bs = Some s -> fresh bs s.
Proof.
  intros g vmax path vol bs s. unfold choose_mid. apply mid_passes_in; [|intros t [H|H]; discriminate].
  intros p t _ H. apply sides_of_pass_in in H. destruct H as (b & I & _ & J & U). exists b. repeat split; auto. eapply usable_onnode, U.
Qed.

(** The state of the precise selection. *)
Lemma sel_step_inv : forall g bs path vol (Q : side -> Prop) st s st',
  sel_step g bs path vol st s = ROk st' -> Q s ->
  (forall t l, be_side st = Some (t, l) -> Q t /\ l = map (fun b => t_side (test_brush g b (pos (s_plane t)))) bs) ->
  (forall t l, be_side st' = Some (t, l) -> Q t /\ l = map (fun b => t_side (test_brush g b (pos (s_plane t)))) bs).
Proof.
  intros g bs path vol Q st s st' H QS I. unfold sel_step in H. destruct (existsb _ (be_tried st)); [injection H as <-; exact I|].
  destruct (existsb _ path); [discriminate|]. destruct (check_volume _ _ _); cbn [negb] in H; [|injection H as <-; exact I].
  destruct (existsb _ _); [discriminate|]. injection H as <-. destruct (_ <? _)%Z; cbn [be_side]; [|exact I].
  intros t l E. injection E as <- <-. split; [exact QS|]. rewrite map_map. reflexivity.
Qed.
Lemma sel_sides_inv : forall g bs path vol (Q : side -> Prop) l st st',
  sel_sides g bs path vol l st = ROk st' -> (forall s, In s l -> Q s) ->
  (forall t k, be_side st = Some (t, k) -> Q t /\ k = map (fun b => t_side (test_brush g b (pos (s_plane t)))) bs) ->
  (forall t k, be_side st' = Some (t, k) -> Q t /\ k = map (fun b => t_side (test_brush g b (pos (s_plane t)))) bs).
Proof.
  intros g bs path vol Q. induction l as [|s l IH]; intros st st' H QL I; simpl in H; [injection H as <-; exact I|].
  destruct (sel_step g bs path vol st s) as [st1| |] eqn:E; try discriminate. cbn [rbind] in H.
  apply (IH st1 st' H); [intros; apply QL; right; assumption|]. eapply sel_step_inv; [exact E|apply QL; left; reflexivity|exact I].
Qed.
Lemma sel_passes_inv : forall g bs path vol ps st s l d,
  be_side st = None -> sel_passes g bs path vol ps st = ROk (Some (s, l, d)) ->
  exists p, In p ps /\ d = (2 <=? p) /\ In s (sides_of_pass p bs) /\ l = map (fun b => t_side (test_brush g b (pos (s_plane s)))) bs.
Proof.
  intros g bs path vol. induction ps as [|p ps IH]; intros st s l d N H; simpl in H; [discriminate|].
  destruct (sel_sides g bs path vol (sides_of_pass p bs) st) as [st1| |] eqn:E; try discriminate. cbn [rbind] in H.
  destruct (be_side st1) as [[t k]|] eqn:B.
  - injection H as <- <- <-.
    destruct (sel_sides_inv g bs path vol (fun t => In t (sides_of_pass p bs)) _ _ _ E) with (t := t) (k := k) as (A & ->); auto.
    { rewrite N. discriminate. }
    exists p. split; [left; reflexivity|]. auto.
  - destruct (IH st1 s l d B H) as (q & I & R). exists q. split; [right; exact I|exact R].
Qed.
Lemma select_some : forall g vmax md path vol bs s l d, select_side g vmax md path vol bs = ROk (Some (s, l, d)) ->
  fresh bs s /\ l = map (fun b => t_side (test_brush g b (pos (s_plane s)))) bs.
Proof.
  intros g vmax md path vol bs s l d. unfold select_side. destruct bs as [|b bs]; [discriminate|]. set (bb := b :: bs).
  set (fast := match md with MPrecise => false | MFast => true | MAuto => g_fast g path (length bb) end).
  destruct (if fast then choose_mid g vmax path vol bb else None) as [t|] eqn:E; intro H.
  - injection H as <- <- <-. split; [|reflexivity]. destruct fast; [|discriminate]. eapply choose_mid_fresh, E.
  - apply sel_passes_inv in H; [|reflexivity]. destruct H as (p & _ & _ & I & ->). split; [|reflexivity].
    apply sides_of_pass_in in I. destruct I as (c & I & _ & J & U). exists c. repeat split; auto. eapply usable_onnode, U.
Qed.

(** ** The errors are never reached *)

(** Sides on the plane of a parent are marked. *)
Definition marked (path : list (nat * bool)) (bs : list brush) : Prop :=
  forall q b s, In q path -> In b bs -> In s (b_sides b) -> pos (s_plane s) = fst q -> s_onnode s = true.

Lemma sel_step_ok : forall g bs path vol st s, marked path bs -> fresh bs s -> exists st', sel_step g bs path vol st s = ROk st'.
Proof.
  intros g bs path vol st s M (b & IB & IS & ON). unfold sel_step. destruct (existsb _ (be_tried st)); [eauto|].
  destruct (existsb (fun q => fst q =? pos (s_plane s)) path) eqn:E.
  { exfalso. apply existsb_exists in E. destruct E as (q & IQ & E). apply Nat.eqb_eq in E. rewrite (M q b s IQ IB IS (eq_sym E)) in ON. discriminate. }
  destruct (check_volume _ _ _); cbn [negb]; [|eauto].
  destruct (existsb (fun t => negb (t_splits t =? 0) && ps_facing (t_side t)) _) eqn:X; [|eauto].
  exfalso. apply existsb_exists in X. destruct X as (t & IT & X). apply in_map_iff in IT. destruct IT as (c & <- & IC).
  apply andb_true_iff in X. destruct X as (X & F). destruct (test_cases g c (pos (s_plane s))) as [(_ & Z & _)|(NF & _)]; [rewrite Z in X; discriminate|congruence].
Qed.
Lemma sel_sides_ok : forall g bs path vol l st, marked path bs -> (forall s, In s l -> fresh bs s) -> exists st', sel_sides g bs path vol l st = ROk st'.
Proof.
  intros g bs path vol l. induction l as [|s l IH]; intros st M F; simpl; [eauto|].
  destruct (sel_step_ok g bs path vol st s M (F s (or_introl eq_refl))) as (st1 & ->). cbn [rbind]. apply IH; [exact M|]. intros; apply F; right; assumption.
Qed.
Lemma sel_passes_ok : forall g bs path vol ps st, marked path bs -> exists r, sel_passes g bs path vol ps st = ROk r.
Proof.
  intros g bs path vol. induction ps as [|p ps IH]; intros st M; simpl; [eauto|].
  destruct (sel_sides_ok g bs path vol (sides_of_pass p bs) st M) as (st1 & ->).
  { intros s H. apply sides_of_pass_in in H. destruct H as (b & I & _ & J & U). exists b. repeat split; auto. eapply usable_onnode, U. }
  cbn [rbind]. destruct (be_side st1) as [[t k]|]; [eauto|]. apply IH, M.
Qed.
Lemma select_ok : forall g vmax md path vol bs, marked path bs -> exists r, select_side g vmax md path vol bs = ROk r.
Proof.
  intros g vmax md path vol bs M. unfold select_side. destruct bs as [|b bs]; [eauto|].
  match goal with |- exists r, (match ?x with Some _ => _ | None => _ end) = _ => destruct x end; [eauto|]. apply sel_passes_ok, M.
Qed.

(** ** The lists of the children *)

(** Sides of a brush that a child gets: not on the plane, or marked. *)
Definition side_from (n : nat) (bs : list brush) (s : side) : Prop :=
  (exists b, In b bs /\ In s (b_sides b) /\ pos (s_plane s) <> n) \/
  (s_onnode s = true /\ pos (s_plane s) = n).

Lemma keep_in : forall mask l s, In s (keep mask l) -> In s l.
Proof.
  intros mask l s H. unfold keep in H. apply in_map_iff in H. destruct H as ([a m] & E & I). simpl in E. subst a.
  apply filter_In in I. destruct I as (I & _). eapply in_combine_l, I.
Qed.
Lemma mark_in : forall n b s, Nat.even n = true -> In s (b_sides (mark n b)) ->
  (In s (b_sides b) /\ pos (s_plane s) <> n) \/ (s_onnode s = true /\ pos (s_plane s) = n).
Proof.
  intros n b s E H. cbn [mark b_sides] in H. apply in_map_iff in H. destruct H as (t & <- & I).
  destruct (Nat.eqb_spec (pos (s_plane t)) n) as [X|X]; cbn [s_onnode s_plane]; [right|left]; auto.
Qed.
Definition split_of (g : geo) (n : nat) (b : brush) : Prop := facing_side (b_sides b) n = None.

Lemma off_plane : forall b n, Nat.even n = true -> facing_side (b_sides b) n = None -> forall s, In s (b_sides b) -> pos (s_plane s) <> n.
Proof.
  intros b n E F s I X. apply facing_none in F. rewrite Forall_forall in F. specialize (F s I). apply pos_iff in X; [|exact E]. tauto.
Qed.
Lemma place_sides : forall g n b c s, Nat.even n = true -> 
  let r := place g n b (t_side (test_brush g b n)) in In c (fst r) \/ In c (snd r) -> In s (b_sides c) ->
  (In s (b_sides b) /\ pos (s_plane s) <> n) \/ (s_onnode s = true /\ pos (s_plane s) = n).
Proof.
  intros g n b c s E r IC IS. unfold r, place in IC. clear r.
  destruct (test_cases g b n) as [(F & _ & _ & _ & FS & FB)|(F & FN & TS)]; cbn zeta in *.
  - rewrite F in IC. rewrite andb_false_r in IC.
    assert (X : c = mark n b).
    { destruct (ps_front (t_side (test_brush g b n))); [|destruct (ps_back (t_side (test_brush g b n)))]; simpl in IC; intuition. }
    subst c. apply mark_in; assumption.
  - rewrite F in IC. pose proof (off_plane b n E FN) as OFF.
    destruct (ps_front (t_side (test_brush g b n)) && ps_back (t_side (test_brush g b n)) && negb false).
    + assert (PC : forall mask m, pos m = n -> In s (b_sides (piece b mask m)) -> (In s (b_sides b) /\ pos (s_plane s) <> n) \/ (s_onnode s = true /\ pos (s_plane s) = n)).
      { intros mask m PM H. cbn [piece b_sides] in H. apply in_app_or in H. destruct H as [H|[<-|[]]]; [left|right; auto].
        apply keep_in in H. split; [exact H|apply OFF, H]. }
      unfold split in IC. destruct (pos_id n E) as (P0 & P1).
      destruct (g_split g b n) as [| | |fk bk fok bok]; simpl in IC.
      * destruct IC as [[]|[<-|[]]]. left. split; [exact IS|apply OFF, IS].
      * destruct IC as [[<-|[]]|[]]. left. split; [exact IS|apply OFF, IS].
      * destruct IC as [[]|[]].
      * destruct fok, bok; cbn [opt In] in IC; repeat (destruct IC as [IC|IC]); try contradiction; subst c; first [apply (PC _ _ P1 IS)|apply (PC _ _ P0 IS)].
    + assert (X : c = b).
      { destruct (ps_front (t_side (test_brush g b n))); [|destruct (ps_back (t_side (test_brush g b n)))]; simpl in IC; intuition. }
      subst c. left. split; [exact IS|apply OFF, IS].
Qed.
Lemma split_list_in : forall g n bs c, let r := split_list g n bs (map (fun b => t_side (test_brush g b n)) bs) in
  In c (fst r) \/ In c (snd r) -> exists b, In b bs /\
  let q := place g n b (t_side (test_brush g b n)) in In c (fst q) \/ In c (snd q).
Proof.
  intros g n. induction bs as [|b bs IH]; intro c; cbv zeta; intro H; cbn [map split_list fst snd] in H; [destruct H as [[]|[]]|].
  rewrite !in_app_iff in H.
  assert (X : (In c (fst (place g n b (t_side (test_brush g b n)))) \/ In c (snd (place g n b (t_side (test_brush g b n))))) \/
    (In c (fst (split_list g n bs (map (fun b => t_side (test_brush g b n)) bs))) \/ In c (snd (split_list g n bs (map (fun b => t_side (test_brush g b n)) bs))))) by tauto.
  destruct X as [X|X]; [exists b; split; [left; reflexivity|exact X]|].
  destruct (IH c X) as (d & I & Q). exists d. split; [right; exact I|exact Q].
Qed.

(** ** Termination *)

(** The planes of unmarked sides. *)
Definition open_planes (bs : list brush) : list nat :=
  nodup Nat.eq_dec (map (fun s => pos (s_plane s)) (filter (fun s => negb (s_onnode s)) (flat_map b_sides bs))).
Lemma open_planes_in : forall bs n, In n (open_planes bs) <-> exists b s, In b bs /\ In s (b_sides b) /\ s_onnode s = false /\ pos (s_plane s) = n.
Proof.
  intros bs n. unfold open_planes. rewrite nodup_In, in_map_iff. split.
  - intros (s & E & I). apply filter_In in I. destruct I as (I & O). apply in_flat_map in I. destruct I as (b & IB & IS).
    exists b, s. apply negb_true_iff in O. auto.
  - intros (b & s & IB & IS & O & E). exists s. split; [exact E|]. apply filter_In. rewrite O. split; [|reflexivity]. apply in_flat_map. exists b. auto.
Qed.
Lemma child_open : forall g n bs side, Nat.even n = true -> In n (open_planes bs) ->
  let r := split_list g n bs (map (fun b => t_side (test_brush g b n)) bs) in
  let l := if side : bool then fst r else snd r in
  length (open_planes l) < length (open_planes bs).
Proof.
  intros g n bs sd E IN r l.
  assert (SUB : forall m, In m (open_planes l) -> In m (open_planes bs) /\ m <> n).
  { intros m H. apply open_planes_in in H. destruct H as (c & s & IC & IS & O & P).
    assert (IC' : In c (fst r) \/ In c (snd r)) by (unfold l in IC; destruct sd; auto).
    destruct (split_list_in g n bs c IC') as (b & IB & Q). cbn zeta in Q.
    destruct (place_sides g n b c s E Q IS) as [(I & NE)|(O' & _)]; [|congruence].
    split; [|congruence]. apply open_planes_in. exists b, s. auto. }
  apply Nat.le_lt_trans with (length (remove Nat.eq_dec n (open_planes bs))).
  - apply NoDup_incl_length; [apply NoDup_nodup|]. intros m H. destruct (SUB m H) as (A & B). apply in_in_remove; assumption.
  - apply remove_length_lt, IN.
Qed.
Lemma child_marked : forall g n bs path (side : bool), Nat.even n = true -> marked path bs ->
  let r := split_list g n bs (map (fun b => t_side (test_brush g b n)) bs) in
  marked ((n, side) :: path) (if side then fst r else snd r).
Proof.
  intros g n bs path sd E M r q c s IQ IC IS P.
  assert (IC' : In c (fst r) \/ In c (snd r)) by (destruct sd; auto).
  destruct (split_list_in g n bs c IC') as (b & IB & Q). cbn zeta in Q.
  destruct (place_sides g n b c s E Q IS) as [(I & NE)|(O' & _)]; [|exact O'].
  destruct IQ as [<-|IQ]; [simpl in P; congruence|]. exact (M q b s IQ IB I P).
Qed.

Lemma build_ok : forall g vmax md fuel path vol bs, marked path bs -> length (open_planes bs) < fuel ->
  exists t, build g vmax md fuel path vol bs = BOk t.
Proof.
  intros g vmax md. induction fuel as [|fuel IH]; intros path vol bs M L; [lia|]. cbn [build].
  destruct (select_ok g vmax md path vol bs M) as ([[[s l] d]|] & E); rewrite E; [|eauto].
  destruct (select_some _ _ _ _ _ _ _ _ _ E) as ((b & IB & IS & O) & ->).
  set (n := pos (s_plane s)). assert (EV : Nat.even n = true) by apply pos_even.
  assert (IN : In n (open_planes bs)) by (apply open_planes_in; exists b, s; auto).
  destruct (IH ((n, true) :: path) (fst (match vol with Some v => split g v n | None => (None, None) end))
    (fst (split_list g n bs (map (fun b => t_side (test_brush g b n)) bs)))) as (f & ->).
  { exact (child_marked g n bs path true EV M). }
  { pose proof (child_open g n bs true EV IN) as X. cbv zeta in X. cbv iota in X. lia. }
  destruct (IH ((n, false) :: path) (snd (match vol with Some v => split g v n | None => (None, None) end))
    (snd (split_list g n bs (map (fun b => t_side (test_brush g b n)) bs)))) as (k & ->).
  { exact (child_marked g n bs path false EV M). }
  { pose proof (child_open g n bs false EV IN) as X. cbv zeta in X. cbv iota in X. lia. }
  eauto.
Qed.

(** ** Where points end up *)

Fixpoint leaf_at (p : nat -> bool) (t : tree) : list brush :=
  match t with Leaf bs => bs | Node n _ f k => if above p n then leaf_at p f else leaf_at p k end.

(** The planes of the sides. *)
Definition planes (bs : list brush) : list nat := map (fun s => pos (s_plane s)) (flat_map b_sides bs).
(** The brushes that come from the given ones by splitting along those planes and marking. *)
Inductive derived (g : geo) (bs : list brush) : brush -> Prop :=
| d_in : forall b, In b bs -> derived g bs b
| d_front : forall b n f, derived g bs b -> In (pos n) (planes bs) -> fst (split g b n) = Some f -> derived g bs f
| d_back : forall b n k, derived g bs b -> In (pos n) (planes bs) -> snd (split g b n) = Some k -> derived g bs k
| d_mark : forall b n, derived g bs b -> derived g bs (mark n b).

Definition in_opt (p : nat -> bool) (o : option brush) : bool := match o with Some b => insideb p b | None => false end.
(** At [p] no piece is lost or gained by splitting. *)
Definition exact_at (g : geo) (bs : list brush) (p : nat -> bool) : Prop :=
  forall b n, derived g bs b -> In (pos n) (planes bs) ->
    in_opt p (fst (split g b n)) = insideb p b && above p n /\
    in_opt p (snd (split g b n)) = insideb p b && negb (above p n).
(** The bounds of a brush that contains [p] reach to the side [p] is on. *)
Definition box_at (g : geo) (bs : list brush) (p : nat -> bool) : Prop :=
  forall b n, derived g bs b -> In (pos n) (planes bs) ->
    insideb p b = true -> if above p n then fst (g_box g b n) = true else snd (g_box g b n) = true.

Lemma split_sides : forall g b n c s, fst (split g b n) = Some c \/ snd (split g b n) = Some c -> In s (b_sides c) ->
  In s (b_sides b) \/ s = cut n \/ s = cut (xor1 n).
Proof.
  intros g b n c s H I. unfold split in H. destruct (g_split g b n) as [| | |fk bk fok bok]; cbn [fst snd] in H.
  - destruct H as [H|H]; [discriminate|]. injection H as ->. auto.
  - destruct H as [H|H]; [|discriminate]. injection H as ->. auto.
  - destruct H; discriminate.
  - destruct H as [H|H]; [destruct fok|destruct bok]; try discriminate; injection H as <-; cbn [piece b_sides] in I;
      apply in_app_or in I; destruct I as [I|[<-|[]]]; auto; left; eapply keep_in, I.
Qed.
Lemma pos_xor1 : forall n, pos (xor1 n) = pos n.
Proof.
  intro n. destruct (pos_cases n) as [Y|Y].
  - rewrite Y at 1. rewrite (proj2 (pos_id _ (pos_even n))). reflexivity.
  - rewrite Y at 1. rewrite xor1_xor1. apply pos_pos.
Qed.
Lemma derived_planes : forall g bs b, derived g bs b -> forall s, In s (b_sides b) -> In (pos (s_plane s)) (planes bs).
Proof.
  intros g bs b D. induction D as [b I|b n f D IH P F|b n k D IH P F|b n D IH]; intros s IS.
  - unfold planes. apply in_map_iff. exists s. split; [reflexivity|]. apply in_flat_map. exists b. auto.
  - destruct (split_sides g b n f s (or_introl F) IS) as [X|[->| ->]]; [apply IH, X|exact P|]. cbn [cut s_plane]. rewrite pos_xor1. exact P.
  - destruct (split_sides g b n k s (or_intror F) IS) as [X|[->| ->]]; [apply IH, X|exact P|]. cbn [cut s_plane]. rewrite pos_xor1. exact P.
  - cbn [mark b_sides] in IS. apply in_map_iff in IS. destruct IS as (t & <- & IT). specialize (IH t IT).
    destruct (pos (s_plane t) =? n); exact IH.
Qed.

Definition key (b : brush) := (b_id b, b_cont b, b_detail b, b_solid b, b_nochop b).
Lemma split_key : forall g b n, (forall f, fst (split g b n) = Some f -> key f = key b) /\ (forall k, snd (split g b n) = Some k -> key k = key b).
Proof.
  intros g b n. unfold split. destruct (g_split g b n) as [| | |fk bk fok bok]; simpl; split; intros f H; try discriminate; try (injection H as <-; reflexivity);
    [destruct fok|destruct bok]; try discriminate; injection H as <-; reflexivity.
Qed.
Lemma mark_key : forall n b, key (mark n b) = key b.
Proof. reflexivity. Qed.
Lemma inside_mark : forall p n b, insideb p (mark n b) = insideb p b.
Proof.
  intros p n b. unfold insideb. cbn [mark b_sides]. induction (b_sides b) as [|s l IH]; [reflexivity|]. cbn [map forallb]. rewrite IH. f_equal.
  destruct (pos (s_plane s) =? n); reflexivity.
Qed.
Lemma insideb_in : forall p b, insideb p b = true -> forall s, In s (b_sides b) -> above p (s_plane s) = false.
Proof. intros p b H s I. unfold insideb in H. rewrite forallb_forall in H. specialize (H s I). apply negb_true_iff in H. exact H. Qed.

Definition inside_keys (p : nat -> bool) (l : list brush) := map key (filter (insideb p) l).
Lemma inside_keys_app : forall p a b, inside_keys p (a ++ b) = inside_keys p a ++ inside_keys p b.
Proof. intros. unfold inside_keys. rewrite filter_app, map_app. reflexivity. Qed.

Lemma opt_keys : forall p o b, (forall c, o = Some c -> key c = key b) -> inside_keys p (opt o) = if in_opt p o then [key b] else [].
Proof.
  intros p [c|] b H; [|reflexivity]. unfold inside_keys. cbn [opt filter in_opt]. destruct (insideb p c); [|reflexivity]. cbn [map]. rewrite (H c eq_refl). reflexivity.
Qed.
Lemma place_keys : forall g bs p n b, Nat.even n = true -> In (pos n) (planes bs) -> exact_at g bs p -> box_at g bs p -> derived g bs b ->
  let r := place g n b (t_side (test_brush g b n)) in
  inside_keys p (if above p n then fst r else snd r) = inside_keys p [b].
Proof.
  intros g bs p n b E PL EX BX D r. destruct (EX b n D PL) as (EF & EK). pose proof (BX b n D PL) as EB.
  assert (SELF : inside_keys p [b] = if insideb p b then [key b] else []) by (unfold inside_keys; cbn [filter]; destruct (insideb p b); reflexivity).
  rewrite SELF. unfold r, place. clear r.
  destruct (test_cases g b n) as [(F & _ & _ & _ & FS & FB)|(F & FN & TS)]; cbn zeta in *.
  - rewrite F, andb_false_r.
    assert (MK : inside_keys p [mark n b] = if insideb p b then [key b] else []).
    { unfold inside_keys. cbn [filter]. rewrite inside_mark. destruct (insideb p b); reflexivity. }
    destruct (facing_some _ _ _ FS) as [(s & I & S & R)|(s & I & S & R)]; rewrite R; cbn [ps_front ps_back fst snd].
    + destruct (above p n) eqn:A; [|exact MK]. destruct (insideb p b) eqn:IB; [|reflexivity].
      pose proof (insideb_in p b IB s I) as X. rewrite S, A in X. discriminate.
    + destruct (above p n) eqn:A; [exact MK|]. destruct (insideb p b) eqn:IB; [|reflexivity].
      pose proof (insideb_in p b IB s I) as X. rewrite S, above_xor1, A in X. discriminate.
  - rewrite F. rewrite TS. cbn [ps_front ps_back].
    destruct (fst (g_box g b n)) eqn:BF, (snd (g_box g b n)) eqn:BK; cbn [andb negb fst snd].
    + destruct (above p n) eqn:A.
      * rewrite (opt_keys p _ b (proj1 (split_key g b n))), EF, andb_true_r. reflexivity.
      * rewrite (opt_keys p _ b (proj2 (split_key g b n))), EK. cbn [negb]. rewrite andb_true_r. reflexivity.
    + destruct (above p n) eqn:A; [exact SELF|]. destruct (insideb p b) eqn:IB; [|reflexivity]. discriminate (EB eq_refl).
    + destruct (above p n) eqn:A; [|exact SELF]. destruct (insideb p b) eqn:IB; [|reflexivity]. discriminate (EB eq_refl).
    + destruct (insideb p b) eqn:IB; [|destruct (above p n); reflexivity]. specialize (EB eq_refl). destruct (above p n); discriminate.
Qed.
Lemma split_list_keys : forall g bs0 p n bs, Nat.even n = true -> In (pos n) (planes bs0) -> exact_at g bs0 p -> box_at g bs0 p -> Forall (derived g bs0) bs ->
  let r := split_list g n bs (map (fun b => t_side (test_brush g b n)) bs) in
  inside_keys p (if above p n then fst r else snd r) = inside_keys p bs.
Proof.
  intros g bs0 p n bs E PL EX BX D. induction D as [|b bs D DS IH]; cbn zeta in *; cbn [map split_list fst snd]; [destruct (above p n); reflexivity|].
  pose proof (place_keys g bs0 p n b E PL EX BX D) as P. cbn zeta in P.
  change (b :: bs) with ([b] ++ bs). rewrite inside_keys_app, <- P, <- IH. destruct (above p n); apply inside_keys_app.
Qed.
Lemma place_derived : forall g bs0 n b c, In (pos n) (planes bs0) -> derived g bs0 b -> let r := place g n b (t_side (test_brush g b n)) in In c (fst r) \/ In c (snd r) -> derived g bs0 c.
Proof.
  intros g bs0 n b c PL D r H. unfold r, place in H. clear r.
  destruct (ps_front (t_side (test_brush g b n)) && ps_back (t_side (test_brush g b n)) && negb (ps_facing (t_side (test_brush g b n)))); cbn [fst snd] in H.
  - destruct (fst (split g b n)) as [f|] eqn:F, (snd (split g b n)) as [k|] eqn:K; cbn [opt In] in H; destruct H as [H|H]; try contradiction; destruct H as [<-|[]];
      first [eapply d_front; eassumption|eapply d_back; eassumption].
  - assert (X : c = (if ps_facing (t_side (test_brush g b n)) then mark n b else b)).
    { destruct (ps_front (t_side (test_brush g b n))); [|destruct (ps_back (t_side (test_brush g b n)))]; simpl in H; intuition. }
    subst c. destruct (ps_facing _); [apply d_mark, D|exact D].
Qed.
Lemma split_list_derived : forall g bs0 n bs, In (pos n) (planes bs0) -> Forall (derived g bs0) bs ->
  let r := split_list g n bs (map (fun b => t_side (test_brush g b n)) bs) in Forall (derived g bs0) (fst r) /\ Forall (derived g bs0) (snd r).
Proof.
  intros g bs0 n bs PL D r. rewrite Forall_forall in D. split; apply Forall_forall; intros c I;
    (destruct (split_list_in g n bs c) as (b & IB & Q); [unfold r in I; auto|]); eapply place_derived; eauto.
Qed.

Lemma leaf_keys : forall g vmax md bs0 p fuel path vol bs t, exact_at g bs0 p -> box_at g bs0 p -> Forall (derived g bs0) bs ->
  build g vmax md fuel path vol bs = BOk t -> inside_keys p (leaf_at p t) = inside_keys p bs.
Proof.
  intros g vmax md bs0 p. induction fuel as [|fuel IH]; intros path vol bs t EX BX D H; [discriminate|]. cbn [build] in H.
  destruct (select_side g vmax md path vol bs) as [[[[s l] d]|]| |] eqn:E; try discriminate.
  2: { injection H as <-. reflexivity. }
  destruct (select_some _ _ _ _ _ _ _ _ _ E) as ((b & IB & IS & _) & ->). set (n := pos (s_plane s)) in *.
  assert (EV : Nat.even n = true) by apply pos_even.
  assert (PL : In (pos n) (planes bs0)).
  { unfold n. rewrite pos_pos. rewrite Forall_forall in D. exact (derived_planes g bs0 b (D b IB) s IS). }
  destruct (split_list_derived g bs0 n bs PL D) as (DF & DK). pose proof (split_list_keys g bs0 p n bs EV PL EX BX D) as SK. cbn zeta in SK.
  destruct (build g vmax md fuel ((n, true) :: path) _ _) as [f| |] eqn:BF; [|discriminate|destruct (build g vmax md fuel ((n, false) :: path) _ _); discriminate].
  destruct (build g vmax md fuel ((n, false) :: path) _ _) as [k| |] eqn:BK; try discriminate.
  injection H as <-. cbn [leaf_at]. rewrite <- SK. destruct (above p n); [eapply IH; eassumption|eapply IH; eassumption].
Qed.

(** ** Marked sides contain the leaf *)

(** No side lies opposite another one of the same brush. *)
Definition proper (b : brush) : Prop := forall s t, In s (b_sides b) -> In t (b_sides b) -> s_plane s <> xor1 (s_plane t).
Definition settled (p : nat -> bool) (b : brush) : Prop := forall s, In s (b_sides b) -> s_onnode s = true -> above p (s_plane s) = false.

Lemma xor1_even_neq : forall n, n <> xor1 n.
Proof. intro n. unfold xor1. destruct (Nat.even n) eqn:E; [lia|]. destruct (even_pred n E). lia. Qed.
Lemma place_settled : forall g p n b c, Nat.even n = true -> proper b -> settled p b ->
  let r := place g n b (t_side (test_brush g b n)) in In c (if above p n then fst r else snd r) -> proper c /\ settled p c.
Proof.
  intros g p n b c E P S r H. unfold r, place in H. clear r.
  destruct (test_cases g b n) as [(F & _ & _ & _ & FS & FB)|(F & FN & TS)]; cbn zeta in *.
  - rewrite F, andb_false_r in H.
    assert (X : c = mark n b /\ (above p n = true -> ps_front (t_side (test_brush g b n)) = true) /\ (above p n = false -> ps_back (t_side (test_brush g b n)) = true)).
    { destruct (ps_front (t_side (test_brush g b n))), (ps_back (t_side (test_brush g b n))); try discriminate; cbn [fst snd] in H;
        destruct (above p n); simpl in H; intuition congruence. }
    destruct X as (-> & XF & XB).
    split.
    + intros s t IS IT. cbn [mark b_sides] in IS, IT. apply in_map_iff in IS, IT. destruct IS as (s' & <- & IS), IT as (t' & <- & IT).
      assert (A : forall u, s_plane (if pos (s_plane u) =? n then mkSide (s_plane u) true (s_bevel u) (s_wind u) (s_vis u) (s_hint u) (s_hintskip u) else u) = s_plane u)
        by (intro u; destruct (pos (s_plane u) =? n); reflexivity).
      rewrite !A. apply P; assumption.
    + intros s IS O. cbn [mark b_sides] in IS. apply in_map_iff in IS. destruct IS as (t & <- & IT).
      destruct (Nat.eqb_spec (pos (s_plane t)) n) as [X|X]; [|apply S; assumption]. cbn [s_plane].
      apply pos_iff in X; [|exact E].
      destruct (facing_some _ _ _ FS) as [(s & I & SP & R)|(s & I & SP & R)]; rewrite R in XF, XB; cbn [ps_front ps_back] in XF, XB.
      * destruct (above p n) eqn:A; [discriminate (XF eq_refl)|]. destruct X as [->|X]; [exact A|]. exfalso. apply (P t s IT I). congruence.
      * destruct (above p n) eqn:A; [|discriminate (XB eq_refl)]. destruct X as [X| ->]; [|rewrite above_xor1, A; reflexivity].
        exfalso. apply (P s t I IT). congruence.
  - rewrite F in H.
    assert (PC : forall mask m, pos m = n -> above p m = false -> proper (piece b mask m) /\ settled p (piece b mask m)).
    { intros mask m PM AM. assert (OFF := off_plane b n E FN). split.
      - intros s t IS IT. cbn [piece b_sides] in IS, IT. apply in_app_or in IS, IT.
        assert (PX : forall x y, x = xor1 y -> pos x = pos y) by (intros x y ->; apply pos_xor1).
        destruct IS as [IS|[<-|[]]], IT as [IT|[<-|[]]]; cbn [cut s_plane].
        + apply keep_in in IS, IT. apply P; assumption.
        + apply keep_in in IS. intro X. apply PX in X. apply (OFF s IS). congruence.
        + apply keep_in in IT. intro X. apply PX in X. apply (OFF t IT). congruence.
        + apply xor1_even_neq.
      - intros s IS O. cbn [piece b_sides] in IS. apply in_app_or in IS. destruct IS as [IS|[<-|[]]]; [|exact AM]. apply keep_in in IS. apply S; assumption. }
    destruct (ps_front (t_side (test_brush g b n)) && ps_back (t_side (test_brush g b n)) && negb false).
    + cbn [fst snd] in H. unfold split in H. destruct (pos_id n E) as (P0 & P1).
      destruct (g_split g b n) as [| | |fk bk fok bok], (above p n) eqn:A; simpl in H; try contradiction; try (destruct H as [<-|[]]; split; assumption).
      * destruct fok; simpl in H; [|contradiction]. destruct H as [<-|[]]. apply PC; [exact P1|]. rewrite above_xor1, A. reflexivity.
      * destruct bok; simpl in H; [|contradiction]. destruct H as [<-|[]]. apply PC; [exact P0|exact A].
    + assert (X : c = b).
      { destruct (ps_front (t_side (test_brush g b n))); [|destruct (ps_back (t_side (test_brush g b n)))]; cbn [fst snd] in H; destruct (above p n); simpl in H; intuition. }
      subst c. split; assumption.
Qed.
Lemma split_list_settled : forall g p n bs c, Nat.even n = true -> Forall (fun b => proper b /\ settled p b) bs ->
  let r := split_list g n bs (map (fun b => t_side (test_brush g b n)) bs) in In c (if above p n then fst r else snd r) -> proper c /\ settled p c.
Proof.
  intros g p n bs c E F. induction F as [|b bs (P & S) F IH]; cbn zeta in *; cbn [map split_list fst snd]; intro H; [destruct (above p n); destruct H|].
  assert (X : In c (if above p n then fst (place g n b (t_side (test_brush g b n))) else snd (place g n b (t_side (test_brush g b n)))) \/
    In c (if above p n then fst (split_list g n bs (map (fun b => t_side (test_brush g b n)) bs)) else snd (split_list g n bs (map (fun b => t_side (test_brush g b n)) bs)))).
  { destruct (above p n); apply in_app_or; exact H. }
  destruct X as [X|X]; [|apply IH, X]. eapply place_settled; eassumption.
Qed.
Lemma leaf_settled : forall g vmax md p fuel path vol bs t, Forall (fun b => proper b /\ settled p b) bs ->
  build g vmax md fuel path vol bs = BOk t -> Forall (fun b => proper b /\ settled p b) (leaf_at p t).
Proof.
  intros g vmax md p. induction fuel as [|fuel IH]; intros path vol bs t F H; [discriminate|]. cbn [build] in H.
  destruct (select_side g vmax md path vol bs) as [[[[s l] d]|]| |] eqn:E; try discriminate.
  2: { injection H as <-. exact F. }
  destruct (select_some _ _ _ _ _ _ _ _ _ E) as (_ & ->). set (n := pos (s_plane s)) in *.
  assert (EV : Nat.even n = true) by apply pos_even.
  assert (SS : Forall (fun b => proper b /\ settled p b) (if above p n then fst (split_list g n bs (map (fun b => t_side (test_brush g b n)) bs)) else snd (split_list g n bs (map (fun b => t_side (test_brush g b n)) bs)))).
  { apply Forall_forall. intros c IC. eapply split_list_settled; eassumption. }
  destruct (build g vmax md fuel ((n, true) :: path) _ _) as [f| |] eqn:BF; [|discriminate|destruct (build g vmax md fuel ((n, false) :: path) _ _); discriminate].
  destruct (build g vmax md fuel ((n, false) :: path) _ _) as [k| |] eqn:BK; try discriminate.
  injection H as <-. cbn [leaf_at]. destruct (above p n); eapply IH; eassumption.
Qed.

(** ** Chopping *)

Definition cnt (p : nat -> bool) (l : list brush) : nat := length (filter (insideb p) l).
Lemma cnt_app : forall p a b, cnt p (a ++ b) = cnt p a + cnt p b.
Proof. intros. unfold cnt. rewrite filter_app, app_length. reflexivity. Qed.
Lemma cnt_opt : forall p o, cnt p (opt o) = b2n (in_opt p o).
Proof. intros p [b|]; [|reflexivity]. unfold cnt. cbn [opt filter in_opt]. destruct (insideb p b); reflexivity. Qed.

Lemma subtract_go_cnt : forall g bs0 p b, exact_at g bs0 p -> forall l inb out o,
  derived g bs0 inb -> (forall s, In s l -> In (pos (s_plane s)) (planes bs0)) -> subtract_go g inb l out = Some o -> key inb = b ->
  cnt p o = cnt p out + b2n (insideb p inb && negb (forallb (fun s => negb (above p (s_plane s))) l)).
Proof.
  intros g bs0 p b EX. induction l as [|s l IH]; intros inb out o D PL H K; cbn [subtract_go] in H.
  - injection H as <-. cbn [forallb negb]. rewrite andb_false_r. simpl. lia.
  - destruct (EX inb (s_plane s) D (PL s (or_introl eq_refl))) as (EF & EK).
    destruct (snd (split g inb (s_plane s))) as [k|] eqn:SK; [|discriminate].
    rewrite (IH k (opt (fst (split g inb (s_plane s))) ++ out) o); [| |intros t I; apply PL; right; exact I|exact H|].
    + rewrite cnt_app, cnt_opt, EF. cbn [in_opt] in EK. rewrite EK. cbn [forallb].
      destruct (insideb p inb), (above p (s_plane s)), (forallb _ l); cbn; lia.
    + eapply d_back; [exact D|apply PL; left; reflexivity|exact SK].
    + rewrite <- K. apply (proj2 (split_key g inb (s_plane s))), SK.
Qed.
Lemma subtract_go_forall : forall g bs0 k0 l inb out o,
  derived g bs0 inb -> (forall s, In s l -> In (pos (s_plane s)) (planes bs0)) -> subtract_go g inb l out = Some o -> key inb = k0 ->
  Forall (fun c => derived g bs0 c /\ key c = k0) out -> Forall (fun c => derived g bs0 c /\ key c = k0) o.
Proof.
  intros g bs0 k0. induction l as [|s l IH]; intros inb out o D PL H K F; cbn [subtract_go] in H; [injection H as <-; exact F|].
  destruct (snd (split g inb (s_plane s))) as [k|] eqn:SK; [|discriminate].
  eapply IH; [eapply d_back; [exact D|apply PL; left; reflexivity|exact SK]|intros t I; apply PL; right; exact I|exact H| |].
  - rewrite <- K. apply (proj2 (split_key g inb (s_plane s))), SK.
  - destruct (fst (split g inb (s_plane s))) as [f|] eqn:SF; [|exact F]. constructor; [|exact F]. split.
    + eapply d_front; [exact D|apply PL; left; reflexivity|exact SF].
    + rewrite <- K. apply (proj1 (split_key g inb (s_plane s))), SF.
Qed.
Lemma subtract_go_disjoint : forall g b l inb out o, (forall s, In s l -> In s (b_sides b)) -> subtract_go g inb l out = Some o ->
  Forall (fun c => disjoint g b c = true) out -> Forall (fun c => disjoint g b c = true) o.
Proof.
  intros g b. induction l as [|s l IH]; intros inb out o SB H F; cbn [subtract_go] in H; [injection H as <-; exact F|].
  destruct (snd (split g inb (s_plane s))) as [k|] eqn:SK; [|discriminate].
  eapply IH; [intros t I; apply SB; right; exact I|exact H|].
  unfold split in *. destruct (g_split g inb (s_plane s)) as [| | |fk bk fok bok]; cbn [fst snd opt app] in *; try discriminate; [exact F|].
  destruct fok; [|exact F]. constructor; [|exact F]. unfold disjoint. apply orb_true_iff. right. apply existsb_exists. exists s.
  split; [apply SB; left; reflexivity|]. apply existsb_exists. exists (cut (xor1 (s_plane s))). split.
  - cbn [piece b_sides]. apply in_or_app. right. left. reflexivity.
  - cbn [cut s_plane]. rewrite xor1_xor1. apply Nat.eqb_refl.
Qed.

(** One bite: [a] is replaced by what is left of it. *)
Inductive bite (g : geo) : list brush -> list brush -> Prop :=
| bite_intro : forall x a y o b, In b (x ++ y) -> brush_ge b a = true -> b_nochop a = false -> b_nochop b = false ->
    subtract g a b = Some o -> bite g (x ++ a :: y) (x ++ o ++ y).
Inductive bites (g : geo) : list brush -> list brush -> Prop :=
| bites_nil : forall l, bites g l l
| bites_cons : forall l m r, bite g l m -> bites g m r -> bites g l r.

Inductive scanned (g : geo) (b1 : brush) (l : list brush) : action -> Prop :=
| sc_keep : scanned g b1 l AKeep
| sc_swallow : forall b2, In b2 l -> brush_ge b2 b1 = true -> b_nochop b2 = false -> subtract g b1 b2 = Some [] -> scanned g b1 l ASwallow1
| sc_split : forall b2 o, In b2 l -> brush_ge b2 b1 = true -> b_nochop b2 = false -> subtract g b1 b2 = Some o -> scanned g b1 l (ASplit1 o)
| sc_rest : forall x b2 y o, l = x ++ b2 :: y -> brush_ge b1 b2 = true -> b_nochop b2 = false -> disjoint g b1 b2 = false ->
    subtract g b2 b1 = Some o -> scanned g b1 l (ARest (x ++ o ++ y)).
Lemma scan_scanned : forall g frag b1 l pre, scanned g b1 (rev pre ++ l) (scan g frag b1 pre l).
Proof.
  intros g frag b1. induction l as [|b2 l IH]; intro pre; cbn [scan]; [constructor|].
  assert (NX : scanned g b1 (rev pre ++ b2 :: l) (scan g frag b1 (b2 :: pre) l)).
  { specialize (IH (b2 :: pre)). cbn [rev] in IH. rewrite <- app_assoc in IH. exact IH. }
  assert (I2 : In b2 (rev pre ++ b2 :: l)) by (apply in_or_app; right; left; reflexivity).
  destruct (b_nochop b2) eqn:NC; [exact NX|]. destruct (disjoint g b1 b2) eqn:DJ; [exact NX|].
  assert (RST : brush_ge b1 b2 = true -> forall o, subtract g b2 b1 = Some o -> scanned g b1 (rev pre ++ b2 :: l) (ARest (rev pre ++ o ++ l))).
  { intros GE o S. eapply sc_rest; [reflexivity|assumption..]. }
  destruct (brush_ge b2 b1) eqn:G21; [destruct (subtract g b1 b2) as [[|c1 s1]|] eqn:S1; [eapply sc_swallow; eassumption| |exact NX]|];
  (destruct (brush_ge b1 b2) eqn:G12; [destruct (subtract g b2 b1) as [[|c2 s2]|] eqn:S2; [exact (RST eq_refl [] eq_refl)| |exact NX]|]);
  repeat match goal with |- context[if ?c then _ else _] => destruct c end; try exact NX;
  try (eapply sc_split; eassumption); try (apply RST; auto).
Qed.
Lemma chop_bites : forall g frag fuel done l r, chop g frag fuel done l = Some r -> bites g (rev done ++ l) r.
Proof.
  intros g frag. induction fuel as [|fuel IH]; intros done l r H; cbn [chop] in H; [discriminate|].
  destruct l as [|b1 l]; [injection H as <-; rewrite app_nil_r; constructor|].
  assert (KEEP : chop g frag fuel (b1 :: done) l = Some r -> bites g (rev done ++ b1 :: l) r).
  { intro K. apply IH in K. cbn [rev] in K. rewrite <- app_assoc in K. exact K. }
  destruct (b_nochop b1) eqn:NC; [exact (KEEP H)|]. pose proof (scan_scanned g frag b1 l []) as SC. cbn [rev app] in SC.
  destruct (scan g frag b1 [] l) as [| |sub|rest]; inversion SC; subst.
  - exact (KEEP H).
  - eapply bites_cons; [|apply IH, H]. change (rev done ++ l) with (rev done ++ [] ++ l).
    eapply bite_intro; [|eassumption..]. apply in_or_app. right. assumption.
  - eapply bites_cons; [|apply IH; eassumption]. rewrite rev_app_distr, rev_involutive, <- app_assoc.
    eapply bite_intro; [|eassumption..]. apply in_or_app. right. assumption.
  - eapply bites_cons; [|apply IH; eassumption].
    replace (rev done ++ b1 :: x ++ b2 :: y) with ((rev done ++ b1 :: x) ++ b2 :: y) by (rewrite <- app_assoc; reflexivity).
    replace (rev done ++ b1 :: x ++ o ++ y) with ((rev done ++ b1 :: x) ++ o ++ y) by (rewrite <- app_assoc; reflexivity).
    eapply bite_intro with (b := b1); [|eassumption..]. rewrite !in_app_iff. left. right. left. reflexivity.
Qed.

(** [a] with some elements left out. *)
Inductive subseq {A} : list A -> list A -> Prop :=
| ss_nil : subseq [] []
| ss_keep : forall x a b, subseq a b -> subseq (x :: a) (x :: b)
| ss_skip : forall x a b, subseq a b -> subseq a (x :: b).
Lemma subseq_refl : forall A (l : list A), subseq l l.
Proof. induction l; constructor; assumption. Qed.
Lemma subseq_app : forall A (a b c d : list A), subseq a b -> subseq c d -> subseq (a ++ c) (b ++ d).
Proof. intros A a b c d H K. induction H; simpl; [exact K|constructor; assumption..]. Qed.
Lemma subseq_trans : forall A (b c : list A), subseq b c -> forall a, subseq a b -> subseq a c.
Proof.
  intros A b c H. induction H as [|x b c H IH|x b c H IH]; intros a K; [exact K| |constructor; apply IH, K].
  inversion K as [|y a' b' K'|y a' b' K']; subst; [apply ss_keep, IH, K'|apply ss_skip, IH, K'].
Qed.

Lemma cnt_keys : forall p k l, Forall (fun c => key c = k) l -> inside_keys p l = repeat k (cnt p l).
Proof.
  intros p k l F. induction F as [|c l E F IH]; [reflexivity|]. unfold inside_keys, cnt in *. cbn [filter]. destruct (insideb p c); [|exact IH].
  cbn [map length repeat]. rewrite E, IH. reflexivity.
Qed.
(** What a bite does at a point. *)
Lemma bite_at : forall g bs0 p l m, exact_at g bs0 p -> Forall (derived g bs0) l -> bite g l m ->
  Forall (derived g bs0) m /\
  exists x a y o b, l = x ++ a :: y /\ m = x ++ o ++ y /\ In b (x ++ y) /\ brush_ge b a = true /\ b_nochop a = false /\
    Forall (fun c => key c = key a) o /\
    inside_keys p o = (if insideb p a && negb (insideb p b) then [key a] else []).
Proof.
  intros g bs0 p l m EX D B. destruct B as [x a y o b IB GE NA NB S]. rewrite Forall_forall in D.
  assert (DA : derived g bs0 a) by (apply D, in_or_app; right; left; reflexivity).
  assert (DB : derived g bs0 b).
  { apply D. apply in_or_app. apply in_app_or in IB. destruct IB; [left|right; right]; assumption. }
  unfold subtract in S.
  assert (PL : forall s, In s (b_sides b) -> In (pos (s_plane s)) (planes bs0)) by (intros s IS; eapply derived_planes; eassumption).
  pose proof (subtract_go_forall g bs0 (key a) _ _ _ _ DA PL S eq_refl (Forall_nil _)) as F.
  pose proof (subtract_go_cnt g bs0 p (key a) EX _ _ _ _ DA PL S eq_refl) as C. fold (insideb p b) in C. cbn in C.
  assert (FK : Forall (fun c => key c = key a) o) by (eapply Forall_impl; [|exact F]; intros c (_ & K); exact K).
  split.
  - apply Forall_forall. intros c IC. rewrite !in_app_iff in IC. rewrite Forall_forall in F.
    destruct IC as [IC|[IC|IC]]; [|apply F, IC|]; apply D; apply in_or_app; [left|right; right]; exact IC.
  - exists x, a, y, o, b. repeat (split; [auto; fail|]). rewrite (cnt_keys p (key a) o FK), C.
    destruct (insideb p a && negb (insideb p b)); reflexivity.
Qed.

(** Is the point inside a brush of a kind that depends on its key only? *)
Definition covers (f : brush -> bool) (p : nat -> bool) (l : list brush) : bool := existsb (fun b => f b && insideb p b) l.
Lemma key_fields : forall a b, key a = key b -> b_id a = b_id b /\ b_cont a = b_cont b /\ b_detail a = b_detail b /\ b_solid a = b_solid b /\ b_nochop a = b_nochop b.
Proof. intros a b H. unfold key in H. injection H as ? ? ? ? ?. auto. Qed.
Definition kcover (f : nat * nat * bool * bool * bool -> bool) (l : list (nat * nat * bool * bool * bool)) : bool := existsb f l.
Lemma covers_keys : forall f p l, covers (fun b => f (key b)) p l = existsb f (inside_keys p l).
Proof.
  intros f p l. unfold covers, inside_keys. induction l as [|b l IH]; [reflexivity|]. cbn [existsb filter]. rewrite IH.
  destruct (insideb p b); cbn [map existsb]; [rewrite andb_true_r|rewrite andb_false_r]; reflexivity.
Qed.
Definition f_solid (k : nat * nat * bool * bool * bool) : bool := snd (fst k).
Definition f_detail (k : nat * nat * bool * bool * bool) : bool := snd (fst (fst k)).

Lemma bite_covers : forall g bs0 p l m f, exact_at g bs0 p -> Forall (derived g bs0) l -> bite g l m ->
  (forall a b, brush_ge b a = true -> f (key a) = true -> f (key b) = true) ->
  covers (fun b => f (key b)) p m = covers (fun b => f (key b)) p l.
Proof.
  intros g bs0 p l m f EX D B MONO. destruct (bite_at g bs0 p l m EX D B) as (_ & x & a & y & o & b & -> & -> & IB & GE & _ & _ & K).
  rewrite !covers_keys. change (a :: y) with ([a] ++ y). rewrite !inside_keys_app, !existsb_app, K.
  assert (SELF : inside_keys p [a] = if insideb p a then [key a] else []) by (unfold inside_keys; cbn [filter]; destruct (insideb p a); reflexivity).
  rewrite SELF. destruct (insideb p a) eqn:IA; cbn [andb]; [|reflexivity]. destruct (insideb p b) eqn:IBB; cbn [negb]; [|reflexivity].
  cbn [existsb]. rewrite orb_false_r. destruct (f (key a)) eqn:FA; [|reflexivity]. specialize (MONO a b GE FA).
  assert (X : existsb f (inside_keys p x) || existsb f (inside_keys p y) = true).
  { rewrite <- existsb_app, <- inside_keys_app. apply existsb_exists. exists (key b). split; [|exact MONO]. unfold inside_keys. apply in_map. apply filter_In. auto. }
  cbn [orb]. rewrite X, orb_true_r. reflexivity.
Qed.
Lemma bite_filter : forall g bs0 p l m f, exact_at g bs0 p -> Forall (derived g bs0) l -> bite g l m ->
  (forall a b, brush_ge b a = true -> b_nochop a = false -> f (key a) = false) ->
  filter (fun b => f (key b)) m = filter (fun b => f (key b)) l.
Proof.
  intros g bs0 p l m f EX D B N. destruct (bite_at g bs0 p l m EX D B) as (_ & x & a & y & o & b & -> & -> & IB & GE & NA & FK & _).
  rewrite !filter_app. cbn [filter]. rewrite (N a b GE NA). f_equal.
  replace (filter (fun b => f (key b)) o) with (@nil brush); [reflexivity|]. symmetry. clear - FK N GE NA.
  induction FK as [|c o E FK IH]; [reflexivity|]. cbn [filter]. rewrite E, (N a b GE NA). exact IH.
Qed.
Lemma bite_subseq : forall g bs0 p l m, exact_at g bs0 p -> Forall (derived g bs0) l -> bite g l m -> subseq (inside_keys p m) (inside_keys p l).
Proof.
  intros g bs0 p l m EX D B. destruct (bite_at g bs0 p l m EX D B) as (_ & x & a & y & o & b & -> & -> & IB & GE & NA & FK & K).
  change (a :: y) with ([a] ++ y). rewrite !inside_keys_app, K. apply subseq_app; [apply subseq_refl|]. apply subseq_app; [|apply subseq_refl].
  assert (SELF : inside_keys p [a] = if insideb p a then [key a] else []) by (unfold inside_keys; cbn [filter]; destruct (insideb p a); reflexivity).
  rewrite SELF. destruct (insideb p a), (insideb p b); cbn [andb negb]; repeat constructor.
Qed.
Lemma bites_all : forall g bs0 p l r, exact_at g bs0 p -> Forall (derived g bs0) l -> bites g l r ->
  (forall f, (forall a b, brush_ge b a = true -> f (key a) = true -> f (key b) = true) -> covers (fun b => f (key b)) p r = covers (fun b => f (key b)) p l) /\
  (forall f, (forall a b, brush_ge b a = true -> b_nochop a = false -> f (key a) = false) -> filter (fun b => f (key b)) r = filter (fun b => f (key b)) l) /\
  subseq (inside_keys p r) (inside_keys p l).
Proof.
  intros g bs0 p l r EX D B. induction B as [l|l m r B BS IH]; [repeat split; auto; apply subseq_refl|].
  assert (DM := proj1 (bite_at g bs0 p l m EX D B)). destruct (IH DM) as (A1 & A2 & A3). repeat split.
  - intros f H. rewrite (A1 f H). eapply bite_covers; eassumption.
  - intros f H. rewrite (A2 f H). eapply bite_filter; eassumption.
  - eapply subseq_trans; [eapply bite_subseq; eassumption|exact A3].
Qed.

(** *** It ends *)

Definition hits (W : list (nat -> bool)) (b : brush) : nat := length (filter (fun w => insideb w b) W).
Definition hitsum (W : list (nat -> bool)) (l : list brush) : nat := list_sum (map (hits W) l).
Lemma cnt_cons : forall p b l, cnt p (b :: l) = b2n (insideb p b) + cnt p l.
Proof. intros. unfold cnt. cbn [filter]. destruct (insideb p b); reflexivity. Qed.
Lemma hits_cons : forall w W b, hits (w :: W) b = b2n (insideb w b) + hits W b.
Proof. intros. unfold hits. cbn [filter]. destruct (insideb w b); reflexivity. Qed.
Lemma lsum_cons : forall x l, list_sum (x :: l) = x + list_sum l.
Proof. reflexivity. Qed.
Lemma hitsum_cnt : forall W l, hitsum W l = list_sum (map (fun w => cnt w l) W).
Proof.
  intros W l. unfold hitsum. induction l as [|b l IH].
  - simpl. induction W as [|w W IH]; [reflexivity|]. simpl. exact IH.
  - cbn [map]. rewrite lsum_cons, IH. clear. induction W as [|w W IH]; [reflexivity|].
    cbn [map]. rewrite !lsum_cons, cnt_cons, hits_cons. lia.
Qed.
Definition weight (W : list (nat -> bool)) (l : list brush) : nat := list_sum (map (fun b => 2 * hits W b - 1) l).
Lemma weight_app : forall W a b, weight W (a ++ b) = weight W a + weight W b.
Proof. intros. unfold weight. rewrite map_app, list_sum_app. reflexivity. Qed.
Lemma weight_hits : forall W l, Forall (fun b => 1 <= hits W b) l -> weight W l + length l = 2 * hitsum W l.
Proof.
  intros W l F. induction F as [|b l H F IH]; [reflexivity|]. unfold weight, hitsum in *. cbn [map list_sum fold_right length].
  change (fold_right Nat.add 0) with list_sum. lia.
Qed.
Definition near (g : geo) (b : brush) (l : list brush) : nat := length (filter (fun c => negb (disjoint g b c)) l).

Lemma bite_weight : forall g bs0 W a b o, (forall w, In w W -> exact_at g bs0 w) -> (forall c, derived g bs0 c -> 1 <= hits W c) ->
  derived g bs0 a -> derived g bs0 b -> subtract g a b = Some o -> weight W o <= weight W [a] /\ Forall (derived g bs0) o.
Proof.
  intros g bs0 W a b o EX HT DA DB S. unfold subtract in S.
  assert (PL : forall s, In s (b_sides b) -> In (pos (s_plane s)) (planes bs0)) by (intros s IS; eapply derived_planes; eassumption).
  pose proof (subtract_go_forall g bs0 (key a) _ _ _ _ DA PL S eq_refl (Forall_nil _)) as F.
  assert (FD : Forall (derived g bs0) o) by (eapply Forall_impl; [|exact F]; intros c (K & _); exact K). split; [|exact FD].
  assert (LE : hitsum W o <= hits W a).
  { rewrite hitsum_cnt. unfold hits. assert (X : forall V, (forall w, In w V -> In w W) -> list_sum (map (fun w => cnt w o) V) <= length (filter (fun w => insideb w a) V)).
    2: { apply X. auto. }
    induction V as [|w V IH]; intro SB; [apply le_n|]. cbn [map list_sum fold_right filter]. change (fold_right Nat.add 0) with list_sum.
    specialize (IH (fun v I => SB v (or_intror I))).
    pose proof (subtract_go_cnt g bs0 w (key a) (EX w (SB w (or_introl eq_refl))) _ _ _ _ DA PL S eq_refl) as C. cbn [cnt filter length] in C.
    change (cnt w []) with 0 in C. rewrite C. destruct (insideb w a); cbn [length andb]; [|cbn; lia]. destruct (negb _); cbn; lia. }
  assert (FH : Forall (fun c => 1 <= hits W c) o) by (eapply Forall_impl; [|exact FD]; intros c; apply HT).
  pose proof (weight_hits W o FH). pose proof (HT a DA). unfold weight at 2. cbn [map list_sum fold_right].
  destruct o as [|c o]; [cbn; lia|]. cbn [length] in *. lia.
Qed.
Lemma near_app : forall g b x y, near g b (x ++ y) = near g b x + near g b y.
Proof. intros. unfold near. rewrite filter_app, app_length. reflexivity. Qed.

Lemma chop_ends : forall g frag bs0 W, (forall w, In w W -> exact_at g bs0 w) -> (forall c, derived g bs0 c -> 1 <= hits W c) ->
  forall k m done l, weight W l <= k -> match l with [] => True | b :: l => near g b l <= m end -> Forall (derived g bs0) l ->
  exists fuel r, chop g frag fuel done l = Some r.
Proof.
  intros g frag bs0 W EX HT. induction k as [|k IHK]; intros m; [|induction m as [|m IHM]]; intros done l WL NL D.
  - destruct l as [|b l]; [exists 1; cbn [chop]; eauto|]. inversion D; subst. exfalso. unfold weight in WL. cbn [map list_sum fold_right] in WL. pose proof (HT b H1). lia.
  - destruct l as [|b1 l]; [exists 1; cbn [chop]; eauto|]. inversion D as [|? ? DB DL]; subst.
    assert (WT : weight W l <= k).
    { change (b1 :: l) with ([b1] ++ l) in WL. rewrite weight_app in WL. unfold weight at 1 in WL. cbn [map list_sum fold_right] in WL. pose proof (HT b1 DB). lia. }
    assert (GO : forall d, exists fuel r, chop g frag fuel d l = Some r) by (intro d; eapply (IHK (match l with [] => 0 | b :: l => near g b l end)); [exact WT|destruct l; auto|exact DL]).
    destruct (b_nochop b1) eqn:NC; [destruct (GO (b1 :: done)) as (f & r & E); exists (S f), r; cbn [chop]; rewrite NC; exact E|].
    pose proof (scan_scanned g frag b1 l []) as SC. cbn [rev app] in SC. destruct (scan g frag b1 [] l) as [| |sub|rest] eqn:SE.
    + destruct (GO (b1 :: done)) as (f & r & E). exists (S f), r. cbn [chop]. rewrite NC, SE. exact E.
    + destruct (GO done) as (f & r & E). exists (S f), r. cbn [chop]. rewrite NC, SE. exact E.
    + destruct (GO (rev sub ++ done)) as (f & r & E). exists (S f), r. cbn [chop]. rewrite NC, SE. exact E.
    + exfalso. inversion SC as [| | |x b2 y o EL GE NC2 DJ SU EQ]; subst. rewrite near_app in NL. unfold near in NL at 2. cbn [filter] in NL. rewrite DJ in NL. cbn in NL. lia.
  - destruct l as [|b1 l]; [exists 1; cbn [chop]; eauto|]. inversion D as [|? ? DB DL]; subst.
    assert (WT : weight W l <= k).
    { change (b1 :: l) with ([b1] ++ l) in WL. rewrite weight_app in WL. unfold weight at 1 in WL. cbn [map list_sum fold_right] in WL. pose proof (HT b1 DB). lia. }
    assert (GO : forall d, exists fuel r, chop g frag fuel d l = Some r) by (intro d; eapply (IHK (match l with [] => 0 | b :: l => near g b l end)); [exact WT|destruct l; auto|exact DL]).
    destruct (b_nochop b1) eqn:NC; [destruct (GO (b1 :: done)) as (f & r & E); exists (S f), r; cbn [chop]; rewrite NC; exact E|].
    pose proof (scan_scanned g frag b1 l []) as SC. cbn [rev app] in SC. destruct (scan g frag b1 [] l) as [| |sub|rest] eqn:SE.
    + destruct (GO (b1 :: done)) as (f & r & E). exists (S f), r. cbn [chop]. rewrite NC, SE. exact E.
    + destruct (GO done) as (f & r & E). exists (S f), r. cbn [chop]. rewrite NC, SE. exact E.
    + destruct (GO (rev sub ++ done)) as (f & r & E). exists (S f), r. cbn [chop]. rewrite NC, SE. exact E.
    + inversion SC as [| | |x b2 y o EL GE NC2 DJ SU EQ]; subst.
      assert (DB2 : derived g bs0 b2) by (rewrite Forall_forall in DL; apply DL, in_or_app; right; left; reflexivity).
      destruct (bite_weight g bs0 W b2 b1 o EX HT DB2 DB SU) as (WO & DO).
      destruct (IHM done (b1 :: x ++ o ++ y)) as (f & r & E).
      * change (b1 :: x ++ o ++ y) with ([b1] ++ x ++ o ++ y). change (b1 :: x ++ b2 :: y) with ([b1] ++ x ++ [b2] ++ y) in WL. rewrite !weight_app in *. lia.
      * rewrite !near_app in *. assert (Z : near g b1 o = 0).
        { unfold near. pose proof (subtract_go_disjoint g b1 (b_sides b1) b2 [] o (fun s H => H) SU (Forall_nil _)) as DD. clear - DD.
          induction DD as [|c o H DD IH]; [reflexivity|]. cbn [filter]. rewrite H. cbn [negb]. exact IH. }
        rewrite Z. change (b2 :: y) with ([b2] ++ y) in NL. rewrite near_app in NL. unfold near in NL at 2. cbn [filter] in NL. rewrite DJ in NL. cbn [negb length] in NL. lia.
      * constructor; [exact DB|]. rewrite !Forall_app in *. destruct DL as (DX & DY). inversion DY; subst. auto.
      * exists (S f), r. cbn [chop]. rewrite NC, SE. exact E.
Qed.
