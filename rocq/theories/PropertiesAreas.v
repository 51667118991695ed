(* Statements: areas and area portals of Quake II maps (C105). *)
From Coq Require Import List Arith Bool Lia.
Import ListNotations.
From Verif Require Import AreasModel AreasProofs.

(** ** C105: areas *)

(** What holds of a map that is handed to EmitAreaPortals: portals join both ways, contents that are exactly
    AREAPORTAL include AREAPORTAL, and the tree has every leaf. *)
Definition map_ok (lf : nat -> aleaf) (nbr : nat -> list nat) (ls : list nat) : Prop :=
  (forall u w, In w (nbr u) -> In u (nbr w)) /\ (forall v, al_only (lf v) = true -> al_ap (lf v) = true) /\
  (forall v, eligible lf v -> In v ls).
(** A leaf of area [i] outside of area portals has a portal into a leaf of area portal [e]. *)
Definition bounds (lf : nat -> aleaf) (nbr : nat -> list nat) (area : nat -> nat) (e i : nat) : Prop :=
  exists u w, area u = i /\ al_ap (lf u) = false /\ In w (nbr u) /\ al_ap (lf w) = true /\ al_ent (lf w) = Some e.

Lemma emit_inv : forall lf nbr fuel ls nums st areas dps, map_ok lf nbr ls -> emit false lf nbr fuel ls nums = Some (st, areas, dps) ->
  exists c st1, inv lf nbr c st1 ls /\ st = set_areas lf ls st1 /\ (forall v, al_ap (lf v) = false -> a_area st v = a_area st1 v) /\
    let es := map (fun k => (nth k nums 0, a_pa st k)) (seq 0 (length nums)) in
    areas = fst (emit_areas (seq 1 c) es [(0, 0)] [(0, 0)]) /\ dps = snd (emit_areas (seq 1 c) es [(0, 0)] [(0, 0)]).
Proof.
  intros lf nbr fuel ls nums st areas dps (SY & ON & CV) H. unfold emit in H.
  destruct (find_areas lf nbr fuel ls (0, mkA (fun _ => 0) (fun _ => (0, 0)))) as [(c & st1)|] eqn:F; [|discriminate].
  injection H as <- <- <-. exists c, st1. split; [exact (find_inv lf nbr fuel SY ls 0 _ c st1 [] (inv_start lf nbr) F)|].
  split; [reflexivity|]. split; [|split; reflexivity].
  intros v A. apply set_areas_keep. left. destruct (al_only (lf v)) eqn:O; [|reflexivity]. rewrite (ON v O) in A. discriminate.
Qed.
Lemma emit_count : forall c es, length (fst (emit_areas (seq 1 c) es [(0, 0)] [(0, 0)])) = S c.
Proof.
  intros c es. assert (G : forall is areas dps, length (fst (emit_areas is es areas dps)) = length areas + length is).
  { induction is as [|i is IH]; intros areas dps; cbn [emit_areas fst]; [cbn; lia|]. cbv zeta. rewrite IH, app_length. cbn. lia. }
  rewrite G, seq_length. reflexivity.
Qed.

(** Outside of area portals a leaf has an area exactly if a path that crosses no area portal leads there from a
    leaf that entities reach; two leafs have the same area exactly if such a path joins them; the numbers are
    1, 2, .. without gaps. *)
Theorem C105_areas : forall lf nbr fuel ls nums st areas dps, map_ok lf nbr ls -> emit false lf nbr fuel ls nums = Some (st, areas, dps) ->
  (forall v, al_ap (lf v) = false -> (a_area st v <> 0 <-> exists u, eligible lf u /\ conn lf nbr u v)) /\
  (forall u v, al_ap (lf u) = false -> al_ap (lf v) = false -> a_area st u <> 0 -> (a_area st u = a_area st v <-> conn lf nbr u v)) /\
  (forall v, a_area st v < length areas) /\
  (forall i, 1 <= i < length areas -> exists u, eligible lf u /\ a_area st u = i).
Proof.
  intros lf nbr fuel ls nums st areas dps OK H. destruct (emit_inv lf nbr fuel ls nums st areas dps OK H) as (c & st1 & I & ST & EQ & AR & _).
  destruct OK as (SY & ON & CV). rewrite AR, emit_count. repeat split.
  - intro Q. rewrite (EQ v H0) in Q. assert (B : 1 <= a_area st1 v <= c) by (pose proof (in_le _ _ _ _ _ I v); lia).
    destruct (in_start _ _ _ _ _ I _ B) as (u & E1 & E2 & E3). exists u. split; [exact E1|]. apply (in_conn _ _ _ _ _ I); [exact E3|rewrite E3; lia].
  - intros (u & E & K). rewrite (EQ v H0). rewrite <- (in_closed _ _ _ _ _ I u v K). apply (in_seen _ _ _ _ _ I u); [apply CV, E|exact E].
  - intro Q. rewrite (EQ u H0) in *. rewrite (EQ v H1) in *. apply (in_conn _ _ _ _ _ I); assumption.
  - intro K. rewrite (EQ u H0), (EQ v H1). apply (in_closed _ _ _ _ _ I u v K).
  - intro v. destruct (al_only (lf v)) eqn:O.
    + destruct (al_ent (lf v)) as [e|] eqn:EN.
      * destruct (Nat.eq_dec (a_area st1 v) 0) as [Z|Z].
        -- destruct (in_dec Nat.eq_dec v ls) as [IN|IN].
           ++ rewrite ST, (set_areas_set lf v e ls st1 O EN Z IN). destruct (in_pa _ _ _ _ _ I e) as (_ & P & _).
              destruct (Nat.eq_dec (fst (a_pa st1 e)) 0) as [W|W]; [rewrite W; lia|]. destruct (P W). lia.
           ++ rewrite ST, set_areas_other by exact IN. lia.
        -- rewrite ST, set_areas_keep by (right; right; exact Z). pose proof (in_le _ _ _ _ _ I v). lia.
      * rewrite ST, set_areas_keep by (right; left; exact EN). pose proof (in_le _ _ _ _ _ I v). lia.
    + rewrite ST, set_areas_keep by (left; exact O). pose proof (in_le _ _ _ _ _ I v). lia.
  - intros i B. destruct (in_start _ _ _ _ _ I i) as (u & E1 & E2 & E3); [lia|]. exists u. split; [exact E1|]. rewrite EQ by apply E1. exact E3.
Qed.
Print Assumptions C105_areas.

(** The areas of an area portal are the two lowest numbered areas that border on it, 0 standing for none; a leaf
    whose contents are AREAPORTAL gets the first of them. *)
Theorem C105_portal_areas : forall lf nbr fuel ls nums st areas dps, map_ok lf nbr ls -> emit false lf nbr fuel ls nums = Some (st, areas, dps) ->
  (forall e, first_two (bounds lf nbr (a_area st) e) (length areas - 1) (a_pa st e)) /\
  (forall v e, In v ls -> al_only (lf v) = true -> al_ent (lf v) = Some e -> a_area st v = fst (a_pa st e)).
Proof.
  intros lf nbr fuel ls nums st areas dps OK H. destruct (emit_inv lf nbr fuel ls nums st areas dps OK H) as (c & st1 & I & ST & EQ & AR & _).
  assert (PA : a_pa st = a_pa st1) by (rewrite ST; apply set_areas_pa). split.
  - intro e. rewrite AR, emit_count, PA. replace (S c - 1) with c by lia.
    assert (T : forall i, 1 <= i -> (bounds lf nbr (a_area st) e i <-> touches lf nbr st1 e i)).
    { intros i B. split.
      - intros (u & w & E & A & R). exists u, w. split; [rewrite <- (EQ u A); exact E|exact R].
      - intros (u & w & E & R). assert (A : al_ap (lf u) = false) by (apply (in_free _ _ _ _ _ I u); lia). exists u, w. split; [rewrite (EQ u A); exact E|]. auto. }
    destruct (in_pa _ _ _ _ _ I e) as (P1 & P2 & P3 & P4). repeat split.
    + intros X i B W. apply (P1 X i B), T; [lia|exact W].
    + apply P2, H0.
    + destruct (P2 H0) as (_ & W & _). apply T; [lia|exact W].
    + intros i B W. destruct (P2 H0) as (_ & _ & V). apply (V i B), T; [lia|exact W].
    + intros X i B W. apply P3; auto. apply T; [lia|exact W].
    + apply P4, H0.
    + apply P4, H0.
    + apply P4, H0.
    + destruct (P4 H0) as (_ & _ & W & _). apply T; [lia|exact W].
    + intros i B W. destruct (P4 H0) as (_ & _ & _ & V). apply V; [exact B|]. apply T; [lia|exact W].
  - intros v e IN O EN. rewrite PA. assert (Z : a_area st1 v = 0).
    { destruct (Nat.eq_dec (a_area st1 v) 0) as [Z|Z]; [exact Z|]. pose proof (in_free _ _ _ _ _ I v Z) as X. destruct OK as (_ & ON & _). rewrite (ON v O) in X. discriminate. }
    rewrite ST, (set_areas_set lf v e ls st1 O EN Z IN). reflexivity.
Qed.
Print Assumptions C105_portal_areas.

(** The list of an area in the lump is: number and area on the other side for every area portal it borders on (if
    its two areas include it), in the order of the entities.  Area portal numbers are distinct. *)
Definition other (i : nat) (p : nat * nat) : nat := if fst p =? i then snd p else fst p.
Theorem C105_lump : forall lf nbr fuel ls nums st areas dps, map_ok lf nbr ls -> NoDup (filter (fun n => negb (n =? 0)) nums) ->
  emit false lf nbr fuel ls nums = Some (st, areas, dps) ->
  nth 0 areas (0, 0) = (0, 0) /\ nth 0 dps (0, 0) = (0, 0) /\
  forall i, 1 <= i < length areas ->
    firstn (snd (nth i areas (0, 0))) (skipn (fst (nth i areas (0, 0))) dps) =
    map (fun k => (nth k nums 0, other i (a_pa st k)))
      (filter (fun k => negb (nth k nums 0 =? 0) && ((fst (a_pa st k) =? i) || (snd (a_pa st k) =? i))) (seq 0 (length nums))).
Proof.
  intros lf nbr fuel ls nums st areas dps OK ND H. pose proof (C105_portal_areas lf nbr fuel ls nums st areas dps OK H) as (P & _).
  destruct (emit_inv lf nbr fuel ls nums st areas dps OK H) as (c & st1 & I & ST & EQ & AR & DP).
  set (es := map (fun k => (nth k nums 0, a_pa st k)) (seq 0 (length nums))) in *.
  assert (NUM : map fst es = nums).
  { unfold es. rewrite map_map. cbn [fst]. clear. induction nums as [|n l IH]; [reflexivity|]. cbn [length seq map nth]. f_equal.
    rewrite <- seq_shift, map_map. cbn [nth]. exact IH. }
  assert (FM : forall l : list aent, map fst (filter (fun e => negb (fst e =? 0)) l) = filter (fun n => negb (n =? 0)) (map fst l)).
  { induction l as [|e l IH]; [reflexivity|]. cbn [filter map]. destruct (fst e =? 0); cbn [negb map]; rewrite IH; reflexivity. }
  assert (NN : NoDup (map fst (filter (fun e => negb (fst e =? 0)) es))) by (rewrite FM, NUM; exact ND).
  assert (INJ : forall l : list aent, NoDup (map fst (filter (fun e => negb (fst e =? 0)) l)) -> forall a b, In a l -> In b l -> fst a <> 0 -> fst a = fst b -> a = b).
  { induction l as [|x l IH]; intros N a b IA IB NZ E; [destruct IA|]. cbn [filter] in N.
    assert (IX : forall y, In y l -> fst y <> 0 -> In (fst y) (map fst (filter (fun e => negb (fst e =? 0)) l))).
    { intros y J Y. apply in_map. apply filter_In. split; [exact J|]. apply negb_true_iff, Nat.eqb_neq, Y. }
    destruct (Nat.eqb_spec (fst x) 0) as [X|X]; cbn [negb] in N.
    - destruct IA as [->|IA]; [contradiction|]. destruct IB as [->|IB]; [congruence|]. apply IH; assumption.
    - cbn [map] in N. apply NoDup_cons_iff in N. destruct N as (N1 & N2). destruct IA as [->|IA], IB as [->|IB].
      + reflexivity.
      + exfalso. apply N1. rewrite E. apply IX; [exact IB|congruence].
      + exfalso. apply N1. rewrite <- E. apply IX; assumption.
      + apply IH; assumption. }
  assert (EO : ents_ok es).
  { split; [|apply INJ, NN]. intros e IE Q. apply in_map_iff in IE. destruct IE as (k & <- & _). cbn [fst snd] in *. destruct (P k) as (_ & _ & _ & P4).
    destruct (Nat.eq_dec (snd (a_pa st k)) 0) as [Z|Z]; [exact Z|]. destruct (P4 Z) as (_ & B & _). lia. }
  destruct (emit_areas_slices es c EO NN) as (L & A0 & D0 & SL). rewrite <- AR, <- DP in *. split; [exact A0|]. split; [exact D0|].
  intros i B. rewrite SL by lia. unfold es, slice. clear. induction (seq 0 (length nums)) as [|k l IH]; [reflexivity|]. cbn [map flat_map filter fst snd].
  destruct (nth k nums 0 =? 0); cbn [negb andb]; [exact IH|]. destruct ((fst (a_pa st k) =? i) || (snd (a_pa st k) =? i)) eqn:T; [|exact IH].
  cbn [app map]. f_equal; [|exact IH]. unfold dp_of, other. cbn [fst snd]. destruct (fst (a_pa st k) =? i); [reflexivity|]. cbn [orb] in T. rewrite T. reflexivity.
Qed.
Print Assumptions C105_lump.

(** If one area lists a portal to another, the other lists the same portal back. *)
Theorem C105_symmetric : forall lf nbr fuel ls nums st areas dps, map_ok lf nbr ls -> NoDup (filter (fun n => negb (n =? 0)) nums) ->
  emit false lf nbr fuel ls nums = Some (st, areas, dps) ->
  forall i j n, 1 <= i < length areas -> 1 <= j < length areas ->
    In (n, j) (firstn (snd (nth i areas (0, 0))) (skipn (fst (nth i areas (0, 0))) dps)) ->
    In (n, i) (firstn (snd (nth j areas (0, 0))) (skipn (fst (nth j areas (0, 0))) dps)).
Proof.
  intros lf nbr fuel ls nums st areas dps OK ND H i j n BI BJ IN. pose proof (C105_portal_areas lf nbr fuel ls nums st areas dps OK H) as (P & _).
  destruct (C105_lump lf nbr fuel ls nums st areas dps OK ND H) as (_ & _ & SL).
  rewrite (SL i BI) in IN. rewrite (SL j BJ). apply in_map_iff in IN. destruct IN as (k & E & K). injection E as E1 E2. apply in_map_iff. exists k.
  apply filter_In in K. destruct K as (K1 & K2). apply andb_true_iff in K2. destruct K2 as (K2 & K3). destruct (P k) as (_ & _ & _ & P4).
  assert (D : fst (a_pa st k) = snd (a_pa st k) -> snd (a_pa st k) = 0) by (intro Q; destruct (Nat.eq_dec (snd (a_pa st k)) 0) as [Z|Z]; [exact Z|destruct (P4 Z) as (_ & B & _); lia]).
  unfold other in *. rewrite filter_In, K2. destruct (a_pa st k) as [x y]. cbn [fst snd] in *.
  destruct (Nat.eqb_spec x i) as [X|X].
  - subst. rewrite Nat.eqb_refl, orb_true_r. destruct (Nat.eqb_spec i j) as [Q|Q]; [exfalso; specialize (D Q); lia|]. auto.
  - cbn [orb] in K3. apply Nat.eqb_eq in K3. subst. rewrite Nat.eqb_refl. auto.
Qed.
Print Assumptions C105_symmetric.

(** The search ends: its depth is at most the number of leafs. *)
Theorem C105_ends : forall lf nbr n fuel ls nums, (forall u w, In w (nbr u) -> w < n) -> (forall v, In v ls -> v < n) -> n < fuel ->
  exists r, emit false lf nbr fuel ls nums = Some r.
Proof.
  intros lf nbr n fuel ls nums B1 B2 L. unfold emit.
  destruct (find_ends lf nbr fuel n B1 L ls (0, mkA (fun _ => 0) (fun _ => (0, 0))) B2) as ((c & st) & ->). eauto.
Qed.
Print Assumptions C105_ends.

(** A map that leaks, or a region, gets one empty area and no portals. *)
Theorem C105_leaked : forall lf nbr fuel ls nums, exists st, emit true lf nbr fuel ls nums = Some (st, [(0, 0); (0, 0)], [(0, 0)]) /\ forall v, a_area st v = 0.
Proof. intros. eexists. split; reflexivity. Qed.
Print Assumptions C105_leaked.

(** ** A corridor 0 - 1 - 2 - 3 - 4 of rooms 0, 2, 4 and area portals 1 (entity 0) and 3 (entity 1) *)
Definition corr_nbr (v : nat) : list nat := nth v [[1]; [0; 2]; [1; 3]; [2; 4]; [3]] [].
Definition room := mkAL false false None false true.
Definition corr_lf (v : nat) : aleaf :=
  match v with 1 => mkAL true true (Some 0) false true | 3 => mkAL true true (Some 1) false true | 0 | 2 | 4 => room | _ => mkAL false false None true false end.
Example C105_nontrivial : exists st areas dps, emit false corr_lf corr_nbr 6 [0; 1; 2; 3; 4] [1; 2] = Some (st, areas, dps) /\
  map (a_area st) [0; 1; 2; 3; 4] = [1; 1; 2; 2; 3] /\ map (a_pa st) [0; 1] = [(1, 2); (2, 3)] /\
  areas = [(0, 0); (1, 1); (2, 2); (4, 1)] /\ dps = [(0, 0); (1, 2); (1, 1); (2, 3); (2, 2)] /\ map_ok corr_lf corr_nbr [0; 1; 2; 3; 4].
Proof.
  eexists _, _, _. split; [vm_compute; reflexivity|]. split; [vm_compute; reflexivity|]. split; [vm_compute; reflexivity|]. split; [reflexivity|]. split; [reflexivity|].
  split; [|split].
  - intros u w H. unfold corr_nbr in *. do 5 (destruct u as [|u]; [cbn [nth In] in H; decompose [or] H; subst; cbn; tauto|]). destruct u; destruct H.
  - intros v H. do 4 (destruct v as [|v]; [vm_compute in H |- *; congruence|]). vm_compute in H. destruct v; discriminate.
  - intros v (H & _). do 5 (destruct v as [|v]; [cbn; tauto|]). discriminate.
Qed.

(** The contents of a leaf that is an area portal and something else at the same time (a detail, a mist) stop the
    flood, but are not exactly AREAPORTAL; such a leaf stays in no area even though its portal joins two. *)
Theorem C105_mixed_refuted : exists lf nbr ls st areas dps, map_ok lf nbr ls /\ emit false lf nbr 6 ls [1] = Some (st, areas, dps) /\
  al_ap (lf 1) = true /\ al_ent (lf 1) = Some 0 /\ al_occ (lf 1) = true /\ a_pa st 0 = (1, 2) /\ a_area st 1 = 0.
Proof.
  exists (fun v => match v with 1 => mkAL true false (Some 0) false true | 0 | 2 => room | _ => mkAL false false None true false end),
         (fun v => nth v [[1]; [0; 2]; [1]] []), [0; 1; 2].
  eexists _, _, _. split; [|split; [vm_compute; reflexivity|repeat split; vm_compute; reflexivity]].
  split; [|split].
  - intros u w H. do 3 (destruct u as [|u]; [cbn [nth In] in H; decompose [or] H; subst; cbn; tauto|]). destruct u; destruct H.
  - intros v H. do 3 (destruct v as [|v]; [vm_compute in H; discriminate|]). discriminate.
  - intros v (H & _). do 3 (destruct v as [|v]; [cbn; tauto|]). discriminate.
Qed.
Print Assumptions C105_mixed_refuted.

(** A third area that borders on an area portal gets no way through it: its list is empty. *)
Theorem C105_third_refuted : exists lf nbr ls st areas dps, map_ok lf nbr ls /\ emit false lf nbr 6 ls [1] = Some (st, areas, dps) /\
  bounds lf nbr (a_area st) 0 3 /\ nth 3 areas (0, 0) = (3, 0) /\ dps = [(0, 0); (1, 2); (1, 1)].
Proof.
  exists (fun v => match v with 1 => mkAL true true (Some 0) false true | 0 | 2 | 3 => room | _ => mkAL false false None true false end),
         (fun v => nth v [[1]; [0; 2; 3]; [1]; [1]] []), [0; 1; 2; 3].
  eexists _, _, _. split; [|split; [vm_compute; reflexivity|split; [|split; reflexivity]]].
  - split; [|split].
    + intros u w H. do 4 (destruct u as [|u]; [cbn [nth In] in H; decompose [or] H; subst; cbn; tauto|]). destruct u; destruct H.
    + intros v H. do 4 (destruct v as [|v]; [vm_compute in H |- *; congruence|]). discriminate.
    + intros v (H & _). do 4 (destruct v as [|v]; [cbn; tauto|]). discriminate.
  - exists 3, 1. vm_compute. tauto.
Qed.
Print Assumptions C105_third_refuted.
