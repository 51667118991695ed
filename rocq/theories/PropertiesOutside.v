(* Outside filling, leaks and brush side visibility: properties C31-C34, C68, C69. *)
From Coq Require Import List Arith NArith ZArith Bool Lia.
Import ListNotations.
From Verif Require Import TreeModel OutsideModel OutsideProofs.

(** ** C31 *)
(** [touching side t]: the leafs reached by going to the side the point is on, and to both on a plane. *)
Theorem C31_point_in_leaf : forall P (side : P -> comparison) kind prefer t,
  In (point_in_leaf side kind prefer t) (touching side t) /\
  ((exists l, In l (touching side t) /\ kind l = prefer) -> kind (point_in_leaf side kind prefer t) = prefer).
Proof. exact point_in_leaf_spec. Qed.
Print Assumptions C31_point_in_leaf.

Example C31_nontrivial :
  let t := Node 0 (Node 1 (Leaf 0) (Leaf 1)) (Node 2 (Leaf 2) (Leaf 3)) in
  let side := fun p => if p =? 1 then Gt else Eq in
  touching side t = [0; 2; 3] /\ point_in_leaf side (fun l => l =? 3) true t = 3 /\ point_in_leaf side (fun l => l =? 0) false t = 2.
Proof. repeat split. Qed.

(* ------------------------------------------------------------------------------------------- *)

(** An open portal: on a node, between two leafs that do not seal. *)
Definition open_portal {C} (seals : C -> bool) (contents : nat -> C) (g : pgraph) (p : nat) : Prop :=
  gp_on (pg_portal g p) = true /\ exists a b, gp_n0 (pg_portal g p) = Some a /\ gp_n1 (pg_portal g p) = Some b /\
  seals (contents a) = false /\ seals (contents b) = false.

Lemma open_passable : forall C (seals : C -> bool) contents g p,
  passable seals contents (pg_portal g p) = true <-> open_portal seals contents g p.
Proof.
  intros C seals contents g p. unfold passable, open_portal, seals_at. split.
  - intro H. apply andb_true_iff in H. destruct H as [H1 H2]. apply andb_true_iff in H1. destruct H1 as [H0 H1].
    split; [exact H0|]. destruct (gp_n0 (pg_portal g p)) as [a|]; [|discriminate]. destruct (gp_n1 (pg_portal g p)) as [b|]; [|discriminate].
    exists a, b. apply negb_true_iff in H1. apply negb_true_iff in H2. auto.
  - intros [H [a [b [A [B [SA SB]]]]]]. rewrite H, A, B, SA, SB. reflexivity.
Qed.

Lemma path_iff : forall (ok ok' : nat -> Prop) g, (forall p, ok p <-> ok' p) -> forall ps v w, path ok g v ps w <-> path ok' g v ps w.
Proof.
  intros ok ok' g H. induction ps as [|p ps IH]; intros v w; cbn [path]; [reflexivity|].
  split; intros [A [u [B D]]]; (split; [apply H; exact A|exists u; split; [exact B|apply IH; exact D]]).
Qed.

(** A way of open portals from leaf [v] to leaf [w]. *)
Definition way {C} (seals : C -> bool) contents g v ps w : Prop := path (open_portal seals contents g) g v ps w.
Definition connected {C} (seals : C -> bool) contents g v w : Prop := exists ps, way seals contents g v ps w.

(** ** C32 *)
Theorem C32_flood_from_occupied : forall C (seals : C -> bool) contents g starts, graph_ok g ->
  (forall v, In v starts -> v < pg_leafs g) ->
  exists occ, flood_occupied (passable seals contents) g starts = Some occ /\ forall v,
  (occ v = 0 <-> ~ exists s, In s starts /\ connected seals contents g s v) /\
  (forall d, occ v = S d <->
     (exists s ps, In s starts /\ way seals contents g s ps v /\ length ps = d) /\
     (forall s ps, In s starts -> way seals contents g s ps v -> d <= length ps)).
Proof.
  intros C seals contents g starts GO HS.
  destruct (flood_occupied_spec (passable seals contents) g GO (passable_on C seals contents) starts HS) as [occ [E H]].
  exists occ. split; [exact E|]. intro v. pose proof (path_iff _ _ g (open_passable C seals contents g)) as PI.
  unfold connected, way. destruct (H v) as [[Z U]|[d [D [[s [ps [S1 [S2 S3]]]] N]]]].
  - rewrite Z. split.
    + split; [|reflexivity]. intros _ [s [S1 [ps S2]]]. apply (U s ps S1). apply PI. exact S2.
    + intro d. split; [discriminate|]. intros [[s [ps [S1 [S2 _]]]] _]. exfalso. apply (U s ps S1). apply PI. exact S2.
  - rewrite D. split.
    + split; [discriminate|]. intro X. exfalso. apply X. exists s. split; [exact S1|]. exists ps. apply PI. exact S3.
    + assert (N' : forall s ps, In s starts -> path (open_portal seals contents g) g s ps v -> d <= length ps).
      { intros s' ps' I1 I2. apply (N s' ps' I1). apply PI. exact I2. }
      intro d'. split.
      * intro E'. injection E' as <-. split; [|exact N']. exists s, ps. split; [exact S1|]. split; [apply PI; exact S3|exact S2].
      * intros [[s' [ps' [T1 [T2 T3]]]] T4]. f_equal. apply Nat.le_antisymm.
        -- rewrite <- T3. apply (N' s' ps' T1 T2).
        -- rewrite <- S2. apply (T4 s ps S1). apply PI. exact S3.
Qed.
Print Assumptions C32_flood_from_occupied.

Theorem C32_flood_from_void : forall C (seals : C -> bool) contents g f, graph_ok g -> f < pg_leafs g ->
  exists outd, flood_void (passable seals contents) g f = Some outd /\ forall v,
  (outd v = (-1)%Z <-> ~ connected seals contents g f v) /\
  (forall d, outd v = Z.of_nat d <->
     (exists ps, way seals contents g f ps v /\ length ps = d) /\ (forall ps, way seals contents g f ps v -> d <= length ps)).
Proof.
  intros C seals contents g f GO HF.
  destruct (flood_void_spec (passable seals contents) g GO (passable_on C seals contents) f HF) as [outd [E H]].
  exists outd. split; [exact E|]. intro v. pose proof (path_iff _ _ g (open_passable C seals contents g)) as PI.
  unfold connected, way. destruct (H v) as [[Z U]|[d [D [[s [ps [[<-|[]] [S2 S3]]]] N]]]].
  - rewrite Z. split.
    + split; [|reflexivity]. intros _ [ps S2]. apply (U f ps (or_introl eq_refl)). apply PI. exact S2.
    + intro d. split; [lia|]. intros [[ps [S2 _]] _]. exfalso. apply (U f ps (or_introl eq_refl)). apply PI. exact S2.
  - rewrite D. split.
    + split; [lia|]. intro X. exfalso. apply X. exists ps. apply PI. exact S3.
    + assert (N' : forall ps, path (open_portal seals contents g) g f ps v -> d <= length ps).
      { intros ps' I2. apply (N f ps' (or_introl eq_refl)). apply PI. exact I2. }
      intro d'. split.
      * intro E'. assert (d = d') by lia. subst d'. split; [|exact N']. exists ps. split; [apply PI; exact S3|exact S2].
      * intros [[ps' [T2 T3]] T4]. f_equal. apply Nat.le_antisymm.
        -- rewrite <- T3. apply (N' ps' T2).
        -- rewrite <- S2. apply T4. apply PI. exact S3.
Qed.
Print Assumptions C32_flood_from_void.

(* ------------------------------------------------------------------------------------------- *)

(** Entity [e] (not at the origin, not exempt) lies in the leaf [v], which does not seal. *)
Definition entity_in {C P} (seals : C -> bool) (contents : nat -> C) prefer (t : tree P nat) (e : fent P) (v : nat) : Prop :=
  fe_zero _ e = false /\ fe_nofill _ e = false /\
  point_in_leaf (fe_side P e) (fun u => seals (contents u)) prefer t = v /\ seals (contents v) = false.

Lemma counts_in : forall C P (seals : C -> bool) contents prefer (t : tree P nat) e v,
  (counts seals contents prefer t e /\ point_in_leaf (fe_side P e) (fun u => seals (contents u)) prefer t = v) <->
  entity_in seals contents prefer t e v.
Proof. intros. unfold counts, entity_in. split; [intros [[A [B D]] <-]; auto|]. intros [A [B [<- D]]]. auto. Qed.

Definition leak {C P} seals contents prefer g (t : tree P nat) (es : list (fent P)) (f : nat) : Prop :=
  exists e v, In e es /\ entity_in (C := C) seals contents prefer t e v /\ connected seals contents g v f.

Lemma fill_outside_all : forall C P (seals : C -> bool) solid inside prefer g (t : tree P nat) es contents f,
  graph_ok g -> (forall v, In v (tleafs t) -> v < pg_leafs g) -> fill_node g = Some f ->
  (inside = false -> seals (contents f) = false) ->
  match fill_outside seals solid inside prefer g t es contents with
  | F_empty => forall e v, In e es -> ~ entity_in seals contents prefer t e v
  | F_leak i line => exists e v, 1 <= i /\ nth_error es (i - 1) = Some e /\ entity_in seals contents prefer t e v /\
      way seals contents g v line f /\
      forall e' v' ps, In e' es -> entity_in seals contents prefer t e' v' -> way seals contents g v' ps f -> length line <= length ps
  | F_filled c' => (exists e v, In e es /\ entity_in seals contents prefer t e v) /\ ~ leak seals contents prefer g t es f /\
      forall v, v < pg_leafs g ->
      let void := if inside then ~ exists e u, In e es /\ entity_in seals contents prefer t e u /\ connected seals contents g u v
                  else connected seals contents g f v in
      (seals (contents v) = false -> void -> c' v = solid) /\
      (seals (contents v) = true \/ ~ void -> c' v = contents v)
  | _ => False
  end.
Proof.
  intros C P seals solid inside prefer g t es contents f GO TL FN SF. unfold fill_outside.
  set (occupant := mark_occupied seals contents prefer t 1 es (fun _ => None)).
  set (starts := find_occupied t occupant).
  pose proof (starts_spec seals contents prefer t es) as ST. fold occupant in ST. fold starts in ST.
  assert (ST' : forall v, In v starts <-> exists e, In e es /\ entity_in seals contents prefer t e v).
  { intro v. rewrite ST. split; intros [e [A B]]; exists e; (split; [exact A|]); apply counts_in; exact B. }
  clear ST.
  assert (HS : forall v, In v starts -> v < pg_leafs g) by (intros v I; apply TL; unfold starts, find_occupied in I; apply filter_In in I; tauto).
  assert (OS : forall v i, occupant v = Some i -> 1 <= i /\ exists e, nth_error es (i - 1) = Some e /\ entity_in seals contents prefer t e v).
  { intros v i E. destruct (occupant_spec seals contents prefer t es v i E) as [A [e [B D]]]. split; [exact A|]. exists e. split; [exact B|]. apply counts_in. exact D. }
  assert (SO : forall v, In v starts -> exists i, occupant v = Some i).
  { intros v I. unfold starts, find_occupied in I. apply filter_In in I. destruct I as [_ I]. destruct (occupant v); [eauto|discriminate]. }
  clearbody starts occupant. destruct starts as [|s0 ss].
  - intros e v I EI. apply (proj2 (ST' v)). eauto.
  - assert (S0 : exists e v, In e es /\ entity_in seals contents prefer t e v).
    { destruct (proj1 (ST' s0) (or_introl eq_refl)) as [e [A B]]. eauto. }
    set (starts := s0 :: ss) in *. clearbody starts. clear s0 ss.
    pose proof (path_iff _ _ g (open_passable C seals contents g)) as PI.
    assert (FL : f < pg_leafs g) by (destruct (fill_node_ok g GO) as [f' [F1 F2]]; congruence).
    assert (PR : forall ps u v, u < pg_leafs g -> path (fun p => passable seals contents (pg_portal g p) = true) g u ps v ->
       v < pg_leafs g /\ path (fun p => passable seals contents (pg_portal g p) = true) g v (rev ps) u)
      by (exact (path_rev (passable seals contents) g GO (passable_on C seals contents))).
    destruct inside.
    + destruct (flood_occupied_spec (passable seals contents) g GO (passable_on C seals contents) starts HS) as [occ [E H]].
      rewrite E, FN. destruct (H f) as [[Z U]|[d [D N]]].
      * rewrite Z. cbn [Nat.ltb Nat.leb]. split; [exact S0|]. split.
        -- intros [e [v [A [B [ps W]]]]]. apply (U v ps); [apply ST'; eauto|]. apply PI. exact W.
        -- intros v VL. cbv zeta. unfold out_leafs. destruct (H v) as [[Zv Uv]|[dv [Dv [[s [ps [P1 [_ P2]]]] _]]]].
           ++ rewrite Zv. cbn [Nat.ltb Nat.leb]. destruct (seals (contents v)); split; auto; try discriminate.
              intros [X|X]; [discriminate|]. exfalso. apply X. intros [e [u [A [B [ps W]]]]]. apply (Uv u ps); [apply ST'; eauto|]. apply PI. exact W.
           ++ rewrite Dv. cbn [Nat.ltb Nat.leb]. split; [|auto]. intros _ X. exfalso. apply X.
              apply ST' in P1. destruct P1 as [e [A B]]. exists e, s. split; [exact A|]. split; [exact B|]. exists ps. apply PI. exact P2.
      * rewrite D. cbn [Nat.ltb Nat.leb].
        assert (VAL : forall v, ((Z.of_nat (occ v) < 1)%Z /\ unreachable (passable seals contents) g starts v) \/
          exists d0, Z.of_nat (occ v) = (1 + Z.of_nat d0)%Z /\ nearest (passable seals contents) g starts v d0).
        { intro v. destruct (H v) as [[Zv Uv]|[dv [Dv Nv]]]; [left; split; [lia|exact Uv]|right; exists dv; split; [lia|exact Nv]]. }
        destruct (descend_spec (passable seals contents) g GO (passable_on C seals contents) starts HS (fun v => Z.of_nat (occ v)) 1 VAL (S d) f d FL) as [line [e [E1 [E2 [E3 E4]]]]]; [lia|lia|].
        rewrite E1. destruct (SO e E2) as [i OI]. rewrite OI. destruct (OS e i OI) as [L1 [en [L2 L3]]].
        exists en, e. split; [exact L1|]. split; [exact L2|]. split; [exact L3|]. split.
        -- apply PI. apply PR; [exact FL|exact E3].
        -- intros e' v' ps A B W. rewrite rev_length, E4. destruct N as [_ N]. apply (N v'); [apply ST'; eauto|]. apply PI. exact W.
    + rewrite FN, (SF eq_refl).
      destruct (flood_void_spec (passable seals contents) g GO (passable_on C seals contents) f FL) as [outd [E H]].
      rewrite E. pose proof (best_leak_spec outd starts None None eq_refl) as BL.
      assert (HF : forall v, In v [f] -> v < pg_leafs g) by (intros v [<-|[]]; exact FL).
      destruct (best_leak outd starts None None) as [b|].
      * destruct BL as [[B1|B1] [B2 [B3 _]]]; [|discriminate]. destruct (SO b B1) as [i OI]. rewrite OI.
        destruct (H b) as [[Zb _]|[d [Db Nb]]]; [contradiction|].
        assert (VAL : forall v, ((outd v < 0)%Z /\ unreachable (passable seals contents) g [f] v) \/
          exists d0, outd v = (0 + Z.of_nat d0)%Z /\ nearest (passable seals contents) g [f] v d0).
        { intro v. destruct (H v) as [[Zv Uv]|[dv [Dv Nv]]]; [left; split; [lia|exact Uv]|right; exists dv; split; [lia|exact Nv]]. }
        destruct (descend_spec (passable seals contents) g GO (passable_on C seals contents) [f] HF outd 0 VAL (Z.to_nat (outd b)) b d (HS b B1)) as [line [e [E1 [E2 [E3 E4]]]]]; [lia|lia|].
        rewrite E1. destruct E2 as [<-|[]]. destruct (OS b i OI) as [L1 [en [L2 L3]]].
        exists en, b. split; [exact L1|]. split; [exact L2|]. split; [exact L3|]. split; [apply PI; exact E3|].
        intros e' v' ps A B W. rewrite E4.
        assert (V' : In v' starts) by (apply ST'; eauto). apply PI in W. destruct (PR ps v' f (HS v' V') W) as [_ W'].
        destruct (H v') as [[Zv Uv]|[dv [Dv Nv]]]; [exfalso; apply (Uv f (rev ps) (or_introl eq_refl) W')|].
        destruct Nv as [_ Nv]. specialize (Nv f (rev ps) (or_introl eq_refl) W'). rewrite rev_length in Nv.
        specialize (B3 v' V'). lia.
      * destruct BL as [_ BL]. split; [exact S0|]. split.
        -- intros [e [v [A [B [ps W]]]]]. assert (V' : In v starts) by (apply ST'; eauto). apply PI in W. destruct (PR ps v f (HS v V') W) as [_ W'].
           destruct (H v) as [[Zv Uv]|[dv [Dv Nv]]]; [exfalso; apply (Uv f (rev ps) (or_introl eq_refl) W')|]. specialize (BL v V'). lia.
        -- intros v VL. cbv zeta. unfold out_leafs. destruct (H v) as [[Zv Uv]|[dv [Dv [[s [ps [P1 [_ P2]]]] _]]]].
           ++ rewrite Zv. cbn [Z.eqb Pos.eqb]. split; [|auto]. intros _ [ps W]. exfalso. apply (Uv f ps (or_introl eq_refl)). apply PI. exact W.
           ++ rewrite Dv. destruct (Z.eqb_spec (Z.of_nat dv) (-1)); [lia|]. destruct P1 as [<-|[]].
              destruct (seals (contents v)); split; auto; try discriminate. intros [X|X]; [discriminate|]. exfalso. apply X. exists ps. apply PI. exact P2.
Qed.

(** ** C33 *)
Theorem C33_fill_exact : forall C P (seals : C -> bool) solid inside prefer g (t : tree P nat) es contents f,
  graph_ok g -> (forall v, In v (tleafs t) -> v < pg_leafs g) -> fill_node g = Some f ->
  (inside = false -> seals (contents f) = false) ->
  match fill_outside seals solid inside prefer g t es contents with
  | F_empty => forall e v, In e es -> ~ entity_in seals contents prefer t e v
  | F_leak _ _ => leak seals contents prefer g t es f
  | F_filled c' => (exists e v, In e es /\ entity_in seals contents prefer t e v) /\ ~ leak seals contents prefer g t es f /\
      forall v, v < pg_leafs g ->
      let void := if inside then ~ exists e u, In e es /\ entity_in seals contents prefer t e u /\ connected seals contents g u v
                  else connected seals contents g f v in
      (seals (contents v) = false -> void -> c' v = solid) /\
      (seals (contents v) = true \/ ~ void -> c' v = contents v)
  | _ => False
  end.
Proof.
  intros C P seals solid inside prefer g t es contents f GO TL FN SF.
  pose proof (fill_outside_all C P seals solid inside prefer g t es contents f GO TL FN SF) as H.
  destruct (fill_outside seals solid inside prefer g t es contents); auto.
  destruct H as [e [v [_ [A [B [D _]]]]]]. exists e, v. split; [eapply nth_error_In; exact A|]. split; [exact B|]. exists line. exact D.
Qed.
Print Assumptions C33_fill_exact.

(** ** C34 *)
Theorem C34_leak_line : forall C P (seals : C -> bool) solid inside prefer g (t : tree P nat) es contents f,
  graph_ok g -> (forall v, In v (tleafs t) -> v < pg_leafs g) -> fill_node g = Some f ->
  (inside = false -> seals (contents f) = false) -> leak seals contents prefer g t es f ->
  exists i line e v, fill_outside seals solid inside prefer g t es contents = F_leak i line /\
    1 <= i /\ nth_error es (i - 1) = Some e /\ entity_in seals contents prefer t e v /\
    way seals contents g v line f /\
    forall e' v' ps, In e' es -> entity_in seals contents prefer t e' v' -> way seals contents g v' ps f -> length line <= length ps.
Proof.
  intros C P seals solid inside prefer g t es contents f GO TL FN SF LK.
  pose proof (fill_outside_all C P seals solid inside prefer g t es contents f GO TL FN SF) as H.
  destruct (fill_outside seals solid inside prefer g t es contents) as [| | | |i line|c']; try contradiction.
  - destruct LK as [e [v [A [B _]]]]. exfalso. apply (H e v A B).
  - destruct H as [e [v H]]. exists i, line, e, v. split; [reflexivity|exact H].
  - destruct H as [_ [H _]]. contradiction.
Qed.
Print Assumptions C34_leak_line.

(** A corridor of four leafs 0-1-2-3 with the void at leaf 3; 9 stands for solid contents. *)
Definition ex_graph : pgraph := mkPG 4
  (fun v => nth v [[0]; [1; 0]; [2; 1]; [3; 2]] [])
  (fun p => nth p [mkGP true (Some 0) (Some 1) 0; mkGP true (Some 2) (Some 1) 1; mkGP true (Some 2) (Some 3) 2; mkGP false None (Some 3) 3] (mkGP false None None 0))
  [3].
Definition ex_tree4 : tree nat nat := Node 0 (Node 1 (Leaf 0) (Leaf 1)) (Node 2 (Leaf 2) (Leaf 3)).
Definition ex_ents : list (fent nat) := [mkFE _ true false (fun _ => Lt); mkFE _ false false (fun p => Gt)].
Definition ex_seals (c : nat) : bool := c =? 9.

Lemma ex_graph_ok : graph_ok ex_graph.
Proof.
  split.
  - intros v p L I O. cbn in L. assert (V : v = 0 \/ v = 1 \/ v = 2 \/ v = 3) by lia.
    destruct V as [-> | [-> | [-> | ->]]]; cbn in I.
    + destruct I as [<-|[]]. exists 1. cbn. intuition lia.
    + destruct I as [<-|[<-|[]]]; [exists 2|exists 0]; cbn; intuition lia.
    + destruct I as [<-|[<-|[]]]; [exists 3|exists 1]; cbn; intuition lia.
    + destruct I as [<-|[<-|[]]]; [discriminate|exists 2]; cbn; intuition lia.
  - exists 3, [], 3. cbn. intuition lia.
Qed.

Example C32_nontrivial : exists occ outd, flood_occupied (passable ex_seals (fun _ => 0)) ex_graph [0; 3] = Some occ /\
  map occ (seq 0 4) = [1; 2; 2; 1] /\ flood_void (passable ex_seals (fun v => if v =? 1 then 9 else 0)) ex_graph 3 = Some outd /\
  map outd (seq 0 4) = [-1; -1; 1; 0]%Z.
Proof. eexists. eexists. split; [reflexivity|]. split; [reflexivity|]. split; reflexivity. Qed.

Example C33_nontrivial : exists c, fill_outside ex_seals 9 true true ex_graph ex_tree4 ex_ents (fun v => if v =? 1 then 9 else 0) = F_filled c /\
  map c (seq 0 4) = [0; 9; 9; 9].
Proof. eexists. split; reflexivity. Qed.

Example C34_nontrivial : fill_outside ex_seals 9 true true ex_graph ex_tree4 ex_ents (fun _ => 0) = F_leak 2 [0; 1; 2] /\
  fill_outside ex_seals 9 false true ex_graph ex_tree4 ex_ents (fun _ => 0) = F_leak 2 [0; 1; 2].
Proof. split; reflexivity. Qed.

(** ** C68: detail filling. *)
Theorem C68_detail_fill : forall C P (seals dseals : C -> bool) dsolid prefer g (t : tree P nat) es contents,
  graph_ok g -> (forall v, In v (tleafs t) -> v < pg_leafs g) ->
  match fill_detail seals dseals dsolid prefer g t es contents with
  | F_empty => forall e v, In e es -> ~ entity_in seals contents prefer t e v
  | F_filled c' => forall v,
      let seen := exists e u, In e es /\ entity_in seals contents prefer t e u /\ connected dseals contents g u v in
      (dseals (contents v) = false -> ~ seen -> c' v = dsolid) /\ (dseals (contents v) = true \/ seen -> c' v = contents v)
  | _ => False
  end.
Proof.
  intros C P seals dseals dsolid prefer g t es contents GO TL. unfold fill_detail.
  set (starts := find_occupied t _).
  pose proof (starts_spec seals contents prefer t es) as ST. fold starts in ST.
  assert (ST' : forall v, In v starts <-> exists e, In e es /\ entity_in seals contents prefer t e v).
  { intro v. rewrite ST. split; intros [e [A B]]; exists e; (split; [exact A|]); apply counts_in; exact B. }
  assert (HS : forall v, In v starts -> v < pg_leafs g) by (intros v I; apply TL; unfold starts, find_occupied in I; apply filter_In in I; tauto).
  clear ST. clearbody starts. destruct starts as [|s0 ss].
  - intros e v I EI. apply (proj2 (ST' v)). eauto.
  - set (starts := s0 :: ss) in *. clearbody starts.
    pose proof (path_iff _ _ g (open_passable C dseals contents g)) as PI.
    destruct (flood_occupied_spec (passable dseals contents) g GO (passable_on C dseals contents) starts HS) as [occ [E H]].
    rewrite E. intro v. cbv zeta. unfold out_leafs. destruct (H v) as [[Zv Uv]|[dv [Dv [[s [ps [P1 [_ P2]]]] _]]]].
    + rewrite Zv. cbn [Nat.ltb Nat.leb]. destruct (dseals (contents v)); split; auto; try discriminate.
      intros [X|[e [u [A [B [ps W]]]]]]; [discriminate|]. exfalso. apply (Uv u ps); [apply ST'; eauto|]. apply PI. exact W.
    + rewrite Dv. cbn [Nat.ltb Nat.leb]. split; [|auto]. intros _ X. exfalso. apply X.
      apply ST' in P1. destruct P1 as [e [A B]]. exists e, s. split; [exact A|]. split; [exact B|]. exists ps. apply PI. exact P2.
Qed.
Print Assumptions C68_detail_fill.

Example C68_nontrivial : exists c, fill_detail ex_seals (fun c => 8 <=? c) 8 true ex_graph ex_tree4 ex_ents (fun v => if v =? 2 then 8 else v) = F_filled c /\
  map c (seq 0 4) = [0; 1; 8; 8].
Proof. eexists. split; reflexivity. Qed.

(** ** C69: which map brush sides are visible afterwards. *)
Theorem C69_visible_sides : forall C P same hint (dseals : C -> bool) contents g orig (t : tree P nat) brushes vis k,
  graph_ok g -> (forall v, In v (tleafs t) -> v < pg_leafs g) ->
  (exists b s, In b brushes /\ In s b /\ bs_source s = Some k) ->
  (mark_visible same dseals contents g orig t (mark_invisible hint brushes vis) k = true <->
   hint k = true \/
   exists v p w b s, In v (tleafs t) /\ dseals (contents v) = false /\ In p (pg_chain g v) /\ across (pg_portal g p) v = Some w /\
     In b (orig w) /\ In s b /\ bs_source s = Some k /\ same (bs_plane s) (gp_plane (pg_portal g p)) = true).
Proof.
  intros C P same hint dseals contents g orig t brushes vis k GO TL [b0 [s0 [B1 [B2 B3]]]].
  assert (IC : In s0 (concat brushes)) by (apply in_concat; exists b0; auto).
  rewrite mark_visible_spec, mark_invisible_spec. unfold touches. split.
  - intros [[[_ H]|[H _]]|[v [V1 [V2 [p [w [b [s H]]]]]]]]; [auto|exfalso; apply (H s0 IC B3)|].
    right. exists v, p, w, b, s. tauto.
  - intros [H|[v [p [w [b [s [V1 [V2 H]]]]]]]]; [left; left; split; [exists s0; auto|exact H]|].
    right. exists v. split; [exact V1|]. split; [exact V2|]. exists p, w, b, s. exact H.
Qed.
Print Assumptions C69_visible_sides.

Example C69_nontrivial :
  let orig := fun v => if v =? 1 then [[mkBS (Some 0) 0; mkBS (Some 1) 1; mkBS None 0; mkBS (Some 2) 7]] else [] in
  let r := mark_visible Nat.eqb (fun c => 8 <=? c) (fun v => if v =? 1 then 9 else if v =? 2 then 9 else 0) ex_graph orig ex_tree4
             (mark_invisible (fun k => k =? 3) [[mkBS (Some 0) 0; mkBS (Some 1) 0]; [mkBS (Some 2) 0; mkBS (Some 3) 0]] (fun _ => true)) in
  map r (seq 0 4) = [true; false; false; true].
Proof. reflexivity. Qed.
