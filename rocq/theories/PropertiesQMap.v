(* Statements: .map files read by qbsp (C147). *)
From Coq Require Import String.
From Coq Require Import List Arith NArith ZArith Bool Lia.
Import ListNotations.
From Verif Require Import Base ParserModel ParserProofs EntModel EntProofs EntOutModel DecompEntModel MapFileModel MapFileProofs QMapModel QMapProofs PropertiesMapFile.
Local Open Scope N_scope.

(** Every text that maputil reads is read by qbsp to the same entities, key by key, brush by brush and side by side, for
    all readings of numbers and whatever planes are dropped, if no entity has _omitbrushes and no brush is a region.
    Two things differ: numbers of surface information that are missing are 0, and the comments //TX1 and //TX2 behind
    surface information mean nothing ([of_side]).  Keys of -aliasdef are added afterwards. *)
Theorem C147_agree : forall {num int} (stod : bytes -> option num) (stoul stoi : bytes -> option int) zero tdef bad keepp shell alias,
  (forall w x, stoi w = Some x -> stoul w = Some x) -> (forall w, tdef w = None) -> (forall s, bad s = false) ->
  forall t es p, map_parse stod stoi (mkeep keepp) t = M_ok es p ->
  (forall e, In e es -> ed_has k_omit (me_pairs e) = false /\ forall b, In b (me_brushes e) -> kind_of (map (of_side zero) (br_sides b)) = BPlain) ->
  load stod stoul stoi zero tdef bad (qkeep keepp) shell alias t None = M_ok (map (fun e => aliased alias (of_ent zero e)) es, mkR None []) p.
Proof.
  intros num int stod stoul stoi zero tdef bad keepp shell alias U T B t es p H A. apply load_agree; auto. apply Forall_forall. intros e I. destruct (A e I) as (A1 & A2). split; [exact A2|exact A1].
Qed.
Print Assumptions C147_agree.

(** What maputil writes is read by qbsp: entities in order with all keys, and all brushes, but none of an entity whose
    _omitbrushes is a number other than 0 (of brushes in the format that maputil writes, with no texture "}"). *)
Theorem C147_written : forall {num int} (stod : bytes -> option num) (stoul stoi : bytes -> option int) zero fmt fmti dec tdef bad keepp shell alias,
  (forall w x, stoi w = Some x -> stoul w = Some x) -> (forall w, tdef w = None) -> (forall s, bad s = false) ->
  stod [91] = None -> stod [125] = None -> stoi [125] = None -> (forall n, ~ In 10 (dec n) /\ ~ In 0 (dec n)) ->
  forall es, Forall (usable_ment stod stoi fmt fmti (mkeep keepp)) es -> no_etp es ->
  (forall e b, In e es -> In b (me_brushes e) -> (forall s, In s (br_sides b) -> sd_tex s <> [125]) /\ kind_of (map (of_side zero) (br_sides b)) = BPlain) ->
  exists t p, map_text fmt fmti dec 0 es = Some t /\
    load stod stoul stoi zero tdef bad (qkeep keepp) shell alias t None =
      M_ok (map (fun e => aliased alias (of_ent zero (mkEnt (me_pairs e) (if (atoi (ed_get k_omit (me_pairs e)) =? 0)%Z then me_brushes e else [])))) es, mkR None []) p.
Proof.
  intros num int stod stoul stoi zero fmt fmti dec tdef bad keepp shell alias U T B S1 S2 S3 D es F NE A.
  assert (RB : forall e, In e es -> readback_ent e = e).
  { intros e I. pose proof (readback_id [e]) as R. assert (X : map readback_ent [e] = [e]). { apply R. intros e0 b s [<- | []]. exact (NE e b s I). } injection X as X. exact X. }
  destruct (load_written stod stoul stoi zero fmt fmti dec tdef bad keepp shell alias U T B S1 S2 S3 D es) as (t & p & E & L).
  { apply Forall_forall. intros e I. rewrite Forall_forall in F. split; [exact (F e I)|]. split.
    - intros b s J K. exact (proj1 (A e b I J) s K).
    - intros _ b J. rewrite (RB e I) in J. exact (proj2 (A e b I J)). }
  exists t, p. split; [exact E|]. rewrite L. f_equal. f_equal. apply map_ext_in. intros e I. f_equal. f_equal. unfold with_omit, omits.
  destruct (atoi (ed_get k_omit (me_pairs e)) =? 0)%Z; cbn [negb]; [rewrite (RB e I); destruct e; reflexivity|reflexivity].
Qed.
Print Assumptions C147_written.

(** -add puts the entities of the second file behind those of the first; its worldspawn, and nothing else, becomes a
    func_group. *)
Theorem C147_add : forall {num int} (stod : bytes -> option num) (stoul stoi : bytes -> option int) zero tdef bad keepp shell alias,
  (forall w x, stoi w = Some x -> stoul w = Some x) -> (forall w, tdef w = None) -> (forall s, bad s = false) ->
  forall t u es es2 p p2, map_parse stod stoi (mkeep keepp) t = M_ok es p -> map_parse stod stoi (mkeep keepp) u = M_ok es2 p2 ->
  (forall e, In e (es ++ es2) -> ed_has k_omit (me_pairs e) = false /\ forall b, In b (me_brushes e) -> kind_of (map (of_side zero) (br_sides b)) = BPlain) ->
  exists l2, load stod stoul stoi zero tdef bad (qkeep keepp) shell alias t (Some u) = M_ok (map (fun e => aliased alias (of_ent zero e)) es ++ l2, mkR None []) p2 /\
    Forall2 (fun e q => let a := aliased alias (of_ent zero e) in qe_brushes q = qe_brushes a /\
                        forall k, assoc k (qe_pairs q) = if list_eq_dec N.eq_dec k k_class then (match assoc k (qe_pairs a) with Some v => Some (if beq v v_world then v_group else v) | None => None end)
                                                         else assoc k (qe_pairs a)) es2 l2.
Proof.
  intros num int stod stoul stoi zero tdef bad keepp shell alias U T B t u es es2 p p2 H H2 A.
  eexists. split.
  - eapply load_add; eauto; apply Forall_forall; intros e I; (destruct (A e) as (A1 & A2); [apply in_or_app; auto|split; assumption]).
  - clear. induction es2 as [|e es2 IH]; cbn [map]; constructor; [|exact IH]. cbv zeta. unfold add_class. rewrite get_assoc.
    destruct (assoc k_class (qe_pairs (aliased alias (of_ent zero e)))) as [v|] eqn:E.
    + destruct (beq v v_world) eqn:BE.
      * split; [reflexivity|]. intro k. cbn [qe_pairs]. rewrite assoc_set. destruct (list_eq_dec N.eq_dec k k_class) as [->|]; [rewrite E, BE; reflexivity|reflexivity].
      * split; [reflexivity|]. intro k. destruct (list_eq_dec N.eq_dec k k_class) as [->|]; [rewrite E, BE; reflexivity|reflexivity].
    + cbn [beq v_world]. split; [reflexivity|]. intro k. destruct (list_eq_dec N.eq_dec k k_class) as [->|]; [rewrite E; reflexivity|reflexivity].
Qed.
Print Assumptions C147_add.

(** Reading ends for all texts, and never reads out of bounds if the texts have no quote. *)
Theorem C147_ends : forall {num int} (stod : bytes -> option num) (stoul stoi : bytes -> option int) zero tdef bad keep shell alias t add,
  load stod stoul stoi zero tdef bad keep shell alias t add <> M_fuel /\
  (~ In 34 t -> match add with Some u => ~ In 34 u | None => True end -> load stod stoul stoi zero tdef bad keep shell alias t add <> M_UB).
Proof. intros. apply load_ends. Qed.
Print Assumptions C147_ends.

(** Keys of -aliasdef: they are added where the entity has none; the classname is replaced. *)
Theorem C147_alias : forall {num int} (alias : bytes -> option entdict) (e : @qent num int) l,
  alias (ed_get k_class (qe_pairs e)) = Some l -> NoDup (keys l) ->
  qe_brushes (aliased alias e) = qe_brushes e /\
  forall k, assoc k (qe_pairs (aliased alias e)) =
    match assoc k l, assoc k (qe_pairs e) with
    | None, x => x
    | Some v, None => Some v
    | Some v, Some w => Some (if list_eq_dec N.eq_dec k k_class then v else w)
    end.
Proof.
  intros num int alias e l H ND. unfold aliased. rewrite H. split; [reflexivity|]. intro k. cbn [qe_pairs]. revert ND. generalize (qe_pairs e) as d. clear H. induction l as [|[k1 v1] l IH]; intros d ND; cbn [fold_left].
  - cbn [assoc]. reflexivity.
  - cbn [keys map fst] in ND. apply NoDup_cons_iff in ND. destruct ND as (NI & ND). rewrite (IH _ ND). clear IH. unfold alias_step. cbn [fst snd].
    assert (NA : assoc k1 l = None).
    { destruct (assoc k1 l) eqn:E; [|reflexivity]. exfalso. apply NI. clear -E. induction l as [|[k2 v2] l IH]; cbn [assoc] in E; [discriminate|]. cbn [keys map fst]. destruct (list_eq_dec N.eq_dec k1 k2) as [->|]; [left; reflexivity|right; apply IH; exact E]. }
    cbn [assoc]. destruct (list_eq_dec N.eq_dec k k1) as [->|NK].
    + rewrite NA, has_assoc. destruct (list_eq_dec N.eq_dec k1 k_class) as [->|NC].
      * rewrite beq_refl. cbn [orb]. rewrite assoc_set. destruct (list_eq_dec N.eq_dec k_class k_class); [|congruence]. destruct (assoc k_class d); reflexivity.
      * apply beq_neq in NC. rewrite NC. cbn [orb]. destruct (assoc k1 d) eqn:E; cbn [negb]; [exact E|]. rewrite assoc_set. destruct (list_eq_dec N.eq_dec k1 k1); [reflexivity|congruence].
    + assert (X : forall c : bool, assoc k (if c then ed_set k1 v1 d else d) = assoc k d).
      { intros [|]; [|reflexivity]. rewrite assoc_set. destruct (list_eq_dec N.eq_dec k k1); [contradiction|reflexivity]. }
      rewrite X. reflexivity.
Qed.
Print Assumptions C147_alias.

(** Brush primitives (which maputil refuses, C108): the text of such a brush with any sides is read to these sides, and
    reading goes on behind it. *)
Theorem C147_primitives : forall {num int} (stod : bytes -> option num) (stoul stoi : bytes -> option int) zero tdef bad keep shell,
  (forall w, tdef w = None) -> (forall s, bad s = false) ->
  forall sides wss fuel world bs rg r p, Forall2 (reads_bp stod stoul stoi) wss sides -> qkept keep [] sides -> sides <> [] -> kind_of sides = BPlain -> (length sides < fuel)%nat ->
  at_ (bp_text wss ++ r) p ->
  exists p2, q_brush stod stoul stoi zero tdef bad keep shell fuel world (bs, rg) p = M_ok (bs ++ [mkQB true sides], rg) p2 /\ at_ (10 :: r) p2.
Proof. intros num int stod stoul stoi zero tdef bad keep shell T B sides wss fuel world bs rg r p R K NE P L A. exact (proj1 (q_brush_at stod stoul stoi zero tdef bad keep shell T B sides wss fuel world bs rg r p R K NE L A) P). Qed.
Print Assumptions C147_primitives.

(** A region brush in brush primitives: its second "}" is taken for the end of the entity.  A map with such a brush as
    the last of worldspawn is always refused, whatever follows. *)
Theorem C147_region_refuted : forall {num int} (stod : bytes -> option num) (stoul stoi : bytes -> option int) zero tdef bad keep shell alias,
  (forall w, tdef w = None) -> (forall s, bad s = false) ->
  forall sides wss rest add, Forall2 (reads_bp stod stoul stoi) wss sides -> qkept keep [] sides -> kind_of sides = BRegion ->
  load stod stoul stoi zero tdef bad keep shell alias ([123; 10; 123] ++ bp_text wss ++ 125 :: 10 :: rest) add = M_error.
Proof.
  intros num int stod stoul stoi zero tdef bad keep shell alias T B sides wss rest add R K KD.
  assert (NE : sides <> []) by (intros ->; discriminate KD).
  set (t := [123; 10; 123] ++ bp_text wss ++ 125 :: 10 :: rest). unfold load.
  assert (LN : (length sides < length t - 2)%nat).
  { subst t. rewrite !app_length. cbn [length]. unfold bp_text. rewrite <- (F2_len _ _ _ R). cbn [length]. rewrite !app_length. cbn [length]. rewrite app_length. cbn [length]. pose proof (lines_len wss). lia. }
  pose proof (start_at t) as A. revert A LN. generalize (start t) as p. intros p A LN.
  replace (S (length t)) with (S (S (S (length t - 2)))) by (subst t; cbn [length app]; lia).
  revert LN. generalize (length t - 2)%nat as fuel. intros fuel LN. subst t.
  destruct (brace_at [] 123 (123 :: bp_text wss ++ 125 :: 10 :: rest) p (gap_nil _) (or_introl eq_refl) A) as (p1 & E1 & A1 & T1).
  cbn [q_loop]. rewrite E1. cbn [mbind negb]. rewrite T1, beq_refl. cbn [q_entity].
  destruct (brace_at [10] 123 (brushDef ++ 10 :: 123 :: 10 :: lines wss ++ 125 :: 10 :: 125 :: 10 :: 125 :: 10 :: rest) p1 (gap_newline _ ok_normal) (or_introl eq_refl)) as (p2 & E2 & A2 & T2).
  { unfold bp_text in A1. cbn [app] in A1. rewrite <- app_assoc in A1. cbn [app] in A1. rewrite <- app_assoc in A1. cbn [app] in A1. exact A1. }
  rewrite E2. cbn [mbind negb]. rewrite T2. change (beq [123] [125]) with false. rewrite beq_refl. cbn beta iota.
  change (negb (atoi (ed_get k_omit (qe_pairs (@mkQE num int [] []))) =? 0)%Z) with false. cbv zeta. cbn [qe_brushes qe_pairs].
  destruct (q_brush_at stod stoul stoi zero tdef bad keep shell T B sides wss (S fuel) true [] (mkR None []) (125 :: 10 :: rest) p2 R K NE ltac:(lia)) as (_ & G).
  { unfold bp_text. cbn [app]. rewrite <- app_assoc. cbn [app]. rewrite <- app_assoc. cbn [app]. exact A2. }
  destruct (G KD eq_refl) as (p3 & E3 & A3). cbn [q_entity]. rewrite E3. cbn [mbind fst snd app].
  destruct (brace_at [10] 125 (125 :: 10 :: rest) p3 (gap_newline _ ok_normal) (or_intror eq_refl) A3) as (p4 & E4 & A4 & T4). rewrite E4. cbn [mbind negb]. rewrite T4, beq_refl. cbn [mbind fst snd].
  destruct (brace_at [10] 125 rest p4 (gap_newline _ ok_normal) (or_intror eq_refl) A4) as (p5 & E5 & A5 & T5). cbn [q_loop]. rewrite E5. cbn [mbind negb]. rewrite T5. reflexivity.
Qed.
Print Assumptions C147_region_refuted.

(** ** Concrete files *)
Definition qload1 (t : bytes) (add : option bytes) : mres (list (@qent N N) * regs) :=
  load digit_in digit_in digit_in 0 (fun _ => None) (fun _ => false) (fun _ _ => true) (fun b => [b; b]) (fun _ => None) t add.
Definition qreads (t : bytes) (es : list (@qent N N)) (rg : regs) : Prop := exists p, qload1 t None = M_ok (es, rg) p.
Definition qside1 (tex : bytes) (raw : @texdef N) (ext : option (N * N * N)) : @qside N N := mkQS pts1 tex (QT raw) ext.
Definition omit1 : bytes := [34] ++ k_omit ++ [34; 32; 34; 49; 34; 10].
(** ( 0 1 2 ) ( 3 4 5 ) ( 6 7 8 ) ( ( 1 2 3 ) ( 4 5 6 ) ) and the texture name *)
Definition line2 (tex : bytes) : bytes :=
  [40;32;48;32;49;32;50;32;41;32;40;32;51;32;52;32;53;32;41;32;40;32;54;32;55;32;56;32;41;32;40;32;40;32;49;32;50;32;51;32;41;32;40;32;52;32;53;32;54;32;41;32;41;32] ++ tex ++ [10].
Definition brush2 (tex : bytes) : bytes := [123; 10] ++ brushDef ++ [10; 123; 10] ++ line2 tex ++ [125; 10; 125; 10].
Definition bside (tex : bytes) : @qside N N := mkQS pts1 tex (QBp [1; 2; 3; 4; 5; 6]) None.

(** The comment //TX1 behind surface information: an other projection for maputil, nothing for qbsp. *)
Theorem C147_tx_refuted :
  let tail := [32; 55; 32; 56; 32; 57; 32; 47; 47; 84; 88; 49] in
  reads_as (file1 wall tail) [mkEnt [] [mkBrush false [side1 wall (TEtp [1; 2; 3; 4; 5] false) (Some (7, Some 8, Some 9))]]] /\
  qreads (file1 wall tail) [mkQE [] [mkQB false [qside1 wall quake1 (Some (7, 8, 9))]]] (mkR None []) /\
  qreads (file1 wall [32; 47; 47; 84; 88; 49]) [mkQE [] [mkQB false [qside1 wall (TEtp [1; 2; 3; 4; 5] false) None]]] (mkR None []) /\
  qreads (file1 wall [32; 47; 47; 84; 88; 50]) [mkQE [] [mkQB false [qside1 wall (TEtp [1; 2; 3; 4; 5] true) None]]] (mkR None []).
Proof. split; [run|]. split; [run|]. split; run. Qed.
Print Assumptions C147_tx_refuted.

(** _omitbrushes with brush primitives ends the entity at the inner brace: the map is refused.  Without the key it is
    read.  The key behind the first brush means nothing. *)
Theorem C147_omit_refuted :
  qload1 ([123; 10] ++ omit1 ++ brush2 wall ++ [125; 10]) None = M_error /\
  qreads ([123; 10] ++ brush2 wall ++ brush2 wall ++ [125; 10]) [mkQE [] [mkQB true [bside wall]; mkQB true [bside wall]]] (mkR None []) /\
  qreads ([123; 10; 123; 10] ++ line1 wall [] ++ [125; 10] ++ omit1 ++ [123; 10] ++ line1 wall [] ++ [125; 10; 125; 10])
    [mkQE [(k_omit, [49])] [mkQB false [qside1 wall quake1 None]; mkQB false [qside1 wall quake1 None]]] (mkR None []) /\
  qreads ([123; 10] ++ omit1 ++ [123; 10] ++ line1 wall [] ++ [125; 10; 123; 10] ++ line1 wall [] ++ [125; 10; 125; 10]) [mkQE [(k_omit, [49])] []] (mkR None []).
Proof. split; [vm_compute; reflexivity|]. split; [run|]. split; run. Qed.
Print Assumptions C147_omit_refuted.

(** Regions: in the world the brush becomes the brushes around it; a second one, or one in another entity or in the file
    of -add, is an error.  An antiregion stays a brush. *)
Theorem C147_regions :
  let br tex := [123; 10] ++ line1 tex [] ++ [125; 10] in
  let world tex := [123; 10] ++ br tex ++ br wall ++ [125; 10] in
  let one tex := mkQB false [qside1 tex quake1 None] in
  qreads (world n_region) [mkQE [] [one n_region; one n_region; one wall]] (mkR (Some (one n_region)) []) /\
  qreads (world n_anti) [mkQE [] [one n_anti; one wall]] (mkR None [one n_anti]) /\
  qload1 ([123; 10] ++ br n_region ++ br n_region ++ [125; 10]) None = M_error /\
  qload1 (world wall ++ world n_region) None = M_error /\ qload1 (world wall ++ world n_anti) None = M_error /\
  qload1 (world wall) (Some (world n_region)) = M_error /\
  qload1 ([123; 10; 123; 10] ++ line2 wall ++ [125; 10; 125; 10]) None = M_error.
Proof. cbv zeta. split; [run|]. split; [run|]. repeat split; vm_compute; reflexivity. Qed.
Print Assumptions C147_regions.

Example C147_nontrivial :
  let cls v := [34] ++ k_class ++ [34; 32; 34] ++ v ++ [34; 10] in
  let t := [123; 10] ++ cls v_world ++ [123; 10] ++ line1 wall [32; 55] ++ [125; 10; 125; 10; 123; 10] ++ cls [108] ++ [125; 10] in
  (exists p, parse1 t = M_ok [mkEnt [(k_class, v_world)] [mkBrush false [side1 wall quake1 (Some (7, None, None))]]; mkEnt [(k_class, [108])] []] p) /\
  qreads t [mkQE [(k_class, v_world)] [mkQB false [qside1 wall quake1 (Some (7, 0, 0))]]; mkQE [(k_class, [108])] []] (mkR None []) /\
  exists p, qload1 t (Some t) = M_ok ([mkQE [(k_class, v_world)] [mkQB false [qside1 wall quake1 (Some (7, 0, 0))]]; mkQE [(k_class, [108])] [];
                                       mkQE [(k_class, v_group)] [mkQB false [qside1 wall quake1 (Some (7, 0, 0))]]; mkQE [(k_class, [108])] []], mkR None []) p.
Proof. cbv zeta. split; [run|]. split; [run|]. run. Qed.
(** The text of the theorems about brush primitives, with two sides of a region. *)
Example C147_primitives_nontrivial :
  let ws tex := paren [[48]; [49]; [50]] ++ paren [[51]; [52]; [53]] ++ paren [[54]; [55]; [56]] ++ paren (paren [[49]; [50]; [51]] ++ paren [[52]; [53]; [54]]) ++ [tex] ++ [] in
  Forall2 (reads_bp digit_in digit_in digit_in) [ws n_region; ws n_region] [bside n_region; bside n_region] /\ kind_of [bside n_region; bside n_region] = BRegion /\
  [123] ++ bp_text [ws n_region] = brush2 n_region.
Proof.
  cbv zeta. split; [|split; vm_compute; reflexivity].
  assert (D : forall c, 48 <= c <= 57 -> reads digit_in [c] (c - 48)).
  { intros c C. split; [|unfold digit_in; replace ((48 <=? c) && (c <=? 57)) with true by (symmetry; apply andb_true_iff; split; apply N.leb_le; lia); reflexivity].
    unfold word. cbn [hd tl]. split; [discriminate|]. split; [constructor; [unfold blank; apply orb_false_iff; split; apply N.leb_gt; lia|constructor]|]. split; [lia|]. split; [lia|]. intros (X & _). lia. }
  assert (R : reads_bp digit_in digit_in digit_in (paren [[48]; [49]; [50]] ++ paren [[51]; [52]; [53]] ++ paren [[54]; [55]; [56]] ++ paren (paren [[49]; [50]; [51]] ++ paren [[52]; [53]; [54]]) ++ [n_region] ++ []) (bside n_region)).
  { exists [[48]; [49]; [50]], [[51]; [52]; [53]], [[54]; [55]; [56]], [[49]; [50]; [51]], [[52]; [53]; [54]], [0; 1; 2], [3; 4; 5], [6; 7; 8], [1; 2; 3], [4; 5; 6], [].
    split; [reflexivity|]. split; [reflexivity|]. split; [reflexivity|].
    do 5 (split; [repeat (first [apply Forall2_nil | apply Forall2_cons]); match goal with |- reads _ [?c] _ => apply (D c); lia end|]).
    do 5 (split; [reflexivity|]). split; [|reflexivity]. unfold word, bside, qs_tex, n_region. split; [discriminate|]. cbn [hd tl]. split; [repeat constructor|]. split; [discriminate|]. split; [discriminate|]. intros (X & _). discriminate X. }
  constructor; [exact R|]. constructor; [exact R|constructor].
Qed.

(** Which brush is a region: by how every texture name ends, spelled out. *)
Lemma ends_iff : forall w s, ends w s = true <-> exists p, s = p ++ w.
Proof.
  assert (P : forall p s, prefix p s = true <-> exists t, s = p ++ t).
  { induction p as [|a p IH]; intros s; cbn [prefix app]; [split; [intros _; exists s; reflexivity|reflexivity]|].
    destruct s as [|b s]; [split; [discriminate|intros [t E]; discriminate]|].
    rewrite andb_true_iff, N.eqb_eq, IH. split; [intros [-> [t ->]]; exists t; reflexivity|intros [t E]; injection E as -> ->; split; [reflexivity|exists t; reflexivity]]. }
  intros w s. unfold ends. rewrite P. split; intros [t E].
  - exists (rev t). rewrite <- (rev_involutive s), E, rev_app_distr, rev_involutive. reflexivity.
  - exists (rev t). rewrite E, rev_app_distr. reflexivity.
Qed.
Theorem C147_kind : forall {num int} (s : @qside num int) l,
  let named w s := exists p, qs_tex s = p ++ txt w in
  (kind_of (s :: l) = BAnti <-> forall x, In x (s :: l) -> named "antiregion"%string x) /\
  (kind_of (s :: l) = BRegion <-> ~ named "antiregion"%string s /\ forall x, In x (s :: l) -> named "region"%string x).
Proof.
  intros num int s l named. assert (A : forall w x, ends (txt w) (qs_tex x) = true <-> named w x) by (intros w x; apply ends_iff).
  assert (F : forall w, forallb (fun x => ends (txt w) (qs_tex x)) (s :: l) = true <-> forall x, In x (s :: l) -> named w x).
  { intros w. rewrite forallb_forall. split; intros H x I; apply A, H, I. }
  unfold kind_of. change n_anti with (txt "antiregion"). change n_region with (txt "region").
  assert (I : In s (s :: l)) by (left; reflexivity).
  destruct (ends (txt "antiregion") (qs_tex s)) eqn:E1.
  - destruct (forallb (fun x => ends (txt "antiregion") (qs_tex x)) (s :: l)) eqn:E2.
    + split; [split; [intros _; apply F, E2|reflexivity]|]. split; [discriminate|]. intros [N _]. exfalso. apply N, A, E1.
    + split; [split; [discriminate|]|].
      * intros H. apply F in H. rewrite H in E2. discriminate.
      * split; [discriminate|]. intros [N _]. exfalso. apply N, A, E1.
  - assert (N : ~ named "antiregion"%string s) by (intros H; apply A in H; rewrite H in E1; discriminate).
    destruct (ends (txt "region") (qs_tex s) && forallb (fun x => ends (txt "region") (qs_tex x)) (s :: l)) eqn:E2.
    + split; [split; [discriminate|intros H; exfalso; apply N, H, I]|]. apply andb_true_iff in E2. split; [intros _; split; [exact N|apply F, E2]|reflexivity].
    + split; [split; [discriminate|intros H; exfalso; apply N, H, I]|]. split; [discriminate|]. intros [_ H]. assert (H2 := proj2 (F _) H). rewrite H2, (proj2 (A _ _) (H s I)) in E2. discriminate.
Qed.
Print Assumptions C147_kind.
(** The keys and values that are looked for. *)
Theorem C147_words : k_omit = txt "_omitbrushes" /\ k_class = txt "classname" /\ v_world = txt "worldspawn" /\ v_group = txt "func_group".
Proof. repeat split. Qed.
Print Assumptions C147_words.
