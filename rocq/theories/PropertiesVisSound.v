(* C85: the full visibility pass keeps every line of sight that its geometric tests accept. *)
From Coq Require Import List Arith NArith ZArith Bool Lia.
Import ListNotations.
From Verif Require Import Base Dfs LeafBitsModel LeafBitsProofs VisFloodModel VisFloodProofs VisFlowModel VisFlowProofs VisFlowSound
  VisMightModel VisMightProofs VisMightHistory VisSoundRun.

(** C85. Base visibility: if the tests of portal [s] pass every portal on its lines of sight, the
    might-see set it starts with holds every leaf they lead to. *)
Theorem C85_base : forall g T see s src, wf_graph g -> length see = length (g_dest g) -> nth_error (g_dest g) s = Some src ->
  sightlines g src T -> (forall p c, T (p :: c) -> nth_error see p = Some true) ->
  exists v k, base_portal g see s = Some (v, k) /\ forall c y, T c -> ends g src c y -> nth_error v y = Some true.
Proof.
  intros g T see s src W L S SL SEE. destruct (base_portal_spec g see s src W L S) as (v & k & A & _ & C & _). exists v, k. split; [exact A|].
  intros c y Ht He. apply C. revert y Ht He.
  assert (SN : forall x y ps p z, leaf_walk g see x y -> nth_error (g_leafs g) y = Some ps -> In p ps -> nth_error see p = Some true -> nth_error (g_dest g) p = Some z -> leaf_walk g see x z).
  { intros x y ps p z Hw. induction Hw as [x|x qs q y1 y2 E I Se D Hw IH]; intros E1 I1 S1 D1.
    - eapply walk_portal; eauto. apply walk_here.
    - eapply walk_portal; eauto. }
  induction c as [|p c IH]; intros y Ht He.
  - cbn [ends] in He. subst y. apply walk_here.
  - destruct (sl_step g src T SL p c Ht) as (y1 & ps & z & X1 & X2 & X3 & X4). cbn [ends] in He.
    eapply SN; [exact (IH y1 (sl_tail g src T SL p c Ht) X1)|exact X2|exact X3|exact (SEE p c Ht)|exact He].
Qed.
Print Assumptions C85_base.

(** C85. One portal's flow: if no test refuses a portal on a line of sight and no set it is given
    lacks a leaf on one, every leaf on a line of sight is marked visible: skipping portals that
    show nothing new loses nothing. *)
Theorem C85_flow : forall g src T orc might, wf_graph g -> length might = length (g_leafs g) -> src < length (g_leafs g) ->
  sightlines g src T -> (forall p c y, T (p :: c) -> ends g src (p :: c) y -> nth_error might y = Some true) ->
  (forall n p c, T (p :: c) -> d_go (orc n (p :: c)) = true) ->
  (forall n e p c y, T (e ++ p :: c) -> ends g src (e ++ p :: c) y -> nth_error (d_test (orc n (p :: c))) y <> Some false) ->
  (forall n u c m p e y, T (p :: e ++ c) -> ends g src (p :: e ++ c) y -> nth_error (d_masks (orc n (u ++ c))) (length u) = Some m -> nth_error m y <> Some false) ->
  exists s, portal_flow g orc might src = Some s /\ forall c y, T c -> ends g src c y -> nth_error (f_vis s) y = Some true.
Proof.
  intros g src T orc might W LM LS SL MI H1 H2 H3. destruct (portal_flow_spec g orc might src W LM LS) as (s & E & _). exists s. split; [exact E|].
  assert (A : accepts g src T orc) by (constructor; assumption). unfold portal_flow in E.
  match type of E with flow ?fu _ _ _ _ ?st _ = _ => destruct (flow_sound g src T SL fu orc A W [] [] st src s eq_refl eq_refl) as (_ & _ & _ & _ & R); cbn [f_stk f_vis] end.
  - intros u c' X. destruct u; [|discriminate X]. cbn [app] in X. subst c'. cbn [length nth_error]. eexists. split; [reflexivity|].
    intros p e y Ht Hy. rewrite app_nil_r in Ht, Hy. exact (MI p e y Ht Hy).
  - constructor; [exact LM|constructor].
  - apply repeat_length.
  - exact E.
  - intros c y Ht He. specialize (R c y). rewrite app_nil_r in R. exact (R Ht He).
Qed.
Print Assumptions C85_flow.

(** C85. Whole runs: portals start, flow and complete in any order, each flow reading the sets of
    the other portals at any moment.  If the tests accept all lines of sight and these can be
    followed backwards, then after every step each portal's might-see set, and its visible set
    once it is done, holds every leaf visible through it. *)
Theorem C85_run : forall g T ps0 hist, wf_graph g -> leafs_ok (length (g_leafs g)) (length (g_dest g)) (g_leafs g) -> sight g T ->
  length ps0 = length (g_dest g) -> Forall (portal_ok (length (g_leafs g))) ps0 ->
  (forall s p y, nth_error ps0 s = Some p -> truly g T s y -> has (mp_might p) y = true /\ (mp_status p = 2%N -> has (mp_vis p) y = true)) ->
  run g T ps0 hist ->
  forall ps s p y, In ps hist -> nth_error ps s = Some p -> truly g T s y ->
  has (mp_might p) y = true /\ (mp_status p = 2%N -> has (mp_vis p) y = true).
Proof.
  intros g T ps0 hist W LO SI L P H R ps s p y I Hs Ht.
  destruct (run_holds g T SI W LO ps0 hist (conj L H) P R) as [F _]. rewrite Forall_forall in F. destruct (F ps I) as [_ X]. exact (X s p y Hs Ht).
Qed.
Print Assumptions C85_run.

(** Three leafs in a row, portals 0: 0->1, 1: 1->0, 2: 1->2, 3: 2->1; everything sees everything
    except its own leaf through the way back. *)
Definition rowg := {| g_leafs := [[0]; [1; 2]; [3]]; g_dest := [1; 0; 2; 1] |}.
Definition rowT (s : nat) (c : list nat) : Prop := (s < 4 /\ c = []) \/ (s = 0 /\ c = [2]) \/ (s = 3 /\ c = [1]).
Definition b3 (w : N) : leafbits := {| lb_size := 3; lb_bits := [w] |}.
Definition row0 := [ {| mp_status := 0; mp_vis := b3 0; mp_might := b3 6; mp_num := 2 |};
                     {| mp_status := 0; mp_vis := b3 0; mp_might := b3 1; mp_num := 1 |};
                     {| mp_status := 0; mp_vis := b3 0; mp_might := b3 4; mp_num := 1 |};
                     {| mp_status := 0; mp_vis := b3 0; mp_might := b3 3; mp_num := 2 |} ].
Definition row1 := {| mp_status := 1; mp_vis := b3 0; mp_might := b3 6; mp_num := 2 |} :: tl row0.
Definition row2 := {| mp_status := 2; mp_vis := b3 6; mp_might := b3 6; mp_num := 2 |} :: tl row0.
Example C85_nontrivial : sight rowg rowT /\ truly rowg rowT 0 2 /\ ~ truly rowg rowT 2 0 /\ run rowg rowT row0 [row2; row1; row0] /\
  base_portal rowg [true; false; true; false] 0 = Some ([false; true; true], 2).
Proof.
  assert (SL : forall s src, nth_error (g_dest rowg) s = Some src -> sightlines rowg src (rowT s)).
  { intros s src Hs. constructor.
    - intros p c [[_ H]|[[H1 H2]|[H1 H2]]]; [discriminate H|injection H2 as -> ->|injection H2 as -> ->]; left; split; auto; lia.
    - intros p c [[_ H]|[[H1 H2]|[H1 H2]]]; [discriminate H|injection H2 as -> ->|injection H2 as -> ->]; subst s; cbn in Hs; injection Hs as <-; cbn [ends].
      + exists 1, [1; 2], 2. cbn. repeat split; auto.
      + exists 1, [1; 2], 0. cbn. repeat split; auto.
    - intros c [[_ H]|[[H1 H2]|[H1 H2]]]; subst; cbn [passes]; [repeat constructor; intros []| |]; cbn in Hs; injection Hs as <-; cbn;
      repeat constructor; cbn; intuition discriminate. }
  assert (TR : forall s y, truly rowg rowT s y <-> (s = 0 /\ y = 1) \/ (s = 0 /\ y = 2) \/ (s = 1 /\ y = 0) \/ (s = 2 /\ y = 2) \/ (s = 3 /\ y = 1) \/ (s = 3 /\ y = 0)).
  { intros s y. split.
    - intros (c & [[L ->]|[[-> ->]|[-> ->]]] & src & Hs & He).
      + cbn [ends] in He. subst. destruct s as [|[|[|[|s]]]]; cbn in Hs; try discriminate Hs; try (injection Hs as <-); lia.
      + cbn in He. injection He as <-. lia.
      + cbn in He. injection He as <-. lia.
    - intros [[-> ->]|[[-> ->]|[[-> ->]|[[-> ->]|[[-> ->]|[-> ->]]]]]].
      + exists []. split; [left; auto with arith|]. exists 1. split; reflexivity.
      + exists [2]. split; [right; left; auto|]. exists 1. split; reflexivity.
      + exists []. split; [left; auto with arith|]. exists 0. split; reflexivity.
      + exists []. split; [left; auto with arith|]. exists 2. split; reflexivity.
      + exists []. split; [left; auto with arith|]. exists 1. split; reflexivity.
      + exists [1]. split; [right; right; auto|]. exists 1. split; reflexivity. }
  split.
  - constructor; [exact SL| |].
    + intros s e p c [[_ H]|[[H1 H2]|[H1 H2]]].
      * destruct e; discriminate H.
      * destruct e as [|a [|b e]]; [injection H2 as -> ->; left; split; auto; lia|discriminate H2|discriminate H2].
      * destruct e as [|a [|b e]]; [injection H2 as -> ->; left; split; auto; lia|discriminate H2|discriminate H2].
    + intros x l qs my El Ix Ht. apply TR in Ht.
      destruct l as [|[|[|l]]]; cbn in El; try (injection El as <-); try (destruct l; discriminate El); cbn [In] in Ix.
      * destruct Ix as [<-|[]]. destruct Ht as [[_ ->]|[[_ ->]|H]]; [| |lia].
        -- exists [1; 2], 1. repeat split; cbn; auto. apply TR. lia.
        -- exists [3], 3. repeat split; cbn; auto. apply TR. lia.
      * destruct Ix as [<-|[<-|[]]].
        -- assert (my = 0) by lia. subst. exists [0], 0. repeat split; cbn; auto. apply TR. lia.
        -- assert (my = 2) by lia. subst. exists [3], 3. repeat split; cbn; auto. apply TR. lia.
      * destruct Ix as [<-|[]]. assert (my = 1 \/ my = 0) as [->| ->] by lia.
        -- exists [1; 2], 2. repeat split; cbn; auto. apply TR. lia.
        -- exists [0], 0. repeat split; cbn; auto. apply TR. lia.
  - split; [apply TR; auto|]. split; [intro H; apply TR in H; lia|]. split; [|vm_compute; reflexivity].
    eapply (run_finish rowg rowT row0 row1 [row0] 0 (b3 6)).
    + eapply (run_start rowg rowT row0 row0 [] 0); [apply run_init|cbn; lia|vm_compute; reflexivity].
    + exists (hd {| mp_status := 0; mp_vis := b3 0; mp_might := b3 6; mp_num := 2 |} row1), 1, (fun _ _ => {| d_masks := []; d_test := [true; true; true]; d_go := true |}).
      eexists. split; [reflexivity|]. split; [reflexivity|]. split; [vm_compute; reflexivity|].
      split. { split; [split; [reflexivity|repeat constructor]|]. split; [reflexivity|]. intros m Hm. cbn in Hm.
        unfold has, lb_get. destruct (nth_error (lb_bits (b3 6)) (m / 32)) as [w|] eqn:E; [|reflexivity].
        destruct (m / 32) as [|k] eqn:D; [|destruct k; discriminate E]. cbn in E. injection E as <-.
        assert (B : m < 32) by (apply Nat.div_small_iff in D; lia).
        assert (F : forallb (fun m => negb (negb (N.land 6 (bit_mask m) =? 0)%N)) (seq 3 29) = true) by (vm_compute; reflexivity).
        rewrite forallb_forall in F. specialize (F m ltac:(apply in_seq; lia)). apply negb_true_iff in F. rewrite F. reflexivity. }
      split. { intro y. cbn [f_vis]. destruct y as [|[|[|y]]]; try (vm_compute; split; congruence).
        split; [|destruct y; discriminate]. intro H. exfalso. unfold has, lb_get in H. destruct (nth_error (lb_bits (b3 6)) (S (S (S y)) / 32)) as [w|] eqn:E; [|discriminate H].
        destruct (S (S (S y)) / 32) as [|k] eqn:D; [|destruct k; discriminate E]. cbn in E. injection E as <-.
        assert (B : S (S (S y)) < 32) by (apply Nat.div_small_iff in D; lia).
        assert (F : forallb (fun m => negb (negb (N.land 6 (bit_mask m) =? 0)%N)) (seq 3 29) = true) by (vm_compute; reflexivity).
        rewrite forallb_forall in F. specialize (F (S (S (S y))) ltac:(apply in_seq; lia)). apply negb_true_iff in F. rewrite F in H. discriminate H. }
      split; [reflexivity|]. split.
      * intros k u c m x e y _ _ H. cbn in H. destruct (length u); discriminate H.
      * intros k x c y H. cbn in H. destruct y as [|[|[|y]]]; try discriminate H. destruct y; discriminate H.
    + vm_compute. reflexivity.
Qed.
