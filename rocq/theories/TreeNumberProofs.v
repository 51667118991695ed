(* Leaf and cluster numbering, the cluster table, portal counting and pruning. *)
From Coq Require Import List Arith NArith ZArith Bool Lia.
Import ListNotations.
From Verif Require Import Base ParserModel StreamModel StreamProofs PrtModel PrtProofs TreeModel.

Section S.
Context {C : Type}.
Variable solid : C -> bool.

Notation ltree := (tree nodeD (leafD C)).

Definition isopen (l : leafD C) : bool := negb (solid (lf_contents l)).

(** The leafs that are not solid, in tree order. *)
Definition open_leafs (t : ltree) : list (leafD C) := filter isopen (tleafs t).

(** The clusters of a tree: all open leafs below a topmost detail separator form one, every other
    open leaf is one of its own. *)
Fixpoint groups (t : ltree) : list (list (leafD C)) :=
  match t with
  | Leaf l => if solid (lf_contents l) then [] else [[l]]
  | Node d a b => if nd_detail d then [open_leafs t] else groups a ++ groups b
  end.

Fixpoint has_detail (t : ltree) : bool :=
  match t with Leaf _ => false | Node d a b => nd_detail d || has_detail a || has_detail b end.

(** [labels gs k]: the number of the group of each member, groups counted from [k]. *)
Fixpoint labels {X} (gs : list (list X)) (k : nat) : list nat :=
  match gs with [] => [] | g :: r => repeat k (length g) ++ labels r (S k) end.

(** Consecutive leaf numbers from [n], clusters as listed. *)
Fixpoint numbered (ls : list (leafD C)) (n : nat) (cs : list nat) : list (nleaf C) :=
  match ls, cs with
  | l :: ls', c :: cs' => mkNL l (Some n) (Some c) :: numbered ls' (S n) cs'
  | _, _ => []
  end.

Lemma groups_concat : forall t, concat (groups t) = open_leafs t.
Proof.
  unfold open_leafs. induction t as [l|d a IHa b IHb]; cbn [groups].
  - cbn [tleafs filter]. unfold isopen. destruct (solid (lf_contents l)); reflexivity.
  - destruct (nd_detail d).
    + cbn [concat]. rewrite app_nil_r. reflexivity.
    + rewrite concat_app, IHa, IHb. cbn [tleafs]. rewrite filter_app. reflexivity.
Qed.

Lemma labels_app : forall X (a b : list (list X)) k, labels (a ++ b) k = labels a k ++ labels b (k + length a).
Proof.
  induction a as [|g a IH]; intros b k; cbn [app labels length].
  - rewrite Nat.add_0_r. reflexivity.
  - rewrite IH, app_assoc. replace (S k + length a) with (k + S (length a)) by lia. reflexivity.
Qed.

Lemma labels_length : forall X (a : list (list X)) k, length (labels a k) = length (concat a).
Proof. induction a as [|g a IH]; intro k; cbn [labels concat]; [reflexivity|]. rewrite !app_length, repeat_length, IH. reflexivity. Qed.

Lemma numbered_app : forall a b n ca cb, length ca = length a ->
  numbered (a ++ b) n (ca ++ cb) = numbered a n ca ++ numbered b (n + length a) cb.
Proof.
  induction a as [|x a IH]; intros b n ca cb H; destruct ca as [|c ca]; try discriminate; cbn [app numbered length].
  - rewrite Nat.add_0_r. reflexivity.
  - injection H as H. rewrite IH by exact H. replace (S n + length a) with (n + S (length a)) by lia. reflexivity.
Qed.

Lemma numbered_leafs : forall a n cs, length cs = length a -> map nl_leaf (numbered a n cs) = a.
Proof.
  induction a as [|x a IH]; intros n cs H; destruct cs as [|c cs]; try discriminate; [reflexivity|].
  cbn [numbered map nl_leaf]. injection H as H. rewrite IH by exact H. reflexivity.
Qed.

Lemma repeat_app' : forall X (x : X) a b, repeat x (a + b) = repeat x a ++ repeat x b.
Proof. intros. apply repeat_app. Qed.

Definition nopen (l : nleaf C) : bool := isopen (nl_leaf l).

(** Numbering below a detail separator. *)
Lemma number_some : forall t s c, exists t' s', number solid t s (Some c) = (t', s') /\
  map nl_leaf (tleafs t') = tleafs t /\
  filter nopen (tleafs t') = numbered (open_leafs t) (st_leafs s) (repeat c (length (open_leafs t))) /\
  Forall (fun l => nopen l = false -> nl_num l = None /\ nl_cluster l = None) (tleafs t') /\
  st_leafs s' = st_leafs s + length (open_leafs t) /\ st_clusters s' = st_clusters s /\ st_detail s' = st_detail s.
Proof.
  unfold open_leafs. induction t as [l|d a IHa b IHb]; intros s c; cbn [number].
  - unfold lsolid, isopen. cbn [tleafs filter]. destruct (solid (lf_contents l)) eqn:E; cbn [negb].
    + eexists. eexists. split; [reflexivity|]. cbn [tleafs map filter nl_leaf]. unfold nopen, isopen. cbn [nl_leaf].
      rewrite E. cbn [negb length]. repeat split; auto; lia.
    + eexists. eexists. split; [reflexivity|]. cbn [tleafs map filter nl_leaf]. unfold nopen, isopen. cbn [nl_leaf].
      rewrite E. cbn [negb length]. split; [reflexivity|]. split; [reflexivity|]. split.
      * constructor; [|constructor]. unfold nopen, isopen. cbn [nl_leaf]. rewrite E. discriminate.
      * cbn [st_leafs st_clusters st_detail]. repeat split; lia.
  - destruct (IHa s c) as [a' [s2 [Ea [A1 [A2 [A3 [A4 [A5 A6]]]]]]]].
    destruct (IHb s2 c) as [b' [s3 [Eb [B1 [B2 [B3 [B4 [B5 B6]]]]]]]].
    rewrite Ea, Eb. eexists. eexists. split; [reflexivity|]. cbn [tleafs].
    rewrite map_app, A1, B1. split; [reflexivity|].
    rewrite !filter_app, A2, B2. split.
    + rewrite app_length, repeat_app', numbered_app by apply repeat_length. rewrite A4. reflexivity.
    + split; [apply Forall_app; split; assumption|]. rewrite app_length. repeat split; try congruence. lia.
Qed.

Lemma number_none : forall t s, exists t' s', number solid t s None = (t', s') /\
  map nl_leaf (tleafs t') = tleafs t /\
  filter nopen (tleafs t') = numbered (open_leafs t) (st_leafs s) (labels (groups t) (st_clusters s)) /\
  Forall (fun l => nopen l = false -> nl_num l = None /\ nl_cluster l = None) (tleafs t') /\
  st_leafs s' = st_leafs s + length (open_leafs t) /\ st_clusters s' = st_clusters s + length (groups t) /\
  st_detail s' = st_detail s || has_detail t.
Proof.
  induction t as [l|d a IHa b IHb]; intros s; cbn [number].
  - unfold open_leafs, lsolid, isopen. cbn [tleafs filter groups]. destruct (solid (lf_contents l)) eqn:E; cbn [negb].
    + eexists. eexists. split; [reflexivity|]. cbn [tleafs map filter nl_leaf]. unfold nopen, isopen. cbn [nl_leaf].
      rewrite E. cbn [negb length has_detail]. rewrite orb_false_r. repeat split; auto; lia.
    + eexists. eexists. split; [reflexivity|]. cbn [tleafs map filter nl_leaf]. unfold nopen, isopen. cbn [nl_leaf].
      rewrite E. cbn [negb length]. split; [reflexivity|]. split; [reflexivity|]. split.
      * constructor; [|constructor]. unfold nopen, isopen. cbn [nl_leaf]. rewrite E. discriminate.
      * cbn [st_leafs st_clusters st_detail has_detail]. rewrite orb_false_r. repeat split; lia.
  - destruct (nd_detail d) eqn:D.
    + set (s1 := mkPS _ _ _ _).
      destruct (number_some a s1 (st_clusters s)) as [a' [s2 [Ea [A1 [A2 [A3 [A4 [A5 A6]]]]]]]].
      destruct (number_some b s2 (st_clusters s)) as [b' [s3 [Eb [B1 [B2 [B3 [B4 [B5 B6]]]]]]]].
      rewrite Ea, Eb. eexists. eexists. split; [reflexivity|]. cbn [tleafs groups]. rewrite D.
      rewrite map_app, A1, B1. split; [reflexivity|].
      rewrite !filter_app, A2, B2.
      assert (O : open_leafs (Node d a b) = open_leafs a ++ open_leafs b) by (unfold open_leafs; cbn [tleafs]; apply filter_app).
      rewrite O. split.
      * cbn [labels]. rewrite app_nil_r, app_length, repeat_app', numbered_app by apply repeat_length.
        rewrite A4. reflexivity.
      * split; [apply Forall_app; split; assumption|]. rewrite app_length. cbn [length].
        rewrite B4, A4, B5, A5, B6, A6. subst s1. cbn [st_leafs st_clusters st_detail has_detail]. rewrite D. cbn [orb].
        rewrite orb_true_r. repeat split; lia.
    + destruct (IHa s) as [a' [s2 [Ea [A1 [A2 [A3 [A4 [A5 A6]]]]]]]].
      destruct (IHb s2) as [b' [s3 [Eb [B1 [B2 [B3 [B4 [B5 B6]]]]]]]].
      rewrite Ea, Eb. eexists. eexists. split; [reflexivity|]. cbn [tleafs groups]. rewrite D.
      rewrite map_app, A1, B1. split; [reflexivity|].
      rewrite !filter_app, A2, B2.
      assert (O : open_leafs (Node d a b) = open_leafs a ++ open_leafs b) by (unfold open_leafs; cbn [tleafs]; apply filter_app).
      rewrite O. split.
      * rewrite labels_app, numbered_app by (rewrite labels_length, groups_concat; reflexivity).
        rewrite A4, A5. reflexivity.
      * split; [apply Forall_app; split; assumption|]. rewrite !app_length.
        rewrite B4, A4, B5, A5, B6, A6. cbn [has_detail]. rewrite D. cbn [orb]. rewrite orb_assoc. repeat split; lia.
Qed.

(* ------------------------------------------------------------------------------------------- *)
(** ** The cluster table *)

(** No node has two solid leafs as children. *)
Fixpoint pruned (t : ltree) : Prop :=
  match t with
  | Leaf _ => True
  | Node _ a b => pruned a /\ pruned b /\ ~ (any_solid_leaf solid a = true /\ any_solid_leaf solid b = true)
  end.

Lemma pruned_open : forall t, pruned t -> any_solid_leaf solid t = false -> open_leafs t <> [].
Proof.
  unfold open_leafs. induction t as [l|d a IHa b IHb]; intros H1 H2; cbn [tleafs].
  - cbn [any_solid_leaf] in H2. unfold lsolid in H2. cbn [filter]. unfold isopen. rewrite H2. discriminate.
  - destruct H1 as [PA [PB NS]]. rewrite filter_app. intro H. apply app_eq_nil in H. destruct H as [HA HB].
    destruct (any_solid_leaf solid a) eqn:EA; [|apply (IHa PA eq_refl HA)].
    destruct (any_solid_leaf solid b) eqn:EB; [|apply (IHb PB eq_refl HB)].
    apply NS. split; reflexivity.
Qed.

Lemma pruned_groups : forall t, pruned t -> Forall (fun g => g <> []) (groups t).
Proof.
  induction t as [l|d a IHa b IHb]; intro H; cbn [groups].
  - destruct (solid (lf_contents l)); repeat constructor. discriminate.
  - destruct (nd_detail d).
    + constructor; [|constructor]. apply pruned_open; [exact H|reflexivity].
    + destruct H as [PA [PB _]]. apply Forall_app. split; auto.
Qed.

(** The table depends only on the open leafs. *)
Fixpoint ct_list (ls : list (nleaf C)) (vc : Z) : option (bytes * Z) :=
  match ls with
  | [] => Some ([], vc)
  | l :: r => match cluster_table solid (Leaf l) vc with
              | Some (x, v1) => match ct_list r v1 with Some (y, v2) => Some (x ++ y, v2) | None => None end
              | None => None
              end
  end.

Lemma ct_list_app : forall a b vc, ct_list (a ++ b) vc =
  match ct_list a vc with
  | Some (x, v1) => match ct_list b v1 with Some (y, v2) => Some (x ++ y, v2) | None => None end
  | None => None
  end.
Proof.
  induction a as [|l a IH]; intros b vc; cbn [app ct_list].
  - destruct (ct_list b vc) as [[y v]|]; reflexivity.
  - destruct (cluster_table solid (Leaf l) vc) as [[x v1]|]; [|reflexivity]. rewrite IH.
    destruct (ct_list a v1) as [[y v2]|]; [|reflexivity].
    destruct (ct_list b v2) as [[z v3]|]; [|reflexivity]. rewrite app_assoc. reflexivity.
Qed.

Lemma cluster_table_list : forall (t : tree nnode (nleaf C)) vc, cluster_table solid t vc = ct_list (filter nopen (tleafs t)) vc.
Proof.
  induction t as [l|d a IHa b IHb]; intro vc.
  - cbn [tleafs filter]. destruct (nopen l) eqn:E; cbn [ct_list].
    + destruct (cluster_table solid (Leaf l) vc) as [[x v]|]; [|reflexivity]. rewrite app_nil_r. reflexivity.
    + unfold nopen, isopen in E. apply negb_false_iff in E. cbn [cluster_table]. unfold lsolid. rewrite E. reflexivity.
  - cbn [cluster_table tleafs]. rewrite filter_app, ct_list_app, <- IHa. destruct (cluster_table solid a vc) as [[x v]|]; [|reflexivity].
    rewrite <- IHb. reflexivity.
Qed.

Definition items (c : list nat) : bytes := concat (map (fun n => print_nat n ++ [sp]) c).
Definition endline : bytes := [45; 49; 10]%N.

Lemma ct_group : forall (g : list (leafD C)) n k, Forall (fun l => isopen l = true) g ->
  ct_list (numbered g n (repeat k (length g))) (Z.of_nat k) = Some (items (seq n (length g)), Z.of_nat k).
Proof.
  induction g as [|l g IH]; intros n k F; cbn [length repeat numbered ct_list seq]; [reflexivity|].
  inversion F as [|? ? O F']. subst. cbn [cluster_table nl_leaf nl_cluster nl_num optZ]. unfold lsolid.
  unfold isopen in O. apply negb_true_iff in O. rewrite O, !Z.eqb_refl. rewrite IH by exact F'.
  cbn [app]. unfold items. cbn [map concat]. reflexivity.
Qed.

Lemma ct_next_group : forall (g : list (leafD C)) n k, g <> [] -> Forall (fun l => isopen l = true) g ->
  ct_list (numbered g n (repeat (S k) (length g))) (Z.of_nat k) = Some (endline ++ items (seq n (length g)), Z.of_nat (S k)).
Proof.
  intros g n k NE F. destruct g as [|l g]; [contradiction|]. inversion F as [|? ? O F']. subst.
  cbn [length repeat numbered ct_list seq cluster_table nl_leaf nl_cluster nl_num optZ]. unfold lsolid.
  unfold isopen in O. apply negb_true_iff in O. rewrite O.
  replace (Z.of_nat (S k) =? Z.of_nat k)%Z with false by (symmetry; apply Z.eqb_neq; lia).
  replace (Z.of_nat k + 1)%Z with (Z.of_nat (S k)) by lia. rewrite Z.eqb_refl.
  rewrite ct_group by exact F'. unfold items, endline. cbn [map concat]. rewrite <- !app_assoc. reflexivity.
Qed.

(** Leaf numbers of each group. *)
Fixpoint nums {X} (gs : list (list X)) (n : nat) : list (list nat) :=
  match gs with [] => [] | g :: r => seq n (length g) :: nums r (n + length g) end.

Lemma nums_concat : forall X (gs : list (list X)) n, concat (nums gs n) = seq n (length (concat gs)).
Proof.
  induction gs as [|g gs IH]; intro n; cbn [nums concat]; [reflexivity|]. rewrite IH, app_length.
  rewrite <- seq_app. reflexivity.
Qed.

Lemma nums_length : forall X (gs : list (list X)) n, length (nums gs n) = length gs.
Proof. induction gs as [|g gs IH]; intro n; cbn [nums length]; [reflexivity|]. rewrite IH. reflexivity. Qed.

Lemma ct_rest : forall gs n k, Forall (fun g => g <> []) gs -> Forall (fun l => isopen l = true) (concat gs) ->
  ct_list (numbered (concat gs) n (labels gs (S k))) (Z.of_nat k) =
  Some (concat (map (fun c => endline ++ items c) (nums gs n)), Z.of_nat (k + length gs)).
Proof.
  induction gs as [|g gs IH]; intros n k NE F; cbn [concat labels nums map length].
  - cbn [numbered ct_list]. rewrite Nat.add_0_r. reflexivity.
  - inversion NE as [|? ? G NE']. subst. apply Forall_app in F. destruct F as [F1 F2].
    rewrite numbered_app by apply repeat_length. rewrite ct_list_app.
    rewrite ct_next_group by assumption. rewrite IH by assumption.
    replace (S k + length gs) with (k + S (length gs)) by lia. reflexivity.
Qed.

Lemma ends : forall a (cs : list (list nat)), a ++ concat (map (fun c => endline ++ items c) cs) ++ endline =
  a ++ endline ++ print_table cs.
Proof.
  intros a cs. f_equal. induction cs as [|c cs IH]; [reflexivity|].
  unfold print_table, print_cluster in *. cbn [map concat]. rewrite <- !app_assoc. rewrite IH. reflexivity.
Qed.

(** On a pruned tree with a cluster the table is the list of the clusters' leaf numbers. *)
Lemma write_table_spec : forall t t' s, pruned t -> any_solid_leaf solid t = false ->
  number_tree solid t = (t', s) ->
  write_table solid t' (st_clusters s) = Some (print_table (nums (groups t) 0)).
Proof.
  intros t t' s P O E. unfold number_tree in E.
  destruct (number_none t (mkPS 0 0 0 false)) as [t1 [s1 [E1 [_ [F [_ [_ [CL _]]]]]]]].
  rewrite E in E1. injection E1 as <- <-. cbn [st_leafs st_clusters] in *.
  unfold write_table. rewrite cluster_table_list, F. rewrite <- groups_concat.
  pose proof (pruned_groups t P) as NE. pose proof (pruned_open t P O) as OP. rewrite <- groups_concat in OP.
  assert (FO : Forall (fun l => isopen l = true) (concat (groups t))).
  { rewrite groups_concat. apply Forall_forall. intros x X. unfold open_leafs in X. apply filter_In in X. apply X. }
  destruct (groups t) as [|g gs]; [contradiction OP; reflexivity|].
  inversion NE as [|? ? G NE']. subst. cbn [concat] in *. apply Forall_app in FO. destruct FO as [F1 F2].
  cbn [labels]. rewrite numbered_app by apply repeat_length. rewrite ct_list_app.
  change 0%Z with (Z.of_nat 0). rewrite ct_group by exact F1.
  rewrite ct_rest by assumption. rewrite CL. cbn [length].
  replace (Z.of_nat (0 + length gs) =? Z.of_nat (0 + S (length gs)) - 1)%Z with true by (symmetry; apply Z.eqb_eq; lia).
  f_equal. rewrite <- app_assoc. change [45; 49; 10]%N with endline. rewrite ends.
  unfold print_table. cbn [nums map concat]. unfold print_cluster at 2. rewrite <- app_assoc. reflexivity.
Qed.

(* ------------------------------------------------------------------------------------------- *)
(** ** The header's portal count *)

(** Leafs below a detail separator have no portals, and every portal has a winding. *)
Definition no_portals (t : ltree) : Prop := Forall (fun l => lf_portals l = []) (tleafs t).

Fixpoint vis_portals (t : ltree) : Prop :=
  match t with
  | Leaf l => Forall (fun p => vp_wind p = true) (lf_portals l)
  | Node d a b => if nd_detail d then Forall (fun p => vp_wind p = true) (nd_portals d) /\ no_portals a /\ no_portals b
                  else vis_portals a /\ vis_portals b
  end.

Lemma printed_count : forall ps, Forall (fun p => vp_wind p = true) ps -> length (printed ps) = count_portals ps.
Proof.
  intros ps F. unfold printed, count_portals. rewrite map_length.
  induction F as [|p ps H _ IH]; [reflexivity|]. cbn [filter]. rewrite H. cbn [andb].
  destruct (vp_first p && vp_flood p); cbn [length]; rewrite IH; reflexivity.
Qed.

Lemma number_some_portals : forall t s c, no_portals t -> st_portals (snd (number solid t s (Some c))) = st_portals s.
Proof.
  unfold no_portals. induction t as [l|d a IHa b IHb]; intros s c F; cbn [number].
  - cbn [tleafs] in F. inversion F as [|? ? H _]. subst. destruct (lsolid solid l); [reflexivity|].
    rewrite H. cbn. lia.
  - cbn [tleafs] in F. apply Forall_app in F. destruct F as [FA FB].
    specialize (IHa s c FA). destruct (number solid a s (Some c)) as [a' s2]. cbn [snd] in IHa.
    specialize (IHb s2 c FB). destruct (number solid b s2 (Some c)) as [b' s3]. cbn [snd] in *. congruence.
Qed.

Lemma number_portals : forall t s, vis_portals t ->
  st_portals (snd (number solid t s None)) = st_portals s + length (write_portals solid t).
Proof.
  induction t as [l|d a IHa b IHb]; intros s F; cbn [number write_portals].
  - cbn [vis_portals] in F. destruct (lsolid solid l); cbn [snd st_portals length]; [lia|].
    rewrite printed_count by exact F. reflexivity.
  - cbn [vis_portals] in F. destruct (nd_detail d).
    + destruct F as [F0 [FA FB]]. rewrite printed_count by exact F0.
      set (s1 := mkPS _ _ _ _). pose proof (number_some_portals a s1 (st_clusters s) FA) as HA.
      destruct (number solid a s1 (Some (st_clusters s))) as [a' s2]. cbn [snd] in HA.
      pose proof (number_some_portals b s2 (st_clusters s) FB) as HB.
      destruct (number solid b s2 (Some (st_clusters s))) as [b' s3]. cbn [snd] in *. rewrite HB, HA. reflexivity.
    + destruct F as [FA FB]. specialize (IHa s FA). destruct (number solid a s None) as [a' s2]. cbn [snd] in IHa.
      specialize (IHb s2 FB). destruct (number solid b s2 None) as [b' s3]. cbn [snd] in *. rewrite app_length. lia.
Qed.

(* ------------------------------------------------------------------------------------------- *)
(** ** Pruning *)
Variable wall : C -> bool.
Variable mksolid : C.
Variable q2 : bool.
Hypothesis mksolid_solid : solid mksolid = true.

Lemma prune_pruned : forall t, pruned (prune solid wall mksolid q2 t).
Proof.
  induction t as [l|d a IHa b IHb]; cbn [prune].
  - destruct (negb q2 && wall (lf_contents l)); exact I.
  - destruct (any_solid_leaf solid (prune solid wall mksolid q2 a) && any_solid_leaf solid (prune solid wall mksolid q2 b)) eqn:E; [exact I|].
    cbn [pruned]. repeat split; auto. intros [H1 H2]. rewrite H1, H2 in E. discriminate.
Qed.

(** What pruning makes of the contents at a point. *)
Definition remapped (c : C) : C := if negb q2 && wall c then mksolid else c.

Lemma prune_locate : forall side t,
  let c := remapped (lf_contents (locate side t)) in
  let c' := lf_contents (locate side (prune solid wall mksolid q2 t)) in
  solid c' = solid c /\ (solid c = false -> c' = c).
Proof.
  intros side. induction t as [l|d a IHa b IHb]; cbn [prune locate]; unfold remapped in *.
  - destruct (negb q2 && wall (lf_contents l)) eqn:E; cbn [locate lf_contents]; auto.
  - cbn zeta in *. destruct (any_solid_leaf solid (prune solid wall mksolid q2 a) && any_solid_leaf solid (prune solid wall mksolid q2 b)) eqn:E.
    + apply andb_true_iff in E. destruct E as [E1 E2]. cbn [locate lf_contents]. rewrite mksolid_solid.
      destruct (side (nd_plane d)).
      * destruct (prune solid wall mksolid q2 a) as [l|]; [|discriminate]. cbn [any_solid_leaf locate] in *.
        unfold lsolid in E1. destruct IHa as [H1 H2]. rewrite E1 in H1. rewrite <- H1. split; [reflexivity|discriminate].
      * destruct (prune solid wall mksolid q2 b) as [l|]; [|discriminate]. cbn [any_solid_leaf locate] in *.
        unfold lsolid in E2. destruct IHb as [H1 H2]. rewrite E2 in H1. rewrite <- H1. split; [reflexivity|discriminate].
    + cbn [locate]. destruct (side (nd_plane d)); assumption.
Qed.
End S.
