From Coq Require Import List Arith Bool Lia.
Import ListNotations.
From Verif Require Import Base Dfs VisFloodModel.

Definition wf_graph (g : vgraph) : Prop :=
  Forall (Forall (fun p => p < length (g_dest g))) (g_leafs g) /\
  Forall (fun l => l < length (g_leafs g)) (g_dest g).

(** A walk through portals the base tests let pass. *)
Inductive leaf_walk (g : vgraph) (see : list bool) : nat -> nat -> Prop :=
| walk_here : forall x, leaf_walk g see x x
| walk_portal : forall x ps p y z, nth_error (g_leafs g) x = Some ps -> In p ps ->
    nth_error see p = Some true -> nth_error (g_dest g) p = Some y -> leaf_walk g see y z -> leaf_walk g see x z.

Lemma flood_targets_spec : forall g see ps, length see = length (g_dest g) ->
  Forall (fun p => p < length (g_dest g)) ps ->
  exists l, flood_targets g see ps = Some l /\
    forall y, In y l <-> exists p, In p ps /\ nth_error see p = Some true /\ nth_error (g_dest g) p = Some y.
Proof.
  intros g see ps HL. induction ps as [|p t IH]; intro HF; simpl.
  - exists []. split; [reflexivity|]. intro y; split; [intros []|intros (p & [] & _)].
  - inversion HF as [|? ? Hp Ht]; subst. destruct (IH Ht) as (l & E & H). rewrite E.
    destruct (nth_error see p) as [b|] eqn:Es.
    2:{ apply nth_error_None in Es. lia. }
    destruct (nth_error (g_dest g) p) as [d|] eqn:Ed.
    2:{ apply nth_error_None in Ed. lia. }
    destruct b.
    + exists (d :: l). split; [reflexivity|]. intro y. simpl. rewrite H. split.
      * intros [<-|(q & A & B & C)]; [exists p|exists q]; auto.
      * intros (q & [<-|A] & B & C); [left; congruence|right; exists q; auto].
    + exists l. split; [reflexivity|]. intro y. rewrite H. split.
      * intros (q & A & B & C). exists q. simpl. auto.
      * intros (q & [<-|A] & B & C); [congruence|exists q; auto].
Qed.

Lemma base_portal_spec : forall g see portalnum leaf, wf_graph g -> length see = length (g_dest g) ->
  nth_error (g_dest g) portalnum = Some leaf ->
  exists v c, base_portal g see portalnum = Some (v, c) /\ length v = length (g_leafs g) /\
    (forall y, on v y <-> leaf_walk g see leaf y) /\ c = count_true v.
Proof.
  intros g see pn leaf [W1 W2] HL Hp. unfold base_portal, simple_flood. rewrite Hp.
  assert (Hleaf : leaf < length (g_leafs g)).
  { rewrite Forall_forall in W2. apply W2. eapply nth_error_In. eassumption. }
  assert (Hs : forall x, x < length (g_leafs g) -> exists ps l, nth_error (g_leafs g) x = Some ps /\
     flood_succ g see x = Some l /\ Forall (fun z => z < length (g_leafs g)) l /\
     forall y, In y l <-> exists p, In p ps /\ nth_error see p = Some true /\ nth_error (g_dest g) p = Some y).
  { intros x Hx. unfold flood_succ. destruct (nth_error (g_leafs g) x) as [ps|] eqn:E.
    2:{ apply nth_error_None in E. lia. }
    rewrite Forall_forall in W1. pose proof (W1 ps (nth_error_In _ _ E)) as Fps.
    destruct (flood_targets_spec g see ps HL Fps) as (l & El & H). exists ps, l.
    split; [reflexivity|]. split; [assumption|]. split; [|assumption].
    apply Forall_forall. intros z Hz. apply H in Hz. destruct Hz as (p & _ & _ & Hd).
    rewrite Forall_forall in W2. apply W2. eapply nth_error_In. eassumption. }
  destruct (dfs_reach (length (g_leafs g)) (flood_succ g see) leaf) as (v & c & E & L & R & C).
  { intros y Hy. destruct (Hs y Hy) as (ps & l & _ & B & C & _). eauto. }
  { assumption. }
  exists v, c. split; [assumption|]. split; [assumption|]. split; [|assumption].
  intro y. rewrite R. clear - Hs Hleaf. split; intro H.
  - induction H as [|x y z l El Hy H IH]; [constructor|].
    destruct (Hs x Hleaf) as (ps & l' & A & B & C & D). rewrite El in B. inversion B; subst l'.
    pose proof Hy as Hy2. apply D in Hy. destruct Hy as (p & P1 & P2 & P3).
    eapply walk_portal; try eassumption. apply IH. rewrite Forall_forall in C. auto.
  - induction H as [|x ps p y z A B C D H IH]; [constructor|].
    destruct (Hs x Hleaf) as (ps' & l & A' & E & F & G). rewrite A in A'. inversion A'; subst ps'.
    assert (Hin : In y l) by (apply G; eauto).
    eapply reach_step; try eassumption. apply IH. rewrite Forall_forall in F. auto.
Qed.
