(* Properties of region brushes (C146). *)
From Coq Require Import String Ascii.
From Coq Require Import Reals List ZArith Bool Arith Lra Lia.
From Verif Require Import AabbModel WindClipModel RegionModel RegionProofs.
From Verif Require AabbProofs.
Import ListNotations.
Open Scope R_scope.

(** * C146: compiling a region of a map *)

Lemma text_app s t : list_ascii_of_string (s ++ t) = (list_ascii_of_string s ++ list_ascii_of_string t)%list.
Proof. induction s as [|c s IH]; [reflexivity|]. cbn. rewrite IH. reflexivity. Qed.
Lemma text_inj s t : list_ascii_of_string s = list_ascii_of_string t -> s = t.
Proof. intros H. rewrite <- (string_of_list_ascii_of_string s), <- (string_of_list_ascii_of_string t), H. reflexivity. Qed.
Lemma starts_spec p : forall s, starts p s = true <-> exists r, s = (p ++ r)%list.
Proof.
  induction p as [|a p IH]; intros s; cbn [starts]; [split; [exists s; reflexivity|reflexivity]|]. destruct s as [|b s].
  - split; [discriminate|intros [r E]; discriminate].
  - rewrite andb_true_iff, IH, Ascii.eqb_eq. split.
    + intros [-> [r ->]]. exists r. reflexivity.
    + intros [r E]. injection E as -> ->. split; [reflexivity|exists r; reflexivity].
Qed.
Lemma ends_spec s p : ends_with s p = true <-> exists pre, s = (pre ++ p)%string.
Proof.
  unfold ends_with. rewrite starts_spec. split.
  - intros [r E]. exists (string_of_list_ascii (rev r)). apply text_inj. rewrite text_app, list_ascii_of_string_of_list_ascii.
    rewrite <- (rev_involutive (list_ascii_of_string s)), E, rev_app_distr, rev_involutive. reflexivity.
  - intros [pre ->]. rewrite text_app, rev_app_distr. eexists. reflexivity.
Qed.

(** A brush is an antiregion if all names of its sides end with "antiregion", a region if all end with "region"
    and the first not with "antiregion". *)
Definition ends (p s : string) : Prop := exists pre, s = (pre ++ p)%string.
Theorem C146_kind : forall n names,
  (kind_of (n :: names) = Antiregion <-> Forall (ends "antiregion") (n :: names)) /\
  (kind_of (n :: names) = Region <-> ~ ends "antiregion" n /\ Forall (ends "region") (n :: names)) /\ kind_of [] = Plain.
Proof.
  intros n names.
  assert (A : forall p l, forallb (fun m => ends_with m p) l = true <-> Forall (ends p) l).
  { intros p l. rewrite forallb_forall, Forall_forall. split; intros H x I; apply ends_spec, H, I. }
  unfold kind_of. destruct (ends_with n "antiregion") eqn:E.
  - assert (X : ends "antiregion" n) by (apply ends_spec; exact E). cbn [negb andb].
    destruct (forallb (fun m => ends_with m "antiregion") (n :: names)) eqn:F.
    + apply A in F. split; [tauto|]. split; [|reflexivity]. split; [discriminate|tauto].
    + split; [|split; [|reflexivity]]; (split; [discriminate|]).
      * intros G. apply A in G. congruence.
      * tauto.
  - assert (X : ~ ends "antiregion" n) by (intros G; apply ends_spec in G; congruence). cbn [negb andb].
    split.
    + split; [destruct (_ && _); discriminate|]. intros G. inversion G; contradiction.
    + split; [|reflexivity]. destruct (ends_with n "region" && forallb (fun m => ends_with m "region") (n :: names)) eqn:F.
      * apply andb_true_iff in F. rewrite (A "region"%string) in F. tauto.
      * split; [discriminate|]. intros [_ G]. assert (ends_with n "region" = true) by (inversion G; apply ends_spec; assumption).
        rewrite H in F. apply A in G. rewrite G in F. discriminate.
Qed.
Print Assumptions C146_kind.

(** A region whose sides have opposite sides: each brush around it is the layer of 16 units outside one side, none has
    a point of the inside, and no segment leads out of the region without meeting one. *)
Definition paired (sides : list plane) : Prop := forall k, In k sides -> p_n k <> mkV 0 0 0 /\ exists s, In s sides /\ opposite k s.
Theorem C146_shell : forall sides, paired sides ->
  length (shell sides) = length sides /\
  (forall i k p, nth_error sides i = Some k -> exists b, nth_error (shell sides) i = Some b /\
     (within b p <-> 0 <= dist_to k p <= 16 /\ forall s, In s sides -> s <> k -> ~ opposite k s -> dist_to s p <= 0)) /\
  (forall b p, In b (shell sides) -> Forall (fun s => dist_to s p < 0) sides -> ~ within b p) /\
  (forall p q, within sides p -> ~ within sides q -> exists t b, 0 <= t <= 1 /\ In b (shell sides) /\ within b (mix t p q) /\ within sides (mix t p q)).
Proof.
  intros sides PA. unfold shell. split; [apply map_length|]. split; [|split].
  - intros i k p E. exists (map (shell_side k) sides). split; [apply map_nth_error with (f := fun k => map (shell_side k) sides); exact E|]. apply nth_error_In in E. destruct (PA k E). apply shell_points; assumption.
  - intros b p I S W. apply in_map_iff in I. destruct I as (k & <- & K). destruct (PA k K) as [NZ O]. apply (shell_points sides k p K NZ O) in W. rewrite Forall_forall in S. specialize (S k K). lra.
  - intros p q P Q. destruct (leave sides p q P Q) as (t & k & T & K & E & W). exists t, (map (shell_side k) sides). split; [exact T|]. split; [apply in_map with (f := fun k => map (shell_side k) sides); exact K|]. split; [|exact W].
    destruct (PA k K) as [NZ O]. apply (shell_points sides k _ K NZ O). split; [lra|]. intros s I _ _. unfold within in W. rewrite Forall_forall in W. apply W, I.
Qed.
Print Assumptions C146_shell.

(** With a side that no other is opposite to, the region itself is inside of one of the brushes. *)
Theorem C146_slant_refuted : forall sides k p, In k sides -> (forall s, In s sides -> ~ opposite k s) -> within sides p ->
  exists b, In b (shell sides) /\ within b p.
Proof.
  intros sides k p K N W. exists (map (shell_side k) sides). split; [apply in_map with (f := fun k => map (shell_side k) sides); exact K|].
  unfold within in *. rewrite Forall_map, Forall_forall in *. intros s I. specialize (W s I). destruct (shell_side_cases k s) as [[-> E]|[(_ & O & _)|(_ & _ & E)]].
  - rewrite E, dist_out. lra.
  - destruct (N s I O).
  - rewrite E. exact W.
Qed.
Print Assumptions C146_slant_refuted.
Definition prism : list plane := [mkPl (mkV (-1) 0 0) 0; mkPl (mkV 0 (-1) 0) 0; mkPl (mkV (3 / 5) (4 / 5) 0) 64; mkPl (mkV 0 0 1) 64; mkPl (mkV 0 0 (-1)) 0].
Example C146_prism : within prism (mkV 16 16 16) /\ exists b, In b (shell prism) /\ forall p, within prism p -> within b p.
Proof.
  split.
  - unfold within, prism, dist_to, dot. repeat apply Forall_cons; try apply Forall_nil; cbn [vx vy vz p_n p_d]; lra.
  - exists (map (shell_side (mkPl (mkV (3 / 5) (4 / 5) 0) 64)) prism). split; [apply in_map with (f := fun k => map (shell_side k) prism); cbn; auto|].
    intros p W. assert (N : forall s, In s prism -> ~ opposite (mkPl (mkV (3 / 5) (4 / 5) 0) 64) s).
    { intros s I O. unfold opposite, prism, scale in *. cbn [In] in I. repeat destruct I as [<-|I]; try destruct I; cbn [p_n vx vy vz] in O; injection O; lra. }
    unfold within in *. rewrite Forall_map, Forall_forall in *. intros s I. specialize (W s I). destruct (shell_side_cases (mkPl (mkV (3 / 5) (4 / 5) 0) 64) s) as [[-> E]|[(_ & O & _)|(_ & _ & E)]].
    + rewrite E, dist_out. lra.
    + destruct (N s I O).
    + rewrite E. exact W.
Qed.

(** Brushes of the world are left out exactly if their bounds have no point in common with those of the region;
    the brushes around the region are not left out. *)
Lemma anti_nothing l b : anti_loop l b = false.
Proof. induction l as [|a l IH]; [reflexivity|]. cbn [anti_loop]. rewrite IH. destruct (negb _); reflexivity. Qed.
Theorem C146_brushes : forall world r anti b, AabbProofs.valid r -> AabbProofs.valid b -> length r = length b ->
  (left_out world (Some r) anti b = true <-> world = true /\ forall p, ~ (AabbProofs.inside p r /\ AabbProofs.inside p b)) /\ left_out world None anti b = false.
Proof.
  intros world r anti b V W L. unfold left_out. rewrite anti_nothing. split; [|destruct world; reflexivity]. destruct world; [|split; [discriminate|intros [E _]; discriminate]].
  assert (R : forall p, Forall2 (fun x y => Rabs (x - y) <= 0) p p) by (intros p; induction p; constructor; [rewrite Rminus_diag_eq, Rabs_R0 by reflexivity; lra|assumption]).
  destruct (disjoint 0 r b) eqn:D; (split; [|]).
  - intros _. split; [reflexivity|]. intros p [P Q]. exact (AabbProofs.disjoint_far 0 r b D p p P Q (R p)).
  - reflexivity.
  - discriminate.
  - intros [_ N]. exfalso. destruct (AabbProofs.near_disjoint 0 r ltac:(lra) b V W L D) as (p & q & P & Q & F).
    assert (E : p = q). { clear -F. induction F as [|x y p q H F IH]; [reflexivity|]. f_equal; [|exact IH]. pose proof (Rabs_pos (x - y)). assert (Z : Rabs (x - y) = 0) by lra. destruct (Req_EM_T (x - y) 0) as [G|G]; [lra|apply Rabs_no_R0 in G; contradiction]. }
    subst q. apply (N p). split; assumption.
Qed.
Print Assumptions C146_brushes.

(** Antiregions leave no brush out. *)
Theorem C146_anti_refuted : forall world anti b, left_out world None anti b = false.
Proof. intros [] anti b; [apply anti_nothing|reflexivity]. Qed.
Print Assumptions C146_anti_refuted.

(** With a map of brushes of the world: there is at most one region, which is not compiled itself but as the brushes around
    it, and the antiregions are compiled like any other brush. *)
Fixpoint parse_all (l : list (list string * list plane)) (s : pstate) : option pstate :=
  match l with [] => Some s | (n, b) :: r => match parse_brush true n b s with Some s => parse_all r s | None => None end end.
Definition is_region (x : list string * list plane) : bool := match kind_of (fst x) with Region => true | _ => false end.
Definition is_anti (x : list string * list plane) : bool := match kind_of (fst x) with Antiregion => true | _ => false end.
Theorem C146_parse : forall l,
  (parse_all l (mkPS [] None []) = None <-> (1 < length (filter is_region l))%nat) /\
  forall s, parse_all l (mkPS [] None []) = Some s ->
    ps_brushes s = flat_map (fun x => if is_region x then shell (snd x) else [snd x]) l /\
    ps_region s = match filter is_region l with [] => None | x :: _ => Some (snd x) end /\
    ps_anti s = map snd (filter is_anti l).
Proof.
  assert (G : forall l s,
    (parse_all l s = None <-> (1 < length (filter is_region l) + match ps_region s with Some _ => 1 | None => 0 end)%nat) /\
    forall s', parse_all l s = Some s' ->
      ps_brushes s' = ps_brushes s ++ flat_map (fun x => if is_region x then shell (snd x) else [snd x]) l /\
      ps_region s' = match ps_region s with Some r => Some r | None => match filter is_region l with [] => None | x :: _ => Some (snd x) end end /\
      ps_anti s' = ps_anti s ++ map snd (filter is_anti l) \/ (1 < match ps_region s with Some _ => 1 | None => 0 end)%nat).
  { induction l as [|[n b] l IH]; intros s; cbn [parse_all].
    - cbn [filter length flat_map map]. split; [split; [discriminate|destruct (ps_region s); lia]|]. intros s' E. injection E as <-. left. rewrite !app_nil_r. destruct (ps_region s); auto.
    - unfold parse_brush. cbn [filter flat_map]. assert (KR : is_region (n, b) = match kind_of n with Region => true | _ => false end) by reflexivity. assert (KA : is_anti (n, b) = match kind_of n with Antiregion => true | _ => false end) by reflexivity.
      rewrite KR, KA. destruct (kind_of n); cbn [snd].
      + destruct (IH (mkPS (ps_brushes s ++ [b]) (ps_region s) (ps_anti s))) as [A B]. cbn [ps_brushes ps_region ps_anti] in *. split; [exact A|]. intros s' E. destruct (B s' E) as [(B1 & B2 & B3)|B1]; [left|right; exact B1]. rewrite B1, <- app_assoc. auto.
      + destruct (ps_region s) as [r|] eqn:ER.
        * split; [split; [intros _; cbn [length]; lia|reflexivity]|discriminate].
        * destruct (IH (mkPS (ps_brushes s ++ shell b) (Some b) (ps_anti s))) as [A B]. cbn [ps_brushes ps_region ps_anti length] in *. split; [rewrite A; lia|]. intros s' E. destruct (B s' E) as [(B1 & B2 & B3)|B1]; [left|lia]. rewrite B1, <- app_assoc. auto.
      + destruct (IH (mkPS (ps_brushes s ++ [b]) (ps_region s) (ps_anti s ++ [b]))) as [A B]. cbn [ps_brushes ps_region ps_anti] in *. split; [exact A|]. intros s' E. destruct (B s' E) as [(B1 & B2 & B3)|B1]; [left|right; exact B1]. rewrite B1, <- app_assoc. cbn [map snd]. rewrite B3, <- app_assoc. auto. }
  intros l. destruct (G l (mkPS [] None [])) as [A B]. cbn [ps_brushes ps_region ps_anti app] in *. rewrite Nat.add_0_r in A. split; [exact A|]. intros s E. destruct (B s E) as [H|H]; [exact H|lia].
Qed.
Print Assumptions C146_parse.

(** With a region, or with antiregions, exactly the entities without brushes outside of it, or in one of them, are removed. *)
Definition sized (n : nat) (l : list rent) : Prop := Forall (fun e => length (re_origin e) = n) l.
Theorem C146_entities : forall b anti l, sized (length b) l -> Forall (fun a => length a = length b) anti ->
  (exists l', remove_ents (Some b) [] l = Some l' /\ forall e, In e l' <-> In e l /\ (re_brushes e <> 0%nat \/ AabbProofs.inside (re_origin e) b)) /\
  (exists l', remove_ents None anti l = Some l' /\ forall e, In e l' <-> In e l /\ (re_brushes e <> 0%nat \/ ~ exists a, In a anti /\ AabbProofs.inside (re_origin e) a)).
Proof.
  intros b anti l S A. unfold sized in S. rewrite Forall_forall in S, A. split; eexists; (split; [first [apply drop_region|apply drop_anti]; lia|]); intros e; rewrite filter_In, orb_true_iff, negb_true_iff, Nat.eqb_neq.
  - split; intros [I H]; (split; [exact I|]); (destruct H as [H|H]; [left; exact H|right]); apply AabbProofs.contains_point_spec in H || apply AabbProofs.contains_point_spec; auto.
  - rewrite negb_true_iff. assert (E : In e l -> existsb (fun a => contains_point a (re_origin e)) anti = true <-> exists a, In a anti /\ AabbProofs.inside (re_origin e) a).
    { intros I. rewrite existsb_exists. split; intros (a & J & H); exists a; (split; [exact J|]); apply AabbProofs.contains_point_spec in H || apply AabbProofs.contains_point_spec; auto; rewrite (A a J); auto. }
    split; intros [I H]; (split; [exact I|]); (destruct H as [H|H]; [left; exact H|right]).
    + rewrite <- (E I), H. discriminate.
    + rewrite <- (E I) in H. apply not_true_is_false. exact H.
Qed.
Print Assumptions C146_entities.

(** With both, the entity behind a removed one is judged by its origin even if it has brushes; and if the removed one
    is the last the loop uses an entity that is gone. *)
Definition rbox (lo hi : R) : box := [(lo, hi); (lo, hi); (lo, hi)].
Definition at_ (x : R) : pt := [x; x; x].
Lemma rbox_at lo hi x : contains_point (rbox lo hi) (at_ x) = (leb lo x && leb x hi).
Proof. unfold contains_point, rbox, at_. cbn [zip forallb fst snd]. destruct (leb lo x), (leb x hi); reflexivity. Qed.
Theorem C146_both_refuted : exists b anti world light door,
  re_brushes door = 1%nat /\ re_brushes light = 0%nat /\ contains_point b (re_origin light) = false /\
  remove_ents (Some b) anti [world; light; door] = Some [world] /\ remove_ents (Some b) anti [world; light] = None.
Proof.
  exists (rbox (-64) 64), [rbox (-8) 8], (mkRE 0 6 (at_ 0)), (mkRE 1 0 (at_ 100)), (mkRE 2 1 (at_ 0)).
  assert (L1 : contains_point (rbox (-64) 64) (at_ 100) = false).
  { rewrite rbox_at. unfold leb. destruct (Rle_dec 100 64); [lra|]. apply andb_false_r. }
  assert (L2 : contains_point (rbox (-8) 8) (at_ 0) = true).
  { rewrite rbox_at. unfold leb. destruct (Rle_dec (-8) 0); [|lra]. destruct (Rle_dec 0 8); [reflexivity|lra]. }
  cbn [re_brushes re_origin]. repeat split; [exact L1|..]; unfold remove_ents; cbn [length drop_ents re_brushes re_origin Nat.eqb in_anti existsb]; rewrite ?L1, ?L2; cbn [negb orb option_map]; reflexivity.
Qed.
Print Assumptions C146_both_refuted.

(** A box from -64 to 64: a point beyond its side at x = 64 is in the shell, the middle is not. *)
Definition cube : list plane :=
  [mkPl (mkV 1 0 0) 64; mkPl (mkV (-1) 0 0) 64; mkPl (mkV 0 1 0) 64; mkPl (mkV 0 (-1) 0) 64; mkPl (mkV 0 0 1) 64; mkPl (mkV 0 0 (-1)) 64].
Example C146_nontrivial : paired cube /\ (exists b, In b (shell cube) /\ within b (mkV 70 0 0)) /\ (forall b, In b (shell cube) -> ~ within b (mkV 0 0 0)) /\
  kind_of ["region"; "region"]%string = Region /\ kind_of ["antiregion"; "trim/antiregion"]%string = Antiregion /\ kind_of ["region"; "wall"]%string = Plain.
Proof.
  assert (PA : paired cube).
  { intros k I. unfold cube in I. cbn [In] in I. repeat destruct I as [<-|I]; try destruct I;
      (split; [cbn [p_n]; intro E; injection E; lra|]);
      [exists (mkPl (mkV (-1) 0 0) 64)|exists (mkPl (mkV 1 0 0) 64)|exists (mkPl (mkV 0 (-1) 0) 64)|exists (mkPl (mkV 0 1 0) 64)|exists (mkPl (mkV 0 0 (-1)) 64)|exists (mkPl (mkV 0 0 1) 64)];
      (split; [cbn; auto 8|unfold opposite, scale; cbn [p_n vx vy vz]; f_equal; ring]). }
  split; [exact PA|]. destruct (C146_shell cube PA) as (_ & S2 & S3 & _). split; [|split; [|repeat split; reflexivity]].
  - destruct (S2 0%nat (mkPl (mkV 1 0 0) 64) (mkV 70 0 0) eq_refl) as (b & E & H). exists b. split; [eapply nth_error_In; exact E|]. apply H. split; [unfold dist_to, dot; cbn [p_n p_d vx vy vz]; lra|].
    intros s I N NO. unfold cube in I. cbn [In] in I. repeat destruct I as [<-|I]; try destruct I; try (destruct N; reflexivity); unfold dist_to, dot; cbn [p_n p_d vx vy vz]; lra.
  - intros b I. apply S3; [exact I|]. unfold cube. repeat apply Forall_cons; try apply Forall_nil; unfold dist_to, dot; cbn [p_n p_d vx vy vz]; lra.
Qed.
