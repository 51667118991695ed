(* C136: minimum light of faces. *)
From Coq Require Import Reals List Bool ZArith Lia Lra.
From Verif Require Import NumCastModel WindClipModel LightValModel LightColModel LightColProofs MinLightModel MinLightProofs.
Import ListNotations.
Open Scope R_scope.

(** ** C136 *)

(** The level of a face is the greater of that of worldspawn and the one chosen for the surface:
    the key of the model, else the flag of the texture, else worldspawn; in Quake II the chosen one
    counts 128 times.  The colour goes with the one that was taken. *)
Theorem C136_level : forall (q2 : bool) key flag world ckey cflag cworld l c,
  face_level (surf_minlight q2 key flag world) (surf_mincolor ckey cflag cworld) world cworld = (l, c) ->
  let u := if q2 then 128 else 1 in
  (forall k, key = Some k -> l = Rmax world (u * k)) /\
  (forall k, key = None -> flag = Some k -> l = Rmax world (u * k)) /\
  (key = None -> flag = None -> l = Rmax world (u * world)) /\
  (l <= world -> c = cworld) /\
  (world < l -> (forall k, ckey = Some k -> c = k) /\
                (ckey = None -> cflag <> black -> c = cflag) /\ (ckey = None -> cflag = black -> c = cworld)).
Proof.
  intros q2 key flag world ckey cflag cworld l c H u.
  assert (M : forall m, surf_minlight q2 key flag world = u * m -> l = Rmax world (u * m)).
  { intros m E. unfold face_level in H. rewrite E in H. destruct (Rlt_dec world (u * m)) as [A|A]; injection H as <- _.
    - rewrite Rmax_right by lra. reflexivity.
    - rewrite Rmax_left by lra. reflexivity. }
  split; [|split; [|split; [|split]]].
  - intros k ->. apply M. unfold surf_minlight, prefer, u. destruct q2; ring.
  - intros k -> ->. apply M. unfold surf_minlight, prefer, u. destruct q2; ring.
  - intros -> ->. apply M. unfold surf_minlight, prefer, u. destruct q2; ring.
  - intros L. unfold face_level in H. destruct (Rlt_dec world _) as [A|A]; [|congruence]. injection H as <- _. lra.
  - intros L. unfold face_level in H. destruct (Rlt_dec world _) as [A|A]; [|injection H as <- _; lra].
    assert (X : c = surf_mincolor ckey cflag cworld) by congruence. subst c. unfold surf_mincolor.
    split; [|split].
    + intros k ->. reflexivity.
    + intros -> B. destruct cflag as [x y z]. cbn [vx vy vz].
      destruct (Req_EM_T x 0) as [->|]; [|reflexivity]. destruct (Req_EM_T y 0) as [->|]; [|reflexivity].
      destruct (Req_EM_T z 0) as [->|]; [|reflexivity]. exfalso. apply B. reflexivity.
    + intros -> ->. unfold black. cbn [vx vy vz]. destruct (Req_EM_T 0 0); [reflexivity|contradiction].
Qed.
Print Assumptions C136_level.

(** A brush model cannot have a lower level than worldspawn, and in Quake its own colour counts
    only if its level is higher. *)
Theorem C136_override_refuted :
  face_level (surf_minlight false (Some 20) None 50) (surf_mincolor None black (mkV 255 255 255)) 50 (mkV 255 255 255)
    = (50, mkV 255 255 255) /\
  face_level (surf_minlight false None None 50) (surf_mincolor (Some (mkV 255 0 0)) black (mkV 255 255 255)) 50 (mkV 255 255 255)
    = (50, mkV 255 255 255).
Proof.
  unfold face_level, surf_minlight, prefer. split; (destruct (Rlt_dec 50 _); [lra|reflexivity]).
Qed.
Print Assumptions C136_override_refuted.

(** Minimum light raises every component of every sample to the level times the colour, no higher
    and only those below it; other styles stay as they are.  With addmin it is added instead. *)
Theorem C136_min : forall g mot ss light col style d, style <> INVALID_STYLE ->
  let n := length ss in let d' := face_min false g mot ss light col style d in
  (forall i s c, nth_error ss i = Some s -> nth_error (shown d style n) i = Some c ->
     let dirt := if m_dirt g then min_dirt g s else 1 in
     let noise := match mot with Some f => f (sp_point s) | None => 0 end in
     nth_error (shown d' style n) i = Some (if m_add g
       then mkV (vx c + light * dirt / 255 * vx col) (vy c + light * dirt / 255 * vy col) (vz c + light * dirt / 255 * vz col)
       else mkV (Rmax (vx c) ((light * dirt + noise) / 255 * vx col)) (Rmax (vy c) ((light * dirt + noise) / 255 * vy col))
                (Rmax (vz c) ((light * dirt + noise) / 255 * vz col)))) /\
  (forall t, t <> style -> t <> INVALID_STYLE -> shown d' t n = shown d t n).
Proof.
  intros g mot ss light col style d N n d'. unfold d', face_min, n.
  destruct (shown_each d style (length ss) (min_sample g mot light col) ss N (min_sample_keep g mot light col)) as (A & _ & B).
  split; [|exact B]. intros i s c S C. cbn zeta. rewrite (A i s c S C). f_equal. unfold min_sample.
  destruct (m_add g).
  - cbn [fst]. unfold add, scale. destruct (m_dirt g); rewrite ?Rmult_1_r; reflexivity.
  - rewrite (proj1 (clamp_min_spec _ _ _)). unfold vmax2, floor_of, scale. cbn [vx vy vz].
    destruct (m_dirt g), mot; rewrite ?Rmult_1_r, ?Rplus_0_r; reflexivity.
Qed.
Print Assumptions C136_min.

(** Textures that are excluded get neither minimum light nor local minimum light. *)
Theorem C136_excluded : forall g mot ss light col style ignore es d,
  face_min true g mot ss light col style d = d /\ local_min true ignore g ss es d = d /\ local_min false true g ss es d = d.
Proof. intros. repeat split; reflexivity. Qed.
Print Assumptions C136_excluded.

(** A change of the samples of styles that only raises. *)
Definition raises (n : nat) (d d' : dict) : Prop :=
  forall t i c, t <> INVALID_STYLE -> nth_error (shown d t n) i = Some c ->
    exists c', nth_error (shown d' t n) i = Some c' /\ le3 c c'.
Lemma raises_refl : forall n d, raises n d d.
Proof. intros n d t i c T H. exists c. split; [exact H|apply le3_refl]. Qed.
Lemma raises_trans : forall n a b c, raises n a b -> raises n b c -> raises n a c.
Proof.
  intros n a b c A B t i x T H. destruct (A t i x T H) as (y & Y & L). destruct (B t i y T Y) as (z & Z & M).
  exists z. split; [exact Z|]. eapply le3_trans; eassumption.
Qed.
Lemma each_none : forall f ss cs i, nth_error ss i = None -> nth_error (fst (each f ss cs)) i = nth_error cs i.
Proof.
  intros f ss. induction ss as [|s ss IH]; intros cs i H; [reflexivity|]. destruct cs as [|c cs]; [reflexivity|].
  destruct i as [|i]; [discriminate H|]. cbn [each]. destruct (f s c) as [c' h]. specialize (IH cs i H).
  destruct (each f ss cs) as [r h']. exact IH.
Qed.
Lemma raises_each : forall d s n f ss, s <> INVALID_STYLE -> (forall x c, snd (f x c) = false -> fst (f x c) = c) ->
  (forall x c, le3 c (fst (f x c))) -> raises n d (on_style d s n (each f ss)).
Proof.
  intros d s n f ss N K M t i c T H. destruct (shown_on_style d s n (each f ss) N (fun cs => each_keep f ss cs K)) as [A B].
  destruct (Z.eq_dec t s) as [->|E].
  - rewrite A. destruct (nth_error ss i) as [x|] eqn:X.
    + exists (fst (f x c)). split; [apply each_nth; assumption|apply M].
    + exists c. rewrite each_none by exact X. split; [exact H|apply le3_refl].
  - rewrite B by assumption. exists c. split; [exact H|apply le3_refl].
Qed.

Lemma min_sample_raises : forall g mot light col x c, 0 <= light -> le3 black col -> le3 c (fst (min_sample g mot light col x c)).
Proof.
  intros g mot light col x c L (C1 & C2 & C3). unfold min_sample. destruct (m_add g).
  - cbn [fst]. pose proof (dirt_nonneg (d_inuse (m_cfg g) && negb (m_nodirt g)) (d_gain (m_cfg g)) (d_scale (m_cfg g)) (sp_occ x)) as D.
    fold (min_dirt g x) in D.
    assert (V : 0 <= (if m_dirt g then light * min_dirt g x else light) / 255).
    { apply Rmult_le_pos; [|lra]. destruct (m_dirt g); [apply Rmult_le_pos; assumption|assumption]. }
    unfold black in *. cbn [vx vy vz] in *. unfold le3, add, scale. cbn [vx vy vz].
    pose proof (Rmult_le_pos _ _ V C1). pose proof (Rmult_le_pos _ _ V C2). pose proof (Rmult_le_pos _ _ V C3). lra.
  - rewrite (proj1 (clamp_min_spec _ _ _)). apply vmax2_l.
Qed.
Lemma local_sample_raises : forall g e x c, m_add g = false -> le3 c (fst (local_sample g e x c)).
Proof.
  intros g e x c G. unfold local_sample. destruct (sp_occluded x); [apply le3_refl|]. rewrite G. cbn [orb].
  destruct (Rlt_dec _ _); [|apply le3_refl]. destruct (lm_sees e (sp_point x)); [|apply le3_refl].
  rewrite (proj1 (clamp_min_spec _ _ _)). apply vmax2_l.
Qed.

(** A local minimum light: a sample that is not in solid, sees the light and is darker than it on
    average is raised to its level times its colour, any other sample stays as it is. *)
Theorem C136_local : forall g ss e d, m_add g = false -> lm_style e <> INVALID_STYLE -> lm_skip e = false ->
  let n := length ss in let d' := local_min false false g ss [e] d in
  (forall i s c, nth_error ss i = Some s -> nth_error (shown d (lm_style e) n) i = Some c ->
     exists c', nth_error (shown d' (lm_style e) n) i = Some c' /\
       let v := lm_light e * dirt_scale (m_cfg g) (lm_dirt e) (m_nodirt g) (sp_occ s) 0 in
       (sp_occluded s = false -> lm_sees e (sp_point s) = true -> (vx c + vy c + vz c) / 3 < lm_light e ->
          c' = mkV (Rmax (vx c) (v / 255 * vx (lm_color e))) (Rmax (vy c) (v / 255 * vy (lm_color e)))
                   (Rmax (vz c) (v / 255 * vz (lm_color e)))) /\
       (sp_occluded s = true \/ lm_sees e (sp_point s) = false \/ lm_light e <= (vx c + vy c + vz c) / 3 -> c' = c)) /\
  (forall t, t <> lm_style e -> t <> INVALID_STYLE -> shown d' t n = shown d t n).
Proof.
  intros g ss e d G N K n d'. unfold d', local_min, n. cbn [fold_left]. rewrite K.
  destruct (shown_each d (lm_style e) (length ss) (local_sample g e) ss N (local_sample_keep g e)) as (A & _ & B).
  split; [|exact B]. intros i s c S C. exists (fst (local_sample g e s c)). split; [exact (A i s c S C)|].
  cbn zeta. unfold local_sample. rewrite G. cbn [orb]. fold (brightness c). split.
  - intros O V L. rewrite O, V. destruct (Rlt_dec (brightness c) (lm_light e)); [|contradiction].
    rewrite (proj1 (clamp_min_spec _ _ _)). reflexivity.
  - intros H. destruct (sp_occluded s); [reflexivity|]. destruct H as [H|[H|H]]; [discriminate H| |].
    + rewrite H. destruct (Rlt_dec _ _); reflexivity.
    + destruct (Rlt_dec (brightness c) (lm_light e)); [lra|reflexivity].
Qed.
Print Assumptions C136_local.

(** All local minimum lights, in any order: no sample gets darker, and each sample that sees one of
    them is in the end at least as bright as it on average, or has at least its colours. *)
Theorem C136_locals : forall g ss es d, m_add g = false -> (forall e, In e es -> lm_style e <> INVALID_STYLE) ->
  let n := length ss in let d' := local_min false false g ss es d in
  raises n d d' /\
  forall e i s c', In e es -> lm_skip e = false -> nth_error ss i = Some s -> sp_occluded s = false -> lm_sees e (sp_point s) = true ->
    (exists c, nth_error (shown d (lm_style e) n) i = Some c) -> nth_error (shown d' (lm_style e) n) i = Some c' ->
    lm_light e <= (vx c' + vy c' + vz c') / 3 \/
    le3 (scale (lm_light e * dirt_scale (m_cfg g) (lm_dirt e) (m_nodirt g) (sp_occ s) 0 / 255) (lm_color e)) c'.
Proof.
  intros g ss es d G ES n d'. unfold d', local_min, n.
  set (step := fun (d : dict) (e : localmin) => if lm_skip e then d else on_style d (lm_style e) (length ss) (each (local_sample g e) ss)).
  assert (ST : forall e d, lm_style e <> INVALID_STYLE -> raises (length ss) d (step d e)).
  { intros e d0 E. unfold step. destruct (lm_skip e); [apply raises_refl|]. apply raises_each; [exact E|apply local_sample_keep|].
    intros x c. apply local_sample_raises. exact G. }
  clear n d'. revert d ES. induction es as [|e es IH]; intros d ES.
  - split; [apply raises_refl|]. intros e i s c' [].
  - cbn [fold_left]. destruct (IH (step d e) (fun e' I => ES e' (or_intror I))) as [R1 R2].
    pose proof (ST e d (ES e (or_introl eq_refl))) as R0. split; [eapply raises_trans; eassumption|].
    intros e' i s c' I SK S O V (c & C) H. destruct I as [<-|I].
    + assert (N : lm_style e <> INVALID_STYLE) by (apply ES; left; reflexivity).
      destruct (shown_each d (lm_style e) (length ss) (local_sample g e) ss N (local_sample_keep g e)) as (A & _ & _).
      specialize (A i s c S C). assert (E : step d e = on_style d (lm_style e) (length ss) (each (local_sample g e) ss)).
      { unfold step. rewrite SK. reflexivity. }
      rewrite <- E in A. destruct (R1 (lm_style e) i _ N A) as (c2 & C2 & L2).
      rewrite H in C2. injection C2 as <-. unfold local_sample in L2. rewrite O, G in L2. cbn [orb] in L2.
      destruct (Rlt_dec (brightness c) (lm_light e)) as [B|B].
      * rewrite V in L2. rewrite (proj1 (clamp_min_spec _ _ _)) in L2. right.
        eapply le3_trans; [|exact L2]. apply vmax2_r.
      * left. fold (brightness c'). cbn [fst] in L2. pose proof (brightness_mono _ _ L2). lra.
    + destruct (R0 (lm_style e') i c (ES e' (or_intror I)) C) as (c2 & C2 & _).
      exact (R2 e' i s c' I SK S O V (ex_intro _ c2 C2) H).
Qed.
Print Assumptions C136_locals.

Definition no_dirt : mincfg := mkM false false (mkD false false 1 1) true.

(** A red sample that is bright on average stays without green and blue, whatever the local
    minimum light says. *)
Theorem C136_local_floor_refuted : exists ss e d c,
  local_min false false no_dirt ss [e] d = d /\ lm_skip e = false /\ ss <> [] /\
  (forall s, In s ss -> sp_occluded s = false /\ lm_sees e (sp_point s) = true) /\
  d = [(0%Z, [c])] /\ lm_light e = 80 /\ lm_color e = mkV 255 255 255 /\ vy c = 0.
Proof.
  exists [mkS black 0 false], (mkLM false 0 80 (mkV 255 255 255) (mkDL (-1) 0 0 None) (fun _ => true)), [(0%Z, [mkV 255 0 0])], (mkV 255 0 0).
  repeat match goal with |- _ /\ _ => split end; try reflexivity; try discriminate.
  - unfold local_min. cbn [fold_left lm_skip lm_style length]. unfold on_style, for_style. cbn [index_of Z.eqb nth fst snd each].
    unfold local_sample. cbn [sp_occluded m_add no_dirt orb lm_light lm_sees].
    unfold brightness. cbn [vx vy vz]. destruct (Rlt_dec ((255 + 0 + 0) / 3) 80); [lra|]. reflexivity.
  - intros s [<-|[]]. split; reflexivity.
Qed.
Print Assumptions C136_local_floor_refuted.

(** Autominlight: switched off, or by default on a face without a sample in solid, or with the point
    in solid nothing happens; otherwise each style found at the point is the least colour of the
    samples in solid (of all samples if it was asked for), other samples and styles stay as they
    are, and no sample counts as in solid afterwards. *)
Definition autof (all : bool) (g : vec) (s : sample) (c : vec) : vec * bool :=
  (if all || sp_occluded s then vmax2 g c else c, true).
Definition autostep (all : bool) (ss : list sample) (d : dict) (g : Z * vec) : dict :=
  on_style d (fst g) (length ss) (fun cs => (fst (each (autof all (snd g)) ss cs), true)).
Lemma auto_fold : forall all ss l d, (forall g, In g l -> fst g <> INVALID_STYLE) -> NoDup (map fst l) ->
  (forall t g i s c, In (t, g) l -> nth_error ss i = Some s -> nth_error (shown d t (length ss)) i = Some c ->
     nth_error (shown (fold_left (autostep all ss) l d) t (length ss)) i = Some (if all || sp_occluded s then vmax2 g c else c)) /\
  (forall t, ~ In t (map fst l) -> t <> INVALID_STYLE -> shown (fold_left (autostep all ss) l d) t (length ss) = shown d t (length ss)).
Proof.
  intros all ss l. induction l as [|[u h] l IH]; intros d V D.
  - split; [intros t g i s c []|reflexivity].
  - cbn [map fst] in D. inversion D as [|x y D1 D2]; subst x y. cbn [fold_left].
    destruct (IH (autostep all ss d (u, h)) (fun g I => V g (or_intror I)) D2) as [A B].
    assert (U : u <> INVALID_STYLE) by (apply (V (u, h)); left; reflexivity).
    destruct (shown_on_style d u (length ss) (fun cs => (fst (each (autof all h) ss cs), true)) U ltac:(discriminate)) as [E F].
    change (on_style d u (length ss) (fun cs => (fst (each (autof all h) ss cs), true))) with (autostep all ss d (u, h)) in E, F.
    split.
    + intros t g i s c [I|I] S C.
      * injection I as <- <-. rewrite B by assumption. rewrite E. cbn [fst]. rewrite (each_nth _ _ _ i s c S C). reflexivity.
      * assert (T : t <> u).
        { intros ->. apply D1. apply in_map_iff. exists (u, g). split; [reflexivity|exact I]. }
        apply A; [exact I|exact S|]. rewrite F; [exact C|exact T|]. apply (V (t, g)). right. exact I.
    + intros t NI T. cbn [map In fst] in NI. rewrite B; [|tauto|exact T]. apply F; [|exact T]. intros ->. apply NI. left. reflexivity.
Qed.
Theorem C136_auto : forall key grid ss d d' ss', auto_min key grid ss d = (d', ss') ->
  (key = Some false \/ key = None /\ (forall s, In s ss -> sp_occluded s = false) \/ grid = None -> d' = d /\ ss' = ss) /\
  (forall l, key <> Some false -> key = Some true \/ (exists s, In s ss /\ sp_occluded s = true) ->
     grid = Some l -> (forall g, In g l -> fst g <> INVALID_STYLE) -> NoDup (map fst l) ->
     (forall t g i s c, In (t, g) l -> nth_error ss i = Some s -> nth_error (shown d t (length ss)) i = Some c ->
        (key = Some true \/ sp_occluded s = true ->
         nth_error (shown d' t (length ss)) i = Some (mkV (Rmax (vx g) (vx c)) (Rmax (vy g) (vy c)) (Rmax (vz g) (vz c)))) /\
        (key = None -> sp_occluded s = false -> nth_error (shown d' t (length ss)) i = Some c)) /\
     (forall t, ~ In t (map fst l) -> t <> INVALID_STYLE -> shown d' t (length ss) = shown d t (length ss)) /\
     map sp_point ss' = map sp_point ss /\ (forall s, In s ss' -> sp_occluded s = false)).
Proof.
  intros key grid ss d d' ss' H. unfold auto_min in H. cbv zeta in H. split.
  - intros [-> |[[-> O]| ->]].
    + injection H as <- <-. split; reflexivity.
    + destruct (existsb sp_occluded ss) eqn:E.
      * apply existsb_exists in E. destruct E as (s & I & E). rewrite (O s I) in E. discriminate.
      * injection H as <- <-. split; reflexivity.
    + destruct key as [[|]|]; [|injection H as <- <-; split; reflexivity|destruct (existsb sp_occluded ss)]; injection H as <- <-; split; reflexivity.
  - intros l K O -> V D.
    assert (E : (d', ss') = (fold_left (autostep (match key with Some true => true | _ => false end) ss) l d,
                             map (fun s => mkS (sp_point s) (sp_occ s) false) ss)).
    { destruct key as [[|]|]; [symmetry; exact H|congruence|].
      destruct O as [O|(s & I & O)]; [discriminate O|].
      assert (X : existsb sp_occluded ss = true) by (apply existsb_exists; exists s; auto). rewrite X in H. symmetry. exact H. }
    assert (E1 : d' = fold_left (autostep (match key with Some true => true | _ => false end) ss) l d) by congruence.
    assert (E2 : ss' = map (fun s => mkS (sp_point s) (sp_occ s) false) ss) by congruence.
    destruct (auto_fold (match key with Some true => true | _ => false end) ss l d V D) as [A B]. rewrite <- E1 in A, B. split; [|split; [exact B|split]].
    + intros t g i s c I S C. specialize (A t g i s c I S C). split.
      * intros X. rewrite A. destruct X as [->| ->]; [reflexivity|]. rewrite orb_true_r. reflexivity.
      * intros -> X. rewrite A, X. reflexivity.
    + rewrite E2, map_map. apply map_ext. reflexivity.
    + rewrite E2. intros s I. apply in_map_iff in I. destruct I as (x & <- & _). reflexivity.
Qed.
Print Assumptions C136_auto.

(** The colours at the point are already scaled and clamped and the lightmap is scaled again: where
    a luxel under the same light gets 100, one filled in gets 50.  And a sample in solid stays black
    in a style that the point does not have, though it no longer counts as in solid. *)
Theorem C136_auto_scaled_twice_refuted : exists c g,
  scale_clamp 0 1 (1 / 2) 1 c = Some (mkV 100 100 100) /\
  scale_clamp 0 1 (1 / 2) 1 c = Some g /\
  shown (fst (auto_min None (Some [(0%Z, g)]) [mkS black 0 true] [])) 0 1 = [g] /\
  scale_clamp 0 1 (1 / 2) 1 g = Some (mkV 50 50 50).
Proof.
  assert (S : forall x, 0 <= x <= 255 -> scale_clamp 0 1 (1 / 2) 1 (mkV x x x) = Some (mkV (x / 2) (x / 2) (x / 2))).
  { intros x X. unfold scale_clamp, apply_maxlight, apply_gamma, apply_colorscale, vpos. cbn [vx vy vz].
    destruct (Req_EM_T 0 0); [|contradiction]. destruct (Req_EM_T 1 1); [|contradiction]. rewrite Rmax_left by lra.
    unfold apply_clamp, vmax, scale. cbn [vx vy vz]. rewrite (Rmax_left (1 / 2 * x) (1 / 2 * x)) by lra. rewrite (Rmax_left (1 / 2 * x) (1 / 2 * x)) by lra.
    destruct (Rlt_dec 255 (1 / 2 * x)); [lra|]. f_equal. f_equal; lra. }
  exists (mkV 200 200 200), (mkV 100 100 100). rewrite !S by lra.
  replace (200 / 2) with 100 by lra. replace (100 / 2) with 50 by lra. split; [reflexivity|]. split; [reflexivity|]. split; [|reflexivity].
  unfold auto_min. cbn [existsb sp_occluded orb fold_left fst snd length].
  unfold on_style, for_style. cbn [index_of length app nth fst snd repeat each sp_occluded orb put save Z.eqb Pos.eqb INVALID_STYLE].
  unfold shown, look. cbn. unfold vmax2, black. cbn [vx vy vz]. rewrite !Rmax_left by lra. reflexivity.
Qed.
Print Assumptions C136_auto_scaled_twice_refuted.
Theorem C136_auto_other_style_refuted : exists d,
  let r := auto_min None (Some [(0%Z, mkV 9 9 9)]) [mkS black 0 true] d in
  shown d 5 1 = [black] /\ d <> [] /\ shown (fst r) 5 1 = [black] /\ map sp_occluded (snd r) = [false].
Proof.
  exists [(5%Z, [black])]. cbn zeta. split; [reflexivity|]. split; [discriminate|]. split; reflexivity.
Qed.
Print Assumptions C136_auto_other_style_refuted.

Lemma auto_raises : forall key grid ss d, (forall l g, grid = Some l -> In g l -> fst g <> INVALID_STYLE) ->
  raises (length ss) d (fst (auto_min key grid ss d)).
Proof.
  intros key grid ss d V. unfold auto_min. cbv zeta.
  assert (G : forall all, raises (length ss) d
     (fst (match grid with
      | None => (d, ss)
      | Some l => (fold_left (autostep all ss) l d, map (fun s => mkS (sp_point s) (sp_occ s) false) ss) end))).
  { intros all. destruct grid as [l|]; [|apply raises_refl]. cbn [fst]. specialize (V l).
    assert (V' : forall g, In g l -> fst g <> INVALID_STYLE) by (intros g I; apply V; auto). clear V.
    revert d. induction l as [|g l IH]; intros d; [apply raises_refl|]. cbn [fold_left].
    eapply raises_trans; [|apply IH; intros h I; apply V'; right; exact I].
    intros t i c T H. assert (U : fst g <> INVALID_STYLE) by (apply V'; left; reflexivity).
    destruct (shown_on_style d (fst g) (length ss) (fun cs => (fst (each (autof all (snd g)) ss cs), true)) U ltac:(discriminate)) as [E F].
    change (on_style d (fst g) (length ss) (fun cs => (fst (each (autof all (snd g)) ss cs), true))) with (autostep all ss d g) in E, F.
    destruct (Z.eq_dec t (fst g)) as [->|N].
    - rewrite E. cbn [fst]. destruct (nth_error ss i) as [x|] eqn:X.
      + rewrite (each_nth _ _ _ i x c X H). eexists. split; [reflexivity|]. unfold autof. cbn [fst].
        destruct (all || sp_occluded x); [apply vmax2_r|apply le3_refl].
      + rewrite each_none by exact X. exists c. split; [exact H|apply le3_refl].
    - rewrite F by assumption. exists c. split; [exact H|apply le3_refl]. }
  destruct key as [[|]|]; [exact (G true)|apply raises_refl|]. destruct (existsb sp_occluded ss); [exact (G false)|apply raises_refl].
Qed.

(** After the positive lights: no sample of any style gets darker, and unless excluded every sample
    has at least the level of the face times its colour in style 0, if the face emits light also in
    the style of that light.  (Levels and colours are not negative.) *)
Theorem C136_floor : forall excluded g mot level surflight world key grid ss d,
  (forall f p, mot = Some f -> 0 <= f p) ->
  0 <= fst level -> le3 black (snd level) ->
  (forall i st col sc, surflight = Some (i, st, col, sc) -> 0 <= i /\ st <> INVALID_STYLE /\ le3 black col) ->
  (forall l h, grid = Some l -> In h l -> fst h <> INVALID_STYLE) ->
  let n := length ss in let d' := fst (post_min excluded g mot level surflight world key grid ss d) in
  raises n d d' /\
  (excluded = false -> m_add g = false ->
   (forall i s c', nth_error ss i = Some s -> (exists c, nth_error (shown d 0 n) i = Some c /\ le3 black c) ->
      nth_error (shown d' 0 n) i = Some c' ->
      le3 (scale (fst level * (if m_dirt g then min_dirt g s else 1) / 255) (snd level)) c') /\
   (forall i st col sc j s c', surflight = Some (i, st, col, sc) -> 0 < sc -> nth_error ss j = Some s ->
      (exists c, nth_error (shown d st n) j = Some c) -> nth_error (shown d' st n) j = Some c' ->
      le3 (scale (i * sc * (if m_dirt g then min_dirt g s else 1) / 255) col) c')).
Proof.
  intros excluded g mot level surflight world key grid ss d MOT L0 C0 SL GR n d'.
  set (d1 := if Req_EM_T (fst level) 0 then d else face_min excluded g mot ss (fst level) (snd level) 0 d).
  set (d2 := match surflight with
             | Some (i, st, col, sc) => if Rlt_dec 0 sc then face_min excluded g mot ss (i * sc) col st d1 else d1
             | None => d1 end).
  assert (D' : d' = if world then d2 else fst (auto_min key grid ss d2)).
  { unfold d', post_min. fold d1. fold d2. destruct world; reflexivity. }
  assert (FM : forall x light col st, 0 <= light -> le3 black col -> st <> INVALID_STYLE -> raises n x (face_min excluded g mot ss light col st x)).
  { intros x light col st A B N. unfold face_min. destruct excluded; [apply raises_refl|].
    apply raises_each; [exact N|apply min_sample_keep|]. intros y c. apply min_sample_raises; assumption. }
  assert (R1 : raises n d d1).
  { unfold d1. destruct (Req_EM_T _ _); [apply raises_refl|]. apply FM; try assumption. discriminate. }
  assert (R2 : raises n d1 d2).
  { unfold d2. destruct surflight as [[[[i st] col] sc]|]; [|apply raises_refl]. destruct (Rlt_dec 0 sc); [|apply raises_refl].
    destruct (SL i st col sc eq_refl) as (A & B & C). apply FM; try assumption. apply Rmult_le_pos; lra. }
  assert (R3 : raises n d2 d').
  { rewrite D'. destruct world; [apply raises_refl|]. apply auto_raises. exact GR. }
  split; [eapply raises_trans; [exact R1|eapply raises_trans; eassumption]|].
  intros EX AD.
  assert (FL : forall x light col st i s c, st <> INVALID_STYLE -> 0 <= light -> le3 black col ->
     nth_error ss i = Some s -> nth_error (shown x st n) i = Some c ->
     exists c', nth_error (shown (face_min excluded g mot ss light col st x) st n) i = Some c' /\
                le3 (scale (light * (if m_dirt g then min_dirt g s else 1) / 255) col) c').
  { intros x light col st i s c N LL (P1 & P2 & P3) S C. unfold black in P1, P2, P3. cbn [vx vy vz] in P1, P2, P3.
    rewrite EX. destruct (C136_min g mot ss light col st x N) as [M _]. specialize (M i s c S C). cbv zeta in M. rewrite AD in M.
    eexists. split; [exact M|]. set (dirt := if m_dirt g then min_dirt g s else 1).
    assert (NN : 0 <= match mot with Some f => f (sp_point s) | None => 0 end) by (destruct mot; [apply MOT with (1 := eq_refl)|lra]).
    revert NN. generalize (match mot with Some f => f (sp_point s) | None => 0 end). intros noise NN.
    unfold le3, scale. cbn [vx vy vz].
    assert (Q : light * dirt / 255 <= (light * dirt + noise) / 255) by lra.
    split; [|split]; (eapply Rle_trans; [|apply Rmax_r]); apply Rmult_le_compat_r; assumption. }
  split.
  - intros i s c' S (c & C & CB) H.
    assert (X : exists c1, nth_error (shown d1 0 n) i = Some c1 /\
       le3 (scale (fst level * (if m_dirt g then min_dirt g s else 1) / 255) (snd level)) c1).
    { unfold d1. destruct (Req_EM_T (fst level) 0) as [Z|Z].
      - exists c. split; [exact C|]. rewrite Z. unfold scale.
        match goal with |- le3 (mkV (?a * _) _ _) _ => replace a with 0 by (unfold Rdiv; ring) end.
        rewrite !Rmult_0_l. exact CB.
      - apply FL with (c := c); try assumption. discriminate. }
    destruct X as (c1 & X1 & X2). destruct (R2 0%Z i c1 ltac:(discriminate) X1) as (c2 & Y1 & Y2).
    destruct (R3 0%Z i c2 ltac:(discriminate) Y1) as (c3 & Z1 & Z2). rewrite H in Z1. injection Z1 as <-.
    eapply le3_trans; [exact X2|]. eapply le3_trans; eassumption.
  - intros i st col sc j s c' E SC S (c & C) H. destruct (SL i st col sc E) as (A & B & CC).
    destruct (R1 st j c B C) as (c1 & X1 & _).
    destruct (FL d1 (i * sc) col st j s c1 B ltac:(apply Rmult_le_pos; lra) CC S X1) as (c2 & Y1 & Y2).
    assert (D2 : d2 = face_min excluded g mot ss (i * sc) col st d1).
    { unfold d2. rewrite E. destruct (Rlt_dec 0 sc); [reflexivity|contradiction]. }
    rewrite <- D2 in Y1. destruct (R3 st j c2 B Y1) as (c3 & Z1 & Z2). rewrite H in Z1. injection Z1 as <-.
    eapply le3_trans; eassumption.
Qed.
Print Assumptions C136_floor.

(** _surflight_minlight_scale of worldspawn counts twice for a surface light, and the key of a brush
    multiplies it rather than override it. *)
Theorem C136_surface_scale_refuted :
  face_minscale false (Some None) None (Some (1 / 2)) = 1 / 4 /\
  face_minscale false (Some None) (Some 1) (Some (1 / 2)) = 1 / 2 /\
  face_minscale true (Some None) (Some 1) None = 64.
Proof. unfold face_minscale, light_minscale, brush_minscale. repeat split; lra. Qed.
Print Assumptions C136_surface_scale_refuted.

(** The noise of mottled minimum light: where the coordinates fit and assertions are off it is from 0
    to 48, never more than the interpolated table and less than 3/255 of 48 below it, and repeats
    every 4096 units. *)
Lemma frac_range : forall x, 0 <= x - IZR (Int_part x) <= 1.
Proof. intros x. destruct (base_Int_part x). lra. Qed.
Theorem C136_mottle : forall p,
  (forall x, In x [vx p; vy p; vz p] -> -34359738368 <= x < 34359738368) ->
  exists m, mottle false p = ROk m /\ 0 <= m <= 48 /\
    (let t := trilinear (fun x y z => IZR (noise x y z)) (Int_part (vx p / 16)) (Int_part (vy p / 16)) (Int_part (vz p / 16))
                (vx p / 16 - IZR (Int_part (vx p / 16))) (vy p / 16 - IZR (Int_part (vy p / 16))) (vz p / 16 - IZR (Int_part (vz p / 16))) in
     (t - 3) / 255 * 48 < m <= t / 255 * 48) /\
    forall debug m', mottle debug p = ROk m' -> m' = m.
Proof.
  intros p H. unfold mottle, scale. cbn [vx vy vz].
  replace (1 / 16 * vx p) with (vx p / 16) by lra. replace (1 / 16 * vy p) with (vy p / 16) by lra. replace (1 / 16 * vz p) with (vz p / 16) by lra.
  assert (OK : forall x, In x [vx p; vy p; vz p] -> int_ok (Int_part (x / 16)) = true).
  { intros x I. specialize (H x I). destruct (base_Int_part (x / 16)) as [A B]. unfold int_ok.
    assert (-2147483649 < IZR (Int_part (x / 16)) < 2147483648) as [C D] by lra. apply lt_IZR in C, D.
    apply andb_true_iff. split; apply Z.leb_le; lia. }
  rewrite (OK (vx p)), (OK (vy p)), (OK (vz p)) by (cbn [In]; tauto). cbn [andb].
  destruct (mod_neg_spec (Int_part (vx p / 16))) as (a & -> & _). destruct (mod_neg_spec (Int_part (vy p / 16))) as (b & -> & _).
  destruct (mod_neg_spec (Int_part (vz p / 16))) as (c & -> & _). rewrite mixed_period.
  pose proof (mixed_spec (Int_part (vx p / 16)) (Int_part (vy p / 16)) (Int_part (vz p / 16)) _ _ _
     (frac_range (vx p / 16)) (frac_range (vy p / 16)) (frac_range (vz p / 16))) as [[M1 M2] [M3 M4]].
  eexists. split; [reflexivity|]. apply IZR_le in M1, M2. split; [lra|]. split; [cbn zeta; lra|].
  intros debug m'. match goal with |- (if ?b then _ else _) = _ -> _ => destruct b end; [discriminate|]. intros E. injection E as <-. reflexivity.
Qed.
Print Assumptions C136_mottle.
Theorem C136_mottle_repeats : forall p k m, mottle false p = ROk m ->
  int_ok (Int_part (vx (scale (1 / 16) p)) + 256 * k) = true ->
  mottle false (mkV (vx p + 4096 * IZR k) (vy p) (vz p)) = ROk m.
Proof.
  intros p k m H K. unfold mottle, scale in *. cbn [vx vy vz] in *.
  assert (E : Int_part (1 / 16 * (vx p + 4096 * IZR k)) = (Int_part (1 / 16 * vx p) + 256 * k)%Z).
  { apply LightColProofs.int_unique. rewrite plus_IZR, mult_IZR. destruct (base_Int_part (1 / 16 * vx p)). lra. }
  rewrite E, K. destruct (int_ok (Int_part (1 / 16 * vx p))); [|discriminate H].
  cbn [andb] in *. destruct (int_ok (Int_part (1 / 16 * vy p)) && int_ok (Int_part (1 / 16 * vz p))); [|discriminate H].
  rewrite <- H. f_equal. f_equal. f_equal. f_equal.
  destruct (mod_neg_spec (Int_part (1 / 16 * vx p) + 256 * k)) as (a & -> & _). destruct (mod_neg_spec (Int_part (1 / 16 * vx p))) as (b & -> & _).
  replace (Int_part (1 / 16 * vx p) + 256 * k + 256 * a)%Z with (Int_part (1 / 16 * vx p) + 256 * b + 256 * (k + a - b))%Z by ring.
  replace (mod_neg (Int_part (1 / 16 * vy p)) 256) with (mod_neg (Int_part (1 / 16 * vy p)) 256 + 256 * 0)%Z at 1 by ring.
  replace (mod_neg (Int_part (1 / 16 * vz p)) 256) with (mod_neg (Int_part (1 / 16 * vz p)) 256 + 256 * 0)%Z at 1 by ring.
  rewrite mixed_period. f_equal. rewrite plus_IZR, mult_IZR. lra.
Qed.
Print Assumptions C136_mottle_repeats.
(** A debug build stops on it between -4096 and -4080 (the remainder is 256, not 0). *)
Theorem C136_mottle_assert_refuted : mottle true (mkV (-4096) 0 0) = RThrow /\ mod_neg (-256) 256 = 256%Z.
Proof.
  split; [|reflexivity]. unfold mottle, scale. cbn [vx vy vz].
  assert (A : Int_part (1 / 16 * -4096) = (-256)%Z) by (apply LightColProofs.int_unique; lra).
  assert (B : Int_part (1 / 16 * 0) = 0%Z) by (apply LightColProofs.int_unique; lra). rewrite A, B. reflexivity.
Qed.
Print Assumptions C136_mottle_assert_refuted.

(** The table of the mottle holds every number from 0 to 255 once. *)
Theorem C136_table : length mottle_table = 256%nat /\ NoDup mottle_table /\ forall z, In z mottle_table <-> (0 <= z < 256)%Z.
Proof.
  assert (ND : NoDup mottle_table) by (assert (E : nodup Z.eq_dec mottle_table = mottle_table) by (vm_compute; reflexivity); rewrite <- E; apply NoDup_nodup).
  assert (R : forall z, In z mottle_table -> (0 <= z < 256)%Z).
  { intros z I. assert (E : forallb (fun z => (0 <=? z)%Z && (z <? 256)%Z) mottle_table = true) by (vm_compute; reflexivity). rewrite forallb_forall in E. specialize (E z I). apply andb_true_iff in E. destruct E as (A & B). apply Z.leb_le in A. apply Z.ltb_lt in B. lia. }
  split; [reflexivity|]. split; [exact ND|]. intro z. split; [apply R|]. intro H.
  assert (INC : incl (map Z.of_nat (seq 0 256)) mottle_table).
  { apply NoDup_length_incl; [exact ND|rewrite map_length, seq_length; apply le_n|]. intros y Y. specialize (R y Y). apply in_map_iff. exists (Z.to_nat y). split; [lia|]. apply in_seq. lia. }
  apply INC, in_map_iff. exists (Z.to_nat z). split; [lia|]. apply in_seq. lia.
Qed.
Print Assumptions C136_table.
(** It is undefined exactly where a sixteenth of a coordinate, rounded down, is not an int. *)
Theorem C136_mottle_range : forall debug p, mottle debug p = RUB <-> exists x, In x [vx p; vy p; vz p] /\ (x < -34359738368 \/ 34359738368 <= x).
Proof.
  intros debug p. unfold mottle, scale. cbn [vx vy vz].
  assert (OK : forall x, int_ok (Int_part (1 / 16 * x)) = false <-> x < -34359738368 \/ 34359738368 <= x).
  { intro x. destruct (base_Int_part (1 / 16 * x)) as (A & B). unfold int_ok. rewrite andb_false_iff, !Z.leb_gt. split; (intros [H|H]; [left|right]).
    - apply Z.lt_le_pred in H. apply IZR_le in H. change (IZR (Z.pred (-2147483648))) with (-2147483649) in H. lra.
    - apply Z.le_succ_l in H. apply IZR_le in H. change (IZR (Z.succ 2147483647)) with 2147483648 in H. lra.
    - apply lt_IZR. change (IZR (- (2147483648))) with (-2147483648). lra.
    - apply lt_IZR. assert (2147483647 < IZR (Int_part (1 / 16 * x))) by lra. assumption. }
  pose proof (OK (vx p)). pose proof (OK (vy p)). pose proof (OK (vz p)).
  destruct (int_ok (Int_part (1 / 16 * vx p)) && int_ok (Int_part (1 / 16 * vy p)) && int_ok (Int_part (1 / 16 * vz p))) eqn:E.
  - rewrite !andb_true_iff in E. destruct E as ((E1 & E2) & E3). rewrite E1, E2, E3 in *. split; [match goal with |- (if ?b then _ else _) = _ -> _ => destruct b end; discriminate|].
    intros (x & [<- |[<- |[<- |[]]]] & X); exfalso; [apply H in X|apply H0 in X|apply H1 in X]; discriminate X.
  - split; [intros _|reflexivity]. rewrite !andb_false_iff in E. destruct E as [[E|E]|E]; [exists (vx p); split; [left; reflexivity|apply H, E]|exists (vy p); split; [right; left; reflexivity|apply H0, E]|exists (vz p); split; [right; right; left; reflexivity|apply H1, E]].
Qed.
Print Assumptions C136_mottle_range.
(** No dirt on translucent surfaces, and none or some as the key _dirt of the model or else the texinfo says; a surface is lit from
    both sides if it is translucent, unless its flag says so otherwise, and always if its alpha is below 1. *)
Theorem C136_surface : forall dirt flag translucent twosided alpha,
  (surf_nodirt dirt flag translucent = true <-> translucent = true \/ dirt = Some (-1)%Z \/ dirt = None /\ flag = true) /\
  (surf_twosided translucent twosided alpha = true <-> alpha < 1 \/ twosided = Some true \/ twosided = None /\ translucent = true).
Proof.
  intros dirt flag tr tw al. unfold surf_nodirt, surf_twosided. split.
  - destruct tr; [tauto|]. destruct dirt as [d|]; [rewrite Z.eqb_eq; split; [intros ->; auto|intros [X|[X|(X & _)]]; [discriminate X|injection X as ->; reflexivity|discriminate X]]|].
    split; [auto|intros [X|[X|(_ & X)]]; [discriminate X|discriminate X|exact X]].
  - destruct (Rlt_dec al 1); [tauto|]. destruct tw as [b|]; [split; [intros ->; auto|intros [X|[X|(X & _)]]; [lra|injection X as ->; reflexivity|discriminate X]]|].
    split; [auto|intros [X|[X|(_ & X)]]; [lra|discriminate X|exact X]].
Qed.
Print Assumptions C136_surface.
(** _surflight_minlight_scale counts 1 where nothing sets it, but 64 for lights of Quake 2. *)
Theorem C136_minscale : forall q2 light brush world,
  face_minscale q2 light brush world =
    (match light, world with None, _ => 1 | Some (Some x), _ => x | Some None, Some x => x | Some None, None => if q2 then 64 else 1 end) *
    (match brush, world with Some x, _ => x | None, Some x => x | None, None => 1 end).
Proof. intros q2 [[x|]|] [b|] [w|]; reflexivity. Qed.
Print Assumptions C136_minscale.

(** Two samples, one darker than the level of 51 of red light and one brighter; another style stays. *)
Example C136_nontrivial :
  shown (face_min false no_dirt None [mkS black 0 false; mkS black 0 false] 51 (mkV 255 0 0) 0
           [(7%Z, [mkV 1 2 3; mkV 4 5 6]); (0%Z, [mkV 10 20 30; mkV 90 80 70])]) 0 2 = [mkV 51 20 30; mkV 90 80 70] /\
  face_minscale false (Some (Some 3)) (Some 2) (Some 5) = 6.
Proof.
  split; [|unfold face_minscale, light_minscale, brush_minscale; lra].
  unfold face_min, on_style, for_style. cbn [index_of length option_map nth fst snd each put Z.eqb Pos.eqb].
  unfold min_sample, clamp_min, clamp1. cbn [m_dirt m_add no_dirt vx vy vz].
  repeat match goal with |- context [Rlt_dec ?a ?b] => destruct (Rlt_dec a b); try lra end.
  unfold shown, look. cbn. f_equal. f_equal. lra.
Qed.
