(* C156: the lightmaps of all faces in one image. *)
From Coq Require Import List ZArith QArith Bool Lia Permutation Sorted.
Import ListNotations.
From Verif Require Import NumCastModel AtlasModel.
Local Open Scope Z_scope.

Definition good (f : face) : Prop := 0 < f_w f <= 512 /\ 0 < f_h f < 512.
(** Two rectangles that have no pixel in common; a rectangle inside an image. *)
Definition disjoint (a b : face * (Z * Z)) : Prop :=
  let '(f, (x, y)) := a in let '(g, (u, v)) := b in
  forall i j, ~ (x <= i < x + f_w f /\ y <= j < y + f_h f /\ u <= i < u + f_w g /\ v <= j < v + f_h g).
Definition inside (W H : Z) (a : face * (Z * Z)) : Prop :=
  let '(f, (x, y)) := a in 0 <= x /\ x + f_w f <= W /\ 0 <= y /\ y + f_h f <= H.

(** ** Sorting *)
Lemma insert_perm : forall r l, Permutation (insert r l) (r :: l).
Proof.
  intros r l. induction l as [|x t IH]; cbn [insert]; [apply Permutation_refl|]. destruct (f_h x <=? f_h r); [apply Permutation_refl|].
  eapply perm_trans; [apply perm_skip; exact IH|apply perm_swap].
Qed.
Lemma sort_perm : forall l, Permutation (sort_faces l) l.
Proof. induction l as [|x t IH]; cbn; [apply perm_nil|]. eapply perm_trans; [apply insert_perm|apply perm_skip; exact IH]. Qed.
Lemma insert_sorted : forall r l, StronglySorted (fun a b => f_h b <= f_h a) l -> StronglySorted (fun a b => f_h b <= f_h a) (insert r l).
Proof.
  intros r l S. induction S as [|x t S IH F]; cbn [insert]; [repeat constructor|]. destruct (Z.leb_spec (f_h x) (f_h r)) as [L|L].
  - constructor; [constructor; assumption|]. constructor; [exact L|]. apply Forall_forall. intros y I. rewrite Forall_forall in F. specialize (F y I). cbn in F. lia.
  - constructor; [exact IH|]. apply Forall_forall. intros y I. apply (Permutation_in _ (insert_perm r t)) in I. destruct I as [<-|I]; [lia|]. rewrite Forall_forall in F. apply F. exact I.
Qed.

(** ** Packing *)
Definition okst (st : shelf) : Prop := 0 <= s_x st /\ 0 <= s_y st /\ 0 <= s_tall st /\ 0 <= s_atlas st.
Definition after (st : shelf) (p : Z * Z * Z) : Prop :=
  let '(a, x, y) := p in s_atlas st < a \/ (a = s_atlas st /\ (s_y st + s_tall st <= y \/ (y = s_y st /\ s_x st <= x))).
Definition apart (a b : face * (Z * Z * Z)) : Prop :=
  let '(f, (p, x, y)) := a in let '(g, (q, u, v)) := b in p <> q \/ x + f_w f <= u \/ y + f_h f <= v.
Definition fits (a : face * (Z * Z * Z)) : Prop := let '(f, (p, x, y)) := a in 0 <= p /\ 0 <= x /\ 0 <= y /\ x + f_w f <= 512 /\ y + f_h f < 512.

Lemma place_ok : forall n st f, okst st -> good f -> exists a x y st2, place (S (S n)) st f = Some ((a, x, y), st2) /\
  okst st2 /\ fits (f, (a, x, y)) /\ after st (a, x, y) /\ a = s_atlas st2 /\ s_atlas st <= a /\
  (forall q, after st2 q -> after st q) /\ (forall g q, after st2 q -> apart (f, (a, x, y)) (g, q)).
Proof.
  intros n st f (X & Y & T & A) ((W1 & W2) & (H1 & H2)). cbn [place]. unfold atlas_size.
  destruct (Z.leb_spec 512 (s_x st + f_w f)) as [C|C]; cbn [s_atlas s_x s_y s_tall].
  - destruct (Z.leb_spec 512 (s_y st + s_tall st + f_h f)) as [D|D].
    + destruct (Z.leb_spec 512 (0 + f_w f)) as [E|E]; cbn [s_atlas s_x s_y s_tall].
      * destruct (Z.leb_spec 512 (0 + 0 + f_h f)) as [G|G]; [lia|]. do 4 eexists. split; [reflexivity|]. unfold okst, fits, after, apart. cbn [s_atlas s_x s_y s_tall].
        split; [lia|]. split; [lia|]. split; [lia|]. split; [lia|]. split; [lia|]. split; [intros [[qa qx] qy] Q; lia|intros g [[qa qx] qy] Q; lia].
      * destruct (Z.leb_spec 512 (0 + f_h f)) as [G|G]; [lia|]. do 4 eexists. split; [reflexivity|]. unfold okst, fits, after, apart. cbn [s_atlas s_x s_y s_tall].
        split; [lia|]. split; [lia|]. split; [lia|]. split; [lia|]. split; [lia|]. split; [intros [[qa qx] qy] Q; lia|intros g [[qa qx] qy] Q; lia].
    + do 4 eexists. split; [reflexivity|]. unfold okst, fits, after, apart. cbn [s_atlas s_x s_y s_tall].
      split; [lia|]. split; [lia|]. split; [lia|]. split; [lia|]. split; [lia|]. split; [intros [[qa qx] qy] Q; lia|intros g [[qa qx] qy] Q; lia].
  - destruct (Z.leb_spec 512 (s_y st + f_h f)) as [D|D].
    + destruct (Z.leb_spec 512 (0 + f_w f)) as [E|E]; cbn [s_atlas s_x s_y s_tall]; [lia|].
      destruct (Z.leb_spec 512 (0 + f_h f)) as [G|G]; [lia|]. do 4 eexists. split; [reflexivity|]. unfold okst, fits, after, apart. cbn [s_atlas s_x s_y s_tall].
      split; [lia|]. split; [lia|]. split; [lia|]. split; [lia|]. split; [lia|]. split; [intros [[qa qx] qy] Q; lia|intros g [[qa qx] qy] Q; lia].
    + do 4 eexists. split; [reflexivity|]. unfold okst, fits, after, apart. cbn [s_atlas s_x s_y s_tall].
      split; [lia|]. split; [lia|]. split; [lia|]. split; [lia|]. split; [lia|]. split; [intros [[qa qx] qy] Q; lia|intros g [[qa qx] qy] Q; lia].
Qed.
Lemma pack_ok : forall n fs, Forall good fs -> forall st, okst st -> exists l st2, pack (S (S n)) st fs = Some (l, st2) /\ map fst l = fs /\
  ForallOrdPairs apart l /\ Forall fits l /\ Forall (fun r => after st (snd r) /\ fst (fst (snd r)) <= s_atlas st2) l /\ s_atlas st <= s_atlas st2.
Proof.
  intros n fs F. induction F as [|f fs G F IH]; intros st O.
  - exists [], st. split; [reflexivity|]. split; [reflexivity|]. split; [constructor|]. split; [constructor|]. split; [constructor|lia].
  - destruct (place_ok n st f O G) as (a & x & y & st2 & E & O2 & FT & AF & A2 & A3 & M & AP). destruct (IH st2 O2) as (l & st3 & E3 & MF & OP & FI & FA & A4).
    exists ((f, (a, x, y)) :: l), st3. cbn [pack]. rewrite E, E3. split; [reflexivity|]. split; [cbn [map fst]; rewrite MF; reflexivity|].
    split; [|split; [constructor; assumption|split; [|lia]]].
    + constructor; [|exact OP]. apply Forall_forall. intros [g q] I. rewrite Forall_forall in FA. destruct (FA _ I) as (Q & _). apply AP. exact Q.
    + constructor; [cbn [fst snd]; split; [exact AF|lia]|]. apply Forall_forall. intros r I. rewrite Forall_forall in FA. destruct (FA _ I) as (Q & Q2). split; [apply M; exact Q|exact Q2].
Qed.

Lemma final_disjoint : forall k a b, 0 < k -> fits a -> fits b -> apart a b -> disjoint (final k a) (final k b).
Proof.
  intros k [f [[p x] y]] [g [[q u] v]] K (P0 & X0 & Y0 & XW & YH) (Q0 & U0 & V0 & UW & VH) AP. cbn [final disjoint]. unfold atlas_size. intros i j (I1 & J1 & I2 & J2). cbn [apart] in AP.
  destruct (Z.eq_dec p q) as [->|N]; [lia|].
  assert (DM : p mod k <> q mod k \/ p / k <> q / k).
  { destruct (Z.eq_dec (p mod k) (q mod k)); [|left; assumption]. right. intros E. apply N. rewrite (Z.div_mod p k), (Z.div_mod q k) by lia. congruence. }
  destruct DM as [D|D]; [destruct (Z_lt_le_dec (p mod k) (q mod k))|destruct (Z_lt_le_dec (p / k) (q / k))]; lia.
Qed.
Lemma map_ord : forall {A B} (R : A -> A -> Prop) (S : B -> B -> Prop) (P : A -> Prop) (g : A -> B) l,
  (forall a b, P a -> P b -> R a b -> S (g a) (g b)) -> Forall P l -> ForallOrdPairs R l -> ForallOrdPairs S (map g l).
Proof.
  intros A B R S P g l K F O. induction O as [|a l FA O IH]; [constructor|]. inversion F as [|? ? Pa Fl]. subst. cbn [map]. constructor; [|apply IH; exact Fl].
  apply Forall_forall. intros b I. apply in_map_iff in I. destruct I as (c & <- & I). rewrite Forall_forall in FA, Fl. apply K; auto.
Qed.
Lemma widths : forall l r, In r l -> fst (snd r) + f_w (fst r) <= trimmed_width l /\ snd (snd r) + f_h (fst r) <= trimmed_height l.
Proof.
  induction l as [|a l IH]; intros r []; unfold trimmed_width, trimmed_height in *; cbn [fold_right].
  - subst a. lia.
  - destruct (IH r H). lia.
Qed.

(** Every face gets its own place, all in one image. *)
Theorem C156_layout_partial : forall fs fuel, Forall good fs -> (2 <= fuel)%nat -> exists l, layout fuel fs = Some l /\
  Permutation (map fst l) fs /\ StronglySorted (fun a b => f_h (fst b) <= f_h (fst a)) l /\ ForallOrdPairs disjoint l /\ Forall (inside (trimmed_width l) (trimmed_height l)) l.
Proof.
  intros fs fuel F L. destruct fuel as [|[|n]]; [lia|lia|]. unfold layout.
  assert (FS : Forall good (sort_faces fs)). { apply Forall_forall. intros f I. rewrite Forall_forall in F. apply F. apply (Permutation_in _ (sort_perm fs)). exact I. }
  destruct (pack_ok n _ FS (mkS 0 0 0 0)) as (l & st2 & E & MF & OP & FI & FA & A); [unfold okst; cbn; lia|]. rewrite E. cbn [s_atlas] in A.
  set (k := Z.sqrt_up (s_atlas st2 + 1)). assert (K : 0 < k) by (apply Z.sqrt_up_pos; lia). exists (map (final k) l). split; [reflexivity|].
  assert (MM : map fst (map (final k) l) = sort_faces fs). { rewrite <- MF, map_map. apply map_ext. intros [f [[a x] y]]. reflexivity. }
  split; [rewrite MM; apply sort_perm|]. split; [|split].
  - assert (SS : StronglySorted (fun a b => f_h b <= f_h a) (map fst (map (final k) l))).
    { rewrite MM. clear. unfold sort_faces. induction fs as [|x t IH]; cbn [fold_right]; [constructor|apply insert_sorted; exact IH]. }
    revert SS. generalize (map (final k) l). clear. intros l. induction l as [|a l IH]; intros SS; [constructor|]. cbn [map] in SS. inversion SS as [|? ? S1 F1]. subst. constructor; [apply IH; exact S1|].
    apply Forall_forall. intros b I. rewrite Forall_forall in F1. apply F1. apply in_map. exact I.
  - apply (map_ord apart disjoint fits); [|exact FI|exact OP]. intros a b Fa Fb AP. apply final_disjoint; assumption.
  - apply Forall_forall. intros r I. destruct (widths _ _ I) as (A1 & A2). apply in_map_iff in I. destruct I as ([f [[p x] y]] & <- & I). rewrite Forall_forall in FI. destruct (FI _ I) as (P0 & X0 & Y0 & _ & _).
    cbn [final inside fst snd] in *. unfold atlas_size in *. assert (0 <= p mod k) by (apply Z.mod_pos_bound; exact K). assert (0 <= p / k) by (apply Z.div_pos; lia). lia.
Qed.
Print Assumptions C156_layout_partial.
(** The image is about square: with k * k atlases side by side, where there are no more atlases than faces. *)
Theorem C156_size : forall fs fuel l, fs <> [] -> Forall good fs -> (2 <= fuel)%nat -> layout fuel fs = Some l ->
  exists k, 0 < k /\ (k - 1) * (k - 1) < Z.of_nat (length fs) /\ trimmed_width l <= 512 * k /\ trimmed_height l <= 512 * k.
Proof.
  intros fs fuel l NE F L H. destruct fuel as [|[|n]]; [lia|lia|]. unfold layout in H.
  assert (FS : Forall good (sort_faces fs)). { apply Forall_forall. intros f I. rewrite Forall_forall in F. apply F. apply (Permutation_in _ (sort_perm fs)). exact I. }
  assert (LS : length (sort_faces fs) = length fs) by (apply Permutation_length; apply sort_perm).
  assert (P1 : forall st f p st2, okst st -> good f -> place (S (S n)) st f = Some (p, st2) -> s_atlas st2 <= s_atlas st + 1).
  { clear. intros st f p st2 (X & Y & T & A) ((W1 & W2) & (H1 & H2)) E. cbn [place] in E. unfold atlas_size in E.
    destruct (512 <=? s_x st + f_w f); cbn [s_atlas s_x s_y s_tall] in E.
    - destruct (512 <=? s_y st + s_tall st + f_h f).
      + destruct (512 <=? 0 + f_w f); cbn [s_atlas s_x s_y s_tall] in E; [destruct (Z.leb_spec 512 (0 + 0 + f_h f)); [lia|]|destruct (Z.leb_spec 512 (0 + f_h f)); [lia|]]; inversion E; subst; cbn [s_atlas]; lia.
      + inversion E. subst. cbn [s_atlas]. lia.
    - destruct (512 <=? s_y st + f_h f).
      + destruct (512 <=? 0 + f_w f); cbn [s_atlas s_x s_y s_tall] in E; [destruct (Z.leb_spec 512 (0 + 0 + f_h f)); [lia|]|destruct (Z.leb_spec 512 (0 + f_h f)); [lia|]]; inversion E; subst; cbn [s_atlas]; lia.
      + inversion E. subst. cbn [s_atlas]. lia. }
  assert (PC : forall gs st l st2, Forall good gs -> okst st -> pack (S (S n)) st gs = Some (l, st2) -> s_atlas st2 <= s_atlas st + Z.of_nat (length gs)).
  { clear - P1. induction gs as [|g gs IH]; intros st l st2 FG O E; [cbn in E; injection E as <- <-; cbn; lia|]. inversion FG as [|? ? G FG2]. subst. cbn [pack] in E.
    destruct (place_ok n st g O G) as (a & x & y & st3 & E3 & O3 & _). specialize (P1 st g _ st3 O G E3). rewrite E3 in E. destruct (pack (S (S n)) st3 gs) as [[l3 st4]|] eqn:E4; [|discriminate E]. injection E as <- <-.
    specialize (IH st3 l3 st4 FG2 O3 E4). cbn [length]. lia. }
  destruct (pack_ok n _ FS (mkS 0 0 0 0)) as (l0 & st2 & E & MF & OP & FI & FA & A); [unfold okst; cbn; lia|]. rewrite E in H. injection H as <-. cbn [s_atlas] in A.
  assert (CN : s_atlas st2 + 1 <= Z.of_nat (length fs)).
  { rewrite <- LS. destruct (sort_faces fs) as [|g gs]; [destruct fs; [congruence|cbn in LS; discriminate LS]|]. inversion FS as [|? ? G FG]. subst. cbn [pack] in E.
    assert (P0 : exists st3, place (S (S n)) (mkS 0 0 0 0) g = Some ((0, 0, 0), st3) /\ s_atlas st3 = 0 /\ okst st3).
    { destruct G as ((W1 & W2) & (H1 & H2)). cbn [place s_x s_y s_atlas s_tall]. unfold atlas_size. destruct (512 <=? 0 + f_w g); cbn [s_x s_y s_atlas s_tall].
      - destruct (Z.leb_spec 512 (0 + 0 + f_h g)); [lia|]. eexists. split; [reflexivity|]. split; [reflexivity|]. unfold okst. cbn [s_x s_y s_atlas s_tall]. lia.
      - destruct (Z.leb_spec 512 (0 + f_h g)); [lia|]. eexists. split; [reflexivity|]. split; [reflexivity|]. unfold okst. cbn [s_x s_y s_atlas s_tall]. lia. }
    destruct P0 as (st3 & E3 & A3 & O3). rewrite E3 in E. destruct (pack (S (S n)) st3 gs) as [[l3 st4]|] eqn:E4; [|discriminate E]. injection E as <- <-. specialize (PC gs st3 l3 st4 FG O3 E4). cbn [length]. lia. }
  set (N := s_atlas st2 + 1) in *. exists (Z.sqrt_up N). assert (K : 0 < Z.sqrt_up N) by (apply Z.sqrt_up_pos; lia). destruct (Z.sqrt_up_spec N ltac:(lia)) as (S1 & S2). unfold Z.pred in S1. split; [exact K|]. split; [replace (Z.sqrt_up N - 1) with (Z.sqrt_up N + -1) by lia; lia|].
  assert (BB : Forall (fun r => fst (snd r) + f_w (fst r) <= 512 * Z.sqrt_up N /\ snd (snd r) + f_h (fst r) <= 512 * Z.sqrt_up N) (map (final (Z.sqrt_up N)) l0)).
  { apply Forall_forall. intros r I. apply in_map_iff in I. destruct I as ([f [[p x] y]] & <- & I). rewrite Forall_forall in FI, FA. destruct (FI _ I) as (P0 & X0 & Y0 & XW & YH). destruct (FA _ I) as (_ & PA). cbn [fst snd] in PA. cbn [final fst snd]. unfold atlas_size.
    assert (M : p mod Z.sqrt_up N < Z.sqrt_up N) by (apply Z.mod_pos_bound; exact K). assert (D : p / Z.sqrt_up N < Z.sqrt_up N) by (apply Z.div_lt_upper_bound; lia). lia. }
  clear - BB K. unfold trimmed_width, trimmed_height. induction BB as [|r l (B1 & B2) BB IH]; cbn [fold_right]; lia.
Qed.
Print Assumptions C156_size.
(** A lightmap of 512 samples in height is never placed: the loop goes on for ever. *)
Theorem C156_hang_refuted : forall fs fuel, Forall (fun f => 0 <= f_w f /\ 0 <= f_h f) fs -> (exists f, In f fs /\ 512 <= f_h f) -> layout fuel fs = None.
Proof.
  intros fs fuel F (f & I & H). unfold layout.
  assert (FS : Forall (fun f => 0 <= f_w f /\ 0 <= f_h f) (sort_faces fs)). { apply Forall_forall. intros g J. rewrite Forall_forall in F. apply F. apply (Permutation_in _ (sort_perm fs)). exact J. }
  assert (IS : In f (sort_faces fs)) by (apply (Permutation_in _ (Permutation_sym (sort_perm fs))); exact I).
  assert (P : forall fuel st g, okst st -> 512 <= f_h g -> place fuel st g = None).
  { clear. induction fuel as [|n IH]; intros st g (X & Y & T & A) H; [reflexivity|]. cbn [place]. unfold atlas_size.
    destruct (512 <=? s_x st + f_w g); cbn [s_atlas s_x s_y s_tall].
    - destruct (Z.leb_spec 512 (s_y st + s_tall st + f_h g)); [|lia]. apply IH; [unfold okst; cbn; lia|exact H].
    - destruct (Z.leb_spec 512 (s_y st + f_h g)); [|lia]. apply IH; [unfold okst; cbn; lia|exact H]. }
  assert (O : forall fuel st g p st2, okst st -> 0 <= f_w g /\ 0 <= f_h g -> place fuel st g = Some (p, st2) -> okst st2).
  { clear. induction fuel as [|n IH]; intros st g p st2 (X & Y & T & A) (W & H) E; [discriminate E|]. cbn [place] in E. unfold atlas_size in E.
    destruct (512 <=? s_x st + f_w g); cbn [s_atlas s_x s_y s_tall] in E.
    - destruct (512 <=? s_y st + s_tall st + f_h g); [apply IH in E; [exact E|unfold okst; cbn; lia|lia]|]. inversion E. subst. unfold okst. cbn [s_atlas s_x s_y s_tall]. lia.
    - destruct (512 <=? s_y st + f_h g); [apply IH in E; [exact E|unfold okst; cbn; lia|lia]|]. inversion E. subst. unfold okst. cbn [s_atlas s_x s_y s_tall]. lia. }
  assert (K : forall fs st, okst st -> Forall (fun f => 0 <= f_w f /\ 0 <= f_h f) fs -> In f fs -> pack fuel st fs = None).
  { clear - P O H. induction fs as [|g fs IH]; intros st OS F I; [destruct I|]. inversion F as [|? ? G F2]. subst. cbn [pack]. destruct I as [->|I]; [rewrite P by assumption; reflexivity|].
    destruct (place fuel st g) as [[p st2]|] eqn:E; [|reflexivity]. rewrite (IH st2); [reflexivity|apply (O _ _ _ _ _ OS G E)|exact F2|exact I]. }
  rewrite K; [reflexivity|unfold okst; cbn; lia|exact FS|exact IS].
Qed.
Print Assumptions C156_hang_refuted.
(** A lightmap wider than an atlas lies over those of the next one. *)
Theorem C156_wide_refuted : exists l, layout 2 [mkF 600 300 0 [0]; mkF 10 300 180000 [0]] = Some l /\ ~ ForallOrdPairs disjoint l.
Proof.
  eexists. split; [vm_compute; reflexivity|]. intros O. inversion O as [|? ? F _]. subst. inversion F as [|? ? D _]. subst. cbn [disjoint f_w f_h] in D. apply (D 512 0). lia.
Qed.
Print Assumptions C156_wide_refuted.

(** ** Pixels *)
Lemma in_count : forall n i, In i (count n) <-> 0 <= i < n.
Proof.
  intros n i. unfold count. rewrite in_map_iff. split.
  - intros (k & <- & I). apply in_seq in I. lia.
  - intros H. exists (Z.to_nat i). split; [lia|]. apply in_seq. lia.
Qed.
Lemma in_places : forall f x y, In (x, y) (places f) <-> 0 <= x < f_w f /\ 0 <= y < f_h f.
Proof.
  intros f x y. unfold places. rewrite in_flat_map. split.
  - intros (v & I & J). apply in_map_iff in J. destruct J as (u & E & J). injection E as -> ->. apply in_count in I, J. lia.
  - intros (A & B). exists y. split; [apply in_count; exact B|]. apply in_map_iff. exists x. split; [reflexivity|apply in_count; exact A].
Qed.
Lemma index_inj : forall W a b p q, 0 <= a < W -> 0 <= b < W -> p * W + a = q * W + b -> p = q /\ a = b.
Proof. intros W a b p q A B E. assert (p = q) by nia. subst. split; [reflexivity|lia]. Qed.

Lemma pair_dec : forall a b : Z * Z, {a = b} + {a <> b}.
Proof. decide equality; apply Z.eq_dec. Defined.
Section Draw.
Context (lit rgb : bool) (data : list Z) (W : Z).
Definition key (r : face * (Z * Z)) (xy : Z * Z) : Z := (snd (snd r) + snd xy) * W + (fst (snd r) + fst xy).
Lemma draw_stuck : forall (g : canvas -> Z * Z -> res canvas) ps (e : res canvas), (forall c, e <> ROk c) -> fold_left (fun c xy => rbind c (fun c => g c xy)) ps e = e.
Proof. intros g. induction ps as [|a ps IH]; intros e N; [reflexivity|]. cbn [fold_left]. destruct e as [c| |]; [contradiction (N c eq_refl)| |]; cbn [rbind]; apply IH; discriminate. Qed.
Lemma draw_fold : forall f s (K : Z * Z -> Z) ps c c2, (forall a b, In a ps -> In b ps -> K a = K b -> a = b) ->
  fold_left (fun c xy => rbind c (fun c => rbind (pixel lit rgb data f s (fst xy) (snd xy)) (fun p => ROk (put c (K xy) p)))) ps (ROk c) = ROk c2 ->
  (forall xy, In xy ps -> pixel lit rgb data f s (fst xy) (snd xy) = ROk (c2 (K xy))) /\ (forall j, (forall xy, In xy ps -> K xy <> j) -> c2 j = c j).
Proof.
  intros f s K. induction ps as [|a ps IH]; intros c c2 INJ H.
  - cbn in H. injection H as <-. split; [intros xy []|reflexivity].
  - cbn [fold_left rbind] in H. destruct (pixel lit rgb data f s (fst a) (snd a)) as [p| |] eqn:P; cbn [rbind] in H.
    2, 3: rewrite draw_stuck in H; [discriminate H|discriminate].
    destruct (IH (put c (K a) p) c2) as (A & B); [intros u v Iu Iv; apply INJ; right; assumption|exact H|]. split.
    + intros xy [<-|I]; [|apply A; exact I]. destruct (in_dec pair_dec a ps) as [I|NI]; [apply A; exact I|]. rewrite P. f_equal. rewrite B; [unfold put; rewrite Z.eqb_refl; reflexivity|].
      intros xy I E. apply NI. rewrite (INJ a xy); [exact I|left; reflexivity|right; exact I|symmetry; exact E].
    + intros j N. rewrite B; [|intros xy I; apply N; right; exact I]. unfold put. destruct (Z.eqb_spec j (K a)) as [->|]; [|reflexivity]. contradiction (N a (or_introl eq_refl) eq_refl).
Qed.
Definition inW (r : face * (Z * Z)) : Prop := 0 <= fst (snd r) /\ fst (snd r) + f_w (fst r) <= W.
Definition own (r : face * (Z * Z)) (j : Z) : Prop := exists xy, In xy (places (fst r)) /\ key r xy = j.
Lemma draw_ok : forall r s c c2, inW r -> draw lit rgb data W r s c = ROk c2 ->
  (forall xy, In xy (places (fst r)) -> pixel lit rgb data (fst r) s (fst xy) (snd xy) = ROk (c2 (key r xy))) /\ (forall j, ~ own r j -> c2 j = c j).
Proof.
  intros [f [X Y]] s c c2 (I1 & I2) H. cbn [fst snd] in *. unfold draw in H.
  destruct (draw_fold f s (fun xy => (Y + snd xy) * W + (X + fst xy)) (places f) c c2) as (A & B); [|exact H|].
  - intros [x y] [u v] Ia Ib E. cbn [fst snd] in E. apply in_places in Ia, Ib. destruct (index_inj W (X + x) (X + u) (Y + y) (Y + v)) as (E1 & E2); [lia|lia|exact E|]. f_equal; lia.
  - split; [exact A|]. intros j N. apply B. intros xy I E. apply N. exists xy. split; [exact I|exact E].
Qed.
Lemma own_disjoint : forall a b j, inW a -> inW b -> disjoint a b -> own a j -> own b j -> False.
Proof.
  intros [f [X Y]] [g [U V]] j (A1 & A2) (B1 & B2) D ([x y] & I & <-) ([u v] & J & E). unfold key in E. cbn [fst snd] in *. apply in_places in I, J.
  destruct (index_inj W (U + u) (X + x) (V + v) (Y + y)) as (E1 & E2); [lia|lia|exact E|]. cbn [disjoint] in D. apply (D (X + x) (Y + y)). lia.
Qed.
Definition styled (i : Z) (r : face * (Z * Z)) : option Z := find_style 0 (firstn 4 (f_styles (fst r))) i.
Definition istep (empty : bool) (i : Z) (a : res (canvas * bool)) (r : face * (Z * Z)) : res (canvas * bool) :=
  rbind a (fun '(c, any) => match styled i r with None => ROk (c, any) | Some s => if empty then ROk (c, any) else rbind (draw lit rgb data W r s c) (fun c2 => ROk (c2, true)) end).
Lemma istep_stuck : forall empty i l e, (forall c, e <> ROk c) -> fold_left (istep empty i) l e = e.
Proof. intros empty i. induction l as [|a l IH]; intros e N; [reflexivity|]. cbn [fold_left]. destruct e as [c| |]; [contradiction (N c eq_refl)| |]; cbn [istep rbind]; apply IH; discriminate. Qed.
Lemma image_fold : forall i l c any c2 any2, Forall inW l -> ForallOrdPairs disjoint l -> fold_left (istep false i) l (ROk (c, any)) = ROk (c2, any2) ->
  (forall r s xy, In r l -> styled i r = Some s -> In xy (places (fst r)) -> pixel lit rgb data (fst r) s (fst xy) (snd xy) = ROk (c2 (key r xy))) /\
  (forall j, (forall r, In r l -> styled i r <> None -> ~ own r j) -> c2 j = c j) /\
  (any2 = true <-> any = true \/ exists r, In r l /\ styled i r <> None).
Proof.
  intros i. induction l as [|r l IH]; intros c any c2 any2 F O H.
  - cbn in H. injection H as <- <-. split; [intros r s xy []|]. split; [reflexivity|]. split; [auto|]. intros [H|(r & [] & _)]. exact H.
  - inversion F as [|? ? Fr Fl]. subst. inversion O as [|? ? Dr Ol]. subst. cbn [fold_left] in H. unfold istep at 2 in H. cbn [rbind] in H.
    destruct (styled i r) as [s|] eqn:S.
    + destruct (draw lit rgb data W r s c) as [c1| |] eqn:D; cbn [rbind] in H; [|rewrite istep_stuck in H; [discriminate H|discriminate]|rewrite istep_stuck in H; [discriminate H|discriminate]].
      destruct (draw_ok r s c c1 Fr D) as (D1 & D2). destruct (IH c1 true c2 any2 Fl Ol H) as (A & B & C). split; [|split].
      * intros r2 s2 xy [<-|I] S2 J; [|apply (A r2 s2 xy I S2 J)]. rewrite S in S2. injection S2 as <-. rewrite (D1 xy J). f_equal. symmetry. apply B. intros r3 I3 _ OW.
        rewrite Forall_forall in Dr, Fl. apply (own_disjoint r r3 (key r xy) Fr (Fl _ I3) (Dr _ I3)); [exists xy; split; [exact J|reflexivity]|exact OW].
      * intros j N. rewrite B; [|intros r2 I2; apply N; right; exact I2]. apply D2. apply N; [left; reflexivity|rewrite S; discriminate].
      * split; intros _; [right; exists r; split; [left; reflexivity|rewrite S; discriminate]|apply C; left; reflexivity].
    + destruct (IH c any c2 any2 Fl Ol H) as (A & B & C). split; [|split].
      * intros r2 s2 xy [<-|I] S2 J; [rewrite S in S2; discriminate S2|apply (A r2 s2 xy I S2 J)].
      * intros j N. apply B. intros r2 I2. apply N. right. exact I2.
      * rewrite C. split; (intros [Q|(r2 & I2 & Q)]; [left; exact Q|right; exists r2]).
        -- split; [right; exact I2|exact Q].
        -- destruct I2 as [<-|I2]; [contradiction (Q S)|split; [exact I2|exact Q]].
Qed.
Lemma draw_defined : forall r s c, (forall xy, In xy (places (fst r)) -> exists p, pixel lit rgb data (fst r) s (fst xy) (snd xy) = ROk p) -> exists c2, draw lit rgb data W r s c = ROk c2.
Proof.
  intros [f [X Y]] s c H. cbn [fst] in H. unfold draw. revert c H. generalize (places f). induction l as [|a l IH]; intros c H; [exists c; reflexivity|]. cbn [fold_left rbind].
  destruct (H a (or_introl eq_refl)) as (p & ->). cbn [rbind]. apply IH. intros xy I. apply H. right. exact I.
Qed.
Lemma image_defined : forall i l ca, (forall r s xy, In r l -> styled i r = Some s -> In xy (places (fst r)) -> exists p, pixel lit rgb data (fst r) s (fst xy) (snd xy) = ROk p) ->
  exists ca2, fold_left (istep false i) l (ROk ca) = ROk ca2.
Proof.
  intros i. induction l as [|r l IH]; intros [c any] H; [eexists; reflexivity|]. cbn [fold_left]. unfold istep at 2. cbn [rbind].
  assert (HL : forall r0 s xy, In r0 l -> styled i r0 = Some s -> In xy (places (fst r0)) -> exists p, pixel lit rgb data (fst r0) s (fst xy) (snd xy) = ROk p) by (intros r0 s xy I; apply H; right; exact I).
  destruct (styled i r) as [s|] eqn:S; [|apply IH; exact HL]. destruct (draw_defined r s c) as (c2 & E); [intros xy; apply H; [left; reflexivity|exact S]|]. rewrite E. cbn [rbind]. apply IH. exact HL.
Qed.
End Draw.
Lemma image_steps : forall lit rgb empty data W l i, style_image lit rgb empty data W l i = fold_left (istep lit rgb data W empty i) l (ROk (black, false)).
Proof. reflexivity. Qed.

(** The sample of a face in its s-th style at x and y: three bytes for each of them with colours, else one, and opaque. *)
Theorem C156_pixel : forall (lit : bool) data f s x y p, let ofs := if lit then 3 * f_ofs f else f_ofs f in let sample := s * (f_w f * f_h f) + y * f_w f + x in
  (pixel lit true data f s x y = ROk p -> let i := Z.to_nat (ofs + 3 * sample) in 0 <= ofs + 3 * sample /\
    exists r g b, p = [r; g; b; 255] /\ nth_error data i = Some r /\ nth_error data (i + 1) = Some g /\ nth_error data (i + 2) = Some b) /\
  (pixel lit false data f s x y = ROk p -> 0 <= ofs + sample /\ exists g, p = [g; g; g; 255] /\ nth_error data (Z.to_nat (ofs + sample)) = Some g).
Proof.
  intros lit data f s x y p ofs sample.
  assert (B : forall i v, byte_at data i = ROk v -> 0 <= i /\ nth_error data (Z.to_nat i) = Some v).
  { intros i v H. unfold byte_at in H. destruct (Z.ltb_spec i 0); [discriminate|]. destruct (nth_error data (Z.to_nat i)) as [w|]; [|discriminate]. injection H as ->. split; [assumption|reflexivity]. }
  assert (O : (if lit then 3 else 1) * f_ofs f = ofs) by (unfold ofs; destruct lit; lia). split; intros H; unfold pixel in H; cbv zeta in H; rewrite O in H.
  - intros i. destruct (byte_at data (ofs + f_w f * f_h f * 3 * s + 3 * (y * f_w f + x))) as [r| |] eqn:E1; try discriminate H. cbn [rbind] in H.
    destruct (byte_at data (ofs + f_w f * f_h f * 3 * s + 3 * (y * f_w f + x) + 1)) as [g| |] eqn:E2; try discriminate H. cbn [rbind] in H.
    destruct (byte_at data (ofs + f_w f * f_h f * 3 * s + 3 * (y * f_w f + x) + 2)) as [b| |] eqn:E3; try discriminate H. cbn [rbind] in H. injection H as <-.
    apply B in E1. apply B in E2. apply B in E3. replace (ofs + f_w f * f_h f * 3 * s + 3 * (y * f_w f + x)) with (ofs + 3 * sample) in * by (unfold sample; lia).
    destruct E1 as (N & E1), E2 as (_ & E2), E3 as (_ & E3). split; [exact N|]. exists r, g, b. unfold i.
    split; [reflexivity|]. split; [exact E1|].
    replace (Z.to_nat (ofs + 3 * sample) + 1)%nat with (Z.to_nat (ofs + 3 * sample + 1)) by lia. replace (Z.to_nat (ofs + 3 * sample) + 2)%nat with (Z.to_nat (ofs + 3 * sample + 2)) by lia. split; assumption.
  - destruct (byte_at data _) as [g| |] eqn:E1; try discriminate H. cbn [rbind] in H. injection H as <-. apply B in E1.
    replace (ofs + f_w f * f_h f * 1 * s + (y * f_w f + x)) with (ofs + sample) in E1 by (unfold sample; lia). destruct E1 as (N & E1). split; [exact N|]. exists g. split; [reflexivity|exact E1].
Qed.
Print Assumptions C156_pixel.
(** The image of a style: where a face with the style lies are its samples, and everything else is empty; there is an image
    if a face has the style and the file has samples.  Reading outside the samples is undefined. *)
Theorem C156_image : forall lit rgb data fs fuel l i c, Forall good fs -> (2 <= fuel)%nat -> layout fuel fs = Some l ->
  atlas_of lit rgb false data l i = ROk (Some c) ->
  (forall f X Y s x y, In (f, (X, Y)) l -> find_style 0 (firstn 4 (f_styles f)) i = Some s -> 0 <= x < f_w f -> 0 <= y < f_h f ->
    0 <= (Y + y) * trimmed_width l + (X + x) < trimmed_width l * trimmed_height l /\
    pixel lit rgb data f s x y = ROk (c ((Y + y) * trimmed_width l + (X + x)))) /\
  (forall u v, 0 <= u < trimmed_width l -> (forall f X Y, In (f, (X, Y)) l -> find_style 0 (firstn 4 (f_styles f)) i <> None -> ~ (X <= u < X + f_w f /\ Y <= v < Y + f_h f)) ->
    c (v * trimmed_width l + u) = [0; 0; 0; 0]).
Proof.
  intros lit rgb data fs fuel l i c G L LL H. destruct (C156_layout_partial fs fuel G L) as (l2 & E & _ & _ & OD & IN). rewrite LL in E. injection E as <-.
  unfold atlas_of in H. destruct ((0 <=? i) && (i <? 254)); [|discriminate H]. rewrite image_steps in H. destruct (fold_left _ l (ROk (black, false))) as [[c2 any]| |] eqn:FE; cbn [rbind] in H; try discriminate H.
  destruct any; [|discriminate H]. injection H as ->. set (W := trimmed_width l) in *. set (Hh := trimmed_height l) in *.
  assert (FW : Forall (inW W) l). { apply Forall_forall. intros [f [X Y]] I. rewrite Forall_forall in IN. destruct (IN _ I) as (A & B & _ & _). split; assumption. }
  destruct (image_fold lit rgb data W i l black false c true FW OD FE) as (A & B & _). split.
  - intros f X Y s x y I S Hx Hy. rewrite Forall_forall in IN. destruct (IN _ I) as (X0 & XW & Y0 & YH). split; [nia|].
    apply (A (f, (X, Y)) s (x, y) I S). apply in_places. split; assumption.
  - intros u v Hu N. apply B. intros [f [X Y]] I S ([x y] & J & K). unfold key in K. cbn [fst snd] in *. apply in_places in J. rewrite Forall_forall in FW. destruct (FW _ I) as (X0 & XW). cbn [fst snd] in X0, XW.
    destruct (index_inj W (X + x) u (Y + y) v) as (E1 & E2); [lia|exact Hu|exact K|]. apply (N f X Y I S). lia.
Qed.
Print Assumptions C156_image.
Theorem C156_which : forall lit rgb data fs fuel l i, Forall good fs -> (2 <= fuel)%nat -> layout fuel fs = Some l -> 0 <= i < 254 ->
  (forall f s x y, In f fs -> find_style 0 (firstn 4 (f_styles f)) i = Some s -> 0 <= x < f_w f -> 0 <= y < f_h f -> exists p, pixel lit rgb data f s x y = ROk p) ->
  exists o, atlas_of lit rgb false data l i = ROk o /\ (o <> None <-> exists f, In f fs /\ In i (firstn 4 (f_styles f))) /\ atlas_of lit rgb true data l i = ROk None.
Proof.
  intros lit rgb data fs fuel l i G L LL HI R. destruct (C156_layout_partial fs fuel G L) as (l2 & E & PM & _ & OD & IN). rewrite LL in E. injection E as <-.
  assert (FW : Forall (inW (trimmed_width l)) l). { apply Forall_forall. intros [f [X Y]] I. rewrite Forall_forall in IN. destruct (IN _ I) as (A & B & _ & _). split; assumption. }
  assert (FSt : forall i l n, find_style n l i <> None <-> In i l).
  { clear. intros i. induction l as [|s l IH]; intros n; cbn [find_style]; [split; [congruence|intros []]|]. destruct (Z.eqb_spec s i) as [->|N]; [split; [left; reflexivity|discriminate]|]. rewrite IH. split; [right; assumption|intros [X|X]; [contradiction|exact X]]. }
  unfold atlas_of. destruct (Z.leb_spec 0 i); [|lia]. destruct (Z.ltb_spec i 254); [|lia]. cbn [andb]. rewrite !image_steps.
  destruct (image_defined lit rgb data (trimmed_width l) i l (black, false)) as ([c any] & E).
  { intros r s [x y] I S J. apply in_places in J. apply (R (fst r) s x y); [apply (Permutation_in _ PM); apply in_map; exact I|exact S|apply J|apply J]. }
  rewrite E. cbn [rbind]. eexists. split; [reflexivity|]. destruct (image_fold lit rgb data _ i l black false c any FW OD E) as (_ & _ & C). split.
  - split.
    + intros N. destruct any; [|congruence]. destruct C as (C & _). destruct (C eq_refl) as [X|(r & I & S)]; [discriminate X|]. exists (fst r). split; [apply (Permutation_in _ PM); apply in_map; exact I|]. apply (FSt i _ 0%nat). exact S.
    + intros (f & I & S). apply (Permutation_in _ (Permutation_sym PM)) in I. apply in_map_iff in I. destruct I as (r & <- & I). destruct C as (_ & C). rewrite C; [discriminate|]. right. exists r. split; [exact I|]. apply FSt. exact S.
  - assert (Z0 : forall W l, fold_left (istep lit rgb data W true i) l (ROk (black, false)) = ROk (black, false)).
    { clear. intros W l. induction l as [|r l IH]; [reflexivity|]. cbn [fold_left]. unfold istep at 2. cbn [rbind]. destruct (styled i r); exact IH. }
    rewrite Z0. reflexivity.
Qed.
Print Assumptions C156_which.
(** Style 254 gets no image; a face with a style but without samples (offset -1) is read before the data. *)
Theorem C156_styles_refuted :
  (forall lit rgb empty data l, atlas_of lit rgb empty data l 254 = ROk None) /\
  (forall data, atlas_of false false false data [(mkF 1 1 (-1) [0; 255; 255; 255], (0, 0))] 0 = RUB).
Proof. split; intros; reflexivity. Qed.
Print Assumptions C156_styles_refuted.

(** A vertex within the lightmap of its face is within the place of the face, half a pixel from its border. *)
Theorem C156_uv : forall l f X Y c, Forall (inside (trimmed_width l) (trimmed_height l)) l -> In (f, (X, Y)) l -> 0 < f_w f -> (0 <= c)%Q -> (c <= inject_Z (f_w f - 1))%Q ->
  (0 <= uv c X (trimmed_width l))%Q /\ (uv c X (trimmed_width l) <= 1)%Q /\ (uv c X (trimmed_width l) * inject_Z (trimmed_width l) == c + inject_Z X + (1 # 2))%Q.
Proof.
  intros l f X Y c IN I W0 C0 C1. rewrite Forall_forall in IN. destruct (IN _ I) as (X0 & XW & _ & _). set (W := trimmed_width l) in *. assert (WP : (0 < inject_Z W)%Q) by (change 0%Q with (inject_Z 0); rewrite <- Zlt_Qlt; lia).
  assert (QX : (0 <= inject_Z X)%Q) by (change 0%Q with (inject_Z 0); rewrite <- Zle_Qle; lia).
  assert (NN : (0 <= c + inject_Z X + (1 # 2))%Q).
  { change 0%Q with (0 + 0 + 0)%Q. apply Qplus_le_compat; [apply Qplus_le_compat; assumption|]. discriminate. }
  assert (UP : (c + inject_Z X + (1 # 2) <= inject_Z W)%Q).
  { apply Qle_trans with (inject_Z (f_w f - 1) + inject_Z X + 1)%Q; [apply Qplus_le_compat; [apply Qplus_le_compat; [exact C1|apply Qle_refl]|discriminate]|]. change 1%Q with (inject_Z 1). rewrite <- !inject_Z_plus, <- Zle_Qle. lia. }
  unfold uv. split; [|split].
  - apply Qle_shift_div_l; [exact WP|]. rewrite Qmult_0_l. exact NN.
  - apply Qle_shift_div_r; [exact WP|]. rewrite Qmult_1_l. exact UP.
  - rewrite Qmult_comm. apply Qmult_div_r. intros E. rewrite E in WP. discriminate WP.
Qed.
Print Assumptions C156_uv.

(** ** The .obj file: a face lists its own vertices, in the other direction. *)
Lemma seq_rev : forall n a, map (fun i => a + (n - 1 - i) + 1)%nat (seq 0 n) = rev (seq (S a) n).
Proof.
  intros n a. apply nth_ext with (d := O) (d' := O); [rewrite map_length, rev_length, !seq_length; reflexivity|]. intros k. rewrite map_length, seq_length. intros K.
  rewrite rev_nth by (rewrite seq_length; exact K). rewrite seq_length, seq_nth by lia.
  set (g := fun i => (a + (n - 1 - i) + 1)%nat). rewrite nth_indep with (d' := g O) by (rewrite map_length, seq_length; exact K). rewrite map_nth, seq_nth by exact K. unfold g. lia.
Qed.
Lemma obj_at : forall {V} (d : V) fs pre k f, nth_error fs k = Some f -> exists ix, nth_error (obj_faces (length pre) fs) k = Some ix /\ map (fun i => nth (i - 1) (pre ++ concat fs) d) ix = rev f /\ Forall (fun i => 1 <= i <= length (pre ++ concat fs))%nat ix.
Proof.
  intros V d. induction fs as [|g fs IH]; intros pre k f H; [destruct k; discriminate H|]. destruct k as [|k].
  - cbn in H. injection H as ->. cbn [obj_faces nth_error concat]. eexists. split; [reflexivity|]. rewrite seq_rev, map_rev. split.
    + f_equal. apply nth_ext with (d := d) (d' := d); [rewrite map_length, seq_length; reflexivity|]. intros n. rewrite map_length, seq_length. intros N.
      set (g := fun i => nth (i - 1) (pre ++ f ++ concat fs) d). rewrite nth_indep with (d' := g O) by (rewrite map_length, seq_length; exact N). rewrite map_nth, seq_nth by exact N. unfold g.
      replace (S (length pre) + n - 1)%nat with (length pre + n)%nat by lia. rewrite app_nth2_plus. apply app_nth1. exact N.
    + apply Forall_forall. intros i I. apply in_rev in I. apply in_seq in I. rewrite !app_length. lia.
  - cbn [nth_error] in H. destruct (IH (pre ++ g) k f H) as (ix & A & B & C). exists ix. cbn [obj_faces nth_error concat]. rewrite app_length in A. rewrite app_assoc. split; [exact A|]. split; [exact B|exact C].
Qed.
Theorem C156_obj : forall {V} (d : V) fs, length (snd (obj fs)) = length fs /\ forall k f, nth_error fs k = Some f ->
  exists ix, nth_error (snd (obj fs)) k = Some ix /\ map (fun i => nth (i - 1) (fst (obj fs)) d) ix = rev f /\ Forall (fun i => 1 <= i <= length (fst (obj fs)))%nat ix.
Proof.
  intros V d fs. split; [|intros k f H; apply (obj_at d fs [] k f H)]. unfold obj. cbn [snd]. generalize O. induction fs as [|f fs IH]; intros n; [reflexivity|]. cbn [obj_faces length]. rewrite IH. reflexivity.
Qed.
Print Assumptions C156_obj.

Example C156_nontrivial :
  let fs := [mkF 2 1 0 [0; 255; 255; 255]; mkF 300 400 2 [0; 5; 255; 255]; mkF 300 401 0 [255; 255; 255; 255]; mkF 1 2 240002 [5; 255; 255; 255]] in
  layout 2 fs = Some [(mkF 300 401 0 [255; 255; 255; 255], (0, 0)); (mkF 300 400 2 [0; 5; 255; 255], (512, 0)); (mkF 1 2 240002 [5; 255; 255; 255], (812, 0)); (mkF 2 1 0 [0; 255; 255; 255], (813, 0))] /\
  Forall good fs /\ layout 100 [mkF 10 512 0 []] = None /\
  option_map (fun l => match atlas_of false false false [7; 9; 1; 2] l 0 with ROk (Some c) => (trimmed_width l, trimmed_height l, map c [0; 1; 2; 3; 4; 5]) | _ => (0, 0, []) end) (layout 2 [mkF 1 2 2 [0]; mkF 2 1 0 [0]]) =
    Some (3, 2, [[1; 1; 1; 255]; [7; 7; 7; 255]; [9; 9; 9; 255]; [2; 2; 2; 255]; [0; 0; 0; 0]; [0; 0; 0; 0]]) /\
  obj [[10; 11; 12]; [13; 14; 15; 16]] = ([10; 11; 12; 13; 14; 15; 16], [[3; 2; 1]; [7; 6; 5; 4]]%nat).
Proof.
  cbv zeta. split; [vm_compute; reflexivity|]. split; [repeat (apply Forall_cons; [unfold good; cbn; lia|]); apply Forall_nil|]. split; [vm_compute; reflexivity|]. split; [vm_compute; reflexivity|reflexivity].
Qed.
