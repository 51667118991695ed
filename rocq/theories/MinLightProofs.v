(* Proofs for MinLightModel.v: lightmaps by style, minimum light, noise. *)
From Coq Require Import Reals List Bool ZArith Lia Lra.
From Verif Require Import NumCastModel WindClipModel LightValModel LightColModel MinLightModel.
Import ListNotations.
Open Scope R_scope.

(** The colours a style has. *)
Definition look (d : dict) (s : Z) : option (list vec) := option_map snd (find (fun m => Z.eqb (fst m) s) d).

Lemma index_some : forall s d i, index_of s d = Some i ->
  (i < length d)%nat /\ exists x, nth i d (INVALID_STYLE, []) = (s, x) /\ look d s = Some x.
Proof.
  intros s d. induction d as [|[t y] d IH]; intros i H; [discriminate H|].
  cbn [index_of] in H. destruct (Z.eqb_spec t s) as [->|N].
  - injection H as <-. split; [cbn; lia|]. exists y. split; [reflexivity|].
    unfold look. cbn. rewrite Z.eqb_refl. reflexivity.
  - destruct (index_of s d) as [j|] eqn:E; [|discriminate H]. injection H as <-.
    destruct (IH j eq_refl) as (L & x & A & B). split; [cbn; lia|]. exists x. split; [exact A|].
    unfold look in *. cbn [find fst]. apply Z.eqb_neq in N. rewrite N. exact B.
Qed.
Lemma index_none : forall s d, index_of s d = None -> look d s = None.
Proof.
  intros s d. induction d as [|[t y] d IH]; intros H; [reflexivity|].
  cbn [index_of] in H. unfold look in *. cbn [find fst]. destruct (t =? s)%Z; [discriminate H|].
  apply IH. destruct (index_of s d); [discriminate H|reflexivity].
Qed.
Lemma put_length : forall A i (x : A) l, length (put i x l) = length l.
Proof. intros A i x l. revert i. induction l as [|a l IH]; intros [|i]; cbn; auto. Qed.
Lemma put_nth : forall A i (x d : A) l, (i < length l)%nat -> nth i (put i x l) d = x.
Proof. intros A i x d l. revert i. induction l as [|a l IH]; intros [|i] H; cbn in *; try lia; auto. apply IH. lia. Qed.
Lemma put_put : forall A i (x y : A) l, put i x (put i y l) = put i x l.
Proof. intros A i x y l. revert i. induction l as [|a l IH]; intros [|i]; cbn; auto. rewrite IH. reflexivity. Qed.
Lemma put_other : forall s' t t' x d i, (i < length d)%nat -> fst (nth i d (INVALID_STYLE, [])) = t -> s' <> t -> s' <> t' ->
  look (put i (t', x) d) s' = look d s'.
Proof.
  intros s' t t' x d. induction d as [|[u y] d IH]; intros [|i] L E N N'; try (cbn in L; lia).
  - cbn in E. subst u. unfold look. cbn [put find fst]. apply Z.eqb_neq in N, N'. rewrite Z.eqb_sym in N, N'.
    rewrite N, N'. reflexivity.
  - cbn [put length nth] in *. unfold look in *. cbn [find fst]. destruct (u =? s')%Z; [reflexivity|].
    apply IH; auto. lia.
Qed.
Lemma put_same : forall s x d i, index_of s d = Some i -> look (put i (s, x) d) s = Some x.
Proof.
  intros s x d. induction d as [|[u y] d IH]; intros i H; [discriminate H|].
  cbn [index_of] in H. destruct (Z.eqb_spec u s) as [->|N].
  - injection H as <-. unfold look. cbn. rewrite Z.eqb_refl. reflexivity.
  - destruct (index_of s d) as [j|] eqn:E; [|discriminate H]. injection H as <-. unfold look in *. cbn [put find fst].
    apply Z.eqb_neq in N. rewrite N. apply IH. reflexivity.
Qed.
Lemma put_new : forall s x d i, look d s = None -> (i < length d)%nat -> look (put i (s, x) d) s = Some x.
Proof.
  intros s x d. induction d as [|[u y] d IH]; intros [|i] H L; try (cbn in L; lia).
  - unfold look. cbn. rewrite Z.eqb_refl. reflexivity.
  - unfold look in *. cbn [put find fst length] in *. destruct (u =? s)%Z; [discriminate H|]. apply IH; [exact H|lia].
Qed.
Lemma look_app : forall d m s, look (d ++ [m]) s = match look d s with Some x => Some x | None => look [m] s end.
Proof.
  intros d m s. induction d as [|[u y] d IH]; [reflexivity|].
  unfold look in *. cbn [find fst app]. destruct (u =? s)%Z; [reflexivity|]. exact IH.
Qed.

(** What Lightmap_ForStyle returns. *)
Lemma for_style_spec : forall d s n, s <> INVALID_STYLE ->
  let (i, d1) := for_style d s n in
  (i < length d1)%nat /\ (forall t, t <> INVALID_STYLE -> look d1 t = look d t) /\
  (exists x, look d s = Some x /\ index_of s d1 = Some i /\ nth i d1 (INVALID_STYLE, []) = (s, x) \/
             look d s = None /\ nth i d1 (INVALID_STYLE, []) = (INVALID_STYLE, repeat black n)).
Proof.
  intros d s n N. unfold for_style. destruct (index_of s d) as [i|] eqn:E.
  - destruct (index_some _ _ _ E) as (L & x & A & B). split; [exact L|]. split; [reflexivity|].
    exists x. left. auto.
  - pose proof (index_none _ _ E) as E2. destruct (index_of INVALID_STYLE d) as [i|] eqn:F.
    + destruct (index_some _ _ _ F) as (L & x & A & B). split; [rewrite put_length; exact L|].
      split.
      * intros t T. apply put_other with (t := INVALID_STYLE); auto. rewrite A. reflexivity.
      * exists []. right. split; [exact E2|]. apply put_nth. exact L.
    + split; [rewrite app_length; cbn; lia|]. split.
      * intros t T. rewrite look_app. destruct (look d t); [reflexivity|]. unfold look. cbn [find fst].
        apply Z.eqb_neq in T. rewrite Z.eqb_sym in T. rewrite T. reflexivity.
      * exists []. right. split; [exact E2|]. rewrite app_nth2, Nat.sub_diag by lia. reflexivity.
Qed.

Lemma on_style_spec : forall d s n f, s <> INVALID_STYLE ->
  look (on_style d s n f) s =
    (let old := match look d s with Some x => x | None => repeat black n end in
     if snd (f old) then Some (fst (f old)) else option_map (fun o => fst (f o)) (look d s)) /\
  (forall t, t <> s -> t <> INVALID_STYLE -> look (on_style d s n f) t = look d t).
Proof.
  intros d s n f N. unfold on_style. pose proof (for_style_spec d s n N) as H.
  destruct (for_style d s n) as [i d1]. destruct H as (L & K & x & [(A & B & C)|(A & C)]); rewrite C; cbn [fst snd]; rewrite A; cbn zeta.
  - cbn [option_map]. destruct (f x) as [y h]; cbn [fst snd].
    assert (X : (if h then save (put i (s, y) d1) i s else put i (s, y) d1) = put i (s, y) d1).
    { destruct h; [|reflexivity]. unfold save. rewrite put_nth by exact L. cbn [fst snd]. apply Z.eqb_neq in N. rewrite N. reflexivity. }
    rewrite X. split.
    + rewrite (put_same s y d1 i B). destruct h; reflexivity.
    + intros t T1 T2. rewrite put_other with (t := s); auto. rewrite C. reflexivity.
  - destruct (f (repeat black n)) as [y h]; cbn [fst snd option_map]. destruct h.
    + unfold save. rewrite put_nth by exact L. cbn [fst snd]. rewrite Z.eqb_refl, put_put. split.
      * apply put_new; [|exact L]. rewrite K by exact N. exact A.
      * intros t T1 T2. rewrite put_other with (t := INVALID_STYLE); auto. rewrite C. reflexivity.
    + split.
      * rewrite put_other with (t := INVALID_STYLE); auto; [rewrite K by exact N; exact A|rewrite C; reflexivity].
      * intros t T1 T2. rewrite put_other with (t := INVALID_STYLE); auto. rewrite C. reflexivity.
Qed.

(** [each] works on every sample by itself. *)
Lemma each_length : forall f ss cs, length (fst (each f ss cs)) = length cs.
Proof.
  intros f ss. induction ss as [|s ss IH]; intros [|c cs]; cbn [each]; try reflexivity.
  destruct (f s c) as [c' h]. specialize (IH cs). destruct (each f ss cs) as [r h']. cbn in *. lia.
Qed.
Lemma each_nth : forall f ss cs i s c, nth_error ss i = Some s -> nth_error cs i = Some c ->
  nth_error (fst (each f ss cs)) i = Some (fst (f s c)).
Proof.
  intros f ss. induction ss as [|s0 ss IH]; intros [|c0 cs] i s c A B; try (destruct i; discriminate).
  cbn [each]. destruct (f s0 c0) as [c' h] eqn:E. destruct (each f ss cs) as [r h'] eqn:F.
  destruct i as [|i]; cbn [nth_error fst] in *.
  - injection A as <-. injection B as <-. rewrite E. reflexivity.
  - specialize (IH cs i s c A B). rewrite F in IH. exact IH.
Qed.
Lemma each_hit : forall f ss cs, snd (each f ss cs) = true <->
  exists i s c, nth_error ss i = Some s /\ nth_error cs i = Some c /\ snd (f s c) = true.
Proof.
  intros f ss. induction ss as [|s0 ss IH]; intros [|c0 cs]; cbn [each snd];
    try (split; [discriminate|intros (i & s & c & A & B & _); destruct i; discriminate]).
  destruct (f s0 c0) as [c' h] eqn:E. specialize (IH cs). destruct (each f ss cs) as [r h']. cbn [snd] in *.
  rewrite orb_true_iff. split.
  - intros [->|H]; [exists O, s0, c0; rewrite E; auto|]. apply IH in H. destruct H as (i & s & c & H). exists (S i), s, c. exact H.
  - intros (i & s & c & A & B & C). destruct i as [|i]; cbn [nth_error] in A, B.
    + injection A as <-. injection B as <-. rewrite E in C. left. exact C.
    + right. apply IH. exists i, s, c. auto.
Qed.
Lemma each_keep : forall f ss cs, (forall s c, snd (f s c) = false -> fst (f s c) = c) ->
  snd (each f ss cs) = false -> fst (each f ss cs) = cs.
Proof.
  intros f ss. induction ss as [|s0 ss IH]; intros [|c0 cs] K H; cbn [each fst]; try reflexivity.
  cbn [each] in H. pose proof (K s0 c0) as K0. destruct (f s0 c0) as [c' h]. specialize (IH cs K). destruct (each f ss cs) as [r h'].
  cbn [fst snd] in *. apply orb_false_iff in H. destruct H as [-> ->]. rewrite K0, IH by reflexivity. reflexivity.
Qed.

Lemma clamp1_spec : forall light col c, fst (clamp1 light col c) = Rmax c (col * (light / 255)) /\
  (snd (clamp1 light col c) = true <-> c < col * (light / 255)).
Proof.
  intros light col c. unfold clamp1. destruct (Rlt_dec c (col * (light / 255))) as [H|H]; cbn [fst snd].
  - split; [rewrite Rmax_right by lra; reflexivity|]. split; auto.
  - split; [rewrite Rmax_left by lra; reflexivity|]. split; [discriminate|contradiction].
Qed.
Definition floor_of (light : R) (col : vec) : vec := scale (light / 255) col.
Lemma clamp_min_spec : forall light col c, fst (clamp_min light col c) = vmax2 c (floor_of light col) /\
  (snd (clamp_min light col c) = false -> fst (clamp_min light col c) = c).
Proof.
  intros light col c. unfold clamp_min.
  destruct (clamp1_spec light (vx col) (vx c)) as [X1 X2]. destruct (clamp1_spec light (vy col) (vy c)) as [Y1 Y2].
  destruct (clamp1_spec light (vz col) (vz c)) as [Z1 Z2].
  destruct (clamp1 light (vx col) (vx c)) as [x a]. destruct (clamp1 light (vy col) (vy c)) as [y b].
  destruct (clamp1 light (vz col) (vz c)) as [z e]. cbn [fst snd] in *.
  assert (E : mkV x y z = vmax2 c (floor_of light col)).
  { unfold vmax2, floor_of, scale. cbn [vx vy vz]. rewrite X1, Y1, Z1. f_equal; f_equal; ring. }
  split; [exact E|]. intros H. apply orb_false_iff in H. destruct H as [H H3]. apply orb_false_iff in H. destruct H as [H1 H2].
  subst a b e. destruct c as [cx cy cz]. cbn [vx vy vz] in *.
  assert (~ cx < vx col * (light / 255)) by (intros T; apply X2 in T; discriminate).
  assert (~ cy < vy col * (light / 255)) by (intros T; apply Y2 in T; discriminate).
  assert (~ cz < vz col * (light / 255)) by (intros T; apply Z2 in T; discriminate).
  rewrite X1, Y1, Z1. rewrite !Rmax_left by lra. reflexivity.
Qed.

(** ** Noise *)
Lemma table_byte : forall i, (0 <= nth i mottle_table 0 <= 255)%Z.
Proof.
  assert (B : forallb (fun z => (0 <=? z) && (z <=? 255))%Z mottle_table = true) by (vm_compute; reflexivity).
  intros i. destruct (Nat.lt_ge_cases i (length mottle_table)) as [L|G].
  - rewrite forallb_forall in B. specialize (B _ (nth_In mottle_table 0%Z L)). apply andb_true_iff in B.
    destruct B as [B1 B2]. apply Z.leb_le in B1, B2. lia.
  - rewrite nth_overflow by exact G. lia.
Qed.
Lemma noise_byte : forall x y z, (0 <= noise x y z <= 255)%Z.
Proof. intros x y z. unfold noise. apply table_byte. Qed.
Lemma noise_period : forall x y z a b c, noise (x + 256 * a) (y + 256 * b) (z + 256 * c) = noise x y z.
Proof.
  intros x y z a b c. unfold noise.
  replace (x + 256 * a)%Z with (x + a * 256)%Z by ring. rewrite Z.mod_add by discriminate.
  match goal with |- context [(?t + (y + 256 * b))%Z] => replace (t + (y + 256 * b))%Z with (t + y + b * 256)%Z by ring end.
  rewrite Z.mod_add by discriminate.
  match goal with |- context [(?t + (z + 256 * c))%Z] => replace (t + (z + 256 * c))%Z with (t + z + c * 256)%Z by ring end.
  rewrite Z.mod_add by discriminate. reflexivity.
Qed.
Lemma mod_neg_spec : forall x, exists k, mod_neg x 256 = (x + 256 * k)%Z /\ (0 <= mod_neg x 256 <= 256)%Z /\
  (mod_neg x 256 = 256%Z <-> (x < 0 /\ x mod 256 = 0)%Z).
Proof.
  intros x. unfold mod_neg. destruct (Z.leb_spec 0 x) as [H|H].
  - exists (- (x / 256))%Z. rewrite Z.rem_mod_nonneg by lia. pose proof (Z.div_mod x 256 ltac:(discriminate)).
    pose proof (Z.mod_pos_bound x 256 ltac:(lia)). repeat split; lia.
  - exists ((- x) / 256 + 1)%Z. rewrite Z.rem_mod_nonneg by lia. pose proof (Z.div_mod (- x) 256 ltac:(discriminate)) as E.
    pose proof (Z.mod_pos_bound (- x) 256 ltac:(lia)). split; [lia|]. split; [lia|]. split.
    + intros M. split; [lia|]. assert (E0 : ((- x) mod 256 = 0)%Z) by lia. apply Z.mod_opp_l_z in E0; [|discriminate].
      rewrite Z.opp_involutive in E0. exact E0.
    + intros [_ M]. apply Z.mod_opp_l_z in M; [|discriminate]. lia.
Qed.

(** The interpolation without dropping fractions. *)
Definition mix1 (a b f : R) : R := a * (1 - f) + b * f.
Definition trilinear (n : Z -> Z -> Z -> R) (x y z : Z) (fx fy fz : R) : R :=
  mix1 (mix1 (mix1 (n x y z) (n (x + 1) y z)%Z fx) (mix1 (n x (y + 1) z)%Z (n (x + 1) (y + 1) z)%Z fx) fy)
       (mix1 (mix1 (n x y (z + 1))%Z (n (x + 1) y (z + 1))%Z fx)
             (mix1 (n x (y + 1) (z + 1))%Z (n (x + 1) (y + 1) (z + 1))%Z fx) fy) fz.

Lemma trunc_pos : forall x, 0 <= x -> IZR (trunc x) <= x /\ x - 1 < IZR (trunc x).
Proof.
  intros x H. unfold trunc. destruct (Rlt_dec x 0) as [L|L]; [lra|].
  destruct (base_Int_part x) as [A B]. lra.
Qed.
Lemma mix1_between : forall a b f lo hi, 0 <= f <= 1 -> lo <= a <= hi -> lo <= b <= hi -> lo <= mix1 a b f <= hi.
Proof. intros a b f lo hi F A B. unfold mix1. split; nra. Qed.
Lemma mixb_spec : forall a b f, 0 <= f <= 1 -> (0 <= a <= 255)%Z -> (0 <= b <= 255)%Z ->
  (0 <= mixb a b f <= 255)%Z /\ IZR (mixb a b f) <= mix1 (IZR a) (IZR b) f /\ mix1 (IZR a) (IZR b) f - 1 < IZR (mixb a b f).
Proof.
  intros a b f F A B. unfold mixb. fold (mix1 (IZR a) (IZR b) f).
  assert (M : 0 <= mix1 (IZR a) (IZR b) f <= 255).
  { apply mix1_between; auto; split; apply IZR_le; lia. }
  destruct (trunc_pos _ (proj1 M)) as [T1 T2]. split; [|split; assumption].
  assert (-1 < IZR (trunc (mix1 (IZR a) (IZR b) f)) < 256) by lra.
  destruct H as [H1 H2]. apply lt_IZR in H1, H2. lia.
Qed.
Lemma mix1_mono : forall a b a' b' f, 0 <= f <= 1 -> a <= a' -> b <= b' -> mix1 a b f <= mix1 a' b' f.
Proof. intros. unfold mix1. nra. Qed.
Lemma mix1_shift : forall a b f k, mix1 (a - k) (b - k) f = mix1 a b f - k.
Proof. intros. unfold mix1. ring. Qed.

Lemma mixb_acc : forall a b f A B e, 0 <= f <= 1 -> (0 <= a <= 255)%Z -> (0 <= b <= 255)%Z ->
  IZR a <= A /\ A - e < IZR a -> IZR b <= B /\ B - e < IZR b ->
  (0 <= mixb a b f <= 255)%Z /\ IZR (mixb a b f) <= mix1 A B f /\ mix1 A B f - (e + 1) < IZR (mixb a b f).
Proof.
  intros a b f A B e F HA HB [A1 A2] [B1 B2]. destruct (mixb_spec a b f F HA HB) as (R1 & R2 & R3).
  split; [exact R1|]. pose proof (mix1_mono _ _ _ _ f F A1 B1).
  pose proof (mix1_mono (A - e) (B - e) (IZR a) (IZR b) f F ltac:(lra) ltac:(lra)) as M.
  rewrite mix1_shift in M. lra.
Qed.

Lemma mixed_spec : forall x y z fx fy fz, 0 <= fx <= 1 -> 0 <= fy <= 1 -> 0 <= fz <= 1 ->
  (0 <= mixed x y z fx fy fz <= 255)%Z /\
  trilinear (fun x y z => IZR (noise x y z)) x y z fx fy fz - 3 < IZR (mixed x y z fx fy fz)
    <= trilinear (fun x y z => IZR (noise x y z)) x y z fx fy fz.
Proof.
  intros x y z fx fy fz X Y Z. unfold mixed, trilinear.
  destruct (mixb_spec _ _ fx X (noise_byte x y z) (noise_byte (x + 1) y z)) as (A0 & A1 & A2).
  destruct (mixb_spec _ _ fx X (noise_byte x (y + 1) z) (noise_byte (x + 1) (y + 1) z)) as (B0 & B1 & B2).
  destruct (mixb_spec _ _ fx X (noise_byte x y (z + 1)) (noise_byte (x + 1) y (z + 1))) as (C0 & C1 & C2).
  destruct (mixb_spec _ _ fx X (noise_byte x (y + 1) (z + 1)) (noise_byte (x + 1) (y + 1) (z + 1))) as (D0 & D1 & D2).
  destruct (mixb_acc _ _ fy _ _ 1 Y A0 B0 (conj A1 A2) (conj B1 B2)) as (E0 & E1 & E2).
  destruct (mixb_acc _ _ fy _ _ 1 Y C0 D0 (conj C1 C2) (conj D1 D2)) as (F0 & F1 & F2).
  replace (1 + 1) with 2 in E2, F2 by ring.
  destruct (mixb_acc _ _ fz _ _ 2 Z E0 F0 (conj E1 E2) (conj F1 F2)) as (G0 & G1 & G2).
  split; [exact G0|]. lra.
Qed.
Lemma mixed_period : forall x y z a b c fx fy fz,
  mixed (x + 256 * a) (y + 256 * b) (z + 256 * c) fx fy fz = mixed x y z fx fy fz.
Proof.
  intros. unfold mixed.
  replace (x + 256 * a + 1)%Z with (x + 1 + 256 * a)%Z by ring. replace (y + 256 * b + 1)%Z with (y + 1 + 256 * b)%Z by ring.
  replace (z + 256 * c + 1)%Z with (z + 1 + 256 * c)%Z by ring. rewrite !noise_period. reflexivity.
Qed.

(** The colours a style shows: black if it has no lightmap. *)
Definition shown (d : dict) (s : Z) (n : nat) : list vec :=
  match look d s with Some x => x | None => repeat black n end.
Lemma shown_on_style : forall d s n f, s <> INVALID_STYLE -> (forall cs, snd (f cs) = false -> fst (f cs) = cs) ->
  shown (on_style d s n f) s n = fst (f (shown d s n)) /\
  forall t, t <> s -> t <> INVALID_STYLE -> shown (on_style d s n f) t n = shown d t n.
Proof.
  intros d s n f N K. destruct (on_style_spec d s n f N) as [A B]. split.
  - unfold shown at 1. rewrite A. cbn zeta. fold (shown d s n). pose proof (K (shown d s n)) as K1.
    destruct (snd (f (shown d s n))); [reflexivity|]. unfold shown in *. destruct (look d s); cbn [option_map]; [reflexivity|].
    rewrite K1 by reflexivity. reflexivity.
  - intros t T1 T2. unfold shown. rewrite B by assumption. reflexivity.
Qed.
Lemma shown_each : forall d s n f ss, s <> INVALID_STYLE -> (forall x c, snd (f x c) = false -> fst (f x c) = c) ->
  (forall i x c, nth_error ss i = Some x -> nth_error (shown d s n) i = Some c ->
     nth_error (shown (on_style d s n (each f ss)) s n) i = Some (fst (f x c))) /\
  length (shown (on_style d s n (each f ss)) s n) = length (shown d s n) /\
  forall t, t <> s -> t <> INVALID_STYLE -> shown (on_style d s n (each f ss)) t n = shown d t n.
Proof.
  intros d s n f ss N K. destruct (shown_on_style d s n (each f ss) N (fun cs => each_keep f ss cs K)) as [A B].
  rewrite A. split; [|split; [apply each_length|exact B]]. intros i x c X C. apply each_nth; assumption.
Qed.

Definition le3 (a b : vec) : Prop := vx a <= vx b /\ vy a <= vy b /\ vz a <= vz b.
Lemma le3_refl : forall a, le3 a a.
Proof. intros a. repeat split; lra. Qed.
Lemma le3_trans : forall a b c, le3 a b -> le3 b c -> le3 a c.
Proof. intros a b c (A & B & C) (D & E & F). repeat split; lra. Qed.
Lemma vmax2_l : forall a b, le3 a (vmax2 a b).
Proof. intros a b. unfold vmax2, le3. cbn. repeat split; apply Rmax_l. Qed.
Lemma vmax2_r : forall a b, le3 b (vmax2 a b).
Proof. intros a b. unfold vmax2, le3. cbn. repeat split; apply Rmax_r. Qed.
Lemma brightness_mono : forall a b, le3 a b -> brightness a <= brightness b.
Proof. intros a b (A & B & C). unfold brightness. lra. Qed.

Lemma min_sample_keep : forall g mot light col x c, snd (min_sample g mot light col x c) = false -> fst (min_sample g mot light col x c) = c.
Proof.
  intros g mot light col x c. unfold min_sample. destruct (m_add g); [discriminate|]. apply clamp_min_spec.
Qed.
Lemma local_sample_keep : forall g e x c, snd (local_sample g e x c) = false -> fst (local_sample g e x c) = c.
Proof.
  intros g e x c. unfold local_sample. destruct (sp_occluded x); [reflexivity|].
  destruct (m_add g || _); [|reflexivity]. destruct (lm_sees e (sp_point x)); [|reflexivity].
  destruct (m_add g); [discriminate|]. apply clamp_min_spec.
Qed.

Lemma dirt_nonneg : forall use gain ds occ, 0 <= dirt_factor use gain ds None occ 0.
Proof.
  intros use gain ds occ. unfold dirt_factor. destruct use; [|lra]. destruct (Rle_dec occ 0); [lra|]. cbn zeta.
  match goal with |- 0 <= 1 - (if Rlt_dec 1 ?o then _ else _) => destruct (Rlt_dec 1 o) end; lra.
Qed.
