(* Proofs about contents flags. *)
From Coq Require Import List Arith NArith ZArith Bool Lia Permutation.
Import ListNotations.
From Verif Require Import NumCastModel ContentsModel.
Local Open Scope N_scope.

(** ** Tests as bits *)

Lemma tst_lor : forall c m n, tst c (N.lor m n) = tst c m || tst c n.
Proof.
  intros c m n. unfold tst. rewrite N.land_lor_distr_r.
  destruct (N.eqb_spec (N.land c m) 0) as [E|E].
  - rewrite E, N.lor_0_l. reflexivity.
  - destruct (N.eqb_spec (N.lor (N.land c m) (N.land c n)) 0) as [F|F]; [|reflexivity].
    apply N.lor_eq_0_iff in F. destruct F; contradiction.
Qed.

Lemma tst_pow2 : forall c k, tst c (2 ^ k) = N.testbit c k.
Proof.
  intros c k. unfold tst. destruct (N.testbit c k) eqn:T.
  - destruct (N.eqb_spec (N.land c (2 ^ k)) 0) as [E|E]; [|reflexivity].
    assert (X : N.testbit (N.land c (2 ^ k)) k = true)
      by (rewrite N.land_spec, T, N.pow2_bits_true; reflexivity).
    rewrite E, N.bits_0 in X. discriminate X.
  - destruct (N.eqb_spec (N.land c (2 ^ k)) 0) as [E|E]; [reflexivity|].
    exfalso. apply E. apply N.bits_inj. intros j. rewrite N.land_spec, N.bits_0.
    destruct (N.eq_dec k j) as [->|D]; [rewrite T; reflexivity|].
    rewrite N.pow2_bits_false by congruence. apply andb_false_r.
Qed.

Lemma tst_SOLID : forall c, tst c SOLID = N.testbit c 0. Proof. intros c. exact (tst_pow2 c 0). Qed.
Lemma tst_SKY : forall c, tst c SKY = N.testbit c 1. Proof. intros c. exact (tst_pow2 c 1). Qed.
Lemma tst_WALL : forall c, tst c DETAIL_WALL = N.testbit c 2. Proof. intros c. exact (tst_pow2 c 2). Qed.
Lemma tst_WINDOW : forall c, tst c WINDOW = N.testbit c 3. Proof. intros c. exact (tst_pow2 c 3). Qed.
Lemma tst_AUX : forall c, tst c AUX = N.testbit c 4. Proof. intros c. exact (tst_pow2 c 4). Qed.
Lemma tst_LAVA : forall c, tst c LAVA = N.testbit c 5. Proof. intros c. exact (tst_pow2 c 5). Qed.
Lemma tst_SLIME : forall c, tst c SLIME = N.testbit c 6. Proof. intros c. exact (tst_pow2 c 6). Qed.
Lemma tst_WATER : forall c, tst c WATER = N.testbit c 7. Proof. intros c. exact (tst_pow2 c 7). Qed.
Lemma tst_MIST : forall c, tst c MIST = N.testbit c 8. Proof. intros c. exact (tst_pow2 c 8). Qed.
Lemma tst_ORIGIN : forall c, tst c ORIGIN = N.testbit c 9. Proof. intros c. exact (tst_pow2 c 9). Qed.
Lemma tst_PLAYERCLIP : forall c, tst c PLAYERCLIP = N.testbit c 10. Proof. intros c. exact (tst_pow2 c 10). Qed.
Lemma tst_MONSTERCLIP : forall c, tst c MONSTERCLIP = N.testbit c 11. Proof. intros c. exact (tst_pow2 c 11). Qed.
Lemma tst_AREAPORTAL : forall c, tst c AREAPORTAL = N.testbit c 12. Proof. intros c. exact (tst_pow2 c 12). Qed.
Lemma tst_VISBLOCKER : forall c, tst c VISBLOCKER = N.testbit c 13. Proof. intros c. exact (tst_pow2 c 13). Qed.
Lemma tst_DETAIL : forall c, tst c DETAIL = N.testbit c 14. Proof. intros c. exact (tst_pow2 c 14). Qed.
Lemma tst_MIRROR : forall c, tst c MIRROR_INSIDE = N.testbit c 15. Proof. intros c. exact (tst_pow2 c 15). Qed.
Lemma tst_MIRROR_SET : forall c, tst c MIRROR_INSIDE_SET = N.testbit c 16. Proof. intros c. exact (tst_pow2 c 16). Qed.
Lemma tst_SUPPRESS : forall c, tst c SUPPRESS_CLIPPING = N.testbit c 17. Proof. intros c. exact (tst_pow2 c 17). Qed.
Lemma tst_TRANSLUCENT : forall c, tst c TRANSLUCENT = N.testbit c 24. Proof. intros c. exact (tst_pow2 c 24). Qed.
#[global] Hint Rewrite tst_SOLID tst_SKY tst_WALL tst_WINDOW tst_AUX tst_LAVA tst_SLIME tst_WATER tst_MIST
  tst_ORIGIN tst_PLAYERCLIP tst_MONSTERCLIP tst_AREAPORTAL tst_VISBLOCKER tst_DETAIL tst_MIRROR
  tst_MIRROR_SET tst_SUPPRESS tst_TRANSLUCENT : tst.

Lemma tst_LIQUIDS : forall c, tst c ALL_LIQUIDS = existsb (N.testbit c) [5;6;7].
Proof.
  intros c. change ALL_LIQUIDS with (N.lor LAVA (N.lor SLIME WATER)).
  rewrite !tst_lor. autorewrite with tst. cbn [existsb]. rewrite orb_false_r. reflexivity.
Qed.
Lemma tst_VISIBLE : forall c, tst c ALL_VISIBLE = existsb (N.testbit c) [0;1;2;3;4;5;6;7;8].
Proof.
  intros c. change ALL_VISIBLE with
    (N.lor SOLID (N.lor SKY (N.lor DETAIL_WALL (N.lor WINDOW (N.lor AUX (N.lor LAVA (N.lor SLIME (N.lor WATER MIST)))))))).
  rewrite !tst_lor. autorewrite with tst. cbn [existsb]. rewrite orb_false_r. reflexivity.
Qed.

Lemma tst_exists : forall c m, tst c m = true <-> exists k, N.testbit c k = true /\ N.testbit m k = true.
Proof.
  intros c m. unfold tst. split.
  - intros H. destruct (N.eqb_spec (N.land c m) 0) as [E|E]; [discriminate H|].
    exists (N.log2 (N.land c m)). pose proof (N.bit_log2 _ E) as B.
    rewrite N.land_spec in B. apply andb_true_iff in B. exact B.
  - intros (k & A & B). destruct (N.eqb_spec (N.land c m) 0) as [E|E]; [|reflexivity].
    assert (X : N.testbit (N.land c m) k = true) by (rewrite N.land_spec, A, B; reflexivity).
    rewrite E, N.bits_0 in X. discriminate X.
Qed.

Lemma visible_bit : forall k, N.testbit ALL_VISIBLE k = true <-> k <= 8.
Proof.
  intros k. change ALL_VISIBLE with (N.ones 9). split.
  - intros H. destruct (N.lt_ge_cases k 9) as [L|L]; [lia|].
    rewrite N.ones_spec_high in H by lia. discriminate H.
  - intros H. apply N.ones_spec_low. lia.
Qed.

(** Normalises the bits of an expression built from constants and operations. *)
Ltac bits :=
  repeat (rewrite ?N.lor_spec, ?N.land_spec, ?N.lxor_spec, ?N.ldiff_spec, ?N.bits_0 in * ).

(** ** Quake II native values *)

Lemma fold_bits : forall t x acc j,
  N.testbit (fold_left (fun r p => if N.testbit x (fst p) then N.lor r (2 ^ snd p) else r) t acc) j =
  N.testbit acc j || existsb (fun p : N * N => N.testbit x (fst p) && (snd p =? j)) t.
Proof.
  induction t as [|[s d] t IH]; intros x acc j; cbn [fold_left existsb fst snd].
  - rewrite orb_false_r. reflexivity.
  - rewrite IH. destruct (N.testbit x s); cbn [andb]; [|rewrite orb_false_l; reflexivity].
    rewrite N.lor_spec, <- orb_assoc. f_equal. f_equal.
    destruct (N.eqb_spec d j) as [->|D]; [apply N.pow2_bits_true|apply N.pow2_bits_false; exact D].
Qed.

Lemma map_bits_spec : forall t x j,
  N.testbit (map_bits t x) j = existsb (fun p : N * N => N.testbit x (fst p) && (snd p =? j)) t.
Proof. intros. unfold map_bits. rewrite fold_bits, N.bits_0. reflexivity. Qed.

(** The two tables are the same pairs. *)
Lemma tables_inverse : forall p, In p q2_from_table <-> In (snd p, fst p) q2_to_table.
Proof.
  assert (A : forallb (fun p => existsb (fun q => (fst q =? snd p) && (snd q =? fst p)) q2_to_table) q2_from_table = true)
    by (vm_compute; reflexivity).
  assert (B : forallb (fun p => existsb (fun q => (fst q =? snd p) && (snd q =? fst p)) q2_from_table) q2_to_table = true)
    by (vm_compute; reflexivity).
  rewrite forallb_forall in A, B. intros [s d]. cbn [fst snd]. split; intros I.
  - specialize (A _ I). apply existsb_exists in A. destruct A as ([u v] & J & E). cbn [fst snd] in E.
    apply andb_true_iff in E. destruct E as [E1 E2]. apply N.eqb_eq in E1, E2. subst. exact J.
  - specialize (B _ I). apply existsb_exists in B. destruct B as ([u v] & J & E). cbn [fst snd] in E.
    apply andb_true_iff in E. destruct E as [E1 E2]. apply N.eqb_eq in E1, E2. subst. exact J.
Qed.

Definition uniq (t : list (N * N)) : bool :=
  forallb (fun p : N * N => forallb (fun q : N * N =>
    Bool.eqb (fst p =? fst q) (snd p =? snd q)) t) t.
Lemma uniq_from : uniq q2_from_table = true. Proof. vm_compute. reflexivity. Qed.
Lemma uniq_to : uniq q2_to_table = true. Proof. vm_compute. reflexivity. Qed.
Lemma uniq_spec : forall t p q, uniq t = true -> In p t -> In q t -> (fst p = fst q <-> snd p = snd q).
Proof.
  intros t p q U P Q. unfold uniq in U. rewrite forallb_forall in U. specialize (U p P).
  rewrite forallb_forall in U. specialize (U q Q). apply Bool.eqb_prop in U.
  rewrite <- !N.eqb_eq. rewrite U. reflexivity.
Qed.

(** A table without repeats followed by its inverse keeps exactly the bits it lists. *)
Lemma round_bits : forall t t' x j, uniq t = true -> uniq t' = true ->
  (forall p, In p t <-> In (snd p, fst p) t') ->
  N.testbit (map_bits t' (map_bits t x)) j =
  N.testbit x j && existsb (fun p : N * N => fst p =? j) t.
Proof.
  intros t t' x j U U' I. rewrite map_bits_spec.
  apply eq_true_iff_eq. rewrite andb_true_iff, !existsb_exists. split.
  - intros ([d s] & J & E). cbn [fst snd] in E. apply andb_true_iff in E. destruct E as [E1 E2].
    apply N.eqb_eq in E2. subst s. rewrite map_bits_spec in E1. apply existsb_exists in E1.
    destruct E1 as ([s d'] & K & E). cbn [fst snd] in E. apply andb_true_iff in E. destruct E as [E1 E2].
    apply N.eqb_eq in E2. subst d'.
    assert (X : In (d, s) t') by (apply (I (s, d)); exact K).
    pose proof (uniq_spec t' (d, s) (d, j) U' X J) as Y. cbn [fst snd] in Y.
    assert (s = j) by (apply Y; reflexivity). subst s. split; [exact E1|].
    exists (j, d). split; [exact K|]. cbn [fst]. apply N.eqb_refl.
  - intros (E & [s d] & K & F). cbn [fst] in F. apply N.eqb_eq in F. subst s.
    exists (d, j). split; [apply (I (j, d)); exact K|]. cbn [fst snd]. rewrite N.eqb_refl, andb_true_r.
    rewrite map_bits_spec. apply existsb_exists. exists (j, d). split; [exact K|].
    cbn [fst snd]. rewrite E, N.eqb_refl. reflexivity.
Qed.

Lemma from_table_low : forall j, existsb (fun p : N * N => fst p =? j) q2_from_table = (j <? 32).
Proof.
  intros j. destruct (N.ltb_spec j 32) as [L|L].
  - assert (C : forallb (fun k => existsb (fun p : N * N => fst p =? N.of_nat k) q2_from_table) (seq 0 32) = true)
      by (vm_compute; reflexivity).
    rewrite forallb_forall in C. specialize (C (N.to_nat j)). rewrite N2Nat.id in C. apply C.
    apply in_seq. lia.
  - apply not_true_is_false. intros X. apply existsb_exists in X. destruct X as (p & I & E).
    apply N.eqb_eq in E.
    assert (C : forallb (fun p : N * N => fst p <? 32) q2_from_table = true) by (vm_compute; reflexivity).
    rewrite forallb_forall in C. specialize (C p I). apply N.ltb_lt in C. lia.
Qed.

Lemma u32_lt : forall n, u32_of n < 2 ^ 32.
Proof.
  intros n. unfold u32_of. pose proof (Z.mod_pos_bound n (2 ^ 32) ltac:(lia)) as B.
  change (2 ^ 32) with (Z.to_N (2 ^ 32)). apply Z2N.inj_lt; lia.
Qed.

Lemma high_bits : forall x k j, x < 2 ^ k -> k <= j -> N.testbit x j = false.
Proof.
  intros x k j L G. destruct (N.eq_dec x 0) as [->|D]; [apply N.bits_0|].
  apply N.bits_above_log2. apply N.log2_lt_pow2; [lia|].
  eapply N.lt_le_trans; [exact L|]. apply N.pow_le_mono_r; lia.
Qed.

Lemma round_from : forall x, x < 2 ^ 32 -> map_bits q2_to_table (map_bits q2_from_table x) = x.
Proof.
  intros x L. apply N.bits_inj. intros j.
  rewrite (round_bits q2_from_table q2_to_table x j uniq_from uniq_to tables_inverse), from_table_low.
  destruct (N.ltb_spec j 32) as [J|J]; [apply andb_true_r|].
  rewrite (high_bits x 32 j L J). reflexivity.
Qed.

Lemma i32_u32 : forall n, (- 2 ^ 31 <= n < 2 ^ 31)%Z -> i32_of (u32_of n) = n.
Proof.
  intros n R. unfold i32_of, u32_of.
  change (2 ^ 31) with 2147483648. change (2 ^ 32)%Z with 4294967296%Z. change (2 ^ 31)%Z with 2147483648%Z in R.
  destruct (Z_lt_ge_dec n 0) as [L|G].
  - assert (E : (n mod 4294967296 = n + 4294967296)%Z)
      by (symmetry; apply Z.mod_unique with (-1)%Z; lia).
    rewrite E. destruct (N.ltb_spec (Z.to_N (n + 4294967296)) 2147483648); lia.
  - rewrite Z.mod_small by lia. destruct (N.ltb_spec (Z.to_N n) 2147483648); lia.
Qed.

Lemma u32_i32 : forall u, u < 2 ^ 32 -> u32_of (i32_of u) = u.
Proof.
  intros u R. unfold i32_of, u32_of.
  change (2 ^ 31) with 2147483648. change (2 ^ 32)%Z with 4294967296%Z. change (2 ^ 32) with 4294967296 in R.
  destruct (N.ltb_spec u 2147483648) as [L|G].
  - rewrite Z.mod_small by lia. lia.
  - assert (E : ((Z.of_N u - 4294967296) mod 4294967296 = Z.of_N u)%Z)
      by (symmetry; apply Z.mod_unique with (-1)%Z; lia).
    rewrite E. lia.
Qed.

Lemma i32_range : forall u, u < 2 ^ 32 -> (- 2 ^ 31 <= i32_of u < 2 ^ 31)%Z.
Proof.
  intros u R. unfold i32_of.
  change (2 ^ 31) with 2147483648. change (2 ^ 32)%Z with 4294967296%Z. change (2 ^ 32) with 4294967296 in R.
  change (2 ^ 31)%Z with 2147483648%Z. destruct (N.ltb_spec u 2147483648); lia.
Qed.

Lemma from_bit_absent : forall x j, existsb (fun p : N * N => snd p =? j) q2_from_table = false ->
  N.testbit (map_bits q2_from_table x) j = false.
Proof.
  intros x j H. rewrite map_bits_spec. apply not_true_is_false. intros X.
  apply existsb_exists in X. destruct X as (p & I & E). apply andb_true_iff in E.
  assert (Y : existsb (fun p : N * N => snd p =? j) q2_from_table = true)
    by (apply existsb_exists; exists p; split; [exact I|apply E]).
  rewrite Y in H. discriminate H.
Qed.

Lemma q2_round : forall n, (- 2 ^ 31 <= n < 2 ^ 31)%Z -> q2_to_native (q2_from_native n) = ROk n.
Proof.
  intros n R. unfold q2_to_native, q2_from_native. autorewrite with tst.
  rewrite !from_bit_absent by (vm_compute; reflexivity).
  rewrite round_from by apply u32_lt. rewrite i32_u32 by exact R. reflexivity.
Qed.

Lemma to_lt : forall c, map_bits q2_to_table c < 2 ^ 32.
Proof.
  intros c. destruct (N.eq_dec (map_bits q2_to_table c) 0) as [->|D]; [vm_compute; reflexivity|].
  apply N.log2_lt_pow2; [lia|]. pose proof (N.bit_log2 _ D) as B. rewrite map_bits_spec in B.
  apply existsb_exists in B. destruct B as (p & I & E). apply andb_true_iff in E.
  destruct E as [_ E]. apply N.eqb_eq in E. rewrite <- E.
  assert (C : forallb (fun p : N * N => snd p <? 32) q2_to_table = true) by (vm_compute; reflexivity).
  rewrite forallb_forall in C. apply N.ltb_lt, C, I.
Qed.

(** The bits of the flags that a Quake II native value can hold. *)
Lemma q2_round_back : forall c n j, q2_to_native c = ROk n ->
  N.testbit (q2_from_native n) j =
  N.testbit c j && existsb (fun p : N * N => fst p =? j) q2_to_table.
Proof.
  intros c n j H. unfold q2_to_native in H.
  destruct (tst c SKY); [discriminate H|]. destruct (tst c DETAIL_WALL); [discriminate H|].
  destruct (tst c VISBLOCKER); [discriminate H|]. injection H as <-.
  unfold q2_from_native. rewrite u32_i32 by apply to_lt.
  apply (round_bits q2_to_table q2_from_table c j uniq_to uniq_from).
  intros [s d]. cbn [fst snd]. symmetry. apply (tables_inverse (d, s)).
Qed.

(** ** Merging *)

Lemma is_solid_bits : forall c, is_solid c = N.testbit c 0 && negb (N.testbit c 14).
Proof. intros. unfold is_solid. autorewrite with tst. reflexivity. Qed.

(** What a leaf's contents are. *)
Definition leaf_spec (g : game) (l : list N) (c : N) : Prop :=
  if existsb is_solid l then c = SOLID
  else if existsb (is_sky g) l then c = SKY
  else forall k, N.testbit c k = existsb (fun x => N.testbit x k) l.

Lemma or_not_solid : forall l c, existsb is_solid l = false ->
  (forall k, N.testbit c k = existsb (fun x => N.testbit x k) l) -> is_solid c = false.
Proof.
  intros l c S B. rewrite is_solid_bits. destruct (N.testbit c 0) eqn:Z; [|reflexivity].
  cbn [andb]. rewrite B in Z. apply existsb_exists in Z. destruct Z as (x & I & Z).
  assert (D : N.testbit x 14 = true).
  { destruct (N.testbit x 14) eqn:D; [reflexivity|].
    assert (X : existsb is_solid l = true).
    { apply existsb_exists. exists x. split; [exact I|]. rewrite is_solid_bits, Z, D. reflexivity. }
    rewrite X in S. discriminate S. }
  rewrite B. assert (X : existsb (fun x => N.testbit x 14) l = true) by (apply existsb_exists; exists x; auto).
  rewrite X. reflexivity.
Qed.

Lemma or_not_sky : forall g l c, existsb (is_sky g) l = false ->
  (forall k, N.testbit c k = existsb (fun x => N.testbit x k) l) -> is_sky g c = false.
Proof.
  intros [|] l c S B; [|reflexivity]. unfold is_sky in *. autorewrite with tst. rewrite B.
  rewrite <- S. clear. induction l as [|x l IH]; [reflexivity|].
  cbn [existsb]. rewrite tst_SKY, IH. reflexivity.
Qed.

Lemma combine_fact : forall g a b,
  combine g a b = if is_solid a || is_solid b then SOLID
                  else if is_sky g a || is_sky g b then SKY else N.lor a b.
Proof. intros [|] a b; unfold combine, is_sky; reflexivity. Qed.

Lemma existsb_app1 : forall {A} (f : A -> bool) l x, existsb f (l ++ [x]) = existsb f l || f x.
Proof. intros. rewrite existsb_app. cbn [existsb]. rewrite orb_false_r. reflexivity. Qed.

Lemma leaf_ok : forall g l, leaf_spec g l (leaf_contents g l).
Proof.
  intros g l. unfold leaf_contents. induction l as [|x l IH] using rev_ind.
  - unfold leaf_spec. cbn [existsb fold_left]. intros k. apply N.bits_0.
  - rewrite fold_left_app. cbn [fold_left]. set (c := fold_left (combine g) l 0) in *. clearbody c.
    unfold leaf_spec in *. rewrite !existsb_app1, combine_fact.
    destruct (existsb is_solid l) eqn:S.
    + subst c. change (is_solid SOLID) with true. reflexivity.
    + cbn [orb]. destruct (existsb (is_sky g) l) eqn:K.
      * subst c. change (is_solid SKY) with false. cbn [orb].
        destruct (is_solid x); [reflexivity|].
        assert (E : is_sky g SKY = true).
        { destruct g; [reflexivity|]. clear -K. exfalso. induction l as [|y l IH]; [discriminate K|]. exact (IH K). }
        rewrite E. reflexivity.
      * rewrite (or_not_solid l c S IH), (or_not_sky g l c K IH). cbn [orb].
        destruct (is_solid x); [reflexivity|]. destruct (is_sky g x); [reflexivity|].
        intros k. rewrite N.lor_spec, IH, existsb_app1. reflexivity.
Qed.

Lemma existsb_incl : forall {A} (f : A -> bool) l l',
  (forall x, In x l <-> In x l') -> existsb f l = existsb f l'.
Proof.
  intros A f l l' H. apply eq_true_iff_eq. rewrite !existsb_exists.
  split; intros (x & I & E); exists x; split; auto; apply H; exact I.
Qed.

Lemma leaf_order : forall g l l', (forall x, In x l <-> In x l') -> leaf_contents g l = leaf_contents g l'.
Proof.
  intros g l l' H. pose proof (leaf_ok g l) as A. pose proof (leaf_ok g l') as B.
  unfold leaf_spec in A, B. rewrite <- (existsb_incl is_solid l l' H), <- (existsb_incl (is_sky g) l l' H) in B.
  destruct (existsb is_solid l); [congruence|]. destruct (existsb (is_sky g) l); [congruence|].
  apply N.bits_inj. intros k. rewrite A, B. apply existsb_incl, H.
Qed.

Lemma combine_comm : forall g a b, combine g a b = combine g b a.
Proof.
  intros g a b. rewrite !combine_fact. rewrite (orb_comm (is_solid b)), (orb_comm (is_sky g b)), (N.lor_comm b).
  reflexivity.
Qed.

Lemma is_sky_lor : forall g a b, is_sky g (N.lor a b) = is_sky g a || is_sky g b.
Proof. intros [|] a b; [|reflexivity]. unfold is_sky. autorewrite with tst. apply N.lor_spec. Qed.

Lemma is_solid_lor : forall a b, is_solid a = false -> is_solid b = false -> is_solid (N.lor a b) = false.
Proof.
  intros a b. rewrite !is_solid_bits, !N.lor_spec.
  destruct (N.testbit a 0), (N.testbit a 14), (N.testbit b 0), (N.testbit b 14); cbn; congruence.
Qed.

Lemma combine_assoc : forall g a b c, combine g (combine g a b) c = combine g a (combine g b c).
Proof.
  assert (K : forall g x, is_sky g x = true -> is_sky g SKY = true).
  { intros [|] x; [reflexivity|discriminate]. }
  intros g a b c. rewrite !combine_fact.
  destruct (is_solid a) eqn:A; destruct (is_solid b) eqn:B; destruct (is_solid c) eqn:C; cbn [orb];
    try (change (is_solid SOLID) with true; rewrite ?orb_true_r; cbn [orb]; reflexivity).
  - destruct (is_sky g a) eqn:SA; destruct (is_sky g b) eqn:SB; destruct (is_sky g c) eqn:SC; cbn [orb];
      change (is_solid SKY) with false; rewrite ?A, ?B, ?C;
      rewrite ?(is_solid_lor a b A B), ?(is_solid_lor b c B C), ?is_sky_lor, ?SA, ?SB, ?SC,
        ?(K g a SA), ?(K g b SB), ?(K g c SC); cbn [orb]; rewrite ?orb_true_r; try reflexivity.
    symmetry. apply N.lor_assoc.
Qed.

(** ** Clusters *)
Fixpoint cleaves (t : ctree) : list N :=
  match t with CLeaf c => [c] | CNode a b => cleaves a ++ cleaves b end.

Lemma cluster_bits : forall a b k, N.testbit (cluster a b) k =
  if k =? 0 then N.testbit a 0 && N.testbit b 0 else N.testbit a k || N.testbit b k.
Proof.
  intros a b k. unfold cluster. autorewrite with tst. destruct (N.eqb_spec k 0) as [->|D].
  - destruct (N.testbit a 0) eqn:A; destruct (N.testbit b 0) eqn:B; cbn [negb orb andb];
      bits; rewrite ?A, ?B; reflexivity.
  - assert (X : N.testbit SOLID k = false) by (apply (N.pow2_bits_false 0 k); lia).
    destruct (negb (N.testbit a 0) || negb (N.testbit b 0)); bits; rewrite ?X; cbn [negb];
      rewrite ?andb_true_r; reflexivity.
Qed.

Lemma cluster_contents_bits : forall t k, N.testbit (cluster_contents t) k =
  if k =? 0 then forallb (fun c => N.testbit c 0) (cleaves t) else existsb (fun c => N.testbit c k) (cleaves t).
Proof.
  induction t as [c|a IA b IB]; intros k; cbn [cluster_contents cleaves].
  - cbn [forallb existsb]. destruct (N.eqb_spec k 0) as [->|D]; [rewrite andb_true_r|rewrite orb_false_r]; reflexivity.
  - rewrite cluster_bits, IA, IB, IA, IB. rewrite forallb_app, existsb_app. cbn [N.eqb].
    destruct (k =? 0); reflexivity.
Qed.

(** ** Portals *)

Lemma tst_0 : forall m, tst 0 m = false. Proof. reflexivity. Qed.

Lemma q1_see_sym : forall a b tw, q1_see_through a b tw = q1_see_through b a tw.
Proof.
  intros a b tw. unfold q1_see_through. rewrite (orb_comm (tst b SOLID)), (N.lxor_comm b a).
  destruct (tst a SOLID || tst b SOLID); [reflexivity|].
  destruct (negb (tst (N.lxor a b) ALL_VISIBLE)); [reflexivity|]. cbv zeta.
  rewrite (N.lxor_comm (if tst b DETAIL || _ then 0 else b)). reflexivity.
Qed.

Lemma q2_see_sym : forall a b, q2_see_through a b = q2_see_through b a.
Proof.
  intros a b. unfold q2_see_through. rewrite (orb_comm (tst b SOLID)), (N.lxor_comm b a).
  destruct (tst a SOLID || tst b SOLID); [reflexivity|].
  destruct (negb (tst (N.lxor a b) ALL_VISIBLE)); [reflexivity|]. cbv zeta.
  rewrite (N.lxor_comm (if tst b TRANSLUCENT || _ then 0 else b)). reflexivity.
Qed.

Lemma see_sym : forall g a b tw, see_through g a b tw = see_through g b a tw.
Proof. intros [|] a b tw; [apply q1_see_sym|apply q2_see_sym]. Qed.

Lemma see_solid : forall g a b tw, tst a SOLID = true -> see_through g a b tw = false.
Proof. intros [|] a b tw H; cbn [see_through]; unfold q1_see_through, q2_see_through; rewrite H; reflexivity. Qed.

Lemma see_same_visible : forall g a b tw, tst a SOLID = false -> tst b SOLID = false ->
  tst (N.lxor a b) ALL_VISIBLE = false -> see_through g a b tw = true.
Proof.
  intros [|] a b tw A B V; cbn [see_through]; unfold q1_see_through, q2_see_through; rewrite A, B, V; reflexivity.
Qed.

(** ** Faces *)

Lemma find_least : forall c l k, find (fun k => N.testbit c k) l = Some k -> In k l /\ N.testbit c k = true.
Proof. intros c l k H. apply find_some in H. exact H. Qed.

Lemma visible_index_pow : forall k, k <= 8 -> visible_index (2 ^ k) = Some k.
Proof.
  intros k L. assert (C : k = 0 \/ k = 1 \/ k = 2 \/ k = 3 \/ k = 4 \/ k = 5 \/ k = 6 \/ k = 7 \/ k = 8) by lia.
  destruct C as [->|[->|[->|[->|[->|[->|[->|[->| ->]]]]]]]]; reflexivity.
Qed.

Lemma visible_cases : forall c, (visible_contents c = 0 /\ visible_index c = None) \/
  exists k, k <= 8 /\ visible_contents c = 2 ^ k /\ visible_index c = Some k /\ N.testbit c k = true.
Proof.
  intros c. unfold visible_contents. destruct (visible_index c) as [k|] eqn:E; [right|left; auto].
  exists k. apply find_least in E. destruct E as [I T]. cbn [In] in I.
  repeat match goal with |- _ /\ _ => split end; auto. lia.
Qed.

Lemma leaf_bit_source : forall g l k, N.testbit (leaf_contents g l) k = true ->
  exists c, In c l /\ N.testbit c k = true.
Proof.
  intros g l k H. pose proof (leaf_ok g l) as S. unfold leaf_spec in S.
  destruct (existsb is_solid l) eqn:A.
  - rewrite S in H. apply existsb_exists in A. destruct A as (c & I & A). exists c. split; [exact I|].
    rewrite is_solid_bits in A. apply andb_true_iff in A.
    destruct (N.eq_dec k 0) as [->|D]; [apply A|].
    exfalso. change SOLID with (2 ^ 0) in H. rewrite N.pow2_bits_false in H by lia. discriminate H.
  - destruct (existsb (is_sky g) l) eqn:B.
    + rewrite S in H. apply existsb_exists in B. destruct B as (c & I & B). exists c. split; [exact I|].
      destruct g; [|discriminate B]. unfold is_sky in B. rewrite tst_SKY in B.
      destruct (N.eq_dec k 1) as [->|D]; [exact B|].
      exfalso. change SKY with (2 ^ 1) in H. rewrite N.pow2_bits_false in H by lia. discriminate H.
    + rewrite S in H. apply existsb_exists in H. exact H.
Qed.

Lemma portal_visible_source : forall g a b k, visible_index (portal_visible g a b) = Some k ->
  k <= 8 /\ (N.testbit a k = true \/ N.testbit b k = true).
Proof.
  intros g a b k H.
  assert (Q : forall r, (forall j, N.testbit r j = true -> N.testbit a j = true \/ N.testbit b j = true) ->
              visible_index (visible_contents r) = Some k -> k <= 8 /\ (N.testbit a k = true \/ N.testbit b k = true)).
  { intros r R V. destruct (visible_cases r) as [[E _]|(j & J & E & _ & T)]; rewrite E in V; [discriminate V|].
    rewrite visible_index_pow in V by exact J. injection V as <-. split; [exact J|apply R, T]. }
  assert (O : forall j, N.testbit (N.lor a b) j = true -> N.testbit a j = true \/ N.testbit b j = true).
  { intros j. rewrite N.lor_spec. apply orb_true_iff. }
  assert (X : forall j, N.testbit (N.lxor a b) j = true -> N.testbit a j = true \/ N.testbit b j = true).
  { intros j. rewrite N.lxor_spec. destruct (N.testbit a j); [left; reflexivity|]. destruct (N.testbit b j); [right; reflexivity|discriminate]. }
  unfold portal_visible in H.
  destruct (tst a SUPPRESS_CLIPPING || tst b SUPPRESS_CLIPPING); destruct g;
    try (destruct (tst a (N.lor SOLID SKY) && tst b (N.lor SOLID SKY)); [discriminate H|]); eauto.
Qed.

(** ** Export *)

(** Quake contents whose window and detail-wall flags come with the detail flag. *)
Definition q1_fine (c : N) : bool :=
  (negb (N.testbit c 2) || N.testbit c 14) && (negb (N.testbit c 3) || N.testbit c 14) && negb (N.testbit c 4).
Definition q2_fine (c : N) : bool := negb (N.testbit c 1) && negb (N.testbit c 13).
Definition fine (g : game) (c : N) : bool := match g with Q1 => q1_fine c | Q2 => q2_fine c end.

Lemma fine_bits : forall g a b, (forall k, In k [1;2;3;4;13;14] -> N.testbit a k = N.testbit b k) ->
  fine g a = fine g b.
Proof.
  intros g a b H.
  pose proof (H 1 ltac:(cbn; tauto)) as H1. pose proof (H 2 ltac:(cbn; tauto)) as H2.
  pose proof (H 3 ltac:(cbn; tauto)) as H3. pose proof (H 4 ltac:(cbn; tauto)) as H4.
  pose proof (H 13 ltac:(cbn; tauto)) as H5. pose proof (H 14 ltac:(cbn; tauto)) as H6.
  destruct g; cbn [fine]; unfold q1_fine, q2_fine; rewrite ?H1, ?H2, ?H3, ?H4, ?H5, ?H6; reflexivity.
Qed.

Lemma fine_lor : forall g a b, fine g a = true -> fine g b = true -> fine g (N.lor a b) = true.
Proof.
  intros [|] a b; cbn [fine]; unfold q1_fine, q2_fine; rewrite !N.lor_spec.
  - destruct (N.testbit a 2), (N.testbit a 3), (N.testbit a 4), (N.testbit a 14),
      (N.testbit b 2), (N.testbit b 3), (N.testbit b 4), (N.testbit b 14); cbn; congruence.
  - destruct (N.testbit a 1), (N.testbit a 13), (N.testbit b 1), (N.testbit b 13); cbn; congruence.
Qed.

Lemma leaf_fine : forall g l, Forall (fun c => fine g c = true) l -> fine g (leaf_contents g l) = true.
Proof.
  intros g l. unfold leaf_contents.
  assert (Q : forall acc, fine g acc = true -> Forall (fun c => fine g c = true) l ->
              fine g (fold_left (combine g) l acc) = true).
  { induction l as [|x l IH]; intros acc A F; cbn [fold_left]; [exact A|].
    inversion F as [|? ? X F']; subst. apply IH; [|exact F']. rewrite combine_fact.
    destruct (is_solid acc || is_solid x); [destruct g; reflexivity|].
    destruct (is_sky g acc || is_sky g x) eqn:K; [|apply fine_lor; assumption].
    destruct g; [reflexivity|discriminate K]. }
  intros F. apply Q; [destruct g; reflexivity|exact F].
Qed.

Lemma q1_export_ok : forall c t, q1_fine c = true -> exists n, q1_to_native (remap Q1 c t) = ROk n.
Proof.
  intros c t F. unfold q1_fine in F. unfold remap, is_detail_fence, is_detail_wall, is_detail_with.
  autorewrite with tst.
  destruct ((N.testbit c 14 && N.testbit c 3) || (N.testbit c 14 && N.testbit c 2)) eqn:D.
  - exists (-2)%Z. reflexivity.
  - assert (E2 : N.testbit c 2 = false) by (destruct (N.testbit c 2), (N.testbit c 3), (N.testbit c 14); cbn in *; congruence).
    assert (E3 : N.testbit c 3 = false) by (destruct (N.testbit c 2), (N.testbit c 3), (N.testbit c 14); cbn in *; congruence).
    assert (E4 : N.testbit c 4 = false) by (destruct (N.testbit c 4); [rewrite andb_false_r in F; discriminate F|reflexivity]).
    unfold q1_to_native. autorewrite with tst.
    destruct (N.testbit c 8) eqn:M.
    + bits. rewrite E2, E3, E4, M. cbn [negb andb].
      repeat match goal with |- context[if ?b then _ else _] => destruct b eqn:?; [eauto; fail|] end.
      all: repeat (match goal with |- context[if ?b then _ else _] => destruct b eqn:? end); eauto; discriminate.
    + rewrite E2, E3, E4, M.
      repeat (match goal with |- context[if ?b then _ else _] => destruct b eqn:? end); eauto.
Qed.

Lemma q2_export_ok : forall c t, q2_fine c = true -> exists n, q2_to_native (remap Q2 c t) = ROk n.
Proof.
  intros c t F. unfold q2_fine in F. unfold remap. destruct (tst c DETAIL_WALL) eqn:W.
  { eexists. reflexivity. }
  assert (X : exists n, q2_to_native c = ROk n).
  { unfold q2_to_native. rewrite W. autorewrite with tst.
    destruct (N.testbit c 1); [discriminate F|]. destruct (N.testbit c 13); [discriminate F|]. eauto. }
  destruct t; [exact X|]. destruct (tst c SOLID); [eexists; reflexivity|exact X].
Qed.

Lemma export_ok : forall g c t, fine g c = true -> exists n, to_native g (remap g c t) = ROk n.
Proof. intros [|] c t; [apply q1_export_ok|apply q2_export_ok]. Qed.

Lemma export_leaf_ok : forall g c, fine g c = true -> exists n, export_leaf g c = ROk n.
Proof.
  intros g c F. unfold export_leaf.
  assert (V : is_valid g (remap g c RLeaf) false = true) by (destruct g; [reflexivity|]; cbn; rewrite andb_false_r; reflexivity).
  rewrite V. apply export_ok, F.
Qed.

(** ** Brush contents *)

Lemma set_mirrored_fine : forall g c v, fine g (set_mirrored c v) = fine g c.
Proof.
  intros g c v. apply fine_bits. intros k I. cbn [In] in I.
  destruct v as [[|]|]; cbn [set_mirrored]; bits;
    repeat (destruct I as [<-|I]; [rewrite ?andb_true_r, ?orb_false_r;
      change (N.testbit MIRROR_INSIDE_SET _) with false; change (N.testbit MIRROR_INSIDE _) with false;
      cbn [orb negb]; rewrite ?andb_true_r, ?orb_false_r; reflexivity|]); destruct I.
Qed.

Lemma set_clips_fine : forall g c v, fine g (set_clips_same_type c v) = fine g c.
Proof.
  intros g c v. apply fine_bits. intros k I. cbn [In] in I.
  destruct v as [[|]|]; cbn [set_clips_same_type]; bits; try reflexivity;
    repeat (destruct I as [<-|I]; [change (N.testbit SUPPRESS_CLIPPING _) with false; rewrite ?orb_false_r; reflexivity|]);
    destruct I.
Qed.

Lemma face_fine : forall f, fine (face_game f) (face_contents f) = true.
Proof.
  intros [t|hs tr n]; cbn [face_game face_contents]; [destruct t; reflexivity|].
  unfold q2_face_contents. destruct hs; [reflexivity|]. cbv zeta.
  set (c := q2_from_native n).
  assert (C1 : N.testbit c 1 = false) by (unfold c, q2_from_native; apply from_bit_absent; vm_compute; reflexivity).
  assert (C13 : N.testbit c 13 = false) by (unfold c, q2_from_native; apply from_bit_absent; vm_compute; reflexivity).
  clearbody c.
  assert (Q : forall x m, q2_fine x = true -> N.testbit m 1 = false -> N.testbit m 13 = false -> q2_fine (N.lor x m) = true).
  { intros x m X M1 M2. unfold q2_fine in *. bits. rewrite M1, M2, !orb_false_r. exact X. }
  assert (L : forall x m, q2_fine x = true -> q2_fine (N.ldiff x m) = true).
  { intros x m X. unfold q2_fine in *. bits. destruct (N.testbit x 1), (N.testbit x 13); try discriminate X; reflexivity. }
  cbn [fine].
  assert (F : q2_fine c = true) by (unfold q2_fine; rewrite C1, C13; reflexivity).
  repeat match goal with
  | |- q2_fine (if ?b then _ else _) = true => destruct b
  | |- q2_fine (N.lor _ _) = true => apply Q; [|reflexivity|reflexivity]
  | |- q2_fine (N.ldiff _ _) = true => apply L
  | |- q2_fine c = true => exact F
  | _ => idtac
  end.
Qed.

Lemma brush_base_fine : forall g fs, Forall (fun f => face_game f = g) fs -> fine g (brush_base g fs) = true.
Proof.
  intros g fs F. unfold brush_base.
  destruct (find _ _) as [c|] eqn:E; [|destruct g; reflexivity].
  apply find_some in E. destruct E as [I _]. apply in_map_iff in I. destruct I as (f & <- & I).
  rewrite Forall_forall in F. rewrite <- (F f I). apply face_fine.
Qed.

Lemma brush_fine : forall g e fs, Forall (fun f => face_game f = g) fs ->
  g = Q1 \/ e_visblocker e = false -> fine g (brush_contents g e fs) = true.
Proof.
  intros g e fs F V. unfold brush_contents. cbv zeta.
  set (c := brush_base g fs). assert (C : fine g c = true) by (apply brush_base_fine, F). clearbody c.
  set (c1 := set_mirrored c (e_mirror e)).
  assert (C1 : fine g c1 = true) by (unfold c1; rewrite set_mirrored_fine; exact C). clearbody c1.
  set (c2 := match e_noclipfaces e with Some b => _ | None => _ end).
  assert (C2 : fine g c2 = true) by (unfold c2; destruct (e_noclipfaces e); rewrite set_clips_fine; exact C1). clearbody c2.
  set (c3 := if e_visblocker e then N.lor c2 VISBLOCKER else c2).
  assert (C3 : fine g c3 = true).
  { unfold c3. destruct (e_visblocker e) eqn:E; [|exact C2]. destruct V as [->|V]; [|discriminate V].
    apply fine_lor; [exact C2|reflexivity]. }
  clearbody c3. destruct g; [|exact C3].
  destruct (e_transwater e && is_liquid Q1 c3); [|exact C3].
  unfold set_detail. apply fine_lor; [exact C3|reflexivity].
Qed.

(** Clearing the detail flag is only harmless while nothing needs it. *)
Definition plain (g : game) (c : N) : bool :=
  match g with Q1 => negb (N.testbit c 2) && negb (N.testbit c 3) && negb (N.testbit c 4) | Q2 => q2_fine c end.

Lemma plain_fine : forall g c, plain g c = true -> fine g c = true.
Proof.
  intros [|] c; cbn [plain fine]; [|auto]. unfold q1_fine.
  destruct (N.testbit c 2), (N.testbit c 3), (N.testbit c 4); cbn; congruence.
Qed.

Lemma brush_plain : forall g e fs, Forall (fun f => face_game f = g) fs ->
  g = Q1 \/ e_visblocker e = false -> plain g (brush_contents g e fs) = true.
Proof.
  intros [|] e fs F V; [|exact (brush_fine Q2 e fs F V)]. cbn [plain].
  assert (B : forall k, In k [2;3;4] -> N.testbit (brush_contents Q1 e fs) k = false).
  { intros k I. unfold brush_contents. cbv zeta.
    assert (K : N.testbit (brush_base Q1 fs) k = false).
    { unfold brush_base. destruct (find _ _) as [c|] eqn:E; [|apply N.bits_0].
      apply find_some in E. destruct E as [J _]. apply in_map_iff in J. destruct J as (f & <- & J).
      rewrite Forall_forall in F. specialize (F f J). destruct f as [t|]; [|discriminate F].
      cbn [In] in I. destruct I as [<-|[<-|[<-|[]]]]; destruct t; reflexivity. }
    set (c := brush_base Q1 fs) in *. clearbody c.
    assert (S : forall m, In m [MIRROR_INSIDE; MIRROR_INSIDE_SET; SUPPRESS_CLIPPING; VISBLOCKER; DETAIL] -> N.testbit m k = false).
    { intros m M. cbn [In] in I, M. destruct I as [<-|[<-|[<-|[]]]];
        destruct M as [<-|[<-|[<-|[<-|[<-|[]]]]]]; reflexivity. }
    pose proof (S MIRROR_INSIDE ltac:(cbn; tauto)) as S1. pose proof (S MIRROR_INSIDE_SET ltac:(cbn; tauto)) as S2.
    pose proof (S SUPPRESS_CLIPPING ltac:(cbn; tauto)) as S3. pose proof (S VISBLOCKER ltac:(cbn; tauto)) as S4.
    pose proof (S DETAIL ltac:(cbn; tauto)) as S5. clear S I.
    set (c1 := set_mirrored c (e_mirror e)).
    assert (C1 : N.testbit c1 k = false).
    { unfold c1. destruct (e_mirror e) as [[|]|]; cbn [set_mirrored]; bits; rewrite K, ?S1, ?S2; reflexivity. }
    clearbody c1.
    set (c2 := match e_noclipfaces e with Some b => _ | None => _ end).
    assert (C2 : N.testbit c2 k = false).
    { unfold c2. destruct (e_noclipfaces e) as [[|]|]; cbn [set_clips_same_type negb]; bits; rewrite C1, ?S3; reflexivity. }
    clearbody c2. set (c3 := if e_visblocker e then N.lor c2 VISBLOCKER else c2).
    assert (C3 : N.testbit c3 k = false) by (unfold c3; destruct (e_visblocker e); bits; rewrite C2, ?S4; reflexivity).
    clearbody c3. destruct (e_transwater e && is_liquid Q1 c3); [|exact C3].
    unfold set_detail. bits. rewrite C3, S5. reflexivity. }
  rewrite (B 2), (B 3), (B 4) by (cbn; tauto). reflexivity.
Qed.

Lemma load_fine : forall g o mb c, plain g mb = true -> load_contents g o mb = Some c -> fine g c = true.
Proof.
  intros g o mb c P H. unfold load_contents in H. cbv zeta in H.
  set (cls := if o_nodetail o then DNone else o_class o) in H. clearbody cls.
  set (hull := match o_hull o with Some h => negb (h =? 0) | None => false end) in H. clearbody hull.
  set (c0 := if o_nodetail o then clear_detail mb else mb) in H.
  assert (P0 : plain g c0 = true).
  { unfold c0. destruct (o_nodetail o); [|exact P]. unfold clear_detail.
    destruct g; cbn [plain] in *; unfold q2_fine in *; bits.
    - destruct (N.testbit mb 2), (N.testbit mb 3), (N.testbit mb 4); try discriminate P; reflexivity.
    - destruct (N.testbit mb 1), (N.testbit mb 13); try discriminate P; reflexivity. }
  clearbody c0.
  repeat match type of H with
  | (if ?b then None else _) = Some _ => destruct b eqn:?; [discriminate H|]
  end.
  set (c1 := if negb hull && is_any_solid c0 then _ else _) in H.
  assert (F1 : fine g c1 = true).
  { unfold c1. pose proof (plain_fine g c0 P0) as F0. destruct (negb hull && is_any_solid c0); [|exact F0].
    assert (L : q2_fine c0 = true -> forall m, q2_fine m = true -> q2_fine (N.lor (N.ldiff c0 SOLID) m) = true).
    { intros Q m M. unfold q2_fine in *. bits. revert Q M.
      destruct (N.testbit c0 1), (N.testbit c0 13), (N.testbit m 1), (N.testbit m 13); cbn; congruence. }
    destruct cls; destruct g; cbn [detail_illusionary detail_fence detail_wall detail_solid fine] in *;
      try reflexivity; try exact F0; try (apply L; [exact F0|reflexivity]).
    apply (fine_lor Q2); [exact F0|reflexivity]. }
  clearbody c1.
  match type of H with (match ?m with Some _ => _ | None => _ end) = _ => destruct m as [c2|] eqn:E end; [|discriminate H].
  assert (F2 : fine g c2 = true).
  { destruct (o_hull o) as [h|]; [|injection E as <-; exact F1].
    destruct (is_clip g c1); [|injection E as <-; exact F1].
    destruct (h =? 0); [discriminate E|]. injection E as <-. destruct g; reflexivity. }
  clear E.
  match type of H with (if ?b then None else _) = Some _ => destruct b; [discriminate H|] end.
  set (c3 := if o_hint o then 0 else c2) in H.
  assert (F3 : fine g c3 = true) by (unfold c3; destruct (o_hint o); [destruct g; reflexivity|exact F2]). clearbody c3.
  set (c4 := if negb (o_world o) && negb (o_bmodelcontents o) then detail_fence g SOLID else c3) in H.
  assert (F4 : fine g c4 = true) by (unfold c4; destruct (negb (o_world o) && negb (o_bmodelcontents o)); [destruct g; reflexivity|exact F3]).
  clearbody c4.
  match type of H with (match ?m with Some _ => _ | None => _ end) = _ => destruct m as [c5|] eqn:E end; [|discriminate H].
  assert (F5 : fine g c5 = true).
  { destruct hull; [|injection E as <-; exact F4].
    match type of E with (if ?b then None else _) = Some _ => destruct b; [discriminate E|] end.
    injection E as <-. destruct g; reflexivity. }
  injection H as <-. rewrite set_clips_fine, set_mirrored_fine. exact F5.
Qed.

(** In a clipping hull every loaded brush is structural solid. *)
Lemma load_hull_solid : forall g o mb c h, o_hull o = Some h -> h <> 0 -> load_contents g o mb = Some c ->
  is_solid c = true.
Proof.
  intros g o mb c h E N0 H. unfold load_contents in H. cbv zeta in H. rewrite E in H.
  destruct (N.eqb_spec h 0) as [X|_]; [contradiction|]. cbn [negb] in H.
  repeat match type of H with
  | (if ?b then None else _) = Some _ => destruct b eqn:?; [discriminate H|]
  end.
  match type of H with (match ?m with Some _ => _ | None => _ end) = _ => destruct m as [c2|] eqn:E2 end; [|discriminate H].
  match type of H with (if ?b then None else _) = Some _ => destruct b; [discriminate H|] end.
  match type of H with (match ?m with Some _ => _ | None => _ end) = _ => destruct m as [c5|] eqn:E5 end; [|discriminate H].
  match type of E5 with (if ?b then None else _) = Some _ => destruct b; [discriminate E5|] end.
  injection E5 as <-. injection H as <-.
  destruct (mirror_inside mb) as [[|]|]; destruct (clips_same_type mb) as [[|]|]; reflexivity.
Qed.
