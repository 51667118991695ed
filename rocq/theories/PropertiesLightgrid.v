(* C92: the light grid lump. *)
From Coq Require Import List Arith NArith ZArith Bool Lia.
Import ListNotations.
From Verif Require Import Base Codec NumCastModel LightgridModel LightgridSpec LightgridProofs LightgridDecode.
Local Open Scope Z_scope.

(** The points of a grid of size [sz]. *)
Definition point_of (sz p : v3) : Prop := 0 <= vx p < vx sz /\ 0 <= vy p < vy sz /\ 0 <= vz p < vz sz.

Lemma point_ingrid : forall sz p, point_of sz p <-> inside p (0, 0, 0) sz.
Proof. intros sz p. unfold point_of, inside. cbn [vx vy vz fst snd]. unfold vx, vy, vz. cbn [fst snd]. lia. Qed.

Lemma coords_ix : forall sz p, point_of sz p -> coords sz (ix sz p) = p.
Proof.
  intros [[sx sy] sz] [[x y] z] (X & Y & Z). unfold coords, ix, vx, vy, vz in *. cbn [fst snd] in *.
  assert (P1 : 0 <= sx * y) by (apply Z.mul_nonneg_nonneg; lia).
  assert (P0 : 0 < sx * sy) by (apply Z.mul_pos_pos; lia).
  assert (P2 : 0 <= sx * sy * z) by (apply Z.mul_nonneg_nonneg; lia).
  assert (P3 : sx * (y + 1) <= sx * sy) by (apply Z.mul_le_mono_nonneg_l; lia).
  rewrite !Z.quot_div_nonneg by lia.
  assert (D1 : (sx * sy * z + sx * y + x) / sx = sy * z + y).
  { symmetry. apply (Z.div_unique_pos _ _ _ x); [lia|]. ring. }
  assert (D2 : (sx * sy * z + sx * y + x) / (sx * sy) = z).
  { symmetry. apply (Z.div_unique_pos _ _ _ (sx * y + x)); [lia|]. ring. }
  assert (P4 : 0 <= sy * z) by (apply Z.mul_nonneg_nonneg; lia).
  rewrite D1, D2. rewrite !Z.rem_mod_nonneg; try lia.
  - f_equal; f_equal.
    + symmetry. apply (Z.mod_unique_pos _ _ (sy * z + y)); [lia|]. ring.
    + symmetry. apply (Z.mod_unique_pos _ _ z); [lia|]. ring.
Qed.

Lemma lump_ok : forall g r st, grid_ok g -> (forall p, ingrid g p -> samples_ok (smp g p)) ->
  (forall a, In a [fst (fst (g_dist g)); snd (fst (g_dist g)); snd (g_dist g); fst (fst (g_mins g)); snd (fst (g_mins g)); snd (g_mins g)] -> (a < 2 ^ 32)%N) ->
  (g_styles g < 256)%N ->
  build_root g = ROk (r, st) -> adds g 5 (0, 0, 0) (g_size g) r (mkO [] [] 0) st ->
  exists b, make_lump g = ROk b /\ forall rest, get_lump (b ++ rest) = Some
    (mkLump (g_dist g) (g_size g) (g_mins g) (g_styles g) r (o_nodes st)
       (map (fun l => (fst l, snd l, map (cellv g) (cells (fst l) (snd l)))) (o_leafs st)), rest).
Proof.
  intros g r st G S FL ST B (x & y & A1 & A2 & A3 & A4 & A5 & AN & A6 & A7 & A8).
  cbn [o_nodes o_leafs app] in A1, A2. subst x y.
  assert (A3' : (N.of_nat (length (o_nodes st)) < 256 ^ N.of_nat 4)%N).
  { apply N.le_lt_trans with (N.of_nat (maxn 5)); [lia|reflexivity]. }
  assert (A4' : (N.of_nat (length (o_leafs st)) < 256 ^ N.of_nat 4)%N).
  { apply N.le_lt_trans with (N.of_nat (maxl 5)); [lia|]. apply N.ltb_lt. vm_compute. reflexivity. }
  clear A3 A4.
  destruct (leafs_ok g (o_leafs st) G S) as (lb & E & D).
  { rewrite Forall_forall in *. intros l I. destruct (A7 l I) as (P & Q). split; [exact P|exact Q]. }
  unfold make_lump. rewrite B. cbn [rbind fst snd]. rewrite E. cbn [rbind]. eexists. split; [reflexivity|]. intro rest.
  assert (F3 : forall v rest, (fst (fst v) < 2 ^ 32)%N -> (snd (fst v) < 2 ^ 32)%N -> (snd v < 2 ^ 32)%N ->
    get3 (get_le 4) (put3 (put_le 4) v ++ rest) = Some (v, rest)).
  { intros v rs H1 H2 H3. apply (get3_ok _ (urange 4)); [apply le_ok| | |]; assumption. }
  assert (SZ : small3 (g_size g)).
  { pose proof (box_small g (0, 0, 0) (g_size g) G) as H. destruct G as (P & _). apply H; [exact P|]. intros p I. exact I. }
  assert (NW : Forall node_ok (o_nodes st)).
  { rewrite Forall_forall in *. intros n I. destruct (AN n I) as (N1 & N2 & N3). split; [|split; assumption].
    destruct G as (P & V & _).
    assert (Q : vx (g_size g) <= vol (g_size g) /\ vy (g_size g) <= vol (g_size g) /\ vz (g_size g) <= vol (g_size g)).
    { destruct P as (X & Y & Z). unfold vol. assert (0 < vx (g_size g) * vy (g_size g)) by (apply Z.mul_pos_pos; assumption). nia. }
    unfold ingrid, inside in N1. cbn [vx vy vz fst snd] in N1. unfold small3, small. unfold vx, vy, vz in *. cbn [fst snd] in *. lia. }
  unfold get_lump, get_pair. rewrite <- !app_assoc.
  rewrite F3 by (apply FL; cbn [In]; tauto). rewrite v3_ok by exact SZ. rewrite F3 by (apply FL; cbn [In]; tauto).
  rewrite u8_ok by exact ST. rewrite (le_ok 4) by (apply oct_word in A5; exact A5).
  unfold get_counted. rewrite (le_ok 4) by exact A3'. rewrite Nat2N.id, onodes_ok by exact NW.
  rewrite (le_ok 4) by exact A4'. rewrite Nat2N.id, D. reflexivity.
Qed.

(** The floats of the header are bit patterns of 32 bits. *)
Definition floats_ok (v : N * N * N) : Prop := (fst (fst v) < 2 ^ 32 /\ snd (fst v) < 2 ^ 32 /\ snd v < 2 ^ 32)%N.

(** For every grid of positive size with fewer than 2^31 points, and whatever the samples and the
    occlusion at the points are, the lump is written, and a reader of the format finds the header and at
    every point what was calculated there: nothing at an occluded point, else the style (as a byte) and
    the colour of each used slot.  The number of styles in the header is the largest number of styles of
    a point. *)
Theorem C92_lookup : forall dist mins sz f,
  0 < vx sz -> 0 < vy sz -> 0 < vz sz -> vx sz * vy sz * vz sz < 2 ^ 31 -> floats_ok dist -> floats_ok mins ->
  (forall p, point_of sz p -> length (fst (f p)) = 4%nat /\ Forall rgb_ok (fst (f p))) ->
  exists g b u, make_grid dist mins sz f = ROk g /\ make_lump g = ROk b /\ get_lump b = Some (u, []) /\
    lu_dist u = dist /\ lu_size u = sz /\ lu_mins u = mins /\
    (forall p, point_of sz p -> (N.of_nat (used_styles (fst (f p))) <= lu_styles u)%N) /\
    (exists p, point_of sz p /\ lu_styles u = N.of_nat (used_styles (fst (f p)))) /\
    forall p, point_of sz p -> lookup u p = Some (if snd (f p) then None else
      Some (map (fun s => (to_unsigned 1 (sm_style s), sm_rgb s)) (firstn (used_styles (fst (f p))) (fst (f p))))).
Proof.
  intros dist mins sz f X Y Z V FD FM OK.
  assert (Q : 0 < vx sz * vy sz) by (apply Z.mul_pos_pos; assumption).
  assert (QV : 0 < vx sz * vy sz * vz sz) by (apply Z.mul_pos_pos; assumption).
  assert (Q1 : vx sz * vy sz <= vx sz * vy sz * vz sz) by nia.
  set (n := Z.to_nat (vx sz * vy sz * vz sz)).
  set (rs := map (fun k => f (coords sz (Z.of_nat k))) (seq 0 n)).
  assert (AT : forall p, point_of sz p -> (Z.to_nat (ix sz p) < n)%nat /\ nth_error rs (Z.to_nat (ix sz p)) = Some (f p)).
  { intros p P. pose proof (ix_range sz p (proj1 (point_ingrid sz p) P)) as R. unfold vol in R.
    assert (L : (Z.to_nat (ix sz p) < n)%nat) by (unfold n; lia). split; [exact L|].
    unfold rs. rewrite (map_nth_error _ (Z.to_nat (ix sz p)) (seq 0 n) (d := Z.to_nat (ix sz p))).
    - rewrite Z2Nat.id by lia. rewrite coords_ix by exact P. reflexivity.
    - rewrite (nth_error_nth' _ 0%nat) by (rewrite seq_length; exact L). rewrite seq_nth by exact L. reflexivity. }
  assert (CP : forall k, (k < n)%nat -> point_of sz (coords sz (Z.of_nat k))).
  { intros k L. unfold n in L. unfold point_of.
    change (vx (coords sz (Z.of_nat k))) with (Z.rem (Z.of_nat k) (vx sz)).
    change (vy (coords sz (Z.of_nat k))) with (Z.rem (Z.quot (Z.of_nat k) (vx sz)) (vy sz)).
    change (vz (coords sz (Z.of_nat k))) with (Z.quot (Z.of_nat k) (vx sz * vy sz)). rewrite !Z.quot_div_nonneg by lia.
    assert (0 <= Z.of_nat k / vx sz) by (apply Z.div_pos; lia).
    rewrite !Z.rem_mod_nonneg by lia. split; [apply Z.mod_pos_bound; assumption|]. split; [apply Z.mod_pos_bound; assumption|].
    split; [apply Z.div_pos; lia|]. apply Z.div_lt_upper_bound; lia. }
  set (g := mkGrid dist mins sz (map fst rs) (map snd rs) (N.of_nat (max_styles (map fst rs)) mod 256)%N).
  assert (MG : make_grid dist mins sz f = ROk g).
  { unfold make_grid. rewrite chk_ok by lia. cbn [rbind]. rewrite chk_ok by lia. cbn [rbind].
    replace (vx sz * vy sz * vz sz <? 0) with false by (symmetry; apply Z.ltb_ge; lia). reflexivity. }
  assert (G : grid_ok g).
  { split; [split; [|split]; assumption|]. cbn [g g_size g_occ g_result]. split; [exact V|].
    rewrite !map_length. unfold rs. rewrite map_length, seq_length. unfold vol, n. lia. }
  assert (SM : forall p, point_of sz p -> smp g p = fst (f p) /\ occ g p = snd (f p)).
  { intros p P. destruct (AT p P) as (L & E). unfold smp, occ. cbn [g g_size g_occ g_result].
    split; apply nth_error_nth; apply map_nth_error; exact E. }
  assert (UL : forall l : list sample, length l = 4%nat -> (used_styles l <= 4)%nat) by (intros l H; pose proof (used_le l); lia).
  assert (SO : forall p, ingrid g p -> samples_ok (smp g p)).
  { intros p I. apply point_ingrid in I. cbn [g g_size] in I. destruct (SM p I) as (-> & _). destruct (OK p I) as (L & R).
    split; [|exact R]. pose proof (UL _ L). lia. }
  assert (MS : forall l m, fold_left (fun m s => Nat.max m (used_styles s)) l m = Nat.max m (max_styles l)).
  { unfold max_styles. induction l as [|a l IH]; intro m; cbn [fold_left]; [lia|]. rewrite IH, (IH (Nat.max 0 _)). lia. }
  assert (MS' : forall a l, max_styles (a :: l) = Nat.max (used_styles a) (max_styles l)).
  { intros a l. unfold max_styles at 1. cbn [fold_left]. rewrite MS. lia. }
  assert (UP : forall l a, In a l -> (used_styles a <= max_styles l)%nat).
  { induction l as [|b l IH]; intros a []; rewrite MS'; [subst; lia|]. specialize (IH _ H). lia. }
  assert (AX : forall l, l <> [] -> exists a, In a l /\ max_styles l = used_styles a).
  { induction l as [|b l IH]; intro NE; [contradiction|]. rewrite MS'. destruct l as [|c l].
    - exists b. split; [left; reflexivity|]. cbn. lia.
    - destruct IH as (a & I & E); [discriminate|]. rewrite E. destruct (Nat.le_ge_cases (used_styles b) (used_styles a)).
      + exists a. split; [right; exact I|lia].
      + exists b. split; [left; reflexivity|lia]. }
  assert (IN : forall a, In a (map fst rs) -> exists p, point_of sz p /\ a = fst (f p)).
  { intros a I. apply in_map_iff in I. destruct I as (w & <- & I). apply in_map_iff in I. destruct I as (k & <- & I).
    apply in_seq in I. exists (coords sz (Z.of_nat k)). split; [apply CP; lia|reflexivity]. }
  destruct (AX (map fst rs)) as (am & IA & EA).
  { intro H. apply (f_equal (@length _)) in H. rewrite map_length in H. unfold rs in H. rewrite map_length, seq_length in H. cbn in H. unfold n in H. lia. }
  destruct (IN am IA) as (pm & PM & EM).
  assert (M4 : (max_styles (map fst rs) <= 4)%nat) by (rewrite EA, EM; apply UL; apply OK; exact PM).
  assert (ES : g_styles g = N.of_nat (max_styles (map fst rs))) by (cbn [g g_styles]; apply N.mod_small; lia).
  destruct (root_ok g G) as (r & st & B & A).
  destruct (lump_ok g r st G SO) as (b & E & D); [| |exact B|exact A|].
  { cbn [g g_dist g_mins]. destruct FD as (F1 & F2 & F3), FM as (F4 & F5 & F6). intros a I. cbn [In] in I.
    repeat (destruct I as [<-|I]; [assumption|]). destruct I. }
  { rewrite ES. lia. }
  specialize (D []). rewrite app_nil_r in D.
  exists g, b. eexists. split; [exact MG|]. split; [exact E|]. split; [exact D|].
  cbn [lu_dist lu_size lu_mins lu_styles g g_dist g_size g_mins]. split; [reflexivity|]. split; [reflexivity|]. split; [reflexivity|].
  split; [|split].
  - intros p P. rewrite ES. destruct (AT p P) as (_ & EP). apply nth_error_In in EP. apply (in_map fst) in EP. specialize (UP _ _ EP). lia.
  - exists pm. split; [exact PM|]. rewrite ES, EA, EM. reflexivity.
  - intros p P. destruct (SM p P) as (S1 & S2).
    destruct A as (x & y & A1 & A2 & _ & _ & A5 & _ & _ & A7 & _). cbn [o_nodes o_leafs app] in A1, A2. subst x y.
    unfold lookup. cbn [lu_nodes lu_root lu_leafs].
    destruct (find_ok g (o_nodes st) (o_leafs st) p 5 6 r _ _ ltac:(lia) A5 (proj1 (point_ingrid sz p) P)) as [(F & O)|(k & m & s & F & EL & I)].
    + rewrite F. rewrite S2 in O. rewrite O. reflexivity.
    + rewrite F, Nat2N.id. erewrite map_nth_error by exact EL. cbn [fst snd]. fold (off p m s).
      erewrite map_nth_error by (apply cells_at; exact I). unfold cellv, seen. rewrite S1, S2. reflexivity.
Qed.
Print Assumptions C92_lookup.

(** The leafs are boxes inside the grid; every point that is not occluded lies in exactly one of them,
    and the points stored in leafs and those counted as occluded add up to the grid.  There are at most
    4681 nodes and 32768 leafs. *)
Theorem C92_partition : forall g, grid_ok g -> exists r st, build_root g = ROk (r, st) /\
  (length (o_nodes st) <= 4681)%nat /\ (N.of_nat (length (o_leafs st)) <= 32768)%N /\
  Forall (fun l => pos3 (snd l) /\ forall p, inside p (fst l) (snd l) -> point_of (g_size g) p) (o_leafs st) /\
  o_occluded st + stored (o_leafs st) = vol (g_size g) /\
  forall p, point_of (g_size g) p ->
    (length (filter (fun l => insideb p (fst l) (snd l)) (o_leafs st)) <= 1)%nat /\
    (occ g p = false -> exists l, In l (o_leafs st) /\ inside p (fst l) (snd l)).
Proof.
  intros g G. destruct (root_ok g G) as (r & st & B & (x & y & A1 & A2 & A3 & A4 & A5 & AN & A6 & A7 & A8)).
  cbn [o_nodes o_leafs app o_occluded] in *. subst x y. exists r, st. split; [exact B|].
  split; [exact A3|]. split; [change 32768%N with (N.of_nat (maxl 5)); lia|].
  split. { rewrite Forall_forall in *. intros l I. destruct (A7 l I) as (P & Q). split; [exact P|]. intros p J. apply point_ingrid. apply Q. exact J. }
  split; [lia|]. intros p P. apply (proj1 (point_ingrid _ _)) in P. destruct (A8 p) as (C1 & C2). unfold cover in *.
  rewrite (proj2 (insideb_spec _ _ _) P) in C1. split; [exact C1|].
  intro O. destruct (filter (fun l => insideb p (fst l) (snd l)) (o_leafs st)) as [|l t] eqn:F.
  - rewrite (C2 P eq_refl) in O. discriminate.
  - assert (I : In l (filter (fun l => insideb p (fst l) (snd l)) (o_leafs st))) by (rewrite F; left; reflexivity).
    apply filter_In in I. destruct I as (I & J). exists l. split; [exact I|]. apply insideb_spec. exact J.
Qed.
Print Assumptions C92_partition.

(** A grid of 2^31 points or more is computed with overflowing ints. *)
Theorem C92_overflow_refuted : forall dist mins sz f,
  2 ^ 31 <= vx sz * vy sz \/ 0 < vx sz * vy sz < 2 ^ 31 /\ 2 ^ 31 <= vx sz * vy sz * vz sz -> make_grid dist mins sz f = RUB.
Proof.
  intros dist mins sz f H. unfold make_grid. destruct H as [H|(H1 & H2)].
  - rewrite chk_bad by lia. reflexivity.
  - rewrite chk_ok by lia. cbn [rbind]. rewrite chk_bad by lia. reflexivity.
Qed.
Print Assumptions C92_overflow_refuted.

(* A grid of 8 x 8 x 8 points of which the half x < 4 is occluded. *)
Example C92_nontrivial :
  let f (p : v3) := ([mkSample true (vx p) (1, 2, Z.to_N (vy p))%N; mkSample (vz p =? 7) 300 (9, 9, 9)%N; mkSample false 0 (0, 0, 0)%N; mkSample false 0 (0, 0, 0)%N],
                     vx p <? 4) in
  match make_grid (0, 0, 0)%N (0, 0, 0)%N (8, 8, 8) f with
  | ROk g => match make_lump g, build_root g with
             | ROk b, ROk (r, st) => length (o_nodes st) = 1%nat /\ length (o_leafs st) = 4%nat /\ o_occluded st = 256 /\
                 match get_lump b with
                 | Some (u, []) => lu_styles u = 2%N /\ lookup u (3, 1, 1) = Some None /\
                     lookup u (5, 6, 7) = Some (Some [(5, (1, 2, 6)); (44, (9, 9, 9))]%N)
                 | _ => False
                 end
             | _, _ => False
             end
  | _ => False
  end.
Proof. vm_compute. repeat split; reflexivity. Qed.
