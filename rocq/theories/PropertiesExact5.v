(* Exact values that the theorems elsewhere leave open: C96, C104, C129. *)
From Coq Require Import List Arith NArith ZArith QArith Bool Lia Lqa.
From Verif Require LightmapModel BrushBspModel AmbientModel.
From Verif Require Import Base NumCastModel.
Import ListNotations.

(** A lightmap for which no space was asked stops the program. *)
Theorem C96_no_space : forall rgb b t total i styles size px vpx vsize to f, styles <> [] -> (forall o, ~ In (i, false, o) t) ->
  LightmapModel.save rgb b t total i styles size px vpx vsize to f = RThrow.
Proof.
  intros rgb b t total i styles size px vpx vsize to f N H. unfold LightmapModel.save. destruct styles as [|s styles]; [congruence|].
  assert (E : LightmapModel.offset t i false = None).
  { induction t as [|((i', k'), o) t IH]; [reflexivity|]. cbn [LightmapModel.offset]. destruct (Nat.eqb_spec i i') as [->|].
    - destruct k'; cbn [Bool.eqb andb]; [apply IH; intros o' I; exact (H o' (or_intror I))|]. destruct (H o (or_introl eq_refl)).
    - cbn [andb]. apply IH. intros o' I. exact (H o' (or_intror I)). }
  rewrite E. reflexivity.
Qed.
Print Assumptions C96_no_space.

(** The volume of a sound: full below a distance of 100, else what the distance of the third kind of sound leaves of it; nothing from 500 on. *)
Theorem C129_volume : forall d j a s, nth_error d j = Some a -> nth_error d 2 = Some s ->
  (a < 100 -> AmbientModel.volume d j == 1)%Q /\ (100 <= a -> s <= 500 -> AmbientModel.volume d j == (500 - s) / 500)%Q /\ (100 <= a -> 500 <= s -> AmbientModel.volume d j == 0)%Q.
Proof.
  intros d j a s A S. unfold AmbientModel.volume. rewrite (nth_error_nth d j _ A), (nth_error_nth d 2 _ S).
  split; [|split].
  - intro L. destruct (Qle_bool 100 a) eqn:E; [apply Qle_bool_iff in E; lra|]. reflexivity.
  - intros L M. rewrite (proj2 (Qle_bool_iff 100 a) L). cbn [negb]. cbv zeta. destruct (Qle_bool 0 (1 - s * (2 # 1000))) eqn:E; cbn [negb]; [field|].
    exfalso. rewrite <- not_true_iff_false, Qle_bool_iff in E. apply E. lra.
  - intros L M. rewrite (proj2 (Qle_bool_iff 100 a) L). cbn [negb]. cbv zeta. destruct (Qle_bool 0 (1 - s * (2 # 1000))) eqn:E; cbn [negb]; [|reflexivity].
    apply Qle_bool_iff in E. lra.
Qed.
Print Assumptions C129_volume.

(** The volume of a sound that is further away does not depend on its own distance. *)
Theorem C129_own_distance_refuted : exists d d', nth_error d 3 = Some (120%Q) /\ nth_error d' 3 = Some (480%Q) /\ (forall k, k <> 3%nat -> nth_error d k = nth_error d' k) /\ AmbientModel.volume d 3 = AmbientModel.volume d' 3.
Proof.
  exists [1020; 1020; 250; 120]%Q, [1020; 1020; 250; 480]%Q. split; [reflexivity|]. split; [reflexivity|]. split; [|reflexivity].
  intros k N. destruct k as [|[|[|[|k]]]]; [reflexivity..|congruence|reflexivity].
Qed.
Print Assumptions C129_own_distance_refuted.

(** What a candidate for a plane is worth if no hint brush is split: five for each brush that faces it, minus five for each split of a side,
    minus the difference of the numbers of brushes in front and behind, five more for an axial plane, minus a thousand for each sliver;
    a candidate that is not a hint and splits a hint is the last choice. *)
Theorem C104_value : forall g s ts, let count (f : BrushBspModel.tested -> bool) := Z.of_nat (length (filter f ts)) in
  let facing := count (fun t => BrushBspModel.ps_facing (BrushBspModel.t_side t)) in
  let front := count (fun t => BrushBspModel.ps_front (BrushBspModel.t_side t)) in
  let back := count (fun t => BrushBspModel.ps_back (BrushBspModel.t_side t)) in
  let splits := Z.of_nat (list_sum (map BrushBspModel.t_splits ts)) in
  let slivers := count BrushBspModel.t_eps in
  let worth := BrushBspModel.value g s ts in
  let base := (5 * facing - 5 * splits - Z.abs (front - back) - 1000 * slivers)%Z in
  let hint := last (map BrushBspModel.t_hint ts) false && negb (BrushBspModel.s_hint s) in
  (hint = false -> BrushBspModel.g_axial g (BrushBspModel.pos (BrushBspModel.s_plane s)) = true -> worth = base + 5)%Z /\
  (hint = false -> BrushBspModel.g_axial g (BrushBspModel.pos (BrushBspModel.s_plane s)) = false -> worth = base)%Z /\ (hint = true -> worth = -9999999)%Z.
Proof.
  intros g s ts count. assert (C : forall f : BrushBspModel.tested -> bool, BrushBspModel.zsum (map (fun t => BrushBspModel.b2n (f t)) ts) = count f).
  { intro f. unfold BrushBspModel.zsum, count. f_equal. clear. induction ts as [|t ts IH]; [reflexivity|]. cbn [map filter list_sum fold_right]. change (fold_right Nat.add 0%nat) with list_sum. rewrite IH. destruct (f t); reflexivity. }
  cbv zeta. unfold BrushBspModel.value. cbv zeta.
  rewrite (C (fun t => BrushBspModel.ps_facing (BrushBspModel.t_side t))), (C (fun t => BrushBspModel.ps_front (BrushBspModel.t_side t))), (C (fun t => BrushBspModel.ps_back (BrushBspModel.t_side t))), (C BrushBspModel.t_eps). unfold BrushBspModel.zsum.
  split; [|split].
  - intros -> ->. lia.
  - intros -> ->. lia.
  - intros ->. reflexivity.
Qed.
Print Assumptions C104_value.
