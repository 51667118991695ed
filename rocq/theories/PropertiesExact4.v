(* Exact values that the theorems elsewhere leave open: C36, C92, C133. *)
From Coq Require Import Reals List Arith NArith ZArith Bool Lia Lra.
From Verif Require WindClipModel PolyGeoModel LightgridModel LightgridProofs.
From Verif Require Import NumCastModel.
Import ListNotations.

(** The patterns of the exponent 255: the two infinities have no fraction bits, everything else is not a number. *)
Theorem C36_special : forall b, (b < 2 ^ 32)%N ->
  (f32_val b = FInf false <-> b = 2139095040%N) /\ (f32_val b = FInf true <-> b = 4286578688%N) /\
  (f32_val b = FNaN <-> (2139095040 < b < 2147483648 \/ 4286578688 < b)%N).
Proof.
  intros b L. unfold f32_val. cbv zeta.
  assert (LZ : (0 <= Z.of_N b < 2 ^ 32)%Z) by (split; [lia|]; change (2 ^ 32)%Z with (Z.of_N (2 ^ 32)); lia).
  assert (Q1 : b = 2139095040%N <-> Z.of_N b = 2139095040%Z) by lia. assert (Q2 : b = 4286578688%N <-> Z.of_N b = 4286578688%Z) by lia.
  assert (Q3 : (2139095040 < b < 2147483648 \/ 4286578688 < b)%N <-> (2139095040 < Z.of_N b < 2147483648 \/ 4286578688 < Z.of_N b)%Z) by lia.
  rewrite Q1, Q2, Q3. clear Q1 Q2 Q3. generalize dependent (Z.of_N b). clear b L. intros z LZ.
  pose proof (Z.div_mod z (2 ^ 31) ltac:(lia)) as A1. pose proof (Z.mod_pos_bound z (2 ^ 31) ltac:(lia)) as A2.
  pose proof (Z.div_mod z (2 ^ 23) ltac:(lia)) as B1. pose proof (Z.mod_pos_bound z (2 ^ 23) ltac:(lia)) as B2.
  pose proof (Z.div_mod (z / 2 ^ 23) (2 ^ 8) ltac:(lia)) as C1. pose proof (Z.mod_pos_bound (z / 2 ^ 23) (2 ^ 8) ltac:(lia)) as C2.
  assert (D : (z / 2 ^ 31 = 0 \/ z / 2 ^ 31 = 1)%Z) by lia.
  assert (E : (z / 2 ^ 23 / 2 ^ 8 = z / 2 ^ 31)%Z) by (rewrite Z.div_div by lia; reflexivity). rewrite E in C1. clear E.
  set (s := (z / 2 ^ 31)%Z) in *. set (e := ((z / 2 ^ 23) mod 2 ^ 8)%Z) in *. set (f := (z mod 2 ^ 23)%Z) in *. set (h := (z / 2 ^ 23)%Z) in *. set (g := (z mod 2 ^ 31)%Z) in *. clearbody s e f h g.
  change (2 ^ 31)%Z with 2147483648%Z in *. change (2 ^ 23)%Z with 8388608%Z in *. change (2 ^ 8)%Z with 256%Z in *. change (2 ^ 32)%Z with 4294967296%Z in *.
  assert (K : (z = 2147483648 * s + 8388608 * e + f)%Z) by lia. clear A1 A2 B1 C1 LZ. clear h g.
  destruct (Z.eqb_spec e 255) as [E|E]; [destruct (Z.eqb_spec f 0) as [F|F]|]; (destruct D as [D|D]; [assert (M : (s mod 2 =? 1)%Z = false) by (rewrite D; reflexivity)|assert (M : (s mod 2 =? 1)%Z = true) by (rewrite D; reflexivity)]);
    rewrite ?M; clear M; (split; [|split]); split; intro H; try discriminate H; try reflexivity; try (f_equal; fail); first [lia|exfalso; lia].
Qed.
Print Assumptions C36_special.
Example C36_special_nontrivial : f32_val 4286578688 = FInf true /\ f32_val 2143289344 = FNaN /\ f32_val 1065353216 = FFin 8388608 (-23).
Proof. repeat split. Qed.

(** Nodes of the light grid are cut in the middle: the two parts of each axis differ by at most one point. *)
Theorem C92_middle : forall m s, (0 <= LightgridModel.vx s)%Z -> (0 <= LightgridModel.vy s)%Z -> (0 <= LightgridModel.vz s)%Z -> let d := LightgridModel.division m s in
  (0 <= (LightgridModel.vx m + LightgridModel.vx s - LightgridModel.vx d) - (LightgridModel.vx d - LightgridModel.vx m) <= 1)%Z /\
  (0 <= (LightgridModel.vy m + LightgridModel.vy s - LightgridModel.vy d) - (LightgridModel.vy d - LightgridModel.vy m) <= 1)%Z /\
  (0 <= (LightgridModel.vz m + LightgridModel.vz s - LightgridModel.vz d) - (LightgridModel.vz d - LightgridModel.vz m) <= 1)%Z.
Proof.
  intros [[mx my] mz] [[sx sy] sz]. unfold LightgridModel.division, LightgridModel.vx, LightgridModel.vy, LightgridModel.vz. cbn [fst snd]. intros X Y Z. cbv zeta.
  rewrite !Z.quot_div_nonneg by lia.
  pose proof (Z.div_mod sx 2 ltac:(lia)). pose proof (Z.mod_pos_bound sx 2 ltac:(lia)). pose proof (Z.div_mod sy 2 ltac:(lia)). pose proof (Z.mod_pos_bound sy 2 ltac:(lia)).
  pose proof (Z.div_mod sz 2 ltac:(lia)). pose proof (Z.mod_pos_bound sz 2 ltac:(lia)). lia.
Qed.
Print Assumptions C92_middle.
Example C92_middle_nontrivial : LightgridModel.division (3, 0, 8)%Z (9, 4, 5)%Z = (7, 2, 10)%Z.
Proof. reflexivity. Qed.

(** The centroid of two points is halfway between them. *)
Theorem C133_two_points : forall a b, exists c, PolyGeoModel.poly_centroid [a; b] = Some c /\ WindClipModel.sub c a = WindClipModel.sub b c.
Proof.
  intros [a1 a2 a3] [b1 b2 b3]. eexists. split; [reflexivity|]. unfold WindClipModel.sub, WindClipModel.scale, WindClipModel.add.
  cbn [WindClipModel.vx WindClipModel.vy WindClipModel.vz]. f_equal; field.
Qed.
Print Assumptions C133_two_points.
Example C133_two_points_nontrivial : exists c, PolyGeoModel.poly_centroid [WindClipModel.mkV 0 2 4; WindClipModel.mkV 2 4 8] = Some c /\ c = WindClipModel.mkV 1 3 6.
Proof. eexists. split; [reflexivity|]. unfold WindClipModel.scale, WindClipModel.add. cbn [WindClipModel.vx WindClipModel.vy WindClipModel.vz]. f_equal; field. Qed.
