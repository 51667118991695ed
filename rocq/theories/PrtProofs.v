(* Lemmas about the portal file model. *)
From Coq Require Import List Arith NArith ZArith Bool Lia.
Import ListNotations.
From Verif Require Import Base ParserModel StreamModel StreamProofs EntModel EntProofs PrtModel.

Definition num_point (p : point) : Prop := let '(x, y, z) := p in number_text x /\ number_text y /\ number_text z.

Definition good (r : bytes) : istr := mkIS r false false.

Definition blanks (w : bytes) : Prop := Forall (fun x => isspace x = true) w.

Lemma blanks_nil : blanks []. Proof. constructor. Qed.
Lemma blanks_sp : blanks [sp]. Proof. repeat constructor. Qed.
Lemma blanks_nl : blanks [nl]. Proof. repeat constructor. Qed.

Lemma after_here : forall c w r, Forall (fun x => x <> c) w -> after c (w ++ c :: r) = Some r.
Proof.
  induction 1 as [|x w H _ IH]; cbn [app after].
  - rewrite N.eqb_refl. reflexivity.
  - apply N.eqb_neq in H. rewrite H. exact IH.
Qed.

Lemma read_point_print : forall w p r, Forall (fun x => x <> 40%N) w -> num_point p ->
  read_point (good (w ++ print_point p ++ r)) = P_ok (p, good (sp :: r)).
Proof.
  intros w [[x y] z] r W [X [Y Z]]. unfold read_point, print_point, skip_past, good. cbn [is_eof is_fail orb is_rest].
  rewrite <- !app_assoc. cbn [app].
  rewrite after_here by exact W. cbn [pbind].
  change (x ++ sp :: y ++ sp :: z ++ sp :: 41%N :: sp :: r) with ([] ++ x ++ sp :: y ++ sp :: z ++ sp :: 41%N :: sp :: r).
  rewrite (get_real_text [] x sp _ blanks_nil X (or_introl eq_refl)).
  change (sp :: y ++ sp :: z ++ sp :: 41%N :: sp :: r) with ([sp] ++ y ++ sp :: z ++ sp :: 41%N :: sp :: r).
  rewrite (get_real_text [sp] y sp _ blanks_sp Y (or_introl eq_refl)).
  change (sp :: z ++ sp :: 41%N :: sp :: r) with ([sp] ++ z ++ sp :: 41%N :: sp :: r).
  rewrite (get_real_text [sp] z sp _ blanks_sp Z (or_introl eq_refl)).
  reflexivity.
Qed.

Lemma read_points_print : forall ps w r, Forall (fun x => x <> 40%N) w -> Forall num_point ps ->
  read_points (length ps) (good (w ++ concat (map print_point ps) ++ r)) =
  P_ok (ps, good (match ps with [] => w ++ r | _ => sp :: r end)).
Proof.
  induction ps as [|p ps IH]; intros w r W F; cbn [length read_points map concat app]; [reflexivity|].
  inversion F as [|? ? P F']. subst. rewrite <- app_assoc.
  rewrite (read_point_print w p (concat (map print_point ps) ++ r) W P). cbn [pbind].
  change (sp :: concat (map print_point ps) ++ r) with ([sp] ++ concat (map print_point ps) ++ r).
  rewrite IH; [|repeat constructor; discriminate|exact F']. cbn [pbind]. destruct ps; reflexivity.
Qed.

Definition prt_of (p : wportal) : prt_portal := mkPP (Z.of_nat (wp_a p)) (Z.of_nat (wp_b p)) (wp_winding p).

(** What the writer can print and the reader will accept. *)
Definition printable (leafs : nat) (p : wportal) : Prop :=
  wp_a p <= leafs /\ wp_b p <= leafs /\ length (wp_winding p) <= 64 /\ Forall num_point (wp_winding p).

Lemma u32_small : forall n, (Z.of_nat n <= INT_MAX)%Z -> u32 (Z.of_nat n) = Z.of_nat n.
Proof. intros n H. unfold u32, INT_MAX in *. apply Z.mod_small. lia. Qed.

Lemma read_portal_print : forall leafs w p r, (Z.of_nat leafs <= INT_MAX)%Z -> blanks w -> printable leafs p ->
  exists w', blanks w' /\
  read_portal (Z.of_nat leafs) (good (w ++ print_portal p ++ r)) = P_ok (prt_of p, good (w' ++ r)).
Proof.
  intros leafs w p r L W [A [B [C D]]]. unfold read_portal, print_portal, good.
  rewrite <- !app_assoc. cbn [app].
  rewrite (get_int_print w (length (wp_winding p)) sp _ W); [|unfold INT_MAX in *; lia|reflexivity].
  change (sp :: print_nat (wp_a p) ++ sp :: print_nat (wp_b p) ++ sp :: concat (map print_point (wp_winding p)) ++ nl :: r)
    with ([sp] ++ print_nat (wp_a p) ++ sp :: print_nat (wp_b p) ++ sp :: concat (map print_point (wp_winding p)) ++ nl :: r).
  rewrite (get_int_print [sp] (wp_a p) sp _ blanks_sp); [|unfold INT_MAX in *; lia|reflexivity].
  change (sp :: print_nat (wp_b p) ++ sp :: concat (map print_point (wp_winding p)) ++ nl :: r)
    with ([sp] ++ print_nat (wp_b p) ++ sp :: concat (map print_point (wp_winding p)) ++ nl :: r).
  rewrite (get_int_print [sp] (wp_b p) sp _ blanks_sp); [|unfold INT_MAX in *; lia|reflexivity].
  replace ((Z.of_nat (length (wp_winding p)) <? 0)%Z || (Z.of_nat (length (wp_winding p)) >? PRT_MAX_WINDING)%Z) with false.
  2: { symmetry. apply orb_false_iff. split; [apply Z.ltb_ge; lia|]. rewrite Z.gtb_ltb. apply Z.ltb_ge. unfold PRT_MAX_WINDING. lia. }
  rewrite !u32_small by (unfold INT_MAX in *; lia).
  replace (Z.of_nat (wp_a p) >? Z.of_nat leafs)%Z with false by (symmetry; rewrite Z.gtb_ltb; apply Z.ltb_ge; lia).
  replace (Z.of_nat (wp_b p) >? Z.of_nat leafs)%Z with false by (symmetry; rewrite Z.gtb_ltb; apply Z.ltb_ge; lia).
  rewrite Nat2Z.id.
  change (mkIS (sp :: concat (map print_point (wp_winding p)) ++ nl :: r) false false)
    with (good ([sp] ++ concat (map print_point (wp_winding p)) ++ nl :: r)).
  rewrite read_points_print; [|repeat constructor; discriminate|exact D]. cbn [pbind].
  exists [sp; nl]. split; [repeat constructor|].
  unfold prt_of. destruct (wp_winding p); reflexivity.
Qed.

Lemma read_portals_print : forall leafs ps w r, (Z.of_nat leafs <= INT_MAX)%Z -> blanks w -> Forall (printable leafs) ps ->
  exists w', blanks w' /\
  read_portals (length ps) (Z.of_nat leafs) (good (w ++ print_portals ps ++ r)) = P_ok (map prt_of ps, good (w' ++ r)).
Proof.
  intros leafs ps. induction ps as [|p ps IH]; intros w r L W F; cbn [length read_portals map].
  - exists w. split; [exact W|reflexivity].
  - inversion F as [|? ? P F']. subst. unfold print_portals. cbn [map concat]. rewrite <- app_assoc.
    destruct (read_portal_print leafs w p (concat (map print_portal ps) ++ r) L W P) as [w1 [W1 E1]].
    rewrite E1. cbn [pbind]. destruct (IH w1 r L W1 F') as [w2 [W2 E2]]. unfold print_portals in E2.
    rewrite E2. cbn [pbind]. exists w2. split; [exact W2|reflexivity].
Qed.

Lemma resize0_spec : forall n, resize0 (Z.of_nat n + 1) = P_ok (repeat 0%Z (S n)).
Proof.
  intro n. unfold resize0. replace (Z.of_nat n + 1 <? 0)%Z with false by (symmetry; apply Z.ltb_ge; lia).
  replace (Z.to_nat (Z.of_nat n + 1)) with (S n) by lia. reflexivity.
Qed.

Lemma succ_int_spec : forall n, (Z.of_nat n < INT_MAX)%Z -> succ_int (Z.of_nat n) = P_ok (Z.of_nat n + 1)%Z.
Proof. intros n H. unfold succ_int. replace (Z.of_nat n =? INT_MAX)%Z with false by (symmetry; apply Z.eqb_neq; lia). reflexivity. Qed.

Lemma identity_clusters_spec : forall n, (Z.of_nat n < INT_MAX)%Z ->
  identity_clusters (Z.of_nat n) = P_ok (0%Z :: map Z.of_nat (seq 0 n)).
Proof.
  intros n H. unfold identity_clusters. rewrite succ_int_spec by exact H. cbn [pbind].
  rewrite resize0_spec. cbn [pbind repeat length]. rewrite repeat_length. replace (S n - 1) with n by lia. reflexivity.
Qed.

Lemma getline_magic : forall m r, Forall (fun c => c <> 10%N) m -> m <> [] -> getline (m ++ nl :: r) = (m, good r).
Proof.
  intros m r F NE. unfold getline.
  assert (H : take_line (m ++ nl :: r) = (m, Some r)).
  { clear NE. induction F as [|c m H _ IH]; cbn [app take_line]; [reflexivity|].
    apply N.eqb_neq in H. rewrite H, IH. reflexivity. }
  rewrite H. destruct m; [contradiction|reflexivity].
Qed.

Lemma read_header_prt1 : forall q2 leafs n r, (Z.of_nat leafs <= INT_MAX)%Z -> (Z.of_nat n <= INT_MAX)%Z ->
  read_header q2 (sPRT1 ++ [nl] ++ print_nat leafs ++ [nl] ++ print_nat n ++ [nl] ++ r) =
  P_ok (K1, Z.of_nat leafs, if q2 then 0%Z else Z.of_nat leafs, Some (Z.of_nat n), good ([nl] ++ r)).
Proof.
  intros q2 leafs n r L M. unfold read_header. cbn [app].
  rewrite getline_magic; [|repeat constructor; discriminate|discriminate].
  change (beq sPRT1 sPRT1) with true. cbn beta iota. unfold good.
  change (print_nat leafs ++ nl :: print_nat n ++ nl :: r) with ([] ++ print_nat leafs ++ nl :: print_nat n ++ nl :: r).
  rewrite (get_int_print [] leafs nl _ blanks_nil L eq_refl).
  change (nl :: print_nat n ++ nl :: r) with ([nl] ++ print_nat n ++ nl :: r).
  rewrite (get_int_print [nl] n nl _ blanks_nl M eq_refl). reflexivity.
Qed.

Lemma read_header_prt2 : forall real leafs n r, (Z.of_nat real <= INT_MAX)%Z -> (Z.of_nat leafs <= INT_MAX)%Z ->
  (Z.of_nat n <= INT_MAX)%Z ->
  read_header false (sPRT2 ++ [nl] ++ print_nat real ++ [nl] ++ print_nat leafs ++ [nl] ++ print_nat n ++ [nl] ++ r) =
  P_ok (K2, Z.of_nat leafs, Z.of_nat real, Some (Z.of_nat n), good ([nl] ++ r)).
Proof.
  intros real leafs n r R L M. unfold read_header. cbn [app].
  rewrite getline_magic; [|repeat constructor; discriminate|discriminate].
  change (beq sPRT2 sPRT1) with false. change (beq sPRT2 sPRT2) with true. cbn beta iota. unfold good.
  change (print_nat real ++ nl :: print_nat leafs ++ nl :: print_nat n ++ nl :: r)
    with ([] ++ print_nat real ++ nl :: print_nat leafs ++ nl :: print_nat n ++ nl :: r).
  rewrite (get_int_print [] real nl _ blanks_nil R eq_refl).
  change (nl :: print_nat leafs ++ nl :: print_nat n ++ nl :: r) with ([nl] ++ print_nat leafs ++ nl :: print_nat n ++ nl :: r).
  rewrite (get_int_print [nl] leafs nl _ blanks_nl L eq_refl).
  change (nl :: print_nat n ++ nl :: r) with ([nl] ++ print_nat n ++ nl :: r).
  rewrite (get_int_print [nl] n nl _ blanks_nl M eq_refl). reflexivity.
Qed.

Theorem prt1_roundtrip : forall q2 leafs ps, (Z.of_nat leafs < INT_MAX)%Z -> (Z.of_nat (length ps) <= INT_MAX)%Z ->
  Forall (printable leafs) ps ->
  load_prt q2 (write_prt1 leafs ps) =
  P_ok (if q2 then mkPrt (Z.of_nat leafs) 0 (map prt_of ps) []
        else mkPrt (Z.of_nat leafs) (Z.of_nat leafs) (map prt_of ps) (0%Z :: map Z.of_nat (seq 0 leafs))).
Proof.
  intros q2 leafs ps L M F. unfold load_prt, write_prt1. rewrite read_header_prt1 by lia. cbn [pbind].
  rewrite Nat2Z.id.
  destruct (read_portals_print leafs ps [nl] [] ltac:(lia) blanks_nl F) as [w [W E]]. rewrite app_nil_r in E.
  rewrite E. cbn [pbind]. destruct q2; [reflexivity|]. rewrite Z.eqb_refl.
  rewrite identity_clusters_spec by exact L. reflexivity.
Qed.

(* ------------------------------------------------------------------------------------------- *)
(** ** The cluster table *)

(** [assign cs i cl]: every leaf number of the k-th list is given cluster [i + k]. *)
Fixpoint set_all (c : list nat) (i : Z) (cl : list Z) : list Z :=
  match c with
  | [] => cl
  | n :: c' => set_all c' i (match upd cl (S n) i with Some l => l | None => cl end)
  end.

Fixpoint assign (cs : list (list nat)) (i : Z) (cl : list Z) : list Z :=
  match cs with [] => cl | c :: cs' => assign cs' (i + 1)%Z (set_all c i cl) end.

Lemma set_all_length : forall c i cl, length (set_all c i cl) = length cl.
Proof.
  induction c as [|n c IH]; intros i cl; cbn [set_all]; [reflexivity|]. rewrite IH.
  destruct (upd cl (S n) i) eqn:E; [|reflexivity]. exact (upd_length _ _ _ _ _ E).
Qed.

Lemma print_nat_nonempty : forall n, 1 <= length (print_nat n).
Proof. intro n. destruct (print_nat_spec n) as [_ [_ [c [r E]]]]. rewrite E. simpl. lia. Qed.

Lemma read_cluster_print : forall c fuel real i w cl r, blanks w -> (Z.of_nat real <= INT_MAX)%Z ->
  Forall (fun n => n < real) c -> length cl = S real ->
  length (w ++ print_cluster c ++ r) < fuel ->
  read_cluster fuel (Z.of_nat real) i (good (w ++ print_cluster c ++ r)) cl =
  P_ok (set_all c i cl, good (nl :: r), false).
Proof.
  induction c as [|n c IH]; intros fuel real i w cl r W R F L FU.
  - destruct fuel; [lia|]. unfold print_cluster. cbn [map concat app read_cluster set_all].
    unfold good. change (w ++ 45%N :: 49%N :: 10%N :: r) with (w ++ 45%N :: 49%N :: nl :: r).
    rewrite (get_int_minus_one w nl r W eq_refl). reflexivity.
  - destruct fuel; [lia|]. inversion F as [|? ? N F']. subst.
    assert (T : print_cluster (n :: c) ++ r = print_nat n ++ sp :: print_cluster c ++ r).
    { unfold print_cluster. cbn [map concat]. rewrite <- !app_assoc. reflexivity. }
    rewrite T in *. cbn [read_cluster set_all]. unfold good.
    rewrite (get_int_print w n sp _ W); [|lia|reflexivity]. cbn [is_eof].
    replace (Z.of_nat n <? 0)%Z with false by (symmetry; apply Z.ltb_ge; lia).
    replace (Z.of_nat n >=? Z.of_nat real)%Z with false.
    2: { symmetry. rewrite Z.geb_leb. apply Z.leb_gt. lia. }
    unfold store. replace (Z.of_nat n + 1 <? 0)%Z with false by (symmetry; apply Z.ltb_ge; lia).
    replace (Z.to_nat (Z.of_nat n + 1)) with (S n) by lia.
    destruct (upd_some _ cl (S n) i) as [cl' E]; [lia|]. rewrite E. cbn [pbind].
    change (mkIS (sp :: print_cluster c ++ r) false false) with (good ([sp] ++ print_cluster c ++ r)).
    apply IH; [exact blanks_sp|exact R|exact F'| |].
    + rewrite (upd_length _ _ _ _ _ E). exact L.
    + rewrite !app_length in *. cbn [length] in *. rewrite !app_length in *. pose proof (print_nat_nonempty n). lia.
Qed.

Lemma read_clusters_print : forall cs real i w cl r, blanks w -> (Z.of_nat real <= INT_MAX)%Z ->
  Forall (Forall (fun n => n < real)) cs -> length cl = S real ->
  read_clusters (length cs) (Z.of_nat real) i (good (w ++ print_table cs ++ r)) cl = P_ok (assign cs i cl).
Proof.
  induction cs as [|c cs IH]; intros real i w cl r W R F L; cbn [length read_clusters assign]; [reflexivity|].
  inversion F as [|? ? C F']. subst. unfold print_table. cbn [map concat]. rewrite <- app_assoc.
  rewrite read_cluster_print; [|exact W|exact R|exact C|exact L|unfold good; cbn [is_rest]; lia].
  cbn [pbind]. change (good (nl :: concat (map print_cluster cs) ++ r)) with (good ([nl] ++ print_table cs ++ r)).
  apply IH; [exact blanks_nl|exact R|exact F'|]. rewrite set_all_length. exact L.
Qed.

(** With each number in exactly one list the assignment is the map from number to list index. *)
Lemma set_all_nth : forall c i cl k, k < length cl ->
  nth_error (set_all c i cl) k =
  match k with O => nth_error cl O | S n => if in_dec Nat.eq_dec n c then Some i else nth_error cl (S n) end.
Proof.
  induction c as [|m c IH]; intros i cl k K; cbn [set_all].
  - destruct k; [reflexivity|]. destruct (in_dec Nat.eq_dec k []) as [[]|_]. reflexivity.
  - destruct (upd cl (S m) i) as [cl'|] eqn:E.
    + rewrite IH by (rewrite (upd_length _ _ _ _ _ E); exact K).
      destruct k as [|n].
      * rewrite (upd_nth_error _ _ _ _ _ O E). reflexivity.
      * rewrite (upd_nth_error _ _ _ _ _ (S n) E).
        destruct (in_dec Nat.eq_dec n c) as [I|I]; destruct (in_dec Nat.eq_dec n (m :: c)) as [J|J]; try reflexivity.
        -- exfalso. apply J. right. exact I.
        -- destruct J as [J|J]; [|contradiction]. subst m. rewrite Nat.eqb_refl. reflexivity.
        -- replace (S n =? S m) with false; [reflexivity|]. symmetry. apply Nat.eqb_neq. intro X. apply J. left. lia.
    + rewrite IH by exact K. destruct k as [|n]; [reflexivity|].
      destruct (in_dec Nat.eq_dec n c) as [I|I]; destruct (in_dec Nat.eq_dec n (m :: c)) as [J|J]; try reflexivity.
      * exfalso. apply J. right. exact I.
      * destruct J as [J|J]; [|contradiction]. subst m. destruct (upd_some _ cl (S n) i K) as [l' E']. congruence.
Qed.

Lemma assign_length : forall cs i cl, length (assign cs i cl) = length cl.
Proof. induction cs as [|c cs IH]; intros i cl; cbn [assign]; [reflexivity|]. rewrite IH. apply set_all_length. Qed.

Lemma assign_other : forall cs i cl n, S n < length cl -> ~ In n (concat cs) ->
  nth_error (assign cs i cl) (S n) = nth_error cl (S n).
Proof.
  induction cs as [|c cs IH]; intros i cl n L NI; cbn [assign]; [reflexivity|].
  cbn [concat] in NI. rewrite IH.
  - rewrite set_all_nth by exact L. destruct (in_dec Nat.eq_dec n c) as [I|_]; [|reflexivity].
    exfalso. apply NI. apply in_or_app. left. exact I.
  - rewrite set_all_length. exact L.
  - intro X. apply NI. apply in_or_app. right. exact X.
Qed.

Lemma NoDup_app_parts : forall A (l l' : list A), NoDup (l ++ l') ->
  NoDup l /\ NoDup l' /\ (forall x, In x l -> ~ In x l').
Proof.
  induction l as [|a l IH]; intros l' H; cbn [app] in H.
  - repeat split; auto. constructor.
  - inversion H as [|? ? N D]. subst. destruct (IH l' D) as [A1 [A2 A3]]. repeat split; auto.
    + constructor; [|exact A1]. intro X. apply N. apply in_or_app. left. exact X.
    + intros x [X|X] Y; [subst; apply N; apply in_or_app; right; exact Y|apply (A3 x X Y)].
Qed.

Lemma assign_nth : forall cs i cl n k c, S n < length cl -> NoDup (concat cs) ->
  nth_error cs k = Some c -> In n c -> nth_error (assign cs i cl) (S n) = Some (i + Z.of_nat k)%Z.
Proof.
  induction cs as [|c0 cs IH]; intros i cl n k c L ND K I; [destruct k; discriminate|].
  cbn [assign concat] in *. destruct (NoDup_app_parts _ _ _ ND) as [_ [ND' DJ]].
  destruct k as [|k]; cbn [nth_error] in K.
  - injection K as ->. rewrite assign_other; [|rewrite set_all_length; exact L|apply DJ; exact I].
    rewrite set_all_nth by exact L. destruct (in_dec Nat.eq_dec n c) as [_|X]; [|contradiction].
    rewrite Z.add_0_r. reflexivity.
  - rewrite (IH (i + 1)%Z (set_all c0 i cl) n k c); [|rewrite set_all_length; exact L|exact ND'|exact K|exact I].
    replace (i + 1 + Z.of_nat k)%Z with (i + Z.of_nat (S k))%Z by lia. reflexivity.
Qed.

Lemma concat_length_ge : forall A (cs : list (list A)), Forall (fun c => c <> []) cs -> length cs <= length (concat cs).
Proof.
  induction 1 as [|c cs H _ IH]; cbn [concat length]; [lia|]. rewrite app_length. destruct c; [contradiction|]. cbn [length]. lia.
Qed.

Lemma singletons : forall cs b, Forall (fun c => c <> []) cs -> concat cs = seq b (length cs) ->
  forall k c n, nth_error cs k = Some c -> In n c -> n = b + k.
Proof.
  induction cs as [|c0 cs IH]; intros b NE E k c n K I; [destruct k; discriminate|].
  inversion NE as [|? ? N0 NE']. subst. pose proof (concat_length_ge _ cs NE') as G.
  cbn [concat] in E. assert (LL : length (c0 ++ concat cs) = S (length cs)) by (rewrite E, seq_length; reflexivity).
  rewrite app_length in LL. destruct c0 as [|x [|y c0]]; [contradiction| |cbn [length] in LL; lia].
  cbn [app seq length] in E. injection E as E1 E2. destruct k as [|k]; cbn [nth_error] in K.
  - injection K as <-. destruct I as [I|[]]. lia.
  - rewrite (IH (S b) NE' E2 k c n K I). lia.
Qed.

(** Reading a PRT2 file back: the portals, and every leaf number in the cluster that lists it. *)
Theorem prt2_roundtrip : forall real ps cs, (Z.of_nat real < INT_MAX)%Z -> (Z.of_nat (length ps) <= INT_MAX)%Z ->
  Forall (fun c => c <> []) cs -> concat cs = seq 0 real -> Forall (printable (length cs)) ps ->
  exists cl, load_prt false (write_prt2 real (length cs) ps (print_table cs)) =
    P_ok (mkPrt (Z.of_nat (length cs)) (Z.of_nat real) (map prt_of ps) cl) /\
    length cl = S real /\
    forall k c n, nth_error cs k = Some c -> In n c -> nth_error cl (S n) = Some (Z.of_nat k).
Proof.
  intros real ps cs R M NE E F. unfold load_prt, write_prt2.
  pose proof (concat_length_ge _ cs NE) as G. rewrite E, seq_length in G.
  rewrite read_header_prt2 by lia. cbn [pbind]. rewrite Nat2Z.id.
  destruct (read_portals_print (length cs) ps [nl] (print_table cs) ltac:(lia) blanks_nl F) as [w [W EP]].
  rewrite EP. cbn [pbind].
  destruct (Z.of_nat (length cs) =? Z.of_nat real)%Z eqn:EQ.
  - apply Z.eqb_eq in EQ. assert (EQ' : length cs = real) by lia.
    rewrite identity_clusters_spec by lia. cbn [pbind].
    exists (0%Z :: map Z.of_nat (seq 0 real)). rewrite EQ'. split; [reflexivity|].
    split; [cbn [length]; rewrite map_length, seq_length; reflexivity|].
    intros k c n K I. rewrite <- EQ' in E. pose proof (singletons cs 0 NE E k c n K I) as X. cbn [Nat.add] in X. subst n.
    cbn [nth_error]. rewrite nth_error_map.
    assert (KL : k < real) by (rewrite <- EQ'; apply nth_error_Some; congruence).
    rewrite (nth_error_nth' _ 0) by (rewrite seq_length; exact KL). rewrite seq_nth by exact KL. reflexivity.
  - rewrite succ_int_spec by exact R. cbn [pbind]. rewrite resize0_spec. cbn [pbind]. rewrite Nat2Z.id.
    rewrite <- (app_nil_r (print_table cs)).
    rewrite read_clusters_print; [|exact W|lia| |rewrite repeat_length; reflexivity].
    + cbn [pbind]. eexists. split; [reflexivity|]. split; [rewrite assign_length, repeat_length; reflexivity|].
      intros k c n K I. rewrite (assign_nth cs 0 _ n k c); [f_equal; lia| | |exact K|exact I].
      * rewrite repeat_length. assert (IN : In n (concat cs)) by (apply in_concat; exists c; split; [eapply nth_error_In; exact K|exact I]).
        rewrite E in IN. apply in_seq in IN. lia.
      * rewrite E. apply seq_NoDup.
    + apply Forall_forall. intros c C. apply Forall_forall. intros n I.
      assert (IN : In n (concat cs)) by (apply in_concat; exists c; split; assumption).
      rewrite E in IN. apply in_seq in IN. lia.
Qed.

(* ------------------------------------------------------------------------------------------- *)
(** ** What the reader accepts *)

Lemma read_portal_range : forall leafs s p s', (0 <= leafs <= INT_MAX)%Z -> read_portal leafs s = P_ok (p, s') ->
  (0 <= pp_leaf0 p <= leafs)%Z /\ (0 <= pp_leaf1 p <= leafs)%Z /\ length (pp_winding p) <= 64.
Proof.
  intros leafs s p s' L H. unfold read_portal in H.
  destruct (get_int s) as [s1 np] eqn:G1. destruct (get_int s1) as [s2 a] eqn:G2. destruct (get_int s2) as [s3 b] eqn:G3.
  destruct np as [np|]; [|discriminate].
  destruct ((np <? 0)%Z || (np >? PRT_MAX_WINDING)%Z) eqn:B1; [discriminate|].
  destruct a as [a|]; [|discriminate]. destruct (u32 a >? u32 leafs)%Z eqn:B2; [discriminate|].
  destruct b as [b|]; [|discriminate]. destruct (u32 b >? u32 leafs)%Z eqn:B3; [discriminate|].
  assert (R : forall x s0 s0', get_int s0 = (s0', Some x) -> (INT_MIN <= x <= INT_MAX)%Z).
  { intros x s0 s0' G. unfold get_int in G. destruct (sentry s0) as [q ok]. destruct ok; cbn [negb] in G; [|discriminate].
    destruct (match is_rest q with | [] => _ | _ :: _ => _ end) as [neg body].
    destruct (take_digits body) as [d r]. destruct d as [|d0 d].
    - injection G as _ G. subst. unfold INT_MIN, INT_MAX. lia.
    - set (v := if neg then (- Z.of_N (dec_value (d0 :: d)))%Z else Z.of_N (dec_value (d0 :: d))) in *.
      destruct (v >? INT_MAX)%Z eqn:V1; [injection G as _ G; subst; unfold INT_MIN, INT_MAX; lia|].
      destruct (v <? INT_MIN)%Z eqn:V2; [injection G as _ G; subst; unfold INT_MIN, INT_MAX; lia|].
      injection G as _ G. rewrite Z.gtb_ltb in V1. apply Z.ltb_ge in V1. apply Z.ltb_ge in V2. lia. }
  apply R in G2. apply R in G3.
  assert (UL : u32 leafs = leafs) by (unfold u32, INT_MAX in *; apply Z.mod_small; lia).
  assert (RA : forall x, (INT_MIN <= x <= INT_MAX)%Z -> (u32 x >? u32 leafs)%Z = false -> (0 <= x <= leafs)%Z).
  { intros x X Y. rewrite UL, Z.gtb_ltb in Y. apply Z.ltb_ge in Y. unfold u32, INT_MIN, INT_MAX in *.
    destruct (Z_lt_le_dec x 0) as [N|N].
    - rewrite <- (Z_mod_plus_full x 1) in Y. rewrite Z.mod_small in Y by lia. lia.
    - rewrite Z.mod_small in Y by lia. lia. }
  apply orb_false_iff in B1. destruct B1 as [B1 B1']. apply Z.ltb_ge in B1. rewrite Z.gtb_ltb in B1'. apply Z.ltb_ge in B1'.
  destruct (read_points (Z.to_nat np) s3) as [[w s4]| | | |] eqn:RP; try discriminate. cbn [pbind] in H.
  injection H as <- _. cbn [pp_leaf0 pp_leaf1 pp_winding]. split; [apply RA; assumption|]. split; [apply RA; assumption|].
  assert (LW : forall n s0 w0 s1', read_points n s0 = P_ok (w0, s1') -> length w0 = n).
  { induction n as [|n IH]; intros s0 w0 s1' Q; cbn [read_points] in Q; [injection Q as <- _; reflexivity|].
    destruct (read_point s0) as [[pt s5]| | | |]; try discriminate. cbn [pbind] in Q.
    destruct (read_points n s5) as [[ps s6]| | | |] eqn:Q2; try discriminate. cbn [pbind] in Q. injection Q as <- _.
    cbn [length]. rewrite (IH _ _ _ Q2). reflexivity. }
  rewrite (LW _ _ _ _ RP). unfold PRT_MAX_WINDING in *. lia.
Qed.

Definition in_range (leafs : Z) (p : prt_portal) : Prop :=
  (0 <= pp_leaf0 p <= leafs)%Z /\ (0 <= pp_leaf1 p <= leafs)%Z /\ length (pp_winding p) <= 64.

Lemma read_portals_range : forall n leafs s ps s', (0 <= leafs <= INT_MAX)%Z -> read_portals n leafs s = P_ok (ps, s') ->
  Forall (in_range leafs) ps.
Proof.
  induction n as [|n IH]; intros leafs s ps s' L H; cbn [read_portals] in H.
  - injection H as <- _. constructor.
  - destruct (read_portal leafs s) as [[p s1]| | | |] eqn:E; try discriminate. cbn [pbind] in H.
    destruct (read_portals n leafs s1) as [[ps1 s2]| | | |] eqn:E2; try discriminate. cbn [pbind] in H.
    injection H as <- _. constructor; [exact (read_portal_range _ _ _ _ L E)|exact (IH _ _ _ _ L E2)].
Qed.

Lemma get_int_range : forall s s' x, get_int s = (s', Some x) -> (INT_MIN <= x <= INT_MAX)%Z.
Proof.
  intros s0 s0' x G. unfold get_int in G. destruct (sentry s0) as [q ok]. destruct ok; cbn [negb] in G; [|discriminate].
  destruct (match is_rest q with | [] => _ | _ :: _ => _ end) as [neg body].
  destruct (take_digits body) as [d r]. destruct d as [|d0 d].
  - injection G as _ G. subst. unfold INT_MIN, INT_MAX. lia.
  - set (v := if neg then (- Z.of_N (dec_value (d0 :: d)))%Z else Z.of_N (dec_value (d0 :: d))) in *.
    destruct (v >? INT_MAX)%Z eqn:V1; [injection G as _ G; subst; unfold INT_MIN, INT_MAX; lia|].
    destruct (v <? INT_MIN)%Z eqn:V2; [injection G as _ G; subst; unfold INT_MIN, INT_MAX; lia|].
    injection G as _ G. rewrite Z.gtb_ltb in V1. apply Z.ltb_ge in V1. apply Z.ltb_ge in V2. lia.
Qed.

Lemma read_header_range : forall q2 t k l r n s, read_header q2 t = P_ok (k, l, r, n, s) -> (l <= INT_MAX)%Z.
Proof.
  intros q2 t k l r n s H. unfold read_header in H. destruct (getline t) as [m s0].
  assert (O : forall s1 s2 v, get_int s1 = (s2, v) -> (orzero v <= INT_MAX)%Z).
  { intros s1 s2 [v|] G; cbn [orzero]; [apply get_int_range in G; lia|unfold INT_MAX; lia]. }
  destruct (beq m sPRT1).
  - destruct (get_int s0) as [s1 a] eqn:A. destruct (get_int s1) as [s2 b] eqn:B. injection H as _ <- _ _ _. eapply O. exact A.
  - destruct (beq m sPRT2).
    + destruct q2; [discriminate|].
      destruct (get_int s0) as [s1 a] eqn:A. destruct (get_int s1) as [s2 b] eqn:B. destruct (get_int s2) as [s3 c] eqn:D.
      injection H as _ <- _ _ _. eapply O. exact B.
    + destruct (beq m sPRTAM); [|discriminate]. destruct q2; [discriminate|].
      destruct (get_int s0) as [s1 a] eqn:A. destruct (get_int s1) as [s2 b] eqn:B. destruct (get_int s2) as [s3 c] eqn:D.
      injection H as _ <- _ _ _. eapply O. exact A.
Qed.

Theorem load_range : forall q2 t f, load_prt q2 t = P_ok f -> (0 <= pf_leafs f)%Z -> Forall (in_range (pf_leafs f)) (pf_portals f).
Proof.
  intros q2 t f H L. unfold load_prt in H.
  destruct (read_header q2 t) as [[[[[k l] r] n] s]| | | |] eqn:RH; try discriminate. cbn [pbind] in H.
  apply read_header_range in RH.
  destruct n as [n|]; [|discriminate].
  destruct (read_portals (Z.to_nat n) l s) as [[ps s1]| | | |] eqn:RP; try discriminate. cbn [pbind] in H.
  assert (PF : pf_leafs f = l /\ pf_portals f = ps).
  { destruct q2; [injection H as <-; auto|].
    destruct (l =? r)%Z.
    - destruct (identity_clusters l); try discriminate. cbn [pbind] in H. injection H as <-; auto.
    - destruct k; [discriminate| |].
      + destruct (succ_int r); try discriminate. cbn [pbind] in H. destruct (resize0 a); try discriminate. cbn [pbind] in H.
        destruct (read_clusters (Z.to_nat l) r 0 s1 a0); try discriminate. cbn [pbind] in H. injection H as <-; auto.
      + destruct (succ_int l); try discriminate. cbn [pbind] in H. destruct (resize0 a); try discriminate. cbn [pbind] in H.
        destruct (read_am (Z.to_nat r) l 0 s1 a0); try discriminate. cbn [pbind] in H. injection H as <-; auto. }
  destruct PF as [P1 P2]. rewrite P1, P2 in *. eapply read_portals_range; [|exact RP]. lia.
Qed.

(** The model's fuel is never the outcome. *)
Lemma drop_ws_length : forall s, length (drop_ws s) <= length s.
Proof. induction s as [|c s IH]; cbn [drop_ws]; [lia|]. destruct (isspace c); cbn [length]; lia. Qed.

Lemma take_digits_length : forall s d r, take_digits s = (d, r) -> length r + length d = length s.
Proof.
  induction s as [|c s IH]; intros d r H; cbn [take_digits] in H; [injection H as <- <-; reflexivity|].
  destruct (digit c).
  - destruct (take_digits s) as [d' r'] eqn:E. injection H as <- <-. cbn [length]. rewrite <- (IH _ _ eq_refl). lia.
  - injection H as <- <-. cbn [length]. lia.
Qed.

(** A number that was read without reaching the end shortens the text or sets failbit. *)
Lemma get_int_shrinks : forall s s' v, get_int s = (s', v) ->
  length (is_rest s') <= length (is_rest s) /\
  (v <> None -> is_fail s' = false -> length (is_rest s') < length (is_rest s)) /\
  (is_fail s = true -> v = None).
Proof.
  intros s s' v G. unfold get_int, sentry in G.
  destruct (is_eof s || is_fail s) eqn:EF.
  - cbn [negb] in G. injection G as <- <-. cbn [is_rest]. split; [lia|]. split; [congruence|auto].
  - apply orb_false_iff in EF. destruct EF as [_ EF].
    pose proof (drop_ws_length (is_rest s)) as DL.
    destruct (drop_ws (is_rest s)) as [|c r0] eqn:DW.
    + cbn [negb] in G. injection G as <- <-. cbn [is_rest length]. split; [lia|]. split; [congruence|congruence].
    + cbn [negb is_rest] in G.
      assert (SG : exists neg body, (if (c =? 45)%N then (true, r0) else if (c =? 43)%N then (false, r0) else (false, c :: r0)) = (neg, body) /\
                   length body <= S (length r0)).
      { destruct (c =? 45)%N; [|destruct (c =? 43)%N]; eexists; eexists; (split; [reflexivity|cbn [length]; lia]). }
      destruct SG as [neg [body [SG BL]]]. rewrite SG in G.
      destruct (take_digits body) as [d r] eqn:TD. apply take_digits_length in TD. cbn [length] in DL.
      destruct d as [|d0 d]; cbn [length] in TD.
      * injection G as <- <-. cbn [is_rest is_fail]. split; [lia|]. split; [discriminate|congruence].
      * destruct (_ >? INT_MAX)%Z; [|destruct (_ <? INT_MIN)%Z]; injection G as <- <-; cbn [is_rest is_fail];
          (split; [lia|]); (split; [intros; lia|congruence]).
Qed.

Lemma read_cluster_fuel : forall fuel real i s cl,
  length (is_rest s) + (if is_fail s then 0 else 1) < fuel -> read_cluster fuel real i s cl <> P_fuel.
Proof.
  induction fuel as [|fuel IH]; intros real i s cl F; [lia|]. cbn [read_cluster].
  destruct (get_int s) as [s1 v] eqn:G. destruct (get_int_shrinks _ _ _ G) as [L1 [L2 L3]].
  destruct (is_eof s1); [discriminate|]. destruct v as [v|]; [|discriminate].
  destruct (v <? 0)%Z; [discriminate|]. destruct (v >=? real)%Z; [discriminate|].
  unfold store. destruct (v + 1 <? 0)%Z; [discriminate|]. destruct (upd cl (Z.to_nat (v + 1)) i); [|discriminate].
  cbn [pbind]. apply IH. destruct (is_fail s) eqn:FS; [discriminate L3; reflexivity|].
  destruct (is_fail s1) eqn:FS1; [lia|]. specialize (L2 ltac:(discriminate) eq_refl). lia.
Qed.

Theorem load_no_fuel : forall q2 t, load_prt q2 t <> P_fuel.
Proof.
  intros q2 t. unfold load_prt.
  assert (H1 : forall n s, read_points n s <> P_fuel).
  { induction n as [|n IH]; intro s; cbn [read_points]; [discriminate|].
    unfold read_point, skip_past. destruct (is_eof s || is_fail s); [discriminate|].
    destruct (after 40 (is_rest s)); [|discriminate]. cbn [pbind].
    destruct (get_real _) as [s2 x]. destruct (get_real s2) as [s3 y]. destruct (get_real s3) as [s4 z].
    destruct (is_eof s4 || is_fail s4); [discriminate|]. destruct (after 41 (is_rest s4)) as [l0|]; [|discriminate]. cbn [pbind].
    destruct x; [|discriminate]. destruct y; [|discriminate]. destruct z; [|discriminate]. cbn [pbind].
    specialize (IH (mkIS l0 false false)). destruct (read_points n (mkIS l0 false false)) as [[? ?]| | | |]; cbn [pbind]; congruence. }
  assert (H2 : forall n l s, read_portals n l s <> P_fuel).
  { induction n as [|n IH]; intros l s; cbn [read_portals]; [discriminate|].
    assert (HP : read_portal l s <> P_fuel).
    { unfold read_portal. destruct (get_int s) as [s1 a]. destruct (get_int s1) as [s2 b]. destruct (get_int s2) as [s3 c].
      destruct a; [|discriminate]. destruct ((z <? 0)%Z || (z >? PRT_MAX_WINDING)%Z); [discriminate|].
      destruct b; [|discriminate]. destruct (_ >? _)%Z; [discriminate|]. destruct c; [|discriminate]. destruct (_ >? _)%Z; [discriminate|].
      specialize (H1 (Z.to_nat z) s3). destruct (read_points (Z.to_nat z) s3) as [[? ?]| | | |]; cbn [pbind]; congruence. }
    destruct (read_portal l s) as [[p s1]| | | |]; cbn [pbind]; try congruence.
    specialize (IH l s1). destruct (read_portals n l s1) as [[? ?]| | | |]; cbn [pbind]; congruence. }
  assert (H3 : forall n r i s cl, read_clusters n r i s cl <> P_fuel).
  { induction n as [|n IH]; intros r i s cl; cbn [read_clusters]; [discriminate|].
    pose proof (read_cluster_fuel (S (S (length (is_rest s)))) r i s cl ltac:(destruct (is_fail s); lia)) as F.
    destruct (read_cluster (S (S (length (is_rest s)))) r i s cl) as [[[? ?] e]| | | |]; cbn [pbind]; try congruence.
    destruct e; [discriminate|apply IH]. }
  assert (H4 : forall n l i s cl, read_am n l i s cl <> P_fuel).
  { induction n as [|n IH]; intros l i s cl; cbn [read_am]; [discriminate|].
    destruct (get_int s) as [s1 v]. destruct (is_eof s1); [discriminate|]. destruct v; [|discriminate].
    destruct (_ || _); [discriminate|]. unfold store. destruct (_ <? 0)%Z; [discriminate|].
    destruct (upd _ _ _); [|discriminate]. cbn [pbind]. apply IH. }
  assert (H5 : forall z, succ_int z <> P_fuel) by (intro z; unfold succ_int; destruct (_ =? _)%Z; discriminate).
  assert (H6 : forall z, resize0 z <> P_fuel) by (intro z; unfold resize0; destruct (_ <? _)%Z; discriminate).
  destruct (read_header q2 t) as [[[[[k l] r] n] s]| | | |] eqn:RH; cbn [pbind]; try discriminate.
  - destruct n as [n|]; [|discriminate].
    specialize (H2 (Z.to_nat n) l s). destruct (read_portals (Z.to_nat n) l s) as [[ps s1]| | | |]; cbn [pbind]; try congruence.
    destruct q2; [discriminate|]. destruct (l =? r)%Z.
    + unfold identity_clusters. pose proof (H5 l). destruct (succ_int l); cbn [pbind]; try congruence.
      pose proof (H6 a). destruct (resize0 a); cbn [pbind]; congruence.
    + destruct k; [discriminate| |].
      * pose proof (H5 r). destruct (succ_int r); cbn [pbind]; try congruence.
        pose proof (H6 a). destruct (resize0 a); cbn [pbind]; try congruence.
        pose proof (H3 (Z.to_nat l) r 0%Z s1 a0). destruct (read_clusters (Z.to_nat l) r 0 s1 a0); cbn [pbind]; congruence.
      * pose proof (H5 l). destruct (succ_int l); cbn [pbind]; try congruence.
        pose proof (H6 a). destruct (resize0 a); cbn [pbind]; try congruence.
        pose proof (H4 (Z.to_nat r) l 0%Z s1 a0). destruct (read_am (Z.to_nat r) l 0 s1 a0); cbn [pbind]; congruence.
  - unfold read_header in RH. destruct (getline t) as [m s0].
    destruct (beq m sPRT1); [destruct (get_int s0) as [s1 a]; destruct (get_int s1) as [s2 b]; discriminate|].
    destruct (beq m sPRT2); [destruct q2; [discriminate|]; destruct (get_int s0) as [s1 a]; destruct (get_int s1) as [s2 b]; destruct (get_int s2); discriminate|].
    destruct (beq m sPRTAM); [|discriminate]. destruct q2; [discriminate|].
    destruct (get_int s0) as [s1 a]; destruct (get_int s1) as [s2 b]; destruct (get_int s2); discriminate.
Qed.

(* ------------------------------------------------------------------------------------------- *)
(** ** The tables of vis *)

(** Source and destination of memory portal [i]: even ones run along the file's portal, odd ones
    against it. *)
Definition src_of (ps : list prt_portal) (i : nat) : Z :=
  match nth_error ps (i / 2) with Some p => if Nat.even i then pp_leaf0 p else pp_leaf1 p | None => (-1)%Z end.
Definition dst_of (ps : list prt_portal) (i : nat) : Z :=
  match nth_error ps (i / 2) with Some p => if Nat.even i then pp_leaf1 p else pp_leaf0 p | None => (-1)%Z end.

(** The portals leaving leaf [l]. *)
Definition leaving (ps : list prt_portal) (l : nat) : list nat :=
  filter (fun i => (src_of ps i =? Z.of_nat l)%Z) (seq 0 (2 * length ps)).

Definition table_ok (n : nat) (done : list prt_portal) (t : vtab) : Prop :=
  vt_dest t = map (dst_of done) (seq 0 (2 * length done)) /\ length (vt_leafs t) = n /\
  forall l, l < n -> nth_error (vt_leafs t) l = Some (leaving done l).

Lemma half_lemma : forall n i, i < 2 * n -> i / 2 < n.
Proof. intros n i H. apply Nat.div_lt_upper_bound; lia. Qed.

Lemma of_snoc : forall done p i, i < 2 * length done ->
  src_of (done ++ [p]) i = src_of done i /\ dst_of (done ++ [p]) i = dst_of done i.
Proof.
  intros done p i H. unfold src_of, dst_of. apply half_lemma in H. rewrite nth_error_app1 by exact H. auto.
Qed.

Lemma of_last : forall done p, 
  src_of (done ++ [p]) (2 * length done) = pp_leaf0 p /\ dst_of (done ++ [p]) (2 * length done) = pp_leaf1 p /\
  src_of (done ++ [p]) (S (2 * length done)) = pp_leaf1 p /\ dst_of (done ++ [p]) (S (2 * length done)) = pp_leaf0 p.
Proof.
  intros done p. unfold src_of, dst_of.
  replace (2 * length done) with (length done * 2) by lia.
  rewrite Nat.div_mul by lia.
  replace (S (length done * 2) / 2) with (length done).
  2: { replace (S (length done * 2)) with (1 + length done * 2) by lia. rewrite Nat.div_add by lia. reflexivity. }
  rewrite nth_error_app2 by lia. rewrite Nat.sub_diag. cbn [nth_error].
  rewrite Nat.even_succ. replace (length done * 2) with (2 * length done) by lia.
  rewrite Nat.even_mul. cbn [Nat.even orb]. rewrite Nat.odd_mul. cbn [Nat.odd Nat.even negb andb]. auto.
Qed.

Lemma seq_snoc2 : forall n, seq 0 (2 * S n) = seq 0 (2 * n) ++ [2 * n; S (2 * n)].
Proof.
  intro n. replace (2 * S n) with (2 * n + 2) by lia. rewrite seq_app. cbn [Nat.add seq]. reflexivity.
Qed.

Lemma filter_ext_lt : forall A (f g : A -> bool) l, (forall x, In x l -> f x = g x) -> filter f l = filter g l.
Proof. induction l as [|a l IH]; intro H; cbn [filter]; [reflexivity|]. rewrite (H a (or_introl eq_refl)), IH by (intros; apply H; right; assumption). reflexivity. Qed.

Lemma leaving_snoc : forall done p l, leaving (done ++ [p]) l =
  leaving done l ++ (if (pp_leaf0 p =? Z.of_nat l)%Z then [2 * length done] else []) ++
  (if (pp_leaf1 p =? Z.of_nat l)%Z then [S (2 * length done)] else []).
Proof.
  intros done p l. unfold leaving. rewrite app_length. cbn [length]. replace (length done + 1) with (S (length done)) by lia.
  rewrite seq_snoc2, filter_app. f_equal.
  - apply filter_ext_lt. intros i I. apply in_seq in I. destruct (of_snoc done p i ltac:(lia)) as [E _]. rewrite E. reflexivity.
  - cbn [filter]. destruct (of_last done p) as [E1 [_ [E2 _]]]. rewrite E1, E2.
    destruct (pp_leaf0 p =? Z.of_nat l)%Z; destruct (pp_leaf1 p =? Z.of_nat l)%Z; reflexivity.
Qed.

Lemma push_leaf_ok : forall (L : list (list nat)) z p, (0 <= z < Z.of_nat (length L))%Z ->
  exists L', push_leaf L z p = P_ok L' /\ length L' = length L /\
  forall l, nth_error L' l = if (z =? Z.of_nat l)%Z then match nth_error L l with Some x => Some (x ++ [p]) | None => None end else nth_error L l.
Proof.
  intros L z p H. unfold push_leaf. replace (z <? 0)%Z with false by (symmetry; apply Z.ltb_ge; lia).
  destruct (upd_some _ L (Z.to_nat z) (nth (Z.to_nat z) L [] ++ [p])) as [L' E]; [lia|]. rewrite E.
  exists L'. split; [reflexivity|]. split; [exact (upd_length _ _ _ _ _ E)|]. intro l.
  rewrite (upd_nth_error _ _ _ _ _ l E). destruct (z =? Z.of_nat l)%Z eqn:Q.
  - apply Z.eqb_eq in Q. subst z. rewrite Nat2Z.id, Nat.eqb_refl. 
    rewrite (nth_error_nth' L []) by lia. reflexivity.
  - apply Z.eqb_neq in Q. replace (l =? Z.to_nat z) with false by (symmetry; apply Nat.eqb_neq; lia). reflexivity.
Qed.

Definition strict (n : nat) (p : prt_portal) : Prop :=
  (0 <= pp_leaf0 p < Z.of_nat n)%Z /\ (0 <= pp_leaf1 p < Z.of_nat n)%Z.

Lemma pair_portals_spec : forall ps n done t, Forall (strict n) ps -> table_ok n done t ->
  exists t', pair_portals ps t = P_ok t' /\ table_ok n (done ++ ps) t'.
Proof.
  induction ps as [|p ps IH]; intros n done t F [T1 [T2 T3]].
  - exists t. rewrite app_nil_r. split; [reflexivity|]. split; [exact T1|]. split; [exact T2|exact T3].
  - inversion F as [|? ? [P0 P1] F']. subst. cbn [pair_portals].
    assert (LD : length (vt_dest t) = 2 * length done) by (rewrite T1, map_length, seq_length; reflexivity).
    rewrite LD.
    destruct (push_leaf_ok (vt_leafs t) (pp_leaf0 p) (2 * length done) P0) as [L1 [E1 [N1 H1]]].
    rewrite E1. cbn [pbind].
    destruct (push_leaf_ok L1 (pp_leaf1 p) (S (2 * length done)) ltac:(rewrite N1; exact P1)) as [L2 [E2 [N2 H2]]].
    rewrite E2. cbn [pbind].
    destruct (IH (length (vt_leafs t)) (done ++ [p]) (mkVT L2 (vt_dest t ++ [pp_leaf1 p; pp_leaf0 p])) F') as [t' [ET TT]].
    + split; [|split].
      * cbn [vt_dest]. rewrite app_length. cbn [length]. replace (length done + 1) with (S (length done)) by lia.
        rewrite seq_snoc2, map_app. rewrite T1. f_equal.
        -- apply map_ext_in. intros i I. apply in_seq in I. symmetry. apply of_snoc. lia.
        -- cbn [map]. destruct (of_last done p) as [_ [D1 [_ D2]]]. rewrite D1, D2. reflexivity.
      * cbn [vt_leafs]. congruence.
      * cbn [vt_leafs]. intros l LL. rewrite leaving_snoc. rewrite H2, H1, (T3 l LL).
        destruct (pp_leaf0 p =? Z.of_nat l)%Z; destruct (pp_leaf1 p =? Z.of_nat l)%Z; cbn [app]; rewrite ?app_nil_r, <- ?app_assoc; reflexivity.
    + exists t'. split; [exact ET|]. rewrite <- app_assoc in TT. exact TT.
Qed.

Theorem load_portals_spec : forall q2 f nd n, pf_leafs f = Z.of_nat n -> Forall (strict n) (pf_portals f) ->
  (q2 = true \/ length (pf_clusters f) <= nd) ->
  exists t cl, load_portals q2 f nd = P_ok (t, cl) /\
  vt_dest t = map (dst_of (pf_portals f)) (seq 0 (2 * length (pf_portals f))) /\ length (vt_leafs t) = n /\
  (forall l, l < n -> nth_error (vt_leafs t) l = Some (leaving (pf_portals f) l)) /\
  cl = (if q2 then [] else tl (pf_clusters f)).
Proof.
  intros q2 f nd n N F B. unfold load_portals. rewrite N.
  replace (Z.of_nat n <? 0)%Z with false by (symmetry; apply Z.ltb_ge; lia). rewrite Nat2Z.id.
  destruct (pair_portals_spec (pf_portals f) n [] (mkVT (repeat [] n) []) F) as [t [E [T1 [T2 T3]]]].
  { split; [reflexivity|]. split; [apply repeat_length|]. intros l L. cbn [vt_leafs].
    rewrite (nth_error_nth' _ []) by (rewrite repeat_length; exact L). rewrite nth_repeat. reflexivity. }
  rewrite E. cbn [pbind app] in *. destruct q2.
  - eexists. eexists. split; [reflexivity|]. auto.
  - destruct B as [B|B]; [discriminate|]. replace (nd <? length (pf_clusters f)) with false by (symmetry; apply Nat.ltb_ge; exact B).
    cbn [andb]. eexists. eexists. split; [reflexivity|]. auto.
Qed.
