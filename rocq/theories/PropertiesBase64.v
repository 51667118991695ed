(* C157: the text of images in JSON files. *)
From Coq Require Import List Arith NArith Bool Lia.
Import ListNotations.
From Verif Require Import Base64Model.
Local Open Scope N_scope.

(** ** Reading base64 text, after RFC 4648: four characters are 24 bits, the first ones the highest *)
Definition value (c : N) : option N :=
  if (65 <=? c) && (c <=? 90) then Some (c - 65) else if (97 <=? c) && (c <=? 122) then Some (c - 97 + 26)
  else if (48 <=? c) && (c <=? 57) then Some (c - 48 + 52) else if c =? 43 then Some 62 else if c =? 47 then Some 63 else None.
Fixpoint decode (t : list N) : option (list N) :=
  match t with
  | [] => Some []
  | c0 :: c1 :: c2 :: c3 :: r =>
    match value c0, value c1 with
    | Some v0, Some v1 =>
      if c2 =? 61 then (if (c3 =? 61) && (match r with [] => true | _ => false end) && (v1 mod 16 =? 0) then Some [v0 * 4 + v1 / 16] else None)
      else match value c2 with
           | None => None
           | Some v2 =>
             if c3 =? 61 then (if (match r with [] => true | _ => false end) && (v2 mod 4 =? 0) then Some [v0 * 4 + v1 / 16; v1 mod 16 * 16 + v2 / 4] else None)
             else match value c3, decode r with
                  | Some v3, Some d => Some (v0 * 4 + v1 / 16 :: v1 mod 16 * 16 + v2 / 4 :: v2 mod 4 * 64 + v3 :: d)
                  | _, _ => None
                  end
           end
    | _, _ => None
    end
  | _ => None
  end.

Lemma below : forall (P : N -> bool) n, forallb P (map N.of_nat (seq 0 n)) = true -> forall a, a < N.of_nat n -> P a = true.
Proof. intros P n H a L. rewrite forallb_forall in H. apply H. apply in_map_iff. exists (N.to_nat a). split; [apply N2Nat.id|]. apply in_seq. lia. Qed.
Lemma table_value : forall i, i < 64 -> exists c, table i = Some c /\ value c = Some i /\ c =? 61 = false.
Proof.
  intros i L. assert (H := below (fun i => match table i with Some c => match value c with Some j => (j =? i) && negb (c =? 61) | None => false end | None => false end) 64 eq_refl i L). cbn beta in H.
  destruct (table i) as [c|]; [|discriminate H]. exists c. destruct (value c) as [j|]; [|discriminate H]. apply andb_true_iff in H. destruct H as (H1 & H2). apply N.eqb_eq in H1. subst j. apply negb_true_iff in H2. split; [reflexivity|]. split; [reflexivity|exact H2].
Qed.
(** The bit operations as arithmetic *)
Lemma i0 : forall a, a < 256 -> N.land (N.shiftr a 2) 63 = a / 4.
Proof. intros a L. apply N.eqb_eq. apply (below (fun a => N.land (N.shiftr a 2) 63 =? a / 4) 256 eq_refl a L). Qed.
Lemma i1 : forall a b, a < 256 -> b < 256 -> N.lor (N.shiftl (N.land a 3) 4) (N.shiftr (N.land b 240) 4) = a mod 4 * 16 + b / 16.
Proof.
  intros a b A B.
  assert (E1 : N.land a 3 = a mod 4) by (change 3 with (N.ones 2); apply N.land_ones).
  assert (E2 : N.shiftr (N.land b 240) 4 = b / 16) by (apply N.eqb_eq; apply (below (fun b => N.shiftr (N.land b 240) 4 =? b / 16) 256 eq_refl b B)).
  rewrite E1, E2. assert (M : a mod 4 < 4) by (apply N.mod_lt; discriminate). assert (D : b / 16 < 16) by (apply N.div_lt_upper_bound; [discriminate|exact B]).
  apply N.eqb_eq. revert D. generalize (b / 16). apply (below (fun x => forallb (fun y => implb (y <? 16) (N.lor (N.shiftl x 4) y =? x * 16 + y)) (map N.of_nat (seq 0 16))) 4 eq_refl) in M.
  intros y D. rewrite forallb_forall in M. specialize (M y). apply N.ltb_lt in D. assert (D2 := D). apply N.ltb_lt in D2. rewrite D in M. apply M. apply in_map_iff. exists (N.to_nat y). split; [apply N2Nat.id|]. apply in_seq. lia.
Qed.
Lemma i1e : forall a, a < 256 -> N.shiftl (N.land a 3) 4 = a mod 4 * 16.
Proof. intros a L. apply N.eqb_eq. apply (below (fun a => N.shiftl (N.land a 3) 4 =? a mod 4 * 16) 256 eq_refl a L). Qed.
Lemma i2 : forall a b, a < 256 -> b < 256 -> N.lor (N.shiftl (N.land a 15) 2) (N.shiftr (N.land b 192) 6) = a mod 16 * 4 + b / 64.
Proof.
  intros a b A B.
  assert (E1 : N.land a 15 = a mod 16) by (change 15 with (N.ones 4); apply N.land_ones).
  assert (E2 : N.shiftr (N.land b 192) 6 = b / 64) by (apply N.eqb_eq; apply (below (fun b => N.shiftr (N.land b 192) 6 =? b / 64) 256 eq_refl b B)).
  rewrite E1, E2. assert (M : a mod 16 < 16) by (apply N.mod_lt; discriminate). assert (D : b / 64 < 4) by (apply N.div_lt_upper_bound; [discriminate|exact B]).
  apply N.eqb_eq. revert D. generalize (b / 64). apply (below (fun x => forallb (fun y => implb (y <? 4) (N.lor (N.shiftl x 2) y =? x * 4 + y)) (map N.of_nat (seq 0 4))) 16 eq_refl) in M.
  intros y D. rewrite forallb_forall in M. specialize (M y). apply N.ltb_lt in D. assert (D2 := D). apply N.ltb_lt in D2. rewrite D in M. apply M. apply in_map_iff. exists (N.to_nat y). split; [apply N2Nat.id|]. apply in_seq. lia.
Qed.
Lemma i2e : forall a, a < 256 -> N.shiftl (N.land a 15) 2 = a mod 16 * 4.
Proof. intros a L. apply N.eqb_eq. apply (below (fun a => N.shiftl (N.land a 15) 2 =? a mod 16 * 4) 256 eq_refl a L). Qed.
Lemma i3 : forall a, N.land a 63 = a mod 64. Proof. intros a. change 63 with (N.ones 6). apply N.land_ones. Qed.

Ltac dm a m := let H1 := fresh in let H2 := fresh in assert (H1 := N.div_mod a m ltac:(discriminate)); assert (H2 := N.mod_lt a m ltac:(discriminate)).
Lemma split16 : forall x y, y < 16 -> (x * 16 + y) / 16 = x /\ (x * 16 + y) mod 16 = y.
Proof. intros x y L. split; [rewrite N.div_add_l by discriminate; rewrite N.div_small by exact L; lia|rewrite N.add_comm, N.mod_add by discriminate; apply N.mod_small; exact L]. Qed.
Lemma split4 : forall x y, y < 4 -> (x * 4 + y) / 4 = x /\ (x * 4 + y) mod 4 = y.
Proof. intros x y L. split; [rewrite N.div_add_l by discriminate; rewrite N.div_small by exact L; lia|rewrite N.add_comm, N.mod_add by discriminate; apply N.mod_small; exact L]. Qed.

(** Every list of bytes is read back from its text, whose length is a multiple of four and which has only the characters
    of the table and at most two "=" at the end. *)
Theorem C157_base64 : forall data, Forall (fun b => b < 256) data -> exists t, encode data = Some t /\ decode t = Some data /\ (length t = 4 * ((length data + 2) / 3))%nat.
Proof.
  assert (K : forall n data, (length data <= n)%nat -> Forall (fun b => b < 256) data -> exists t, encode data = Some t /\ decode t = Some data /\ (length t = 4 * ((length data + 2) / 3))%nat).
  { induction n as [|n IH]; intros data L F.
    - destruct data; [|cbn in L; lia]. exists []. repeat split.
    - destruct data as [|a [|b [|c t]]]; [exists []; repeat split| | |]; inversion F as [|? ? A F2]; subst.
      + assert (A4 : a / 4 < 64) by (apply N.div_lt_upper_bound; [discriminate|exact A]). assert (AM : a mod 4 < 4) by (apply N.mod_lt; discriminate).
        destruct (table_value (a / 4) A4) as (c0 & T0 & V0 & P0). destruct (table_value (a mod 4 * 16) ltac:(lia)) as (c1 & T1 & V1 & P1).
        cbn [encode]. unfold q0, q1_end. rewrite i0, i1e by exact A. rewrite T0, T1. cbn [out fold_right]. eexists. split; [reflexivity|]. split; [|reflexivity].
        cbn [decode]. rewrite V0, V1. unfold pad. change (61 =? 61) with true. destruct (split16 (a mod 4) 0 ltac:(lia)) as (S1 & S2). rewrite N.add_0_r in S1, S2. rewrite S1, S2. cbn [andb]. change (0 =? 0) with true. cbn beta iota.
        f_equal. f_equal. dm a 4. lia.
      + inversion F2 as [|? ? B F3]. subst.
        assert (A4 : a / 4 < 64) by (apply N.div_lt_upper_bound; [discriminate|exact A]). assert (AM : a mod 4 < 4) by (apply N.mod_lt; discriminate). assert (B16 : b / 16 < 16) by (apply N.div_lt_upper_bound; [discriminate|exact B]). assert (BM : b mod 16 < 16) by (apply N.mod_lt; discriminate).
        destruct (table_value (a / 4) A4) as (c0 & T0 & V0 & P0). destruct (table_value (a mod 4 * 16 + b / 16) ltac:(lia)) as (c1 & T1 & V1 & P1). destruct (table_value (b mod 16 * 4) ltac:(lia)) as (c2 & T2 & V2 & P2).
        cbn [encode]. unfold q0, q1, q2_end. rewrite i0, i1, i2e by assumption. rewrite T0, T1, T2. cbn [out fold_right]. eexists. split; [reflexivity|]. split; [|reflexivity].
        cbn [decode]. rewrite V0, V1, P2, V2. unfold pad. change (61 =? 61) with true. destruct (split16 (a mod 4) (b / 16) B16) as (S1 & S2). rewrite S1, S2. destruct (split4 (b mod 16) 0 ltac:(lia)) as (S3 & S4). rewrite N.add_0_r in S3, S4. rewrite S3, S4. cbn [andb]. change (0 =? 0) with true. cbn beta iota.
        f_equal. f_equal; [dm a 4; lia|]. f_equal. dm b 16. lia.
      + inversion F2 as [|? ? B F3]. subst. inversion F3 as [|? ? C F4]. subst. cbn [length] in L.
        destruct (IH t ltac:(lia) F4) as (r & E & D & LN).
        assert (A4 : a / 4 < 64) by (apply N.div_lt_upper_bound; [discriminate|exact A]). assert (AM : a mod 4 < 4) by (apply N.mod_lt; discriminate). assert (B16 : b / 16 < 16) by (apply N.div_lt_upper_bound; [discriminate|exact B]). assert (BM : b mod 16 < 16) by (apply N.mod_lt; discriminate).
        assert (C64 : c / 64 < 4) by (apply N.div_lt_upper_bound; [discriminate|exact C]). assert (CM : c mod 64 < 64) by (apply N.mod_lt; discriminate).
        destruct (table_value (a / 4) A4) as (c0 & T0 & V0 & P0). destruct (table_value (a mod 4 * 16 + b / 16) ltac:(lia)) as (c1 & T1 & V1 & P1). destruct (table_value (b mod 16 * 4 + c / 64) ltac:(lia)) as (c2 & T2 & V2 & P2). destruct (table_value (c mod 64) CM) as (c3 & T3 & V3 & P3).
        cbn [encode]. unfold q0, q1, q2, q3. rewrite i0, i1, i2, i3 by assumption. rewrite T0, T1, T2, T3. cbn [out fold_right]. rewrite E. eexists. split; [reflexivity|]. split.
        * cbn [app decode]. rewrite V0, V1, P2, V2, P3, V3, D. destruct (split16 (a mod 4) (b / 16) B16) as (S1 & S2). rewrite S1, S2. destruct (split4 (b mod 16) (c / 64) C64) as (S3 & S4). rewrite S3, S4.
          f_equal. f_equal; [dm a 4; lia|]. f_equal; [dm b 16; lia|]. f_equal. dm c 64. lia.
        * cbn [app length]. rewrite LN. replace (S (S (S (length t))) + 2)%nat with (length t + 2 + 1 * 3)%nat by lia. rewrite Nat.div_add by discriminate. lia. }
  intros data. apply (K (length data)). lia.
Qed.
Print Assumptions C157_base64.
Lemma value_table : forall i c, table i = Some c -> value c = Some i.
Proof. intros i c H. destruct (N.lt_ge_cases i 64) as [L|L]; [destruct (table_value i L) as (d & T & V & _); congruence|]. unfold table in H. destruct (N.ltb_spec i 26); [lia|]. destruct (N.ltb_spec i 52); [lia|]. destruct (N.ltb_spec i 62); [lia|]. destruct (N.eqb_spec i 62); [lia|]. destruct (N.eqb_spec i 63); [lia|]. discriminate H. Qed.
(** No two images have the same text. *)
Theorem C157_distinct : forall a b, Forall (fun x => x < 256) a -> Forall (fun x => x < 256) b -> encode a = encode b -> a = b.
Proof.
  intros a b A B E. destruct (C157_base64 a A) as (t & Ea & Da & _). destruct (C157_base64 b B) as (u & Eb & Db & _). rewrite Ea, Eb in E. injection E as <-. rewrite Da in Db. injection Db as <-. reflexivity.
Qed.
Print Assumptions C157_distinct.

Example C157_nontrivial :
  encode [77; 97; 110; 63; 255] = Some [84; 87; 70; 117; 80; 47; 56; 61] /\ decode [84; 87; 70; 117; 80; 47; 56; 61] = Some [77; 97; 110; 63; 255] /\
  encode [77] = Some [84; 81; 61; 61] /\ encode [] = Some [] /\ decode [84; 82; 61; 61] = None /\ decode [84; 81; 61] = None.
Proof. repeat split; vm_compute; reflexivity. Qed.
