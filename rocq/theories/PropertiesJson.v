(* C158: raw data in the JSON file of bspinfo. *)
From Coq Require Import String List Arith NArith ZArith Bool Lia.
Import ListNotations.
From Verif Require Import JsonModel.
Local Open Scope N_scope.
Local Notation length := List.length.

(** The value of a digit of hexadecimal text *)
Definition undigit (c : N) : N := if c <? 97 then c - 48 else c - 97 + 10.
Lemma undigit_digit : forall d, d < 16 -> undigit (digit d) = d.
Proof.
  intros d L. unfold digit. destruct (N.ltb_spec d 10); unfold undigit; [destruct (N.ltb_spec (48 + d) 97); lia|destruct (N.ltb_spec (97 + (d - 10)) 97); lia].
Qed.
Fixpoint pairs (t : list N) : list N := match t with a :: b :: r => undigit a * 16 + undigit b :: pairs r | _ => [] end.
(** Text of bytes from 16 on can be read back, two digits for each. *)
Theorem C158_hex_partial : forall bytes, Forall (fun b => 16 <= b < 256) bytes -> pairs (hex_string bytes) = bytes /\ length (hex_string bytes) = (2 * length bytes)%nat.
Proof.
  induction 1 as [|b l (B1 & B2) F (IH1 & IH2)]; [split; reflexivity|]. unfold hex_string in *. cbn [flat_map]. unfold hex1 at 1 3. destruct (N.ltb_spec b 16); [lia|]. cbn [app pairs length]. rewrite IH1, IH2.
  assert (D : b / 16 < 16) by (apply N.div_lt_upper_bound; lia). assert (M : b mod 16 < 16) by (apply N.mod_lt; discriminate). rewrite !undigit_digit by assumption. split; [|lia]. f_equal. pose proof (N.div_mod b 16 ltac:(discriminate)). lia.
Qed.
Print Assumptions C158_hex_partial.
(** Bytes below 16 get one digit only: different data of visibility and light have the same text, for example whenever one
    byte from 16 on is followed by one below. *)
Theorem C158_hex_refuted : forall pre post a b c, 0 < a < 16 -> b < 16 -> c < 16 ->
  let x := pre ++ [a * 16 + b; c] ++ post in let y := pre ++ [a; b * 16 + c] ++ post in
  0 < b -> x <> y /\ lightdata x = lightdata y /\ lightdata x <> None /\ visdata [] x = visdata [] y.
Proof.
  intros pre post a b c A B C x y B0.
  assert (E : hex_string x = hex_string y).
  { unfold x, y, hex_string. rewrite !flat_map_app. f_equal. f_equal. cbn [flat_map app]. unfold hex1.
    destruct (N.ltb_spec (a * 16 + b) 16); [lia|]. destruct (N.ltb_spec c 16); [|lia]. destruct (N.ltb_spec a 16); [|lia]. destruct (N.ltb_spec (b * 16 + c) 16); [lia|].
    rewrite !N.div_add_l by discriminate. rewrite !(N.div_small _ 16) by assumption. rewrite !(N.add_comm (_ * 16)). rewrite !N.mod_add by discriminate. rewrite !(N.mod_small _ 16) by assumption. rewrite ?N.add_0_l, ?N.add_0_r. reflexivity. }
  assert (NX : forall z w, pre ++ [z; w] ++ post <> []) by (intros z w H; apply app_eq_nil in H; destruct H as (_ & H); discriminate H).
  split; [|split; [|split]].
  - unfold x, y. intros H. apply app_inv_head in H. cbn [app] in H. injection H as H _. lia.
  - unfold lightdata. destruct x as [|x0 x1] eqn:EX; [exfalso; apply (NX _ _ EX)|]. destruct y as [|y0 y1] eqn:EY; [exfalso; apply (NX _ _ EY)|]. rewrite E. reflexivity.
  - unfold lightdata. destruct x as [|x0 x1] eqn:EX; [exfalso; apply (NX _ _ EX)|discriminate].
  - unfold visdata. destruct x as [|x0 x1] eqn:EX; [exfalso; apply (NX _ _ EX)|]. destruct y as [|y0 y1] eqn:EY; [exfalso; apply (NX _ _ EY)|]. rewrite E. reflexivity.
Qed.
Print Assumptions C158_hex_refuted.

(** The offsets of both kinds of visibility are in one array, by turns; there is no array of its own for hearing. *)
Definition by_turns (l : list (Z * Z)) : list json := flat_map (fun p => [JNum (fst p); JNum (snd p)]) l.
Lemma push_all : forall l a, fold_left (fun o p => push "pvs" (JNum (snd p)) (push "pvs" (JNum (fst p)) o)) l [("pvs"%string, JArr a)] = [("pvs"%string, JArr (a ++ by_turns l))].
Proof.
  induction l as [|p l IH]; intros a; [rewrite app_nil_r; reflexivity|]. cbn [fold_left push]. change (String.eqb "pvs" "pvs") with true. cbn beta iota. cbn [push]. change (String.eqb "pvs" "pvs") with true. cbn beta iota. rewrite IH. unfold by_turns. cbn [flat_map]. rewrite <- !app_assoc. reflexivity.
Qed.
Theorem C158_offsets : forall p offsets bits, bits <> [] -> visdata (p :: offsets) bits = Some (JObj [("pvs"%string, JArr (by_turns (p :: offsets))); ("bits"%string, JText (hex_string bits))]).
Proof. intros p offsets bits N. unfold visdata. destruct bits; [congruence|]. cbv zeta. change (emplace "pvs" (JArr []) (emplace "pvs" (JArr []) [])) with [("pvs"%string, JArr [])]. rewrite push_all. reflexivity. Qed.
Print Assumptions C158_offsets.
Theorem C158_phs_refuted : forall offsets bits o, visdata offsets bits = Some (JObj o) -> field "phs" o = None /\ field "pvs" o <> Some (JArr (map (fun p => JNum (fst p)) offsets)).
Proof.
  intros [|p offsets] bits o H; [unfold visdata in H; destruct bits; discriminate H|]. destruct bits as [|b bits]; [discriminate H|]. rewrite C158_offsets in H by discriminate. injection H as <-. split; [reflexivity|].
  cbn [field]. change (String.eqb "pvs" "pvs") with true. cbn beta iota. intros E. injection E as E. apply (f_equal (@List.length json)) in E. cbn [length map app] in E. rewrite map_length in E.
  assert (L : forall l, length (flat_map (fun p : Z * Z => [JNum (fst p); JNum (snd p)]) l) = (2 * length l)%nat) by (induction l as [|q l IH]; cbn [flat_map length app]; lia). rewrite L in E. lia.
Qed.
Print Assumptions C158_phs_refuted.

Example C158_nontrivial :
  hex_string [18; 52; 255; 171] = [49; 50; 51; 52; 102; 102; 97; 98] /\ hex_string [1; 35] = hex_string [18; 3] /\
  visdata [(8, 20); (9, 21)]%Z [255] = Some (JObj [("pvs"%string, JArr [JNum 8; JNum 20; JNum 9; JNum 21]); ("bits"%string, JText [102; 102])]) /\ visdata [] [16] = Some (JText [49; 48]) /\ visdata [(1, 2)]%Z [] = None.
Proof. repeat split; vm_compute; reflexivity. Qed.
