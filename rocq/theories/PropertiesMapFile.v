(* Statements: .map files read and written by maputil (C108). *)
From Coq Require Import List Arith NArith Bool Lia.
Import ListNotations.
From Verif Require Import Base ParserModel ParserProofs EntModel EntProofs MapFileModel MapFileProofs.
Local Open Scope N_scope.

(** No side has a projection with the comment //TX1 or //TX2. *)
Definition no_etp {num int} (es : list (@ment num int)) : Prop :=
  forall e b s, In e es -> In b (me_brushes e) -> In s (br_sides b) -> match sd_raw s with TEtp _ _ => False | _ => True end.

Lemma readback_id : forall {num int} (es : list (@ment num int)), no_etp es -> map readback_ent es = es.
Proof.
  intros num int es H. rewrite <- (map_id es) at 2. apply map_ext_in. intros e I. unfold readback_ent. destruct e as [d bs]. cbn [me_pairs me_brushes]. f_equal.
  rewrite <- (map_id bs) at 2. apply map_ext_in. intros b J. unfold readback_brush. destruct b as [bp ss]. cbn [br_bp br_sides]. f_equal.
  rewrite <- (map_id ss) at 2. apply map_ext_in. intros s K. specialize (H _ _ _ I J K). unfold readback. destruct s as [p t r x]. cbn [sd_raw sd_pts sd_tex sd_ext] in *. destruct r; [reflexivity|reflexivity|contradiction].
Qed.

(** A map whose parts can be printed (numbers and names are words that std::stod, std::stoi and the parser read back,
    keys and values can be quoted, no side would be dropped) comes back exactly as it was, whatever the reading and
    printing of numbers. *)
Theorem C108_round_trip : forall {num int} (stod : bytes -> option num) (stoi : bytes -> option int) fmt fmti keep dec,
  stod [91] = None -> (forall n, ~ In 10 (dec n) /\ ~ In 0 (dec n)) ->
  forall es, Forall (usable_ment stod stoi fmt fmti keep) es -> no_etp es ->
  exists t p, map_text fmt fmti dec 0 es = Some t /\ map_parse stod stoi keep t = M_ok es p.
Proof.
  intros num int stod stoi fmt fmti keep dec H1 H2 es U NE. destruct (map_round_trip stod stoi fmt fmti keep dec H1 H2 es U) as (t & p & E & P). exists t, p. split; [exact E|].
  rewrite readback_id in P by exact NE. exact P.
Qed.
Print Assumptions C108_round_trip.

(** Reading ends for every text, and leaves the text only through a key that is empty or blank, so never without a
    quote in the text. *)
Theorem C108_ends : forall {num int} (stod : bytes -> option num) (stoi : bytes -> option int) keep t,
  map_parse stod stoi keep t <> M_fuel /\ (~ In 34 t -> map_parse stod stoi keep t <> M_UB).
Proof. intros. apply map_parse_ends. Qed.
Print Assumptions C108_ends.

(** A side with the comment //TX1 or //TX2 does not come back: the comment is printed directly behind the last number,
    which std::stod reads without it. *)
Theorem C108_etp_refuted : forall {num int} (stod : bytes -> option num) (stoi : bytes -> option int) fmt fmti keep dec,
  stod [91] = None -> (forall n, ~ In 10 (dec n) /\ ~ In 0 (dec n)) ->
  forall es, Forall (usable_ment stod stoi fmt fmti keep) es -> ~ no_etp es ->
  exists t p es2, map_text fmt fmti dec 0 es = Some t /\ map_parse stod stoi keep t = M_ok es2 p /\ no_etp es2 /\ es2 <> es.
Proof.
  intros num int stod stoi fmt fmti keep dec H1 H2 es U NE. destruct (map_round_trip stod stoi fmt fmti keep dec H1 H2 es U) as (t & p & E & P). exists t, p, (map readback_ent es).
  assert (N2 : no_etp (map readback_ent es)).
  { intros e b s I J K. apply in_map_iff in I. destruct I as (e0 & <- & _). cbn [readback_ent me_brushes] in J. apply in_map_iff in J. destruct J as (b0 & <- & _).
    cbn [readback_brush br_sides] in K. apply in_map_iff in K. destruct K as (s0 & <- & _). cbn. destruct (sd_raw s0); exact I. }
  split; [exact E|]. split; [exact P|]. split; [exact N2|]. intro X. apply NE. rewrite <- X. exact N2.
Qed.
Print Assumptions C108_etp_refuted.

(** Brush primitives: no brush with a side is ever read or written. *)
Theorem C108_primitives_refuted : forall {num int} (stod : bytes -> option num) (stoi : bytes -> option int) keep fuel bs p x q,
  parse_brush stod stoi keep fuel bs p = M_ok x q -> x = bs \/ exists sides, x = bs ++ [mkBrush false sides].
Proof.
  intros num int stod stoi keep fuel bs p x q H. unfold parse_brush in H. destruct (mtok PARSE_PEEK p) as [b p1| | |]; cbn [mbind] in H; try discriminate.
  destruct (negb b); [discriminate|]. match type of H with mbind ?r _ = _ => destruct r as [bp p2| | |] end; cbn [mbind] in H; try discriminate.
  destruct bp.
  - assert (G : forall s p3, faces_loop stod stoi keep fuel true [] p2 = M_ok s p3 -> s = []).
    { intros s p3 E. destruct fuel as [|fuel]; [discriminate|]. cbn [faces_loop] in E. destruct (mtok PARSE_NORMAL p2) as [c p4| | |]; cbn [mbind] in E; try discriminate.
      destruct (negb c); [injection E as <- _; reflexivity|]. destruct (beq (ps_token p4) [125]); [injection E as <- _; reflexivity|discriminate]. }
    destruct (faces_loop stod stoi keep fuel true [] p2) as [s p3| | |]; cbn [mbind] in H; try discriminate. rewrite (G s p3 eq_refl) in H.
    match type of H with mbind ?r _ = _ => destruct r as [u p5| | |] end; cbn [mbind] in H; try discriminate. injection H as <- _. left. reflexivity.
  - destruct (faces_loop stod stoi keep fuel false [] p2) as [s p3| | |]; cbn [mbind] in H; try discriminate. destruct s as [|s1 s]; injection H as <- _; [left; reflexivity|right; eexists; reflexivity].
Qed.
Print Assumptions C108_primitives_refuted.

(** Concrete readers: numbers are digits, what follows them is ignored as std::stod does. *)
Definition digit_in (w : bytes) : option N := match w with c :: _ => if (48 <=? c) && (c <=? 57) then Some (c - 48) else None | [] => None end.
Definition digit_out (x : N) : bytes := [48 + x].
Definition dec1 (n : nat) : bytes := [48 + N.of_nat n].
Definition parse1 := map_parse digit_in digit_in (fun _ _ => true).
Definition text1 := map_text digit_out digit_out dec1 0.
Definition reads_as (t : bytes) (es : list (@ment N N)) : Prop := exists p, parse1 t = M_ok es p.
Ltac run := eexists; vm_compute; reflexivity.

Definition pts1 : list N := [0; 1; 2; 3; 4; 5; 6; 7; 8].
Definition wall : bytes := [119; 97; 108; 108].
Definition side1 (tex : bytes) (raw : texdef) (ext : option extinfo) : @side N N := mkSide pts1 tex raw ext.
Definition map1 (s : list side) : list (@ment N N) := [mkEnt [([107], [118])] [mkBrush false s]; mkEnt [] []].
Definition quake1 := TQuake [1; 2; 3; 4; 5].
(** ( 0 1 2 ) ( 3 4 5 ) ( 6 7 8 ) and the texture name [tex] in the text. *)
Definition line1 (tex tail : bytes) : bytes :=
  [40;32;48;32;49;32;50;32;41;32;40;32;51;32;52;32;53;32;41;32;40;32;54;32;55;32;56;32;41;32] ++ tex ++ [32;49;32;50;32;51;32;52;32;53] ++ tail ++ [10].
Definition file1 (tex tail : bytes) : bytes := [123; 10; 123; 10] ++ line1 tex tail ++ [125; 10; 125; 10].

Example C108_nontrivial :
  let m := map1 [side1 wall quake1 None; side1 wall (TValve [1; 2; 3; 4; 5; 6; 7; 8; 9; 0; 1]) (Some (1, Some 2, Some 3))] in
  exists t, text1 m = Some t /\ reads_as t m.
Proof. eexists. split; [vm_compute; reflexivity|]. run. Qed.

(** A side with only one or two numbers of surface information is read, but has no text: flags or value were never set. *)
Theorem C108_info_refuted :
  reads_as (file1 wall [32; 55]) [mkEnt [] [mkBrush false [side1 wall quake1 (Some (7, None, None))]]] /\
  reads_as (file1 wall [32; 55; 32; 56]) [mkEnt [] [mkBrush false [side1 wall quake1 (Some (7, Some 8, None))]]] /\
  (forall es s b e, In e es -> In b (me_brushes e) -> br_bp b = false -> In s (br_sides b) -> (exists c f, sd_ext s = Some (c, f, None)) -> text1 es = None).
Proof.
  split; [run|]. split; [run|]. intros es s b e I J BP K (c & f & X).
  assert (S1 : side_text digit_out digit_out s = None). { unfold side_text, side_words, ext_words. rewrite X. destruct f; reflexivity. }
  assert (S2 : forall l, In s l -> concat_opt (map (side_text digit_out digit_out) l) = None).
  { induction l as [|a l IH]; intro H; [destruct H|]. cbn [map concat_opt]. destruct H as [->|H]; [rewrite S1; reflexivity|]. rewrite (IH H). destruct (side_text _ _ a); reflexivity. }
  assert (S3 : brush_text digit_out digit_out b = None) by (unfold brush_text; rewrite BP, (S2 _ K); reflexivity).
  assert (S4 : forall l id, In b l -> brushes_text digit_out digit_out dec1 id l = None).
  { induction l as [|a l IH]; intros id H; [destruct H|]. cbn [brushes_text]. destruct H as [->|H]; [rewrite S3; reflexivity|]. rewrite (IH _ H). destruct (brush_text _ _ a); reflexivity. }
  assert (S5 : ent_text digit_out digit_out dec1 e = None) by (unfold ent_text; rewrite (S4 _ _ J); reflexivity).
  assert (S6 : forall l id, In e l -> map_text digit_out digit_out dec1 id l = None).
  { induction l as [|a l IH]; intros id H; [destruct H|]. cbn [map_text]. destruct H as [->|H]; [rewrite S5; reflexivity|]. rewrite (IH _ H). destruct (ent_text _ _ _ a); reflexivity. }
  apply S6. exact I.
Qed.
Print Assumptions C108_info_refuted.

(** A texture name with a blank, given in quotes, is written without them; reading the result back fails. *)
Theorem C108_name_refuted :
  let m := [mkEnt [] [mkBrush false [side1 [97; 32; 98] quake1 None]]] in
  reads_as (file1 [34; 97; 32; 98; 34] []) m /\ exists t, text1 m = Some t /\ parse1 t = M_error.
Proof. split; [run|]. eexists. split; [vm_compute; reflexivity|vm_compute; reflexivity]. Qed.
Print Assumptions C108_name_refuted.

(** A key of no character or of blanks only: the loop that removes blanks at the end reads before the string. *)
Theorem C108_key_refuted :
  parse1 [123; 10; 34; 34; 32; 34; 118; 34; 10; 125] = M_UB /\ parse1 [123; 10; 34; 32; 9; 34; 32; 34; 118; 34; 10; 125] = M_UB.
Proof. split; vm_compute; reflexivity. Qed.
Print Assumptions C108_key_refuted.

Example C108_etp_nontrivial : exists t, text1 (map1 [side1 wall (TEtp [1; 2; 3; 4; 5] true) None]) = Some t /\ reads_as t (map1 [side1 wall quake1 None]).
Proof. eexists. split; [vm_compute; reflexivity|]. run. Qed.

(** The comments //TX1 and //TX2 are understood behind a blank; other comments and other numbers mean nothing. *)
Theorem C108_quark :
  let etp := fun b => [mkEnt [] [mkBrush false [side1 wall (TEtp [1; 2; 3; 4; 5] b) None]]] in
  let tail := fun c => [32; 47; 47; 84; 88; c] in
  reads_as (file1 wall (tail 49)) (etp false) /\
  reads_as (file1 wall (tail 50)) (etp true) /\
  reads_as (file1 wall (tail 51)) [mkEnt [] [mkBrush false [side1 wall quake1 None]]] /\
  reads_as (file1 wall [32; 47; 47; 84; 89; 49]) [mkEnt [] [mkBrush false [side1 wall quake1 None]]] /\
  side_text digit_out digit_out (side1 wall (TEtp [1; 2; 3; 4; 5] false) None) = Some (line1 wall [47; 47; 84; 88; 49]) /\
  side_text digit_out digit_out (side1 wall (TEtp [1; 2; 3; 4; 5] true) None) = Some (line1 wall [47; 47; 84; 88; 50]).
Proof.
  intros etp tail. split; [run|]. split; [run|]. split; [run|]. split; [run|].
  split; vm_compute; reflexivity.
Qed.
Print Assumptions C108_quark.

(** The text of brush primitives without sides, "{ brushDef { } }", is read as no brush, and no other word is
    accepted in its place. *)
Definition prim (word : bytes) : bytes := [123; 10] ++ word ++ [10; 123; 10; 125; 10; 125; 10].
Example C108_primitives_nontrivial :
  text1 [mkEnt [] [mkBrush true []]] = Some ([47; 47; 32; 101; 110; 116; 105; 116; 121; 32; 48; 10; 123; 10] ++ [47; 47; 32; 98; 114; 117; 115; 104; 32; 48; 10] ++ prim [98; 114; 117; 115; 104; 68; 101; 102] ++ [125; 10]) /\
  reads_as ([123; 10] ++ prim [98; 114; 117; 115; 104; 68; 101; 102] ++ [125; 10]) [mkEnt [] []] /\
  parse1 ([123; 10] ++ prim [98; 114; 117; 115; 104; 68; 101; 103] ++ [125; 10]) = M_error.
Proof. split; [vm_compute; reflexivity|]. split; [run|vm_compute; reflexivity]. Qed.
