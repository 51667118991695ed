(* Texts as users write them: tokens, command lines, portal files. *)
From Coq Require Import List Arith NArith ZArith Bool Lia.
From Verif Require Import Base ParserModel ParserProofs EntModel EntProofs StreamModel StreamProofs PrtModel PrtProofs.
Import ListNotations.
Local Open Scope N_scope.

(** ** C16: the tokens of a text *)

(** What separates tokens: anything that a signed char makes less than 33, but no NUL. *)
Definition separator (c : N) : Prop := c <> 0 /\ (c <= 32 \/ 128 <= c).
Definition newlines (b : bytes) : nat := length (filter (N.eqb 10) b).

Lemma skip_separators : forall b s n line, Forall separator b -> (length b <= n)%nat ->
  skip PARSE_NORMAL false (b ++ s) n line = skip PARSE_NORMAL false s (n - length b) (line + newlines b).
Proof.
  induction b as [|c b IH]; intros s n line F L.
  - cbn [app newlines filter length]. rewrite Nat.sub_0_r, Nat.add_0_r. reflexivity.
  - inversion F as [|? ? [Z Sx] F']; subst. cbn [length] in L. destruct n as [|n]; [lia|]. cbn [app skip].
    assert (B : blank c = true) by (unfold blank; apply orb_true_iff; rewrite !N.leb_le; exact Sx). rewrite B.
    replace (c =? 0) with false by (symmetry; apply N.eqb_neq; exact Z). cbn [pred].
    destruct (N.eqb_spec c 10) as [->|D].
    + change (eol PARSE_NORMAL (10 :: b ++ s) (S n) line) with (@None tres). cbv iota. rewrite IH by (assumption || lia).
      cbn [newlines filter length N.eqb Pos.eqb Nat.sub]. f_equal. unfold newlines. lia.
    + rewrite IH by (assumption || lia). cbn [newlines filter length Nat.sub]. replace (10 =? c) with false by (symmetry; apply N.eqb_neq; congruence). reflexivity.
Qed.

Lemma take_word_spec : forall w c r n acc, Forall (fun x => 33 <= x <= 127) w -> c <= 32 \/ 128 <= c ->
  take_word (w ++ c :: r) n acc = Some (acc ++ w, c :: r, (n - length w)%nat).
Proof.
  induction w as [|x w IH]; intros c r n acc F C; cbn [app take_word].
  - replace (blank c) with true by (symmetry; unfold blank; apply orb_true_iff; rewrite !N.leb_le; exact C). rewrite app_nil_r, Nat.sub_0_r. reflexivity.
  - inversion F as [|? ? X F']; subst. replace (blank x) with false.
    + rewrite IH by assumption. rewrite <- app_assoc. cbn [app length]. f_equal. f_equal. lia.
    + symmetry. unfold blank. apply orb_false_iff. rewrite !N.leb_gt. lia.
Qed.

(** C16. A word: characters from 33 to 127, not starting with a quote, a semicolon or two slashes,
    ended by a separator or NUL, is delivered as it is. *)
Theorem C16_word : forall b w c r n p, Forall separator b -> w <> [] -> Forall (fun x => 33 <= x <= 127) w -> c <= 32 \/ 128 <= c ->
  hd 0 w <> 34 -> hd 0 w <> 59 -> ~ (hd 0 w = 47 /\ hd 0 (tl w) = 47) ->
  ps_mem p = b ++ w ++ c :: r -> ps_left p = n -> (length b < n)%nat ->
  parse_token PARSE_NORMAL p = T_ret true (mkPS w false (c :: r) (n - length b - length w) (ps_line p + newlines b)).
Proof.
  intros b w c r n p B Nn W C Q1 Q2 Q3 M L LT. unfold parse_token. change (f_peek PARSE_NORMAL) with false. cbv iota. rewrite M, L.
  rewrite skip_separators by (assumption || lia). destruct w as [|x w]; [contradiction|]. cbn [hd tl] in *. inversion W as [|? ? X W']; subst.
  destruct (ps_left p - length b)%nat as [|m] eqn:E; [lia|]. cbn [app skip].
  replace (blank x) with false by (symmetry; unfold blank; apply orb_false_iff; rewrite !N.leb_gt; lia).
  assert (Sl : (if x =? 47 then match w ++ c :: r with [] => None | d :: _ => Some (d =? 47) end else Some (x =? 59)) = Some false).
  { destruct (N.eqb_spec x 47) as [->|D].
    - destruct w as [|y w]; cbn [app hd] in *; f_equal; apply N.eqb_neq; [|intros ->; apply Q3; auto]. intros ->. destruct C as [C|C]; [apply N.leb_le in C|apply N.leb_le in C]; discriminate C.
    - f_equal. apply N.eqb_neq. exact Q2. }
  rewrite Sl. unfold copy_token. change (f_comment PARSE_NORMAL) with false. cbv iota. apply N.eqb_neq in Q1. rewrite Q1.
  change (x :: w ++ c :: r) with ((x :: w) ++ c :: r). rewrite take_word_spec by (assumption || (constructor; assumption)). reflexivity.
Qed.

(** A piece of a quoted text: a character that is neither NUL, quote nor backslash, or a backslash
    and one of: backslash, n, ', r, t, b. *)
Definition piece (v : bytes) : Prop :=
  (exists c, v = [c] /\ c <> 0 /\ c <> 34 /\ c <> 92) \/ (exists d, v = [92; d] /\ In d [92; 110; 39; 114; 116; 98]).

Lemma take_pieces : forall vs r n acc, Forall piece vs ->
  take_quoted (concat vs ++ 34 :: r) n acc = Q_ok (acc ++ concat vs) r (n - length (concat vs) - 1).
Proof.
  induction vs as [|v vs IH]; intros r n acc F; cbn [concat app].
  - cbn [take_quoted]. change (34 =? 34) with true. cbv iota. rewrite app_nil_r. cbn [length]. f_equal. lia.
  - inversion F as [|? ? P F']; subst. destruct P as [[c [-> [C0 [C1 C2]]]]|[d [-> D]]]; cbn [app take_quoted].
    + apply N.eqb_neq in C0, C1, C2. rewrite C0, C1, C2. rewrite IH by exact F'. rewrite <- app_assoc. cbn [app length]. f_equal. lia.
    + change (92 =? 34) with false. change (92 =? 0) with false. change (92 =? 92) with true. cbv iota.
      replace (esc_pair d) with true by (cbn [In] in D; unfold esc_pair; destruct D as [<-|[<-|[<-|[<-|[<-|[<-|[]]]]]]]; reflexivity).
      rewrite IH by exact F'. rewrite <- app_assoc. cbn [app length]. f_equal. lia.
Qed.

(** C16. A quoted text made of such pieces is delivered as it is, backslashes included, and ends at
    its quote also when it ends in two backslashes. *)
Theorem C16_quoted : forall b vs r n p, Forall separator b -> Forall piece vs ->
  ps_mem p = b ++ 34 :: concat vs ++ 34 :: r -> ps_left p = n -> (length b < n)%nat ->
  parse_token PARSE_NORMAL p = T_ret true (mkPS (concat vs) true r (n - length b - length (concat vs) - 2) (ps_line p + newlines b)).
Proof.
  intros b vs r n p B V M L LT. unfold parse_token. change (f_peek PARSE_NORMAL) with false. cbv iota. rewrite M, L.
  rewrite skip_separators by (assumption || lia). destruct (n - length b)%nat as [|m] eqn:E; [lia|]. cbn [skip].
  change (blank 34) with false. change (34 =? 47) with false. change (34 =? 59) with false. cbv iota.
  unfold copy_token. change (f_comment PARSE_NORMAL) with false. change (34 =? 34) with true. cbv iota. rewrite take_pieces by exact V. cbn [app]. f_equal. f_equal. cbn [pred]. lia.
Qed.

(** ** C17: the tokens of a command line *)

Fixpoint deliver (n : nat) (p : tstate) : list (bool * bytes * bool) :=
  match n with
  | O => []
  | S k => let '(b, q) := tparse_token PARSE_NORMAL p in (b, ts_token q, ts_quoted q) :: deliver k q
  end.

(** C17. The words of the command line come one after the other, marked as quoted if they contain
    white space, and then no more for ever. *)
Theorem C17_command_line : forall words n q, 
  deliver (length words + n) (mkTS [] q words 0) =
  map (fun w => (true, w, existsb (fun c => existsb (N.eqb c) [9; 10; 11; 12; 13; 32]) w)) words ++ repeat (false, [], false) n.
Proof.
  assert (SP : forall c, isspace c = existsb (N.eqb c) [9; 10; 11; 12; 13; 32]).
  { intro c. unfold isspace. cbn [existsb]. destruct (N.leb_spec 9 c) as [A|A]; cbn [andb].
    - destruct (N.leb_spec c 13) as [B|B]; cbn [orb].
      + assert (c = 9 \/ c = 10 \/ c = 11 \/ c = 12 \/ c = 13) as E by lia. destruct E as [->|[->|[->|[->| ->]]]]; reflexivity.
      + replace (c =? 9) with false by (symmetry; apply N.eqb_neq; lia). replace (c =? 10) with false by (symmetry; apply N.eqb_neq; lia).
        replace (c =? 11) with false by (symmetry; apply N.eqb_neq; lia). replace (c =? 12) with false by (symmetry; apply N.eqb_neq; lia).
        replace (c =? 13) with false by (symmetry; apply N.eqb_neq; lia). cbn [orb]. rewrite orb_false_r. reflexivity.
    - replace (c =? 9) with false by (symmetry; apply N.eqb_neq; lia). replace (c =? 10) with false by (symmetry; apply N.eqb_neq; lia).
      replace (c =? 11) with false by (symmetry; apply N.eqb_neq; lia). replace (c =? 12) with false by (symmetry; apply N.eqb_neq; lia).
      replace (c =? 13) with false by (symmetry; apply N.eqb_neq; lia). cbn [orb]. rewrite orb_false_r. reflexivity. }
  assert (X : forall w, existsb isspace w = existsb (fun c => existsb (N.eqb c) [9; 10; 11; 12; 13; 32]) w).
  { induction w as [|c w IH]; [reflexivity|]. cbn [existsb] in *. rewrite SP, IH. reflexivity. }
  assert (E : forall n t q words k, (length words <= k)%nat -> deliver n (mkTS t q words k) = repeat (false, [], false) n).
  { induction n as [|n IH]; intros t q words k K; [reflexivity|]. cbn [deliver]. unfold tparse_token. change (f_peek PARSE_NORMAL) with false. cbn [ts_tokens ts_cur].
    replace (nth_error words k) with (@None bytes) by (symmetry; apply nth_error_None; exact K). cbv iota beta. cbn [ts_token ts_quoted repeat]. f_equal. apply IH. exact K. }
  assert (G : forall rest done n t q, deliver (length rest + n) (mkTS t q (done ++ rest) (length done)) =
     map (fun w => (true, w, existsb (fun c => existsb (N.eqb c) [9; 10; 11; 12; 13; 32]) w)) rest ++ repeat (false, [], false) n).
  { induction rest as [|w rest IH]; intros done n t q.
    - cbn [length Nat.add map app]. apply E. rewrite app_nil_r. lia.
    - cbn [length Nat.add map app deliver]. unfold tparse_token at 1. change (f_peek PARSE_NORMAL) with false. cbn [ts_tokens ts_cur].
      rewrite nth_error_app2, Nat.sub_diag by lia. cbn [nth_error]. cbv iota beta. cbn [ts_token ts_quoted]. rewrite X. f_equal.
      specialize (IH (done ++ [w]) n w (existsb (fun c => existsb (N.eqb c) [9; 10; 11; 12; 13; 32]) w)). rewrite <- app_assoc, app_length in IH. cbn [app length] in IH.
      replace (length done + 1)%nat with (S (length done)) in IH by lia. exact IH. }
  intros words n q. exact (G words [] n [] q).
Qed.

(** ** C22, C63: numbers and headers of portal files *)

Definition decimal (ds : list N) : Z := fold_left (fun a d => 10 * a + Z.of_N d)%Z ds 0%Z.
Definition digits_of (ds : list N) : bytes := map (fun d => 48 + d) ds.

Lemma dec_value_of : forall ds, Z.of_N (dec_value (digits_of ds)) = decimal ds.
Proof.
  intro ds. unfold dec_value, decimal, digits_of. change 0%Z with (Z.of_N 0). generalize 0. induction ds as [|d ds IH]; intro a; [reflexivity|].
  cbn [map fold_left]. rewrite IH. f_equal. lia.
Qed.

(** C22. Reading an integer: blanks, an optional sign and digits; the stream stands after the last
    digit; a number outside the range of int is cut to the range and marked as failed. *)
Theorem C22_integers : forall w (neg : bool) ds c r, Forall (fun x => isspace x = true) w -> ds <> [] -> Forall (fun d => d <= 9) ds ->
  ~ (48 <= c <= 57) ->
  let z := (if neg then - decimal ds else decimal ds)%Z in
  get_int (mkIS (w ++ (if neg then [45] else []) ++ digits_of ds ++ c :: r) false false) =
  (mkIS (c :: r) false (negb ((- 2147483648 <=? z) && (z <=? 2147483647))%Z), Some (Z.max (- 2147483648) (Z.min 2147483647 z))).
Proof.
  intros w neg ds c r W Nn D C z. unfold get_int, sentry. cbn [is_eof is_fail is_rest orb]. rewrite drop_ws_app by exact W.
  assert (F : Forall (fun x => digit x = true) (digits_of ds)).
  { unfold digits_of. apply Forall_map. eapply Forall_impl; [|exact D]. intros d Hd. cbv beta in *. unfold digit. apply andb_true_iff. rewrite !N.leb_le. lia. }
  assert (CD : digit c = false).
  { unfold digit. apply andb_false_iff. rewrite !N.leb_gt. lia. }
  assert (T : take_digits (digits_of ds ++ c :: r) = (digits_of ds, c :: r)) by (apply take_digits_app; [exact F|intros x y X; injection X as <- _; exact CD]).
  assert (V := dec_value_of ds).
  destruct ds as [|d ds]; [contradiction|]. set (all := d :: ds) in *.
  assert (A : exists x y, digits_of all = x :: y /\ digit x = true) by (exists (48 + d), (digits_of ds); split; [reflexivity|inversion F; assumption]).
  destruct A as [x [y [A DX]]].
  assert (R : drop_ws ((if neg then [45] else []) ++ digits_of all ++ c :: r) = (if neg then [45] else []) ++ digits_of all ++ c :: r).
  { destruct neg; [reflexivity|]. rewrite A. cbn [app drop_ws]. rewrite (digit_not_space x DX). reflexivity. }
  rewrite R.
  assert (B : match (if neg then [45] else []) ++ digits_of all ++ c :: r with
              | c0 :: r0 => if c0 =? 45 then (true, r0) else if c0 =? 43 then (false, r0) else (false, c0 :: r0) | [] => (false, []) end = (neg, digits_of all ++ c :: r)).
  { destruct neg; [reflexivity|]. rewrite A. cbn [app]. destruct (digit_cases x DX) as [X1 X2]. apply N.eqb_neq in X1, X2. rewrite X1, X2. reflexivity. }
  assert (NE : exists u v, (if neg then [45] else []) ++ digits_of all ++ c :: r = u :: v) by (destruct neg; [eexists _, _; reflexivity|rewrite A; eexists _, _; reflexivity]).
  destruct NE as [u [v NE]]. rewrite NE in *. cbn [negb is_rest]. rewrite B, T. rewrite A in *. rewrite V.
  change (decimal all) with (decimal all) in *. fold z. clearbody z. unfold INT_MAX, INT_MIN.
  destruct (Z.gtb_spec z 2147483647) as [G|G].
  - replace (z <=? 2147483647)%Z with false by (symmetry; apply Z.leb_gt; lia). rewrite andb_false_r. f_equal. f_equal. lia.
  - replace (z <=? 2147483647)%Z with true by (symmetry; apply Z.leb_le; lia). rewrite andb_true_r. destruct (Z.ltb_spec z (-2147483648)) as [G2|G2].
    + replace (-2147483648 <=? z)%Z with false by (symmetry; apply Z.leb_gt; lia). f_equal. f_equal. lia.
    + replace (-2147483648 <=? z)%Z with true by (symmetry; apply Z.leb_le; lia). f_equal. f_equal. lia.
Qed.

Lemma head_not_digit_stop : forall c (r : bytes), ~ (48 <= c <= 57) -> digit c = false.
Proof. intros c _ C. unfold digit. apply andb_false_iff. rewrite !N.leb_gt. lia. Qed.

Lemma digits_digit : forall ds, Forall (fun d => d <= 9) ds -> Forall (fun x => digit x = true) (digits_of ds).
Proof.
  intros ds D. unfold digits_of. apply Forall_map. eapply Forall_impl; [|exact D]. intros d Hd. cbv beta in *. unfold digit. apply andb_true_iff. rewrite !N.leb_le. lia.
Qed.

(** C22. Reading an integer where there is none gives zero and a failed stream; at the end of the
    text the variable keeps its value and the stream has failed for ever. *)
Theorem C22_no_integer : forall w c r, Forall (fun x => isspace x = true) w -> isspace c = false -> ~ (48 <= c <= 57) -> c <> 43 -> c <> 45 ->
  get_int (mkIS (w ++ c :: r) false false) = (mkIS (c :: r) false true, Some 0%Z) /\
  get_int (mkIS w false false) = (mkIS [] true true, None) /\
  (forall t, get_int (mkIS t true false) = (mkIS t true true, None)) /\
  (forall t e, get_int (mkIS t e true) = (mkIS t e true, None)).
Proof.
  intros w c r W Sp D P M. assert (DC := head_not_digit_stop c r D). apply N.eqb_neq in P, M. repeat split.
  - unfold get_int, sentry. cbn [is_eof is_fail is_rest orb]. rewrite drop_ws_app by exact W. cbn [drop_ws]. rewrite Sp. cbn [negb is_rest]. rewrite M, P. cbn [take_digits]. rewrite DC. reflexivity.
  - unfold get_int, sentry. cbn [is_eof is_fail is_rest orb]. rewrite <- (app_nil_r w), drop_ws_app by exact W. reflexivity.
  - intros t e. unfold get_int, sentry. cbn [is_eof is_fail is_rest]. rewrite orb_true_r. reflexivity.
Qed.

(** C22. Reading a real number: sign, digits, point, digits, exponent with e or E; at least one
    digit before the exponent and one in it.  The whole text is taken, or the read fails. *)
Definition stop (c : N) : Prop := ~ (48 <= c <= 57) /\ ~ In c [43; 45; 46; 69; 101].

Lemma take_digits_stop : forall ds c r, Forall (fun d => d <= 9) ds -> ~ (48 <= c <= 57) -> take_digits (digits_of ds ++ c :: r) = (digits_of ds, c :: r).
Proof.
  intros ds c r D C. apply take_digits_app; [apply digits_digit; exact D|]. intros x y X. injection X as <- _. apply (head_not_digit_stop c r C).
Qed.

Theorem C22_reals : forall w sg d1 (fr : option (list N)) (ex : option (N * bytes * list N)) c r,
  Forall (fun x => isspace x = true) w -> In sg [[]; [43]; [45]] -> Forall (fun d => d <= 9) d1 ->
  (forall d, fr = Some d -> Forall (fun d => d <= 9) d) ->
  (forall e s d, ex = Some (e, s, d) -> In e [69; 101] /\ In s [[]; [43]; [45]] /\ Forall (fun d => d <= 9) d) ->
  stop c -> isspace c = false \/ d1 <> [] \/ sg <> [] \/ fr <> None ->
  let frt := match fr with Some d => 46 :: digits_of d | None => [] end in
  let ext := match ex with Some (e, s, d) => e :: s ++ digits_of d | None => [] end in
  let mantissa := d1 <> [] \/ exists d, fr = Some d /\ d <> [] in
  let exponent := forall e s d, ex = Some (e, s, d) -> d <> [] in
  (mantissa -> exponent -> get_real (mkIS (w ++ sg ++ digits_of d1 ++ frt ++ ext ++ c :: r) false false) = (mkIS (c :: r) false false, Some (sg ++ digits_of d1 ++ frt ++ ext))) /\
  (~ mantissa \/ ~ exponent -> snd (get_real (mkIS (w ++ sg ++ digits_of d1 ++ frt ++ ext ++ c :: r) false false)) = None /\
     is_fail (fst (get_real (mkIS (w ++ sg ++ digits_of d1 ++ frt ++ ext ++ c :: r) false false))) = true).
Proof.
  intros w sg d1 fr ex c r W SG D1 FR EX C NB frt ext mantissa exponent.
  destruct C as [C1 C2]. cbn [In] in C2.
  assert (CE : forall t, take_sign (c :: t) = ([], c :: t)).
  { intro t. unfold take_sign. replace (c =? 43) with false by (symmetry; apply N.eqb_neq; intuition congruence). replace (c =? 45) with false by (symmetry; apply N.eqb_neq; intuition congruence). reflexivity. }
  (* the exponent *)
  assert (TE : take_exp (ext ++ c :: r) = (ext, c :: r, match ex with Some (_, _, []) => false | _ => true end)).
  { unfold ext. destruct ex as [[[e s] d]|].
    - destruct (EX e s d eq_refl) as [E [S1 D]]. cbn [app]. unfold take_exp. replace ((e =? 101) || (e =? 69)) with true by (cbn [In] in E; destruct E as [<-|[<-|[]]]; reflexivity).
      assert (TS : take_sign ((s ++ digits_of d) ++ c :: r) = (s, digits_of d ++ c :: r)).
      { rewrite <- app_assoc. cbn [In] in S1. destruct S1 as [<-|[<-|[<-|[]]]]; cbn [app]; try reflexivity.
        destruct d as [|x d]; [apply CE|]. inversion D; subst. cbn [digits_of map app]. unfold take_sign.
        replace (48 + x =? 43) with false by (symmetry; apply N.eqb_neq; lia). replace (48 + x =? 45) with false by (symmetry; apply N.eqb_neq; lia). reflexivity. }
      rewrite TS, take_digits_stop by assumption. destruct d; reflexivity.
    - cbn [app]. unfold take_exp. replace (c =? 101) with false by (symmetry; apply N.eqb_neq; intuition congruence). replace (c =? 69) with false by (symmetry; apply N.eqb_neq; intuition congruence). reflexivity. }
  (* what follows the digits is no digit *)
  assert (HE : exists x y, ext ++ c :: r = x :: y /\ ~ (48 <= x <= 57) /\ x <> 46).
  { unfold ext. destruct ex as [[[e s] d]|].
    - destruct (EX e s d eq_refl) as [E _]. cbn [app]. eexists _, _. split; [reflexivity|]. cbn [In] in E. destruct E as [<-|[<-|[]]]; split; lia.
    - cbn [app]. eexists _, _. split; [reflexivity|]. split; [exact C1|intuition congruence]. }
  destruct HE as [x [y [HE [X1 X2]]]].
  assert (TF : take_frac (frt ++ ext ++ c :: r) = (frt, ext ++ c :: r)).
  { unfold frt. destruct fr as [d|]; cbn [app].
    - unfold take_frac. change (46 =? 46) with true. cbv iota. rewrite HE. rewrite take_digits_stop by (try exact (FR d eq_refl); exact X1). reflexivity.
    - unfold take_frac. rewrite HE. replace (x =? 46) with false by (symmetry; apply N.eqb_neq; exact X2). reflexivity. }
  assert (HF : exists u v, frt ++ ext ++ c :: r = u :: v /\ ~ (48 <= u <= 57)).
  { unfold frt. destruct fr as [d|]; cbn [app]; [eexists _, _; split; [reflexivity|lia]|]. rewrite HE. eexists _, _. split; [reflexivity|exact X1]. }
  destruct HF as [u [v [HF U1]]].
  assert (TD : take_digits (digits_of d1 ++ frt ++ ext ++ c :: r) = (digits_of d1, frt ++ ext ++ c :: r)) by (rewrite HF; apply take_digits_stop; assumption).
  (* the sign *)
  assert (TS : take_sign (sg ++ digits_of d1 ++ frt ++ ext ++ c :: r) = (sg, digits_of d1 ++ frt ++ ext ++ c :: r)).
  { cbn [In] in SG. destruct SG as [<-|[<-|[<-|[]]]]; cbn [app]; try reflexivity.
    assert (HD : exists a b, digits_of d1 ++ frt ++ ext ++ c :: r = a :: b /\ a <> 43 /\ a <> 45).
    { destruct d1 as [|z d1]; cbn [digits_of map app].
      - unfold frt. destruct fr as [d|]; cbn [app]; [eexists _, _; split; [reflexivity|split; discriminate]|].
        unfold ext. destruct ex as [[[e s] d]|]; cbn [app].
        + destruct (EX e s d eq_refl) as [E _]. eexists _, _. split; [reflexivity|]. cbn [In] in E. destruct E as [<-|[<-|[]]]; split; discriminate.
        + eexists _, _. split; [reflexivity|]. split; intuition congruence.
      - eexists _, _. split; [reflexivity|]. split; lia. }
    destruct HD as [a [b [HD [A1 A2]]]]. rewrite HD. unfold take_sign. apply N.eqb_neq in A1, A2. rewrite A1, A2. reflexivity. }
  (* no blank at the start *)
  assert (DW : drop_ws (sg ++ digits_of d1 ++ frt ++ ext ++ c :: r) = sg ++ digits_of d1 ++ frt ++ ext ++ c :: r).
  { assert (HD : exists a b, sg ++ digits_of d1 ++ frt ++ ext ++ c :: r = a :: b /\ isspace a = false).
    { cbn [In] in SG. destruct SG as [<-|[<-|[<-|[]]]]; cbn [app]; try (eexists _, _; split; [reflexivity|reflexivity]).
      destruct d1 as [|z d1]; cbn [digits_of map app].
      - unfold frt in *. destruct fr as [d|]; cbn [app]; [eexists _, _; split; reflexivity|].
        unfold ext. destruct ex as [[[e s] d]|]; cbn [app].
        + destruct (EX e s d eq_refl) as [E _]. eexists _, _. split; [reflexivity|]. cbn [In] in E. destruct E as [<-|[<-|[]]]; reflexivity.
        + eexists _, _. split; [reflexivity|]. destruct NB as [NB|[NB|[NB|NB]]]; [exact NB|contradiction|contradiction|contradiction].
      - eexists _, _. split; [reflexivity|]. apply digit_not_space. inversion D1; subst. unfold digit. apply andb_true_iff. rewrite !N.leb_le. lia. }
    destruct HD as [a [b [HD A]]]. rewrite HD. cbn [drop_ws]. rewrite A. reflexivity. }
  assert (NE : exists a b, sg ++ digits_of d1 ++ frt ++ ext ++ c :: r = a :: b).
  { destruct (sg ++ digits_of d1 ++ frt ++ ext ++ c :: r) as [|a b] eqn:Z; [|eauto]. apply app_eq_nil in Z. destruct Z as [_ Z]. apply app_eq_nil in Z. destruct Z as [_ Z]. rewrite HF in Z. discriminate Z. }
  destruct NE as [a [b NE]].
  assert (GR : get_real (mkIS (w ++ sg ++ digits_of d1 ++ frt ++ ext ++ c :: r) false false) =
     (let '(t, r0, valid) := take_real (sg ++ digits_of d1 ++ frt ++ ext ++ c :: r) in
      (mkIS r0 (match r0 with [] => true | _ => false end) (negb valid), if valid then Some t else None))).
  { unfold get_real, sentry. cbn [is_eof is_fail is_rest orb]. rewrite drop_ws_app by exact W. rewrite DW, NE. reflexivity. }
  rewrite GR. unfold take_real. rewrite TS, TD, TF.
  set (mant := match digits_of d1, frt with [], [] => false | [], [_] => false | _, _ => true end).
  assert (MA : mant = true <-> mantissa).
  { unfold mant, mantissa, frt. destruct d1 as [|z d1]; cbn [digits_of map].
    - destruct fr as [[|q d]|]; cbn [digits_of map]; split; intro H; try discriminate; try reflexivity.
      + destruct H as [H|[d [H1 H2]]]; [contradiction|injection H1 as <-; contradiction].
      + right. eexists. split; [reflexivity|discriminate].
      + destruct H as [H|[d [H1 H2]]]; [contradiction|discriminate].
    - split; intro H; [left; discriminate|]. destruct fr as [[|q d]|]; reflexivity. }
  assert (XA : match ex with Some (_, _, []) => false | _ => true end = true <-> exponent).
  { unfold exponent. destruct ex as [[[e s] [|q d]]|]; split; intro H; try discriminate; try reflexivity.
    - exfalso. apply (H e s [] eq_refl). reflexivity.
    - intros e' s' d' E. injection E as <- <- <-. discriminate. }
  split.
  - intros HM HX. apply MA in HM. apply XA in HX. rewrite HM, TE, HX. cbn [negb]. reflexivity.
  - intros H. destruct mant eqn:HM.
    + rewrite TE. destruct (match ex with Some (_, _, []) => false | _ => true end) eqn:HX; [|split; reflexivity].
      exfalso. destruct H as [H|H]; [apply H; apply MA; reflexivity|apply H; apply XA; reflexivity].
    + split; reflexivity.
Qed.

(** C22. The files start with the lines vis and other tools look for. *)
Theorem C22_first_line : forall leafs ps real clusters table,
  firstn 5 (write_prt1 leafs ps) = [80; 82; 84; 49; 10] /\ firstn 5 (write_prt2 real clusters ps table) = [80; 82; 84; 50; 10].
Proof. intros. split; reflexivity. Qed.

(** C63. Any other first line is an error; PRT2 and PRT1-AM are errors for Quake II. *)
Theorem C63_first_line : forall q2 m r, ~ In 10 m ->
  (~ In m [[80; 82; 84; 49]; [80; 82; 84; 50]; [80; 82; 84; 49; 45; 65; 77]] -> load_prt q2 (m ++ 10 :: r) = P_error) /\
  (In m [[80; 82; 84; 50]; [80; 82; 84; 49; 45; 65; 77]] -> load_prt true (m ++ 10 :: r) = P_error).
Proof.
  intros q2 m r I.
  assert (T : take_line (m ++ 10 :: r) = (m, Some r)).
  { clear - I. induction m as [|c m IH]; [reflexivity|]. cbn [app take_line]. cbn [In] in I. replace (c =? 10) with false by (symmetry; apply N.eqb_neq; intuition congruence).
    rewrite IH by tauto. reflexivity. }
  assert (G : getline (m ++ 10 :: r) = (m, mkIS r false false)) by (unfold getline; rewrite T; destruct m; reflexivity).
  unfold load_prt, read_header. rewrite G. split; intro H.
  - assert (B : forall k, In k [[80; 82; 84; 49]; [80; 82; 84; 50]; [80; 82; 84; 49; 45; 65; 77]] -> beq m k = false).
    { intros k K. destruct (beq m k) eqn:E; [|reflexivity]. apply beq_eq in E. subst. contradiction. }
    rewrite (B sPRT1), (B sPRT2), (B sPRTAM) by (cbn [In]; auto). reflexivity.
  - cbn [In] in H. destruct H as [<-|[<-|[]]]; reflexivity.
Qed.

(** C63. The table of a PRT1-AM file with fewer leafs than clusters: leaf [i] gets the [i]-th number. *)
Definition write_am (leafs : nat) (ps : list wportal) (vs : list nat) : bytes :=
  [80; 82; 84; 49; 45; 65; 77; 10] ++ print_nat leafs ++ [10] ++ print_nat (length ps) ++ [10] ++ print_nat (length vs) ++ [10] ++
  print_portals ps ++ concat (map (fun v => print_nat v ++ [10]) vs).

Lemma read_am_print : forall vs leafs w cl done, blanks w -> (Z.of_nat leafs <= INT_MAX)%Z -> Forall (fun v => v < leafs)%nat vs ->
  (length done + length vs < length cl)%nat -> firstn (S (length done)) cl = 0%Z :: done ->
  exists cl1, read_am (length vs) (Z.of_nat leafs) (Z.of_nat (length done)) (good (w ++ concat (map (fun v => print_nat v ++ [10]) vs))) cl = P_ok cl1 /\
    cl1 = 0%Z :: done ++ map Z.of_nat vs ++ skipn (S (length done + length vs)) cl.
Proof.
  induction vs as [|v vs IH]; intros leafs w cl done W L F LT P; cbn [length read_am map concat].
  - exists cl. split; [reflexivity|]. rewrite Nat.add_0_r. rewrite <- (firstn_skipn (S (length done)) cl) at 1. rewrite P. reflexivity.
  - inversion F as [|? ? V F']; subst. cbn [length] in LT. unfold good. rewrite <- app_assoc. cbn [app].
    rewrite (get_int_print w v 10 _ W) by (lia || reflexivity). cbn [is_eof].
    replace ((Z.of_nat v <? 0)%Z || (Z.of_nat v >=? Z.of_nat leafs)%Z) with false.
    2: { symmetry. apply orb_false_iff. split; [apply Z.ltb_ge; lia|]. rewrite Z.geb_leb. apply Z.leb_gt. lia. }
    unfold store. replace (Z.of_nat (length done) + 1 <? 0)%Z with false by (symmetry; apply Z.ltb_ge; lia).
    replace (Z.to_nat (Z.of_nat (length done) + 1)) with (S (length done)) by lia.
    assert (U : exists cl', upd cl (S (length done)) (Z.of_nat v) = Some cl' /\ cl' = 0%Z :: done ++ Z.of_nat v :: skipn (S (S (length done))) cl /\ length cl' = length cl).
    { assert (X : cl = (0%Z :: done) ++ skipn (S (length done)) cl) by (rewrite <- P; symmetry; apply firstn_skipn).
      destruct (skipn (S (length done)) cl) as [|a t] eqn:SK.
      { apply (f_equal (@length Z)) in SK. rewrite skipn_length in SK. cbn [length] in SK. lia. }
      assert (SK2 : skipn (S (S (length done))) cl = t).
      { rewrite X. replace (S (S (length done))) with (S (length done) + 1)%nat by lia.
        replace (S (length done) + 1)%nat with (length (0%Z :: done) + 1)%nat by reflexivity. rewrite skipn_app. rewrite skipn_all2 by (cbn [length]; lia).
        replace (length (0%Z :: done) + 1 - length (0%Z :: done))%nat with 1%nat by lia. reflexivity. }
      rewrite SK2. assert (UP : forall (pre : list Z) a t v, upd (pre ++ a :: t) (length pre) v = Some (pre ++ v :: t)).
      { clear. induction pre as [|x pre IH]; intros a t v; [reflexivity|]. cbn [app length upd]. rewrite IH. reflexivity. }
      rewrite X. change (S (length done)) with (length (0%Z :: done)). rewrite UP. eexists. split; [reflexivity|]. split; [reflexivity|].
      rewrite !app_length. reflexivity. }
    destruct U as [cl' [U1 [U2 U3]]]. rewrite U1. cbn [pbind].
    replace (Z.of_nat (length done) + 1)%Z with (Z.of_nat (length (done ++ [Z.of_nat v]))) by (rewrite app_length; cbn [length]; lia).
    destruct (IH leafs [10] cl' (done ++ [Z.of_nat v])) as [cl1 [R1 R2]]; [exact blanks_nl|exact L|exact F'|rewrite app_length; cbn [length]; lia| |].
    + rewrite app_length. cbn [length]. rewrite U2. replace (S (length done + 1)) with (S (length (done ++ [Z.of_nat v]))) by (rewrite app_length; reflexivity).
      cbn [firstn]. f_equal. change (Z.of_nat v :: skipn (S (S (length done))) cl) with ([Z.of_nat v] ++ skipn (S (S (length done))) cl). rewrite app_assoc, firstn_app, Nat.sub_diag, firstn_all. cbn [firstn]. apply app_nil_r.
    + change ([10] ++ concat (map (fun v0 => print_nat v0 ++ [10]) vs)) with (10 :: concat (map (fun v0 => print_nat v0 ++ [10]) vs)) in R1. unfold good in R1. exists cl1. split; [exact R1|].
      rewrite R2, app_length. cbn [length map]. rewrite <- app_assoc. cbn [app]. f_equal. f_equal. f_equal. f_equal. rewrite U2.
      replace (S (length done + 1 + length vs)) with (S (length (done ++ [Z.of_nat v])) + length vs)%nat by (rewrite app_length; cbn [length]; lia).
      change (0%Z :: done ++ Z.of_nat v :: skipn (S (S (length done))) cl) with ((0%Z :: done) ++ [Z.of_nat v] ++ skipn (S (S (length done))) cl).
      rewrite app_assoc. replace (S (length (done ++ [Z.of_nat v]))) with (length ((0%Z :: done) ++ [Z.of_nat v])) by (rewrite !app_length; reflexivity).
      rewrite skipn_app. rewrite skipn_all2 by lia. cbn [app].
      replace (length ((0%Z :: done) ++ [Z.of_nat v]) + length vs - length ((0%Z :: done) ++ [Z.of_nat v]))%nat with (length vs) by lia.
      rewrite skipn_skipn. f_equal. lia.
Qed.

Theorem C63_am_table : forall leafs ps vs, (Z.of_nat leafs < INT_MAX)%Z -> (Z.of_nat (length ps) <= INT_MAX)%Z -> (length vs < leafs)%nat ->
  Forall (fun v => v < leafs)%nat vs -> Forall (printable leafs) ps ->
  load_prt false (write_am leafs ps vs) =
  P_ok (mkPrt (Z.of_nat leafs) (Z.of_nat (length vs)) (map prt_of ps) (0%Z :: map Z.of_nat vs ++ repeat 0%Z (leafs - length vs))).
Proof.
  intros leafs ps vs L M V F P. unfold load_prt, write_am.
  assert (H : read_header false ([80; 82; 84; 49; 45; 65; 77; 10] ++ print_nat leafs ++ [10] ++ print_nat (length ps) ++ [10] ++ print_nat (length vs) ++ [10] ++
     print_portals ps ++ concat (map (fun v => print_nat v ++ [10]) vs)) =
     P_ok (KAM, Z.of_nat leafs, Z.of_nat (length vs), Some (Z.of_nat (length ps)), good ([10] ++ print_portals ps ++ concat (map (fun v => print_nat v ++ [10]) vs)))).
  { unfold read_header. change ([80; 82; 84; 49; 45; 65; 77; 10] ++ print_nat leafs ++ [10] ++ print_nat (length ps) ++ [10] ++ print_nat (length vs) ++ [10] ++
     print_portals ps ++ concat (map (fun v => print_nat v ++ [10]) vs)) with ([80; 82; 84; 49; 45; 65; 77] ++ nl :: print_nat leafs ++ [10] ++ print_nat (length ps) ++ [10] ++ print_nat (length vs) ++ [10] ++
     print_portals ps ++ concat (map (fun v => print_nat v ++ [10]) vs)).
    rewrite getline_magic; [|repeat constructor; discriminate|discriminate].
    replace (beq [80; 82; 84; 49; 45; 65; 77] sPRT1) with false by reflexivity. replace (beq [80; 82; 84; 49; 45; 65; 77] sPRT2) with false by reflexivity.
    replace (beq [80; 82; 84; 49; 45; 65; 77] sPRTAM) with true by reflexivity. cbv iota. unfold good. cbn [app].
    match goal with |- context [get_int (mkIS (print_nat leafs ++ 10 :: ?r) false false)] =>
      change (get_int (mkIS (print_nat leafs ++ 10 :: r) false false)) with (get_int (mkIS ([] ++ print_nat leafs ++ 10 :: r) false false)) end.
    rewrite (get_int_print [] leafs 10 _ blanks_nil) by (lia || reflexivity).
    match goal with |- context [get_int (mkIS (10 :: ?r) false false)] => change (10 :: r) with ([10] ++ r) end.
    rewrite (get_int_print [10] (length ps) 10 _ blanks_nl) by (lia || reflexivity).
    match goal with |- context [get_int (mkIS (10 :: ?r) false false)] => change (10 :: r) with ([10] ++ r) end.
    rewrite (get_int_print [10] (length vs) 10 _ blanks_nl) by (lia || reflexivity). reflexivity. }
  rewrite H. cbn [pbind]. rewrite Nat2Z.id.
  destruct (read_portals_print leafs ps [10] (concat (map (fun v => print_nat v ++ [10]) vs)) ltac:(lia) blanks_nl P) as [w [W E]]. rewrite E. cbn [pbind].
  replace (Z.of_nat leafs =? Z.of_nat (length vs))%Z with false by (symmetry; apply Z.eqb_neq; lia).
  rewrite succ_int_spec by exact L. cbn [pbind]. rewrite resize0_spec. cbn [pbind]. rewrite Nat2Z.id.
  destruct (read_am_print vs leafs w (repeat 0%Z (S leafs)) [] W ltac:(lia) F) as [cl1 [R1 R2]]; [rewrite repeat_length; cbn [length]; lia|reflexivity|].
  cbn [length Z.of_nat] in R1. rewrite R1. cbn [pbind]. rewrite R2. cbn [length app Nat.add]. f_equal. f_equal. f_equal. f_equal. cbn [repeat skipn].
  replace leafs with (length vs + (leafs - length vs))%nat at 1 by lia. rewrite repeat_app, skipn_app, repeat_length, Nat.sub_diag, skipn_all2 by (rewrite repeat_length; lia). reflexivity.
Qed.

Print Assumptions C16_word.
Print Assumptions C16_quoted.
Print Assumptions C17_command_line.
Print Assumptions C22_integers.
Print Assumptions C22_no_integer.
Print Assumptions C22_reals.
Print Assumptions C22_first_line.
Print Assumptions C63_first_line.
Print Assumptions C63_am_table.

(** "  foo" and a quoted text that ends in two backslashes; a PRT1-AM file of three clusters and two leafs. *)
Example C16_word_nontrivial :
  parse_token PARSE_NORMAL (mkPS [] false [10; 32; 102; 111; 111; 9; 97; 0] 7 1) = T_ret true (mkPS [102; 111; 111] false [9; 97; 0] 2 2) /\
  parse_token PARSE_NORMAL (mkPS [] false [32; 34; 97; 92; 92; 34; 98; 0] 7 1) = T_ret true (mkPS [97; 92; 92] true [98; 0] 1 1) /\
  load_prt false (write_am 3 [] [2; 0]%nat) = P_ok (mkPrt 3 2 [] [0; 2; 0; 0]%Z).
Proof. vm_compute. repeat split; reflexivity. Qed.
