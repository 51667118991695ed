(* Lemmas about the tokenizer model. *)
From Coq Require Import List Arith NArith Bool Lia.
Import ListNotations.
From Verif Require Import Base ParserModel.
Local Open Scope N_scope.

(** Specification vocabulary, independent of the scanning functions. *)

(** The start of a comment: [;] or [//]. *)
Definition comment_start (c : bytes) : Prop :=
  exists x, c = 59 :: x \/ c = 47 :: 47 :: x.

(** What lies between tokens: blanks (not NUL) and comments up to and including a newline. *)
Inductive gap : bytes -> Prop :=
| gap_nil : gap []
| gap_blank : forall c g, blank c = true -> c <> 0 -> gap g -> gap (c :: g)
| gap_comment : forall c g, comment_start c -> Forall (fun x => x <> 0 /\ x <> 10) c -> gap g ->
    gap (c ++ 10 :: g).

Definition newlines (u : bytes) : nat := length (filter (fun x => x =? 10) u).

(** The text [u] consumed when a token is returned, with the byte [nx] that follows. *)
Definition token_text (f : N) (u tok : bytes) (quoted : bool) (nx : N) (line line' : nat) : Prop :=
  exists g, gap g /\ line' = (line + newlines g)%nat /\
    (quoted = true /\ f_comment f = false /\ u = g ++ 34 :: tok ++ [34] \/
     quoted = false /\ f_comment f = false /\ u = g ++ tok /\ tok <> [] /\
       (exists c r, tok = c :: r /\ c <> 34 /\ ~ comment_start (tok ++ [nx])) /\
       Forall (fun x => blank x = false) tok /\ blank nx = true \/
     quoted = false /\ f_comment f = true /\ u = g ++ tok /\ comment_start tok /\
       Forall (fun x => x <> 0 /\ x <> 10) tok /\ (nx = 0 \/ nx = 10)).

(** The text consumed when no token is returned. *)
Definition no_token (f : N) (u v : bytes) (n : nat) (line line' : nat) : Prop :=
  exists g, gap g /\ line' = (line + newlines g)%nat /\
    (u = g /\ n = O \/
     u = g /\ hd 0 v = 0 \/
     (exists c, u = g ++ c /\ comment_start c /\ hd 0 v = 0) \/
     u = g /\ f_optional f = true /\ (hd 0 v = 10 \/ comment_start v) \/
     u = g /\ f_comment f = true).

Lemma take_word_spec : forall t r n acc,
  exists u v, t = u ++ v /\ take_word (t ++ 0 :: r) n acc = Some (acc ++ u, v ++ 0 :: r, (n - length u)%nat)
    /\ Forall (fun x => blank x = false) u /\ blank (hd 0 (v ++ 0 :: r)) = true.
Proof.
  induction t as [|c t IH]; intros r n acc; simpl.
  - exists [], []. simpl. rewrite app_nil_r, Nat.sub_0_r. auto.
  - destruct (blank c) eqn:B.
    + exists [], (c :: t). simpl. rewrite app_nil_r, Nat.sub_0_r. auto.
    + destruct (IH r (pred n) (acc ++ [c])) as [u [v [E [H [F N]]]]].
      exists (c :: u), v. subst t. split; [reflexivity|]. split; [|split; [constructor; assumption|exact N]].
      rewrite H, <- app_assoc. simpl. replace (pred n - length u)%nat with (n - S (length u))%nat by lia. reflexivity.
Qed.

Lemma take_comment_spec : forall t r n acc,
  exists u v, t = u ++ v /\ take_comment (t ++ 0 :: r) n acc = Some (acc ++ u, v ++ 0 :: r, (n - length u)%nat)
    /\ Forall (fun x => x <> 0 /\ x <> 10) u /\ (hd 0 (v ++ 0 :: r) = 0 \/ hd 0 (v ++ 0 :: r) = 10).
Proof.
  induction t as [|c t IH]; intros r n acc; simpl.
  - exists [], []. simpl. rewrite app_nil_r, Nat.sub_0_r. auto.
  - destruct ((c =? 0) || (c =? 10)) eqn:B.
    + exists [], (c :: t). simpl. rewrite app_nil_r, Nat.sub_0_r. split; [reflexivity|]. split; [reflexivity|].
      split; [constructor|]. apply orb_true_iff in B. destruct B as [B|B]; apply N.eqb_eq in B; auto.
    + destruct (IH r (pred n) (acc ++ [c])) as [u [v [E [H [F N]]]]].
      exists (c :: u), v. subst t. apply orb_false_iff in B. destruct B as [B1 B2].
      apply N.eqb_neq in B1. apply N.eqb_neq in B2.
      split; [reflexivity|]. split; [|split; [constructor; auto|exact N]].
      rewrite H, <- app_assoc. simpl. replace (pred n - length u)%nat with (n - S (length u))%nat by lia. reflexivity.
Qed.

(** A quoted body on NUL-terminated text: an error, or everything up to a closing quote. *)
Lemma take_quoted_spec : forall m t r n acc, (length t <= m)%nat ->
  take_quoted (t ++ 0 :: r) n acc = Q_error \/
  exists u v, t = u ++ 34 :: v /\
    take_quoted (t ++ 0 :: r) n acc = Q_ok (acc ++ u) (v ++ 0 :: r) (n - length u - 1)%nat.
Proof.
  induction m as [|m IH]; intros t r n acc Hm.
  - destruct t; [|simpl in Hm; lia]. simpl. auto.
  - destruct t as [|c t]; [simpl; auto|]. simpl in Hm.
    (* continuing after one or two copied characters *)
    assert (One : forall tail, t = tail -> take_quoted (tail ++ 0 :: r) (pred n) (acc ++ [c]) = Q_error \/
       exists u v, c :: t = u ++ 34 :: v /\
       take_quoted (tail ++ 0 :: r) (pred n) (acc ++ [c]) = Q_ok (acc ++ u) (v ++ 0 :: r) (n - length u - 1)%nat).
    { intros tail Ht. subst tail. destruct (IH t r (pred n) (acc ++ [c]) ltac:(lia)) as [H|[u [v [E H]]]]; [auto|].
      right. exists (c :: u), v. subst t. split; [reflexivity|]. rewrite H, <- app_assoc. simpl. f_equal. lia. }
    cbn [app take_quoted].
    destruct (c =? 34) eqn:Eq.
    { apply N.eqb_eq in Eq. subst. right. exists [], t. rewrite app_nil_r. split; [reflexivity|]. f_equal. simpl. lia. }
    destruct (c =? 0) eqn:E0; [auto|].
    destruct (c =? 92) eqn:Eb.
    + destruct t as [|d t].
      * cbn [app]. simpl. auto.
      * cbn [app]. assert (Two : take_quoted (t ++ 0 :: r) (pred (pred n)) (acc ++ [c; d]) = Q_error \/
         exists u v, c :: d :: t = u ++ 34 :: v /\
         take_quoted (t ++ 0 :: r) (pred (pred n)) (acc ++ [c; d]) = Q_ok (acc ++ u) (v ++ 0 :: r) (n - length u - 1)%nat).
        { simpl in Hm. destruct (IH t r (pred (pred n)) (acc ++ [c; d]) ltac:(lia)) as [H|[u [v [E H]]]]; [auto|].
          right. exists (c :: d :: u), v. subst t. split; [reflexivity|]. rewrite H, <- app_assoc. simpl. f_equal. lia. }
        destruct (esc_pair d); [exact Two|].
        destruct (d =? 34) eqn:Ed; [|apply (One (d :: t) eq_refl)].
        destruct (t ++ 0 :: r) as [|e x] eqn:Et; [destruct t; discriminate|].
        rewrite <- Et in *.
        destruct ((e =? 13) || (e =? 10)); [|exact Two].
        exact (One (d :: t) eq_refl).
    + apply (One t eq_refl).
Qed.

Lemma blank_0 : blank 0 = true. Proof. reflexivity. Qed.

Lemma newlines_app : forall a b, newlines (a ++ b) = (newlines a + newlines b)%nat.
Proof. intros. unfold newlines. rewrite filter_app, app_length. reflexivity. Qed.

Lemma newlines_none : forall c, Forall (fun x => x <> 0 /\ x <> 10) c -> newlines c = O.
Proof.
  induction 1 as [|x l [H0 H1] _ IH]; [reflexivity|]. unfold newlines in *. simpl.
  destruct (x =? 10) eqn:E; [apply N.eqb_eq in E; contradiction|]. exact IH.
Qed.

(** Prepending skipped text. *)
Definition skip_ok (f : N) (t r : bytes) (n line : nat) (res : tres) : Prop :=
  res = T_error \/
  exists b q u v, res = T_ret b q /\ t = u ++ v /\ ps_mem q = v ++ 0 :: r /\
    ps_left q = (n - length u)%nat /\
    (if b then token_text f u (ps_token q) (ps_quoted q) (hd 0 (v ++ 0 :: r)) line (ps_line q)
     else ps_token q = [] /\ ps_quoted q = false /\ no_token f u (v ++ 0 :: r) (ps_left q) line (ps_line q)).

Lemma skip_ok_cons : forall f c t r n line res, blank c = true -> c <> 0 -> n <> O ->
  skip_ok f t r (pred n) (line + newlines [c])%nat res -> skip_ok f (c :: t) r n line res.
Proof.
  intros f c t r n line res B N0 Hn [H|[b [q [u [v [H1 [H2 [H3 [H4 H5]]]]]]]]]; [left; exact H|].
  right. exists b, q, (c :: u), v. subst res t. split; [reflexivity|]. split; [reflexivity|].
  split; [exact H3|]. split; [rewrite H4; simpl; lia|].
  destruct b.
  - destruct H5 as [g [G [L S]]]. exists (c :: g). split; [apply gap_blank; auto|].
    split; [rewrite L; change (c :: g) with ([c] ++ g); rewrite newlines_app; lia|].
    destruct S as [[Q [F E]]|[[Q [F [E S]]]|[Q [F [E S]]]]].
    + left. subst u. auto.
    + right; left. subst u. auto.
    + right; right. subst u. auto.
  - destruct H5 as [T [Q [g [G [L S]]]]]. split; [exact T|]. split; [exact Q|].
    exists (c :: g). split; [apply gap_blank; auto|].
    split; [rewrite L; change (c :: g) with ([c] ++ g); rewrite newlines_app; lia|].
    destruct S as [[E S]|[[E S]|[[d [E S]]|[[E S]|[E S]]]]].
    + left. subst u. auto.
    + right; left. subst u. auto.
    + right; right; left. exists d. subst u. auto.
    + right; right; right; left. subst u. auto.
    + right; right; right; right. subst u. auto.
Qed.

Lemma skip_ok_comment : forall f c t r n line res,
  comment_start c -> Forall (fun x => x <> 0 /\ x <> 10) c ->
  skip_ok f t r (n - length c - 1)%nat (S line) res ->
  skip_ok f (c ++ 10 :: t) r n line res.
Proof.
  intros f c t r n line res C F [H|[b [q [u [v [H1 [H2 [H3 [H4 H5]]]]]]]]]; [left; exact H|].
  right. exists b, q, (c ++ 10 :: u), v. subst res t. split; [reflexivity|].
  split; [rewrite <- app_assoc; reflexivity|].
  split; [exact H3|]. split; [rewrite H4, app_length; simpl; lia|].
  assert (NL : forall g : bytes, (line + newlines (c ++ 10%N :: g))%nat = (S line + newlines g)%nat).
  { intro g. rewrite newlines_app, (newlines_none c F). change (10 :: g) with ([10] ++ g).
    rewrite newlines_app. simpl. lia. }
  destruct b.
  - destruct H5 as [g [G [L S]]]. exists (c ++ 10 :: g). split; [apply gap_comment; auto|].
    split; [rewrite L, NL; reflexivity|].
    destruct S as [[Q [E0 E]]|[[Q [E0 [E S]]]|[Q [E0 [E S]]]]].
    + left. subst u. rewrite <- app_assoc. auto.
    + right; left. subst u. rewrite <- app_assoc. auto.
    + right; right. subst u. rewrite <- app_assoc. auto.
  - destruct H5 as [T [Q [g [G [L S]]]]]. split; [exact T|]. split; [exact Q|].
    exists (c ++ 10 :: g). split; [apply gap_comment; auto|].
    split; [rewrite L, NL; reflexivity|].
    destruct S as [[E S]|[[E S]|[[d [E S]]|[[E S]|[E S]]]]].
    + left. subst u. auto.
    + right; left. subst u. auto.
    + right; right; left. exists d. subst u. rewrite <- app_assoc. auto.
    + right; right; right; left. subst u. auto.
    + right; right; right; right. subst u. auto.
Qed.

(** Returning without a token at the current position. *)
Lemma skip_ok_stop : forall f t r n line,
  (n = O \/ hd 0 (t ++ 0 :: r) = 0 \/ (f_optional f = true /\ (hd 0 (t ++ 0 :: r) = 10 \/ comment_start (t ++ 0 :: r)))
   \/ f_comment f = true) ->
  skip_ok f t r n line (T_ret false (mkPS [] false (t ++ 0 :: r) n line)).
Proof.
  intros f t r n line H. right. exists false, (mkPS [] false (t ++ 0 :: r) n line), [], t. simpl.
  split; [reflexivity|]. split; [reflexivity|]. split; [reflexivity|]. split; [lia|].
  split; [reflexivity|]. split; [reflexivity|]. exists []. split; [constructor|].
  split; [unfold newlines; simpl; lia|].
  destruct H as [H|[H|[H|H]]]; auto 6.
Qed.

Lemma copy_token_spec : forall f t r n line, n <> O ->
  (forall c t', t ++ 0 :: r = c :: t' -> blank c = false) -> ~ comment_start (t ++ 0 :: r) ->
  skip_ok f t r n line (copy_token f (t ++ 0 :: r) n line).
Proof.
  intros f t r n line Hn Hb Hc. unfold copy_token. destruct (f_comment f) eqn:FC.
  { apply skip_ok_stop. auto. }
  destruct t as [|c t]; [specialize (Hb 0 r eq_refl); discriminate|].
  specialize (Hb c (t ++ 0 :: r) eq_refl). cbn [app].
  destruct (c =? 34) eqn:E34.
  - apply N.eqb_eq in E34. subst c.
    destruct (take_quoted_spec (length t) t r (pred n) [] (le_n _)) as [H|[u [v [E H]]]]; rewrite H.
    + left. reflexivity.
    + right. exists true. eexists. exists (34 :: u ++ [34]), v. split; [reflexivity|]. simpl.
      split; [subst t; rewrite <- app_assoc; reflexivity|]. split; [reflexivity|].
      split; [rewrite app_length; simpl; lia|].
      exists []. split; [constructor|]. split; [unfold newlines; simpl; lia|]. left. auto.
  - destruct (take_word_spec (c :: t) r n []) as [u [v [E [H [F N]]]]].
    cbn [app] in H. rewrite H. right. exists true. eexists. exists u, v.
    split; [reflexivity|]. simpl. split; [exact E|]. split; [reflexivity|]. split; [reflexivity|].
    destruct u as [|c' u'].
    { exfalso. simpl in E. subst v. simpl in N. rewrite Hb in N. discriminate. }
    injection E as E1 E2. subst c'.
    exists []. split; [constructor|]. split; [unfold newlines; simpl; lia|]. right; left.
    split; [reflexivity|]. split; [exact FC|]. split; [reflexivity|]. split; [discriminate|].
    split; [|split; [exact F|exact N]].
    exists c, u'. split; [reflexivity|]. split; [apply N.eqb_neq; exact E34|].
    intros [x [X|X]].
    + injection X as X1 X2. subst c. apply Hc. exists (t ++ 0 :: r). left. reflexivity.
    + injection X as X1 X2. subst c. apply Hc.
      destruct u' as [|d u''].
      * simpl in X2. injection X2 as X2 X3. exists (tl (v ++ 0 :: r)). right. subst t. simpl.
        destruct v as [|d v']; simpl in *; [discriminate|]. rewrite X2. reflexivity.
      * injection X2 as X2 X3. exists (u'' ++ v ++ 0 :: r). right. subst t d. simpl. rewrite <- app_assoc. reflexivity.
Qed.

(** The comment loop (common/parser.cc:131-137), entered at [t] which does not start with NUL. *)
Lemma skip_comment : forall f t r n line, f_sameline f = false -> t <> [] -> hd 0 t <> 0 ->
  (exists a t', t = a ++ 10 :: t' /\ Forall (fun x => x <> 0 /\ x <> 10) a /\ skip f true (t ++ 0 :: r) n line = skip f false (t' ++ 0 :: r) (n - length a - 1)%nat (S line)) \/
  (exists a v, t = a ++ v /\ Forall (fun x => x <> 0 /\ x <> 10) a /\ a <> [] /\ hd 0 (v ++ 0 :: r) = 0 /\ skip f true (t ++ 0 :: r) n line = T_ret false (mkPS [] false (v ++ 0 :: r) (n - length a)%nat line)).
Proof.
  intros f t r. induction t as [|c t IH]; intros n line SL NE H0; [contradiction|].
  simpl in H0. cbn [app skip].
  destruct (c =? 10) eqn:E10.
  - apply N.eqb_eq in E10. subst c. left. exists [], t. split; [reflexivity|]. split; [constructor|].
    replace (n - length (@nil N) - 1)%nat with (pred n) by (simpl; lia). reflexivity.
  - apply N.eqb_neq in E10.
    destruct t as [|d t].
    + cbn [app]. cbn. rewrite SL. right. exists [c], []. split; [reflexivity|].
      split; [constructor; auto|]. split; [discriminate|]. split; [reflexivity|].
      replace (n - length [c])%nat with (pred n) by (simpl; lia). reflexivity.
    + cbn [app]. destruct (d =? 0) eqn:D0.
      * apply N.eqb_eq in D0. subst d. rewrite SL. right. exists [c], (0 :: t). split; [reflexivity|].
        split; [constructor; auto|]. split; [discriminate|]. split; [reflexivity|].
        replace (n - length [c])%nat with (pred n) by (simpl; lia). reflexivity.
      * apply N.eqb_neq in D0.
        destruct (IH (pred n) line SL ltac:(discriminate) D0) as [[a [t' [E [F H]]]]|[a [v [E [F [A [V H]]]]]]].
        -- left. exists (c :: a), t'. split; [rewrite E; reflexivity|]. split; [constructor; auto|].
           cbn [app] in H. rewrite H. replace (pred n - length a - 1)%nat with (n - length (c :: a) - 1)%nat by (simpl; lia).
           reflexivity.
        -- right. exists (c :: a), v. split; [rewrite E; reflexivity|]. split; [constructor; auto|].
           split; [discriminate|]. split; [exact V|].
           cbn [app] in H. rewrite H. replace (pred n - length a)%nat with (n - length (c :: a))%nat by (simpl; lia).
           reflexivity.
Qed.

Lemma skip_eq_blank : forall f c s n line, n <> O -> blank c = true -> c <> 0 -> c <> 10 ->
  skip f false (c :: s) n line = skip f false s (pred n) line.
Proof.
  intros f c s n line Hn B H0 H10. destruct n; [contradiction|]. cbn [skip]. rewrite B.
  apply N.eqb_neq in H0. apply N.eqb_neq in H10. rewrite H0, H10. reflexivity.
Qed.

Lemma eol_cases : forall f s n line,
  (eol f s n line = Some (T_ret false (mkPS [] false s n line)) /\ f_optional f = true) \/
  eol f s n line = Some T_error \/ (eol f s n line = None /\ f_optional f = false /\ f_sameline f = false).
Proof.
  intros. unfold eol. destruct (f_optional f); [auto|]. destruct (f_sameline f); auto.
Qed.

(** From a comment start, the comment loop of the code. *)
Lemma comment_step : forall f c s n line, f_sameline f = false -> c <> 10 ->
  (match s with
  | [] => T_UB
  | d :: _ => if d =? 0 then T_ret false (mkPS [] false s (pred n) line) else skip f true s (pred n) line
  end) = skip f true (c :: s) n line.
Proof.
  intros f c s n line SL H. cbn [skip]. apply N.eqb_neq in H. rewrite H.
  destruct s as [|d s]; [reflexivity|]. destruct (d =? 0); [rewrite SL|]; reflexivity.
Qed.

Lemma comment_start_prefix : forall a x, comment_start (a ++ x) -> a <> [] ->
  Forall (fun x => x <> 0 /\ x <> 10) a -> (hd 0 x = 0 \/ hd 0 x = 10) -> comment_start a.
Proof.
  intros a x [y [H|H]] NE F X; destruct a as [|c a]; try contradiction.
  - injection H as H1 H2. subst. exists a. auto.
  - destruct a as [|d a].
    + injection H as H1 H2. subst. simpl in X. destruct X; discriminate.
    + injection H as H1 H2 H3. subst. exists a. auto.
Qed.

Lemma skip_spec : forall m f t r n line, (length t <= m)%nat -> (n <= length t)%nat ->
  skip_ok f t r n line (skip f false (t ++ 0 :: r) n line).
Proof.
  induction m as [|m IH]; intros f t r n line Hm Hn.
  { destruct t; [|simpl in Hm; lia]. simpl in Hn. assert (n = O) by lia. subst n.
    cbn [app skip]. destruct (eol_cases f (0 :: r) 0 line) as [[E _]|[E|[E _]]]; rewrite E.
    - apply (skip_ok_stop f [] r 0 line). auto.
    - left. reflexivity.
    - apply (skip_ok_stop f [] r 0 line). auto. }
  destruct n as [|n'].
  { replace (skip f false (t ++ 0 :: r) 0 line) with
      (match eol f (t ++ 0 :: r) 0 line with Some q => q | None => T_ret false (mkPS [] false (t ++ 0 :: r) 0 line) end)
      by (destruct t; reflexivity).
    destruct (eol_cases f (t ++ 0 :: r) 0 line) as [[E _]|[E|[E _]]]; rewrite E.
    - apply skip_ok_stop. auto.
    - left. reflexivity.
    - apply skip_ok_stop. auto. }
  destruct t as [|c t]; [simpl in Hn; lia|]. simpl in Hn, Hm.
  set (n := S n') in *.
  assert (Hn0 : n <> O) by (subst n; discriminate).
  destruct (blank c) eqn:B.
  - destruct (c =? 0) eqn:E0.
    + replace (skip f false ((c :: t) ++ 0 :: r) n line) with
        (match eol f ((c :: t) ++ 0 :: r) n line with Some q => q | None => T_ret false (mkPS [] false ((c :: t) ++ 0 :: r) n line) end)
        by (subst n; cbn [app skip]; rewrite B, E0; reflexivity).
      apply N.eqb_eq in E0. subst c.
      destruct (eol_cases f ((0 :: t) ++ 0 :: r) n line) as [[E _]|[E|[E _]]]; rewrite E.
      * apply skip_ok_stop. auto.
      * left. reflexivity.
      * apply skip_ok_stop. auto.
    + destruct (c =? 10) eqn:E10.
      * replace (skip f false ((c :: t) ++ 0 :: r) n line) with
        (match eol f ((c :: t) ++ 0 :: r) n line with Some q => q | None => skip f false (t ++ 0 :: r) (pred n) (S line) end)
        by (subst n; cbn [app skip]; rewrite B, E0, E10; reflexivity).
        apply N.eqb_eq in E10. subst c.
        destruct (eol_cases f ((10 :: t) ++ 0 :: r) n line) as [[E O]|[E|[E _]]]; rewrite E.
        -- apply skip_ok_stop. right; right; left. auto.
        -- left. reflexivity.
        -- apply skip_ok_cons; auto; [discriminate|].
           change (newlines [10%N]) with 1%nat. rewrite Nat.add_1_r.
           apply IH; lia.
      * cbn [app]. apply N.eqb_neq in E0. apply N.eqb_neq in E10.
        rewrite skip_eq_blank; auto. apply skip_ok_cons; auto.
        replace (line + newlines [c])%nat with line.
        -- apply IH; lia.
        -- unfold newlines. simpl. apply N.eqb_neq in E10. rewrite E10. simpl. lia.
  - (* a token or a comment starts here *)
    assert (Hc0 : c <> 0) by (intro X; subst c; discriminate).
    assert (Hc10 : c <> 10) by (intro X; subst c; discriminate).
    set (cs := if c =? 47 then match t ++ 0 :: r with [] => None | d :: _ => Some (d =? 47) end else Some (c =? 59)).
    assert (CS : (cs = Some true /\ comment_start ((c :: t) ++ 0 :: r)) \/
                 (cs = Some false /\ ~ comment_start ((c :: t) ++ 0 :: r))).
    { subst cs. destruct (c =? 47) eqn:E47.
      - apply N.eqb_eq in E47. subst c. destruct t as [|d t]; cbn [app].
        + right. split; [reflexivity|]. intros [x [X|X]]; discriminate.
        + destruct (d =? 47) eqn:D; [apply N.eqb_eq in D; subst d|apply N.eqb_neq in D].
          * left. split; [reflexivity|]. exists (t ++ 0 :: r). auto.
          * right. split; [reflexivity|]. intros [x [X|X]]; [discriminate|]. injection X as X1 X2. contradiction.
      - apply N.eqb_neq in E47. destruct (c =? 59) eqn:E59; [apply N.eqb_eq in E59|apply N.eqb_neq in E59].
        + subst c. left. split; [reflexivity|]. exists (t ++ 0 :: r). auto.
        + right. split; [reflexivity|]. intros [x [X|X]]; injection X as X1 X2; contradiction. }
    replace (skip f false ((c :: t) ++ 0 :: r) n line) with
      (match cs with
       | None => T_UB
       | Some true =>
         if f_comment f then
           match take_comment ((c :: t) ++ 0 :: r) n [] with
           | Some (tok, rest, lft) => T_ret true (mkPS tok false rest lft line)
           | None => T_UB
           end
         else match eol f ((c :: t) ++ 0 :: r) n line with
              | Some q => q
              | None => match t ++ 0 :: r with
                        | [] => T_UB
                        | d :: _ => if d =? 0 then T_ret false (mkPS [] false (t ++ 0 :: r) (pred n) line)
                                    else skip f true (t ++ 0 :: r) (pred n) line
                        end
              end
       | Some false => copy_token f ((c :: t) ++ 0 :: r) n line
       end) by (subst n cs; cbn [app skip]; rewrite B; reflexivity).
    destruct CS as [[C1 C2]|[C1 C2]]; rewrite C1.
    + destruct (f_comment f) eqn:FC.
      * destruct (take_comment_spec (c :: t) r n []) as [u [v [E [H [F X]]]]]. rewrite H.
        right. exists true. eexists. exists u, v. split; [reflexivity|]. simpl.
        split; [exact E|]. split; [reflexivity|]. split; [reflexivity|].
        assert (U : u <> []).
        { intro U. subst u. simpl in E. subst v. simpl in X. destruct X; contradiction. }
        exists []. split; [constructor|]. split; [unfold newlines; simpl; lia|]. right; right.
        split; [reflexivity|]. split; [exact FC|]. split; [reflexivity|].
        split; [|split; [exact F|exact X]].
        apply (comment_start_prefix u (v ++ 0 :: r)); auto.
        rewrite app_assoc, <- E. exact C2.
      * destruct (eol_cases f ((c :: t) ++ 0 :: r) n line) as [[E O]|[E|[E [O SL]]]]; rewrite E.
        -- apply skip_ok_stop. right; right; left. auto.
        -- left. reflexivity.
        -- rewrite (comment_step f c (t ++ 0 :: r) n line SL Hc10).
           destruct (skip_comment f (c :: t) r n line SL ltac:(discriminate) Hc0)
             as [[a [t' [Ea [F H]]]]|[a [v [Ea [F [A [V H]]]]]]]; cbn [app] in H; rewrite H.
           ++ assert (La : length (c :: t) = (length a + 1 + length t')%nat) by (rewrite Ea, app_length; simpl; lia).
              rewrite Ea. apply skip_ok_comment; [| exact F|].
              ** apply (comment_start_prefix a (10 :: t' ++ 0 :: r)); auto.
                 --- rewrite Ea in C2. rewrite <- app_assoc in C2. exact C2.
                 --- intro X. subst a. injection Ea as X1 X2. contradiction.
              ** simpl in La. apply IH; lia.
           ++ right. exists false. eexists. exists a, v. split; [reflexivity|]. simpl.
              split; [exact Ea|]. split; [reflexivity|]. split; [reflexivity|].
              split; [reflexivity|]. split; [reflexivity|].
              exists []. split; [constructor|]. split; [unfold newlines; simpl; lia|].
              right; right; left. exists a. split; [reflexivity|]. split; [|exact V].
              apply (comment_start_prefix a (v ++ 0 :: r)); auto.
              rewrite app_assoc, <- Ea. exact C2.
    + apply copy_token_spec; auto. intros d t' X. injection X as X1 X2. subst d. exact B.
Qed.

(** ** Consequences for [parse_token] *)

(** The parser stands in NUL-terminated text: [t] is left before the terminator. *)
Definition in_text (p : pstate) (t r : bytes) : Prop :=
  ps_mem p = t ++ 0 :: r /\ (ps_left p <= length t)%nat.

Lemma parse_token_ok : forall f p t r, in_text p t r -> f_peek f = false ->
  skip_ok f t r (ps_left p) (ps_line p) (parse_token f p).
Proof.
  intros f p t r [M L] P. unfold parse_token. rewrite P, M. apply (skip_spec (length t)); auto.
Qed.

Lemma token_text_nonempty : forall f u tok q nx l l', token_text f u tok q nx l l' -> u <> [].
Proof.
  intros f u tok q nx l l' [g [_ [_ [[_ [_ E]]|[[_ [_ [E [T _]]]]|[_ [_ [E [[x [T|T]] _]]]]]]]]] X; subst u.
  - apply app_eq_nil in X. destruct X; discriminate.
  - apply app_eq_nil in X. destruct X; contradiction.
  - apply app_eq_nil in X. destruct X; subst; discriminate.
  - apply app_eq_nil in X. destruct X; subst; discriminate.
Qed.

Lemma parse_token_cases : forall f p t r, in_text p t r -> f_peek f = false ->
  parse_token f p = T_error \/
  exists b q u v, parse_token f p = T_ret b q /\ t = u ++ v /\ in_text q v r /\ (b = true -> u <> []).
Proof.
  intros f p t r I P. destruct (parse_token_ok f p t r I P) as [H|[b [q [u [v [H1 [H2 [H3 [H4 H5]]]]]]]]]; [auto|].
  right. exists b, q, u, v. split; [exact H1|]. split; [exact H2|]. split.
  - split; [exact H3|]. destruct I as [_ L]. rewrite H4. subst t. rewrite app_length in L. lia.
  - intro B. subst b. eapply token_text_nonempty. exact H5.
Qed.

(** [k] successive tokens, each call with any flags but PEEK. *)
Inductive tokens_run : pstate -> nat -> pstate -> Prop :=
| run_nil : forall p, tokens_run p O p
| run_step : forall p f q k s, f_peek f = false -> parse_token f p = T_ret true q ->
    tokens_run q k s -> tokens_run p (S k) s.

Lemma tokens_run_bound : forall p k s, tokens_run p k s -> forall t r, in_text p t r ->
  exists u v, t = u ++ v /\ in_text s v r /\ (k <= length u)%nat.
Proof.
  induction 1 as [p|p f q k s P H R IH]; intros t r I.
  - exists [], t. simpl. auto.
  - destruct (parse_token_cases f p t r I P) as [E|[b [q' [u [v [E [E2 [I2 U]]]]]]]]; rewrite E in H; [discriminate|].
    injection H as H1 H2. subst b q'. destruct (IH v r I2) as [u2 [v2 [E3 [I3 K]]]].
    exists (u ++ u2), v2. split; [subst; rewrite app_assoc; reflexivity|]. split; [exact I3|].
    specialize (U eq_refl). rewrite app_length. destruct u; [contradiction|]. simpl. lia.
Qed.

(** Peeking. *)
Lemma f_bits_ldiff : forall f, f_sameline (N.ldiff f PARSE_PEEK) = f_sameline f /\
  f_comment (N.ldiff f PARSE_PEEK) = f_comment f /\ f_optional (N.ldiff f PARSE_PEEK) = f_optional f /\
  f_peek (N.ldiff f PARSE_PEEK) = false.
Proof.
  intro f. unfold f_sameline, f_comment, f_optional, f_peek, PARSE_PEEK. rewrite !N.ldiff_spec.
  change (N.testbit 8 0) with false. change (N.testbit 8 1) with false.
  change (N.testbit 8 2) with false. change (N.testbit 8 3) with true. simpl.
  rewrite !andb_true_r, andb_false_r. auto.
Qed.

Lemma skip_flags : forall f g s, f_sameline f = f_sameline g -> f_comment f = f_comment g ->
  f_optional f = f_optional g -> forall b n line, skip f b s n line = skip g b s n line.
Proof.
  intros f g s S C O. assert (E : forall x n line, eol f x n line = eol g x n line)
    by (intros; unfold eol; rewrite S, O; reflexivity).
  assert (CT : forall x n line, copy_token f x n line = copy_token g x n line)
    by (intros; unfold copy_token; rewrite C; reflexivity).
  induction s as [|c s IH]; intros b n line.
  - destruct b; [reflexivity|]. destruct n; [cbn [skip]; rewrite E; reflexivity|reflexivity].
  - cbn [skip]. destruct b.
    + destruct (c =? 10); [apply IH|]. destruct s as [|d s]; [reflexivity|].
      destruct (d =? 0); [rewrite S; reflexivity|apply IH].
    + destruct n as [|n]; [rewrite E; reflexivity|].
      rewrite !E, C, CT, !IH. 
      destruct (blank c); [reflexivity|].
      destruct (if c =? 47 then match s with [] => None | d :: _ => Some (d =? 47) end else Some (c =? 59)) as [[|]|]; try reflexivity.
Qed.

(** The non-PEEK version of the flags, as line 90 calls it. *)
Lemma peek_spec : forall f p, f_peek f = true ->
  parse_token f p =
  match parse_token (N.ldiff f PARSE_PEEK) p with
  | T_ret b q => T_ret b (mkPS (ps_token q) (ps_quoted q) (ps_mem p) (ps_left p) (ps_line p))
  | r => r
  end.
Proof.
  intros f p P. destruct (f_bits_ldiff f) as [S [C [O K]]].
  unfold parse_token. rewrite P, K. rewrite (skip_flags _ f _ S C O).
  destruct (skip f false (ps_mem p) (ps_left p) (ps_line p)); reflexivity.
Qed.

(** ** Memory without a terminator, ending in a newline *)

Lemma take_word_mono : forall s x n acc tok rest k, take_word s n acc = Some (tok, rest, k) ->
  take_word (s ++ x) n acc = Some (tok, rest ++ x, k).
Proof.
  induction s as [|c s IH]; intros x n acc tok rest k H; simpl in *; [discriminate|].
  destruct (blank c); [injection H as H1 H2 H3; subst; reflexivity|]. apply IH. exact H.
Qed.

Lemma take_comment_mono : forall s x n acc tok rest k, take_comment s n acc = Some (tok, rest, k) ->
  take_comment (s ++ x) n acc = Some (tok, rest ++ x, k).
Proof.
  induction s as [|c s IH]; intros x n acc tok rest k H; simpl in *; [discriminate|].
  destruct ((c =? 0) || (c =? 10)); [injection H as H1 H2 H3; subst; reflexivity|]. apply IH. exact H.
Qed.

Definition q_ext (x : bytes) (q : qres) : qres :=
  match q with Q_ok tok rest k => Q_ok tok (rest ++ x) k | r => r end.

Lemma take_quoted_nul : forall m s n acc, (length s <= m)%nat ->
  take_quoted (s ++ [0]) n acc =
  match take_quoted s n acc with Q_UB => Q_error | q => q_ext [0] q end.
Proof.
  induction m as [|m IH]; intros s n acc Hm.
  - destruct s; [reflexivity|simpl in Hm; lia].
  - destruct s as [|c s]; [reflexivity|]. simpl in Hm. cbn [app take_quoted].
    destruct (c =? 34); [reflexivity|]. destruct (c =? 0); [reflexivity|].
    destruct (c =? 92); [|apply IH; lia].
    destruct s as [|d s]; [reflexivity|]. cbn [app]. simpl in Hm.
    destruct (esc_pair d); [apply IH; lia|].
    destruct (d =? 34) eqn:D; [|apply (IH (d :: s)); simpl; lia].
    destruct s as [|e s]; [reflexivity|]. cbn [app].
    destruct ((e =? 13) || (e =? 10)).
    + apply (IH (d :: e :: s)). simpl in *. lia.
    + apply (IH (e :: s)). simpl in *. lia.
Qed.

Lemma take_word_nl : forall s n acc, take_word (s ++ [10]) n acc <> None.
Proof. induction s as [|c s IH]; intros n acc; simpl; [discriminate|]. destruct (blank c); [discriminate|apply IH]. Qed.

Lemma take_comment_nl : forall s n acc, take_comment (s ++ [10]) n acc <> None.
Proof.
  induction s as [|c s IH]; intros n acc; simpl; [discriminate|].
  destruct ((c =? 0) || (c =? 10)); [discriminate|apply IH].
Qed.

Definition t_ext (x : bytes) (r : tres) : tres :=
  match r with
  | T_ret b q => T_ret b (mkPS (ps_token q) (ps_quoted q) (ps_mem q ++ x) (ps_left q) (ps_line q))
  | r => r
  end.

Lemma copy_token_nl : forall f s n line, s <> [] ->
  copy_token f ((s ++ [10]) ++ [0]) n line =
  match copy_token f (s ++ [10]) n line with T_UB => T_error | r => t_ext [0] r end.
Proof.
  intros f s n line NE. unfold copy_token. destruct (f_comment f); [reflexivity|].
  destruct s as [|c s]; [contradiction|]. cbn [app].
  destruct (c =? 34).
  - rewrite (take_quoted_nul (length (s ++ [10]))) by lia.
    destruct (take_quoted (s ++ [10]) (pred n) []); reflexivity.
  - destruct (take_word (c :: s ++ [10]) n []) as [[[tok rest] k]|] eqn:E.
    + change (c :: (s ++ [10]) ++ [0]) with ((c :: s ++ [10]) ++ [0]).
      rewrite (take_word_mono _ [0] _ _ _ _ _ E). reflexivity.
    + exfalso. apply (take_word_nl (c :: s) n []). exact E.
Qed.

(** Scanning a file image that ends in a newline (or is exhausted): reading outside it
    happens only where the NUL-terminated text is rejected. *)
Lemma skip_nl : forall f s,
  (forall n line, (n <= length (s ++ [10%N]))%nat ->
    skip f false ((s ++ [10]) ++ [0]) n line =
    match skip f false (s ++ [10]) n line with T_UB => T_error | r => t_ext [0] r end) /\
  (forall n line, f_sameline f = false -> f_optional f = false -> (n <= length (s ++ [10%N]))%nat ->
    skip f true ((s ++ [10]) ++ [0]) n line =
    match skip f true (s ++ [10]) n line with T_UB => T_error | r => t_ext [0] r end).
Proof.
  intros f. 
  assert (Z0 : forall n line, (n <= 0)%nat ->
     skip f false ([] ++ [0]) n line = match skip f false [] n line with T_UB => T_error | r => t_ext [0] r end).
  { intros n line H. assert (n = O) by lia. subst. cbn [app skip]. unfold eol.
    destruct (f_optional f); [reflexivity|]. destruct (f_sameline f); reflexivity. }
  induction s as [|c s [IH1 IH2]].
  - split.
    + intros n line Hn. cbn [app]. cbn [skip]. destruct n as [|n].
      * unfold eol. destruct (f_optional f); [reflexivity|]. destruct (f_sameline f); reflexivity.
      * simpl in Hn. assert (n = O) by lia. subst n. change (blank 10) with true. change (10 =? 0) with false.
        change (10 =? 10) with true. cbn beta iota. unfold eol.
        destruct (f_optional f); [reflexivity|]. destruct (f_sameline f); [reflexivity|].
        change (pred 1) with 0%nat. reflexivity.
    + intros n line SL OP Hn. cbn [app skip]. change (10 =? 10) with true. cbn beta iota.
      specialize (Z0 (pred n) (S line) ltac:(simpl in Hn; lia)). cbn [app] in Z0. exact Z0.
  - assert (SNE : exists d x, s ++ [10] = d :: x /\ (s ++ [10]) ++ [0] = d :: x ++ [0]).
    { destruct s as [|d s]; [exists 10, []|exists d, (s ++ [10])]; split; reflexivity. }
    split.
    + intros n line Hn. cbn [app skip]. simpl in Hn. destruct n as [|n].
      { unfold eol. destruct (f_optional f); [reflexivity|]. destruct (f_sameline f); reflexivity. }
      change (pred (S n)) with n.
      destruct (blank c) eqn:B.
      * destruct (c =? 0).
        { unfold eol. destruct (f_optional f); [reflexivity|]. destruct (f_sameline f); reflexivity. }
        destruct (c =? 10).
        { unfold eol. destruct (f_optional f); [reflexivity|]. destruct (f_sameline f); [reflexivity|].
          apply IH1. lia. }
        apply IH1. lia.
      * destruct SNE as [d [x [E1 E2]]].
        assert (CT := copy_token_nl f (c :: s) (S n) line ltac:(discriminate)). cbn [app] in CT. 
        assert (TC : forall tok rest k, take_comment (c :: s ++ [10]) (S n) [] = Some (tok, rest, k) ->
            take_comment (c :: (s ++ [10]) ++ [0]) (S n) [] = Some (tok, rest ++ [0], k)).
        { intros tok rest k H. apply (take_comment_mono (c :: s ++ [10]) [0]). exact H. }
        assert (TN := take_comment_nl (c :: s) (S n) []). cbn [app] in TN.
        replace (if c =? 47 then match (s ++ [10]) ++ [0] with [] => None | d0 :: _ => Some (d0 =? 47) end else Some (c =? 59))
          with (if c =? 47 then match s ++ [10] with [] => None | d0 :: _ => Some (d0 =? 47) end else Some (c =? 59))
          by (rewrite E2, E1; reflexivity).
        assert (CS : exists b, (if c =? 47 then match s ++ [10] with [] => None | d0 :: _ => Some (d0 =? 47) end else Some (c =? 59)) = Some b)
          by (rewrite E1; destruct (c =? 47); eauto).
        destruct CS as [b CS]. rewrite CS. destruct b; [|exact CT].
        destruct (f_comment f).
        { destruct (take_comment (c :: s ++ [10]) (S n) []) as [[[tok rest] k]|]; [|contradiction].
          rewrite (TC _ _ _ eq_refl). reflexivity. }
        unfold eol. destruct (f_optional f) eqn:OP; [reflexivity|]. destruct (f_sameline f) eqn:SL; [reflexivity|].
        specialize (IH2 n line eq_refl eq_refl ltac:(lia)).
        rewrite E2, E1 in IH2. rewrite E2, E1. destruct (d =? 0); [reflexivity|]. exact IH2.
    + intros n line SL OP Hn. cbn [app skip]. destruct SNE as [d [x [E1 E2]]].
      destruct (c =? 10); [apply IH1; simpl in Hn; lia|].
      specialize (IH2 (pred n) line SL OP ltac:(simpl in Hn; lia)).
      rewrite E2, E1 in IH2. rewrite E2, E1. destruct (d =? 0); [rewrite SL; reflexivity|]. exact IH2.
Qed.
