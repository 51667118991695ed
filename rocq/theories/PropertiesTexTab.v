(* C151: the table of textures of a map, frames of animations, embedded textures, and the archives they come from. *)
From Coq Require Import List Arith NArith Bool Lia Permutation Sorted.
Import ListNotations.
From Verif Require Import NumCastModel Codec CmdlibModel SurfFlagsModel TexTabModel.
Local Open Scope list_scope.

(** Names that differ in letter case only *)
Definition low (n : name) : name := map lower n.
(** No two names of a table are the same but for letter case. *)
Definition uniq (tab : list name) : Prop := NoDup (map low tab).
Definition has_name (n : name) (tab : list name) : Prop := In (low n) (map low tab).
(** [b] is what follows the last slash of [n]. *)
Definition tail_of (n b : name) : Prop := ~ In 47%N b /\ (n = b \/ exists d, n = d ++ 47%N :: b).

Lemma ieq_iff : forall a b, iequals a b = true <-> low a = low b.
Proof.
  induction a as [|x a IH]; intros [|y b]; cbn [iequals low map]; try (split; [reflexivity || discriminate|reflexivity || discriminate]).
  rewrite andb_true_iff, N.eqb_eq, IH. unfold low. split; [intros [-> ->]; reflexivity|intros E; injection E; auto].
Qed.
Lemma place_some : forall n tab i, place n tab = Some i -> exists t, nth_error tab i = Some t /\ low t = low n.
Proof.
  intros n. induction tab as [|t tab IH]; intros i; cbn [place]; [discriminate|]. destruct (iequals n t) eqn:E.
  - intros [= <-]. exists t. split; [reflexivity|]. symmetry. apply ieq_iff, E.
  - destruct (place n tab) as [j|]; [|discriminate]. intros [= <-]. apply (IH j eq_refl).
Qed.
Lemma place_none : forall n tab, place n tab = None <-> ~ has_name n tab.
Proof.
  intros n. unfold has_name. induction tab as [|t tab IH]; cbn [place map In]; [tauto|]. destruct (iequals n t) eqn:E.
  - apply ieq_iff in E. split; [discriminate|]. intros H. exfalso. apply H. left. congruence.
  - destruct (place n tab) as [j|]; cbn [option_map].
    + split; [discriminate|]. intros H. apply proj2 in IH. discriminate IH. intros I. apply H. right. exact I.
    + split; [|reflexivity]. intros _ [Q|I]; [|exact (proj1 IH eq_refl I)]. symmetry in Q. apply ieq_iff in Q. congruence.
Qed.
Lemma has_place : forall n tab, has_name n tab -> exists i, place n tab = Some i.
Proof. intros n tab H. destruct (place n tab) as [i|] eqn:E; [eauto|]. apply place_none in E. contradiction. Qed.
Lemma place_app : forall n tab x i, place n tab = Some i -> place n (tab ++ x) = Some i.
Proof.
  intros n. induction tab as [|t tab IH]; intros x i; cbn [place app]; [discriminate|]. destruct (iequals n t); [auto|].
  destruct (place n tab) as [j|]; [|discriminate]. intros [= <-]. rewrite (IH x j eq_refl). reflexivity.
Qed.
Lemma place_snoc : forall n tab x, ~ has_name n tab -> place n (tab ++ x) = option_map (fun i => length tab + i) (place n x).
Proof.
  intros n. induction tab as [|t tab IH]; intros x H; cbn [place app length].
  - destruct (place n x); reflexivity.
  - destruct (iequals n t) eqn:E; [exfalso; apply H; left; symmetry; apply ieq_iff, E|]. rewrite IH by (intros I; apply H; right; exact I).
    destruct (place n x); reflexivity.
Qed.
Lemma place_low : forall a b tab, low a = low b -> place a tab = place b tab.
Proof.
  intros a b tab E. induction tab as [|t tab IH]; [reflexivity|]. cbn [place]. rewrite IH.
  replace (iequals b t) with (iequals a t); [reflexivity|]. destruct (iequals a t) eqn:X, (iequals b t) eqn:Y; auto.
  - apply ieq_iff in X. rewrite E in X. apply ieq_iff in X. congruence.
  - apply ieq_iff in Y. rewrite <- E in Y. apply ieq_iff in Y. congruence.
Qed.
Lemma uniq_snoc : forall n tab, uniq tab -> ~ has_name n tab -> uniq (tab ++ [n]).
Proof.
  intros n tab U H. unfold uniq in *. rewrite map_app. cbn [map]. apply (Permutation.Permutation_NoDup (l := low n :: map low tab)).
  - apply Permutation.Permutation_cons_append.
  - constructor; auto.
Qed.
Lemma base_tail : forall n, tail_of n (base_name n n).
Proof.
  assert (G : forall n acc, (~ In 47%N n /\ base_name n acc = acc) \/ (~ In 47%N (base_name n acc) /\ exists d, n = d ++ 47%N :: base_name n acc)).
  { induction n as [|c n IH]; intros acc; cbn [base_name]; [left; cbn; tauto|]. destruct (N.eqb_spec c 47) as [->|NE].
    - right. destruct (IH n) as [[NI ->]|[NI (d & E)]]; [split; [exact NI|exists []; reflexivity]|split; [exact NI|]]. exists (47%N :: d). cbn [app]. f_equal. exact E.
    - destruct (IH acc) as [[NI E]|[NI (d & E)]]; [left; split; [intros [X|X]; [lia|auto]|exact E]|right; split; [exact NI|]]. exists (c :: d). cbn [app]. f_equal. exact E. }
  intros n. unfold tail_of. destruct (G n n) as [[NI ->]|[NI E]]; auto.
Qed.
Lemma tail_unique : forall n a b, tail_of n a -> tail_of n b -> a = b.
Proof.
  assert (S : forall d e a b : name, ~ In 47%N a -> ~ In 47%N b -> d ++ 47%N :: a = e ++ 47%N :: b -> a = b).
  { induction d as [|x d IH]; intros [|y e] a b NA NB E; cbn [app] in E.
    - congruence.
    - injection E as <- ->. exfalso. apply NA. apply in_or_app. right. left. reflexivity.
    - injection E as -> <-. exfalso. apply NB. apply in_or_app. right. left. reflexivity.
    - injection E as _ E. eapply IH; eauto. }
  intros n a b [NA [->|(d & ->)]] [NB [E|(e & E)]].
  - exact E.
  - subst a. exfalso. apply NA. apply in_or_app. right. left. reflexivity.
  - subst b. exfalso. apply NB. apply in_or_app. right. left. reflexivity.
  - eapply S; eauto.
Qed.
Lemma tail_base : forall n b, tail_of n b -> base_name n n = b.
Proof. intros n b T. apply (tail_unique n); [apply base_tail|exact T]. Qed.

Definition clean (tab : list name) : Prop := forall n, In n tab -> ~ In 47%N n.
Lemma ws_clean : forall c n, c <> 47%N -> ~ In 47%N n -> ~ In 47%N (with_second c n).
Proof. intros c [|a [|b r]] NE NI; cbn in *; intuition. Qed.
Lemma lf_ext : forall base n k i tab, exists x, lower_frames base n i k tab = tab ++ x /\
  forall f, In f x -> exists j, (i <= j < i + N.of_nat k)%N /\ f = with_second (base + j) (firstn 15 n).
Proof.
  intros base n. induction k as [|k IH]; intros i tab; cbn [lower_frames]; [exists []; rewrite app_nil_r; split; [reflexivity|intros f []]|].
  destruct (place _ tab).
  - destruct (IH (i + 1)%N tab) as (x & -> & F). exists x. split; [reflexivity|]. intros f I. destruct (F f I) as (j & J & E). exists j. split; [lia|exact E].
  - destruct (IH (i + 1)%N (tab ++ [with_second (base + i) (firstn 15 n)])) as (x & -> & F). eexists (_ :: x). split; [rewrite <- app_assoc; reflexivity|].
    intros f [<-|I]; [exists i; split; [lia|reflexivity]|]. destruct (F f I) as (j & J & E). exists j. split; [lia|exact E].
Qed.
Lemma lf_uniq : forall base n k i tab, uniq tab -> uniq (lower_frames base n i k tab).
Proof.
  intros base n. induction k as [|k IH]; intros i tab U; cbn [lower_frames]; [exact U|]. apply IH. destruct (place _ tab) eqn:E; [exact U|].
  apply uniq_snoc; [exact U|]. apply place_none, E.
Qed.
Lemma has_app : forall n a b, has_name n (a ++ b) <-> has_name n a \/ has_name n b.
Proof. intros n a b. unfold has_name. rewrite map_app. apply in_app_iff. Qed.
Lemma lf_has : forall base n k i tab j, (i <= j < i + N.of_nat k)%N -> has_name (with_second (base + j) (firstn 15 n)) (lower_frames base n i k tab).
Proof.
  intros base n. induction k as [|k IH]; intros i tab j J; [lia|]. cbn [lower_frames]. destruct (N.eq_dec i j) as [->|NE]; [|apply IH; lia].
  match goal with |- has_name ?f (lower_frames _ _ _ _ ?t) => assert (H : has_name f t) end.
  { destruct (place _ tab) as [p|] eqn:E.
    - destruct (place_some _ _ _ E) as (t & N & L). unfold has_name. rewrite <- L. apply in_map. eapply nth_error_In, N.
    - apply has_app. right. left. reflexivity. }
  match goal with |- has_name ?f (lower_frames _ _ _ _ ?t) => destruct (lf_ext base n k (j + 1) t) as (x & -> & _) end. apply has_app. left. exact H.
Qed.
Lemma frame_range : forall n base f, frame_of n = Some (base, f) -> (f <= 9)%N /\ (base = 48 \/ base = 65)%N.
Proof.
  intros n base f. unfold frame_of. cbv zeta. set (c := if ((97 <=? second n) && (second n <=? 106))%N then (second n - 32)%N else second n). destruct ((48 <=? c) && (c <=? 57))%N eqn:A.
  { intros [= <- <-]. apply andb_true_iff in A as [A B]. apply N.leb_le in A, B. lia. }
  destruct ((65 <=? c) && (c <=? 74))%N eqn:B.
  { intros [= <- <-]. apply andb_true_iff in B as [B C]. apply N.leb_le in B, C. lia. }
  destruct (N.leb_spec c 9); [|discriminate]. intros [= <- <-]. lia.
Qed.
Lemma find_spec : forall n tab i t, find_tex n tab = ROk (i, t) ->
  (exists x, t = tab ++ x) /\ place (base_name n n) t = Some i /\ (uniq tab -> uniq t) /\ (clean tab -> clean t).
Proof.
  intros n tab i t. unfold find_tex. set (b := base_name n n). destruct (place b tab) as [p|] eqn:P.
  { intros [= <- <-]. repeat split; auto. exists []. rewrite app_nil_r. reflexivity. }
  assert (NB : ~ In 47%N b) by apply base_tail. assert (NP := proj1 (place_none _ _) P).
  assert (PL : forall x, place b ((tab ++ [b]) ++ x) = Some (length tab)).
  { intros x. apply place_app. rewrite place_snoc by exact NP. cbn [place]. rewrite (proj2 (ieq_iff b b) eq_refl). cbn. f_equal. lia. }
  assert (CL : clean tab -> clean (tab ++ [b])) by (intros C m I; apply in_app_iff in I as [I|[<-|[]]]; auto).
  destruct (is 43 b).
  - unfold add_anim. destruct (frame_of b) as [[base f]|] eqn:F; [|discriminate]. cbn [rbind]. intros [= <- <-].
    destruct (lf_ext base b (N.to_nat f) 0 (tab ++ [b])) as (x & E & X). destruct (frame_range _ _ _ F) as [F9 BA]. rewrite E. repeat split.
    + exists (b :: x). rewrite <- app_assoc. reflexivity.
    + apply PL.
    + intros U. rewrite <- E. apply lf_uniq. apply uniq_snoc; auto.
    + intros C m I. apply in_app_iff in I as [I|I]; [exact (CL C m I)|]. destruct (X m I) as (j & J & ->). apply ws_clean; [lia|].
      intros Q. apply NB. rewrite <- (firstn_skipn 15 b). apply in_or_app. left. exact Q.
  - intros [= <- <-]. repeat split; auto.
    + exists [b]. reflexivity.
    + specialize (PL []). rewrite app_nil_r in PL. exact PL.
    + intros U. apply uniq_snoc; auto.
Qed.
Lemma find_all_spec : forall ns tab is t, find_all ns tab = ROk (is, t) ->
  (exists x, t = tab ++ x) /\ (uniq tab -> uniq t) /\ (clean tab -> clean t) /\ length is = length ns /\
  forall k n i, nth_error ns k = Some n -> nth_error is k = Some i -> place (base_name n n) t = Some i.
Proof.
  induction ns as [|n ns IH]; intros tab is t; cbn [find_all].
  - intros [= <- <-]. repeat split; auto; [exists []; rewrite app_nil_r; reflexivity|]. intros [|k] m i; discriminate.
  - destruct (find_tex n tab) as [[i u]| |] eqn:F; cbn [rbind fst snd]; try discriminate. destruct (find_all ns u) as [[js v]| |] eqn:G; cbn [rbind fst snd]; try discriminate.
    intros [= <- <-]. destruct (find_spec _ _ _ _ F) as ((x & ->) & P & U & C). destruct (IH _ _ _ G) as ((y & ->) & U2 & C2 & L & K). repeat split; auto.
    + exists (x ++ y). rewrite app_assoc. reflexivity.
    + cbn [length]. lia.
    + intros [|k] m j; cbn [nth_error]; [intros [= <-] [= <-]; apply place_app, P|apply K].
Qed.

(** ** Numbers of textures *)

(** Two textures of a map share a number exactly if their names after the last slash are the same but for letter case; the
    table has no name twice, and the number of a texture leads to its name. *)
Theorem C151_table : forall ns is tab, find_all ns [] = ROk (is, tab) ->
  length is = length ns /\ uniq tab /\
  (forall k n b i, nth_error ns k = Some n -> tail_of n b -> nth_error is k = Some i -> exists t, nth_error tab i = Some t /\ low t = low b) /\
  forall k l n m b c i j, nth_error ns k = Some n -> nth_error ns l = Some m -> tail_of n b -> tail_of m c ->
    nth_error is k = Some i -> nth_error is l = Some j -> (i = j <-> low b = low c).
Proof.
  intros ns is tab F. destruct (find_all_spec _ _ _ _ F) as (_ & U & _ & L & K). split; [exact L|]. split; [apply U; constructor|].
  assert (A : forall k n b i, nth_error ns k = Some n -> tail_of n b -> nth_error is k = Some i -> place b tab = Some i).
  { intros k n b i N T I. specialize (K k n i N I). rewrite (tail_base _ _ T) in K. exact K. }
  split.
  - intros k n b i N T I. apply place_some. eapply A; eauto.
  - intros k l n m b c i j N M T T' I J. assert (P := A _ _ _ _ N T I). assert (Q := A _ _ _ _ M T' J). split.
    + intros <-. destruct (place_some _ _ _ P) as (t & E & <-). destruct (place_some _ _ _ Q) as (t' & E' & <-). congruence.
    + intros E. rewrite (place_low _ _ _ E) in P. congruence.
Qed.
Print Assumptions C151_table.

(** A texture keeps its number while others are added. *)
Theorem C151_stable : forall n tab i t ns is u, find_tex n tab = ROk (i, t) -> find_all ns t = ROk (is, u) -> find_tex n u = ROk (i, u).
Proof.
  intros n tab i t ns is u F G. destruct (find_spec _ _ _ _ F) as (_ & P & _). destruct (find_all_spec _ _ _ _ G) as ((x & ->) & _).
  unfold find_tex. rewrite (place_app _ _ x _ P). reflexivity.
Qed.
Print Assumptions C151_stable.

Lemma frame_none : forall a c r, frame_of (a :: c :: r) = None <-> ~ (c <= 9 \/ 48 <= c <= 57 \/ 65 <= c <= 74 \/ 97 <= c <= 106)%N.
Proof.
  intros a c r. unfold frame_of. cbn [second]. cbv zeta.
  destruct (N.leb_spec 97 c), (N.leb_spec c 106); cbn [andb];
    repeat (match goal with |- context[(?a <=? ?b)%N] => destruct (N.leb_spec a b) end; cbn [andb]); split; intros Q; try reflexivity; try discriminate Q; lia.
Qed.
(** Names that end the program: an animated texture that is new and whose second character is no frame. *)
Theorem C151_throws : forall n tab b, tail_of n b -> find_tex n tab <> RUB /\
  (find_tex n tab = RThrow <-> ~ has_name b tab /\ exists c r, b = 43%N :: c :: r /\
    ~ (c <= 9 \/ 48 <= c <= 57 \/ 65 <= c <= 74 \/ 97 <= c <= 106)%N).
Proof.
  intros n tab b T. unfold find_tex. rewrite (tail_base _ _ T). destruct (place b tab) as [i|] eqn:P.
  { split; [discriminate|]. split; [discriminate|]. intros [H _]. apply place_none in H. congruence. }
  apply place_none in P. destruct b as [|x [|c r]]; cbn [is].
  - split; [discriminate|]. split; [discriminate|]. intros (_ & c & r & E & _). discriminate.
  - destruct (N.eqb_spec x 43); split; try discriminate; (split; [discriminate|]; intros (_ & c & r & E & _); discriminate).
  - destruct (N.eqb_spec x 43) as [->|NE]; [|split; [discriminate|]; split; [discriminate|]; intros (_ & c' & r' & E & _); congruence].
    assert (FN := frame_none 43 c r). unfold add_anim. destruct (frame_of (43%N :: c :: r)) as [[base f]|]; cbn [rbind].
    + split; [discriminate|]. split; [discriminate|]. intros (_ & c' & r' & E & H). injection E as <- <-. apply FN in H. discriminate.
    + split; [discriminate|]. split; [|reflexivity]. intros _. split; [exact P|]. exists c, r. split; [reflexivity|]. apply FN. reflexivity.
Qed.
Print Assumptions C151_throws.

Lemma frame_digit : forall c r, (48 <= c <= 57)%N -> frame_of (43%N :: c :: r) = Some (48, c - 48)%N.
Proof.
  intros c r H. unfold frame_of. cbn [second]. cbv zeta. destruct (N.leb_spec 97 c); [lia|]. cbn [andb].
  destruct (N.leb_spec 48 c), (N.leb_spec c 57); cbn [andb]; reflexivity || lia.
Qed.
Lemma frame_letter : forall c r, (97 <= lower c <= 106)%N -> frame_of (43%N :: c :: r) = Some (65, lower c - 97)%N.
Proof.
  intros c r. unfold frame_of, lower. cbn [second]. cbv zeta.
  destruct (N.leb_spec 65 c), (N.leb_spec c 90); cbn [andb]; intros L; try lia;
    destruct (N.leb_spec 97 c), (N.leb_spec c 106); cbn [andb]; try lia;
    repeat match goal with |- context[(?a <=? ?b)%N] => destruct (N.leb_spec a b) end; cbn [andb]; try lia; f_equal; f_equal; lia.
Qed.
Lemma find_anim : forall c r tab base f, ~ In 47%N (c :: r) -> ~ has_name (43%N :: c :: r) tab -> frame_of (43%N :: c :: r) = Some (base, f) ->
  find_tex (43%N :: c :: r) tab = ROk (length tab, lower_frames base (43%N :: c :: r) 0 (N.to_nat f) (tab ++ [43%N :: c :: r])).
Proof.
  intros c r tab base f NS NP F. unfold find_tex. rewrite (tail_base (43%N :: c :: r) (43%N :: c :: r)).
  - rewrite (proj2 (place_none _ _) NP). cbn [is]. rewrite N.eqb_refl. unfold add_anim. rewrite F. reflexivity.
  - split; [|left; reflexivity]. intros [E|I]; [discriminate|auto].
Qed.

(** With a frame of an animation whose name has at most 15 characters come all frames before it. *)
Theorem C151_lower : forall c r tab i t d, ~ In 47%N (c :: r) -> length r <= 13 -> ~ has_name (43%N :: c :: r) tab ->
  find_tex (43%N :: c :: r) tab = ROk (i, t) ->
  (48 <= d < c)%N /\ (c <= 57)%N \/ (97 <= lower d < lower c)%N /\ (lower c <= 106)%N -> has_name (43%N :: d :: r) t.
Proof.
  intros c r tab i t d NS L NP F [D|D].
  - rewrite (find_anim c r tab 48 (c - 48) NS NP) in F by (apply frame_digit; lia). injection F as <- <-.
    assert (H := lf_has 48 (43%N :: c :: r) (N.to_nat (c - 48)) 0 (tab ++ [43%N :: c :: r]) (d - 48) ltac:(lia)).
    rewrite firstn_all2 in H by (cbn [length]; lia). cbn [with_second] in H. replace (48 + (d - 48))%N with d in H by lia. exact H.
  - rewrite (find_anim c r tab 65 (lower c - 97) NS NP) in F by (apply frame_letter; lia). injection F as <- <-.
    assert (H := lf_has 65 (43%N :: c :: r) (N.to_nat (lower c - 97)) 0 (tab ++ [43%N :: c :: r]) (lower d - 97) ltac:(lia)).
    rewrite firstn_all2 in H by (cbn [length]; lia). cbn [with_second] in H. unfold has_name in *. cbn [low map] in *.
    replace (lower d) with (lower (65 + (lower d - 97))); [exact H|]. set (e := lower d) in *. unfold lower at 1.
    destruct (N.leb_spec 65 (65 + (e - 97))), (N.leb_spec (65 + (e - 97)) 90); cbn [andb]; lia.
Qed.
Print Assumptions C151_lower.

(** But they come after it, although many engines refuse a file with that order (comment of AddAnimTex). *)
Theorem C151_order_refuted : forall c r tab d, ~ In 47%N (c :: r) -> length r <= 13 -> (48 <= d < c)%N /\ (c <= 57)%N ->
  ~ has_name (43%N :: c :: r) tab -> ~ has_name (43%N :: d :: r) tab ->
  exists i j t, find_tex (43%N :: c :: r) tab = ROk (i, t) /\ place (43%N :: c :: r) t = Some i /\ place (43%N :: d :: r) t = Some j /\ i < j.
Proof.
  intros c r tab d NS L D NP ND. assert (F := find_anim c r tab 48 (c - 48) NS NP ltac:(apply frame_digit; lia)).
  destruct (lf_ext 48 (43%N :: c :: r) (N.to_nat (c - 48)) 0 (tab ++ [43%N :: c :: r])) as (x & E & _).
  assert (H := C151_lower c r tab _ _ d NS L NP F (or_introl D)). rewrite E in F, H.
  assert (B : base_name (43%N :: c :: r) (43%N :: c :: r) = 43%N :: c :: r) by (apply tail_base; split; [intros [X|X]; [discriminate|auto]|left; reflexivity]).
  destruct (find_spec _ _ _ _ F) as (_ & P & _). rewrite B in P. destruct (has_place _ _ H) as (j & J).
  exists (length tab), j, ((tab ++ [43%N :: c :: r]) ++ x). repeat split; auto.
  rewrite <- app_assoc, place_snoc in J by exact ND. cbn [app place] in J. destruct (iequals (43%N :: d :: r) (43%N :: c :: r)) eqn:Q.
  - apply ieq_iff in Q. unfold low in Q. cbn [map] in Q. injection Q as Q. unfold lower in Q.
    destruct (N.leb_spec 65 d), (N.leb_spec 65 c); cbn [andb] in Q; lia.
  - destruct (place _ x); cbn [option_map] in J; [|discriminate]. injection J as <-. lia.
Qed.
Print Assumptions C151_order_refuted.

(** For a longer name the frames that are added have other names, and the ones before it are missing. *)
Theorem C151_long_refuted : forall c r tab d, ~ In 47%N (c :: r) -> 13 < length r -> (48 <= d < c)%N /\ (c <= 57)%N ->
  ~ has_name (43%N :: c :: r) tab -> ~ has_name (43%N :: d :: r) tab ->
  exists i t, find_tex (43%N :: c :: r) tab = ROk (i, t) /\ ~ has_name (43%N :: d :: r) t /\ has_name (43%N :: d :: firstn 13 r) t.
Proof.
  intros c r tab d NS L D NP ND. assert (F := find_anim c r tab 48 (c - 48) NS NP ltac:(apply frame_digit; lia)).
  destruct (lf_ext 48 (43%N :: c :: r) (N.to_nat (c - 48)) 0 (tab ++ [43%N :: c :: r])) as (x & E & X).
  assert (H := lf_has 48 (43%N :: c :: r) (N.to_nat (c - 48)) 0 (tab ++ [43%N :: c :: r]) (d - 48) ltac:(lia)).
  eexists _, _. split; [exact F|]. split.
  - rewrite E. intros I. apply has_app in I as [I|I]; [apply has_app in I as [I|I]|]; [exact (ND I)| |].
    + destruct I as [I|[]]. unfold low in I. cbn [map] in I. injection I as I. unfold lower in I.
      destruct (N.leb_spec 65 d), (N.leb_spec 65 c); cbn [andb] in I; lia.
    + unfold has_name in I. apply in_map_iff in I as (f & Q & I). destruct (X f I) as (j & J & ->). apply (f_equal (@length _)) in Q. unfold low in Q.
      rewrite !map_length in Q. change (firstn 15 (43%N :: c :: r)) with (43%N :: c :: firstn 13 r) in Q. cbn [with_second length] in Q. rewrite firstn_length in Q. lia.
  - change (firstn 15 (43%N :: c :: r)) with (43%N :: c :: firstn 13 r) in H. cbn [with_second] in H. replace (48 + (d - 48))%N with d in H by lia. exact H.
Qed.
Print Assumptions C151_long_refuted.

(** ** Frames found in archives *)

Lemma frame_chars_ok : forall c, In c frame_chars -> c <> 47%N /\ (48 <= c <= 57 \/ 97 <= c <= 106)%N.
Proof. intros c I. apply in_map_iff in I as (k & <- & I). apply in_app_iff in I as [I|I]; apply in_seq in I; lia. Qed.
Lemma find_frame : forall c n tab, In c frame_chars -> ~ In 47%N n -> 2 <= length n -> exists i t, find_tex (with_second c n) tab = ROk (i, t) /\ has_name (with_second c n) t.
Proof.
  intros c n tab I NS L. destruct (frame_chars_ok _ I) as [C R]. assert (NW := ws_clean c n C NS).
  assert (T : tail_of (with_second c n) (with_second c n)) by (split; [exact NW|left; reflexivity]).
  destruct (C151_throws _ tab _ T) as [NU TH]. destruct (find_tex (with_second c n) tab) as [[i t]| |] eqn:F; [|exfalso|congruence].
  - exists i, t. split; [reflexivity|]. destruct (find_spec _ _ _ _ F) as (_ & P & _). rewrite (tail_base _ _ T) in P. destruct (place_some _ _ _ P) as (u & N & E).
    unfold has_name. rewrite <- E. apply in_map. eapply nth_error_In, N.
  - destruct (proj1 TH eq_refl) as (_ & c' & r & E & H). destruct n as [|a [|b q]]; cbn [with_second length] in *; try lia. injection E as _ -> _. apply H. lia.
Qed.
Lemma found_spec : forall has n cs tab, (forall c, In c cs -> In c frame_chars) -> ~ In 47%N n -> 2 <= length n ->
  exists t, add_found has n cs tab = ROk t /\ (exists x, t = tab ++ x) /\ (uniq tab -> uniq t) /\ (clean tab -> clean t) /\
    forall c, In c cs -> has (with_second c n) = true -> has_name (with_second c n) t.
Proof.
  intros has n. induction cs as [|c cs IH]; intros tab CS NS L; cbn [add_found].
  - exists tab. repeat split; auto; [exists []; rewrite app_nil_r; reflexivity|intros c []].
  - assert (CS' : forall d, In d cs -> In d frame_chars) by (intros d I; apply CS; right; exact I). destruct (has (with_second c n)) eqn:H.
    + destruct (find_frame c n tab (CS c (or_introl eq_refl)) NS L) as (i & u & F & HN). rewrite F. cbn [rbind snd].
      destruct (find_spec _ _ _ _ F) as ((x & ->) & _ & U & C). destruct (IH (tab ++ x) CS' NS L) as (t & E & (y & ->) & U2 & C2 & K). exists ((tab ++ x) ++ y).
      repeat split; auto; [exists (x ++ y); rewrite app_assoc; reflexivity|]. intros d [<-|I] HD; [apply has_app; left; exact HN|apply K; auto].
    + destruct (IH tab CS' NS L) as (t & E & X & U & C & K). exists t. repeat split; auto. intros d [<-|I] HD; [congruence|apply K; auto].
Qed.
(** Textures with frames: + in all games, - in Half-Life too *)
Definition animated (hl : bool) (n : name) : Prop := exists r, n = 43%N :: r \/ hl = true /\ n = 45%N :: r.
Lemma animated_iff : forall hl n, is 43 n || (hl && is 45 n) = true <-> animated hl n.
Proof.
  intros hl [|c r]; cbn [is].
  - rewrite andb_false_r. split; [discriminate|]. intros (r & [E|[_ E]]); discriminate.
  - rewrite orb_true_iff, andb_true_iff, !N.eqb_eq. split.
    + intros [->|[-> ->]]; exists r; auto.
    + intros (q & [E|[H E]]); injection E as -> _; auto.
Qed.

(** All frames that an archive has of an animated texture of the map are in the table after AddAnimationFrames, which
    leaves the numbers as they were. *)
Theorem C151_frames : forall hl has tab t, clean tab -> add_frames hl has tab = ROk t ->
  (exists x, t = tab ++ x) /\ (uniq tab -> uniq t) /\
  forall a b r c, In (a :: b :: r) tab -> animated hl (a :: b :: r) -> (48 <= c <= 57 \/ 97 <= c <= 106)%N -> has (a :: c :: r) = true -> has_name (a :: c :: r) t.
Proof.
  intros hl has tab t CL. unfold add_frames. assert (G : forall old cur, (forall n, In n old -> ~ In 47%N n) -> add_frames_go hl has old cur = ROk t ->
    (exists x, t = cur ++ x) /\ (uniq cur -> uniq t) /\ forall a b r c, In (a :: b :: r) old -> animated hl (a :: b :: r) -> In c frame_chars -> has (a :: c :: r) = true -> has_name (a :: c :: r) t).
  { induction old as [|n old IH]; intros cur NS; cbn [add_frames_go].
    - intros [= <-]. repeat split; auto; [exists []; rewrite app_nil_r; reflexivity|intros a b r c []].
    - unfold add_frames_of. destruct (is 43 n || (hl && is 45 n)) eqn:A.
      + destruct n as [|x [|y q]]; cbn [rbind]; try discriminate. destruct (found_spec has (x :: y :: q) frame_chars cur (fun _ I => I) (NS _ (or_introl eq_refl)) ltac:(cbn [length]; lia)) as (u & -> & (z & ->) & U & _ & K).
        cbn [rbind]. intros E. destruct (IH (cur ++ z) (fun m I => NS m (or_intror I)) E) as ((w & ->) & U2 & K2). repeat split.
        * exists (z ++ w). rewrite app_assoc. reflexivity.
        * auto.
        * intros a b r c [Q|I] AN IC H; [|eapply K2; eauto]. injection Q as -> -> ->. apply has_app. left. apply (K c IC H).
      + cbn [rbind]. intros E. destruct (IH cur (fun m I => NS m (or_intror I)) E) as (X & U2 & K2). repeat split; auto.
        intros a b r c [Q|I] AN IC H; [|eapply K2; eauto]. subst n. apply animated_iff in AN. congruence. }
  intros E. destruct (G tab tab CL E) as (X & U & K). repeat split; auto. intros a b r c I AN C H. apply (K a b r c I AN); [|exact H].
  apply in_map_iff. exists (N.to_nat c). split; [lia|]. apply in_app_iff. destruct C; [left|right]; apply in_seq; lia.
Qed.
Print Assumptions C151_frames.

(** It never ends the program; but a texture called + (in Half-Life also -) writes over the end of its own name. *)
Theorem C151_plus_refuted : forall hl has tab, clean tab -> add_frames hl has tab <> RThrow /\
  (add_frames hl has tab = RUB <-> In [43%N] tab \/ hl = true /\ In [45%N] tab).
Proof.
  intros hl has tab CL. unfold add_frames. assert (G : forall old cur, (forall n, In n old -> ~ In 47%N n) -> add_frames_go hl has old cur <> RThrow /\
    (add_frames_go hl has old cur = RUB <-> In [43%N] old \/ hl = true /\ In [45%N] old)).
  { induction old as [|n old IH]; intros cur NS; cbn [add_frames_go].
    - split; [discriminate|]. split; [discriminate|]. intros [[]|[_ []]].
    - unfold add_frames_of. destruct (is 43 n || (hl && is 45 n)) eqn:A.
      + destruct n as [|x [|y q]]; cbn [rbind].
        * cbn [is] in A. rewrite andb_false_r in A. discriminate.
        * split; [discriminate|]. split; [|reflexivity]. intros _. apply animated_iff in A as (r & [E|[H E]]); injection E as -> <-; [left|right]; cbn; auto.
        * destruct (found_spec has (x :: y :: q) frame_chars cur (fun _ I => I) (NS _ (or_introl eq_refl)) ltac:(cbn [length]; lia)) as (u & -> & _). cbn [rbind].
          destruct (IH u (fun m I => NS m (or_intror I))) as [NT RU]. split; [exact NT|]. rewrite RU. cbn [In]. intuition discriminate.
      + cbn [rbind]. destruct (IH cur (fun m I => NS m (or_intror I))) as [NT RU]. split; [exact NT|]. rewrite RU. cbn [In].
        split; [intuition|]. intros [[E|I]|[H [E|I]]]; auto; exfalso; subst n; assert (AN : animated hl [43%N] \/ animated hl [45%N]) by (try (left; exists []; auto; fail); right; exists []; auto).
        * cbn [is] in A. rewrite N.eqb_refl in A. discriminate.
        * subst hl. cbn in A. discriminate. }
  apply G. exact CL.
Qed.
Print Assumptions C151_plus_refuted.

(** The table of a map is one of those. *)
Theorem C151_clean : forall ns is tab, find_all ns [] = ROk (is, tab) -> clean tab /\ forall n, ~ has_name [43%N] tab -> n = [43%N] -> exists i t, find_tex n tab = ROk (i, t) /\ In [43%N] t.
Proof.
  intros ns is tab F. destruct (find_all_spec _ _ _ _ F) as (_ & _ & C & _). split; [apply C; intros n []|]. intros n NH ->. unfold find_tex. cbn [base_name]. change (43 =? 47)%N with false. cbn iota.
  rewrite (proj2 (place_none _ _) NH). cbn. eexists _, _. split; [reflexivity|]. apply in_app_iff. right. left. reflexivity.
Qed.
Print Assumptions C151_clean.

(** ** What is written for a texture *)

Lemma put_le_len : forall k v, length (put_le k v) = k.
Proof. induction k; intros v; cbn [put_le length]; [reflexivity|]. rewrite IHk. reflexivity. Qed.
(** A texture of an archive that is to be embedded is embedded as it is; every other one is a header: the name (15
    characters at most) with a NUL, the size, no pixels. *)
Theorem C151_data : forall notex zs load n, let m := texture_data notex zs load n in m_name m = n /\
  match load n with
  | Some g => m_w m = g_w g /\ m_h m = g_h g /\
      (notex = false -> g_external g = false -> g_mip g = true -> m_data m = g_file g /\ m_null m = false)
  | None => m_w m = 0%N /\ m_h m = 0%N
  end /\
  ((load n = None \/ exists g, load n = Some g /\ (notex = true \/ g_external g = true \/ g_mip g = false)) ->
   m_data m = firstn 15 n ++ repeat 0%N (16 - length (firstn 15 n)) ++ put_le 4 (m_w m) ++ put_le 4 (m_h m) ++ repeat 0%N 16 /\
   length (m_data m) = 40 /\ (m_null m = true <-> n = [] \/ zs = false /\ (m_w m = 0%N \/ m_h m = 0%N))).
Proof.
  intros notex zs load n m. assert (HD : forall w h, header n w h = firstn 15 n ++ repeat 0%N (16 - length (firstn 15 n)) ++ put_le 4 w ++ put_le 4 h ++ repeat 0%N 16).
  { intros w h. unfold header. change (concat (repeat (put_le 4 0) 4)) with (repeat 0%N 16). rewrite (app_assoc (firstn 15 n)). f_equal.
    assert (P : forall l : list N, length l <= 15 -> pad16 l = l ++ repeat 0%N (16 - length l)).
    { intros l L. unfold pad16. rewrite firstn_app, firstn_all2 by lia. f_equal. replace 16 with ((16 - length l) + length l) at 2 by lia. rewrite repeat_app, firstn_app, repeat_length.
      rewrite firstn_all2 by (rewrite repeat_length; lia). rewrite Nat.sub_diag. cbn [firstn]. rewrite app_nil_r. reflexivity. }
    destruct (Nat.leb_spec 16 (length n)) as [G|G].
    - apply P. rewrite firstn_length. lia.
    - rewrite firstn_all2 by lia. apply P. lia. }
  assert (LEN : forall w h, length (header n w h) = 40).
  { intros w h. rewrite HD. rewrite !app_length, !put_le_len, !repeat_length. pose proof (firstn_le_length 15 n). lia. }
  assert (NU : forall w h, (match n with [] => true | _ => false end) || (negb zs && ((w =? 0)%N || (h =? 0)%N)) = true <-> n = [] \/ zs = false /\ (w = 0%N \/ h = 0%N)).
  { intros w h. rewrite orb_true_iff, andb_true_iff, orb_true_iff, !N.eqb_eq, negb_true_iff. destruct n; [tauto|]. intuition discriminate. }
  unfold m, texture_data. destruct (load n) as [g|].
  - destruct (negb notex && negb (g_external g) && g_mip g) eqn:B; cbn [m_name m_w m_h m_null m_data]; (split; [reflexivity|]); (split; [split; [reflexivity|split; [reflexivity|]]|]).
    + auto.
    + rewrite !andb_true_iff, !negb_true_iff in B. destruct B as [[B1 B2] B3]. intros [E|(g' & E & X)]; [discriminate|]. injection E as <-. destruct X as [X|[X|X]]; congruence.
    + intros -> E1 E2. rewrite E1, E2 in B. discriminate.
    + intros _. split; [apply HD|]. split; [apply LEN|apply NU].
  - cbn [m_name m_w m_h m_null m_data]. split; [reflexivity|]. split; [auto|]. intros _. split; [apply HD|]. split; [apply LEN|apply NU].
Qed.
Print Assumptions C151_data.

(** ** Archives *)

Lemma split_go : forall w r acc, ~ In 59%N w -> split_wads (w ++ 59%N :: r) acc = (rev acc ++ w) :: split_wads r [].
Proof.
  induction w as [|c w IH]; intros r acc NI; cbn [app split_wads].
  - rewrite N.eqb_refl, app_nil_r. reflexivity.
  - destruct (N.eqb_spec c 59) as [->|_]; [exfalso; apply NI; left; reflexivity|]. rewrite IH by (intros I; apply NI; right; exact I). cbn [rev]. rewrite <- app_assoc. reflexivity.
Qed.
Lemma split_end : forall w acc, ~ In 59%N w -> split_wads w acc = match rev acc ++ w with [] => [] | x => [x] end.
Proof.
  induction w as [|c w IH]; intros acc NI; cbn [split_wads].
  - rewrite app_nil_r. destruct acc as [|a acc]; [reflexivity|]. destruct (rev (a :: acc)) eqn:E; [|reflexivity]. apply (f_equal (@length _)) in E. rewrite rev_length in E. discriminate.
  - destruct (N.eqb_spec c 59) as [->|_]; [exfalso; apply NI; left; reflexivity|]. rewrite IH by (intros I; apply NI; right; exact I). cbn [rev]. rewrite <- app_assoc. reflexivity.
Qed.
(** The names of the key are what stands between its semicolons; one at its end makes no difference. *)
Theorem C151_wads : forall l last, (forall w, In w (l ++ [last]) -> ~ In 59%N w) ->
  split_wads (concat (map (fun w => w ++ [59%N]) l) ++ last) [] = l ++ match last with [] => [] | _ => [last] end.
Proof.
  induction l as [|w l IH]; intros last H; cbn [map concat app].
  - rewrite split_end by (apply H; left; reflexivity). destruct last; reflexivity.
  - rewrite <- !app_assoc. cbn [app]. rewrite split_go by (apply H; left; reflexivity). cbn [rev app]. f_equal. apply IH. intros v I. apply H. right. exact I.
Qed.
Print Assumptions C151_wads.

(** The archives of a map: those of _wad, else those of wad, in order, as far as they can be opened; if none can, the one
    with the name of the map. *)
Theorem C151_key : forall ex ok dirs wad_ wad default, let s := match wad_ with [] => wad | _ => wad_ end in
  let found := flat_map (fun w => match load_path ex ok dirs w with Some a => [a] | None => [] end) (split_wads s []) in
  (found <> [] -> load_wads ex ok dirs wad_ wad default = found) /\
  (found = [] -> forall a, load_wads ex ok dirs wad_ wad default = [a] <-> ex default = true /\ load_path ex ok dirs default = Some a).
Proof.
  intros ex ok dirs wad_ wad default s found. unfold load_wads. cbv zeta. change (flat_map _ (split_wads _ [])) with found. split.
  - intros H. destruct found; [congruence|reflexivity].
  - intros -> a. destruct (ex default).
    + destruct (load_path ex ok dirs default); cbn [some_list]; (split; [intros [= ->]; auto|intros [_ E]; congruence]) || (split; [discriminate|intros [_ E]; discriminate]).
    + split; [discriminate|intros [E _]; discriminate].
Qed.
Print Assumptions C151_key.

(** An archive that is where it is said to be is the one that is opened: for an absolute path, and for a path relative to
    the first search path. *)
Theorem C151_path : forall ex ok dirs p, p <> [] ->
  (absolute p = true -> ex p = true -> ok p = true -> load_path ex ok dirs p = Some (p, false)) /\
  (forall d x r, absolute p = false -> dirs = (d, x) :: r -> d <> [] -> last d 0%N <> 47%N -> ex (d ++ 47%N :: p) = true -> ok (d ++ 47%N :: p) = true ->
    load_path ex ok dirs p = Some (d ++ 47%N :: p, x)) /\
  (forall a x, load_path ex ok dirs p = Some (a, x) -> ex a = true /\ ok a = true /\ ((x = false /\ (a = p \/ tail_of p a)) \/ exists d, In (d, x) dirs /\ (a = join d p \/ tail_of (join d p) a))).
Proof.
  intros ex ok dirs p NE.
  assert (OP : forall q, q <> [] -> ex q = true -> ok q = true -> open_path ex ok q = Some q) by (intros [|c q] N E O; [congruence|]; cbn [open_path]; rewrite E, O; reflexivity).
  assert (OI : forall q a, open_path ex ok q = Some a -> ex a = true /\ ok a = true /\ (a = q \/ tail_of q a)).
  { intros q a. destruct q as [|c q]; cbn [open_path]; [discriminate|]. destruct (ex (c :: q)) eqn:E.
    - destruct (ok (c :: q)) eqn:O; [|discriminate]. intros [= <-]. auto.
    - cbv zeta. destruct (ex (base_name (c :: q) (c :: q))) eqn:E2; [|discriminate]. destruct (ok (base_name (c :: q) (c :: q))) eqn:O; [|discriminate]. intros [= <-]. repeat split; auto. right. apply base_tail. }
  assert (TP : forall ds a x, try_paths ex ok ds p = Some (a, x) -> ex a = true /\ ok a = true /\ exists d, In (d, x) ds /\ (a = join d p \/ tail_of (join d p) a)).
  { induction ds as [|[d y] ds IH]; intros a x; cbn [try_paths]; [discriminate|]. destruct (open_path ex ok (join d p)) as [b|] eqn:B.
    - intros [= <- <-]. destruct (OI _ _ B) as (E & O & S). repeat split; auto. exists d. split; [left; reflexivity|exact S].
    - intros T. destruct (IH a x T) as (E & O & e & I & S). repeat split; auto. exists e. split; [right; exact I|exact S]. }
  assert (HE : forall a x, option_map (fun b => (b, false)) (open_path ex ok p) = Some (a, x) -> ex a = true /\ ok a = true /\ x = false /\ (a = p \/ tail_of p a)).
  { intros a x. destruct (open_path ex ok p) as [b|] eqn:B; cbn [option_map]; [|discriminate]. intros [= <- <-]. destruct (OI _ _ B) as (E & O & S). auto. }
  unfold load_path. cbv zeta. split; [|split].
  - intros A E O. rewrite A, (OP _ NE E O). reflexivity.
  - intros d x r A -> ND L E O. rewrite A. cbn [try_paths]. assert (J : join d p = d ++ 47%N :: p).
    { unfold join. rewrite A. destruct d as [|c d]; [congruence|]. replace (is 47 (rev (c :: d))) with false; [reflexivity|]. symmetry.
      rewrite (app_removelast_last 0%N ND), rev_app_distr. cbn [rev app is]. apply N.eqb_neq. exact L. }
    rewrite J, OP; [reflexivity| |exact E|exact O]. destruct d; discriminate.
  - intros a x. destruct (absolute p).
    + intros H. destruct (HE a x H) as (E & O & X & S). auto.
    + destruct (try_paths ex ok dirs p) as [[b y]|] eqn:T.
      * intros [= <- <-]. destruct (TP _ _ _ T) as (E & O & S). auto.
      * intros H. destruct (HE a x H) as (E & O & X & S). auto.
Qed.
Print Assumptions C151_path.

(** But a file of that name in the current directory goes before every other search path than the first, and takes over
    its flag: it is not embedded if the first one is an -xwadpath. *)
Theorem C151_cwd_refuted : forall ex ok d x r p f, absolute p = false -> d <> [] -> last d 0%N <> 47%N -> tail_of p f -> ex (d ++ 47%N :: p) = false ->
  ex f = true -> ok f = true -> load_path ex ok ((d, x) :: r) p = Some (f, x).
Proof.
  intros ex ok d x r p f A ND L T N E O. unfold load_path. cbv zeta. rewrite A. cbn [try_paths]. assert (J : join d p = d ++ 47%N :: p).
  { unfold join. rewrite A. destruct d as [|c d]; [congruence|]. replace (is 47 (rev (c :: d))) with false; [reflexivity|]. symmetry.
    rewrite (app_removelast_last 0%N ND), rev_app_distr. cbn [rev app is]. apply N.eqb_neq. exact L. }
  rewrite J. assert (B : base_name (d ++ 47%N :: p) (d ++ 47%N :: p) = f).
  { apply tail_base. destruct T as [NI [->|(e & ->)]]; (split; [exact NI|right]); [exists d; reflexivity|]. exists (d ++ 47%N :: e). rewrite <- app_assoc. reflexivity. }
  destruct (d ++ 47%N :: p) eqn:Q; [destruct d; discriminate|]. cbn [open_path]. rewrite N. cbv zeta. rewrite B, E, O. reflexivity.
Qed.
Print Assumptions C151_cwd_refuted.

(** A name without characters (two semicolons in a row, or one at the start) is the first search path itself, which then
    counts as an archive: a key of one semicolon keeps the map from using the archive with its own name. *)
Theorem C151_empty_refuted : forall ex ok d x r default, d <> [] -> last d 0%N <> 47%N -> ex (d ++ [47%N]) = true -> ok (d ++ [47%N]) = true ->
  load_wads ex ok ((d, x) :: r) [] [59%N] default = [(d ++ [47%N], x)].
Proof.
  intros ex ok d x r default ND L E O. unfold load_wads. cbn [split_wads rev]. change (59 =? 59)%N with true. cbn iota. cbn [flat_map app]. unfold load_path. cbv zeta. cbn [absolute is try_paths].
  assert (J : join d [] = d ++ [47%N]).
  { unfold join. cbn [absolute is]. destruct d as [|c d]; [congruence|]. replace (is 47 (rev (c :: d))) with false; [reflexivity|]. symmetry.
    rewrite (app_removelast_last 0%N ND), rev_app_distr. cbn [rev app is]. apply N.eqb_neq. exact L. }
  rewrite J. destruct (d ++ [47%N]) eqn:Q; [destruct d; discriminate|]. cbn [open_path]. rewrite E, O. reflexivity.
Qed.
Print Assumptions C151_empty_refuted.

(** Search paths: in order; the first of -wadpath and -xwadpath decides about a path that is given twice; without any, the
    directory of the map. *)
Theorem C151_dirs : forall lt : name -> name -> bool, (forall a, lt a a = false) -> (forall a b c, lt a b = true -> lt b c = true -> lt a c = true) ->
  (forall a b, lt a b = true \/ lt b a = true \/ a = b) ->
  forall dirs p x, Sorted.StronglySorted (fun a b => lt (fst a) (fst b) = true) dirs ->
    Sorted.StronglySorted (fun a b => lt (fst a) (fst b) = true) (add_dir lt p x dirs) /\
    (forall q y, In (q, y) (add_dir lt p x dirs) <-> In (q, y) dirs \/ (q, y) = (p, x) /\ forall z, ~ In (p, z) dirs) /\
    (forall m, default_dirs dirs m = [] -> dirs = [] /\ m = []) /\ (forall m, dirs = [] -> m <> [] -> default_dirs dirs m = [(m, false)]) /\ (forall m, dirs <> [] -> default_dirs dirs m = dirs).
Proof.
  intros lt IR TR TO dirs p x S. split; [|split; [|split; [|split]]].
  - assert (G : forall ds, Sorted.StronglySorted (fun a b => lt (fst a) (fst b) = true) ds -> Sorted.StronglySorted (fun a b => lt (fst a) (fst b) = true) (add_dir lt p x ds) /\
      forall e, In e (add_dir lt p x ds) -> In e ds \/ e = (p, x)).
    { induction ds as [|[d y] ds IH]; intros H; cbn [add_dir]; [split; [repeat constructor|intros e [<-|[]]; auto]|].
      inversion H as [|? ? HS HF]; subst. destruct (IH HS) as [IS II]. destruct (lt p d) eqn:PD; [|destruct (lt d p) eqn:DP].
      - split; [constructor; [exact H|]; constructor; [exact PD|]; rewrite Forall_forall in *; intros e I; cbn [fst] in *; exact (TR _ _ _ PD (HF e I))|intros e [<-|I]; auto].
      - split; [constructor; [exact IS|]; rewrite Forall_forall in *; intros e I; destruct (II e I) as [J| ->]; [exact (HF e J)|exact DP]|].
        intros e [<-|I]; [left; left; reflexivity|]. destruct (II e I) as [J|J]; [left; right; exact J|right; exact J].
      - split; [exact H|auto]. }
    apply G, S.
  - intros q y. induction dirs as [|[d z] ds IH]; cbn [add_dir].
    + cbn [In]. split; [intros [E|[]]; right; split; [congruence|auto]|intros [[]|[E _]]; left; congruence].
    + inversion S as [|? ? HS HF]; subst. specialize (IH HS). destruct (lt p d) eqn:PD; [|destruct (lt d p) eqn:DP].
      * cbn [In]. split; [intros [E|I]; [right; split; [congruence|]|left; exact I]|intros [I|[E _]]; [right; exact I|left; congruence]].
        intros w [W|W]; [injection W as -> _; rewrite IR in PD; discriminate|]. rewrite Forall_forall in HF. specialize (HF _ W). cbn [fst] in HF. pose proof (TR _ _ _ PD HF) as C. rewrite IR in C. discriminate.
      * cbn [In]. rewrite IH. split.
        -- intros [E|[I|[E N]]]; auto. right. split; [exact E|]. intros w [W|W]; [injection W as -> _; rewrite IR in DP; discriminate|exact (N w W)].
        -- intros [[E|I]|[E N]]; auto. right. right. split; [exact E|]. intros w W. apply (N w). right. exact W.
      * destruct (TO p d) as [X|[X| ->]]; try congruence. cbn [In]. split; [auto|]. intros [I|[E N]]; [exact I|]. exfalso. apply (N z). left. reflexivity.
  - intros m. unfold default_dirs. destruct dirs; [|discriminate]. destruct m; [auto|discriminate].
  - intros m -> N. unfold default_dirs. destruct m; [congruence|reflexivity].
  - intros m N. unfold default_dirs. destruct dirs; [congruence|reflexivity].
Qed.
Print Assumptions C151_dirs.

(** The texture +2slip of a map: frames 0 and 1 follow it; archives have frames 3 and a as well; a search in x with a.wad in
    the current directory. *)
Example C151_nontrivial :
  let n c := 43%N :: c :: map N.of_nat [115; 108; 105; 112] in
  find_all [map N.of_nat [97; 47; 87]; n 50%N; [119%N]] [] = ROk ([0; 1; 0], [[87%N]; n 50%N; n 48%N; n 49%N]) /\
  add_frames false (fun m => existsb (iequals m) [n 51%N; n 65%N]) [[87%N]; n 50%N; n 48%N; n 49%N] = ROk [[87%N]; n 50%N; n 48%N; n 49%N; n 51%N; n 97%N] /\
  load_wads (fun p => existsb (iequals p) [[97%N]; [120; 47; 98]%N]) (fun _ => true) [([120%N], true)] [] [97; 59; 98; 59; 99]%N [] = [([97%N], true); ([120; 47; 98]%N, true)].
Proof. vm_compute. repeat split. Qed.
