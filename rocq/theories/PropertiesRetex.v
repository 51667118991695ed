(* Replacing textures of a bsp (C164). *)
From Coq Require Import List NArith ZArith Bool Lia.
From Verif Require Import RetexModel.
Import ListNotations.
Local Open Scope Z_scope.

Section Stmts.
Variables (found : list N -> option (list N)) (head : list N -> option (list N * Z * Z)).
(** There is a mip of the given size under a name. *)
Definition offers (nm : list N) (w h : Z) (data : list N) : Prop := found nm = Some data /\ exists inner, head data = Some (inner, w, h).
(** A texture whose members agree with its data. *)
Definition sound (t : tex) : Prop := t_null t = false /\ exists w h, t_size t = Some (w, h) /\ head (t_data t) = Some (t_name t, w, h).

Lemma one : forall t t', retex1 found head t = Some t' -> t_name t' = t_name t /\ t_size t' = t_size t /\
  ((t' = t /\ forall w h data, t_size t = Some (w, h) -> ~ offers (t_name t) w h data) \/
   (exists w h, t_size t = Some (w, h) /\ offers (t_name t) w h (t_data t') /\ t_null t' = false)).
Proof.
  intros t t' H. unfold retex1, load in H. destruct (found (t_name t)) as [data|] eqn:F.
  - destruct (head data) as [((inner, w), h)|] eqn:Hd.
    + destruct (t_size t) as [(w', h')|] eqn:S; [|discriminate]. destruct (Z.eqb_spec w' w) as [->|N].
      * destruct (Z.eqb_spec h' h) as [->|N]; cbn [negb orb] in H; injection H as <-; cbn [t_name t_size t_data t_null].
        -- split; [reflexivity|]. split; [first [reflexivity|assumption|symmetry; assumption]|]. right. exists w, h. split; [reflexivity|]. split; [|reflexivity]. split; eauto.
        -- split; [reflexivity|]. split; [first [reflexivity|assumption|symmetry; assumption]|]. left. split; [reflexivity|]. intros w0 h0 d E (A & i & B). injection E as <- <-. rewrite F in A. injection A as <-. rewrite Hd in B. congruence.
      * cbn [negb orb] in H. injection H as <-. split; [reflexivity|]. split; [first [reflexivity|assumption|symmetry; assumption]|]. left. split; [reflexivity|]. intros w0 h0 d E (A & i & B). injection E as <- <-. rewrite F in A. injection A as <-. rewrite Hd in B. congruence.
    + injection H as <-. split; [reflexivity|]. split; [reflexivity|]. left. split; [reflexivity|]. intros w h d _ (A & i & B). rewrite F in A. injection A as <-. congruence.
  - injection H as <-. split; [reflexivity|]. split; [reflexivity|]. left. split; [reflexivity|]. intros w h d _ (A & _). congruence.
Qed.

(** Each texture keeps its place, name and size; it gets the data of the mip of its name exactly if there is one of its size, and is otherwise as it was. *)
Theorem C164_replace : forall l l', retex found head l = Some l' -> length l' = length l /\
  forall k t t', nth_error l k = Some t -> nth_error l' k = Some t' -> t_name t' = t_name t /\ t_size t' = t_size t /\
    ((t' = t /\ forall w h data, t_size t = Some (w, h) -> ~ offers (t_name t) w h data) \/
     (exists w h, t_size t = Some (w, h) /\ offers (t_name t) w h (t_data t') /\ t_null t' = false)).
Proof.
  induction l as [|t l IH]; intros l' H; cbn [retex] in H.
  - injection H as <-. split; [reflexivity|]. intros [|k] t t' A; discriminate.
  - destruct (retex1 found head t) as [t1|] eqn:R; [|discriminate]. destruct (retex found head l) as [l1|] eqn:E; [|discriminate]. injection H as <-.
    destruct (IH l1 eq_refl) as (L & Q). split; [cbn; lia|]. intros [|k] u u' A B; cbn in A, B; [|exact (Q k u u' A B)].
    injection A as <-. injection B as <-. exact (one _ _ R).
Qed.

(** Doing it twice is doing it once. *)
Theorem C164_twice : forall l l', retex found head l = Some l' -> retex found head l' = Some l'.
Proof.
  induction l as [|t l IH]; intros l' H; cbn [retex] in H; [injection H as <-; reflexivity|].
  destruct (retex1 found head t) as [t1|] eqn:R; [|discriminate]. destruct (retex found head l) as [l1|] eqn:E; [|discriminate]. injection H as <-. cbn [retex].
  assert (R1 : retex1 found head t1 = Some t1).
  { unfold retex1 in R. destruct (load found head (t_name t)) as [((w, h), data)|] eqn:L.
    - destruct (t_size t) as [(w', h')|] eqn:S; [|discriminate]. (match type of R with (if ?c then _ else _) = _ => destruct c eqn:C end); injection R as <-; unfold retex1; cbn [t_name t_size]; rewrite L.
      + rewrite S, C. reflexivity.
      + rewrite C. reflexivity.
    - injection R as <-. unfold retex1. rewrite L. reflexivity. }
  rewrite R1, (IH l1 eq_refl). reflexivity.
Qed.

(** It goes wrong exactly if a mip is found for a texture for which nothing was read. *)
Theorem C164_defined : forall l, retex found head l = None <-> exists t data inner w h, In t l /\ t_size t = None /\ found (t_name t) = Some data /\ head data = Some (inner, w, h).
Proof.
  induction l as [|t l IH]; cbn [retex]; [split; [discriminate|intros (t & d & i & w & h & [] & _)]|].
  destruct (retex1 found head t) as [t1|] eqn:R.
  - assert (N : forall d i w h, t_size t = None -> found (t_name t) = Some d -> head d = Some (i, w, h) -> False).
    { intros d i w h A B C. unfold retex1, load in R. rewrite B, C, A in R. discriminate. }
    split.
    + intro H. destruct (retex found head l) eqn:E; [discriminate|]. destruct (proj1 IH eq_refl) as (u & d & i & w & h & A & B). exists u, d, i, w, h. split; [right; exact A|exact B].
    + intros (u & d & i & w & h & [<-|A] & B & C & D); [destruct (N d i w h B C D)|]. rewrite (proj2 IH (ex_intro _ u (ex_intro _ d (ex_intro _ i (ex_intro _ w (ex_intro _ h (conj A (conj B (conj C D))))))))). reflexivity.
  - split; [|reflexivity]. intros _. unfold retex1, load in R. destruct (found (t_name t)) as [d|] eqn:F; [|discriminate]. destruct (head d) as [((i, w), h)|] eqn:Hd; [|discriminate].
    destruct (t_size t) as [(w', h')|] eqn:S; [match type of R with (if ?c then _ else _) = _ => destruct c end; discriminate|]. exists t, d, i, w, h. split; [left; reflexivity|]. auto.
Qed.

(** Read again, a texture has the same name and size if mips are stored under their own names. *)
Theorem C164_read_again : forall l l' k t t', (forall nm data inner w h, found nm = Some data -> head data = Some (inner, w, h) -> inner = nm) ->
  retex found head l = Some l' -> nth_error l k = Some t -> nth_error l' k = Some t' -> sound t -> again head t' = Some t'.
Proof.
  intros l l' k t t' W H A B (S0 & w & h & S1 & S2). destruct (C164_replace l l' H) as (_ & Q). destruct (Q k t t' A B) as (N & Z & [(-> & _)|(w' & h' & E & (F & i & Hd) & U)]).
  - unfold again. rewrite S0, S2. destruct t as [nm sz nu da]. cbn in *. subst. reflexivity.
  - unfold again. rewrite U, Hd. rewrite (W _ _ _ _ _ F Hd), <- N, <- E, <- Z. destruct t' as [nm sz nu da]. cbn in *. subst. reflexivity.
Qed.

(** A mip whose header has another name than it is stored under gives the texture that name when the file is read again. *)
Theorem C164_name_refuted : forall t data inner w h, t_size t = Some (w, h) -> found (t_name t) = Some data -> head data = Some (inner, w, h) -> inner <> t_name t ->
  exists t' t2, retex found head [t] = Some [t'] /\ again head t' = Some t2 /\ t_name t2 = inner /\ t_name t2 <> t_name t.
Proof.
  intros t data inner w h S F Hd N. cbn [retex]. unfold retex1, load. rewrite F, Hd, S, !Z.eqb_refl. cbn [negb orb]. do 2 eexists. split; [reflexivity|].
  unfold again. cbn [t_null t_data]. rewrite Hd. split; [reflexivity|]. auto.
Qed.

(** Textures that are missing in the bsp stay missing: they have lost their names, so nothing is found for them. *)
Theorem C164_missing_refuted : forall t t0, t_null t0 = true -> again head t0 = Some t -> found [] = None -> retex found head [t] = Some [t] /\ t_null t = true.
Proof. intros t t0 U A F. unfold again in A. rewrite U in A. injection A as <-. cbn [retex]. unfold retex1, load. cbn [t_name]. rewrite F. auto. Qed.
End Stmts.

Print Assumptions C164_replace.
Print Assumptions C164_twice.
Print Assumptions C164_defined.
Print Assumptions C164_read_again.
Print Assumptions C164_name_refuted.
Print Assumptions C164_missing_refuted.

(** A toy header: a letter, width and height. One texture of three has a mip of its size, one a mip of another size. *)
Definition head0 (d : list N) : option (list N * Z * Z) := match d with c :: w :: h :: _ => Some ([c], Z.of_N w, Z.of_N h) | _ => None end.
Definition found0 (nm : list N) : option (list N) := match nm with [65%N] => Some [65; 16; 16; 7]%N | [66%N] => Some [66; 32; 16; 7]%N | [68%N] => Some [68; 16]%N | _ => None end.
Example C164_nontrivial :
  retex found0 head0 [mkTex [65%N] (Some (16, 16)) true []; mkTex [66%N] (Some (16, 16)) false [66; 16; 16]%N; mkTex [67%N] (Some (16, 16)) false [67; 16; 16]%N; mkTex [68%N] None false []; mkTex [66%N] (Some (32, 8)) true []] =
  Some [mkTex [65%N] (Some (16, 16)) false [65; 16; 16; 7]%N; mkTex [66%N] (Some (16, 16)) false [66; 16; 16]%N; mkTex [67%N] (Some (16, 16)) false [67; 16; 16]%N; mkTex [68%N] None false []; mkTex [66%N] (Some (32, 8)) true []] /\
  retex found0 head0 [mkTex [65%N] None true []] = None.
Proof. split; reflexivity. Qed.
