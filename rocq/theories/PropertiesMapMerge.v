(* C141: bsputil --replace-entities for a map. *)
From Coq Require Import String Ascii List Arith NArith ZArith Bool Lia.
Import ListNotations.
From Verif Require Import Base NumCastModel ParserModel EntModel EntProofs MapMergeModel MapMergeProofs.
Local Open Scope list_scope.

(** The positions of the entities that stand for brush models: those with a key model and the area portals. *)
Fixpoint slots (i : nat) (l : list ment) : list nat :=
  match l with
  | [] => []
  | e :: t => if negb (beq (ed_get (mtext "model") (me_keys e)) []) || beq (ed_get (mtext "classname") (me_keys e)) (mtext "func_areaportal")
              then i :: slots (S i) t else slots (S i) t
  end.
(** The texts of brushes of a list of entities, without the empty ones. *)
Definition texts (l : list ment) : list bytes := filter (fun t => negb (beq t [])) (map me_brushes l).

Lemma slot_slots : forall e, slot e = negb (beq (ed_get (mtext "model") (me_keys e)) []) || beq (ed_get (mtext "classname") (me_keys e)) (mtext "func_areaportal").
Proof. intros e. unfold slot. destruct (ed_get (mtext "model") (me_keys e)); reflexivity. Qed.

Definition same_keys (a b : list ment) := map me_keys a = map me_keys b.
Lemma slots_keys : forall a b i, same_keys a b -> slots i a = slots i b.
Proof.
  unfold same_keys. induction a as [|x a IH]; intros [|y b] i H; try discriminate H; [reflexivity|]. cbn [map] in H. injection H as H1 H2.
  cbn [slots]. rewrite H1. rewrite (IH b (S i) H2). reflexivity.
Qed.
Lemma slots_ge : forall l i k p, nth_error (slots i l) k = Some p -> (i <= p < i + List.length l)%nat.
Proof.
  induction l as [|e l IH]; intros i k p H; [destruct k; discriminate H|]. cbn [slots List.length] in *.
  destruct (_ || _) in H; [destruct k as [|k]; [injection H as <-; lia|]|]; apply IH in H; lia.
Qed.
Lemma slots_inj : forall l i k k' p, nth_error (slots i l) k = Some p -> nth_error (slots i l) k' = Some p -> k = k'.
Proof.
  induction l as [|e l IH]; intros i k k' p H H'; [destruct k; discriminate H|]. cbn [slots] in *.
  destruct (_ || _) in H, H'.
  - destruct k as [|k], k' as [|k']; [reflexivity| | |]; cbn [nth_error] in *.
    + injection H as <-. apply slots_ge in H'. lia.
    + injection H' as <-. apply slots_ge in H. lia.
    + f_equal. eapply IH; eassumption.
  - eapply IH; eassumption.
Qed.

(** One text: exactly the entity at that slot gets it. *)
Lemma give_spec : forall l i b2 b text, (b2 <= b)%nat ->
  match nth_error (slots i l) (b - b2) with
  | None => give b2 b text l = None
  | Some p => exists l', give b2 b text l = Some l' /\ same_keys l' l /\
      nth_error (map me_brushes l') (p - i) = Some text /\ forall j, j <> (p - i)%nat -> nth_error l' j = nth_error l j
  end.
Proof.
  induction l as [|e l IH]; intros i b2 b text LE; [destruct (b - b2)%nat; reflexivity|]. cbn [slots give]. rewrite slot_slots.
  destruct (negb (beq (ed_get (mtext "model") (me_keys e)) []) || beq (ed_get (mtext "classname") (me_keys e)) (mtext "func_areaportal")) eqn:S; cbn [negb].
  - destruct (b2 =? b)%nat eqn:E.
    + apply Nat.eqb_eq in E. subst b2. rewrite Nat.sub_diag. cbn [nth_error]. eexists. split; [reflexivity|]. split; [reflexivity|].
      rewrite Nat.sub_diag. split; [reflexivity|]. intros [|j] J; [lia|reflexivity].
    + apply Nat.eqb_neq in E. replace (b - b2)%nat with (Datatypes.S (b - Datatypes.S b2)) by lia. cbn [nth_error].
      specialize (IH (Datatypes.S i) (Datatypes.S b2) b text ltac:(lia)). destruct (nth_error (slots (Datatypes.S i) l) (b - Datatypes.S b2)) as [p|] eqn:NP.
      * destruct IH as (l' & G & K & T & O). rewrite G. cbn [option_map]. exists (e :: l'). split; [reflexivity|]. pose proof (slots_ge _ _ _ _ NP) as GE.
        split; [unfold same_keys in *; cbn [map]; congruence|]. replace (p - i)%nat with (Datatypes.S (p - Datatypes.S i)) by lia. split; [exact T|].
        intros [|j] J; [reflexivity|]. cbn [nth_error]. apply O. lia.
      * rewrite IH. reflexivity.
  - specialize (IH (Datatypes.S i) b2 b text LE). destruct (nth_error (slots (Datatypes.S i) l) (b - b2)) as [p|] eqn:NP.
    + destruct IH as (l' & G & K & T & O). rewrite G. cbn [option_map]. exists (e :: l'). split; [reflexivity|]. pose proof (slots_ge _ _ _ _ NP) as GE.
      split; [unfold same_keys in *; cbn [map]; congruence|]. replace (p - i)%nat with (Datatypes.S (p - Datatypes.S i)) by lia. split; [exact T|].
      intros [|j] J; [reflexivity|]. cbn [nth_error]. apply O. lia.
    + rewrite IH. reflexivity.
Qed.

Lemma give_all_spec : forall ms j l,
  (j + List.length (texts ms) <= List.length (slots 0 l))%nat /\ (exists r, give_all (S j) ms l = ROk r /\ same_keys r l /\
     (forall k p t, nth_error (slots 0 l) (j + k) = Some p -> nth_error (texts ms) k = Some t -> nth_error (map me_brushes r) p = Some t) /\
     (forall p, (forall k t, nth_error (slots 0 l) (j + k) = Some p -> nth_error (texts ms) k = Some t -> False) -> nth_error (map me_brushes r) p = nth_error (map me_brushes l) p))
  \/ (List.length (slots 0 l) < j + List.length (texts ms))%nat /\ (j <= List.length (slots 0 l) -> give_all (S j) ms l = RThrow)%nat.
Proof.
  induction ms as [|m ms IH]; intros j l.
  - cbn [texts map filter List.length give_all]. destruct (le_lt_dec j (List.length (slots 0 l))) as [C|C]; [left|right; split; [lia|intros; lia]].
    split; [lia|]. exists l. split; [reflexivity|]. split; [reflexivity|]. split; [|reflexivity]. intros k p t _ X. destruct k; discriminate X.
  - unfold texts in *. cbn [map filter give_all]. destruct (me_brushes m) as [|c tx] eqn:MB.
    + change (beq [] []) with true. cbn [negb]. apply IH.
    + change (negb (beq (c :: tx) [])) with true. cbv iota. cbn [List.length]. set (T := c :: tx) in *.
      pose proof (give_spec l 0 1 (S j) T ltac:(lia)) as G. replace (S j - 1)%nat with j in G by lia.
      destruct (nth_error (slots 0 l) j) as [p|] eqn:NP.
      * destruct G as (l' & -> & K & TX & O). rewrite Nat.sub_0_r in TX, O. specialize (IH (S j) l'). rewrite (slots_keys l' l 0 K) in IH.
        assert (JL : (j < List.length (slots 0 l))%nat) by (apply nth_error_Some; congruence).
        destruct IH as [(LE & r & R & RK & A & B)|(LT & R)].
        -- left. split; [lia|]. exists r. split; [exact R|]. split; [unfold same_keys in *; congruence|]. split.
           ++ intros [|k] q t Q X; cbn [nth_error] in X.
              ** injection X as <-. rewrite Nat.add_0_r, NP in Q. injection Q as <-. rewrite B; [exact TX|].
                 intros k' t' Q' _. pose proof (slots_inj _ _ _ _ _ Q' NP). lia.
              ** apply (A k q t); [replace (S j + k)%nat with (j + S k)%nat by lia; exact Q|exact X].
           ++ intros q N. rewrite B.
              ** rewrite !nth_error_map. rewrite O; [reflexivity|]. intros ->. apply (N 0%nat T); [rewrite Nat.add_0_r; exact NP|reflexivity].
              ** intros k t Q X. apply (N (S k) t); [replace (j + S k)%nat with (S j + k)%nat by lia; exact Q|exact X].
        -- right. split; [lia|]. intros _. apply R. lia.
      * right. apply nth_error_None in NP. rewrite G. split; [lia|]. reflexivity.
Qed.

(** ** C141 *)

(** The k-th text of brushes after worldspawn goes to the k-th entity with a model (or area portal) of the
    new file, worldspawn gets those of worldspawn, and all other entities stay as they are but for keys
    that are cleaned; with too few such entities bsputil stops. *)
Theorem C141_merge : forall w ms e es,
  let l := mkEnt (me_keys e) (me_brushes w) :: es in
  ((List.length (slots 0 l) < List.length (texts ms))%nat -> merge (w :: ms) (e :: es) = RThrow) /\
  ((List.length (texts ms) <= List.length (slots 0 l))%nat -> exists r, merge (w :: ms) (e :: es) = ROk r /\ List.length r = List.length l /\
     forall i x, nth_error l i = Some x -> exists y, nth_error r i = Some y /\ y = clean (mkEnt (me_keys x) (me_brushes y)) /\
       (forall k t, nth_error (slots 0 l) k = Some i -> nth_error (texts ms) k = Some t -> me_brushes y = t) /\
       ((forall k t, nth_error (slots 0 l) k = Some i -> nth_error (texts ms) k = Some t -> False) -> me_brushes y = me_brushes x)).
Proof.
  intros w ms e es l. unfold merge. fold l. destruct (give_all_spec ms 0 l) as [(LE & r & R & K & A & B)|(LT & R)]; cbn [Nat.add] in *; [split; [lia|intros _]|split; [intros _; rewrite (R ltac:(lia)); reflexivity|lia]].
  rewrite R. cbn [rbind]. exists (map clean r). split; [reflexivity|].
  assert (LR : List.length r = List.length l) by (unfold same_keys in K; rewrite <- (map_length me_keys r), K, map_length; reflexivity).
  split; [rewrite map_length; exact LR|]. intros i x X.
  destruct (nth_error r i) as [y|] eqn:Y; [|apply nth_error_None in Y; assert (i < List.length l)%nat by (apply nth_error_Some; congruence); lia].
  assert (KY : me_keys y = me_keys x).
  { assert (Q : nth_error (map me_keys r) i = nth_error (map me_keys l) i) by (unfold same_keys in K; congruence). rewrite !nth_error_map, X, Y in Q. injection Q as Q. exact Q. }
  exists (clean y). rewrite nth_error_map, Y. split; [reflexivity|]. split.
  { unfold clean at 1 2. cbn [me_keys me_brushes]. rewrite <- KY. reflexivity. }
  cbn [clean me_brushes]. split.
  - intros k t S T. pose proof (A k i t S T) as Q. rewrite nth_error_map, Y in Q. injection Q as Q. exact Q.
  - intros N. pose proof (B i N) as Q. rewrite !nth_error_map, X, Y in Q. injection Q as Q. exact Q.
Qed.
Print Assumptions C141_merge.

(** The keys: entities with brushes lose origin; a light with a targetname and an area portal lose style; nothing else changes. *)
Theorem C141_keys : forall d b, NoDup (map fst d) ->
  let d' := me_keys (clean (mkEnt d b)) in
  (forall k, k <> mtext "origin" -> k <> mtext "style" -> assoc k d' = assoc k d) /\
  assoc (mtext "origin") d' = (if beq b [] then assoc (mtext "origin") d else None) /\
  assoc (mtext "style") d' =
    (if (beq (ed_get (mtext "classname") d) (mtext "light") && ed_has (mtext "targetname") d) || beq (ed_get (mtext "classname") d) (mtext "func_areaportal")
     then None else assoc (mtext "style") d) /\
  me_brushes (clean (mkEnt d b)) = b.
Proof.
  intros d b ND. change (map fst d) with (keys d) in ND. cbn zeta.
  set (d1 := match b with [] => d | _ => if ed_has (mtext "origin") d then ed_remove (mtext "origin") d else d end).
  assert (E0 : me_keys (clean (mkEnt d b)) = if ed_has (mtext "style") d1 then if beq (ed_get (mtext "classname") d1) (mtext "light") then if ed_has (mtext "targetname") d1 then ed_remove (mtext "style") d1 else d1
                else if beq (ed_get (mtext "classname") d1) (mtext "func_areaportal") then ed_remove (mtext "style") d1 else d1 else d1) by reflexivity.
  rewrite E0. clear E0.
  assert (N1 : NoDup (keys d1)) by (unfold d1; destruct b; [exact ND|]; destruct (ed_has (mtext "origin") d); [apply nodup_remove; exact ND|exact ND]).
  assert (A1 : forall k, assoc k d1 = if beq k (mtext "origin") then (if beq b [] then assoc k d else None) else assoc k d).
  { intros k. unfold d1. destruct b as [|c b]; [destruct (beq k (mtext "origin")); reflexivity|]. change (beq (c :: b) []) with false. cbv iota.
    destruct (beq k (mtext "origin")) eqn:E.
    - apply beq_eq in E. subst k. rewrite has_assoc. destruct (assoc (mtext "origin") d) as [o|] eqn:O; [|exact O]. rewrite assoc_remove by exact ND.
      destruct (list_eq_dec N.eq_dec (mtext "origin") (mtext "origin")); [reflexivity|contradiction].
    - apply beq_neq in E. destruct (ed_has (mtext "origin") d); [|reflexivity]. rewrite assoc_remove by exact ND. destruct (list_eq_dec N.eq_dec k (mtext "origin")); [contradiction|reflexivity]. }
  assert (GC : ed_get (mtext "classname") d1 = ed_get (mtext "classname") d) by (rewrite !get_assoc, A1; reflexivity).
  assert (HT : ed_has (mtext "targetname") d1 = ed_has (mtext "targetname") d) by (rewrite !has_assoc, A1; reflexivity).
  rewrite GC, HT. set (cond := (beq (ed_get (mtext "classname") d) (mtext "light") && ed_has (mtext "targetname") d) || beq (ed_get (mtext "classname") d) (mtext "func_areaportal")).
  assert (E2 : (if ed_has (mtext "style") d1 then if beq (ed_get (mtext "classname") d) (mtext "light") then if ed_has (mtext "targetname") d then ed_remove (mtext "style") d1 else d1
                else if beq (ed_get (mtext "classname") d) (mtext "func_areaportal") then ed_remove (mtext "style") d1 else d1 else d1)
             = if ed_has (mtext "style") d1 && cond then ed_remove (mtext "style") d1 else d1).
  { unfold cond. destruct (ed_has (mtext "style") d1); [|reflexivity]. destruct (beq (ed_get (mtext "classname") d) (mtext "light")) eqn:L; cbn [andb orb].
    - apply beq_eq in L. rewrite L. destruct (ed_has (mtext "targetname") d); reflexivity.
    - destruct (beq (ed_get (mtext "classname") d) (mtext "func_areaportal")); reflexivity. }
  rewrite E2. split; [|split; [|split; [|reflexivity]]].
  - intros k K1 K2. destruct (ed_has (mtext "style") d1 && cond).
    + rewrite assoc_remove by exact N1. destruct (list_eq_dec N.eq_dec k (mtext "style")); [contradiction|]. rewrite A1. apply beq_neq in K1. rewrite K1. reflexivity.
    + rewrite A1. apply beq_neq in K1. rewrite K1. reflexivity.
  - destruct (ed_has (mtext "style") d1 && cond).
    + rewrite assoc_remove by exact N1. destruct (list_eq_dec N.eq_dec (mtext "origin") (mtext "style")) as [X|_]; [discriminate X|]. rewrite A1, beq_refl. reflexivity.
    + rewrite A1, beq_refl. reflexivity.
  - rewrite has_assoc. rewrite A1. change (beq (mtext "style") (mtext "origin")) with false. cbv iota.
    destruct (assoc (mtext "style") d) as [o|] eqn:O; [|cbn [andb]; rewrite A1; change (beq (mtext "style") (mtext "origin")) with false; cbv iota; rewrite O; destruct cond; reflexivity].
    cbn [andb]. destruct cond.
    + rewrite assoc_remove by exact N1. destruct (list_eq_dec N.eq_dec (mtext "style") (mtext "style")); [reflexivity|contradiction].
    + rewrite A1. change (beq (mtext "style") (mtext "origin")) with false. exact O.
Qed.
Print Assumptions C141_keys.

(** Nothing else ties brushes to entities: a brush entity missing from the map moves all later brushes to the
    entity before, without a message; worldspawn with a key model loses its brushes; a switchable spotlight (any class but light) keeps its style;
    an empty file is not noticed. *)
Theorem C141_merge_refuted :
  (forall m1 m2 b, b <> [] -> exists w e1 e2 r, merge [w; mkEnt m2 b] [mkEnt [] []; mkEnt ((mtext "model", mtext "*1") :: e1) []; mkEnt ((mtext "model", mtext "*2") :: e2) []] = ROk r /\
     e1 = m1 /\ map me_brushes r = [me_brushes w; b; []]) /\
  (forall w b, b <> [] -> exists r, merge [w; mkEnt [] b] [mkEnt [(mtext "model", mtext "x")] []] = ROk r /\ map me_brushes r = [b]) /\
  (let d := [(mtext "classname", mtext "light_fluoro"); (mtext "targetname", mtext "a"); (mtext "style", mtext "32")] in clean (mkEnt d []) = mkEnt d []) /\
  (forall l, merge [] l = RUB /\ merge l [] = RUB).
Proof.
  split; [|split; [|split]].
  - intros m1 m2 b B. destruct b as [|c b]; [congruence|]. exists (mkEnt [] []), m1, []. eexists. split; [cbn; reflexivity|]. split; reflexivity.
  - intros w b B. destruct b as [|c b]; [congruence|]. eexists. split; [cbn; reflexivity|]. reflexivity.
  - reflexivity.
  - intros l. split; [reflexivity|]. destruct l; reflexivity.
Qed.
Print Assumptions C141_merge_refuted.

(** The text written is read back as the same entities, with the same text of brushes (brushes of lines of tokens without braces). *)
Theorem C141_text : forall l,
  (forall e, In e l -> NoDup (map fst (me_keys e)) /\
     (forall k v, In (k, v) (me_keys e) -> k <> [] /\ isspace (hd 0%N k) = false /\ isspace (last k 0%N) = false /\ k <> mtext "{" /\ k <> mtext "}" /\
        ~ In 34%N k /\ ~ In 0%N k /\ last k 0%N <> 92%N /\ ~ In 34%N v /\ ~ In 0%N v) /\
     exists brushes : list (list (bytes * N)),
       me_brushes e = concat (map (fun ws => mtext "{" ++ [10%N] ++ concat (map (fun p => fst p ++ [snd p]) ws) ++ mtext "}" ++ [10%N]) brushes) /\
       forall ws w c, In ws brushes -> In (w, c) ws -> In c [32; 9; 10; 13]%N /\ w <> [] /\ (forall x, In x w -> 32 < x < 128)%N /\
         hd 0%N w <> 34%N /\ hd 0%N w <> 59%N /\ firstn 2 w <> [47; 47]%N /\ w <> mtext "}") ->
  load (concat (map ent_text l)) = E_ok l.
Proof.
  intros l H. apply load_ent_text. apply Forall_forall. intros e IE. destruct (H e IE) as (ND & P & bs & EB & W). split; [exact ND|]. split.
  - apply Forall_forall. intros [k v] I. destruct (P k v I) as (K0 & K1 & K2 & K3 & K4 & K5 & K6 & K7 & V1 & V2). unfold pairok. cbn [fst snd].
    split; [apply (quotable_plain (List.length k)); auto|]. split; [apply (quotable_plain (List.length v)); auto|]. split; [exact K4|]. split; [exact K3|].
    destruct k as [|c k]; [congruence|]. exists c, k. auto.
  - exists bs. split; [|exact EB]. apply Forall_forall. intros ws IW. apply Forall_forall. intros [w c] IP. destruct (W ws w c IW IP) as (C & W0 & W1 & W2 & W3 & W4 & W5). cbn [fst snd]. split.
    + split; [exact W0|]. split; [|split; [exact W2|split; [exact W3|split; [exact W4|exact W5]]]]. apply Forall_forall. intros x IX. specialize (W1 x IX). unfold blank.
      apply orb_false_iff. split; [apply N.leb_gt|apply N.leb_gt]; lia.
    + unfold sepok. cbn [In] in C. destruct C as [C|[C|[C|[C|[]]]]]; auto.
Qed.
Print Assumptions C141_text.

(** Reading a map always ends. *)
Theorem C141_read_ends : forall text, load text <> E_fuel.
Proof. exact load_total. Qed.
Print Assumptions C141_read_ends.

(** Braces inside a brush (brushDef, patchDef2) are not counted: such a map is an error; and without a line end after the last
    brace the parser reads behind the text. *)
Theorem C141_read_refuted :
  (forall ws, (forall w c, In (w, c) ws -> In c [32; 9; 10; 13]%N /\ w <> [] /\ (forall x, In x w -> 32 < x < 128)%N /\
         hd 0%N w <> 34%N /\ hd 0%N w <> 59%N /\ firstn 2 w <> [47; 47]%N /\ w <> mtext "}") ->
     let nl := [10%N] in
     load (mtext "{" ++ nl ++ mtext "{" ++ nl ++ mtext "brushDef" ++ nl ++ mtext "{" ++ nl ++ concat (map (fun p => fst p ++ [snd p]) ws) ++ mtext "}" ++ nl ++ mtext "}" ++ nl ++ mtext "}" ++ nl) = E_error) /\
  load (mtext "{" ++ [10%N] ++ mtext "}") = E_UB.
Proof.
  split; [|vm_compute; reflexivity]. intros ws W nl.
  assert (WO : wordsok ((mtext "brushDef", 10%N) :: (mtext "{", 10%N) :: ws)).
  { assert (G : forall w c, In (w, c) ((mtext "brushDef", 10%N) :: (mtext "{", 10%N) :: ws) -> In c [32; 9; 10; 13]%N /\ w <> [] /\ (forall x, In x w -> 32 < x < 128)%N /\
         hd 0%N w <> 34%N /\ hd 0%N w <> 59%N /\ firstn 2 w <> [47; 47]%N /\ w <> mtext "}").
    { intros w c [E|[E|I]]; [| |apply (W w c I)]; injection E as <- <-; (split; [cbn; auto|]); (split; [discriminate|]); (split; [|repeat split; discriminate]); intros x X; cbn in X; lia. }
    apply Forall_forall. intros [w c] IP. destruct (G w c IP) as (C & W0 & W1 & W2 & W3 & W4 & W5). cbn [fst snd]. split.
    + split; [exact W0|]. split; [|split; [exact W2|split; [exact W3|split; [exact W4|exact W5]]]]. apply Forall_forall. intros x IX. specialize (W1 x IX). unfold blank.
      apply orb_false_iff. split; [apply N.leb_gt|apply N.leb_gt]; lia.
    + unfold sepok. cbn [In] in C. destruct C as [C|[C|[C|[C|[]]]]]; auto. }
  assert (E : mtext "{" ++ nl ++ mtext "{" ++ nl ++ mtext "brushDef" ++ nl ++ mtext "{" ++ nl ++ concat (map (fun p => fst p ++ [snd p]) ws) ++ mtext "}" ++ nl ++ mtext "}" ++ nl ++ mtext "}" ++ nl
     = 123%N :: 10%N :: concat (map block [(mtext "brushDef", 10%N) :: (mtext "{", 10%N) :: ws]) ++ 125%N :: 10%N :: [125%N; 10%N]).
  { cbn [map concat]. rewrite app_nil_r. unfold block, body. cbn [map concat fst snd]. change (mtext "{") with [123%N]. change (mtext "}") with [125%N]. unfold nl. repeat (rewrite <- !app_assoc; cbn [app]). reflexivity. }
  rewrite E. set (B := concat (map block [(mtext "brushDef", 10%N) :: (mtext "{", 10%N) :: ws])). unfold load, new_parser.
  assert (L : List.length (123%N :: 10%N :: B ++ 125%N :: 10%N :: [125%N; 10%N]) = S (S (List.length B + S 3))) by (cbn [List.length]; rewrite app_length; cbn [List.length]; lia).
  rewrite L. cbn [load_loop]. unfold parse_token. change (f_peek PARSE_NORMAL) with false. cbn beta iota. cbn [ps_mem ps_left ps_line].
  rewrite (skip_brace PARSE_NORMAL 123 _ _ _ ok_normal) by auto. cbn [ps_token]. change (beq [123%N] [123%N]) with true. cbn iota. cbn [ps_mem].
  match goal with |- context [ent_loop ?FU _ _] => destruct (blocks_read [(mtext "brushDef", 10%N) :: (mtext "{", 10%N) :: ws] FU (mkEnt [] []) [123%N] false [125%N; 10%N] 3 1%nat) as [l2 X]; [constructor; [exact WO|constructor]|cbn [List.length]; lia|] end.
  fold B in X. rewrite X. cbn iota. vm_compute. reflexivity.
Qed.
Print Assumptions C141_read_refuted.

(** An entity that does not end, a key without a value and text outside of entities are errors; a brace in quotes begins a brush,
    whose text then begins with the second quote. *)
Theorem C141_errors : load (mtext "{" ++ [10%N]) = E_error /\ load (mtext "a" ++ [10%N]) = E_error /\ load (mtext "{ a" ++ [10%N] ++ mtext "}" ++ [10%N]) = E_error /\
  load (mtext "{" ++ [10; 34]%N ++ mtext "{" ++ [34; 10]%N ++ mtext "a" ++ [10%N] ++ mtext "}" ++ [10%N] ++ mtext "}" ++ [10%N]) = E_ok [mkEnt [] ([34; 10]%N ++ mtext "a" ++ [10%N] ++ mtext "}" ++ [10%N])].
Proof. vm_compute. repeat split; reflexivity. Qed.
Print Assumptions C141_errors.

(** Worldspawn, an area portal and a door: two texts. *)
Example C141_nontrivial :
  let k s v := (mtext s, mtext v) in
  merge [mkEnt [] (mtext "W"); mkEnt [] (mtext "P"); mkEnt [] []; mkEnt [] (mtext "D")]
        [mkEnt [k "classname" "worldspawn"] []; mkEnt [k "classname" "light"; k "targetname" "t"; k "style" "32"] [];
         mkEnt [k "classname" "func_areaportal"; k "style" "1"] []; mkEnt [k "classname" "func_door"; k "model" "*1"; k "origin" "1 2 3"] []]%string
  = ROk [mkEnt [k "classname" "worldspawn"] (mtext "W"); mkEnt [k "classname" "light"; k "targetname" "t"] [];
         mkEnt [k "classname" "func_areaportal"] (mtext "P"); mkEnt [k "classname" "func_door"; k "model" "*1"] (mtext "D")]%string.
Proof. vm_compute. reflexivity. Qed.
