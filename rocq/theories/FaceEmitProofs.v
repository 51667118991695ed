(* Emission of vertices, edges and faces: lemmas. *)
From Coq Require Import List Arith NArith ZArith Bool Lia.
From Verif Require Import NumCastModel ParserModel TexFlagsModel TexFlagsProofs FaceEmitModel TexExportProofs.
Import ListNotations.

(** ** Edges *)

(** The vertices a signed edge number goes from and to. *)
Definition ends (edges : list (nat * nat)) (e : Z) : option (nat * nat) :=
  match nth_error edges (Z.abs_nat e) with
  | Some (a, b) => Some (if (e <? 0)%Z then (b, a) else (a, b))
  | None => None
  end.

(** [own] gives the contents each edge was made for. *)
Definition hinv (lo : nat) (edges : list (nat * nat)) (h : ehash) (own : list N) : Prop :=
  length own = length edges /\ 1 <= lo <= length edges /\
  (forall k i c, hfind k h = Some (i, c) -> lo <= i /\ nth_error edges i = Some k /\ nth_error own i = Some c).

Lemma hfind_app : forall k h x v, hfind k (h ++ [(x, v)]) =
  match hfind k h with Some w => Some w | None => if Nat.eqb (fst k) (fst x) && Nat.eqb (snd k) (snd x) then Some v else None end.
Proof.
  intros k h x v. induction h as [|[k' w] h IH]; cbn [app hfind]; [reflexivity|].
  destruct (Nat.eqb (fst k) (fst k') && Nat.eqb (snd k) (snd k')); [reflexivity|exact IH].
Qed.

Lemma nth_error_grow : forall A (l m : list A) i a, nth_error l i = Some a -> nth_error (l ++ m) i = Some a.
Proof. intros A l m i a H. rewrite nth_error_app1; [exact H|]. apply nth_error_Some. rewrite H. discriminate. Qed.

(** An edge used for a side from [a] to [b] of a face with contents [c]. *)
Definition used (lo : nat) (edges : list (nat * nat)) (own : list N) (c : N) (a b : nat) (e : Z) : Prop :=
  e <> 0%Z /\ lo <= Z.abs_nat e < length edges /\ ends edges e = Some (a, b) /\ nth_error own (Z.abs_nat e) = Some c.

Lemma used_grow : forall lo edges own c a b e l m, used lo edges own c a b e -> used lo (edges ++ l) (own ++ m) c a b e.
Proof.
  intros lo edges own c a b e l m [U1 [U2 [U3 U4]]]. split; [exact U1|]. split; [rewrite app_length; lia|]. split.
  - unfold ends in *. destruct (nth_error edges (Z.abs_nat e)) as [[x y]|] eqn:E; [|discriminate]. rewrite (nth_error_grow _ _ _ _ _ E). exact U3.
  - apply nth_error_grow. exact U4.
Qed.

Lemma get_edge_spec : forall lo cv nr c v1 v2 edges h own e edges1 h1, hinv lo edges h own ->
  get_edge cv nr c v1 v2 edges h = ROk (e, edges1, h1) ->
  exists l m, edges1 = edges ++ l /\ hinv lo edges1 h1 (own ++ m) /\ used lo edges1 (own ++ m) c v1 v2 e /\
    ((0 < e)%Z -> e = Z.of_nat (length edges) /\ length l = 1).
Proof.
  intros lo cv nr c v1 v2 edges h own e edges1 h1 [I1 [I2 I3]] H. unfold get_edge in H. destruct (cv c); cbn [negb] in H; [|discriminate].
  assert (FRESH : ROk (Z.of_nat (length edges), edges ++ [(v1, v2)], hemplace (v1, v2) (length edges, c) h) = ROk (e, edges1, h1) ->
    exists l m, edges1 = edges ++ l /\ hinv lo edges1 h1 (own ++ m) /\ used lo edges1 (own ++ m) c v1 v2 e /\
    ((0 < e)%Z -> e = Z.of_nat (length edges) /\ length l = 1)).
  { intro X. inversion X; subst. clear X. exists [(v1, v2)], [c]. split; [reflexivity|].
    assert (E1 : nth_error (edges ++ [(v1, v2)]) (length edges) = Some (v1, v2)) by (rewrite nth_error_app2 by lia; rewrite Nat.sub_diag; reflexivity).
    assert (E2 : nth_error (own ++ [c]) (length edges) = Some c) by (rewrite nth_error_app2 by lia; rewrite I1, Nat.sub_diag; reflexivity).
    split.
    - split; [rewrite !app_length; cbn [length]; lia|]. split; [rewrite app_length; lia|].
      intros k i d Hk. unfold hemplace in Hk. destruct (hfind (v1, v2) h) eqn:F.
      + destruct (I3 _ _ _ Hk) as [A [B C]]. split; [exact A|]. split; apply nth_error_grow; assumption.
      + rewrite hfind_app in Hk. destruct (hfind k h) as [[i0 d0]|] eqn:Fk.
        * inversion Hk; subst. destruct (I3 _ _ _ Fk) as [A [B C]]. split; [exact A|]. split; apply nth_error_grow; assumption.
        * destruct (Nat.eqb (fst k) (fst (v1, v2)) && Nat.eqb (snd k) (snd (v1, v2))) eqn:EQ; [|discriminate]. inversion Hk; subst.
          apply andb_true_iff in EQ. destruct EQ as [Q1 Q2]. apply Nat.eqb_eq in Q1, Q2. destruct k as [a b]. cbn in Q1, Q2. subst.
          split; [lia|]. split; assumption.
    - split.
      + split; [lia|]. rewrite Zabs2Nat.id. split; [rewrite app_length; cbn [length]; lia|]. split; [|exact E2].
        unfold ends. rewrite Zabs2Nat.id, E1. replace (Z.of_nat (length edges) <? 0)%Z with false by (symmetry; apply Z.ltb_ge; lia). reflexivity.
      + intros _. split; reflexivity. }
  destruct nr; [exact (FRESH H)|]. destruct (hfind (v2, v1) h) as [[i c']|] eqn:F; [|exact (FRESH H)].
  destruct (N.eqb c' c) eqn:EC; [|exact (FRESH H)]. apply N.eqb_eq in EC. subst c'. inversion H; subst. clear H FRESH.
  destruct (I3 _ _ _ F) as [A [B C]]. exists [], []. rewrite !app_nil_r. split; [reflexivity|]. split; [split; [exact I1|]; split; [exact I2|exact I3]|].
  split; [|intro X; exfalso; lia].
  assert (AB : Z.abs_nat (- Z.of_nat i) = i) by lia.
  split; [lia|]. rewrite AB. split; [split; [exact A|apply nth_error_Some; rewrite B; discriminate]|]. split; [|exact C].
  unfold ends. rewrite AB, B. replace (- Z.of_nat i <? 0)%Z with true by (symmetry; apply Z.ltb_lt; lia). reflexivity.
Qed.

(** The positive numbers in a list of edges: each edge once, none older than [lo]. *)
Definition pos_new (base : nat) (es : list Z) : Prop :=
  NoDup (filter (fun e => (0 <? e)%Z) es) /\ Forall (fun e => (0 < e)%Z -> (Z.of_nat base <= e)%Z) es.

Lemma edge_loop_spec : forall lo cv nr c vs todo i edges h own es edges1 h1, hinv lo edges h own ->
  edge_loop cv nr c vs i todo edges h = ROk (es, edges1, h1) ->
  exists l m, edges1 = edges ++ l /\ hinv lo edges1 h1 (own ++ m) /\ length es = todo /\ pos_new (length edges) es /\
    forall k, k < todo -> exists e, nth_error es k = Some e /\ used lo edges1 (own ++ m) c (nth (i + k) vs 0) (nth ((i + k + 1) mod length vs) vs 0) e.
Proof.
  induction todo as [|todo IH]; intros i edges h own es edges1 h1 I H; cbn [edge_loop] in H.
  - inversion H; subst. exists [], []. rewrite !app_nil_r. split; [reflexivity|]. split; [exact I|]. split; [reflexivity|]. split; [split; constructor|]. intros k K. lia.
  - destruct (get_edge _ _ _ _ _ _ _) as [[[e ed1] hh1]| |] eqn:G; cbn [rbind] in H; try discriminate.
    destruct (get_edge_spec _ _ _ _ _ _ _ _ _ _ _ _ I G) as [l [m [E1 [I1 [U P]]]]].
    destruct (edge_loop cv nr c vs (S i) todo ed1 hh1) as [[[es2 ed2] hh2]| |] eqn:L; cbn [rbind] in H; try discriminate.
    inversion H; subst. clear H. destruct (IH _ _ _ _ _ _ _ I1 L) as [l2 [m2 [E2 [I2 [LE [PN A]]]]]].
    exists (l ++ l2), (m ++ m2). rewrite !app_assoc. split; [exact E2|]. rewrite <- app_assoc in I2. rewrite app_assoc in I2. split; [exact I2|]. split; [cbn [length]; lia|]. split.
    + destruct PN as [P1 P2]. unfold pos_new. cbn [filter]. rewrite app_length in P2.
      assert (P2' : Forall (fun e0 => (0 < e0)%Z -> (Z.of_nat (length edges) <= e0)%Z) es2).
      { eapply Forall_impl; [|exact P2]. cbn. intros x X Y. specialize (X Y). lia. }
      destruct (0 <? e)%Z eqn:PE.
      * apply Z.ltb_lt in PE. destruct (P PE) as [Q1 Q2]. split.
        -- constructor; [|exact P1]. intro X. apply filter_In in X. destruct X as [X _]. rewrite Forall_forall in P2. specialize (P2 e X PE). lia.
        -- constructor; [intros _; lia|exact P2'].
      * apply Z.ltb_ge in PE. split; [exact P1|]. constructor; [lia|exact P2'].
    + intros k K. destruct k as [|k].
      * exists e. split; [reflexivity|]. rewrite Nat.add_0_r. rewrite E2. apply used_grow. exact U.
      * destruct (A k) as [e' [N1 N2]]; [lia|]. exists e'. split; [exact N1|]. replace (i + S k) with (S i + k) by lia. exact N2.
Qed.

(** ** Faces *)

Lemma NoDup_app_intro_ : forall A (a b : list A), NoDup a -> NoDup b -> (forall x, In x a -> In x b -> False) -> NoDup (a ++ b).
Proof.
  induction a as [|x a IH]; intros b HA HB D; [exact HB|]. inversion HA as [|? ? X Y]; subst. cbn [app]. constructor.
  - intro Z. apply in_app_or in Z. destruct Z as [Z|Z]; [exact (X Z)|]. apply (D x); [left; reflexivity|exact Z].
  - apply IH; [exact Y|exact HB|]. intros z P Q. apply (D z); [right; exact P|exact Q].
Qed.

Section Faces.
Context {P : Type}.
Variable o : eopts.
Variable lo : nat.

Definition einv (st : estate P) (own : list N) : Prop :=
  hinv lo (es_edges st) (es_hash st) own /\ pinv (es_planes st) /\ tinv (e_tex o) (es_tex st) [] /\
  length (es_lm st) = length (es_faces st) /\
  Forall (fun e => Z.abs_nat e < length (es_edges st)) (es_surf st) /\
  NoDup (filter (fun e => (0 <? e)%Z) (es_surf st)).

Definition egrows (st st1 : estate P) (own own1 : list N) : Prop :=
  (exists l, es_edges st1 = es_edges st ++ l) /\ (exists m, own1 = own ++ m) /\
  (exists s, es_surf st1 = es_surf st ++ s) /\ (exists f, es_faces st1 = es_faces st ++ f) /\ (exists f, es_lm st1 = es_lm st ++ f) /\
  pgrows (es_planes st) (es_planes st1) /\ tgrows (es_tex st) (es_tex st1).

Lemma egrows_refl : forall st own, egrows st st own own.
Proof.
  intros st own. unfold egrows. repeat split; try (exists []; rewrite app_nil_r; reflexivity); try apply pgrows_refl; try apply tgrows_refl.
Qed.
Lemma egrows_trans : forall a b c o1 o2 o3, egrows a b o1 o2 -> egrows b c o2 o3 -> egrows a c o1 o3.
Proof.
  intros a b c o1 o2 o3 [[l1 A1] [[m1 A2] [[s1 A3] [[f1 A4] [[g1 A5] [A6 A7]]]]]] [[l2 B1] [[m2 B2] [[s2 B3] [[f2 B4] [[g2 B5] [B6 B7]]]]]].
  split; [exists (l1 ++ l2); rewrite B1, A1, app_assoc; reflexivity|].
  split; [exists (m1 ++ m2); rewrite B2, A2, app_assoc; reflexivity|].
  split; [exists (s1 ++ s2); rewrite B3, A3, app_assoc; reflexivity|].
  split; [exists (f1 ++ f2); rewrite B4, A4, app_assoc; reflexivity|].
  split; [exists (g1 ++ g2); rewrite B5, A5, app_assoc; reflexivity|].
  split; [exact (pgrows_trans _ _ _ _ A6 B6)|exact (tgrows_trans _ _ _ A7 B7)].
Qed.

(** The number of a texinfo in the BSP. *)
Definition tex_number (src : list tsrc) (n v : Z) : Prop :=
  exists s, at_z src n = Some s /\
    match ts_out s with Some i => v = Z.of_nat i | None => tex_skipped (e_tex o) s = true /\ v = (-1)%Z end.

(** What the BSP says about a fragment. *)
Definition frag_ok (st : estate P) (own : list N) (fr : nface * list nat) (out : oface) (lm : Z) : Prop :=
  let '(f, vs) := fr in
  lm = nf_lmshift f /\ of_side out = nf_plane f mod 2 /\ of_styles out = [255;255;255;255]%Z /\ of_lightofs out = (-1)%Z /\
  (exists p, nth_error (ps_src (es_planes st)) (2 * (nf_plane f / 2)) = Some (p, Some (of_plane out)) /\
             nth_error (ps_out (es_planes st)) (of_plane out) = Some p) /\
  tex_number (t_src (es_tex st)) (nf_tex f) (of_tex out) /\
  of_num out = length vs /\ 3 <= length vs /\
  (e_maxedges o = 0 \/ length vs <= e_maxedges o) /\
  (forall k, k < length vs -> exists e, nth_error (es_surf st) (of_first out + k) = Some e /\
     used lo (es_edges st) own (nf_contents f) (nth k vs 0) (nth ((k + 1) mod length vs) vs 0) e).

Lemma tex_number_grows : forall st st1 n v, tgrows st st1 -> tinv (e_tex o) st1 [] -> tex_number (t_src st) n v -> tex_number (t_src st1) n v.
Proof.
  intros st st1 n v [_ [G _]] I [s [A B]]. apply at_z_nth in A. destruct A as [Z A].
  destruct (G _ _ A) as [s2 [A2 [E1 [E2 [E3 [E4 [E5 E6]]]]]]]. exists s2. split; [exact (nth_at_z _ _ _ _ Z A2)|].
  destruct (ts_out s) as [j|] eqn:O.
  - rewrite (E6 j eq_refl). exact B.
  - destruct B as [B1 B2]. destruct (ts_out s2) as [j|] eqn:O2.
    + destruct I as [I _]. destruct (I _ _ _ A2 O2) as [SK _]. unfold tex_skipped in *. rewrite E3 in B1. congruence.
    + split; [|exact B2]. unfold tex_skipped in *. rewrite <- E3. exact B1.
Qed.

Lemma frag_ok_grows : forall st st1 own own1 fr out lm, egrows st st1 own own1 -> einv st1 own1 -> frag_ok st own fr out lm -> frag_ok st1 own1 fr out lm.
Proof.
  intros st st1 own own1 [f vs] out lm [[l A1] [[m A2] [[s A3] [_ [_ [A6 A7]]]]]] I [F0 [F1 [F2 [F3 [[p [F4 F4']] [F5 [F6 [F7 [F8 F9]]]]]]]]].
  split; [exact F0|]. split; [exact F1|]. split; [exact F2|]. split; [exact F3|]. split.
  { exists p. destruct A6 as [[q Q] [_ R]]. split; [exact (R _ _ _ F4)|]. rewrite Q. apply nth_error_grow. exact F4'. }
  split; [exact (tex_number_grows _ _ _ _ A7 (proj1 (proj2 (proj2 I))) F5)|].
  split; [exact F6|]. split; [exact F7|]. split; [exact F8|].
  intros k K. destruct (F9 k K) as [e [E1 E2]]. exists e. split; [rewrite A3; apply nth_error_grow; exact E1|].
  rewrite A1, A2. apply used_grow. exact E2.
Qed.

(** Fragments in the order in which they are written. *)
Definition kept (vs : list nat) : bool := negb (Nat.ltb (length vs) 3).
Definition face_frags (f : nface) (frags : list (list nat)) : list (nface * list nat) := map (fun vs => (f, vs)) (filter kept frags).
Definition node_frags (fs : list nface) : list (nface * list nat) := flat_map (fun f => face_frags f (nf_frags f)) fs.
Fixpoint tree_frags (t : ftree) : list (nface * list nat) :=
  match t with FLeaf => [] | FNode fs c0 c1 => node_frags fs ++ tree_frags c0 ++ tree_frags c1 end.
(** First face and number of faces of each node. *)
Fixpoint ranges (base : nat) (t : ftree) : list (nat * nat) :=
  match t with
  | FLeaf => []
  | FNode fs c0 c1 =>
      let n := length (node_frags fs) in
      (base, n) :: ranges (base + n) c0 ++ ranges (base + n + length (tree_frags c0)) c1
  end.

(** [outs] and [lms] are the new faces and lightmap shifts. *)
Definition wrote (st : estate P) (own : list N) (frs : list (nface * list nat)) (st1 : estate P) (own1 : list N) : Prop :=
  einv st1 own1 /\ egrows st st1 own own1 /\
  exists outs lms, es_faces st1 = es_faces st ++ outs /\ es_lm st1 = es_lm st ++ lms /\ length lms = length frs /\
    length outs = length frs /\
    forall k fr, nth_error frs k = Some fr -> exists out lm, nth_error outs k = Some out /\ nth_error lms k = Some lm /\ frag_ok st1 own1 fr out lm.

Lemma wrote_nil : forall st own, einv st own -> wrote st own [] st own.
Proof.
  intros st own I. split; [exact I|]. split; [apply egrows_refl|]. exists [], []. rewrite !app_nil_r. split; [reflexivity|]. split; [reflexivity|].
  split; [reflexivity|]. split; [reflexivity|]. intros [|k] fr H; discriminate.
Qed.
Lemma wrote_app : forall st own f1 st1 own1 f2 st2 own2, wrote st own f1 st1 own1 -> wrote st1 own1 f2 st2 own2 -> wrote st own (f1 ++ f2) st2 own2.
Proof.
  intros st own f1 st1 own1 f2 st2 own2 [I1 [G1 [o1 [m1 [A1 [A2 [A3 [A4 A5]]]]]]]] [I2 [G2 [o2 [m2 [B1 [B2 [B3 [B4 B5]]]]]]]].
  split; [exact I2|]. split; [exact (egrows_trans _ _ _ _ _ _ G1 G2)|]. exists (o1 ++ o2), (m1 ++ m2).
  split; [rewrite B1, A1, app_assoc; reflexivity|]. split; [rewrite B2, A2, app_assoc; reflexivity|].
  split; [rewrite !app_length; lia|]. split; [rewrite !app_length; lia|].
  intros k fr H. destruct (Nat.lt_ge_cases k (length f1)) as [L|L].
  - rewrite nth_error_app1 in H by exact L. destruct (A5 k fr H) as [out [lm [X [Y Z]]]]. exists out, lm.
    split; [apply nth_error_grow; exact X|]. split; [apply nth_error_grow; exact Y|]. exact (frag_ok_grows _ _ _ _ _ _ _ G2 I2 Z).
  - rewrite nth_error_app2 in H by exact L. destruct (B5 _ fr H) as [out [lm [X [Y Z]]]]. exists out, lm.
    split; [rewrite nth_error_app2 by lia; rewrite A4; exact X|]. split; [rewrite nth_error_app2 by lia; rewrite A3; exact Y|exact Z].
Qed.

Lemma emit_frags_spec : forall f frags st own st1, einv st own -> emit_frags o f frags st = Some (ROk st1) ->
  exists own1, wrote st own (face_frags f frags) st1 own1.
Proof.
  intros f. induction frags as [|vs frags IH]; intros st own st1 I H; cbn [emit_frags] in H.
  - inversion H; subst. exists own. apply wrote_nil. exact I.
  - destruct (emit_edges o (nf_contents f) vs st) as [[es stA]| |] eqn:E; try discriminate.
    destruct (emit_fragment o f vs es stA) as [[stB| |]|] eqn:F; try discriminate.
    unfold emit_edges in E.
    destruct (negb (Nat.eqb (e_maxedges o) 0) && Nat.ltb (e_maxedges o) (length vs)) eqn:ME; [discriminate|].
    destruct (edge_loop _ _ _ _ _ _ _ _) as [[[es' ed] hh]| |] eqn:L; cbn [rbind] in E; try discriminate. inversion E; subst es' stA. clear E.
    destruct I as [I1 [I2 [I3 [I4 [I5 I6]]]]].
    destruct (edge_loop_spec _ _ _ _ _ _ _ _ _ _ _ _ _ I1 L) as [l [m [E1 [J1 [LE [[PN1 PN2] A]]]]]].
    set (stA := mkES ed hh (es_surf st) (es_faces st) (es_lm st) (es_planes st) (es_tex st)) in *.
    assert (IA : einv stA (own ++ m)).
    { split; [exact J1|]. split; [exact I2|]. split; [exact I3|]. split; [exact I4|]. split; [|exact I6].
      unfold stA. cbn [es_edges es_surf]. eapply Forall_impl; [|exact I5]. cbn. intros e X. rewrite E1, app_length. lia. }
    assert (GA : egrows st stA own (own ++ m)).
    { unfold egrows, stA. cbn [es_edges es_surf es_faces es_lm es_planes es_tex]. split; [exists l; exact E1|]. split; [exists m; reflexivity|].
      split; [exists []; rewrite app_nil_r; reflexivity|]. split; [exists []; rewrite app_nil_r; reflexivity|]. split; [exists []; rewrite app_nil_r; reflexivity|].
      split; [apply pgrows_refl|apply tgrows_refl]. }
    assert (WA : wrote st own [] stA (own ++ m)).
    { split; [exact IA|]. split; [exact GA|]. exists [], []. rewrite !app_nil_r. cbn. repeat split. intros [|k] fr X; discriminate. }
    unfold emit_fragment in F. unfold face_frags. cbn [filter]. unfold kept at 1.
    destruct (Nat.ltb (length vs) 3) eqn:L3; cbn [negb].
    + inversion F; subst stB. destruct (IH stA (own ++ m) st1 IA H) as [own1 W]. exists own1. exact (wrote_app _ _ _ _ _ _ _ _ WA W).
    + destruct (export_plane (es_planes stA) (2 * (nf_plane f / 2))) as [[pn pl]| |] eqn:EP; try discriminate.
      destruct (export_tex_spec (e_tex o) (es_tex stA) (nf_tex f) I3) as [r [R1 R2]]. rewrite R1 in F.
      destruct R2 as [->|[tn [tx [-> [T1 [T2 T3]]]]]]; [discriminate|]. inversion F; subst stB. clear F.
      destruct (export_plane_spec _ _ _ _ _ I2 EP) as [P1 [P2 [p [P3 P4]]]].
      set (out := mkOF pn (nf_plane f mod 2) tn [255;255;255;255]%Z (-1) (length (es_surf stA)) (length vs)) in *.
      rewrite firstn_all2 in H by lia.
      set (stB := mkES (es_edges stA) (es_hash stA) (es_surf stA ++ es) (es_faces stA ++ [out]) (es_lm stA ++ [nf_lmshift f]) pl tx) in *.
      assert (RNG : Forall (fun e => Z.abs_nat e < length ed) es).
      { apply Forall_forall. intros e X. apply In_nth_error in X. destruct X as [k X].
        assert (k < length es) by (apply nth_error_Some; rewrite X; discriminate).
        destruct (A k) as [e' [Y1 [_ [[_ Y2] _]]]]; [lia|]. rewrite Y1 in X. inversion X; subst. exact Y2. }
      assert (IB : einv stB (own ++ m)).
      { split; [exact J1|]. split; [exact P1|]. split; [exact T1|]. unfold stB, stA. cbn [es_faces es_lm es_surf es_edges]. split; [rewrite !app_length; cbn [length]; lia|]. split.
        - apply Forall_app. split; [|exact RNG]. eapply Forall_impl; [|exact I5]. cbn. intros e X. rewrite E1, app_length. lia.
        - rewrite filter_app. apply NoDup_app_intro_.
          + exact I6.
          + exact PN1.
          + intros e X Y. apply filter_In in X, Y. destruct X as [X PX]. destruct Y as [Y _]. apply Z.ltb_lt in PX.
            rewrite Forall_forall in I5, PN2. specialize (I5 e X). specialize (PN2 e Y PX). lia. }
      assert (WB : wrote stA (own ++ m) [(f, vs)] stB (own ++ m)).
      { split; [exact IB|]. split.
        - unfold egrows, stB. cbn [es_edges es_surf es_faces es_lm es_planes es_tex].
          split; [exists []; rewrite app_nil_r; reflexivity|]. split; [exists []; rewrite app_nil_r; reflexivity|].
          split; [exists es; reflexivity|]. split; [exists [out]; reflexivity|]. split; [exists [nf_lmshift f]; reflexivity|]. split; [exact P2|exact T2].
        - exists [out], [nf_lmshift f]. split; [reflexivity|]. split; [reflexivity|]. split; [reflexivity|]. split; [reflexivity|].
          intros [|k] fr X; [|destruct k; discriminate]. inversion X; subst fr. exists out, (nf_lmshift f). split; [reflexivity|]. split; [reflexivity|].
          unfold frag_ok. split; [reflexivity|]. split; [reflexivity|]. split; [reflexivity|]. split; [reflexivity|].
          split; [exists p; split; assumption|]. split; [exact T3|]. split; [reflexivity|]. apply Nat.ltb_ge in L3. split; [exact L3|]. split.
          + apply andb_false_iff in ME. destruct ME as [ME|ME]; [left|right].
            * apply negb_false_iff in ME. apply Nat.eqb_eq. exact ME.
            * apply Nat.ltb_ge. exact ME.
          + intros k K. destruct (A k K) as [e [Y1 Y2]]. exists e. unfold stB, out, stA. cbn [es_surf of_first es_edges].
            split; [rewrite nth_error_app2 by lia; replace (length (es_surf st) + k - length (es_surf st)) with k by lia; exact Y1|]. exact Y2. }
      destruct (IH stB (own ++ m) st1 IB H) as [own1 W]. exists own1. cbn [map].
      change ((f, vs) :: map (fun vs0 => (f, vs0)) (filter kept frags)) with ([] ++ [(f, vs)] ++ face_frags f frags).
      exact (wrote_app _ _ _ _ _ _ _ _ WA (wrote_app _ _ _ _ _ _ _ _ WB W)).
Qed.

Lemma emit_facelist_spec : forall fs st own st1, einv st own -> emit_facelist o fs st = Some (ROk st1) ->
  exists own1, wrote st own (node_frags fs) st1 own1.
Proof.
  induction fs as [|f fs IH]; intros st own st1 I H; cbn [emit_facelist] in H.
  - inversion H; subst. exists own. apply wrote_nil. exact I.
  - destruct (emit_frags o f (nf_frags f) st) as [[stA| |]|] eqn:E; try discriminate.
    destruct (emit_frags_spec _ _ _ _ _ I E) as [oA W]. destruct (IH stA oA st1 (proj1 W) H) as [own1 W1]. exists own1.
    unfold node_frags. cbn [flat_map]. exact (wrote_app _ _ _ _ _ _ _ _ W W1).
Qed.

Lemma wrote_count : forall st own frs st1 own1, wrote st own frs st1 own1 -> length (es_faces st1) = length (es_faces st) + length frs.
Proof. intros st own frs st1 own1 [_ [_ [outs [lms [A [_ [_ [B _]]]]]]]]. rewrite A, app_length, B. reflexivity. Qed.

Lemma emit_tree_spec : forall t st own l st1, einv st own -> emit_tree o t st = Some (ROk (l, st1)) ->
  l = ranges (length (es_faces st)) t /\ exists own1, wrote st own (tree_frags t) st1 own1.
Proof.
  induction t as [|fs c0 IH0 c1 IH1]; intros st own l st1 I H; cbn [emit_tree] in H.
  - inversion H; subst. split; [reflexivity|]. exists own. apply wrote_nil. exact I.
  - destruct (emit_facelist o fs st) as [[stA| |]|] eqn:E; try discriminate.
    destruct (emit_tree o c0 stA) as [[[l0 stB]| |]|] eqn:E0; try discriminate.
    destruct (emit_tree o c1 stB) as [[[l1 stC]| |]|] eqn:E1; try discriminate. inversion H; subst. clear H.
    destruct (emit_facelist_spec _ _ _ _ I E) as [oA WA]. destruct (IH0 _ _ _ _ (proj1 WA) E0) as [-> [oB WB]].
    destruct (IH1 _ _ _ _ (proj1 WB) E1) as [-> [oC WC]].
    pose proof (wrote_count _ _ _ _ _ WA) as CA. pose proof (wrote_count _ _ _ _ _ WB) as CB. split.
    + cbn [ranges]. rewrite CB, CA. replace (length (es_faces st) + length (node_frags fs) - length (es_faces st)) with (length (node_frags fs)) by lia. reflexivity.
    + exists oC. cbn [tree_frags]. exact (wrote_app _ _ _ _ _ _ _ _ WA (wrote_app _ _ _ _ _ _ _ _ WB WC)).
Qed.

(** The fuel suffices. *)
Lemma emit_frags_fuel : forall f frags (st : estate P) own, einv st own -> emit_frags o f frags st <> None.
Proof.
  intros f. induction frags as [|vs frags IH]; intros st own I; cbn [emit_frags]; [discriminate|].
  destruct (emit_edges o (nf_contents f) vs st) as [[es stA]| |] eqn:E; try discriminate.
  assert (TX : es_tex stA = es_tex st).
  { unfold emit_edges in E. destruct (_ && _); [discriminate|]. destruct (edge_loop _ _ _ _ _ _ _ _) as [[[? ?] ?]| |]; cbn [rbind] in E; try discriminate. inversion E. reflexivity. }
  destruct (emit_fragment o f vs es stA) as [[stB| |]|] eqn:F; try discriminate.
  - assert (X : emit_frags o f [vs] st = Some (ROk stB)) by (cbn [emit_frags]; rewrite E, F; reflexivity).
    destruct (emit_frags_spec _ _ _ _ _ I X) as [own1 W]. exact (IH stB own1 (proj1 W)).
  - exfalso. unfold emit_fragment in F. destruct (Nat.ltb (length vs) 3); [discriminate|].
    destruct (export_plane _ _) as [[? ?]| |]; try discriminate.
    destruct (export_tex_spec (e_tex o) (es_tex stA) (nf_tex f)) as [r [R1 R2]]; [rewrite TX; apply I|]. rewrite R1 in F.
    destruct r as [[? ?]| |]; discriminate.
Qed.
Lemma emit_facelist_fuel : forall fs (st : estate P) own, einv st own -> emit_facelist o fs st <> None.
Proof.
  induction fs as [|f fs IH]; intros st own I; cbn [emit_facelist]; [discriminate|].
  pose proof (emit_frags_fuel f (nf_frags f) st own I) as N. destruct (emit_frags o f (nf_frags f) st) as [[stA| |]|] eqn:E; try discriminate; [|congruence].
  destruct (emit_frags_spec _ _ _ _ _ I E) as [own1 W]. exact (IH stA own1 (proj1 W)).
Qed.
Lemma emit_tree_fuel : forall t (st : estate P) own, einv st own -> emit_tree o t st <> None.
Proof.
  induction t as [|fs c0 IH0 c1 IH1]; intros st own I; cbn [emit_tree]; [discriminate|].
  pose proof (emit_facelist_fuel fs st own I) as N. destruct (emit_facelist o fs st) as [[stA| |]|] eqn:E; try discriminate; [|congruence].
  destruct (emit_facelist_spec _ _ _ _ I E) as [oA WA]. pose proof (IH0 stA oA (proj1 WA)) as N0.
  destruct (emit_tree o c0 stA) as [[[l0 stB]| |]|] eqn:E0; try discriminate; [|congruence].
  destruct (emit_tree_spec _ _ _ _ _ (proj1 WA) E0) as [_ [oB WB]]. pose proof (IH1 stB oB (proj1 WB)) as N1.
  destruct (emit_tree o c1 stB) as [[[l1 stC]| |]|] eqn:E1; try discriminate. congruence.
Qed.
End Faces.
