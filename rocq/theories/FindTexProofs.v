(* EmitVertex, FindTexinfo, FindMiptex: lemmas. *)
From Coq Require Import List Arith NArith ZArith Bool Lia.
From Verif Require Import NumCastModel ParserModel TexFlagsModel TexFlagsProofs FaceEmitModel TexExportProofs FaceEmitProofs.
Import ListNotations.

(** ** Vertices *)

Section Vert.
Context {V F : Type}.
Variable rnd : V -> F.
Variable near : V -> V -> bool.
Variable pick : list (V * nat) -> V -> option nat.

(** The search finds an entry in the box around the position exactly if there is one. *)
Definition search_ok : Prop := forall h v,
  match pick h v with
  | Some n => exists p, In (p, n) h /\ near v p = true
  | None => forall p n, In (p, n) h -> near v p = false
  end.

Definition vinv (st : vstate V F) : Prop :=
  map snd (vs_hash st) = seq 0 (length (vs_hash st)) /\
  vs_out st = map (fun e => rnd (fst e)) (vs_hash st) /\
  (forall i j p q, i < j -> nth_error (vs_hash st) i = Some (p, i) -> nth_error (vs_hash st) j = Some (q, j) -> near q p = false).
Definition vgrows (st st1 : vstate V F) : Prop := exists l, vs_hash st1 = vs_hash st ++ l.

Lemma hash_nth : forall (h : list (V * nat)) p n, map snd h = seq 0 (length h) -> In (p, n) h -> nth_error h n = Some (p, n).
Proof.
  intros h p n M H. apply In_nth_error in H. destruct H as [k K].
  assert (L : k < length h) by (apply nth_error_Some; rewrite K; discriminate).
  assert (E : nth_error (map snd h) k = Some n) by (rewrite nth_error_map, K; reflexivity).
  rewrite M in E. rewrite (nth_error_nth' _ 0) in E by (rewrite seq_length; exact L). rewrite seq_nth in E by exact L. inversion E; subst. exact K.
Qed.

Lemma hash_nth_num : forall (h : list (V * nat)) k e, map snd h = seq 0 (length h) -> nth_error h k = Some e -> snd e = k.
Proof. intros h k [p n] M H. assert (X := hash_nth h p n M (nth_error_In _ _ H)).
  assert (L : k < length h) by (apply nth_error_Some; rewrite H; discriminate).
  assert (E : nth_error (map snd h) k = Some n) by (rewrite nth_error_map, H; reflexivity).
  rewrite M in E. rewrite (nth_error_nth' _ 0) in E by (rewrite seq_length; exact L). rewrite seq_nth in E by exact L. inversion E. reflexivity.
Qed.

Lemma emit_vertex_spec : forall st v n st1, search_ok -> (forall a, near a a = true) -> vinv st -> emit_vertex rnd pick st v = (n, st1) ->
  vinv st1 /\ vgrows st st1 /\ exists p, nth_error (vs_hash st1) n = Some (p, n) /\ near v p = true.
Proof.
  intros st v n st1 S R [I1 [I2 I3]] H. unfold emit_vertex in H. specialize (S (vs_hash st) v). destruct (pick (vs_hash st) v) as [m|].
  - inversion H; subst. split; [split; [exact I1|split; [exact I2|exact I3]]|]. split; [exists []; rewrite app_nil_r; reflexivity|].
    destruct S as [p [S1 S2]]. exists p. split; [exact (hash_nth _ _ _ I1 S1)|exact S2].
  - inversion H; subst. clear H. assert (LL : length (vs_out st) = length (vs_hash st)) by (rewrite I2, map_length; reflexivity).
    rewrite LL. set (k := length (vs_hash st)) in *.
    assert (NEW : nth_error (vs_hash st ++ [(v, k)]) k = Some (v, k)) by (rewrite nth_error_app2 by (unfold k; lia); unfold k; rewrite Nat.sub_diag; reflexivity).
    split; [split; [|split]|split].
    + cbn [vs_hash]. rewrite map_app, app_length, I1. cbn [map length snd]. rewrite Nat.add_1_r, seq_S. reflexivity.
    + cbn [vs_hash vs_out]. rewrite map_app, I2. reflexivity.
    + cbn [vs_hash]. intros i j p q L A B. destruct (Nat.eq_dec j k) as [->|NE].
      * rewrite NEW in B. inversion B; subst q. rewrite nth_error_app1 in A by (unfold k in L; lia). apply (S p i). exact (nth_error_In _ _ A).
      * assert (j < k).
        { assert (X : j < length (vs_hash st ++ [(v, k)])) by (apply nth_error_Some; rewrite B; discriminate). rewrite app_length in X. cbn [length] in X. unfold k in *. lia. }
        rewrite nth_error_app1 in A by (unfold k in *; lia). rewrite nth_error_app1 in B by (unfold k in *; lia). exact (I3 _ _ _ _ L A B).
    + exists [(v, k)]. reflexivity.
    + exists v. cbn [vs_hash]. split; [exact NEW|apply R].
Qed.

Lemma emit_vertices_spec : forall w st ns st1, search_ok -> (forall a, near a a = true) -> vinv st -> emit_vertices rnd pick st w = (ns, st1) ->
  vinv st1 /\ vgrows st st1 /\ Forall2 (fun v n => exists p, nth_error (vs_hash st1) n = Some (p, n) /\ near v p = true) w ns.
Proof.
  induction w as [|v w IH]; intros st ns st1 S R I H; cbn [emit_vertices] in H.
  - inversion H; subst. split; [exact I|]. split; [exists []; rewrite app_nil_r; reflexivity|constructor].
  - destruct (emit_vertex rnd pick st v) as [n stA] eqn:E. destruct (emit_vertices rnd pick stA w) as [ns' stB] eqn:E2. inversion H; subst. clear H.
    destruct (emit_vertex_spec _ _ _ _ S R I E) as [IA [[l1 GA] [p [A1 A2]]]]. destruct (IH _ _ _ S R IA E2) as [IB [[l2 GB] FB]].
    split; [exact IB|]. split; [exists (l1 ++ l2); rewrite GB, GA, app_assoc; reflexivity|]. constructor; [|exact FB].
    exists p. split; [rewrite GB; apply nth_error_grow; exact A1|exact A2].
Qed.

(** Looking an emitted position up again gives its own number, if being near is symmetric. *)
Lemma emit_again : forall st n p, search_ok -> (forall a, near a a = true) -> (forall a b, near a b = near b a) -> vinv st ->
  nth_error (vs_hash st) n = Some (p, n) -> emit_vertex rnd pick st p = (n, st).
Proof.
  intros st n p S R Y [I1 [I2 I3]] H. unfold emit_vertex. specialize (S (vs_hash st) p). destruct (pick (vs_hash st) p) as [m|].
  - destruct S as [q [S1 S2]]. apply (hash_nth _ _ _ I1) in S1. destruct (Nat.lt_trichotomy m n) as [L|[->|L]]; [|reflexivity|].
    + rewrite (I3 _ _ _ _ L S1 H) in S2. discriminate.
    + rewrite Y, (I3 _ _ _ _ L H S1) in S2. discriminate.
  - specialize (S p n (nth_error_In _ _ H)). rewrite R in S. discriminate.
Qed.
End Vert.

(** ** FindTexinfo *)

Lemma key_eqb_eq : forall a b, key_eqb a b = true <-> a = b.
Proof.
  intros [r m n] [r' m' n']. unfold key_eqb. cbn [k_rest k_miptex k_next]. split.
  - intro H. apply andb_true_iff in H. destruct H as [H H3]. apply andb_true_iff in H. destruct H as [H1 H2].
    apply Z.eqb_eq in H1. apply Nat.eqb_eq in H2. subst. f_equal. destruct n, n'; try discriminate; [apply Nat.eqb_eq in H3; subst; reflexivity|reflexivity].
  - intro H. inversion H; subst. rewrite Z.eqb_refl, Nat.eqb_refl. destruct n'; [rewrite Nat.eqb_refl|]; reflexivity.
Qed.
Lemma key_eqb_refl : forall a, key_eqb a a = true.
Proof. intro a. apply key_eqb_eq. reflexivity. Qed.

Section FT.
Variable anim : nat -> option nat.

(** Texinfo [t] is the one asked for with [k], and its link leads to the next frame. *)
Definition linked (lk : list (tkey * nat)) (k t : tkey) : Prop :=
  match anim (k_miptex k) with
  | None => k_next t = k_next k
  | Some m => exists r, k_next t = Some r /\ key_find (mkTK (k_rest k) m (k_next k)) lk = Some r
  end.
Definition finv (st : fstate) (open : list nat) : Prop :=
  (forall k i, key_find k (fs_lookup st) = Some i ->
     exists t, nth_error (fs_tex st) i = Some t /\ k_rest t = k_rest k /\ k_miptex t = k_miptex k /\ (~ In i open -> linked (fs_lookup st) k t)) /\
  (forall k1 k2 i, key_find k1 (fs_lookup st) = Some i -> key_find k2 (fs_lookup st) = Some i -> k1 = k2).
Definition fgrows (st st1 : fstate) : Prop :=
  (forall k i, key_find k (fs_lookup st) = Some i -> key_find k (fs_lookup st1) = Some i) /\
  length (fs_tex st) <= length (fs_tex st1) /\
  (forall i, i < length (fs_tex st) -> nth_error (fs_tex st1) i = nth_error (fs_tex st) i).

Lemma fgrows_refl : forall st, fgrows st st.
Proof. intro st. split; [auto|]. split; [lia|reflexivity]. Qed.
Lemma fgrows_trans : forall a b c, fgrows a b -> fgrows b c -> fgrows a c.
Proof. intros a b c [A1 [A2 A3]] [B1 [B2 B3]]. split; [auto|]. split; [lia|]. intros i H. rewrite (B3 i) by lia. apply A3. exact H. Qed.

(** How many miptexes below [M] still have no texinfo of the kind of [k]. *)
Definition todo (M : nat) (k : tkey) (lk : list (tkey * nat)) : nat :=
  length (filter (fun m => match key_find (mkTK (k_rest k) m (k_next k)) lk with Some _ => false | None => true end) (seq 0 M)).

Lemma filter_len_lt : forall A (f g : A -> bool) l x, (forall a, f a = true -> g a = true) -> In x l -> f x = false -> g x = true ->
  length (filter f l) < length (filter g l).
Proof.
  intros A f g l x H. assert (LE : forall m, length (filter f m) <= length (filter g m)).
  { induction m as [|a m IH]; cbn [filter]; [lia|]. specialize (H a). destruct (f a); [rewrite (H eq_refl); cbn [length]; lia|].
    destruct (g a); cbn [length]; lia. }
  induction l as [|a l IH]; intros I F G; [destruct I|]. destruct I as [->|I].
  - cbn [filter]. rewrite F, G. cbn [length]. specialize (LE l). lia.
  - specialize (IH I F G). cbn [filter]. specialize (H a). destruct (f a); [rewrite (H eq_refl); cbn [length]; lia|].
    destruct (g a); cbn [length]; lia.
Qed.

Lemma find_texinfo_spec : forall M, (forall m n, anim m = Some n -> n < M) ->
  forall fuel st k open, finv st open -> k_miptex k < M -> todo M k (fs_lookup st) < fuel ->
  exists i st1, find_texinfo fuel anim st k = Some (i, st1) /\ finv st1 open /\ fgrows st st1 /\ key_find k (fs_lookup st1) = Some i.
Proof.
  intros M AM. induction fuel as [|fuel IH]; intros st k open I KM F; [lia|]. cbn [find_texinfo].
  destruct (key_find k (fs_lookup st)) as [i|] eqn:K.
  { exists i, st. split; [reflexivity|]. split; [exact I|]. split; [apply fgrows_refl|exact K]. }
  set (num := length (fs_tex st)). set (st1 := mkFS (fs_tex st ++ [k]) ((k, num) :: fs_lookup st)).
  destruct I as [I1 I2].
  assert (KF : forall q, key_find q (fs_lookup st1) = if key_eqb q k then Some num else key_find q (fs_lookup st)) by reflexivity.
  assert (LT : forall q j, key_find q (fs_lookup st) = Some j -> j < num).
  { intros q j H. destruct (I1 q j H) as [t [T _]]. unfold num. apply nth_error_Some. rewrite T. discriminate. }
  assert (NEW : nth_error (fs_tex st1) num = Some k) by (unfold st1, num; cbn [fs_tex]; rewrite nth_error_app2 by lia; rewrite Nat.sub_diag; reflexivity).
  assert (G1 : fgrows st st1).
  { split; [|split].
    - intros q j H. rewrite KF. destruct (key_eqb q k) eqn:E; [|exact H]. apply key_eqb_eq in E. subst. congruence.
    - unfold st1. cbn [fs_tex]. rewrite app_length. lia.
    - intros j H. unfold st1. cbn [fs_tex]. apply nth_error_app1. exact H. }
  assert (INV1 : finv st1 (num :: open)).
  { split.
    - intros q j H. rewrite KF in H. destruct (key_eqb q k) eqn:E.
      + apply key_eqb_eq in E. subst q. inversion H; subst j. exists k. split; [exact NEW|]. split; [reflexivity|]. split; [reflexivity|].
        intro N. exfalso. apply N. left. reflexivity.
      + destruct (I1 q j H) as [t [T1 [T2 [T3 T4]]]]. exists t. split; [rewrite (proj2 (proj2 G1) j) by (exact (LT q j H)); exact T1|].
        split; [exact T2|]. split; [exact T3|]. intro N. assert (N' : ~ In j open) by (intro X; apply N; right; exact X). specialize (T4 N').
        unfold linked in *. destruct (anim (k_miptex q)) as [m|]; [|exact T4]. destruct T4 as [r [R1 R2]]. exists r. split; [exact R1|].
        apply (proj1 G1). exact R2.
    - intros a b j A B. rewrite KF in A, B. destruct (key_eqb a k) eqn:Ea, (key_eqb b k) eqn:Eb.
      + apply key_eqb_eq in Ea, Eb. congruence.
      + inversion A; subst j. apply LT in B. lia.
      + inversion B; subst j. apply LT in A. lia.
      + exact (I2 a b j A B). }
  destruct (anim (k_miptex k)) as [m|] eqn:AN.
  - destruct (IH st1 (mkTK (k_rest k) m (k_next k)) (num :: open) INV1) as [r [st2 [R1 [J [G2 R2]]]]].
    + cbn [k_miptex]. exact (AM _ _ AN).
    + eapply Nat.lt_le_trans with (m := todo M k (fs_lookup st)); [|lia]. unfold todo. cbn [k_rest k_next].
      apply (filter_len_lt _ _ _ _ (k_miptex k)).
      * intros a. rewrite KF. destruct (key_eqb _ k); [discriminate|]. auto.
      * apply in_seq. lia.
      * rewrite KF. replace (mkTK (k_rest k) (k_miptex k) (k_next k)) with k by (destruct k; reflexivity). rewrite key_eqb_refl. reflexivity.
      * replace (mkTK (k_rest k) (k_miptex k) (k_next k)) with k by (destruct k; reflexivity). rewrite K. reflexivity.
    + fold num st1. rewrite R1. eexists _, _. split; [reflexivity|].
      set (t1 := mkTK (k_rest k) (k_miptex k) (Some r)). set (st3 := mkFS (upd (fs_tex st2) num t1) (fs_lookup st2)).
      assert (L1 : num < length (fs_tex st1)) by (apply nth_error_Some; rewrite NEW; discriminate).
      assert (L2 : num < length (fs_tex st2)) by (destruct G2 as [_ [X _]]; lia).
      assert (KK : key_find k (fs_lookup st2) = Some num) by (apply (proj1 G2); rewrite KF, key_eqb_refl; reflexivity).
      assert (T3 : forall j, nth_error (fs_tex st3) j = if Nat.eqb num j then Some t1 else nth_error (fs_tex st2) j).
      { intro j. unfold st3. cbn [fs_tex]. rewrite nth_error_upd, (proj2 (Nat.ltb_lt _ _) L2), andb_true_r. reflexivity. }
      split; [|split].
      * destruct J as [J1 J2]. split; [|exact J2]. intros q j H. unfold st3 in H. cbn [fs_lookup] in H. rewrite T3.
        destruct (Nat.eqb num j) eqn:E.
        -- apply Nat.eqb_eq in E. subst j. assert (q = k) by (exact (J2 _ _ _ H KK)). subst q. exists t1. split; [reflexivity|]. split; [reflexivity|]. split; [reflexivity|].
           intros _. unfold linked. rewrite AN. exists r. split; [reflexivity|exact R2].
        -- destruct (J1 q j H) as [t [A [B [C D]]]]. exists t. split; [exact A|]. split; [exact B|]. split; [exact C|]. intro N. apply D.
           intros [X|X]; [apply Nat.eqb_neq in E; congruence|exact (N X)].
      * pose proof (fgrows_trans _ _ _ G1 G2) as [X1 [X2 X3]]. split; [exact X1|]. split; [unfold st3; cbn [fs_tex]; rewrite upd_length; exact X2|].
        intros j H. rewrite T3. replace (Nat.eqb num j) with false by (symmetry; apply Nat.eqb_neq; unfold num; lia). apply X3. exact H.
      * exact KK.
  - fold num st1. exists num, st1. split; [reflexivity|]. split; [|split; [exact G1|rewrite KF, key_eqb_refl; reflexivity]].
    destruct INV1 as [J1 J2]. split; [|exact J2]. intros q j H. destruct (J1 q j H) as [t [A [B [C D]]]]. exists t. split; [exact A|]. split; [exact B|]. split; [exact C|].
    intro N. destruct (Nat.eq_dec j num) as [->|NE].
    + assert (q = k) by (apply (J2 _ _ _ H); rewrite KF, key_eqb_refl; reflexivity). subst q. rewrite NEW in A. inversion A; subst t. unfold linked. rewrite AN. reflexivity.
    + apply D. intros [X|X]; [congruence|exact (N X)].
Qed.

Lemma todo_le : forall M k lk, todo M k lk <= M.
Proof.
  intros M k lk. unfold todo. assert (X : forall A (f : A -> bool) l, length (filter f l) <= length l).
  { intros A f l. induction l as [|a l IH]; cbn [filter length]; [lia|]. destruct (f a); cbn [length]; lia. }
  eapply Nat.le_trans; [apply X|]. rewrite seq_length. lia.
Qed.
End FT.

(** ** Animation chains *)

(** The texture after [k] steps along the chain. *)
Fixpoint walk (files : nat -> option wal) (w : wal) (k : nat) : option wal :=
  match k with
  | O => Some w
  | S k => match w_anim w with None => None | Some a => match files a with None => None | Some w1 => walk files w1 k end end
  end.

Lemma anim_loop_ends : forall files name info k w last l,
  (walk files w k = None \/ exists w1, 0 < k /\ walk files w k = Some w1 /\ w_name w1 = name) ->
  exists r, anim_loop (S k) files name info w last l = Some r.
Proof.
  induction k as [|k IH]; intros w last l H.
  - destruct H as [H|[w1 [H _]]]; [discriminate|lia].
  - remember (S k) as fk. cbn [anim_loop]. subst fk. cbn [walk] in H. destruct (w_anim w) as [a|]; [|eexists; reflexivity].
    destruct (files a) as [w1|]; [|eexists; reflexivity].
    destruct (mip_add (w_name w1) info (w_anim w1) l) as [next l1]. destruct (Nat.eqb (w_name w1) name || Nat.eqb last next) eqn:E; [eexists; reflexivity|].
    apply IH. destruct H as [H|[w2 [_ [H1 H2]]]]; [left; exact H|]. destruct k as [|k].
    + cbn [walk] in H1. inversion H1; subst. apply orb_false_iff in E. destruct E as [E _]. rewrite Nat.eqb_refl in E. discriminate.
    + right. exists w2. split; [lia|]. split; assumption.
Qed.

(** Three textures, the third one going back to the second. *)
Definition rho (a : nat) : option wal :=
  match a with 0 => Some (mkWal 0 (Some 1)) | 1 => Some (mkWal 1 (Some 2)) | 2 => Some (mkWal 2 (Some 1)) | _ => None end.

Lemma rho_loops : forall info fuel,
  let l0 := [mkMip 0 info (Some 1) (Some 1); mkMip 1 info (Some 2) (Some 2); mkMip 2 info (Some 1) (Some 1)] in
  anim_loop fuel rho 0 info (mkWal 1 (Some 2)) 1 l0 = None /\ anim_loop fuel rho 0 info (mkWal 2 (Some 1)) 2 l0 = None.
Proof.
  intro info. induction fuel as [|fuel [IH1 IH2]]; [split; reflexivity|].
  cbn zeta in *. split; cbn [anim_loop w_anim rho w_name]; unfold mip_add, mip_link; cbn [anim_loop w_anim rho w_name mip_find m_name m_info m_anim m_next Nat.eqb andb orb oeq app length nth_error upd]; rewrite ?Z.eqb_refl; cbn [anim_loop w_anim rho w_name mip_find m_name m_info m_anim m_next Nat.eqb andb orb oeq app length nth_error upd]; assumption.
Qed.

Lemma rho_hangs : forall info fuel, anim_loop fuel rho 0 info (mkWal 0 (Some 1)) 0 [mkMip 0 info (Some 1) None] = None.
Proof.
  intros info fuel.
  do 3 (destruct fuel as [|fuel]; [reflexivity|]; cbn [anim_loop w_anim rho w_name]; unfold mip_add, mip_link; cbn [anim_loop w_anim rho w_name mip_find m_name m_info m_anim m_next Nat.eqb andb orb oeq app length nth_error upd]; rewrite ?Z.eqb_refl; cbn [anim_loop w_anim rho w_name mip_find m_name m_info m_anim m_next Nat.eqb andb orb oeq app length nth_error upd]).
  apply (rho_loops info fuel).
Qed.
