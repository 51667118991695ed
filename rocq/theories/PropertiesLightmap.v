(* C96: lightmaps are stored where their faces say.  C97: the styles of a face. *)
From Coq Require Import List Arith NArith ZArith Bool Lia Permutation.
Import ListNotations.
From Verif Require Import Base NumCastModel LightmapModel LightmapProofs.

(** [n] lightmaps of [size] samples can be read at the value [v] of an offset field: greyscale and colour
    in the buffers that exist, colour at three times the greyscale offset, the next style right behind. *)
Definition readable (rgb : bool) (b : bufs) (B0 B1 B2 : list N) (v : Z) (size n : nat) (p : nat -> pix) : Prop :=
  exists o : nat, v = (if rgb then 3 * Z.of_nat o else Z.of_nat o)%Z /\ o mod 4 = 0 /\
  forall k, k < n ->
    (has_out b = true -> firstn size (skipn (o + k * size) B0) = fst (fst (p k))) /\
    (has_lit b = true -> firstn (3 * size) (skipn (3 * (o + k * size)) B1) = snd (fst (p k))) /\
    (has_lux b = true -> firstn (3 * size) (skipn (3 * (o + k * size)) B2) = snd (p k)).

Definition sum_sizes (rs : list req) : nat := list_sum (map (fun r => align4 (snd r)) rs).

Lemma sum_sizes_perm : forall a b, Permutation a b -> sum_sizes a = sum_sizes b.
Proof.
  intros a b H. unfold sum_sizes. induction H as [|x l l' H IH|x y l|l l' l'' H1 IH1 H2 IH2]; cbn [map list_sum fold_right].
  - reflexivity.
  - unfold list_sum in IH. rewrite IH. reflexivity.
  - lia.
  - congruence.
Qed.

(** Threads ask for space in any order and write in any order.  If the data fit, lighting is stored
    without a write outside the buffers, and every face with styles finds its lightmaps: at its own
    offset, in decoupled lightmaps at that offset too, with scaled lightmaps at the scaled offset.  Faces
    without styles have no lightmap.  Missing: scaled lightmaps beside plain ones of another scale, the
    plain offset of scaled lightmaps (refuted below). *)
Theorem C96_stored_partial : forall m rgb litfile luxfile ss files px vpx rs,
  let b := buffers rgb litfile luxfile in
  length files = length ss ->
  (forall i s, nth_error ss i = Some (Some s) -> match m with Sup nov => nov = true \/ sf_same s = true | _ => True end) ->
  (forall i s k, nth_error ss i = Some (Some s) -> k < length (sf_styles s) ->
     pix_ok (sf_size s) (px i k) /\ pix_ok (sf_vsize s) (vpx i k)) ->
  Permutation rs (all_requests m 0 ss) ->
  (3 * Z.of_nat (sum_sizes (all_requests m 0 ss)) <= 2147483647)%Z ->
  exists t total faces ws, allocate rs 0 = ROk (t, total) /\ total = sum_sizes (all_requests m 0 ss) /\
    save_all m rgb b t total 0 ss px vpx (map (initial m) files) = ROk (faces, ws) /\
    forall ws', Permutation ws ws' ->
    exists B0 B1 B2, final 0 total ws' = ROk B0 /\ final 1 total ws' = ROk B1 /\ final 2 total ws' = ROk B2 /\
      forall i s f, nth_error ss i = Some (Some s) -> nth_error faces i = Some f ->
        let n := length (sf_styles s) in
        let here v size p := readable rgb b B0 B1 B2 v size n p in
        match m with
        | Plain => (n = 0 -> f_ofs f = (-1)%Z) /\
                   (n <> 0 -> here (f_ofs f) (sf_size s) (px i) /\ f_styles f = face_styles (sf_styles s))
        | Decoupled v => (n = 0 -> f_ofs f = (-1)%Z /\ d_ofs f = (-1)%Z) /\
                   (n <> 0 -> here (d_ofs f) (sf_size s) (px i) /\ f_styles f = face_styles (sf_styles s) /\
                              (v = true -> here (f_ofs f) (sf_vsize s) (vpx i)) /\ (v = false -> f_ofs f = (-1)%Z))
        | Sup _ => (n = 0 -> s_ofs f = (-1)%Z) /\
                   (n <> 0 -> here (s_ofs f) (sf_size s) (px i) /\ s_styles f = sup_styles (sf_styles s))
        end.
Proof.
  intros m rgb litfile luxfile ss files px vpx rs b L G0 P0 Pr Bd.
  assert (G : forall i s, nth_error ss i = Some (Some s) -> good m s).
  { intros i s Hi. specialize (G0 i s Hi). destruct m; cbn [good]; [exact I|exact I|]. apply orb_true_iff. exact G0. }
  assert (Es : sum_sizes rs = sum_sizes (all_requests m 0 ss)) by (apply sum_sizes_perm; exact Pr).
  destruct (allocate_succ rs 0) as [t Al]; [change (0 + list_sum (map (fun r : req => align4 (snd r)) rs)) with (sum_sizes rs); lia|]. change (0 + list_sum (map (fun r : req => align4 (snd r)) rs)) with (sum_sizes rs) in Al.
  assert (NDr : NoDup (map rkey rs)).
  { eapply Permutation_NoDup; [|apply (all_requests_nodup m ss 0)]. apply Permutation_map. symmetry. exact Pr. }
  pose proof (allocate_table rs t _ NDr Al) as T.
  assert (Ii : incl (all_requests m 0 ss) rs) by (intros r Hr; eapply Permutation_in; [symmetry; exact Pr|exact Hr]).
  assert (Lf : length (map (initial m) files) = length ss) by (rewrite map_length; exact L).
  destruct (save_all_succ m rgb b rs t (sum_sizes rs) px vpx ss 0 (map (initial m) files) T Ii Lf G) as (faces & ws & Sv); [lia|].
  exists t, (sum_sizes rs), faces, ws. split; [exact Al|]. split; [exact Es|]. split; [exact Sv|].
  intros ws' Pw.
  destruct (store_reads m rgb b ss rs t _ px vpx _ faces ws Pr Al Lf G P0 Sv ws' Pw) as (B0 & B1 & B2 & E0 & E1 & E2 & _ & _ & _ & R).
  exists B0, B1, B2. split; [exact E0|]. split; [exact E1|]. split; [exact E2|].
  intros i s f Hs Hf n here.
  destruct (save_all_spec m rgb b rs t _ px vpx ss 0 _ faces ws T Ii Lf G P0 Sv) as (_ & _ & Lfc & Hn).
  assert (Ef0 : exists f0, nth_error files i = Some f0).
  { destruct (nth_error files i) as [x|] eqn:E; [eauto|]. apply nth_error_None in E.
    assert (i < length ss) by (apply nth_error_Some; congruence). lia. }
  destruct Ef0 as [f0 Ef0].
  destruct (Hn i (Some s) (initial m f0) Hs) as (f' & Ef' & w & Esf & _).
  { rewrite nth_error_map, Ef0. reflexivity. }
  assert (f' = f) by congruence. subst f'. cbn [Nat.add] in Esf.
  destruct (save_face_spec _ _ _ _ _ _ _ _ _ _ _ _ (G i s Hs) Esf) as [_ Fl].
  destruct (allocate_spec rs 0 t _ NDr Al) as (_ & _ & A1 & _ & _).
  assert (Rd : forall kd size p, In (kd, size, p) (face_blocks m s (px i) (vpx i)) -> here (val rgb (off t i kd)) size p).
  { intros kd size p Hb. exists (off t i kd). split; [reflexivity|]. split.
    - destruct (A1 i kd (size * nst s)) as (o & Eo & _ & _ & A & _).
      { apply Ii. apply (all_requests_in m ss 0 i s Hs). eapply blocks_requested. exact Hb. }
      unfold off. rewrite Eo. apply A. reflexivity.
    - intros k Hk. apply (R i s Hs kd size p k Hb Hk). }
  unfold face_blocks in Rd. unfold fields in Fl. unfold nst in Fl, Rd. fold n in Fl, Rd.
  destruct m as [|v|nov].
  - destruct Fl as [F1 F2]. split; intro Hn0.
    + rewrite Hn0 in F1. exact F1.
    + destruct (n =? 0) eqn:En; [apply Nat.eqb_eq in En; contradiction|]. rewrite F1. split; [apply Rd; left; reflexivity|exact F2].
  - destruct Fl as (F1 & F2 & F3). split; intro Hn0.
    + rewrite Hn0 in F1, F2. split; [exact F2|exact F1].
    + destruct (n =? 0) eqn:En; [apply Nat.eqb_eq in En; contradiction|]. rewrite F1, F2. split; [apply Rd; left; reflexivity|].
      split; [exact F3|]. split; intros ->; [apply Rd; right; left; reflexivity|reflexivity].
  - destruct Fl as (F1 & F2 & F3). split; intro Hn0.
    + rewrite Hn0 in F1. exact F1.
    + destruct (n =? 0) eqn:En; [apply Nat.eqb_eq in En; contradiction|]. rewrite F1. split; [apply Rd; left; reflexivity|exact F2].
Qed.
Print Assumptions C96_stored_partial.

(** Blocks do not overlap, whatever the order of the requests: the space is what is asked for, rounded
    up, and when an offset would not fit an int, lighting fails instead. *)
Theorem C96_space : forall rs t total, NoDup (map fst rs) -> allocate rs 0 = ROk (t, total) ->
  total = sum_sizes rs /\
  (forall i k n, In (i, k, n) rs -> exists o, offset t i k = Some o /\ o mod 4 = 0 /\ o + n <= total /\ (Z.of_nat o <= 2147483647)%Z) /\
  (forall i k n i' k' n' o o', In (i, k, n) rs -> In (i', k', n') rs -> (i, k) <> (i', k') ->
     offset t i k = Some o -> offset t i' k' = Some o' -> o + n <= o' \/ o' + n' <= o).
Proof.
  intros rs t total ND H. destruct (allocate_spec rs 0 t total ND H) as (_ & Hs & H1 & H2 & _).
  split; [exact Hs|]. split; [|exact H2]. intros i k n Hin. destruct (H1 i k n Hin) as (o & Eo & _ & B & M & I).
  exists o. pose proof (align4_ge n). split; [exact Eo|]. split; [apply M; reflexivity|]. split; [lia|exact I].
Qed.
Print Assumptions C96_space.

(** Refuted: "with scaled lightmaps of the plain scale, engines that do not know them use the offset of
    the face".  The offset is copied before it is known: it is -1 for every face, whatever was saved. *)
Theorem C96_plain_offset_refuted : forall nov rgb b t total i s px vpx file f w, sf_same s = true ->
  save_face (Sup nov) rgb b t total i s px vpx (initial (Sup nov) file) = ROk (f, w) -> f_ofs f = (-1)%Z.
Proof.
  intros nov rgb b t total i s px vpx file f w Hs H.
  assert (G : good (Sup nov) s) by (cbn; rewrite Hs; apply orb_true_r).
  destruct (save_face_spec _ _ _ _ _ _ _ _ _ _ _ _ G H) as [_ (_ & _ & F)]. rewrite Hs in F. exact F.
Qed.
Print Assumptions C96_plain_offset_refuted.

(** Refuted: "with scaled lightmaps of another scale, the plain lightmap is at the offset of the face".
    Both are saved at the same offset, the space reserved for the plain one stays unused. *)
Theorem C96_two_scales_refuted : forall rgb b t total i s px vpx file f w, sf_same s = false -> sf_styles s <> [] ->
  save_face (Sup false) rgb b t total i s px vpx (initial (Sup false) file) = ROk (f, w) ->
  f_ofs f = s_ofs f /\ exists o, offset t i false = Some o /\
    w = put_maps b o (sf_vsize s) (map vpx (seq 0 (nst s))) ++ put_maps b o (sf_size s) (map px (seq 0 (nst s))).
Proof.
  intros rgb b t total i s px vpx file f w Hs Hn H. cbn [save_face] in H. rewrite Hs in H. cbn [orb] in H.
  unfold save in H. unfold nst. destruct (sf_styles s) as [|s0 sts] eqn:Es; [congruence|]. rewrite <- Es in *. clear Hn.
  destruct (offset t i false) as [o|]; [|discriminate].
  destruct (ofs_value rgb b o) as [v| |]; [|discriminate|discriminate]. cbn [rbind] in H.
  destruct (total <? o + sf_vsize s * length (sf_styles s)); [discriminate|]. cbn [rbind fst snd f_ofs f_styles s_ofs s_styles d_ofs] in H.
  destruct (total <? o + sf_size s * length (sf_styles s)); [discriminate|]. cbn [rbind fst snd] in H.
  injection H as <- <-. split; [reflexivity|]. exists o. split; reflexivity.
Qed.
Print Assumptions C96_two_scales_refuted.

(** So a plain lightmap that is larger than the scaled one is written over the lightmap of another face:
    face 0 has its scaled lightmap of two samples at 28, and finds there samples of the plain one of face 1. *)
Definition px1 (n : nat -> nat) (v : N) : nat -> nat -> pix :=
  fun i _ => (repeat (v + N.of_nat i)%N (n i), repeat 0%N (3 * n i), repeat 0%N (3 * n i)).
Definition three_faces := [Some (mkSurf [0%Z] 2 9 false); Some (mkSurf [0%Z] 2 9 false); Some (mkSurf [0%Z] 8 8 true)].
Definition old_file := repeat (mkOut 77 [0%Z; 255%Z; 255%Z; 255%Z] 0 [] 0) 3.
Theorem C96_overrun_refuted : exists rs t total faces ws B0,
  Permutation rs (all_requests (Sup false) 0 three_faces) /\ allocate rs 0 = ROk (t, total) /\
  save_all (Sup false) false (buffers false false false) t total 0 three_faces
    (px1 (fun i => nth i [2; 2; 8] 0) 10) (px1 (fun i => nth i [9; 9; 8] 0) 20) (map (initial (Sup false)) old_file) = ROk (faces, ws) /\
  final 0 total ws = ROk B0 /\
  map s_ofs faces = [28; 24; 32]%Z /\ map f_ofs faces = [28; 24; -1]%Z /\
  fst (fst (px1 (fun i => nth i [2; 2; 8] 0) 10 0 0)) = [10; 10]%N /\ slice B0 28 2 = [21; 21]%N.
Proof.
  set (r1 := [(0, true, 9)]). set (r2 := [(0, false, 2)]). set (r3 := [(1, true, 9)]). set (r4 := [(1, false, 2)]). set (r5 := [(2, false, 8)]).
  exists (r3 ++ r1 ++ r4 ++ r2 ++ r5).
  eexists. eexists. eexists. eexists. eexists.
  split.
  - change (all_requests _ _ _) with (r1 ++ r2 ++ r3 ++ r4 ++ r5). rewrite !app_assoc. apply Permutation_app_tail. rewrite <- !app_assoc.
    transitivity (r1 ++ r3 ++ r4 ++ r2).
    + rewrite !app_assoc. do 2 apply Permutation_app_tail. apply Permutation_app_comm.
    + apply Permutation_app_head. rewrite (app_assoc r3 r4 r2). apply Permutation_app_comm.
  - split; [vm_compute; reflexivity|]. split; [vm_compute; reflexivity|]. split; [vm_compute; reflexivity|].
    split; [vm_compute; reflexivity|]. split; [vm_compute; reflexivity|]. split; vm_compute; reflexivity.
Qed.
Print Assumptions C96_overrun_refuted.

(** And the last such face stops the program: its plain lightmap reaches beyond the data. *)
Theorem C96_abort_refuted : exists t total,
  allocate (all_requests (Sup false) 0 [Some (mkSurf [0%Z] 2 9 false)]) 0 = ROk (t, total) /\
  forall px vpx f, save_all (Sup false) false (buffers false false false) t total 0 [Some (mkSurf [0%Z] 2 9 false)] px vpx [f] = RThrow.
Proof. eexists. eexists. split; [vm_compute; reflexivity|]. intros px vpx f. reflexivity. Qed.
Print Assumptions C96_abort_refuted.

(** A face that gets no styles beside a scaled lightmap of another scale keeps the offset and the styles it
    had in the file, although the lighting data are new. *)
Theorem C96_stale_refuted : forall rgb b t total i s px vpx file, sf_same s = false -> sf_styles s = [] ->
  exists f, save_face (Sup false) rgb b t total i s px vpx (initial (Sup false) file) = ROk (f, []) /\
    f_ofs f = f_ofs file /\ f_styles f = f_styles file.
Proof.
  intros rgb b t total i s px vpx file Hs Hn. exists (initial (Sup false) file).
  cbn [save_face]. rewrite Hs, Hn. cbn. split; [reflexivity|]. split; reflexivity.
Qed.
Print Assumptions C96_stale_refuted.

(** Above a third of the range of int, the offset into the colours overflows. *)
Theorem C96_overflow_refuted : forall luxfile o, (715827883 <= Z.of_nat o)%Z -> ofs_value false (buffers false true luxfile) o = RUB.
Proof.
  intros luxfile o H. unfold ofs_value, buffers. cbn [has_lit has_lux orb andb].
  destruct (2147483647 <? 3 * Z.of_nat o)%Z eqn:E; [reflexivity|]. apply Z.ltb_ge in E. lia.
Qed.
Print Assumptions C96_overflow_refuted.

(** Two faces, one with two styles, lit file, requests in the other order. *)
Example C96_nontrivial :
  let ss := [Some (mkSurf [0; 32]%Z 2 2 true); None; Some (mkSurf [0]%Z 3 3 true)] in
  let px := fun i k => (repeat (N.of_nat (10 * i + k)) (nth i [2; 0; 3] 0), repeat 7%N (3 * nth i [2; 0; 3] 0), []) in
  exists t total faces ws B0, allocate (rev (all_requests Plain 0 ss)) 0 = ROk (t, total) /\
    save_all Plain false (buffers false true false) t total 0 ss px px (map (initial Plain) old_file) = ROk (faces, ws) /\
    final 0 total ws = ROk B0 /\ map f_ofs faces = [4; -1; 0]%Z /\ map f_styles faces = [[0; 32; 255; 255]; [255; 255; 255; 255]; [0; 255; 255; 255]]%Z /\
    B0 = [20; 20; 20; 0; 0; 0; 1; 1]%N.
Proof. do 5 eexists. split; [vm_compute; reflexivity|]. split; [vm_compute; reflexivity|]. vm_compute. repeat split; reflexivity. Qed.

(* ---- C97 ---- *)

Local Open Scope Z_scope.

Definition limit (sup : bool) (facestyles : nat) : nat := Nat.min facestyles (if sup then 16 else 4).

(** A lightmap takes part when it is in use, its style fits a byte and, except in Quake II, some sample
    has brightness 1. *)
Definition takes_part (q2 : bool) (l : lm) : Prop := lm_style l <> 65535 /\ lm_style l <= 255 /\ (q2 = true \/ 1 <= lm_max l).

Lemma considered_iff : forall q2 sup l, considered q2 sup l = true <-> takes_part q2 l.
Proof.
  intros q2 sup l. unfold considered, takes_part, INVALID, INVALID_OLD. rewrite !andb_true_iff, orb_true_iff, !negb_true_iff, Z.leb_le, Z.eqb_neq.
  destruct sup; cbn [andb]; rewrite ?Z.ltb_ge; intuition lia.
Qed.

(** The styles of a face are the brightest ones that take part, brightest first; none is left out while
    there is room; in Quake II there is always one.  A lightmap whose style takes part is saved under its
    style. *)
Theorem C97_brightest : forall q2 sup facestyles ls,
  let c := chosen q2 sup facestyles ls in
  (forall i st, In (i, st) c -> (exists l, nth_error ls i = Some l /\ takes_part q2 l /\ st = lm_style l) \/
                                (q2 = true /\ st = 0 /\ c = [(i, 0)] /\ forall j l, nth_error ls j = Some l -> ~ takes_part q2 l)) /\
  NoDup (map fst c) /\ (length c <= limit sup facestyles)%nat /\
  (forall i l, nth_error ls i = Some l -> takes_part q2 l -> ~ In i (map fst c) ->
     length c = limit sup facestyles /\
    forall j st l', In (j, st) c -> nth_error ls j = Some l' -> lm_avg l <= lm_avg l') /\
  (forall a b i j si sj li lj, nth_error c a = Some (i, si) -> nth_error c b = Some (j, sj) -> (a <= b)%nat ->
     nth_error ls i = Some li -> nth_error ls j = Some lj -> takes_part q2 li -> takes_part q2 lj -> lm_avg lj <= lm_avg li) /\
  (q2 = true -> limit sup facestyles <> O -> c <> []).
Proof.
  intros q2 sup facestyles ls c.
  set (n := limit sup facestyles).
  assert (Et : forall i l, nth_error ls i = Some l -> takes_part q2 l -> style_at ls i = lm_style l).
  { intros i l El (H1 & _). unfold style_at. rewrite El. unfold INVALID. apply Z.eqb_neq in H1. rewrite H1. reflexivity. }
  destruct (sortable q2 sup ls) as [|x0 xs] eqn:Es.
  - assert (No : forall j l, nth_error ls j = Some l -> ~ takes_part q2 l).
    { intros j l El Ht. apply (considered_iff q2 sup) in Ht.
      assert (Hin : In (lm_avg l, j) (sortable q2 sup ls)) by (apply sortable_in; exists l; tauto). rewrite Es in Hin. contradiction. }
    destruct q2.
    + assert (Ec : c = firstn n [(first_unsaved ls, 0)]).
      { unfold c, chosen. rewrite Es. cbn [sort_desc fold_right insert]. fold n. change (if sup then MAXLIGHTMAPSSUP else MAXLIGHTMAPS) with (if sup then 16%nat else 4%nat).
        change (Nat.min facestyles (if sup then 16%nat else 4%nat)) with n.
        destruct n; [reflexivity|]. cbn [firstn]. rewrite !firstn_nil. cbn [map snd]. f_equal. f_equal.
        clear - No. induction ls as [|y ys IH]; [reflexivity|]. unfold style_at. cbn [first_unsaved].
        destruct (lm_style y =? INVALID) eqn:E; cbn [nth_error]; [rewrite E; reflexivity|].
        apply IH. intros j l El. apply (No (S j) l El). }
      rewrite Ec. split; [|split; [|split; [|split; [|split]]]].
      * intros i st Hin. right. destruct n; cbn [firstn] in Hin |- *; [contradiction|]. rewrite firstn_nil in *.
        destruct Hin as [Hin|[]]. injection Hin as <- <-. tauto.
      * destruct n; cbn [firstn]; [constructor|]. rewrite firstn_nil. repeat constructor. intros [].
      * apply firstn_le_length.
      * intros i l El Ht. exfalso. apply (No i l El Ht).
      * intros a b i j si sj li lj _ _ _ Ei _ Ht. exfalso. apply (No i li Ei Ht).
      * intros _ Hn. destruct n; [congruence|]. discriminate.
    + assert (Ec : c = []) by (unfold c, chosen; rewrite Es; cbn [sort_desc fold_right]; rewrite firstn_nil; reflexivity).
      rewrite Ec. split; [intros i st []|]. split; [constructor|]. split; [cbn; lia|]. split; [intros i l El Ht; exfalso; apply (No i l El Ht)|].
      split; [intros a b i j si sj li lj Ha; destruct a; discriminate|discriminate].
  - assert (Ec : c = map (fun p => (snd p, style_at ls (snd p))) (firstn n (sort_desc (sortable q2 sup ls)))).
    { unfold c, chosen. rewrite Es. reflexivity. }
    set (s := sortable q2 sup ls) in *.
    pose proof (sort_perm s) as Pm. pose proof (sort_is_desc s) as Ds.
    assert (Fi : forall v i, In (v, i) (firstn n (sort_desc s)) -> exists l, nth_error ls i = Some l /\ takes_part q2 l /\ v = lm_avg l).
    { intros v i Hin. assert (Hin' : In (v, i) s).
      { apply (Permutation_in _ Pm). rewrite <- (firstn_skipn n (sort_desc s)). apply in_or_app. left. exact Hin. }
      apply sortable_in in Hin'. destruct Hin' as (l & El & Hc & Hv). apply considered_iff in Hc. exists l. tauto. }
    assert (Mp : map fst c = map snd (firstn n (sort_desc s))) by (rewrite Ec, map_map; reflexivity).
    assert (Cn : forall a i st, nth_error c a = Some (i, st) -> exists v, nth_error (firstn n (sort_desc s)) a = Some (v, i)).
    { intros a i st H. rewrite Ec, nth_error_map in H. destruct (nth_error (firstn n (sort_desc s)) a) as [[v j]|]; [|discriminate].
      cbn in H. injection H as <- _. exists v. reflexivity. }
    split; [|split; [|split; [|split; [|split]]]].
    + intros i st Hin. left. rewrite Ec in Hin. apply in_map_iff in Hin. destruct Hin as ([v j] & E & Hin). cbn [snd] in E. injection E as <- <-.
      destruct (Fi v j Hin) as (l & El & Ht & _). exists l. split; [exact El|]. split; [exact Ht|]. apply Et; assumption.
    + rewrite Mp. assert (N0 : NoDup (map snd (sort_desc s))).
      { eapply Permutation_NoDup; [symmetry; apply Permutation_map; exact Pm|]. apply sortable_nodup. }
      rewrite <- (firstn_skipn n (sort_desc s)), map_app in N0. revert N0. clear. set (l := map snd (skipn n (sort_desc s))). clearbody l.
      induction (map snd (firstn n (sort_desc s))) as [|x t IH]; intro H; [constructor|]. cbn [app] in H. inversion H as [|y ys Hn Ht E]; subst.
      constructor; [intro Hc; apply Hn; apply in_or_app; left; exact Hc|apply IH; exact Ht].
    + rewrite Ec, map_length. apply firstn_le_length.
    + intros i l El Ht Hn.
      assert (Hs : In (lm_avg l, i) (sort_desc s)).
      { apply (Permutation_in _ (Permutation_sym Pm)). apply sortable_in. exists l. rewrite considered_iff. tauto. }
      rewrite <- (firstn_skipn n (sort_desc s)) in Hs. apply in_app_or in Hs. destruct Hs as [Hs|Hs].
      { exfalso. apply Hn. rewrite Mp. apply in_map_iff. exists (lm_avg l, i). tauto. }
      split.
      * rewrite Ec, map_length. apply firstn_length_le.
        assert (Hl : (0 < length (skipn n (sort_desc s)))%nat) by (destruct (skipn n (sort_desc s)); [contradiction|cbn; lia]).
        rewrite skipn_length in Hl. lia.
      * intros j st l' Hj El'. rewrite Ec in Hj. apply in_map_iff in Hj. destruct Hj as ([v j'] & E & Hj). cbn [snd] in E. injection E as <- <-.
        destruct (Fi v j' Hj) as (l2 & El2 & _ & ->). assert (l2 = l') by congruence. subst l2.
        pose proof (desc_firstn n (sort_desc s) _ _ Ds Hj Hs) as D. cbn [fst snd] in D. lia.
    + intros a b i j si sj li lj Ha Hb Hab Ei Ej _ _. apply Cn in Ha. destruct Ha as [va Ha]. apply Cn in Hb. destruct Hb as [vb Hb].
      assert (Va : va = lm_avg li) by (destruct (Fi va i (nth_error_In _ _ Ha)) as (l & El & _ & ->); congruence).
      assert (Vb : vb = lm_avg lj) by (destruct (Fi vb j (nth_error_In _ _ Hb)) as (l & El & _ & ->); congruence).
      subst va vb.
      assert (Dn : desc (firstn n (sort_desc s))).
      { clear - Ds. clearbody n. revert n. induction Ds as [|x l Hx D IH]; intro n; [rewrite firstn_nil; constructor|]. destruct n; [constructor|].
        cbn [firstn]. constructor; [|apply IH]. intros b0 Hb0. apply Hx. rewrite <- (firstn_skipn n l). apply in_or_app. left. exact Hb0. }
      clear - Dn Ha Hb Hab. revert a b Ha Hb Hab. induction Dn as [|x l Hx D IH]; intros a b Ha Hb Hab; [destruct a; discriminate|].
      destruct a as [|a]; cbn [nth_error] in Ha.
      * injection Ha as ->. destruct b as [|b]; cbn [nth_error] in Hb; [injection Hb as -> _; lia|].
        specialize (Hx _ (nth_error_In _ _ Hb)). cbn [fst snd] in Hx. lia.
      * destruct b as [|b]; [lia|]. cbn [nth_error] in Hb. apply (IH a b Ha Hb). lia.
    + intros _ Hn Hc. rewrite Ec in Hc. apply map_eq_nil in Hc.
      assert (Hl : length (sort_desc s) <> O).
      { rewrite (Permutation_length Pm). rewrite Es. discriminate. }
      fold n in Hn. destruct n; [congruence|]. destruct (sort_desc s); [cbn in Hl; congruence|discriminate].
Qed.
Print Assumptions C97_brightest.

(** Refuted: "LMSTYLE16 holds the styles that do not fit a byte", as the compiler announces: no style above
    255 is ever saved. *)
Theorem C97_style16_refuted : forall q2 sup facestyles ls i st, In (i, st) (chosen q2 sup facestyles ls) -> st <= 255.
Proof.
  intros q2 sup facestyles ls i st H. destruct (C97_brightest q2 sup facestyles ls) as [H1 _].
  destruct (H1 i st H) as [(l & _ & (_ & Hb & _) & ->)|(_ & -> & _)]; lia.
Qed.
Print Assumptions C97_style16_refuted.

(** Engines use the styles of a face up to the first 255. *)
Fixpoint engine_styles (l : list Z) : list Z := match l with [] => [] | s :: t => if s =? 255 then [] else s :: engine_styles t end.

(** When no light has style 255, they use all that are saved. *)
Theorem C97_face_styles : forall q2 facestyles ls,
  (forall i l, nth_error ls i = Some l -> 0 <= lm_style l /\ lm_style l <> 255) ->
  engine_styles (face_styles (map snd (chosen q2 false facestyles ls))) = map snd (chosen q2 false facestyles ls).
Proof.
  intros q2 facestyles ls H. destruct (C97_brightest q2 false facestyles ls) as (H1 & _ & H3 & _).
  set (c := chosen q2 false facestyles ls) in *.
  assert (Hs : forall st, In st (map snd c) -> 0 <= st < 255).
  { intros st Hin. apply in_map_iff in Hin. destruct Hin as ([i st'] & <- & Hin). cbn [snd].
    destruct (H1 i st' Hin) as [(l & El & (_ & Hb & _) & ->)|(_ & -> & _)]; [|lia]. specialize (H i l El). lia. }
  assert (Hl : (length (map snd c) <= 4)%nat) by (rewrite map_length; unfold limit in H3; lia).
  clearbody c. generalize dependent (map snd c). clear. intros l Hs Hl. unfold face_styles, MAXLIGHTMAPS, INVALID_OLD.
  assert (Em : map (fun s => s mod 256) l = l).
  { rewrite <- (map_id l) at 2. apply map_ext_in. intros a Ha. apply Z.mod_small. specialize (Hs a Ha). lia. }
  rewrite Em. clear Em.
  assert (Ne : forall s, In s l -> (s =? 255) = false) by (intros s Hin; apply Z.eqb_neq; specialize (Hs s Hin); lia).
  destruct l as [|a [|b [|c [|d [|e l]]]]]; cbn [length] in Hl; try lia; cbn [app firstn repeat engine_styles];
    rewrite ?(Ne a), ?(Ne b), ?(Ne c), ?(Ne d) by (cbn; tauto); reflexivity.
Qed.
Print Assumptions C97_face_styles.

(** The same for 16-bit styles, which end at the first 65535. *)
Fixpoint engine_styles16 (l : list Z) : list Z := match l with [] => [] | s :: t => if s =? 65535 then [] else s :: engine_styles16 t end.
Theorem C97_sup_styles : forall q2 facestyles ls, (forall i l, nth_error ls i = Some l -> 0 <= lm_style l) ->
  length (sup_styles (map snd (chosen q2 true facestyles ls))) = 16%nat /\
  engine_styles16 (sup_styles (map snd (chosen q2 true facestyles ls))) = map snd (chosen q2 true facestyles ls).
Proof.
  intros q2 facestyles ls H. destruct (C97_brightest q2 true facestyles ls) as (H1 & _ & H3 & _).
  set (c := chosen q2 true facestyles ls) in *.
  assert (Hs : forall st, In st (map snd c) -> 0 <= st <= 255).
  { intros st Hin. apply in_map_iff in Hin. destruct Hin as ([i st'] & <- & Hin). cbn [snd].
    destruct (H1 i st' Hin) as [(l & El & (_ & Hb & _) & ->)|(_ & -> & _)]; [|lia]. specialize (H i l El). lia. }
  assert (Hl : (length (map snd c) <= 16)%nat) by (rewrite map_length; unfold limit in H3; lia).
  clearbody c. generalize dependent (map snd c). clear. intros l Hs Hl. unfold sup_styles, MAXLIGHTMAPSSUP, INVALID.
  assert (Em : map (fun s => s mod 65536) l = l).
  { rewrite <- (map_id l) at 2. apply map_ext_in. intros a Ha. apply Z.mod_small. specialize (Hs a Ha). lia. }
  rewrite Em. clear Em. split; [rewrite firstn_length, app_length, repeat_length; lia|].
  rewrite firstn_app. rewrite firstn_all2 by exact Hl.
  assert (R : forall n, engine_styles16 (firstn n (repeat 65535 16)) = []) by (intros [|n]; reflexivity).
  revert Hs. generalize (16 - length l)%nat. clear Hl. induction l as [|a l IH]; intros n Hs; [apply R|].
  cbn [app engine_styles16]. replace (a =? 65535) with false by (symmetry; apply Z.eqb_neq; specialize (Hs a (or_introl eq_refl)); lia).
  f_equal. apply IH. intros st Hin. apply Hs. right. exact Hin.
Qed.
Print Assumptions C97_sup_styles.

(** Refuted without that: a light of style 255, which the settings accept, ends the list: here the style
    0 of a face is lost although it was saved. *)
Theorem C97_style255_refuted : exists ls, (forall l, In l ls -> 0 <= lm_style l <= 65534) /\
  map snd (chosen false false 4 ls) = [255; 0] /\ engine_styles (face_styles (map snd (chosen false false 4 ls))) = [].
Proof.
  exists [mkLm 0 50 20; mkLm 255 90 30]. split; [|split; vm_compute; reflexivity].
  intros l [<-|[<-|[]]]; cbn; lia.
Qed.
Print Assumptions C97_style255_refuted.

(** Six lightmaps, one unsaved, one dark; equal brightness favours the later one. *)
Example C97_nontrivial :
  chosen false false 4 [mkLm 0 50 20; mkLm 65535 99 99; mkLm 32 60 40; mkLm 33 0 0; mkLm 5 70 20; mkLm 6 9 8; mkLm 7 80 60]
  = [(6%nat, 7); (2%nat, 32); (4%nat, 5); (0%nat, 0)] /\
  chosen true false 4 [mkLm 65535 0 0] = [(0%nat, 0)] /\ chosen true false 4 [] = [(0%nat, 0)] /\
  chosen false true 3 [mkLm 300 50 50; mkLm 1 2 2] = [(1%nat, 1)].
Proof. vm_compute. repeat split; reflexivity. Qed.
