From Coq Require Import List Arith NArith ZArith Bool Lia Permutation.
Import ListNotations.
From Verif Require Import Base Codec NumCastModel LightmapModel LightmapProofs PropertiesLightmap LmLumpsModel.
Local Open Scope Z_scope.

Definition used (f : out_face) : list Z := engine_styles16 (s_styles f).

Lemma scan_spec : forall ss j fs need mx j' need' mx', scan j fs ss need mx = (j', need', mx') ->
  j' = (j + length (engine_styles16 ss))%nat /\
  (need' = false <-> need = false /\ forall k s, nth_error (engine_styles16 ss) k = Some s -> (j + k < 4)%nat -> nth k fs 0 = s) /\
  mx <= mx' /\ (forall s, In s (engine_styles16 ss) -> s <= mx') /\ (mx' = mx \/ In mx' (engine_styles16 ss)).
Proof.
  induction ss as [|s ss IH]; intros j fs need mx j' need' mx' H; cbn [scan engine_styles16] in *.
  - injection H as <- <- <-. split; [cbn; lia|]. split; [split; [intros ->; split; [reflexivity|intros [|k]; discriminate]|tauto]|].
    split; [lia|]. split; [intros s []|left; reflexivity].
  - unfold INVALID in H. destruct (s =? 65535) eqn:E.
    + injection H as <- <- <-. split; [cbn; lia|]. split; [split; [intros ->; split; [reflexivity|intros [|k]; discriminate]|tauto]|].
      split; [lia|]. split; [intros x []|left; reflexivity].
    + apply IH in H. destruct H as (H1 & H2 & H3 & H4 & H5). split; [cbn [length]; lia|]. split; [|split; [|split]].
      * rewrite H2. rewrite orb_false_iff, andb_false_iff, negb_false_iff, Nat.ltb_ge, Z.eqb_eq. unfold MAXLIGHTMAPS. split.
        -- intros ((-> & A) & B). split; [reflexivity|]. intros [|k] x Hx Hk; cbn [nth_error] in Hx.
           ++ injection Hx as ->. destruct A as [A|A]; [lia|]. destruct fs; exact A.
           ++ specialize (B k x Hx ltac:(lia)). destruct fs as [|f0 fs0]; cbn [tl nth] in B |- *; [destruct k; exact B|exact B].
        -- intros (-> & A). split; [split; [reflexivity|]|].
           ++ destruct (Nat.le_gt_cases 4 j) as [L|L]; [left; exact L|right].
              specialize (A 0%nat s eq_refl ltac:(lia)). destruct fs; exact A.
           ++ intros k x Hx Hk. specialize (A (S k) x Hx ltac:(lia)). destruct fs as [|f0 fs0]; cbn [tl nth] in A |- *; [destruct k; exact A|exact A].
      * destruct (mx <? s) eqn:C; [apply Z.ltb_lt in C|]; lia.
      * intros x [<-|Hx]; [|apply H4; exact Hx]. destruct (mx <? s) eqn:C; [|apply Z.ltb_ge in C]; lia.
      * destruct (mx <? s) eqn:C; destruct H5 as [->|H5]; [right; left; reflexivity|right; right; exact H5|left; reflexivity|right; right; exact H5].
Qed.

Lemma need_fold : forall fs n, let r := fold_left need_face fs n in
  (nd_ofs r = false <-> nd_ofs n = false /\ forall f, In f fs -> f_ofs f = s_ofs f) /\
  (nd_sty r = false <-> nd_sty n = false /\ forall f k s, In f fs -> nth_error (used f) k = Some s -> (k < 4)%nat -> nth k (f_styles f) 0 = s) /\
  (nd_max n <= nd_max r /\ (forall f s, In f fs -> In s (used f) -> s <= nd_max r) /\
   (nd_max r = nd_max n \/ exists f, In f fs /\ In (nd_max r) (used f))) /\
  ((nd_per n <= nd_per r)%nat /\ (forall f, In f fs -> (length (used f) <= nd_per r)%nat) /\
   (nd_per r = nd_per n \/ exists f, In f fs /\ length (used f) = nd_per r)).
Proof.
  induction fs as [|f fs IH]; intros n r; cbn [fold_left] in r.
  - subst r. split; [split; [intros ->; split; [reflexivity|intros f []]|tauto]|].
    split; [split; [intros ->; split; [reflexivity|intros f k s []]|tauto]|].
    split; [split; [lia|]; split; [intros f s []|left; reflexivity]|].
    split; [lia|]. split; [intros f []|left; reflexivity].
  - subst r. specialize (IH (need_face n f)). cbv zeta in IH. set (r := fold_left need_face fs (need_face n f)) in *. clearbody r.
    unfold need_face in IH. destruct (scan 0 (f_styles f) (s_styles f) (nd_sty n) (nd_max n)) as [[j sty] mx] eqn:E.
    apply scan_spec in E. fold (used f) in E. destruct E as (E1 & E2 & E3 & E4 & E5). cbn [nd_ofs nd_sty nd_max nd_per] in IH.
    destruct IH as (A & B & (C1 & C2 & C3) & (D1 & D2 & D3)). split; [|split; [|split]].
    + rewrite A, orb_false_iff, negb_false_iff, Z.eqb_eq. split.
      * intros ((H1 & H2) & H3). split; [exact H1|]. intros g [<-|Hg]; [exact H2|apply H3; exact Hg].
      * intros (H1 & H2). split; [split; [exact H1|apply H2; left; reflexivity]|]. intros g Hg. apply H2. right. exact Hg.
    + rewrite B, E2. split.
      * intros ((H1 & H2) & H3). split; [exact H1|]. intros g k s [<-|Hg]; [intros Hk Hk4; apply (H2 k s Hk); lia|apply H3; exact Hg].
      * intros (H1 & H2). split; [split; [exact H1|]|].
        -- intros k s Hk Hk4. apply (H2 f k s (or_introl eq_refl) Hk). lia.
        -- intros g k s Hg. apply H2. right. exact Hg.
    + split; [lia|]. split.
      * intros g s [<-|Hg] Hs; [specialize (E4 s Hs); lia|apply (C2 g s Hg Hs)].
      * destruct C3 as [->|(g & Hg & Hm)]; [|right; exists g; split; [right; exact Hg|exact Hm]].
        destruct E5 as [->|E5]; [left; reflexivity|right; exists f; split; [left; reflexivity|exact E5]].
    + subst j. cbn [Nat.add] in *. destruct (nd_per n <? length (used f))%nat eqn:L; [apply Nat.ltb_lt in L|apply Nat.ltb_ge in L].
      * split; [lia|]. split; [intros g [<-|Hg]; [lia|apply D2; exact Hg]|].
        right. destruct D3 as [D3|(g & Hg & D3)]; [exists f; split; [left; reflexivity|congruence]|exists g; split; [right; exact Hg|exact D3]].
      * split; [lia|]. split; [intros g [<-|Hg]; [lia|apply D2; exact Hg]|].
        destruct D3 as [D3|(g & Hg & D3)]; [left; exact D3|right; exists g; split; [right; exact Hg|exact D3]].
Qed.

Lemma slice_flat : forall A B (g : A -> list B) k l i x, (forall y, In y l -> length (g y) = k) -> nth_error l i = Some x ->
  firstn k (skipn (i * k) (flat_map g l)) = g x.
Proof.
  induction l as [|y l IH]; intros i x H E; [destruct i; discriminate|].
  assert (Ly : length (g y) = k) by (apply H; left; reflexivity).
  destruct i as [|i]; cbn [nth_error flat_map] in *.
  - injection E as ->. rewrite Nat.mul_0_l. cbn [skipn]. rewrite firstn_app, Ly, Nat.sub_diag, firstn_O, app_nil_r. rewrite <- Ly. apply firstn_all.
  - rewrite skipn_app, (skipn_all2 (g y)) by (rewrite Ly; lia). cbn [app]. rewrite Ly.
    replace (S i * k - k)%nat with (i * k)%nat by lia. apply IH; [|exact E]. intros z Hz. apply H. right. exact Hz.
Qed.

Lemma length_flat : forall A B (g : A -> list B) k l, (forall y, In y l -> length (g y) = k) -> length (flat_map g l) = (length l * k)%nat.
Proof.
  induction l as [|y l IH]; intro H; [reflexivity|]. cbn [flat_map length]. rewrite app_length, IH.
  - rewrite (H y (or_introl eq_refl)). lia.
  - intros z Hz. apply H. right. exact Hz.
Qed.

Lemma skipn_flat : forall A B (g : A -> list B) k l i x, (forall y, In y l -> length (g y) = k) -> nth_error l i = Some x ->
  exists rest, skipn (i * k) (flat_map g l) = g x ++ rest.
Proof.
  induction l as [|y l IH]; intros i x H E; [destruct i; discriminate|].
  assert (Ly : length (g y) = k) by (apply H; left; reflexivity).
  destruct i as [|i]; cbn [nth_error flat_map] in *.
  - injection E as ->. exists (flat_map g l). reflexivity.
  - rewrite skipn_app, (skipn_all2 (g y)) by (rewrite Ly; lia). cbn [app]. rewrite Ly.
    replace (S i * k - k)%nat with (i * k)%nat by lia. apply IH; [|exact E]. intros z Hz. apply H. right. exact Hz.
Qed.

Lemma used_firstn : forall ss n, (length (engine_styles16 ss) <= n)%nat -> engine_styles16 (firstn n ss) = engine_styles16 ss.
Proof.
  induction ss as [|s ss IH]; intros n H; [rewrite firstn_nil; reflexivity|]. cbn [engine_styles16] in *.
  destruct n as [|n].
  - destruct (s =? 65535); [reflexivity|cbn in H; lia].
  - cbn [firstn engine_styles16]. destruct (s =? 65535); [reflexivity|]. f_equal. apply IH. cbn [length] in H. lia.
Qed.

Lemma used_length : forall ss, (length (engine_styles16 ss) <= length ss)%nat.
Proof. induction ss as [|s ss IH]; cbn [engine_styles16 length]; [lia|]. destruct (s =? 65535); cbn [length]; lia. Qed.

(** The style list of a byte lump. *)
Lemma used_bytes : forall ss, (forall s, In s (engine_styles16 ss) -> 0 <= s < 255) ->
  engine_styles (map (fun s => Z.of_N (to_unsigned 1 (if s =? INVALID then INVALID_OLD else s))) ss) = engine_styles16 ss.
Proof.
  induction ss as [|s ss IH]; intro H; [reflexivity|]. cbn [map engine_styles engine_styles16] in *. unfold INVALID, INVALID_OLD.
  destruct (s =? 65535) eqn:E.
  - reflexivity.
  - assert (Hs : 0 <= s < 255) by (apply H; left; reflexivity).
    assert (Ev : Z.of_N (to_unsigned 1 s) = s).
    { unfold to_unsigned. rewrite Z2N.id; [apply Z.mod_small|apply Z.mod_pos_bound]; change (256 ^ Z.of_nat 1) with 256; lia. }
    rewrite Ev. replace (s =? 255) with false by (symmetry; apply Z.eqb_neq; lia). f_equal. apply IH. intros x Hx. apply H. right. exact Hx.
Qed.

Fixpoint u16s (l : list N) : list Z := match l with a :: b :: t => (Z.of_N a + 256 * Z.of_N b) :: u16s t | _ => [] end.
Lemma u16s_put : forall ss, (forall s, In s ss -> 0 <= s <= 65535) -> u16s (flat_map (put_s 2) ss) = ss.
Proof.
  induction ss as [|s ss IH]; intro H; [reflexivity|]. cbn [flat_map].
  assert (Hs : 0 <= s <= 65535) by (apply H; left; reflexivity).
  unfold put_s at 1. cbn [put_le app u16s]. f_equal.
  - unfold to_unsigned. change (256 ^ Z.of_nat 2) with 65536. rewrite (Z.mod_small s) by lia.
    rewrite !N2Z.inj_mod, N2Z.inj_div, Z2N.id by lia. change (Z.of_N 256) with 256. 
    rewrite (Z.mod_small (s / 256)) by (split; [apply Z.div_pos; lia|apply Z.div_lt_upper_bound; lia]).
    pose proof (Z.div_mod s 256 ltac:(lia)). lia.
  - apply IH. intros x Hx. apply H. right. exact Hx.
Qed.

(** Faces whose own styles are the first four scaled ones. *)
Definition own_styles (ss : list Z) : list Z := map (fun v => if v =? INVALID then INVALID_OLD else v mod 256) (firstn 4 ss).
Lemma own_match : forall ss, (length ss >= 4)%nat -> (length (engine_styles16 ss) <= 4)%nat ->
  (forall s, In s (engine_styles16 ss) -> s <> 255) ->
  (forall k s, nth_error (engine_styles16 ss) k = Some s -> (k < 4)%nat -> nth k (own_styles ss) 0 = s) ->
  engine_styles (own_styles ss) = engine_styles16 ss.
Proof.
  intros ss L U N M. unfold own_styles in *.
  assert (G : forall n ss, (length (engine_styles16 ss) <= n)%nat -> (forall s, In s (engine_styles16 ss) -> s <> 255) ->
    (forall k s, nth_error (engine_styles16 ss) k = Some s -> (k < n)%nat -> nth k (map (fun v => if v =? INVALID then INVALID_OLD else v mod 256) (firstn n ss)) 0 = s) ->
    engine_styles (map (fun v => if v =? INVALID then INVALID_OLD else v mod 256) (firstn n ss)) = engine_styles16 ss).
  { clear. induction n as [|n IH]; intros ss U N M.
    - destruct (engine_styles16 ss) eqn:E; [reflexivity|cbn in U; lia].
    - destruct ss as [|s ss]; [reflexivity|]. cbn [firstn map engine_styles engine_styles16] in *. unfold INVALID, INVALID_OLD in *.
      destruct (s =? 65535) eqn:E; [reflexivity|].
      assert (M0 : s mod 256 = s) by (specialize (M 0%nat s eq_refl ltac:(lia)); exact M).
      rewrite M0. replace (s =? 255) with false by (symmetry; apply Z.eqb_neq; apply N; left; reflexivity). f_equal. apply IH.
      + cbn [length] in U. lia.
      + intros x Hx. apply N. right. exact Hx.
      + intros k x Hk Hk4. apply (M (S k) x Hk). lia. }
  apply (G 4%nat ss U N M).
Qed.

Lemma In_firstn_local : forall A n (l : list A) x, In x (firstn n l) -> In x l.
Proof. intros A n l x H. rewrite <- (firstn_skipn n l). apply in_or_app. left. exact H. Qed.
Arguments In_firstn_local {A} n l x.

Lemma engine16_in : forall l s, In s (engine_styles16 l) -> In s l.
Proof.
  induction l as [|a l IH]; intros s H; [exact H|]. cbn [engine_styles16] in H. destruct (a =? 65535); [contradiction|].
  destruct H as [H|H]; [left; exact H|right; apply IH; exact H].
Qed.

(* ---- the faces as they are saved ---- *)

Lemma save_all_nth : forall m rgb b t total px vpx ss i fs fs' ws, length fs = length ss ->
  save_all m rgb b t total i ss px vpx fs = ROk (fs', ws) -> length fs' = length ss /\
  forall j o f, nth_error ss j = Some o -> nth_error fs j = Some f -> exists f', nth_error fs' j = Some f' /\
    match o with None => f' = f
    | Some s => exists w, save_face m rgb b t total (i + j) s (px (i + j)%nat) (vpx (i + j)%nat) f = ROk (f', w) end.
Proof.
  induction ss as [|o ss IH]; intros i fs fs' ws L H.
  - destruct fs; [|discriminate]. cbn in H. injection H as <- <-. split; [reflexivity|]. intros [|j]; discriminate.
  - destruct fs as [|f fs]; [discriminate|]. cbn [save_all] in H.
    destruct (match o with Some s => save_face m rgb b t total i s (px i) (vpx i) f | None => ROk (f, []) end) as [[f1 w1]| |] eqn:E1;
      [|discriminate|discriminate]. cbn [rbind] in H.
    destruct (save_all m rgb b t total (S i) ss px vpx fs) as [[fs1 ws1]| |] eqn:E2; [|discriminate|discriminate].
    cbn [rbind fst snd] in H. injection H as <- <-. apply IH in E2; [|cbn in L; lia]. destruct E2 as [L2 H2].
    split; [cbn [length]; lia|]. intros j o0 f0 Ho Hf. destruct j as [|j]; cbn [nth_error] in *.
    + injection Ho as <-. injection Hf as <-. exists f1. split; [reflexivity|]. rewrite Nat.add_0_r.
      destruct o as [s|]; [exists w1; exact E1|]. injection E1 as -> _. reflexivity.
    + destruct (H2 j o0 f0 Ho Hf) as (f' & Hf' & Hs). exists f'. split; [exact Hf'|]. replace (i + S j)%nat with (S i + j)%nat by lia. exact Hs.
Qed.

Lemma save_fields : forall rgb b t total i styles size px vpx vsize to f f' w,
  save rgb b t total i styles size px vpx vsize to f = ROk (f', w) -> (styles = [] -> f' = f) /\
  (styles <> [] -> to = ToSup -> exists o, (o <= total)%nat /\ f' = mkOut (f_ofs f) (f_styles f) (if rgb then 3 * Z.of_nat o else Z.of_nat o) (sup_styles styles) (d_ofs f)) /\
  (styles <> [] -> to = ToFace -> exists o, (o <= total)%nat /\ f' = mkOut (if rgb then 3 * Z.of_nat o else Z.of_nat o) (face_styles styles) (s_ofs f) (s_styles f) (d_ofs f)).
Proof.
  intros rgb b t total i styles size px vpx vsize to f f' w H. unfold save in H. destruct styles as [|a l].
  - injection H as <- <-. split; [reflexivity|]. split; intro Hc; congruence.
  - split; [discriminate|]. destruct (offset t i false) as [o|]; [|discriminate].
    destruct (ofs_value rgb b o) as [v| |] eqn:Ev; [|discriminate|discriminate]. cbn [rbind] in H.
    unfold ofs_value in Ev. destruct ((has_lit b || has_lux b) && (2147483647 <? 3 * Z.of_nat o)); [discriminate|]. injection Ev as <-.
    destruct (total <? o + size * length (a :: l))%nat eqn:Et; [discriminate|]. apply Nat.ltb_ge in Et.
    split; intros _ ->; injection H as <- <-; exists o; (split; [lia|reflexivity]).
Qed.

Lemma own_face_styles : forall l, (forall s, In s l -> 0 <= s < 65535) -> face_styles l = own_styles (sup_styles l).
Proof.
  intros l H. unfold face_styles, own_styles, sup_styles, MAXLIGHTMAPS, MAXLIGHTMAPSSUP. rewrite firstn_firstn. change (Nat.min 4 16) with 4%nat.
  assert (E : forall n, (n <= 4)%nat -> firstn n (map (fun s => s mod 256) l ++ repeat INVALID_OLD 4) =
    map (fun v => if v =? INVALID then INVALID_OLD else v mod 256) (firstn n (map (fun s => s mod 65536) l ++ repeat INVALID 16))); [|apply E; lia].
  induction l as [|a l IH]; intros n Hn.
  - destruct n as [|[|[|[|[|n]]]]]; try reflexivity; lia.
  - destruct n as [|n]; [reflexivity|]. cbn [map app firstn]. f_equal.
    + assert (Ha : 0 <= a < 65535) by (apply H; left; reflexivity). rewrite (Z.mod_small a 65536) by lia. unfold INVALID.
      replace (a =? 65535) with false by (symmetry; apply Z.eqb_neq; lia). reflexivity.
    + apply IH; [intros s Hs; apply H; right; exact Hs|lia].
Qed.

Lemma sup_styles_used : forall l, (length l <= 16)%nat -> (forall s, In s l -> 0 <= s < 65535) ->
  length (sup_styles l) = 16%nat /\ engine_styles16 (sup_styles l) = l /\ forall s, In s (sup_styles l) -> 0 <= s <= 65535.
Proof.
  intros l L H. unfold sup_styles, MAXLIGHTMAPSSUP, INVALID.
  assert (Em : map (fun s => s mod 65536) l = l).
  { rewrite <- (map_id l) at 2. apply map_ext_in. intros a Ha. apply Z.mod_small. specialize (H a Ha). lia. }
  rewrite Em. split; [rewrite firstn_length, app_length, repeat_length; lia|]. split.
  - rewrite firstn_app, firstn_all2 by exact L.
    assert (R : forall n, engine_styles16 (firstn n (repeat 65535 16)) = []) by (intros [|n]; reflexivity).
    generalize (16 - length l)%nat. clear L Em. induction l as [|a l IH]; intro n; [apply R|].
    cbn [app engine_styles16]. replace (a =? 65535) with false by (symmetry; apply Z.eqb_neq; specialize (H a (or_introl eq_refl)); lia).
    f_equal. apply IH. intros s Hs. apply H. right. exact Hs.
  - intros s Hs. apply In_firstn_local in Hs. apply in_app_or in Hs. destruct Hs as [Hs|Hs]; [specialize (H s Hs); lia|].
    apply repeat_spec in Hs. lia.
Qed.

(** A saved face with scaled lightmaps: its own styles are the first four scaled ones. *)
Lemma save_face_sup : forall nov rgb b t total i s px vpx f f' w, (forall x, In x (sf_styles s) -> 0 <= x < 65535) ->
  f_styles f = repeat 255 4 -> s_ofs f = -1 -> s_styles f = repeat INVALID MAXLIGHTMAPSSUP ->
  save_face (Sup nov) rgb b t total i s px vpx f = ROk (f', w) ->
  s_styles f' = sup_styles (sf_styles s) /\ f_styles f' = own_styles (s_styles f') /\ -1 <= s_ofs f' <= 3 * Z.of_nat total.
Proof.
  intros nov rgb b t total i s px vpx f f' w R F1 F2 F3 H. cbn [save_face] in H.
  assert (E0 : sup_styles [] = repeat INVALID MAXLIGHTMAPSSUP) by reflexivity.
  destruct (nov || sf_same s).
  - destruct (save rgb b t total i (sf_styles s) (sf_size s) px vpx (sf_vsize s) ToSup _) as [[f1 w1]| |] eqn:E; [|discriminate|discriminate].
    cbn [rbind fst snd] in H. injection H as <- <-. cbn [f_styles s_styles s_ofs]. apply save_fields in E. destruct E as (E1 & E2 & _).
    destruct (sf_styles s) as [|a l] eqn:Es.
    + rewrite (E1 eq_refl). cbn [s_styles s_ofs]. rewrite F3, F2. split; [reflexivity|]. split; [reflexivity|lia].
    + destruct (E2 ltac:(discriminate) eq_refl) as (o & Ho & ->). cbn [s_styles s_ofs]. split; [reflexivity|]. split; [reflexivity|]. destruct rgb; lia.
  - destruct (save rgb b t total i (sf_styles s) (sf_vsize s) vpx vpx (sf_vsize s) ToFace f) as [[f1 w1]| |] eqn:E; [|discriminate|discriminate].
    cbn [rbind fst snd] in H.
    destruct (save rgb b t total i (sf_styles s) (sf_size s) px vpx (sf_vsize s) ToSup f1) as [[f2 w2]| |] eqn:E'; [|discriminate|discriminate].
    cbn [rbind fst snd] in H. injection H as <- <-. apply save_fields in E. apply save_fields in E'. destruct E as (E1 & _ & E2). destruct E' as (E3 & E4 & _).
    destruct (sf_styles s) as [|a l] eqn:Es.
    + rewrite (E3 eq_refl), (E1 eq_refl). rewrite F1, F2, F3. split; [reflexivity|]. split; [reflexivity|lia].
    + destruct (E2 ltac:(discriminate) eq_refl) as (o & Ho & ->). destruct (E4 ltac:(discriminate) eq_refl) as (o' & Ho' & ->).
      cbn [s_styles s_ofs f_styles]. split; [reflexivity|]. split; [apply own_face_styles; exact R|destruct rgb; lia].
Qed.

(* ---- -litonly ---- *)

Local Open Scope nat_scope.

(** The lightmaps of a face: place, samples, pixels. *)
Definition atom := (nat * nat * option pix)%type.
Definition atom_writes (b : bufs) (a : atom) : list byte_w :=
  match snd a with Some p => put_maps b (fst (fst a)) (snd (fst a)) [p] | None => [] end.
Fixpoint face_atoms (o size : nat) (styles : list Z) (px : Z -> option pix) : list atom :=
  match styles with [] => [] | s :: t => (o, size, px s) :: face_atoms (o + size) size t px end.
Definition atoms_of (x : option lface) : list atom :=
  match x with
  | None => []
  | Some f => if (lf_ofs f =? -1)%Z then [] else face_atoms (Z.to_nat (lf_ofs f)) (lf_size f) (engine_styles (firstn 4 (lf_styles f))) (lf_px f)
  end.
Definition disj (a a' : atom) : Prop := fst (fst a) + snd (fst a) <= fst (fst a') \/ fst (fst a') + snd (fst a') <= fst (fst a).
Definition span (f : lface) : nat := lf_size f * length (engine_styles (firstn 4 (lf_styles f))).

Lemma litonly_maps_atoms : forall b size px styles o,
  litonly_maps b o size styles px = flat_map (atom_writes b) (face_atoms o size (engine_styles styles) px).
Proof.
  induction styles as [|s t IH]; intro o; [reflexivity|]. cbn [litonly_maps engine_styles].
  destruct (s =? 255)%Z; [reflexivity|]. cbn [face_atoms flat_map]. unfold atom_writes at 1. cbn [fst snd]. rewrite IH. reflexivity.
Qed.

Lemma litonly_all_atoms : forall b n l, (forall f, In (Some f) l -> lf_ofs f = (-1)%Z \/ (0 <= lf_ofs f)%Z /\ Z.to_nat (lf_ofs f) + span f <= n) ->
  (3 * Z.of_nat n <= 2147483647)%Z -> litonly_all b l = ROk (flat_map (atom_writes b) (flat_map atoms_of l)).
Proof.
  induction l as [|x l IH]; intros H B; [reflexivity|]. cbn [litonly_all flat_map].
  rewrite IH; [|intros f Hf; apply H; right; exact Hf|exact B]. rewrite flat_map_app.
  destruct x as [f|]; [|reflexivity]. cbn [atoms_of]. destruct (lf_ofs f =? -1)%Z eqn:E; [reflexivity|].
  apply Z.eqb_neq in E. destruct (H f (or_introl eq_refl)) as [Hc|[H1 H2]]; [contradiction|].
  replace (lf_ofs f <? 0)%Z with false by (symmetry; apply Z.ltb_ge; exact H1).
  replace (2147483647 <? 3 * lf_ofs f)%Z with false by (symmetry; apply Z.ltb_ge; lia).
  cbn [rbind]. rewrite litonly_maps_atoms. reflexivity.
Qed.

Lemma face_atoms_spec : forall size px styles o a, In a (face_atoms o size styles px) ->
  exists k s, nth_error styles k = Some s /\ a = (o + k * size, size, px s) /\ o <= fst (fst a) /\ fst (fst a) + snd (fst a) <= o + size * length styles.
Proof.
  induction styles as [|s t IH]; intros o a H; [contradiction|]. destruct H as [<-|H].
  - exists 0, s. split; [reflexivity|]. cbn [fst snd length]. split; [rewrite Nat.mul_0_l, Nat.add_0_r; reflexivity|]. lia.
  - destruct (IH _ _ H) as (k & s' & Hk & -> & H1 & H2). exists (S k), s'. split; [exact Hk|]. cbn [fst snd length] in *.
    split; [f_equal; f_equal; lia|]. lia.
Qed.

Lemma face_atoms_in : forall size px styles o k s, nth_error styles k = Some s -> In (o + k * size, size, px s) (face_atoms o size styles px).
Proof.
  induction styles as [|s t IH]; intros o k x H; [destruct k; discriminate|]. destruct k as [|k]; cbn [nth_error] in H; cbn [face_atoms].
  - injection H as ->. left. rewrite Nat.mul_0_l, Nat.add_0_r. reflexivity.
  - right. replace (o + S k * size) with (o + size + k * size) by lia. apply IH. exact H.
Qed.

Lemma face_atoms_disj : forall size px styles o, ForallOrdPairs disj (face_atoms o size styles px).
Proof.
  induction styles as [|s t IH]; intro o; [constructor|]. cbn [face_atoms]. constructor; [|apply IH].
  apply Forall_forall. intros a Ha. destruct (face_atoms_spec _ _ _ _ _ Ha) as (_ & _ & _ & _ & H1 & _). unfold disj. cbn [fst snd]. lia.
Qed.

Lemma FOP_app : forall A (R : A -> A -> Prop) l l', ForallOrdPairs R l -> ForallOrdPairs R l' -> (forall x y, In x l -> In y l' -> R x y) -> ForallOrdPairs R (l ++ l').
Proof.
  induction l as [|a l IH]; intros l' H H' X; [exact H'|]. cbn [app]. inversion H as [|? ? F G]; subst. constructor.
  - apply Forall_app. split; [exact F|]. apply Forall_forall. intros y Hy. apply X; [left; reflexivity|exact Hy].
  - apply IH; [exact G|exact H'|]. intros x y Hx Hy. apply X; [right; exact Hx|exact Hy].
Qed.

(** Two faces do not share a place. *)
Definition apart (x y : option lface) : Prop :=
  match x, y with
  | Some f, Some g => lf_ofs f = (-1)%Z \/ lf_ofs g = (-1)%Z \/
      (lf_ofs f + Z.of_nat (span f) <= lf_ofs g \/ lf_ofs g + Z.of_nat (span g) <= lf_ofs f)%Z
  | _, _ => True
  end.

Lemma all_atoms_disj : forall l, (forall f, In (Some f) l -> lf_ofs f = (-1)%Z \/ (0 <= lf_ofs f)%Z) ->
  ForallOrdPairs apart l -> ForallOrdPairs disj (flat_map atoms_of l).
Proof.
  induction l as [|x l IH]; intros P H; [constructor|]. inversion H as [|? ? F G]; subst. cbn [flat_map]. apply FOP_app.
  - destruct x as [f|]; cbn [atoms_of]; [|constructor]. destruct (lf_ofs f =? -1)%Z; [constructor|apply face_atoms_disj].
  - apply IH; [intros f Hf; apply P; right; exact Hf|exact G].
  - intros a a' Ha Ha'. apply in_flat_map in Ha'. destruct Ha' as (y & Hy & Ha'). rewrite Forall_forall in F. specialize (F y Hy).
    destruct x as [f|]; [|contradiction]. destruct y as [g|]; [|contradiction]. cbn [atoms_of apart] in *.
    destruct (lf_ofs f =? -1)%Z eqn:E1; [contradiction|]. destruct (lf_ofs g =? -1)%Z eqn:E2; [contradiction|].
    apply Z.eqb_neq in E1, E2. apply face_atoms_spec in Ha, Ha'. destruct Ha as (_ & _ & _ & _ & A1 & A2). destruct Ha' as (_ & _ & _ & _ & B1 & B2).
    fold (span f) in A2. fold (span g) in B2.
    assert (0 <= lf_ofs f)%Z by (destruct (P f (or_introl eq_refl)); [contradiction|assumption]).
    assert (0 <= lf_ofs g)%Z by (destruct (P g (or_intror Hy)); [contradiction|assumption]).
    unfold disj. destruct F as [F|[F|F]]; [contradiction|contradiction|]. lia.
Qed.

Definition atom_ok (a : atom) : Prop := match snd a with Some p => pix_ok (snd (fst a)) p | None => True end.

Lemma atom_writes_spec : forall b a, atom_ok a -> Forall (in_block (fst (fst a)) (snd (fst a))) (atom_writes b a) /\ NoDup (map wkey (atom_writes b a)).
Proof.
  intros b [[o n] [p|]] H; unfold atom_writes; cbn [fst snd]; [|split; constructor].
  destruct (put_maps_spec b n [p] o) as (A & B & _); [constructor; [exact H|constructor]|]. cbn [length] in A. rewrite Nat.mul_1_r in A. split; assumption.
Qed.

Lemma atoms_nodup : forall b l, Forall atom_ok l -> ForallOrdPairs disj l -> NoDup (map wkey (flat_map (atom_writes b) l)).
Proof.
  induction l as [|a l IH]; intros K H; [constructor|]. inversion K as [|? ? K1 K2]; subst. inversion H as [|? ? F G]; subst.
  cbn [flat_map]. rewrite map_app. destruct (atom_writes_spec b a K1) as [W1 W2]. apply nodup_app; [exact W2|apply IH; assumption|].
  intros x H1 H2. apply in_map_iff in H1. destruct H1 as (w & Ew & H1). apply in_map_iff in H2. destruct H2 as (w' & Ew' & H2).
  apply in_flat_map in H2. destruct H2 as (a' & Ha' & H2). rewrite Forall_forall in F, W1, K2. destruct (atom_writes_spec b a' (K2 a' Ha')) as [W1' _].
  rewrite Forall_forall in W1'. specialize (F a' Ha'). unfold disj in F.
  apply (in_block_disjoint (fst (fst a)) (snd (fst a)) (fst (fst a')) (snd (fst a')) w'); [|apply W1'; exact H2|exact F].
  apply (in_block_key _ _ w); [congruence|apply W1; exact H1].
Qed.

Lemma FOP_in : forall A (R : A -> A -> Prop) l, (forall x y, R x y -> R y x) -> ForallOrdPairs R l -> forall x y, In x l -> In y l -> x = y \/ R x y.
Proof.
  induction l as [|a l IH]; intros Sy H x y Hx Hy; [contradiction|]. inversion H as [|? ? F G]; subst. rewrite Forall_forall in F.
  destruct Hx as [<-|Hx]; destruct Hy as [<-|Hy]; [left; reflexivity|right; apply F; exact Hy|right; apply Sy, F; exact Hx|apply IH; assumption].
Qed.

(** Lightmaps in disjoint places, written in any order: each is there, places without one stay 0. *)
Lemma atoms_read : forall b l n ws, Forall atom_ok l -> ForallOrdPairs disj l ->
  (forall a, In a l -> fst (fst a) + snd (fst a) <= n) -> Permutation (flat_map (atom_writes b) l) ws ->
  exists B0 B1 B2, final 0 n ws = ROk B0 /\ final 1 n ws = ROk B1 /\ final 2 n ws = ROk B2 /\
    length B0 = n /\ length B1 = 3 * n /\ length B2 = 3 * n /\
    forall o size p, In (o, size, p) l ->
      (has_out b = true -> slice B0 o size = match p with Some p => g_ p | None => repeat 0%N size end) /\
      (has_lit b = true -> slice B1 (3 * o) (3 * size) = match p with Some p => c_ p | None => repeat 0%N (3 * size) end) /\
      (has_lux b = true -> slice B2 (3 * o) (3 * size) = match p with Some p => d_ p | None => repeat 0%N (3 * size) end).
Proof.
  intros b l n ws K D R P.
  pose proof (atoms_nodup b l K D) as ND.
  assert (ND' : NoDup (map wkey ws)) by (eapply Permutation_NoDup; [apply Permutation_map; exact P|exact ND]).
  rewrite Forall_forall in K.
  assert (In' : forall w, In w ws -> exists a, In a l /\ in_block (fst (fst a)) (snd (fst a)) w).
  { intros w Hw. apply (Permutation_in _ (Permutation_sym P)) in Hw. apply in_flat_map in Hw. destruct Hw as (a & Ha & Hw).
    exists a. split; [exact Ha|]. destruct (atom_writes_spec b a (K a Ha)) as [W _]. rewrite Forall_forall in W. apply W. exact Hw. }
  assert (Fin : forall buf, exists r, final buf n ws = ROk r /\ length r = buf_size buf n /\ (forall a v, In (buf, a, v) ws -> nth_error r a = Some v) /\
    (forall a, ~ In (buf, a) (map wkey ws) -> nth_error r a = nth_error (repeat 0%N (buf_size buf n)) a)).
  { intro buf. destruct (do_writes_spec buf ws (repeat 0%N (buf_size buf n)) ND') as (r & Er & Lr & H1 & H2).
    - intros a v Hin. rewrite repeat_length. destruct (In' _ Hin) as (x & Hx & Hb). specialize (R x Hx). unfold in_block in Hb. cbn [fst snd] in Hb.
      destruct buf; cbn [buf_size]; lia.
    - exists r. rewrite repeat_length in Lr. split; [exact Er|]. split; [exact Lr|]. split; assumption. }
  destruct (Fin 0) as (B0 & E0 & L0 & R0 & Z0). destruct (Fin 1) as (B1 & E1 & L1 & R1 & Z1). destruct (Fin 2) as (B2 & E2 & L2 & R2 & Z2).
  exists B0, B1, B2. split; [exact E0|]. split; [exact E1|]. split; [exact E2|]. split; [exact L0|]. split; [exact L1|]. split; [exact L2|].
  intros o size p Hin. pose proof (R _ Hin) as Ho. cbn [fst snd] in Ho. destruct p as [p|].
  - pose proof (K _ Hin) as Kp. unfold atom_ok in Kp. cbn [fst snd] in Kp. destruct (put_maps_spec b size [p] o) as (_ & _ & M); [constructor; [exact Kp|constructor]|].
    destruct (M 0 p eq_refl) as (M1 & M2 & M3). rewrite Nat.mul_0_l, Nat.add_0_r in *.
    assert (Wi : forall x, In x (put_maps b o size [p]) -> In x ws).
    { intros x Hx. apply (Permutation_in _ P). apply in_flat_map. exists (o, size, Some p). split; [exact Hin|exact Hx]. }
    destruct Kp as (Lg & Lc & Ld). split; [|split]; intro Hb.
    + rewrite <- Lg. apply slice_eq. intros j v Hj. apply R0, Wi, M1; assumption.
    + rewrite <- Lc. apply slice_eq. intros j v Hj. apply R1, Wi, M2; assumption.
    + rewrite <- Ld. apply slice_eq. intros j v Hj. apply R2, Wi, M3; assumption.
  - assert (Nw : forall w, In w ws -> in_block o size w -> False).
    { intros w Hw Hb. pose proof Hw as Hw'. apply (Permutation_in _ (Permutation_sym P)) in Hw'. apply in_flat_map in Hw'. destruct Hw' as (a & Ha & Hwa).
      destruct (FOP_in _ disj l (fun x y (H : disj x y) => match H with or_introl h => or_intror h | or_intror h => or_introl h end) D a (o, size, None) Ha Hin) as [->|Hd].
      - exact Hwa.
      - destruct (atom_writes_spec b a (K a Ha)) as [W _]. rewrite Forall_forall in W. specialize (W w Hwa).
        unfold disj in Hd. cbn [fst snd] in Hd. apply (in_block_disjoint _ _ _ _ w W Hb Hd). }
    assert (Zr : forall buf r at_ m, (forall a, ~ In (buf, a) (map wkey ws) -> nth_error r a = nth_error (repeat 0%N (buf_size buf n)) a) ->
      (forall j, j < m -> in_block o size (buf, at_ + j, 0%N)) -> at_ + m <= buf_size buf n -> slice r at_ m = repeat 0%N m).
    { intros buf r at_ m Hz Hb Hm. rewrite <- (repeat_length 0%N m) at 1. apply slice_eq. intros j v Hj.
      assert (Lj : j < m) by (rewrite <- (repeat_length 0%N m); apply nth_error_Some; congruence).
      assert (v = 0%N) by (apply (repeat_spec m 0%N v); eapply nth_error_In; exact Hj). subst v.
      rewrite Hz.
      - clear - Lj Hm. assert (H : at_ + j < buf_size buf n) by lia. generalize dependent (at_ + j). generalize (buf_size buf n). clear.
        intro q. induction q as [|q IH]; intros x H; [lia|]. destruct x as [|x]; [reflexivity|]. cbn [repeat nth_error]. apply IH. lia.
      - intro Hc. apply in_map_iff in Hc. destruct Hc as (w & Ew & Hw). apply (Nw w Hw). apply (in_block_key _ _ (buf, at_ + j, 0%N)); [symmetry; exact Ew|apply Hb; exact Lj]. }
    split; [|split]; intros _.
    + apply (Zr 0); [exact Z0| |cbn [buf_size]; lia]. intros j Hj. unfold in_block. cbn [fst snd]. lia.
    + apply (Zr 1); [exact Z1| |cbn [buf_size]; lia]. intros j Hj. unfold in_block. cbn [fst snd]. lia.
    + apply (Zr 2); [exact Z2| |cbn [buf_size]; lia]. intros j Hj. unfold in_block. cbn [fst snd]. lia.
Qed.
