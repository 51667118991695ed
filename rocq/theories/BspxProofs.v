(* Proofs about the contents of BSPX lumps. *)
From Coq Require Import List Arith NArith ZArith Bool Lia ZifyBool ZifyNat ZifyN.
Import ListNotations.
From Verif Require Import Base Codec NumCastModel BspRecModel BspRecProofs NumCastProofs ContentsModel ContentsProofs BspxModel.
Local Open Scope Z_scope.

Lemma z_ok : forall t, In t all_ity -> codec_ok (fun v => it_in t v = true) (put_z t) (get_field t).
Proof. intros t T v rest I. unfold put_z. apply field_ok; assumption. Qed.

Definition floats_wf (n : nat) (l : list Z) : Prop := length l = n /\ Forall (fun v => it_in f32 v = true) l.
Lemma floats_ok : forall n, codec_ok (floats_wf n) put_floats (get_list (get_field f32) n).
Proof. intros n. unfold floats_wf, put_floats. apply list_ok, z_ok. in_ity. Qed.

(** Member types of a brush and of a model. *)
Definition brush_ok (b : xbrush) : Prop :=
  floats_wf 6 (xb_bounds b) /\ it_in i16 (xb_contents b) = true /\ Forall (floats_wf 4) (xb_faces b).
Definition brush_small (b : xbrush) : Prop := brush_ok b /\ (Z.of_nat (length (xb_faces b)) < 65536).
Definition model_ok (m : xmodel) : Prop :=
  it_in i32 (xm_ver m) = true /\ it_in i32 (xm_num m) = true /\
  Z.of_nat (length (xm_brushes m)) < 2 ^ 31 /\ face_total (xm_brushes m) < 2 ^ 31 /\
  Forall brush_small (xm_brushes m) /\ xm_numfaces m = face_total (xm_brushes m).

Lemma put_list_app : forall A (p : A -> list N) a b, put_list p (a ++ b) = put_list p a ++ put_list p b.
Proof. induction a; intros; cbn [put_list app]; [reflexivity|]. rewrite IHa, app_assoc. reflexivity. Qed.

(** A brush is read back with its face count modulo 65536; the other planes stay in the stream. *)
Lemma xbrush_read : forall b rest, brush_ok b ->
  let n := Z.to_nat (Z.of_nat (length (xb_faces b)) mod 65536) in
  get_xbrush (put_xbrush b ++ rest) =
  Some (mkXB (xb_bounds b) (xb_contents b) (firstn n (xb_faces b)),
        put_list put_floats (skipn n (xb_faces b)) ++ rest).
Proof.
  intros [bo c fs] rest (B & C & F) n. cbn [xb_bounds xb_contents xb_faces] in *.
  unfold get_xbrush, put_xbrush. cbn [xb_bounds xb_contents xb_faces].
  rewrite <- !app_assoc, floats_ok by assumption.
  rewrite z_ok by (assumption || in_ity).
  assert (W : it_wrap u16 (Z.of_nat (length fs)) = Z.of_nat (length fs) mod 65536) by reflexivity.
  rewrite W. clear W.
  assert (R : 0 <= Z.of_nat (length fs) mod 65536 < 65536) by (apply Z.mod_pos_bound; lia).
  rewrite z_ok by (in_ity || (unfold it_in, it_lo, it_hi; cbn; lia)).
  fold n. rewrite <- (firstn_skipn n fs) at 1. rewrite put_list_app, <- app_assoc.
  assert (Ln : (n <= length fs)%nat).
  { unfold n. pose proof (Z.mod_le (Z.of_nat (length fs)) 65536). lia. }
  rewrite (list_ok _ (floats_wf 4) put_floats (get_list (get_field f32) 4) n (floats_ok 4)).
  - reflexivity.
  - split; [apply firstn_length_le; assumption|].
    rewrite <- (firstn_skipn n fs), Forall_app in F. apply F.
Qed.

Lemma xbrush_ok : codec_ok brush_small put_xbrush get_xbrush.
Proof.
  intros b rest [B S]. rewrite xbrush_read by assumption.
  rewrite Z.mod_small, Nat2Z.id, firstn_all, skipn_all by lia. destruct b. reflexivity.
Qed.

Lemma face_total_nonneg : forall l a, a <= fold_left (fun a b => a + Z.of_nat (length (xb_faces b))) l a.
Proof. induction l as [|b l IH]; intros a; cbn [fold_left]; [lia|]. specialize (IH (a + Z.of_nat (length (xb_faces b)))). lia. Qed.

Lemma wrap_i32 : forall z, 0 <= z < 2 ^ 31 -> it_wrap i32 z = z /\ it_in i32 z = true.
Proof.
  intros z H. assert (I : it_in i32 z = true) by (unfold it_in, it_lo, it_hi; cbn; lia).
  split; [apply wrap_id; [in_ity|assumption]|assumption].
Qed.

Lemma xmodel_read : forall fuel m rest, model_ok m ->
  get_xmodels (S fuel) (put_xmodel m ++ rest) =
  rbind (get_xmodels fuel rest) (fun t => ROk (m :: t)).
Proof.
  intros fuel [ver num bs nf] rest (V & M & L & T & B & E). cbn [xm_ver xm_num xm_brushes xm_numfaces] in *.
  unfold put_xmodel. cbn [xm_ver xm_num xm_brushes xm_numfaces get_xmodels].
  pose proof (face_total_nonneg bs 0) as G. fold (face_total bs) in G.
  destruct (wrap_i32 (Z.of_nat (length bs)) ltac:(lia)) as [W1 W2].
  destruct (wrap_i32 (face_total bs) ltac:(lia)) as [W3 W4].
  rewrite W1, W3, <- !app_assoc.
  rewrite z_ok by (assumption || in_ity). cbn [get_fields].
  rewrite z_ok by (assumption || in_ity).
  rewrite z_ok by (assumption || in_ity).
  destruct (Z.of_nat (length bs) <? 0) eqn:Q; [lia|].
  rewrite z_ok by (assumption || in_ity).
  rewrite Nat2Z.id.
  rewrite (list_ok _ brush_small put_xbrush get_xbrush (length bs) xbrush_ok) by (split; [reflexivity|assumption]).
  rewrite E. reflexivity.
Qed.

Lemma put_xmodel_long : forall m, (1 <= length (put_xmodel m))%nat.
Proof. intros m. unfold put_xmodel. rewrite app_length. unfold put_z at 1. rewrite put_field_length. cbn; lia. Qed.

Lemma xmodels_read : forall ms fuel, Forall model_ok ms -> (length ms < fuel)%nat ->
  get_xmodels fuel (put_xmodels ms) = ROk ms.
Proof.
  unfold put_xmodels. induction ms as [|m ms IH]; intros fuel F L.
  - destruct fuel; reflexivity.
  - destruct fuel as [|fuel]; [cbn in L; lia|]. inversion F; subst.
    cbn [put_list]. rewrite xmodel_read by assumption. rewrite IH by (assumption || cbn in L; lia). reflexivity.
Qed.

Lemma put_xmodels_long : forall ms, (length ms <= length (put_xmodels ms))%nat.
Proof.
  unfold put_xmodels. induction ms as [|m ms IH]; [cbn; lia|]. cbn [put_list length]. rewrite app_length.
  pose proof (put_xmodel_long m). lia.
Qed.

Lemma brushlist_round : forall ms, Forall model_ok ms -> read_brushlist (put_xmodels ms) = ROk ms.
Proof.
  intros ms F. unfold read_brushlist. apply xmodels_read; [assumption|]. pose proof (put_xmodels_long ms). lia.
Qed.

(** The reader never runs out of fuel: more fuel changes nothing. *)
Lemma get_le_shrinks : forall n l v r, get_le n l = Some (v, r) -> (length r + n = length l)%nat.
Proof.
  induction n as [|n IH]; intros l v r H; cbn [get_le] in H.
  - inversion H; subst. lia.
  - destruct l as [|b t]; [discriminate|]. destruct (get_le n t) as [[v' r']|] eqn:Q; [|discriminate].
    inversion H; subst. apply IH in Q. cbn [length]. lia.
Qed.
Lemma get_field_shrinks : forall t l v r, get_field t l = Some (v, r) -> (length r + it_bytes t = length l)%nat.
Proof.
  intros t l v r H. unfold get_field in H. destruct (get_le (it_bytes t) l) as [[w r']|] eqn:Q; [|discriminate].
  inversion H; subst. eapply get_le_shrinks; eassumption.
Qed.
Lemma get_list_shrinks : forall A (g : reader A) n, (forall l v r, g l = Some (v, r) -> (length r <= length l)%nat) ->
  forall l v r, get_list g n l = Some (v, r) -> (length r <= length l)%nat.
Proof.
  intros A g n G. induction n as [|n IH]; intros l v r H; cbn [get_list] in H; [inversion H; subst; lia|].
  destruct (g l) as [[a l']|] eqn:Q; [|discriminate]. destruct (get_list g n l') as [[t r']|] eqn:Q'; [|discriminate].
  inversion H; subst. apply G in Q. apply IH in Q'. lia.
Qed.
Lemma get_xbrush_shrinks : forall l v r, get_xbrush l = Some (v, r) -> (length r <= length l)%nat.
Proof.
  intros l v r H. unfold get_xbrush in H.
  assert (GF : forall t l v r, get_field t l = Some (v, r) -> (length r <= length l)%nat)
    by (intros; match goal with X : get_field _ _ = _ |- _ => apply get_field_shrinks in X end; lia).
  destruct (get_list (get_field f32) 6 l) as [[b l1]|] eqn:Q1; [|discriminate].
  destruct (get_field i16 l1) as [[c l2]|] eqn:Q2; [|discriminate].
  destruct (get_field u16 l2) as [[n l3]|] eqn:Q3; [|discriminate].
  destruct (get_list (get_list (get_field f32) 4) (Z.to_nat n) l3) as [[fs l4]|] eqn:Q4; [|discriminate].
  inversion H; subst.
  apply get_list_shrinks in Q1; [|apply GF]. apply GF in Q2. apply GF in Q3.
  apply get_list_shrinks in Q4; [|apply get_list_shrinks; apply GF]. lia.
Qed.

Lemma get_xmodels_fuel : forall fuel fuel' l, (length l < fuel)%nat -> (length l < fuel')%nat ->
  get_xmodels fuel l = get_xmodels fuel' l.
Proof.
  induction fuel as [|fuel IH]; intros fuel' l L L'; [lia|]. destruct fuel' as [|fuel']; [lia|].
  cbn [get_xmodels]. destruct (get_field i32 l) as [[ver l1]|] eqn:Q1; [|reflexivity].
  cbn [get_fields]. destruct (get_field i32 l1) as [[num l2]|] eqn:Q2; [|reflexivity].
  destruct (get_field i32 l2) as [[cnt l3]|] eqn:Q3; [|reflexivity].
  destruct (cnt <? 0); [reflexivity|].
  destruct (get_field i32 l3) as [[nf l4]|] eqn:Q4; [|reflexivity].
  destruct (get_list get_xbrush (Z.to_nat cnt) l4) as [[bs l5]|] eqn:Q5; [|reflexivity].
  apply get_field_shrinks in Q1. apply get_field_shrinks in Q2. apply get_field_shrinks in Q3.
  apply get_field_shrinks in Q4. apply get_list_shrinks in Q5; [|apply get_xbrush_shrinks].
  change (it_bytes i32) with 4%nat in *. rewrite (IH fuel' l5) by lia. reflexivity.
Qed.

(** ** FACENORMALS, DECOUPLED_LM *)
Definition normals_ok (x : facenormals) : Prop :=
  Z.of_nat (length (fn_normals x)) < 2 ^ 32 /\ Forall (floats_wf 3) (fn_normals x) /\
  Forall (Forall (fun v => length v = 3%nat /\ Forall (fun i => it_in u32 i = true) v)) (fn_faces x).

Lemma face_verts_read : forall fs rest,
  Forall (Forall (fun v => length v = 3%nat /\ Forall (fun i => it_in u32 i = true) v)) fs ->
  get_face_verts (map (fun f => Z.of_nat (length f)) fs)
    (put_list (put_list (put_list (put_z u32))) fs ++ rest) = Some (fs, rest).
Proof.
  induction fs as [|f fs IH]; intros rest F; [reflexivity|]. inversion F; subst.
  cbn [map get_face_verts put_list]. rewrite Nat2Z.id, <- app_assoc.
  rewrite (list_ok _ (fun v => length v = 3%nat /\ Forall (fun i => it_in u32 i = true) v) (put_list (put_z u32))
             (get_list (get_field u32) 3) (length f)).
  - rewrite IH by assumption. reflexivity.
  - apply list_ok, z_ok. in_ity.
  - split; [reflexivity|assumption].
Qed.

Lemma facenormals_read : forall x rest, normals_ok x ->
  get_facenormals (map (fun f => Z.of_nat (length f)) (fn_faces x)) (put_facenormals x ++ rest) = Some (x, rest).
Proof.
  intros [ns fs] rest (L & F1 & F2). cbn [fn_normals fn_faces] in *.
  unfold get_facenormals, put_facenormals. cbn [fn_normals fn_faces].
  assert (I : it_in u32 (Z.of_nat (length ns)) = true) by (unfold it_in, it_lo, it_hi; cbn; lia).
  rewrite (wrap_id u32) by (in_ity || assumption).
  rewrite <- !app_assoc, z_ok by (in_ity || assumption). rewrite Nat2Z.id.
  rewrite (list_ok _ (floats_wf 3) put_floats (get_list (get_field f32) 3) (length ns) (floats_ok 3)) by (split; [reflexivity|assumption]).
  rewrite face_verts_read by assumption. reflexivity.
Qed.

Definition declm_wf (x : declm) : bool :=
  it_in u16 (lm_w x) && it_in u16 (lm_h x) && it_in i32 (lm_ofs x) && all_in f32 (lm_mat x) && Nat.eqb (length (lm_mat x)) 8.
Lemma declm_good : rc_good declm_codec declm_wf.
Proof.
  intros [w h o m] H. unfold declm_wf in H. cbn [lm_w lm_h lm_ofs lm_mat] in H. unand H.
  unfold declm_codec. cbn [rc_write rc_types rc_build lm_w lm_h lm_ofs lm_mat map fst snd].
  match goal with X : Nat.eqb _ _ = true |- _ => apply Nat.eqb_eq in X; rename X into L end.
  split; [|split].
  - repeat (constructor; [split; [cbn [fst]; in_ity|assumption]|]). apply all_in_tv; [in_ity|assumption].
  - rewrite map_fst_const, L. reflexivity.
  - rewrite map_snd_const. reflexivity.
Qed.
Lemma declm_read : forall l n x, Forall (fun x => declm_wf x = true) l -> nth_error l n = Some x ->
  read_declm (put_declm l) n = Some x.
Proof.
  unfold put_declm, read_declm. induction l as [|a l IH]; intros n x F E; [destruct n; discriminate|].
  inversion F as [|? ? W F']; subst. cbn [put_list].
  pose proof (rc_good_size _ _ _ a declm_good W) as SZ. change (rc_size declm_codec) with SIZEOF_DECLM in SZ.
  destruct n as [|n]; cbn [nth_error] in E.
  - inversion E; subst. cbn [Nat.mul skipn].
    rewrite (rc_good_codec _ _ _ declm_good) by assumption. reflexivity.
  - cbn [Nat.mul]. rewrite Nat.add_comm, <- skipn_skipn. rewrite skipn_len_app by assumption. apply IH; assumption.
Qed.

(** ** The brush list of a map *)

Lemma map_res_ok : forall A B (f : A -> res B) l r, map_res f l = ROk r -> Forall2 (fun a b => f a = ROk b) l r.
Proof.
  induction l as [|a l IH]; intros r H; cbn [map_res] in H.
  - inversion H. constructor.
  - destruct (f a) as [b| |] eqn:Q; cbn [rbind] in H; try discriminate.
    destruct (map_res f l) as [t| |] eqn:Q'; cbn [rbind] in H; try discriminate.
    inversion H; subst. constructor; [assumption|]. apply IH. reflexivity.
Qed.
Lemma map_res_total : forall A B (f : A -> res B) l, Forall (fun a => exists b, f a = ROk b) l -> exists r, map_res f l = ROk r.
Proof.
  induction l as [|a l IH]; intros F; cbn [map_res]; [exists []; reflexivity|].
  inversion F as [|? ? [b E] F']; subst. rewrite E. cbn [rbind]. destruct (IH F') as [r R]. rewrite R. eexists; reflexivity.
Qed.

Definition engine_contents : list Z := [-1; -2; -3; -4; -5; -6; -8].
Lemma xcontents_range : forall g c z, xcontents g c = ROk z -> In z engine_contents.
Proof.
  intros g c z H. unfold xcontents in H. destruct (to_native g c) as [n| |]; cbn [rbind] in H; try discriminate.
  assert (E0 : (if is_clip g c then -8 else if existsb (Z.eqb n) [-1; -2; -3; -4; -5; -6] then n else -2) = z) by congruence.
  clear H. revert E0. unfold engine_contents. destruct (is_clip g c); intros H; [subst z; cbn [In]; auto 9|]. revert H.
  destruct (existsb (Z.eqb n) [-1; -2; -3; -4; -5; -6]) eqn:Q; intros H.
  - apply existsb_exists in Q. destruct Q as (x & I & E). apply Z.eqb_eq in E. subst x z. cbn [In] in I |- *. repeat (destruct I as [I|I]; [rewrite I; auto 9|]). contradiction.
  - subst z. cbn [In]. auto.
Qed.

(** Quake: the flags Brush_GetContents can add do not touch bits 0..10. *)
Lemma low_bits : forall e fs k, (k <= 10)%N -> Forall (fun f => face_game f = Q1) fs ->
  N.testbit (brush_contents Q1 e fs) k = N.testbit (brush_base Q1 fs) k.
Proof.
  intros e fs k K F. unfold brush_contents. set (c := brush_base Q1 fs). clearbody c.
  assert (A : forall m, In m [14; 15; 16; 17; 13]%N -> N.testbit (2 ^ m) k = false).
  { intros m M. rewrite N.pow2_bits_eqb. apply N.eqb_neq. cbn in M. lia. }
  assert (SM : forall c v, N.testbit (set_mirrored c v) k = N.testbit c k).
  { intros x v. unfold set_mirrored, MIRROR_INSIDE_SET, MIRROR_INSIDE.
    change 65536%N with (2 ^ 16)%N. change 32768%N with (2 ^ 15)%N.
    destruct v as [[|]|]; rewrite ?N.ldiff_spec, ?N.lor_spec, !A by (cbn; tauto);
      rewrite ?orb_false_r, ?andb_true_r; reflexivity. }
  assert (SC : forall c v, N.testbit (set_clips_same_type c v) k = N.testbit c k).
  { intros x v. unfold set_clips_same_type, SUPPRESS_CLIPPING. change 131072%N with (2 ^ 17)%N.
    destruct v as [[|]|]; rewrite ?N.lor_spec, ?A by (cbn; tauto); rewrite ?orb_false_r; reflexivity. }
  assert (V : forall c (b : bool), N.testbit (if b then N.lor c VISBLOCKER else c) k = N.testbit c k).
  { intros x b. unfold VISBLOCKER. change 8192%N with (2 ^ 13)%N.
    destruct b; rewrite ?N.lor_spec, ?A by (cbn; tauto); rewrite ?orb_false_r; reflexivity. }
  assert (D : forall c, N.testbit (set_detail c) k = N.testbit c k).
  { intros x. unfold set_detail, DETAIL. change 16384%N with (2 ^ 14)%N.
    rewrite ?N.lor_spec, ?A by (cbn; tauto); rewrite ?orb_false_r; reflexivity. }
  cbv zeta. match goal with |- context [if ?b then set_detail _ else _] => destruct b end;
    rewrite ?D, V; destruct (e_noclipfaces e); rewrite SC, SM; reflexivity.
Qed.

Definition q1_engine (t : option texclass) : Z :=
  match t with
  | Some TSky => -6 | Some TLava => -5 | Some TSlime => -4 | Some TWater => -3 | Some TOther => -2
  | Some TClip => -8
  | Some TOrigin | Some THint | None => -1
  end.
Definition is_hint (t : texclass) : bool := match t with THint => true | _ => false end.

Lemma q1_base : forall ts, brush_base Q1 (map FQ1 ts) =
  match find (fun t => negb (is_hint t)) ts with Some t => q1_face_contents t | None => 0%N end.
Proof.
  intros ts. unfold brush_base. induction ts as [|t ts IH]; [reflexivity|].
  cbn [map find face_contents]. destruct t; cbn [is_hint negb]; try reflexivity. exact IH.
Qed.

Lemma q1_xcontents : forall e ts,
  xcontents Q1 (brush_contents Q1 e (map FQ1 ts)) = ROk (q1_engine (find (fun t => negb (is_hint t)) ts)).
Proof.
  intros e ts.
  assert (F : Forall (fun f => face_game f = Q1) (map FQ1 ts)) by (induction ts; constructor; auto).
  pose proof (low_bits e (map FQ1 ts)) as LB. set (c := brush_contents Q1 e (map FQ1 ts)) in *. clearbody c.
  assert (B : forall k, (k <= 10)%N -> N.testbit c k = N.testbit (brush_base Q1 (map FQ1 ts)) k) by (intros; apply LB; assumption).
  clear LB. rewrite q1_base in B.
  assert (E : xcontents Q1 c =
    xcontents Q1 match find (fun t => negb (is_hint t)) ts with Some t => q1_face_contents t | None => 0%N end).
  { unfold xcontents, to_native, q1_to_native, is_clip.
    rewrite !tst_SOLID, !tst_SKY, !tst_WALL, !tst_WINDOW, !tst_AUX, !tst_LAVA, !tst_SLIME, !tst_WATER, !tst_MIST, !tst_PLAYERCLIP.
    rewrite !B by lia. reflexivity. }
  rewrite E. clear E B. destruct (find (fun t => negb (is_hint t)) ts) as [[]|]; reflexivity.
Qed.

(** Quake II: a native value in -6..-1 has bit 16 set, so its brush is clip. *)
Lemma q2_xcontents : forall c, q2_to_native c <> RThrow ->
  xcontents Q2 c = ROk (if is_clip Q2 c then -8 else -2).
Proof.
  intros c H. unfold xcontents, to_native. destruct (q2_to_native c) as [n| |] eqn:Q; cbn [rbind].
  - destruct (is_clip Q2 c) eqn:K; [reflexivity|].
    destruct (existsb (Z.eqb n) [-1; -2; -3; -4; -5; -6]) eqn:X; [|reflexivity]. exfalso.
    apply existsb_exists in X. destruct X as (x & I & E). apply Z.eqb_eq in E. subst x.
    assert (Bt : N.testbit (u32_of n) 16 = true).
    { cbn [In] in I. repeat (destruct I as [I|I]; [rewrite <- I; reflexivity|]). contradiction. }
    unfold q2_to_native in Q. destruct (tst c SKY); [discriminate|]. destruct (tst c DETAIL_WALL); [discriminate|].
    destruct (tst c VISBLOCKER); [discriminate|]. injection Q as Q. rewrite <- Q in Bt.
    rewrite u32_i32 in Bt by apply to_lt. rewrite map_bits_spec in Bt.
    unfold is_clip in K. rewrite tst_lor, tst_PLAYERCLIP in K. apply orb_false_iff in K. destruct K as [K _].
    unfold q2_to_table in Bt. cbn [existsb fst snd] in Bt. rewrite K in Bt.
    cbn in Bt. rewrite ?andb_false_r in Bt. discriminate Bt.
  - contradiction.
  - unfold q2_to_native in Q. destruct (tst c SKY); [discriminate|]. destruct (tst c DETAIL_WALL); [discriminate|].
    destruct (tst c VISBLOCKER); discriminate.
Qed.

Lemma q2_face_no_wall : forall f, face_game f = Q2 -> N.testbit (face_contents f) 2 = false.
Proof.
  intros [t|hs tr n] G; [discriminate G|]. cbn [face_contents]. unfold q2_face_contents.
  destruct hs; [reflexivity|]. cbv zeta.
  assert (B : N.testbit (q2_from_native n) 2 = false) by (apply from_bit_absent; reflexivity).
  set (c := q2_from_native n) in *. clearbody c.
  repeat match goal with
  | |- N.testbit (if ?b then _ else _) 2 = false => destruct b
  | |- N.testbit (N.lor _ _) 2 = false => rewrite N.lor_spec; apply orb_false_iff; split
  | |- N.testbit (N.ldiff _ _) 2 = false => rewrite N.ldiff_spec; apply andb_false_iff; left
  | |- _ => first [assumption | reflexivity]
  end.
Qed.

Lemma q2_brush_no_wall : forall e fs, Forall (fun f => face_game f = Q2) fs ->
  N.testbit (brush_contents Q2 e fs) 2 = false.
Proof.
  intros e fs F. unfold brush_contents. cbv zeta.
  assert (K : N.testbit (brush_base Q2 fs) 2 = false).
  { unfold brush_base. destruct (find _ _) as [c|] eqn:E; [|apply N.bits_0].
    apply find_some in E. destruct E as [J _]. apply in_map_iff in J. destruct J as (f & <- & J).
    rewrite Forall_forall in F. apply q2_face_no_wall, F, J. }
  set (c := brush_base Q2 fs) in *. clearbody c. unfold set_mirrored, set_clips_same_type.
  repeat match goal with
  | |- context [match e_noclipfaces e with _ => _ end] => destruct (e_noclipfaces e) as [[|]|]; cbn [negb]
  | |- context [match e_mirror e with _ => _ end] => destruct (e_mirror e) as [[|]|]
  | |- N.testbit (if ?b then _ else _) 2 = false => destruct b
  | |- N.testbit (N.lor _ _) 2 = false => rewrite N.lor_spec; apply orb_false_iff; split
  | |- N.testbit (N.ldiff _ _) 2 = false => rewrite N.ldiff_spec; apply andb_false_iff; left
  | |- _ => first [assumption | reflexivity]
  end.
Qed.

Lemma q2_brush_xcontents : forall e fs, Forall (fun f => face_game f = Q2) fs -> e_visblocker e = false ->
  xcontents Q2 (brush_contents Q2 e fs) = ROk (if is_clip Q2 (brush_contents Q2 e fs) then -8 else -2).
Proof.
  intros e fs F V. apply q2_xcontents.
  pose proof (q2_brush_no_wall e fs F) as W. pose proof (brush_fine Q2 e fs F (or_intror V)) as FI.
  set (c := brush_contents Q2 e fs) in *. clearbody c. cbn [fine] in FI. unfold q2_fine in FI.
  apply andb_true_iff in FI. destruct FI as [S VB]. rewrite negb_true_iff in S, VB.
  unfold q2_to_native. rewrite tst_SKY, tst_WALL, tst_VISBLOCKER, S, W, VB. discriminate.
Qed.

(** What one model holds: the bounds, engine contents and non-axial planes of the brushes. *)
Definition holds (g : game) (bs : list mbrush) (m : xmodel) : Prop :=
  xm_ver m = 1 /\
  Forall2 (fun b x => xb_bounds x = mb_bounds b /\ xcontents g (mb_contents b) = ROk (xb_contents x) /\
                      xb_faces x = map snd (filter (fun p => negb (fst p)) (mb_planes b))) bs (xm_brushes m).

Lemma add_model_holds : forall g num bs m, add_model g num bs = ROk m -> xm_num m = num /\ holds g bs m.
Proof.
  intros g num bs m H. unfold add_model in H. destruct (map_res (add_brush g) bs) as [r| |] eqn:Q; cbn [rbind] in H; try discriminate.
  injection H as <-. cbn [xm_num]. split; [reflexivity|]. split; [reflexivity|]. cbn [xm_brushes].
  apply map_res_ok in Q. induction Q as [|b x l l' H Q IH]; constructor; [|exact IH]. unfold add_brush in H.
  destruct (xcontents g (mb_contents b)) as [c| |]; cbn [rbind] in H; try discriminate. injection H as <-. auto.
Qed.

(** The entities that get a model: their model number and brushes. *)
Definition sources (ents : list ent) (i : nat) (l : list ent) : list (Z * list mbrush) :=
  let fix go i l :=
    match l with
    | [] => []
    | e :: t =>
      match en_worldbrush e, model_num i e with
      | false, ROk (Some num) => match ent_brushes ents num e with [] => go (S i) t | bs => (num, bs) :: go (S i) t end
      | _, _ => go (S i) t
      end
    end in go i l.

Lemma brush_list_sources : forall g ents l i ms, brush_list g ents i l = ROk ms ->
  Forall2 (fun s m => xm_num m = fst s /\ holds g (snd s) m) (sources ents i l) ms.
Proof.
  induction l as [|e l IH]; intros i ms H; cbn [brush_list] in H.
  - injection H as <-. constructor.
  - unfold sources. cbn [sources]. fold (sources ents (S i) l).
    destruct (en_worldbrush e); [apply IH; assumption|].
    destruct (model_num i e) as [[num|]| |]; cbn [rbind] in H; try discriminate; [|apply IH; assumption].
    destruct (ent_brushes ents num e) as [|b bs] eqn:Q; [apply IH; assumption|].
    destruct (add_model g num (b :: bs)) as [m| |] eqn:A; cbn [rbind] in H; try discriminate.
    destruct (brush_list g ents (S i) l) as [r| |] eqn:R; cbn [rbind] in H; try discriminate.
    injection H as <-. constructor; [|apply IH; assumption]. apply add_model_holds. assumption.
Qed.
Lemma sources_in : forall ents l i num bs, In (num, bs) (sources ents i l) <->
  exists j e, nth_error l j = Some e /\ en_worldbrush e = false /\ model_num (i + j) e = ROk (Some num) /\
    bs = ent_brushes ents num e /\ bs <> [].
Proof.
  induction l as [|e l IH]; intros i num bs.
  - cbn. split; [tauto|]. intros (j & e & N' & _). destruct j; discriminate.
  - assert (T : (exists j e', nth_error (e :: l) j = Some e' /\ en_worldbrush e' = false /\ model_num (i + j) e' = ROk (Some num) /\
                 bs = ent_brushes ents num e' /\ bs <> []) <->
                (en_worldbrush e = false /\ model_num i e = ROk (Some num) /\ bs = ent_brushes ents num e /\ bs <> []) \/
                In (num, bs) (sources ents (S i) l)).
    { rewrite IH. split.
      - intros ([|j] & e' & E & R).
        + injection E as <-. rewrite Nat.add_0_r in R. left. exact R.
        + right. exists j, e'. replace (S i + j)%nat with (i + S j)%nat by lia. auto.
      - intros [R|(j & e' & E & R)].
        + exists 0%nat, e. rewrite Nat.add_0_r. split; [reflexivity|exact R].
        + exists (S j), e'. replace (i + S j)%nat with (S i + j)%nat by lia. auto. }
    rewrite T. clear T IH. unfold sources at 1. cbn [sources]. fold (sources ents (S i) l).
    destruct (en_worldbrush e); [split; [auto|intros [(A & _)|A]; [discriminate A|exact A]]|].
    destruct (model_num i e) as [[n|]| |] eqn:M;
      try (split; [auto|intros [(_ & A & _)|A]; [discriminate A|exact A]]).
    destruct (ent_brushes ents n e) as [|b t] eqn:Q.
    + split; [auto|]. intros [(_ & A & B & C)|A]; [|exact A]. injection A as ->. congruence.
    + cbn [In]. split; (intros [A|A]; [left|right; exact A]).
      * injection A as <- <-. rewrite Q. repeat split. discriminate.
      * destruct A as (_ & A & B & C). injection A as ->. congruence.
Qed.

Lemma brush_list_total : forall g ents l i,
  (forall e, In e l -> exists k, en_model e = ROk k) ->
  (forall e b, In e ents -> In b (en_brushes e) -> exists c, xcontents g (mb_contents b) = ROk c) ->
  incl l ents ->
  exists ms, brush_list g ents i l = ROk ms.
Proof.
  intros g ents l. induction l as [|e l IH]; intros i K C I; cbn [brush_list]; [eexists; reflexivity|].
  assert (IH' : forall i, exists ms, brush_list g ents i l = ROk ms).
  { intros j. apply IH; [intros; apply K; right; assumption|assumption|intros x X; apply I; right; exact X]. }
  destruct (en_worldbrush e); [apply IH'|].
  assert (M : exists k, model_num i e = ROk k).
  { destruct i; [exists (Some 0); reflexivity|]. apply K. left; reflexivity. }
  destruct M as [k M]. rewrite M. cbn [rbind]. destruct k as [num|]; [|apply IH'].
  destruct (ent_brushes ents num e) as [|b bs] eqn:Q; [apply IH'|].
  assert (A : exists m, add_model g num (b :: bs) = ROk m).
  { unfold add_model. destruct (map_res_total _ _ (add_brush g) (b :: bs)) as [r R].
    - rewrite <- Q. apply Forall_forall. intros x X. unfold ent_brushes in X. apply in_app_or in X.
      assert (exists c, xcontents g (mb_contents x) = ROk c) as [c E].
      { destruct X as [X|X]; [apply (C e x); [apply I; left; reflexivity|exact X]|].
        destruct (num =? 0); [|contradiction]. apply in_flat_map in X. destruct X as (e' & X1 & X2).
        destruct (en_worldbrush e' && negb (en_illusionary e')); [|contradiction].
        apply (C e' x); [|exact X2]. destruct ents; [contradiction|right; exact X1]. }
      unfold add_brush. rewrite E. eexists. reflexivity.
    - rewrite R. eexists. reflexivity. }
  destruct A as [m A]. rewrite A. cbn [rbind]. destruct (IH' (S i)) as [r R]. rewrite R. eexists. reflexivity.
Qed.

(** ** Truncated lumps *)

(** A reader that succeeds ignores what follows. *)
Definition local_reader {A} (g : reader A) : Prop := forall l v r x, g l = Some (v, r) -> g (l ++ x) = Some (v, r ++ x).
Lemma get_le_local : forall n, local_reader (get_le n).
Proof.
  induction n as [|n IH]; intros l v r x H; cbn [get_le] in *; [congruence|].
  destruct l as [|b t]; [discriminate|]. cbn [app]. destruct (get_le n t) as [[w s]|] eqn:Q; [|discriminate].
  rewrite (IH _ _ _ x Q). congruence.
Qed.
Lemma get_field_local : forall t, local_reader (get_field t).
Proof.
  intros t l v r x H. unfold get_field in *. destruct (get_le (it_bytes t) l) as [[w s]|] eqn:Q; [|discriminate].
  rewrite (get_le_local _ _ _ _ x Q). congruence.
Qed.
Lemma get_list_local : forall A (g : reader A) n, local_reader g -> local_reader (get_list g n).
Proof.
  intros A g n G. induction n as [|n IH]; intros l v r x H; cbn [get_list] in *; [congruence|].
  destruct (g l) as [[a l1]|] eqn:Q; [|discriminate]. rewrite (G _ _ _ x Q).
  destruct (get_list g n l1) as [[t l2]|] eqn:Q2; [|discriminate]. rewrite (IH _ _ _ x Q2). congruence.
Qed.
Lemma get_xbrush_local : local_reader get_xbrush.
Proof.
  intros l v r x H. unfold get_xbrush in *.
  destruct (get_list (get_field f32) 6 l) as [[b l1]|] eqn:Q1; [|discriminate].
  rewrite (get_list_local _ _ _ (get_field_local f32) _ _ _ x Q1).
  destruct (get_field i16 l1) as [[c l2]|] eqn:Q2; [|discriminate]. rewrite (get_field_local _ _ _ _ x Q2).
  destruct (get_field u16 l2) as [[n l3]|] eqn:Q3; [|discriminate]. rewrite (get_field_local _ _ _ _ x Q3).
  destruct (get_list (get_list (get_field f32) 4) (Z.to_nat n) l3) as [[fs l4]|] eqn:Q4; [|discriminate].
  rewrite (get_list_local _ _ _ (get_list_local _ _ _ (get_field_local f32)) _ _ _ x Q4). congruence.
Qed.
Lemma get_le_long : forall n l, (n <= length l)%nat -> exists v r, get_le n l = Some (v, r).
Proof.
  induction n as [|n IH]; intros l L; cbn [get_le]; [eauto|]. destruct l as [|b t]; [cbn in L; lia|].
  destruct (IH t ltac:(cbn in L; lia)) as (v & r & E). rewrite E. eauto.
Qed.
Lemma get_le_short : forall n l, (length l < n)%nat -> get_le n l = None.
Proof.
  intros n l L. destruct (get_le n l) as [[v r]|] eqn:Q; [|reflexivity]. apply get_le_shrinks in Q. lia.
Qed.
Lemma get_i32_long : forall l, (4 <= length l)%nat -> exists v r, get_field i32 l = Some (v, r) /\ (length r + 4 = length l)%nat.
Proof.
  intros l L. unfold get_field. change (it_bytes i32) with 4%nat.
  destruct (get_le_long 4 l L) as (v & r & E). rewrite E. exists (if it_signed i32 then of_unsigned 4 v else Z.of_N v), r.
  split; [reflexivity|]. apply get_le_shrinks in E. exact E.
Qed.
Lemma get_i32_short : forall l, (length l < 4)%nat -> get_field i32 l = None.
Proof. intros l L. unfold get_field. rewrite get_le_short by exact L. reflexivity. Qed.

Lemma xmodels_prefix : forall ms fuel tail, Forall model_ok ms -> (length ms < fuel)%nat ->
  get_xmodels fuel (put_xmodels ms ++ tail) =
  rbind (get_xmodels (fuel - length ms) tail) (fun t => ROk (ms ++ t)).
Proof.
  unfold put_xmodels. induction ms as [|m ms IH]; intros fuel tail F L.
  - cbn [put_list app length]. rewrite Nat.sub_0_r. destruct (get_xmodels fuel tail); reflexivity.
  - destruct fuel as [|fuel]; [cbn in L; lia|]. inversion F; subst.
    cbn [put_list length Nat.sub]. rewrite <- app_assoc, xmodel_read by assumption.
    rewrite IH by (assumption || cbn in L; lia).
    destruct (get_xmodels (fuel - length ms) tail); reflexivity.
Qed.

Lemma truncated_ub : forall fuel tail, (0 < fuel)%nat -> (4 <= length tail < 12)%nat -> get_xmodels fuel tail = RUB.
Proof.
  intros [|fuel] tail F L; [lia|]. cbn [get_xmodels].
  destruct (get_i32_long tail ltac:(lia)) as (v & r & E & S). rewrite E. cbn [get_fields].
  destruct (Nat.lt_ge_cases (length r) 4) as [C|C].
  - rewrite get_i32_short by exact C. reflexivity.
  - destruct (get_i32_long r C) as (w & r2 & E2 & S2). rewrite E2. rewrite get_i32_short by lia. reflexivity.
Qed.

Lemma some_pair : forall A B (a c : A) (b d : B), Some (a, b) = Some (c, d) -> a = c /\ b = d.
Proof. intros A B a c b d H. injection H. auto. Qed.

Lemma truncated_ok : forall fuel m tail rest, (0 < fuel)%nat -> model_ok m -> put_xmodel m = tail ++ rest -> rest <> [] ->
  (length tail < 4 \/ 12 <= length tail)%nat -> get_xmodels fuel tail = ROk [].
Proof.
  intros [|fuel] m tail rest F M E R L; [lia|]. cbn [get_xmodels].
  destruct L as [L|L]; [rewrite get_i32_short by exact L; reflexivity|].
  destruct m as [ver num bs nf]. destruct M as (V & Mo & Lb & T & B & NF). cbn [xm_ver xm_num xm_brushes xm_numfaces] in *.
  unfold put_xmodel in E. cbn [xm_ver xm_num xm_brushes xm_numfaces] in E.
  pose proof (face_total_nonneg bs 0) as G. fold (face_total bs) in G.
  destruct (wrap_i32 (Z.of_nat (length bs)) ltac:(lia)) as [W1 W2].
  destruct (wrap_i32 (face_total bs) ltac:(lia)) as [W3 W4]. rewrite W1, W3 in E.
  assert (I : In i32 all_ity) by in_ity.
  destruct (get_i32_long tail ltac:(lia)) as (v1 & t1 & E1 & S1). rewrite E1.
  pose proof (get_field_local i32 _ _ _ rest E1) as Q1. rewrite <- E, z_ok in Q1 by assumption.
  apply some_pair in Q1. destruct Q1 as [Y1 X1]. clear E.
  cbn [get_fields]. destruct (get_i32_long t1 ltac:(lia)) as (v2 & t2 & E2 & S2). rewrite E2.
  pose proof (get_field_local i32 _ _ _ rest E2) as Q2. rewrite <- X1, z_ok in Q2 by assumption.
  apply some_pair in Q2. destruct Q2 as [Y2 X2].
  destruct (get_i32_long t2 ltac:(lia)) as (v3 & t3 & E3 & S3). rewrite E3.
  pose proof (get_field_local i32 _ _ _ rest E3) as Q3. rewrite <- X2, z_ok in Q3 by assumption.
  apply some_pair in Q3. destruct Q3 as [Y3 X3]. rewrite <- Y3. destruct (Z.of_nat (length bs) <? 0) eqn:Neg; [lia|].
  destruct (get_field i32 t3) as [[v4 t4]|] eqn:E4; [|reflexivity].
  pose proof (get_field_local i32 _ _ _ rest E4) as Q4. rewrite <- X3, z_ok in Q4 by assumption.
  apply some_pair in Q4. destruct Q4 as [Y4 X4]. rewrite Nat2Z.id.
  destruct (get_list get_xbrush (length bs) t4) as [[bs' t5]|] eqn:E5; [|reflexivity]. exfalso.
  pose proof (get_list_local _ _ _ get_xbrush_local _ _ _ rest E5) as Q5. rewrite <- X4 in Q5.
  rewrite <- (app_nil_r (put_list put_xbrush bs)) in Q5.
  rewrite (list_ok _ brush_small put_xbrush get_xbrush (length bs) xbrush_ok) in Q5 by (split; [reflexivity|assumption]).
  apply some_pair in Q5. destruct Q5 as [_ X5]. symmetry in X5. apply app_eq_nil in X5. apply R, X5.
Qed.
