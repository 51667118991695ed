(* C144: the entities that bsputil --decompile writes. *)
From Coq Require Import String Ascii List Arith NArith ZArith Bool Lia.
Import ListNotations.
From Verif Require Import Base NumCastModel ParserModel EntModel EntProofs SettingsModel MapMergeModel DecompEntModel DecompEntProofs.
Local Open Scope list_scope.

(** The classes that are not special. *)
Definition ordinary (d : entdict) : Prop := ed_has (mtext "classname") d = true /\ ed_get (mtext "classname") d <> mtext "func_areaportal" /\ ed_get (mtext "classname") d <> mtext "func_group".
Lemma ordinary_runs {V} (vec3 : bytes -> option (option V)) brushes d world : ordinary d ->
  decompile_entity vec3 brushes d world = rbind (key_loop vec3 false (mkK [] (if world then 0 else -1)%Z None) d) (fun st => ROk (DEnt (k_out st) (k_model st) (k_offset st) None)).
Proof.
  intros (H & A & G). unfold decompile_entity. rewrite H. cbn [negb].
  destruct (beq (ed_get (mtext "classname") d) (mtext "func_areaportal")) eqn:E1; [apply beq_eq in E1; contradiction|].
  destruct (beq (ed_get (mtext "classname") d) (mtext "func_group")) eqn:E2; [apply beq_eq in E2; contradiction|]. reflexivity.
Qed.

(** An entity without a brush model keeps all its keys in order; worldspawn has the brushes of model 0. *)
Theorem C144_keys V (vec3 : bytes -> option (option V)) brushes d world : ordinary d ->
  (forall k v, In (k, v) d -> ~ (k = mtext "model" /\ exists t, v = 42%N :: t)) ->
  decompile_entity vec3 brushes d world = ROk (DEnt d (if world then 0 else -1)%Z None None).
Proof.
  intros O M. rewrite (ordinary_runs vec3 brushes d world O). rewrite loop_plain; [|intros [k v] I|destruct world; cbn; lia].
  - cbn [rbind k_out k_model k_offset app andb negb]. rewrite filter_true. reflexivity.
  - unfold is_model. cbn [fst snd]. destruct (beq k (mtext "model")) eqn:E; [|reflexivity]. apply beq_eq in E. destruct v as [|c t]; [reflexivity|]. destruct (N.eqb_spec c 42) as [->|N]; [|reflexivity]. exfalso. apply (M k (42%N :: t) I). split; [exact E|exists t; reflexivity].
Qed.
Print Assumptions C144_keys.

Definition no_model (d : entdict) : Prop := forall k v, In (k, v) d -> k <> mtext "model".
Definition no_origin (d : entdict) : Prop := forall k v, In (k, v) d -> k <> mtext "origin".
Lemma no_model_is d : no_model d -> forall kv, In kv d -> is_model kv = None.
Proof. intros H [k v] I. unfold is_model. cbn [fst]. destruct (beq k (mtext "model")) eqn:E; [apply beq_eq in E; exfalso; exact (H k v I E)|reflexivity]. Qed.
Lemma no_origin_is d : no_origin d -> forall kv, In kv d -> is_origin kv = false.
Proof. intros H [k v] I. unfold is_origin. cbn [fst]. destruct (beq k (mtext "origin")) eqn:E; [apply beq_eq in E; exfalso; exact (H k v I E)|reflexivity]. Qed.

Lemma step_model {V} (vec3 : bytes -> option (option V)) portal st num : key_step vec3 portal st (mtext "model", 42%N :: num) = ROk (mkK (k_out st) (atoi num) (k_offset st)).
Proof. reflexivity. Qed.

(** A brush entity loses its model key, and an origin key after it becomes the offset of its brushes. *)
Theorem C144_brush V (vec3 : bytes -> option (option V)) brushes a num b : let d := a ++ (mtext "model", 42%N :: num) :: b in
  ordinary d -> no_model a -> no_model b -> (0 < atoi num)%Z ->
  (no_origin b -> decompile_entity vec3 brushes d false = ROk (DEnt (a ++ b) (atoi num) None None)) /\
  (forall b1 v b2 o, b = b1 ++ (mtext "origin", v) :: b2 -> no_origin b1 -> no_origin b2 -> vec3 v = Some o ->
     decompile_entity vec3 brushes d false = ROk (DEnt (a ++ b1 ++ b2) (atoi num) o None)).
Proof.
  intros d O MA MB N. rewrite (ordinary_runs vec3 brushes d false O). unfold d. rewrite loop_app. rewrite loop_plain; [|apply no_model_is; exact MA|cbn; lia]. cbn [rbind k_out k_model k_offset app andb negb]. rewrite filter_true.
  cbn [key_loop]. rewrite step_model. cbn [rbind k_out k_model k_offset]. split.
  - intros OB. rewrite loop_brush; [|apply no_model_is; exact MB|exact N|apply no_origin_is; exact OB]. reflexivity.
  - intros b1 v b2 o -> O1 O2 VV. assert (M1 : no_model b1) by (intros k x I; apply (MB k x); apply in_or_app; left; exact I). assert (M2 : no_model b2) by (intros k x I; apply (MB k x); apply in_or_app; right; right; exact I).
    rewrite loop_app. rewrite loop_brush; [|apply no_model_is; exact M1|exact N|apply no_origin_is; exact O1]. cbn [rbind k_out k_model k_offset key_loop]. unfold key_step. cbn [is_model fst snd].
    change (is_model (mtext "origin", v)) with (@None bytes). assert ((0 <? atoi num)%Z = true) as E by (apply Z.ltb_lt; exact N). cbn [k_model k_out k_offset andb]. rewrite E. change (beq (mtext "origin") (mtext "origin")) with true. cbn [andb]. rewrite VV.
    destruct o as [o|]; cbn [rbind]; (rewrite loop_brush; [|apply no_model_is; exact M2|exact N|apply no_origin_is; exact O2]); cbn [rbind k_out k_model k_offset]; rewrite <- app_assoc; reflexivity.
Qed.
Print Assumptions C144_brush.

(** An origin before the model is written as a key, and the brushes are not moved. *)
Theorem C144_origin_refuted V (vec3 : bytes -> option (option V)) brushes a1 v a2 num b : let d := (a1 ++ (mtext "origin", v) :: a2) ++ (mtext "model", 42%N :: num) :: b in
  ordinary d -> no_model (a1 ++ (mtext "origin", v) :: a2) -> no_model b -> no_origin b -> (0 < atoi num)%Z ->
  decompile_entity vec3 brushes d false = ROk (DEnt ((a1 ++ (mtext "origin", v) :: a2) ++ b) (atoi num) None None).
Proof. intros d O MA MB OB N. apply (C144_brush V vec3 brushes _ num b O MA MB N). exact OB. Qed.
Print Assumptions C144_origin_refuted.

(** Without a classname the program reads past the end of the keys; a func_group is dropped; a model number that is not a number
    is model 0, whose brushes are written again. *)
Theorem C144_class_refuted V (vec3 : bytes -> option (option V)) brushes d world :
  (ed_has (mtext "classname") d = false -> decompile_entity vec3 brushes d world = RUB) /\
  (ed_has (mtext "classname") d = true -> ed_get (mtext "classname") d = mtext "func_group" -> decompile_entity vec3 brushes d world = ROk DNone) /\
  (forall a b num, d = a ++ (mtext "model", 42%N :: num) :: b -> ordinary d -> no_model a -> no_model b -> starts_digit (snd (sign (skip_space num))) = false ->
     decompile_entity vec3 brushes d false = ROk (DEnt (a ++ b) 0 None None)).
Proof.
  split; [|split].
  - intros H. unfold decompile_entity. rewrite H. reflexivity.
  - intros H E. unfold decompile_entity. rewrite H, E. reflexivity.
  - intros a b num -> O MA MB ND. rewrite (ordinary_runs vec3 brushes _ false O). rewrite loop_app. rewrite loop_plain; [|apply no_model_is; exact MA|cbn; lia]. cbn [rbind k_out k_model k_offset app andb negb]. rewrite filter_true.
    cbn [key_loop]. rewrite step_model. cbn [rbind k_out k_model k_offset].
    assert (Z0 : atoi num = 0%Z) by (unfold atoi; destruct (sign (skip_space num)) as [ng r]; cbn [snd] in ND; rewrite ND; reflexivity). rewrite Z0.
    rewrite loop_plain; [|apply no_model_is; exact MB|cbn; lia]. cbn [rbind k_out k_model k_offset andb negb]. rewrite filter_true. reflexivity.
Qed.
Print Assumptions C144_class_refuted.

(** Area portals: the style key gives the number, from 1, of a brush among those with area portal contents; it is removed if there is
    such a brush. If each area portal has one brush, each gets its own. *)
Theorem C144_portals V (vec3 : bytes -> option (option V)) brushes d s : ed_has (mtext "classname") d = true -> ed_get (mtext "classname") d = mtext "func_areaportal" ->
  ed_has (mtext "style") d = true -> no_model d -> stoull (ed_get (mtext "style") d) = Some s -> (Z.of_nat (length brushes) < 2 ^ 64)%Z -> (0 <= s < 2 ^ 64)%Z ->
  let nth := nth_error (map fst (filter (fun q => areaportal (snd q)) (combine (seq 0 (length brushes)) brushes))) (Z.to_nat (s - 1)) in
  decompile_entity vec3 brushes d false = ROk
    match (if (s =? 0)%Z then None else nth) with
    | None => DEnt d (-1) None None
    | Some i => DEnt (filter (fun kv => negb (beq (fst kv) (mtext "style"))) d) (-1) None (Some i)
    end.
Proof.
  intros H E HS M ST L R nth. unfold decompile_entity. rewrite H, E. cbn [negb]. change (beq (mtext "func_areaportal") (mtext "func_areaportal")) with true. cbv iota. rewrite HS, ST. cbn [rbind].
  assert (P : portal_brush s 0 brushes = if (s =? 0)%Z then None else nth).
  { destruct (Z.eqb_spec s 0) as [->|N]; [apply portal_zero; exact L|]. unfold nth. fold (portals 0 brushes). apply portal_nth. lia. }
  rewrite P. rewrite loop_plain; [|apply no_model_is; exact M|cbn; lia]. destruct (if (s =? 0)%Z then None else nth) as [i|]; cbn [rbind k_out k_model k_offset app andb negb]; [reflexivity|rewrite filter_true; reflexivity].
Qed.
Print Assumptions C144_portals.

(** With the brushes of the area portals in the order of the entities, number k gets its first brush if every portal before it has one
    brush; if one has more, it gets a brush of a portal before it. *)
Theorem C144_groups_refuted groups k : (forall g c, In g groups -> In c g -> areaportal c = true) -> (forall g, In g groups -> g <> []) ->
  (k < length groups)%nat -> (Z.of_nat k + 1 < 2 ^ 64)%Z ->
  portal_brush (Z.of_nat k + 1) 0 (concat groups) = Some k /\
  ((forall g, In g (firstn k groups) -> length g = 1%nat) -> k = length (concat (firstn k groups))) /\
  ((exists g, In g (firstn k groups) /\ (2 <= length g)%nat) -> (k < length (concat (firstn k groups)))%nat).
Proof.
  intros A NE K L. assert (SUB : forall g, In g (firstn k groups) -> In g groups) by (intros g G; rewrite <- (firstn_skipn k groups); apply in_or_app; left; exact G). split; [|split].
  - rewrite portal_nth by lia. rewrite portals_all by (intros c C; apply in_concat in C; destruct C as (g & G & C); exact (A g c G C)).
    pose proof (groups_long groups NE) as GL. replace (Z.to_nat (Z.of_nat k + 1 - 1)) with k by lia.
    assert (N : forall n i k, (k < n)%nat -> nth_error (seq i n) k = Some (i + k)%nat). { induction n as [|n IH]; intros i q Q; [lia|]. destruct q as [|q]; cbn [seq nth_error]; [f_equal; lia|rewrite IH by lia; f_equal; lia]. }
    rewrite N by lia. reflexivity.
  - intros ONE. rewrite groups_one by exact ONE. rewrite firstn_length. lia.
  - intros MORE. pose proof (groups_longer (firstn k groups) (fun g G => NE g (SUB g G)) MORE) as H. rewrite firstn_length in H. lia.
Qed.
Print Assumptions C144_groups_refuted.

(** The brushes of a Quake 2 model are those of its leafs without area portals, each once; a bad number is read out of bounds. *)
Theorem C144_brushes brushes leafs :
  ((forall l i, In l leafs -> In i l -> (i < length brushes)%nat) -> exists r, model_brushes brushes leafs = ROk r /\ NoDup r /\
     forall i, In i r <-> (exists l, In l leafs /\ In i l) /\ ~ (exists c, nth_error brushes i = Some c /\ Z.land c 32768 <> 0%Z)) /\
  ((exists l i, In l leafs /\ In i l /\ (length brushes <= i)%nat) -> model_brushes brushes leafs = RUB).
Proof.
  split.
  - intros H. destruct (visit_ok brushes (concat leafs) []) as (r & R1 & R2 & R3); [intros i I; apply in_concat in I; destruct I as (l & L & I); exact (H l i L I)|constructor|]. exists r. split; [exact R1|]. split; [exact R2|].
    intros i. rewrite R3. cbn [In]. rewrite in_concat.
    assert (P : is_portal brushes i <-> exists c, nth_error brushes i = Some c /\ Z.land c 32768 <> 0%Z).
    { unfold is_portal, areaportal. split; intros (c & E & C); exists c; (split; [exact E|]); [apply negb_true_iff, Z.eqb_neq in C; exact C|apply negb_true_iff, Z.eqb_neq; exact C]. }
    rewrite P. split; [intros [[]|[I N]]; split; [exact I|exact N]|intros [I N]; right; split; [exact I|exact N]].
  - intros (l & i & L & I & B). apply visit_bad. exists i. split; [apply in_concat; exists l; auto|exact B].
Qed.
Print Assumptions C144_brushes.

(** Textures: a side with a face, or from a brush side, gets that name and in Quake 2 the flags and value of that texinfo; a side without
    either gets the skip texture. *)
Theorem C144_textures q2 c name ti : c <> 0%Z -> (q2 = false \/ Z.land c 196608 = 0%Z) -> name <> [] ->
  (forall source, side_texture q2 c (Some (name, ti)) source = mkST name (match ti with Some (f, _) => if q2 then f else 0 | None => 0 end)%Z (match ti with Some (_, v) => if q2 then v else 0 | None => 0 end)%Z) /\
  (forall f v, side_texture q2 c None (Some (Some (name, f, v))) = mkST name (if q2 then f else 0)%Z (if q2 then v else 0)%Z) /\
  side_texture q2 c None None = mkST (mtext (if q2 then "e1u1/skip" else "skip")) (if q2 then 128 else 0)%Z 0.
Proof.
  intros C CL N. assert (OV : forall nm s, override q2 c nm s = mkST nm (st_flags s) (st_value s)).
  { intros nm s. unfold override, has. change (65536 + 131072)%Z with 196608%Z. destruct CL as [->| ->]; [reflexivity|]. cbn [Z.eqb negb]. rewrite andb_false_r. reflexivity. }
  unfold side_texture. apply Z.eqb_neq in C. rewrite C. destruct name as [|x name]; [contradiction|]. rewrite OV. cbn [st_name st_flags st_value]. split; [|split].
  - intros source. destruct ti as [[f v]|]; destruct q2; reflexivity.
  - intros f v. destruct q2; reflexivity.
  - destruct q2; reflexivity.
Qed.
Print Assumptions C144_textures.

(** The textures of contents: in Quake 2 the first of water, slime, lava, player clip, monster clip and area portal that is set. *)
Definition q2_names : list (Z * string) := [(5, "e1u1/water4"); (4, "e1u1/sewer1"); (3, "e1u1/brlava"); (16, "e1u1/clip"); (17, "e1u1/clip_mon"); (15, "e1u1/trigger")]%Z%string.
Definition q1_names : list (Z * string) := [(-3, "*waterskip"); (-4, "*slimeskip"); (-5, "*lavaskip"); (-6, "skyskip")]%Z%string.
Theorem C144_contents_names c :
  contents_name true c = mtext (match find (fun q => Z.testbit c (fst q)) q2_names with Some q => snd q | None => "e1u1/skip"%string end) /\
  contents_name false c = mtext (match find (fun q => Z.eqb c (fst q)) q1_names with Some q => snd q | None => "skip"%string end).
Proof.
  assert (B : forall n, (0 <= n)%Z -> has c (2 ^ n) = Z.testbit c n).
  { intros n N. unfold has. destruct (Z.testbit c n) eqn:T.
    - apply negb_true_iff, Z.eqb_neq. intro X. assert (Y : Z.testbit (Z.land c (2 ^ n)) n = true) by (rewrite Z.land_spec, T, Z.pow2_bits_true by exact N; reflexivity). rewrite X, Z.bits_0 in Y. discriminate Y.
    - apply negb_false_iff, Z.eqb_eq. apply Z.bits_inj'. intros m M. rewrite Z.land_spec, Z.bits_0. destruct (Z.eq_dec m n) as [-> |NE]; [rewrite T; reflexivity|rewrite Z.pow2_bits_false by (intro; apply NE; symmetry; assumption); apply andb_false_r]. }
  split.
  - unfold contents_name, q2_names. cbn [find fst snd]. change 32%Z with (2 ^ 5)%Z. change 16%Z with (2 ^ 4)%Z at 1. change 8%Z with (2 ^ 3)%Z. change 65536%Z with (2 ^ 16)%Z. change 131072%Z with (2 ^ 17)%Z. change 32768%Z with (2 ^ 15)%Z.
    rewrite !B by lia. repeat match goal with |- context [Z.testbit ?a ?b] => destruct (Z.testbit a b) end; reflexivity.
  - unfold contents_name, q1_names. cbn [find fst snd]. repeat match goal with |- context [Z.eqb ?a ?b] => destruct (Z.eqb a b) end; reflexivity.
Qed.
Print Assumptions C144_contents_names.
(** Sides of empty leafs are hints, and bad numbers are reported. *)
Theorem C144_empty q2 face source : side_texture q2 0 face source = mkST (mtext "e1u1/hint") (if q2 then 256 else 0)%Z 0.
Proof. reflexivity. Qed.
Print Assumptions C144_empty.
Theorem C144_throws V (vec3 : bytes -> option (option V)) brushes d world : ed_has (mtext "classname") d = true ->
  (ed_get (mtext "classname") d = mtext "func_areaportal" -> ed_has (mtext "style") d = true -> stoull (ed_get (mtext "style") d) = None -> decompile_entity vec3 brushes d world = RThrow) /\
  (forall portal st v, vec3 v = None -> (0 < k_model st)%Z -> key_step vec3 portal st (mtext "origin", v) = RThrow).
Proof.
  intro H. split.
  - intros C S T. unfold decompile_entity. rewrite H, C. cbn [negb]. change (beq (mtext "func_areaportal") (mtext "func_areaportal")) with true. cbv iota. rewrite S, T. reflexivity.
  - intros portal st v N M. unfold key_step, is_model. cbn [fst snd]. change (beq (mtext "origin") (mtext "model")) with false. change (beq (mtext "origin") (mtext "style")) with false. change (beq (mtext "origin") (mtext "origin")) with true.
    rewrite andb_false_r, (proj2 (Z.ltb_lt _ _) M). cbn [andb]. rewrite N. reflexivity.
Qed.
Print Assumptions C144_throws.

(** Sides of clip brushes get the clip texture, but the nodraw flag that goes with it is overwritten with the flags of the texinfo. *)
Theorem C144_clip_refuted c x name f v source : c <> 0%Z -> Z.land c 196608 <> 0%Z ->
  side_texture true c (Some (x :: name, Some (f, v))) source = mkST (mtext (if (Z.land c 65536 =? 0)%Z then "e1u1/clip_mon" else "e1u1/clip")) f v.
Proof.
  intros C CL. unfold side_texture. apply Z.eqb_neq in C. rewrite C. unfold override, has. change (65536 + 131072)%Z with 196608%Z. apply Z.eqb_neq in CL. rewrite CL. cbn [andb negb st_name].
  destruct (Z.land c 65536 =? 0)%Z; reflexivity.
Qed.
Print Assumptions C144_clip_refuted.

(** A door with its origin before or after the model; area portals with two brushes and one. *)
Example C144_nontrivial :
  let vec3 := fun v : bytes => Some (match v with [] => None | _ => Some v end) in
  let door := (mtext "classname", mtext "func_rotating") in
  let model := (mtext "model", mtext "*3") in
  let org := (mtext "origin", mtext "64 0 0") in
  decompile_entity vec3 [] [door; model; org] false = ROk (DEnt [door] 3 (Some (mtext "64 0 0")) None) /\
  decompile_entity vec3 [] [door; org; model] false = ROk (DEnt [door; org] 3 None None) /\
  decompile_entity vec3 [1; 32768; 32768; 32768]%Z [(mtext "classname", mtext "func_areaportal"); (mtext "style", mtext "2")] false =
    ROk (DEnt [(mtext "classname", mtext "func_areaportal")] (-1) None (Some 2%nat)) /\
  model_brushes [1; 32768; 1; 1]%Z [[0; 1; 3]; [3; 0]]%nat = ROk [0; 3]%nat.
Proof. vm_compute. auto. Qed.
