(* C45, C73, C74, C75: the contents of BSPX lumps. *)
From Coq Require Import List Arith NArith ZArith Bool Lia.
Import ListNotations.
From Verif Require Import Base Codec NumCastModel BspRecModel BspRecProofs ContentsModel BspxModel BspxProofs.
Local Open Scope Z_scope.

(** Serialising brush lists and parsing the bytes returns the same models, brushes and planes. *)
Theorem C45_round_trip : forall ms, Forall model_ok ms -> read_brushlist (put_xmodels ms) = ROk ms.
Proof. exact brushlist_round. Qed.
Print Assumptions C45_round_trip.

(** The bound on planes is sharp: the count is kept modulo 65536, the remaining planes are left in the
    stream and would be read as the next brush. *)
Theorem C45_planes_modulo : forall b rest, brush_ok b ->
  let n := Z.to_nat (Z.of_nat (length (xb_faces b)) mod 65536) in
  get_xbrush (put_xbrush b ++ rest) =
  Some (mkXB (xb_bounds b) (xb_contents b) (firstn n (xb_faces b)), put_list put_floats (skipn n (xb_faces b)) ++ rest).
Proof. exact xbrush_read. Qed.
Print Assumptions C45_planes_modulo.

Definition ex_brush : xbrush := mkXB [0; 0; 0; 7; 8; 9] (-3) [[1; 2; 3; 4]; [5; 6; 7; 4294967295]].
Definition ex_models : list xmodel := [mkXM 1 0 [ex_brush; mkXB [1; 1; 1; 2; 2; 2] (-8) []] 2; mkXM 1 3 [ex_brush] 2].
Example C45_nontrivial : Forall model_ok ex_models /\ length (put_xmodels ex_models) = 180%nat /\
  read_brushlist (put_xmodels ex_models) = ROk ex_models.
Proof.
  split; [|split; reflexivity].
  repeat constructor; cbn; lia.
Qed.

(** FACENORMALS and DECOUPLED_LM: reading with the edge counts of the faces, or the record of any one
    face, returns what was written. *)
Theorem C73_facenormals : forall x rest, normals_ok x ->
  get_facenormals (map (fun f => Z.of_nat (length f)) (fn_faces x)) (put_facenormals x ++ rest) = Some (x, rest).
Proof. exact facenormals_read. Qed.
Print Assumptions C73_facenormals.
Theorem C73_decoupled_lm : forall l face x, Forall (fun x => declm_wf x = true) l -> nth_error l face = Some x ->
  read_declm (put_declm l) face = Some x.
Proof. exact declm_read. Qed.
Print Assumptions C73_decoupled_lm.
Definition ex_lm (k : Z) : declm := mkLM k 17 (-1) [1; 2; 3; 4; 5; 6; 7; k].
Example C73_nontrivial :
  let x := mkFN [[1; 2; 3]; [4; 5; 6]] [[[0; 1; 0]; [1; 0; 1]; [0; 0; 0]]; []; [[1; 1; 1]]] in
  normals_ok x /\ get_facenormals [3; 0; 1] (put_facenormals x) = Some (x, []) /\
  read_declm (put_declm [ex_lm 1; ex_lm 65535; ex_lm 3]) 1 = Some (ex_lm 65535).
Proof.
  split; [|split; reflexivity]. unfold normals_ok, floats_wf. cbn. repeat split; try lia; repeat constructor.
Qed.

(** The BRUSHLIST of a compiled map: the models written are those of the entities that have one, in
    entity order. *)
Theorem C74_models : forall g ents ms num bs, create_brush_list g ents = ROk ms ->
  (In (num, bs) (sources ents 0 ents) <->
   exists i e, nth_error ents i = Some e /\ en_worldbrush e = false /\
     (match i with O => ROk (Some 0) | S _ => en_model e end) = ROk (Some num) /\
     bs = en_brushes e ++ (if num =? 0 then
            flat_map (fun b => if en_worldbrush b && negb (en_illusionary b) then en_brushes b else []) (tl ents)
          else []) /\ bs <> []) /\
  Forall2 (fun s m => xm_num m = fst s /\ holds g (snd s) m) (sources ents 0 ents) ms.
Proof. intros g ents ms num bs H. split; [apply sources_in|apply brush_list_sources, H]. Qed.
Print Assumptions C74_models.

(** Every brush carries contents the engines know. *)
Theorem C74_contents : forall g ents ms m b, create_brush_list g ents = ROk ms -> In m ms -> In b (xm_brushes m) ->
  In (xb_contents b) [-1; -2; -3; -4; -5; -6; -8].
Proof.
  intros g ents ms m b H M B. apply brush_list_sources in H.
  assert (X : exists s, holds g s m).
  { clear B. induction H as [|s x l l' [_ P] H IH]; [contradiction|]. destruct M as [->|M]; [exists (snd s); exact P|apply IH, M]. }
  destruct X as (s & _ & F2). revert B. induction F2 as [|y x l l' (_ & P & _) F2 IH]; [contradiction|].
  intros [->|B]; [|apply IH, B]. exact (xcontents_range _ _ _ P).
Qed.
Print Assumptions C74_contents.

(** Quake: what is written is decided by the first face whose texture is not a hint. *)
Theorem C74_quake_contents : forall e ts,
  xcontents Q1 (brush_contents Q1 e (map FQ1 ts)) =
  ROk match find (fun t => match t with THint => false | _ => true end) ts with
      | Some TSky => -6 | Some TLava => -5 | Some TSlime => -4 | Some TWater => -3 | Some TOther => -2
      | Some TClip => -8
      | Some TOrigin | Some THint | None => -1
      end.
Proof.
  intros e ts. rewrite q1_xcontents.
  replace (find (fun t => match t with THint => false | _ => true end) ts) with (find (fun t => negb (is_hint t)) ts);
    [reflexivity|].
  induction ts as [|t ts IH]; [reflexivity|]. cbn [find]. destruct t; cbn [is_hint negb]; try reflexivity. exact IH.
Qed.
Print Assumptions C74_quake_contents.

(** So writing the list of a Quake map succeeds unless std::stoi rejects a model key. *)
Theorem C74_quake_total : forall ents,
  (forall e, In e ents -> exists k, en_model e = ROk k) ->
  (forall e b, In e ents -> In b (en_brushes e) -> exists o ts, mb_contents b = brush_contents Q1 o (map FQ1 ts)) ->
  exists ms, create_brush_list Q1 ents = ROk ms.
Proof.
  intros ents K C. apply brush_list_total; [exact K| |apply incl_refl].
  intros e b E B. destruct (C e b E B) as (o & ts & ->). eexists. apply q1_xcontents.
Qed.
Print Assumptions C74_quake_total.

(** Quake II: only solid and clip are ever written, so liquids become solid. *)
Theorem C74_quake2_liquids_refuted : forall e fs, Forall (fun f => face_game f = Q2) fs -> e_visblocker e = false ->
  xcontents Q2 (brush_contents Q2 e fs) = ROk (if is_clip Q2 (brush_contents Q2 e fs) then -8 else -2).
Proof. exact q2_brush_xcontents. Qed.
Print Assumptions C74_quake2_liquids_refuted.

(** A point entity with a model key such as "*x" aborts the compile. *)
Theorem C74_model_key_refuted : forall g w e t, en_worldbrush w = false -> en_brushes w = [] ->
  en_worldbrush e = false -> en_model e = RThrow -> Forall (fun b => en_worldbrush b = false) t ->
  create_brush_list g (w :: e :: t) = RThrow.
Proof.
  intros g w e t W B E M T. unfold create_brush_list. cbn [brush_list model_num]. rewrite W. cbn [rbind].
  assert (X : ent_brushes (w :: e :: t) 0 w = []).
  { unfold ent_brushes. rewrite B. cbn [Z.eqb tl app flat_map]. rewrite E. cbn [andb app].
    induction T as [|b t Tb T IH]; [reflexivity|]. cbn [flat_map]. rewrite Tb. exact IH. }
  rewrite X, E, M. reflexivity.
Qed.
Print Assumptions C74_model_key_refuted.

(** An entity with the model key "*0" makes the world's brush entities appear a second time. *)
Definition ex_mb : mbrush := mkMB [0; 0; 0; 1; 1; 1] SOLID [(true, [1; 0; 0; 5]); (false, [9; 9; 9; 9])].
Theorem C74_world_twice_refuted : exists ents ms, create_brush_list Q1 ents = ROk ms /\
  map xm_num ms = [0; 0] /\ map (fun m => length (xm_brushes m)) ms = [2; 1]%nat.
Proof.
  exists [mkEnt false false (ROk None) [ex_mb]; mkEnt true false (ROk None) [ex_mb]; mkEnt false false (ROk (Some 0)) []].
  eexists. split; [reflexivity|]. split; reflexivity.
Qed.
Print Assumptions C74_world_twice_refuted.

Example C74_nontrivial :
  create_brush_list Q1 [mkEnt false false (ROk None) [ex_mb]; mkEnt true false (ROk None) [mkMB [] PLAYERCLIP []];
                        mkEnt true true (ROk None) [ex_mb]; mkEnt false false (ROk (Some 1)) [mkMB [] WATER []];
                        mkEnt false false (ROk None) []] =
  ROk [mkXM 1 0 [mkXB [0; 0; 0; 1; 1; 1] (-2) [[9; 9; 9; 9]]; mkXB [] (-8) []] 0; mkXM 1 1 [mkXB [] (-3) []] 0].
Proof. reflexivity. Qed.

(** A lump cut inside a model yields the complete models before it, except that a cut before the brush
    count uses that count uninitialised. *)
Theorem C75_truncated_partial : forall ms m tail rest, Forall model_ok ms -> model_ok m ->
  put_xmodel m = tail ++ rest -> rest <> [] -> (length tail < 4 \/ 12 <= length tail)%nat ->
  read_brushlist (put_xmodels ms ++ tail) = ROk ms.
Proof.
  intros ms m tail rest F M E R L. unfold read_brushlist. rewrite xmodels_prefix; [|exact F|].
  - rewrite (truncated_ok _ m tail rest); try assumption; [cbn [rbind]; rewrite app_nil_r; reflexivity|].
    rewrite app_length. pose proof (put_xmodels_long ms). lia.
  - rewrite app_length. pose proof (put_xmodels_long ms). lia.
Qed.
Print Assumptions C75_truncated_partial.
Theorem C75_count_uninitialised_refuted : forall ms tail, Forall model_ok ms -> (4 <= length tail < 12)%nat ->
  read_brushlist (put_xmodels ms ++ tail) = RUB.
Proof.
  intros ms tail F L. unfold read_brushlist. rewrite xmodels_prefix; [|exact F|].
  - rewrite truncated_ub; [reflexivity| |exact L]. rewrite app_length. pose proof (put_xmodels_long ms). lia.
  - rewrite app_length. pose proof (put_xmodels_long ms). lia.
Qed.
Print Assumptions C75_count_uninitialised_refuted.
(** The outcome does not depend on the bound of the model's recursion. *)
Theorem C75_terminates : forall l fuel, (length l < fuel)%nat -> get_xmodels fuel l = read_brushlist l.
Proof. intros l fuel L. unfold read_brushlist. apply get_xmodels_fuel; lia. Qed.
Print Assumptions C75_terminates.
Example C75_nontrivial : read_brushlist (firstn 100 (put_xmodels ex_models)) = ROk [] /\
  read_brushlist (firstn 150 (put_xmodels ex_models)) = ROk (firstn 1 ex_models) /\
  read_brushlist (firstn 110 (put_xmodels ex_models)) = RUB.
Proof. vm_compute. repeat split. Qed.
