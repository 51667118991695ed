(* The contents of BSPX lumps (common/bspxfile.cc) and the brush list qbsp writes (qbsp/qbsp.cc). *)
From Coq Require Import List Arith NArith ZArith Bool.
Import ListNotations.
From Verif Require Import Base Codec NumCastModel BspRecModel ContentsModel.
Local Open Scope Z_scope.

(** ** BRUSHLIST (include/common/bspxfile.hh:58-92, common/bspxfile.cc:54-150) *)

(** A plane is four floats, bounds are six; floats are their 32-bit patterns. *)
Record xbrush := mkXB { xb_bounds : list Z; xb_contents : Z; xb_faces : list (list Z) }.
Record xmodel := mkXM { xm_ver : Z; xm_num : Z; xm_brushes : list xbrush; xm_numfaces : Z }.

Definition put_z (t : ity) (v : Z) : list N := put_field (t, v).
Definition put_floats (l : list Z) : list N := put_list (put_z f32) l.

(** bspxbrushes_perbrush::stream_write (54-62): the face count is cast to uint16_t. *)
Definition put_xbrush (b : xbrush) : list N :=
  put_floats (xb_bounds b) ++ put_z i16 (xb_contents b) ++
  put_z u16 (it_wrap u16 (Z.of_nat (length (xb_faces b)))) ++ put_list put_floats (xb_faces b).
(** bspxbrushes_permodel::stream_write (82-98). *)
Definition face_total (l : list xbrush) : Z := fold_left (fun a b => a + Z.of_nat (length (xb_faces b))) l 0.
Definition put_xmodel (m : xmodel) : list N :=
  put_z i32 (xm_ver m) ++ put_z i32 (xm_num m) ++
  put_z i32 (it_wrap i32 (Z.of_nat (length (xm_brushes m)))) ++
  put_z i32 (it_wrap i32 (face_total (xm_brushes m))) ++ put_list put_xbrush (xm_brushes m).
(** bspxbrushes::stream_write (124-129). *)
Definition put_xmodels (l : list xmodel) : list N := put_list put_xmodel l.

(** stream_read of a brush (64-78); None when the stream fails. *)
Definition get_xbrush : reader xbrush := fun l =>
  match get_list (get_field f32) 6 l with
  | None => None
  | Some (bounds, l) =>
    match get_field i16 l with
    | None => None
    | Some (contents, l) =>
      match get_field u16 l with
      | None => None
      | Some (n, l) =>
        match get_list (get_list (get_field f32) 4) (Z.to_nat n) l with
        | None => None
        | Some (faces, l) => Some (mkXB bounds contents faces, l)
        end
      end
    end
  end.

(** stream_read of all models (100-120, 131-147).  The stream ends before a version: done.  It ends
    before the brush count: the count is an uninitialised variable, given to resize ([RUB]).  A
    negative count throws std::length_error.  It ends later: the model is dropped. *)
Fixpoint get_xmodels (fuel : nat) (l : list N) : res (list xmodel) :=
  match fuel with
  | O => ROk []
  | S fuel =>
    match get_field i32 l with
    | None => ROk []
    | Some (ver, l) =>
      match get_fields [i32; i32] l with
      | None => RUB
      | Some (num :: cnt :: _, l) =>
        if cnt <? 0 then RThrow
        else match get_field i32 l with
             | None => ROk []
             | Some (nf, l) =>
               match get_list get_xbrush (Z.to_nat cnt) l with
               | None => ROk []
               | Some (bs, l) => rbind (get_xmodels fuel l) (fun t => ROk (mkXM ver num bs nf :: t))
               end
             end
      | Some _ => RUB
      end
    end
  end.
Definition read_brushlist (l : list N) : res (list xmodel) := get_xmodels (S (length l)) l.

(** ** FACENORMALS (common/bspxfile.cc:150-214) *)

(** Vectors of three floats; for every vertex of every face three indices. *)
Record facenormals := mkFN { fn_normals : list (list Z); fn_faces : list (list (list Z)) }.
Definition put_facenormals (x : facenormals) : list N :=
  put_z u32 (it_wrap u32 (Z.of_nat (length (fn_normals x)))) ++ put_list put_floats (fn_normals x) ++
  put_list (put_list (put_list (put_z u32))) (fn_faces x).
(** stream_read (193-214) with the numedges of every face of the BSP. *)
Fixpoint get_face_verts (numedges : list Z) : reader (list (list (list Z))) := fun l =>
  match numedges with
  | [] => Some ([], l)
  | n :: t =>
    match get_list (get_list (get_field u32) 3) (Z.to_nat n) l with
    | None => None
    | Some (f, l) => match get_face_verts t l with Some (fs, l) => Some (f :: fs, l) | None => None end
    end
  end.
Definition get_facenormals (numedges : list Z) : reader facenormals := fun l =>
  match get_field u32 l with
  | None => None
  | Some (n, l) =>
    match get_list (get_list (get_field f32) 3) (Z.to_nat n) l with
    | None => None
    | Some (ns, l) => match get_face_verts numedges l with Some (fs, l) => Some (mkFN ns fs, l) | None => None end
    end
  end.

(** ** DECOUPLED_LM (bspxfile.hh:133-150, bspxfile.cc:218-226) *)

(** The eight floats of world_to_lm_space in stream order. *)
Record declm := mkLM { lm_w : Z; lm_h : Z; lm_ofs : Z; lm_mat : list Z }.
Definition declm_codec : rcodec declm := mkRC declm
  (fun x => (u16, lm_w x) :: (u16, lm_h x) :: (i32, lm_ofs x) :: map (fun v => (f32, v)) (lm_mat x))
  (u16 :: u16 :: i32 :: repeat f32 8)
  (fun l => match l with w :: h :: o :: m => Some (mkLM w h o m) | _ => None end).
(** The lump light writes (light/light.cc:925-938): one record for every face. *)
Definition put_declm (l : list declm) : list N := put_list (rc_put declm_codec) l.
(** BSPX_DecoupledLM (common/bsputils.cc:779-791): seek to face_num * sizeof and read; the struct has
    no padding, sizeof is 40. *)
Definition SIZEOF_DECLM : nat := 40.
Definition read_declm (lump : list N) (face : nat) : option declm :=
  option_map fst (rc_get declm_codec (skipn (face * SIZEOF_DECLM) lump)).

(** ** The brush list of a map (qbsp/qbsp.cc:1345-1461) *)

(** A map brush: bounds, contents and planes, each with whether it is axial
    (get_type() < PLANE_ANYX). *)
Record mbrush := mkMB { mb_bounds : list Z; mb_contents : N; mb_planes : list (bool * list Z) }.

(** BSPX_Brushes_AddModel (1345-1398); CONTENTS_EMPTY..CONTENTS_SKY are -1..-6, CLIP is -8.  The
    int of contents_to_native is stored in an int16_t; only -6..-1 and -8 are stored. *)
Definition xcontents (g : game) (c : N) : res Z :=
  rbind (to_native g c) (fun native =>
    ROk (if is_clip g c then -8
         else if existsb (Z.eqb native) [-1; -2; -3; -4; -5; -6] then native else -2)).
Definition add_brush (g : game) (b : mbrush) : res xbrush :=
  rbind (xcontents g (mb_contents b)) (fun c =>
    ROk (mkXB (mb_bounds b) c (map snd (filter (fun p => negb (fst p)) (mb_planes b))))).
Fixpoint map_res {A B} (f : A -> res B) (l : list A) : res (list B) :=
  match l with
  | [] => ROk []
  | a :: t => rbind (f a) (fun b => rbind (map_res f t) (fun r => ROk (b :: r)))
  end.
Definition add_model (g : game) (num : Z) (l : list mbrush) : res xmodel :=
  rbind (map_res (add_brush g) l) (fun bs => ROk (mkXM 1 num bs 0)).

(** An entity of the map: whether its brushes belong to the world (IsWorldBrushEntity), whether it is
    func_detail_illusionary or func_illusionary_visblocker, the number of its "*n" model key ([None]
    when the key does not start with a star, [RThrow] when std::stoi rejects the rest) and its
    brushes.  Entity 0 is the world. *)
Record ent := mkEnt { en_worldbrush : bool; en_illusionary : bool; en_model : res (option Z); en_brushes : list mbrush }.

(** The entity's model number (1411-1425): entity 0 is model 0. *)
Definition model_num (i : nat) (e : ent) : res (option Z) := match i with O => ROk (Some 0) | S _ => en_model e end.
(** BSPX_CreateBrushList (1401-1455), entity [i]. *)
Definition ent_brushes (ents : list ent) (num : Z) (e : ent) : list mbrush :=
  en_brushes e ++
  if num =? 0 then flat_map (fun b => if en_worldbrush b && negb (en_illusionary b) then en_brushes b else []) (tl ents)
  else [].
Fixpoint brush_list (g : game) (ents : list ent) (i : nat) (l : list ent) : res (list xmodel) :=
  match l with
  | [] => ROk []
  | e :: t =>
    if en_worldbrush e then brush_list g ents (S i) t
    else rbind (model_num i e) (fun k =>
      match k with
      | None => brush_list g ents (S i) t
      | Some num =>
        match ent_brushes ents num e with
        | [] => brush_list g ents (S i) t
        | bs => rbind (add_model g num bs) (fun m => rbind (brush_list g ents (S i) t) (fun r => ROk (m :: r)))
        end
      end)
  end.
Definition create_brush_list (g : game) (ents : list ent) : res (list xmodel) := brush_list g ents 0 ents.
