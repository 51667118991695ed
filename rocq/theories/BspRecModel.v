(* The records of the BSP formats: their layout in a file and the conversions between the generic
   records of mbsp_t and those of each format (common/bspfile_generic.cc, bspfile_q1.cc,
   bspfile_q2.cc).  Every field is an integer; a float is its 32-bit pattern. *)
From Coq Require Import List Arith NArith ZArith Bool.
Import ListNotations.
From Verif Require Import Base Codec NumCastModel.
Local Open Scope Z_scope.

(** A float field occupies four bytes, its bit pattern. *)
Definition f32 : ity := u32.

(** ** Streaming of fields *)

(** include/common/cmdlib.hh:218-296 and 375-453: one field of type [t], little-endian. *)
Definition it_bytes (t : ity) : nat := Z.to_nat (it_bits t / 8).
Definition put_field (tv : ity * Z) : list N := put_le (it_bytes (fst tv)) (to_unsigned (it_bytes (fst tv)) (snd tv)).
Definition get_field (t : ity) : reader Z := fun l =>
  match get_le (it_bytes t) l with
  | Some (v, r) => Some (if it_signed t then of_unsigned (it_bytes t) v else Z.of_N v, r)
  | None => None
  end.

(** include/common/cmdlib.hh:307-336, 464-495: arrays, tuples and structs field after field. *)
Definition put_fields (l : list (ity * Z)) : list N := put_list put_field l.
Fixpoint get_fields (ts : list ity) : reader (list Z) := fun l =>
  match ts with
  | [] => Some ([], l)
  | t :: ts' => match get_field t l with
                | Some (v, l') => match get_fields ts' l' with
                                  | Some (vs, r) => Some (v :: vs, r)
                                  | None => None
                                  end
                | None => None
                end
  end.

(** A record type's streaming: the typed fields written, the types read, and the struct built
    from the values read. *)
Record rcodec (A : Type) := mkRC {
  rc_write : A -> list (ity * Z);
  rc_types : list ity;
  rc_build : list Z -> option A
}.
Arguments rc_write {A} _ _. Arguments rc_types {A} _. Arguments rc_build {A} _ _.

Definition rc_put {A} (c : rcodec A) (a : A) : list N := put_fields (rc_write c a).
Definition rc_get {A} (c : rcodec A) : reader A := fun l =>
  match get_fields (rc_types c) l with
  | Some (vs, r) => match rc_build c vs with Some a => Some (a, r) | None => None end
  | None => None
  end.
(** Bytes a record occupies in the stream. *)
Definition rc_size {A} (c : rcodec A) : nat := list_sum (map it_bytes (rc_types c)).

(** ** Generic records (include/common/bspfile_generic.hh) *)

Record vec := mkV { vx : Z; vy : Z; vz : Z }.
Definition vfields (t : ity) (v : vec) : list (ity * Z) := [(t, vx v); (t, vy v); (t, vz v)].
Definition vtypes (t : ity) : list ity := [t; t; t].
Definition vwf (t : ity) (v : vec) : bool := it_in t (vx v) && it_in t (vy v) && it_in t (vz v).

(** bsp2_dnode_t and the nodes of the other formats. *)
Record node := mkNode { n_plane : Z; n_c0 : Z; n_c1 : Z; n_mn : vec; n_mx : vec; n_ff : Z; n_nf : Z }.
(** mface_t and the faces of the formats. *)
Record face := mkFace { f_plane : Z; f_side : Z; f_fe : Z; f_ne : Z; f_tex : Z;
                        f_s0 : Z; f_s1 : Z; f_s2 : Z; f_s3 : Z; f_lo : Z }.
(** mleaf_t *)
Record mleaf := mkLeaf { l_contents : Z; l_visofs : Z; l_mn : vec; l_mx : vec; l_fm : Z; l_nm : Z;
                         l_a0 : Z; l_a1 : Z; l_a2 : Z; l_a3 : Z;
                         l_cluster : Z; l_area : Z; l_fb : Z; l_nb : Z }.
(** bsp2_dclipnode_t *)
Record clipnode := mkClip { cn_plane : Z; cn_c0 : Z; cn_c1 : Z }.
(** dmodelh2_t (eight head nodes) and dmodelq1_t (four). *)
Record dmodel := mkModel { dm_mn : vec; dm_mx : vec; dm_org : vec; dm_head : list Z;
                           dm_vis : Z; dm_ff : Z; dm_nf : Z }.
(** mtexinfo_t; of surfflags_t only [native] reaches a file.  texvecf as its eight entries row by
    row, the order stream_write uses (common/bspfile_common.cc:219-233). *)
Record mtexinfo := mkMTex { mt_vecs : list Z; mt_flags : Z; mt_miptex : Z; mt_value : Z;
                            mt_name : list Z; mt_next : Z }.
(** dplane_t *)
Record dplane := mkPlane { dp_n : vec; dp_dist : Z; dp_type : Z }.
(** darea_t, dareaportal_t, dbrush_t, q2_dbrushside_qbism_t *)
Record darea := mkArea { da_num : Z; da_first : Z }.
Record dareaportal := mkAP { ap_portal : Z; ap_other : Z }.
Record dbrush := mkBrush { db_first : Z; db_num : Z; db_contents : Z }.
Record dbrushside := mkSide { bs_plane : Z; bs_tex : Z }.
(** std::array<uint, 2> *)
Record dedge := mkEdge { e_0 : Z; e_1 : Z }.

(** ** Format records without a generic counterpart of the same shape *)

(** bsp29_dleaf_t, bsp2rmq_dleaf_t, bsp2_dleaf_t *)
Record q1leaf := mkQ1Leaf { q1_contents : Z; q1_visofs : Z; q1_mn : vec; q1_mx : vec; q1_fm : Z; q1_nm : Z;
                            q1_a0 : Z; q1_a1 : Z; q1_a2 : Z; q1_a3 : Z }.
(** q2_dleaf_t, q2_dleaf_qbism_t *)
Record q2leaf := mkQ2Leaf { q2_contents : Z; q2_cluster : Z; q2_area : Z; q2_mn : vec; q2_mx : vec;
                            q2_fl : Z; q2_nl : Z; q2_fb : Z; q2_nb : Z }.
(** q2_dmodel_t *)
Record q2model := mkQ2Model { qm_mn : vec; qm_mx : vec; qm_org : vec; qm_head : Z; qm_ff : Z; qm_nf : Z }.
(** texinfo_t *)
Record q1tex := mkQ1Tex { qt_vecs : list Z; qt_miptex : Z; qt_flags : Z }.
(** q2_texinfo_t *)
Record q2tex := mkQ2Tex { q2t_vecs : list Z; q2t_flags : Z; q2t_value : Z; q2t_name : list Z; q2t_next : Z }.
(** lump_t, bspx_header_t (id as four bytes), bspx_lump_t *)
Record lump := mkLump { lu_ofs : Z; lu_len : Z }.
Record bspxhdr := mkBspxHdr { bh_id : list Z; bh_num : Z }.
Record bspxlump := mkBspxLump { bl_name : list Z; bl_ofs : Z; bl_len : Z }.
(** dmiptex_t *)
Record dmiptex := mkMip { mi_name : list Z; mi_w : Z; mi_h : Z; mi_ofs : list Z }.

(** ** Streaming of each record type *)

(** common/bspfile_q1.cc:83-91, 111-119, bspfile_q2.cc:83-91, bspfile_generic.cc:248-255: all four
    node types write and read planenum, children, mins, maxs, firstface, numfaces; [tc], [tb] and
    [tf] are the types of the children, the bounds and the face numbers. *)
Definition node_codec (tc tb tf : ity) : rcodec node := mkRC node
  (fun n => [(i32, n_plane n); (tc, n_c0 n); (tc, n_c1 n)] ++ vfields tb (n_mn n) ++ vfields tb (n_mx n)
            ++ [(tf, n_ff n); (tf, n_nf n)])
  ([i32; tc; tc] ++ vtypes tb ++ vtypes tb ++ [tf; tf])
  (fun l => match l with
            | [p; c0; c1; a; b; c; d; e; f; ff; nf] => Some (mkNode p c0 c1 (mkV a b c) (mkV d e f) ff nf)
            | _ => None end).
Definition bsp29_node := node_codec i16 i16 u16.
Definition rmq_node := node_codec i32 i16 u32.
Definition q2_node := node_codec i32 i16 u16.
Definition bsp2_node := node_codec i32 f32 u32.

(** common/bspfile_q1.cc:201-209, 229-237, bspfile_q2.cc:138-146, 166-174: the face types; [tp] is
    the type of planenum and [ts] that of side, numedges and texinfo. *)
Definition face_codec (tp ts : ity) : rcodec face := mkRC face
  (fun f => [(tp, f_plane f); (ts, f_side f); (i32, f_fe f); (ts, f_ne f); (ts, f_tex f);
             (u8, f_s0 f); (u8, f_s1 f); (u8, f_s2 f); (u8, f_s3 f); (i32, f_lo f)])
  [tp; ts; i32; ts; ts; u8; u8; u8; u8; i32]
  (fun l => match l with
            | [p; s; fe; ne; t; a; b; c; d; lo] => Some (mkFace p s fe ne t a b c d lo)
            | _ => None end).
Definition bsp29_face := face_codec i16 i16.
Definition bsp2_face := face_codec i32 i32.
Definition q2_face := face_codec u16 i16.
Definition qbism_face := face_codec u32 i32.

(** common/bspfile_q1.cc:258-266, 287-295, 315-323 *)
Definition q1leaf_codec (tb tm : ity) : rcodec q1leaf := mkRC q1leaf
  (fun l => [(i32, q1_contents l); (i32, q1_visofs l)] ++ vfields tb (q1_mn l) ++ vfields tb (q1_mx l)
            ++ [(tm, q1_fm l); (tm, q1_nm l); (u8, q1_a0 l); (u8, q1_a1 l); (u8, q1_a2 l); (u8, q1_a3 l)])
  ([i32; i32] ++ vtypes tb ++ vtypes tb ++ [tm; tm; u8; u8; u8; u8])
  (fun l => match l with
            | [k; v; a; b; c; d; e; f; fm; nm; a0; a1; a2; a3] =>
              Some (mkQ1Leaf k v (mkV a b c) (mkV d e f) fm nm a0 a1 a2 a3)
            | _ => None end).
Definition bsp29_leaf := q1leaf_codec i16 u16.
Definition rmq_leaf := q1leaf_codec i16 u32.
Definition bsp2_leaf := q1leaf_codec f32 u32.

(** common/bspfile_q2.cc:197-205, 227-235 *)
Definition q2leaf_codec (tc tb tm : ity) : rcodec q2leaf := mkRC q2leaf
  (fun l => [(i32, q2_contents l); (tc, q2_cluster l); (tc, q2_area l)] ++ vfields tb (q2_mn l)
            ++ vfields tb (q2_mx l) ++ [(tm, q2_fl l); (tm, q2_nl l); (tm, q2_fb l); (tm, q2_nb l)])
  ([i32; tc; tc] ++ vtypes tb ++ vtypes tb ++ [tm; tm; tm; tm])
  (fun l => match l with
            | [k; cl; ar; a; b; c; d; e; f; fl; nl; fb; nb] =>
              Some (mkQ2Leaf k cl ar (mkV a b c) (mkV d e f) fl nl fb nb)
            | _ => None end).
Definition q2_leaf := q2leaf_codec i16 i16 u16.
Definition qbism_leaf := q2leaf_codec i32 f32 u32.

(** common/bspfile_q1.cc:134-142, bspfile_generic.cc:270-278 *)
Definition clip_codec (tc : ity) : rcodec clipnode := mkRC clipnode
  (fun c => [(i32, cn_plane c); (tc, cn_c0 c); (tc, cn_c1 c)])
  [i32; tc; tc]
  (fun l => match l with [p; a; b] => Some (mkClip p a b) | _ => None end).
Definition bsp29_clip := clip_codec i16.
Definition bsp2_clip := clip_codec i32.

(** common/bspfile_q1.cc:55-62, bspfile_generic.cc:25-33: models with [h] head nodes. *)
Definition model_codec (h : nat) : rcodec dmodel := mkRC dmodel
  (fun m => vfields f32 (dm_mn m) ++ vfields f32 (dm_mx m) ++ vfields f32 (dm_org m)
            ++ map (fun v => (i32, v)) (dm_head m) ++ [(i32, dm_vis m); (i32, dm_ff m); (i32, dm_nf m)])
  (vtypes f32 ++ vtypes f32 ++ vtypes f32 ++ repeat i32 h ++ [i32; i32; i32])
  (fun l => match l with
            | a :: b :: c :: d :: e :: f :: g :: i :: j :: t =>
              match skipn h t with
              | [v; ff; nf] => Some (mkModel (mkV a b c) (mkV d e f) (mkV g i j) (firstn h t) v ff nf)
              | _ => None end
            | _ => None end).
Definition q1_model := model_codec 4.
Definition h2_model := model_codec 8.

(** common/bspfile_q2.cc:55-63 *)
Definition q2_model : rcodec q2model := mkRC q2model
  (fun m => vfields f32 (qm_mn m) ++ vfields f32 (qm_mx m) ++ vfields f32 (qm_org m)
            ++ [(i32, qm_head m); (i32, qm_ff m); (i32, qm_nf m)])
  (vtypes f32 ++ vtypes f32 ++ vtypes f32 ++ [i32; i32; i32])
  (fun l => match l with
            | [a; b; c; d; e; f; g; i; j; h; ff; nf] =>
              Some (mkQ2Model (mkV a b c) (mkV d e f) (mkV g i j) h ff nf)
            | _ => None end).

(** common/bspfile_q1.cc:173-181 *)
Definition q1_tex : rcodec q1tex := mkRC q1tex
  (fun t => map (fun v => (f32, v)) (qt_vecs t) ++ [(i32, qt_miptex t); (i32, qt_flags t)])
  (repeat f32 8 ++ [i32; i32])
  (fun l => match skipn 8 l with
            | [m; f] => Some (mkQ1Tex (firstn 8 l) m f)
            | _ => None end).

(** common/bspfile_q2.cc:110-118 *)
Definition q2_tex : rcodec q2tex := mkRC q2tex
  (fun t => map (fun v => (f32, v)) (q2t_vecs t) ++ [(i32, q2t_flags t); (i32, q2t_value t)]
            ++ map (fun v => (u8, v)) (q2t_name t) ++ [(i32, q2t_next t)])
  (repeat f32 8 ++ [i32; i32] ++ repeat u8 32 ++ [i32])
  (fun l => match skipn 8 l with
            | f :: v :: t => match skipn 32 t with
                             | [n] => Some (mkQ2Tex (firstn 8 l) f v (firstn 32 t) n)
                             | _ => None end
            | _ => None end).

(** common/bspfile_generic.cc:236-244 *)
Definition plane_codec : rcodec dplane := mkRC dplane
  (fun p => vfields f32 (dp_n p) ++ [(f32, dp_dist p); (i32, dp_type p)])
  (vtypes f32 ++ [f32; i32])
  (fun l => match l with [a; b; c; d; t] => Some (mkPlane (mkV a b c) d t) | _ => None end).

(** qvec3f as an array of floats (include/common/qvec.hh:88-90) *)
Definition vec_codec : rcodec vec := mkRC vec (vfields f32) (vtypes f32)
  (fun l => match l with [a; b; c] => Some (mkV a b c) | _ => None end).

(** common/bspfile_generic.cc:295-303, 312-320, 329-337, 341-349; bspfile_q2.cc:250-258 *)
Definition area_codec : rcodec darea := mkRC darea
  (fun a => [(i32, da_num a); (i32, da_first a)]) [i32; i32]
  (fun l => match l with [a; b] => Some (mkArea a b) | _ => None end).
Definition areaportal_codec : rcodec dareaportal := mkRC dareaportal
  (fun a => [(i32, ap_portal a); (i32, ap_other a)]) [i32; i32]
  (fun l => match l with [a; b] => Some (mkAP a b) | _ => None end).
Definition brush_codec : rcodec dbrush := mkRC dbrush
  (fun b => [(i32, db_first b); (i32, db_num b); (i32, db_contents b)]) [i32; i32; i32]
  (fun l => match l with [a; b; c] => Some (mkBrush a b c) | _ => None end).
Definition side_codec (tp tt : ity) : rcodec dbrushside := mkRC dbrushside
  (fun s => [(tp, bs_plane s); (tt, bs_tex s)]) [tp; tt]
  (fun l => match l with [a; b] => Some (mkSide a b) | _ => None end).
Definition q2_side := side_codec u16 i16.
Definition qbism_side := side_codec u32 i32.

(** bsp29_dedge_t and bsp2_dedge_t; marksurfaces, leafbrushes and surfedges are plain integers. *)
Definition edge_codec (t : ity) : rcodec dedge := mkRC dedge
  (fun e => [(t, e_0 e); (t, e_1 e)]) [t; t]
  (fun l => match l with [a; b] => Some (mkEdge a b) | _ => None end).
Definition int_codec (t : ity) : rcodec Z := mkRC Z
  (fun v => [(t, v)]) [t] (fun l => match l with [a] => Some a | _ => None end).

(** lump_t (common/bspfile_common.cc), common/bspxfile.cc:33-51, bspfile_generic.cc:94-102 *)
Definition lump_codec : rcodec lump := mkRC lump
  (fun l => [(i32, lu_ofs l); (i32, lu_len l)]) [i32; i32]
  (fun l => match l with [a; b] => Some (mkLump a b) | _ => None end).
Definition bspxhdr_codec : rcodec bspxhdr := mkRC bspxhdr
  (fun h => map (fun v => (u8, v)) (bh_id h) ++ [(u32, bh_num h)]) (repeat u8 4 ++ [u32])
  (fun l => match skipn 4 l with [n] => Some (mkBspxHdr (firstn 4 l) n) | _ => None end).
Definition bspxlump_codec : rcodec bspxlump := mkRC bspxlump
  (fun h => map (fun v => (u8, v)) (bl_name h) ++ [(u32, bl_ofs h); (u32, bl_len h)])
  (repeat u8 24 ++ [u32; u32])
  (fun l => match skipn 24 l with [o; n] => Some (mkBspxLump (firstn 24 l) o n) | _ => None end).
Definition dmiptex_codec : rcodec dmiptex := mkRC dmiptex
  (fun m => map (fun v => (u8, v)) (mi_name m) ++ [(u32, mi_w m); (u32, mi_h m)]
            ++ map (fun v => (i32, v)) (mi_ofs m))
  (repeat u8 16 ++ [u32; u32] ++ repeat i32 4)
  (fun l => match skipn 16 l with
            | w :: h :: t => Some (mkMip (firstn 16 l) w h t)
            | _ => None end).

(** ** Conversions from the generic records *)

Notation "x <- e ;; f" := (rbind e (fun x => f)) (at level 60, right associativity).

(** aabb_mins_cast<int16_t> and aabb_maxs_cast<int16_t> of a qvec3f
    (include/common/numeric_cast.hh:94-114). *)
Definition mins16 (v : vec) : res vec :=
  x <- mins_cast1 24 i16 (f32_val (Z.to_N (vx v))) ;;
  y <- mins_cast1 24 i16 (f32_val (Z.to_N (vy v))) ;;
  z <- mins_cast1 24 i16 (f32_val (Z.to_N (vz v))) ;;
  ROk (mkV x y z).
Definition maxs16 (v : vec) : res vec :=
  x <- maxs_cast1 24 i16 (f32_val (Z.to_N (vx v))) ;;
  y <- maxs_cast1 24 i16 (f32_val (Z.to_N (vy v))) ;;
  z <- maxs_cast1 24 i16 (f32_val (Z.to_N (vz v))) ;;
  ROk (mkV x y z).
(** aabb_mins_cast<float> of a qvec3s: numeric_cast<float>(int16), always in range. *)
Definition vec_of16 (v : vec) : vec :=
  mkV (Z.of_N (f32_of_i16 (vx v))) (Z.of_N (f32_of_i16 (vy v))) (Z.of_N (f32_of_i16 (vz v))).

(** array_cast (include/common/numeric_cast.hh:118-132): convert the common prefix, the rest of
    the destination is zero. *)
Fixpoint array_cast (conv : Z -> res Z) (n : nat) (src : list Z) : res (list Z) :=
  match n with
  | O => ROk []
  | S m => match src with
           | [] => ROk (repeat 0 n)
           | v :: t => v' <- conv v ;; t' <- array_cast conv m t ;; ROk (v' :: t')
           end
  end.

(** bsp29_dnode_t(const bsp2_dnode_t &) and operator bsp2_dnode_t (common/bspfile_q1.cc:66-81) *)
Definition to_bsp29_node (n : node) : res node :=
  c0 <- numeric_cast i16 i32 (n_c0 n) ;; c1 <- numeric_cast i16 i32 (n_c1 n) ;;
  mn <- mins16 (n_mn n) ;; mx <- maxs16 (n_mx n) ;;
  ff <- numeric_cast u16 u32 (n_ff n) ;; nf <- numeric_cast u16 u32 (n_nf n) ;;
  ROk (mkNode (n_plane n) c0 c1 mn mx ff nf).
(** The conversion back of the three 16-bit-bounds nodes (bspfile_q1.cc:76-81, 105-109,
    bspfile_q2.cc:77-81): children and face numbers widen, bounds become floats. *)
Definition of_node16 (n : node) : node :=
  mkNode (n_plane n) (n_c0 n) (n_c1 n) (vec_of16 (n_mn n)) (vec_of16 (n_mx n)) (n_ff n) (n_nf n).
(** common/bspfile_q1.cc:95-103 *)
Definition to_rmq_node (n : node) : res node :=
  mn <- mins16 (n_mn n) ;; mx <- maxs16 (n_mx n) ;;
  ROk (mkNode (n_plane n) (n_c0 n) (n_c1 n) mn mx (n_ff n) (n_nf n)).
(** common/bspfile_q2.cc:67-75 *)
Definition to_q2_node (n : node) : res node :=
  mn <- mins16 (n_mn n) ;; mx <- maxs16 (n_mx n) ;;
  ff <- numeric_cast u16 u32 (n_ff n) ;; nf <- numeric_cast u16 u32 (n_nf n) ;;
  ROk (mkNode (n_plane n) (n_c0 n) (n_c1 n) mn mx ff nf).

(** bsp29_dclipnode_t::downcast (common/bspfile_q1.cc:144-151) *)
Definition downcast16 (v : Z) : res Z :=
  if (v <? -15) || (0xFFF0 <? v) then RThrow else ROk (it_wrap i16 (if v <? 0 then v + 0x10000 else v)).
(** bsp29_dclipnode_t::upcast (153-157) *)
Definition upcast16 (v : Z) : Z :=
  let child := it_wrap u16 v in if 0xfff0 <? child then child - 0x10000 else child.
(** common/bspfile_q1.cc:123-132 *)
Definition to_bsp29_clip (c : clipnode) : res clipnode :=
  a <- downcast16 (cn_c0 c) ;; b <- downcast16 (cn_c1 c) ;; ROk (mkClip (cn_plane c) a b).
Definition of_bsp29_clip (c : clipnode) : clipnode :=
  mkClip (cn_plane c) (upcast16 (cn_c0 c)) (upcast16 (cn_c1 c)).

(** common/bspfile_q1.cc:185-199: planenum is int64 in mface_t. *)
Definition to_face (tp ts : ity) (f : face) : res face :=
  p <- numeric_cast tp i64 (f_plane f) ;; s <- numeric_cast ts i32 (f_side f) ;;
  ne <- numeric_cast ts i32 (f_ne f) ;; t <- numeric_cast ts i32 (f_tex f) ;;
  ROk (mkFace p s (f_fe f) ne t (f_s0 f) (f_s1 f) (f_s2 f) (f_s3 f) (f_lo f)).
(** common/bspfile_q1.cc:185-194 *)
Definition to_bsp29_face := to_face i16 i16.
(** common/bspfile_q2.cc:122-131 *)
Definition to_q2_face := to_face u16 i16.
(** common/bspfile_q1.cc:213-222, bspfile_q2.cc:150-159: only planenum is converted. *)
Definition to_face32 (tp : ity) (f : face) : res face :=
  p <- numeric_cast tp i64 (f_plane f) ;;
  ROk (mkFace p (f_side f) (f_fe f) (f_ne f) (f_tex f) (f_s0 f) (f_s1 f) (f_s2 f) (f_s3 f) (f_lo f)).
Definition to_bsp2_face := to_face32 i32.
Definition to_qbism_face := to_face32 u32.
(** Back: every field widens, values unchanged (bspfile_q1.cc:196-199, 224-227,
    bspfile_q2.cc:133-136, 161-164). *)
Definition of_face (f : face) : face := f.

(** common/bspfile_q1.cc:241-256 *)
Definition to_bsp29_leaf (l : mleaf) : res q1leaf :=
  mn <- mins16 (l_mn l) ;; mx <- maxs16 (l_mx l) ;;
  fm <- numeric_cast u16 u32 (l_fm l) ;; nm <- numeric_cast u16 u32 (l_nm l) ;;
  ROk (mkQ1Leaf (l_contents l) (l_visofs l) mn mx fm nm (l_a0 l) (l_a1 l) (l_a2 l) (l_a3 l)).
(** common/bspfile_q1.cc:270-279 *)
Definition to_rmq_leaf (l : mleaf) : res q1leaf :=
  mn <- mins16 (l_mn l) ;; mx <- maxs16 (l_mx l) ;;
  ROk (mkQ1Leaf (l_contents l) (l_visofs l) mn mx (l_fm l) (l_nm l) (l_a0 l) (l_a1 l) (l_a2 l) (l_a3 l)).
(** common/bspfile_q1.cc:299-308 *)
Definition to_bsp2_leaf (l : mleaf) : res q1leaf :=
  ROk (mkQ1Leaf (l_contents l) (l_visofs l) (l_mn l) (l_mx l) (l_fm l) (l_nm l) (l_a0 l) (l_a1 l) (l_a2 l) (l_a3 l)).
(** common/bspfile_q1.cc:252-256, 281-285: the Quake II members of mleaf_t are value-initialised. *)
Definition of_q1leaf16 (l : q1leaf) : mleaf :=
  mkLeaf (q1_contents l) (q1_visofs l) (vec_of16 (q1_mn l)) (vec_of16 (q1_mx l)) (q1_fm l) (q1_nm l)
         (q1_a0 l) (q1_a1 l) (q1_a2 l) (q1_a3 l) 0 0 0 0.
(** common/bspfile_q1.cc:310-313 *)
Definition of_bsp2_leaf (l : q1leaf) : mleaf :=
  mkLeaf (q1_contents l) (q1_visofs l) (q1_mn l) (q1_mx l) (q1_fm l) (q1_nm l)
         (q1_a0 l) (q1_a1 l) (q1_a2 l) (q1_a3 l) 0 0 0 0.

(** common/bspfile_q2.cc:178-189.  maxs goes through aabb_mins_cast (line 183): it is rounded
    down. *)
Definition to_q2_leaf (l : mleaf) : res q2leaf :=
  cl <- numeric_cast i16 i32 (l_cluster l) ;; ar <- numeric_cast i16 i32 (l_area l) ;;
  mn <- mins16 (l_mn l) ;; mx <- mins16 (l_mx l) ;;
  fm <- numeric_cast u16 u32 (l_fm l) ;; nm <- numeric_cast u16 u32 (l_nm l) ;;
  fb <- numeric_cast u16 u32 (l_fb l) ;; nb <- numeric_cast u16 u32 (l_nb l) ;;
  ROk (mkQ2Leaf (l_contents l) cl ar mn mx fm nm fb nb).
(** common/bspfile_q2.cc:191-195: visofs -1, no ambient levels. *)
Definition of_q2_leaf (l : q2leaf) : mleaf :=
  mkLeaf (q2_contents l) (-1) (vec_of16 (q2_mn l)) (vec_of16 (q2_mx l)) (q2_fl l) (q2_nl l)
         0 0 0 0 (q2_cluster l) (q2_area l) (q2_fb l) (q2_nb l).
(** common/bspfile_q2.cc:209-225 *)
Definition to_qbism_leaf (l : mleaf) : res q2leaf :=
  ROk (mkQ2Leaf (l_contents l) (l_cluster l) (l_area l) (l_mn l) (l_mx l) (l_fm l) (l_nm l) (l_fb l) (l_nb l)).
Definition of_qbism_leaf (l : q2leaf) : mleaf :=
  mkLeaf (q2_contents l) (-1) (q2_mn l) (q2_mx l) (q2_fl l) (q2_nl l)
         0 0 0 0 (q2_cluster l) (q2_area l) (q2_fb l) (q2_nb l).

(** common/bspfile_q1.cc:38-53: head nodes 8 -> 4 and back, int32 to int32. *)
Definition to_q1_model (m : dmodel) : res dmodel :=
  h <- array_cast (numeric_cast i32 i32) 4 (dm_head m) ;;
  ROk (mkModel (dm_mn m) (dm_mx m) (dm_org m) h (dm_vis m) (dm_ff m) (dm_nf m)).
Definition of_q1_model (m : dmodel) : res dmodel :=
  h <- array_cast (numeric_cast i32 i32) 8 (dm_head m) ;;
  ROk (mkModel (dm_mn m) (dm_mx m) (dm_org m) h (dm_vis m) (dm_ff m) (dm_nf m)).
(** common/bspfile_q2.cc:38-53 *)
Definition to_q2_model (m : dmodel) : res q2model :=
  ROk (mkQ2Model (dm_mn m) (dm_mx m) (dm_org m) (nth 0 (dm_head m) 0) (dm_ff m) (dm_nf m)).
Definition of_q2_model (m : q2model) : dmodel :=
  mkModel (qm_mn m) (qm_mx m) (qm_org m) (qm_head m :: repeat 0 7) 0 (qm_ff m) (qm_nf m).

(** common/bspfile_q1.cc:161-171: back, value, texture and nexttexinfo take their defaults. *)
Definition to_q1_tex (t : mtexinfo) : res q1tex := ROk (mkQ1Tex (mt_vecs t) (mt_miptex t) (mt_flags t)).
Definition of_q1_tex (t : q1tex) : mtexinfo :=
  mkMTex (qt_vecs t) (qt_flags t) (qt_miptex t) 0 (repeat 0 32) (-1).
(** common/bspfile_q2.cc:95-108 *)
Definition to_q2_tex (t : mtexinfo) : res q2tex :=
  ROk (mkQ2Tex (mt_vecs t) (mt_flags t) (mt_value t) (mt_name t) (mt_next t)).
Definition of_q2_tex (t : q2tex) : mtexinfo :=
  mkMTex (q2t_vecs t) (q2t_flags t) (-1) (q2t_value t) (q2t_name t) (q2t_next t).

(** common/bspfile_q2.cc:239-248 *)
Definition to_q2_side (s : dbrushside) : res dbrushside :=
  p <- numeric_cast u16 u32 (bs_plane s) ;; t <- numeric_cast i16 i32 (bs_tex s) ;; ROk (mkSide p t).

(** CopyArray of edges and index lists (common/bspfile.cc:1766-1811) *)
Definition to_edge16 (e : dedge) : res dedge :=
  a <- numeric_cast u16 u32 (e_0 e) ;; b <- numeric_cast u16 u32 (e_1 e) ;; ROk (mkEdge a b).
Definition to_index16 (v : Z) : res Z := numeric_cast u16 u32 v.

(** sizeof of a struct with these scalar members (natural alignment, x86-64 psABI), as used in
    the lump tables (common/bspfile.cc:1576-1738). *)
Definition align_up (n a : nat) : nat := ((n + (a - 1)) / a * a)%nat.
Definition c_sizeof (ts : list ity) : nat :=
  align_up (fold_left (fun off t => (align_up off (it_bytes t) + it_bytes t)%nat) ts 0%nat)
           (fold_left (fun m t => Nat.max m (it_bytes t)) ts 1%nat).
