(* Whole BSPs between the generic form and the formats: ConvertBSPFormat (common/bspfile.cc:1756-1980)
   and the choice of the written format in qbsp (qbsp/writebsp.cc:460-530). *)
From Coq Require Import List Arith NArith ZArith Bool.
Import ListNotations.
From Verif Require Import Base Codec NumCastModel BspRecModel BspFileModel.
Local Open Scope Z_scope.

(** mbsp_t (include/common/bspfile_generic.hh); [T] is the type of the texture lump. *)
Record mbsp (T : Type) := mkGen {
  g_ents : list N; g_planes : list dplane; g_tex : T; g_verts : list vec; g_vis : mvis;
  g_nodes : list node; g_texinfo : list mtexinfo; g_faces : list face; g_light : list N;
  g_clips : list clipnode; g_leafs : list mleaf; g_leaffaces : list Z; g_leafbrushes : list Z;
  g_edges : list dedge; g_surfedges : list Z; g_models : list dmodel; g_brushes : list dbrush;
  g_sides : list dbrushside; g_areas : list darea; g_areaportals : list dareaportal }.
Arguments mkGen {T}. Arguments g_ents {T}. Arguments g_planes {T}. Arguments g_tex {T}. Arguments g_verts {T}.
Arguments g_vis {T}. Arguments g_nodes {T}. Arguments g_texinfo {T}. Arguments g_faces {T}.
Arguments g_light {T}. Arguments g_clips {T}. Arguments g_leafs {T}. Arguments g_leaffaces {T}.
Arguments g_leafbrushes {T}. Arguments g_edges {T}. Arguments g_surfedges {T}. Arguments g_models {T}.
Arguments g_brushes {T}. Arguments g_sides {T}. Arguments g_areas {T}. Arguments g_areaportals {T}.

(** CopyArray (common/bspfile.cc:1763-1811): element after element, the first conversion that
    throws ends it. *)
Fixpoint rmap {A B} (f : A -> res B) (l : list A) : res (list B) :=
  match l with
  | [] => ROk []
  | a :: t => b <- f a ;; r <- rmap f t ;; ROk (b :: r)
  end.

(** The element conversions CopyArray picks, by the record types of the formats
    (include/common/bspfile_q1.hh, bspfile_q2.hh). *)
Definition gen_node (v : ver) : node -> node :=
  match v with VBsp2 | VH2Bsp2 | VQbism => fun n => n | _ => of_node16 end.
Definition fmt_node (v : ver) : node -> res node :=
  match v with
  | VQ1 | VH2 | VHl => to_bsp29_node | VRmq | VH2Rmq => to_rmq_node | VQ2 => to_q2_node
  | VBsp2 | VH2Bsp2 | VQbism => @ROk node
  end.
Definition fmt_face (v : ver) : face -> res face :=
  match v with VQ1 | VH2 | VHl => to_bsp29_face | VQ2 => to_q2_face | VQbism => to_qbism_face | _ => to_bsp2_face end.
Definition gen_clip (v : ver) : clipnode -> clipnode :=
  match v with VQ1 | VH2 | VHl => of_bsp29_clip | _ => fun c => c end.
Definition fmt_clip (v : ver) : clipnode -> res clipnode :=
  match v with VQ1 | VH2 | VHl => to_bsp29_clip | _ => @ROk clipnode end.
Definition gen_q1leaf (v : ver) : q1leaf -> mleaf :=
  match v with VBsp2 | VH2Bsp2 => of_bsp2_leaf | _ => of_q1leaf16 end.
Definition fmt_q1leaf (v : ver) : mleaf -> res q1leaf :=
  match v with VQ1 | VH2 | VHl => to_bsp29_leaf | VRmq | VH2Rmq => to_rmq_leaf | _ => to_bsp2_leaf end.
Definition gen_q2leaf (v : ver) : q2leaf -> mleaf := match v with VQ2 => of_q2_leaf | _ => of_qbism_leaf end.
Definition fmt_q2leaf (v : ver) : mleaf -> res q2leaf := match v with VQ2 => to_q2_leaf | _ => to_qbism_leaf end.
Definition fmt_index (v : ver) : Z -> res Z := if v_wide v then @ROk Z else to_index16.
Definition fmt_edge (v : ver) : dedge -> res dedge := if v_wide v then @ROk dedge else to_edge16.
Definition fmt_side (v : ver) : dbrushside -> res dbrushside := match v with VQ2 => to_q2_side | _ => @ROk dbrushside end.
Definition gen_model (v : ver) : dmodel -> res dmodel := if is_h2 v then @ROk dmodel else of_q1_model.
Definition fmt_model (v : ver) : dmodel -> res dmodel := if is_h2 v then @ROk dmodel else to_q1_model.

(** ConvertQ1BSPToGeneric (common/bspfile.cc:1814-1838): the members Quake does not have keep the
    values of mbsp_t{}. *)
Definition gen_of_q1 {T} (v : ver) (b : q1bsp T) : res (mbsp T) :=
  models <- rmap (gen_model v) (b1_models b) ;;
  ROk (mkGen (b1_ents b) (b1_planes b) (b1_tex b) (b1_verts b) (mkVis [] (b1_vis b))
         (map (gen_node v) (b1_nodes b)) (map of_q1_tex (b1_texinfo b)) (map of_face (b1_faces b))
         (b1_light b) (map (gen_clip v) (b1_clips b)) (map (gen_q1leaf v) (b1_leafs b))
         (b1_marks b) [] (b1_edges b) (b1_surfedges b) models [] [] [] []).

(** ConvertQ2BSPToGeneric (1841-1864); [t0] is the empty texture lump. *)
Definition gen_of_q2 {T} (t0 : T) (v : ver) (b : q2bsp) : mbsp T :=
  mkGen (b2_ents b) (b2_planes b) t0 (b2_verts b) (b2_vis b)
    (map (gen_node v) (b2_nodes b)) (map of_q2_tex (b2_texinfo b)) (map of_face (b2_faces b))
    (b2_light b) [] (map (gen_q2leaf v) (b2_leafs b)) (b2_leaffaces b) (b2_leafbrushes b)
    (b2_edges b) (b2_surfedges b) (map of_q2_model (b2_models b)) (b2_brushes b) (b2_sides b)
    (b2_areas b) (b2_areaportals b).

(** ConvertGenericToQ1BSP (1867-1895) *)
Definition q1_of_gen {T} (v : ver) (g : mbsp T) : res (q1bsp T) :=
  nodes <- rmap (fmt_node v) (g_nodes g) ;; ti <- rmap to_q1_tex (g_texinfo g) ;;
  faces <- rmap (fmt_face v) (g_faces g) ;; clips <- rmap (fmt_clip v) (g_clips g) ;;
  leafs <- rmap (fmt_q1leaf v) (g_leafs g) ;; marks <- rmap (fmt_index v) (g_leaffaces g) ;;
  edges <- rmap (fmt_edge v) (g_edges g) ;; models <- rmap (fmt_model v) (g_models g) ;;
  ROk (mkQ1 (g_ents g) (g_planes g) (g_tex g) (g_verts g) (mv_bits (g_vis g)) nodes ti faces (g_light g)
         clips leafs marks edges (g_surfedges g) models).

(** ConvertGenericToQ2BSP (1898-1925) *)
Definition q2_of_gen {T} (v : ver) (g : mbsp T) : res q2bsp :=
  nodes <- rmap (fmt_node v) (g_nodes g) ;; ti <- rmap to_q2_tex (g_texinfo g) ;;
  faces <- rmap (fmt_face v) (g_faces g) ;; leafs <- rmap (fmt_q2leaf v) (g_leafs g) ;;
  lf <- rmap (fmt_index v) (g_leaffaces g) ;; lb <- rmap (fmt_index v) (g_leafbrushes g) ;;
  edges <- rmap (fmt_edge v) (g_edges g) ;; models <- rmap to_q2_model (g_models g) ;;
  sides <- rmap (fmt_side v) (g_sides g) ;;
  ROk (mkQ2 (g_ents g) (g_planes g) (g_verts g) (g_vis g) nodes ti faces (g_light g) leafs lf lb edges
         (g_surfedges g) models (g_brushes g) sides (g_areas g) (g_areaportals g)).

Definition to_generic {T} (t0 : T) (v : ver) (b : bspv T) : res (mbsp T) :=
  match b with B1 b => gen_of_q1 v b | B2 b => ROk (gen_of_q2 t0 v b) end.
Definition to_format {T} (v : ver) (g : mbsp T) : res (bspv T) :=
  if is_q2 v then b <- q2_of_gen v g ;; ROk (B2 b) else b <- q1_of_gen v g ;; ROk (B1 b).

(** bspdata_t (include/common/bspfile.hh): version and loadversion, [None] for bspver_generic (and
    for a loadversion that is not set), and the variant bsp. *)
Inductive anybsp (T : Type) := AGen (g : mbsp T) | AFmt (b : bspv T).
Arguments AGen {T} _. Arguments AFmt {T} _.
Record bspdata (T : Type) := mkData { d_ver : option ver; d_load : option ver; d_bsp : anybsp T }.
Arguments mkData {T}. Arguments d_ver {T}. Arguments d_load {T}. Arguments d_bsp {T}.

(** ConvertBSPFormat (1927-1980): the returned bool and the bspdata_t left behind.  Only
    std::overflow_error is caught; the conversions to the generic form are outside the try. *)
Definition ver_eq_dec (a b : ver) : {a = b} + {a <> b}.
Proof. decide equality. Defined.
Definition over_eq_dec (a b : option ver) : {a = b} + {a <> b}.
Proof. decide equality. apply ver_eq_dec. Defined.
Definition convert {T} (t0 : T) (d : bspdata T) (to : option ver) : res (bool * bspdata T) :=
  if over_eq_dec (d_ver d) to then ROk (true, d)
  else match to with
       | None =>
         match d_ver d, d_bsp d with
         | Some v, AFmt b => g <- to_generic t0 v b ;; ROk (true, mkData None (d_ver d) (AGen g))
         | _, _ => ROk (false, d)
         end
       | Some v =>
         match d_ver d with
         | Some _ => ROk (false, d)
         | None =>
           match d_bsp d with
           | AFmt _ => RThrow
           | AGen g => match to_format v g with
                       | ROk b => ROk (true, mkData (Some v) (d_load d) (AFmt b))
                       | RThrow => ROk (false, d)
                       | RUB => RUB
                       end
           end
         end
       end.

(** bspversion_t::extended_limits (common/bspfile.cc:1574-1735) *)
Definition extended_limits (v : ver) : option ver :=
  match v with VQ1 => Some VBsp2 | VH2 => Some VH2Bsp2 | VQ2 => Some VQbism | _ => None end.

(** Is16BitMarkfsurfaceFormat (qbsp/writebsp.cc:460-468): the entry "marksurfaces" or "leaffaces"
    of the lump table has size 2. *)
Definition narrow_marks (v : ver) : bool := spec_size v (if is_q2 v then 9 else 11) =? 2.

(** WriteBSPFile of qbsp (475-526) up to the writing: [RThrow] is FError or a failed Q_assert. *)
Definition qbsp_write {T} (t0 : T) (target : ver) (allow_upgrade : bool) (g : mbsp T) : res (bspdata T) :=
  r <- convert t0 (mkData None None (AGen g)) (Some target) ;;
  d <- (if fst r then ROk (snd r)
        else match extended_limits target with
             | None => RThrow
             | Some e =>
               if negb allow_upgrade then RThrow
               else q <- convert t0 (snd r) (Some e) ;; if fst q then ROk (snd q) else RThrow
             end) ;;
  match d_ver d with
  | Some v => if narrow_marks v && (32768 <? Z.of_nat (length (g_faces g))) && negb allow_upgrade then RThrow
              else ROk d
  | None => RThrow
  end.
