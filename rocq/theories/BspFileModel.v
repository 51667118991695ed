(* BSP files: memory streams (common/cmdlib.cc), the lump writer and reader, the header, the BSPX
   section, the texture lump and the Quake II visibility lump (common/bspfile.cc,
   common/bspfile_generic.cc, common/bspxfile.cc).

   A file is the list of its bytes.  [RThrow] stands for every refusal (FError, Error, a failing
   Q_assert, std::length_error); [RUB] for an access outside the memory of the file or the use of
   a value that was never read. *)
From Coq Require Import List Arith NArith ZArith Bool.
Import ListNotations.
From Verif Require Import Base Codec NumCastModel BspRecModel.
Local Open Scope Z_scope.

(** ** Memory streams *)

(** membuf with the state of the std::istream over it: the offset of gptr() and !fail(). *)
Record mstate := mkM { m_pos : Z; m_ok : bool }.

Definition slice (b : list N) (o n : Z) : list N := firstn (Z.to_nat n) (skipn (Z.to_nat o) b).
Definition size (b : list N) : Z := Z.of_nat (length b).

(** membuf::xsgetn (common/cmdlib.cc:206-219) on a get area of [b] with gptr() at [pos]: the value
    returned, the bytes copied to the caller, the new position.  The memcpy and the advance use
    [n], not the number of bytes that remain. *)
Definition xsgetn (b : list N) (pos n : Z) : res (Z * list N * Z) :=
  if pos =? size b then ROk (-1, [], pos)
  else let num_read := Z.min (size b - pos) n in
       if (0 <? n) && ((pos <? 0) || (size b <? pos + n)) then RUB
       else ROk (num_read, slice b pos n, pos + n).

(** membuf::xsputn (187-199) of the bytes [s]: the value returned, the buffer, the position. *)
Definition xsputn (b : list N) (pos : Z) (s : list N) : res (Z * list N * Z) :=
  if pos =? size b then ROk (-1, b, pos)
  else let num_write := Z.min (size b - pos) (size s) in
       if (0 <? size s) && ((pos <? 0) || (size b <? pos + size s)) then RUB
       else ROk (num_write, slice b 0 pos ++ s ++ slice b (pos + size s) (size b), pos + size s).

(** std::istream::read: nothing when the stream has failed; fails when xsgetn does not return the
    number of bytes asked for. *)
Definition mread (b : list N) (n : Z) (st : mstate) : res (option (list N) * mstate) :=
  if negb (m_ok st) then ROk (None, st)
  else r <- xsgetn b (m_pos st) n ;;
       let '(got, bytes, pos) := r in
       ROk (if got =? n then (Some bytes, mkM pos true) else (None, mkM pos false)).

(** std::istream::seekg over membuf::seekpos (151-166): no effect on a failed stream; the position
    is not checked, but the result -1 means failure. *)
Definition mseek (o : Z) (st : mstate) : mstate :=
  if negb (m_ok st) then st else mkM o (negb (o =? -1)).

(** ** Reading records *)

(** One read per field (include/common/cmdlib.hh:375-495). *)
Fixpoint mfields (b : list N) (ts : list ity) (st : mstate) : res (option (list Z) * mstate) :=
  match ts with
  | [] => ROk (Some [], st)
  | t :: ts' =>
    r <- mread b (Z.of_nat (it_bytes t)) st ;;
    match fst r with
    | None => ROk (None, snd r)
    | Some bs => match get_field t bs with
                 | None => RUB
                 | Some (v, _) =>
                   q <- mfields b ts' (snd r) ;;
                   ROk (match fst q with Some vs => Some (v :: vs) | None => None end, snd q)
                 end
    end
  end.

Definition mrec {A} (b : list N) (c : rcodec A) (st : mstate) : res (option A * mstate) :=
  r <- mfields b (rc_types c) st ;;
  match fst r with
  | None => ROk (None, snd r)
  | Some vs => match rc_build c vs with None => RUB | Some a => ROk (Some a, snd r) end
  end.

Fixpoint mrecs {A} (b : list N) (c : rcodec A) (n : nat) (st : mstate) : res (option (list A) * mstate) :=
  match n with
  | O => ROk (Some [], st)
  | S k => r <- mrec b c st ;;
           match fst r with
           | None => ROk (None, snd r)
           | Some a => q <- mrecs b c k (snd r) ;;
                       ROk (match fst q with Some l => Some (a :: l) | None => None end, snd q)
           end
  end.

(** The final Q_assert of the lump readers: a failed stream is refused. *)
Definition asserted {A} (r : option A * mstate) : res A :=
  match fst r with Some a => if m_ok (snd r) then ROk a else RThrow | None => RThrow end.

(** lump_reader::read of a vector of records (common/bspfile.cc:2047-2084), [spec] the entry size
    in the version's lump table.  A negative filelen becomes a huge size_t: not a multiple, or
    refused by reserve. *)
Definition read_records {A} (b : list N) (spec : Z) (c : rcodec A) (lu : lump) : res (list A) :=
  if negb (Z.of_nat (c_sizeof (rc_types c)) =? spec) then RThrow
  else if lu_len lu <? 0 then RThrow
  else if negb (lu_len lu mod spec =? 0) then RThrow
  else if lu_len lu =? 0 then ROk []
  else r <- mrecs b c (Z.to_nat (lu_len lu / spec)) (mseek (lu_ofs lu) (mkM 0 true)) ;; asserted r.

(** lump_reader::read of a vector of bytes (the same function, lumpspec.size == 1). *)
Definition read_raw (b : list N) (lu : lump) : res (list N) :=
  if lu_len lu <? 0 then RThrow
  else if lu_len lu =? 0 then ROk []
  else r <- mread b (lu_len lu) (mseek (lu_ofs lu) (mkM 0 true)) ;; asserted r.

(** lump_reader::read of a string (2086-2114): one trailing NUL is dropped. *)
Definition chop_nul (s : list N) : list N :=
  match rev s with 0%N :: t => rev t | _ => s end.
Definition read_string (b : list N) (lu : lump) : res (list N) :=
  r <- read_raw b lu ;; ROk (chop_nul r).

(** ** Texture lump *)

(** miptex_t: null_texture and the data; name, width, height and offsets are read from the data
    and not written. *)
Record miptex := mkTexD { mx_null : bool; mx_data : list N }.

(** dmiptexlump_t::stream_write at file position [p] (common/bspfile_generic.cc:187-226). *)
Definition pad4 (n : nat) : nat := if (n mod 4 =? 0)%nat then 0%nat else (4 - n mod 4)%nat.
Fixpoint tex_offsets (p header off : nat) (l : list miptex) : list Z :=
  match l with
  | [] => []
  | t :: l' => if mx_null t then -1 :: tex_offsets p header off l'
               else let off1 := (off + length (mx_data t))%nat in
                    it_wrap i32 (Z.of_nat (header + off))
                    :: tex_offsets p header (off1 + pad4 (p + off1)) l'
  end.
Fixpoint tex_data (pos : nat) (l : list miptex) : list N :=
  match l with
  | [] => []
  | t :: l' => if mx_null t then tex_data pos l'
               else repeat 0%N (pad4 pos) ++ mx_data t
                    ++ tex_data (pos + pad4 pos + length (mx_data t)) l'
  end.
Definition tex_write (p : nat) (l : list miptex) : list N :=
  let header := (4 + 4 * length l)%nat in
  put_fields [(i32, it_wrap i32 (Z.of_nat (length l)))]
  ++ put_fields (map (fun o => (i32, o)) (tex_offsets p header 0 l))
  ++ tex_data (p + header) l.

(** The names of dmiptex_t and bspx_lump_t as C strings: [None] without a terminating NUL, where
    the constructor of std::string reads on past the array. *)
Fixpoint cstr (l : list Z) : option (list N) :=
  match l with
  | [] => None
  | c :: t => if c =? 0 then Some [] else match cstr t with Some s => Some (Z.to_N c :: s) | None => None end
  end.

(** The fields of a miptex taken from its data (miptex_t::stream_read, common/bspfile_generic.cc:111-125)
    through an imemstream over the data; a failed read leaves them indeterminate. *)
Record mipinfo := mkInfo { ip_name : list N; ip_w : Z; ip_h : Z; ip_ofs : list Z }.
Definition mip_parse (data : list N) : res mipinfo :=
  r <- mrec data dmiptex_codec (mkM 0 true) ;;
  match fst r with
  | None => RUB
  | Some m => match cstr (mi_name m) with
              | None => RUB
              | Some s => ROk (mkInfo s (mi_w m) (mi_h m) (mi_ofs m))
              end
  end.

(** The scan for the next non-negative offset (159-172); [len] is the lump's filelen. *)
Fixpoint next_offset (l : list Z) (len : Z) : Z :=
  match l with [] => len | o :: t => if 0 <=? o then o else next_offset t len end.

(** A texture as read: the data and what was parsed from it; [None] if nothing was read, when name
    is empty and the other members keep whatever they had. *)
Record rmip := mkRMip { rm_null : bool; rm_data : list N; rm_info : option mipinfo }.

(** The loop of dmiptexlump_t::stream_read (142-184). A failed read leaves the data zero. *)
Fixpoint tex_read_loop (b : list N) (lu : lump) (ofs : list Z) (st : mstate) : res (list rmip * mstate) :=
  match ofs with
  | [] => ROk ([], st)
  | o :: t =>
    if o <? 0 then
      q <- tex_read_loop b lu t st ;; ROk (mkRMip true [] None :: fst q, snd q)
    else
      let st1 := mseek (lu_ofs lu + o) st in
      let nx := next_offset t (lu_len lu) in
      if o <? nx then
        r <- mread b (nx - o) st1 ;;
        let data := match fst r with Some d => d | None => repeat 0%N (Z.to_nat (nx - o)) end in
        i <- mip_parse data ;;
        q <- tex_read_loop b lu t (snd r) ;; ROk (mkRMip false data (Some i) :: fst q, snd q)
      else q <- tex_read_loop b lu t st1 ;; ROk (mkRMip false [] None :: fst q, snd q)
  end.

(** The offsets (137-140): the vector is zero-initialized, so a failed read leaves zero. *)
Fixpoint tex_read_offsets (b : list N) (n : nat) (st : mstate) : res (list Z * mstate) :=
  match n with
  | O => ROk ([], st)
  | S k => r <- mfields b [i32] st ;;
           q <- tex_read_offsets b k (snd r) ;;
           ROk (match fst r with Some [v] => v | _ => 0 end :: fst q, snd q)
  end.

(** dmiptexlump_t::stream_read (134-185). A negative count is refused by the vector constructor;
    [n] fits memory. *)
Definition tex_read (b : list N) (lu : lump) (st : mstate) : res (list rmip * mstate) :=
  r <- mfields b [i32] st ;;
  match fst r with
  | None => RUB
  | Some vs =>
    let n := nth 0 vs 0 in
    if n <? 0 then RThrow
    else q <- tex_read_offsets b (Z.to_nat n) (snd r) ;; tex_read_loop b lu (fst q) (snd q)
  end.

(** lump_reader::read of a struct (common/bspfile.cc:2116-2135). *)
Definition read_textures (b : list N) (lu : lump) : res (list rmip) :=
  if lu_len lu =? 0 then ROk []
  else r <- tex_read b lu (mseek (lu_ofs lu) (mkM 0 true)) ;;
       if m_ok (snd r) then ROk (fst r) else RThrow.

(** ** Quake II visibility lump *)

(** mvis_t: two bit offsets per cluster and the bits. *)
Record mvis := mkVis { mv_ofs : list dedge; mv_bits : list N }.

(** common/bspfile_generic.cc:37-51; [vt] is true for VIS_PHS. *)
Definition header_offset (v : mvis) : Z := 4 + 4 * Z.of_nat (length (mv_ofs v)) * 2.
Definition set_bit_offset (v : mvis) (vt : bool) (c : nat) (o : Z) : res mvis :=
  match nth_error (mv_ofs v) c with
  | None => RUB
  | Some e =>
    let x := it_wrap i32 (it_wrap u64 (o + header_offset v)) in
    match upd (mv_ofs v) c (if vt then mkEdge (e_0 e) x else mkEdge x (e_1 e)) with
    | None => RUB
    | Some l => ROk (mkVis l (mv_bits v))
    end
  end.
Definition get_bit_offset (v : mvis) (vt : bool) (c : nat) : res Z :=
  match nth_error (mv_ofs v) c with
  | None => RUB
  | Some e => ROk (it_wrap i32 (it_wrap u64 ((if vt then e_1 e else e_0 e) - header_offset v)))
  end.

(** mvis_t::stream_write (78-92) and stream_read (58-76). *)
Definition vis_write (v : mvis) : list N :=
  match mv_ofs v with
  | [] => []
  | _ => put_fields [(i32, it_wrap i32 (Z.of_nat (length (mv_ofs v))))]
         ++ put_list (rc_put (edge_codec i32)) (mv_ofs v) ++ mv_bits v
  end.
Definition vis_read (b : list N) (lu : lump) (st : mstate) : res (option mvis * mstate) :=
  r <- mfields b [i32] st ;;
  match fst r with
  | None => RUB
  | Some vs =>
    let n := nth 0 vs 0 in
    if n <? 0 then RThrow
    else q <- mrecs b (edge_codec i32) (Z.to_nat n) (snd r) ;;
         match fst q with
         | None => RThrow
         | Some ofs =>
           let remaining := lu_len lu - (m_pos (snd q) - lu_ofs lu) in
           if remaining <? 0 then RThrow
           else s <- mread b remaining (snd q) ;;
                ROk (match fst s with Some bits => Some (mkVis ofs bits) | None => None end, snd s)
         end
  end.
Definition read_vis (b : list N) (lu : lump) : res mvis :=
  if lu_len lu =? 0 then ROk (mkVis [] [])
  else r <- vis_read b lu (mseek (lu_ofs lu) (mkM 0 true)) ;; asserted r.

(** ** Versions *)

Inductive ver := VQ1 | VBsp2 | VRmq | VH2 | VH2Bsp2 | VH2Rmq | VHl | VQ2 | VQbism.

(** common/bspfile.cc:1574-1735: ident and version.  29, 30, 'BSP2', '2PSB', 'IBSP', 'QBSP'. *)
Definition ver_ident (v : ver) : Z :=
  match v with
  | VQ1 | VH2 => 29 | VHl => 30
  | VBsp2 | VH2Bsp2 => 0x32505342
  | VRmq | VH2Rmq => 0x42535032
  | VQ2 => 0x50534249 | VQbism => 0x50534251
  end.
Definition ver_num (v : ver) : option Z := match v with VQ2 | VQbism => Some 38 | _ => None end.
Definition is_h2 (v : ver) : bool := match v with VH2 | VH2Bsp2 | VH2Rmq => true | _ => false end.
Definition is_q2 (v : ver) : bool := match v with VQ2 | VQbism => true | _ => false end.

(** The sizes in the lump tables (1576-1735), in the order of the lump numbers. *)
Definition ver_spec (v : ver) : list Z :=
  match v with
  | VQ1 | VHl => [1; 20; 1; 12; 1; 24; 40; 20; 1; 8; 28; 2; 4; 4; 64]
  | VBsp2 => [1; 20; 1; 12; 1; 44; 40; 28; 1; 12; 44; 4; 8; 4; 64]
  | VRmq => [1; 20; 1; 12; 1; 32; 40; 28; 1; 12; 32; 4; 8; 4; 64]
  | VH2 => [1; 20; 1; 12; 1; 24; 40; 20; 1; 8; 28; 2; 4; 4; 80]
  | VH2Bsp2 => [1; 20; 1; 12; 1; 44; 40; 28; 1; 12; 44; 4; 8; 4; 80]
  | VH2Rmq => [1; 20; 1; 12; 1; 32; 40; 28; 1; 12; 32; 4; 8; 4; 80]
  | VQ2 => [1; 20; 12; 1; 28; 76; 20; 1; 28; 2; 2; 4; 4; 48; 12; 4; 1; 8; 8]
  | VQbism => [1; 20; 12; 1; 44; 76; 28; 1; 52; 4; 4; 8; 4; 48; 12; 8; 1; 8; 8]
  end.
Definition nlumps (v : ver) : nat := length (ver_spec v).
Definition spec_size (v : ver) (i : nat) : Z := nth i (ver_spec v) 0.

(** The record types of the formats (include/common/bspfile_q1.hh, bspfile_q2.hh). *)
Definition v_node (v : ver) : rcodec node :=
  match v with VQ1 | VH2 | VHl => bsp29_node | VBsp2 | VH2Bsp2 | VQbism => bsp2_node
  | VRmq | VH2Rmq => rmq_node | VQ2 => q2_node end.
Definition v_face (v : ver) : rcodec face :=
  match v with VQ1 | VH2 | VHl => bsp29_face | VQ2 => q2_face | VQbism => qbism_face | _ => bsp2_face end.
Definition v_clip (v : ver) : rcodec clipnode :=
  match v with VQ1 | VH2 | VHl => bsp29_clip | _ => bsp2_clip end.
Definition v_q1leaf (v : ver) : rcodec q1leaf :=
  match v with VQ1 | VH2 | VHl => bsp29_leaf | VRmq | VH2Rmq => rmq_leaf | _ => bsp2_leaf end.
Definition v_q2leaf (v : ver) : rcodec q2leaf := match v with VQ2 => q2_leaf | _ => qbism_leaf end.
Definition v_wide (v : ver) : bool := match v with VQ1 | VH2 | VHl | VQ2 => false | _ => true end.
Definition v_int (v : ver) : rcodec Z := int_codec (if v_wide v then u32 else u16).
Definition v_edge (v : ver) : rcodec dedge := edge_codec (if v_wide v then u32 else u16).
Definition v_side (v : ver) : rcodec dbrushside := match v with VQ2 => q2_side | _ => qbism_side end.
Definition v_model (v : ver) : rcodec dmodel := if is_h2 v then h2_model else q1_model.

(** bsp29_t, bsp2rmq_t, bsp2_t *)
Record q1bsp (T : Type) := mkQ1 {
  b1_ents : list N; b1_planes : list dplane; b1_tex : T; b1_verts : list vec; b1_vis : list N;
  b1_nodes : list node; b1_texinfo : list q1tex; b1_faces : list face; b1_light : list N;
  b1_clips : list clipnode; b1_leafs : list q1leaf; b1_marks : list Z; b1_edges : list dedge;
  b1_surfedges : list Z; b1_models : list dmodel }.
Arguments mkQ1 {T}. Arguments b1_ents {T}. Arguments b1_planes {T}. Arguments b1_tex {T}. Arguments b1_verts {T}.
Arguments b1_vis {T}. Arguments b1_nodes {T}. Arguments b1_texinfo {T}. Arguments b1_faces {T}.
Arguments b1_light {T}. Arguments b1_clips {T}. Arguments b1_leafs {T}. Arguments b1_marks {T}.
Arguments b1_edges {T}. Arguments b1_surfedges {T}. Arguments b1_models {T}.
(** q2bsp_t, q2bsp_qbism_t *)
Record q2bsp := mkQ2 {
  b2_ents : list N; b2_planes : list dplane; b2_verts : list vec; b2_vis : mvis; b2_nodes : list node;
  b2_texinfo : list q2tex; b2_faces : list face; b2_light : list N; b2_leafs : list q2leaf;
  b2_leaffaces : list Z; b2_leafbrushes : list Z; b2_edges : list dedge; b2_surfedges : list Z;
  b2_models : list q2model; b2_brushes : list dbrush; b2_sides : list dbrushside;
  b2_areas : list darea; b2_areaportals : list dareaportal }.

(** The variant in bspdata_t. [T] is the type of the texture lump: written or read textures. *)
Inductive bspv (T : Type) := B1 (b : q1bsp T) | B2 (b : q2bsp).
Arguments B1 {T} _. Arguments B2 {T} _.
(** std::unordered_map of BSPX lumps, as the list of its entries in iteration order. *)
Definition bspx := list (list N * list N).

(** ** Writing *)

(** std::ofstream: what has been written and the put position; writing inside the file
    overwrites. *)
Record ostate := mkO { o_data : list N; o_pos : nat }.
Definition owrite (bs : list N) (s : ostate) : ostate :=
  mkO (firstn (o_pos s) (o_data s) ++ bs ++ skipn (o_pos s + length bs) (o_data s)) (o_pos s + length bs).
Definition oseek (p : nat) (s : ostate) : ostate := mkO (o_data s) p.

(** One lump to write: its number, the bytes of its data at a file position, and the size the
    vector overloads assert. *)
Record wlump := mkW { w_idx : nat; w_bytes : nat -> list N; w_expect : option Z }.

(** write_lump (common/bspfile.cc:2336-2431). fileofs and the positions are narrowed to int32_t,
    the difference of two int32_t may overflow. *)
Definition write_lump (w : wlump) (x : ostate * list lump) : res (ostate * list lump) :=
  let '(s, hdr) := x in
  let fileofs := it_wrap i32 (Z.of_nat (o_pos s)) in
  let s1 := owrite (w_bytes w (o_pos s)) s in
  let written := it_wrap i32 (Z.of_nat (o_pos s1)) - fileofs in
  if negb (it_in i32 written) then RUB
  else if match w_expect w with Some e => negb (it_wrap u64 written =? e) | None => false end then RThrow
  else let s2 := if Z.rem written 4 =? 0 then s1
                 else owrite (repeat 0%N (Z.to_nat (4 - Z.rem written 4))) s1 in
       match upd hdr (w_idx w) (mkLump fileofs written) with
       | None => RThrow
       | Some hdr' => ROk (s2, hdr')
       end.
Fixpoint write_lumps (l : list wlump) (x : ostate * list lump) : res (ostate * list lump) :=
  match l with [] => ROk x | w :: l' => y <- write_lump w x ;; write_lumps l' y end.

(** The overloads for a vector of records, of bytes, a string and a struct. *)
Definition w_recs {A} (v : ver) (i : nat) (c : rcodec A) (l : list A) : wlump :=
  mkW i (fun _ => put_list (rc_put c) l) (Some (spec_size v i * Z.of_nat (length l))).
Definition w_raw (i : nat) (l : list N) : wlump := mkW i (fun _ => l) (Some (size l)).
Definition w_str (i : nat) (l : list N) : wlump := mkW i (fun _ => l ++ [0%N]) (Some (size l + 1)).

(** write_bsp (2437-2483): the order of the lumps. *)
Definition q1_wlumps (v : ver) (b : q1bsp (list miptex)) : list wlump :=
  [w_recs v 1 plane_codec (b1_planes b); w_recs v 10 (v_q1leaf v) (b1_leafs b);
   w_recs v 3 vec_codec (b1_verts b); w_recs v 5 (v_node v) (b1_nodes b);
   w_recs v 6 q1_tex (b1_texinfo b); w_recs v 7 (v_face v) (b1_faces b);
   w_recs v 9 (v_clip v) (b1_clips b); w_recs v 11 (v_int v) (b1_marks b);
   w_recs v 13 (int_codec i32) (b1_surfedges b); w_recs v 12 (v_edge v) (b1_edges b);
   w_recs v 14 (v_model v) (b1_models b); w_raw 8 (b1_light b); w_raw 4 (b1_vis b);
   w_str 0 (b1_ents b); mkW 2 (fun p => tex_write p (b1_tex b)) None].
Definition q2_wlumps (v : ver) (b : q2bsp) : list wlump :=
  [w_recs v 1 plane_codec (b2_planes b); w_recs v 8 (v_q2leaf v) (b2_leafs b);
   w_recs v 2 vec_codec (b2_verts b); w_recs v 4 (v_node v) (b2_nodes b);
   w_recs v 5 q2_tex (b2_texinfo b); w_recs v 6 (v_face v) (b2_faces b);
   w_recs v 9 (v_int v) (b2_leaffaces b); w_recs v 12 (int_codec i32) (b2_surfedges b);
   w_recs v 11 (v_edge v) (b2_edges b); w_recs v 13 q2_model (b2_models b);
   w_recs v 10 (v_int v) (b2_leafbrushes b); w_recs v 14 brush_codec (b2_brushes b);
   w_recs v 15 (v_side v) (b2_sides b); w_recs v 17 area_codec (b2_areas b);
   w_recs v 18 areaportal_codec (b2_areaportals b); w_raw 7 (b2_light b);
   mkW 3 (fun _ => vis_write (b2_vis b)) None; w_str 0 (b2_ents b)].
Definition wlumps (v : ver) (b : bspv (list miptex)) : list wlump :=
  match b with B1 b => q1_wlumps v b | B2 b => q2_wlumps v b end.

(** dheader_t and q2_dheader_t (common/bspfile_q1.cc:26-34, bspfile_q2.cc:26-34) *)
Definition hdr_bytes (v : ver) (l : list lump) : list N :=
  put_fields ((i32, ver_ident v) :: match ver_num v with Some n => [(i32, n)] | None => [] end)
  ++ put_list (rc_put lump_codec) l.

(** write_bspx (2485-2523). *)
Definition xname (n : list N) : list Z :=
  let k := firstn 23 n in map Z.of_N k ++ repeat 0 (24 - length k).
Fixpoint write_xdata (l : bspx) (s : ostate) : ostate * list bspxlump :=
  match l with
  | [] => (s, [])
  | (n, d) :: l' =>
    let xl := mkBspxLump (xname n) (it_wrap u32 (Z.of_nat (o_pos s))) (it_wrap u32 (size d)) in
    let s1 := owrite (repeat 0%N (pad4 (length d))) (owrite d s) in
    let '(s2, r) := write_xdata l' s1 in (s2, xl :: r)
  end.
Definition write_bspx (l : bspx) (s : ostate) : res ostate :=
  match l with
  | [] => ROk s
  | _ =>
    if negb (o_pos s mod 4 =? 0)%nat then RThrow
    else let s1 := owrite (rc_put bspxhdr_codec (mkBspxHdr [66; 83; 80; 88] (it_wrap u32 (Z.of_nat (length l))))) s in
         let s2 := owrite (put_list (rc_put bspxlump_codec)
                             (map (fun _ => mkBspxLump (repeat 0 24) 0 0) l)) s1 in
         let '(s3, xl) := write_xdata l s2 in
         ROk (owrite (put_list (rc_put bspxlump_codec) xl) (oseek (o_pos s1) s3))
  end.

(** WriteBSPFile (2526-2574): the bytes of the file. *)
Definition write_file (v : ver) (b : bspv (list miptex)) (x : bspx) : res (list N) :=
  let zero := repeat (mkLump 0 0) (nlumps v) in
  let s0 := owrite (hdr_bytes v zero) (mkO [] 0) in
  r <- write_lumps (wlumps v b) (s0, zero) ;;
  s <- write_bspx x (fst r) ;;
  ROk (o_data (owrite (hdr_bytes v (snd r)) (oseek 0 s))).

(** ** Loading *)

(** ReadQ1BSP and ReadQ2BSP (2138-2182), [lu i] the directory entry of lump i. *)
Definition read_q1 (f : list N) (v : ver) (lu : nat -> lump) : res (q1bsp (list rmip)) :=
  let recs {A} (i : nat) (c : rcodec A) := read_records f (spec_size v i) c (lu i) in
  ents <- read_string f (lu 0%nat) ;; planes <- recs 1%nat plane_codec ;;
  tex <- read_textures f (lu 2%nat) ;; verts <- recs 3%nat vec_codec ;;
  vis <- read_raw f (lu 4%nat) ;; nodes <- recs 5%nat (v_node v) ;;
  ti <- recs 6%nat q1_tex ;; faces <- recs 7%nat (v_face v) ;;
  light <- read_raw f (lu 8%nat) ;; clips <- recs 9%nat (v_clip v) ;;
  leafs <- recs 10%nat (v_q1leaf v) ;; marks <- recs 11%nat (v_int v) ;;
  edges <- recs 12%nat (v_edge v) ;; se <- recs 13%nat (int_codec i32) ;;
  models <- recs 14%nat (v_model v) ;;
  ROk (mkQ1 ents planes tex verts vis nodes ti faces light clips leafs marks edges se models).
Definition read_q2 (f : list N) (v : ver) (lu : nat -> lump) : res q2bsp :=
  let recs {A} (i : nat) (c : rcodec A) := read_records f (spec_size v i) c (lu i) in
  ents <- read_string f (lu 0%nat) ;; planes <- recs 1%nat plane_codec ;;
  verts <- recs 2%nat vec_codec ;; vis <- read_vis f (lu 3%nat) ;;
  nodes <- recs 4%nat (v_node v) ;; ti <- recs 5%nat q2_tex ;;
  faces <- recs 6%nat (v_face v) ;; light <- read_raw f (lu 7%nat) ;;
  leafs <- recs 8%nat (v_q2leaf v) ;; lf <- recs 9%nat (v_int v) ;;
  lb <- recs 10%nat (v_int v) ;; edges <- recs 11%nat (v_edge v) ;;
  se <- recs 12%nat (int_codec i32) ;; models <- recs 13%nat q2_model ;;
  brushes <- recs 14%nat brush_codec ;; sides <- recs 15%nat (v_side v) ;;
  areas <- recs 17%nat area_codec ;; aps <- recs 18%nat areaportal_codec ;;
  ROk (mkQ2 ents planes verts vis nodes ti faces light leafs lf lb edges se models brushes sides areas aps).

(** BSPVersionSupported (1737-1754): the Hexen II versions are skipped. *)
Definition version_supported (ident : Z) (num : option Z) : option ver :=
  find (fun v => (ver_ident v =? ident)
                 && match ver_num v, num with
                    | Some a, Some b => a =? b | None, None => true | _, _ => false end)
       [VQ1; VBsp2; VRmq; VHl; VQ2; VQbism].

(** isHexen2 (1982-2039). The models are taken from memory at the lump's offset whether or not
    they lie in the file; filelen is converted to size_t for [%]. *)
Definition raw_i32 (f : list N) (o : Z) : res Z :=
  if (o <? 0) || (size f <? o + 4) then RUB
  else match get_field i32 (slice f o 4) with Some (v, _) => ROk v | None => RUB end.
Fixpoint heads_ok (f : list N) (o : Z) (n : nat) (limit : Z) : res bool :=
  match n with
  | O => ROk true
  | S k => h <- raw_i32 f o ;; if limit <=? h then ROk false else heads_ok f (o + 4) k limit
  end.
Definition h2_model_ok (f : list N) (o faces nodes leafs clips : Z) : res bool :=
  vl <- raw_i32 f (o + 68) ;;
  if (vl <? 0) || (leafs <? vl) then ROk false
  else nf <- raw_i32 f (o + 76) ;; if nf <? 0 then ROk false
  else ff <- raw_i32 f (o + 72) ;; if ff <? 0 then ROk false
  else if negb (it_in i32 (ff + nf)) then RUB
  else if faces <? ff + nf then ROk false
  else h0 <- raw_i32 f (o + 36) ;; if nodes <=? h0 then ROk false
  else heads_ok f (o + 40) 7 clips.
Fixpoint h2_models_ok (f : list N) (o : Z) (n : nat) (faces nodes leafs clips : Z) : res bool :=
  match n with
  | O => ROk true
  | S k => r <- h2_model_ok f o faces nodes leafs clips ;;
           if r then h2_models_ok f (o + 80) k faces nodes leafs clips else ROk false
  end.
Definition is_hexen2 (f : list N) (v : ver) (lu : nat -> lump) : res bool :=
  let len := it_wrap u64 (lu_len (lu 14%nat)) in
  if negb (len mod 80 =? 0) then ROk false
  else if negb (len mod 64 =? 0) then ROk true
  else let count i := Z.quot (lu_len (lu i)) (spec_size v i) in
       h2_models_ok f (lu_ofs (lu 14%nat)) (Z.to_nat (it_wrap i32 (len / 80)))
         (count 7%nat) (count 5%nat) (count 10%nat) (count 9%nat).
Definition to_h2 (v : ver) : ver := match v with VQ1 => VH2 | VBsp2 => VH2Bsp2 | VRmq => VH2Rmq | _ => v end.

(** entries.insert_or_assign (2184-2192). *)
Fixpoint assign (x : bspx) (n d : list N) : bspx :=
  match x with
  | [] => [(n, d)]
  | (k, e) :: t => if list_eq_dec N.eq_dec k n then (k, d) :: t else (k, e) :: assign t n d
  end.

(** The loop over the BSPX directory (2300-2315).  fileofs + filelen is a uint32_t; the copy uses
    the sum of the iterator and both.  A bad entry ends the loop with a warning. *)
Fixpoint read_xlumps (f : list N) (n : nat) (st : mstate) (acc : bspx) : res bspx :=
  match n with
  | O => ROk acc
  | S k =>
    r <- mrec f bspxlump_codec st ;;
    match fst r with
    | None => ROk acc
    | Some xl =>
      if (size f <? bl_ofs xl) || (size f <? it_wrap u32 (bl_ofs xl + bl_len xl)) then ROk acc
      else match cstr (bl_name xl) with
           | None => RUB
           | Some nm => if size f <? bl_ofs xl + bl_len xl then RUB
                        else read_xlumps f k (snd r) (assign acc nm (slice f (bl_ofs xl) (bl_len xl)))
           end
    end
  end.

(** The BSPX section (2278-2316). Each end is an int32_t sum converted to size_t. *)
Fixpoint bspx_ofs (l : list lump) (acc : Z) : res Z :=
  match l with
  | [] => ROk acc
  | x :: t => if negb (it_in i32 (lu_ofs x + lu_len x)) then RUB
              else bspx_ofs t (Z.max acc (it_wrap u64 (lu_ofs x + lu_len x)))
  end.
Definition read_bspx (f : list N) (dir : list lump) : res bspx :=
  e <- bspx_ofs dir 0 ;;
  let ofs := it_wrap u64 (e + 3) / 4 * 4 in
  if it_wrap u64 (ofs + 8) <=? size f then
    r <- mrec f bspxhdr_codec (mseek (it_wrap i64 ofs) (mkM 0 true)) ;;
    match fst r with
    | None => ROk []
    | Some h => if list_eq_dec Z.eq_dec (bh_id h) [66; 83; 80; 88]
                then read_xlumps f (Z.to_nat (bh_num h)) (snd r) [] else ROk []
    end
  else ROk [].

(** LoadBSPFile (2199-2317). *)
Definition lumps_of (l : list Z) : list lump :=
  (fix go (l : list Z) : list lump := match l with a :: b :: t => mkLump a b :: go t | _ => [] end) l.
Definition load_file (f : list N) : res (ver * bspv (list rmip) * bspx) :=
  i <- mfields f [i32] (mkM 0 true) ;;
  let ident := match fst i with Some vs => nth 0 vs 0 | None => 0 end in
  let st := mseek 0 (snd i) in
  if (ident =? ver_ident VQ2) || (ident =? ver_ident VQbism) then
    h <- mfields f (repeat i32 40) st ;;
    match fst h with
    | None => RUB
    | Some vs =>
      let dir := lumps_of (skipn 2 vs) in
      match version_supported ident (Some (nth 1 vs 0)) with
      | None => RThrow
      | Some v => b <- read_q2 f v (fun i => nth i dir (mkLump 0 0)) ;;
                  x <- read_bspx f dir ;; ROk (v, B2 b, x)
      end
    end
  else
    h <- mfields f (repeat i32 31) st ;;
    match version_supported ident None with
    | None => RThrow
    | Some v =>
      match fst h with
      | None => RUB
      | Some vs =>
        let dir := lumps_of (skipn 1 vs) in
        let lu i := nth i dir (mkLump 0 0) in
        h2 <- match v with VHl => ROk false | _ => is_hexen2 f v lu end ;;
        let v' := if h2 then to_h2 v else v in
        b <- read_q1 f v' lu ;;
        x <- read_bspx f dir ;; ROk (v', B1 b, x)
      end
    end.
