(* qbsp/faces.cc, qbsp/writebsp.cc, qbsp/map.cc: emission of vertices, edges, faces, planes and
   texinfos into the BSP. *)
From Coq Require Import List Arith NArith ZArith Bool.
From Verif Require Import NumCastModel ParserModel TexFlagsModel.
Import ListNotations.

(** ** Planes *)

(** map.planes with the output number of each plane, and map.bsp.dplanes.  A plane is opaque:
    normal, dist and type are copied (narrowed to float) as they are. *)
Record pstate (P : Type) := mkPS { ps_src : list (P * option nat); ps_out : list P }.
Arguments mkPS {P} _ _. Arguments ps_src {P} _. Arguments ps_out {P} _.

(** ExportMapPlane (qbsp/writebsp.cc:40-54).  An index outside map.planes is undefined behaviour. *)
Definition export_plane {P} (st : pstate P) (n : nat) : res (nat * pstate P) :=
  match nth_error (ps_src st) n with
  | None => RUB
  | Some (p, Some o) => ROk (o, st)
  | Some (p, None) =>
      let o := length (ps_out st) in
      ROk (o, mkPS (upd (ps_src st) n (p, Some o)) (ps_out st ++ [p]))
  end.

(** ** Texinfos *)

(** maptexinfo_t (include/qbsp/qbsp.hh:266-277); the texture vectors are opaque. *)
Record tsrc := mkTS0 { ts_vecs : Z; ts_miptex : Z; ts_flags : sflags; ts_value : Z; ts_next : option Z; ts_out : option nat }.
(** mtexinfo_t (include/common/bspfile_generic.hh:230-242). *)
Record tdst := mkTD { td_vecs : Z; td_flags : sflags; td_miptex : Z; td_value : Z; td_texture : bytes; td_next : Z }.
Record tstate := mkTSt { t_src : list tsrc; t_dst : list tdst }.

(** [v.at(i)] for an int index converted to size_t: negative numbers are far out of range. *)
Definition at_z {A} (l : list A) (i : Z) : option A :=
  if (i <? 0)%Z then None else nth_error l (Z.to_nat i).

(** The name copied into a char[32], the last one always NUL (writebsp.cc:84-95). *)
Definition texture_field (name : bytes) : bytes :=
  map (fun i => if i <? length name then nth i name 0%N else 0%N) (seq 0 31) ++ [0%N].

Definition set_out (s : tsrc) (o : nat) : tsrc :=
  mkTS0 (ts_vecs s) (ts_miptex s) (ts_flags s) (ts_value s) (ts_next s) (Some o).
Definition set_next (d : tdst) (n : Z) : tdst :=
  mkTD (td_vecs d) (td_flags d) (td_miptex d) (td_value d) (td_texture d) n.

Record topts := mkTO { o_includeskip : bool; o_q2 : bool; o_valid : sflags -> bool; o_miptex : list (bytes * Z) }.

(** Q2_SURF_LIGHT is bit 0. *)
Definition surf_light (f : sflags) : bool := Z.testbit (sf_native f) 0.

(** The faces of this texinfo are not written (writebsp.cc:62-67). *)
Definition tex_skipped (o : topts) (s : tsrc) : bool :=
  negb (o_includeskip o) && sf_nodraw (ts_flags s) && (negb (o_q2 o) || negb (surf_light (ts_flags s))).

Definition dest_of (s : tsrc) (name : bytes) (value : Z) : tdst :=
  mkTD (ts_vecs s) (ts_flags s) (ts_miptex s) value (texture_field name) (-1).

(** ExportMapTexinfo (qbsp/writebsp.cc:56-104); the outer option is fuel.  [-1] is the size_t
    value that becomes -1 in the int32 fields it is stored in. *)
Fixpoint export_texinfo (fuel : nat) (o : topts) (st : tstate) (n : Z) : option (res (Z * tstate)) :=
  match fuel with
  | O => None
  | S fuel =>
      match at_z (t_src st) n with
      | None => Some RThrow
      | Some s =>
          match ts_out s with
          | Some i => Some (ROk (Z.of_nat i, st))
          | None =>
              if tex_skipped o s then Some (ROk ((-1)%Z, st))
              else if negb (o_valid o (ts_flags s)) then Some RThrow
              else match at_z (o_miptex o) (ts_miptex s) with
                   | None => Some RThrow
                   | Some (name, value) =>
                       let i := length (t_dst st) in
                       let st1 := mkTSt (upd (t_src st) (Z.to_nat n) (set_out s i)) (t_dst st ++ [dest_of s name value]) in
                       match ts_next s with
                       | None => Some (ROk (Z.of_nat i, st1))
                       | Some m =>
                           match export_texinfo fuel o st1 m with
                           | Some (ROk (r, st2)) =>
                               match nth_error (t_dst st2) i with
                               | Some d => Some (ROk (Z.of_nat i, mkTSt (t_src st2) (upd (t_dst st2) i (set_next d r))))
                               | None => Some RUB
                               end
                           | x => x
                           end
                       end
                   end
          end
      end
  end.
Definition export_tex (o : topts) (st : tstate) (n : Z) : option (res (Z * tstate)) :=
  export_texinfo (S (length (t_src st))) o st n.

(** ** Vertices *)

(** map.hashverts and map.bsp.dvertexes: the positions the hash knows with their numbers, and the
    exported positions.  [rnd] narrows a position to float. *)
Record vstate (V F : Type) := mkVS { vs_hash : list (V * nat); vs_out : list F }.
Arguments mkVS {V F} _ _. Arguments vs_hash {V F} _. Arguments vs_out {V F} _.

(** EmitVertex (qbsp/faces.cc:82-94) with find_emitted_hash_vector and add_hash_vector
    (qbsp/map.cc:147-167).  [pick] is the spatial search: it gives the number of some entry in the
    box around the position, if there is one. *)
Definition emit_vertex {V F} (rnd : V -> F) (pick : list (V * nat) -> V -> option nat) (st : vstate V F) (v : V) : nat * vstate V F :=
  match pick (vs_hash st) v with
  | Some n => (n, st)
  | None => let n := length (vs_out st) in (n, mkVS (vs_hash st ++ [(v, n)]) (vs_out st ++ [rnd v]))
  end.

(** EmitFaceVertices (faces.cc:97-108): the vertex numbers of a face, none if it is omitted. *)
Fixpoint emit_vertices {V F} (rnd : V -> F) pick (st : vstate V F) (w : list V) : list nat * vstate V F :=
  match w with
  | [] => ([], st)
  | v :: w => let '(n, st1) := emit_vertex rnd pick st v in
              let '(ns, st2) := emit_vertices rnd pick st1 w in (n :: ns, st2)
  end.

(** ** Edges and faces *)

(** map.hashedges: vertex pair, edge number and the front contents of the face it was made for.
    std::map::emplace keeps an existing entry. *)
Definition ehash := list ((nat * nat) * (nat * N)).
Fixpoint hfind (k : nat * nat) (h : ehash) : option (nat * N) :=
  match h with
  | [] => None
  | (k', v) :: r => if Nat.eqb (fst k) (fst k') && Nat.eqb (snd k) (snd k') then Some v else hfind k r
  end.
Definition hemplace (k : nat * nat) (v : nat * N) (h : ehash) : ehash :=
  match hfind k h with Some _ => h | None => h ++ [(k, v)] end.

(** GetEdge (qbsp/faces.cc:145-172) for a face with front contents [c].  [cvalid] is
    contentflags_t::is_valid(game, false); contents are compared by all their flags.  Vertex
    numbers are stored in 32 bits: the model takes them below 2^32. *)
Definition get_edge (cvalid : N -> bool) (noreuse : bool) (c : N) (v1 v2 : nat) (edges : list (nat * nat)) (h : ehash)
  : res (Z * list (nat * nat) * ehash) :=
  if negb (cvalid c) then RThrow
  else
    let fresh := ROk (Z.of_nat (length edges), edges ++ [(v1, v2)], hemplace (v1, v2) (length edges, c) h) in
    if noreuse then fresh
    else match hfind (v2, v1) h with
         | Some (i, c') => if N.eqb c' c then ROk ((- Z.of_nat i)%Z, edges, h) else fresh
         | None => fresh
         end.

(** The loop of EmitEdges (faces.cc:182-187): from vertex number [i] of the fragment [vs]. *)
Fixpoint edge_loop (cvalid : N -> bool) (noreuse : bool) (c : N) (vs : list nat) (i todo : nat) (edges : list (nat * nat)) (h : ehash)
  : res (list Z * list (nat * nat) * ehash) :=
  match todo with
  | O => ROk ([], edges, h)
  | S todo =>
      rbind (get_edge cvalid noreuse c (nth i vs 0) (nth ((i + 1) mod length vs) vs 0) edges h) (fun '(e, edges1, h1) =>
      rbind (edge_loop cvalid noreuse c vs (S i) todo edges1 h1) (fun '(es, edges2, h2) => ROk (e :: es, edges2, h2)))
  end.

(** A face of a node: plane number, texinfo, front contents, lightmap shift and its fragments. *)
Record nface := mkNF { nf_plane : nat; nf_tex : Z; nf_contents : N; nf_lmshift : Z; nf_frags : list (list nat) }.
(** mface_t (bspfile_generic.hh:247-). *)
Record oface := mkOF { of_plane : nat; of_side : nat; of_tex : Z; of_styles : list Z; of_lightofs : Z; of_first : nat; of_num : nat }.

Record estate (P : Type) := mkES {
  es_edges : list (nat * nat); es_hash : ehash; es_surf : list Z; es_faces : list oface; es_lm : list Z;
  es_planes : pstate P; es_tex : tstate }.
Arguments mkES {P} _ _ _ _ _ _ _.
Arguments es_edges {P} _. Arguments es_hash {P} _. Arguments es_surf {P} _. Arguments es_faces {P} _.
Arguments es_lm {P} _. Arguments es_planes {P} _. Arguments es_tex {P} _.

Record eopts := mkEO { e_cvalid : N -> bool; e_noreuse : bool; e_maxedges : nat; e_tex : topts }.

(** EmitEdges (faces.cc:174-188). *)
Definition emit_edges {P} (o : eopts) (c : N) (vs : list nat) (st : estate P) : res (list Z * estate P) :=
  if negb (Nat.eqb (e_maxedges o) 0) && Nat.ltb (e_maxedges o) (length vs) then RThrow
  else rbind (edge_loop (e_cvalid o) (e_noreuse o) c vs 0 (length vs) (es_edges st) (es_hash st)) (fun '(es, edges, h) =>
       ROk (es, mkES edges h (es_surf st) (es_faces st) (es_lm st) (es_planes st) (es_tex st))).

(** EmitFaceFragment (faces.cc:196-233).  Counts stay below 2^31. *)
Definition emit_fragment {P} (o : eopts) (f : nface) (vs : list nat) (es : list Z) (st : estate P) : option (res (estate P)) :=
  if Nat.ltb (length vs) 3 then Some (ROk st)
  else
    match export_plane (es_planes st) (2 * (nf_plane f / 2)) with
    | ROk (pn, pl) =>
        match export_tex (e_tex o) (es_tex st) (nf_tex f) with
        | Some (ROk (tn, tx)) =>
            let out := mkOF pn (nf_plane f mod 2) tn [255; 255; 255; 255]%Z (-1) (length (es_surf st)) (length vs) in
            Some (ROk (mkES (es_edges st) (es_hash st) (es_surf st ++ firstn (length vs) es) (es_faces st ++ [out])
                            (es_lm st ++ [nf_lmshift f]) pl tx))
        | Some RThrow => Some RThrow | Some RUB => Some RUB | None => None
        end
    | RThrow => Some RThrow
    | RUB => Some RUB
    end.

(** The inner loops of EmitFaces_R (faces.cc:249-255). *)
Fixpoint emit_frags {P} (o : eopts) (f : nface) (frags : list (list nat)) (st : estate P) : option (res (estate P)) :=
  match frags with
  | [] => Some (ROk st)
  | vs :: r =>
      match emit_edges o (nf_contents f) vs st with
      | ROk (es, st1) =>
          match emit_fragment o f vs es st1 with
          | Some (ROk st2) => emit_frags o f r st2
          | x => x
          end
      | RThrow => Some RThrow
      | RUB => Some RUB
      end
  end.
Fixpoint emit_facelist {P} (o : eopts) (fs : list nface) (st : estate P) : option (res (estate P)) :=
  match fs with
  | [] => Some (ROk st)
  | f :: r => match emit_frags o f (nf_frags f) st with
              | Some (ROk st1) => emit_facelist o r st1
              | x => x
              end
  end.

(** A tree of nodes with their faces. *)
Inductive ftree := FLeaf | FNode (faces : list nface) (c0 c1 : ftree).

(** EmitFaces_R (faces.cc:240-261): the first face and the number of faces of each node, in the
    order in which the nodes are visited. *)
Fixpoint emit_tree {P} (o : eopts) (t : ftree) (st : estate P) : option (res (list (nat * nat) * estate P)) :=
  match t with
  | FLeaf => Some (ROk ([], st))
  | FNode fs c0 c1 =>
      match emit_facelist o fs st with
      | Some (ROk st1) =>
          match emit_tree o c0 st1 with
          | Some (ROk (l0, st2)) =>
              match emit_tree o c1 st2 with
              | Some (ROk (l1, st3)) =>
                  Some (ROk ((length (es_faces st), length (es_faces st1) - length (es_faces st)) :: l0 ++ l1, st3))
              | x => x
              end
          | x => x
          end
      | Some RThrow => Some RThrow | Some RUB => Some RUB | None => None
      end
  end.

(** EmitFaces (faces.cc:268-285): the hash is empty before and after.  BeginBSPFile
    (writebsp.cc:326-329) has put the unused edge 0 in place. *)
Definition emit_faces {P} (o : eopts) (t : ftree) (st : estate P) : option (res (list (nat * nat) * estate P)) :=
  match es_hash st with
  | [] =>
      match emit_tree o t st with
      | Some (ROk (l, st1)) =>
          Some (ROk (l, mkES (es_edges st1) [] (es_surf st1) (es_faces st1) (es_lm st1) (es_planes st1) (es_tex st1)))
      | x => x
      end
  | _ => Some RThrow
  end.

(** ** FindTexinfo *)

(** What mtexinfo_lookup compares (qbsp/qbsp.cc:255-258): everything but the output number. *)
Record tkey := mkTK { k_rest : Z; k_miptex : nat; k_next : option nat }.
Definition key_eqb (a b : tkey) : bool :=
  Z.eqb (k_rest a) (k_rest b) && Nat.eqb (k_miptex a) (k_miptex b) &&
  match k_next a, k_next b with Some x, Some y => Nat.eqb x y | None, None => true | _, _ => false end.
Fixpoint key_find (k : tkey) (l : list (tkey * nat)) : option nat :=
  match l with [] => None | (k', i) :: r => if key_eqb k k' then Some i else key_find k r end.

(** map.mtexinfos and map.mtexinfo_lookup. *)
Record fstate := mkFS { fs_tex : list tkey; fs_lookup : list (tkey * nat) }.

(** FindTexinfo (qbsp/map.cc:582-627) with add = true; vecs, flags and value are the opaque
    [k_rest]; [anim] is the animation_miptex of each miptex.  The outer option is fuel. *)
Fixpoint find_texinfo (fuel : nat) (anim : nat -> option nat) (st : fstate) (k : tkey) : option (nat * fstate) :=
  match fuel with
  | O => None
  | S fuel =>
      match key_find k (fs_lookup st) with
      | Some i => Some (i, st)
      | None =>
          let num := length (fs_tex st) in
          let st1 := mkFS (fs_tex st ++ [k]) ((k, num) :: fs_lookup st) in
          match anim (k_miptex k) with
          | None => Some (num, st1)
          | Some m =>
              match find_texinfo fuel anim st1 (mkTK (k_rest k) m (k_next k)) with
              | None => None
              | Some (r, st2) => Some (num, mkFS (upd (fs_tex st2) num (mkTK (k_rest k) (k_miptex k) (Some r))) (fs_lookup st2))
              end
          end
      end
  end.

(** ** FindMiptex, Quake 2 *)

(** A texture file: its own name and the name of the next one, as numbers (names are compared
    without case). *)
Record wal := mkWal { w_name : nat; w_anim : option nat }.
(** A miptex: name, flags and value (opaque), animation name, and the miptex of the next frame. *)
Record mip := mkMip { m_name : nat; m_info : Z; m_anim : option nat; m_next : option nat }.

Definition oeq (a b : option nat) : bool :=
  match a, b with Some x, Some y => Nat.eqb x y | None, None => true | _, _ => false end.
Fixpoint mip_find (name : nat) (info : Z) (anim : option nat) (l : list mip) (i : nat) : option nat :=
  match l with
  | [] => None
  | m :: r => if Nat.eqb name (m_name m) && Z.eqb (m_info m) info && oeq (m_anim m) anim then Some i
              else mip_find name info anim r (S i)
  end.
(** FindMiptex with recursive = false (map.cc:472-483). *)
Definition mip_add (name : nat) (info : Z) (anim : option nat) (l : list mip) : nat * list mip :=
  match mip_find name info anim l 0 with
  | Some i => (i, l)
  | None => (length l, l ++ [mkMip name info anim None])
  end.
Definition mip_link (l : list mip) (i n : nat) : list mip :=
  match nth_error l i with
  | Some m => upd l i (mkMip (m_name m) (m_info m) (m_anim m) (Some n))
  | None => l
  end.

(** The loop over the animation chain (map.cc:491-515): [None] when the fuel runs out, otherwise
    the last index and the table. *)
Fixpoint anim_loop (fuel : nat) (files : nat -> option wal) (name : nat) (info : Z) (w : wal) (last : nat) (l : list mip)
  : option (nat * list mip) :=
  match fuel with
  | O => None
  | S fuel =>
      match w_anim w with
      | None => Some (last, l)
      | Some a =>
          match files a with
          | None => Some (last, l)
          | Some w1 =>
              let '(next, l1) := mip_add (w_name w1) info (w_anim w1) l in
              let l2 := mip_link l1 last next in
              if Nat.eqb (w_name w1) name || Nat.eqb last next then Some (last, l2)
              else anim_loop fuel files name info w1 next l2
          end
      end
  end.
