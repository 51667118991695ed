(* Contents flags: the Quake-like and Quake II rules for native values, merging, visibility,
   faces and export.  Flags are the uint64 [contents_t] of include/common/bspfile_common.hh,
   a number whose bit [k] is flag [k]. *)
From Coq Require Import List Arith NArith ZArith Bool.
Import ListNotations.
From Verif Require Import NumCastModel.
Local Open Scope N_scope.

(** ** The flags (include/common/bspfile_common.hh:55-136) *)
Definition SOLID := 1.        Definition SKY := 2.         Definition DETAIL_WALL := 4.
Definition WINDOW := 8.       Definition AUX := 16.        Definition LAVA := 32.
Definition SLIME := 64.       Definition WATER := 128.     Definition MIST := 256.
Definition ALL_LIQUIDS := 224.          (* LAVA | SLIME | WATER *)
Definition ALL_VISIBLE := 511.          (* bits 0..8 *)
Definition ORIGIN := 512.     Definition PLAYERCLIP := 1024.  Definition MONSTERCLIP := 2048.
Definition AREAPORTAL := 4096.  Definition VISBLOCKER := 8192.
Definition ALL_INVIS := 15872.          (* bits 9..13 *)
Definition DETAIL := 16384.   Definition MIRROR_INSIDE := 32768.
Definition MIRROR_INSIDE_SET := 65536.  Definition SUPPRESS_CLIPPING := 131072.
Definition TRANSLUCENT := 16777216.

(** [c & m] as a condition. *)
Definition tst (c m : N) : bool := negb (N.land c m =? 0).

(** contentflags_t::visible_contents_index and visible_contents (bspfile_common.hh:197-216):
    the lowest set bit among 0..8. *)
Definition visible_index (c : N) : option N :=
  find (fun k => N.testbit c k) [0;1;2;3;4;5;6;7;8].
Definition visible_contents (c : N) : N :=
  match visible_index c with Some k => 2 ^ k | None => 0 end.

(** contentflags_t::set_mirrored, mirror_inside, set_clips_same_type, clips_same_type
    (common/bspfile_common.cc:88-119, bspfile_common.hh:152-172). *)
Definition set_mirrored (c : N) (v : option bool) : N :=
  match v with
  | Some true => N.lor c (N.lor MIRROR_INSIDE_SET MIRROR_INSIDE)
  | Some false => N.ldiff (N.lor c MIRROR_INSIDE_SET) MIRROR_INSIDE
  | None => N.ldiff c (N.lor MIRROR_INSIDE_SET MIRROR_INSIDE)
  end.
Definition mirror_inside (c : N) : option bool :=
  if tst c MIRROR_INSIDE_SET then Some (tst c MIRROR_INSIDE) else None.
Definition set_clips_same_type (c : N) (v : option bool) : N :=
  match v with Some false => N.lor c SUPPRESS_CLIPPING | _ => c end.
Definition clips_same_type (c : N) : option bool :=
  if tst c SUPPRESS_CLIPPING then Some false else None.

(** The two families of games: gamedef_q1_like_t and gamedef_q2_t. *)
Inductive game := Q1 | Q2.

(** ** Native values *)

(** Quake: create_contents_from_native and contents_to_native (common/bspfile.cc:200-240).
    CONTENTS_EMPTY..CONTENTS_SKY are -1..-6 (bspfile_q1.hh). *)
Definition q1_from_native (n : Z) : res N :=
  match n with
  | (-2)%Z => ROk SOLID | (-6)%Z => ROk SKY | (-5)%Z => ROk LAVA | (-4)%Z => ROk SLIME
  | (-3)%Z => ROk WATER | (-1)%Z => ROk 0
  | _ => RThrow
  end.
Definition q1_to_native (c : N) : res Z :=
  if tst c SOLID then ROk (-2)%Z
  else if tst c SKY then ROk (-6)%Z
  else if tst c DETAIL_WALL then RThrow
  else if tst c WINDOW then RThrow
  else if tst c AUX then RThrow
  else if tst c LAVA then ROk (-5)%Z
  else if tst c SLIME then ROk (-4)%Z
  else if tst c WATER then ROk (-3)%Z
  else if tst c MIST then RThrow
  else ROk (-1)%Z.

(** Quake II: the pairs (native bit, flag bit) of create_contents_from_native
    (common/bspfile.cc:851-897), in source order; native bits from bspfile_q2.hh. *)
Definition q2_from_table : list (N * N) :=
  [ (0,0);   (* SOLID *)      (1,3);   (* WINDOW *)     (2,4);   (* AUX *)
    (3,5);   (* LAVA *)       (4,6);   (* SLIME *)      (5,7);   (* WATER *)
    (6,8);   (* MIST *)
    (15,12); (* AREAPORTAL *) (16,10); (* PLAYERCLIP *) (17,11); (* MONSTERCLIP *)
    (24,9);  (* ORIGIN *)
    (18,18); (19,19); (20,20); (21,21); (22,22); (23,23); (* CURRENT_* *)
    (27,14); (* DETAIL *)     (28,24); (* TRANSLUCENT *) (29,25); (* LADDER *)
    (25,26); (* MONSTER *)    (26,27); (* DEADMONSTER *)
    (7,28); (8,29); (9,30); (10,31); (11,32); (12,33); (13,34); (14,35); (* UNUSED_7..14 *)
    (30,36); (31,37) ].       (* UNUSED_30, 31 *)

(** The pairs (flag bit, native bit) of contents_to_native (common/bspfile.cc:899-941). *)
Definition q2_to_table : list (N * N) :=
  [ (0,0); (3,1); (4,2); (5,3); (6,4); (7,5); (8,6); (9,24); (10,16); (11,17); (12,15);
    (14,27);
    (18,18); (19,19); (20,20); (21,21); (22,22); (23,23); (24,28); (25,29); (26,25); (27,26);
    (28,7); (29,8); (30,9); (31,10); (32,11); (33,12); (34,13); (35,14); (36,30); (37,31) ].

(** [if (x & bit) result |= bit'] for every pair of a table. *)
Definition map_bits (t : list (N * N)) (x : N) : N :=
  fold_left (fun r p => if N.testbit x (fst p) then N.lor r (2 ^ snd p) else r) t 0.

(** The native int32 as its 32-bit pattern, and back. *)
Definition u32_of (n : Z) : N := Z.to_N (n mod 2 ^ 32).
Definition i32_of (u : N) : Z := if (u <? 2 ^ 31) then Z.of_N u else (Z.of_N u - 2 ^ 32)%Z.

Definition q2_from_native (n : Z) : N := map_bits q2_from_table (u32_of n).
Definition q2_to_native (c : N) : res Z :=
  if tst c SKY then RThrow
  else if tst c DETAIL_WALL then RThrow
  else if tst c VISBLOCKER then RThrow
  else ROk (i32_of (map_bits q2_to_table c)).

Definition to_native (g : game) (c : N) : res Z :=
  match g with Q1 => q1_to_native c | Q2 => q2_to_native c end.

(** ** Tests *)

(** contents_are_solid, any_solid, any_detail, sky, empty, clip, origin, liquid (Quake
    common/bspfile.cc:304-397, Quake II 1008-1110). *)
Definition is_solid (c : N) : bool := tst c SOLID && negb (tst c DETAIL).
Definition is_any_solid (c : N) : bool := tst c SOLID.
Definition is_any_detail (c : N) : bool := tst c DETAIL.
Definition is_sky (g : game) (c : N) : bool := match g with Q1 => tst c SKY | Q2 => false end.
Definition is_origin (c : N) : bool := tst c ORIGIN.
Definition is_clip (g : game) (c : N) : bool :=
  match g with Q1 => tst c PLAYERCLIP | Q2 => tst c (N.lor PLAYERCLIP MONSTERCLIP) end.
Definition content_type (c : N) : N := N.land c (N.lor ALL_VISIBLE ALL_INVIS).
Definition is_empty (g : game) (c : N) : bool :=
  match g with
  | Q1 => if tst c ORIGIN then false else if tst c PLAYERCLIP then false else negb (tst c ALL_VISIBLE)
  | Q2 => content_type c =? 0
  end.
Definition is_liquid (g : game) (c : N) : bool :=
  match g with
  | Q1 => tst (visible_contents c) ALL_LIQUIDS
  | Q2 => if tst c AREAPORTAL then true else tst c ALL_LIQUIDS
  end.
Definition types_equal (g : game) (a b : N) : bool :=
  match g with Q1 => a =? b | Q2 => content_type a =? content_type b end.

(** contents_are_detail_wall/fence/illusionary (319-341 and 1021-1060), is_fence
    (bspfile_common.cc:166-169). *)
Definition is_detail_with (g : game) (m c : N) : bool :=
  match g with
  | Q1 => tst c DETAIL && tst c m
  | Q2 => if tst c SOLID then false else (N.land c (N.lor DETAIL m) =? N.lor DETAIL m)
  end.
Definition is_detail_wall (g : game) := is_detail_with g DETAIL_WALL.
Definition is_detail_fence (g : game) := is_detail_with g WINDOW.
Definition is_detail_illusionary (g : game) (c : N) : bool :=
  match g with
  | Q1 => is_detail_with Q1 MIST c
  | Q2 => is_detail_with Q2 MIST c || is_detail_with Q2 AUX c
  end.
Definition is_fence (g : game) (c : N) : bool := is_detail_fence g c || is_detail_illusionary g c.

(** contents_are_valid (400-404 and 1115-1126). *)
Definition is_valid (g : game) (c : N) (strict : bool) : bool :=
  match g with Q1 => true | Q2 => if negb (tst c ALL_VISIBLE) && strict then false else true end.

(** contents_seals_map (441-444, 1190-1193). *)
Definition seals_map (g : game) (c : N) : bool := is_solid c || is_sky g c.

(** contents_are_opaque (446-460, 1195-1209). *)
Definition is_opaque (g : game) (c : N) (transwater : bool) : bool :=
  match g with
  | Q1 => let b := visible_contents c in
          if b =? SOLID then true else if b =? SKY then true else if b =? DETAIL_WALL then true
          else if b =? WINDOW then false
          else if b =? LAVA then negb transwater else if b =? SLIME then negb transwater
          else if b =? WATER then negb transwater else if b =? MIST then false else false
  | Q2 => if visible_contents c =? 0 then false else if tst c TRANSLUCENT then false else true
  end.

(** ** Making contents *)

(** create_detail_*_contents, clear_detail, set_detail (265-293 and 965-1004).  The Quake
    versions ignore their argument. *)
Definition detail_illusionary (g : game) (c : N) : N :=
  match g with Q1 => N.lor MIST DETAIL | Q2 => N.lor (N.ldiff c SOLID) (N.lor MIST DETAIL) end.
Definition detail_fence (g : game) (c : N) : N :=
  match g with
  | Q1 => N.lor WINDOW DETAIL
  | Q2 => N.lor (N.ldiff c SOLID) (N.lor WINDOW (N.lor TRANSLUCENT DETAIL))
  end.
Definition detail_wall (g : game) (c : N) : N :=
  match g with Q1 => N.lor DETAIL_WALL DETAIL | Q2 => N.lor (N.ldiff c SOLID) (N.lor DETAIL_WALL DETAIL) end.
Definition detail_solid (g : game) (c : N) : N :=
  match g with Q1 => N.lor SOLID DETAIL | Q2 => N.lor c (N.lor SOLID DETAIL) end.
Definition clear_detail (c : N) : N := N.ldiff c DETAIL.
Definition set_detail (c : N) : N := N.lor c DETAIL.

(** ** Merging *)

(** cluster_contents (242-253, 943-954). *)
Definition cluster (a b : N) : N :=
  if negb (tst a SOLID) || negb (tst b SOLID) then N.ldiff (N.lor a b) SOLID else N.lor a b.

(** combine_contents (482-495, 1228-1239). *)
Definition combine (g : game) (a b : N) : N :=
  match g with
  | Q1 => if is_solid a || is_solid b then SOLID
          else if is_sky Q1 a || is_sky Q1 b then SKY
          else N.lor a b
  | Q2 => if is_solid a || is_solid b then SOLID else N.lor a b
  end.

(** LeafNode (qbsp/brushbsp.cc:354-357): the contents of a leaf from the contents of its brushes. *)
Definition leaf_contents (g : game) (l : list N) : N := fold_left (combine g) l 0.

(** ClusterContents (qbsp/portals.cc:38-47) over a tree of leaf contents. *)
Inductive ctree := CLeaf (c : N) | CNode (a b : ctree).
Fixpoint cluster_contents (t : ctree) : N :=
  match t with CLeaf c => c | CNode a b => cluster (cluster_contents a) (cluster_contents b) end.

(** ** Portals *)

(** portal_can_see_through (411-439 and 1163-1188). *)
Definition q1_see_through (a b : N) (transwater : bool) : bool :=
  if tst a SOLID || tst b SOLID then false
  else if negb (tst (N.lxor a b) ALL_VISIBLE) then true
  else let a' := if tst a DETAIL || (if transwater then tst a ALL_LIQUIDS else false) then 0 else a in
       let b' := if tst b DETAIL || (if transwater then tst b ALL_LIQUIDS else false) then 0 else b in
       if N.lxor a' b' =? 0 then true
       else if negb (tst (N.lxor a' b') ALL_VISIBLE) then true else false.
Definition q2_see_through (a b : N) : bool :=
  if tst a SOLID || tst b SOLID then false
  else if negb (tst (N.lxor a b) ALL_VISIBLE) then true
  else let a' := if tst a TRANSLUCENT || tst a DETAIL then 0 else a in
       let b' := if tst b TRANSLUCENT || tst b DETAIL then 0 else b in
       if N.lxor a' b' =? 0 then true
       else tst (N.lxor a' b') ALL_VISIBLE.
Definition see_through (g : game) (a b : N) (transwater : bool) : bool :=
  match g with Q1 => q1_see_through a b transwater | Q2 => q2_see_through a b end.

(** Portal_VisFlood (qbsp/portals.cc:60-77) for a portal with a node; the outside leaf is [None]. *)
Definition portal_vis_flood (g : game) (tw : bool) (onnode : bool) (l r : ctree) : bool :=
  if negb onnode then false
  else let a := cluster_contents l in let b := cluster_contents r in
       if tst a VISBLOCKER || tst b VISBLOCKER then false else see_through g a b tw.

(** portal_visible_contents (497-518, 1145-1161). *)
Definition portal_visible (g : game) (a b : N) : N :=
  let r := if tst a SUPPRESS_CLIPPING || tst b SUPPRESS_CLIPPING then N.lor a b else N.lxor a b in
  match g with
  | Q1 => if tst a (N.lor SOLID SKY) && tst b (N.lor SOLID SKY) then 0 else visible_contents r
  | Q2 => visible_contents r
  end.

(** portal_generates_face (520-546, 1241-1271); [back] is [brushside_side == SIDE_BACK]. *)
Definition generates_face (g : game) (vis brush : N) (back : bool) : bool :=
  match visible_index vis with
  | None => false
  | Some k =>
    if negb (N.testbit brush k) then false
    else if back then
      if tst brush MIRROR_INSIDE_SET then tst brush MIRROR_INSIDE
      else match g with
           | Q1 => tst brush ALL_LIQUIDS
           | Q2 => if tst vis (N.lor WINDOW AUX) then false else true
           end
    else true
  end.

(** ** Export *)

(** contents_remap_for_export (462-480, 1211-1226). *)
Inductive remap_type := RBrush | RLeaf.
Definition remap (g : game) (c : N) (t : remap_type) : N :=
  match g with
  | Q1 => if is_detail_fence Q1 c || is_detail_wall Q1 c then SOLID
          else if tst c MIST then N.ldiff c MIST else c
  | Q2 => if tst c DETAIL_WALL then SOLID
          else match t with RLeaf => if tst c SOLID then SOLID else c | RBrush => c end
  end.

(** ExportLeaf (qbsp/writebsp.cc:169-177): the native contents of a leaf; FError when invalid. *)
Definition export_leaf (g : game) (c : N) : res Z :=
  let r := remap g c RLeaf in
  if negb (is_valid g r false) then RThrow else to_native g r.
(** ExportBrushList_r (qbsp/qbsp.cc:818-820): the native contents of a brush. *)
Definition export_brush (g : game) (c : N) : res Z := to_native g (remap g c RBrush).

(** ** The contents of a brush, from its faces *)

(** face_get_contents of Quake-like games (common/bspfile.cc:572-597): which texture the name
    selects.  The comparison of names is abstracted to this classification. *)
Inductive texclass := TOrigin | THint | TClip | TLava | TSlime | TWater | TSky | TOther.
Definition q1_face_contents (t : texclass) : N :=
  match t with
  | TOrigin => ORIGIN | THint => 0 | TClip => PLAYERCLIP | TLava => LAVA | TSlime => SLIME
  | TWater => WATER | TSky => SKY | TOther => SOLID
  end.
(** face_get_contents of Quake II (1308-1345): [hs] = SURF_HINT or SURF_SKIP, [tr] = TRANS33,
    TRANS66 or ALPHATEST, [native] the contents written in the map file or the .wal. *)
Definition q2_face_contents (hs tr : bool) (native : Z) : N :=
  if hs then 0
  else let c := q2_from_native native in
       let s := if content_type c =? 0 then N.lor c SOLID else c in
       let s := if tr then
                  let s := N.lor s TRANSLUCENT in
                  if tst s SOLID then N.lor (N.ldiff s SOLID) WINDOW else s
                else s in
       let s := if tst s TRANSLUCENT then N.lor s DETAIL
                else if tst s (N.lor MIST AUX) then N.lor s DETAIL else s in
       if tst s (N.lor MONSTERCLIP PLAYERCLIP) then N.lor s DETAIL else s.
Inductive face_src := FQ1 (t : texclass) | FQ2 (hs tr : bool) (native : Z).
Definition face_game (f : face_src) : game := match f with FQ1 _ => Q1 | FQ2 _ _ _ => Q2 end.
Definition face_contents (f : face_src) : N :=
  match f with FQ1 t => q1_face_contents t | FQ2 hs tr n => q2_face_contents hs tr n end.

(** What Brush_GetContents reads of the entity and the settings. *)
Record ent_opts := mkEO {
  e_mirror : option bool;       (* _mirrorinside present and its truth value *)
  e_noclipfaces : option bool;  (* _noclipfaces present and its truth value *)
  e_visblocker : bool;          (* classname func_illusionary_visblocker *)
  e_transwater : bool           (* -transwater *)
}.

(** Brush_GetContents (qbsp/map.cc:2443-2505): the first non-empty face contents.  The warning
    about mixed contents changes nothing in the result. *)
Definition brush_base (g : game) (fs : list face_src) : N :=
  match find (fun c => negb (is_empty g c)) (map face_contents fs) with Some c => c | None => 0 end.
Definition brush_contents (g : game) (e : ent_opts) (fs : list face_src) : N :=
  let c := brush_base g fs in
  let c := set_mirrored c (e_mirror e) in
  let c := match e_noclipfaces e with
           | Some b => set_clips_same_type c (Some (negb b)) | None => set_clips_same_type c None end in
  let c := if e_visblocker e then N.lor c VISBLOCKER else c in
  match g with
  | Q1 => if e_transwater e && is_liquid Q1 c then set_detail c else c
  | Q2 => c
  end.

(** ** The contents given to a brush that enters the tree *)

(** What Brush_LoadEntity reads (qbsp/brush.cc:681-860). *)
Inductive detail_class := DNone | DDetail | DWall | DFence | DIllusionary.
Record load_opts := mkLO {
  o_nodetail : bool; o_omitdetail : bool; o_omitillus : bool; o_omitfence : bool; o_omitwall : bool;
  o_class : detail_class;       (* classname func_detail, func_detail_wall, ... of the entity *)
  o_hint : bool;                (* mapbrush.is_hint *)
  o_hull : option N;            (* hullnum *)
  o_world : bool;               (* the destination is the world entity *)
  o_bmodelcontents : bool       (* allow_contented_bmodels || -bmodelcontents *)
}.

(** Result: skipped, or the contents of the loaded brush.  [None] also stands for the clip brush
    that only enlarges the bounds.  Regions and -super_detail (which skip brushes) are left out:
    they only remove more brushes. *)
Definition load_contents (g : game) (o : load_opts) (mb : N) : option N :=
  let cls := if o_nodetail o then DNone else o_class o in
  let hull := match o_hull o with Some h => negb (h =? 0) | None => false end in
  let c := if o_nodetail o then clear_detail mb else mb in
  let isd := match cls with DDetail => true | _ => false end in
  let isi := match cls with DIllusionary => true | _ => false end in
  let isf := match cls with DFence => true | _ => false end in
  let isw := match cls with DWall => true | _ => false end in
  if o_omitdetail o && isd then None
  else if (o_omitdetail o || o_omitillus o) && isi then None
  else if (o_omitdetail o || o_omitfence o) && isf then None
  else if (o_omitdetail o || o_omitwall o) && isw then None
  else if o_omitdetail o && is_any_detail c then None
  else
  let c := if negb hull && is_any_solid c then
             match cls with
             | DIllusionary => detail_illusionary g c | DFence => detail_fence g c
             | DWall => detail_wall g c | DDetail => detail_solid g c | DNone => c
             end
           else c in
  if hull && isi then None
  else
  match (match o_hull o with
         | Some h => if is_clip g c then (if h =? 0 then None else Some SOLID) else Some c
         | None => Some c
         end) with
  | None => None
  | Some c =>
    if o_hint o && hull then None
    else
    let c := if o_hint o then 0 else c in
    let c := if negb (o_world o) && negb (o_bmodelcontents o) then detail_fence g SOLID else c in
    match (if hull then
             if negb (is_any_solid c) && negb (is_sky g c) && negb (is_fence g c) then None
             else Some SOLID
           else Some c) with
    | None => None
    | Some c => Some (set_clips_same_type (set_mirrored c (mirror_inside mb)) (clips_same_type mb))
    end
  end.
