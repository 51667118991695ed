(* The table of textures of a map for games other than Quake II, and the archives they are read from:
   qbsp/map.cc:212-286, 390-457; qbsp/qbsp.cc:49-99, 725-734, 1533-1632. *)
From Coq Require Import List Arith NArith Bool.
Import ListNotations.
From Verif Require Import NumCastModel Codec CmdlibModel SurfFlagsModel.
Local Open Scope list_scope.

(** ** Names.  A name is a C string: bytes without NUL.  The table is the list of names of map.miptex. *)
Definition name := list N.
Definition is (c : N) (n : name) : bool := match n with x :: _ => (x =? c)%N | [] => false end.
(** The search for a name (map.cc:445-451): its place, ignoring case. *)
Fixpoint place (n : name) (tab : list name) : option nat :=
  match tab with
  | [] => None
  | t :: r => if iequals n t then Some 0 else option_map S (place n r)
  end.
(** name[1] of a C string *)
Definition second (n : name) : N := match n with _ :: c :: _ => c | _ => 0%N end.
(** name[1] = c *)
Definition with_second (c : N) (n : name) : name := match n with a :: _ :: r => a :: c :: r | _ => n end.
(** The frame of an animation and the first character of its sequence (map.cc:395-410); [None]: FError.  Bytes of 128 and
    more are negative as char (and larger than 9 where char is unsigned): refused on both. *)
Definition frame_of (n : name) : option (N * N) :=
  let c := second n in
  let c := if ((97 <=? c) && (c <=? 106))%N then (c - 32)%N else c in
  if ((48 <=? c) && (c <=? 57))%N then Some (48, c - 48)%N
  else if ((65 <=? c) && (c <=? 74))%N then Some (65, c - 65)%N
  else if (c <=? 9)%N then Some (48, c)%N
  else None.
(** The loop of AddAnimTex (416-426) from frame [i] on, [k] frames; snprintf into 16 chars keeps 15 of them. *)
Fixpoint lower_frames (base : N) (n : name) (i : N) (k : nat) (tab : list name) : list name :=
  match k with
  | 0 => tab
  | S k =>
      let f := with_second (base + i)%N (firstn 15 n) in
      lower_frames base n (i + 1)%N k (match place f tab with Some _ => tab | None => tab ++ [f] end)
  end.
(** AddAnimTex (390-427) *)
Definition add_anim (n : name) (tab : list name) : res (list name) :=
  match frame_of n with
  | None => RThrow
  | Some (base, f) => ROk (lower_frames base n 0 (N.to_nat f) tab)
  end.
(** FindMiptex (429-458): the number of the texture and the table afterwards *)
Definition find_tex (n : name) (tab : list name) : res (nat * list name) :=
  let n := base_name n n in
  match place n tab with
  | Some i => ROk (i, tab)
  | None =>
      let t := tab ++ [n] in
      if is 43 n then rbind (add_anim n t) (fun t => ROk (length tab, t)) else ROk (length tab, t)
  end.
(** Several in a row *)
Fixpoint find_all (ns : list name) (tab : list name) : res (list nat * list name) :=
  match ns with
  | [] => ROk ([], tab)
  | n :: r => rbind (find_tex n tab) (fun p => rbind (find_all r (snd p)) (fun q => ROk (fst p :: fst q, snd q)))
  end.

(** ** AddAnimationFrames (qbsp.cc:1593-1618).  [has] is fs::where: whether some archive has a texture of that name. *)
Definition frame_chars : list N := map N.of_nat (seq 48 10 ++ seq 97 10).
Fixpoint add_found (has : name -> bool) (n : name) (cs : list N) (tab : list name) : res (list name) :=
  match cs with
  | [] => ROk tab
  | c :: r =>
      let f := with_second c n in
      if has f then rbind (find_tex f tab) (fun p => add_found has n r (snd p)) else add_found has n r tab
  end.
(** One texture; name[1] = c of a string of one character overwrites its terminator. *)
Definition add_frames_of (hl : bool) (has : name -> bool) (n : name) (tab : list name) : res (list name) :=
  if is 43 n || (hl && is 45 n) then
    match n with
    | _ :: _ :: _ => add_found has n frame_chars tab
    | _ => RUB
    end
  else ROk tab.
(** The textures that are there at the start *)
Fixpoint add_frames_go (hl : bool) (has : name -> bool) (old : list name) (tab : list name) : res (list name) :=
  match old with
  | [] => ROk tab
  | n :: r => rbind (add_frames_of hl has n tab) (add_frames_go hl has r)
  end.
Definition add_frames (hl : bool) (has : name -> bool) (tab : list name) : res (list name) := add_frames_go hl has tab tab.

(** ** LoadTextureData (qbsp.cc:1533-1591).  What img::load_texture delivers: the size, whether it is a miptex, whether its
    archive is external, and the bytes of the file. *)
Record image := mkImg { g_w : N; g_h : N; g_mip : bool; g_external : bool; g_file : list N }.
Record miptex := mkMip { m_name : name; m_w : N; m_h : N; m_null : bool; m_data : list N }.
(** dmiptex_t (bspfile_generic.hh:87-96): 16 bytes of name, width, height, four offsets *)
Definition pad16 (l : list N) : list N := firstn 16 (l ++ repeat 0%N 16).
Definition header (n : name) (w h : N) : list N :=
  pad16 (if 16 <=? length n then firstn 15 n else n) ++ put_le 4 w ++ put_le 4 h ++ concat (repeat (put_le 4 0) 4).
Definition texture_data (notex zero_size : bool) (load : name -> option image) (n : name) : miptex :=
  let w := match load n with Some g => g_w g | None => 0%N end in
  let h := match load n with Some g => g_h g | None => 0%N end in
  let fake := mkMip n w h ((match n with [] => true | _ => false end) || (negb zero_size && ((w =? 0)%N || (h =? 0)%N))) (header n w h) in
  match load n with
  | Some g => if negb notex && negb (g_external g) && g_mip g then mkMip n w h false (g_file g) else fake
  | None => fake
  end.

(** ** Archives.  Paths are bytes with / between their parts.  [ex] is fs::exists, [ok] tells whether
    addArchiveInternal delivers an archive for a path that exists. *)
Definition absolute (p : name) : bool := is 47 p.
(** path / other *)
Definition join (d p : name) : name := if absolute p then p else match d with [] => p | _ => if is 47 (rev d) then d ++ p else d ++ 47%N :: p end.
(** fs::addArchive (common/fs.cc:267-287): the path that is opened *)
Definition open_path (ex ok : name -> bool) (p : name) : option name :=
  match p with
  | [] => None
  | _ => if ex p then (if ok p then Some p else None)
         else let f := base_name p p in if ex f then (if ok f then Some f else None) else None
  end.
(** LoadTexturePath (map.cc:212-234): path and flag of the archive *)
Fixpoint try_paths (ex ok : name -> bool) (dirs : list (name * bool)) (p : name) : option (name * bool) :=
  match dirs with
  | [] => None
  | (d, x) :: r => match open_path ex ok (join d p) with Some a => Some (a, x) | None => try_paths ex ok r p end
  end.
Definition load_path (ex ok : name -> bool) (dirs : list (name * bool)) (p : name) : option (name * bool) :=
  let here := option_map (fun a => (a, false)) (open_path ex ok p) in
  if absolute p then here else match try_paths ex ok dirs p with Some a => Some a | None => here end.
(** std::getline with ';': what is between the semicolons; nothing after the last one *)
Fixpoint split_wads (s acc : name) : list name :=
  match s with
  | [] => match acc with [] => [] | _ => [rev acc] end
  | c :: r => if (c =? 59)%N then rev acc :: split_wads r [] else split_wads r (c :: acc)
  end.
(** EnsureTexturesLoaded (236-285): the archives that are added, first to last.  [wad_], [wad]: the keys _wad and wad of the
    world; [default]: the map's path with the extension wad. *)
Definition some_list {A} (o : option A) : list A := match o with Some a => [a] | None => [] end.
Definition load_wads (ex ok : name -> bool) (dirs : list (name * bool)) (wad_ wad default : name) : list (name * bool) :=
  let s := match wad_ with [] => wad | _ => wad_ end in
  match flat_map (fun w => some_list (load_path ex ok dirs w)) (split_wads s []) with
  | [] => if ex default then some_list (load_path ex ok dirs default) else []
  | l => l
  end.
(** setting_wadpathset::parse (qbsp.cc:88-99): a set of paths ordered by path ([lt]); a path that is there keeps its flag. *)
Fixpoint add_dir (lt : name -> name -> bool) (p : name) (x : bool) (dirs : list (name * bool)) : list (name * bool) :=
  match dirs with
  | [] => [(p, x)]
  | (d, y) :: r => if lt p d then (p, x) :: dirs else if lt d p then (d, y) :: add_dir lt p x r else dirs
  end.
(** The default (qbsp.cc:725-734): the directory of the map, if there is one *)
Definition default_dirs (dirs : list (name * bool)) (map_dir : name) : list (name * bool) :=
  match dirs with [] => match map_dir with [] => [] | _ => [(map_dir, false)] end | _ => dirs end.
