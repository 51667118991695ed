(* Archives and file lookup (common/fs.cc, include/common/fs.hh). *)
From Coq Require Import List Arith NArith ZArith Bool.
Import ListNotations.
From Verif Require Import Base Codec NumCastModel ParserModel CmdlibModel.
Local Notation "x <- e ;; f" := (rbind e (fun x => f)) (at level 60, right associativity).

(** ** std::ifstream opened in binary mode *)

(** The bytes of the file, the position and failbit.  A short read sets eofbit and failbit together
    and nothing else sets eofbit here, so failbit alone is kept; it is never cleared (neither
    constructor nor load calls clear()).  The file does not change while it is open. *)
Record fstr := mkFStr { fs_bytes : list N; fs_pos : nat; fs_fail : bool }.

(** std::istream::read of [n] bytes: those that were read. *)
Definition fread (s : fstr) (n : nat) : list N * fstr :=
  if fs_fail s then ([], s)
  else let d := firstn n (skipn (fs_pos s) (fs_bytes s)) in
       (d, mkFStr (fs_bytes s) (fs_pos s + length d) (length d <? n)).
(** std::istream::seekg(pos): clears eofbit but not failbit, and does nothing on a failed stream.
    Positions beyond the end of the file are accepted by std::filebuf. *)
Definition fseek (s : fstr) (p : nat) : fstr := if fs_fail s then s else mkFStr (fs_bytes s) p false.

(** ** Directories of PAK and WAD files *)

(** The std::unordered_map from names to (offset, size).  Names come from char arrays and have no
    NUL, for which hash and equality agree (C59), so the map is an association list. *)
Definition ftable := list (list N * (N * N)).
Fixpoint ft_find (t : ftable) (k : list N) : option (N * N) :=
  match t with
  | [] => None
  | (k', v) :: t => if ci_equal k' k then Some v else ft_find t k
  end.
(** [files[k] = v]: an equal key keeps its spelling. *)
Fixpoint ft_set (t : ftable) (k : list N) (v : N * N) : ftable :=
  match t with
  | [] => [(k, v)]
  | (k', v') :: t => if ci_equal k' k then (k', v) :: t else (k', v') :: ft_set t k v
  end.

(** std::string of a char pointer: up to the first NUL.  Without one the array is read past its end. *)
Definition name_of (a : list N) : res (list N) :=
  if existsb (N.eqb 0) a then ROk (cstr a) else RUB.
Definition le32 (l : list N) : N := match get_le 4 l with Some (v, _) => v | None => 0%N end.

(** One entry read by [stream >= file]: a short read leaves members of the struct uninitialised,
    and they are used at once. *)
Definition read_entry (n : nat) (s : fstr) : res (list N * fstr) :=
  let '(d, s) := fread s n in if length d <? n then RUB else ROk (d, s).

(** pak_archive::pak_file (75-82): name[56], offset, size. *)
Definition pak_entry (d : list N) : list N * (N * N) :=
  (firstn 56 d, (le32 (skipn 56 d), le32 (skipn 60 d))).
(** wad_archive::wad_lump_header (149-160): filepos, disksize, size, type, compression, two bytes of
    padding (skipped with seekg), name[16]; load uses disksize. *)
Definition wad_entry (d : list N) : list N * (N * N) :=
  (firstn 16 (skipn 16 d), (le32 d, le32 (skipn 4 d))).

(** The loops of the two constructors (106-112, 181-187). *)
Fixpoint read_dir (len : nat) (entry : list N -> list N * (N * N)) (n : nat) (t : ftable) (s : fstr)
    : res (ftable * fstr) :=
  match n with
  | O => ROk (t, s)
  | S n => r <- read_entry len s ;;
           let '(d, s) := r in
           nm <- name_of (fst (entry d)) ;;
           read_dir len entry n (ft_set t nm (snd (entry d))) s
  end.

Definition PACK : list N := [80; 65; 67; 75]%N.
Definition WAD2 : list N := [87; 65; 68; 50]%N.
Definition WAD3 : list N := [87; 65; 68; 51]%N.
Definition leqb (a b : list N) : bool := if list_eq_dec N.eq_dec a b then true else false.

(** pak_archive::pak_archive (87-113).  The header struct is not initialised, so a file shorter than
    it is undefined behaviour.  files.reserve is not modelled (memory is assumed to suffice). *)
Definition pak_open (img : list N) : res (ftable * fstr) :=
  h <- read_entry 12 (mkFStr img 0 false) ;;
  let '(h, s) := h in
  if leqb (firstn 4 h) PACK then
    read_dir 64 pak_entry (N.to_nat (le32 (skipn 8 h) / 64)) [] (fseek s (N.to_nat (le32 (skipn 4 h))))
  else RThrow.
(** wad_archive::wad_archive (165-188). *)
Definition wad_open (img : list N) : res (ftable * fstr) :=
  h <- read_entry 12 (mkFStr img 0 false) ;;
  let '(h, s) := h in
  if leqb (firstn 4 h) WAD2 || leqb (firstn 4 h) WAD3 then
    read_dir 32 wad_entry (N.to_nat (le32 (skipn 4 h))) [] (fseek s (N.to_nat (le32 (skipn 8 h))))
  else RThrow.

(** pak_archive::load and wad_archive::load (117-130, 192-205).  The vector is zero-filled before the
    read, whose outcome is not looked at. *)
Definition arc_load (t : ftable) (s : fstr) (name : list N) : option (list N) * fstr :=
  match ft_find t name with
  | None => (None, s)
  | Some (ofs, size) =>
    let '(d, s') := fread (fseek s (N.to_nat ofs)) (N.to_nat size) in
    (Some (d ++ repeat 0%N (N.to_nat size - length d)), s')
  end.
(** pak_archive::contains, wad_archive::contains (115, 190). *)
Definition arc_contains (t : ftable) (name : list N) : bool :=
  match ft_find t name with Some _ => true | None => false end.

(** ** Paths and the file system *)

(** std::filesystem::path as its components; no empty component and no "." or ".." is interpreted. *)
Record path := mkPath { p_abs : bool; p_comps : list (list N) }.
Definition p_empty (p : path) : bool := negb (p_abs p) && match p_comps p with [] => true | _ => false end.
(** operator/ : an absolute right operand replaces the left one. *)
Definition p_join (a b : path) : path := if p_abs b then b else mkPath (p_abs a) (p_comps a ++ p_comps b).
Definition p_parent (p : path) : path := mkPath (p_abs p) (removelast (p_comps p)).
(** filename() *)
Definition p_filename (p : path) : path :=
  mkPath false (match p_comps p with [] => [] | c => [last c []] end).
(** generic_string() *)
Fixpoint join_slash (l : list (list N)) : list N :=
  match l with [] => [] | [c] => c | c :: t => c ++ 47%N :: join_slash t end.
Definition p_string (p : path) : list N := (if p_abs p then [47%N] else []) ++ join_slash (p_comps p).

(** What the program asks the file system.  [w_read]: the contents of a regular file. *)
Record world := mkWorld {
  w_exists : path -> bool;
  w_isdir : path -> bool;
  w_isreg : path -> bool;
  w_equiv : path -> path -> bool;
  w_ext : path -> list N;
  w_read : path -> list N
}.

(** ** Archives that were added *)

Inductive akind := ADir | AArc (t : ftable) (s : fstr).
(** [ar_id]: number of creation, standing for the identity of the shared_ptr. *)
Record arch := mkArch { ar_id : nat; ar_path : path; ar_kind : akind }.
(** The two global lists (210); [ss_next] counts the archives made so far. *)
Record sstate := mkSS { ss_archives : list arch; ss_dirs : list arch; ss_next : nat }.

(** directory_archive::contains (38-41) and those above. *)
Definition a_contains (w : world) (a : arch) (p : path) : bool :=
  match ar_kind a with
  | ADir => w_exists w (if p_empty (ar_path a) then p else p_join (ar_path a) p)
  | AArc t _ => arc_contains t (p_string p)
  end.
(** directory_archive::load (43-60): file_size throws for anything that is not a regular file, and
    the exception is turned into no data. *)
Definition dir_load (w : world) (q : path) : option (list N) :=
  if negb (w_exists w q) then None
  else if w_isreg w q then Some (w_read w q) else None.
Definition a_load (w : world) (a : arch) (p : path) : option (list N) * arch :=
  match ar_kind a with
  | ADir => (dir_load w (if p_empty (ar_path a) then p else p_join (ar_path a) p), a)
  | AArc t s => let '(d, s') := arc_load t s (p_string p) in (d, mkArch (ar_id a) (ar_path a) (AArc t s'))
  end.

Definition dotpak : list N := [46; 112; 97; 107]%N.
Definition dotwad : list N := [46; 119; 97; 100]%N.

(** addArchiveInternal (219-261).  Exceptions of the constructors are caught: no archive. *)
Definition open_file (w : world) (p : path) : res (option akind) :=
  let mk o := match o with
              | ROk (t, s) => ROk (Some (AArc t s)) | RThrow => ROk None | RUB => RUB end in
  if iequals (w_ext w p) dotpak then mk (pak_open (w_read w p))
  else if iequals (w_ext w p) dotwad then mk (wad_open (w_read w p))
  else ROk None.
Definition add_internal (w : world) (p : path) (st : sstate) : res (option arch * sstate) :=
  if w_isdir w p then
    match find (fun a => w_equiv w (ar_path a) p) (ss_dirs st) with
    | Some a => ROk (Some a, st)
    | None => let a := mkArch (ss_next st) p ADir in
              ROk (Some a, mkSS (ss_archives st) (a :: ss_dirs st) (S (ss_next st)))
    end
  else
    match find (fun a => w_equiv w (ar_path a) p) (ss_archives st) with
    | Some a => ROk (Some a, st)
    | None => k <- open_file w p ;;
              match k with
              | Some k => let a := mkArch (ss_next st) p k in
                          ROk (Some a, mkSS (a :: ss_archives st) (ss_dirs st) (S (ss_next st)))
              | None => ROk (None, st)
              end
    end.
(** addArchive (263-283). *)
Definition add_archive (w : world) (p : path) (st : sstate) : res (option arch * sstate) :=
  if p_empty p then ROk (None, st)
  else if negb (w_exists w p) then
    if negb (w_exists w (p_filename p)) then ROk (None, st) else add_internal w (p_filename p) st
  else add_internal w p st.

(** splitArchivePath (341-354): [k] components of the source are left in [archive].
    has_relative_path holds while components are left. *)
Fixpoint split_go (w : world) (src : path) (k : nat) : option (path * path) :=
  match k with
  | O => None
  | S j => let a := mkPath (p_abs src) (firstn k (p_comps src)) in
           if w_isreg w a then Some (a, mkPath false (skipn k (p_comps src))) else split_go w src j
  end.
Definition split_path (w : world) (src : path) : option (path * path) :=
  split_go w src (length (p_comps src) - 1).

(** Where a file was found: absrel_dir or an archive, and the path inside it. *)
Inductive source := SCwd | SArch (id : nat).

(** One pass over a list of archives (307-311). *)
Definition scan (w : world) (l : list arch) (p : path) : option (source * path) :=
  match find (fun a => a_contains w a p) l with Some a => Some (SArch (ar_id a), p) | None => None end.
(** The absolute or relative file (298-304). *)
Definition loose (w : world) (p : path) : option (source * path) :=
  if w_exists w p && negb (w_isdir w p) then Some (SCwd, p) else None.
Definition orelse {A} (a b : option A) : option A := match a with Some _ => a | None => b end.

(** where (285-318). *)
Definition where_pass (w : world) (st : sstate) (p : path) (prefer_loose pass : bool) : option (source * path) :=
  if xorb prefer_loose pass then loose w p
  else if negb (p_abs p) then
    orelse (scan w (if xorb prefer_loose false then ss_dirs st else ss_archives st) p)
           (scan w (if xorb prefer_loose true then ss_dirs st else ss_archives st) p)
  else None.
Definition where_is (w : world) (p : path) (prefer_loose : bool) (st : sstate)
    : res (option (source * path) * sstate) :=
  let rest st := ROk (orelse (where_pass w st p prefer_loose false) (where_pass w st p prefer_loose true), st) in
  match split_path w p with
  | Some (a, f) => r <- add_archive w a st ;;
                   match r with
                   | (Some ar, st) => ROk (Some (SArch (ar_id ar), f), st)
                   | (None, st) => rest st
                   end
  | None => rest st
  end.

(** load (320-334).  The pointer in a resolve_result refers to an archive of one of the lists. *)
Fixpoint load_in (w : world) (l : list arch) (id : nat) (p : path) : option (list N) * list arch :=
  match l with
  | [] => (None, [])
  | a :: l => if ar_id a =? id then let '(d, a') := a_load w a p in (d, a' :: l)
              else let '(d, l') := load_in w l id p in (d, a :: l')
  end.
Definition load_at (w : world) (r : option (source * path)) (st : sstate) : option (list N) * sstate :=
  match r with
  | None => (None, st)
  | Some (SCwd, p) => (dir_load w p, st)
  | Some (SArch id, p) =>
    if existsb (fun a => ar_id a =? id) (ss_archives st)
    then let '(d, l) := load_in w (ss_archives st) id p in (d, mkSS l (ss_dirs st) (ss_next st))
    else let '(d, l) := load_in w (ss_dirs st) id p in (d, mkSS (ss_archives st) l (ss_next st))
  end.
Definition fs_load (w : world) (p : path) (prefer_loose : bool) (st : sstate) : res (option (list N) * sstate) :=
  r <- where_is w p prefer_loose st ;; let '(r, st) := r in ROk (load_at w r st).
(** resolveArchivePath (356-363). *)
Definition resolve_path (w : world) (src : path) : path :=
  match split_path w src with Some (a, f) => p_join (p_parent a) f | None => src end.
