(* The commands of bsputil that change a BSP in place or take something out of it: bsputil_main
   (bsputil/bsputil.cc:697-740, 1176-1199, 1272-1316, 1344-1354, 1395-1418, 1475-1550). *)
From Coq Require Import String Ascii List Arith NArith ZArith Bool.
Import ListNotations.
From Verif Require Import Base Codec NumCastModel BspRecModel BspFileModel ConvModel.
Local Open Scope Z_scope.
Local Open Scope list_scope.

Definition str (s : string) : list N := map N_of_ascii (list_ascii_of_string s).
Definition same (a b : list N) : bool := if list_eq_dec N.eq_dec a b then true else false.

(** A file: absent, with contents, or truncated by a write that did not come to its end (how much of
    it was written before depends on buffers). *)
Inductive file := FNone | FData (d : list N) | FBroken.
Definition disk := list N -> file.
Definition put (fs : disk) (n : list N) (x : file) : disk := fun m => if same m n then x else fs m.

(** std::filesystem::path of one component: what precedes the last dot (one at the front does not
    count), and replace_extension. *)
Fixpoint last_dot (n : list N) (i : nat) (r : option nat) : option nat :=
  match n with
  | [] => r
  | c :: t => last_dot t (S i) (if (c =? 46)%N && negb (i =? 0)%nat then Some i else r)
  end.
Definition stem (n : list N) : list N := match last_dot n 0 None with Some i => firstn i n | None => n end.
Definition with_ext (n e : list N) : list N := stem n ++ e.

(** The state of bsputil_main: source, bspdata (with its BSPX lumps apart) and the disk. *)
Record st := mkSt { s_name : list N; s_data : bspdata (list rmip); s_x : bspx; s_fs : disk }.

(** Returned (0 or the end of the loop), Error/FError/exception/assertion, undefined behaviour, a command
    that is not modelled here. *)
Inductive out := Done (fs : disk) | Stop (fs : disk) | Undef | Other.

(** What write_bsp takes of a texture that was loaded. *)
Definition wtex (t : rmip) : miptex := mkTexD (rm_null t) (rm_data t).
Definition wb (b : bspv (list rmip)) : bspv (list miptex) :=
  match b with
  | B1 b => B1 (mkQ1 (b1_ents b) (b1_planes b) (map wtex (b1_tex b)) (b1_verts b) (b1_vis b) (b1_nodes b) (b1_texinfo b)
                  (b1_faces b) (b1_light b) (b1_clips b) (b1_leafs b) (b1_marks b) (b1_edges b) (b1_surfedges b) (b1_models b))
  | B2 b => B2 b
  end.

(** WriteBSPFile (common/bspfile.cc:2525-2566): the file is truncated first; write_bsp of the generic BSP
    is an FError. *)
Definition write_bsp (n : list N) (s : st) (k : st -> out) : out :=
  match d_ver (s_data s), d_bsp (s_data s) with
  | Some v, AFmt b =>
    match write_file v (wb b) (s_x s) with
    | ROk f => k (mkSt n (s_data s) (s_x s) (put (s_fs s) n (FData f)))
    | RThrow => Stop (put (s_fs s) n FBroken)
    | RUB => Undef
    end
  | _, _ => Stop (put (s_fs s) n FBroken)
  end.

(** ConvertBSPFormat, whose result bsputil ignores. *)
Definition conv (to : option ver) (s : st) (k : st -> out) : out :=
  match convert [] (s_data s) to with
  | ROk (_, d) => k (mkSt (s_name s) d (s_x s) (s_fs s))
  | RThrow => Stop (s_fs s)
  | RUB => Undef
  end.

(** std::get<mbsp_t>(bspdata.bsp): throws if the variant holds another form. *)
Definition get_gen (s : st) (k : mbsp (list rmip) -> out) : out :=
  match d_bsp (s_data s) with AGen g => k g | AFmt _ => Stop (s_fs s) end.

Definition set_gen (s : st) (g : mbsp (list rmip)) : st :=
  mkSt (s_name s) (mkData (d_ver (s_data s)) (d_load (s_data s)) (AGen g)) (s_x s) (s_fs s).
Definition set_x (s : st) (x : bspx) : st := mkSt (s_name s) (s_data s) x (s_fs s).

Definition with_ents {T} (g : mbsp T) (e : list N) : mbsp T :=
  mkGen e (g_planes g) (g_tex g) (g_verts g) (g_vis g) (g_nodes g) (g_texinfo g) (g_faces g) (g_light g) (g_clips g)
    (g_leafs g) (g_leaffaces g) (g_leafbrushes g) (g_edges g) (g_surfedges g) (g_models g) (g_brushes g) (g_sides g) (g_areas g) (g_areaportals g).
Definition with_faces {T} (g : mbsp T) (l : list face) : mbsp T :=
  mkGen (g_ents g) (g_planes g) (g_tex g) (g_verts g) (g_vis g) (g_nodes g) (g_texinfo g) l (g_light g) (g_clips g)
    (g_leafs g) (g_leaffaces g) (g_leafbrushes g) (g_edges g) (g_surfedges g) (g_models g) (g_brushes g) (g_sides g) (g_areas g) (g_areaportals g).
Definition face_tex (t : Z) (f : face) : face :=
  mkFace (f_plane f) (f_side f) (f_fe f) (f_ne f) t (f_s0 f) (f_s1 f) (f_s2 f) (f_s3 f) (f_lo f).
Fixpoint upd {A} (i : nat) (f : A -> A) (l : list A) : list A :=
  match l, i with
  | [], _ => []
  | a :: t, O => f a :: t
  | a :: t, S j => a :: upd j f t
  end.

Fixpoint xfind (n : list N) (x : bspx) : option (list N) :=
  match x with [] => None | (k, d) :: t => if list_eq_dec N.eq_dec k n then Some d else xfind n t end.
Definition xerase (n : list N) (x : bspx) : bspx := filter (fun p => negb (same (fst p) n)) x.

(** bspversions with their short names (common/bspfile.cc:1574-1735). *)
Definition versions : list (list N * option ver) :=
  [(str "mbsp", None); (str "bsp29", Some VQ1); (str "hexen2", Some VH2); (str "hexen2bsp2", Some VH2Bsp2);
   (str "hexen2bsp2rmq", Some VH2Rmq); (str "bsp2", Some VBsp2); (str "bsp2rmq", Some VRmq); (str "hl", Some VHl);
   (str "q2bsp", Some VQ2); (str "qbism", Some VQbism)].
Fixpoint version_named (n : list N) (l : list (list N * option ver)) : option (option ver) :=
  match l with [] => None | (k, v) :: t => if same k n then Some v else version_named n t end.

(** Commands of bsputil that are modelled elsewhere (C93-C95, C124, C130, C137) or not at all. *)
Definition others : list (list N) :=
  [str "--svg"; str "--check"; str "--scale"; str "--compare"; str "--extract-textures"; str "--replace-textures"; str "--findfaces";
   str "--findleaf"; str "--decompile"; str "--decompile-geomonly"; str "--decompile-ignore-brushes"; str "--decompile-hull"].

(** The loop of bsputil_main (735-1553) over the arguments from argv[i] on; the last argument is the BSP, argv[argc] is a
    null pointer.  num: std::stoi, None where it throws.  parses: whether LoadMapOrEntFile accepts the text.  fs::load is
    a file of the disk (archives are left out), and a file that cannot be opened for writing too. *)
Fixpoint loop (num : list N -> option Z) (parses : list N -> bool) (fuel : nat) (args : list (list N)) (s : st) : out :=
  match fuel with
  | O => Other
  | S fuel =>
    match args with
    | [] => Done (s_fs s)
    | [_] => Done (s_fs s)
    | c :: args =>
      if same c (str "--replace-entities") then
        match args with
        | [] | [_] => Stop (s_fs s)
        | a :: args =>
          match d_bsp (s_data s) with
          | AGen g =>
            match s_fs s a with
            | FData e => conv (d_load (s_data s)) (set_gen s (with_ents g e)) (fun s1 => write_bsp (s_name s1) s1 (loop num parses fuel args))
            | _ => Stop (s_fs s)
            end
          | AFmt _ =>   (* the .map branch, with map_file.entities empty *)
            match s_fs s a with
            | FData e => if parses e then Undef else Stop (s_fs s)
            | _ => Stop (s_fs s)
            end
          end
        end
      else if same c (str "--convert") then
        match args with
        | [] | [_] => Stop (s_fs s)
        | a :: args =>
          match version_named a versions with
          | None => Stop (s_fs s)
          | Some v => conv v s (fun s1 => write_bsp (stem (s_name s1) ++ str "-" ++ a) s1 (loop num parses fuel args))
          end
        end
      else if same c (str "--extract-entities") then
        get_gen s (fun g =>
          match g_ents g with
          | [] => Undef   (* CRC_Block of -1 bytes *)
          | _ => let n := with_ext (s_name s) (str ".ent") in
                 loop num parses fuel args (mkSt n (s_data s) (s_x s) (put (s_fs s) n (FData (g_ents g))))
          end)
      else if same c (str "--modelinfo") then get_gen s (fun _ => loop num parses fuel args s)
      else if same c (str "--settexinfo") then
        match args with
        | a :: b :: _ =>
          get_gen s (fun g =>
            match num a, num b with
            | Some i, Some t =>
              if (0 <=? i) && (i <? Z.of_nat (List.length (g_faces g))) then
                conv (d_load (s_data s)) (set_gen s (with_faces g (upd (Z.to_nat i) (face_tex t) (g_faces g))))
                  (fun s1 => write_bsp (s_name s1) s1 (fun s2 => Done (s_fs s2)))
              else Stop (s_fs s)
            | _, _ => Stop (s_fs s)
            end)
        | _ => Stop (s_fs s)
        end
      else if same c (str "--extract-bspx-lump") then
        match args with
        | a :: b :: _ :: _ =>
          match xfind a (s_x s) with
          | None => Stop (s_fs s)
          | Some d => Done (put (s_fs s) b (FData d))
          end
        | [_; _] => Stop (s_fs s)
        | _ => Undef   (* fs::path of a null pointer *)
        end
      else if same c (str "--insert-bspx-lump") then
        match args with
        | a :: b :: _ :: _ =>
          match s_fs s b with
          | FData d => conv (d_load (s_data s)) (set_x s (assign (s_x s) a d)) (fun s1 => write_bsp (s_name s1) s1 (fun s2 => Done (s_fs s2)))
          | _ => Stop (s_fs s)
          end
        | [_; _] => Stop (s_fs s)
        | _ => Undef
        end
      else if same c (str "--remove-bspx-lump") then
        match args with
        | a :: _ :: _ =>
          match xfind a (s_x s) with
          | None => Stop (s_fs s)
          | Some _ => conv (d_load (s_data s)) (set_x s (xerase a (s_x s))) (fun s1 => write_bsp (s_name s1) s1 (fun s2 => Done (s_fs s2)))
          end
        | _ => Stop (s_fs s)
        end
      else if existsb (same c) others then Other
      else loop num parses fuel args s
    end
  end.

(** bsputil_main for a BSP (714-735): loaded and converted to the generic form. args: argv[1] up to the
    BSP. *)
Definition bsputil (num : list N -> option Z) (parses : list N -> bool) (args : list (list N)) (fs : disk) : out :=
  let n := last args [] in
  match fs n with
  | FData f =>
    match load_file f with
    | ROk (v, b, x) => conv None (mkSt n (mkData (Some v) None (AFmt b)) x fs) (loop num parses (List.length args) args)
    | RThrow => Stop fs
    | RUB => Undef
    end
  | _ => Stop fs
  end.
