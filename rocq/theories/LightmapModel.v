(* light: choice of the light styles of a face, space in the lightmap data, and what is written where
   (light/write.cc:102-121, 686-1062, light/light.cc:606-637).
   Simplifications: the pixels of a lightmap are parameters; sizes are natural numbers without the
   overflow of [numsamples * num_styles]; brightness is an integer (any common unit). *)
From Coq Require Import List Arith NArith ZArith Bool.
Import ListNotations.
From Verif Require Import Base NumCastModel.
Local Open Scope Z_scope.

(** include/light/write.hh:58-59, include/common/bspfile_generic.hh:244-245 *)
Definition MAXLIGHTMAPS : nat := 4.
Definition MAXLIGHTMAPSSUP : nat := 16.
Definition INVALID : Z := 65535.
Definition INVALID_OLD : Z := 255.

(** A lightmap of a surface: style, largest and average brightness. *)
Record lm := mkLm { lm_style : Z; lm_max : Z; lm_avg : Z }.

(** 697-731: lightmaps that are not considered: unsaved, style too high, dark (not in Quake II). [idx] is
    the position, which orders lightmaps of equal brightness (std::pair of float and pointer). *)
Definition considered (q2 sup : bool) (l : lm) : bool :=
  negb (lm_style l =? INVALID) &&
  negb ((if sup then INVALID else INVALID_OLD) <? lm_style l) &&
  negb (sup && (INVALID_OLD <? lm_style l)) &&
  (q2 || (1 <=? lm_max l)).

(** std::sort of (brightness, position) and std::reverse (748-749): descending. *)
Definition before (a b : Z * nat) : bool := (fst b <? fst a) || ((fst a =? fst b) && (snd b <? snd a)%nat).
Fixpoint insert (a : Z * nat) (l : list (Z * nat)) : list (Z * nat) :=
  match l with
  | [] => [a]
  | b :: t => if before a b then a :: l else b :: insert a t
  end.
Definition sort_desc (l : list (Z * nat)) : list (Z * nat) := fold_right insert [] l.

Definition sortable (q2 sup : bool) (ls : list lm) : list (Z * nat) :=
  map (fun p => (lm_avg (snd p), fst p)) (filter (fun p => considered q2 sup (snd p)) (combine (seq 0 (length ls)) ls)).

(** CalculateLightmapStyles (686-786): position and style of the lightmaps to save.  In Quake II a surface
    without any gets one of style 0: the first unsaved one or a new one (Lightmap_ForStyle,
    light/ltface.cc:763-783; there is none of style 0 then). *)
Fixpoint first_unsaved (ls : list lm) : nat :=
  match ls with [] => O | x :: t => if lm_style x =? INVALID then O else S (first_unsaved t) end.
Definition style_at (ls : list lm) (i : nat) : Z :=
  match nth_error ls i with Some l => if lm_style l =? INVALID then 0 else lm_style l | None => 0 end.
Definition chosen (q2 sup : bool) (facestyles : nat) (ls : list lm) : list (nat * Z) :=
  let s := sortable q2 sup ls in
  let s := match s with [] => if q2 then [(0, first_unsaved ls)] else [] | _ => s end in
  map (fun p => (snd p, style_at ls (snd p)))
    (firstn (Nat.min facestyles (if sup then MAXLIGHTMAPSSUP else MAXLIGHTMAPS)) (sort_desc s)).

(** align_value<4> (include/common/mathlib.hh:35-44) *)
Definition align4 (n : nat) : nat := if (n mod 4 =? 0)%nat then n else (n + (4 - n mod 4))%nat.

(** How the lighting is stored: in the faces; in DECOUPLED_LM, with or without lightmaps in the faces;
    in the scaled lightmaps of LMSHIFT, lit2 or more than four styles. *)
Inductive mode := Plain | Decoupled (vanilla : bool) | Sup (novanilla : bool).

(** A surface with samples: the styles to save, the number of samples of its lightmap and of the plain
    lightmap, and whether its scale is that of the model. *)
Record surf := mkSurf { sf_styles : list Z; sf_size : nat; sf_vsize : nat; sf_same : bool }.
Definition nst (s : surf) : nat := length (sf_styles s).

(** Blocks are requested for a face, for the plain lightmap ([true]) or the lightmap (990-1013). *)
Definition req := (nat * bool * nat)%type.
Definition requests (m : mode) (i : nat) (s : surf) : list req :=
  (match m with
   | Plain => []
   | Decoupled vanilla => if vanilla then [(i, true, (sf_vsize s * nst s)%nat)] else []
   | Sup nov => if nov || sf_same s then [] else [(i, true, (sf_vsize s * nst s)%nat)]
   end) ++ (if (nst s =? 0)%nat then [] else [(i, false, (sf_size s * nst s)%nat)]).

Fixpoint all_requests (m : mode) (i : nat) (ss : list (option surf)) : list req :=
  match ss with
  | [] => []
  | o :: t => (match o with Some s => requests m i s | None => [] end) ++ all_requests m (S i) t
  end.

(** GetFileSpace (109-118) for the requests in the order in which the threads get to them: the offsets
    and the final size; offsets above INT_MAX are refused. *)
Definition table := list (nat * bool * nat).
Fixpoint allocate (rs : list req) (ofs : nat) : res (table * nat) :=
  match rs with
  | [] => ROk ([], ofs)
  | (i, k, n) :: t =>
      if 2147483647 <? Z.of_nat ofs then RThrow
      else rbind (allocate t (ofs + align4 n)) (fun r => ROk ((i, k, ofs) :: fst r, snd r))
  end.
Fixpoint offset (t : table) (i : nat) (k : bool) : option nat :=
  match t with
  | [] => None
  | (i', k', o) :: t => if (i =? i')%nat && Bool.eqb k k' then Some o else offset t i k
  end.

(** The buffers: greyscale, coloured, directions; which of them exist (1017-1027). *)
Record bufs := mkBufs { has_out : bool; has_lit : bool; has_lux : bool }.
Definition buffers (rgb litfile luxfile : bool) : bufs := mkBufs (negb rgb) (rgb || litfile) luxfile.

(** The pixels written for a lightmap: greyscale, colour, direction. *)
Definition pix := (list N * list N * list N)%type.

(** The writes for the lightmaps of one block: buffer, address, byte (891-905). *)
Definition byte_w := (nat * nat * N)%type.
Definition put_bytes (buf at_ : nat) (l : list N) : list byte_w := map (fun p => (buf, fst p, snd p)) (combine (seq at_ (length l)) l).
Fixpoint put_maps (b : bufs) (o size : nat) (ps : list pix) : list byte_w :=
  match ps with
  | [] => []
  | (g, c, d) :: t =>
      (if has_out b then put_bytes 0 o g else []) ++
      (if has_lit b then put_bytes 1 (o * 3) c else []) ++
      (if has_lux b then put_bytes 2 (o * 3) d else []) ++ put_maps b (o + size) size t
  end.

(** The fields of a face, of its scaled counterpart and of DECOUPLED_LM. *)
Record out_face := mkOut { f_ofs : Z; f_styles : list Z; s_ofs : Z; s_styles : list Z; d_ofs : Z }.

(** [lightofs] (844-851); [id.lightofs * 3] is an int. *)
Definition ofs_value (rgb : bool) (b : bufs) (o : nat) : res Z :=
  if (has_lit b || has_lux b) && (2147483647 <? 3 * Z.of_nat o) then RUB
  else ROk (if rgb then 3 * Z.of_nat o else Z.of_nat o).

Definition face_styles (l : list Z) : list Z := firstn MAXLIGHTMAPS (map (fun s => s mod 256) l ++ repeat INVALID_OLD MAXLIGHTMAPS).
Definition sup_styles (l : list Z) : list Z := firstn MAXLIGHTMAPSSUP (map (fun s => s mod 65536) l ++ repeat INVALID MAXLIGHTMAPSSUP).

(** Which records SaveLightmapSurface is given. *)
Inductive target := ToFace | ToSup | ToDecoupled (vanilla : bool).

(** SaveLightmapSurface (788-942) without the plain lightmap of decoupled ones: the block at the offset of
    the lightmap, with pixels of [size] samples; the block has to be inside the data (Q_assert, 871-881). *)
Definition save (rgb : bool) (b : bufs) (t : table) (total i : nat) (styles : list Z) (size : nat) (px : nat -> pix) (vpx : nat -> pix) (vsize : nat)
    (to : target) (f : out_face) : res (out_face * list byte_w) :=
  match styles with
  | [] => ROk (f, [])
  | _ =>
    match offset t i false with
    | None => RThrow
    | Some o =>
        rbind (ofs_value rgb b o) (fun v =>
        let f1 := match to with
          | ToSup => mkOut (f_ofs f) (f_styles f) v (sup_styles styles) (d_ofs f)
          | ToFace => mkOut v (face_styles styles) (s_ofs f) (s_styles f) (d_ofs f)
          | ToDecoupled _ => mkOut (-1) (face_styles styles) (s_ofs f) (s_styles f) v
          end in
        let w := put_maps b o size (map px (seq 0 (length styles))) in
        if (total <? o + size * length styles)%nat then RThrow else
        match to with
        | ToDecoupled true =>
            match offset t i true with
            | None => RThrow
            | Some o2 =>
                rbind (ofs_value rgb b o2) (fun v2 =>
                ROk (mkOut v2 (f_styles f1) (s_ofs f1) (s_styles f1) (d_ofs f1),
                     w ++ put_maps b o2 vsize (map vpx (seq 0 (length styles)))))
            end
        | _ => ROk (f1, w)
        end)
    end
  end.

(** The fields before (light/light.cc:614-634): with scaled lightmaps those of the face itself are left as
    they are in the file. *)
Definition initial (m : mode) (file : out_face) : out_face :=
  match m with
  | Sup _ => mkOut (f_ofs file) (f_styles file) (-1) (repeat INVALID MAXLIGHTMAPSSUP) (-1)
  | _ => mkOut (-1) (repeat INVALID_OLD MAXLIGHTMAPS) (-1) [] (-1)
  end.

(** One face of the second loop (1031-1061). *)
Definition save_face (m : mode) (rgb : bool) (b : bufs) (t : table) (total i : nat) (s : surf) (px vpx : nat -> pix) (f : out_face)
    : res (out_face * list byte_w) :=
  match m with
  | Plain => save rgb b t total i (sf_styles s) (sf_size s) px vpx (sf_vsize s) ToFace f
  | Decoupled v => save rgb b t total i (sf_styles s) (sf_size s) px vpx (sf_vsize s) (ToDecoupled v) f
  | Sup nov =>
      if nov || sf_same s
      then rbind (save rgb b t total i (sf_styles s) (sf_size s) px vpx (sf_vsize s) ToSup
                    (mkOut (if sf_same s then s_ofs f else -1) (f_styles f) (s_ofs f) (s_styles f) (d_ofs f))) (fun r =>
           ROk (mkOut (f_ofs (fst r)) (map (fun v => if v =? INVALID then INVALID_OLD else v mod 256) (firstn MAXLIGHTMAPS (s_styles (fst r))))
                      (s_ofs (fst r)) (s_styles (fst r)) (d_ofs (fst r)), snd r))
      else rbind (save rgb b t total i (sf_styles s) (sf_vsize s) vpx vpx (sf_vsize s) ToFace f) (fun r =>
           rbind (save rgb b t total i (sf_styles s) (sf_size s) px vpx (sf_vsize s) ToSup (fst r)) (fun q =>
           ROk (fst q, snd r ++ snd q)))
  end.

(** All faces; the writes of all threads, to be done in any order. *)
Fixpoint save_all (m : mode) (rgb : bool) (b : bufs) (t : table) (total i : nat) (ss : list (option surf)) (px vpx : nat -> nat -> pix)
    (fs : list out_face) : res (list out_face * list byte_w) :=
  match ss, fs with
  | o :: ss, f :: fs =>
      rbind (match o with Some s => save_face m rgb b t total i s (px i) (vpx i) f | None => ROk (f, []) end) (fun r =>
      rbind (save_all m rgb b t total (S i) ss px vpx fs) (fun q => ROk (fst r :: fst q, snd r ++ snd q)))
  | _, _ => ROk ([], [])
  end.

(** Writes into a buffer, at first 0; outside of it they are undefined. *)
Fixpoint do_writes (buf : nat) (ws : list byte_w) (l : list N) : res (list N) :=
  match ws with
  | [] => ROk l
  | (k, a, v) :: t => if (k =? buf)%nat
                      then match upd l a v with Some l' => do_writes buf t l' | None => RUB end
                      else do_writes buf t l
  end.
Definition buf_size (buf total : nat) : nat := match buf with O => total | _ => (3 * total)%nat end.
Definition final (buf total : nat) (ws : list byte_w) : res (list N) :=
  do_writes buf ws (repeat 0%N (buf_size buf total)).
