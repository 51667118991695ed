(* Texture files: WAL and miptex images, palettes, average colours (common/imglib.cc). *)
From Coq Require Import List Arith NArith ZArith Bool.
Import ListNotations.
From Verif Require Import Base Codec NumCastModel BspRecModel BspFileModel ParserModel CmdlibModel FsModel.
Local Open Scope Z_scope.

Definition rgb := (N * N * N)%type.
(** qvec4b: red, green, blue, alpha. *)
Definition rgba := (N * N * N * N)%type.

(** img::texture and its meta data as far as the loaders set them (include/common/imglib.hh:44-82).
    The name is the one asked for and is left out. *)
Record texture := mkTexture { tx_w : Z; tx_h : Z; tx_flags : Z; tx_contents : Z; tx_value : Z;
                              tx_anim : list N; tx_pixels : list rgba }.

(** convert_paletted_to_32_bit (93-103).  An index without a palette entry is out of bounds. *)
Fixpoint to_rgba (pal : list rgb) (px : list N) : res (list rgba) :=
  match px with
  | [] => ROk []
  | i :: px => match nth_error pal (N.to_nat i) with
               | None => RUB
               | Some (r, g, b) => l <- to_rgba pal px ;;
                                   ROk ((r, g, b, if (i =? 255)%N then 0%N else 255%N) :: l)
               end
  end.

(** [stream.read(data, n)] into a vector of [n] zeros whose outcome is not looked at. *)
Definition mread_zeros (b : list N) (n : Z) (st : mstate) : res (list N * mstate) :=
  r <- mread b n st ;;
  ROk (match fst r with Some bs => bs | None => repeat 0%N (Z.to_nat n) end, snd r).

(** q2_miptex_t (110-121). *)
Definition wal_types : list ity := repeat u8 32 ++ [u32; u32] ++ repeat u32 4 ++ repeat u8 32 ++ [i32; i32; i32].
(** uint32_t multiplication. *)
Definition mul32 (a b : Z) : Z := (a * b) mod 2 ^ 32.

(** load_wal (123-158).  The struct is not initialised, so a header that was not read in full is
    undefined behaviour. *)
Definition load_wal (b : list N) (meta_only : bool) (pal : list rgb) : res texture :=
  r <- mfields b wal_types (mkM 0 true) ;;
  match fst r with
  | None => RUB
  | Some vs =>
    let w := nth 32 vs 0 in let h := nth 33 vs 0 in
    anim <- name_of (map Z.to_N (firstn 32 (skipn 38 vs))) ;;
    px <- (if meta_only then ROk []
           else d <- mread_zeros b (mul32 w h) (mseek (nth 34 vs 0) (snd r)) ;; to_rgba pal (fst d)) ;;
    ROk (mkTexture w h (nth 70 vs 0) (it_wrap u32 (nth 71 vs 0)) (nth 72 vs 0) anim px)
  end.

(** dmiptex_t (include/common/bspfile_generic.hh:87-96, common/bspfile_generic.cc:stream_read). *)
Definition mip_types : list ity := repeat u8 16 ++ [u32; u32] ++ repeat i32 4.

(** 768 bytes as 256 colours. *)
Fixpoint triples (l : list N) : list rgb :=
  match l with a :: b :: c :: l => (a, b, c) :: triples l | _ => [] end.

(** The palette of a Half-Life texture (212-247): [None] when the game's palette is used.  [sum] is an
    int addition; adding palette_size (770, a size_t) converts it to 64 bits. *)
Definition hl_palette (b : list N) (w h ofs3 : Z) (st : mstate) : res (option (list rgb)) :=
  let mip3 := it_wrap i32 (mul32 (w / 8) (h / 8)) in
  if ofs3 <=? 0 then ROk None
  else let sum := ofs3 + mip3 in
    if negb (it_in i32 sum) then RUB
    else if size b <? (sum + 770) mod 2 ^ 64 then ROk None
    else n <- mfields b [u16] (mseek sum st) ;;
         match fst n with
         | Some [c] => if c =? 256 then d <- mread_zeros b 768 (snd n) ;; ROk (Some (triples (fst d))) else ROk None
         | _ => RUB
         end.

(** load_mip (166-253); [hl]: the game is Half-Life.  [ROk None]: the file is refused.  width, height
    and the product are uint32_t, offsets[0] is converted to it. *)
Definition load_mip (b : list N) (meta_only hl : bool) (pal : list rgb) : res (option texture) :=
  r <- mfields b mip_types (mkM 0 true) ;;
  match fst r with
  | None => ROk None
  | Some vs =>
    let w := nth 16 vs 0 in let h := nth 17 vs 0 in let ofs0 := nth 18 vs 0 in
    let tex px := ROk (Some (mkTexture w h 0 0 0 [] px)) in
    if meta_only then tex []
    else if ofs0 <=? 0 then tex []
    else if size b <? (ofs0 + mul32 w h) mod 2 ^ 32 then tex []
    else d <- mread_zeros b (mul32 w h) (mseek ofs0 (snd r)) ;;
         p <- (if hl then hl_palette b w h (nth 21 vs 0) (snd d) else ROk None) ;;
         px <- to_rgba (match p with Some p => p | None => pal end) (fst d) ;;
         tex px
  end.

(** LoadPCXPalette (48-76): pcx_t has 128 bytes of which the fields before and between the two paddings
    are read; [seekg] of size - 768 in size_t arithmetic (a std::streamoff, so it is negative below
    768).  [ROk None]: refused.  The padding is skipped with seekg(n, cur): gbump, no check. *)
Definition mskip (n : Z) (st : mstate) : mstate :=
  if negb (m_ok st) then st else mkM (m_pos st + n) (negb (m_pos st + n =? -1)).
Definition pcx_palette (b : list N) : res (option (list rgb)) :=
  r <- mfields b ([i8; i8; i8; i8] ++ repeat u16 6) (mkM 0 true) ;;
  match fst r with
  | None => RUB
  | Some vs =>
    q <- mfields b [i8; u16; u16] (mskip 49 (snd r)) ;;
    let st := mskip 58 (snd q) in
    if negb ((nth 0 vs 0 =? 10) && (nth 1 vs 0 =? 5) && (nth 2 vs 0 =? 1) && (nth 3 vs 0 =? 8)) then ROk None
    else d <- mread_zeros b 768 (mseek (size b - 768) st) ;;
         ROk (Some (triples (fst d)))
  end.

(** init_palette (78-97): [q2] says whether the game is Quake II, [file] is what fs::load gives for
    pics/colormap.pcx; LoadPCXPalette refuses a missing and an empty file (52-57). *)
Definition init_palette (q2 : bool) (file : option (list N)) (builtin : list rgb) : res (list rgb) :=
  match q2, file with
  | true, Some (x :: b) => p <- pcx_palette (x :: b) ;; ROk (match p with Some p => p | None => builtin end)
  | _, _ => ROk builtin
  end.

(** calculate_average (309-323).  The sums are integers below 2^53, exact in a double; the quotient is
    truncated by the conversion to uint8_t.  (Division in double rounds to nearest; a quotient below an
    integer k <= 255 lies at least 1/n below it, so truncation gives the floor for n < 2^44.)  Without
    an opaque pixel the quotient is 0/0, and converting a NaN is undefined behaviour. *)
Definition opaque (p : rgba) : bool := let '(_, _, _, a) := p in (127 <=? a)%N.
Definition avg_sums (px : list rgba) : N * N * N * N :=
  fold_left (fun acc p => let '(sr, sg, sb, n) := acc in let '(r, g, b, _) := p in
    if opaque p then (sr + r, sg + g, sb + b, n + 1)%N else acc) px (0, 0, 0, 0)%N.
Definition average (px : list rgba) : res rgb :=
  let '(sr, sg, sb, n) := avg_sums px in
  if (n =? 0)%N then RUB else ROk (sr / n, sg / n, sb / n)%N.
