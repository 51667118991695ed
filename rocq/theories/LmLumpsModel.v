(* light: the BSPX lumps LMSTYLE, LMSTYLE16 and LMOFFSET, the .lit and .lux files and the rest of storing
   lighting (light/light.cc:733-766, 838-922, light/write.cc:27-99, 610-674, 957-988, 1077-1113).
   Simplifications: buffers, faces and lumps are lists; bytes are numbers; native byte order is little
   endian (light/write.cc opens its files without [endianness]); every write to a file succeeds. *)
From Coq Require Import List Arith NArith ZArith Bool.
Import ListNotations.
From Verif Require Import Base Codec NumCastModel LightmapModel.
Local Open Scope Z_scope.

(** The loop over the scaled styles of a face (light.cc:851-862): their number, whether a style of the face
    itself differs, the largest. [ss] are the scaled styles from [j] on, [fs] those of the face. *)
Fixpoint scan (j : nat) (fs ss : list Z) (need : bool) (mx : Z) : nat * bool * Z :=
  match ss with
  | [] => (j, need, mx)
  | s :: t => if s =? INVALID then (j, need, mx)
              else scan (S j) (tl fs) t
                     (need || ((j <? MAXLIGHTMAPS)%nat && negb (hd 0 fs =? s)))
                     (if mx <? s then s else mx)
  end.

(** light.cc:843-864: needoffsets, needstyles, maxstyle, stylesperface over all faces. *)
Record needs := mkNeeds { nd_ofs : bool; nd_sty : bool; nd_max : Z; nd_per : nat }.
Definition need_face (n : needs) (f : out_face) : needs :=
  match scan 0 (f_styles f) (s_styles f) (nd_sty n) (nd_max n) with
  | (j, sty, mx) => mkNeeds (nd_ofs n || negb (f_ofs f =? s_ofs f)) sty mx (if (nd_per n <? j)%nat then j else nd_per n)
  end.
Definition need_all (fs : list out_face) : needs := fold_left need_face fs (mkNeeds false false 0 0).

(** The lumps (any from an earlier run have been erased, 838-841). *)
Record lumps := mkLumps { l_style : option (list N); l_style16 : option (list N); l_ofs : option (list N) }.

(** 866-871: at most facestyles, which is an int without bounds. *)
Definition per_face (facestyles : Z) (n : nat) : Z := if facestyles <=? Z.of_nat n then facestyles else Z.of_nat n.

(** 880-917. A negative count makes a vector of more than max_size, which throws. *)
Definition style_lumps (facestyles : Z) (fs : list out_face) : res lumps :=
  let n := need_all fs in
  let per := per_face facestyles (nd_per n) in
  let ofs := if nd_ofs n then Some (flat_map (fun f => put_s 4 (s_ofs f)) fs) else None in
  if nd_sty n || (4 <? per) then
    if per <? 0 then RThrow
    else if INVALID_OLD <=? nd_max n
    then ROk (mkLumps None (Some (flat_map (fun f => flat_map (put_s 2) (firstn (Z.to_nat per) (s_styles f))) fs)) ofs)
    else ROk (mkLumps (Some (flat_map (fun f => map (fun s => to_unsigned 1 (if s =? INVALID then INVALID_OLD else s))
                                                  (firstn (Z.to_nat per) (s_styles f))) fs)) None ofs)
  else ROk (mkLumps None None ofs).

(** light.cc:752-766: the scale of a face from the LMSHIFT lump: [1 << shift] of a signed char; shifts
    below 0 or above 30 are undefined (int), and so is a read outside the lump. *)
Definition schar (b : N) : Z := it_wrap i8 (Z.of_N b).
Definition scale_of_shift (b : N) : res Z := let s := schar b in if (s <? 0) || (30 <? s) then RUB else ROk (2 ^ s).
Definition face_scale (lump : list N) (i : nat) : res Z :=
  match nth_error lump i with Some b => scale_of_shift b | None => RUB end.

(** include/common/bitflags.hh:89-93, light/write.cc:78-80: the shift written for a scale; [1u << j] is
    undefined for j = 32. *)
Fixpoint shift_from (fuel : nat) (j : nat) (scale : Z) : res nat :=
  if (31 <? j)%nat then RUB else
  if 2 ^ Z.of_nat j <? scale then match fuel with O => RUB | S k => shift_from k (S j) scale end else ROk j.
Definition shift_of_scale (scale : Z) : res nat := shift_from 32 0 scale.

(** litheader_t (include/light/write.hh:32-56, light/write.cc:29-49). *)
Definition lit_header (version : Z) : list N := [81; 76; 73; 84]%N ++ put_s 4 version.
Definition lit_header2 (numsurfs lmsamples : nat) : list N := put_s 4 (Z.of_nat numsurfs) ++ put_s 4 (Z.of_nat lmsamples).

(** [write(data, n)] of a vector: undefined beyond its end. *)
Definition raw (n : nat) (l : list N) : res (list N) := if (length l <? n)%nat then RUB else ROk (firstn n l).

(** One face of the lit2 table (71-82): offset, four scaled styles (16 bits each), extents, shift. *)
Record sup := mkSup { sp_ofs : Z; sp_styles : list Z; sp_w : Z; sp_h : Z; sp_scale : Z }.
Definition lit2_face (s : sup) : res (list N) :=
  rbind (shift_of_scale (sp_scale s)) (fun j =>
  ROk (put_s 4 (sp_ofs s) ++ flat_map (put_s 2) (firstn 4 (sp_styles s)) ++ put_s 2 (sp_w s) ++ put_s 2 (sp_h s) ++ put_s 1 (Z.of_nat j))).
Fixpoint lit2_faces (l : list sup) : res (list N) :=
  match l with
  | [] => ROk []
  | s :: t => rbind (lit2_face s) (fun b => rbind (lit2_faces t) (fun r => ROk (b ++ r)))
  end.

(** WriteLitFile (51-85), WriteLuxFile (87-99); [n] is the size of dlightdata. *)
Definition write_lit1 (n : nat) (lit : list N) : res (list N) :=
  rbind (raw (3 * n) lit) (fun b => ROk (lit_header 1 ++ b)).
Definition write_lit2 (n : nat) (sups : list sup) (lit lux : list N) : res (list N) :=
  rbind (lit2_faces sups) (fun t => rbind (raw (3 * n) lit) (fun b => rbind (raw (3 * n) lux) (fun d =>
  ROk (lit_header 2 ++ lit_header2 (length sups) n ++ t ++ b ++ d)))).
Definition write_lux (n : nat) (lux : list N) : res (list N) :=
  rbind (raw (3 * n) lux) (fun b => ROk (lit_header 1 ++ b)).

(** write_litfile and write_luxfile: sets of external, bspx and lit2 (include/light/light.hh:168-175). *)
Record flags := mkFlags { fl_ext : bool; fl_bspx : bool; fl_lit2 : bool }.
Definition any (f : flags) : bool := fl_ext f || fl_bspx f || fl_lit2 f.
Definition only_lit2 (f : flags) : bool := fl_lit2 f && negb (fl_ext f) && negb (fl_bspx f).

(** What SaveLightmapSurfaces leaves: the light data, the files, RGBLIGHTING and LIGHTINGDIR (1077-1113). *)
Record stored := mkStored { st_data : list N; st_lit : option (list N); st_lux : option (list N);
  st_rgb : option (list N); st_dir : option (list N) }.
Definition opt_res (b : bool) (x : res (list N)) : res (option (list N)) :=
  if b then rbind x (fun v => ROk (Some v)) else ROk None.
(** [resize]: cut or filled with 0. *)
Definition resize (n : nat) (l : list N) : list N := firstn n l ++ repeat 0%N (n - length l).

Definition finish (rgb litonly : bool) (litf luxf : flags) (sups : list sup) (data0 out lit lux : list N) : res stored :=
  if only_lit2 litf
  then rbind (write_lit2 (length data0) sups lit lux) (fun f => ROk (mkStored data0 (Some f) None None None))
  else
    let data := if litonly then data0 else if rgb then lit else out in
    rbind (opt_res (negb rgb && fl_ext litf) (write_lit1 (length data) lit)) (fun a =>
    let lit' := if fl_bspx litf then resize (3 * length data) lit else lit in
    rbind (opt_res (negb rgb && fl_ext luxf) (write_lux (length data) lux)) (fun b =>
    ROk (mkStored data a b (if negb rgb && fl_bspx litf then Some lit' else None)
                  (if negb rgb && fl_bspx luxf then Some (resize (3 * length data) lux) else None)))).

(** -litonly (957-988): errors, then buffers of the size of the old data, at first 0. SaveLitOnlyLightmapSurface
    (610-674): the writes for a face: for each of its styles up to the first 255 the lightmap computed for
    it, if there is one, then on to the next. [px] gives the pixels computed for a style. *)
Fixpoint litonly_maps (b : bufs) (o size : nat) (styles : list Z) (px : Z -> option pix) : list byte_w :=
  match styles with
  | [] => []
  | s :: t => if s =? 255 then [] else
      (match px s with Some p => put_maps b o size [p] | None => [] end) ++ litonly_maps b (o + size) size t px
  end.
Record lface := mkLF { lf_ofs : Z; lf_styles : list Z; lf_size : nat; lf_px : Z -> option pix }.
(** [None]: a surface without samples. *)
Fixpoint litonly_all (b : bufs) (l : list (option lface)) : res (list byte_w) :=
  match l with
  | [] => ROk []
  | o :: t =>
      rbind (match o with
             | None => ROk []
             | Some f => if lf_ofs f =? -1 then ROk [] else
                         if lf_ofs f <? 0 then RThrow else
                         if 2147483647 <? 3 * lf_ofs f then RUB else
                         ROk (litonly_maps b (Z.to_nat (lf_ofs f)) (lf_size f) (firstn MAXLIGHTMAPS (lf_styles f)) (lf_px f))
             end) (fun w => rbind (litonly_all b t) (fun r => ROk (w ++ r)))
  end.
(** The buffers after all writes, which the threads do in any order [perm]. *)
Definition litonly (rgb : bool) (luxfile : bool) (data0 : list N) (l : list (option lface)) : res (list byte_w) :=
  match data0 with
  | [] => RThrow
  | _ => if rgb then RThrow else litonly_all (mkBufs true true luxfile) l
  end.
