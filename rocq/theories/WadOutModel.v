(* bsputil --extract-textures: bsputil/bsputil.cc:49-112 (wadinfo_t, lumpinfo_t, ExportWad). *)
From Coq Require Import List Arith NArith Bool.
From Verif Require Import Base Codec FsModel.
Import ListNotations.

(** miptex_t: name, width and height as read from the data (C43), and the data. *)
Record tex := mkTex { t_name : list N; t_w : N; t_h : N; t_data : list N }.

(** sizeof(dmiptex_t) (include/common/bspfile_generic.hh:87-96). *)
Definition mip_header : nat := 40.
(** bsputil.cc:79, 95, 109. *)
Definition valid (t : tex) : bool := mip_header <? length (t_data t).

(** lump.size (bsputil.cc:99): the product is of two uint32_t, the sum is converted to int32_t. *)
Definition lump_size (t : tex) : N :=
  ((N.of_nat mip_header + (((t_w t * t_h t) mod 2 ^ 32) / 64 * 85) mod 2 ^ 32) mod 2 ^ 32)%N.
(** snprintf(lump.name, 16, "%s", name) (bsputil.cc:101): the bytes behind the NUL are kept. *)
Definition put_name (prev name : list N) : list N :=
  let k := firstn 15 name in k ++ 0%N :: skipn (length k + 1) prev.
(** lumpinfo_t (bsputil.cc:58-69); type 'D', compression and padding are 0. *)
Definition record (filepos size : N) (name : list N) : list N :=
  put_le 4 filepos ++ put_le 4 size ++ put_le 4 size ++ [68; 0; 0; 0]%N ++ name.
(** The first loop (bsputil.cc:93-107); overflow of filepos wraps around here, in the code it is
    undefined. *)
Fixpoint directory (filepos : N) (name : list N) (l : list tex) : list N :=
  match l with
  | [] => []
  | t :: l => if negb (valid t) then directory filepos name l
              else let name := put_name name (t_name t) in
                   record filepos (lump_size t) name ++ directory ((filepos + lump_size t) mod 2 ^ 32) name l
  end.
(** ExportWad (bsputil.cc:71-112); miptex_t::stream_write writes the data (common/bspfile_generic.cc:127-130). *)
Definition export_wad (l : list tex) : list N :=
  let numvalid := length (filter valid l) in
  WAD2 ++ put_le 4 (N.of_nat numvalid mod 2 ^ 32) ++ put_le 4 12
  ++ directory (N.of_nat (12 + numvalid * 32) mod 2 ^ 32) (repeat 0%N 16) l
  ++ concat (map (fun t => if valid t then t_data t else []) l).
