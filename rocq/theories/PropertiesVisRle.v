(* C01-C03: visibility row codec (common/bsputils.cc CompressRow / DecompressVis). *)
From Coq Require Import List Arith NArith ZArith Lia.
Import ListNotations.
From Verif Require Import Base VisRleModel VisRleProofs.

(** C01. A row compresses, and decompressing at its position in any lump restores it,
    whatever precedes ([pre]) and follows ([rest]) and whatever the buffer held. *)
Theorem C01_row_codec_roundtrip : forall row pre rest outb,
  length outb = length row ->
  exists c, compress_row row = Some c /\
    decompress_vis (pre ++ c ++ rest) (length pre) outb = D_done row.
Proof.
  exact (fun row pre rest outb Hl =>
    match compress_row_total row with
    | ex_intro _ c Hc => ex_intro _ c (conj Hc (roundtrip row c pre rest outb Hc Hl))
    end).
Qed.
Print Assumptions C01_row_codec_roundtrip.

(** A row with a zero run longer than 255 that does not end the row. *)
Example C01_nontrivial :
  let row := [7%N] ++ repeat 0%N 300 ++ [255%N; 0%N] in
  compress_row row = Some [7; 0; 255; 0; 45; 255; 0; 1]%N /\
  decompress_vis ([9;9] ++ [7; 0; 255; 0; 45; 255; 0; 1] ++ [0; 0; 1])%N 2 (repeat 3%N 303) = D_done row.
Proof. split; vm_compute; reflexivity. Qed.

(** C02. On arbitrary input the decompressor returns; the buffer keeps its length, a
    prefix has been overwritten and the rest is untouched; no access is out of bounds
    ([dres_buffer] is [None] exactly for out-of-bounds accesses and non-termination). *)
Theorem C02_decompress_safe : forall inb pos old, pos <= length inb ->
  exists new, dres_buffer (decompress_vis inb pos old) = Some new /\
   (exists w, length w <= length old /\ new = w ++ skipn (length w) old) /\
   length new = length old /\
   (Forall is_byte inb -> Forall is_byte old -> Forall is_byte new).
Proof. exact decompress_safe. Qed.
Print Assumptions C02_decompress_safe.

(** C02 for the callers: decompressing a whole map never leaves its buffers, whatever
    offsets the leafs or clusters carry, yields rows of the expected size, and (Quake)
    has an entry for every offset inside the lump. *)
Theorem C02_decompress_all_q1_safe : forall bits size visofs,
  exists m, decompress_all_q1 bits size visofs [] = Some m /\
    Forall (fun e => length (snd e) = size) m /\
    (forall v, In v visofs -> (0 <= v < Z.of_nat (length bits))%Z -> In v (map fst m)).
Proof.
  exact (fun bits size visofs =>
    match decompress_all_q1_safe visofs bits size [] with
    | ex_intro _ m (conj H1 (conj _ (conj H3 H4))) =>
        ex_intro _ m (conj H1 (conj (H3 (Forall_nil _)) H4))
    end).
Qed.
Print Assumptions C02_decompress_all_q1_safe.

Theorem C02_decompress_all_q2_safe : forall bits size c offsets,
  exists m, decompress_all_q2 bits size c offsets = Some m /\
    Forall (fun e => length (snd e) = size) m.
Proof. exact (fun bits size c offsets => decompress_all_q2_safe offsets bits size c). Qed.
Print Assumptions C02_decompress_all_q2_safe.

Example C02_nontrivial :
  (* truncated run, zero repeat and overrun all stop cleanly *)
  decompress_vis [5; 0]%N 0 [1; 1; 1]%N = D_underrun [5; 1; 1]%N /\
  decompress_vis [5; 0; 0]%N 0 [1; 1; 1]%N = D_zero_repeat [5; 1; 1]%N /\
  decompress_vis [5; 0; 9]%N 0 [1; 1; 1]%N = D_overrun [5; 0; 0]%N /\
  decompress_all_q1 [5; 0; 2]%N 3 [-1; 0; 0; 7; 1]%Z [] = Some [(0%Z, [5; 0; 0]%N); (1%Z, [0; 0; 0]%N)].
Proof. repeat split; vm_compute; reflexivity. Qed.

(** C03. Size bound, byte range, and verbatim storage of rows without zeros. *)
Theorem C03_compressed_size : forall row c, compress_row row = Some c ->
  length c <= length row + count_occ N.eq_dec row 0%N /\
  length c <= 2 * length row /\
  (Forall is_byte row -> Forall is_byte c) /\
  (~ In 0%N row -> c = row).
Proof. exact compress_size. Qed.
Print Assumptions C03_compressed_size.

(** The bound is attained. *)
Example C03_tight : compress_row [0; 1; 0; 1]%N = Some [0; 1; 1; 0; 1; 1]%N /\ compress_row [0%N] = Some [0; 1]%N.
Proof. split; vm_compute; reflexivity. Qed.
