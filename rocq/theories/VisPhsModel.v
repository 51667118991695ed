(* Model of CalcPHS, vis/soundpvs.cc:164-227. *)
From Coq Require Import List Arith NArith ZArith Bool.
Import ListNotations.
From Verif Require Import Base Codec VisRleModel.

(** vis/soundpvs.cc:205-206: the first [m] bytes of [src] are or-ed into [dest]. The code
    works on [leaflongs] machine words; [m] is leaflongs * sizeof(long). *)
Fixpoint or_prefix (m : nat) (dest src : list N) : list N :=
  match m, dest, src with
  | S m', d :: dest', s :: src' => N.lor d s :: or_prefix m' dest' src'
  | _, _, _ => dest
  end.

Inductive phs_res (A : Type) := Phs_ok (a : A) | Phs_bad_bit | Phs_UB.
Arguments Phs_ok {A} a. Arguments Phs_bad_bit {A}. Arguments Phs_UB {A}.

(** vis/soundpvs.cc:200-206 for one set bit; the state is (uncompressed, uncompressed_2). *)
Definition phs_or (m : nat) (bits : list N) (pvs : list Z) (st : list N * list N) (index : nat)
  : phs_res (list N * list N) :=
  match nth_error pvs index with
  | None => Phs_UB
  | Some ofs =>
    match dres_buffer (decompress_vis bits (Z.to_nat ofs) (snd st)) with
    | None => Phs_UB
    | Some src => Phs_ok (or_prefix m (fst st) src, src)
    end
  end.

(** vis/soundpvs.cc:189-208: the set bits of [scan] in ascending order; bits of a byte run
    from the lowest. Flattened into one loop over bit numbers (a zero byte has no set bit). *)
Fixpoint phs_bits (m n : nat) (bits : list N) (pvs : list Z) (scan : list N) (st : list N * list N) (ks : list nat)
  : phs_res (list N * list N) :=
  match ks with
  | [] => Phs_ok st
  | k :: t =>
    match nth_error scan (k / 8) with
    | None => Phs_UB
    | Some b =>
      if N.testbit b (N.of_nat (k mod 8))
      then if Nat.leb n k then Phs_bad_bit                            (* :198-199 *)
           else match phs_or m bits pvs st k with
                | Phs_ok st' => phs_bits m n bits pvs scan st' t
                | Phs_bad_bit => Phs_bad_bit
                | Phs_UB => Phs_UB
                end
      else phs_bits m n bits pvs scan st t
    end
  end.

(** ph_bits, ph_phs: dvis.bits and the PHS offsets; ph_bufs: the two scratch rows. *)
Record phs_state := { ph_bits : list N; ph_phs : list Z; ph_bufs : list N * list N }.

(** vis/soundpvs.cc:180-222, one cluster. [w] is sizeof(long). *)
Definition phs_cluster (w n : nat) (pvs : list Z) (s : phs_state) (i : nat) : phs_res phs_state :=
  let leafbytes := (n + 7) / 8 in
  let leaflongs := leafbytes / w in
  match nth_error pvs i with
  | None => Phs_UB
  | Some ofs =>
    match dres_buffer (decompress_vis (ph_bits s) (Z.to_nat ofs) (fst (ph_bufs s))) with
    | None => Phs_UB
    | Some row =>
      match phs_bits (leaflongs * w) n (ph_bits s) pvs row (row, snd (ph_bufs s)) (seq 0 (leafbytes * 8)) with
      | Phs_bad_bit => Phs_bad_bit
      | Phs_UB => Phs_UB
      | Phs_ok (acc, b2) =>
        match compress_row acc, upd (ph_phs s) i (of_unsigned 4 (N.of_nat (length (ph_bits s)) mod 2 ^ 32)) with
        | Some comp, Some phs => Phs_ok {| ph_bits := ph_bits s ++ comp; ph_phs := phs; ph_bufs := (acc, b2) |}
        | _, _ => Phs_UB
        end
      end
    end
  end.

Fixpoint phs_clusters (w n : nat) (pvs : list Z) (s : phs_state) (is : list nat) : phs_res phs_state :=
  match is with
  | [] => Phs_ok s
  | i :: t => match phs_cluster w n pvs s i with
              | Phs_ok s' => phs_clusters w n pvs s' t
              | Phs_bad_bit => Phs_bad_bit
              | Phs_UB => Phs_UB
              end
  end.

(** vis/soundpvs.cc:164-227; the statistics are not modelled. [bits], [pvs]: the PVS as
    vis left it. *)
Definition calc_phs (w n : nat) (bits : list N) (pvs : list Z) : phs_res phs_state :=
  let z := repeat 0%N ((n + 7) / 8) in
  phs_clusters w n pvs {| ph_bits := bits; ph_phs := repeat 0%Z n; ph_bufs := (z, z) |} (seq 0 n).
