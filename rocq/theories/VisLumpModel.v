(* Model of the assembly of the visibility lump: vis/vis.cc:393-480 (ClusterFlow),
   :553-557 (the loop of CalcVis), :762-766 (the row buffer). *)
From Coq Require Import List Arith NArith ZArith Bool.
Import ListNotations.
From Verif Require Import Base Codec LeafBitsModel VisRleModel.

(** vis/vis.cc:607, :613: bytes of a row in the buffer, [((n + 63) & ~63) >> 3]. *)
Definition stride (nr : nat) : nat := (nr + 63) / 64 * 8.
(** vis/vis.cc:460-462: bytes of a row that are compressed. *)
Definition row_bytes (nr : nat) : nat := (nr + 7) / 8.

(** vl_unc: [uncompressed]; vl_map: [vismap]; vl_ofs: the PVS offset of each cluster in
    bsp->dvis; vl_leaf: visofs of leaf i + 1. *)
Record vlump := { vl_unc : list N; vl_map : list N; vl_ofs : list Z; vl_leaf : list Z }.

(** vis/vis.cc:400-405: union of the rows of the cluster's portals (done?, visbits).
    [None] = FError("portal not done"). *)
Fixpoint collect (buf : leafbits) (ps : list (bool * leafbits)) : option leafbits :=
  match ps with
  | [] => Some buf
  | (true, v) :: t => collect (lb_or buf v) t
  | (false, _) :: _ => None
  end.

(** vis/vis.cc:419-434: bit [i] of the row at [base] is set if the buffer has the cluster of
    output leaf [i]. [cl] lists these clusters: bsp->dleafs[i + 1].cluster for Quake, [i]
    itself for Quake II. [None] = access out of range. *)
Fixpoint expand (unc : list N) (base : nat) (buf : leafbits) (cl : list nat) (i : nat) : option (list N) :=
  match cl with
  | [] => Some unc
  | c :: t =>
    match lb_get buf c with
    | None => None
    | Some false => expand unc base buf t (S i)
    | Some true =>
      match nth_error unc (base + i / 8) with
      | None => None
      | Some b =>
        match upd unc (base + i / 8) (N.lor b (N.shiftl 1 (N.of_nat (i mod 8)))) with
        | None => None
        | Some unc' => expand unc' base buf t (S i)
        end
      end
    end
  end.

(** vis/vis.cc:472-476. *)
Fixpoint set_visofs (leaf : list Z) (cl : list nat) (c : nat) (v : Z) : list Z :=
  match leaf, cl with
  | o :: leaf', k :: cl' => (if Nat.eqb k c then v else o) :: set_visofs leaf' cl' c v
  | _, _ => leaf
  end.

(** vis/vis.cc:393-480, ClusterFlow; the buffer is blank on entry (:553, :556). The
    statistics are not modelled. For Quake II the leafs' visofs are not written; [vl_leaf]
    then has no counterpart. *)
Definition cluster_flow (n : nat) (cl : list nat) (portals : list (list (bool * leafbits))) (s : vlump) (c : nat)
  : option vlump :=
  let nr := length cl in
  match nth_error portals c with
  | None => None
  | Some ps =>
    match collect (lb_make n) ps with
    | None => None
    | Some buf =>
      match lb_set buf c true with
      | None => None
      | Some buf' =>
        match expand (vl_unc s) (c * stride nr) buf' cl 0 with
        | None => None
        | Some unc =>
          if Nat.ltb (length unc) (c * stride nr + row_bytes nr) then None
          else
          match compress_row (firstn (row_bytes nr) (skipn (c * stride nr) unc)) with
          | None => None
          | Some comp =>
            let visofs := of_unsigned 4 (N.of_nat (length (vl_map s)) mod 2 ^ 32) in
            match upd (vl_ofs s) c visofs with
            | None => None
            | Some ofs => Some {| vl_unc := unc; vl_map := vl_map s ++ comp; vl_ofs := ofs;
                                  vl_leaf := set_visofs (vl_leaf s) cl c visofs |}
            end
          end
        end
      end
    end
  end.

Fixpoint clusters_flow (n : nat) (cl : list nat) (portals : list (list (bool * leafbits))) (s : vlump) (cs : list nat)
  : option vlump :=
  match cs with
  | [] => Some s
  | c :: t => match cluster_flow n cl portals s c with None => None | Some s' => clusters_flow n cl portals s' t end
  end.

(** vis/vis.cc:553-557 after :762-766. *)
Definition vlump_init (n nr : nat) : vlump :=
  {| vl_unc := repeat 0%N (n * stride nr); vl_map := []; vl_ofs := repeat 0%Z n; vl_leaf := repeat 0%Z nr |}.
Definition build_vislump (n : nat) (cl : list nat) (portals : list (list (bool * leafbits))) : option vlump :=
  clusters_flow n cl portals (vlump_init n (length cl)) (seq 0 n).
