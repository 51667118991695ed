(* Lights that light does not trace for a face since the face cannot see their leaf:
   light/light.cc:1412 (all_uncompressed_vis), light/ltface.cc:463-560 (Mod_LeafPvs, CalcPvs),
   1148-1169 (VisCullEntity), common/bsputils.cc:609-660 (DecompressedVisSize, Pvs_LeafVisible). *)
From Coq Require Import List Arith NArith ZArith Bool.
From Verif Require Import VisRleModel.
Import ListNotations.

(** The contents of a leaf as far as the code here asks: contents_are_liquid, contents_are_solid or
    contents_are_sky, or anything else. *)
Inductive kind := Air | Liquid | Blocked.
(** mleaf_t: visofs (Quake) and cluster (Quake II), contents, and its entries of dleaffaces. *)
Record pleaf := mkPL { pl_visofs : Z; pl_cluster : Z; pl_kind : kind; pl_marks : list nat }.
(** mbsp_t: dvis.bits, get_bit_offset(VIS_PVS, c) for each cluster c of Quake II, visleafs of the
    first model, dleafs. *)
Record pbsp := mkPB { pb_q2 : bool; pb_bits : list N; pb_offsets : list Z; pb_visleafs : nat; pb_leafs : list pleaf }.

(** DecompressedVisSize (bsputils.cc:609-616). *)
Definition vis_size (b : pbsp) : nat := ((if pb_q2 b then length (pb_offsets b) else pb_visleafs b) + 7) / 8.

(** all_uncompressed_vis (light.cc:1412): DecompressAllVis (bsputils.cc:710-758) as an association
    list.  None: undefined behaviour. *)
Definition uncompressed (b : pbsp) : option (list (Z * list N)) :=
  if pb_q2 b then option_map (map (fun e => (Z.of_nat (fst e), snd e))) (decompress_all_q2 (pb_bits b) (vis_size b) 0 (pb_offsets b))
  else decompress_all_q1 (pb_bits b) (vis_size b) (map pl_visofs (pb_leafs b)) [].

(** unordered_map::find. *)
Fixpoint find_row (m : list (Z * list N)) (k : Z) : option (list N) :=
  match m with [] => None | (j, r) :: t => if (j =? k)%Z then Some r else find_row t k end.

(** Mod_LeafPvs (ltface.cc:463-487): the row of the leaf, all bits set if there is none. *)
Definition leaf_key (b : pbsp) (l : pleaf) : Z := if pb_q2 b then pl_cluster l else pl_visofs l.
Definition leaf_pvs (b : pbsp) (m : list (Z * list N)) (l : pleaf) : list N :=
  match find_row m (leaf_key b l) with None => repeat 255%N (vis_size b) | Some r => r end.

(** Byte by byte or. *)
Fixpoint or_rows (a c : list N) : list N :=
  match a, c with x :: a', y :: c' => N.lor x y :: or_rows a' c' | _, _ => a end.

(** The loop over the leafs of a face (ltface.cc:539-557). *)
Fixpoint merge_pvs (b : pbsp) (m : list (Z * list N)) (acc : list N) (ls : list pleaf) : list N :=
  match ls with
  | [] => acc
  | l :: t => match pl_kind l with
              | Liquid => or_rows acc (repeat 255%N (vis_size b))
              | _ => merge_pvs b m (or_rows acc (leaf_pvs b m l)) t
              end
  end.
(** CalcPvs (ltface.cc:506-560) for the given leafs; [] if the map has no visibility data. *)
Definition calc_pvs (b : pbsp) (m : list (Z * list N)) (ls : list pleaf) : list N :=
  match pb_bits b with [] => [] | _ => merge_pvs b m (repeat 0%N (vis_size b)) ls end.
(** The leafs of a face of the world (ltface.cc:518-528): once per entry of the face in the marks
    of the leaf. *)
Definition world_leafs (b : pbsp) (face : nat) : list pleaf :=
  flat_map (fun l => map (fun _ => l) (filter (Nat.eqb face) (pl_marks l))) (pb_leafs b).

(** Pvs_LeafVisible (bsputils.cc:629-658): the leaf with the given number.  None: undefined
    behaviour (a byte outside of pvs or no such leaf). *)
Definition pvs_bit (pvs : list N) (k : nat) : option bool :=
  match nth_error pvs (k / 8) with None => None | Some x => Some (N.testbit x (N.of_nat (k mod 8))) end.
Definition leaf_visible (b : pbsp) (pvs : list N) (num : nat) : option bool :=
  match nth_error (pb_leafs b) num with
  | None => None
  | Some l =>
    if pb_q2 b then
      if (pl_cluster l <? 0)%Z then Some false
      else if (Z.of_nat (length (pb_offsets b)) <=? pl_cluster l)%Z then Some false
      else match nth_error (pb_offsets b) (Z.to_nat (pl_cluster l)) with
           | None => None
           | Some o => if (o <? 0)%Z || (Z.of_nat (length (pb_bits b)) <=? o)%Z then Some false
                       else pvs_bit pvs (Z.to_nat (pl_cluster l))
           end
    else match num with
         | O => Some false
         | S k => if (pb_visleafs b <=? k)%nat then Some false else pvs_bit pvs k
         end
  end.

(** VisCullEntity (ltface.cc:1148-1169): whether the light in the leaf is skipped. *)
Definition vis_cull (b : pbsp) (pvs : list N) (num : nat) : option bool :=
  match pvs with
  | [] => Some false
  | _ => match nth_error (pb_leafs b) num with
         | None => None
         | Some l => match pl_kind l with
                     | Air => option_map negb (leaf_visible b pvs num)
                     | _ => Some false
                     end
         end
  end.
