(* How a reader of the light grid lump decodes it; no part of /repo reads the samples, so this is the
   specification the writer is held against. *)
From Coq Require Import List Arith NArith ZArith Bool Lia.
Import ListNotations.
From Verif Require Import Base Codec NumCastModel LightgridModel.
Local Open Scope Z_scope.

(** ** Reading the lump *)
(** The format as an engine reads it. *)
Definition get3 {A} (g : reader A) : reader (A * A * A) := get_pair (get_pair g g) g.
Record lump := mkLump { lu_dist : N * N * N; lu_size : v3; lu_mins : N * N * N; lu_styles : N; lu_root : N;
  lu_nodes : list onode; lu_leafs : list (v3 * v3 * list (option (list (N * (N * N * N))))) }.
Definition get_cell : reader (option (list (N * (N * N * N)))) := fun l =>
  match get_le 1 l with
  | None => None
  | Some (n, l) => if (n =? 255)%N then Some (None, l)
      else match get_list (get_pair (get_le 1) (get3 (get_le 1))) (N.to_nat n) l with
           | None => None
           | Some (s, l) => Some (Some s, l)
           end
  end.
Definition get_leaf : reader (v3 * v3 * list (option (list (N * (N * N * N))))) := fun l =>
  match get_pair (get3 (get_s 4)) (get3 (get_s 4)) l with
  | None => None
  | Some (b, l) => match get_list get_cell (Z.to_nat (vol (snd b))) l with
                   | None => None
                   | Some (c, l) => Some ((b, c), l)
                   end
  end.
Definition get_onode : reader onode := fun l =>
  match get_pair (get3 (get_s 4)) (get_list (get_le 4) 8) l with
  | None => None
  | Some ((d, c), l) => Some (mkONode d c, l)
  end.
Definition get_counted {A} (g : reader A) : reader (list A) := fun l =>
  match get_le 4 l with None => None | Some (n, l) => get_list g (N.to_nat n) l end.
Definition get_lump : reader lump := fun l =>
  match get_pair (get3 (get_le 4)) (get_pair (get3 (get_s 4)) (get_pair (get3 (get_le 4)) (get_pair (get_le 1) (get_pair (get_le 4)
          (get_pair (get_counted get_onode) (get_counted get_leaf)))))) l with
  | None => None
  | Some ((d, (s, (m, (n, (r, (nodes, leafs)))))), l) => Some (mkLump d s m n r nodes leafs, l)
  end.

(** The sample of a grid point: [Some None] is an occluded point. *)
Definition lookup (u : lump) (p : v3) : option (option (list (N * (N * N * N)))) :=
  match find_leaf 6 (lu_nodes u) (lu_root u) p with
  | ROk None => Some None
  | ROk (Some k) =>
      match nth_error (lu_leafs u) (N.to_nat k) with
      | None => None
      | Some (m, s, c) => nth_error c (Z.to_nat (((vz p - vz m) * vy s + (vy p - vy m)) * vx s + (vx p - vx m)))
      end
  | _ => None
  end.
