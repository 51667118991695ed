(* The light grid lump (light/lightgrid.cc). *)
From Coq Require Import List Arith NArith ZArith Bool Lia.
Import ListNotations.
From Verif Require Import Base Codec NumCastModel.
Local Open Scope Z_scope.
Local Notation "x <- e ;; f" := (rbind e (fun x => f)) (at level 61, e at next level, right associativity).

(** qvec3i. *)
Definition v3 : Type := Z * Z * Z.
Definition vx (p : v3) : Z := fst (fst p).
Definition vy (p : v3) : Z := snd (fst p).
Definition vz (p : v3) : Z := snd p.
Definition vol (s : v3) : Z := vx s * vy s * vz s.

(** An int computation: overflow is undefined behaviour. *)
Definition chk (v : Z) : res Z := if it_in i32 v then ROk v else RUB.

(** lightgrid_sample_t (include/light/ltface.hh:59-74): the rounded colour (round_to_int,
    light/ltface.cc:2820-2824) stands for the float colour; the samples of a point are the four slots
    (76-87). *)
Record sample := mkSample { sm_used : bool; sm_style : Z; sm_rgb : N * N * N }.

(** lightgrid_raw_data (light/lightgrid.cc:62-74); floats are bit patterns. *)
Record grid := mkGrid { g_dist : N * N * N; g_mins : N * N * N; g_size : v3;
  g_result : list (list sample); g_occ : list bool; g_styles : N }.

(** get_grid_index (71). *)
Definition gidx (sz p : v3) : res Z :=
  a <- chk (vx sz * vy sz) ;; b <- chk (a * vz p) ;; c <- chk (vx sz * vy p) ;; d <- chk (b + c) ;; chk (d + vx p).

(** An element of a vector by an int; out of range is undefined behaviour. *)
Definition at_ {A} (l : list A) (i : Z) : res A :=
  if i <? 0 then RUB else match nth_error l (Z.to_nat i) with Some a => ROk a | None => RUB end.

(** used_styles (light/ltface.cc:2863-2874): the number of slots before the first unused one. *)
Fixpoint used_styles (l : list sample) : nat :=
  match l with [] => O | s :: t => if sm_used s then S (used_styles t) else O end.

(** The loops over a box (132-145 and 349-351): z outermost, x innermost. *)
Definition zrange (m n : Z) : list Z := map (fun k => m + Z.of_nat k) (seq 0 (Z.to_nat n)).
Definition cells (mins size : v3) : list v3 :=
  flat_map (fun z => flat_map (fun y => map (fun x => (x, y, z)) (zrange (vx mins) (vx size))) (zrange (vy mins) (vy size)))
    (zrange (vz mins) (vz size)).

(** count_occluded_unoccluded (130-145). *)
Fixpoint count_occ (g : grid) (ps : list v3) : res (Z * Z) :=
  match ps with
  | [] => ROk (0, 0)
  | p :: t => i <- gidx (g_size g) p ;; o <- at_ (g_occ g) i ;; r <- count_occ g t ;;
      ROk (if o : bool then (fst r + 1, snd r) else (fst r, snd r + 1))
  end.

(** child_index (81-87). *)
Definition bit (b : bool) : nat := if b then 1%nat else 0%nat.
Definition child_index (d p : v3) : nat :=
  (4 * bit (vx d <=? vx p)%Z + 2 * bit (vy d <=? vy p)%Z + bit (vz d <=? vz p)%Z)%nat.

(** get_octant (101-122), one axis and all of them. *)
Definition half (hi : bool) (m s d : Z) : Z * Z := if hi then (d, m + s - d) else (m, d - m).
Definition octant (i : nat) (mins size d : v3) : v3 * v3 :=
  let x := half (Nat.testbit i 2) (vx mins) (vx size) (vx d) in
  let y := half (Nat.testbit i 1) (vy mins) (vy size) (vy d) in
  let z := half (Nat.testbit i 0) (vz mins) (vz size) (vz d) in
  ((fst x, fst y, fst z), (snd x, snd y, snd z)).

(** get_division_point (130); int division truncates towards zero. *)
Definition division (mins size : v3) : v3 :=
  (vx mins + Z.quot (vx size) 2, vy mins + Z.quot (vy size) 2, vz mins + Z.quot (vz size) 2).

(** 147-175. *)
Definition FLAG_LEAF : N := 2147483648.
Definition FLAG_OCCLUDED : N := 1073741824.
Record onode := mkONode { on_div : v3; on_children : list N }.
Record ostate := mkO { o_nodes : list onode; o_leafs : list (v3 * v3); o_occluded : Z }.

Definition new_leaf (mins size : v3) (s : ostate) : res (N * ostate) :=
  ROk (N.lor FLAG_LEAF (N.of_nat (length (o_leafs s)) mod 2 ^ 32), mkO (o_nodes s) (o_leafs s ++ [(mins, size)]) (o_occluded s)).

(** The loop over the children (218-224) with the recursive call [f]. *)
Fixpoint build_children (f : v3 -> v3 -> ostate -> res (N * ostate)) (mins size d : v3) (is : list nat) (s : ostate)
  : res (list N * ostate) :=
  match is with
  | [] => ROk ([], s)
  | i :: t => r <- f (fst (octant i mins size d)) (snd (octant i mins size d)) s ;;
      q <- build_children f mins size d t (snd r) ;; ROk (fst r :: fst q, snd q)
  end.

(** build_octree (186-230); [fuel] is MAX_DEPTH - depth.  The asserts of 188-190 hold (C92).  The
    std::function returns int and the lambda uint32_t; the conversions there and back are the identity. *)
Fixpoint build (g : grid) (fuel : nat) (mins size : v3) (s : ostate) : res (N * ostate) :=
  c <- count_occ g (cells mins size) ;;
  if snd c =? 0 then
    v <- chk (vx size * vy size) ;; v <- chk (v * vz size) ;; o <- chk (o_occluded s + v) ;;
    ROk (FLAG_OCCLUDED, mkO (o_nodes s) (o_leafs s) o)
  else if (vx size <? 4) || (vy size <? 4) || (vz size <? 4) || (fst c <? 8) then new_leaf mins size s
  else match fuel with
  | O => new_leaf mins size s
  | S fuel =>
    let d := division mins size in
    r <- build_children (build g fuel) mins size d (seq 0 8) s ;;
    ROk ((N.of_nat (length (o_nodes (snd r))) mod 2 ^ 32)%N,
         mkO (o_nodes (snd r) ++ [mkONode d (fst r)]) (o_leafs (snd r)) (o_occluded (snd r)))
  end.

(** MAX_DEPTH. *)
Definition build_root (g : grid) : res (N * ostate) := build g 5 (0, 0, 0) (g_size g) (mkO [] [] 0).

(** octree_lookup_r (274-287) up to the leaf; [None]: occluded.  [fuel] bounds the recursion. *)
Fixpoint find_leaf (fuel : nat) (nodes : list onode) (r : N) (p : v3) : res (option N) :=
  if negb (N.land r FLAG_OCCLUDED =? 0)%N then ROk None
  else if negb (N.land r FLAG_LEAF =? 0)%N then ROk (Some (N.ldiff r FLAG_LEAF))
  else match fuel with
  | O => RThrow
  | S fuel =>
    match nth_error nodes (N.to_nat r) with
    | None => RUB
    | Some n => match nth_error (on_children n) (child_index (on_div n) p) with
                | None => RUB
                | Some c => find_leaf fuel nodes c p
                end
    end
  end.

(** ** The lump (311-373) *)
Definition put3 {A} (p : A -> list N) (v : A * A * A) : list N := p (fst (fst v)) ++ p (snd (fst v)) ++ p (snd v).
Definition put_u8 (v : N) : list N := [(v mod 256)%N].

(** One sample (354-366): style and colour. *)
Definition put_sample (s : sample) : list N := put_u8 (to_unsigned 1 (sm_style s)) ++ put3 put_u8 (sm_rgb s).

(** One cell (351-367). *)
Definition put_cell (g : grid) (p : v3) : res (list N) :=
  i <- gidx (g_size g) p ;; o <- at_ (g_occ g) i ;;
  if o : bool then ROk (put_u8 255)
  else l <- at_ (g_result g) i ;;
       ROk (put_u8 (N.of_nat (used_styles l)) ++ put_list put_sample (firstn (used_styles l) l)).

Fixpoint rmap {A B} (f : A -> res B) (l : list A) : res (list B) :=
  match l with [] => ROk [] | a :: t => b <- f a ;; r <- rmap f t ;; ROk (b :: r) end.

Definition put_leaf (g : grid) (l : v3 * v3) : res (list N) :=
  d <- rmap (put_cell g) (cells (fst l) (snd l)) ;;
  ROk (put3 (put_s 4) (fst l) ++ put3 (put_s 4) (snd l) ++ concat d).
Definition put_onode (n : onode) : list N := put3 (put_s 4) (on_div n) ++ put_list (put_le 4) (on_children n).

(** MakeOctreeLump (78-378); the debug portal file and the statistics are left out. *)
Definition make_lump (g : grid) : res (list N) :=
  r <- build_root g ;;
  let s := snd r in
  ls <- rmap (put_leaf g) (o_leafs s) ;;
  ROk (put3 (put_le 4) (g_dist g) ++ put3 (put_s 4) (g_size g) ++ put3 (put_le 4) (g_mins g) ++ put_u8 (g_styles g) ++
       put_le 4 (fst r) ++ put_le 4 (N.of_nat (length (o_nodes s))) ++ put_list put_onode (o_nodes s) ++
       put_le 4 (N.of_nat (length (o_leafs s))) ++ concat ls).

(** LightGrid (398-448) after the grid size is known: [f] gives the samples and the occlusion at a grid
    point (FixPointAndCalcLightgrid at grid_mins + point * grid_dist, a function of the point).  The
    elements are computed in parallel and do not depend on each other. *)
Definition coords (sz : v3) (i : Z) : v3 :=
  (Z.rem i (vx sz), Z.rem (Z.quot i (vx sz)) (vy sz), Z.quot i (vx sz * vy sz)).
Definition max_styles (l : list (list sample)) : nat := fold_left (fun m s => Nat.max m (used_styles s)) l 0%nat.
Definition make_grid (dist mins : N * N * N) (sz : v3) (f : v3 -> list sample * bool) : res grid :=
  a <- chk (vx sz * vy sz) ;; n <- chk (a * vz sz) ;;
  if n <? 0 then RThrow
  else let r := map (fun k => f (coords sz (Z.of_nat k))) (seq 0 (Z.to_nat n)) in
       ROk (mkGrid dist mins sz (map fst r) (map snd r) (N.of_nat (max_styles (map fst r)) mod 256)).
