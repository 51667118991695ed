(** Model of the T-junction fixer: qbsp/tjunc.cc.

    Vertices are vertex numbers ([nat]).  Everything that needs coordinates is
    an oracle, a function argument of the model that the theorems quantify
    over: where a vertex lies along an edge, whether a triangle has an area,
    and what the perimeter of a triangle weighs.  Distances and weights are
    doubles in the code; only their order matters here, so they are integers.

    The statistics counters are not modelled. *)

From Coq Require Import List Arith Bool ZArith Lia.
Import ListNotations.

(* ------------------------------------------------------------------ *)
(** * Putting the vertices that lie on an edge into the face *)

(** qbsp/tjunc.cc:56-78 [PointOnEdge].  [pos v] is [Some d] when vertex [v] is
    within [DEFAULT_ON_EPSILON] of the line of the edge, [d] being its distance
    along it, and [None] otherwise.  The two ends are [float] parameters: the
    doubles passed for them go through [rd], the rounding to single
    precision. *)
Definition point_on_edge (rd : Z -> Z) (pos : nat -> option Z) (v : nat) (s e : Z)
  : option Z :=
  match pos v with
  | None => None
  | Some d => if (d <=? rd s)%Z || (rd e <=? d)%Z then None else Some d
  end.

(** qbsp/tjunc.cc:87-120 [TestEdge]: the vertices pushed onto the superface
    for the edge from [p1] to [p2].  [cs] is the part of [edge_verts] from
    [startvert] on. *)
Fixpoint test_edge (rd : Z -> Z) (pos : nat -> option Z) (s e : Z) (p1 p2 : nat)
  (cs : list nat) : list nat :=
  if p1 =? p2 then []
  else
    match cs with
    | [] => [p1]
    | j :: cs' =>
        if (j =? p1) || (j =? p2) then test_edge rd pos s e p1 p2 cs'
        else
          match point_on_edge rd pos j s e with
          | None => test_edge rd pos s e p1 p2 cs'
          | Some d =>
              test_edge rd pos s d p1 j cs' ++ test_edge rd pos d e j p2 cs'
          end
    end.

(** What [CreateSuperFace] computes about one edge: the vertices found near it
    (qbsp/tjunc.cc:184-224, an oracle), their places on its line, its length. *)
Record edge_info := mk_edge_info {
  ei_verts : list nat;
  ei_pos : nat -> option Z;
  ei_len : Z
}.

(** qbsp/tjunc.cc:299-331 [CreateSuperFace].  [info i] belongs to edge [i]. *)
Definition superface_of (rd : Z -> Z) (info : nat -> edge_info) (orig : list nat)
  : list nat :=
  flat_map (fun i =>
    test_edge rd (ei_pos (info i)) 0 (ei_len (info i))
      (nth i orig 0) (nth ((i + 1) mod length orig) orig 0) (ei_verts (info i)))
    (seq 0 (length orig)).

(* ------------------------------------------------------------------ *)
(** * Cutting faces that have too many edges *)

(** qbsp/tjunc.cc:246-262, the loop of [SplitFaceIntoFragments]: what is left
    of the face, and the pieces appended to the list.  [None] if the loop does
    not end within [fuel] rounds. *)
Fixpoint split_face (fuel maxedges : nat) (sf : list nat)
  : option (list nat * list (list nat)) :=
  if length sf <=? maxedges then Some (sf, [])
  else
    match fuel with
    | O => None
    | S f =>
        match split_face f maxedges (firstn 1 sf ++ skipn (maxedges - 1) sf) with
        | None => None
        | Some (rest, new) => Some (rest, firstn maxedges sf :: new)
        end
    end.

(** Overwriting a list element. *)
Fixpoint set_nth {A} (i : nat) (x : A) (l : list A) : list A :=
  match l, i with
  | [], _ => []
  | _ :: l', O => x :: l'
  | y :: l', S i' => y :: set_nth i' x l'
  end.

(** qbsp/tjunc.cc:262-264: [output.splice(output.end(), output, output.begin())]
    moves the first face of the list to its end. *)
Definition splice_front {A} (l : list A) : list A :=
  match l with [] => [] | x :: l' => l' ++ [x] end.

(** qbsp/tjunc.cc:861-867: [for (auto &face : faces)] around
    [SplitFaceIntoFragments].  [p] is the position in the list of the face the
    iterator points at.  The iterator stays on its face when the face moves: if
    it is the first one, it is the last one after the splice; any other comes
    one place forward.  [None]: the assertion on the number of vertices fails,
    or the loop does not end within [fuel] rounds. *)
Fixpoint split_faces (fuel maxedges : nat) (faces : list (list nat)) (p : nat)
  : option (list (list nat)) :=
  match nth_error faces p with
  | None => Some faces
  | Some face =>
      match fuel with
      | O => None
      | S f =>
          if length face <? 3 then None
          else
            match split_face (length face) maxedges face with
            | None => None
            | Some (rest, new) =>
                if length rest <? 3 then None
                else
                  let faces' := splice_front (set_nth p rest faces ++ new) in
                  let p' := if p =? 0 then length faces' - 1 else p - 1 in
                  split_faces f maxedges faces' (p' + 1)
            end
      end
  end.

(* ------------------------------------------------------------------ *)
(** * Minimum weight triangulation *)

(** A triangle: three positions in the polygon. *)
Definition tri := (nat * nat * nat)%type.

(** The coordinates, as far as the triangulation uses them.  [w_valid i j k]
    is [TriangleIsValid] of the vertices at these positions; [w_sum i j k a b]
    is the perimeter of the triangle plus the two doubles, computed in floating
    point; [w_near] and [w_max] are the two largest doubles. *)
Record weights := mk_weights {
  w_valid : nat -> nat -> nat -> bool;
  w_sum : nat -> nat -> nat -> Z -> Z -> Z;
  w_near : Z;
  w_max : Z
}.

(** qbsp/tjunc.cc:519-545: entries (i,j) of the tables [T] and [K].  The code
    fills the tables diagonal by diagonal; the entries used here are of shorter
    diagonals, so they are computed by recursion.  [fuel] is at least j - i
    wherever it is used. *)
Fixpoint mwt_entry (w : weights) (fuel i j : nat) : Z * option nat :=
  match fuel with
  | O => (0%Z, None)
  | S f =>
      if j <? i + 2 then (0%Z, None)
      else
        fold_left (fun acc k =>
          let weight :=
            if w_valid w i j k
            then w_sum w i j k (fst (mwt_entry w f i k)) (fst (mwt_entry w f k j))
            else w_near w in
          if (weight <? fst acc)%Z then (weight, Some k) else acc)
          (seq (i + 1) (j - i - 1)) (w_max w, None)
  end.

(** qbsp/tjunc.cc:563-564: [std::sort] of the three positions of a triangle. *)
Definition sort3 (a b c : nat) : tri :=
  (Nat.min a (Nat.min b c),
   a + b + c - Nat.min a (Nat.min b c) - Nat.max a (Nat.max b c),
   Nat.max a (Nat.max b c)).

(** qbsp/tjunc.cc:547-569: reading the triangles off table [K]. *)
Fixpoint mwt_queue (fuel : nat) (K : nat -> nat -> option nat)
  (q : list (nat * nat)) (tris : list tri) : option (list tri) :=
  match q with
  | [] => Some tris
  | (a, b) :: q' =>
      match fuel with
      | O => None
      | S f =>
          if a =? b then mwt_queue f K q' tris
          else
            match K a b with
            | None => mwt_queue f K q' tris
            | Some c => mwt_queue f K (q' ++ [(a, c); (c, b)]) (tris ++ [sort3 a b c])
            end
      end
  end.

(** qbsp/tjunc.cc:501-576 [minimum_weight_triangulation] of a polygon of [n]
    vertices.  [None] is a failed [Q_assert] (or a loop that does not end). *)
Definition mwt (w : weights) (n : nat) : option (list tri) :=
  match mwt_queue (2 * n) (fun a b => snd (mwt_entry w n a b)) [(0, n - 1)] [] with
  | None => None
  | Some tris => if length tris =? n - 2 then Some tris else None
  end.

(** qbsp/tjunc.cc:343-351, the test inside [triangle_exists]: is the triangle
    [t] the triangle (a,b,c), whichever vertex it starts with? *)
Definition tri_is (t : tri) (a b c : nat) : bool :=
  let '(x, y, z) := t in
  ((x =? a) && (y =? b) && (z =? c)) ||
  ((y =? a) && (z =? b) && (x =? c)) ||
  ((z =? a) && (x =? b) && (y =? c)).

(** qbsp/tjunc.cc:340-355 [triangle_exists]: the index of the first such
    triangle. *)
Fixpoint tri_exists (ts : list tri) (a b c : nat) : option nat :=
  match ts with
  | [] => None
  | t :: ts' =>
      if tri_is t a b c then Some 0
      else option_map S (tri_exists ts' a b c)
  end.

(** qbsp/tjunc.cc:376-388: the triangles that can be wound around [first],
    starting from the edge to [mid]. *)
Fixpoint fan_scan (fuel : nat) (ts : list tri) (n first mid last : nat)
  : option (list nat) :=
  if last =? first then Some []
  else
    match fuel with
    | O => None
    | S f =>
        match tri_exists ts first mid last with
        | None => fan_scan f ts n first mid ((last + 1) mod n)
        | Some i => option_map (cons i) (fan_scan f ts n first last ((last + 1) mod n))
        end
    end.

(** One of the three ways to start a triangle (qbsp/tjunc.cc:367-371). *)
Definition tri_perm (t : tri) (p : nat) : tri :=
  let '(x, y, z) := t in
  match p with 0 => (x, y, z) | 1 => (y, z, x) | _ => (z, x, y) end.

(** qbsp/tjunc.cc:390-392: keep the longer of two fans. *)
Definition better_fan (best mine : list nat) : list nat :=
  if (match best with [] => true | _ => false end) || (length best <? length mine)
  then mine else best.

(** qbsp/tjunc.cc:358-398 [find_best_fan]. *)
Definition find_best_fan (ts : list tri) (n : nat) : option (list nat) :=
  fold_left (fun acc t =>
    fold_left (fun acc p =>
      match acc with
      | None => None
      | Some best =>
          let '(a, b, c) := tri_perm t p in
          match fan_scan n ts n a b c with
          | None => None
          | Some mine => Some (better_fan best mine)
          end
      end) [0; 1; 2] acc)
    ts (Some []).

(** Is [v] a vertex of triangle [t]?  (qbsp/tjunc.cc:412 [std::find]) *)
Definition tri_has (t : tri) (v : nat) : bool :=
  let '(x, y, z) := t in (x =? v) || (y =? v) || (z =? v).

Definition tri_verts (t : tri) : list nat := let '(x, y, z) := t in [x; y; z].

(** qbsp/tjunc.cc:402-429 [find_seed_vertex].  [pick] is the iteration order of
    the hash set: it chooses the element [verts.begin()] of a set.  [None] is
    dereferencing the [begin()] of an empty set, or of a triangle that does not
    exist. *)
Fixpoint seed_loop (pick : list nat -> nat) (ts : list tri) (fan : list nat)
  (verts : list nat) : option nat :=
  match fan with
  | [] => match verts with [] => None | _ => Some (pick verts) end
  | i :: fan' =>
      match nth_error ts i with
      | None => None
      | Some t =>
          let verts' := filter (tri_has t) verts in
          match verts' with
          | [v] => Some v
          | _ => seed_loop pick ts fan' verts'
          end
      end
  end.

Definition find_seed_vertex (pick : list nat -> nat) (ts : list tri) (fan : list nat)
  : option nat :=
  match fan with
  | [] => None
  | i :: fan' =>
      match nth_error ts i with
      | None => None
      | Some t => seed_loop pick ts fan' (tri_verts t)
      end
  end.

(** qbsp/tjunc.cc:459-463: the key vertices are ordered by. *)
Definition cyc_key (n seed a : nat) : nat := if a <? seed then n + a else a.

(** Inserting into the ordered set (qbsp/tjunc.cc:467-477). *)
Fixpoint cyc_insert (n seed v : nat) (l : list nat) : list nat :=
  match l with
  | [] => [v]
  | x :: l' =>
      if cyc_key n seed v <? cyc_key n seed x then v :: l
      else if cyc_key n seed x <? cyc_key n seed v then x :: cyc_insert n seed v l'
      else l
  end.

Definition fan_verts (n seed : nat) (ts : list tri) (fan : list nat) : list nat :=
  fold_left (fun acc i =>
    fold_left (fun acc v => cyc_insert n seed v acc)
      (tri_verts (nth i ts (0, 0, 0))) acc) fan [].

(** Sorting the indices of the fan downwards (qbsp/tjunc.cc:489). *)
Fixpoint insert_desc (x : nat) (l : list nat) : list nat :=
  match l with
  | [] => [x]
  | y :: l' => if y <? x then x :: l else y :: insert_desc x l'
  end.

Definition sort_desc (l : list nat) : list nat := fold_right insert_desc [] l.

(** [triangles.erase] (qbsp/tjunc.cc:491-493). *)
Fixpoint remove_at {A} (i : nat) (l : list A) : list A :=
  match l, i with
  | [], _ => []
  | _ :: l', O => l'
  | x :: l', S i' => x :: remove_at i' l'
  end.

(** qbsp/tjunc.cc:431-497 [compress_triangles_into_fans].  [vs] are the vertex
    numbers at the positions of the polygon.  [None]: an assertion fails, or
    the loop does not end within [fuel] rounds. *)
Fixpoint compress_fans (fuel : nat) (pick : list nat -> nat) (vs : list nat)
  (ts : list tri) : option (list (list nat)) :=
  match ts with
  | [] => Some []
  | _ =>
      match fuel with
      | O => None
      | S f =>
          match find_best_fan ts (length vs) with
          | None => None
          | Some [] => None
          | Some [_] =>
              Some (map (fun t => map (fun v => nth v vs 0) (tri_verts t)) ts)
          | Some fan =>
              match find_seed_vertex pick ts fan with
              | None => None
              | Some seed =>
                  let verts := fan_verts (length vs) seed ts fan in
                  if length verts <? 3 then None
                  else
                    match compress_fans f pick vs
                            (fold_left (fun ts i => remove_at i ts) (sort_desc fan) ts) with
                    | None => None
                    | Some rest => Some (map (fun v => nth v vs 0) verts :: rest)
                    end
              end
          end
      end
  end.

(** qbsp/tjunc.cc:578-598 [mwt_face]. *)
Definition mwt_face (w : weights) (pick : list nat -> nat) (vs : list nat)
  : option (list (list nat)) :=
  match mwt w (length vs) with
  | None => None
  | Some ts => compress_fans (length ts) pick vs ts
  end.

(* ------------------------------------------------------------------ *)
(** * Rotating a face *)

(** qbsp/tjunc.cc:809-821: no zero-area triangle in the fan from vertex [i]. *)
Definition rotation_ok (valid : nat -> nat -> nat -> bool) (sf : list nat) (i : nat) : bool :=
  forallb (fun x =>
    valid (nth i sf 0) (nth ((i + x + 1) mod length sf) sf 0)
          (nth ((i + x + 2) mod length sf) sf 0))
    (seq 0 (length sf - 2)).

(** qbsp/tjunc.cc:806-826: the first such [i]. *)
Definition find_rotation (valid : nat -> nat -> nat -> bool) (sf : list nat) : option nat :=
  find (rotation_ok valid sf) (seq 0 (length sf)).

Definition rotate (i : nat) (l : list nat) : list nat := skipn i l ++ firstn i l.

(* ------------------------------------------------------------------ *)
(** * Cutting a face into fans *)

(** qbsp/tjunc.cc:626-651: may a fan start at position [seed]?  [onseg p a b]:
    [PointOnEdge] finds vertex [p] between vertices [a] and [b]. *)
Definition seed_ok (valid onseg : nat -> nat -> nat -> bool) (input : list nat) (seed : nat)
  : bool :=
  let n := length input in
  let v0 := nth seed input 0 in
  let v1 := nth ((seed + 1) mod n) input 0 in
  let v2 := nth ((seed + 2) mod n) input 0 in
  valid v0 v1 v2 && negb (onseg (nth (((seed + 2) mod n + 1) mod n) input 0) v2 v0).

(** qbsp/tjunc.cc:662-682: how far the fan goes.  [None] if the loop does not
    end within [fuel] rounds. *)
Fixpoint fan_end (fuel : nat) (onseg : nat -> nat -> nat -> bool) (input : list nat)
  (seed wrap e : nat) : option nat :=
  if e =? wrap then Some e
  else
    match fuel with
    | O => None
    | S f =>
        let n := length input in
        if onseg (nth ((e + 1) mod n) input 0) (nth e input 0) (nth seed input 0)
        then Some (if e =? 0 then n - 1 else e - 1)
        else fan_end f onseg input seed wrap ((e + 1) mod n)
    end.

(** What one round of [RetopologizeFace] does: fails, ends with this face, or
    cuts a fan off and goes on with the rest (qbsp/tjunc.cc:609-759). *)
Inductive retopo_step_result :=
| RFail
| RLast (fan : list nat)
| RCut (fan rest : list nat)
| RWrapCut (fan rest : list nat)  (* the fan ends before [seed] in the array *)
| RHang.

Definition retopo_step (valid onseg : nat -> nat -> nat -> bool) (input : list nat)
  : retopo_step_result :=
  let n := length input in
  if n <? 3 then RFail
  else
    match find (seed_ok valid onseg input) (seq 0 n) with
    | None => RFail
    | Some seed =>
        let wrap := (seed + 2) mod n in
        match fan_end n onseg input seed wrap ((wrap + 1) mod n) with
        | None => RHang
        | Some e =>
            if seed =? e then RLast input
            else if e =? wrap then RLast (rotate seed input)
            else if e <? seed
            then RWrapCut (skipn seed input ++ firstn e input)
                          (firstn (seed + 1 - e) (skipn e input))
            else RCut (firstn (e + 1 - seed) (skipn seed input))
                      (firstn (seed + 1) input ++ skipn e input)
        end
    end.

(** qbsp/tjunc.cc:609-763 [RetopologizeFace].  The empty list is failure;
    [None] if the loop does not end within [fuel] rounds. *)
Fixpoint retopo (fuel : nat) (valid onseg : nat -> nat -> nat -> bool) (input : list nat)
  : option (list (list nat)) :=
  match fuel with
  | O => None
  | S f =>
      match retopo_step valid onseg input with
      | RFail => Some []
      | RHang => None
      | RLast fan => Some [fan]
      | RCut fan rest | RWrapCut fan rest =>
          match retopo f valid onseg rest with
          | None => None
          | Some [] => Some []
          | Some fans => Some (fan :: fans)
          end
      end
  end.

(* ------------------------------------------------------------------ *)
(** * Fixing a face *)

(** include/qbsp/qbsp.hh:121-128, the values of -tjunc. *)
Inductive tjunc_level := TJNone | TJRotate | TJRetopologize | TJMwt.

(** qbsp/tjunc.cc:806-852: rotating or cutting the face up.  The empty list if
    the face stays as it is. *)
Definition rotate_or_retopo (retopologize : bool)
  (valid onseg : nat -> nat -> nat -> bool) (sf : list nat) : option (list (list nat)) :=
  match find_rotation valid sf with
  | None =>
      if retopologize then
        match retopo (length sf + 1) valid onseg sf with
        | None => None
        | Some fans => Some (if 1 <? length fans then fans else [])
        end
      else Some []
  | Some 0 => Some []
  | Some i => Some [rotate i sf]
  end.

(** qbsp/tjunc.cc:773-880 [FixFaceEdges]: the fragments of the face whose
    vertices are [orig].  [sf] is its superface.  [None]: an assertion fails.
    [geo] gives the weights for a superface (qbsp/tjunc.cc:581-592). *)
Definition fix_face (level : tjunc_level) (maxedges : nat)
  (geo : list nat -> weights) (valid onseg : nat -> nat -> nat -> bool)
  (pick : list nat -> nat) (orig sf : list nat) : option (list (list nat)) :=
  match level with
  | TJNone => Some [orig]
  | _ =>
      if length sf <? 3 then Some []
      else if length sf =? 3 then Some [orig]
      else
        match
          match level with
          | TJMwt =>
              match mwt_face (geo sf) pick sf with
              | Some [] => rotate_or_retopo true valid onseg sf
              | r => r
              end
          | TJRetopologize => rotate_or_retopo true valid onseg sf
          | _ => rotate_or_retopo false valid onseg sf
          end
        with
        | None => None
        | Some faces =>
            let faces := match faces with [] => [sf] | _ => faces end in
            match
              (if maxedges =? 0 then Some faces
               else split_faces (length faces) maxedges faces 0)
            with
            | None => None
            | Some frags =>
                if forallb (fun fr => 3 <=? length fr) frags then Some frags else None
            end
        end
  end.
