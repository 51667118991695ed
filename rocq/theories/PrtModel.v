(* Portal files: the text writer of qbsp, the reader shared with vis, and the table vis builds. *)
From Coq Require Import List Arith NArith ZArith Bool.
Import ListNotations.
From Verif Require Import Base ParserModel StreamModel EntModel.

(** Outcome of reading: a result; an FError/Error/exception; use of an uninitialised variable or
    an access out of bounds; an endless loop; or (excluded by a theorem) the model's fuel. *)
Inductive pres (A : Type) := P_ok (a : A) | P_error | P_UB | P_hang | P_fuel.
Arguments P_ok {A}. Arguments P_error {A}. Arguments P_UB {A}. Arguments P_hang {A}. Arguments P_fuel {A}.

Definition pbind {A B} (x : pres A) (f : A -> pres B) : pres B :=
  match x with P_ok a => f a | P_error => P_error | P_UB => P_UB | P_hang => P_hang | P_fuel => P_fuel end.

(** A point as the texts of its three coordinates.  The value of a coordinate is a function
    (strtod) of its text, so equal texts are equal numbers. *)
Definition point := (bytes * bytes * bytes)%type.

(** prtfile_portal_t (include/common/prtfile.hh:30-35). *)
Record prt_portal := mkPP { pp_leaf0 : Z; pp_leaf1 : Z; pp_winding : list point }.

(** prtfile_t (include/common/prtfile.hh:42-49); dleafinfos as the list of cluster numbers. *)
Record prtfile := mkPrt { pf_leafs : Z; pf_real : Z; pf_portals : list prt_portal; pf_clusters : list Z }.

Definition sPRT1 : bytes := [80; 82; 84; 49]%N.
Definition sPRT2 : bytes := [80; 82; 84; 50]%N.
Definition sPRTAM : bytes := [80; 82; 84; 49; 45; 65; 77]%N.

Definition u32 (z : Z) : Z := (z mod 4294967296)%Z.

(** std::getline: the line and the stream after it. *)
Fixpoint take_line (s : bytes) : bytes * option bytes :=
  match s with
  | [] => ([], None)
  | c :: s' => if (c =? 10)%N then ([], Some s') else let '(l, r) := take_line s' in (c :: l, r)
  end.

Definition getline (t : bytes) : bytes * istr :=
  match take_line t with
  | (l, Some r) => (l, mkIS r false false)
  | ([], None) => ([], mkIS [] true true)
  | (l, None) => (l, mkIS [] true false)
  end.

Fixpoint after (c : N) (s : bytes) : option bytes :=
  match s with [] => None | x :: s' => if (x =? c)%N then Some s' else after c s' end.

(** [while (!f.bad() && f.get() != c);] (common/prtfile.cc:104-105, 109-110).  get() returns
    EOF for ever on a stream that is at its end or has failed. *)
Definition skip_past (c : N) (s : istr) : pres istr :=
  if is_eof s || is_fail s then P_hang
  else match after c (is_rest s) with Some r => P_ok (mkIS r false false) | None => P_hang end.

(** One point (common/prtfile.cc:103-114). A coordinate that could not be read has set failbit, so
    the loop that looks for the closing parenthesis never ends. *)
Definition read_point (s : istr) : pres (point * istr) :=
  pbind (skip_past 40 s) (fun s1 =>
  let '(s2, x) := get_real s1 in
  let '(s3, y) := get_real s2 in
  let '(s4, z) := get_real s3 in
  pbind (skip_past 41 s4) (fun s5 =>
  match x, y, z with
  | Some x, Some y, Some z => P_ok ((x, y, z), s5)
  | _, _, _ => P_hang
  end)).

Fixpoint read_points (n : nat) (s : istr) : pres (list point * istr) :=
  match n with
  | O => P_ok ([], s)
  | S n' => pbind (read_point s) (fun '(p, s1) =>
            pbind (read_points n' s1) (fun '(ps, s2) => P_ok (p :: ps, s2)))
  end.

Definition PRT_MAX_WINDING : Z := 64.

(** One portal (common/prtfile.cc:86-117).  numpoints and the leaf numbers are not initialised
    before they are read; numpoints is compared as an unsigned 64-bit number. *)
Definition read_portal (leafs : Z) (s : istr) : pres (prt_portal * istr) :=
  let '(s1, np) := get_int s in
  let '(s2, a) := get_int s1 in
  let '(s3, b) := get_int s2 in
  match np with
  | None => P_UB
  | Some np =>
    if (np <? 0)%Z || (np >? PRT_MAX_WINDING)%Z then P_error
    else match a with
         | None => P_UB
         | Some a =>
           if (u32 a >? u32 leafs)%Z then P_error
           else match b with
                | None => P_UB
                | Some b =>
                  if (u32 b >? u32 leafs)%Z then P_error
                  else pbind (read_points (Z.to_nat np) s3) (fun '(w, s4) => P_ok (mkPP a b w, s4))
                end
         end
  end.

Fixpoint read_portals (n : nat) (leafs : Z) (s : istr) : pres (list prt_portal * istr) :=
  match n with
  | O => P_ok ([], s)
  | S n' => pbind (read_portal leafs s) (fun '(p, s1) =>
            pbind (read_portals n' leafs s1) (fun '(ps, s2) => P_ok (p :: ps, s2)))
  end.

(** [int] addition of one: overflow is undefined. *)
Definition succ_int (z : Z) : pres Z := if (z =? INT_MAX)%Z then P_UB else P_ok (z + 1)%Z.

(** vector::resize on an empty vector of int: a negative argument throws. *)
Definition resize0 (n : Z) : pres (list Z) := if (n <? 0)%Z then P_error else P_ok (repeat 0%Z (Z.to_nat n)).

Definition store (l : list Z) (i : Z) (v : Z) : pres (list Z) :=
  if (i <? 0)%Z then P_UB else match upd l (Z.to_nat i) v with Some l' => P_ok l' | None => P_UB end.

(** The leaf numbers of one cluster (common/prtfile.cc:144-155).  The flag tells whether the
    loop ended at the end of the file. *)
Fixpoint read_cluster (fuel : nat) (real i : Z) (s : istr) (cl : list Z) : pres (list Z * istr * bool) :=
  match fuel with
  | O => P_fuel
  | S fuel' =>
    let '(s1, v) := get_int s in
    if is_eof s1 then P_ok (cl, s1, true)
    else match v with
         | None => P_UB
         | Some v =>
           if (v <? 0)%Z then P_ok (cl, s1, false)
           else if (v >=? real)%Z then P_error
           else pbind (store cl (v + 1) i) (fun cl1 => read_cluster fuel' real i s1 cl1)
         end
  end.

(** The cluster map of a PRT2 file (common/prtfile.cc:142-160), [n] clusters left from number [i]. *)
Fixpoint read_clusters (n : nat) (real i : Z) (s : istr) (cl : list Z) : pres (list Z) :=
  match n with
  | O => P_ok cl
  | S n' => pbind (read_cluster (S (S (length (is_rest s)))) real i s cl) (fun '(cl1, s1, ended) =>
            if (ended : bool) then P_error else read_clusters n' real (i + 1) s1 cl1)
  end.

(** The cluster map of a PRT1-AM file (common/prtfile.cc:161-175). *)
Fixpoint read_am (n : nat) (leafs i : Z) (s : istr) (cl : list Z) : pres (list Z) :=
  match n with
  | O => P_ok cl
  | S n' =>
    let '(s1, v) := get_int s in
    if is_eof s1 then P_error
    else match v with
         | None => P_UB
         | Some v => if (v <? 0)%Z || (v >=? leafs)%Z then P_error
                     else pbind (store cl (i + 1) v) (fun cl1 => read_am n' leafs (i + 1) s1 cl1)
         end
  end.

Definition orzero (v : option Z) : Z := match v with Some z => z | None => 0%Z end.

Inductive prtkind := K1 | K2 | KAM.

(** The header (common/prtfile.cc:42-83): kind, portalleafs, portalleafs_real, numportals (not
    initialised when it could not be read), stream. *)
Definition read_header (q2 : bool) (t : bytes) : pres (prtkind * Z * Z * option Z * istr) :=
  let '(magic, s) := getline t in
  if beq magic sPRT1 then
    let '(s1, l) := get_int s in let '(s2, n) := get_int s1 in
    P_ok (K1, orzero l, if q2 then 0%Z else orzero l, n, s2)
  else if beq magic sPRT2 then
    if q2 then P_error else
    let '(s1, r) := get_int s in let '(s2, l) := get_int s1 in let '(s3, n) := get_int s2 in
    P_ok (K2, orzero l, orzero r, n, s3)
  else if beq magic sPRTAM then
    if q2 then P_error else
    let '(s1, l) := get_int s in let '(s2, n) := get_int s1 in let '(s3, r) := get_int s2 in
    P_ok (KAM, orzero l, orzero r, n, s3)
  else P_error.

(** Identity clusters (common/prtfile.cc:126-134). *)
Definition identity_clusters (leafs : Z) : pres (list Z) :=
  pbind (succ_int leafs) (fun n => pbind (resize0 n) (fun l =>
  P_ok (match l with [] => [] | z :: _ => z :: map Z.of_nat (seq 0 (length l - 1)) end))).

(** LoadPrtFile (common/prtfile.cc:35-181). [q2]: the BSP's game is Quake II.  The file opens. *)
Definition load_prt (q2 : bool) (t : bytes) : pres prtfile :=
  pbind (read_header q2 t) (fun '(kind, leafs, real, nump, s) =>
  match nump with
  | None => P_UB
  | Some nump =>
    pbind (read_portals (Z.to_nat nump) leafs s) (fun '(ps, s1) =>
    if q2 then P_ok (mkPrt leafs real ps [])
    else if (leafs =? real)%Z then pbind (identity_clusters leafs) (fun cl => P_ok (mkPrt leafs real ps cl))
    else match kind with
         | K2 => pbind (succ_int real) (fun n => pbind (resize0 n) (fun cl0 =>
                 pbind (read_clusters (Z.to_nat leafs) real 0 s1 cl0) (fun cl => P_ok (mkPrt leafs real ps cl))))
         | KAM => pbind (succ_int leafs) (fun n => pbind (resize0 n) (fun cl0 =>
                 pbind (read_am (Z.to_nat real) leafs 0 s1 cl0) (fun cl => P_ok (mkPrt leafs real ps cl))))
         | K1 => P_error
         end)
  end).

(* ------------------------------------------------------------------------------------------- *)
(** ** The writer *)

(** A portal the writer prints: first and second number after the orientation test
    (qbsp/prtfile.cc:77-91), and the coordinate texts of the winding. *)
Record wportal := mkWP { wp_a : nat; wp_b : nat; wp_winding : list point }.

Definition nl : N := 10%N.
Definition sp : N := 32%N.

(** One point (qbsp/prtfile.cc:94-98, WriteFloat 41-47): each number is followed by a blank. *)
Definition print_point (p : point) : bytes :=
  let '(x, y, z) := p in [40%N] ++ x ++ [sp] ++ y ++ [sp] ++ z ++ [sp; 41%N; sp].

(** One portal line (qbsp/prtfile.cc:87-100). *)
Definition print_portal (p : wportal) : bytes :=
  print_nat (length (wp_winding p)) ++ [sp] ++ print_nat (wp_a p) ++ [sp] ++ print_nat (wp_b p) ++ [sp] ++
  concat (map print_point (wp_winding p)) ++ [nl].

Definition print_portals (ps : list wportal) : bytes := concat (map print_portal ps).

(** WritePortalfile (qbsp/prtfile.cc:201-254): the PRT1 form (Quake II, no detail, -forceprt1) ... *)
Definition write_prt1 (leafs : nat) (ps : list wportal) : bytes :=
  sPRT1 ++ [nl] ++ print_nat leafs ++ [nl] ++ print_nat (length ps) ++ [nl] ++ print_portals ps.

(** ... and the PRT2 form; the cluster table is a text produced separately. *)
Definition write_prt2 (leafs clusters : nat) (ps : list wportal) (table : bytes) : bytes :=
  sPRT2 ++ [nl] ++ print_nat leafs ++ [nl] ++ print_nat clusters ++ [nl] ++ print_nat (length ps) ++ [nl] ++
  print_portals ps ++ table.

(** The table of the clusters' leaf numbers as text: the effect of WritePTR2ClusterMapping_r
    (qbsp/prtfile.cc:109-134) and the final line (253), when it succeeds. *)
Definition print_cluster (c : list nat) : bytes := concat (map (fun n => print_nat n ++ [sp]) c) ++ [45; 49; 10]%N.
Definition print_table (cs : list (list nat)) : bytes := concat (map print_cluster cs).

(* ------------------------------------------------------------------------------------------- *)
(** ** The tables of vis *)

(** leafs[i].portals as indices into portals, and portals[i].leaf (vis/vis.cc:611-666). *)
Record vtab := mkVT { vt_leafs : list (list nat); vt_dest : list Z }.

Definition push_leaf (l : list (list nat)) (i : Z) (p : nat) : pres (list (list nat)) :=
  if (i <? 0)%Z then P_UB
  else match upd l (Z.to_nat i) (nth (Z.to_nat i) l [] ++ [p]) with Some l' => P_ok l' | None => P_UB end.

(** The loop over the file's portals (vis/vis.cc:627-666): each becomes two. *)
Fixpoint pair_portals (ps : list prt_portal) (t : vtab) : pres vtab :=
  match ps with
  | [] => P_ok t
  | p :: ps' =>
    let k := length (vt_dest t) in
    pbind (push_leaf (vt_leafs t) (pp_leaf0 p) k) (fun l1 =>
    pbind (push_leaf l1 (pp_leaf1 p) (S k)) (fun l2 =>
    pair_portals ps' (mkVT l2 (vt_dest t ++ [pp_leaf1 p; pp_leaf0 p]))))
  end.

(** LoadPortals (vis/vis.cc:584-676) after the file is read; [ndleafs] is the number of leafs of
    the BSP.  Result: the tables and the cluster numbers of BSP leafs 1... *)
Definition load_portals (q2 : bool) (f : prtfile) (ndleafs : nat) : pres (vtab * list Z) :=
  if (pf_leafs f <? 0)%Z then P_error
  else pbind (pair_portals (pf_portals f) (mkVT (repeat [] (Z.to_nat (pf_leafs f))) [])) (fun t =>
       if q2 then P_ok (t, [])
       else if (ndleafs <? length (pf_clusters f)) && (1 <? length (pf_clusters f)) then P_UB
       else P_ok (t, tl (pf_clusters f))).
