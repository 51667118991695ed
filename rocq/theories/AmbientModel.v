(* Ambient sounds of Quake maps: vis/soundpvs.cc:59-154 (CalcAmbientSounds).  Rational numbers stand for
   float (no rounding). *)
From Coq Require Import List Arith NArith QArith Qround Bool String Ascii.
From Verif Require Import Base VisLumpModel ParserModel CmdlibModel.
Import ListNotations.

(** The options -noambientsky, -noambientwater, -noambientslime, -noambientlava (include/vis/vis.hh:269-274). *)
Record opts := mkOpts { no_sky : bool; no_water : bool; no_slime : bool; no_lava : bool }.

(** dleafs[i + 1]: cluster, firstmarksurface, nummarksurfaces; dleaffaces, texinfo of dfaces, miptex of
    texinfo, names of dtex.textures. *)
Record leaf := mkLeaf { lf_cluster : nat; lf_first : nat; lf_num : nat }.
Record bsp := mkBsp { b_leafs : list leaf; b_leaffaces : list nat; b_faces : list nat; b_texinfo : list nat; b_textures : list bytes }.

(** !Q_strncasecmp(name, p, length of p) (common/cmdlib.cc:48-59); p holds no NUL. *)
Definition text (s : string) : bytes := map N_of_ascii (list_ascii_of_string s).
Fixpoint same_start (p name : bytes) : bool :=
  match p, name with
  | [], _ => true
  | x :: p, y :: name => (lower x =? lower y)%N && same_start p name
  | _ :: _, [] => false
  end.

(** ambient_type_t (include/common/bspfile_generic.hh:287-295). *)
Definition WATER : nat := 0. Definition SKY : nat := 1. Definition SLIME : nat := 2. Definition LAVA : nat := 3.

(** soundpvs.cc:107-119. *)
Definition ambient_type (o : opts) (name : bytes) : option nat :=
  if same_start (text "sky") name && negb (no_sky o) then Some SKY
  else if same_start (text "*water") name && negb (no_water o) then Some WATER
  else if same_start (text "*04water") name && negb (no_water o) then Some WATER
  else if same_start (text "*slime") name && negb (no_slime o) then Some WATER
  else if same_start (text "*lava") name && negb (no_lava o) then Some LAVA
  else None.

(** The name of the texture of a face of a leaf (soundpvs.cc:103-105).  None: out of range. *)
Definition face_name (b : bsp) (l : leaf) (k : nat) : option bytes :=
  match nth_error (b_leaffaces b) (lf_first l + k) with
  | None => None
  | Some f => match nth_error (b_faces b) f with
              | None => None
              | Some t => match nth_error (b_texinfo b) t with
                          | None => None
                          | Some m => nth_error (b_textures b) m
                          end
              end
  end.

(** soundpvs.cc:136-138.  The distance found before (122-134) is overwritten and not modelled. *)
Definition maxd : Q := 1 # 4.
Definition nearer (d : list Q) (t : nat) : list Q :=
  if negb (Qle_bool (nth t d 0%Q) maxd) then firstn t d ++ maxd :: skipn (S t) d else d.
Fixpoint scan_faces (o : opts) (b : bsp) (l : leaf) (ks : list nat) (d : list Q) : option (list Q) :=
  match ks with
  | [] => Some d
  | k :: r => match face_name b l k with
              | None => None
              | Some name => scan_faces o b l r (match ambient_type o name with Some t => nearer d t | None => d end)
              end
  end.

(** soundpvs.cc:93-140; base: the offset of vis in uncompressed. *)
Fixpoint scan_leafs (o : opts) (b : bsp) (unc : list N) (base : nat) (js : list nat) (d : list Q) : option (list Q) :=
  match js with
  | [] => Some d
  | j :: r =>
      match nth_error unc (base + j / 8) with
      | None => None
      | Some byte =>
          if N.testbit byte (N.of_nat (j mod 8)) then
            match nth_error (b_leafs b) j with
            | None => None
            | Some hit => match scan_faces o b hit (seq 0 (lf_num hit)) d with None => None | Some d => scan_leafs o b unc base r d end
            end
          else scan_leafs o b unc base r d
      end
  end.

(** soundpvs.cc:142-152. *)
Definition volume (d : list Q) (j : nat) : Q :=
  if negb (Qle_bool 100 (nth j d 0%Q)) then 1%Q
  else let vol := (1 - nth 2 d 0 * (2 # 1000))%Q in if negb (Qle_bool 0 vol) then 0%Q else vol.
Definition level (d : list Q) (j : nat) : N := Z.to_N (Qfloor (volume d j * 255) mod 256).

(** The body of the loop for leaf i (soundpvs.cc:75-153); n: portalleafs. *)
Definition ambient_leaf (o : opts) (b : bsp) (n nr : nat) (unc : list N) (i : nat) : option (list N) :=
  match nth_error (b_leafs b) i with
  | None => None
  | Some l =>
      let base := ((if negb (n =? nr)%nat then lf_cluster l else i) * stride nr)%nat in
      match scan_leafs o b unc base (seq 0 nr) (repeat 1020%Q 4) with
      | None => None
      | Some d => Some (map (level d) (seq 0 4))
      end
  end.

(** The loop over the leafs; each writes only its own levels, so their order does not matter. *)
Fixpoint all_some {A} (l : list (option A)) : option (list A) :=
  match l with
  | [] => Some []
  | Some x :: r => match all_some r with Some xs => Some (x :: xs) | None => None end
  | None :: _ => None
  end.
Definition calc_ambient (o : opts) (b : bsp) (n nr : nat) (unc : list N) : option (list (list N)) :=
  if no_sky o && no_water o && no_slime o && no_lava o then Some (repeat (repeat 0%N 4) nr)
  else all_some (map (ambient_leaf o b n nr unc) (seq 0 nr)).
