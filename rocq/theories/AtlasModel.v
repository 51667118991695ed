(* Model of common/bspinfo.cc:227-474, build_lightmap_atlas: the lightmaps of all faces in one image per style, and of the
   .obj file beside them (500-555). *)
From Coq Require Import List ZArith QArith Bool.
Import ListNotations.
From Verif Require Import NumCastModel.
Local Open Scope Z_scope.

(** A face: width() and height() of its lightmap, the offset of its samples and face.styles.  How extents and offsets are
    found (face_rect, 274-314) is not modelled here. *)
Record face := mkF { f_w : Z; f_h : Z; f_ofs : Z; f_styles : list Z }.

(** std::sort with the order of 300-309, which is total: higher lightmaps first, then in the order of faces. *)
Fixpoint insert (r : face) (l : list face) : list face :=
  match l with [] => [r] | x :: t => if f_h x <=? f_h r then r :: l else x :: insert r t end.
Definition sort_faces (l : list face) : list face := fold_right insert [] l.

(** The atlas that is being filled, with its number (291-294, 312-351). *)
Record shelf := mkS { s_atlas : Z; s_x : Z; s_y : Z; s_tall : Z }.
Definition atlas_size : Z := 512.
(** One pass of the loop 325-350 per unit of fuel; None: not placed yet. *)
Fixpoint place (fuel : nat) (st : shelf) (f : face) : option ((Z * Z * Z) * shelf) :=
  match fuel with
  | O => None
  | S n =>
    let st1 := if atlas_size <=? s_x st + f_w f then mkS (s_atlas st) 0 (s_y st + s_tall st) 0 else st in
    if atlas_size <=? s_y st1 + f_h f then place n (mkS (s_atlas st1 + 1) 0 0 0) f
    else Some ((s_atlas st1, s_x st1, s_y st1), mkS (s_atlas st1) (s_x st1 + f_w f) (s_y st1) (Z.max (s_tall st1) (f_h f)))
  end.
Fixpoint pack (fuel : nat) (st : shelf) (fs : list face) : option (list (face * (Z * Z * Z)) * shelf) :=
  match fs with
  | [] => Some ([], st)
  | f :: t => match place fuel st f with
              | None => None
              | Some (p, st2) => match pack fuel st2 t with None => None | Some (l, st3) => Some ((f, p) :: l, st3) end
              end
  end.
(** 353-373: atlases in rows of ceil(sqrt(number)) *)
Definition final (k : Z) (r : face * (Z * Z * Z)) : face * (Z * Z) :=
  let '(f, (a, x, y)) := r in (f, (x + (a mod k) * atlas_size, y + (a / k) * atlas_size)).
Definition layout (fuel : nat) (fs : list face) : option (list (face * (Z * Z))) :=
  match pack fuel (mkS 0 0 0 0) (sort_faces fs) with
  | None => None
  | Some (l, st) => Some (map (final (Z.sqrt_up (s_atlas st + 1))) l)
  end.
Definition trimmed_width (l : list (face * (Z * Z))) : Z := fold_right (fun r m => Z.max m (fst (snd r) + f_w (fst r))) 0 l.
Definition trimmed_height (l : list (face * (Z * Z))) : Z := fold_right (fun r m => Z.max m (snd (snd r) + f_h (fst r))) 0 l.

(** ** Pixels: red, green, blue, alpha by index in the image *)
Definition canvas := Z -> list Z.
Definition black : canvas := fun _ => [0; 0; 0; 0].
Definition put (c : canvas) (i : Z) (p : list Z) : canvas := fun j => if j =? i then p else c j.
Definition byte_at (data : list Z) (i : Z) : res Z :=
  if i <? 0 then RUB else match nth_error data (Z.to_nat i) with Some b => ROk b | None => RUB end.
(** 401-415: the first of the four styles that is [i] *)
Fixpoint find_style (n : nat) (l : list Z) (i : Z) : option Z :=
  match l with [] => None | s :: t => if s =? i then Some (Z.of_nat n) else find_style (S n) t i end.
(** 424-441, one pixel; in_pixel++ is written as the position in the lightmap.  [lit]: the samples are those of a .lit
    file, three for each byte of the lightmap. *)
Definition pixel (lit rgb : bool) (data : list Z) (f : face) (s x y : Z) : res (list Z) :=
  let b := (if lit then 3 else 1) * f_ofs f + f_w f * f_h f * (if rgb then 3 else 1) * s in
  let k := y * f_w f + x in
  if rgb then
    rbind (byte_at data (b + 3 * k)) (fun r => rbind (byte_at data (b + 3 * k + 1)) (fun g => rbind (byte_at data (b + 3 * k + 2)) (fun c => ROk [r; g; c; 255])))
  else rbind (byte_at data (b + k)) (fun g => ROk [g; g; g; 255]).
Definition count (n : Z) : list Z := map Z.of_nat (seq 0 (Z.to_nat n)).
Definition places (f : face) : list (Z * Z) := flat_map (fun y => map (fun x => (x, y)) (count (f_w f))) (count (f_h f)).
Definition draw (lit rgb : bool) (data : list Z) (W : Z) (r : face * (Z * Z)) (s : Z) (c : canvas) : res canvas :=
  let '(f, (X, Y)) := r in
  fold_left (fun c xy => rbind c (fun c => rbind (pixel lit rgb data f s (fst xy) (snd xy)) (fun p => ROk (put c ((Y + snd xy) * W + (X + fst xy)) p)))) (places f) (ROk c).
(** 395-448: the image of one style and whether anything was written; without samples in the file nothing is. *)
Definition style_image (lit rgb empty : bool) (data : list Z) (W : Z) (l : list (face * (Z * Z))) (i : Z) : res (canvas * bool) :=
  fold_left (fun a r => rbind a (fun '(c, any) =>
    match find_style 0 (firstn 4 (f_styles (fst r))) i with
    | None => ROk (c, any)
    | Some s => if (empty : bool) then ROk (c, any) else rbind (draw lit rgb data W r s c) (fun c2 => ROk (c2, true))
    end)) l (ROk (black, false)).
(** style_to_lightmap_atlas (392-455): styles 0 to 253; the image is cleared after each style. *)
Definition atlas_of (lit rgb empty : bool) (data : list Z) (l : list (face * (Z * Z))) (i : Z) : res (option canvas) :=
  if (0 <=? i) && (i <? 254) then rbind (style_image lit rgb empty data (trimmed_width l) l i) (fun '(c, any) => ROk (if any then Some c else None)) else ROk None.

(** 457-478: one coordinate of a vertex in the image, from its lightmap coordinate *)
Definition uv (c : Q) (x W : Z) : Q := ((c + inject_Z x + (1 # 2)) / inject_Z W)%Q.

(** ** The .obj file (500-555): all "v" lines and the vertex numbers of each "f" line *)
Fixpoint obj_faces {V} (vertcount : nat) (fs : list (list V)) : list (list nat) :=
  match fs with
  | [] => []
  | f :: t => map (fun i => vertcount + (length f - 1 - i) + 1)%nat (seq 0 (length f)) :: obj_faces (vertcount + length f) t
  end.
Definition obj {V} (fs : list (list V)) : list V * list (list nat) := (concat fs, obj_faces 0 fs).
