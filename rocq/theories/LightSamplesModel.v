(* light: the samples of a light grid point (light/ltface.cc:2759-2829, include/light/ltface.hh:59-87)
   and the filters of lightmaps (light/write.cc:147-366).
   Simplifications: colours are exact, integers for the light grid, rationals for the filters; of a
   lightmap one colour channel is modelled, the three are treated alike; alpha is 0 or 1. *)
From Coq Require Import List Arith NArith ZArith QArith Bool.
Import ListNotations.
From Verif Require Import Base NumCastModel.
Local Open Scope nat_scope.

(* ---- light grid ---- *)

Definition color := (Z * Z * Z)%type.
Definition cadd (a b : color) : color :=
  (fst (fst a) + fst (fst b), snd (fst a) + snd (fst b), snd a + snd b)%Z.
(** brightness (2826-2829), times three *)
Definition bright (c : color) : Z := (fst (fst c) + snd (fst c) + snd c)%Z.

(** The slots in use: a prefix of the four. *)
Definition samples := list (Z * color).

(** The loop of add (2784-2799) *)
Fixpoint add_known (s : samples) (free : nat) (c : color) (st : Z) : option samples :=
  match s with
  | [] => match free with O => None | S _ => Some [(st, c)] end
  | (st', c') :: t => if (st' =? st)%Z then Some ((st', cadd c' c) :: t)
                      else option_map (cons (st', c')) (add_known t free c st)
  end.
(** The dimmest slot, the first of them (2804-2813) *)
Fixpoint dimmest (s : samples) (i best : nat) (b : option Z) : nat :=
  match s with
  | [] => best
  | (_, c) :: t => if match b with None => true | Some m => (bright c <? m)%Z end
                   then dimmest t (S i) i (Some (bright c)) else dimmest t (S i) best b
  end.
Definition put {A} (l : list A) (i : nat) (x : A) : list A := match upd l i x with Some l' => l' | None => l end.
Definition add_sample (s : samples) (c : color) (st : Z) : samples :=
  match add_known s (4 - length s) c st with
  | Some s' => s'
  | None => put s (dimmest s 0 0 None) (st, c)
  end.
Definition add_all (l : list (Z * color)) (s : samples) : samples := fold_left (fun s p => add_sample s (snd p) (fst p)) l s.
(** operator+= (2759-2768) *)
Definition merge (s o : samples) : samples := add_all o s.

(* ---- lightmaps ---- *)

Notation px := (Q * bool)%type.
Notation image := (list (Q * bool)).

Definition at_ (im : image) (i : nat) : res px := match nth_error im i with Some p => ROk p | None => RThrow end.

Definition sumQ (l : list Q) : Q := fold_right Qplus 0%Q l.
Definition mean (l : list Q) : Q := (sumQ l / inject_Z (Z.of_nat (length l)))%Q.

(** The pixels of a kernel given by its coordinates *)
Fixpoint reads (im : image) (is : list nat) : res (list px) :=
  match is with
  | [] => ROk []
  | i :: t => rbind (at_ im i) (fun p => rbind (reads im t) (fun l => ROk (p :: l)))
  end.

Definition opaque (l : list px) : list Q := map fst (filter snd l).

(** The result of a kernel: mean of the pixels with alpha 1, or of all when there is none (202-212) *)
Definition kernel (l : list px) : px :=
  match opaque l with [] => (mean (map fst l), false) | o => (mean o, true) end.

(** [f] for each pixel of a [w] by [h] image, row by row *)
Definition each (w h : nat) (f : nat -> nat -> res px) : res image :=
  fold_right (fun p r => rbind (f (fst p) (snd p)) (fun v => rbind r (fun l => ROk (v :: l)))) (ROk [])
    (flat_map (fun y => map (fun x => (x, y)) (seq 0 w)) (seq 0 h)).

(** IntegerDownsampleImage (154-219) *)
Definition down_kernel (w h factor x y : nat) : list nat :=
  flat_map (fun y0 => flat_map (fun x0 =>
    let x1 := x * factor + x0 in let y1 := y * factor + y0 in
    if ((x1 <? w) && (y1 <? h))%nat then [y1 * w + x1] else []) (seq 0 factor)) (seq 0 factor).
Definition downsample (im : image) (w h factor : nat) : res image :=
  if (factor =? 0)%nat then RThrow
  else if (factor =? 1)%nat then ROk im
  else each (w / factor) (h / factor) (fun x y => rbind (reads im (down_kernel w h factor x y)) (fun l => ROk (kernel l))).

(** BoxBlurImage (304-366): coordinates are clamped to the image *)
Definition clamp_add (x d radius n : nat) : nat := Nat.min (x + d - radius) (n - 1).
Definition blur_kernel (w h radius x y : nat) : list nat :=
  flat_map (fun dy => map (fun dx => clamp_add y dy radius h * w + clamp_add x dx radius w) (seq 0 (2 * radius + 1)))
    (seq 0 (2 * radius + 1)).
Definition blur (im : image) (w h radius : nat) : res image :=
  each w h (fun x y => rbind (reads im (blur_kernel w h radius x y)) (fun l => ROk (kernel l))).

(** FloodFillTransparent (221-284): neighbours of a pixel, itself included *)
Definition around (n : nat) (x : nat) : list nat :=
  (if x =? 0 then [] else [x - 1]) ++ [x] ++ (if x + 1 <? n then [x + 1] else []).
Definition neighbours (w h x y : nat) : list nat :=
  flat_map (fun y1 => map (fun x1 => y1 * w + x1) (around w x)) (around h y).
(** One pixel: the image and the number of pixels that stay transparent *)
Definition fill_px (w h : nat) (im : image) (x y : nat) : res (image * nat) :=
  rbind (at_ im (y * w + x)) (fun p =>
  if snd p then ROk (im, 0%nat)
  else rbind (reads im (neighbours w h x y)) (fun l =>
    match opaque l with
    | [] => ROk (im, 1%nat)
    | o => ROk (put im (y * w + x) (mean o, true), 0%nat)
    end)).
Fixpoint fill_pass (w h : nat) (ps : list (nat * nat)) (im : image) : res (image * nat) :=
  match ps with
  | [] => ROk (im, 0%nat)
  | (x, y) :: t => rbind (fill_px w h im x y) (fun r => rbind (fill_pass w h t (fst r)) (fun q => ROk (fst q, (snd r + snd q)%nat)))
  end.
Definition coords (w h : nat) : list (nat * nat) := flat_map (fun y => map (fun x => (x, y)) (seq 0 w)) (seq 0 h).
(** The passes; [None] when there is no end after [fuel] of them *)
Fixpoint fill_loop (w h n : nat) (fuel : nat) (im : image) : option (res image) :=
  match fuel with
  | O => None
  | S fuel =>
      match fill_pass w h (coords w h) im with
      | ROk (im', k) => if (k =? n)%nat then Some (ROk im') else if (k =? 0)%nat then Some (ROk im') else fill_loop w h n fuel im'
      | RThrow => Some RThrow
      | RUB => Some RUB
      end
  end.
Definition flood_fill (im : image) (w h fuel : nat) : option (res image) := fill_loop w h (length im) fuel im.
