(* Model of bsputil --replace-textures: ReplaceTexturesFromWad (bsputil/bsputil.cc:115-138) with img::load_texture for mips alone
   (common/imglib.cc:329-359), and of the texture when the file is read again (miptex_t::stream_read, common/bspfile_generic.cc:111-125).
   Archives are a function from names to files (C86); the conversion of pixels, which does not reach the bsp, is left out (C89, C90). *)
From Coq Require Import List NArith ZArith Bool.
Import ListNotations.
Local Open Scope Z_scope.

(** miptex_t (include/common/bspfile_generic.hh:102-122) without the offsets; the size is None if nothing was read for the texture:
    width and height then have no value. *)
Record tex := mkTex { t_name : list N; t_size : option (Z * Z); t_null : bool; t_data : list N }.

Section Retex.
(** The file that fs::where and fs::load give for a name (the suffix is empty and there is one loader, 337-341). *)
Variable found : list N -> option (list N).
(** The name and size in the header of a mip; None if the file is shorter than a header (load_mip, common/imglib.cc:166-181). *)
Variable head : list N -> option (list N * Z * Z).

(** load_texture (343-358): size and file. *)
Definition load (name : list N) : option (Z * Z * list N) :=
  match found name with
  | None => None
  | Some data => match head data with None => None | Some (_, w, h) => Some (w, h, data) end
  end.
(** One turn of the loop (119-137); None: a size without value is compared. *)
Definition retex1 (t : tex) : option tex :=
  match load (t_name t) with
  | None => Some t
  | Some (w, h, data) =>
      match t_size t with
      | None => None
      | Some (w', h') => if negb (w' =? w) || negb (h' =? h) then Some t else Some (mkTex (t_name t) (t_size t) false data)
      end
  end.
Fixpoint retex (l : list tex) : option (list tex) :=
  match l with
  | [] => Some []
  | t :: l => match retex1 t with
              | None => None
              | Some t' => match retex l with None => None | Some l' => Some (t' :: l') end
              end
  end.

(** The texture after the bsp is written and read: null textures have no data, the others what their data says (144-155, 111-125).
    The padding behind the data (C43) is left out. None: the header is not complete. *)
Definition again (t : tex) : option tex :=
  if t_null t then Some (mkTex [] None true [])
  else match head (t_data t) with None => None | Some (nm, w, h) => Some (mkTex nm (Some (w, h)) false (t_data t)) end.
End Retex.
