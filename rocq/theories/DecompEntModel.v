(* The entities that bsputil --decompile writes: common/decompile.cc:505-608, 855-935, 1119-1345. *)
From Coq Require Import String Ascii List Arith NArith ZArith Bool.
Import ListNotations.
From Verif Require Import Base NumCastModel ParserModel EntModel SettingsModel MapMergeModel.
Local Open Scope list_scope.

(** atoi: 0 without digits; numbers outside of int are not modelled. *)
Definition atoi (s : bytes) : Z :=
  let (neg, r) := sign (skip_space s) in
  if starts_digit r then (if neg then - digits_val r 0 else digits_val r 0)%Z else 0%Z.

(** Q2_CONTENTS_AREAPORTAL *)
Definition areaportal (c : Z) : bool := negb (Z.land c 32768 =? 0)%Z.
(** 1143-1156: the brush for a func_areaportal; left is brush_offset, a size_t. *)
Fixpoint portal_brush (left : Z) (i : nat) (brushes : list Z) : option nat :=
  match brushes with
  | [] => None
  | c :: t =>
    if areaportal c then if (left =? 1)%Z then Some i else portal_brush ((left - 1) mod 2 ^ 64) (S i) t
    else portal_brush left (S i) t
  end.

(** Keys in the order of the entity (1163-1193); vec3 is the parsing of an origin: None throws, Some None is the zero vector. *)
Section keys.
Context {V : Type} (vec3 : bytes -> option (option V)).
Record kstate := mkK { k_out : entdict; k_model : Z; k_offset : option V }.
Definition is_model (kv : bytes * bytes) : option bytes :=
  if beq (fst kv) (mtext "model") then match snd kv with c :: t => if (c =? 42)%N then Some t else None | [] => None end else None.
Definition key_step (portal : bool) (st : kstate) (kv : bytes * bytes) : res kstate :=
  match is_model kv with
  | Some t => ROk (mkK (k_out st) (atoi t) (k_offset st))
  | None =>
    if portal && beq (fst kv) (mtext "style") then ROk st
    else if (0 <? k_model st)%Z && beq (fst kv) (mtext "origin") then
      match vec3 (snd kv) with
      | None => RThrow
      | Some None => ROk st
      | Some (Some v) => ROk (mkK (k_out st) (k_model st) (Some v))
      end
    else ROk (mkK (k_out st ++ [kv]) (k_model st) (k_offset st))
  end.
Fixpoint key_loop (portal : bool) (st : kstate) (d : entdict) : res kstate :=
  match d with
  | [] => ROk st
  | kv :: d => rbind (key_step portal st kv) (fun st => key_loop portal st d)
  end.

(** DecompileEntity without the brushes: nothing (func_group), or the keys written, the model (-1: none), the offset and the brush of an
    area portal. dict.find("classname")->second is a read past the end without a classname. *)
Inductive dent := DNone | DEnt (keys : entdict) (model : Z) (offset : option V) (portal : option nat).
Definition decompile_entity (brushes : list Z) (d : entdict) (world : bool) : res dent :=
  if negb (ed_has (mtext "classname") d) then RUB
  else if beq (ed_get (mtext "classname") d) (mtext "func_areaportal") then
    rbind (if ed_has (mtext "style") d then match stoull (ed_get (mtext "style") d) with None => RThrow | Some n => ROk (portal_brush n 0 brushes) end else ROk None)
      (fun portal => rbind (key_loop (match portal with Some _ => true | None => false end) (mkK [] (if world then 0 else -1) None) d)
         (fun st => ROk (DEnt (k_out st) (k_model st) (k_offset st) portal)))
  else if beq (ed_get (mtext "classname") d) (mtext "func_group") then ROk DNone
  else rbind (key_loop false (mkK [] (if world then 0 else -1) None) d) (fun st => ROk (DEnt (k_out st) (k_model st) (k_offset st) None)).
End keys.
Arguments DNone {V}.
Arguments DEnt {V} _ _ _ _.

(** The brushes of a Quake 2 model (1195-1245): leafs as lists of brush numbers, in the order of the walk. The program keeps them in an
    unordered map, so their order in the file is not that of this list. *)
Definition visit (brushes : list Z) (acc : list nat) (i : nat) : res (list nat) :=
  match nth_error brushes i with
  | None => RUB
  | Some c => if areaportal c then ROk acc else if existsb (Nat.eqb i) acc then ROk acc else ROk (acc ++ [i])
  end.
Fixpoint visit_all (brushes : list Z) (acc : list nat) (l : list nat) : res (list nat) :=
  match l with
  | [] => ROk acc
  | i :: l => rbind (visit brushes acc i) (fun acc => visit_all brushes acc l)
  end.
Definition model_brushes (brushes : list Z) (leafs : list (list nat)) : res (list nat) := visit_all brushes [] (concat leafs).

(** ** Textures *)
(** DefaultSkipTexture (507-514), DefaultTriggerTexture (525-532), DefaultTextureForContents (552-585). *)
Definition skip_name (q2 : bool) : bytes := mtext (if q2 then "e1u1/skip" else "skip").
Definition trigger_name (q2 : bool) : bytes := mtext (if q2 then "e1u1/trigger" else "trigger").
Definition has (c bit : Z) : bool := negb (Z.land c bit =? 0)%Z.
Definition contents_name (q2 : bool) (c : Z) : bytes :=
  if q2 then
    if has c 32 then mtext "e1u1/water4" else if has c 16 then mtext "e1u1/sewer1" else if has c 8 then mtext "e1u1/brlava"
    else if has c 65536 then mtext "e1u1/clip" else if has c 131072 then mtext "e1u1/clip_mon"
    else if has c 32768 then mtext "e1u1/trigger" else mtext "e1u1/skip"
  else
    if (c =? -3)%Z then mtext "*waterskip" else if (c =? -4)%Z then mtext "*slimeskip" else if (c =? -5)%Z then mtext "*lavaskip"
    else if (c =? -6)%Z then mtext "skyskip" else mtext "skip".
(** What a side is written with: name, flags, value (only for Quake 2). Q2_SURF_NODRAW is 128, Q2_SURF_HINT 256. *)
Record sidetex := mkST { st_name : bytes; st_flags : Z; st_value : Z }.
Definition NODRAW : Z := 128.
Definition HINT : Z := 256.
Definition default_side (q2 : bool) (name : bytes) (s : sidetex) : sidetex := mkST name (if q2 then NODRAW else st_flags s) (st_value s).
(** OverrideTextureForContents (587-607) *)
Definition override (q2 : bool) (c : Z) (name : bytes) (s : sidetex) : sidetex :=
  if q2 && has c (65536 + 131072) then mkST (if has c 65536 then mtext "e1u1/clip" else mtext "e1u1/clip_mon") NODRAW (st_value s)
  else mkST name (st_flags s) (st_value s).
(** DecompileLeafTask (885-935), one side: face is the name and texinfo of the first face, source the texinfo of the brush side, each as
    name, flags and value. *)
Definition side_texture (q2 : bool) (c : Z) (face : option (bytes * option (Z * Z))) (source : option (option (bytes * Z * Z))) : sidetex :=
  let s := mkST [] 0 0 in
  if (c =? 0)%Z then mkST (mtext "e1u1/hint") (if q2 then HINT else 0) 0
  else match face, source with
       | None, None => default_side q2 (skip_name q2) s
       | _, _ =>
         let '(name, ti) := match face, source with
                            | Some (name, ti), _ => (name, ti)
                            | None, Some (Some (name, f, v)) => (name, Some (f, v))
                            | None, _ => ([], None)
                            end in
         let s := match name with [] => default_side q2 (skip_name q2) s | _ => override q2 c name s end in
         match ti with
         | Some (f, v) => if q2 then mkST (st_name s) f v else s
         | None => s
         end
       end.
(** 1277-1287: triggers. *)
Definition trigger_side (q2 : bool) (model : Z) (classname : bytes) (s : sidetex) : sidetex :=
  if (0 <? model)%Z && beq (firstn 8 classname) (mtext "trigger_") then default_side q2 (trigger_name q2) s else s.
