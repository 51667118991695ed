(* Which faces cast shadows on what: light/light.cc:541-560, 647-720; light/entities.cc:947-954;
   light/trace_embree.cc:73-98, 134-180, 307-460, 544-657; include/light/trace_embree.hh:210-221.
   Where a ray meets a face is left to Embree; numbers of float are rational here. *)
From Coq Require Import List Arith ZArith QArith Bool.
Import ListNotations.
Local Open Scope Z_scope.

(** CHANNEL_MASK_DEFAULT (light.hh:194) *)
Definition mask_default : Z := 1.
(** modelinfo_t (light.hh:196-235), in parts.  The boolValue of the four keys; alpha if it was set. *)
Record model := mkModel { m_id : nat; m_shadow : bool; m_self : bool; m_only : bool; m_switch : bool; m_style : Z; m_mask : Z; m_alpha : option Q }.
Definition is_world (m : model) : bool := Nat.eqb (m_id m) 0.
(** The world (light.cc:682-687): its keys are not read. *)
Definition world : model := mkModel 0 true false false false 0 mask_default None.

(** A face: the extended flags no_shadow, object_channel_mask and light_alpha; '{' first in the texture's name, "sky" first,
    the contents of a liquid by its name; the flags of Quake II, and whether the value of the texinfo is not 0. *)
Record face := mkFace { f_noshadow : bool; f_mask : option Z; f_alpha : option Q; f_brace : bool; f_skyname : bool; f_liquid : bool;
  s_nodraw : bool; s_sky : bool; s_light : bool; s_trans33 : bool; s_trans66 : bool; s_warp : bool; s_alphatest : bool; f_value : bool }.

(** Face_Alpha (trace_embree.cc:73-98) *)
Definition face_alpha (q2 : bool) (m : model) (f : face) : Q :=
  match f_alpha f with
  | Some a => a
  | None => match m_alpha m with
            | Some a => a
            | None => if q2 && s_trans33 f then 33 # 100 else if q2 && s_trans66 f then 66 # 100 else 1
            end
  end.
(** alpha < 1.0f *)
Definition below_one (a : Q) : bool := negb (Qle_bool 1 a).

(** Embree_TraceInit (544-648): in which list a face of a model is put; Assertion is the Q_assert of 643. *)
Inductive place := Nowhere | Sky | Solid | Filter | Assertion.
Definition place_of (q2 argh : bool) (m : model) (f : face) : place :=
  if negb (is_world m || m_shadow m || m_self m || m_only m || m_switch m || negb (m_mask m =? mask_default)) then Nowhere
  else if f_noshadow f then Nowhere
  else if m_switch m then Filter
  else if negb (m_mask m =? mask_default) || negb (match f_mask f with Some k => k | None => mask_default end =? mask_default) then Filter
  else if q2 && s_nodraw f && negb (s_sky f) then Nowhere
  else if below_one (face_alpha q2 m f) || (q2 && (s_alphatest f || s_trans33 f || s_trans66 f)) then Filter
  else if f_brace f then Filter
  else if (if q2 then s_sky f && (negb argh || (s_light f && f_value f)) else f_skyname f) then Sky
  else if (if q2 then s_trans33 f || s_trans66 f || s_warp f else f_liquid f) then (if is_world m then Nowhere else Solid)
  else if is_world m || m_shadow m then Solid
  else if m_self m || m_only m then Filter
  else Assertion.

(** triinfo (161-176): the channels, fence and glass *)
Definition channel (m : model) (f : face) : Z := match f_mask f with Some k => k | None => m_mask m end.
Definition is_fence (q2 : bool) (f : face) : bool := if q2 then s_alphatest f else f_brace f.
Definition is_glass (q2 : bool) (m : model) (f : face) : bool :=
  if q2 then negb (is_fence q2 f) && (s_trans33 f || s_trans66 f) else below_one (face_alpha q2 m f).

(** A ray: the model it comes from (rsi->self, may be null) and the channels; the alpha of the texture where it meets the
    face, and whether the cosine is below 0 there. *)
Record ray := mkRay { r_self : option nat; r_mask : Z; r_sample : Z; r_exits : bool }.
Inductive hit := Through | Tinted (opacity : Q) | Style (s : Z) | Blocked | SkyHit | Stop.
Definition from (r : ray) (k : nat) : bool := match r_self r with Some j => Nat.eqb j k | None => false end.
Definition meets_mask (m : model) (f : face) (r : ray) : bool := negb (Z.land (channel m f) (r_mask r) =? 0).
(** Embree_FilterFuncN (307-424) *)
Definition filter_hit (q2 : bool) (m : model) (f : face) (r : ray) : hit :=
  if negb (meets_mask m f r) then Through
  else if m_only m && negb (from r 0) then Through
  else if m_self m && negb (from r (m_id m)) then Through
  else if m_switch m then Style (m_style m)
  else if is_glass q2 m f then
         if r_exits r then Tinted (if r_sample r <? 255 then r_sample r # 255 else face_alpha q2 m f) else Through
  else if is_fence q2 f && (r_sample r <? 255) then Through
  else Blocked.
(** PerRay_FilterFuncN (429-460) is asked for every kind of face if the channels of the ray are not the default. *)
Definition meets (q2 argh : bool) (m : model) (f : face) (r : ray) : hit :=
  let per_ray := negb (r_mask r =? mask_default) && negb (meets_mask m f r) in
  match place_of q2 argh m f with
  | Nowhere => Through
  | Sky => if per_ray then Through else SkyHit
  | Solid => if per_ray then Through else Blocked
  | Filter => filter_hit q2 m f r
  | Assertion => Stop
  end.

(** FindModelInfo (697-713): the list of a model; Failed is the Q_assert of 705 *)
Inductive kind := Tracelist | Selfshadow | Worldonly | Switchable | Nolist | Failed.
Definition kind_of (m : model) : kind :=
  if is_world m then Tracelist
  else if m_switch m then (if m_style m =? 0 then Failed else Switchable)
  else if m_shadow m then Tracelist
  else if m_self m then Selfshadow
  else if m_only m then Worldonly
  else Nolist.
(** Models without faces (649-655): the sides of their solid leafs are a fourth geometry, of which
    Embree_SceneinfoForGeomID (trace_embree.hh:210-221) does not know, so the filter for each ray ends in FError. *)
Definition skip_meets (m : model) (r : ray) : hit :=
  match kind_of m with Tracelist => if r_mask r =? mask_default then Blocked else Stop | _ => Through end.

(** The key _switchableshadow of an entity as a number: LoadEntities (entities.cc:948-954) assigns the style for 1 only,
    modelinfo_t::switchableshadow is true for any above 0. *)
Definition with_switch (v style : Z) (m : model) : model :=
  mkModel (m_id m) (m_shadow m) (m_self m) (m_only m) (0 <? v) (if v =? 1 then style else m_style m) (m_mask m) (m_alpha m).

(** The check of the lightmap scale (light.cc:668-679): i counts up by 1.  The fuel is the scale. *)
Fixpoint count_up (fuel : nat) (i scale : Z) : Z :=
  match fuel with O => i | S fuel => if i <? scale then count_up fuel (i + 1) scale else i end.
Definition scale_warns (scale : Z) : bool := negb (count_up (Z.to_nat scale) 1 scale =? scale).

(** ModelInfoForFace (light.cc:541-560): the first model with the face in its range; firstface and numfaces of each. *)
Fixpoint model_for (n : nat) (models : list (Z * Z)) (k : Z) : option nat :=
  match models with
  | [] => None
  | (first, num) :: t => if k <? first then model_for (S n) t k else if k <? first + num then Some n else model_for (S n) t k
  end.
