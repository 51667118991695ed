(* Options that follow from other options: qbsp/qbsp.cc:444-452, 680-767; light/light.cc:270-275, 311-345, 433-512,
   514-535, 1173-1209, 1336-1410, 1458-1461; light/entities.cc:899-919.
   Every option is a setting of integers: numbers of the code in thousandths where they are not whole, switches 0 and 1,
   enumerations by their number.  How words become options is the subject of SettingsModel.v. *)
From Coq Require Import List Arith NArith ZArith Bool.
Import ListNotations.
From Verif Require Import SettingsModel LmLumpsModel.
Local Open Scope Z_scope.

(** is_changed (include/common/settings.hh:126) *)
Definition changed {T} (s : setting T) : bool := match s_src s with SDefault => false | _ => true end.
(** if (!x.is_changed()) x.set_value(v, source) *)
Definition unless {T} (s : setting T) (v : T) (src : source) : setting T := if changed s then s else set_val s v src.

(** ** qbsp *)
Inductive qopt := Hexen2 | Hlbsp | Q2bsp | Qbism | Bsp2 | Psb2 | Q2rtx | IncludeSkip | Software | MaxEdges | Subdivide | Chop.
Definition qopt_eqb (a b : qopt) : bool :=
  match a, b with
  | Hexen2, Hexen2 | Hlbsp, Hlbsp | Q2bsp, Q2bsp | Qbism, Qbism | Bsp2, Bsp2 | Psb2, Psb2 | Q2rtx, Q2rtx
  | IncludeSkip, IncludeSkip | Software, Software | MaxEdges, MaxEdges | Subdivide, Subdivide | Chop, Chop => true
  | _, _ => false
  end.
(** The defaults (qbsp.cc:455-560, common/settings.cc:741). *)
Definition q_def (x : qopt) : Z := match x with Software => 1 | MaxEdges => 64 | Subdivide => 240 | _ => 0 end.
Definition qstate := qopt -> setting Z.
Definition q_init : qstate := fun x => mkS (q_def x) SDefault (q_def x).
Definition q_set (s : qstate) (x : qopt) (t : setting Z) : qstate := fun y => if qopt_eqb x y then t else s y.
Definition q_on (s : qstate) (x : qopt) : bool := negb (s_val (s x) =? 0).
(** qbsp.ini and the command line (570-600): both with source COMMANDLINE.  -nosubdivide is Subdivide with 0; the test
    of -maxedges (0 or at least 3) is not modelled. *)
Definition q_given (l : list (qopt * Z)) : qstate := fold_left (fun s p => q_set s (fst p) (set_val (s (fst p)) (snd p) SCmd)) l q_init.

Inductive version := VQ1 | VBsp2 | VPsb2 | VH2 | VH2Bsp2 | VH2Psb2 | VHL | VQ2 | VQbism.
Definition is_q2 (v : version) : bool := match v with VQ2 | VQbism => true | _ => false end.
(** set_target_version (444-452): None is the error; the state is the version chosen so far. *)
Definition set_version (b : bool) (v : version) (st : option (option version)) : option (option version) :=
  if b then match st with Some None => Some (Some v) | _ => None end else st.
(** The format (682-725). *)
Definition target (s : qstate) : option version :=
  let st := set_version (q_on s Hlbsp) VHL (Some None) in
  let st := set_version (q_on s Q2bsp || (q_on s Q2rtx && negb (changed (s Q2bsp)) && negb (changed (s Qbism)))) VQ2 st in
  let st := set_version (q_on s Qbism) VQbism st in
  let st := set_version (q_on s Bsp2) VBsp2 st in
  let st := set_version (q_on s Psb2) VPsb2 st in
  match st with
  | None => None
  | Some o =>
    let v := match o with Some v => v | None => VQ1 end in
    Some (if q_on s Hexen2 then match v with VBsp2 => VH2Bsp2 | VPsb2 => VH2Psb2 | _ => VH2 end else v)
  end.
(** The side effects (736-767). *)
Definition q_effects (v : version) (s : qstate) : qstate :=
  let dflt x z s := q_set s x (unless (s x) z SGame) in
  let s := if q_on s Q2rtx then dflt Software 0 (dflt IncludeSkip 1 s) else s in
  if is_q2 v then
    let s := dflt MaxEdges 0 s in
    let s := match v with VQbism => dflt Software 0 s | _ => s end in
    let s := if negb (q_on s Software) then dflt Subdivide 496 s else s in
    dflt Chop 1 s
  else s.
(** qbsp_settings::initialize and postinitialize: None is the error. *)
Definition qbsp_options (l : list (qopt * Z)) : option (version * qstate) :=
  let s := q_given l in match target s with None => None | Some v => Some (v, q_effects v s) end.

(** ** light *)
Inductive lopt := Range | BounceColor | SurfScale | SurfSky | BounceScale | Bounce | SurfRad | BounceStyled | VisApprox
  | Dirt | MinDirt | SunDirt | Sun2Dirt | Soft | Extra | FaceStyles | StyleMax | NoLighting | Normals | NoVanilla | LitOnly | Rtx | DebugFace.
Definition lopt_eq (a b : lopt) : {a = b} + {a <> b}. Proof. decide equality. Defined.
(** The defaults and the limits (light.cc:167-215, 285-345). *)
Definition l_def (x : lopt) : Z :=
  match x with Range => 500 | SurfScale | SurfSky | BounceScale => 1000 | VisApprox => 1 | Extra => 1 | FaceStyles => 4 | StyleMax => 64 | _ => 0 end.
Definition limit (x : lopt) (v : Z) : Z :=
  match x with
  | Range | BounceScale => clampz v 0 100000 | BounceColor => clampz v 0 1000 | Bounce => clampz v 0 100 | Soft => clampz v (-1) (2 ^ 31 - 1)
  | _ => v
  end.
Inductive dmode := DPhong | DPhongObj | DDirt | DBounce | DBounceLights | DOccluded | DNeighbours | DTangents | DBitangents | DMottle.
(** light_options, write_litfile, write_luxfile and debugmode *)
Record lstate := mkL { l_opt : lopt -> setting Z; l_lit : flags; l_lux : flags; l_debug : option dmode }.
Definition no_file : flags := mkFlags false false false.
Definition l_init : lstate := mkL (fun x => mkS (l_def x) SDefault (l_def x)) no_file no_file None.
Definition l_set (s : lstate) (x : lopt) (v : Z) (src : source) : lstate :=
  mkL (fun y => if lopt_eq x y then set_val (l_opt s x) (limit x v) src else l_opt s y) (l_lit s) (l_lux s) (l_debug s).
Definition or_ext (f : flags) : flags := mkFlags true (fl_bspx f) (fl_lit2 f).
Definition or_bspx (f : flags) : flags := mkFlags (fl_ext f) true (fl_lit2 f).
(** One option of the command line, or one key of worldspawn: settings with a value, and those that call a function
    whatever follows them (setting_func, common/settings.cc:97-101; light.cc:317-345, 345-403).  None is the error of a
    second debug mode (270-275). *)
Inductive word := WOpt (x : lopt) (v : Z) | WLit | WLit2 | WBspxLit | WLux | WBspxLux | WBspx | WBspxOnly | WDebug (m : dmode).
Definition say (src : source) (s : lstate) (w : word) : option lstate :=
  match w with
  | WOpt x v => Some (l_set s x v src)
  | WLit => Some (mkL (l_opt s) (or_ext (l_lit s)) (l_lux s) (l_debug s))
  | WLit2 => Some (mkL (l_opt s) (mkFlags false false true) (l_lux s) (l_debug s))
  | WBspxLit => Some (mkL (l_opt s) (or_bspx (l_lit s)) (l_lux s) (l_debug s))
  | WLux => Some (mkL (l_opt s) (l_lit s) (or_ext (l_lux s)) (l_debug s))
  | WBspxLux => Some (mkL (l_opt s) (l_lit s) (or_bspx (l_lux s)) (l_debug s))
  | WBspx => Some (mkL (l_opt s) (mkFlags false true false) (mkFlags false true false) (l_debug s))
  | WBspxOnly => Some (l_set (mkL (l_opt s) (mkFlags false true false) (mkFlags false true false) (l_debug s)) NoVanilla 1 src)
  | WDebug m => match l_debug s with None => Some (mkL (l_opt s) (l_lit s) (l_lux s) (Some m)) | Some _ => None end
  end.
Fixpoint say_all (src : source) (s : lstate) (l : list word) : option lstate :=
  match l with [] => Some s | w :: l => match say src s w with Some s => say_all src s l | None => None end end.
(** if (!x.is_changed()) x.set_value(v, source) *)
Definition l_unless (x : lopt) (v : Z) (src : source) (s : lstate) : lstate := if changed (l_opt s x) then s else l_set s x v src.
Definition l_val (s : lstate) (x : lopt) : Z := s_val (l_opt s x).
Definition l_on (s : lstate) (x : lopt) : bool := negb (l_val s x =? 0).
(** The defaults of Quake II (1367-1391) and the kind of visibility (1393-1400). *)
Definition l_game (q2 : bool) (s : lstate) : lstate :=
  if q2 then l_unless BounceStyled 1 SGame (l_unless SurfRad 1 SGame (l_unless Bounce 1 SGame (l_unless BounceScale 850 SGame
    (l_unless SurfSky 650 SGame (l_unless SurfScale 650 SGame (l_unless BounceColor 500 SGame (l_unless Range 1000 SGame s)))))))
  else s.
Definition l_vis (hasvis : bool) (s : lstate) : lstate :=
  if l_val s VisApprox =? 1 then l_set s VisApprox (if hasvis then 2 else 3) SDefault else s.
(** FixupGlobalSettings (514-535). *)
Definition l_fixup (s : lstate) : lstate :=
  if l_on s Dirt then l_unless Sun2Dirt 1 SCmd (l_unless SunDirt 1 SCmd (l_unless MinDirt 1 SCmd s)) else s.
(** light_settings::postinitialize (433-496); the warning about -gate and the files of -radlights are not modelled.
    None is the error of -debugneighbours without -debugface. *)
Definition l_post (s : lstate) : option lstate :=
  let s := if l_val s Soft =? (-1) then l_set s Soft (if l_val s Extra =? 2 then 1 else if l_val s Extra =? 4 then 2 else 0) SCmd else s in
  let ext (b : bool) (s : lstate) := if b then mkL (l_opt s) (or_ext (l_lit s)) (l_lux s) (l_debug s) else s in
  let s := ext (match l_debug s with Some _ => true | None => false end) s in
  let s := ext (l_on s LitOnly) s in
  let s' := match l_debug s with
    | Some DDirt => Some (l_set s Dirt 1 SCmd)
    | Some DBounce | Some DBounceLights => Some (l_set s Bounce 1 SCmd)
    | Some DNeighbours => if changed (l_opt s DebugFace) then Some s else None
    | _ => Some s
    end in
  match s' with
  | None => None
  | Some s =>
    let s := if l_on s Rtx then l_unless Normals 1 SGame (l_unless NoLighting 1 SGame s) else s in
    Some (if 4 <? l_val s FaceStyles then l_unless StyleMax 65535 SCmd s else s)
  end.
(** light_main up to the lights (1336-1410): the command line, the game of the file, whether it has visibility, and the
    keys of worldspawn in their order (entities.cc:909-919). *)
Definition light_options (q2 hasvis : bool) (cmd keys : list word) : option lstate :=
  match say_all SCmd l_init cmd with
  | None => None
  | Some s =>
    match say_all SMap (l_vis hasvis (l_game q2 s)) keys with
    | None => None
    | Some s => l_post (l_fixup s)
    end
  end.
(** CheckLitNeeded and SetLitNeeded (1173-1209): [coloured] is whether a light or one of the colours of worldspawn is not
    white. *)
Definition lit_needed (rgb coloured : bool) (s : lstate) : flags :=
  if negb rgb && (coloured || l_on s BounceColor) && negb (any (l_lit s))
  then if l_on s NoVanilla then mkFlags false true false else mkFlags true false false
  else l_lit s.
(** The light data is dropped in the end (1458-1461). *)
Definition no_grey (s : lstate) (lit : flags) : bool := l_on s NoVanilla && fl_bspx lit.
