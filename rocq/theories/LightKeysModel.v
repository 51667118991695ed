(* Keys that light rewrites in entities: light/entities.cc:923-932 (lightmap_scale), 972-987 (keys of Arghrad
   with -arghradcompat). *)
From Coq Require Import List Arith NArith Bool.
Import ListNotations.
From Verif Require Import Base NumCastModel ParserModel EntModel.
Local Open Scope N_scope.

Definition k_scale : bytes := [108; 105; 103; 104; 116; 109; 97; 112; 95; 115; 99; 97; 108; 101].
Definition k_scale_ : bytes := 95 :: k_scale.
Definition k_falloff : bytes := [95; 102; 97; 108; 108; 111; 102; 102].
Definition k_delay : bytes := [100; 101; 108; 97; 121].
Definition k_distance : bytes := [95; 100; 105; 115; 116; 97; 110; 99; 101].
Definition k_fade : bytes := [95; 102; 97; 100; 101].
Definition k_wait : bytes := [119; 97; 105; 116].
Definition k_angfade : bytes := [95; 97; 110; 103; 102; 97; 100; 101].
Definition k_angwait : bytes := [95; 97; 110; 103; 119; 97; 105; 116].
Definition k_anglescale : bytes := [95; 97; 110; 103; 108; 101; 115; 99; 97; 108; 101].

(** entities.cc:923-932.  lmscale is a reference to the value in the vector of pairs; erasing the pair
    moves the pairs behind it to the front, and the reference now denotes the value of the pair that
    followed; if there is none, the string it denotes is destroyed. *)
Definition fix_scale (d : entdict) : res entdict :=
  match ed_get k_scale d with
  | [] => ROk d
  | _ => match ed_find k_scale d with
         | None => ROk d
         | Some i => match nth_error (ed_remove k_scale d) i with
                     | Some p => ROk (ed_set k_scale_ (snd p) (ed_remove k_scale d))
                     | None => RUB
                     end
         end
  end.

(** entities.cc:972-987; conv: the text of min (1, max (0, number / 2)). *)
Definition arghrad (conv : bytes -> bytes) (d : entdict) : entdict :=
  let d := ed_rename k_falloff k_delay d in
  let d := ed_rename k_distance k_falloff d in
  let d := ed_rename k_fade k_wait d in
  let d := ed_rename k_angfade k_anglescale d in
  let d := ed_rename k_angwait k_anglescale d in
  if ed_has k_anglescale d then ed_set k_anglescale (conv (ed_get k_anglescale d)) d else d.

(** setting_container::set_settings (common/settings.cc:530-535) goes over all pairs; the value of the last
    pair with a key stays. *)
Fixpoint last_value (k : bytes) (d : entdict) : option bytes :=
  match d with
  | [] => None
  | p :: d => match last_value k d with Some v => Some v | None => if beq k (fst p) then Some (snd p) else None end
  end.
