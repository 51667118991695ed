(* Which faces may break each other's edges: qbsp/tjunc.cc:140-190. *)
From Coq Require Import List NArith Bool.
From Verif Require Import ContentsModel.
Local Open Scope N_scope.

(** Welds (146-177); tw: the option -transwater *)
Definition welds (g : game) (tw : bool) (a b : N) : bool :=
  if types_equal g a b then true
  else if is_detail_wall g a || is_detail_wall g b then false
  else if negb (is_opaque g a tw) && is_opaque g b tw then false
  else if negb (is_opaque g b tw) && is_opaque g a tw then false
  else if is_empty g a || is_empty g b then false
  else true.
(** HasTJuncInteraction (179-186): of a face, its contents in front and behind *)
Definition interact (g : game) (tw : bool) (f1 f2 : N * N) : bool := welds g tw (snd f1) (snd f2).
