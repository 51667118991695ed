(* Model of the raw data in the JSON file of bspinfo: common/bspinfo.cc:38-47 and 569-590. *)
From Coq Require Import String List Arith NArith ZArith Bool.
Import ListNotations.
Local Open Scope N_scope.
Local Notation length := List.length.

Definition digit (d : N) : N := if d <? 10 then 48 + d else 97 + (d - 10).
(** fmt "{:x}" of a byte: no leading zero *)
Definition hex1 (b : N) : list N := if b <? 16 then [digit b] else [digit (b / 16); digit (b mod 16)].
(** hex_string (38-47) *)
Definition hex_string (bytes : list N) : list N := flat_map hex1 bytes.

(** A value of the nlohmann library, as far as it occurs here; objects as lists of pairs. *)
Inductive json := JText (t : list N) | JNum (z : Z) | JArr (l : list json) | JObj (l : list (string * json)) | JNull.
Fixpoint field (k : string) (l : list (string * json)) : option json :=
  match l with [] => None | (n, v) :: t => if String.eqb n k then Some v else field k t end.
(** json::emplace: does nothing if there is such a key. *)
Definition emplace (k : string) (v : json) (l : list (string * json)) : list (string * json) :=
  match field k l with Some _ => l | None => l ++ [(k, v)] end.
(** push_back through a reference to the array at a key *)
Fixpoint push (k : string) (v : json) (l : list (string * json)) : list (string * json) :=
  match l with
  | [] => []
  | (n, x) :: t => if String.eqb n k then (n, match x with JArr a => JArr (a ++ [v]) | _ => x end) :: t else (n, x) :: push k v t
  end.
(** 569-586: both references, pvs and phs, are to the key "pvs" *)
Definition visdata (offsets : list (Z * Z)) (bits : list N) : option json :=
  match bits with
  | [] => None
  | _ => match offsets with
         | [] => Some (JText (hex_string bits))
         | _ =>
           let o := emplace "pvs" (JArr []) (emplace "pvs" (JArr []) []) in
           let o := fold_left (fun o p => push "pvs" (JNum (snd p)) (push "pvs" (JNum (fst p)) o)) offsets o in
           Some (JObj (o ++ [("bits"%string, JText (hex_string bits))]))
         end
  end.
(** 588-590 *)
Definition lightdata (data : list N) : option json := match data with [] => None | _ => Some (JText (hex_string data)) end.
