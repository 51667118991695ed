(* Model of the propagation of finished portals: vis/vis.cc:269-282 (UpdateMightsee) and
   :294-347 (PortalCompleted). Both run under portal_mutex, so atomically. *)
From Coq Require Import List Arith NArith ZArith Bool.
Import ListNotations.
From Verif Require Import Base LeafBitsModel.

(** include/vis/vis.hh:134-143, the fields used here. *)
Record mportal := { mp_status : N; mp_vis : leafbits; mp_might : leafbits; mp_num : Z }.

(** vis/vis.cc:272-281, the loop body for portal [q]. [None] = an access out of range. *)
Definition update_one (dest : nat) (ps : list mportal) (q : nat) : option (list mportal) :=
  match nth_error ps q with
  | None => None
  | Some p =>
    if negb (mp_status p =? 0)%N then Some ps
    else match lb_get (mp_might p) dest with
         | None => None
         | Some false => Some ps
         | Some true =>
           match lb_set (mp_might p) dest false with
           | None => None
           | Some b => upd ps q {| mp_status := mp_status p; mp_vis := mp_vis p; mp_might := b;
                                   mp_num := (mp_num p - 1)%Z |}
           end
         end
  end.

Fixpoint update_all (dest : nat) (ps : list mportal) (qs : list nat) : option (list mportal) :=
  match qs with
  | [] => Some ps
  | q :: t => match update_one dest ps q with None => None | Some ps' => update_all dest ps' t end
  end.

(** vis/vis.cc:269-282, UpdateMightsee; [leafs] lists the portals of each leaf. *)
Definition update_mightsee (leafs : list (list nat)) (ps : list mportal) (source dest : nat) : option (list mportal) :=
  match nth_error leafs source with None => None | Some qs => update_all dest ps qs end.

(** vis/vis.cc:322-332: block [j] of [changed] after masking with the other portals of the
    leaf ([k] counts them). The early break on zero changes nothing. *)
Fixpoint mask_others (ps : list mportal) (mine : list nat) (i k j : nat) (changed : N) : option N :=
  match mine with
  | [] => Some changed
  | q :: t =>
    if Nat.eqb k i then mask_others ps t i (S k) j changed
    else match nth_error ps q with
         | None => None
         | Some p2 =>
           match nth_error (lb_bits (if (mp_status p2 =? 2)%N then mp_vis p2 else mp_might p2)) j with
           | None => None
           | Some w => mask_others ps t i (S k) j (N.ldiff changed w)
           end
         end
  end.

(** vis/vis.cc:337-342: UpdateMightsee for the set bits, lowest first. *)
Fixpoint update_bits (leafs : list (list nat)) (ps : list mportal) (my j : nat) (changed : N) (bits : list nat)
  : option (list mportal) :=
  match bits with
  | [] => Some ps
  | b :: t =>
    if N.testbit changed (N.of_nat b)
    then match update_mightsee leafs ps (32 * j + b) my with
         | None => None
         | Some ps' => update_bits leafs ps' my j changed t
         end
    else update_bits leafs ps my j changed t
  end.

(** vis/vis.cc:313-343: the body of the block loop for portal [q], number [i] of the leaf's
    portals. *)
Definition do_block (leafs : list (list nat)) (mine : list nat) (my i q : nat) (ps : list mportal) (j : nat)
  : option (list mportal) :=
  match nth_error ps q with
  | None => None
  | Some p =>
    match nth_error (lb_bits (mp_might p)) j, nth_error (lb_bits (mp_vis p)) j with
    | Some m, Some v =>
      match mask_others ps mine i 0 j (N.ldiff m v) with
      | None => None
      | Some changed => update_bits leafs ps my j changed (seq 0 32)
      end
    | _, _ => None
    end
  end.
Definition block_loop (leafs : list (list nat)) (mine : list nat) (my i q : nat) (ps : list mportal) (js : list nat)
  : option (list mportal) :=
  fold_left (fun acc j => match acc with None => None | Some ps' => do_block leafs mine my i q ps' j end) js (Some ps).

(** vis/vis.cc:306-344: the body of the loop over the portals of the leaf. [n] is portalleafs. *)
Definition portal_body (n : nat) (leafs : list (list nat)) (mine : list nat) (my i q : nat) (ps : list mportal)
  : option (list mportal) :=
  match nth_error ps q with
  | None => None
  | Some p => if negb (mp_status p =? 2)%N then Some ps
              else block_loop leafs mine my i q ps (seq 0 (block_size n))
  end.
(** vis/vis.cc:305: the loop itself; [todo] pairs each position with its portal. *)
Definition portal_loop (n : nat) (leafs : list (list nat)) (mine : list nat) (my : nat) (ps : list mportal)
  (todo : list (nat * nat)) : option (list mportal) :=
  fold_left (fun acc iq => match acc with None => None | Some ps' => portal_body n leafs mine my (fst iq) (snd iq) ps' end)
    todo (Some ps).

(** vis/vis.cc:294-347, PortalCompleted of portal [q], which leads into leaf [my]. *)
Definition set_done (p : mportal) : mportal :=
  {| mp_status := 2; mp_vis := mp_vis p; mp_might := mp_might p; mp_num := mp_num p |}.
Definition portal_completed (n : nat) (leafs : list (list nat)) (ps : list mportal) (q my : nat) : option (list mportal) :=
  match nth_error ps q with
  | None => None
  | Some p =>
    match upd ps q (set_done p), nth_error leafs my with
    | Some ps1, Some mine => portal_loop n leafs mine my ps1 (combine (seq 0 (length mine)) mine)
    | _, _ => None
    end
  end.
