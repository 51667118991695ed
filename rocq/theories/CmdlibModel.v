(* Helpers of common/cmdlib.cc and the progress lock of common/log.cc. *)
From Coq Require Import List Arith NArith ZArith Bool.
Import ListNotations.
From Verif Require Import ParserModel.
Local Open Scope N_scope.

(** ** CRC (cmdlib.cc:331-382) *)

(** crctable (344-362). *)
Definition crctable : list N :=
  [0; 4129; 8258; 12387; 16516; 20645; 24774; 28903; 33032; 37161; 41290; 45419; 49548; 53677; 57806; 61935;
   4657; 528; 12915; 8786; 21173; 17044; 29431; 25302; 37689; 33560; 45947; 41818; 54205; 50076; 62463; 58334;
   9314; 13379; 1056; 5121; 25830; 29895; 17572; 21637; 42346; 46411; 34088; 38153; 58862; 62927; 50604; 54669;
   13907; 9842; 5649; 1584; 30423; 26358; 22165; 18100; 46939; 42874; 38681; 34616; 63455; 59390; 55197; 51132;
   18628; 22757; 26758; 30887; 2112; 6241; 10242; 14371; 51660; 55789; 59790; 63919; 35144; 39273; 43274; 47403;
   23285; 19156; 31415; 27286; 6769; 2640; 14899; 10770; 56317; 52188; 64447; 60318; 39801; 35672; 47931; 43802;
   27814; 31879; 19684; 23749; 11298; 15363; 3168; 7233; 60846; 64911; 52716; 56781; 44330; 48395; 36200; 40265;
   32407; 28342; 24277; 20212; 15891; 11826; 7761; 3696; 65439; 61374; 57309; 53244; 48923; 44858; 40793; 36728;
   37256; 33193; 45514; 41451; 53516; 49453; 61774; 57711; 4224; 161; 12482; 8419; 20484; 16421; 28742; 24679;
   33721; 37784; 41979; 46042; 49981; 54044; 58239; 62302; 689; 4752; 8947; 13010; 16949; 21012; 25207; 29270;
   46570; 42443; 38312; 34185; 62830; 58703; 54572; 50445; 13538; 9411; 5280; 1153; 29798; 25671; 21540; 17413;
   42971; 47098; 34713; 38840; 59231; 63358; 50973; 55100; 9939; 14066; 1681; 5808; 26199; 30326; 17941; 22068;
   55628; 51565; 63758; 59695; 39368; 35305; 47498; 43435; 22596; 18533; 30726; 26663; 6336; 2273; 14466; 10403;
   52093; 56156; 60223; 64286; 35833; 39896; 43963; 48026; 19061; 23124; 27191; 31254; 2801; 6864; 10931; 14994;
   64814; 60687; 56684; 52557; 48554; 44427; 40424; 36297; 31782; 27655; 23652; 19525; 15522; 11395; 7392; 3265;
   61215; 65342; 53085; 57212; 44955; 49082; 36825; 40952; 28183; 32310; 20053; 24180; 11923; 16050; 3793; 7920].
Definition CRC_INIT_VALUE : N := 65535.
(** CRC_ProcessByte (369-372); the result is stored in a uint16_t. *)
Definition crc_byte (crc data : N) : N :=
  N.lxor (N.shiftl crc 8) (nth (N.to_nat (N.lxor (N.shiftr crc 8) data)) crctable 0) mod 65536.
(** CRC_Block (374-381). *)
Definition crc_block (l : list N) : N := fold_left crc_byte l CRC_INIT_VALUE.

(** ** Natural comparison (cmdlib.cc:417-425, 543-644) *)

(** Strings are lists of char values without the terminating NUL.  A char is signed. *)
Definition schar (c : N) : Z := if c <? 128 then Z.of_N c else (Z.of_N c - 256)%Z.
Definition t_digit (c : N) : bool := (48 <=? c) && (c <=? 57).
(** std::tolower in the C locale. *)
Definition lower (c : N) : N := if (65 <=? c) && (c <=? 90) then c + 32 else c.
(** The value by which two characters are compared. *)
Definition key_char (case_sensitive : bool) (c : N) : Z := schar (if case_sensitive then c else lower c).

(** Leading zeros and how many. *)
Fixpoint zeros (s : bytes) : nat * bytes :=
  match s with
  | c :: t => if c =? 48 then let (n, r) := zeros t in (S n, r) else (0%nat, s)
  | [] => (0%nat, [])
  end.
(** The digits at the start and the rest. *)
Fixpoint digits (s : bytes) : bytes * bytes :=
  match s with
  | c :: t => if t_digit c then let (d, r) := digits t in (c :: d, r) else ([], s)
  | [] => ([], [])
  end.
(** Skipping zeros, stepping back to the last one when no other digit follows (570-598). *)
Definition skip_zeros (s : bytes) : nat * bytes :=
  let (n, r) := zeros s in
  match r with
  | c :: _ => if t_digit c then (n, r) else (n, 48 :: r)
  | [] => (n, [48])
  end.
(** Comparison of digit runs: shorter first, then by the first difference (614-631). *)
Fixpoint cmp_digits (a b : bytes) : comparison :=
  match a, b with
  | x :: a, y :: b => match N.compare x y with Eq => cmp_digits a b | c => c end
  | [], [] => Eq
  | [], _ => Lt
  | _, [] => Gt
  end.
Definition cmp_run (a b : bytes) : comparison :=
  match Nat.compare (length a) (length b) with Eq => cmp_digits a b | c => c end.

(** natstrlt (543-644).  The scan and numeric states are one step here: after the numeric branch of
    st_scan both pointers are at a digit, so the loop condition holds and st_numeric follows; st_alpha
    differs from st_scan only in handing digits back to it.  [z1], [z2] are sz1 and sz2. *)
Fixpoint natlt_go (fuel : nat) (cs : bool) (s1 s2 : bytes) (z1 z2 : nat) : bool :=
  match fuel with
  | O => false
  | S fuel =>
    match s1, s2 with
    | c1 :: t1, c2 :: t2 =>
      if negb (t_digit c1) && negb (t_digit c2) then
        if (key_char cs c1 =? key_char cs c2)%Z then natlt_go fuel cs t1 t2 z1 z2
        else (key_char cs c1 <? key_char cs c2)%Z
      else if t_digit c1 && negb (t_digit c2) then true
      else if negb (t_digit c1) && t_digit c2 then false
      else
        let (n1, p1) := skip_zeros s1 in
        let (n2, p2) := skip_zeros s2 in
        let z1 := match z1 with O => n1 | _ => z1 end in
        let z2 := match z2 with O => n2 | _ => z2 end in
        let (z1, z2) := if Nat.eqb z1 z2 then (0%nat, 0%nat) else (z1, z2) in
        let (d1, r1) := digits p1 in
        let (d2, r2) := digits p2 in
        match cmp_run d1 d2 with
        | Eq => natlt_go fuel cs r1 r2 z1 z2
        | Lt => true
        | Gt => false
        end
    | _, _ =>
      if Nat.ltb z1 z2 then true
      else if Nat.ltb z2 z1 then false
      else match s1, s2 with [], _ :: _ => true | _, _ => false end
    end
  end.
(** The C string of a std::string: up to the first NUL. *)
Fixpoint cstr (s : bytes) : bytes := match s with c :: t => if c =? 0 then [] else c :: cstr t | [] => [] end.
(** stlnatstrlt (646-649); natural_less is [cs = true], natural_case_insensitive_less [cs = false]. *)
Definition natstrlt (cs : bool) (a b : bytes) : bool :=
  natlt_go (S (length (cstr a))) cs (cstr a) (cstr b) 0 0.

(** ** Case-insensitive hash and equality (cmdlib.cc:62-72, 88-121) *)

(** tolower of a signed char converted to std::size_t (64 bits). *)
Definition hash_char (c : N) : N := if c <? 128 then lower c else 2 ^ 64 - 256 + c.
Definition ci_hash (s : bytes) : N :=
  fold_left (fun h c => (N.lxor h (hash_char c) * 16777619) mod 2 ^ 64) s 2166136261.
(** strcasecmp on c_str(): bytes compared as unsigned after tolower, up to the NUL. *)
Fixpoint casecmp (a b : bytes) : comparison :=
  match a, b with
  | x :: a, y :: b => match N.compare (lower x) (lower y) with Eq => casecmp a b | c => c end
  | [], [] => Eq
  | [], _ => Lt
  | _, [] => Gt
  end.
Definition ci_equal (a b : bytes) : bool := match casecmp (cstr a) (cstr b) with Eq => true | _ => false end.
Definition ci_less (a b : bytes) : bool := match casecmp (cstr a) (cstr b) with Lt => true | _ => false end.
(** string_iequals (88-98). *)
Fixpoint iequals (a b : bytes) : bool :=
  match a, b with
  | x :: a, y :: b => (lower x =? lower y) && iequals a b
  | [], [] => true
  | _, _ => false
  end.

(** ** The progress lock (common/log.cc:189-263) *)

(** Where a thread is: outside percent, before a compare-exchange with its local [expected] in a
    finishing call (count == max) or another, or past it and before the store that unlocks. *)
Inductive pc := PIdle | PTry (expected finishing : bool) | PIn (finishing : bool).
Record plock := mkP { p_locked : bool; p_threads : list pc }.
Definition upd (l : list pc) (i : nat) (x : pc) : list pc :=
  firstn i l ++ match skipn i l with _ :: t => x :: t | [] => [] end.

(** One step of one thread.  [start] says when a call may begin.  compare_exchange_weak may fail
    spuriously; a failure stores the value seen in [expected] (197-204).  Memory is sequentially
    consistent (the default order of std::atomic). *)
Inductive pstep (start : plock -> bool -> Prop) : plock -> plock -> Prop :=
| StBegin : forall st i f, nth_error (p_threads st) i = Some PIdle -> start st f ->
    pstep start st (mkP (p_locked st) (upd (p_threads st) i (PTry false f)))
| StAcquire : forall st i e f, nth_error (p_threads st) i = Some (PTry e f) -> p_locked st = e ->
    pstep start st (mkP true (upd (p_threads st) i (PIn f)))
| StFailWait : forall st i e, nth_error (p_threads st) i = Some (PTry e true) ->
    pstep start st (mkP (p_locked st) (upd (p_threads st) i (PTry (p_locked st) true)))
| StFailReturn : forall st i e, nth_error (p_threads st) i = Some (PTry e false) ->
    pstep start st (mkP (p_locked st) (upd (p_threads st) i PIdle))
| StUnlock : forall st i f, nth_error (p_threads st) i = Some (PIn f) ->
    pstep start st (mkP false (upd (p_threads st) i PIdle)).

(** parallel_for and parallel_for_each (include/common/parallel.hh:31-72) over [length] items on a
    number of threads: each item calls percent(progress++, length), in any order and on any thread;
    when all calls have returned, percent(progress, length) is called once.  [pf_done]: that call
    was begun. *)
Record pfor := mkPF { pf_progress : nat; pf_done : bool; pf_lock : plock }.
Inductive pfstep (len : nat) : pfor -> pfor -> Prop :=
| PfItem : forall p st i, (p < len)%nat -> nth_error (p_threads st) i = Some PIdle ->
    pfstep len (mkPF p false st)
      (mkPF (S p) false (mkP (p_locked st) (upd (p_threads st) i (PTry false (Nat.eqb p len)))))
| PfFinish : forall st i, Forall (eq PIdle) (p_threads st) -> (i < length (p_threads st))%nat ->
    pfstep len (mkPF len false st) (mkPF len true (mkP (p_locked st) (upd (p_threads st) i (PTry false true))))
| PfRun : forall p d st l', pstep (fun _ _ => False) st l' -> pfstep len (mkPF p d st) (mkPF p d l').

Inductive star {A} (R : A -> A -> Prop) : A -> A -> Prop :=
| star_refl : forall x, star R x x
| star_step : forall x y z, star R x y -> R y z -> star R x z.
