(* Model of vis/state.cc: the saved state of an interrupted vis run. *)
From Coq Require Import List Arith NArith ZArith Bool.
Import ListNotations.
From Verif Require Import Base Codec LeafBitsModel.

(** vis/state.cc:63, [numbytes = (portalleafs + 7) >> 3]. *)
Definition numbytes (n : nat) : nat := (n + 7) / 8.

(** vis/state.cc:65-66, [(in.data()[i >> 2] >> ((i << 3) & 31)) & 0xff]; [None] = out of bounds. *)
Definition byte_at (b : leafbits) (i : nat) : option N :=
  match nth_error (lb_bits b) (i / 4) with
  | None => None
  | Some w => Some (N.land (N.shiftr w (N.of_nat ((8 * i) mod 32))) 255)
  end.

(** vis/state.cc:105-106, [dst.data()[i >> 2] |= (uint32_t)val << ((i << 3) & 31)]. *)
Definition or_byte (b : leafbits) (i : nat) (v : N) : option leafbits :=
  match nth_error (lb_bits b) (i / 4) with
  | None => None
  | Some w =>
    match upd (lb_bits b) (i / 4) (N.lor w (N.shiftl v (N.of_nat ((8 * i) mod 32)))) with
    | None => None
    | Some l => Some {| lb_size := lb_size b; lb_bits := l |}
    end
  end.

(** The bytes CompressBits reads, in order (i = 0 .. numbytes-1). *)
Fixpoint bytes_from (b : leafbits) (i k : nat) : option (list N) :=
  match k with
  | O => Some []
  | S k' => match byte_at b i, bytes_from b (S i) k' with
            | Some v, Some t => Some (v :: t)
            | _, _ => None
            end
  end.
Definition leaf_bytes (n : nat) (b : leafbits) : option (list N) := bytes_from b 0 (numbytes n).

(** vis/state.cc:73-80: count repeats of [val], at most 255. *)
Fixpoint same_run (val rep : N) (l : list N) : N * list N :=
  match l with
  | [] => (rep, [])
  | b :: t => if negb (b =? val)%N || (rep =? 255)%N then (rep, l) else same_run val (rep + 1)%N t
  end.

(** vis/state.cc:64-83: the encoding loop. [nb] is numbytes, [out] what has been written
    to the buffer. [None] = the model's fuel ran out (excluded by theorem). *)
Fixpoint encode_f (fuel : nat) (nb : nat) (l : list N) (out : list N) : option (list N) :=
  match l with
  | [] => Some out
  | val :: t =>
    if Nat.ltb (length out) nb then
      match fuel with
      | O => None
      | S f =>
        let out1 := out ++ [val] in
        if negb (val =? 0)%N && negb (val =? 255)%N then encode_f f nb t out1
        else if Nat.leb nb (length out1) then Some out1
        else let '(rep, rest) := same_run val 1 t in encode_f f nb rest (out1 ++ [rep])
      end
    else Some out
  end.

(** vis/state.cc:57-95, CompressBits on the byte view: the encoding if it is shorter
    than [nb], else the bytes themselves. The result is the buffer's used prefix. *)
Definition compress_bits (bytes : list N) : option (list N) :=
  let nb := length bytes in
  match encode_f nb nb bytes [] with
  | None => None
  | Some out => if Nat.ltb (length out) nb then Some out else Some bytes
  end.

Inductive dec_res :=
| Dec_ok (b : leafbits)
| Dec_error          (* FError("overflow") *)
| Dec_UB             (* access outside a buffer *)
| Dec_fuel.

(** vis/state.cc:115-119, [while (--rep) { i++; dst |= val; }] with an int32 [rep]. *)
Fixpoint rep_loop (fuel : nat) (rep : Z) (i : nat) (b : leafbits) (val : N) : (nat * leafbits) + dec_res :=
  if (rep - 1 =? 0)%Z then inl (i, b)
  else match fuel with
       | O => inr Dec_fuel
       | S f => match or_byte b (S i) val with
                | None => inr Dec_UB
                | Some b' => rep_loop f (rep - 1)%Z (S i) b' val
                end
       end.

(** vis/state.cc:103-120, the loop of DecompressBits. [src] is the buffer, [k] the read
    position, [i] the output byte index. *)
Fixpoint dec_loop (fuel : nat) (nb : nat) (src : list N) (k i : nat) (b : leafbits) : dec_res :=
  if Nat.ltb i nb then
    match fuel with
    | O => Dec_fuel
    | S f =>
      match nth_error src k with
      | None => Dec_UB
      | Some val =>
        match or_byte b i val with
        | None => Dec_UB
        | Some b1 =>
          if negb (val =? 0)%N && negb (val =? 255)%N then dec_loop f nb src (S k) (S i) b1
          else match nth_error src (S k) with
          | None => Dec_UB
          | Some rep =>
            if (Z.of_nat nb <? Z.of_nat i + Z.of_N rep)%Z then Dec_error
            else match rep_loop (S (4 * length (lb_bits b1))) (Z.of_N rep) i b1 val with
                 | inr r => r
                 | inl (i', b2) => dec_loop f nb src (S (S k)) (S i') b2
                 end
          end
        end
      end
    end
  else Dec_ok b.

(** vis/state.cc:97-121, DecompressBits. *)
Definition decompress_bits (n : nat) (src : list N) : dec_res :=
  dec_loop (S (numbytes n)) (numbytes n) src 0 0 (lb_make n).

(** vis/state.cc:123-132, CopyLeafBits. *)
Fixpoint copy_loop (k : nat) (src : list N) (i : nat) (b : leafbits) : dec_res :=
  match k with
  | O => Dec_ok b
  | S k' => match nth_error src i with
            | None => Dec_UB
            | Some v => match or_byte b i v with
                        | None => Dec_UB
                        | Some b' => copy_loop k' src (S i) b'
                        end
            end
  end.
Definition copy_leaf_bits (n : nat) (src : list N) : dec_res := copy_loop (numbytes n) src 0 (lb_make n).

(** vis/state.cc:259-263 and :269-273: the stored length chooses the decoder. *)
Definition decode_bits (n : nat) (len : nat) (src : list N) : dec_res :=
  if Nat.ltb len (numbytes n) then decompress_bits n src else copy_leaf_bits n src.

(** include/vis/vis.hh:35-40 and :134-143: the saved part of a portal. status: 0 none,
    1 working, 2 done. The int counters are non-negative and stored as uint32. *)
Record vportal := { vp_status : N; vp_might : leafbits; vp_vis : leafbits; vp_nummight : N; vp_numcan : N }.

(** vis/state.cc:33, 'T' << 24 | 'Y' << 16 | 'R' << 8 | '1'. *)
Definition VIS_STATE_VERSION : N := 1415139889.

(** vis/state.cc:156-175: one portal record. [n] is portalleafs. *)
Definition save_portal (n : nat) (p : vportal) : option (list N) :=
  match leaf_bytes n (vp_might p) with
  | None => None
  | Some mb =>
    match compress_bits mb,
          (if (vp_status p =? 2)%N
           then match leaf_bytes n (vp_vis p) with None => None | Some vb => compress_bits vb end
           else Some []) with
    | Some m, Some v =>
      Some (put_le 4 (vp_status p) ++ put_le 4 (N.of_nat (length m)) ++ put_le 4 (N.of_nat (length v)) ++
            put_le 4 (vp_nummight p) ++ put_le 4 (vp_numcan p) ++ m ++ v)
    | _, _ => None
    end
  end.

Fixpoint save_portals (n : nat) (ps : list vportal) : option (list N) :=
  match ps with
  | [] => Some []
  | p :: t => match save_portal n p, save_portals n t with
              | Some a, Some b => Some (a ++ b)
              | _, _ => None
              end
  end.

(** vis/state.cc:143-175: the bytes SaveVisState writes. [None] = out-of-bounds access. *)
Definition save_state (n : nat) (numportals testlevel time : N) (ps : list vportal) : option (list N) :=
  match save_portals n ps with
  | None => None
  | Some body =>
    Some (put_le 4 VIS_STATE_VERSION ++ put_le 4 numportals ++ put_le 4 (N.of_nat n) ++
          put_le 4 testlevel ++ put_le 4 time ++ body)
  end.

Inductive load_res (A : Type) :=
| L_ok (a : A)
| L_error            (* FError *)
| L_short            (* the stream failed: values unspecified, not checked by the code *)
| L_UB.
Arguments L_ok {A}. Arguments L_error {A}. Arguments L_short {A}. Arguments L_UB {A}.

(** vis/state.cc:256-263 / :268-273: read [len] bytes over the start of the shared buffer
    [buf] (of numbytes bytes), then decode. *)
Definition load_bits (n : nat) (len : N) (buf inp : list N) : load_res (leafbits * list N * list N) :=
  if (N.of_nat (length buf) <? len)%N then L_UB
  else match get_raw (N.to_nat len) inp with
       | None => L_short
       | Some (raw, rest) =>
         let buf' := raw ++ skipn (length raw) buf in
         match decode_bits n (N.to_nat len) buf' with
         | Dec_ok b => L_ok (b, buf', rest)
         | Dec_error => L_error
         | Dec_UB | Dec_fuel => L_UB
         end
       end.

Definition get_header5 : reader (N * (N * (N * (N * N)))) :=
  get_pair (get_le 4) (get_pair (get_le 4) (get_pair (get_le 4) (get_pair (get_le 4) (get_le 4)))).

(** vis/state.cc:249-280: one portal. *)
Definition load_portal (n : nat) (buf inp : list N) : load_res (vportal * list N * list N) :=
  match get_header5 inp with
  | None => L_short
  | Some ((st, (mlen, (vlen, (nm, nc)))), inp1) =>
    match load_bits n mlen buf inp1 with
    | L_error => L_error | L_short => L_short | L_UB => L_UB
    | L_ok (might, buf1, inp2) =>
      match (if (vlen =? 0)%N then L_ok (lb_make n, buf1, inp2) else load_bits n vlen buf1 inp2) with
      | L_error => L_error | L_short => L_short | L_UB => L_UB
      | L_ok (vis, buf2, inp3) =>
        L_ok ({| vp_status := if (st =? 1)%N then 0%N else st; vp_might := might; vp_vis := vis;
                 vp_nummight := nm; vp_numcan := nc |}, buf2, inp3)
      end
    end
  end.

Fixpoint load_portals (n k : nat) (buf inp : list N) : load_res (list vportal) :=
  match k with
  | O => L_ok []
  | S k' => match load_portal n buf inp with
            | L_error => L_error | L_short => L_short | L_UB => L_UB
            | L_ok (p, buf', inp') =>
              match load_portals n k' buf' inp' with
              | L_ok t => L_ok (p :: t)
              | L_error => L_error | L_short => L_short | L_UB => L_UB
              end
            end
  end.

(** vis/state.cc:229-282: reading an opened state file; [k] is the number of portals in
    memory. Result: elapsed time and portals. *)
Definition load_state (n : nat) (numportals : N) (k : nat) (inp : list N) : load_res (N * list vportal) :=
  match get_header5 inp with
  | None => L_short
  | Some ((ver, (np, (nl, (_, time)))), inp1) =>
    if negb (ver =? VIS_STATE_VERSION)%N then L_error
    else if negb (np =? numportals)%N || negb (nl =? N.of_nat n)%N then L_error
    else match load_portals n k (repeat 0%N (numbytes n)) inp1 with
         | L_ok ps => L_ok (time, ps)
         | L_error => L_error | L_short => L_short | L_UB => L_UB
         end
  end.

(** ** The files on disk *)
(** The two files of a state: [statefile] (.vis) and [statetmpfile] (.vi0). *)
Record vfs := { fs_state : option (list N); fs_tmp : option (list N) }.

(** vis/state.cc:140-188: file operations of a save of the bytes [img]. Writing is
    modelled byte by byte, so that a crash can leave any prefix. *)
Inductive vstep := W_open_tmp | W_byte (b : N) | W_remove_state | W_rename.

Definition save_steps (img : list N) : list vstep :=
  W_open_tmp :: map W_byte img ++ [W_remove_state; W_rename].

Definition do_step (f : vfs) (s : vstep) : vfs :=
  match s with
  | W_open_tmp => {| fs_state := fs_state f; fs_tmp := Some [] |}
  | W_byte b => {| fs_state := fs_state f; fs_tmp := option_map (fun l => l ++ [b]) (fs_tmp f) |}
  | W_remove_state => {| fs_state := None; fs_tmp := fs_tmp f |}
  | W_rename => match fs_tmp f with
                | None => f
                | Some t => {| fs_state := Some t; fs_tmp := None |}
                end
  end.

(** State of the disk when the machine stops after [k] operations of a save. *)
Definition crash_after (k : nat) (img : list N) (f : vfs) : vfs :=
  fold_left do_step (firstn k (save_steps img)) f.

(** vis/state.cc:204-220: what LoadVisState opens. With -nostate it returns at once and
    touches nothing; otherwise a lone temporary file is renamed first. *)
Definition recover (nostate : bool) (f : vfs) : vfs * option (list N) :=
  if nostate then (f, None)
  else match fs_state f with
       | Some s => (f, Some s)
       | None => match fs_tmp f with
                 | None => (f, None)
                 | Some t => ({| fs_state := Some t; fs_tmp := None |}, Some t)
                 end
       end.

(** One run of vis as the state files see it. vis/vis.cc:537-544 (LoadVisState first),
    :357-366 and :521 (saves while working), :793-795 (CleanVisState, vis/state.cc:190-195).
    The time stamp comparison of vis/state.cc:223-227 is not modelled: the portal file is
    taken to be older than the state files. *)
Inductive run_end :=
| E_stop                              (* killed between two saves *)
| E_crash (k : nat) (img : list N)    (* killed after k operations of a save of img *)
| E_clean.                            (* finished, state file removed *)
Record vrun := { r_nostate : bool; r_saves : list (list N); r_end : run_end }.

Definition save_all (imgs : list (list N)) (f : vfs) : vfs :=
  fold_left (fun g img => fold_left do_step (save_steps img) g) imgs f.

Definition do_run (f : vfs) (r : vrun) : vfs :=
  let f2 := save_all (r_saves r) (fst (recover (r_nostate r) f)) in
  match r_end r with
  | E_stop => f2
  | E_crash k img => crash_after k img f2
  | E_clean => {| fs_state := None; fs_tmp := fs_tmp f2 |}
  end.
