(* C04-C07: the saved state of a vis run (vis/state.cc). *)
From Coq Require Import List Arith NArith ZArith Bool Lia.
Import ListNotations.
From Verif Require Import Base Codec LeafBitsModel LeafBitsProofs VisStateModel VisStateProofs.

(** C04. A bit set over any number of leafs, written with CompressBits and read back through
    a buffer whose unused tail holds anything, has the same bits. The stored length never
    exceeds the buffer, and it alone selects the right decoder. *)
Theorem C04_bitset_codec_roundtrip : forall n a, lb_wf a -> lb_size a = n ->
  exists bytes c, leaf_bytes n a = Some bytes /\ compress_bits bytes = Some c /\ length c <= numbytes n /\
   forall junk, length c + length junk = numbytes n ->
   exists b, decode_bits n (length c) (c ++ junk) = Dec_ok b /\
     lb_size b = n /\ (forall i, i < n -> lb_get b i = lb_get a i).
Proof.
  intros n a H1 H2. destruct (bits_roundtrip n a H1 H2) as (l & c & A & B & C & D).
  exists l, c. split; [exact A|]. split; [exact B|]. split; [exact C|]. intros junk Hj.
  destruct (D junk Hj) as (b & E & (S1 & _ & S2)). exists b. auto.
Qed.
Print Assumptions C04_bitset_codec_roundtrip.

Definition C04_set : leafbits :=
  match lb_run 101 (map (fun i => Op_set i true) (3 :: seq 40 24)) with Some b => b | None => lb_make 0 end.
Example C04_nontrivial : lb_wf C04_set /\ lb_size C04_set = 101 /\
  option_map compress_bits (leaf_bytes 101 C04_set) = Some (Some [8; 0; 4; 255; 3; 0; 5]%N).
Proof.
  split; [|split; vm_compute; reflexivity]. split; [vm_compute; reflexivity|].
  apply Forall_forall. intros x Hx. apply N.ltb_lt. revert x Hx. apply forallb_forall. vm_compute. reflexivity.
Qed.

(** C05. Loading the bytes SaveVisState wrote gives, portal by portal, what was saved: a
    portal that was being worked on is not started, the vis bits of a portal that was not
    finished are blank, everything else is the same; the elapsed time is restored. *)
Theorem C05_state_file_roundtrip : forall n numportals testlevel time ps,
  urange 4 (N.of_nat n) -> urange 4 numportals -> urange 4 testlevel -> urange 4 time ->
  Forall (wf_portal n) ps ->
  exists bytes, save_state n numportals testlevel time ps = Some bytes /\
  exists qs, load_state n numportals (length ps) bytes = L_ok (time, qs) /\
  Forall2 (fun p q =>
    vp_status q = (if (vp_status p =? 1)%N then 0%N else vp_status p) /\
    (forall i, i < n -> lb_get (vp_might q) i = lb_get (vp_might p) i) /\
    (forall i, i < n -> lb_get (vp_vis q) i =
        if (vp_status p =? 2)%N then lb_get (vp_vis p) i else Some false) /\
    vp_nummight q = vp_nummight p /\ vp_numcan q = vp_numcan p) ps qs.
Proof.
  intros n np tl tm ps H1 H2 H3 H4 H5.
  destruct (state_roundtrip n np tl tm ps H1 H2 H3 H4 H5) as (bytes & E & qs & L & F).
  exists bytes. split; [exact E|]. exists qs. split; [exact L|].
  clear - F. induction F as [|p q ps qs (A & (_ & _ & B) & C & D & G) F IH]; constructor; [|exact IH].
  split; [exact A|]. split; [exact B|]. split; [|split; assumption].
  intros i Hi. destruct (vp_status p =? 2)%N.
  - apply C. exact Hi.
  - rewrite C. apply lb_make_get. exact Hi.
Qed.
Print Assumptions C05_state_file_roundtrip.

Definition C05_portals : list vportal :=
  [ {| vp_status := 2; vp_might := C04_set; vp_vis := lb_make 101; vp_nummight := 25; vp_numcan := 0 |};
    {| vp_status := 1; vp_might := C04_set; vp_vis := C04_set; vp_nummight := 25; vp_numcan := 7 |} ]%N.
Example C05_nontrivial : Forall (wf_portal 101) C05_portals /\
  match save_state 101 2 0 77 C05_portals with
  | Some bytes => match load_state 101 2 2 bytes with
                  | L_ok (t, qs) => t = 77%N /\ map vp_status qs = [2; 0]%N
                  | _ => False end
  | None => False end.
Proof.
  split; [|vm_compute; split; reflexivity].
  assert (W : lb_wf C04_set) by apply C04_nontrivial.
  assert (W0 : lb_wf (lb_make 101)) by apply wf_make.
  apply Forall_cons; [|apply Forall_cons; [|apply Forall_nil]];
    (split; [exact W|]; split; [vm_compute; reflexivity|]; split; [assumption|]; split; [vm_compute; reflexivity|];
     repeat split; vm_compute; reflexivity).
Qed.

(** C06, the part that holds. Once a run has found a completely written state, every later
    run finds one that was completely handed to SaveVisState: the last one saved before, or
    the one being saved when the previous run died, whatever operation it died in. Missing
    from the full claim: the first save after a start without state, -nostate runs, and
    runs that finish; see the refutations below. *)
Theorem C06_crash_safety_partial : forall runs f img0, snd (recover false f) = Some img0 ->
  Forall (fun r => r_nostate r = false /\ r_end r <> E_clean) runs ->
  exists img, snd (recover false (fold_left do_run runs f)) = Some img /\ found_after img0 runs img.
Proof. exact runs_found. Qed.
Print Assumptions C06_crash_safety_partial.

Example C06_nontrivial :
  let f := {| fs_state := Some [1; 2]%N; fs_tmp := None |} in
  let runs := [ {| r_nostate := false; r_saves := [[3]%N]; r_end := E_crash 3 [4; 5]%N |};
                {| r_nostate := false; r_saves := []; r_end := E_crash 4 [6; 7]%N |} ] in
  snd (recover false f) = Some [1; 2]%N /\
  Forall (fun r => r_nostate r = false /\ r_end r <> E_clean) runs /\
  snd (recover false (fold_left do_run runs f)) = Some [6; 7]%N.
Proof. repeat split; repeat constructor; discriminate. Qed.

(** C06 is false of the code: a crash in the very first save leaves a partial temporary
    file, which the next run renames and loads. *)
Theorem C06_first_save_refuted : forall img b, exists k,
  snd (recover false (do_run {| fs_state := None; fs_tmp := None |}
     {| r_nostate := false; r_saves := []; r_end := E_crash k (img ++ [b]) |})) = Some img.
Proof.
  intros img b. exists (S (length img)). unfold do_run, crash_after, save_steps. cbn [r_saves r_end r_nostate recover fst fs_state fs_tmp save_all fold_left firstn do_step].
  rewrite map_app, <- app_assoc, firstn_app, map_length, Nat.sub_diag, firstn_all2 by (rewrite map_length; lia).
  cbn [firstn]. rewrite app_nil_r, crash_prefix. reflexivity.
Qed.
Print Assumptions C06_first_save_refuted.

(** Also false after a complete save: it died between removing the old file and renaming the
    new one, a -nostate run then truncated the only copy. *)
Theorem C06_nostate_refuted : exists runs img0,
  snd (recover false (fold_left do_run runs {| fs_state := Some img0; fs_tmp := None |})) = Some [9]%N /\
  ~ In [9]%N (img0 :: concat (map r_saves runs)) /\
  (forall r k img, In r runs -> r_end r = E_crash k img -> img <> [9]%N).
Proof.
  exists [ {| r_nostate := false; r_saves := []; r_end := E_crash 4 [7; 8]%N |};
           {| r_nostate := true; r_saves := []; r_end := E_crash 2 [9; 9]%N |} ], [1; 2]%N.
  split; [vm_compute; reflexivity|]. split.
  - simpl. intros [H|[]]. discriminate.
  - intros r k img [<-|[<-|[]]] H; inversion H; subst; discriminate.
Qed.
Print Assumptions C06_nostate_refuted.

(** Also false after a run that finishes: a -fast run saves nothing and removes the state
    file, leaving the partial temporary file of an earlier crash to the next run. *)
Theorem C06_leftover_tmp_refuted : exists runs img0,
  snd (recover false (fold_left do_run runs {| fs_state := Some img0; fs_tmp := None |})) = Some [9]%N /\
  Forall (fun r => r_nostate r = false) runs /\
  ~ In [9]%N (img0 :: concat (map r_saves runs)) /\
  (forall r k img, In r runs -> r_end r = E_crash k img -> img <> [9]%N).
Proof.
  exists [ {| r_nostate := false; r_saves := [[7; 8]%N]; r_end := E_crash 2 [9; 9]%N |};
           {| r_nostate := false; r_saves := []; r_end := E_clean |} ], [1; 2]%N.
  split; [vm_compute; reflexivity|]. split; [repeat constructor|]. split.
  - simpl. intros [H|[H|[]]]; discriminate.
  - intros r k img [<-|[<-|[]]] H; inversion H; subst; discriminate.
Qed.
Print Assumptions C06_leftover_tmp_refuted.

(** C07, the part that holds: if every run count in the stream is at least one and the
    buffer is twice as long as the bit set, decoding ends in a bit set or in the error.
    Missing: the code checks neither condition; both are needed. *)
Theorem C07_decoder_safe_partial : forall n src, 2 * numbytes n <= length src -> runs_counted src ->
  (exists b, decompress_bits n src = Dec_ok b) \/ decompress_bits n src = Dec_error.
Proof. exact decompress_counted_safe. Qed.
Print Assumptions C07_decoder_safe_partial.

Example C07_nontrivial : runs_counted [5; 0; 3; 255; 2; 7; 0; 1; 9; 9; 9; 9; 9; 9]%N /\
  exists b, decompress_bits 56 [5; 0; 3; 255; 2; 7; 0; 1; 9; 9; 9; 9; 9; 9]%N = Dec_ok b.
Proof.
  split; [|vm_compute; eauto].
  repeat (first [apply rc_nil | apply rc_run; [lia|lia|] | apply rc_lit; [discriminate|discriminate|]]).
Qed.

(** C07 is false of the code: a run with count zero makes [while (--rep)] run away past the
    end of the portal's bits. *)
Theorem C07_zero_count_refuted : exists n src, length src = numbytes n /\ decompress_bits n src = Dec_UB.
Proof. exists 64, [0; 0; 0; 0; 0; 0; 0; 0]%N. split; vm_compute; reflexivity. Qed.
Print Assumptions C07_zero_count_refuted.

(** Counts of at least one do not help: the buffer itself is only as long as the bit set. *)
Theorem C07_short_buffer_refuted : exists n src, length src = numbytes n /\ runs_counted src /\
  decompress_bits n src = Dec_UB.
Proof.
  exists 64, [0; 1; 0; 1; 0; 1; 0; 1]%N. split; [reflexivity|]. split; [|vm_compute; reflexivity].
  repeat (first [apply rc_nil | apply rc_run; [lia|lia|]]).
Qed.
Print Assumptions C07_short_buffer_refuted.

(** And a stored length larger than the buffer is read over its end. *)
Theorem C07_length_field_refuted : exists bytes, load_state 8 1 1 bytes = L_UB.
Proof.
  exists (put_le 4 VIS_STATE_VERSION ++ put_le 4 1 ++ put_le 4 8 ++ put_le 4 0 ++ put_le 4 0 ++
          put_le 4 2 ++ put_le 4 1000 ++ put_le 4 0 ++ put_le 4 0 ++ put_le 4 0)%N.
  vm_compute. reflexivity.
Qed.
Print Assumptions C07_length_field_refuted.
