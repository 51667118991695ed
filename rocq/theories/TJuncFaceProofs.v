(** Proofs about fixing a whole face (TJuncModel.v). *)

From Coq Require Import List Arith Bool ZArith Lia Permutation Sorted.
From Verif Require Import TJuncModel TJuncProofs TJuncFanProofs.
Import ListNotations.

(* ------------------------------------------------------------------ *)
(** * Minimum weight triangulation of a face *)

(** The triangles drawn for the faces [frags] are the triangles [P] of the
    polygon [vs], in another order and starting at other corners. *)
Definition drawn_as (vs : list nat) (frags : list (list nat)) (P : list tri) : Prop :=
  exists Q, Permutation (flat_map fan_tris frags) Q /\
    Forall2 same_tri Q (map (tri_map (fun v => nth v vs 0)) P).

Lemma sorted_of_triangulation : forall n T, 1 <= n -> Triangulation 0 (n - 1) T ->
  Forall (sorted_tri n) T.
Proof.
  intros n T Hn HT. apply triangulation_bounds in HT.
  eapply Forall_impl; [|exact HT]. intros [[a b] c] H. cbn [sorted_tri]. lia.
Qed.

Lemma mwt_face_of : forall w pick vs R T, picks pick -> 3 <= length vs ->
  mwt w (length vs) = Some R -> Permutation R T -> Triangulation 0 (length vs - 1) T ->
  exists frags P, mwt_face w pick vs = Some frags /\ Permutation P R /\
    drawn_as vs frags P /\ Forall (fun p => 3 <= length p) frags /\ frags <> [].
Proof.
  intros w pick vs R T Hp Hn HR HP HT.
  assert (Hs : Forall (sorted_tri (length vs)) R).
  { eapply Permutation_Forall; [symmetry; exact HP|].
    apply sorted_of_triangulation; [lia|exact HT]. }
  destruct (compress_spec pick vs Hp (length R) R (le_n _) Hs) as (frags & P & H1 & H2 & H3 & H4 & H5).
  exists frags, P. unfold mwt_face. rewrite HR. split; [exact H1|]. split; [exact H2|].
  split; [exists (flat_map fan_tris frags); split; [reflexivity|exact H3]|].
  split; [exact H4|]. apply H5. intros ->.
  apply Permutation_length in HP. rewrite (triangulation_length _ _ _ HT) in HP. cbn in HP. lia.
Qed.

Lemma map_nth_seq : forall (vs : list nat), map (fun v => nth v vs 0) (seq 0 (length vs)) = vs.
Proof.
  induction vs as [|v vs IH]; [reflexivity|].
  cbn [length seq map]. f_equal. rewrite <- seq_shift, map_map. exact IH.
Qed.

Lemma path_sum_map : forall f (g : nat -> nat) r v back,
  path_sum f (g v) (map g r) (g back) = path_sum (fun a b => f (g a) (g b)) v r back.
Proof.
  intros f g r; induction r as [|w r IH]; intros v back; [reflexivity|].
  cbn [map path_sum]. rewrite IH. reflexivity.
Qed.

Lemma loop_sum_map : forall f g p,
  loop_sum f (map g p) = loop_sum (fun a b => f (g a) (g b)) p.
Proof. intros f g [|v r]; [reflexivity|]. cbn [map loop_sum]. apply path_sum_map. Qed.

Lemma loop_sum_triangulation : forall f vs T, antisym f -> 3 <= length vs ->
  Triangulation 0 (length vs - 1) T ->
  sum_map (tri_sum f) (map (tri_map (fun v => nth v vs 0)) T) = loop_sum f vs.
Proof.
  intros f vs T Hf Hn HT.
  set (g := fun v => nth v vs 0).
  assert (Hf' : antisym (fun a b => f (g a) (g b))) by (intros a b; apply Hf).
  assert (E1 : sum_map (tri_sum f) (map (tri_map g) T) =
               sum_map (tri_sum (fun a b => f (g a) (g b))) T).
  { clear. induction T as [|[[a b] c] T IH]; [reflexivity|].
    cbn [map tri_map]. rewrite !sum_tri_cons, IH. reflexivity. }
  rewrite E1, (triangulation_sum _ Hf' _ _ _ HT).
  assert (E2 : loop_sum f vs = loop_sum (fun a b => f (g a) (g b)) (seq 0 (length vs))).
  { rewrite <- (map_nth_seq vs) at 1. apply loop_sum_map. }
  rewrite E2.
  replace (length vs) with (S ((length vs - 2) + 1)) by lia.
  cbn [seq loop_sum]. rewrite seq_app. cbn [seq].
  replace (1 + (length vs - 2)) with (length vs - 1) by lia.
  rewrite path_sum_app. cbn [path_sum].
  replace (S (length vs - 2 + 1) - 1 - 0 - 1) with (length vs - 2) by lia.
  replace (S (length vs - 2 + 1) - 1) with (length vs - 1) by lia.
  pose proof (Hf (g (length vs - 1)) (g 0)). lia.
Qed.

Lemma same_tris_sum : forall f Q P, Forall2 same_tri Q P ->
  sum_map (tri_sum f) Q = sum_map (tri_sum f) P.
Proof.
  intros f Q P H; induction H as [|s t Q P Hst H IH]; [reflexivity|].
  rewrite !sum_tri_cons, IH, (same_tri_sum f s t Hst). reflexivity.
Qed.

Lemma frags_sum : forall f frags, antisym f ->
  sum_map (loop_sum f) frags = sum_map (tri_sum f) (flat_map fan_tris frags).
Proof.
  intros f frags Hf; induction frags as [|p frags IH]; [reflexivity|].
  cbn [flat_map]. rewrite sum_map_cons, sum_tri_app, IH, (loop_sum_fan f Hf p). reflexivity.
Qed.

Lemma drawn_sum : forall f vs frags P T, antisym f -> 3 <= length vs ->
  drawn_as vs frags P -> Permutation P T -> Triangulation 0 (length vs - 1) T ->
  sum_map (loop_sum f) frags = loop_sum f vs.
Proof.
  intros f vs frags P T Hf Hn (Q & HQ & HF) HP HT.
  rewrite (frags_sum f frags Hf).
  pose proof (sum_map_perm tri (tri_sum f) _ _ HQ) as E1. rewrite E1.
  rewrite (same_tris_sum f _ _ HF).
  rewrite <- (loop_sum_triangulation f vs T Hf Hn HT).
  apply (sum_map_perm tri). apply Permutation_map. exact HP.
Qed.

(* ------------------------------------------------------------------ *)
(** * Rotation *)

Lemma nth_rotate : forall l i x, i < length l -> x < length l ->
  nth x (rotate i l) 0 = nth ((i + x) mod length l) l 0.
Proof.
  intros l i x Hi Hx. unfold rotate.
  assert (Ef : forall k, k < i -> nth k (firstn i l) 0 = nth k l 0).
  { intros k Hk. transitivity (nth k (firstn i l ++ skipn i l) 0).
    - rewrite app_nth1 by (rewrite firstn_length; lia). reflexivity.
    - rewrite firstn_skipn. reflexivity. }
  assert (Es : forall k, nth k (skipn i l) 0 = nth (i + k) l 0).
  { intros k. transitivity (nth (i + k) (firstn i l ++ skipn i l) 0).
    - rewrite app_nth2 by (rewrite firstn_length; lia). rewrite firstn_length. f_equal. lia.
    - rewrite firstn_skipn. reflexivity. }
  destruct (Nat.lt_ge_cases (i + x) (length l)) as [H|H].
  - rewrite app_nth1 by (rewrite skipn_length; lia).
    rewrite Nat.mod_small by lia. apply Es.
  - rewrite app_nth2 by (rewrite skipn_length; lia). rewrite skipn_length.
    rewrite Ef by lia.
    replace (i + x) with ((i + x - length l) + 1 * length l) at 1 by lia.
    rewrite Nat.mod_add by lia. rewrite Nat.mod_small by lia. f_equal. lia.
Qed.

Lemma rotate_length : forall i l, length (rotate i l) = length l.
Proof.
  intros i l. unfold rotate. rewrite app_length, skipn_length, firstn_length. lia.
Qed.

(** The triangles drawn for a polygon. *)
Lemma fan_tris_nth : forall p, fan_tris p =
  map (fun x => (nth 0 p 0, nth (x + 1) p 0, nth (x + 2) p 0)) (seq 0 (length p - 2)).
Proof.
  intros [|v r]; [reflexivity|].
  cbn [length].
  replace (S (length r) - 2) with (length r - 1) by lia.
  transitivity (map (fun x => (v, nth x r 0, nth (x + 1) r 0)) (seq 0 (length r - 1))).
  - cbn [fan_tris]. induction r as [|a r IH]; [reflexivity|].
    destruct r as [|b r]; [reflexivity|].
    cbn [tl] in *.
    change (combine (a :: b :: r) (b :: r)) with ((a, b) :: combine (b :: r) r).
    cbn [map]. rewrite IH.
    replace (length (a :: b :: r) - 1) with (S (length (b :: r) - 1)) by (cbn [length]; lia).
    cbn [seq]. rewrite map_cons. apply f_equal2; [reflexivity|].
    rewrite <- (seq_shift (length (b :: r) - 1) 0), map_map. reflexivity.
  - apply map_ext. intros x. replace (x + 1) with (S x) by lia.
    replace (x + 2) with (S (S x)) by lia. reflexivity.
Qed.

Lemma rotation_ok_tris : forall valid sf i, i < length sf -> 3 <= length sf ->
  rotation_ok valid sf i = true <->
  Forall (fun t => let '(a, b, c) := t in valid a b c = true) (fan_tris (rotate i sf)).
Proof.
  intros valid sf i Hi Hn. unfold rotation_ok. rewrite fan_tris_nth, rotate_length.
  rewrite forallb_forall, Forall_map, Forall_forall.
  assert (H0 : nth 0 (rotate i sf) 0 = nth i sf 0).
  { rewrite nth_rotate by lia. rewrite Nat.add_0_r, Nat.mod_small by lia. reflexivity. }
  split; intros H x Hx; specialize (H x Hx); apply in_seq in Hx;
    rewrite H0 in *; rewrite !nth_rotate in * by lia;
    rewrite !Nat.add_assoc in *; exact H.
Qed.

Lemma find_first : forall A (p : A -> bool) l,
  match find p l with
  | Some x => In x l /\ p x = true
  | None => forall x, In x l -> p x = false
  end.
Proof.
  intros A p l. destruct (find p l) eqn:E.
  - apply find_some in E. exact E.
  - intros x Hx. exact (find_none p l E x Hx).
Qed.

(* ------------------------------------------------------------------ *)
(** * Cutting a face into fans *)

Lemma mod_step : forall n x, 0 < n -> (x mod n + 1) mod n = (x + 1) mod n.
Proof. intros n x H. rewrite Nat.add_mod_idemp_l by lia. reflexivity. Qed.

Lemma back_step : forall n x, 0 < n -> 1 <= x ->
  (if x mod n =? 0 then n - 1 else x mod n - 1) = (x - 1) mod n.
Proof.
  intros n x Hn Hx.
  pose proof (Nat.div_mod x n ltac:(lia)) as E.
  pose proof (Nat.mod_upper_bound x n ltac:(lia)) as B.
  set (q := x / n) in *. set (r := x mod n) in *.
  destruct (r =? 0) eqn:Er.
  - apply Nat.eqb_eq in Er.
    assert (q <> 0) by (intro; subst q; lia).
    replace (x - 1) with ((n - 1) + (q - 1) * n) by nia.
    rewrite Nat.mod_add by lia. rewrite Nat.mod_small by lia. reflexivity.
  - apply Nat.eqb_neq in Er.
    replace (x - 1) with ((r - 1) + q * n) by nia.
    rewrite Nat.mod_add by lia. rewrite Nat.mod_small by lia. reflexivity.
Qed.

Lemma fan_end_spec : forall onseg input seed, 3 <= length input -> seed < length input ->
  forall fuel d, 3 <= d <= length input + 2 -> length input + 2 - d <= fuel ->
  exists d', fan_end fuel onseg input seed ((seed + 2) mod length input)
               ((seed + d) mod length input) = Some ((seed + d') mod length input) /\
    2 <= d' <= length input.
Proof.
  intros onseg input seed Hn Hseed fuel; induction fuel as [|fuel IH]; intros d Hd Hf;
    cbn [fan_end].
  - assert (d = length input + 2) by lia. subst d.
    replace (seed + (length input + 2)) with (seed + 2 + 1 * length input) by lia.
    rewrite Nat.mod_add by lia. rewrite Nat.eqb_refl. exists 2. split; [reflexivity|lia].
  - destruct ((seed + d) mod length input =? (seed + 2) mod length input) eqn:E.
    + apply Nat.eqb_eq in E. exists 2. split; [f_equal; exact E|lia].
    + assert (d <> length input + 2).
      { intros ->. apply Nat.eqb_neq in E. apply E.
        replace (seed + (length input + 2)) with (seed + 2 + 1 * length input) by lia.
        apply Nat.mod_add. lia. }
      destruct (onseg _ _ _).
      * exists (d - 1). split; [|lia]. f_equal.
        rewrite back_step by lia. f_equal. lia.
      * rewrite mod_step by lia. rewrite <- Nat.add_assoc. apply IH; lia.
Qed.

(** What a round does, in terms of how far the fan goes. *)
Lemma retopo_step_spec : forall valid onseg input,
  match retopo_step valid onseg input with
  | RFail => True
  | RHang => False
  | RLast fan => exists i, i <= length input /\ fan = rotate i input /\ 3 <= length input
  | RCut fan rest => exists seed e, seed + 3 <= e /\ e < length input /\
      fan = firstn (e + 1 - seed) (skipn seed input) /\
      rest = firstn (seed + 1) input ++ skipn e input
  | RWrapCut fan rest => exists seed e, e < seed /\ seed < length input /\
      3 <= length input - seed + e /\
      fan = skipn seed input ++ firstn e input /\
      rest = firstn (seed + 1 - e) (skipn e input)
  end.
Proof.
  intros valid onseg input. unfold retopo_step.
  destruct (length input <? 3) eqn:En; [exact I|]. apply Nat.ltb_ge in En.
  pose proof (find_first _ (seed_ok valid onseg input) (seq 0 (length input))) as Hs.
  destruct (find (seed_ok valid onseg input) (seq 0 (length input))) as [seed|]; [|exact I].
  destruct Hs as [Hin _]. apply in_seq in Hin.
  rewrite mod_step by lia. rewrite <- Nat.add_assoc.
  destruct (fan_end_spec onseg input seed En ltac:(lia) (length input) 3 ltac:(lia) ltac:(lia))
    as (d & He & Hd).
  change (2 + 1) with 3. rewrite He.
  destruct (seed =? (seed + d) mod length input) eqn:E1.
  { exists 0. split; [lia|]. split; [|lia]. unfold rotate. cbn [skipn firstn]. rewrite app_nil_r. reflexivity. }
  apply Nat.eqb_neq in E1.
  destruct ((seed + d) mod length input =? (seed + 2) mod length input) eqn:E2.
  { exists seed. split; [lia|]. split; [reflexivity|lia]. }
  apply Nat.eqb_neq in E2.
  assert (Hd2 : 3 <= d < length input).
  { split; [assert (d <> 2) by congruence; lia|].
    assert (d <> length input); [|lia]. intros ->. apply E1.
    replace (seed + length input) with (seed + 1 * length input) by lia.
    rewrite Nat.mod_add by lia. rewrite Nat.mod_small by lia. reflexivity. }
  destruct (Nat.lt_ge_cases (seed + d) (length input)) as [Hlt|Hge].
  - rewrite (Nat.mod_small (seed + d)) by lia.
    replace (seed + d <? seed) with false by (symmetry; apply Nat.ltb_ge; lia).
    exists seed, (seed + d). repeat split; lia.
  - assert (Em : (seed + d) mod length input = seed + d - length input).
    { replace (seed + d) with ((seed + d - length input) + 1 * length input) at 1 by lia.
      rewrite Nat.mod_add by lia. apply Nat.mod_small. lia. }
    rewrite Em.
    replace (seed + d - length input <? seed) with true by (symmetry; apply Nat.ltb_lt; lia).
    exists seed, (seed + d - length input). repeat split; lia.
Qed.

Lemma retopo_total : forall valid onseg fuel input, length input < fuel ->
  exists fans, retopo fuel valid onseg input = Some fans /\
    Forall (fun p => 3 <= length p) fans.
Proof.
  intros valid onseg fuel; induction fuel as [|fuel IH]; intros input Hf; [lia|].
  cbn [retopo]. pose proof (retopo_step_spec valid onseg input) as Hs.
  destruct (retopo_step valid onseg input) as [|fan|fan rest|fan rest|].
  - exists []. split; [reflexivity|constructor].
  - destruct Hs as (i & Hi & -> & Hn). exists [rotate i input]. split; [reflexivity|].
    repeat constructor. rewrite rotate_length. exact Hn.
  - destruct Hs as (seed & e & H1 & H2 & Hfan & Hrest).
    destruct (IH rest) as (fans & Hr & Hl).
    { rewrite Hrest, app_length, firstn_length, skipn_length. lia. }
    rewrite Hr. destruct fans as [|p fans]; [exists []; split; [reflexivity|constructor]|].
    exists (fan :: p :: fans). split; [reflexivity|]. constructor; [|exact Hl].
    rewrite Hfan, firstn_length, skipn_length. lia.
  - destruct Hs as (seed & e & H1 & H2 & H3 & Hfan & Hrest).
    destruct (IH rest) as (fans & Hr & Hl).
    { rewrite Hrest, firstn_length, skipn_length. lia. }
    rewrite Hr. destruct fans as [|p fans]; [exists []; split; [reflexivity|constructor]|].
    exists (fan :: p :: fans). split; [reflexivity|]. constructor; [|exact Hl].
    rewrite Hfan, app_length, firstn_length, skipn_length. lia.
  - destruct Hs.
Qed.

(** A list cut at two places. *)
Lemma cut_two : forall (l : list nat) i j, i < j -> j < length l ->
  exists A x B y C, l = A ++ x :: B ++ y :: C /\ length A = i /\ i + 1 + length B = j.
Proof.
  intros l i j Hij Hj.
  destruct (nth_split l 0 Hj) as (L & C & HL & HLl).
  assert (HiL : i < length L) by lia.
  destruct (nth_split L 0 HiL) as (A & B & HA & HAl).
  exists A, (nth i L 0), B, (nth j l 0), C.
  split; [|split; [exact HAl|]].
  - rewrite HL at 1. rewrite HA at 1. rewrite <- app_assoc. reflexivity.
  - apply (f_equal (@length nat)) in HA. rewrite app_length in HA. cbn [length] in HA. lia.
Qed.

Lemma firstn_exact : forall A (l1 l2 : list A) k, length l1 = k -> firstn k (l1 ++ l2) = l1.
Proof. intros A l1 l2 k <-. rewrite firstn_app, Nat.sub_diag, firstn_all. cbn. apply app_nil_r. Qed.

Lemma skipn_exact : forall A (l1 l2 : list A) k, length l1 = k -> skipn k (l1 ++ l2) = l2.
Proof. intros A l1 l2 k <-. rewrite skipn_app, Nat.sub_diag, skipn_all. reflexivity. Qed.

Lemma retopo_cut_sum : forall f input seed e, antisym f -> seed + 3 <= e -> e < length input ->
  (loop_sum f (firstn (e + 1 - seed) (skipn seed input)) +
   loop_sum f (firstn (seed + 1) input ++ skipn e input))%Z = loop_sum f input.
Proof.
  intros f input seed e Hf H1 H2.
  destruct (cut_two input seed e ltac:(lia) H2) as (A & x & B & y & C & -> & HA & HB).
  assert (E1 : firstn (e + 1 - seed) (skipn seed (A ++ x :: B ++ y :: C)) = x :: B ++ [y]).
  { rewrite (skipn_exact _ A _ seed HA).
    replace (x :: B ++ y :: C) with ((x :: B ++ [y]) ++ C)
      by (cbn [app]; rewrite <- app_assoc; reflexivity).
    apply firstn_exact. cbn [length]. rewrite app_length. cbn [length]. lia. }
  assert (E2 : firstn (seed + 1) (A ++ x :: B ++ y :: C) = A ++ [x]).
  { replace (A ++ x :: B ++ y :: C) with ((A ++ [x]) ++ B ++ y :: C)
      by (rewrite <- app_assoc; reflexivity).
    apply firstn_exact. rewrite app_length. cbn [length]. lia. }
  assert (E3 : skipn e (A ++ x :: B ++ y :: C) = y :: C).
  { replace (A ++ x :: B ++ y :: C) with ((A ++ x :: B) ++ y :: C)
      by (rewrite <- app_assoc; reflexivity).
    apply skipn_exact. rewrite app_length. cbn [length]. lia. }
  rewrite E1, E2, E3. clear E1 E2 E3. rewrite <- app_assoc. cbn [app].
  cbn [loop_sum]. rewrite path_sum_app. cbn [path_sum].
  pose proof (Hf x y) as Hxy.
  destruct A as [|a A]; cbn [app loop_sum].
  - rewrite !path_sum_app. cbn [path_sum]. lia.
  - rewrite !path_sum_app. cbn [path_sum]. rewrite ?path_sum_app. lia.
Qed.

(** When the fan ends before its first vertex in the array, a triangle is
    missing. *)
Lemma retopo_wrap_sum : forall f input seed e, antisym f -> e < seed -> seed < length input ->
  let fan := skipn seed input ++ firstn e input in
  let rest := firstn (seed + 1 - e) (skipn e input) in
  loop_sum f input =
  (loop_sum f fan + loop_sum f rest + tri_sum f (hd 0%nat fan, last fan 0%nat, hd 0%nat rest))%Z.
Proof.
  intros f input seed e Hf H1 H2. cbn zeta.
  destruct (cut_two input e seed H1 H2) as (A & y & B & x & C & -> & HA & HB).
  assert (E1 : skipn seed (A ++ y :: B ++ x :: C) = x :: C).
  { replace (A ++ y :: B ++ x :: C) with ((A ++ y :: B) ++ x :: C)
      by (rewrite <- app_assoc; reflexivity).
    apply skipn_exact. rewrite app_length. cbn [length]. lia. }
  assert (E2 : firstn e (A ++ y :: B ++ x :: C) = A) by (apply firstn_exact; exact HA).
  assert (E3 : firstn (seed + 1 - e) (skipn e (A ++ y :: B ++ x :: C)) = y :: B ++ [x]).
  { rewrite (skipn_exact _ A _ e HA).
    replace (y :: B ++ x :: C) with ((y :: B ++ [x]) ++ C)
      by (cbn [app]; rewrite <- app_assoc; reflexivity).
    apply firstn_exact. cbn [length]. rewrite app_length. cbn [length]. lia. }
  rewrite E1, E2, E3. clear E1 E2 E3. cbn [app hd].
  assert (Hrot : loop_sum f (A ++ y :: B ++ x :: C) = loop_sum f ((x :: C ++ A) ++ y :: B)).
  { transitivity (loop_sum f (rotate (length (A ++ y :: B)) (A ++ y :: B ++ x :: C))).
    - symmetry. apply loop_sum_rotate. rewrite !app_length. cbn [length]. rewrite app_length. lia.
    - f_equal. unfold rotate.
      replace (A ++ y :: B ++ x :: C) with ((A ++ y :: B) ++ x :: C)
        by (rewrite <- app_assoc; reflexivity).
      rewrite skipn_exact, firstn_exact by reflexivity.
      cbn [app]. rewrite <- app_assoc. reflexivity. }
  rewrite Hrot. clear Hrot.
  assert (Hlast : exists D z, x :: C ++ A = D ++ [z] /\ last (x :: C ++ A) 0 = z).
  { exists (removelast (x :: C ++ A)), (last (x :: C ++ A) 0).
    split; [apply app_removelast_last; discriminate|reflexivity]. }
  destruct Hlast as (D & z & HD & Hz). rewrite Hz.
  cbn [loop_sum]. rewrite path_sum_app. cbn [path_sum].
  unfold tri_sum.
  pose proof (Hf y x) as Hyx. pose proof (Hf z x) as Hzx. pose proof (Hf z y) as Hzy.
  destruct D as [|d D]; cbn [app] in HD; injection HD as Hx HCA.
  - subst x. rewrite HCA. cbn [app loop_sum path_sum]. 
    pose proof (Hf z z). lia.
  - subst d. rewrite HCA. cbn [app loop_sum]. rewrite <- app_assoc. cbn [app].
    rewrite !path_sum_app. cbn [path_sum]. lia.
Qed.

(** Rounds that never take that branch. *)
Fixpoint never_wraps (fuel : nat) (valid onseg : nat -> nat -> nat -> bool) (input : list nat) : Prop :=
  match fuel with
  | O => True
  | S f =>
      match retopo_step valid onseg input with
      | RCut _ rest => never_wraps f valid onseg rest
      | RWrapCut _ _ => False
      | _ => True
      end
  end.

Lemma retopo_sum : forall f valid onseg, antisym f -> forall fuel input fans,
  never_wraps fuel valid onseg input ->
  retopo fuel valid onseg input = Some fans -> fans <> [] ->
  sum_map (loop_sum f) fans = loop_sum f input.
Proof.
  intros f valid onseg Hf fuel; induction fuel as [|fuel IH]; intros input fans Hw Hr Hne;
    cbn [retopo] in Hr; cbn [never_wraps] in Hw; [discriminate|].
  pose proof (retopo_step_spec valid onseg input) as Hs.
  destruct (retopo_step valid onseg input) as [|fan|fan rest|fan rest|].
  - injection Hr as <-. congruence.
  - injection Hr as <-. destruct Hs as (i & Hi & -> & _).
    rewrite sum_map_cons, loop_sum_rotate by exact Hi. cbn. lia.
  - destruct Hs as (seed & e & H1 & H2 & Hfan & Hrest).
    destruct (retopo fuel valid onseg rest) as [[|p fans']|] eqn:Er.
    + injection Hr as <-. congruence.
    + injection Hr as <-.
      rewrite sum_map_cons, (IH rest (p :: fans') Hw Er ltac:(discriminate)).
      rewrite Hfan, Hrest. apply retopo_cut_sum; assumption.
    + discriminate.
  - destruct Hw.
  - discriminate.
Qed.

(* ------------------------------------------------------------------ *)
(** * The whole face *)

Lemma forallb_len : forall frags, Forall (fun p : list nat => 3 <= length p) frags ->
  forallb (fun fr => 3 <=? length fr) frags = true.
Proof.
  intros frags H. apply forallb_forall. intros p Hp. rewrite Forall_forall in H.
  apply Nat.leb_le, H, Hp.
Qed.

(** The cutting of large faces keeps the triangles. *)
Lemma split_keeps : forall maxedges faces, maxedges = 0 \/ 3 <= maxedges -> faces <> [] ->
  Forall (fun p => 3 <= length p) faces ->
  exists frags,
    (if maxedges =? 0 then Some faces else split_faces (length faces) maxedges faces 0) = Some frags /\
    Forall (fun p => 3 <= length p) frags /\
    Permutation (flat_map fan_tris frags) (flat_map fan_tris faces).
Proof.
  intros maxedges faces Hm Hne Hl. destruct (maxedges =? 0) eqn:E.
  - exists faces. split; [reflexivity|]. split; [exact Hl|reflexivity].
  - apply Nat.eqb_neq in E. destruct Hm as [Hm|Hm]; [contradiction|].
    destruct faces as [|f fs]; [congruence|]. inversion Hl as [|? ? Hf Hfs]; subst.
    destruct (split_faces_spec maxedges Hm (length fs) f fs Hf) as (rest & new & H1 & H2 & H3 & H4 & _).
    exists (fs ++ new ++ [rest]). cbn [length]. split; [exact H1|]. split.
    + apply Forall_app. split; [exact Hfs|]. apply Forall_app. split.
      * eapply Forall_impl; [|exact H3]. cbn. intros; lia.
      * repeat constructor; lia.
    + rewrite !flat_map_app. cbn [flat_map]. rewrite app_nil_r, H4. apply Permutation_app_comm.
Qed.

Lemma fix_face_from : forall level maxedges geo valid onseg pick orig sf faces,
  3 < length sf -> level <> TJNone -> maxedges = 0 \/ 3 <= maxedges ->
  match level with
  | TJMwt => match mwt_face (geo sf) pick sf with
             | Some [] => rotate_or_retopo true valid onseg sf
             | r => r
             end
  | TJRetopologize => rotate_or_retopo true valid onseg sf
  | _ => rotate_or_retopo false valid onseg sf
  end = Some faces ->
  Forall (fun p => 3 <= length p) faces ->
  exists frags, fix_face level maxedges geo valid onseg pick orig sf = Some frags /\
    Forall (fun p => 3 <= length p) frags /\
    Permutation (flat_map fan_tris frags)
      (flat_map fan_tris (match faces with [] => [sf] | _ => faces end)).
Proof.
  intros level maxedges geo valid onseg pick orig sf faces Hn Hlv Hm He Hl.
  assert (Hl' : Forall (fun p => 3 <= length p) (match faces with [] => [sf] | _ => faces end)).
  { destruct faces; [repeat constructor; lia|exact Hl]. }
  assert (Hne : match faces with [] => [sf] | _ => faces end <> []) by (destruct faces; discriminate).
  destruct (split_keeps maxedges _ Hm Hne Hl') as (frags & H1 & H2 & H3).
  exists frags. split; [|split; [exact H2|exact H3]].
  unfold fix_face.
  replace (length sf <? 3) with false by (symmetry; apply Nat.ltb_ge; lia).
  replace (length sf =? 3) with false by (symmetry; apply Nat.eqb_neq; lia).
  destruct level; [congruence| | |];
    rewrite He; cbn zeta; rewrite H1, (forallb_len frags H2); reflexivity.
Qed.

Lemma rotate_or_retopo_total : forall b valid onseg sf, 3 <= length sf ->
  exists faces, rotate_or_retopo b valid onseg sf = Some faces /\
    Forall (fun p => 3 <= length p) faces.
Proof.
  intros b valid onseg sf Hn. unfold rotate_or_retopo.
  destruct (find_rotation valid sf) as [[|i]|].
  - exists []. split; [reflexivity|constructor].
  - exists [rotate (S i) sf]. split; [reflexivity|]. repeat constructor. rewrite rotate_length. exact Hn.
  - destruct b; [|exists []; split; [reflexivity|constructor]].
    destruct (retopo_total valid onseg (length sf + 1) sf ltac:(lia)) as (fans & Hr & Hl).
    rewrite Hr. destruct (1 <? length fans).
    + exists fans. split; [reflexivity|exact Hl].
    + exists []. split; [reflexivity|constructor].
Qed.
