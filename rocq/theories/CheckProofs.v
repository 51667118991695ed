(* Proofs for CheckModel.v. *)
From Coq Require Import List Arith NArith ZArith Bool Lia.
Import ListNotations.
From Verif Require Import Base Codec NumCastModel BspRecModel BspFileModel ConvModel CheckModel.
Local Open Scope Z_scope.

Lemma visit_in : forall A (f : nat -> A -> list warn) l i w, In w (visit f i l) <->
  exists k a, nth_error l k = Some a /\ In w (f (i + k)%nat a).
Proof.
  intros A f l. induction l as [|a l IH]; intros i w; cbn [visit].
  - split; [intros []|]. intros (k & b & H & _). destruct k; discriminate H.
  - rewrite in_app_iff, IH. split.
    + intros [H|(k & b & H & I)].
      * exists O, a. split; [reflexivity|]. rewrite Nat.add_0_r. exact H.
      * exists (S k), b. split; [exact H|]. rewrite Nat.add_succ_r. exact I.
    + intros (k & b & H & I). destruct k as [|k]; cbn [nth_error] in H.
      * injection H as <-. left. rewrite Nat.add_0_r in I. exact I.
      * right. exists k, b. split; [exact H|]. rewrite Nat.add_succ_r in I. exact I.
Qed.
Lemma in_when : forall b w w', In w (when b w') <-> b = true /\ w = w'.
Proof. intros b w w'. unfold when. destruct b; cbn [In]; intuition congruence. Qed.
Lemma in_count : forall n f w, In w (count n f) <-> n <> O /\ w = f n.
Proof. intros n f w. unfold count. destruct n; cbn [In]; intuition congruence. Qed.

(** Comparisons with a size for numbers of up to 64 bits. *)
Lemma ge_size_spec : forall z n, - 2 ^ 63 <= z < 2 ^ 63 -> 0 <= n <= 2 ^ 63 -> ge_size z n = true <-> z < 0 \/ n <= z.
Proof.
  intros z n Hz Hn. unfold ge_size, usz. rewrite Z.leb_le.
  destruct (Z_lt_ge_dec z 0) as [L|G].
  - assert (E : z mod 2 ^ 64 = z + 2 ^ 64) by (symmetry; apply Z.mod_unique with (-1); lia). lia.
  - rewrite Z.mod_small by lia. lia.
Qed.
Lemma gt_size_spec : forall z n, - 2 ^ 63 <= z < 2 ^ 63 -> 0 <= n < 2 ^ 63 -> gt_size z n = true <-> z < 0 \/ n < z.
Proof.
  intros z n Hz Hn. unfold gt_size, usz. rewrite Z.ltb_lt.
  destruct (Z_lt_ge_dec z 0) as [L|G].
  - assert (E : z mod 2 ^ 64 = z + 2 ^ 64) by (symmetry; apply Z.mod_unique with (-1); lia). lia.
  - rewrite Z.mod_small by lia. lia.
Qed.

Lemma get_ok : forall A (l : list A) z, 0 <= z < zlen l -> exists a, get l z = ROk a.
Proof.
  intros A l z [H1 H2]. unfold get, zlen in *. destruct (Z.ltb_spec z 0); [lia|].
  destruct (nth_error l (Z.to_nat z)) as [a|] eqn:E; [exists a; reflexivity|]. apply nth_error_None in E. lia.
Qed.
Lemma get_range : forall A (l : list A) z a, get l z = ROk a -> 0 <= z < zlen l /\ nth_error l (Z.to_nat z) = Some a.
Proof.
  intros A l z a H. unfold get, zlen in *. destruct (Z.ltb_spec z 0); [discriminate H|].
  destruct (nth_error l (Z.to_nat z)) as [b|] eqn:E; [|discriminate H]. injection H as ->.
  split; [|reflexivity]. assert (Z.to_nat z < length l)%nat by (apply nth_error_Some; congruence). lia.
Qed.
Lemma get_cases : forall A (l : list A) z, (exists a, get l z = ROk a) \/ get l z = RUB.
Proof. intros A l z. unfold get. destruct (z <? 0); [right; reflexivity|]. destruct (nth_error l _); [left; eexists; reflexivity|right; reflexivity]. Qed.

Lemma rmap_ok : forall A B (f : A -> res B) l, (forall a, In a l -> exists b, f a = ROk b) -> exists r, rmap f l = ROk r.
Proof.
  intros A B f l. induction l as [|a l IH]; intros H; [exists []; reflexivity|].
  destruct (H a (or_introl eq_refl)) as [b E]. destruct (IH (fun x I => H x (or_intror I))) as [r R].
  exists (b :: r). cbn [rmap]. rewrite E. cbn [rbind]. rewrite R. reflexivity.
Qed.

(** Chains of nodes from a node down. *)
Inductive chain (nodes : list node) : Z -> nat -> Prop :=
  | chain_one : forall n a, get nodes n = ROk a -> chain nodes n 1
  | chain_more : forall n a c k, get nodes n = ROk a -> 0 <= c -> c = n_c0 a \/ c = n_c1 a ->
      chain nodes c k -> chain nodes n (S k).

Lemma height_chain : forall nodes fuel n h, height fuel nodes n = Some (ROk h) ->
  chain nodes n (Z.to_nat h) /\ 1 <= h /\ forall k, chain nodes n k -> Z.of_nat k <= h.
Proof.
  intros nodes fuel. induction fuel as [|fuel IH]; intros n h H; [discriminate H|].
  cbn [height] in H. destruct (get_cases _ nodes n) as [[a G]|G]; rewrite G in H; [|discriminate H]. cbv zeta in H.
  assert (CH : forall c x, (if 0 <=? c then height fuel nodes c else Some (ROk 0)) = Some (ROk x) ->
     0 <= x /\ (c < 0 -> x = 0) /\ (0 <= c -> 1 <= x /\ chain nodes c (Z.to_nat x) /\ forall k, chain nodes c k -> Z.of_nat k <= x)).
  { intros c x X. destruct (Z.leb_spec 0 c) as [C|C].
    - destruct (IH c x X) as (P & Q & R). split; [lia|]. split; [lia|]. intros _. auto.
    - injection X as <-. split; [lia|]. split; [reflexivity|lia]. }
  destruct (if 0 <=? n_c0 a then height fuel nodes (n_c0 a) else Some (ROk 0)) as [[x| |]|] eqn:E0; try discriminate H.
  destruct (if 0 <=? n_c1 a then height fuel nodes (n_c1 a) else Some (ROk 0)) as [[y| |]|] eqn:E1; try discriminate H.
  assert (Hh : h = Z.max x y + 1) by congruence. subst h. clear H.
  destruct (CH _ _ E0) as (X1 & X2 & X3). destruct (CH _ _ E1) as (Y1 & Y2 & Y3). clear CH E0 E1 IH.
  split; [|split; [lia|]].
  - destruct (Z_le_gt_dec y x) as [L|L].
    + rewrite Z.max_l by lia. replace (Z.to_nat (x + 1)) with (S (Z.to_nat x)) by lia.
      destruct (Z_lt_ge_dec (n_c0 a) 0) as [C|C].
      * rewrite (X2 C) in *. change (Z.to_nat 0) with O. eapply chain_one. exact G.
      * destruct (X3 ltac:(lia)) as (P & Q & _). eapply chain_more; [exact G| |left; reflexivity|exact Q]. lia.
    + rewrite Z.max_r by lia. replace (Z.to_nat (y + 1)) with (S (Z.to_nat y)) by lia.
      destruct (Z_lt_ge_dec (n_c1 a) 0) as [C|C]; [specialize (Y2 C); lia|].
      destruct (Y3 ltac:(lia)) as (P & Q & _). eapply chain_more; [exact G| |right; reflexivity|exact Q]. lia.
  - intros k K. inversion K as [n' a' G'|n' a' c k' G' C0 C1 K']; subst; [lia|].
    rewrite G in G'. injection G' as <-. destruct C1 as [->| ->].
    + destruct (X3 C0) as (_ & _ & R). specialize (R _ K'). lia.
    + destruct (Y3 C0) as (_ & _ & R). specialize (R _ K'). lia.
Qed.

Lemma height_total : forall nodes (rank : Z -> nat),
  (forall n a c, get nodes n = ROk a -> c = n_c0 a \/ c = n_c1 a -> 0 <= c -> c < zlen nodes /\ (rank c < rank n)%nat) ->
  forall fuel n, 0 <= n < zlen nodes -> (rank n < fuel)%nat -> exists h, height fuel nodes n = Some (ROk h).
Proof.
  intros nodes rank R fuel. induction fuel as [|fuel IH]; intros n N F; [lia|].
  cbn [height]. destruct (get_ok _ nodes n N) as [a G]. rewrite G. cbv zeta.
  assert (CH : forall c, c = n_c0 a \/ c = n_c1 a -> exists x, (if 0 <=? c then height fuel nodes c else Some (ROk 0)) = Some (ROk x)).
  { intros c C. destruct (Z.leb_spec 0 c) as [P|P]; [|eexists; reflexivity].
    destruct (R n a c G C P) as [A B]. apply IH; lia. }
  destruct (CH (n_c0 a) (or_introl eq_refl)) as [x ->]. destruct (CH (n_c1 a) (or_intror eq_refl)) as [y ->]. eexists. reflexivity.
Qed.
Lemma height_more : forall nodes fuel n r, height fuel nodes n = Some r -> height (S fuel) nodes n = Some r.
Proof.
  intros nodes fuel. induction fuel as [|fuel IH]; intros n r H; [discriminate H|].
  cbn [height] in H. change (height (S (S fuel)) nodes n) with
    (match get nodes n with
     | ROk a =>
       let child c := if 0 <=? c then height (S fuel) nodes c else Some (ROk 0) in
       match child (n_c0 a) with
       | None => None
       | Some (ROk x) => match child (n_c1 a) with
                         | None => None
                         | Some (ROk y) => Some (ROk (Z.max x y + 1))
                         | Some e => Some e
                         end
       | Some e => Some e
       end
     | _ => Some RUB
     end).
  destruct (get nodes n) as [a| |]; [|exact H|exact H]. cbv zeta in *.
  assert (CH : forall c q, (if 0 <=? c then height fuel nodes c else Some (ROk 0)) = Some q ->
                           (if 0 <=? c then height (S fuel) nodes c else Some (ROk 0)) = Some q).
  { intros c q Q. destruct (0 <=? c); [apply IH; exact Q|exact Q]. }
  destruct (if 0 <=? n_c0 a then height fuel nodes (n_c0 a) else Some (ROk 0)) as [q|] eqn:E0; [|discriminate H].
  rewrite (CH _ _ E0). destruct q as [x| |]; [|exact H|exact H].
  destruct (if 0 <=? n_c1 a then height fuel nodes (n_c1 a) else Some (ROk 0)) as [q|] eqn:E1; [|discriminate H].
  rewrite (CH _ _ E1). exact H.
Qed.
