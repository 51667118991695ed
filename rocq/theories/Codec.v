(* Little-endian byte codecs: the common/cmdlib.hh stream operators [<=] and [>=]
   under std::endian::little, and combinators with a generic round-trip lemma. *)
From Coq Require Import List Arith NArith ZArith Bool Lia ZifyBool ZifyNat ZifyN.
Import ListNotations.
From Verif Require Import Base.
Ltac Zify.zify_post_hook ::= Z.div_mod_to_equations.

(** A reader takes the remaining bytes; [None] is a failed stream read. *)
Definition reader (A : Type) := list N -> option (A * list N).

(** include/common/cmdlib.hh:218-296 ([operator<=] of the integral types): writing an
    integral type of [n] bytes with little-endian stream order emits the least
    significant byte first. Floats and doubles (278-296) are written as their bit
    patterns, so they are modelled as unsigned integers of 4 and 8 bytes. *)
Fixpoint put_le (n : nat) (v : N) : list N :=
  match n with O => [] | S m => (v mod 256)%N :: put_le m (v / 256)%N end.

(** include/common/cmdlib.hh:375-453, the matching [operator>=]. A short stream sets
    failbit and leaves the value unspecified: [None]. *)
Fixpoint get_le (n : nat) : reader N := fun l =>
  match n with
  | O => Some (0%N, l)
  | S m => match l with
           | [] => None
           | b :: t => match get_le m t with
                       | None => None
                       | Some (v, r) => Some ((b + 256 * v)%N, r)
                       end
           end
  end.

(** Two's complement views of a signed integral type of [n] bytes. *)
Definition to_unsigned (n : nat) (z : Z) : N := Z.to_N (z mod 256 ^ Z.of_nat n)%Z.
Definition of_unsigned (n : nat) (v : N) : Z :=
  (if 256 ^ Z.of_nat n <=? 2 * Z.of_N v then Z.of_N v - 256 ^ Z.of_nat n else Z.of_N v)%Z.

Definition put_s (n : nat) (z : Z) : list N := put_le n (to_unsigned n z).
Definition get_s (n : nat) : reader Z := fun l =>
  match get_le n l with Some (v, r) => Some (of_unsigned n v, r) | None => None end.

Definition urange (n : nat) (v : N) : Prop := (v < 256 ^ N.of_nat n)%N.
Definition srange (n : nat) (z : Z) : Prop :=
  (- 256 ^ Z.of_nat n <= 2 * z < 256 ^ Z.of_nat n)%Z.

(** [codec_ok wf put get]: reading what was written returns it and leaves the rest. *)
Definition codec_ok {A} (wf : A -> Prop) (put : A -> list N) (get : reader A) : Prop :=
  forall a rest, wf a -> get (put a ++ rest) = Some (a, rest).

Lemma put_le_length : forall n v, length (put_le n v) = n.
Proof. induction n; intros; simpl; [reflexivity|]. rewrite IHn. reflexivity. Qed.

Lemma put_le_bytes : forall n v, Forall is_byte (put_le n v).
Proof. induction n; intros; simpl; constructor; [unfold is_byte; lia|apply IHn]. Qed.

Lemma put_s_length : forall n v, length (put_s n v) = n.
Proof. intros. apply put_le_length. Qed.

Lemma put_s_bytes : forall n v, Forall is_byte (put_s n v).
Proof. intros. apply put_le_bytes. Qed.

Lemma le_ok : forall n, codec_ok (urange n) (put_le n) (get_le n).
Proof.
  unfold codec_ok, urange. induction n as [|n IH]; intros v rest H.
  - simpl in *. assert (v = 0)%N by lia. subst. reflexivity.
  - cbn [put_le app get_le]. rewrite IH.
    + f_equal. f_equal. lia.
    + rewrite Nat2N.inj_succ, N.pow_succ_r' in H. lia.
Qed.

Lemma to_of_unsigned : forall n z, srange n z -> of_unsigned n (to_unsigned n z) = z.
Proof.
  intros n z H. unfold srange, of_unsigned, to_unsigned in *.
  assert (0 < 256 ^ Z.of_nat n)%Z by (apply Z.pow_pos_nonneg; lia).
  set (M := (256 ^ Z.of_nat n)%Z) in *. clearbody M.
  rewrite Z2N.id by (apply Z.mod_pos_bound; lia).
  destruct (Z_lt_ge_dec z 0).
  - assert (E : (z mod M = z + M)%Z).
    { symmetry. apply (Z.mod_unique z M (-1)); lia. }
    rewrite E. destruct (M <=? 2 * (z + M))%Z eqn:Q; lia.
  - rewrite Z.mod_small by lia. destruct (M <=? 2 * z)%Z eqn:Q; lia.
Qed.

Lemma to_unsigned_range : forall n z, urange n (to_unsigned n z).
Proof.
  intros. unfold urange, to_unsigned.
  assert (0 < 256 ^ Z.of_nat n)%Z by (apply Z.pow_pos_nonneg; lia).
  pose proof (Z.mod_pos_bound z (256 ^ Z.of_nat n) H).
  apply N2Z.inj_lt. rewrite Z2N.id by lia. rewrite N2Z.inj_pow. rewrite nat_N_Z. lia.
Qed.

Lemma s_ok : forall n, codec_ok (srange n) (put_s n) (get_s n).
Proof.
  unfold codec_ok. intros n z rest H. unfold put_s, get_s.
  rewrite le_ok by apply to_unsigned_range. rewrite to_of_unsigned by assumption. reflexivity.
Qed.

(** ** Combinators (include/common/cmdlib.hh:299-336, 456-495: arrays, tuples, records) *)
Definition put_pair {A B} (pa : A -> list N) (pb : B -> list N) (x : A * B) : list N :=
  pa (fst x) ++ pb (snd x).
Definition get_pair {A B} (ga : reader A) (gb : reader B) : reader (A * B) := fun l =>
  match ga l with
  | None => None
  | Some (a, l') => match gb l' with None => None | Some (b, l'') => Some ((a, b), l'') end
  end.

Lemma pair_ok : forall A B wa wb (pa : A -> list N) ga (pb : B -> list N) gb,
  codec_ok wa pa ga -> codec_ok wb pb gb ->
  codec_ok (fun x => wa (fst x) /\ wb (snd x)) (put_pair pa pb) (get_pair ga gb).
Proof.
  unfold codec_ok, put_pair, get_pair. intros A B wa wb pa ga pb gb Ha Hb [a b] rest [H1 H2].
  simpl in *. rewrite <- app_assoc. rewrite Ha by assumption. rewrite Hb by assumption. reflexivity.
Qed.

(** A fixed number of elements (std::array, or a std::vector resized beforehand). *)
Fixpoint put_list {A} (p : A -> list N) (l : list A) : list N :=
  match l with [] => [] | a :: t => p a ++ put_list p t end.
Fixpoint get_list {A} (g : reader A) (n : nat) : reader (list A) := fun l =>
  match n with
  | O => Some ([], l)
  | S m => match g l with
           | None => None
           | Some (a, l') => match get_list g m l' with
                             | None => None
                             | Some (t, l'') => Some (a :: t, l'')
                             end
           end
  end.

Lemma list_ok : forall A w (p : A -> list N) g n, codec_ok w p g ->
  codec_ok (fun l => length l = n /\ Forall w l) (put_list p) (get_list g n).
Proof.
  unfold codec_ok. intros A w p g n Hc l. revert n.
  induction l as [|a t IH]; intros n rest [Hl HF]; simpl in Hl; subst n; simpl; [reflexivity|].
  inversion HF; subst. rewrite <- app_assoc, Hc by assumption.
  rewrite IH by auto. reflexivity.
Qed.

(** Reinterpretation through a bijection on well-formed values. *)
Lemma iso_ok : forall A B wa (pa : A -> list N) ga (f : A -> B) (g : B -> A),
  codec_ok wa pa ga ->
  codec_ok (fun b => wa (g b) /\ f (g b) = b) (fun b => pa (g b))
    (fun l => match ga l with Some (a, r) => Some (f a, r) | None => None end).
Proof.
  unfold codec_ok. intros A B wa pa ga f g Ha b rest [H1 H2]. rewrite Ha by assumption. congruence.
Qed.

(** Raw bytes of a given length. *)
Definition get_raw (n : nat) : reader (list N) := fun l =>
  if Nat.leb n (length l) then Some (firstn n l, skipn n l) else None.

Lemma raw_ok : forall n, codec_ok (fun l => length l = n) (fun l => l) (get_raw n).
Proof.
  unfold codec_ok, get_raw. intros n a rest H.
  replace (Nat.leb n (length (a ++ rest))) with true by (symmetry; apply Nat.leb_le; rewrite app_length; lia).
  rewrite firstn_app, skipn_app, H, Nat.sub_diag, firstn_O, skipn_O, app_nil_r.
  rewrite <- H, firstn_all, skipn_all. reflexivity.
Qed.

Lemma put_list_length : forall A (p : A -> list N) k l, (forall a, In a l -> length (p a) = k) ->
  length (put_list p l) = k * length l.
Proof.
  induction l as [|a t IH]; intros H; simpl; [lia|].
  rewrite app_length, IH by (intros; apply H; right; assumption).
  rewrite H by (left; reflexivity). lia.
Qed.

Lemma put_list_app : forall A (p : A -> list N) a b, put_list p (a ++ b) = put_list p a ++ put_list p b.
Proof. induction a; intros; simpl; [reflexivity|]. rewrite IHa, app_assoc. reflexivity. Qed.
