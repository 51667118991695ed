(* Exact values and outcomes that the more general statements leave open. *)
From Coq Require Import List Arith NArith ZArith Bool Lia.
Import ListNotations.
From Verif Require Import Base ParserModel ParserProofs PropertiesParser EntModel EntProofs Codec NumCastModel NumCastProofs BspRecModel BspRecProofs BspFileModel BspxModel BspxProofs
  CmdlibModel PrtModel PrtProofs TreeModel.

(** ** C62: the entity parser *)

(** The states after the tokens that the parser reads from [p] on, looked at or consumed. *)
Inductive reads (p : pstate) : pstate -> Prop :=
| reads_one : forall f q, parse_token f p = T_ret true q -> reads p q
| reads_more : forall f b q r, parse_token f p = T_ret b q -> reads q r -> reads p r.

Definition blank_end (q : pstate) : Prop := ps_token q = [] \/ isspace (last (ps_token q) 0%N) = true.

Definition inside (p : pstate) : Prop := exists t r, ps_mem p = t ++ 0%N :: r /\ (ps_left p <= length t)%nat.

Lemma inside_token : forall f p, inside p -> parse_token f p = T_error \/ exists b q, parse_token f p = T_ret b q /\ inside q.
Proof.
  intros f p (t & r & M & L). destruct (C16_tokenizer_in_bounds f p t r M L) as [H|(b & q & u & v & H & _ & M' & L' & _)]; [left; exact H|].
  right. exists b, q. split; [exact H|]. exists v, r. auto.
Qed.

Lemma trim_back_none : forall k, trim_back k = None -> k = [] \/ isspace (last k 0%N) = true.
Proof.
  induction k as [|c k IH]; intro H; [left; reflexivity|]. right. cbn [trim_back] in H.
  destruct (isspace (last (c :: k) 0%N)) eqn:E; [reflexivity|discriminate H].
Qed.

Lemma trim_front_end : forall k, trim_front k = [] \/ last (trim_front k) 0%N = last k 0%N.
Proof.
  induction k as [|c k IH]; [left; reflexivity|]. cbn [trim_front]. destruct (isspace c) eqn:E; [|right; reflexivity].
  destruct IH as [IH|IH]; [left; exact IH|]. destruct k as [|d k]; [left; reflexivity|]. right. rewrite IH. reflexivity.
Qed.

Lemma trim_front_all : forall k, trim_front k = [] -> k = [] \/ isspace (last k 0%N) = true.
Proof.
  induction k as [|c k IH]; intro H; [left; reflexivity|]. cbn [trim_front] in H. destruct (isspace c) eqn:E; [|discriminate H].
  right. destruct (IH H) as [->|X]; [exact E|]. destruct k; [exact E|exact X].
Qed.

Lemma trim_none : forall k, trim_back (trim_front k) = None -> k = [] \/ isspace (last k 0%N) = true.
Proof.
  intros k H. apply trim_back_none in H. destruct H as [H|H]; [exact (trim_front_all k H)|].
  destruct (trim_front_end k) as [E|E]; [exact (trim_front_all k E)|]. right. rewrite <- E. exact H.
Qed.

Lemma pairs_UB : forall fuel d p, inside p -> parse_pairs fuel d p = E_UB -> exists q, reads p q /\ blank_end q.
Proof.
  induction fuel as [|n IH]; intros d p I H; [discriminate H|]. cbn [parse_pairs] in H.
  destruct (inside_token PARSE_NORMAL p I) as [E|(b & p1 & E & I1)]; rewrite E in H; [discriminate H|]. destruct b; [|discriminate H].
  destruct (beq (ps_token p1) [125%N]); [discriminate H|].
  destruct (inside_token PARSE_NORMAL p1 I1) as [E2|(b & p2 & E2 & I2)]; rewrite E2 in H; [discriminate H|]. destruct b; [|discriminate H].
  destruct (beq (ps_token p2) [125%N]); [discriminate H|].
  destruct (trim_back (trim_front (ps_token p1))) as [k|] eqn:T.
  - destruct (IH _ p2 I2 H) as (q & R & B). exists q. split; [|exact B]. eapply reads_more; [exact E|]. eapply reads_more; [exact E2|exact R].
  - exists p1. split; [eapply reads_one; exact E|]. exact (trim_none _ T).
Qed.

Lemma pairs_inside : forall fuel d p r p', inside p -> parse_pairs fuel d p = E_ok (r, p') -> inside p' /\ reads p p'.
Proof.
  induction fuel as [|n IH]; intros d p r p' I H; [discriminate H|]. cbn [parse_pairs] in H.
  destruct (inside_token PARSE_NORMAL p I) as [E|(b & p1 & E & I1)]; rewrite E in H; [discriminate H|]. destruct b; [|discriminate H].
  destruct (beq (ps_token p1) [125%N]); [injection H as _ <-; split; [exact I1|eapply reads_one; exact E]|].
  destruct (inside_token PARSE_NORMAL p1 I1) as [E2|(b & p2 & E2 & I2)]; rewrite E2 in H; [discriminate H|]. destruct b; [|discriminate H].
  destruct (beq (ps_token p2) [125%N]); [discriminate H|].
  destruct (trim_back (trim_front (ps_token p1))) as [k|] eqn:T; [|discriminate H].
  destruct (IH _ p2 r p' I2 H) as [J R]. split; [exact J|]. eapply reads_more; [exact E|]. eapply reads_more; [exact E2|exact R].
Qed.

Lemma into_UB : forall fuel v p, inside p -> ents_parse_into fuel v p = E_UB -> exists q, reads p q /\ blank_end q.
Proof.
  induction fuel as [|n IH]; intros v p I H; [discriminate H|]. cbn [ents_parse_into] in H.
  destruct (ps_left p) eqn:L; [discriminate H|].
  destruct (inside_token PARSE_PEEK p I) as [E|(b & p1 & E & I1)]; rewrite E in H; [discriminate H|]. destruct b; [|discriminate H].
  destruct (ed_parse (S (length (ps_mem p1))) [] p1) as [[d p2]| | |] eqn:P; try discriminate H; unfold ed_parse in P;
    (destruct (inside_token PARSE_NORMAL p1 I1) as [E2|(b & p3 & E2 & I2)]; rewrite E2 in P; [discriminate P|]); destruct b.
  - destruct (beq (ps_token p3) [123%N]); [|discriminate P].
    destruct (pairs_inside _ _ _ _ _ I2 P) as [I3 R3]. destruct (IH _ p2 I3 H) as (q & R & Q). exists q. split; [|exact Q].
    eapply reads_more; [exact E|]. eapply reads_more; [exact E2|]. clear - R3 R. induction R3; eapply reads_more; eauto.
  - injection P as <- <-. destruct (IH _ p3 I2 H) as (q & R & Q). exists q. split; [|exact Q].
    eapply reads_more; [exact E|]. eapply reads_more; [exact E2|exact R].
  - destruct (beq (ps_token p3) [123%N]); [|discriminate P].
    destruct (pairs_UB _ _ _ I2 P) as (q & R & Q). exists q. split; [|exact Q]. eapply reads_more; [exact E|]. eapply reads_more; [exact E2|exact R].
  - discriminate P.
Qed.

(** C62. Whatever the text, parsing entities is undefined only if some token of it is empty or ends
    in a blank: every other bad text is reported as an error. *)
Theorem C62_undefined_only_for_blank_ends : forall text, ents_parse text = E_UB ->
  exists q, reads (new_parser (text ++ [0%N]) (length text)) q /\ blank_end q.
Proof.
  intros text H. unfold ents_parse in H.
  match type of H with match ?e with _ => _ end = _ => destruct e as [[v p]| | |] eqn:E; try discriminate H end.
  refine (into_UB _ _ _ _ E). exists text, (@nil N). split; [reflexivity|apply Nat.le_refl].
Qed.
Print Assumptions C62_undefined_only_for_blank_ends.
Example C62_undefined_only_nontrivial : ents_parse [123; 34; 34; 32; 97; 32; 125]%N = E_error /\ ents_parse [123; 32; 34; 34; 32; 97; 32; 125]%N = E_UB.
Proof. split; vm_compute; reflexivity. Qed.

(** ** C64: vis needs at least as many leafs in the BSP as the portal file lists. *)
Theorem C64_leaf_count : forall f nd n, pf_leafs f = Z.of_nat n ->
  (forall p, In p (pf_portals f) -> (0 <= pp_leaf0 p < Z.of_nat n)%Z /\ (0 <= pp_leaf1 p < Z.of_nat n)%Z) ->
  (load_portals false f nd = P_UB <-> nd < length (pf_clusters f) /\ 2 <= length (pf_clusters f)).
Proof.
  intros f nd n H1 H2.
  destruct (load_portals_spec true f nd n H1) as (t & cl & E & _); [apply Forall_forall; exact H2|left; reflexivity|].
  unfold load_portals in *. destruct (pf_leafs f <? 0)%Z; [discriminate E|]. unfold pbind in *.
  destruct (pair_portals (pf_portals f) (mkVT (repeat [] (Z.to_nat (pf_leafs f))) [])); try discriminate E.
  destruct (Nat.ltb_spec nd (length (pf_clusters f))); destruct (Nat.ltb_spec 1 (length (pf_clusters f))); cbn [andb]; split; intro X; try discriminate X; try reflexivity; lia.
Qed.
Print Assumptions C64_leaf_count.

(** ** C65: the number of portals announced in the header, whatever the portals' windings. *)

(** The lists of portals that are counted: of the uppermost detail nodes and of all leafs that are
    not solid, in the order of the tree. *)
Fixpoint counted {C} (solid : C -> bool) (below : bool) (t : tree nodeD (leafD C)) : list (list vportal) :=
  match t with
  | Node d a b => (if nd_detail d && negb below then [nd_portals d] else []) ++
                  counted solid (nd_detail d || below) a ++ counted solid (nd_detail d || below) b
  | Leaf l => if solid (lf_contents l) then [] else [lf_portals l]
  end.
Definition first_flooding (p : vportal) : bool := vp_first p && vp_flood p.

Lemma number_counted : forall C (solid : C -> bool) t s cl,
  st_portals (snd (number solid t s cl)) = st_portals s + length (filter first_flooding (concat (counted solid (match cl with Some _ => true | None => false end) t))).
Proof.
  intros C solid. induction t as [l|d a IHa b IHb]; intros s cl; cbn [number counted].
  - unfold lsolid. destruct (solid (lf_contents l)); [cbn; lia|]. cbn [concat]. rewrite app_nil_r. unfold count_portals, first_flooding. destruct cl; reflexivity.
  - destruct cl as [c|].
    + rewrite andb_false_r, orb_true_r. destruct (number solid a s (Some c)) as [a' s2] eqn:Ea. destruct (number solid b s2 (Some c)) as [b' s3] eqn:Eb.
      cbn [snd app]. specialize (IHa s (Some c)). rewrite Ea in IHa. specialize (IHb s2 (Some c)). rewrite Eb in IHb. cbn [snd] in IHa, IHb.
      rewrite concat_app, filter_app, app_length. lia.
    + destruct (nd_detail d).
      * cbn [negb andb orb]. match goal with |- context[number solid a ?x ?y] => destruct (number solid a x y) as [a' s2] eqn:Ea; specialize (IHa x y); rewrite Ea in IHa end.
        match goal with |- context[number solid b ?x ?y] => destruct (number solid b x y) as [b' s3] eqn:Eb; specialize (IHb x y); rewrite Eb in IHb end.
        cbn [snd st_portals app] in *. rewrite concat_cons, concat_app, !filter_app, !app_length. unfold count_portals in IHa. fold first_flooding in IHa. unfold first_flooding in *. lia.
      * cbn [negb andb orb]. match goal with |- context[number solid a ?x ?y] => destruct (number solid a x y) as [a' s2] eqn:Ea; specialize (IHa x y); rewrite Ea in IHa end.
        match goal with |- context[number solid b ?x ?y] => destruct (number solid b x y) as [b' s3] eqn:Eb; specialize (IHb x y); rewrite Eb in IHb end.
        cbn [snd st_portals app] in *. rewrite concat_app, !filter_app, !app_length. lia.
Qed.

Theorem C65_all_counted : forall C (solid : C -> bool) t,
  st_portals (snd (number_tree solid t)) = length (filter first_flooding (concat (counted solid false t))).
Proof. intros C solid t. unfold number_tree. rewrite number_counted. reflexivity. Qed.
Print Assumptions C65_all_counted.

(** ** C37: members a format has not. *)
Theorem C37_missing_members :
  (forall l, let m := of_q1leaf16 l in (l_cluster m, l_area m, l_fb m, l_nb m) = (0, 0, 0, 0)%Z) /\
  (forall l, let m := of_bsp2_leaf l in (l_cluster m, l_area m, l_fb m, l_nb m) = (0, 0, 0, 0)%Z) /\
  (forall l, let m := of_q2_leaf l in (l_visofs m, l_a0 m, l_a1 m, l_a2 m, l_a3 m) = (-1, 0, 0, 0, 0)%Z) /\
  (forall l, let m := of_qbism_leaf l in (l_visofs m, l_a0 m, l_a1 m, l_a2 m, l_a3 m) = (-1, 0, 0, 0, 0)%Z).
Proof. repeat split. Qed.
Print Assumptions C37_missing_members.

(** ** C58: single characters that are no digits sort as signed chars. *)
Theorem C58_characters : forall a b, (1 <= a <= 255)%N -> (1 <= b <= 255)%N -> t_digit a = false -> t_digit b = false ->
  natstrlt true [a] [b] = ((a + 128) mod 256 <? (b + 128) mod 256)%N.
Proof.
  intros a b A B Da Db.
  assert (F : forallb (fun a => forallb (fun b => t_digit a || t_digit b || Bool.eqb (natstrlt true [a] [b]) ((a + 128) mod 256 <? (b + 128) mod 256)%N)
                (map N.of_nat (seq 1 255))) (map N.of_nat (seq 1 255)) = true) by (vm_compute; reflexivity).
  rewrite forallb_forall in F.
  assert (I : forall x, (1 <= x <= 255)%N -> In x (map N.of_nat (seq 1 255))).
  { intros x X. apply in_map_iff. exists (N.to_nat x). split; [apply N2Nat.id|apply in_seq; lia]. }
  specialize (F a (I a A)). cbv beta in F. rewrite forallb_forall in F. specialize (F b (I b B)). cbv beta in F. rewrite Da, Db in F. cbn [orb] in F.
  apply eqb_prop. exact F.
Qed.
Print Assumptions C58_characters.

(** ** C75: a negative number of brushes is refused. *)
Theorem C75_negative_count : forall ms ver num cnt rest, Forall model_ok ms ->
  it_in i32 ver = true -> it_in i32 num = true -> it_in i32 cnt = true -> (cnt < 0)%Z ->
  read_brushlist (put_xmodels ms ++ put_z i32 ver ++ put_z i32 num ++ put_z i32 cnt ++ rest) = RThrow.
Proof.
  intros ms ver num cnt rest F V K Q L. unfold read_brushlist. rewrite xmodels_prefix; [|exact F|rewrite app_length; pose proof (put_xmodels_long ms); lia].
  assert (I : In i32 all_ity) by (cbn; tauto).
  match goal with |- context[get_xmodels ?n _] => destruct n as [|k] eqn:En end.
  - rewrite app_length in En. pose proof (put_xmodels_long ms). lia.
  - cbn [get_xmodels]. rewrite (z_ok i32 I ver _ V). cbn [get_fields]. rewrite (z_ok i32 I num _ K), (z_ok i32 I cnt _ Q).
    replace (cnt <? 0)%Z with true by (symmetry; apply Z.ltb_lt; exact L). reflexivity.
Qed.
Print Assumptions C75_negative_count.

(** ** C36: the limits that numeric_cast compares with are the nearest values of the floating type. *)
Theorem C36_nearest : forall p z m, (0 < p)%Z -> let u := (2 ^ Z.max 0 (Z.log2 (Z.abs z) + 1 - p))%Z in
  (exists k, round_int p z = k * u)%Z /\ (Z.abs (z - round_int p z) <= Z.abs (z - m * u))%Z /\
  (2 * Z.abs (z - round_int p z) = u -> Z.even (round_int p z / u) = true)%Z.
Proof.
  intros p z m P u. unfold round_int. cbv zeta. subst u. set (s := (Z.log2 (Z.abs z) + 1 - p)%Z).
  destruct (Z.leb_spec s 0) as [L|L].
  - rewrite Z.max_l by lia. change (2 ^ 0)%Z with 1%Z. split; [exists z; lia|]. split; lia.
  - rewrite Z.max_r by lia. set (u := (2 ^ s)%Z). assert (U : (0 < u)%Z) by (apply Z.pow_pos_nonneg; lia).
    assert (U2 : Z.even u = true). { unfold u. replace s with (Z.succ (s - 1)) by lia. rewrite Z.pow_succ_r by lia. rewrite Z.even_mul. reflexivity. }
    set (a := Z.abs z). assert (A : (0 <= a)%Z) by (unfold a; lia).
    pose proof (Z.div_mod a u ltac:(lia)) as D. pose proof (Z.mod_pos_bound a u U) as B.
    set (q := (a / u)%Z) in *. set (r := (a mod u)%Z) in *.
    set (q' := if ((u <? 2 * r) || ((2 * r =? u) && Z.odd q))%Z then (q + 1)%Z else q).
    assert (R : (2 * Z.abs (a - q' * u) <= u)%Z /\ (2 * Z.abs (a - q' * u) = u -> Z.even q' = true)%Z).
    { unfold q'. destruct (Z.ltb_spec u (2 * r)); cbn [orb].
      - replace (a - (q + 1) * u)%Z with (r - u)%Z by nia. split; lia.
      - destruct (Z.eqb_spec (2 * r) u) as [E|E]; cbn [andb].
        + destruct (Z.odd q) eqn:O.
          * replace (a - (q + 1) * u)%Z with (r - u)%Z by nia. split; [lia|]. intros _. rewrite Z.even_add, <- Z.negb_odd, O. reflexivity.
          * replace (a - q * u)%Z with r by nia. split; [lia|]. intros _. rewrite <- Z.negb_odd, O. reflexivity.
        + replace (a - q * u)%Z with r by nia. split; [lia|]. intro X. exfalso. lia. }
    destruct R as [R1 R2]. clearbody q'.
    assert (Sg : (z = Z.sgn z * a)%Z) by (unfold a; lia).
    assert (N1 : (Z.abs (z - Z.sgn z * (q' * u)) = Z.abs (a - q' * u) \/ z = 0)%Z).
    { unfold a. destruct (Z.lt_trichotomy z 0) as [Z1|[Z1|Z1]]; [left|right; exact Z1|left]; [rewrite (Z.sgn_neg z Z1)|rewrite (Z.sgn_pos z Z1)]; lia. }
    split; [exists (Z.sgn z * q')%Z; lia|]. split.
    + destruct N1 as [N1| ->]; [|cbn [Z.sgn]; lia]. rewrite N1.
      assert (W : forall w, (2 * Z.abs (z - w * u) < u -> 2 * Z.abs (z - Z.sgn z * q' * u) <= u -> Z.abs (z - w * u) >= Z.abs (z - Z.sgn z * q' * u))%Z).
      { intros w W1 W2. destruct (Z.eq_dec w (Z.sgn z * q')) as [->|NE]; [lia|].
        assert (u <= Z.abs ((w - Z.sgn z * q') * u))%Z by (rewrite Z.abs_mul; nia). nia. }
      destruct (Z_lt_le_dec (2 * Z.abs (z - m * u)) u) as [X|X]; [|lia]. specialize (W m X). rewrite <- Z.mul_assoc, N1 in W. lia.
    + intro X. destruct N1 as [N1| ->].
      * rewrite N1 in X. specialize (R2 X). rewrite Z.mul_assoc, Z.div_mul by lia. rewrite Z.even_mul, R2. apply orb_true_r.
      * cbn [Z.sgn Z.mul]. rewrite Z.div_0_l by lia. reflexivity.
Qed.
Print Assumptions C36_nearest.
