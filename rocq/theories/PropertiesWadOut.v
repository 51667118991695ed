(* Properties of exported WAD files (C130). *)
From Coq Require Import String.
From Coq Require Import List Arith NArith ZArith Bool Lia.
From Verif Require Import Base Codec NumCastModel BspRecModel ParserModel CmdlibModel CmdlibProofs FsModel FsProofs PropertiesFs BspFileModel WadOutModel WadOutProofs.
Import ListNotations.
Local Open Scope nat_scope.

(** * C130: bsputil --extract-textures *)

(** If the data of every texture that is exported is as long as its width and height say, the file is a WAD
    whose entries are these textures, in order, each with its data. *)
Theorem C130_wad : forall l, let ex := filter (fun t => 40 <? length (t_data t)) l in
  Forall regular ex -> (N.of_nat (12 + length ex * 32 + total ex) < 2 ^ 31)%N ->
  exists es, is_wad (export_wad l) es /\
    Forall2 (fun t e => e_name e = firstn 15 (t_name t) /\ data_of (export_wad l) e = t_data t /\ inside (export_wad l) e) ex es.
Proof. exact export_is_wad. Qed.
Print Assumptions C130_wad.

(** And any sequence of loads from it returns, for each name, the data of the last texture of that name. *)
Theorem C130_load : forall l, let ex := filter (fun t => 40 <? length (t_data t)) l in
  Forall regular ex -> (N.of_nat (12 + length ex * 32 + total ex) < 2 ^ 31)%N ->
  exists t s, wad_open (export_wad l) = ROk (t, s) /\
  forall names, Forall (fun n => ~ In 0%N n) names ->
    Forall2 (fun name r =>
      (exists a x b, ex = a ++ x :: b /\ same_name (firstn 15 (t_name x)) name /\ Forall (fun y => ~ same_name (firstn 15 (t_name y)) name) b /\ r = Some (t_data x)) \/
      (Forall (fun y => ~ same_name (firstn 15 (t_name y)) name) ex /\ r = None)) names (load_all t s names).
Proof.
  intros l ex R B. destruct (C130_wad l R B) as (es & W & F). fold ex in F.
  destruct (C86_archives_partial wad_open (export_wad l) es (or_intror (conj eq_refl W))) as (t & s & O & _ & L). exists t, s. split; [exact O|].
  assert (I : Forall (inside (export_wad l)) es) by (clear -F; induction F as [|x e l1 l2 H F IH]; constructor; tauto).
  assert (AB : forall name es' ex', Forall2 (fun t e => e_name e = firstn 15 (t_name t) /\ data_of (export_wad l) e = t_data t /\ inside (export_wad l) e) ex' es' ->
     Forall (fun x => ~ same_name (e_name x) name) es' -> Forall (fun y => ~ same_name (firstn 15 (t_name y)) name) ex').
  { intros name es' ex' F'. induction F' as [|x e l1 l2 H F' IH]; intros G; [constructor|]. inversion G; subst. destruct H as (H & _). constructor; [rewrite <- H; assumption|auto]. }
  intros names NN. specialize (L I names NN). clear NN. induction L as [|name r names rs H L IH]; constructor; [|exact IH].
  destruct H as [(e & (a & b & E & S & G) & ->)|(G & ->)].
  - left. subst es. clear -F S G AB. clearbody ex. revert ex F. induction a as [|a0 a IH]; intros ex F; inversion F as [|x e' l1 l2 H F' E1 E2]; subst.
    + exists [], x, l1. destruct H as (H1 & H2 & _). refine (conj eq_refl (conj _ (conj _ _))).
      * rewrite <- H1. exact S.
      * apply (AB name b l1 F' G).
      * rewrite H2. reflexivity.
    + destruct (IH l1 F') as (a' & y & b' & Q1 & Q). exists (x :: a'), y, b'. split; [rewrite Q1; reflexivity|exact Q].
  - right. split; [|reflexivity]. apply (AB name es ex F G).
Qed.
Print Assumptions C130_load.

(** Textures of 8 x 8 pixels have 125 bytes.  A BSP file pads them to 128, reading it takes the padding for
    data, and the entry after it in the WAD then begins three bytes early. *)
Definition name16 (s : string) : list N := let b := map Ascii.N_of_ascii (list_ascii_of_string s) in b ++ repeat 0%N (16 - length b).
Definition miptex_bytes (s : string) (w h pix extra : nat) (c : N) : list N :=
  name16 s ++ put_le 4 (N.of_nat w) ++ put_le 4 (N.of_nat h) ++ put_le 4 40 ++ put_le 4 104 ++ put_le 4 120 ++ put_le 4 124 ++ repeat c (pix + extra).
Definition small_a : list N := miptex_bytes "a" 8 8 85 0 7.
Definition small_b : list N := miptex_bytes "b" 8 8 85 0 9.
Definition of_read (r : rmip) : tex :=
  match rm_info r with Some i => mkTex (ip_name i) (Z.to_N (ip_w i)) (Z.to_N (ip_h i)) (rm_data r) | None => mkTex [] 0 0 (rm_data r) end.
Theorem C130_padding_refuted : exists file lu textures t s d,
  file = tex_write 0 [mkTexD false small_a; mkTexD false small_b] /\
  read_textures file lu = ROk textures /\
  wad_open (export_wad (map of_read textures)) = ROk (t, s) /\
  fst (arc_load t s [98%N]) = Some d /\ firstn 16 d <> name16 "b" /\ firstn 16 small_b = name16 "b".
Proof.
  exists (tex_write 0 [mkTexD false small_a; mkTexD false small_b]), (mkLump 0 (Z.of_nat (length (tex_write 0 [mkTexD false small_a; mkTexD false small_b])))).
  destruct (read_textures _ _) as [textures| | ] eqn:E; [|vm_compute in E; discriminate|vm_compute in E; discriminate].
  vm_compute in E. injection E as <-. eexists _, _, _, _. refine (conj eq_refl (conj eq_refl (conj _ (conj _ (conj _ _))))).
  - vm_compute. reflexivity.
  - vm_compute. reflexivity.
  - vm_compute. discriminate.
  - vm_compute. reflexivity.
Qed.
Print Assumptions C130_padding_refuted.

(** Half-Life textures have a palette behind the pixels: their entry ends before it, and the entry after
    begins in it. *)
Theorem C130_palette_refuted : exists a b t s d,
  length (t_data a) = 40 + 16 * 16 / 64 * 85 + 2 + 768 + 2 /\ t_w a = 16%N /\ t_h a = 16%N /\ regular b /\
  wad_open (export_wad [a; b]) = ROk (t, s) /\ fst (arc_load t s (t_name b)) = Some d /\ d <> t_data b.
Proof.
  exists (mkTex [97%N] 16 16 (miptex_bytes "a" 16 16 340 772 7)), (mkTex [98%N] 8 8 small_b). eexists _, _, _.
  refine (conj _ (conj eq_refl (conj eq_refl (conj _ (conj _ (conj _ _)))))).
  - vm_compute. reflexivity.
  - refine (conj _ (conj eq_refl eq_refl)). intros [Q|[]]. discriminate Q.
  - vm_compute. reflexivity.
  - vm_compute. reflexivity.
  - vm_compute. discriminate.
Qed.
Print Assumptions C130_palette_refuted.

(** Two textures and one without pixels, which is left out. *)
Example C130_nontrivial : let l := [mkTex [97%N] 8 8 small_a; mkTex [99%N] 16 16 (firstn 40 small_a); mkTex [98%N] 8 8 small_b] in
  length (export_wad l) = 12 + 2 * 32 + 2 * 125 /\
  exists t s, wad_open (export_wad l) = ROk (t, s) /\ load_all t s [[98]; [99]; [65]]%N = [Some small_b; None; Some small_a].
Proof. split; [vm_compute; reflexivity|]. eexists _, _. split; vm_compute; reflexivity. Qed.
