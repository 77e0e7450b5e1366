(** Property theorems for time reversal: C86. *)
From Coq Require Import List ZArith Reals Bool Arith Lia Lra.
From Verif Require Import Base RC M_Tensor S_Tensor M_Evect S_Evect M_Grid S_Grid L_Grid6 M_Op S_Op L_Op L_Op2 L_Op3 L_Op5 S_Eig S_Kpt M_Mx L_Mx1 L_Mx3 S_Mir S_Mx L_Mir2 L_Mir3 L_Mir4 S_Cmp S_Spec S_Rev L_Rev2 L_Rev3 L_Rev4 P_Spec.
Import ListNotations.
Local Open Scope Z_scope.

(** Every field with nothing at the outermost frequencies has its complex conjugate at -k. *)
Theorem C86_field d d' k G1 G2 G3 X : reversed d d' k G1 G2 G3 -> S_Op.fields d X ->
  exists X', S_Op.fields d' X' /\ ep X' = ep X /\ forall b, 0 <= b < ep X -> inside_band d X b -> conjugate d' X' b d X b.
Proof.
  intros Rv FX. pose proof FX as ((_ & _ & _) & _). exists (rev_of d d' (Z.to_nat (ep X)) X). destruct (rev_of_op d d' k G1 G2 G3 Rv (Z.to_nat (ep X)) X) as (F & P). split; [exact F|].
  assert (Hp : 0 <= ep X) by (destruct FX as ((A & B & D) & _); lia). split; [lia|]. intros b Hb Ib. replace b with (Z.of_nat (Z.to_nat b)) in * by lia. apply (rev_conjugate d d' k G1 G2 G3 Rv); [exact Ib|lia].
Qed.
Print Assumptions C86_field.

(** Conjugate fields have the conjugate products, and the operators of the structure at k and of the
    reversed structure at -k have the conjugate matrix elements between them. *)
Theorem C86_operator d d' k G1 G2 G3 n n' X Y X' Y' o o' f f' AY AY' g g' i j i' j' : reversed d d' k G1 G2 G3 -> ready n d Y o f -> ready n' d' Y' o' f' -> S_Op.fields d X -> S_Op.fields d' X' ->
  maxwell_operator n d Y o f = Some (Val (AY, g)) -> maxwell_operator n' d' Y' o' f' = Some (Val (AY', g')) -> 0 <= i -> 0 <= j < ep Y -> 0 <= j' < ep Y' ->
  inside_band d X i -> inside_band d Y j -> conjugate d' X' i' d X i -> conjugate d' Y' j' d Y j ->
  dotl X' Y' i' j' = Cconj (dotl X Y i j) /\ dotl X' AY' i' j' = Cconj (dotl X AY i j).
Proof.
  intros Rv Ry Ry' Fx Fx' E E' Hi Hj Hj' Ix Iy Cx Cy. pose proof Rv as (Md & Md' & _). split.
  - apply (conj_dot d d' k G1 G2 G3 Rv); auto; lia.
  - rewrite (op_dot _ _ X _ _ _ _ _ i j (made_wfd _ _ _ _ _ Md) Fx Ry E Hj), (op_dot _ _ X' _ _ _ _ _ i' j' (made_wfd _ _ _ _ _ Md') Fx' Ry' E' Hj'). apply (conj_op d d' k G1 G2 G3 Rv); auto; lia.
Qed.
Print Assumptions C86_operator.

(** The conjugates of bands found at k are bands of the reversed structure at -k, with the same
    frequencies. *)
Theorem C86_bands_partial d d' k G1 G2 G3 num bs b0 zero_k negative_ok parity H MH f w : reversed d d' k G1 G2 G3 -> 0 < d_nfb d' -> (zero_k = true -> k = (0, 0, 0)%R) -> wanted parity 0 1 = 0 -> wanted parity 2 3 = 0 ->
  Z.of_nat b0 = (if zero_k then const_count parity (Z.of_nat num) else 0) ->
  mx_bands d num bs b0 zero_k negative_ok parity H MH f w -> (forall i, (b0 <= i < num)%nat -> inside_band d H (Z.of_nat i)) ->
  exists H' MH', mx_muinv d' H' H' = Val MH' /\ (forall i, (i < num)%nat -> conjugate d' H' (Z.of_nat i) d H (Z.of_nat i)) /\ mx_bands d' num bs b0 zero_k negative_ok parity H' MH' f w.
Proof. intros Rv. apply (conj_bands d d' k G1 G2 G3 Rv). Qed.
Print Assumptions C86_bands_partial.

(** So the exact squared frequencies of the reversed structure at -k are not above those found at k. *)
Theorem C86_above_partial d d' k G1 G2 G3 num bs b0 zero_k negative_ok parity H MH f w : reversed d d' k G1 G2 G3 -> 0 < d_nfb d' -> (zero_k = true -> k = (0, 0, 0)%R) -> wanted parity 0 1 = 0 -> wanted parity 2 3 = 0 ->
  Z.of_nat b0 = (if zero_k then const_count parity (Z.of_nat num) else 0) ->
  mx_bands d num bs b0 zero_k negative_ok parity H MH f w -> (forall i, (b0 <= i < num)%nat -> inside_band d H (Z.of_nat i)) ->
  exists m lam, exact_bands d' m parity zero_k lam /\ (num - b0 <= m)%nat /\
    (forall l j, (j < bs)%nat -> (b0 + l * bs + j < num)%nat -> (lam j <= w (b0 + l * bs + j)%nat)%R) /\
    (forall p, (b0 + p <= num)%nat -> (rsum p lam <= rsum p (fun j => w (b0 + j)%nat))%R).
Proof.
  intros Rv Hn Zk P1 P2 Eb Bd Ins. destruct (C86_bands_partial d d' k G1 G2 G3 num bs b0 zero_k negative_ok parity H MH f w Rv Hn Zk P1 P2 Eb Bd Ins) as (H' & MH' & E & _ & Bd').
  pose proof Rv as (_ & Md' & _ & _ & _ & _ & _ & Em'). apply (C85_found d' num bs b0 zero_k negative_ok parity H' MH' f w); auto; [exact (made_wfd _ _ _ _ _ Md')|exact (made_basis _ _ _ _ _ Md')|]. intros mu Q. rewrite Em' in Q. discriminate.
Qed.
Print Assumptions C86_above_partial.

(** For all fields it is false: the exact frequencies at k and -k differ, already in vacuum, because
    the frequencies of the grid are not symmetric about 0. *)
Theorem C86_refuted : exists d d' k G1 G2 G3 m lam lam' j, reversed d d' k G1 G2 G3 /\ exact_bands d m 0 false lam /\ exact_bands d' m 0 false lam' /\ (j < m)%nat /\ (lam' j < lam j)%R.
Proof. exact rv_differ. Qed.
Print Assumptions C86_refuted.

(** Four points along z, one of them with a complex tensor, and the conjugate structure; the waves of
    order 0, 1 and -1; a band of lowest order. *)
Definition re_T (s : R) : sym := mkSym 1 1 1 (0, s)%R C0 C0.
Definition re_d (t : list kdata) (s : R) : mdata := create_shape 1 1 4 1 t [iso 1; re_T s; iso (/ 3); iso (/ 2)] None [] 0%R.
Definition re_X (a b c d e f : C) : emat C := {| en := 8; ep := 1; ealloc := 1; edata := [a; b; c; d; C0; C0; e; f] |}.
Lemma re_inside t s a b c d e f : inside_band (re_d t s) (re_X a b c d e f) 0.
Proof.
  intros x y z u Hx Hy Hz Hu O. cbn [re_d create_shape d_nx d_ny d_nz] in *. unfold outermost in O. assert (Ex : x = 0) by lia. assert (Ey : y = 0) by lia. assert (Ez : z = 2) by lia. subst. assert (u = 0 \/ u = 1) as [-> | ->] by lia; reflexivity.
Qed.
Lemma re_ready t s a b c d e f : ready 1 (re_d t s) (re_X a b c d e f) (re_X a b c d e f) (repeat C0 12).
Proof. unfold ready, S_Op.fields, wf, scratch; repeat split; cbn; lia. Qed.
Example C86_ex : exists t t', reversed (re_d t (/ 2)) (re_d t' (- / 2)) (rv_k (/ 4)) mr_k mr_2 mr_3 /\
  exists MH w, mx_bands (re_d t (/ 2)) 1 1 0 false true 0 (re_X C1 C0 C0 C0 C0 C0) MH [w 0%nat] w /\ inside_band (re_d t (/ 2)) (re_X C1 C0 C0 C0 C0 C0) 0.
Proof.
  assert (Tb : forall s, exists t, k_plus_G 1 1 4 0 1 (rv_k s) mr_k mr_2 mr_3 = Val t) by (intros s; destruct (table_ok 1 1 4 0 1 (rv_k s) mr_k mr_2 mr_3 ltac:(lia) ltac:(lia) ltac:(lia)) as (t & E & _); eauto).
  assert (Mk : forall s u t, k_plus_G 1 1 4 0 1 (rv_k s) mr_k mr_2 mr_3 = Val t -> made (re_d t u) (rv_k s) mr_k mr_2 mr_3) by (intros s u t E; exists 1, 1, 4, 1, t, [iso 1; re_T u; iso (/ 3); iso (/ 2)], None, [], 0%R; repeat (split; [lia || reflexivity || exact E || discriminate|]); reflexivity).
  destruct (Tb (/ 4)%R) as (t & E), (Tb (- / 4)%R) as (t' & E'). exists t, t'. split.
  - split; [apply Mk; exact E|]. split; [replace (rsc (-1) (rv_k (/ 4))) with (rv_k (- / 4)) by (unfold rv_k, rsc; f_equal; [f_equal|]; ring); apply Mk; exact E'|]. repeat split.
    intros r i j Hr Hi Hj. change (Z.to_nat (npts (re_d t (/ 2)))) with 4%nat in Hr. cbn [re_d create_shape d_eps_inv]. destruct r as [|[|[|[|]]]]; [| | | |lia]; unfold sym_at; cbn [nth]; destruct i as [|[|[|]]], j as [|[|[|]]]; try lia; unfold iso, re_T; cbn [entry m00 m11 m22 m01 m02 m12]; apply C_eq; csimp; ring.
  - set (d := re_d t (/ 2)). set (H := re_X C1 C0 C0 C0 C0 C0). pose proof (Mk _ (/ 2)%R _ E) as Md. fold d in Md. pose proof (made_wfd _ _ _ _ _ Md) as Wd. pose proof (made_basis _ _ _ _ _ Md) as Ho.
    destruct (re_ready t (/ 2) C1 C0 C0 C0 C0 C0) as (FH & _). fold d H in FH. destruct (muinv_wide d Wd ltac:(reflexivity) H H FH FH ltac:(lia)) as (MH & EM & FM & PM & _ & V).
    assert (V0 : feq d (fld MH 0) (fld H 0)) by exact (V 0 ltac:(cbn; lia)).
    set (w := fun _ : nat => re (inner d (fld H 0) (opcol d (fld H 0)))). exists MH, w. split; [|apply re_inside].
    assert (Z0 : forall i, (0 <= i < 1)%nat -> i = 0%nat) by lia. assert (Mw : mean_form d (sym_at (d_eps_inv d)) (curl d MH 0) (curl d MH 0) = RtoC (w 0%nat)).
    { rewrite <- (gform_curl d _ MH MH 0 0 Ho), (gform_ext d _ _ _ _ _ _ V0 V0), (gform_curl d _ H H 0 0 Ho), <- (op_form d H H 0 0 Wd Ho eq_refl). unfold w. pose proof (opcol_sym d (fld H 0) (fld H 0)) as Q. destruct (inner d (fld H 0) (opcol d (fld H 0))) as (a & b). unfold Cconj in Q. cbn [re im fst snd] in *. injection Q as Q. unfold RtoC. f_equal. lra. }
    constructor; try discriminate; try (intros Q; exfalso; apply Q; reflexivity).
    + split; [exact FH|]. split; [reflexivity|]. split; [exact FM|]. split; [exact PM|reflexivity].
    + intros i Hi. replace i with 0%nat by lia. reflexivity.
    + intros i Hi. lia.
    + intros i j Hi Hj. rewrite (Z0 i Hi), (Z0 j Hj). cbn [Z.of_nat]. rewrite (dotl_inner d Wd H MH 0 0 FH), (inner_ext d _ _ _ _ (feq_refl d _) V0), <- (dotl_inner d Wd H H 0 0 FH). assert (En : forall n, (n < 8)%nat -> entC H (Z.of_nat n) 0 = if (n =? 0)%nat then C1 else C0) by (intros n Hn; do 8 (destruct n; [reflexivity|]); lia).
      unfold dotl. change (Z.to_nat (en H)) with 8%nat. rewrite (csum_ext 8 _ (fun n => if (n =? 0)%nat then C1 else C0)) by (intros n Hn; rewrite (En n Hn); destruct (n =? 0)%nat; apply C_eq; csimp; ring). cbn [csum Nat.eqb]. unfold delta. cbn [Nat.eqb]. apply C_eq; csimp; ring.
    + intros _ i r Hi Hr. replace i with 0%nat by lia. pose proof (Z.div_mod r 2 ltac:(lia)) as Dr. pose proof (Z.mod_pos_bound r 2 ltac:(lia)) as Mr. change (npts d) with 4 in Hr. pose proof (V0 (r / 2) (r mod 2) ltac:(change (npts d) with 4; lia) Mr) as Q. unfold fld in Q. rewrite <- Dr in Q. exact Q.
    + intros i j Hi Hj _. rewrite (Z0 i Hi), (Z0 j Hj). split; [|intros _; apply Rle_refl]. cbn [Z.of_nat]. rewrite Mw. unfold delta. cbn. apply C_eq; csimp; ring.
Qed.
(** Bands that mix the three waves have their conjugates too. *)
Example C86_field_ex t s a b c d e f : S_Op.fields (re_d t s) (re_X a b c d e f) /\ inside_band (re_d t s) (re_X a b c d e f) 0 /\ ready 1 (re_d t s) (re_X a b c d e f) (re_X a b c d e f) (repeat C0 12).
Proof. split; [apply re_ready|]. split; [apply re_inside|apply re_ready]. Qed.
