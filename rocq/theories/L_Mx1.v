(** Symmetric operations on single bands as Hermitian matrices. *)
From Coq Require Import List ZArith Reals Bool Arith Lia Lra.
From Verif Require Import Base RC M_Tensor S_Tensor M_Evect S_Evect M_Grid S_Grid M_Op S_Op L_Op L_Op2 L_Op3 L_Op4 L_Op5 M_Eig S_Eig L_Mat L_Eig2 S_Kpt L_Kpt1 L_Kpt2 M_Mx.
Import ListNotations.
Local Open Scope Z_scope.
Add Ring Cring_mx1 : C_ring_theory.

Section D.
Variable d : mdata.
Hypothesis Wd : wfd d.
Notation N := (npts d).
Notation NN := (Z.to_nat (npts d)).
Definition rows : nat := (2 * NN)%nat.

Definition unit_at (j : nat) : ff := fun g c => if 2 * g + c =? Z.of_nat j then C1 else C0.
Definition omat (T : ff -> ff) : mat := fun i j => if ((i <? rows) && (j <? rows))%nat then T (unit_at j) (Z.of_nat i / 2) (Z.of_nat i mod 2) else C0.
Definition symmetric (T : ff -> ff) : Prop := forall f h, inner d f (T h) = Cconj (inner d h (T f)).
Definition congruent (T : ff -> ff) : Prop := forall f h, feq d f h -> feq d (T f) (T h).

Lemma inner_rows f h : inner d f h = csum rows (fun i => (Cconj (f (Z.of_nat i / 2) (Z.of_nat i mod 2)) * h (Z.of_nat i / 2) (Z.of_nat i mod 2))%C).
Proof.
  unfold inner, rows. rewrite (csum_pairs NN (fun i => (Cconj (f (i / 2) (i mod 2)) * h (i / 2) (i mod 2))%C)). apply csum_ext. intros g _.
  replace (2 * Z.of_nat g + 1) with (1 + Z.of_nat g * 2) by lia. rewrite Z.div_add, Z.mod_add by lia. replace (2 * Z.of_nat g) with (Z.of_nat g * 2) by lia. rewrite Z.div_mul, Z.mod_mul by lia.
  change (1 / 2) with 0. change (1 mod 2) with 1. rewrite Z.add_0_l. reflexivity.
Qed.
Lemma row_in i : (i < rows)%nat -> 0 <= Z.of_nat i / 2 < N /\ 0 <= Z.of_nat i mod 2 < 2 /\ 2 * (Z.of_nat i / 2) + Z.of_nat i mod 2 = Z.of_nat i.
Proof.
  intros H. unfold rows in H. pose proof (Z.div_mod (Z.of_nat i) 2 ltac:(lia)). pose proof (Z.mod_pos_bound (Z.of_nat i) 2 ltac:(lia)).
  split; [split; [apply Z.div_pos; lia|apply Z.div_lt_upper_bound; lia]|]. split; [lia|lia].
Qed.
Lemma row_of g c : 0 <= g < N -> 0 <= c < 2 -> (Z.to_nat (2 * g + c) < rows)%nat /\ Z.of_nat (Z.to_nat (2 * g + c)) / 2 = g /\ Z.of_nat (Z.to_nat (2 * g + c)) mod 2 = c.
Proof.
  intros Hg Hc. unfold rows. split; [lia|]. rewrite Z2Nat.id by lia. replace (2 * g + c) with (c + g * 2) by lia. rewrite Z.div_add, Z.mod_add by lia. rewrite Z.div_small, Z.mod_small by lia. lia.
Qed.
Lemma inner_unit i h : (i < rows)%nat -> inner d (unit_at i) h = h (Z.of_nat i / 2) (Z.of_nat i mod 2).
Proof.
  intros Hi. rewrite inner_rows, (csum_single rows i); [|exact Hi|].
  - destruct (row_in i Hi) as (_ & _ & E). unfold unit_at. rewrite E, Z.eqb_refl. apply C_eq; csimp; ring.
  - intros k Hk N'. destruct (row_in k Hk) as (_ & _ & E). unfold unit_at. rewrite E. destruct (Z.eqb_spec (Z.of_nat k) (Z.of_nat i)); [lia|]. apply C_eq; csimp; ring.
Qed.
Lemma omat_dim T : mdim rows rows (omat T).
Proof. intros i j H. unfold omat. destruct (Nat.ltb_spec i rows), (Nat.ltb_spec j rows); cbn [andb]; try reflexivity; lia. Qed.
Lemma omat_herm T : symmetric T -> hermitian (omat T).
Proof.
  intros Sy. apply mext; intros i j. unfold madj, omat. destruct (Nat.ltb_spec i rows), (Nat.ltb_spec j rows); cbn [andb]; try (apply C_eq; csimp; ring).
  rewrite <- (inner_unit j), <- (inner_unit i) by assumption. symmetry. apply Sy.
Qed.
Lemma omat_col T f g c : symmetric T -> 0 <= g < N -> 0 <= c < 2 ->
  T f g c = csum rows (fun j => (omat T (Z.to_nat (2 * g + c)) j * f (Z.of_nat j / 2) (Z.of_nat j mod 2))%C).
Proof.
  intros Sy Hg Hc. destruct (row_of g c Hg Hc) as (Hi & Eg & Ec). set (i := Z.to_nat (2 * g + c)) in *.
  transitivity (inner d (unit_at i) (T f)); [rewrite inner_unit, Eg, Ec by exact Hi; reflexivity|]. rewrite Sy, inner_rows, csum_conj. apply csum_ext. intros j Hj.
  pose proof (f_equal (fun m => m i j) (omat_herm T Sy)) as Hm. unfold madj in Hm. cbv beta in Hm. rewrite <- Hm. unfold omat.
  destruct (Nat.ltb_spec i rows), (Nat.ltb_spec j rows); try lia. cbn [andb]. rewrite Cconj_mul, Cconj_conj. ring.
Qed.
Lemma omat_entry T i j : (i < rows)%nat -> (j < rows)%nat -> omat T i j = T (unit_at j) (Z.of_nat i / 2) (Z.of_nat i mod 2).
Proof. intros Hi Hj. unfold omat. destruct (Nat.ltb_spec i rows), (Nat.ltb_spec j rows); try lia. reflexivity. Qed.

(** Blocks of fields in the sense of the operators and of the eigensolver. *)
Lemma rows_Z : Z.of_nat rows = 2 * N.
Proof. unfold rows. pose proof (N_pos d Wd). lia. Qed.
Lemma to_op q X M : S_Eig.fields rows q X M -> S_Op.fields d X.
Proof. intros (En & _ & W & _). split; [exact W|]. rewrite En. apply rows_Z. Qed.
Lemma fld_M q X M b i : S_Eig.fields rows q X M -> (i < rows)%nat -> (b < q)%nat -> fld X (Z.of_nat b) (Z.of_nat i / 2) (Z.of_nat i mod 2) = M i b.
Proof. intros F Hi Hb. unfold fld. destruct (row_in i Hi) as (_ & _ & ->). apply (fields_at rows q X M i b F Hi Hb). Qed.

Lemma col_fields T q m X M Y : symmetric T -> S_Eig.fields rows m X M -> (q <= m)%nat -> S_Op.fields d Y -> ep Y = Z.of_nat q ->
  (forall b, 0 <= b < Z.of_nat q -> feq d (fld Y b) (T (fld X b))) -> S_Eig.fields rows q Y (slice 0 q (mmul rows (omat T) M)).
Proof.
  intros Sy FX Hq (WY & NY) PY H. apply fields_of; [exact WY|rewrite NY; symmetry; apply rows_Z|exact PY| |].
  - apply (slice_dim rows m). apply (mdim_mul rows rows m); [apply omat_dim|apply (fields_dim _ _ _ _ FX)].
  - intros i j Hi Hj. unfold slice. destruct (Nat.ltb_spec j q); [|lia]. cbn [Nat.add].
    destruct (row_in i Hi) as (Hg & Hc & E). pose proof (H (Z.of_nat j) ltac:(lia) _ _ Hg Hc) as Q. unfold fld at 1 in Q. rewrite E in Q. rewrite Q, (omat_col T _ _ _ Sy Hg Hc), E, Nat2Z.id.
    unfold mmul. apply csum_ext. intros l Hl. rewrite (fld_M m X M j l FX Hl ltac:(lia)). reflexivity.
Qed.
Lemma col_applies T q (op : emat C -> outcome (emat C)) : symmetric T -> (1 <= q)%nat ->
  (forall X, S_Op.fields d X -> ep X = Z.of_nat q -> exists Y, op X = Val Y /\ S_Op.fields d Y /\ ep Y = ep X /\ forall b, 0 <= b < ep X -> feq d (fld Y b) (T (fld X b))) ->
  applies rows q op (omat T).
Proof.
  intros Sy Hq Op X M FX. pose proof FX as (_ & PX & _). destruct (Op X (to_op q X M FX) PX) as (Y & E & FY & PY & H). exists Y. split; [exact E|].
  assert (D : mdim rows q (mmul rows (omat T) M)) by (apply (mdim_mul rows rows q); [apply omat_dim|apply (fields_dim _ _ _ _ FX)]).
  rewrite <- (slice_all rows q _ D). apply (col_fields T q q X M Y); auto; [congruence|]. intros b Hb. apply H. lia.
Qed.
(** Matrix elements. *)
Lemma form_omat T q r X M Y M' i j : symmetric T -> S_Eig.fields rows q X M -> S_Eig.fields rows r Y M' -> (i < q)%nat -> (j < r)%nat ->
  S_Eig.form rows (omat T) M M' i j = inner d (fld X (Z.of_nat i)) (T (fld Y (Z.of_nat j))).
Proof.
  intros Sy FX FY Hi Hj. unfold S_Eig.form, mmul, madj. rewrite inner_rows. apply csum_ext. intros k Hk. rewrite (fld_M q X M i k FX Hk Hi). f_equal.
  destruct (row_in k Hk) as (Hg & Hc & E). rewrite (omat_col T _ _ _ Sy Hg Hc), E, Nat2Z.id. apply csum_ext. intros l Hl. rewrite (fld_M r Y M' j l FY Hl Hj). reflexivity.
Qed.
Lemma omat_id T : (forall f, feq d (T f) f) -> omat T = mid rows.
Proof.
  intros H. apply mext; intros i j. unfold omat, mid. destruct (Nat.ltb_spec i rows), (Nat.ltb_spec j rows); cbn [andb]; try reflexivity.
  - destruct (row_in i H0) as (Hg & Hc & E). rewrite (H _ _ _ Hg Hc). unfold unit_at. rewrite E. destruct (Z.eqb_spec (Z.of_nat i) (Z.of_nat j)), (Nat.eqb_spec i j); try lia; reflexivity.
  - destruct (Nat.eqb_spec i j); [lia|reflexivity].
Qed.
End D.
