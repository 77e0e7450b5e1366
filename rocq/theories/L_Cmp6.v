(** A block of the bands that were found. *)
From Coq Require Import List ZArith Reals Bool Arith Lia Lra.
From Verif Require Import Base RC M_Tensor S_Tensor M_Evect S_Evect M_Grid S_Grid M_Op S_Op M_Eig S_Eig M_Kpt S_Kpt M_Mx S_Mir S_Mx S_Cmp.
Import ListNotations.
Local Open Scope Z_scope.
Add Ring Cring_cmp6 : C_ring_theory.

Section B.
Variables (d : mdata) (num bs b0 : nat) (zero_k negative_ok : bool) (parity : Z) (H MH : emat C) (f : list R) (w : nat -> R).
Hypothesis Bd : mx_bands d num bs b0 zero_k negative_ok parity H MH f w.
Variables (l j : nat).
Hypothesis Hj : (j < bs)%nat.
Hypothesis Hi : (b0 + l * bs + j < num)%nat.
Let a := (b0 + l * bs)%nat.

Lemma block_same i k : (i < S j)%nat -> (k < S j)%nat -> same_block bs b0 (a + i) (a + k).
Proof.
  assert (Q : forall x, (x < S j)%nat -> ((a + x - b0) / bs = l)%nat) by (intros x Hx; unfold a; replace (b0 + l * bs + x - b0)%nat with (l * bs + x)%nat by lia; rewrite Nat.div_add_l, Nat.div_small by lia; lia).
  intros H1 H2. unfold same_block. rewrite !Q by assumption. reflexivity.
Qed.
Lemma delta_add i k : delta (a + i) (a + k) = delta i k.
Proof. unfold delta. destruct (Nat.eqb_spec (a + i) (a + k)), (Nat.eqb_spec i k); try lia; reflexivity. Qed.
Lemma block_orth i k : (i < S j)%nat -> (k < S j)%nat -> dotl H MH (Z.of_nat (a + i)) (Z.of_nat (a + k)) = delta i k.
Proof. intros H1 H2. rewrite <- delta_add. apply Bd; unfold a; lia. Qed.
Lemma block_curl i k : (i < S j)%nat -> (k < S j)%nat ->
  mean_form d (sym_at (d_eps_inv d)) (curl d MH (Z.of_nat (a + i))) (curl d MH (Z.of_nat (a + k))) = (RtoC (w (a + i)) * delta i k)%C.
Proof. intros H1 H2. rewrite <- delta_add. apply Bd; [unfold a; lia|unfold a; lia|apply block_same; assumption]. Qed.
Lemma block_ascend i k : (i <= k < S j)%nat -> (w (a + i)%nat <= w (a + k)%nat)%R.
Proof. intros H1. apply (mb_curl _ _ _ _ _ _ _ _ _ _ _ Bd (a + i) (a + k)); [unfold a; lia|unfold a; lia|apply block_same; lia|lia]. Qed.
Lemma block_allowed i : (i < S j)%nat -> allowed d parity zero_k H (Z.of_nat (a + i)).
Proof.
  intros H1. pose proof (mb_fields _ _ _ _ _ _ _ _ _ _ _ Bd) as (_ & PH & _). split; [|split].
  - intros Wz x y z c Hx Hy Hz Hc. rewrite PH. apply Bd; [exact Wz| |unfold a; lia]. repeat split; try apply Hx; try apply Hy; try apply Hz; try apply Hc; unfold a; lia.
  - intros Wy x y z c Hx Hy Hz Hc. rewrite PH. apply Bd; [exact Wy| |unfold a; lia]. repeat split; try apply Hx; try apply Hy; try apply Hz; try apply Hc; unfold a; lia.
  - intros Z0 r Hr. apply Bd; [exact Z0|unfold a; lia|exact Hr].
Qed.
End B.

