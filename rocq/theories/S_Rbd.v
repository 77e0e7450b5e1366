(** Vocabulary for the exact bands of the real-scalar builds. *)
From Coq Require Import List ZArith Reals.
From Verif Require Import Base RC M_Tensor S_Tensor M_Evect S_Evect M_Grid S_Grid M_Op S_Op S_Cmp S_Spec M_Real S_Real.
Local Open Scope Z_scope.

(** Inner product of band i of X and band j of Y. *)
Definition dotr (X Y : emat R) (i j : Z) : R := rsum (Z.to_nat (en X)) (fun r => entR X (Z.of_nat r) i * entR Y (Z.of_nat r) j)%R.
(** Real amplitudes as complex numbers. *)
Definition as_complex (X : emat R) : emat C := {| en := en X; ep := ep X; ealloc := ealloc X; edata := map RtoC (edata X) |}.
(** A run of the operator op of the real build takes X to Y. *)
Definition takes (op : nat -> mdata -> emat R -> emat R -> list R -> option (outcome (emat R * list R))) (d : mdata) (X Y : emat R) : Prop :=
  exists fuel out fft f, ready_r fuel d X out fft /\ op fuel d X out fft = Some (Val (Y, f)).

(** All m modes the real build can represent, as [all_modes] of S_Cmp.v: MV are the modes V with the inverse
    permeability applied, AV with the operator. *)
Record all_modes_r (d : mdata) (m : nat) (parity : Z) (zero_k : bool) (V MV AV : emat R) (lam : nat -> R) : Prop := {
  rm_fields : fields_r d V /\ ep V = Z.of_nat m;
  rm_mu : takes muinv_operator_r d V MV;
  rm_op : takes maxwell_operator_r d V AV;
  rm_orth : forall i j, (i < m)%nat -> (j < m)%nat -> dotr V MV (Z.of_nat i) (Z.of_nat j) = if Nat.eqb i j then 1%R else 0%R;
  rm_eig : forall i j, (i < m)%nat -> (j < m)%nat -> dotr V AV (Z.of_nat i) (Z.of_nat j) = if Nat.eqb i j then lam i else 0%R;
  rm_ascend : forall i j, (i <= j < m)%nat -> (lam i <= lam j)%R;
  rm_complete : forall X b, fields_r d X -> 0 <= b < ep X -> allowed d parity zero_k (as_complex X) b -> forall r, 0 <= r < 2 * npts d ->
    entR X r b = rsum m (fun i => entR V r (Z.of_nat i) * dotr MV X (Z.of_nat i) b)%R }.
(** The exact squared frequencies of the real build. *)
Definition exact_bands_r (d : mdata) (m : nat) (parity : Z) (zero_k : bool) (lam : nat -> R) : Prop :=
  exists V MV AV, all_modes_r d m parity zero_k V MV AV lam /\ modes_allowed d m parity zero_k (as_complex V).
