(** Vocabulary for the gradient of a frequency. *)
From Coq Require Import List ZArith Reals Bool.
From Verif Require Import Base RC M_Tensor S_Tensor M_Evect S_Evect M_Grid S_Grid M_Op S_Op M_Interp S_Interp M_Matgrid S_Matgrid M_Fld S_Fld M_Half S_Half M_Match S_Match M_Fgrad.
Import ListNotations.
Local Open Scope R_scope.

(** The same problem with other inverse dielectric tensors. *)
Definition with_eps (es : list sym) (d : mdata) : mdata :=
  {| d_nx := d_nx d; d_ny := d_ny d; d_nz := d_nz d; d_other := d_other d; d_last := d_last d; d_last_size := d_last_size d; d_out := d_out d; d_nfb := d_nfb d;
     d_kG := d_kG d; d_eps_inv := es; d_mu_inv := d_mu_inv d; d_kn2 := d_kn2 d; d_eps_inv_mean := d_eps_inv_mean d |}.

(** The tensors are those of the dielectric function with the parameters v, point by point
    (which is so with one mesh point per pixel), in the order of the grid. *)
Definition tensors_hold (q : mproblem) (rest : Z * Z * Z -> R) (v : list R) (es : list sym) : Prop :=
  Z.of_nat (length es) = (q_n1 q * q_n2 q * q_n3 q)%Z /\
  forall i j k, In (i, j, k) (whole (q_n1 q) (q_n2 q) (q_n3 q)) ->
    sym_at es (Z.to_nat ((i * q_n2 q + j) * q_n3 q + k)) = iso (/ eps_here q rest (i, j, k) v).

(** Column j of Y is an eigenfield of the Maxwell operator with eigenvalue lam. *)
Definition eigenfield (d : mdata) (Y : emat C) (j : Z) (lam : R) : Prop :=
  fields d Y /\ (0 <= j < ep Y)%Z /\ exists n o f AY g, ready n d Y o f /\ maxwell_operator n d Y o f = Some (Val (AY, g)) /\
    forall i, (0 <= i < en Y)%Z -> entC AY i j = (RtoC lam * entC Y i j)%C.

(** A band followed as the parameters move from u along h: eigenfields for all t near 0, of the
    given band of H at t = 0, depending continuously on t there. *)
Definition follows (q : mproblem) (rest : Z * Z * Z -> R) (u h : list R) (d : mdata) (H : emat C) (b : Z) (Y : R -> emat C) (j : Z) (lam : R -> R) : Prop :=
  (exists del, 0 < del /\ forall t, Rabs t < del -> exists es, tensors_hold q rest (addl t u h) es /\ eigenfield (with_eps es d) (Y t) j (lam t)) /\
  (forall i, (0 <= i < 2 * npts d)%Z -> entC (Y 0) i j = entC H i b /\ continuity_pt (fun t => re (entC (Y t) i j)) 0 /\ continuity_pt (fun t => im (entC (Y t) i j)) 0).

(** Grid and tree as in a sound problem, without a file; sizes those of the fields. *)
Definition fits (q : mproblem) (d : mdata) : Prop :=
  d_nx d = q_n1 q /\ d_ny d = q_n2 q /\ d_nz d = q_n3 q /\ Forall grid_ok (q_grids q) /\
  forall c, In c (whole (q_n1 q) (q_n2 q) (q_n3 q)) -> Forall (entry_ok (q_grids q)) (entries (there q c)).
