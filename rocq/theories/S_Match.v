(** Vocabulary for the match with a file. *)
From Coq Require Import List ZArith Reals Bool.
From Verif Require Import Base RC M_Tensor M_Evect M_Grid M_Op M_Interp S_Interp M_Matgrid S_Matgrid M_Fld S_Fld M_Half S_Half M_Match.
Import ListNotations.
Local Open Scope R_scope.

(** The file's value at the centre of a cell of the grid. *)
Definition target (q : mproblem) (c : Z * Z * Z) : R :=
  let '(i, j, k) := c in
  tents (q_ex q) (q_ey q) (q_ez q) ((IZR i + / 2) / IZR (q_n1 q), (IZR j + / 2) / IZR (q_n2 q), (IZR k + / 2) / IZR (q_n3 q)) (at3 (q_ey q) (q_ez q) 1 (q_eps q)).

(** The dielectric constant at a grid point as a function of the parameters, [rest] outside the grids. *)
Definition entries (f : found) : list (vec * nat) := f_over f ++ opt_list (f_dflt f).
Definition there (q : mproblem) (c : Z * Z * Z) : found := q_tree q (site (q_sx q) (q_sy q) (q_sz q) (q_n1 q) (q_n2 q) (q_n3 q) c).
Definition eps_here (q : mproblem) (rest : Z * Z * Z -> R) (c : Z * Z * Z) (u : list R) : R :=
  match entries (there q c) with
  | [] => rest c
  | es => eps_of (f_kind (there q c)) (f_lo (there q c)) (f_hi (there q c)) (q_grids q) es u
  end.
(** The mean square difference of the dielectric function and the file over the grid. *)
Definition mismatch (q : mproblem) (rest : Z * Z * Z -> R) (u : list R) : R :=
  sumR (fun c => (eps_here q rest c u - target q c) ^ 2) (whole (q_n1 q) (q_n2 q) (q_n3 q)) / IZR (q_n1 q * q_n2 q * q_n3 q).

(** The dielectric constant is differentiable and the code does not divide by zero: rules
    other than the mean as in the properties of one point. *)
Definition regular (gs : list mgrid) (u : list R) (f : found) : Prop :=
  match f_kind f with
  | U_SUM => True
  | U_PROD => forall e, In e (entries f) -> entry_value (with_params gs u) e <> 0
  | U_MIN => entries f = [] \/ exists l1 e l2, entries f = l1 ++ e :: l2 /\ entry_value (with_params gs u) e < 1 /\
      forall f, In f (l1 ++ l2) -> entry_value (with_params gs u) e < entry_value (with_params gs u) f
  end.

(** A sound problem: positive sizes, data and grids complete, the tree's grids among them. *)
Definition sound (q : mproblem) : Prop :=
  (0 < q_n1 q)%Z /\ (0 < q_n2 q)%Z /\ (0 < q_n3 q)%Z /\ grid_data (q_ex q) (q_ey q) (q_ez q) 1 (q_eps q) /\ Forall filled (q_grids q) /\
  forall c, In c (whole (q_n1 q) (q_n2 q) (q_n3 q)) -> Forall (entry_ok (q_grids q)) (entries (there q c)).

(** The stored tensors hold the dielectric constant of each point for all parameters (which is
    so with one mesh point per pixel). *)
Definition tensors_of (q : mproblem) (rest : Z * Z * Z -> R) (p : list (Z * Z * Z * Z) * (list mgrid -> Z -> R)) : Prop :=
  forall c idx u, In (c, idx) (fst p) -> length u = S_Matgrid.total (q_grids q) -> snd p (with_params (q_grids q) u) idx = eps_here q rest c u.
