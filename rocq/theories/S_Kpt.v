(** Vocabulary for the solution at one k point. *)
From Coq Require Import List ZArith Reals Bool Arith.
From Verif Require Import Base RC M_Evect M_Eig M_Dav M_Kpt S_Evect S_Eig S_Dav.
Import ListNotations.
Local Open Scope R_scope.

(** The q columns of M from column a on. *)
Definition slice (a q : nat) (M : mat) : mat := fun i j => if (j <? q)%nat then M i (a + j)%nat else C0.

(** p fields with values e are a Rayleigh-Ritz result within the constraint P: they satisfy it, are
    orthonormal in the metric B and diagonalize A, with ascending values. *)
Definition ritz_fields (n p : nat) (P A B M : mat) (e : nat -> R) : Prop :=
  mdim n p M /\ satisfies n P M /\ form n B M M = mid p /\ form n A M M = mdiag p e /\ (forall i j, (i <= j < p)%nat -> e i <= e j).

(** They are even the exact lowest modes: A M = B M e as far as fields with the constraint can tell,
    and every field with the constraint that is orthogonal to them has a larger quotient. *)
Definition lowest (n p : nat) (P A B M : mat) (e : nat -> R) : Prop :=
  mdim n p M /\ satisfies n P M /\ form n B M M = mid p /\
  (forall m X, mdim n m X -> satisfies n P X -> form n A X M = mmul p (form n B X M) (mdiag p e)) /\
  (forall i j, (i <= j < p)%nat -> e i <= e j) /\
  (forall i X, (i < p)%nat -> mdim n 1 X -> satisfies n P X -> form n B M X = (fun _ _ => C0) ->
     e i * re (form n B X X 0%nat 0%nat) <= re (form n A X X 0%nat 0%nat)).

(** What is assumed of the solver for blocks of up to bs bands: whatever projection the constraint
    is, a result is [good]. *)
Definition solver_finds (good : nat -> mat -> mat -> (nat -> R) -> Prop) (n bs : nat)
    (solver : (emat C -> outcome (emat C)) -> emat C -> option (outcome (emat C * list R))) : Prop :=
  forall q c P Y M Y' e, (1 <= q <= bs)%nat -> applies n q c P -> mdim n n P -> mmul n P P = P -> fields n q Y M ->
    solver c Y = Some (Val (Y', e)) -> exists M', fields n q Y' M' /\ length e = q /\ good q P M' (fun i => nth i e 0).

(** What is assumed of the operators, for num bands: A and B are Hermitian; the constraints for all
    bands together are an orthogonal projection P that commutes with B; [muinv] applies B to the first
    bands of H. *)
Record kpoint_ok (n num : nat) (parity_c : emat C -> outcome (emat C)) (zero_k : bool) (muinv : emat C -> emat C -> outcome (emat C))
  (A B P : mat) : Prop := {
  ko_dimA : mdim n n A; ko_dimB : mdim n n B; ko_dimP : mdim n n P; ko_hermA : hermitian A; ko_hermB : hermitian B;
  ko_base : forall q, (1 <= q <= num)%nat -> applies n q (chain_func (base_chain parity_c zero_k)) P;
  ko_idem : mmul n P P = P; ko_hermP : hermitian P; ko_comm : mmul n P B = mmul n B P;
  ko_mu : forall m p H M b N, (1 <= p <= m)%nat -> (m <= num)%nat -> fields n m H M -> fields n p b N ->
    exists b', muinv H b = Val b' /\ ealloc b' = ealloc b /\ fields n p b' (slice 0 p (mmul n B M)) }.

(** The arrays as init_params leaves them, b0 bands being put in as constant fields: H has num bands; it is the block as well if that has as
    many, otherwise the block has bs bands and with a metric B there is an array muinvH; the arrays
    for the dot products and the eigenvalues are large enough. *)
Definition arrays (n num bs b0 : nat) (B : mat) (same : bool) (S2 : list C) (ev : list R) (H Hblock : emat C) (BY : option (emat C)) : Prop :=
  (exists M, fields n num H M) /\ ealloc H = Z.of_nat num /\ (1 <= bs <= num)%nat /\
  wf Hblock /\ en Hblock = Z.of_nat n /\ ealloc Hblock = Z.of_nat bs /\ (same = true <-> bs = num) /\
  match BY with
  | Some b => wf b /\ en b = Z.of_nat n /\ ealloc b = Z.of_nat num
  | None => same = true \/ B = mid n
  end /\
  ((num - b0) * bs <= length S2)%nat /\ length ev = num.

(** The frequency for the eigenvalue w. *)
Definition freq_of (negative_ok : bool) (f w : R) : Prop := if negative_ok then f = w else 0 <= f /\ f * f = w.

(** Bands i and j belong to the same block, the blocks of bs bands beginning at band b0. *)
Definition same_block (bs b0 i j : nat) : Prop := ((i - b0) / bs = (j - b0) / bs)%nat.

(** The solver does nothing undefined, given such a constraint. *)
Definition solver_safe (n bs : nat) (solver : (emat C -> outcome (emat C)) -> emat C -> option (outcome (emat C * list R))) : Prop :=
  forall q c P Y M, (1 <= q <= bs)%nat -> applies n q c P -> mdim n n P -> mmul n P P = P -> fields n q Y M -> solver c Y <> Some UB.

(** A call of the Davidson solver for blocks of up to bs bands, as in S_Dav, but with the constraint
    left open; the work arrays W q are those for q bands. *)
Definition dav_call n bs nb potr heev opA opK A e (W : Z -> list (emat C)) : Prop := forall q, (1 <= q <= bs)%nat ->
  davidson_ok n q nb potr heev opA opK None A (mid n) /\ nb = (length (W (Z.of_nat q)) / 2)%nat /\ (2 <= nb)%nat /\ (q <= length (e : list R))%nat /\ workspace n q (W (Z.of_nat q)).

(** Fields without the constant part, which is in the first two rows. *)
Definition no_const (n : nat) : mat := fun i j => if ((2 <=? i) && (i <? n) && (i =? j))%nat then C1 else C0.

(** A call of solve_kpoint: b0 constant bands at k = 0; enough fuel. *)
Definition kcall (n num bs b0 : nat) (parity_c : emat C -> outcome (emat C)) (zero_k same : bool) (muinv : emat C -> emat C -> outcome (emat C))
    (A B P : mat) (parity : Z) (fuel : nat) (S2 : list C) (ev : list R) (H Hblock : emat C) (BY : option (emat C)) : Prop :=
  kpoint_ok n num parity_c zero_k muinv A B P /\ arrays n num bs b0 B same S2 ev H Hblock BY /\
  Z.of_nat b0 = (if zero_k then const_count parity (Z.of_nat num) else 0%Z) /\ (zero_k = true -> (2 <= n)%nat) /\ (num <= fuel)%nat.

(** The fields M and eigenvalues w that are returned as H' and as the frequencies f: of the b0 constant
    bands each has one constant polarization that the parity allows, and the value 0. *)
Definition bands (n num b0 : nat) (negative_ok : bool) (parity : Z) (H' : emat C) (f : list R) (M : mat) (w : nat -> R) : Prop :=
  fields n num H' M /\ length f = num /\ (forall i, (i < num)%nat -> freq_of negative_ok (nth i f 0) (w i)) /\
  (forall i, (i < b0)%nat -> w i = 0 /\ forall g, (g < n)%nat -> M g i = if (Z.of_nat g =? const_row parity (Z.of_nat i))%Z then C1 else C0).

(** The arrays are those needed for the grid, bands, block size, work arrays and permeability: an extra
    work array with a permeability, and muinvH if the bands are also found in several blocks. *)
Definition arrays_for (a : alloc) (grid : Z * Z * Z) (num_bands block nwork : Z) (mu : bool) : Prop :=
  a_grid a = grid /\ a_bands a = num_bands /\ a_block a = block /\ a_nwork a = (nwork + Z.b2z mu)%Z /\ a_mu a = mu /\
  (a_muinvH a = true <-> mu = true /\ (block < num_bands)%Z).
