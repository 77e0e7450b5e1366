(** Vocabulary for the parallel builds. *)
From Coq Require Import List ZArith Reals Bool.
From Verif Require Import Base RC M_Tensor S_Tensor M_Evect S_Evect M_Grid S_Grid M_Op S_Op M_Real S_Real M_Mpi.
Local Open Scope Z_scope.

(** The data of a process are its share of the problem [d]: the sizes of the whole grid, slabs inside it (perhaps empty),
    the wave vectors of the slab in x, and the tensors at the points LOOP_XYZ of the parallel build visits
    (maxwell_eps.c 577). *)
Definition slab (lo n N : Z) : Prop := n = 0 \/ (0 <= lo /\ 0 < n /\ lo + n <= N).
Definition slab_of (d : mdata) (p : proc) (tp t : list sym) : Prop :=
  Z.of_nat (length tp) = d_nx d * pny p * d_nz d /\
  forall x y z i, In (x, y, z, i) (loop_complex_mpi (d_nx d) (d_ny d) (d_nz d) (pny p) (py0 p)) ->
    sym_at tp (Z.to_nat i) = sym_at t (Z.to_nat (pt d x y z)).
Definition share (d : mdata) (p : proc) : Prop :=
  d_nx (pd p) = d_nx d /\ d_ny (pd p) = d_ny d /\ d_nz (pd p) = d_nz d /\ d_nfb (pd p) = d_nfb d /\
  slab (px0 p) (pnx p) (d_nx d) /\ slab (py0 p) (pny p) (d_ny d) /\
  0 <= d_other (pd p) /\ 1 <= d_last (pd p) /\ d_other (pd p) * d_last (pd p) = pnx p * d_ny d * d_nz d /\ d_last_size (pd p) = d_last (pd p) /\
  d_out (pd p) = d_nx d * pny p * d_nz d /\
  Z.of_nat (length (d_kG (pd p))) = pnx p * d_ny d * d_nz d /\
  (forall x y z, px0 p <= x < px0 p + pnx p -> 0 <= y < d_ny d -> 0 <= z < d_nz d ->
     kat (pd p) (Z.to_nat (((x - px0 p) * d_ny d + y) * d_nz d + z)) = kat d (Z.to_nat (pt d x y z))) /\
  slab_of d p (d_eps_inv (pd p)) (d_eps_inv d) /\
  match d_mu_inv (pd p), d_mu_inv d with None, None => True | Some mp, Some m => slab_of d p mp m | _, _ => False end.

(** Every x and every y belongs to some process. *)
Definition divided (d : mdata) (ps : list proc) : Prop :=
  (forall p, In p ps -> share d p) /\
  (forall x, 0 <= x < d_nx d -> exists p, In p ps /\ px0 p <= x < px0 p + pnx p) /\
  (forall y, 0 <= y < d_ny d -> exists p, In p ps /\ py0 p <= y < py0 p + pny p).

(** A process's part of a block of fields: the plane waves of its slab in x. *)
Definition part (d : mdata) (p : proc) (Xp X : emat C) : Prop :=
  wf Xp /\ en Xp = 2 * (pnx p * d_ny d * d_nz d) /\ ep Xp = ep X /\
  forall x y z c b, px0 p <= x < px0 p + pnx p -> 0 <= y < d_ny d -> 0 <= z < d_nz d -> 0 <= c < 2 -> 0 <= b < ep X ->
    entC Xp (2 * (((x - px0 p) * d_ny d + y) * d_nz d + z) + c) b = entC X (2 * pt d x y z + c) b.

(** All processes at work on the problem [d], the input and output blocks divided among them. *)
Definition parts (d : mdata) (l : list pst) (X out : emat C) : Prop :=
  divided d (map s_p l) /\ forall s, In s l -> part d (s_p s) (s_in s) X /\ part d (s_p s) (s_out s) out.
(** Each has room for a batch in either layout. *)
Definition room (l : list pst) (cap : Z) : Prop := forall s, In s l ->
  3 * x_count (s_p s) * cap <= Z.of_nat (length (s_fft s)) /\ 3 * y_count (s_p s) * cap <= Z.of_nat (length (s_fft s)).
(** The blocks are whatever they are; nothing else changed. *)
Definition same_processes (l l' : list pst) : Prop := map s_p l' = map s_p l /\ map s_in l' = map s_in l.
(** FFTW's default division of n among P processes (FFTW manual, "MPI Data Distribution Functions": FFTW_MPI_DEFAULT_BLOCK, n/P rounded
    up): the start and size of the slab of process r. *)
Definition block (n P : Z) : Z := (n + P - 1) / P.
Definition block_start (n P r : Z) : Z := r * block n P.
Definition block_size (n P r : Z) : Z := Z.max 0 (Z.min (block n P) (n - r * block n P)).
