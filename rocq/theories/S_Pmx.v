(** Vocabulary for the solution with the Maxwell operator on several processes. *)
From Coq Require Import List ZArith Reals Bool.
From Verif Require Import Base RC M_Tensor M_Evect M_Grid M_Op S_Op M_Mpi S_Mpi.
Import ListNotations.
Local Open Scope Z_scope.

(** The slabs in x follow each other, from o on; a process without planes may report any start. *)
Fixpoint in_order (o n : Z) (ps : list proc) : Prop :=
  match ps with
  | [] => o = n
  | p :: ps => (pnx p = 0 \/ px0 p = o) /\ in_order (o + pnx p) n ps
  end.
(** How many numbers per band each process holds. *)
Definition sizes_of (d : mdata) (ps : list proc) : list nat := map (fun p => Z.to_nat (2 * (pnx p * d_ny d * d_nz d))) ps.
(** The problem [d] is divided among the processes [ps]. *)
Definition team (d : mdata) (ps : list proc) : Prop := wfd d /\ 0 < d_nfb d /\ divided d ps /\ in_order 0 (d_nx d) ps.
(** Only a process with planes of its own says that it has the first plane. *)
Definition first_plane (ps : list proc) : Prop := forall p, In p ps -> px0 p <= 0 -> 0 < pnx p.
