(** C92: the operators of the parallel build. *)
From Coq Require Import List ZArith Reals Bool Lia Lra.
From Verif Require Import Base RC M_Tensor S_Tensor M_Evect S_Evect M_Grid S_Grid M_Op S_Op L_Op L_Op2 M_Real S_Real M_Mpi S_Mpi L_Mpi1 L_Mpi2 L_Mpi3 L_Mpi4 L_Grid6.
Import ListNotations.
Local Open Scope Z_scope.

(** C92: however the problem is divided among processes, whichever of them have nothing to do, the parts
    they compute are the parts of the block the serial operator computes; no process reads or writes outside its arrays. *)
Theorem C92_operator d fuel fuel' l X out fft : wfd d -> parts d l X out -> room l (Z.min (d_nfb d) (ep X)) -> (Z.to_nat (ep X) <= fuel')%nat -> ready fuel d X out fft ->
  exists l' Y f, maxwell_operator_mpi fuel' l = Some (Val l') /\ maxwell_operator fuel d X out fft = Some (Val (Y, f)) /\
    same_processes l l' /\ parts d l' X Y /\ room l' (Z.min (d_nfb d) (ep X)) /\ S_Op.fields d Y /\ ep Y = ep X.
Proof. intros Wd. apply (operators_mpi d Wd). Qed.
Print Assumptions C92_operator.

(** The same of the operator that makes the magnetic field, of u x k, and of the preconditioner. *)
Theorem C92_mu d fuel fuel' l X out fft : wfd d -> parts d l X out -> room l (Z.min (d_nfb d) (ep X)) -> (Z.to_nat (ep X) <= fuel')%nat -> ready fuel d X out fft ->
  exists l' Y f, muinv_operator_mpi fuel' l = Some (Val l') /\ muinv_operator fuel d X out fft = Some (Val (Y, f)) /\
    same_processes l l' /\ parts d l' X Y /\ room l' (Z.min (d_nfb d) (ep X)) /\ S_Op.fields d Y /\ ep Y = ep X.
Proof. intros Wd. apply (muinvs_mpi d Wd). Qed.
Print Assumptions C92_mu.
Theorem C92_ucross d u fuel fuel' l X out fft : wfd d -> parts d l X out -> room l (Z.min (d_nfb d) (ep X)) -> (Z.to_nat (ep X) <= fuel')%nat -> ready fuel d X out fft ->
  exists l' Y f, ucross_op_mpi fuel' u l = Some (Val l') /\ ucross_op fuel d u X out fft = Some (Val (Y, f)) /\
    same_processes l l' /\ parts d l' X Y /\ room l' (Z.min (d_nfb d) (ep X)) /\ S_Op.fields d Y /\ ep Y = ep X.
Proof. intros Wd. apply (ucrosses_mpi d Wd). Qed.
Print Assumptions C92_ucross.
Theorem C92_precond d fuel fuel' l X out fft : wfd d -> (forall r, 0 <= r < npts d -> trace_at d r <> 0%R) ->
  parts d l X out -> room l (Z.min (d_nfb d) (ep X)) -> (Z.to_nat (ep X) <= fuel')%nat -> ready fuel d X out fft ->
  exists l' Y f, preconditioner2_mpi fuel' l = Some (Val l') /\ preconditioner2 fuel d out fft = Some (Val (Y, f)) /\
    same_processes l l' /\ parts d l' X Y /\ room l' (Z.min (d_nfb d) (ep X)) /\ S_Op.fields d Y /\ ep Y = ep X.
Proof. intros Wd. apply (preconds_mpi d Wd). Qed.
Print Assumptions C92_precond.

(** So the number of processes does not matter: two runs on the same block leave parts of one block. *)
Theorem C92_any_number d fuel l1 l2 X out fft : wfd d -> parts d l1 X out -> parts d l2 X out ->
  room l1 (Z.min (d_nfb d) (ep X)) -> room l2 (Z.min (d_nfb d) (ep X)) -> ready fuel d X out fft ->
  exists l1' l2' Y, maxwell_operator_mpi fuel l1 = Some (Val l1') /\ maxwell_operator_mpi fuel l2 = Some (Val l2') /\ parts d l1' X Y /\ parts d l2' X Y /\ S_Op.fields d Y.
Proof.
  intros Wd P1 P2 R1 R2 Rd. assert (Hf : (Z.to_nat (ep X) <= fuel)%nat) by apply Rd.
  destruct (operators_mpi d Wd fuel fuel l1 X out fft P1 R1 Hf Rd) as (l1' & Y & f & A1 & A2 & _ & A4 & _ & A6 & _).
  destruct (operators_mpi d Wd fuel fuel l2 X out fft P2 R2 Hf Rd) as (l2' & Y' & f' & B1 & B2 & _ & B4 & _). rewrite A2 in B2. injection B2 as <- <-.
  exists l1', l2', Y. repeat (split; [assumption|]). assumption.
Qed.
Print Assumptions C92_any_number.

(** The data create_maxwell_data and update_maxwell_data_k make on a process are its share, for a transform of two or three
    dimensions (the code refuses one, maxwell.c 128). *)
Theorem C92_shape d nfb x0 lnx y0 lny kp ep' mup kn2 em k G1 G2 G3 : wfd d -> 1 < fft_rank (d_ny d) (d_nz d) -> nfb = d_nfb d ->
  slab x0 lnx (d_nx d) -> slab y0 lny (d_ny d) ->
  k_plus_G (d_nx d) (d_ny d) (d_nz d) 0 (d_nx d) k G1 G2 G3 = Val (d_kG d) -> k_plus_G (d_nx d) (d_ny d) (d_nz d) x0 lnx k G1 G2 G3 = Val kp ->
  let p := create_shape_mpi (d_nx d) (d_ny d) (d_nz d) nfb x0 lnx y0 lny kp ep' mup kn2 em in
  slab_of d p ep' (d_eps_inv d) -> match mup, d_mu_inv d with None, None => True | Some mp, Some m => slab_of d p mp m | _, _ => False end -> share d p.
Proof. apply shape_share. Qed.
Print Assumptions C92_shape.

(** Every problem and every two blocks can be divided among any number of processes, with FFTW's blocks. *)
Theorem C92_exists d P X out cap : wfd d -> 1 < fft_rank (d_ny d) (d_nz d) -> 1 <= P -> S_Op.fields d X -> S_Op.fields d out ->
  exists l, length l = Z.to_nat P /\ parts d l X out /\ room l cap /\
    map (fun s => (px0 (s_p s), pnx (s_p s), py0 (s_p s), pny (s_p s))) l =
      map (fun r => (block_start (d_nx d) P r, block_size (d_nx d) P r, block_start (d_ny d) P r, block_size (d_ny d) P r)) (zrange P).
Proof. intros Wd Rk HP HX HO. eexists. apply (division d Wd Rk P HP X out cap HX HO). Qed.
Print Assumptions C92_exists.

(** Two by three points of different tensors on three processes: the third has no plane waves, but a column of the grid. *)
Definition mp_iso (q : R) : sym := {| m00 := q; m11 := q; m22 := q; m01 := C0; m02 := C0; m12 := C0 |}.
Definition mp_kG : list kdata := repeat {| kmag := 1; km := (0, 0, 1)%R; kn := (1, 0, 0)%R |} 6.
Definition mp_d : mdata := create_shape 2 3 1 2 mp_kG (map mp_iso [1; 2; 3; 4; 5; 6]%R) (Some (map mp_iso [6; 5; 4; 3; 2; 1]%R)) [] 1%R.
Definition mp_X : emat C := {| en := 12; ep := 3; ealloc := 3; edata := map (fun i => (IZR i, 1%R)) (zrange 36) |}.
Example C92_ex : exists l, wfd mp_d /\ parts mp_d l mp_X mp_X /\ room l (Z.min (d_nfb mp_d) (ep mp_X)) /\ ready 3 mp_d mp_X mp_X (repeat C0 36) /\
  map (fun s => (px0 (s_p s), pnx (s_p s), py0 (s_p s), pny (s_p s))) l = [(0, 1, 0, 1); (1, 1, 1, 1); (2, 0, 2, 1)].
Proof.
  assert (Wd : wfd mp_d) by (repeat split; try (cbn; lia); intros mu E; injection E as <-; reflexivity).
  assert (HX : S_Op.fields mp_d mp_X) by (repeat split; cbn; lia).
  destruct (C92_exists mp_d 3 mp_X mp_X (Z.min (d_nfb mp_d) (ep mp_X)) Wd ltac:(cbn; lia) ltac:(lia) HX HX) as (l & _ & Pa & Ro & E).
  exists l. split; [exact Wd|]. split; [exact Pa|]. split; [exact Ro|]. split; [|exact E].
  split; [exact HX|]. split; [exact HX|]. split; [reflexivity|]. split; [reflexivity|]. split; [|cbn; lia]. unfold scratch. cbn. lia.
Qed.
(** Seven planes on four processes: 2, 2, 2, 1; on five: 2, 2, 2, 1, 0. *)
Example C92_blocks_ex : map (block_size 7 4) (zrange 4) = [2; 2; 2; 1] /\ map (block_size 7 5) (zrange 5) = [2; 2; 2; 1; 0] /\ map (block_start 7 5) (zrange 4) = [0; 2; 4; 6].
Proof. repeat split. Qed.
(** The middle process of the three, with the tables the code computes. *)
Example C92_shape_ex : exists kg kp, let d := create_shape 2 3 1 2 kg (map mp_iso [1; 2; 3; 4; 5; 6]%R) None [] 1%R in
  let p := create_shape_mpi 2 3 1 2 1 1 1 1 kp (map mp_iso [2; 5]%R) None [] 1%R in
  wfd d /\ k_plus_G 2 3 1 0 2 (1 / 4, 0, 1)%R (1, 0, 0)%R (0, 1, 0)%R (0, 0, 1)%R = Val (d_kG d) /\
  k_plus_G 2 3 1 1 1 (1 / 4, 0, 1)%R (1, 0, 0)%R (0, 1, 0)%R (0, 0, 1)%R = Val kp /\ slab_of d p (map mp_iso [2; 5]%R) (d_eps_inv d) /\ share d p.
Proof.
  destruct (table_ok 2 3 1 0 2 (1 / 4, 0, 1)%R (1, 0, 0)%R (0, 1, 0)%R (0, 0, 1)%R ltac:(lia) ltac:(lia) ltac:(lia)) as (kg & Eg & Lg & _).
  destruct (table_ok 2 3 1 1 1 (1 / 4, 0, 1)%R (1, 0, 0)%R (0, 1, 0)%R (0, 0, 1)%R ltac:(lia) ltac:(lia) ltac:(lia)) as (kp & Ek & _).
  exists kg, kp. cbv zeta. set (d := create_shape 2 3 1 2 kg _ None [] 1%R).
  assert (Wd : wfd d). { unfold d. do 5 (split; [cbn; lia|]). split; [reflexivity|]. split; [reflexivity|]. split; [reflexivity|]. split; [exact Lg|]. split; [reflexivity|intros mu E; discriminate E]. }
  assert (Sl : slab_of d (create_shape_mpi 2 3 1 2 1 1 1 1 kp (map mp_iso [2; 5]%R) None [] 1%R) (map mp_iso [2; 5]%R) (d_eps_inv d)).
  { split; [reflexivity|]. intros x y z i I. destruct I as [E|[E|[]]]; injection E as <- <- <- <-; reflexivity. }
  split; [exact Wd|]. split; [exact Eg|]. split; [exact Ek|]. split; [exact Sl|].
  apply (C92_shape d 2 1 1 1 1 kp (map mp_iso [2; 5]%R) None [] 1%R (1 / 4, 0, 1)%R (1, 0, 0)%R (0, 1, 0)%R (0, 0, 1)%R Wd); [reflexivity|reflexivity|right; cbn; lia|right; cbn; lia|exact Eg|exact Ek|exact Sl|exact I].
Qed.
