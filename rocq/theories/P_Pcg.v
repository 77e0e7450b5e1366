(** C93: the conjugate-gradient solver of the parallel build. *)
From Coq Require Import List ZArith Reals Bool Lia Lra.
From Verif Require Import Base RC M_Tensor S_Tensor M_Evect S_Evect M_Lin M_Grid S_Grid M_Op S_Op M_Eig S_Eig L_EigEx M_Kpt M_Mx S_Mx M_Real S_Real M_Mpi S_Mpi L_Mpi4 P_Mpi M_Pcg S_Pcg L_Pcg1 L_Pcg2 M_Pmx S_Pmx L_Pmx1 L_Pmx2 L_Pmx3.
Import ListNotations.
Local Open Scope Z_scope.

(** C93: if the operators, the preconditioner and the constraint do the same to a block divided among processes as to the block on one, then the
    solver runs the same way: it ends, fails or starts again alike, after the same values of the trace, and with the same eigenvalues and fields.
    Nothing is assumed of LAPACK but that it works in place. *)
Theorem C93_solver p ns potr heev opA opB opK cons opA' opB' opK' cons' cg pr project reorth reset tol k fuel Y l : (1 <= p)%nat -> ns <> [] -> in_place_potr potr -> in_place_heev heev ->
  same_op p ns opA opA' -> same_opt p ns opB opB' -> same_K p ns opK opK' -> same_opt p ns cons cons' -> same_block p ns Y l ->
  same_run (same_result p ns) (eigensolver potr heev opA opB opK cons cg pr project reorth reset tol k fuel Y)
    (eigensolver_mpi potr heev opA' opB' opK' cons' cg pr project reorth reset tol k fuel l).
Proof. apply solver_result. Qed.
Print Assumptions C93_solver.

(** The products of blocks come out as on one process. *)
Theorem C93_products p ns X Y l m : (1 <= p)%nat -> ns <> [] -> same_block p ns X l -> same_block p ns Y m -> let W := create_sq (Z.of_nat p) in
  same_outcome eq (XtX W X W) (XtX_mpi W l W) /\ same_outcome eq (XtY W X Y W) (XtY_mpi W l m W) /\ same_outcome eq (traceXtY X Y) (traceXtY_mpi l m).
Proof.
  intros Hp Hn HX HY W. split; [|split].
  - pose proof (XtX_so p ns Hp Hn X l HX) as Q. fold W in Q. destruct (XtX W X W), (XtX_mpi W l W); try exact Q. apply Q.
  - pose proof (XtY_so p ns Hp Hn X l Y m HX HY) as Q. fold W in Q. destruct (XtY W X Y W), (XtY_mpi W l m W); try exact Q. apply Q.
  - apply (traceXtY_so p ns X l Y m HX HY).
Qed.
Print Assumptions C93_products.

(** With the Maxwell operator, the permeability, the preconditioner and the parity and zero-k constraints of the parallel build. *)
Theorem C93_maxwell d ps q potr heev parity zero_k cg pr project reorth reset tol k fuel Y l : team d ps -> 1 < fft_rank (d_ny d) (d_nz d) -> pre_fits false d -> (zero_k = true -> first_plane ps) ->
  (1 <= q)%nat -> in_place_potr potr -> in_place_heev heev -> same_block q (sizes_of d ps) Y l ->
  same_run (same_result q (sizes_of d ps))
    (eigensolver potr heev (mx_A d) (mx_B d) (Some (mx_K false d)) (Some (chain_func (base_chain (mx_parity d parity) zero_k))) cg pr project reorth reset tol k fuel Y)
    (eigensolver_mpi potr heev (mxp_A ps) (mxp_B ps) (Some (mxp_K ps)) (Some (mxp_chain ps parity zero_k)) cg pr project reorth reset tol k fuel l).
Proof. intros Tm Rk Pf Fp Hq H1 H2. apply (maxwell_result d ps Tm Rk); auto. Qed.
Print Assumptions C93_maxwell.

(** So the number of processes does not matter. *)
Theorem C93_any_number d ps ps' q potr heev parity zero_k cg pr project reorth reset tol k fuel Y l l' : team d ps -> team d ps' -> 1 < fft_rank (d_ny d) (d_nz d) -> pre_fits false d ->
  (zero_k = true -> first_plane ps /\ first_plane ps') -> (1 <= q)%nat -> in_place_potr potr -> in_place_heev heev -> same_block q (sizes_of d ps) Y l -> same_block q (sizes_of d ps') Y l' ->
  let solve t b := eigensolver_mpi potr heev (mxp_A t) (mxp_B t) (Some (mxp_K t)) (Some (mxp_chain t parity zero_k)) cg pr project reorth reset tol k fuel b in
  same_run (same_results q (sizes_of d ps) (sizes_of d ps')) (solve ps l) (solve ps' l').
Proof.
  intros Tm Tm' Rk Pf Fp Hq H1 H2 B B' solve. eapply both_results.
  - apply (maxwell_result d ps Tm Rk q potr heev parity zero_k cg pr project reorth reset tol k fuel Y l); auto. intros E. apply Fp, E.
  - apply (maxwell_result d ps' Tm' Rk q potr heev parity zero_k cg pr project reorth reset tol k fuel Y l'); auto. intros E. apply Fp, E.
Qed.
Print Assumptions C93_any_number.

(** FFTW's division among any number of processes is such a division, and every block can be divided. *)
Theorem C93_exists d P X q : wfd d -> 0 < d_nfb d -> 1 < fft_rank (d_ny d) (d_nz d) -> 1 <= P -> S_Op.fields d X -> ep X = Z.of_nat q ->
  exists ps l, length ps = Z.to_nat P /\ team d ps /\ first_plane ps /\ same_block q (sizes_of d ps) X l /\
    map (fun p => (px0 p, pnx p)) ps = map (fun r => (block_start (d_nx d) P r, S_Mpi.block_size (d_nx d) P r)) (zrange P).
Proof.
  intros Wd Hn Rk HP F E. destruct (fftw_block d Wd Hn Rk P HP X q F E) as (l & B). exists (fftw_team d P), l. split; [unfold fftw_team, zrange; rewrite !map_length, seq_length; reflexivity|].
  split; [apply (fftw_is_team d Wd Hn Rk P HP)|]. split; [apply (fftw_first d Wd Rk P HP)|]. split; [exact B|]. unfold fftw_team. rewrite map_map. reflexivity.
Qed.
Print Assumptions C93_exists.

(** The problem of C92_ex on one process and on three, of which the last has no plane waves. *)
Example C93_ex : exists ps ps' l l', team mp_d ps /\ team mp_d ps' /\ 1 < fft_rank (d_ny mp_d) (d_nz mp_d) /\ pre_fits false mp_d /\ first_plane ps /\ first_plane ps' /\ in_place_potr ex_potr /\ in_place_heev ex_heev /\
  same_block 3 (sizes_of mp_d ps) mp_X l /\ same_block 3 (sizes_of mp_d ps') mp_X l' /\ sizes_of mp_d ps = [12]%nat /\ sizes_of mp_d ps' = [6; 6; 0]%nat.
Proof.
  assert (Wd : wfd mp_d) by (repeat split; try (cbn; lia); intros mu E; injection E as <-; reflexivity). assert (HX : S_Op.fields mp_d mp_X) by (repeat split; cbn; lia).
  assert (Hn : 0 < d_nfb mp_d) by (cbn; lia). assert (Rk : 1 < fft_rank (d_ny mp_d) (d_nz mp_d)) by (cbn; lia).
  destruct (fftw_block mp_d Wd Hn Rk 1 ltac:(lia) mp_X 3 HX eq_refl) as (l & B). destruct (fftw_block mp_d Wd Hn Rk 3 ltac:(lia) mp_X 3 HX eq_refl) as (l' & B').
  exists (fftw_team mp_d 1), (fftw_team mp_d 3), l, l'. split; [apply (fftw_is_team mp_d Wd Hn Rk); lia|]. split; [apply (fftw_is_team mp_d Wd Hn Rk); lia|]. split; [exact Rk|]. split.
  { intros r Hr. change (npts mp_d) with 6 in Hr. unfold trace_at. assert (E : r = 0 \/ r = 1 \/ r = 2 \/ r = 3 \/ r = 4 \/ r = 5) by lia.
    assert (Q : exists v, (0 < v)%R /\ sym_at (d_eps_inv mp_d) (Z.to_nat r) = mp_iso v).
    { destruct E as [E|[E|[E|[E|[E|E]]]]]; subst r; [exists 1%R|exists 2%R|exists 3%R|exists 4%R|exists 5%R|exists 6%R]; (split; [lra|reflexivity]). }
    destruct Q as (v & Hv & ->). cbn [mp_iso m00 m11 m22]. apply Rgt_not_eq. lra. }
  split; [apply (fftw_first mp_d Wd Rk); lia|]. split; [apply (fftw_first mp_d Wd Rk); lia|]. split; [|split; [|auto]].
  - intros p [|z d] d' E; cbn in E; [discriminate|]. destruct (Rltb 0 (re z)); [|discriminate]. injection E as <-. reflexivity.
  - intros p [|z d]; reflexivity.
Qed.
