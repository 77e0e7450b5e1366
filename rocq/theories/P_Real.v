(** C90: the operators of the builds with real and with complex scalars. *)
From Coq Require Import List ZArith Reals Bool Lia Lra.
From Verif Require Import Base RC M_Tensor S_Tensor M_Evect S_Evect M_Grid S_Grid M_Op S_Op L_Op L_Op2 M_Real S_Real L_Real1 L_Real2 L_Real3 L_Real4 L_Real5 L_Real6.
Import ListNotations.
Local Open Scope Z_scope.

(** C90: for a structure with inversion symmetry, the operator of the real build computes, from the
    same real amplitudes, the amplitudes the complex build computes; every grid, either parity of the
    last dimension, any batch sizes of either, with and without permeability. *)
Theorem C90_operator dr dc fuel fuel' X out fft Xc outc fftc :
  wfr dr -> wfd dc -> same_problem dr dc -> symmetric_structure dc ->
  ready_r fuel dr X out fft -> ready fuel' dc Xc outc fftc -> same_amplitudes X Xc ->
  exists Y f Yc fc, maxwell_operator_r fuel dr X out fft = Some (Val (Y, f)) /\ maxwell_operator fuel' dc Xc outc fftc = Some (Val (Yc, fc)) /\
    fields_r dr Y /\ S_Op.fields dc Yc /\ same_amplitudes Y Yc.
Proof. intros Wr Wc Sp Sy. apply (operators_agree dr dc Wr Sp Sy Wc). Qed.
Print Assumptions C90_operator.

(** The same of the operator that makes the magnetic field. *)
Theorem C90_mu dr dc fuel fuel' X out fft Xc outc fftc :
  wfr dr -> wfd dc -> same_problem dr dc -> symmetric_structure dc ->
  ready_r fuel dr X out fft -> ready fuel' dc Xc outc fftc -> same_amplitudes X Xc ->
  exists Y f Yc fc, muinv_operator_r fuel dr X out fft = Some (Val (Y, f)) /\ muinv_operator fuel' dc Xc outc fftc = Some (Val (Yc, fc)) /\
    fields_r dr Y /\ S_Op.fields dc Yc /\ same_amplitudes Y Yc.
Proof. intros Wr Wc Sp Sy. apply (muinvs_agree dr dc Wr Sp Sy Wc). Qed.
Print Assumptions C90_mu.

(** Every problem of the complex build has its real build, of any batch size, and the shape
    create_maxwell_data computes is the one assumed. *)
Theorem C90_exists dc nfb : wfd dc -> exists dr, wfr dr /\ same_problem dr dc /\ d_nfb dr = nfb.
Proof. apply real_build. Qed.
Theorem C90_shape nx ny nz nfb kG e mu kn2 em : 1 <= nx -> 1 <= ny -> 1 <= nz ->
  let d := create_shape_real nx ny nz nfb kG e mu kn2 em in
  Z.of_nat (length kG) = nx * ny * nz -> Z.of_nat (length e) = d_out d -> (forall m, mu = Some m -> Z.of_nat (length m) = d_out d) -> wfr d.
Proof. apply shape_real. Qed.
Print Assumptions C90_exists.
Print Assumptions C90_shape.

(** Real amplitudes stay real under the complex operator, which is why the real build suffices. *)
Theorem C90_stays_real dc fuel Xc outc fftc Yc fc : wfd dc -> symmetric_structure dc -> ready fuel dc Xc outc fftc ->
  (forall i j, 0 <= i < en Xc -> 0 <= j < ep Xc -> im (entC Xc i j) = 0%R) ->
  maxwell_operator fuel dc Xc outc fftc = Some (Val (Yc, fc)) ->
  forall i j, 0 <= i < en Yc -> 0 <= j < ep Yc -> im (entC Yc i j) = 0%R.
Proof.
  intros Wc Sy Rc Re E. destruct (real_build dc (d_nfb dc) Wc) as (dr & Wr & Sp & En). pose proof Rc as (HX & Ho & Ep & Hn & _ & Hfu).
  destruct HX as ((Wn & Wp & Wl) & Ex). pose proof (same_npts dr dc Sp) as Nn.
  set (X := {| en := en Xc; ep := ep Xc; ealloc := ealloc Xc; edata := map re (edata Xc) |}).
  assert (FX : fields_r dr X). { split; [split; [exact Wn|split; [exact Wp|cbn; rewrite map_length; exact Wl]]|]. change (en Xc = 2 * npts dr). rewrite Nn. exact Ex. }
  assert (Sa : same_amplitudes X Xc).
  { split; [reflexivity|]. split; [reflexivity|]. intros i j Hi Hj. cbn [en ep X] in Hi, Hj.
    assert (I : 0 <= i * ep Xc + j < Z.of_nat (length (edata Xc))) by (rewrite Wl; apply L_Evect.rowin; lia). specialize (Re i j Hi Hj). revert Re. unfold entC, entR, ent, gets. cbn [edata ep X].
    rewrite (rd_nthR (edata Xc) _ C0) by exact I. rewrite (rd_nthR (map re (edata Xc)) _ (re C0)) by (rewrite map_length; exact I). rewrite map_nth. intros Hz. apply C_eq; [reflexivity|exact Hz]. }
  assert (Rr : ready_r fuel dr X X (repeat 0%R (Z.to_nat (3 * (d_other dr * d_last_size dr) * Z.min (d_nfb dr) (ep X))))).
  { split; [exact FX|]. split; [exact FX|]. split; [reflexivity|]. split; [lia|]. split; [|exact Hfu]. unfold scratch_r. rewrite repeat_length. lia. }
  destruct (operators_agree dr dc Wr Sp Sy Wc fuel fuel X X _ Xc outc fftc Rr Rc Sa) as (Y & f & Yc' & fc' & _ & E' & FY & FYc & (S1 & S2 & S3)).
  rewrite E in E'. injection E' as <- <-. intros i j Hi Hj. rewrite S3 by lia. reflexivity.
Qed.
Print Assumptions C90_stays_real.

(** Whatever half is stored, if its tensors are conjugate where a point and the opposite one are both
    in it, it is the half of a structure with inversion symmetry, and so the real build computes with that one (C90_operator). *)
Theorem C90_infers dr nfb : wfr dr -> planes_symmetric dr (d_eps_inv dr) -> (forall mu, d_mu_inv dr = Some mu -> planes_symmetric dr mu) ->
  exists dc, wfd dc /\ same_problem dr dc /\ symmetric_structure dc /\ d_nfb dc = nfb.
Proof. intros Wr. apply completes. exact Wr. Qed.
Print Assumptions C90_infers.

(** Without inversion symmetry the two builds differ: plane waves the code makes for four points
    along z, a real isotropic structure.  Nothing in the real build tests the symmetry (the test at maxwell_eps.c 602 is
    compiled out). *)
Theorem C90_needs_symmetry : exists dr dc k G1 G2 G3 X Xc fft fftc,
  wfr dr /\ wfd dc /\ k_plus_G 1 1 4 0 1 k G1 G2 G3 = Val (d_kG dc) /\ same_problem dr dc /\ (forall r i j, im (entry (sym_at (d_eps_inv dc) r) i j) = 0%R) /\
  ready_r 1 dr X X fft /\ ready 1 dc Xc Xc fftc /\ same_amplitudes X Xc /\
  forall Y f Yc fc, maxwell_operator_r 1 dr X X fft = Some (Val (Y, f)) -> maxwell_operator 1 dc Xc Xc fftc = Some (Val (Yc, fc)) -> ~ same_amplitudes Y Yc.
Proof.
  exists (rl_r false 1 (/ 2) 1), (rl_c false 1 (/ 2) 1 (/ 3)), (rl_wave (1 / 4)), rl_G1, rl_G2, rl_G3, rl_X, rl_Xc, (repeat 0%R 18), (repeat C0 12).
  split; [apply rl_wfr|]. split; [apply rl_wfd|]. split; [exact rl_table|]. split; [apply rl_same|]. split.
  { intros r i j. assert (K : exists q, sym_at (d_eps_inv (rl_c false 1 (/ 2) 1 (/ 3))) r = rl_iso q).
    { destruct r as [|[|[|[|r]]]]; [eexists; reflexivity..|]. exists 0%R. unfold sym_at. cbn [rl_c create_shape d_eps_inv nth]. destruct r; reflexivity. }
    destruct K as (q & ->). destruct i as [|[|[|]]], j as [|[|[|]]]; cbn; try reflexivity; ring. }
  split; [apply rl_ready|]. split; [apply rl_ready_c|]. split; [exact rl_same_X|].
  intros Y f Yc fc _ E (S1 & S2 & S3). destruct (rl_ready_c false 1 (/ 2) 1 (/ 3)) as (H1 & H2 & H3 & H4 & H5 & H6).
  destruct (operator_ok _ (rl_wfd false 1 (/ 2) 1 (/ 3)) 1 rl_Xc rl_Xc (repeat C0 12) H1 H2 H3 H4 H5 H6) as (Y' & f' & E' & FY & P & _ & H).
  rewrite E in E'. injection E' as <- <-. destruct FY as (_ & En).
  specialize (H 0 ltac:(cbn; lia) 1 0 ltac:(cbn; lia) ltac:(lia)). rewrite rl_op in H. unfold fld in H. rewrite S3 in H by (change (npts (rl_c false 1 (/ 2) 1 (/ 3))) with 4 in En; change (ep rl_Xc) with 1 in P; lia).
  apply (f_equal im) in H. cbn in H. lra.
Qed.
Print Assumptions C90_needs_symmetry.

(** Four points along z, symmetric, with permeability: all hypotheses hold, and the operator is not zero there. *)
Example C90_ex : wfr (rl_r true 1 (/ 2) (/ 3)) /\ wfd (rl_c true 1 (/ 2) (/ 3) (/ 2)) /\ same_problem (rl_r true 1 (/ 2) (/ 3)) (rl_c true 1 (/ 2) (/ 3) (/ 2)) /\
  symmetric_structure (rl_c true 1 (/ 2) (/ 3) (/ 2)) /\ ready_r 1 (rl_r true 1 (/ 2) (/ 3)) rl_X rl_X (repeat 0%R 18) /\
  ready 1 (rl_c true 1 (/ 2) (/ 3) (/ 2)) rl_Xc rl_Xc (repeat C0 12) /\ same_amplitudes rl_X rl_Xc.
Proof. split; [apply rl_wfr|]. split; [apply rl_wfd|]. split; [apply rl_same|]. split; [apply rl_symmetric|]. split; [apply rl_ready|]. split; [apply rl_ready_c|exact rl_same_X]. Qed.
Example C90_value_ex : opcol (rl_c false 1 (/ 2) (/ 3) (/ 2)) (fld rl_Xc 0) 1 0 = RtoC (1 / 32).
Proof. rewrite rl_op. apply C_eq; csimp; field. Qed.
(** The numbers stored and the point each stands for, odd and even last dimension. *)
Example C90_layout_ex : map (unstored (create_shape_real 1 2 5 1 [] [] None [] 0%R)) [0; 1; 2; 3; 4; 5] = [0; 1; 2; 5; 6; 7] /\
  map (opposite (create_shape_real 1 2 5 1 [] [] None [] 0%R)) [0; 1; 2; 5; 6; 7] = [0; 4; 3; 5; 9; 8] /\
  d_last_size (create_shape_real 1 2 5 1 [] [] None [] 0%R) = 6 /\ d_out (create_shape_real 1 2 4 1 [] [] None [] 0%R) = 6.
Proof. repeat split. Qed.
(** Three different real tensors for four points: every half of a chain of real tensors will do. *)
Example C90_infers_ex : let d := rl_r true 1 (/ 2) (/ 3) in wfr d /\ planes_symmetric d (d_eps_inv d) /\ (forall mu, d_mu_inv d = Some mu -> planes_symmetric d mu) /\
  entry (sym_at (d_eps_inv d) 1) 0 0 <> entry (sym_at (d_eps_inv d) 2) 0 0.
Proof.
  cbv zeta. split; [apply rl_wfr|].
  assert (K : forall t : list sym, (forall n, (n < 3)%nat -> exists q, sym_at t n = rl_iso q) -> planes_symmetric (rl_r true 1 (/ 2) (/ 3)) t).
  { intros t Hq x y z h h' i j I I' Hi Hj. change (loop_real (d_nx (rl_r true 1 (/ 2) (/ 3))) (d_ny (rl_r true 1 (/ 2) (/ 3))) (d_nz (rl_r true 1 (/ 2) (/ 3)))) with [(0, 0, 0, 0); (0, 0, 1, 1); (0, 0, 2, 2)] in *.
    assert (E : h' = h /\ 0 <= h < 3).
    { 
      destruct I as [E|[E|[E|[]]]]; injection E as <- <- <- <-; destruct I' as [E|[E|[E|[]]]]; pose proof (f_equal (fun q => snd (fst q)) E) as E3; pose proof (f_equal snd E) as E4; cbn [fst snd] in E3, E4; try discriminate E3; lia. }
    destruct E as (-> & Hh). destruct (Hq (Z.to_nat h) ltac:(lia)) as (q & ->). destruct i as [|[|[|]]], j as [|[|[|]]]; try lia; cbn [entry rl_iso m00 m11 m22 m01 m02 m12]; apply C_eq; csimp; ring. }
  split; [apply K; intros [|[|[|]]] Hn; try lia; eexists; reflexivity|]. split.
  - intros mu E. injection E as <-. apply K. intros [|[|[|]]] Hn; try lia; eexists; reflexivity.
  - cbn. intros E. injection E as E. lra.
Qed.
