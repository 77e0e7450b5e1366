(** Property theorems for the solution at one k point: C78. *)
From Coq Require Import List ZArith Reals Bool Arith Lia Lra Psatz.
From Verif Require Import Base RC M_Evect M_Lin M_Eig M_Dav M_Kpt S_Evect S_Eig S_Dav S_Kpt L_Evect L_Mat L_Eig2 L_Eig4 L_Eig7 L_Eig13 L_EigEx L_Dav2 L_DavEx P_Dav L_Kpt1 L_Kpt2 L_Kpt3 L_Kpt4 L_Kpt5 L_Kpt6 L_KptEx.
Import ListNotations.
Local Open Scope R_scope.
Add Ring Cring_kp : C_ring_theory.

Example C78_call_ex : kcall 2 2 1 0 (fun X => Val X) false false (mat_muinv 2 (mid 2)) exA (mid 2) (mid 2) 0 2 [C0; C0] [0; 0] kx_H kx_blk None.
Proof. pose proof (kx_ok 0) as Ok. rewrite kxB_0 in Ok. split; [exact Ok|]. split; [apply kx_arrays|]. split; [reflexivity|]. split; [discriminate|lia]. Qed.
Example C78_run_ex : exists H', solve_kpoint (fun X => Val X) (mat_muinv 2 (mid 2)) (rq_solver exA (mid 2)) 2 false false false 0 2 [C0; C0] [0; 0] kx_H kx_blk None = Some (Val (H', [1; sqrt 3])).
Proof. pose proof (kx_run 0) as (H' & E & _). rewrite kxB_0 in E. exists H'. exact E. Qed.

(** With a solver that finishes with Rayleigh-Ritz fields, as both solvers do, all bands that are not
    constants satisfy the constraints and are orthonormal, also between blocks; inside a block they
    diagonalize the operator, with ascending values. *)
Theorem C78_bands n num bs b0 parity_c zero_k same negative_ok muinv solver A B P parity fuel S2 ev H Hblock BY H' f :
  kcall n num bs b0 parity_c zero_k same muinv A B P parity fuel S2 ev H Hblock BY ->
  solver_finds (fun q Q M e => ritz_fields n q Q A B M e) n bs solver ->
  solve_kpoint parity_c muinv solver fuel zero_k same negative_ok parity (Z.of_nat num) S2 ev H Hblock BY = Some (Val (H', f)) ->
  exists M w, bands n num b0 negative_ok parity H' f M w /\
    satisfies n P (slice b0 (num - b0) M) /\ form n B (slice b0 (num - b0) M) (slice b0 (num - b0) M) = mid (num - b0) /\
    (forall i j, (b0 <= i < num)%nat -> (b0 <= j < num)%nat -> same_block bs b0 i j -> form n A M M i j = (if (i =? j)%nat then RtoC (w i) else C0) /\ ((i <= j)%nat -> w i <= w j)).
Proof.
  intros Cl Fin E. pose proof (ritz_run n num bs b0 parity_c zero_k same negative_ok muinv solver A B P parity fuel S2 ev H Hblock BY Cl Fin) as G.
  rewrite E in G. destruct G as (M & w & Bd & I1 & I2 & I3). exists M, w. pose proof Bd as (F & _).  assert (DM : mdim n num M) by apply (fields_dim _ _ _ _ F).
  assert (DS : mdim n (num - b0) (slice b0 (num - b0) M)) by (apply (slice_dim n num); exact DM). rewrite (slice_all n _ _ DS) in I1, I2.
  split; [exact Bd|]. split; [exact I1|]. split; [exact I2|].
  intros i j Hi Hj Eb. destruct (I3 (i - b0)%nat (j - b0)%nat ltac:(lia) ltac:(lia) Eb) as (Q1 & Q2). rewrite form_slice in Q1. destruct (Nat.ltb_spec (i - b0) (num - b0)), (Nat.ltb_spec (j - b0) (num - b0)); try lia. cbn [andb] in Q1.
  replace (b0 + (i - b0))%nat with i in * by lia. replace (b0 + (j - b0))%nat with j in * by lia. rewrite Q1. split; [destruct (Nat.eqb_spec i j), (Nat.eqb_spec (i - b0) (j - b0)); try lia; reflexivity|]. intros Hij. apply Q2. lia.
Qed.
Print Assumptions C78_bands.
Example C78_bands_ex : solver_finds (fun q Q M e => ritz_fields 2 q Q exA (mid 2) M e) 2 1 (rq_solver exA (mid 2)).
Proof. apply rq_finds; [apply exA_herm|apply mid_herm]. Qed.

(** No value is below the exact one with the same number inside its block. *)
Theorem C78_above n num bs b0 parity_c zero_k same negative_ok muinv solver A B P parity fuel S2 ev H Hblock BY H' f m V lam :
  kcall n num bs b0 parity_c zero_k same muinv A B P parity fuel S2 ev H Hblock BY ->
  solver_finds (fun q Q M e => ritz_fields n q Q A B M e) n bs solver ->
  solve_kpoint parity_c muinv solver fuel zero_k same negative_ok parity (Z.of_nat num) S2 ev H Hblock BY = Some (Val (H', f)) ->
  modes n m P A B V lam ->
  forall k j, (j < bs)%nat -> (b0 + k * bs + j < num)%nat -> (j < m)%nat /\ exists w, freq_of negative_ok (nth (b0 + k * bs + j) f 0) w /\ lam j <= w.
Proof.
  intros Cl Fin E Md k j Hj Hi. destruct (C78_bands _ _ _ _ _ _ _ _ _ _ _ _ _ _ _ _ _ _ _ _ _ _ Cl Fin E) as (M & w & (F & _ & Fr & _) & Sa & Or & Bl). destruct Cl as ([DA DB DP HA HB Base Id HP Cm Mu] & _).
  assert (DM : mdim n num M) by apply (fields_dim _ _ _ _ F).
  assert (SB : forall a, (a <= j)%nat -> ((b0 + k * bs + a - b0) / bs = k)%nat) by (intros a Ha; replace (b0 + k * bs + a - b0)%nat with (k * bs + a)%nat by lia; rewrite Nat.div_add_l, Nat.div_small by lia; lia).
  destruct (above n (Datatypes.S j) m P A B V lam (slice (b0 + k * bs) (Datatypes.S j) M) (fun i => w (b0 + k * bs + i)%nat)) with (k := j) as (H1 & H2); auto.
  - apply (slice_dim n num). exact DM.
  - unfold satisfies in *. rewrite mmul_slice in *. apply mext; intros r c. pose proof (f_equal (fun g => g r (k * bs + c)%nat) Sa) as Q. unfold slice in *. cbv beta in Q. destruct (Nat.ltb_spec c (Datatypes.S j)); [|reflexivity]. destruct (Nat.ltb_spec (k * bs + c) (num - b0)); [|lia]. replace (b0 + (k * bs + c))%nat with (b0 + k * bs + c)%nat in Q by lia. exact Q.
  - apply mext; intros r c. rewrite form_slice. unfold mid. destruct (Nat.ltb_spec r (Datatypes.S j)), (Nat.ltb_spec c (Datatypes.S j)); cbn [andb]; try reflexivity.
    + pose proof (f_equal (fun g => g (k * bs + r)%nat (k * bs + c)%nat) Or) as Q. cbv beta in Q. rewrite form_slice in Q. destruct (Nat.ltb_spec (k * bs + r) (num - b0)), (Nat.ltb_spec (k * bs + c) (num - b0)); try lia. cbn [andb] in Q.
      rewrite !Nat.add_assoc in Q. rewrite Q. unfold mid. destruct (Nat.ltb_spec (k * bs + r) (num - b0)); [|lia]. cbn [andb]. destruct (Nat.eqb_spec (k * bs + r) (k * bs + c)), (Nat.eqb_spec r c); try lia; reflexivity.
    + destruct (Nat.eqb_spec r c); [lia|reflexivity].
  - apply mext; intros r c. rewrite form_slice. unfold mdiag. destruct (Nat.ltb_spec r (Datatypes.S j)), (Nat.ltb_spec c (Datatypes.S j)); cbn [andb]; try reflexivity.
    + destruct (Bl (b0 + k * bs + r)%nat (b0 + k * bs + c)%nat) as (Q & _); [lia|lia|unfold same_block; rewrite !SB by lia; reflexivity|]. rewrite Q. destruct (Nat.eqb_spec (b0 + k * bs + r) (b0 + k * bs + c)), (Nat.eqb_spec r c); try lia; reflexivity.
    + destruct (Nat.eqb_spec r c); [lia|reflexivity].
  - intros a c Hac. apply (Bl (b0 + k * bs + a)%nat (b0 + k * bs + c)%nat); [lia|lia|unfold same_block; rewrite !SB by lia; reflexivity|lia].
  - split; [exact H1|]. exists (w (b0 + k * bs + j)%nat). split; [apply Fr; exact Hi|exact H2].
Qed.
Print Assumptions C78_above.

(** With a solver that finds the lowest modes within any constraint, all bands together are the lowest
    modes: the blocks leave none out, and the frequencies ascend over all bands. *)
Theorem C78_exact n num bs b0 parity_c zero_k same negative_ok muinv solver A B P parity fuel S2 ev H Hblock BY H' f :
  kcall n num bs b0 parity_c zero_k same muinv A B P parity fuel S2 ev H Hblock BY ->
  solver_finds (fun q Q M e => lowest n q Q A B M e) n bs solver ->
  solve_kpoint parity_c muinv solver fuel zero_k same negative_ok parity (Z.of_nat num) S2 ev H Hblock BY = Some (Val (H', f)) ->
  exists M w, bands n num b0 negative_ok parity H' f M w /\
    lowest n (num - b0) P A B (slice b0 (num - b0) M) (fun i => w (b0 + i)%nat) /\
    (forall m V lam, modes n m P A B V lam -> satisfies n P V -> forall i, (i < num - b0)%nat -> (i < m)%nat /\ w (b0 + i)%nat = lam i).
Proof.
  intros Cl Fin E. pose proof (low_run n num bs b0 parity_c zero_k same negative_ok muinv solver A B P parity fuel S2 ev H Hblock BY Cl Fin) as G. destruct Cl as ([DA DB DP HA HB Base Id HP Cm Mu] & _).
  rewrite E in G. destruct G as (M & w & Bd & I). exists M, w. pose proof Bd as (F & _). assert (DM : mdim n num M) by apply (fields_dim _ _ _ _ F).
  assert (DS : mdim n (num - b0) (slice b0 (num - b0) M)) by (apply (slice_dim n num); exact DM). unfold inv_low in I. rewrite (slice_all n _ _ DS) in I.
  split; [exact Bd|]. split; [exact I|].
  intros m V lam Md SV i Hi. apply (lowest_modes n (num - b0) m P A B V lam (slice b0 (num - b0) M) (fun i => w (b0 + i)%nat)); auto.
Qed.
Print Assumptions C78_exact.
Example C78_exact_ex : solver_finds (fun q Q M e => lowest 2 q Q exA (mid 2) M e) 2 1 (rq_solver exA (mid 2)) /\
  modes 2 2 (mid 2) exA (mid 2) (mid 2) (fun i => if (i =? 0)%nat then 1 else 3) /\ satisfies 2 (mid 2) (mid 2).
Proof. split; [apply rq_exact|]. split; [apply C74_above_ex|]. apply (mid_l 2 2), mdim_id. Qed.

(** Nothing is read or written outside the arrays if the solver does not. *)
Theorem C78_safe n num bs b0 parity_c zero_k same negative_ok muinv solver A B P parity fuel S2 ev H Hblock BY :
  kcall n num bs b0 parity_c zero_k same muinv A B P parity fuel S2 ev H Hblock BY ->
  solver_finds (fun q Q M e => ritz_fields n q Q A B M e) n bs solver -> solver_safe n bs solver ->
  solve_kpoint parity_c muinv solver fuel zero_k same negative_ok parity (Z.of_nat num) S2 ev H Hblock BY <> Some UB.
Proof.
  intros Cl Fin Sf E. pose proof (ritz_run n num bs b0 parity_c zero_k same negative_ok muinv solver A B P parity fuel S2 ev H Hblock BY Cl Fin) as G. rewrite E in G. contradiction.
Qed.
Print Assumptions C78_safe.
Example C78_safe_ex : solver_safe 2 1 (rq_solver exA (mid 2)).
Proof. apply rq_safe. Qed.

(** Both solvers, with no further assumption than those under which they were proved (C70 to C75, C81). *)
Theorem C78_cg n num bs b0 parity_c zero_k same negative_ok muinv potr heev opA opB opK cg pr project reorth reset tol force only quick k fuel0 A B P parity fuel S2 ev H Hblock BY H' f :
  kcall n num bs b0 parity_c zero_k same muinv A B P parity fuel S2 ev H Hblock BY ->
  (forall q, (1 <= q <= bs)%nat -> solver_ok n q potr heev opA opB opK None false A B (mid n)) -> (project = true -> B = mid n) ->
  let r := solve_kpoint parity_c muinv (cg_solver potr heev opA opB opK cg pr project reorth reset tol force only quick k fuel0) fuel zero_k same negative_ok parity (Z.of_nat num) S2 ev H Hblock BY in
  r <> Some UB /\
  (r = Some (Val (H', f)) -> exists M w, bands n num b0 negative_ok parity H' f M w /\
    satisfies n P (slice b0 (num - b0) M) /\ form n B (slice b0 (num - b0) M) (slice b0 (num - b0) M) = mid (num - b0) /\
    (forall i j, (b0 <= i < num)%nat -> (b0 <= j < num)%nat -> same_block bs b0 i j -> form n A M M i j = (if (i =? j)%nat then RtoC (w i) else C0) /\ ((i <= j)%nat -> w i <= w j))).
Proof.
  intros Cl Ok Pr r. pose proof (cg_finds n bs potr heev opA opB opK cg pr project reorth reset tol force only quick k fuel0 A B Ok Pr) as Fin.
  pose proof (cg_safe n bs potr heev opA opB opK cg pr project reorth reset tol force only quick k fuel0 A B Ok Pr) as Sf. split.
  - apply (C78_safe n num bs b0 parity_c zero_k same negative_ok muinv _ A B P parity fuel S2 ev H Hblock BY Cl Fin Sf).
  - apply (C78_bands n num bs b0 parity_c zero_k same negative_ok muinv _ A B P parity fuel S2 ev H Hblock BY H' f Cl Fin).
Qed.
Print Assumptions C78_cg.
Example C78_cg_ex : forall q, (1 <= q <= 1)%nat -> solver_ok 2 q ex_potr ex_heev ex_opA None None None false exA (mid 2) (mid 2).
Proof. intros q Hq. assert (q = 1%nat) by lia. subst q. apply ex_ok. auto. Qed.

Theorem C78_davidson n num bs b0 nb parity_c zero_k same negative_ok muinv potr heev opA opK tol k e W A P parity fuel S2 ev H Hblock BY H' f :
  kcall n num bs b0 parity_c zero_k same muinv A (mid n) P parity fuel S2 ev H Hblock BY -> dav_call n bs nb potr heev opA opK A e W ->
  let r := solve_kpoint parity_c muinv (davidson_solver potr heev opA opK tol k e W) fuel zero_k same negative_ok parity (Z.of_nat num) S2 ev H Hblock BY in
  r <> Some UB /\
  (r = Some (Val (H', f)) -> exists M w, bands n num b0 negative_ok parity H' f M w /\
    satisfies n P (slice b0 (num - b0) M) /\ form n (mid n) (slice b0 (num - b0) M) (slice b0 (num - b0) M) = mid (num - b0) /\
    (forall i j, (b0 <= i < num)%nat -> (b0 <= j < num)%nat -> same_block bs b0 i j -> form n A M M i j = (if (i =? j)%nat then RtoC (w i) else C0) /\ ((i <= j)%nat -> w i <= w j))).
Proof.
  intros Cl Dv r. pose proof (dav_finds n bs nb potr heev opA opK tol k e W A Dv) as Fin. pose proof (dav_safe n bs nb potr heev opA opK tol k e W A Dv) as Sf. split.
  - apply (C78_safe n num bs b0 parity_c zero_k same negative_ok muinv _ A (mid n) P parity fuel S2 ev H Hblock BY Cl Fin Sf).
  - apply (C78_bands n num bs b0 parity_c zero_k same negative_ok muinv _ A (mid n) P parity fuel S2 ev H Hblock BY H' f Cl Fin).
Qed.
Print Assumptions C78_davidson.
Example C78_davidson_ex : dav_call 2 1 2 ex_potr dx_heev ex_opA None exA [0] (fun _ => dx_Work).
Proof. intros q Hq. assert (q = 1%nat) by lia. subst q. split; [apply dx_ok|]. split; [reflexivity|]. split; [lia|]. split; [cbn; lia|apply dx_work]. Qed.

(** What init_params allocates fits: with at most 9 work arrays there is room for one more for the
    permeability, and a first call allocates muinvH whenever the blocks need it.  So does every later
    call, whatever the sizes, as long as the new structure has a permeability if the last one had. *)
Theorem C78_alloc old grid num_bands block nwork mu : (nwork <= 9)%Z ->
  (forall a, old = Some a -> a_mu a = mu /\ exists grid0 num0 block0 nwork0, arrays_for a grid0 num0 block0 nwork0 mu) ->
  exists a, init_alloc old grid num_bands block nwork mu = Val a /\ arrays_for a grid num_bands block nwork mu /\ (a_nwork a <= MAX_NWORK)%Z.
Proof.
  intros Hn Ho. unfold init_alloc, MAX_NWORK. rewrite Z.gtb_ltb. destruct (Z.ltb_spec 10 nwork); [lia|]. destruct (Z.leb_spec (nwork + Z.b2z mu) 10); [|destruct mu; cbn [Z.b2z] in *; lia].
  assert (N : exists a, Val {| a_grid := grid; a_bands := num_bands; a_block := block; a_nwork := nwork + Z.b2z mu; a_muinvH := mu && (block <? num_bands)%Z; a_mu := mu |} = Val a /\ arrays_for a grid num_bands block nwork mu /\ (a_nwork a <= 10)%Z).
  { eexists. split; [reflexivity|]. split; [|assumption]. unfold arrays_for. cbn. split; [reflexivity|]. split; [reflexivity|]. split; [reflexivity|]. split; [reflexivity|]. split; [reflexivity|]. rewrite andb_true_iff, Z.ltb_lt. reflexivity. }
  destruct old as [a|]; [|exact N]. destruct (Ho a eq_refl) as (Em & g0 & n0 & b0 & w0 & Eg & En & Eb & Ew & _ & Mh). destruct grid as ((nx, ny), nz). destruct (a_grid a) as ((mx, my), mz) eqn:Ega.
  destruct ((nx =? mx) && (ny =? my) && (nz =? mz) && (block =? a_block a) && (num_bands =? a_bands a) && (nwork + Z.b2z (a_mu a) =? a_nwork a))%Z eqn:Eh; [|exact N].
  repeat rewrite andb_true_iff in Eh. rewrite !Z.eqb_eq in Eh. destruct Eh as (((((E1 & E2) & E3) & E4) & E5) & E6). rewrite Em in E6. eexists. split; [reflexivity|]. split; [|cbn [a_nwork]; lia].
  unfold arrays_for. cbn [a_grid a_bands a_block a_nwork a_muinvH a_mu]. split; [congruence|]. split; [congruence|]. split; [congruence|]. split; [congruence|]. split; [reflexivity|]. rewrite Mh. assert (block = b0 /\ num_bands = n0) as (-> & ->) by (split; congruence). reflexivity.
Qed.
Print Assumptions C78_alloc.
Example C78_alloc_again_ex : arrays_for {| a_grid := (32, 32, 1)%Z; a_bands := 10; a_block := 4; a_nwork := 5; a_muinvH := true; a_mu := true |} (32, 32, 1)%Z 10 4 4 true.
Proof. unfold arrays_for. cbn. repeat split; try reflexivity; lia. Qed.
Example C78_alloc_ex : init_alloc None (32, 32, 1)%Z 10 4 4 true = Val {| a_grid := (32, 32, 1)%Z; a_bands := 10; a_block := 4; a_nwork := 5; a_muinvH := true; a_mu := true |}.
Proof. reflexivity. Qed.
(** Without a permeability any number of work arrays can be asked for. *)
Theorem C78_nwork old grid num_bands block nwork : (forall a, old = Some a -> (a_nwork a <= MAX_NWORK)%Z) ->
  exists a, init_alloc old grid num_bands block nwork false = Val a /\ (a_nwork a <= MAX_NWORK)%Z.
Proof.
  intros Ho. unfold init_alloc. set (w := if (nwork >? MAX_NWORK)%Z then MAX_NWORK else nwork). assert (Hw : (w <= MAX_NWORK)%Z) by (unfold w; rewrite Z.gtb_ltb; destruct (Z.ltb_spec MAX_NWORK nwork); lia).
  cbn [Z.b2z]. rewrite Z.add_0_r. destruct (Z.leb_spec w MAX_NWORK); [|lia].
  destruct old as [a|]; [|eexists; split; [reflexivity|assumption]].
  destruct grid as ((nx, ny), nz). destruct (a_grid a) as ((mx, my), mz). destruct (_ && _)%bool; eexists; (split; [reflexivity|]); cbn [a_nwork]; [apply Ho; reflexivity|assumption].
Qed.
Print Assumptions C78_nwork.
Example C78_nwork_ex : exists a, init_alloc None (32, 32, 1)%Z 10 4 14 false = Val a /\ a_nwork a = 10%Z.
Proof. eexists. split; reflexivity. Qed.
(** With the largest number of work arrays the array W is written beyond its end. *)
Theorem C78_nwork_refuted : exists grid num_bands block nwork mu, (nwork <= MAX_NWORK)%Z /\ init_alloc None grid num_bands block nwork mu = UB.
Proof. exists (32, 32, 1)%Z, 10%Z, 4%Z, 10%Z, true. split; [unfold MAX_NWORK; lia|reflexivity]. Qed.
Print Assumptions C78_nwork_refuted.

(** When a structure without permeability is followed by one with it, the arrays are kept, muinvH is
    not one of its own, and the bands of different blocks are made orthogonal without the
    permeability: the claim of C78_bands fails. *)
Theorem C78_stale_refuted : exists a a' n num bs muinv solver A B S2 ev H Hblock H' f M,
  init_alloc None (2, 1, 1)%Z (Z.of_nat num) (Z.of_nat bs) 2 false = Val a /\
  init_alloc (Some a) (2, 1, 1)%Z (Z.of_nat num) (Z.of_nat bs) 2 true = Val a' /\ a_mu a' = true /\ (a_block a' < a_bands a')%Z /\ a_muinvH a' = false /\
  kpoint_ok n num (fun X => Val X) false muinv A B (mid n) /\ solver_finds (fun q Q M e => ritz_fields n q Q A B M e) n bs solver /\
  arrays n num bs 0 (mid n) false S2 ev H Hblock None /\
  solve_kpoint (fun X => Val X) muinv solver num false false false 0 (Z.of_nat num) S2 ev H Hblock None = Some (Val (H', f)) /\
  fields n num H' M /\ form n B M M 0%nat 1%nat <> C0.
Proof.
  destruct (kx_run (/ 2)) as (H' & E & F).
  exists {| a_grid := (2, 1, 1)%Z; a_bands := 2; a_block := 1; a_nwork := 2; a_muinvH := false; a_mu := false |}, {| a_grid := (2, 1, 1)%Z; a_bands := 2; a_block := 1; a_nwork := 2; a_muinvH := false; a_mu := true |},
    2%nat, 2%nat, 1%nat, (mat_muinv 2 (kxB (/ 2))), (rq_solver exA (kxB (/ 2))), exA, (kxB (/ 2)), [C0; C0], [0; 0], kx_H, kx_blk, H', [1; sqrt 3], (mid 2).
  split; [reflexivity|]. split; [reflexivity|]. split; [reflexivity|]. split; [cbn; lia|]. split; [reflexivity|]. split; [apply kx_ok|]. split; [apply rq_finds; [apply exA_herm|apply kxB_herm]|].
  split; [apply kx_arrays|]. split; [exact E|]. split; [exact F|]. intros Z. apply (f_equal re) in Z. revert Z. unfold form. rewrite mid_herm, (mid_r 2 2 _ (kxB_dim _)), (mid_l 2 2 _ (kxB_dim _)). cbn. lra.
Qed.
Print Assumptions C78_stale_refuted.

(** At k = 0 with a permeability that couples the constant fields to others, which C78_bands excludes,
    the constraint of a later block does not make fields orthogonal to the bands before. *)
Theorem C78_zero_k_mu_refuted : exists n B Y BY MY S2 X X' M', hermitian B /\ mdim n n B /\ fields n 1 Y MY /\ satisfies n (no_const n) MY /\ form n B MY MY = mid 1 /\ fields n 1 BY (mmul n B MY) /\
  chain_func (add_constraint (base_chain (fun X => Val X) true) (deflate 1 Y BY S2)) X = Val X' /\ fields n 1 X' M' /\ form n B MY M' 0%nat 0%nat <> C0.
Proof.
  set (B := fun i j : nat => if ((i <? 4) && (i =? j))%nat then C1 else if ((i =? 0) && (j =? 2) || (i =? 2) && (j =? 0))%nat then RtoC (/ 2) else C0).
  set (v := fun (k : nat) => fun i j : nat => if ((i =? k) && (j =? 0))%nat then C1 else C0).
  assert (DB : mdim 4 4 B). { intros i j Hij. unfold B. destruct (Nat.ltb_spec i 4), (Nat.eqb_spec i j), (Nat.eqb_spec i 0), (Nat.eqb_spec j 2), (Nat.eqb_spec i 2), (Nat.eqb_spec j 0); cbn [andb orb]; try reflexivity; lia. }
  assert (HB : hermitian B). { apply mext; intros i j. unfold madj, B. destruct (Nat.ltb_spec i 4), (Nat.ltb_spec j 4), (Nat.eqb_spec i j), (Nat.eqb_spec j i), (Nat.eqb_spec i 0), (Nat.eqb_spec j 2), (Nat.eqb_spec i 2), (Nat.eqb_spec j 0); cbn [andb orb]; try lia; apply C_eq; csimp; ring. }
  set (em := fun d : list C => {| en := 4; ep := 1; ealloc := 1; edata := d |}).
  assert (Fe : forall a b c d M, mdim 4 1 M -> M 0%nat 0%nat = a -> M 1%nat 0%nat = b -> M 2%nat 0%nat = c -> M 3%nat 0%nat = d -> fields 4 1 (em [a; b; c; d]) M).
  { intros a b c d M D E0 E1 E2 E3. split; [reflexivity|]. split; [reflexivity|]. split; [unfold wf; cbn; lia|]. split; [cbn; lia|]. split; [exact D|]. intros i j Hi Hj. assert (j = 0%nat) by lia. subst j. destruct i as [|[|[|[|i]]]]; [cbn; auto..|lia]. }
  assert (Dv : forall k, (k < 4)%nat -> mdim 4 1 (v k)). { intros k Hk i j Hij. unfold v. destruct (Nat.eqb_spec i k), (Nat.eqb_spec j 0); cbn [andb]; try reflexivity; lia. }
  assert (F2 : fields 4 1 (em [C0; C0; C1; C0]) (v 2%nat)) by (apply Fe; [apply Dv; lia|reflexivity..]).
  assert (F0 : fields 4 1 (em [C1; C0; C0; C0]) (v 0%nat)) by (apply Fe; [apply Dv; lia|reflexivity..]).
  assert (FB : fields 4 1 (em [RtoC (/ 2); C0; C1; C0]) (mmul 4 B (v 2%nat))).
  { apply Fe; [apply (mdim_mul 4 4 1); [exact DB|apply Dv; lia]|unfold mmul, B, v; cbn; apply C_eq; csimp; ring..]. }
  assert (S1 : slice 0 1 (v 2%nat) = v 2%nat) by (apply (slice_all 4), Dv; lia).
  assert (Ap : applies 4 1 (chain_func (add_constraint (base_chain (fun X => Val X) true) (deflate 1 (em [C0; C0; C1; C0]) (em [RtoC (/ 2); C0; C1; C0]) [C0]))) (mmul 4 (mmul 4 (mid 4) (no_const 4)) (msub (mid 4) (yyb 4 1 B (v 2%nat))))).
  { apply chain_applies; [|apply (chain_applies 4 1 _ (no_const 4) [fun X => Val X]); [apply zero_k_applies; lia|exact (id_applies 4 1)]].
    rewrite <- S1. apply (deflate_applies 4 1 1 1 1 _ (v 2%nat) _ (mmul 4 B (v 2%nat)) [C0] B); auto. }
  destruct (Ap _ _ F0) as (X' & E & FX). eexists 4%nat, B, (em [C0; C0; C1; C0]), (em [RtoC (/ 2); C0; C1; C0]), (v 2%nat), [C0], (em [C1; C0; C0; C0]), X', _.
  split; [exact HB|]. split; [exact DB|]. split; [exact F2|]. split; [|split; [|split; [exact FB|split; [exact E|split; [exact FX|]]]]].
  - apply mext; intros i j. unfold mmul, no_const, v. cbn [csum]. destruct (Nat.eqb_spec j 0); [|rewrite !andb_false_r; apply C_eq; csimp; ring]. destruct i as [|[|[|[|i]]]]; cbn; apply C_eq; csimp; ring.
  - apply dim1; [apply form_dim; [exact DB|apply Dv; lia|apply Dv; lia]|apply mdim_id|]. unfold form, mmul, madj, B, v, mid. cbn. apply C_eq; csimp; ring.
  - intros Z. apply (f_equal re) in Z. revert Z. rewrite (mid_l 4 4) by apply no_const_dim. unfold form, yyb, msub, madd, mscal, mmul, madj, mid, no_const, B, v. cbn. csimp. lra.
Qed.
Print Assumptions C78_zero_k_mu_refuted.
