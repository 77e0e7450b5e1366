(** Property theorems for the bands found with the Maxwell operator: C79. *)
From Coq Require Import List ZArith Reals Bool Arith Lia Lra Permutation.
From Verif Require Import Base RC M_Tensor S_Tensor M_Evect S_Evect M_Grid S_Grid M_Lin M_Op S_Op L_Op L_Op2 L_Op3 L_Op4 L_Op5 M_Eig S_Eig L_Mat L_EigEx M_Dav S_Dav L_DavEx M_Kpt S_Kpt P_Op P_Kpt M_Mx S_Mx L_Mx1 L_Mx2 L_Mx3 L_Mx4 L_Mx5 L_Mx6 S_Mir L_Grid6 L_Mir3 L_Mir4.
Import ListNotations.
Local Open Scope Z_scope.

(** Two bands one by one: two points with an anisotropic material and permeability; at k = 0 with a parity. *)
Definition mx_blk : emat C := {| en := 4; ep := 1; ealloc := 1; edata := repeat C1 4 |}.
Lemma ex_fields_X d : npts d = 2 -> S_Op.fields d ex_X /\ S_Op.fields d mx_blk.
Proof. intros E. unfold S_Op.fields. rewrite E. repeat split; cbn; lia. Qed.
Example C79_call_ex : mx_call (ex_d 1 (Some [iso 1; iso (/ 2)])) 2 1 0 false false 0 2 [C0; C0] [0; 0]%R ex_X mx_blk (Some ex_X) /\ lapack_ok 1 ex_potr ex_heev /\ pre_fits true (ex_d 1 (Some [iso 1; iso (/ 2)])).
Proof.
  destruct C13_example as (Wd & Ho & _). destruct (ex_fields_X (ex_d 1 (Some [iso 1; iso (/ 2)])) eq_refl) as (F1 & F2). split; [|split].
  - split; [exact Wd|]. split; [exact Ho|]. split; [cbn; lia|]. split; [right; right; auto|]. split; [exact F1|]. split; [reflexivity|]. split; [reflexivity|]. split; [lia|]. split; [exact F2|]. split; [reflexivity|].
    split; [split; [discriminate|lia]|]. split; [split; [exact F1|reflexivity]|]. split; [cbn; lia|]. split; [reflexivity|]. split; [reflexivity|lia].
  - intros q Hq. assert (q = 1%nat) by lia. subst q. destruct (ex_ok None (or_introl eq_refl)) as [_ Lp Lh _ _ _ _ _ _ _ _ _ _]. auto.
  - reflexivity.
Qed.
Example C79_zero_ex : mx_call (ex_d 1 None) 2 1 1 true false 1 2 [C0; C0] [0; 0]%R ex_X mx_blk None.
Proof.
  destruct C66_example as (Wd & _). destruct (ex_fields_X (ex_d 1 None) eq_refl) as (F1 & F2).
  split; [exact Wd|]. split; [apply C13_example|]. split; [cbn; lia|]. split; [left; reflexivity|]. split; [exact F1|]. split; [reflexivity|]. split; [reflexivity|]. split; [lia|]. split; [exact F2|]. split; [reflexivity|].
  split; [split; [discriminate|lia]|]. split; [right; reflexivity|]. split; [cbn; lia|]. split; [reflexivity|]. split; [reflexivity|lia].
Qed.
(** Two dimensions, position dependent permeability, even fields. *)
Example C79_mirror_ex : exists t, mx_call (create_shape 2 1 1 1 t [mr_T; iso (/ 3)] (Some [iso 1; iso (/ 2)]) [] 0%R) 2 1 0 false false 1 2 [C0; C0] [0; 0]%R ex_X mx_blk (Some ex_X).
Proof.
  destruct (table_ok 2 1 1 0 2 mr_k mr_k mr_2 mr_3 ltac:(lia) ltac:(lia) ltac:(lia)) as (t & E & _). exists t. set (d := create_shape _ _ _ _ _ _ _ _ _).
  assert (Md : made d mr_k mr_k mr_2 mr_3) by (exists 2, 1, 1, 1, t, [mr_T; iso (/ 3)], (Some [iso 1; iso (/ 2)]), [], 0%R; repeat (split; [lia || reflexivity || exact E|]); split; [intros m [= <-]; reflexivity|reflexivity]).
  destruct (ex_fields_X d eq_refl) as (F1 & F2).
  split; [apply (made_wfd _ _ _ _ _ Md)|]. split; [apply (made_basis _ _ _ _ _ Md)|]. split; [cbn; lia|]. split.
  { right; right; right. split; [reflexivity|]. exists mr_k, mr_k, mr_2, mr_3. split; [exact Md|]. split; [|intros W; exfalso; apply W; reflexivity]. intros _. split; [repeat split|]. split; [reflexivity|]. intros mu [= <-] x y z i j Hx Hy Hz Hi Hj.
    cbn [d create_shape d_nx d_ny d_nz] in *. replace y with 0 by lia. replace z with 0 by lia. change (opp 1 0) with 0.
    assert (I : exists e, sym_at [iso 1; iso (/ 2)] (idx d x 0 0) = iso e) by (assert (x = 0 \/ x = 1) as [-> | ->] by lia; eexists; reflexivity).
    destruct I as (e & ->). destruct i as [|[|[|]]], j as [|[|[|]]]; try lia; unfold iso; cbn [entry m00 m11 m22 m01 m02 m12 zsgn]; apply C_eq; csimp; ring. }
  split; [exact F1|]. split; [reflexivity|]. split; [reflexivity|]. split; [lia|]. split; [exact F2|]. split; [reflexivity|].
  split; [split; [discriminate|lia]|]. split; [split; [exact F1|reflexivity]|]. split; [cbn; lia|]. split; [reflexivity|]. split; [reflexivity|lia].
Qed.

(** The conjugate-gradient solver with the Maxwell operator, the inverse permeability, either
    preconditioner and the constraints. *)
Theorem C79_cg d num bs b0 zero_k same negative_ok parity simple potr heev cg pr project reorth reset tol force only quick k fuel0 fuel S2 ev H Hblock BY H' f :
  mx_call d num bs b0 zero_k same parity fuel S2 ev H Hblock BY -> lapack_ok bs potr heev -> pre_fits simple d -> (project = true -> d_mu_inv d = None) ->
  let r := solve_kpoint (mx_parity d parity) (mx_muinv d) (cg_solver potr heev (mx_A d) (mx_B d) (Some (mx_K simple d)) cg pr project reorth reset tol force only quick k fuel0) fuel zero_k same negative_ok parity (Z.of_nat num) S2 ev H Hblock BY in
  r <> Some UB /\ (r = Some (Val (H', f)) -> exists MH w, mx_muinv d H' H' = Val MH /\ mx_bands d num bs b0 zero_k negative_ok parity H' MH f w).
Proof.
  intros Cl La Pf Pr r. pose proof Cl as (Wd & Ho & Hn & _). pose proof (mx_kcall d Wd Hn num bs b0 zero_k same parity fuel S2 ev H Hblock BY Cl) as Kc.
  destruct (C78_cg (rows d) num bs b0 (mx_parity d parity) zero_k same negative_ok (mx_muinv d) potr heev (mx_A d) (mx_B d) (Some (mx_K simple d)) cg pr project reorth reset tol force only quick k fuel0 _ _ _ parity fuel S2 ev H Hblock BY H' f Kc) as (Sf & Q); auto.
  - apply mx_solver_ok; auto.
  - intros E. apply omat_id. intros g. unfold mumaybe. rewrite (Pr E). apply feq_refl.
  - split; [exact Sf|]. intros E. destruct (Q E) as (M & w & Bd & Sa & Or & Bl).
    destruct Cl as (_ & _ & _ & _ & _ & _ & _ & Hbs & _ & _ & _ & _ & _ & _ & Eb & _). assert (Hb : (b0 <= num)%nat) by (unfold const_count in Eb; destruct zero_k; lia).
    destruct (mx_result d Wd Hn num bs b0 zero_k negative_ok parity H' f M w Ho Hb Bd Sa Or Bl) as (MH & E1 & R). exists MH, w. auto.
Qed.
Print Assumptions C79_cg.

(** The Davidson solver, which is used without permeability. *)
Theorem C79_davidson d num bs b0 nb zero_k same negative_ok parity simple potr heev tol k e W fuel S2 ev H Hblock BY H' f :
  mx_call d num bs b0 zero_k same parity fuel S2 ev H Hblock BY -> davidson_arrays d bs nb potr heev e W -> pre_fits simple d -> d_mu_inv d = None ->
  let r := solve_kpoint (mx_parity d parity) (mx_muinv d) (davidson_solver potr heev (mx_A d) (Some (mx_KI simple d)) tol k e W) fuel zero_k same negative_ok parity (Z.of_nat num) S2 ev H Hblock BY in
  r <> Some UB /\ (r = Some (Val (H', f)) -> exists MH w, mx_muinv d H' H' = Val MH /\ mx_bands d num bs b0 zero_k negative_ok parity H' MH f w).
Proof.
  intros Cl Da Pf Em r. pose proof Cl as (Wd & Ho & Hn & _). pose proof (mx_kcall d Wd Hn num bs b0 zero_k same parity fuel S2 ev H Hblock BY Cl) as Kc.
  assert (EB : omat d (mumaybe d) = mid (rows d)) by (apply omat_id; intros g; unfold mumaybe; rewrite Em; apply feq_refl). rewrite EB in Kc.
  destruct (C78_davidson (rows d) num bs b0 nb (mx_parity d parity) zero_k same negative_ok (mx_muinv d) potr heev (mx_A d) (Some (mx_KI simple d)) tol k e W _ _ parity fuel S2 ev H Hblock BY H' f Kc) as (Sf & Q).
  - apply mx_dav_call; auto.
  - split; [exact Sf|]. intros E. destruct (Q E) as (M & w & Bd & Sa & Or & Bl). rewrite <- EB in Or.
    destruct Cl as (_ & _ & _ & _ & _ & _ & _ & Hbs & _ & _ & _ & _ & _ & _ & Eb & _). assert (Hb : (b0 <= num)%nat) by (unfold const_count in Eb; destruct zero_k; lia).
    destruct (mx_result d Wd Hn num bs b0 zero_k negative_ok parity H' f M w Ho Hb Bd Sa Or Bl) as (MH & E1 & R). exists MH, w. auto.
Qed.
Print Assumptions C79_davidson.

(** With a nonnegative inverse permittivity no frequency is the root of a negative number: when the
    eigenvalues are found, so are the frequencies, and they are their square roots. *)
Theorem C79_no_nan d num bs b0 zero_k same parity simple potr heev cg pr project reorth reset tol force only quick k fuel0 fuel S2 ev H Hblock BY H' f :
  mx_call d num bs b0 zero_k same parity fuel S2 ev H Hblock BY -> lapack_ok bs potr heev -> pre_fits simple d -> (project = true -> d_mu_inv d = None) ->
  (forall r, (r < Z.to_nat (npts d))%nat -> PSD (sym_at (d_eps_inv d) r)) ->
  let run negative_ok := solve_kpoint (mx_parity d parity) (mx_muinv d) (cg_solver potr heev (mx_A d) (mx_B d) (Some (mx_K simple d)) cg pr project reorth reset tol force only quick k fuel0) fuel zero_k same negative_ok parity (Z.of_nat num) S2 ev H Hblock BY in
  run true = Some (Val (H', f)) -> (forall x, In x f -> (0 <= x)%R) /\ run false = Some (Val (H', map sqrt f)).
Proof.
  intros Cl La Pf Pr Psd run E. destruct (C79_cg d num bs b0 zero_k same true parity simple potr heev cg pr project reorth reset tol force only quick k fuel0 fuel S2 ev H Hblock BY H' f Cl La Pf Pr) as (_ & Q).
  destruct (Q E) as (MH & w & _ & [Fl Fr Cn _ _ _ Cu _ _ _]). assert (Lf : length f = num) by apply Fl.
  assert (Pos : forall x, In x f -> (0 <= x)%R).
  { intros x Hx. destruct (In_nth f x 0%R Hx) as (i & Hi & <-). rewrite Lf in Hi. pose proof (Fr i Hi) as Ei. cbn in Ei. rewrite Ei. destruct (Nat.ltb_spec i b0) as [Hb|Hb]; [rewrite (proj1 (Cn i Hb)); lra|].
    destruct (Cu i i ltac:(lia) ltac:(lia) eq_refl) as (C & _). unfold delta in C. rewrite Nat.eqb_refl in C. pose proof Cl as (Wd & Ho & _). rewrite <- gform_curl in C by exact Ho.
    destruct (gform_psd d Wd assign_cross_t2c (d_eps_inv d) (fld MH (Z.of_nat i)) Psd) as (_ & P). rewrite C in P. revert P. csimp. lra. }
  split; [exact Pos|]. apply (kpoint_roots _ _ _ _ _ _ _ _ _ _ _ _ _ _ _ E Lf Pos).
Qed.
Print Assumptions C79_no_nan.

(** In a uniform medium without constraints, the band with number j in its block is not below the
    band with number j of the medium: at least j + 1 of the values |k + G|^2 / epsilon, each counted
    for both polarizations, are not larger than its squared frequency. *)
Theorem C79_uniform d num bs same negative_ok parity simple potr heev cg pr project reorth reset tol force only quick k fuel0 fuel S2 ev H Hblock BY H' f e :
  mx_call d num bs 0 false same parity fuel S2 ev H Hblock BY -> lapack_ok bs potr heev -> pre_fits simple d ->
  uniform d (d_eps_inv d) e -> d_mu_inv d = None -> wanted parity 0 1 = 0 -> wanted parity 2 3 = 0 ->
  solve_kpoint (mx_parity d parity) (mx_muinv d) (cg_solver potr heev (mx_A d) (mx_B d) (Some (mx_K simple d)) cg pr project reorth reset tol force only quick k fuel0) fuel false same negative_ok parity (Z.of_nat num) S2 ev H Hblock BY = Some (Val (H', f)) ->
  forall l j, (j < bs)%nat -> (l * bs + j < num)%nat -> exists w found, freq_of negative_ok (nth (l * bs + j) f 0%R) w /\
    NoDup found /\ length found = S j /\ forall i, In i found -> (i < 2 * Z.to_nat (npts d))%nat /\ (e * rdot (kvec d (i / 2)) (kvec d (i / 2)) <= w)%R.
Proof.
  intros Cl La Pf U Em P1 P2 E l j Hj Hi. pose proof Cl as (Wd & Ho & Hn & _). pose proof (mx_kcall d Wd Hn num bs 0 false same parity fuel S2 ev H Hblock BY Cl) as Kc.
  assert (EB : omat d (mumaybe d) = mid (rows d)) by (apply omat_id; intros g; unfold mumaybe; rewrite Em; apply feq_refl).
  pose proof (L_Kpt6.cg_finds (rows d) bs potr heev (mx_A d) (mx_B d) (Some (mx_K simple d)) cg pr project reorth reset tol force only quick k fuel0 _ _ (mx_solver_ok d Wd Hn bs potr heev simple La Pf) (fun _ => EB)) as Fin.
  rewrite EB in Kc, Fin. unfold Pall in Kc. rewrite (no_parity d parity P1 P2) in Kc. rewrite (uniform_diag d Wd e Ho U Em) in Kc, Fin.
  destruct (diag_modes (rows d) (fun i => (e * rdot (kvec d (i / 2)) (kvec d (i / 2)))%R)) as (pm & Pm & Md).
  destruct (C78_above (rows d) num bs 0 _ _ _ _ _ _ _ _ _ _ _ _ _ _ _ _ _ _ _ _ _ Kc Fin E Md l j Hj ltac:(lia)) as (Hm & w & Fr & Le). cbn [Nat.add] in Fr. exists w, (firstn (S j) pm).
  assert (Lp : length pm = rows d) by (rewrite <- (Permutation_length Pm); apply seq_length).
  split; [exact Fr|]. split; [|split].
  - assert (Nd : NoDup pm) by (apply (Permutation_NoDup Pm), seq_NoDup). apply nodup_firstn. exact Nd.
  - rewrite firstn_length. lia.
  - intros i In_i. destruct (In_nth _ _ 0%nat In_i) as (m & Hm' & Ei). rewrite firstn_length in Hm'.
    assert (Ei' : nth m pm 0%nat = i) by (rewrite <- Ei; rewrite <- (firstn_skipn (S j) pm) at 1; apply app_nth1; rewrite firstn_length; lia).
    assert (In i (seq 0 (rows d))) as Hs by (apply (Permutation_in _ (Permutation_sym Pm)); rewrite <- Ei'; apply nth_In; lia). apply in_seq in Hs. split; [unfold rows in Hs; lia|].
    destruct Md as (_ & _ & _ & As & _). specialize (As m j ltac:(lia)). cbv beta in As. rewrite Ei' in As. lra.
Qed.
Print Assumptions C79_uniform.
