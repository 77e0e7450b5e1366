(** C91: the exact bands of the builds with real and with complex scalars. *)
From Coq Require Import List ZArith Reals Bool Arith Lia Lra.
From Verif Require Import Base RC M_Tensor S_Tensor M_Evect S_Evect M_Grid S_Grid M_Op S_Op L_Op2 S_Eig M_Mx S_Mir S_Mx S_Cmp S_Spec M_Real S_Real S_Rbd L_Cmp2 L_Spec5 L_Spec6 L_Real5 L_Real8 P_Spec.
Import ListNotations.
Local Open Scope Z_scope.

(** The real build has the same exact squared frequencies as the complex one, as often each, for every
    structure with inversion symmetry, k point and parity. *)
Theorem C91_bands dr dc m parity zero_k lam : wfr dr -> wfd dc -> same_problem dr dc -> symmetric_structure dc -> 0 < d_nfb dr -> 0 < d_nfb dc -> orthonormal_basis dc -> sound_mu dc ->
  (exact_bands_r dr m parity zero_k lam <-> exact_bands dc m parity zero_k lam).
Proof.
  intros Wr Wc Sp Sy Hr Hn Ho Sm. split; intros E.
  - destruct (real_blocks_modes dr dc Wr Wc Sp Sy parity zero_k m lam E) as (Mv & Md & Sv). exact (modes_fields dc Wc Hn Ho parity zero_k m Mv lam Md Sv).
  - destruct (real_bands_exist dr dc Wr Wc Sp Sy Hr parity zero_k Ho Sm) as (m' & lam' & Mv & Md & Sv & RV).
    destruct (C85_unique dc parity zero_k m lam m' lam' Wc Hn Ho E (modes_fields dc Wc Hn Ho parity zero_k m' Mv lam' Md Sv)) as (-> & El).
    apply (modes_real_blocks dr dc Wr Wc Sp Sy Hr parity zero_k m Mv lam); [|exact Sv|exact RV].
    destruct Md as (M1 & M2 & M3 & M4 & M5). split; [exact M1|]. split; [exact M2|]. split; [|split; [|exact M5]].
    + rewrite M3. apply L_Mat.mext; intros i j. unfold mdiag. destruct (Nat.ltb_spec i m); cbn [andb]; [|reflexivity]. destruct (i =? j)%nat; [|reflexivity]. rewrite El by assumption. reflexivity.
    + intros i j H. rewrite <- !El by lia. apply M4. exact H.
Qed.
Print Assumptions C91_bands.

(** They exist, and are the only ones. *)
Theorem C91_exist dr dc parity zero_k : wfr dr -> wfd dc -> same_problem dr dc -> symmetric_structure dc -> 0 < d_nfb dr -> orthonormal_basis dc -> sound_mu dc ->
  exists m lam, exact_bands_r dr m parity zero_k lam.
Proof.
  intros Wr Wc Sp Sy Hr Ho Sm. destruct (real_bands_exist dr dc Wr Wc Sp Sy Hr parity zero_k Ho Sm) as (m & lam & Mv & Md & Sv & RV). exists m, lam. exact (modes_real_blocks dr dc Wr Wc Sp Sy Hr parity zero_k m Mv lam Md Sv RV).
Qed.
Print Assumptions C91_exist.
Theorem C91_unique dr dc parity zero_k m lam m' lam' : wfr dr -> wfd dc -> same_problem dr dc -> symmetric_structure dc -> 0 < d_nfb dr -> 0 < d_nfb dc -> orthonormal_basis dc -> sound_mu dc ->
  exact_bands_r dr m parity zero_k lam -> exact_bands_r dr m' parity zero_k lam' -> m' = m /\ forall j, (j < m)%nat -> lam' j = lam j.
Proof.
  intros Wr Wc Sp Sy Hr Hn Ho Sm E E'. apply (C91_bands dr dc) in E; try assumption. apply (C91_bands dr dc) in E'; try assumption. exact (C85_unique dc parity zero_k m lam m' lam' Wc Hn Ho E E').
Qed.
Print Assumptions C91_unique.

(** Four points along z, symmetric, with permeability. *)
Example C91_ex : let dr := rl_r true 1 (/ 2) (/ 3) in let dc := rl_c true 1 (/ 2) (/ 3) (/ 2) in
  wfr dr /\ wfd dc /\ same_problem dr dc /\ symmetric_structure dc /\ 0 < d_nfb dr /\ 0 < d_nfb dc /\ orthonormal_basis dc /\ sound_mu dc.
Proof.
  cbv zeta. split; [apply rl_wfr|]. split; [apply rl_wfd|]. split; [apply rl_same|]. split; [apply rl_symmetric|]. split; [reflexivity|]. split; [reflexivity|]. split.
  - intros g Hg. change (Z.to_nat (npts (rl_c true 1 (/ 2) (/ 3) (/ 2)))) with 4%nat in Hg.
    assert (K : exists q, q <> 0%R /\ kat (rl_c true 1 (/ 2) (/ 3) (/ 2)) g = rl_k q) by (destruct g as [|[|[|[|]]]]; try lia; eexists; (split; [|reflexivity]); lra).
    destruct K as (q & Hq & ->). unfold rl_k. cbn [km kn]. assert (Rabs q <> 0%R) by (apply Rabs_no_R0; exact Hq). assert (Rabs q * Rabs q = q * q)%R by (pose proof (Rsqr_abs q) as K; unfold Rsqr in K; lra).
    unfold rdot. cbn [fst snd]. split; [|split]; [|ring|ring]. transitivity (q * q / (Rabs q * Rabs q))%R; [field; assumption|]. rewrite H0. field. exact Hq.
  - intros mu E. injection E as <-. apply iso_positive. intros r Hr. change (Z.to_nat (npts (rl_c true 1 (/ 2) (/ 3) (/ 2)))) with 4%nat in Hr. destruct r as [|[|[|[|]]]]; try lia; eexists; (split; [|reflexivity]); lra.
Qed.
