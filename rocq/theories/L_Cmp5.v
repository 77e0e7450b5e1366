(** Bands under a change of the units. *)
From Coq Require Import List ZArith Reals Bool Arith Lia Lra.
From Verif Require Import Base RC M_Tensor S_Tensor M_Evect S_Evect M_Grid S_Grid M_Op S_Op L_Op L_Op2 L_Op3 L_Op4 L_Op5 M_Eig S_Eig L_Mat M_Kpt S_Kpt M_Mx S_Mir L_Grid5 L_Grid6 L_Mx1 L_Mx2 L_Mir1 L_Mir2 L_Mir3 S_Mx S_Cmp L_Cmp4.
Import ListNotations.
Local Open Scope Z_scope.
Add Ring Cring_cmp5 : C_ring_theory.

Lemma bands_index d s t num bs b0 zero_k negative_ok parity H MH f w : (0 <= s)%R -> scaled_tensors d s t (d_eps_inv d) ->
  mx_bands d num bs b0 zero_k negative_ok parity H MH f w -> mx_bands (with_eps d t) num bs b0 zero_k negative_ok parity H MH (rescaled negative_ok s f) (fun i => (s * w i)%R).
Proof.
  intros Hs Sc [ (F1 & F2 & F3 & F4 & F5) Fr Cn Or En Nm Cu Bz By B0 ]. constructor; auto.
  - split; [exact F1|]. split; [exact F2|]. split; [exact F3|]. split; [exact F4|]. unfold rescaled. rewrite map_length. exact F5.
  - intros i Hi. rewrite rescaled_nth by lia. apply freq_scaled; auto.
  - intros i Hi. destruct (Cn i Hi) as (-> & Q). split; [ring|exact Q].
  - intros i j Hi Hj Sb. destruct (Cu i j Hi Hj Sb) as (Q & As). split; [|intros L; apply Rmult_le_compat_l; auto].
    cbn [d_eps_inv with_eps]. etransitivity; [exact (mean_scaled d s (d_eps_inv d) t (curl d MH (Z.of_nat i)) (curl d MH (Z.of_nat j)) Sc)|]. rewrite Q. apply C_eq; csimp; ring.
Qed.

Section L.
Variables (c : R) (d d' : mdata) (k G1 G2 G3 : vec).
Hypothesis Hc : (0 < c)%R.
Hypothesis Sh : shrunk c d d' k G1 G2 G3.

Lemma shrunk_npts : npts d' = npts d.
Proof. destruct Sh as (_ & _ & Ex & Ey & Ez & _). unfold npts. congruence. Qed.
Lemma shrunk_kat g : (g < Z.to_nat (npts d))%nat -> km (kat d' g) = km (kat d g) /\ kn (kat d' g) = kn (kat d g) /\ kmag (kat d' g) = (c * kmag (kat d g))%R.
Proof.
  intros Hg. pose proof Sh as (Md & Md' & Ex & Ey & Ez & _). pose proof (made_wfd _ _ _ _ _ Md) as Wd. destruct (grid_point d Wd (Z.of_nat g) ltac:(lia)) as (x & y & z & Hx & Hy & Hz & E).
  pose proof (made_kat d k G1 G2 G3 x y z Md Hx Hy Hz) as T. assert (T' := made_kat d' _ _ _ _ x y z Md' ltac:(lia) ltac:(lia) ltac:(lia)). rewrite kpG_scaled, Ex, Ey, Ez in T'.
  pose proof (transverse_scaled c _ _ _ Hc T T') as Q. rewrite <- E in Q. unfold kz in Q. rewrite Nat2Z.id in Q. exact Q.
Qed.
Lemma shrunk_cart X b g i : (g < Z.to_nat (npts d))%nat -> cart d' X b g i = cart d X b g i.
Proof. intros Hg. unfold cart. destruct (shrunk_kat g Hg) as (-> & -> & _). reflexivity. Qed.
Lemma shrunk_kvec g : (g < Z.to_nat (npts d))%nat -> kvec d' g = rsc c (kvec d g).
Proof.
  intros Hg. unfold kvec. destruct (shrunk_kat g Hg) as (-> & -> & ->). destruct (rcross _ _) as ((a & b) & e). unfold rsc. f_equal; [f_equal|]; ring.
Qed.
Lemma shrunk_wave g r : wave d' g r = wave d g r.
Proof. pose proof Sh as (_ & _ & Ex & Ey & Ez & _). unfold wave. rewrite Ex, Ey, Ez. reflexivity. Qed.
Lemma shrunk_hfield X b r i : hfield d' X b r i = hfield d X b r i.
Proof. unfold hfield, synth. rewrite shrunk_npts. apply csum_ext. intros g Hg. rewrite shrunk_wave, shrunk_cart by exact Hg. reflexivity. Qed.
Lemma ccross_scaled q (u u' : nat -> C) i : (forall j, u' j = u j) -> ccross (rsc c q) u' i = (RtoC c * ccross q u i)%C.
Proof. intros Hu. destruct q as ((a & b) & e). unfold ccross, rsc. rewrite !Hu. destruct i as [|[|i]]; cbn [comp fst snd]; apply C_eq; csimp; ring. Qed.
Lemma shrunk_curl X b r i : curl d' X b r i = (RtoC c * curl d X b r i)%C.
Proof.
  unfold curl, synth. rewrite shrunk_npts, <- csum_scal. apply csum_ext. intros g Hg. rewrite shrunk_wave, shrunk_kvec by exact Hg. rewrite (ccross_scaled _ (cart d X b g)) by (intros j; apply shrunk_cart; exact Hg). ring.
Qed.
Lemma mean_form_same V u v : mean_form d' V u v = mean_form d V u v.
Proof. unfold mean_form. rewrite shrunk_npts. reflexivity. Qed.

Lemma bands_length num bs b0 zero_k negative_ok parity H MH f w :
  mx_bands d num bs b0 zero_k negative_ok parity H MH f w -> mx_bands d' num bs b0 zero_k negative_ok parity H MH (rescaled negative_ok (c * c) f) (fun i => (c * c * w i)%R).
Proof.
  intros [ (F1 & F2 & F3 & F4 & F5) Fr Cn Or En Nm Cu Bz By B0 ]. pose proof Sh as (_ & _ & Ex & Ey & Ez & Ee & Eu). assert (P : (0 <= c * c)%R) by nra.
  constructor; unfold S_Op.fields; rewrite ?shrunk_npts, ?Ex, ?Ey, ?Ez, ?Ee, ?Eu; auto.
  - split; [exact F1|]. split; [exact F2|]. split; [exact F3|]. split; [exact F4|]. unfold rescaled. rewrite map_length. exact F5.
  - intros i Hi. rewrite rescaled_nth by lia. apply freq_scaled; auto.
  - intros i Hi. destruct (Cn i Hi) as (-> & Q). split; [ring|exact Q].
  - intros mu Em i j Hi Hj. rewrite (En mu Em i j Hi Hj), mean_form_same. unfold mean_form. f_equal. apply csum_ext. intros r _. unfold S_Op.form. apply csum_ext. intros p _. apply csum_ext. intros q _. rewrite !shrunk_hfield. reflexivity.
  - intros i j Hi Hj Sb. destruct (Cu i j Hi Hj Sb) as (Q & As). split; [|intros L; apply Rmult_le_compat_l; auto].
    rewrite mean_form_same. rewrite (mean_vec d _ c (curl d MH (Z.of_nat i)) (curl d MH (Z.of_nat j))) by (intros r p; apply shrunk_curl). rewrite Q. apply C_eq; csimp; ring.
Qed.
End L.
