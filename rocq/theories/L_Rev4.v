(** Two points of vacuum at k and at -k. *)
From Coq Require Import List ZArith Reals Bool Arith Lia Lra Permutation.
From Verif Require Import Base RC M_Tensor S_Tensor M_Evect S_Evect M_Grid S_Grid L_Grid5 L_Grid6 M_Op S_Op L_Op L_Op3 L_Op4 M_Mx S_Mx S_Mir L_Mx2 L_Mir1 L_Mir2 L_Mir3 L_Mir4 S_Cmp L_Cmp2 L_Cmp3 S_Spec S_Rev L_Rev1 L_Rev2.
Import ListNotations.
Local Open Scope Z_scope.

Lemma transverse_mag q e : transverse q = Val e -> (kmag e * kmag e = rdot q q)%R.
Proof.
  destruct q as ((x & y) & z). unfold transverse, rdot. cbn [comp fst snd]. set (a := (x * x + y * y + z * z)%R). assert (P : (0 <= a)%R) by (unfold a; nra).
  intros E. assert (kmag e = sqrt a) as ->.
  { destruct (Reqb a 0); [injection E as <-; reflexivity|]. destruct (if Reqb x 0 && Reqb y 0 then _ else _) as [n| | |] in E; cbn [bind] in E; try discriminate. destruct (vcross n (x, y, z)) as ((a1 & b1) & c1). destruct (fdiv 1 _) as [l| | |] in E; cbn [bind] in E; try discriminate. injection E as <-. reflexivity. }
  rewrite sqrt_sqrt by exact P. reflexivity.
Qed.
Lemma cross_unit a m n : rdot m m = 1%R -> rdot n n = 1%R -> rdot m n = 0%R -> rdot (rsc a (rcross m n)) (rsc a (rcross m n)) = (a * a)%R.
Proof.
  destruct m as ((x & y) & z), n as ((x' & y') & z'). unfold rdot, rsc, rcross. cbn [comp fst snd]. intros H1 H2 H3.
  transitivity (a * a * ((x * x + y * y + z * z) * (x' * x' + y' * y' + z' * z') - (x * x' + y * y' + z * z') * (x * x' + y * y' + z * z')))%R; [ring|]. rewrite H1, H2, H3. ring.
Qed.
Lemma wave2_at d k G1 G2 G3 x y z c : made d k G1 G2 G3 -> 0 <= x < d_nx d -> 0 <= y < d_ny d -> 0 <= z < d_nz d -> (c < 2)%nat ->
  wave2 d (2 * Z.to_nat ((x * d_ny d + y) * d_nz d + z) + c) = rdot (kpG k G1 G2 G3 (kidx (d_nx d) x) (kidx (d_ny d) y) (kidx (d_nz d) z)) (kpG k G1 G2 G3 (kidx (d_nx d) x) (kidx (d_ny d) y) (kidx (d_nz d) z)).
Proof.
  intros Md Hx Hy Hz Hc. pose proof (grid_in d x y z Hx Hy Hz) as Gi0. assert (Gi : (Z.to_nat ((x * d_ny d + y) * d_nz d + z) < Z.to_nat (npts d))%nat) by lia. set (g := Z.to_nat ((x * d_ny d + y) * d_nz d + z)) in *. unfold wave2. rewrite (Nat.mul_comm 2 g), Nat.div_add_l, Nat.div_small, Nat.add_0_r by lia.
  pose proof (made_kat d k G1 G2 G3 x y z Md Hx Hy Hz) as T. apply transverse_mag in T. rewrite <- T. unfold kvec, kz. fold g. destruct (made_basis _ _ _ _ _ Md g Gi) as (B1 & B2 & B3). apply cross_unit; assumption.
Qed.

Definition rv_k (s : R) : vec := (0, 0, s)%R.
Definition rv_d (t : list kdata) : mdata := create_shape 1 1 2 1 t [iso 1; iso 1] None [] 0%R.
Lemma rv_table s : exists t, k_plus_G 1 1 2 0 1 (rv_k s) mr_k mr_2 mr_3 = Val t.
Proof. destruct (table_ok 1 1 2 0 1 (rv_k s) mr_k mr_2 mr_3 ltac:(lia) ltac:(lia) ltac:(lia)) as (t & E & _). eauto. Qed.
Lemma rv_made s t : k_plus_G 1 1 2 0 1 (rv_k s) mr_k mr_2 mr_3 = Val t -> made (rv_d t) (rv_k s) mr_k mr_2 mr_3.
Proof. intros E. exists 1, 1, 2, 1, t, [iso 1; iso 1], None, [], 0%R. repeat (split; [lia || reflexivity || exact E || discriminate|]). reflexivity. Qed.
Lemma rv_wave s t i : k_plus_G 1 1 2 0 1 (rv_k s) mr_k mr_2 mr_3 = Val t -> (i < 4)%nat -> wave2 (rv_d t) i = if (i <? 2)%nat then (s * s)%R else ((s + 1) * (s + 1))%R.
Proof.
  intros E Hi. pose proof (rv_made s t E) as Md. pose proof (wave2_at (rv_d t) _ _ _ _ 0 0 0 (i mod 2) Md ltac:(cbn; lia) ltac:(cbn; lia) ltac:(cbn; lia)) as W0. pose proof (wave2_at (rv_d t) _ _ _ _ 0 0 1 (i mod 2) Md ltac:(cbn; lia) ltac:(cbn; lia) ltac:(cbn; lia)) as W1.
  cbn [rv_d create_shape d_nx d_ny d_nz] in W0, W1. change (Z.to_nat ((0 * 1 + 0) * 2 + 0)) with 0%nat in W0. change (Z.to_nat ((0 * 1 + 0) * 2 + 1)) with 1%nat in W1.
  assert (K0 : kpG (rv_k s) mr_k mr_2 mr_3 (kidx 1 0) (kidx 1 0) (kidx 2 0) = (0, 0, s)%R) by (unfold kpG, kidx, rv_k; cbn -[IZR]; f_equal; [f_equal|]; cbn; ring).
  assert (K1 : kpG (rv_k s) mr_k mr_2 mr_3 (kidx 1 0) (kidx 1 0) (kidx 2 1) = (0, 0, s + 1)%R) by (unfold kpG, kidx, rv_k; cbn -[IZR]; f_equal; [f_equal|]; cbn; ring).
  rewrite K0 in W0. rewrite K1 in W1. unfold rdot in W0, W1. cbn [comp fst snd] in W0, W1.
  destruct i as [|[|[|[|]]]]; [| | | |lia]; cbn [Nat.ltb Nat.leb]; cbn in W0, W1; first [rewrite (W0 ltac:(lia)); ring|rewrite (W1 ltac:(lia)); ring].
Qed.
Lemma rv_bands s t : k_plus_G 1 1 2 0 1 (rv_k s) mr_k mr_2 mr_3 = Val t ->
  exists l lam, Permutation (seq 0 4) l /\ exact_bands (rv_d t) 4 0 false lam /\ forall j, lam j = (1 * wave2 (rv_d t) (nth j l 0%nat))%R.
Proof.
  intros E. pose proof (rv_made s t E) as Md. pose proof (made_wfd _ _ _ _ _ Md) as Wd. destruct (flat_modes (rv_d t) Wd ltac:(reflexivity) (made_basis _ _ _ _ _ Md) eq_refl 1 0) as (l & V & MV & Pm & _ & Am).
  change (2 * Z.to_nat (npts (rv_d t)))%nat with 4%nat in *. change (with_eps (rv_d t) (flat (rv_d t) 1)) with (rv_d t) in Am.
  exists l. eexists. split; [exact Pm|]. split; [exists V, MV; split; [exact Am|]|reflexivity]. intros i Hi. split; [intros Q; exfalso; apply Q; reflexivity|]. split; [intros Q; exfalso; apply Q; reflexivity|discriminate].
Qed.
Lemma rv_reversed t t' : k_plus_G 1 1 2 0 1 (rv_k (/ 4)) mr_k mr_2 mr_3 = Val t -> k_plus_G 1 1 2 0 1 (rv_k (- / 4)) mr_k mr_2 mr_3 = Val t' -> reversed (rv_d t) (rv_d t') (rv_k (/ 4)) mr_k mr_2 mr_3.
Proof.
  intros E E'. split; [apply rv_made; exact E|]. split; [|repeat split].
  - replace (rsc (-1) (rv_k (/ 4))) with (rv_k (- / 4)); [apply rv_made; exact E'|]. unfold rv_k, rsc. f_equal; [f_equal|]; ring.
  - intros r i j Hr Hi Hj. change (Z.to_nat (npts (rv_d t))) with 2%nat in Hr. change (d_eps_inv (rv_d t')) with [iso 1; iso 1]. change (d_eps_inv (rv_d t)) with [iso 1; iso 1].
    assert (sym_at [iso 1; iso 1] r = iso 1) as -> by (destruct r as [|[|]]; [reflexivity|reflexivity|lia]). destruct i as [|[|[|]]], j as [|[|[|]]]; try lia; unfold iso; cbn [entry m00 m11 m22 m01 m02 m12]; apply C_eq; csimp; ring.
Qed.
Lemma rv_differ : exists d d' k G1 G2 G3 m lam lam' j, reversed d d' k G1 G2 G3 /\ exact_bands d m 0 false lam /\ exact_bands d' m 0 false lam' /\ (j < m)%nat /\ (lam' j < lam j)%R.
Proof.
  destruct (rv_table (/ 4)) as (t & E), (rv_table (- / 4)) as (t' & E'). destruct (rv_bands _ _ E) as (l & lam & Pm & Eb & L), (rv_bands _ _ E') as (l' & lam' & Pm' & Eb' & L').
  assert (I : In 3%nat l) by (apply (Permutation_in 3%nat Pm); cbn; auto). destruct (In_nth l 3%nat 0%nat I) as (j & Hj & Ej). pose proof (Permutation_length Pm) as Ln. rewrite seq_length in Ln.
  exists (rv_d t), (rv_d t'), (rv_k (/ 4)), mr_k, mr_2, mr_3, 4%nat, lam, lam', j. split; [apply rv_reversed; assumption|]. split; [exact Eb|]. split; [exact Eb'|]. split; [lia|].
  rewrite L, L', Ej, (rv_wave _ _ 3 E) by lia. pose proof (Permutation_length Pm') as Ln'. rewrite seq_length in Ln'.
  assert (H4 : (nth j l' 0 < 4)%nat) by (assert (Q : In (nth j l' 0%nat) (seq 0 4)) by (apply (Permutation_in _ (Permutation_sym Pm')), nth_In; lia); apply in_seq in Q; lia).
  rewrite (rv_wave _ _ _ E' H4). destruct (nth j l' 0 <? 2)%nat; cbn [Nat.ltb Nat.leb]; lra.
Qed.
