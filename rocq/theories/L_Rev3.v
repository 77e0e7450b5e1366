(** Time reversal: matrix elements and bands. *)
From Coq Require Import List ZArith Reals Bool Arith Lia Lra Permutation.
From Verif Require Import Base RC M_Tensor S_Tensor M_Evect S_Evect L_Evect M_Grid S_Grid L_Grid M_Op S_Op L_Op L_Op2 L_Op3 L_Op4 L_Op5 L_Dft L_Mat S_Eig S_Kpt L_Kpt2 M_Mx S_Mx L_Mx1 L_Mx2 L_Mx3 S_Mir L_Mir1 L_Mir2 L_Mir3 S_Cmp L_Cmp2 L_Cmp3 S_Spec L_Spec5 S_Rev L_Rev1 L_Rev2.
Import ListNotations.
Local Open Scope Z_scope.
Add Ring Cring_rev3 : C_ring_theory.

(** A field is determined by its values at the grid points. *)
Lemma hfield_inj d X b Y c : wfd d -> orthonormal_basis d -> (forall r i, (r < Z.to_nat (npts d))%nat -> (i < 3)%nat -> hfield d X b r i = hfield d Y c r i) -> feq d (fld X b) (fld Y c).
Proof.
  intros Wd Ho H. apply inner_sep. intros u.
  assert (Id : forall f, inner d u f = gform d assign_t2c (flat d 1) u f).
  { intros f. rewrite <- mucol_form. apply inner_ext; [apply feq_refl|]. apply feq_sym. eapply feq_trans; [apply (mucol_iso d Wd (flat d 1) 1 f Ho); intros r Hr; apply flat_at; exact Hr|]. intros g e _ _. apply C_eq; csimp; ring. }
  rewrite !Id. unfold gform. f_equal. apply csum_ext. intros r Hr. apply form_ext; intros i Hi; [reflexivity|]. rewrite !pos_h by exact Hi. apply H; assumption.
Qed.

Section R.
Variables (d d' : mdata) (k G1 G2 G3 : vec).
Hypothesis Rv : reversed d d' k G1 G2 G3.

(** Fields conjugate to X and Y have the conjugate products and the conjugate matrix elements. *)
Lemma conj_fld q X b X' b' : inside_band d X (Z.of_nat b) -> (b < q)%nat -> conjugate d' X' b' d X (Z.of_nat b) -> feq d' (fld X' b') (fld (rev_of d d' q X) (Z.of_nat b)).
Proof.
  intros Ib Hb Cj. pose proof Rv as (_ & Md' & _). apply hfield_inj; [exact (rev_wfd' _ _ _ _ _ _ Rv)|exact (made_basis _ _ _ _ _ Md')|]. intros r i Hr Hi. rewrite (rev_npts _ _ _ _ _ _ Rv) in Hr. rewrite (Cj r i Hr Hi). symmetry. apply (rev_conjugate d d' k G1 G2 G3 Rv q X b Ib Hb r i Hr Hi).
Qed.
Lemma conj_form q X Y i j : inside_band d X (Z.of_nat i) -> inside_band d Y (Z.of_nat j) -> (i < q)%nat -> (j < q)%nat ->
  mean_form d' (sym_at (d_eps_inv d')) (curl d' (rev_of d d' q X) (Z.of_nat i)) (curl d' (rev_of d d' q Y) (Z.of_nat j)) = Cconj (mean_form d (sym_at (d_eps_inv d)) (curl d X (Z.of_nat i)) (curl d Y (Z.of_nat j))).
Proof. intros Ix Iy Hi Hj. apply (mean_rev d d' k G1 G2 G3 Rv (-1)); [ring| |]; intros r c Hr Hc; apply (rev_curl d d' k G1 G2 G3 Rv); assumption. Qed.
Lemma op_form e X Y i j : wfd e -> orthonormal_basis e -> d_mu_inv e = None -> inner e (fld X i) (opcol e (fld Y j)) = mean_form e (sym_at (d_eps_inv e)) (curl e X i) (curl e Y j).
Proof. intros We Ho Em. rewrite opcol_form. unfold mumaybe. rewrite Em. apply gform_curl. exact Ho. Qed.
Lemma conj_op X Y i j X' Y' i' j' : 0 <= i -> 0 <= j -> inside_band d X i -> inside_band d Y j -> conjugate d' X' i' d X i -> conjugate d' Y' j' d Y j ->
  inner d' (fld X' i') (opcol d' (fld Y' j')) = Cconj (inner d (fld X i) (opcol d (fld Y j))).
Proof.
  intros Hi Hj Ix Iy Cx Cy. set (q := S (Z.to_nat i + Z.to_nat j)). pose proof Rv as (Md & Md' & _ & _ & _ & _ & Em & Em').
  replace i with (Z.of_nat (Z.to_nat i)) in * by lia. replace j with (Z.of_nat (Z.to_nat j)) in * by lia. set (a := Z.to_nat i) in *. set (b := Z.to_nat j) in *.
  pose proof (conj_fld q X a X' i' Ix ltac:(unfold q; lia) Cx) as Ex. pose proof (conj_fld q Y b Y' j' Iy ltac:(unfold q; lia) Cy) as Ey.
  rewrite (op_form d X Y _ _ (made_wfd _ _ _ _ _ Md) (made_basis _ _ _ _ _ Md) Em). rewrite <- (conj_form q X Y a b Ix Iy) by (unfold q; lia).
  rewrite <- (op_form d' _ _ _ _ (made_wfd _ _ _ _ _ Md') (made_basis _ _ _ _ _ Md') Em'). rewrite !opcol_form. unfold mumaybe. rewrite Em'. apply gform_ext; assumption.
Qed.
Lemma conj_dot X Y i j X' Y' i' j' : S_Op.fields d X -> S_Op.fields d' X' -> 0 <= i -> 0 <= j -> inside_band d X i -> inside_band d Y j -> conjugate d' X' i' d X i -> conjugate d' Y' j' d Y j ->
  dotl X' Y' i' j' = Cconj (dotl X Y i j).
Proof.
  intros FX FX' Hi Hj Ix Iy Cx Cy. set (q := S (Z.to_nat i + Z.to_nat j)).
  replace i with (Z.of_nat (Z.to_nat i)) in * by lia. replace j with (Z.of_nat (Z.to_nat j)) in * by lia. set (a := Z.to_nat i) in *. set (b := Z.to_nat j) in *.
  pose proof (conj_fld q X a X' i' Ix ltac:(unfold q; lia) Cx) as Ex. pose proof (conj_fld q Y b Y' j' Iy ltac:(unfold q; lia) Cy) as Ey.
  rewrite <- (rev_dot d d' k G1 G2 G3 Rv q X Y a b FX Ix) by (unfold q; lia). rewrite !(dotl_inner d' (rev_wfd' _ _ _ _ _ _ Rv)) by (exact FX' || apply (rev_of_op d d' k G1 G2 G3 Rv)). apply inner_ext; assumption.
Qed.

(** The constant fields. *)
Lemma const_inside X i row : wfd d -> 0 <= row < 2 -> (forall r, 0 <= r < 2 * npts d -> entC X r i = if r =? row then C1 else C0) -> inside_band d X i.
Proof.
  intros Wd Hr H x y z c Hx Hy Hz Hc O. rewrite <- (fld_amp d). unfold fld. pose proof (grid_in d x y z Hx Hy Hz) as Gi. rewrite H by lia. destruct (Z.eqb_spec (2 * ((x * d_ny d + y) * d_nz d + z) + c) row) as [E|]; [|reflexivity]. exfalso.
  assert (G0 : (x * d_ny d + y) * d_nz d + z = 0) by lia. assert (Q1 : 0 <= x * d_ny d) by (apply Z.mul_nonneg_nonneg; lia). assert (Q2 : 0 <= (x * d_ny d + y) * d_nz d) by (apply Z.mul_nonneg_nonneg; lia). assert (z = 0) by lia. assert (Q3 : x * d_ny d + y = 0) by nia. assert (y = 0) by lia. assert (x = 0) by nia. subst. unfold outermost in O. destruct O as [(? & ?)|[(? & ?)|(? & ?)]]; lia.
Qed.

Lemma rn_0 : rn d 0 = 0%nat.
Proof.
  pose proof (rev_wfd _ _ _ _ _ _ Rv) as Wd. destruct (sizes3 d Wd) as (H1 & H2 & H3). unfold rn. pose proof (rmir_at d 0 0 0 ltac:(lia) ltac:(lia)) as Q. cbn [Z.of_nat Z.mul Z.add] in *. rewrite Q. reflexivity.
Qed.
Lemma rsgn_0 c : k = (0, 0, 0)%R -> rsgn d d' 0 c = 1%R.
Proof.
  intros K0. pose proof (rev_wfd _ _ _ _ _ _ Rv) as Wd. pose proof (N_pos d Wd). assert (No : ~ outer d 0).
  { unfold outer. destruct (sizes3 d Wd) as (H1 & H2 & H3). cbn [Z.of_nat]. rewrite ?Z.div_0_l, ?Z.mod_0_l by lia. unfold outermost. rewrite ?Z.div_0_l by lia. lia. }
  destruct (rsgn_at d d' k G1 G2 G3 Rv 0 c ltac:(lia) No) as (a & b & _ & Z0 & E). destruct (Z0 eq_refl K0) as (-> & ->). rewrite rn_0 in E. rewrite E. destruct (c =? 0); reflexivity.
Qed.
Lemma rev_ent0 q X c b : k = (0, 0, 0)%R -> 0 <= c < 2 -> (b < q)%nat -> entC (rev_of d d' q X) c (Z.of_nat b) = Cconj (entC X c (Z.of_nat b)).
Proof.
  intros K0 Hc Hb. pose proof (rev_wfd _ _ _ _ _ _ Rv) as Wd. pose proof (N_pos d Wd). pose proof (rev_ent d d' k G1 G2 G3 Rv q X 0 c b ltac:(lia) Hc Hb) as Q. rewrite rn_0, rsgn_0 in Q by exact K0. replace (2 * Z.of_nat 0 + c) with c in Q by lia. rewrite Q. apply C_eq; csimp; ring.
Qed.

Lemma conj_bands num bs b0 zero_k negative_ok parity H MH f w : 0 < d_nfb d' -> (zero_k = true -> k = (0, 0, 0)%R) -> wanted parity 0 1 = 0 -> wanted parity 2 3 = 0 ->
  Z.of_nat b0 = (if zero_k then const_count parity (Z.of_nat num) else 0) ->
  mx_bands d num bs b0 zero_k negative_ok parity H MH f w -> (forall i, (b0 <= i < num)%nat -> inside_band d H (Z.of_nat i)) ->
  exists H' MH', mx_muinv d' H' H' = Val MH' /\ (forall i, (i < num)%nat -> conjugate d' H' (Z.of_nat i) d H (Z.of_nat i)) /\ mx_bands d' num bs b0 zero_k negative_ok parity H' MH' f w.
Proof.
  intros Hn Zk P1 P2 Eb [ (F1 & F2 & F3 & F4 & F5) Fr Cn Or En Nm Cu Bz By B0 ] Ins. pose proof Rv as (Md & Md' & Ex & Ey & Ez & Ct & Em & Em').
  pose proof (rev_wfd _ _ _ _ _ _ Rv) as Wd. pose proof (rev_wfd' _ _ _ _ _ _ Rv) as Wd'. pose proof (rev_npts _ _ _ _ _ _ Rv) as Np.
  assert (Cr : forall i, (i < b0)%nat -> 0 <= const_row parity (Z.of_nat i) < 2).
  { intros i Hi. unfold const_row. destruct (m_allowed parity) eqn:Ea; [|lia]. destruct zero_k; [|lia]. unfold const_count in Eb. rewrite Ea in Eb. destruct (n_allowed parity); cbn [Z.b2z] in Eb; lia. }
  assert (Zb : (0 < b0)%nat -> zero_k = true) by (intros Q; destruct zero_k; [reflexivity|lia]).
  assert (Ib : forall i, (i < num)%nat -> inside_band d H (Z.of_nat i)).
  { intros i Hi. destruct (Nat.le_gt_cases b0 i) as [Q|Q]; [apply Ins; lia|]. destruct (Cn i Q) as (_ & V). apply (const_inside H _ (const_row parity (Z.of_nat i)) Wd (Cr i Q) V). }
  set (H' := rev_of d d' num H). destruct (rev_of_op d d' k G1 G2 G3 Rv num H) as (FH' & PH'). fold H' in FH', PH'.
  destruct (muinv_wide d' Wd' Hn H' H' FH' FH' ltac:(lia)) as (MH' & E & FM & PM & _ & V). exists H', MH'. split; [exact E|].
  assert (Cj : forall i, (i < num)%nat -> conjugate d' H' (Z.of_nat i) d H (Z.of_nat i)) by (intros i Hi; apply (rev_conjugate d d' k G1 G2 G3 Rv); auto).
  split; [exact Cj|].
  assert (V' : forall i, (i < num)%nat -> feq d' (fld MH' (Z.of_nat i)) (fld H' (Z.of_nat i))) by (intros i Hi; pose proof (V (Z.of_nat i) ltac:(lia)) as Q; unfold mumaybe in Q; rewrite Em' in Q; exact Q).
  assert (VM : forall i, (i < num)%nat -> feq d (fld MH (Z.of_nat i)) (fld H (Z.of_nat i))) by (intros i Hi g c Hg Hc; unfold fld; apply (Nm Em); lia).
  assert (Cd : forall i j, Cconj (delta i j) = delta i j) by (intros i j; unfold delta; destruct (i =? j)%nat; apply C_eq; csimp; ring).
  constructor.
  - split; [exact FH'|]. split; [exact PH'|]. split; [exact FM|]. split; [lia|exact F5].
  - exact Fr.
  - intros i Hi. destruct (Cn i Hi) as (W0 & Vi). split; [exact W0|]. intros r Hr. rewrite Np in Hr. pose proof (Zk (Zb ltac:(lia))) as K0.
    assert (Hin : (i < num)%nat). { rewrite (Zb ltac:(lia)) in Eb. unfold const_count in Eb. lia. }
    destruct (Z_lt_ge_dec r 2) as [R2|R2].
    + unfold H'. rewrite rev_ent0 by (auto; lia). rewrite Vi by lia. destruct (r =? _); apply C_eq; csimp; ring.
    + destruct (Z.eqb_spec r (const_row parity (Z.of_nat i))) as [Q|Q]; [specialize (Cr i Hi); lia|]. pose proof (Z.div_mod r 2 ltac:(lia)) as Dr. pose proof (Z.mod_pos_bound r 2 ltac:(lia)) as Mr.
      set (g' := Z.to_nat (r / 2)). assert (Hg' : (g' < Z.to_nat (npts d))%nat) by (unfold g'; lia). pose proof (rn_inv _ _ _ _ _ _ Rv g' Hg') as Rr. pose proof (rn_in _ _ _ _ _ _ Rv g' Hg') as Ri.
      pose proof (rev_ent d d' k G1 G2 G3 Rv num H (rn d g') (r mod 2) i Ri ltac:(lia) Hin) as Q1. rewrite Rr in Q1. replace (2 * Z.of_nat g' + r mod 2) with r in Q1 by (unfold g'; lia). unfold H'. rewrite Q1.
      assert (N0 : rn d g' <> 0%nat) by (intros Q0; rewrite Q0, rn_0 in Rr; unfold g' in Rr; lia). rewrite Vi by lia. destruct (Z.eqb_spec (2 * Z.of_nat (rn d g') + r mod 2) (const_row parity (Z.of_nat i))) as [Q2|Q2]; [specialize (Cr i Hi); lia|]. apply C_eq; csimp; ring.
  - intros i j Hi Hj. transitivity (dotl H' H' (Z.of_nat i) (Z.of_nat j)).
    { rewrite !(dotl_inner d' Wd') by exact FH'. apply inner_ext; [apply feq_refl|apply V'; lia]. }
    rewrite (conj_dot H H (Z.of_nat i) (Z.of_nat j) H' H' _ _ F1 FH') by (try lia; auto; try (apply Ib; lia); apply Cj; lia). rewrite <- Cd. f_equal. rewrite <- (Or i j Hi Hj).
    rewrite !(dotl_inner d Wd) by exact F1. apply inner_ext; [apply feq_refl|apply feq_sym, VM; lia].
  - intros mu Q. rewrite Em' in Q. discriminate.
  - intros _ i r Hi Hr. pose proof (Z.div_mod r 2 ltac:(lia)) as Dr. pose proof (Z.mod_pos_bound r 2 ltac:(lia)) as Mr. pose proof (V' i Hi (r / 2) (r mod 2) ltac:(lia) Mr) as Q. unfold fld in Q. rewrite <- Dr in Q. exact Q.
  - intros i j Hi Hj Sb. destruct (Cu i j Hi Hj Sb) as (C1' & C2'). split; [|exact C2']. rewrite <- (gform_curl d' _ MH' MH' _ _ (made_basis _ _ _ _ _ Md')). rewrite (gform_ext d' _ _ _ _ _ _ (V' i ltac:(lia)) (V' j ltac:(lia))). rewrite (gform_curl d' _ H' H' _ _ (made_basis _ _ _ _ _ Md')).
    unfold H'. rewrite (conj_form num H H i j) by (try lia; apply Ib; lia). replace (RtoC (w i) * delta i j)%C with (Cconj (RtoC (w i) * delta i j)) by (rewrite Cconj_mul, Cd, Cconj_R; reflexivity). f_equal. rewrite <- C1'.
    rewrite <- !(gform_curl d) by exact (made_basis _ _ _ _ _ Md). apply gform_ext; apply feq_sym, VM; lia.
  - intros Q. contradiction.
  - intros Q. contradiction.
  - intros Q i r Hi Hr. unfold H'. rewrite rev_ent0 by (auto; lia). rewrite (B0 Q i r Hi Hr). apply C_eq; csimp; ring.
Qed.
End R.
