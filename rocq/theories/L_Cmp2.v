(** Bands of one structure against the modes of another. *)
From Coq Require Import List ZArith Reals Bool Arith Lia Lra.
From Verif Require Import Base RC M_Tensor S_Tensor M_Evect S_Evect M_Grid S_Grid M_Op S_Op L_Op L_Op2 L_Op3 L_Op4 L_Op5 M_Eig S_Eig L_Mat L_Eig2 L_Eig4 L_Eig5 L_Eig7 L_Kpt2 M_Kpt S_Kpt L_Kpt1 M_Mx S_Mir S_Mx L_Mx1 L_Mx2 L_Mx3 L_Mx4 S_Cmp L_Cmp1.
Import ListNotations.
Local Open Scope Z_scope.
Add Ring Cring_cmp2 : C_ring_theory.

Lemma csum_0_ext k f : (forall i, (i < k)%nat -> f i = C0) -> csum k f = C0.
Proof. intros H. rewrite (csum_ext k f (fun _ => C0)) by exact H. apply csum_0. Qed.
Lemma mdim_form n p q A V M i j : mdim n n A -> mdim n p V -> mdim n q M -> (p <= i)%nat \/ (q <= j)%nat -> S_Eig.form n A V M i j = C0.
Proof. intros DA DV DM H. assert (D : mdim p q (S_Eig.form n A V M)) by (apply (mdim_mul p n q); [apply mdim_adj; exact DV|apply (mdim_mul n n q); auto]). apply D. lia. Qed.

Section D.
Variable d : mdata.
Hypothesis Wd : wfd d.
Notation n := (rows d).
Notation N := (npts d).

Definition mf (X : mat) (i : nat) : ff := fun g c => X (Z.to_nat (2 * g + c)) i.
Lemma mf_row X i k : (k < n)%nat -> mf X i (Z.of_nat k / 2) (Z.of_nat k mod 2) = X k i.
Proof. intros Hk. unfold mf. destruct (row_in d k Hk) as (_ & _ & ->). rewrite Nat2Z.id. reflexivity. Qed.
Lemma form_ff T X Y i j : symmetric d T -> S_Eig.form n (omat d T) X Y i j = inner d (mf X i) (T (mf Y j)).
Proof.
  intros Sy. unfold S_Eig.form, mmul, madj. rewrite inner_rows. apply csum_ext. intros k Hk. rewrite (mf_row X i k Hk). f_equal.
  destruct (row_in d k Hk) as (Hg & Hc & E). rewrite (omat_col d T _ _ _ Sy Hg Hc), E, Nat2Z.id. apply csum_ext. intros l Hl. rewrite (mf_row Y j l Hl). reflexivity.
Qed.

Lemma gform_le asg t t' f : nowhere_above d t' t -> (re (gform d asg t' f f) <= re (gform d asg t f f))%R.
Proof.
  intros Le. unfold gform.
  assert (Q : forall z : C, re (RtoC (/ mN d) * z)%C = (/ mN d * re z)%R) by (intros z; csimp; ring). rewrite !Q. apply Rmult_le_compat_l.
  - left. apply Rinv_0_lt_compat. unfold mN. apply IZR_lt. pose proof (N_pos d Wd) as Np. unfold npts in Np. lia.
  - rewrite !csum_re. apply rsum_le. intros r Hr. apply Le. exact Hr.
Qed.
Lemma with_wfd t : Z.of_nat (length t) = N -> wfd (with_eps d t).
Proof. intros L. destruct Wd as (H1 & H2 & H3 & H4 & H5 & H6 & H7 & H8 & H9 & H10 & H11). repeat (split; [assumption|]). exact H11. Qed.
Lemma with_same : with_eps d (d_eps_inv d) = d.
Proof. destruct d. reflexivity. Qed.
Lemma eps_le t t' X : nowhere_above d t' t ->
  (re (S_Eig.form n (omat d (opcol (with_eps d t'))) X X 0%nat 0%nat) <= re (S_Eig.form n (omat d (opcol (with_eps d t))) X X 0%nat 0%nat))%R.
Proof.
  intros Le. rewrite !form_ff; [|apply (opcol_sym (with_eps d t))|apply (opcol_sym (with_eps d t'))].
  pose proof (opcol_form (with_eps d t) (mf X 0) (mf X 0)) as Q. pose proof (opcol_form (with_eps d t') (mf X 0) (mf X 0)) as Q'. change (inner (with_eps d t)) with (inner d) in Q. change (inner (with_eps d t')) with (inner d) in Q'.
  rewrite Q, Q'. apply (gform_le _ t t'). exact Le.
Qed.

(** The matrices of a block of bands of which MH is the product with the inverse permeability. *)
Hypothesis Hn : 0 < d_nfb d.
Lemma mu_cols H MH : S_Op.fields d H -> mx_muinv d H H = Val MH -> S_Op.fields d MH /\ ep MH = ep H /\ forall i, 0 <= i < ep H -> feq d (fld MH i) (mumaybe d (fld H i)).
Proof.
  intros FH E. destruct (muinv_wide d Wd Hn H H FH FH ltac:(lia)) as (b & E' & Fb & Pb & _ & V). assert (b = MH) by congruence. subst b. auto.
Qed.
Lemma dot_form q H MH M i j : S_Eig.fields n q H M -> mx_muinv d H H = Val MH -> (i < q)%nat -> (j < q)%nat ->
  dotl H MH (Z.of_nat i) (Z.of_nat j) = S_Eig.form n (omat d (mumaybe d)) M M i j.
Proof.
  intros F E Hi Hj. pose proof (to_op d Wd _ _ _ F) as FO. pose proof F as (_ & PH & _). destruct (mu_cols H MH FO E) as (FM & PM & V).
  rewrite (dotl_inner d Wd) by exact FO. rewrite (form_omat d (mumaybe d) q q H M H M i j (mumaybe_sym d) F F) by lia. apply inner_ext; [apply feq_refl|]. apply V. lia.
Qed.
Lemma dot_form2 q r H MH M X M' i j : S_Eig.fields n q H M -> mx_muinv d H H = Val MH -> S_Eig.fields n r X M' -> (i < q)%nat -> (j < r)%nat ->
  dotl MH X (Z.of_nat i) (Z.of_nat j) = S_Eig.form n (omat d (mumaybe d)) M M' i j.
Proof.
  intros F E FX Hi Hj. pose proof (to_op d Wd _ _ _ F) as FO. pose proof F as (_ & PH & _). destruct (mu_cols H MH FO E) as (FM & PM & V).
  rewrite (dotl_inner d Wd) by exact FM. rewrite (form_omat d (mumaybe d) q r H M X M' i j (mumaybe_sym d) F FX) by lia.
  rewrite (inner_ext d _ _ _ _ (V (Z.of_nat i) ltac:(lia)) (feq_refl d _)). unfold mumaybe. destruct (d_mu_inv d); [symmetry; apply mucol_adj|reflexivity].
Qed.
Lemma curl_form q H MH M i j : orthonormal_basis d -> S_Eig.fields n q H M -> mx_muinv d H H = Val MH -> (i < q)%nat -> (j < q)%nat ->
  mean_form d (sym_at (d_eps_inv d)) (curl d MH (Z.of_nat i)) (curl d MH (Z.of_nat j)) = S_Eig.form n (omat d (opcol d)) M M i j.
Proof.
  intros Ho F E Hi Hj. pose proof (to_op d Wd _ _ _ F) as FO. pose proof F as (_ & PH & _). destruct (mu_cols H MH FO E) as (FM & PM & V).
  rewrite <- gform_curl by exact Ho. rewrite (gform_ext d _ _ _ _ _ _ (V (Z.of_nat i) ltac:(lia)) (V (Z.of_nat j) ltac:(lia))). rewrite <- opcol_form. symmetry. apply (form_omat d (opcol d) q q H M H M i j (opcol_sym d) F F); lia.
Qed.
End D.

(** p bands of H from band a on, and all modes of the structure with the tensors t'. *)
Lemma cmp_core d t' m parity zero_k V MV lam q a p H MH e : wfd d -> 0 < d_nfb d -> orthonormal_basis d -> Z.of_nat (length t') = npts d -> nowhere_above d t' (d_eps_inv d) ->
  all_modes (with_eps d t') m parity zero_k V MV lam ->
  S_Op.fields d H -> ep H = Z.of_nat q -> mx_muinv d H H = Val MH -> (a + p <= q)%nat ->
  (forall i j, (i < p)%nat -> (j < p)%nat -> dotl H MH (Z.of_nat (a + i)) (Z.of_nat (a + j)) = delta i j) ->
  (forall i j, (i < p)%nat -> (j < p)%nat -> mean_form d (sym_at (d_eps_inv d)) (curl d MH (Z.of_nat (a + i))) (curl d MH (Z.of_nat (a + j))) = (RtoC (e i) * delta i j)%C) ->
  (forall i j, (i <= j < p)%nat -> (e i <= e j)%R) -> (forall i, (i < p)%nat -> allowed d parity zero_k H (Z.of_nat (a + i))) ->
  forall k, (k < p)%nat -> (k < m)%nat /\ (lam k <= e k)%R.
Proof.
  intros Wd Hn Ho L Le [ (FV & PV) EV OV CV AV Cp ] FH PH EH Hap Or Cu As Al k Hk.
  assert (Wd' : wfd (with_eps d t')) by (apply with_wfd; assumption).
  destruct (of_op d Wd q H FH PH) as (Mh & Fh). destruct (of_op (with_eps d t') Wd' m V FV PV) as (Mv & Fv).
  change (rows (with_eps d t')) with (rows d) in Fv.
  assert (DH : mdim (rows d) q Mh) by apply (fields_dim _ _ _ _ Fh). assert (DV : mdim (rows d) m Mv) by apply (fields_dim _ _ _ _ Fv).
  assert (DB : mdim (rows d) (rows d) (omat d (mumaybe d))) by apply omat_dim.
  assert (DM : mdim (rows d) p (slice a p Mh)) by (apply (slice_dim (rows d) q); exact DH).
  refine (compare (rows d) p m (omat d (opcol (with_eps d t'))) (omat d (opcol d)) (omat d (mumaybe d)) Mv lam (slice a p Mh) e DB DV _ _ AV DM _ _ _ As _ k Hk).
  - apply mext; intros i j. destruct (Nat.ltb_spec i m) as [Hi|Hi], (Nat.ltb_spec j m) as [Hj|Hj].
    + transitivity (dotl V MV (Z.of_nat i) (Z.of_nat j)); [symmetry; exact (dot_form (with_eps d t') Wd' Hn m V MV Mv i j Fv EV Hi Hj)|]. rewrite OV by assumption. unfold mid, delta. destruct (Nat.ltb_spec i m); [reflexivity|lia].
    + rewrite (mdim_form (rows d) m m) by (auto; lia). unfold mid. destruct (Nat.eqb_spec i j); [lia|rewrite andb_false_r; reflexivity].
    + rewrite (mdim_form (rows d) m m) by (auto; lia). unfold mid. destruct (Nat.ltb_spec i m); [lia|reflexivity].
    + rewrite (mdim_form (rows d) m m) by (auto; lia). unfold mid. destruct (Nat.ltb_spec i m); [lia|reflexivity].
  - apply mext; intros i j. destruct (Nat.ltb_spec i m) as [Hi|Hi], (Nat.ltb_spec j m) as [Hj|Hj].
    + pose proof (curl_form (with_eps d t') Wd' Hn m V MV Mv i j Ho Fv EV Hi Hj) as Q. rewrite CV in Q by assumption. transitivity (RtoC (lam i) * delta i j)%C; [symmetry; exact Q|]. unfold mdiag, delta. destruct (Nat.ltb_spec i m); [|lia]. cbn [andb]. destruct (i =? j)%nat; ring.
    + rewrite (mdim_form (rows d) m m) by (auto using omat_dim; lia). unfold mdiag. destruct (Nat.eqb_spec i j); [lia|rewrite andb_false_r; reflexivity].
    + rewrite (mdim_form (rows d) m m) by (auto using omat_dim; lia). unfold mdiag. destruct (Nat.ltb_spec i m); [lia|reflexivity].
    + rewrite (mdim_form (rows d) m m) by (auto using omat_dim; lia). unfold mdiag. destruct (Nat.ltb_spec i m); [lia|reflexivity].
  - apply mext; intros r c. destruct (Nat.ltb_spec r (rows d)) as [Hr|Hr].
    + destruct (Nat.ltb_spec c p) as [Hc|Hc].
      * unfold slice at 1. destruct (Nat.ltb_spec c p); [|lia]. rewrite <- (fields_at (rows d) q H Mh r (a + c) Fh Hr) by lia.
        rewrite (Cp H (Z.of_nat (a + c)) FH ltac:(lia) (Al c Hc) (Z.of_nat r)) by (change (npts (with_eps d t')) with (npts d); pose proof (rows_Z d Wd); lia).
        unfold mmul. apply csum_ext. intros i Hi. rewrite (fields_at (rows d) m V Mv r i Fv Hr Hi). f_equal.
        etransitivity; [exact (dot_form2 (with_eps d t') Wd' Hn m q V MV Mv H Mh i (a + c) Fv EV Fh Hi ltac:(lia))|]. change (omat (with_eps d t') (mumaybe (with_eps d t'))) with (omat d (mumaybe d)). change (rows (with_eps d t')) with (rows d).
        unfold S_Eig.form, mmul. apply csum_ext. intros x Hx. f_equal. apply csum_ext. intros y Hy. unfold slice. destruct (Nat.ltb_spec c p); [reflexivity|lia].
      * rewrite (DM r c) by lia. symmetry. apply csum_0_ext. intros i Hi. rewrite (mdim_form (rows d) m p) by (auto; lia). ring.
    + rewrite (DM r c) by lia. symmetry. apply csum_0_ext. intros i Hi. rewrite (DV r i) by lia. ring.
  - apply mext; intros i j. rewrite form_slice. unfold mid. destruct (Nat.ltb_spec i p) as [Hi|Hi]; cbn [andb]; [|reflexivity]. destruct (Nat.ltb_spec j p) as [Hj|Hj]; cbn [andb]; [|destruct (Nat.eqb_spec i j); [lia|reflexivity]].
    rewrite <- (dot_form d Wd Hn q H MH Mh (a + i) (a + j) Fh EH) by lia. apply Or; assumption.
  - apply mext; intros i j. rewrite form_slice. unfold mdiag. destruct (Nat.ltb_spec i p) as [Hi|Hi]; cbn [andb]; [|reflexivity]. destruct (Nat.ltb_spec j p) as [Hj|Hj]; cbn [andb]; [|destruct (Nat.eqb_spec i j); [lia|reflexivity]].
    rewrite <- (curl_form d Wd Hn q H MH Mh (a + i) (a + j) Ho Fh EH) by lia. rewrite Cu by assumption. unfold delta. destruct (i =? j)%nat; ring.
  - intros U DU. pose proof (eps_le d Wd (d_eps_inv d) t' (mmul p (slice a p Mh) U) Le) as Q. rewrite (with_same d Wd) in Q. exact Q.
Qed.
