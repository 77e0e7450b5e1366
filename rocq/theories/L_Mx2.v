(** The parity constraint and the constraint at k = 0 on single bands. *)
From Coq Require Import List ZArith Reals Bool Arith Lia Lra.
From Verif Require Import Base RC M_Tensor S_Tensor M_Evect S_Evect L_Evect M_Grid S_Grid L_Grid L_Grid2 L_Grid3 M_Op S_Op L_Op L_Op2 L_Op3 L_Op4 L_Op5 M_Eig S_Eig L_Mat L_Eig2 S_Kpt L_Kpt1 L_Kpt2 M_Mx L_Mx1.
Import ListNotations.
Local Open Scope Z_scope.
Add Ring Cring_mx2 : C_ring_theory.

Section D.
Variable d : mdata.
Hypothesis Wd : wfd d.
Notation N := (npts d).
Notation NN := (Z.to_nat (npts d)).
Notation nx := (d_nx d). Notation ny := (d_ny d). Notation nz := (d_nz d).

(** Products. *)
Lemma omat_mul T T' : symmetric d T -> mmul (rows d) (omat d T) (omat d T') = omat d (fun f => T (T' f)).
Proof.
  intros Sy. apply mext; intros i j. unfold mmul. destruct (Nat.ltb_spec i (rows d)) as [Hi|Hi].
  2:{ rewrite (csum_ext _ _ (fun _ => C0)) by (intros l _; rewrite (omat_dim d T i l) by lia; ring). rewrite csum_0. symmetry. apply (omat_dim d (fun f => T (T' f))). lia. }
  destruct (Nat.ltb_spec j (rows d)) as [Hj|Hj].
  2:{ rewrite (csum_ext _ _ (fun _ => C0)) by (intros l _; rewrite (omat_dim d T' l j) by lia; ring). rewrite csum_0. symmetry. apply (omat_dim d (fun f => T (T' f))). lia. }
  rewrite (omat_entry d (fun f => T (T' f)) i j Hi Hj). destruct (row_in d i Hi) as (Hg & Hc & E). rewrite (omat_col d T _ _ _ Sy Hg Hc), E, Nat2Z.id.
  apply csum_ext. intros l Hl. rewrite (omat_entry d T' l j Hl Hj). reflexivity.
Qed.
Lemma omat_ext T T' : (forall f, feq d (T f) (T' f)) -> omat d T = omat d T'.
Proof.
  intros H. apply mext; intros i j. unfold omat. destruct (Nat.ltb_spec i (rows d)), (Nat.ltb_spec j (rows d)); cbn [andb]; try reflexivity.
  destruct (row_in d i H0) as (Hg & Hc & E). apply H; assumption.
Qed.
Lemma sym_comp T T' : symmetric d T -> symmetric d T' -> (forall f, feq d (T (T' f)) (T' (T f))) -> symmetric d (fun f => T (T' f)).
Proof.
  intros S1 S2 H f h. rewrite S1, <- inner_conj, S2. apply (f_equal Cconj). apply inner_ext; [apply feq_refl|]. apply feq_sym, H.
Qed.

(** Mirrors. *)
Definition zmir (g : Z) : Z := g / nz * nz + opp nz (g mod nz).
Definition ymir (g : Z) : Z := (g / nz / ny * ny + opp ny ((g / nz) mod ny)) * nz + g mod nz.
Definition mixed (t : Z -> Z) (s : R) (f : ff) : ff := fun g c => Cscal (/ 2) (f g c + Cscal (if c =? 0 then s else (- s)%R) (f (t g) c))%C.

Lemma sizes3 : 0 < nx /\ 0 < ny /\ 0 < nz.
Proof. destruct Wd as (A & B & D & _). lia. Qed.
Lemma zmir_at x y z : 0 <= z < nz -> zmir ((x * ny + y) * nz + z) = (x * ny + y) * nz + opp nz z.
Proof. intros Hz. unfold zmir. rewrite Z.div_add_l, Z.div_small by lia. rewrite Z.add_comm with (m := z), Z.mod_add, Z.mod_small by lia. lia. Qed.
Lemma ymir_at x y z : 0 <= y < ny -> 0 <= z < nz -> ymir ((x * ny + y) * nz + z) = (x * ny + opp ny y) * nz + z.
Proof.
  intros Hy Hz. unfold ymir. rewrite Z.div_add_l, (Z.div_small z) by lia. rewrite Z.add_0_r, Z.div_add_l, (Z.div_small y) by lia. rewrite Z.add_0_r.
  rewrite (Z.add_comm _ z), Z.mod_add, (Z.mod_small z) by lia. rewrite (Z.add_comm (x * ny) y), Z.mod_add, (Z.mod_small y) by lia. reflexivity.
Qed.
Lemma grid_point g : 0 <= g < N -> exists x y z, 0 <= x < nx /\ 0 <= y < ny /\ 0 <= z < nz /\ g = (x * ny + y) * nz + z.
Proof. destruct sizes3 as (A & B & D). apply point_exists; assumption. Qed.
Lemma grid_in x y z : 0 <= x < nx -> 0 <= y < ny -> 0 <= z < nz -> 0 <= (x * ny + y) * nz + z < N.
Proof. intros Hx Hy Hz. unfold npts. assert (0 <= x * ny + y < nx * ny) by nia. split; nia. Qed.
Lemma zmir_in g : 0 <= g < N -> 0 <= zmir g < N.
Proof. intros Hg. destruct (grid_point g Hg) as (x & y & z & Hx & Hy & Hz & ->). rewrite zmir_at by exact Hz. apply grid_in; auto. apply opp_range. lia. Qed.
Lemma ymir_in g : 0 <= g < N -> 0 <= ymir g < N.
Proof. intros Hg. destruct (grid_point g Hg) as (x & y & z & Hx & Hy & Hz & ->). rewrite ymir_at by assumption. apply grid_in; auto. apply opp_range. lia. Qed.
Lemma zmir_inv g : 0 <= g < N -> zmir (zmir g) = g.
Proof. intros Hg. destruct (grid_point g Hg) as (x & y & z & Hx & Hy & Hz & ->). rewrite zmir_at, zmir_at by (auto; apply opp_range; lia). rewrite opp_opp by lia. reflexivity. Qed.
Lemma ymir_inv g : 0 <= g < N -> ymir (ymir g) = g.
Proof. intros Hg. destruct (grid_point g Hg) as (x & y & z & Hx & Hy & Hz & ->). rewrite ymir_at, ymir_at by (auto; apply opp_range; lia). rewrite opp_opp by lia. reflexivity. Qed.
Lemma mir_comm g : 0 <= g < N -> zmir (ymir g) = ymir (zmir g).
Proof. intros Hg. destruct (grid_point g Hg) as (x & y & z & Hx & Hy & Hz & ->). rewrite zmir_at, ymir_at, zmir_at, ymir_at by (auto; apply opp_range; lia). reflexivity. Qed.
Lemma zmir_0 : zmir 0 = 0.
Proof. destruct sizes3 as (A & B & D). change (zmir ((0 * ny + 0) * nz + 0) = 0). rewrite zmir_at by lia. unfold opp. rewrite Z.mod_small by lia. reflexivity. Qed.
Lemma ymir_0 : ymir 0 = 0.
Proof. destruct sizes3 as (A & B & D). change (ymir ((0 * ny + 0) * nz + 0) = 0). rewrite ymir_at by lia. unfold opp. rewrite Z.mod_small by lia. reflexivity. Qed.

Lemma csum_zmir (F : Z -> C) : csum NN (fun g => F (zmir (Z.of_nat g))) = csum NN (fun g => F (Z.of_nat g)).
Proof.
  destruct sizes3 as (A & B & D). replace NN with (Z.to_nat (nx * ny) * Z.to_nat nz)%nat by (unfold npts; rewrite (Z2Nat.inj_mul (nx * ny)) by lia; reflexivity).
  rewrite !csum_flat. apply csum_ext. intros i Hi.
  assert (Q : forall j, (j < Z.to_nat nz)%nat -> Z.of_nat (i * Z.to_nat nz + j) = Z.of_nat i * nz + Z.of_nat j) by (intros; rewrite Nat2Z.inj_add, Nat2Z.inj_mul, Z2Nat.id by lia; reflexivity).
  transitivity (csum (Z.to_nat nz) (fun j => F (Z.of_nat i * nz + opp nz (Z.of_nat j)))).
  - apply csum_ext. intros j Hj. rewrite Q by exact Hj. unfold zmir. rewrite Z.div_add_l, Z.div_small by lia. rewrite (Z.add_comm _ (Z.of_nat j)), Z.mod_add, Z.mod_small by lia. rewrite Z.add_0_r. reflexivity.
  - rewrite (csum_opp_idx nz (fun z => F (Z.of_nat i * nz + z)) D). apply csum_ext. intros j Hj. rewrite Q by exact Hj. reflexivity.
Qed.
Lemma csum_ymir (F : Z -> C) : csum NN (fun g => F (ymir (Z.of_nat g))) = csum NN (fun g => F (Z.of_nat g)).
Proof.
  destruct sizes3 as (A & B & D). replace NN with (Z.to_nat nx * (Z.to_nat ny * Z.to_nat nz))%nat by (unfold npts; rewrite !Z2Nat.inj_mul by nia; lia).
  rewrite !(csum_flat (Z.to_nat nx)). apply csum_ext. intros i Hi. rewrite !(csum_flat (Z.to_nat ny)).
  assert (Q : forall j k, (j < Z.to_nat ny)%nat -> (k < Z.to_nat nz)%nat -> Z.of_nat (i * (Z.to_nat ny * Z.to_nat nz) + (j * Z.to_nat nz + k)) = (Z.of_nat i * ny + Z.of_nat j) * nz + Z.of_nat k).
  { intros. rewrite !Nat2Z.inj_add, !Nat2Z.inj_mul, !Z2Nat.id by lia. ring. }
  transitivity (csum (Z.to_nat ny) (fun j => csum (Z.to_nat nz) (fun k => F ((Z.of_nat i * ny + opp ny (Z.of_nat j)) * nz + Z.of_nat k)))).
  - apply csum_ext. intros j Hj. apply csum_ext. intros k Hk. rewrite Q, ymir_at by lia. reflexivity.
  - rewrite (csum_opp_idx ny (fun y => csum (Z.to_nat nz) (fun k => F ((Z.of_nat i * ny + y) * nz + Z.of_nat k))) B). apply csum_ext. intros j Hj. apply csum_ext. intros k Hk. rewrite Q by assumption. reflexivity.
Qed.

Lemma mixed_sym t s : (forall F : Z -> C, csum NN (fun g => F (t (Z.of_nat g))) = csum NN (fun g => F (Z.of_nat g))) -> (forall g, 0 <= g < N -> t (t g) = g) -> symmetric d (mixed t s).
Proof.
  intros Re Inv f h. unfold inner, mixed. cbn [Z.eqb]. rewrite csum_conj.
  transitivity (RtoC (/ 2) * (csum NN (fun g => Cconj (f (Z.of_nat g) 0) * h (Z.of_nat g) 0 + Cconj (f (Z.of_nat g) 1) * h (Z.of_nat g) 1) + RtoC s *
    csum NN (fun g => Cconj (f (Z.of_nat g) 0) * h (t (Z.of_nat g)) 0 - Cconj (f (Z.of_nat g) 1) * h (t (Z.of_nat g)) 1)))%C.
  { rewrite <- csum_scal, <- csum_add, <- csum_scal. apply csum_ext. intros g _. rewrite !Cscal_mul. generalize (f (Z.of_nat g) 0) (f (Z.of_nat g) 1) (h (Z.of_nat g) 0) (h (Z.of_nat g) 1) (h (t (Z.of_nat g)) 0) (h (t (Z.of_nat g)) 1). intros. apply C_eq; csimp; ring. }
  rewrite <- (Re (fun g => Cconj (f g 0) * h (t g) 0 - Cconj (f g 1) * h (t g) 1)%C).
  rewrite <- csum_scal, <- csum_add, <- csum_scal. apply csum_ext. intros g Hg. rewrite Inv by lia. rewrite !Cscal_mul.
  generalize (f (Z.of_nat g) 0) (f (Z.of_nat g) 1) (h (Z.of_nat g) 0) (h (Z.of_nat g) 1) (f (t (Z.of_nat g)) 0) (f (t (Z.of_nat g)) 1). intros. apply C_eq; csimp; ring.
Qed.
Lemma mixed_idem t s f : s = 1%R \/ s = (-1)%R -> (forall g, 0 <= g < N -> t (t g) = g) -> feq d (mixed t s (mixed t s f)) (mixed t s f).
Proof.
  intros Hs Inv g c Hg _. unfold mixed. rewrite Inv by exact Hg. generalize (f g c) (f (t g) c). intros u v. destruct (c =? 0), Hs as [-> | ->]; apply C_eq; csimp; lra.
Qed.
Lemma mixed_comm t s t' s' f : (forall g, 0 <= g < N -> t (t' g) = t' (t g)) -> feq d (mixed t s (mixed t' s' f)) (mixed t' s' (mixed t s f)).
Proof.
  intros Cm g c Hg _. unfold mixed. rewrite Cm by exact Hg. generalize (f g c) (f (t g) c) (f (t' g) c) (f (t' (t g)) c). intros. destruct (c =? 0); apply C_eq; csimp; lra.
Qed.
Lemma mixed_ext t s f h : (forall g, 0 <= g < N -> 0 <= t g < N) -> feq d f h -> feq d (mixed t s f) (mixed t s h).
Proof. intros Ht H g c Hg Hc. unfold mixed. rewrite !H by auto. reflexivity. Qed.

(** The parity constraint. *)
Definition maybe (s : Z) (T : ff -> ff) (f : ff) : ff := if s =? 0 then f else T f.
Definition zcol (parity : Z) : ff -> ff := maybe (wanted parity 0 1) (mixed zmir (IZR (wanted parity 0 1))).
Definition ycol (parity : Z) : ff -> ff := maybe (wanted parity 2 3) (mixed ymir (IZR (- wanted parity 2 3))).
Definition pcol (parity : Z) (f : ff) : ff := ycol parity (zcol parity f).

Lemma id_sym : symmetric d (fun f => f).
Proof. intros f h. apply inner_conj. Qed.
Lemma zcol_sym parity : symmetric d (zcol parity).
Proof. unfold zcol, maybe. destruct (_ =? 0); [exact id_sym|apply mixed_sym; [exact csum_zmir|exact zmir_inv]]. Qed.
Lemma ycol_sym parity : symmetric d (ycol parity).
Proof. unfold ycol, maybe. destruct (_ =? 0); [exact id_sym|apply mixed_sym; [exact csum_ymir|exact ymir_inv]]. Qed.
Lemma yz_comm parity f : feq d (ycol parity (zcol parity f)) (zcol parity (ycol parity f)).
Proof.
  unfold zcol, ycol, maybe. destruct (wanted parity 0 1 =? 0), (wanted parity 2 3 =? 0); try (intros g c _ _; reflexivity). apply mixed_comm. intros g Hg. symmetry. apply mir_comm. exact Hg.
Qed.
Lemma pcol_sym parity : symmetric d (pcol parity).
Proof. apply (sym_comp (ycol parity) (zcol parity)); [apply ycol_sym|apply zcol_sym|apply yz_comm]. Qed.
Lemma zcol_ext parity f h : feq d f h -> feq d (zcol parity f) (zcol parity h).
Proof. intros H. unfold zcol, maybe. destruct (_ =? 0); [exact H|apply mixed_ext; [exact zmir_in|exact H]]. Qed.
Lemma ycol_ext parity f h : feq d f h -> feq d (ycol parity f) (ycol parity h).
Proof. intros H. unfold ycol, maybe. destruct (_ =? 0); [exact H|apply mixed_ext; [exact ymir_in|exact H]]. Qed.
Lemma pcol_ext parity f h : feq d f h -> feq d (pcol parity f) (pcol parity h).
Proof. intros H. apply ycol_ext, zcol_ext, H. Qed.
Lemma pm_R parity a b : wanted parity a b <> 0 -> IZR (wanted parity a b) = 1%R \/ IZR (wanted parity a b) = (-1)%R.
Proof. intros H. destruct (wanted_pm parity a b H) as [-> | ->]; auto. Qed.
Lemma zcol_idem parity f : feq d (zcol parity (zcol parity f)) (zcol parity f).
Proof. unfold zcol, maybe. destruct (Z.eqb_spec (wanted parity 0 1) 0) as [|W]; [intros g c _ _; reflexivity|]. apply mixed_idem; [apply pm_R; exact W|exact zmir_inv]. Qed.
Lemma ycol_idem parity f : feq d (ycol parity (ycol parity f)) (ycol parity f).
Proof.
  unfold ycol, maybe. destruct (Z.eqb_spec (wanted parity 2 3) 0) as [|W]; [intros g c _ _; reflexivity|]. apply mixed_idem; [|exact ymir_inv].
  rewrite opp_IZR. destruct (pm_R parity 2 3 W) as [-> | ->]; [right|left]; lra.
Qed.
Lemma pcol_idem parity f : feq d (pcol parity (pcol parity f)) (pcol parity f).
Proof.
  unfold pcol. eapply feq_trans; [apply ycol_ext, feq_sym, yz_comm|]. eapply feq_trans; [apply ycol_ext, ycol_ext, zcol_idem|]. apply ycol_idem.
Qed.

Lemma maybe_amp lnx p s t a X X' : lnx = nx -> (forall x y z, 0 <= x < nx -> 0 <= y < ny -> 0 <= z < nz -> exists y' z', t ((x * ny + y) * nz + z) = (x * ny + y') * nz + z' /\ (fst (a y z) = y' /\ snd (a y z) = z')) ->
  projected lnx ny nz p s (fun y z => fst (a y z)) (fun y z => snd (a y z)) X X' ->
  forall b, 0 <= b < p -> feq d (fun g c => gets X' ((2 * g + c) * p + b)) (mixed t s (fun g c => gets X ((2 * g + c) * p + b))).
Proof.
  intros -> Ht (_ & Q & _) b Hb g c Hg Hc. destruct (grid_point g Hg) as (x & y & z & Hx & Hy & Hz & ->). destruct (Ht x y z Hx Hy Hz) as (y' & z' & Et & E1 & E2).
  specialize (Q x y z c b). unfold amp in Q. rewrite E1, E2 in Q. unfold mixed. rewrite Et. rewrite (Z.mul_comm 2 ((x * ny + y) * nz + z)), (Z.mul_comm 2 ((x * ny + y') * nz + z')). apply Q. repeat split; lia.
Qed.
Lemma parity_cols parity q X : S_Op.fields d X -> ep X = Z.of_nat q -> exists Y, mx_parity d parity X = Val Y /\ S_Op.fields d Y /\ ep Y = ep X /\ ealloc Y = ealloc X /\ forall b, 0 <= b < ep X -> feq d (fld Y b) (pcol parity (fld X b)).
Proof.
  intros (W & En) Ep. pose proof W as (_ & Wp & Wl). destruct sizes3 as (A & B & D). unfold mx_parity.
  assert (Fd : field nx ny nz (ep X) (edata X)). { repeat split; try lia. rewrite Wl, En. unfold npts. replace (nx * ny * nz * 2 * ep X) with (2 * (nx * ny * nz) * ep X) by ring. assert (0 <= nx * ny * nz) by (apply Z.mul_nonneg_nonneg; nia). apply Z.mul_le_mono_nonneg_l; lia. }
  destruct (pc_ok nx nx ny nz parity (ep X) (edata X) Fd ltac:(intros _ _; reflexivity)) as (X1 & X' & E & Hz & Hy & L1 & L2). rewrite E. cbn [bind].
  exists (set_data X X'). split; [reflexivity|]. split; [split; [apply wf_set; [exact W|exact L2]|exact En]|]. split; [reflexivity|]. split; [reflexivity|]. intros b Hb.
  assert (Z1 : feq d (fun g c => gets X1 ((2 * g + c) * ep X + b)) (zcol parity (fld X b))).
  { unfold zcol, maybe. destruct Hz as [(W0 & ->)|(W0 & Pz)].
    - rewrite W0. cbn [Z.eqb]. intros g c _ _. reflexivity.
    - destruct (Z.eqb_spec (wanted parity 0 1) 0); [contradiction|]. apply (maybe_amp nx (ep X) _ zmir (fun y z => (y, opp nz z)) (edata X) X1 eq_refl); [|exact Pz|exact Hb].
      intros x y z _ _ Hz'. exists y, (opp nz z). split; [apply zmir_at; exact Hz'|auto]. }
  unfold pcol. eapply feq_trans; [|apply ycol_ext; exact Z1]. unfold ycol, maybe. destruct Hy as [(W0 & ->)|(W0 & Py)].
  - rewrite W0. cbn [Z.eqb]. intros g c _ _. reflexivity.
  - destruct (Z.eqb_spec (wanted parity 2 3) 0); [contradiction|]. apply (maybe_amp nx (ep X) _ ymir (fun y z => (opp ny y, z)) X1 X' eq_refl); [|exact Py|exact Hb].
    intros x y z _ Hy' Hz'. exists (opp ny y), z. split; [apply ymir_at; assumption|auto].
Qed.

(** No constant part. *)
Definition nccol (f : ff) : ff := fun g c => if g =? 0 then C0 else f g c.
Lemma nccol_sym : symmetric d nccol.
Proof.
  intros f h. unfold inner, nccol. rewrite csum_conj. apply csum_ext. intros g _. destruct (Z.of_nat g =? 0); generalize (f (Z.of_nat g) 0) (f (Z.of_nat g) 1) (h (Z.of_nat g) 0) (h (Z.of_nat g) 1); intros; apply C_eq; csimp; ring.
Qed.
Lemma nccol_mat : omat d nccol = no_const (rows d).
Proof.
  apply mext; intros i j. unfold omat, no_const, nccol, unit_at. destruct (Nat.ltb_spec i (rows d)) as [Hi|Hi]; cbn [andb]; [|rewrite andb_false_r; reflexivity]. rewrite andb_true_r.
  destruct (row_in d i Hi) as (Hg & Hc & E). rewrite E. destruct (Nat.ltb_spec j (rows d)), (Z.eqb_spec (Z.of_nat i / 2) 0), (Z.eqb_spec (Z.of_nat i) (Z.of_nat j)), (Nat.leb_spec 2 i), (Nat.eqb_spec i j); cbn [andb]; try reflexivity; lia.
Qed.
Lemma mixed_nc t s f : t 0 = 0 -> (forall g, 0 <= g < N -> t (t g) = g) -> feq d (mixed t s (nccol f)) (nccol (mixed t s f)).
Proof.
  intros T0 Inv g c Hg _. unfold mixed, nccol. destruct (Z.eqb_spec g 0) as [->|Ng].
  - rewrite T0. cbn [Z.eqb]. apply C_eq; csimp; ring.
  - destruct (Z.eqb_spec (t g) 0) as [Z0|]; [|reflexivity]. exfalso. apply Ng. rewrite <- (Inv g Hg), Z0, T0. reflexivity.
Qed.
Lemma nccol_ext f h : feq d f h -> feq d (nccol f) (nccol h).
Proof. intros H g c Hg Hc. unfold nccol. destruct (g =? 0); [reflexivity|apply H; assumption]. Qed.
Lemma pcol_nc parity f : feq d (pcol parity (nccol f)) (nccol (pcol parity f)).
Proof.
  unfold pcol. eapply feq_trans; [apply ycol_ext|].
  - unfold zcol, maybe. instantiate (1 := nccol (zcol parity f)). unfold zcol, maybe. destruct (_ =? 0); [apply feq_refl|]. apply mixed_nc; [exact zmir_0|exact zmir_inv].
  - unfold ycol, maybe. destruct (wanted parity 2 3 =? 0); [apply feq_refl|]. apply mixed_nc; [exact ymir_0|exact ymir_inv].
Qed.
End D.
