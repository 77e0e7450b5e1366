(** The time-reversed fields. *)
From Coq Require Import List ZArith Reals Bool Arith Lia Lra.
From Verif Require Import Base RC M_Tensor S_Tensor M_Evect S_Evect L_Evect M_Grid S_Grid L_Grid M_Op S_Op L_Op L_Op2 L_Op3 L_Op4 L_Op5 L_Dft L_Mat S_Eig L_Kpt2 L_Mx1 L_Mx2 L_Mx3 S_Mir L_Mir1 L_Mir2 L_Mir3 L_Cmp3 L_Spec5 S_Rev L_Rev1.
Import ListNotations.
Local Open Scope Z_scope.
Add Ring Cring_rev2 : C_ring_theory.

Lemma comp_rsc a v i : comp i (rsc a v) = (a * comp i v)%R.
Proof. destruct v as ((x & y) & z). destruct i as [|[|i]]; reflexivity. Qed.
Lemma rdot_rsc a v : rdot (rsc a v) v = (a * rdot v v)%R.
Proof. destruct v as ((x & y) & z). unfold rdot, rsc. cbn [comp fst snd]. ring. Qed.
Lemma ccross_anti a b q m n (u u' : nat -> C) i : (a * b = -1 \/ q = 0)%R -> (forall j, (j < 3)%nat -> u' j = Cconj (u j)) -> (i < 3)%nat ->
  ccross (rsc q (rcross (rsc a m) (rsc b n))) u' i = (- Cconj (ccross (rsc q (rcross m n)) u i))%C.
Proof.
  intros H Hu Hi. replace (rsc q (rcross (rsc a m) (rsc b n))) with (rsc (-1) (rsc q (rcross m n))).
  - destruct (rsc q (rcross m n)) as ((x & y) & z). unfold ccross, rsc. rewrite !Hu by lia. destruct i as [|[|[|]]]; [| | |lia]; cbn [comp fst snd]; apply C_eq; csimp; ring.
  - destruct m as ((x & y) & z), n as ((x' & y') & z'). unfold rsc, rcross. cbn [comp fst snd]. destruct H as [H| ->]; [|f_equal; [f_equal|]; ring].
    f_equal; [f_equal|]; match goal with |- _ = (q * (a * ?s * (b * ?t) - a * ?u * (b * ?v)))%R => replace (q * (a * s * (b * t) - a * u * (b * v)))%R with (q * ((a * b) * (s * t - u * v)))%R by ring; rewrite H; ring end.
Qed.

Section R.
Variables (d d' : mdata) (k G1 G2 G3 : vec).
Hypothesis Rv : reversed d d' k G1 G2 G3.
Notation N := (npts d).
Notation NN := (Z.to_nat (npts d)).
Notation rn := (rn d).

Definition rsgn (g : nat) (c : Z) : R := if c =? 0 then rdot (km (kat d' g)) (km (kat d (rn g))) else rdot (kn (kat d' g)) (kn (kat d (rn g))).
Definition rev_mat (q : nat) (X : emat C) : mat := fun r b =>
  if (r <? rows d)%nat && (b <? q)%nat then (RtoC (rsgn (r / 2) (Z.of_nat (r mod 2))) * Cconj (entC X (2 * Z.of_nat (rn (r / 2)) + Z.of_nat (r mod 2)) (Z.of_nat b)))%C else C0.
Lemma rev_mat_dim q X : mdim (rows d) q (rev_mat q X).
Proof. intros r b H. unfold rev_mat. destruct (Nat.ltb_spec r (rows d)), (Nat.ltb_spec b q); try reflexivity; lia. Qed.
(** q bands of X reversed. *)
Definition rev_of (q : nat) (X : emat C) : emat C := emat_of (rows d) q (rev_mat q X).
Lemma rev_of_fields q X : S_Eig.fields (rows d) q (rev_of q X) (rev_mat q X).
Proof. apply emat_any. apply rev_mat_dim. Qed.
Lemma rev_rows : rows d' = rows d.
Proof. unfold rows. rewrite (rev_npts d d' k G1 G2 G3 Rv). reflexivity. Qed.
Lemma rev_of_op q X : S_Op.fields d' (rev_of q X) /\ ep (rev_of q X) = Z.of_nat q.
Proof. split; [|reflexivity]. apply (to_op d' (rev_wfd' _ _ _ _ _ _ Rv) q _ (rev_mat q X)). rewrite rev_rows. apply rev_of_fields. Qed.
Lemma rev_ent q X g c b : (g < NN)%nat -> 0 <= c < 2 -> (b < q)%nat -> entC (rev_of q X) (2 * Z.of_nat (rn g) + c) (Z.of_nat b) = (RtoC (rsgn (rn g) c) * Cconj (entC X (2 * Z.of_nat g + c) (Z.of_nat b)))%C.
Proof.
  intros Hg Hc Hb. pose proof (rn_in _ _ _ _ _ _ Rv g Hg) as Hr. replace (2 * Z.of_nat (rn g) + c) with (Z.of_nat (2 * rn g + Z.to_nat c)) by lia.
  assert (Hrow : (2 * rn g + Z.to_nat c < rows d)%nat) by (unfold rows; lia). rewrite (fields_at _ _ _ _ _ _ (rev_of_fields q X) Hrow Hb). unfold rev_mat. destruct (Nat.ltb_spec (2 * rn g + Z.to_nat c) (rows d)); [|lia]. destruct (Nat.ltb_spec b q); [|lia]. cbn [andb].
  assert (E1 : ((2 * rn g + Z.to_nat c) / 2 = rn g)%nat) by (rewrite Nat.mul_comm, Nat.div_add_l, Nat.div_small by lia; lia).
  assert (E2 : ((2 * rn g + Z.to_nat c) mod 2 = Z.to_nat c)%nat) by (rewrite Nat.add_comm, Nat.mul_comm, Nat.mod_add, Nat.mod_small by lia; reflexivity).
  rewrite E1, E2, (rn_inv _ _ _ _ _ _ Rv g Hg), Z2Nat.id by lia. reflexivity.
Qed.
Lemma outer_zero X b g c : inside_band d X b -> (g < NN)%nat -> outer d g -> 0 <= c < 2 -> entC X (2 * Z.of_nat g + c) b = C0.
Proof.
  intros Ib Hg O Hc. pose proof (rev_wfd _ _ _ _ _ _ Rv) as Wd. destruct (coords d Wd (Z.of_nat g) ltac:(lia)) as (Hx & Hy & Hz). specialize (Ib _ _ _ c Hx Hy Hz Hc O). rewrite <- (fld_amp d) in Ib. rewrite <- Ib. unfold fld. f_equal. f_equal. f_equal.
  rewrite (Z.mul_comm _ (d_ny d)), <- Z.div_mod by lia. rewrite (Z.mul_comm _ (d_nz d)), <- Z.div_mod by lia. reflexivity.
Qed.
Lemma rsgn_at g c : (g < NN)%nat -> ~ outer d g -> exists a b, antipode (kat d g) (kat d' (rn g)) a b /\ (g = 0%nat -> k = (0, 0, 0)%R -> a = 1%R /\ b = 1%R) /\ rsgn (rn g) c = if c =? 0 then a else b.
Proof.
  intros Hg No. destruct (rev_kat _ _ _ _ _ _ Rv g Hg No) as (a & b & An & Z0). exists a, b. split; [exact An|]. split; [exact Z0|]. destruct An as (_ & Em & En & _). unfold rsgn. rewrite (rn_inv _ _ _ _ _ _ Rv g Hg), Em, En, !rdot_rsc.
  pose proof Rv as (Md & _). destruct (made_basis _ _ _ _ _ Md g Hg) as (-> & -> & _). destruct (c =? 0); ring.
Qed.
Lemma rsgn_sq g c : (g < NN)%nat -> ~ outer d g -> (rsgn (rn g) c * rsgn (rn g) c = 1)%R.
Proof. intros Hg No. destruct (rsgn_at g c Hg No) as (a & b & (_ & _ & _ & Ha & Hb & _) & _ & ->). destruct (c =? 0); assumption. Qed.
Lemma rev_cart q X b g i : inside_band d X (Z.of_nat b) -> (b < q)%nat -> (g < NN)%nat -> cart d' (rev_of q X) (Z.of_nat b) (rn g) i = Cconj (cart d X (Z.of_nat b) g i).
Proof.
  intros Ib Hb Hg. unfold cart. pose proof (rev_ent q X g 0 b Hg ltac:(lia) Hb) as R0. rewrite !Z.add_0_r in R0. rewrite R0, (rev_ent q X g 1 b Hg ltac:(lia) Hb).
  destruct (outer_dec d g) as [O|O].
  - pose proof (outer_zero X _ g 0 Ib Hg O ltac:(lia)) as E0. rewrite Z.add_0_r in E0. rewrite E0, (outer_zero X _ g 1 Ib Hg O) by lia. apply C_eq; csimp; ring.
  - destruct (rsgn_at g 0 Hg O) as (a & b' & An & _ & S0). destruct (rev_kat _ _ _ _ _ _ Rv g Hg O) as (_ & _ & _ & _). unfold antipode in An. destruct An as (_ & Em & En & Ha & Hb' & _).
    assert (S1 : rsgn (rn g) 1 = b') by (unfold rsgn; cbn [Z.eqb]; rewrite (rn_inv _ _ _ _ _ _ Rv g Hg), En, rdot_rsc; pose proof Rv as (Md & _); destruct (made_basis _ _ _ _ _ Md g Hg) as (_ & -> & _); ring).
    rewrite S0, S1, Em, En, !comp_rsc. cbn [Z.eqb]. set (u := entC X (2 * Z.of_nat g) (Z.of_nat b)). set (v := entC X (2 * Z.of_nat g + 1) (Z.of_nat b)). set (m := comp i (km (kat d g))). set (n := comp i (kn (kat d g))).
    transitivity (RtoC (a * a) * (RtoC m * Cconj u) + RtoC (b' * b') * (RtoC n * Cconj v))%C; [apply C_eq; csimp; ring|]. rewrite Ha, Hb'. apply C_eq; csimp; ring.
Qed.
Lemma synth_rev f f' e r i : (r < NN)%nat -> (forall g, (g < NN)%nat -> f' (rn g) i = (RtoC e * Cconj (f g i))%C) -> synth d' f' r i = (RtoC e * Cconj (synth d f r i))%C.
Proof.
  intros Hr H. unfold synth. rewrite (rev_npts _ _ _ _ _ _ Rv), csum_conj, <- csum_scal. rewrite <- (rn_sum _ _ _ _ _ _ Rv (fun g => wave d' g r * f' g i)%C). apply csum_ext. intros g Hg. rewrite (H g Hg), (wave_rev _ _ _ _ _ _ Rv g r Hg Hr), Cconj_mul. ring.
Qed.
Lemma rev_conjugate q X b : inside_band d X (Z.of_nat b) -> (b < q)%nat -> conjugate d' (rev_of q X) (Z.of_nat b) d X (Z.of_nat b).
Proof. intros Ib Hb r i Hr Hi. unfold hfield. rewrite (synth_rev (cart d X (Z.of_nat b)) _ 1 r i Hr); [apply C_eq; csimp; ring|]. intros g Hg. rewrite rev_cart by assumption. apply C_eq; csimp; ring. Qed.
Lemma rev_curl q X b r i : inside_band d X (Z.of_nat b) -> (b < q)%nat -> (r < NN)%nat -> (i < 3)%nat -> curl d' (rev_of q X) (Z.of_nat b) r i = (RtoC (-1) * Cconj (curl d X (Z.of_nat b) r i))%C.
Proof.
  intros Ib Hb Hr Hi. unfold curl. apply synth_rev; [exact Hr|]. intros g Hg. destruct (outer_dec d g) as [O|O].
  - assert (Z0 : forall j, cart d X (Z.of_nat b) g j = C0).
    { intros j. unfold cart. pose proof (outer_zero X _ g 0 Ib Hg O ltac:(lia)) as E0. rewrite Z.add_0_r in E0. rewrite E0, (outer_zero X _ g 1 Ib Hg O) by lia. ring. }
    unfold ccross. rewrite !rev_cart by assumption. rewrite !Z0. destruct i as [|[|[|]]]; [| | |lia]; apply C_eq; csimp; ring.
  - destruct (rev_kat _ _ _ _ _ _ Rv g Hg O) as (a & b' & (Ek & Em & En & _ & _ & Ab) & _). unfold kvec. rewrite Ek, Em, En. rewrite (ccross_anti a b' _ _ _ (cart d X (Z.of_nat b) g)); [apply C_eq; csimp; ring|exact Ab| |exact Hi]. intros j _. apply rev_cart; assumption.
Qed.
Lemma mean_rev e u v u' v' : (e * e = 1)%R -> (forall r i, (r < NN)%nat -> (i < 3)%nat -> u' r i = (RtoC e * Cconj (u r i))%C) -> (forall r i, (r < NN)%nat -> (i < 3)%nat -> v' r i = (RtoC e * Cconj (v r i))%C) ->
  mean_form d' (sym_at (d_eps_inv d')) u' v' = Cconj (mean_form d (sym_at (d_eps_inv d)) u v).
Proof.
  intros He Hu Hv. unfold mean_form. rewrite (rev_npts _ _ _ _ _ _ Rv), Cconj_mul, Cconj_R, csum_conj. f_equal. apply csum_ext. intros r Hr. unfold S_Op.form. rewrite csum_conj. apply csum_ext. intros i Hi. rewrite csum_conj. apply csum_ext. intros j Hj.
  pose proof Rv as (_ & _ & _ & _ & _ & Ct & _). rewrite (Hu r i Hr Hi), (Hv r j Hr Hj), (Ct r i j Hr Hi Hj), !Cconj_mul. rewrite Cconj_R. transitivity (RtoC (e * e) * (Cconj (Cconj (u r i)) * Cconj (entry (sym_at (d_eps_inv d) r) i j) * Cconj (v r j)))%C; [apply C_eq; csimp; ring|]. rewrite He. apply C_eq; csimp; ring.
Qed.
Lemma rev_dot q X Y i j : S_Op.fields d X -> inside_band d X (Z.of_nat i) -> (i < q)%nat -> (j < q)%nat -> dotl (rev_of q X) (rev_of q Y) (Z.of_nat i) (Z.of_nat j) = Cconj (dotl X Y (Z.of_nat i) (Z.of_nat j)).
Proof.
  intros FX Ib Hi Hj. rewrite (dotl_inner d' (rev_wfd' _ _ _ _ _ _ Rv)) by apply rev_of_op. rewrite (dotl_inner d (rev_wfd _ _ _ _ _ _ Rv)) by exact FX. unfold inner. rewrite (rev_npts _ _ _ _ _ _ Rv), csum_conj.
  rewrite <- (rn_sum _ _ _ _ _ _ Rv (fun g => Cconj (fld (rev_of q X) (Z.of_nat i) (Z.of_nat g) 0) * fld (rev_of q Y) (Z.of_nat j) (Z.of_nat g) 0 + Cconj (fld (rev_of q X) (Z.of_nat i) (Z.of_nat g) 1) * fld (rev_of q Y) (Z.of_nat j) (Z.of_nat g) 1)%C).
  apply csum_ext. intros g Hg. unfold fld. rewrite !rev_ent by (assumption || lia).
  destruct (outer_dec d g) as [O|O].
  - rewrite !(outer_zero X _ g _ Ib Hg O) by lia. apply C_eq; csimp; ring.
  - pose proof (rsgn_sq g 0 Hg O) as S0. pose proof (rsgn_sq g 1 Hg O) as S1. set (s0 := rsgn (rn g) 0) in *. set (s1 := rsgn (rn g) 1) in *.
    set (x0 := entC X (2 * Z.of_nat g + 0) (Z.of_nat i)). set (x1 := entC X (2 * Z.of_nat g + 1) (Z.of_nat i)). set (y0 := entC Y (2 * Z.of_nat g + 0) (Z.of_nat j)). set (y1 := entC Y (2 * Z.of_nat g + 1) (Z.of_nat j)).
    transitivity (RtoC (s0 * s0) * Cconj (Cconj x0 * y0) + RtoC (s1 * s1) * Cconj (Cconj x1 * y1))%C; [apply C_eq; csimp; ring|]. rewrite S0, S1. apply C_eq; csimp; ring.
Qed.
End R.
