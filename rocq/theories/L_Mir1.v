(** The operator and mirrored fields, for any mirror of the grid. *)
From Coq Require Import List ZArith Reals Bool Arith Lia Lra.
From Verif Require Import Base RC M_Tensor S_Tensor M_Evect S_Evect L_Evect M_Grid S_Grid L_Grid L_Grid2 L_Grid3 M_Op S_Op L_Op L_Op2 L_Op3 L_Op4 L_Op5 L_Mx1.
Import ListNotations.
Local Open Scope Z_scope.
Add Ring Cring_mir1 : C_ring_theory.

Section D.
Variable d : mdata.
Hypothesis Wd : wfd d.
Notation N := (npts d).
Notation NN := (Z.to_nat (npts d)).
(** The mirror [t] of points and plane waves, its signs [sg] on vectors, and the sign [s0] that the
    first component of a field gets. *)
Variable t : Z -> Z.
Variable sg : nat -> R.
Variable s0 : R.
Hypothesis t_in : forall g, 0 <= g < N -> 0 <= t g < N.
Hypothesis t_inv : forall g, 0 <= g < N -> t (t g) = g.
Hypothesis t_sum : forall F : Z -> C, csum NN (fun g => F (t (Z.of_nat g))) = csum NN (fun g => F (Z.of_nat g)).
Hypothesis t_kern : forall g r, 0 <= g < N -> 0 <= r < N -> kern d 1 (t g) r = kern d 1 g (t r).
Hypothesis sg_sq : forall i, (sg i * sg i = 1)%R.
Hypothesis s0_sq : (s0 * s0 = 1)%R.

Definition sgc (c : Z) : R := if c =? 0 then s0 else (- s0)%R.
Definition flip (f : ff) : ff := fun g c => (RtoC (sgc c) * f (t g) c)%C.
Lemma sgc_sq c : (sgc c * sgc c = 1)%R.
Proof. unfold sgc. destruct (c =? 0); lra. Qed.
Lemma flip_flip f : feq d (flip (flip f)) f.
Proof. intros g c Hg _. unfold flip. rewrite t_inv by exact Hg. pose proof (sgc_sq c) as E. destruct (f g c) as [a b]. apply C_eq; csimp; [transitivity ((sgc c * sgc c) * a)%R|transitivity ((sgc c * sgc c) * b)%R]; try ring; rewrite E; ring. Qed.
Lemma flip_ext f h : feq d f h -> feq d (flip f) (flip h).
Proof. intros H g c Hg Hc. unfold flip. rewrite H by auto. reflexivity. Qed.
Lemma flip_inner f h : inner d (flip f) (flip h) = inner d f h.
Proof.
  unfold inner. rewrite <- (t_sum (fun g => Cconj (f g 0) * h g 0 + Cconj (f g 1) * h g 1)%C). apply csum_ext. intros g Hg. unfold flip.
  pose proof (sgc_sq 0) as E0. pose proof (sgc_sq 1) as E1. destruct (f (t (Z.of_nat g)) 0) as [a0 b0], (f (t (Z.of_nat g)) 1) as [a1 b1], (h (t (Z.of_nat g)) 0) as [p0 q0], (h (t (Z.of_nat g)) 1) as [p1 q1].
  apply C_eq; csimp; [transitivity ((sgc 0 * sgc 0) * (a0 * p0 + b0 * q0) + (sgc 1 * sgc 1) * (a1 * p1 + b1 * q1))%R|transitivity ((sgc 0 * sgc 0) * (a0 * q0 - b0 * p0) + (sgc 1 * sgc 1) * (a1 * q1 - b1 * p1))%R]; try ring; rewrite E0, E1; ring.
Qed.
Lemma flip_adj f h : inner d f (flip h) = inner d (flip f) h.
Proof. rewrite <- (flip_inner f (flip h)). apply inner_ext; [apply feq_refl|apply flip_flip]. Qed.

(** Plane waves whose mirror image is the wave at the mirrored position. *)
Definition image (g : Z) : Prop :=
  kmag (kz d (t g)) = kmag (kz d g) /\ forall i, (i < 3)%nat -> (s0 * comp i (km (kz d (t g))) = - sg i * comp i (km (kz d g)))%R /\ (s0 * comp i (kn (kz d (t g))) = sg i * comp i (kn (kz d g)))%R.
(** f is limited to those. *)
Definition limited (f : ff) : Prop := forall g, 0 <= g < N -> image (t g) \/ (f g 0 = C0 /\ f g 1 = C0 /\ f (t g) 0 = C0 /\ f (t g) 1 = C0).

Lemma image_flip asg e f g : (forall k, asg k C0 C0 = (C0, C0, C0)) ->
  (forall k k' u v i, (i < 3)%nat -> kmag k = kmag k' -> (forall i, (i < 3)%nat -> (s0 * comp i (km k) = - sg i * comp i (km k'))%R /\ (s0 * comp i (kn k) = sg i * comp i (kn k'))%R) ->
    vsel i (asg k (RtoC s0 * u)%C (RtoC (- s0) * v)%C) = (RtoC (e * sg i) * vsel i (asg k' u v))%C) ->
  limited f -> 0 <= g < N -> forall i, (i < 3)%nat ->
  vsel i (asg (kz d g) (flip f g 0) (flip f g 1)) = (RtoC (e * sg i) * vsel i (asg (kz d (t g)) (f (t g) 0) (f (t g) 1)))%C.
Proof.
  intros A0 A Lf Hg i Hi. unfold flip, sgc. cbn [Z.eqb]. destruct (Lf g Hg) as [(Ek & Im)|(Z0 & Z1 & Z2 & Z3)].
  - rewrite t_inv in Ek by exact Hg. apply A; [exact Hi|exact Ek|]. intros j Hj. rewrite t_inv in Im by exact Hg. apply Im. exact Hj.
  - rewrite Z2, Z3. replace (RtoC s0 * C0)%C with C0 by ring. replace (RtoC (- s0) * C0)%C with C0 by ring. rewrite !A0. destruct i as [|[|[|]]]; cbn; ring.
Qed.

Lemma position_flip asg e f r : (forall k, asg k C0 C0 = (C0, C0, C0)) ->
  (forall k k' u v i, (i < 3)%nat -> kmag k = kmag k' -> (forall i, (i < 3)%nat -> (s0 * comp i (km k) = - sg i * comp i (km k'))%R /\ (s0 * comp i (kn k) = sg i * comp i (kn k'))%R) ->
    vsel i (asg k (RtoC s0 * u)%C (RtoC (- s0) * v)%C) = (RtoC (e * sg i) * vsel i (asg k' u v))%C) ->
  limited f -> 0 <= r < N -> forall i, (i < 3)%nat -> vsel i (position d asg (flip f) r) = (RtoC (e * sg i) * vsel i (position d asg f (t r)))%C.
Proof.
  intros A0 A Lf Hr i Hi. unfold position. rewrite !vsel_build by exact Hi.
  rewrite <- csum_scal. rewrite <- (t_sum (fun g => RtoC (e * sg i) * (kern d 1 g (t r) * vsel i (asg (kz d g) (f g 0) (f g 1))))%C).
  apply csum_ext. intros g Hg. assert (Hg' : 0 <= Z.of_nat g < N) by lia. rewrite (image_flip asg e f (Z.of_nat g) A0 A Lf Hg' i Hi).
  rewrite (t_kern (Z.of_nat g) (t r)) by auto. rewrite t_inv by exact Hr. ring.
Qed.

(** Tensors that are mirrored. *)
Definition tsym (T : list sym) : Prop := forall r i j, 0 <= r < N -> (i < 3)%nat -> (j < 3)%nat -> entry (sym_at T (Z.to_nat (t r))) i j = (RtoC (sg i * sg j) * entry (sym_at T (Z.to_nat r)) i j)%C.

Lemma form_flip T e r (x y x' y' : nat -> C) : tsym T -> 0 <= r < N -> (e * e = 1)%R -> (forall i, (i < 3)%nat -> x i = (RtoC (e * sg i) * x' i)%C) -> (forall i, (i < 3)%nat -> y i = (RtoC (e * sg i) * y' i)%C) ->
  form (sym_at T (Z.to_nat r)) x y = form (sym_at T (Z.to_nat (t r))) x' y'.
Proof.
  intros Ts Hr He Hx Hy. unfold form. apply csum_ext. intros i Hi. apply csum_ext. intros j Hj. rewrite (Hx i Hi), (Hy j Hj), (Ts r i j Hr Hi Hj), Cconj_mul.
  generalize (entry (sym_at T (Z.to_nat r)) i j) (x' i) (y' j). intros z u v.
  transitivity (RtoC (e * e) * (RtoC (sg i * sg j) * (Cconj u * z * v)))%C; [|rewrite He]; apply C_eq; csimp; ring.
Qed.

Lemma gform_flip asg e T f h : (forall k, asg k C0 C0 = (C0, C0, C0)) -> (e * e = 1)%R ->
  (forall k k' u v i, (i < 3)%nat -> kmag k = kmag k' -> (forall i, (i < 3)%nat -> (s0 * comp i (km k) = - sg i * comp i (km k'))%R /\ (s0 * comp i (kn k) = sg i * comp i (kn k'))%R) ->
    vsel i (asg k (RtoC s0 * u)%C (RtoC (- s0) * v)%C) = (RtoC (e * sg i) * vsel i (asg k' u v))%C) ->
  tsym T -> limited f -> limited h -> gform d asg T (flip f) (flip h) = gform d asg T f h.
Proof.
  intros A0 He A Ts Lf Lh. unfold gform. f_equal.
  transitivity (csum NN (fun r => form (sym_at T (Z.to_nat (t (Z.of_nat r)))) (fun i => vsel i (position d asg f (t (Z.of_nat r)))) (fun i => vsel i (position d asg h (t (Z.of_nat r)))))).
  - apply csum_ext. intros r Hr. rewrite <- (Nat2Z.id r) at 1. apply (form_flip T e); auto; try lia; intros i Hi; apply (position_flip asg e); auto; lia.
  - rewrite (t_sum (fun r => form (sym_at T (Z.to_nat r)) (fun i => vsel i (position d asg f r)) (fun i => vsel i (position d asg h r)))). apply csum_ext. intros r Hr. rewrite Nat2Z.id. reflexivity.
Qed.

Lemma t2c_zero k : assign_t2c k C0 C0 = (C0, C0, C0).
Proof. destruct k as [q [[mx my] mz] [[nx ny] nz]]. unfold assign_t2c, lin. cbn [km kn]. apply vec_eq. intros i Hi. destruct i as [|[|[|]]]; cbn [vsel fst snd]; apply C_eq; csimp; ring. Qed.
Lemma cross_zero k : assign_cross_t2c k C0 C0 = (C0, C0, C0).
Proof. destruct k as [q [[mx my] mz] [[nx ny] nz]]. unfold assign_cross_t2c. cbn [km kn kmag]. apply vec_eq. intros i Hi. destruct i as [|[|[|]]]; cbn [vsel fst snd]; apply C_eq; csimp; ring. Qed.
Lemma t2c_flip k k' u v i : (i < 3)%nat -> kmag k = kmag k' -> (forall i, (i < 3)%nat -> (s0 * comp i (km k) = - sg i * comp i (km k'))%R /\ (s0 * comp i (kn k) = sg i * comp i (kn k'))%R) ->
    vsel i (assign_t2c k (RtoC s0 * u)%C (RtoC (- s0) * v)%C) = (RtoC (- 1 * sg i) * vsel i (assign_t2c k' u v))%C.
Proof.
  intros Hi Ek H. assert (E : forall k u v i, (i < 3)%nat -> vsel i (assign_t2c k u v) = (RtoC (comp i (km k)) * u + RtoC (comp i (kn k)) * v)%C).
  { clear. intros [q [[mx my] mz] [[nx ny] nz]] u v i Hi. unfold assign_t2c, lin. cbn [km kn]. destruct i as [|[|[|]]]; [| | |lia]; cbn [vsel comp fst snd]; apply C_eq; csimp; ring. }
  rewrite !E by exact Hi. destruct (H i Hi) as (H1 & H2).
  transitivity (RtoC (s0 * comp i (km k)) * u - RtoC (s0 * comp i (kn k)) * v)%C; [|rewrite H1, H2]; destruct u, v; apply C_eq; csimp; ring.
Qed.
Lemma cross_flip k k' u v i : (i < 3)%nat -> kmag k = kmag k' -> (forall i, (i < 3)%nat -> (s0 * comp i (km k) = - sg i * comp i (km k'))%R /\ (s0 * comp i (kn k) = sg i * comp i (kn k'))%R) ->
    vsel i (assign_cross_t2c k (RtoC s0 * u)%C (RtoC (- s0) * v)%C) = (RtoC (1 * sg i) * vsel i (assign_cross_t2c k' u v))%C.
Proof.
  intros Hi Ek H. assert (E : forall k u v i, (i < 3)%nat -> vsel i (assign_cross_t2c k u v) = (RtoC (kmag k) * (RtoC (comp i (kn k)) * u - RtoC (comp i (km k)) * v))%C).
  { clear. intros [q [[mx my] mz] [[nx ny] nz]] u v i Hi. unfold assign_cross_t2c. cbn [km kn kmag]. destruct i as [|[|[|]]]; [| | |lia]; cbn [vsel comp fst snd]; apply C_eq; csimp; ring. }
  rewrite !E by exact Hi. destruct (H i Hi) as (H1 & H2). rewrite Ek.
  transitivity (RtoC (kmag k') * (RtoC (s0 * comp i (kn k)) * u + RtoC (s0 * comp i (km k)) * v))%C; [|rewrite H1, H2]; destruct u, v; apply C_eq; csimp; ring.
Qed.

(** With every plane wave mirrored, mirroring commutes with the inverse permeability. *)
Definition all_image : Prop := forall g, 0 <= g < N -> image g.
Lemma all_limited f : all_image -> limited f.
Proof. intros A g Hg. left. apply A. auto. Qed.
Definition mu_sym : Prop := forall mu, d_mu_inv d = Some mu -> tsym mu.
Lemma inner_sep f h : (forall u, inner d u f = inner d u h) -> feq d f h.
Proof.
  intros H g c Hg Hc. pose proof (inner_unit d (Z.to_nat (2 * g + c))) as U. assert (Hi : (Z.to_nat (2 * g + c) < rows d)%nat) by (unfold rows; lia).
  assert (Q : forall k, k g c = inner d (unit_at (Z.to_nat (2 * g + c))) k).
  { intros k. rewrite U by exact Hi. rewrite Z2Nat.id by lia. f_equal; [rewrite (Z.mul_comm 2), Z.div_add_l, Z.div_small by lia; lia|rewrite (Z.add_comm (2 * g)), (Z.mul_comm 2), Z.mod_add, Z.mod_small by lia; reflexivity]. }
  rewrite (Q f), (Q h). apply H.
Qed.
Lemma mumaybe_flip f : all_image -> mu_sym -> feq d (mumaybe d (flip f)) (flip (mumaybe d f)).
Proof.
  intros A Ms. unfold mumaybe. destruct (d_mu_inv d) as [mu|] eqn:Em; [|apply feq_refl]. apply inner_sep. intros u.
  rewrite flip_adj, !mucol_form. rewrite <- (gform_flip assign_t2c (-1) mu (flip u) f); [|exact t2c_zero|lra|exact t2c_flip|apply Ms; exact Em|apply all_limited; exact A|apply all_limited; exact A].
  apply gform_ext; [apply feq_sym, flip_flip|apply feq_refl].
Qed.
Lemma op_form_flip f h : d_mu_inv d = None \/ all_image -> mu_sym -> tsym (d_eps_inv d) -> limited f -> limited h -> inner d (flip f) (opcol d (flip h)) = inner d f (opcol d h).
Proof.
  intros Im Ms Te Lf Lh. rewrite !opcol_form.
  assert (Q : feq d (mumaybe d (flip f)) (flip (mumaybe d f)) /\ feq d (mumaybe d (flip h)) (flip (mumaybe d h)) /\ limited (mumaybe d f) /\ limited (mumaybe d h)).
  { destruct Im as [E|A]; [unfold mumaybe; rewrite E; auto using feq_refl|]. split; [apply mumaybe_flip; auto|]. split; [apply mumaybe_flip; auto|]. split; apply all_limited; exact A. }
  destruct Q as (Q1 & Q2 & L1 & L2). rewrite (gform_ext d _ _ _ _ _ _ Q1 Q2). apply (gform_flip assign_cross_t2c 1); auto; [exact cross_zero|lra|exact cross_flip].
Qed.
Lemma op_flip f : all_image -> mu_sym -> tsym (d_eps_inv d) -> feq d (opcol d (flip f)) (flip (opcol d f)).
Proof.
  intros A Ms Te. apply inner_sep. intros u. rewrite flip_adj.
  rewrite <- (op_form_flip (flip u) f); [|right; exact A|exact Ms|exact Te|apply all_limited; exact A|apply all_limited; exact A]. apply inner_ext; [apply feq_sym, flip_flip|apply feq_refl].
Qed.
(** Fields of different parity are not coupled. *)
Lemma inner_scal_l s f f' h : feq d f' (fun g c => RtoC s * f g c)%C -> inner d f' h = (RtoC s * inner d f h)%C.
Proof.
  intros H. rewrite (inner_ext d f' _ h h H (feq_refl d h)). unfold inner. rewrite <- csum_scal. apply csum_ext. intros g _. rewrite !Cconj_mul, !Cconj_R. ring.
Qed.
Lemma op_select f h s s' : d_mu_inv d = None \/ all_image -> mu_sym -> tsym (d_eps_inv d) -> limited f -> limited h ->
  feq d (flip f) (fun g c => RtoC s * f g c)%C -> feq d (flip h) (fun g c => RtoC s' * h g c)%C -> (s * s' = -1)%R -> inner d f (opcol d h) = C0.
Proof.
  intros Im Ms Te Lf Lh Pf Ph Hs. pose proof (op_form_flip f h Im Ms Te Lf Lh) as E. rewrite (inner_scal_l s f (flip f) _ Pf) in E.
  rewrite opcol_herm, (inner_scal_l s' h (flip h) _ Ph), Cconj_mul, Cconj_R, <- opcol_herm in E.
  destruct (inner d f (opcol d h)) as [a b]. assert (E' : (RtoC (s * s') * (a, b))%C = (a, b)) by (rewrite <- E at 2; apply C_eq; csimp; ring). rewrite Hs in E'. injection E'. csimp. intros. apply C_eq; cbn; lra.
Qed.
End D.
