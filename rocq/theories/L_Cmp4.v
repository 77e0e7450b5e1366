(** Scaling laws. *)
From Coq Require Import List ZArith Reals Bool Arith Lia Lra.
From Verif Require Import Base RC M_Tensor S_Tensor M_Evect S_Evect M_Grid S_Grid M_Op S_Op L_Op L_Op2 L_Op3 L_Op4 L_Op5 M_Eig S_Eig L_Mat M_Kpt S_Kpt M_Mx S_Mir L_Grid5 L_Grid6 L_Mir1 L_Mir2 L_Mir3 S_Mx S_Cmp.
Import ListNotations.
Local Open Scope Z_scope.
Add Ring Cring_cmp4 : C_ring_theory.

Lemma freq_scaled negative_ok s f w : (0 <= s)%R -> freq_of negative_ok f w -> freq_of negative_ok ((if negative_ok then s else sqrt s) * f)%R (s * w)%R.
Proof.
  intros Hs. unfold freq_of. destruct negative_ok; [intros ->; reflexivity|]. intros (P & E). split; [apply Rmult_le_pos; [apply sqrt_pos|exact P]|]. rewrite <- E. rewrite <- (sqrt_sqrt s Hs) at 3. ring.
Qed.
Lemma rescaled_nth negative_ok s f i : (i < length f)%nat -> nth i (rescaled negative_ok s f) 0%R = ((if negative_ok then s else sqrt s) * nth i f 0)%R.
Proof. intros H. unfold rescaled. rewrite (nth_indep _ 0%R ((if negative_ok then s else sqrt s) * 0)%R) by (rewrite map_length; exact H). apply map_nth. Qed.

Lemma mean_scaled d s t t' u v : scaled_tensors d s t' t -> mean_form d (sym_at t') u v = (RtoC s * mean_form d (sym_at t) u v)%C.
Proof.
  intros H. unfold mean_form. assert (E : csum (Z.to_nat (npts d)) (fun r => S_Op.form (sym_at t' r) (u r) (v r)) = (RtoC s * csum (Z.to_nat (npts d)) (fun r => S_Op.form (sym_at t r) (u r) (v r)))%C).
  { rewrite <- csum_scal. apply csum_ext. intros r Hr. unfold S_Op.form. rewrite <- csum_scal. apply csum_ext. intros i Hi. rewrite <- csum_scal. apply csum_ext. intros j Hj. rewrite (H r i j Hr Hi Hj). ring. }
  rewrite E. ring.
Qed.
Lemma mean_vec d V a u v u' v' : (forall r i, u' r i = (RtoC a * u r i)%C) -> (forall r i, v' r i = (RtoC a * v r i)%C) -> mean_form d V u' v' = (RtoC (a * a) * mean_form d V u v)%C.
Proof.
  intros Hu Hv. unfold mean_form. assert (E : csum (Z.to_nat (npts d)) (fun r => S_Op.form (V r) (u' r) (v' r)) = (RtoC (a * a) * csum (Z.to_nat (npts d)) (fun r => S_Op.form (V r) (u r) (v r)))%C).
  { rewrite <- csum_scal. apply csum_ext. intros r Hr. unfold S_Op.form. rewrite <- csum_scal. apply csum_ext. intros i Hi. rewrite <- csum_scal. apply csum_ext. intros j Hj. rewrite Hu, Hv. rewrite Cconj_mul, Cconj_R. apply C_eq; csimp; ring. }
  rewrite E. ring.
Qed.

(** The vectors of a longer wave vector. *)
Lemma kpG_scaled c k G1 G2 G3 a b e : kpG (rsc c k) (rsc c G1) (rsc c G2) (rsc c G3) a b e = rsc c (kpG k G1 G2 G3 a b e).
Proof. destruct k as ((k0 & k1) & k2), G1 as ((a0 & a1) & a2), G2 as ((b0 & b1) & b2), G3 as ((c0 & c1) & c2). unfold kpG, rsc. cbn [fst snd]. f_equal; [f_equal|]; ring. Qed.
Lemma sqrt_c c x : (0 < c)%R -> (0 <= x)%R -> sqrt (c * c * x) = (c * sqrt x)%R.
Proof. intros Hc Hx. rewrite sqrt_mult by nra. rewrite sqrt_square by lra. reflexivity. Qed.
Lemma transverse_scaled c q e e' : (0 < c)%R -> transverse q = Val e -> transverse (rsc c q) = Val e' -> km e' = km e /\ kn e' = kn e /\ kmag e' = (c * kmag e)%R.
Proof.
  intros Hc. destruct q as ((x & y) & z). unfold rsc, transverse.
  replace (c * x * (c * x) + c * y * (c * y) + c * z * (c * z))%R with (c * c * (x * x + y * y + z * z))%R by ring.
  assert (P : (0 <= x * x + y * y + z * z)%R) by nra. set (a := (x * x + y * y + z * z)%R) in *.
  assert (Ek : sqrt (c * c * a) = (c * sqrt a)%R) by (apply sqrt_c; assumption).
  destruct (Reqb_spec a 0) as [E0|E0].
  - destruct (Reqb_spec (c * c * a) 0) as [E1|E1]; [|exfalso; apply E1; rewrite E0; ring]. intros E E'. injection E as <-. injection E' as <-. cbn [kmag km kn]. auto.
  - destruct (Reqb_spec (c * c * a) 0) as [E1|E1]; [exfalso; apply Rmult_integral in E1; destruct E1 as [E1|E1]; [nra|contradiction]|].
    assert (M : forall n k k', (let '(a1, b1, c1) := vcross n (x, y, z) in let! leninv := fdiv 1 (sqrt (a1 * a1 + b1 * b1 + c1 * c1)) in Val {| kmag := sqrt a; km := vscale leninv (a1, b1, c1); kn := n |}) = Val k ->
      (let '(a1, b1, c1) := vcross n (c * x, c * y, c * z)%R in let! leninv := fdiv 1 (sqrt (a1 * a1 + b1 * b1 + c1 * c1)) in Val {| kmag := sqrt (c * c * a); km := vscale leninv (a1, b1, c1); kn := n |}) = Val k' ->
      km k' = km k /\ kn k' = kn k /\ kmag k' = (c * kmag k)%R).
    { intros ((n0 & n1) & n2) k k'. unfold vcross. set (u := (n1 * z - n2 * y)%R). set (v := (n2 * x - n0 * z)%R). set (w := (n0 * y - n1 * x)%R).
      replace (n1 * (c * z) - n2 * (c * y))%R with (c * u)%R by (unfold u; ring). replace (n2 * (c * x) - n0 * (c * z))%R with (c * v)%R by (unfold v; ring). replace (n0 * (c * y) - n1 * (c * x))%R with (c * w)%R by (unfold w; ring).
      replace (c * u * (c * u) + c * v * (c * v) + c * w * (c * w))%R with (c * c * (u * u + v * v + w * w))%R by ring. rewrite (sqrt_c c (u * u + v * v + w * w)) by nra.
      set (l := sqrt (u * u + v * v + w * w)). unfold fdiv. destruct (Req_EM_T l 0) as [El|El]; [discriminate|]. destruct (Req_EM_T (c * l) 0) as [El'|El']; [discriminate|]. cbn [bind]. intros E E'. injection E as <-. injection E' as <-. cbn [kmag km kn].
      split; [|split; [reflexivity|exact Ek]]. unfold vscale. f_equal; [f_equal|]; field; split; lra. }
    assert (Bx : forall t, Reqb (c * t) 0 = Reqb t 0).
    { intros t. destruct (Reqb_spec t 0), (Reqb_spec (c * t) 0); auto; [subst; exfalso; lra|]. apply Rmult_integral in e0. destruct e0; [lra|contradiction]. }
    rewrite !Bx. destruct (Reqb x 0 && Reqb y 0).
    + cbn [bind]. apply (M (0, 1, 0)%R).
    + unfold vcross at 1 3. replace (0 * (c * z) - 1 * (c * y))%R with (c * (0 * z - 1 * y))%R by ring. replace (1 * (c * x) - 0 * (c * z))%R with (c * (1 * x - 0 * z))%R by ring. replace (0 * (c * y) - 0 * (c * x))%R with (c * (0 * y - 0 * x))%R by ring.
      set (u := (0 * z - 1 * y)%R). set (v := (1 * x - 0 * z)%R). set (w := (0 * y - 0 * x)%R).
      replace (c * u * (c * u) + c * v * (c * v) + c * w * (c * w))%R with (c * c * (u * u + v * v + w * w))%R by ring. rewrite (sqrt_c c (u * u + v * v + w * w)) by nra.
      set (l := sqrt (u * u + v * v + w * w)). unfold fdiv at 1 3. destruct (Req_EM_T l 0) as [El|El]; [discriminate|]. destruct (Req_EM_T (c * l) 0) as [El'|El']; [discriminate|]. cbn [bind].
      assert (Ev : vscale (1 / (c * l)) (c * u, c * v, c * w)%R = vscale (1 / l) (u, v, w)) by (unfold vscale; f_equal; [f_equal|]; field; split; lra). rewrite Ev. apply M.
Qed.
