(** Two-dimensional rule, tables and the moment mesh. *)
From Coq Require Import Reals Lra Lia List Bool ZArith Permutation.
From Verif Require Import Base RC M_Tensor S_Tensor M_Sphere S_Sphere L_Sphere.
Import ListNotations.
Local Open Scope R_scope.

Lemma cos_pi_minus x : cos (PI - x) = - cos x.
Proof. rewrite cos_minus, cos_PI, sin_PI. ring. Qed.
Lemma sin_pi_minus x : sin (PI - x) = sin x.
Proof. rewrite sin_minus, cos_PI, sin_PI. ring. Qed.
Lemma cos_pi_plus x : cos (PI + x) = - cos x.
Proof. rewrite cos_plus, cos_PI, sin_PI. ring. Qed.
Lemma sin_pi_plus x : sin (PI + x) = - sin x.
Proof. rewrite sin_plus, cos_PI, sin_PI. ring. Qed.
Lemma cos_2pi_minus x : cos (2 * PI - x) = cos x.
Proof. rewrite cos_minus, cos_2PI, sin_2PI. ring. Qed.
Lemma sin_2pi_minus x : sin (2 * PI - x) = - sin x.
Proof. rewrite sin_minus, cos_2PI, sin_2PI. ring. Qed.

Definition quad2_explicit : list (vec * R) :=
  let c := sqrt 3 / 2 in let h := 1/2 in let w := 1/12 in
  [((1,0,0),w); ((c,h,0),w); ((h,c,0),w); ((0,1,0),w); ((-h,c,0),w); ((-c,h,0),w);
   ((-1,0,0),w); ((-c,-h,0),w); ((-h,-c,0),w); ((0,-1,0),w); ((h,-c,0),w); ((c,-h,0),w)].

Lemma quad2_eq : quad2 = quad2_explicit.
Proof.
  unfold quad2, quad2_explicit, quad2_point. cbn [seq map Nat.eqb Nat.mul Nat.add].
  rewrite ?INR_IZR_INZ. cbn [Z.of_nat Pos.of_succ_nat Pos.succ].
  replace (2 * 1 * PI / 12) with (PI/6) by field. replace (2 * 2 * PI / 12) with (PI/3) by field.
  replace (2 * 4 * PI / 12) with (PI - PI/3) by field. replace (2 * 5 * PI / 12) with (PI - PI/6) by field.
  replace (2 * 7 * PI / 12) with (PI + PI/6) by field. replace (2 * 8 * PI / 12) with (PI + PI/3) by field.
  replace (2 * 10 * PI / 12) with (2 * PI - PI/3) by field. replace (2 * 11 * PI / 12) with (2 * PI - PI/6) by field.
  rewrite ?cos_2pi_minus, ?sin_2pi_minus, ?cos_pi_minus, ?sin_pi_minus, ?cos_pi_plus, ?sin_pi_plus,
    ?cos_PI6, ?sin_PI6, ?cos_PI3, ?sin_PI3. reflexivity.
Qed.

Lemma sqrt3_sq : sqrt 3 * sqrt 3 = 3.
Proof. apply sqrt_sqrt. lra. Qed.

(** What a rule in the first [rank] directions provides. *)
Definition second_moments (q : list (vec * R)) (rank : nat) : Prop :=
  (forall p w, In (p, w) q -> on_sphere p 1 /\ 0 < w) /\
  (sumR (map (fun pw => fst (fst (fst pw))) q) = 0 /\ sumR (map (fun pw => snd (fst (fst pw))) q) = 0 /\
   sumR (map (fun pw => snd (fst pw)) q) = 0) /\
  qavg q (mono 0 0 0) = 1 /\
  qavg q (mono 1 0 0) = 0 /\ qavg q (mono 0 1 0) = 0 /\ qavg q (mono 0 0 1) = 0 /\
  qavg q (mono 1 1 0) = 0 /\ qavg q (mono 1 0 1) = 0 /\ qavg q (mono 0 1 1) = 0 /\
  qavg q (mono 2 0 0) = / INR rank /\
  qavg q (mono 0 2 0) = (if (2 <=? rank)%nat then / INR rank else 0) /\
  qavg q (mono 0 0 2) = (if (3 <=? rank)%nat then / INR rank else 0).

Lemma second_moments_perm q q' rank : Permutation q q' -> second_moments q rank -> second_moments q' rank.
Proof.
  intros HP (H0 & Hs & H). split; [|split].
  - intros p w Hin. apply H0. eapply Permutation_in; [apply Permutation_sym; exact HP|exact Hin].
  - rewrite <- !(sumR_perm _ _ (Permutation_map _ HP)). exact Hs.
  - rewrite <- !(qavg_perm q q' _ HP). exact H.
Qed.

Lemma quad2_moments : second_moments quad2 2.
Proof.
  rewrite quad2_eq. pose proof sqrt3_sq as H3. unfold quad2_explicit. set (s := sqrt 3) in *. clearbody s.
  split.
  - intros p w Hin. cbn [In] in Hin.
    repeat (destruct Hin as [[= <- <-]|Hin]; [unfold on_sphere; split; lra|]). destruct Hin.
  - unfold qavg, sumR. cbn [map fold_right fst snd mono pow Nat.leb INR].
    repeat split; lra.
Qed.

Lemma quad1_moments : second_moments quad1 1.
Proof.
  unfold quad1. split.
  - intros p w Hin. cbn [In] in Hin.
    repeat (destruct Hin as [[= <- <-]|Hin]; [unfold on_sphere; split; lra|]). destruct Hin.
  - unfold qavg, sumR. cbn [map fold_right fst snd mono pow Nat.leb INR].
    repeat split; try lra.
Qed.

Lemma quad3_unit p w : In (p, w) quad3 -> on_sphere p 1 /\ 0 < w.
Proof.
  intros Hin.
  assert (H : In (sq_pt p, w) rat3).
  { rewrite <- quad3_sq. unfold sq_list. apply in_map_iff. exists (p, w). split; [reflexivity|exact Hin]. }
  assert (G : let '(x, y, z) := sq_pt p in x + y + z = 1 /\ 0 < w).
  { revert H. generalize (sq_pt p). intros v H. unfold rat3 in H. cbn [concat repeat app In] in H.
    repeat (destruct H as [[= <- <-]|H]; [lra|]). destruct H. }
  destruct p as [[x y] z]. cbn [sq_pt] in G. unfold on_sphere. lra.
Qed.

Lemma quad3_moments : second_moments quad3 3.
Proof.
  split; [exact quad3_unit|]. split.
  { repeat split; unfold sumR, quad3, class1, class2, class3, class4;
    cbn [rep emit shift3 negx negy negz fst snd app map fold_right]; ring. }
  rewrite !quad3_exact by lia. unfold sphere_avg. cbn [Nat.even Nat.add andb dfact Nat.leb].
  rewrite ?INR_IZR_INZ. cbn [Z.of_nat Pos.of_succ_nat Pos.succ]. repeat split; lra.
Qed.

Lemma table_moments flt rank : (1 <= rank <= 3)%nat -> second_moments (sphere_quad flt rank) rank.
Proof.
  intros H. assert (E : rank = 1%nat \/ rank = 2%nat \/ rank = 3%nat) by lia.
  destruct E as [->|[->| ->]]; cbn [sphere_quad].
  - exact quad1_moments.
  - eapply second_moments_perm; [apply sort_perm|exact quad2_moments].
  - eapply second_moments_perm; [apply sort_perm|exact quad3_moments].
Qed.

Lemma table_length flt rank : (length (sphere_quad flt rank) <= 50)%nat.
Proof.
  assert (H1 : (length quad1 <= 50)%nat) by (cbn; lia).
  assert (H2 : (length quad2 <= 50)%nat) by (rewrite quad2_eq; cbn; lia).
  assert (H3 : (length quad3 <= 50)%nat) by (cbn; lia).
  destruct rank as [|[|[|[|]]]]; unfold sphere_quad; try exact H1.
  - rewrite <- (Permutation_length (sort_perm flt quad2)). exact H2.
  - rewrite <- (Permutation_length (sort_perm flt quad3)). exact H3.
Qed.

(* ----------------------------------------------------------- moment mesh *)

Lemma fold_sumR {A} (g : A -> R) l a0 : fold_left (fun a x => a + g x) l a0 = a0 + sumR (map g l).
Proof. revert a0. unfold sumR. induction l as [|x l IH]; intros a0; cbn; [ring|]. rewrite IH. ring. Qed.

Lemma fold_sum3 {A} (g0 g1 g2 : A -> R) l a0 a1 a2 :
  fold_left (fun a x => let '(a0, a1, a2) := a in (a0 + g0 x, a1 + g1 x, a2 + g2 x)) l (a0, a1, a2) =
  (a0 + sumR (map g0 l), a1 + sumR (map g1 l), a2 + sumR (map g2 l)).
Proof.
  revert a0 a1 a2. unfold sumR. induction l as [|x l IH]; intros a0 a1 a2; cbn; [f_equal; [f_equal|]; ring|].
  rewrite IH. f_equal; [f_equal|]; ring.
Qed.

Lemma sumR_ext {A} (f g : A -> R) l : (forall x, In x l -> f x = g x) -> sumR (map f l) = sumR (map g l).
Proof. intros H. f_equal. apply map_ext_in. exact H. Qed.
Lemma sumR_scal {A} c (f : A -> R) l : sumR (map (fun x => c * f x) l) = c * sumR (map f l).
Proof. unfold sumR. induction l as [|x l IH]; cbn; [ring|]. rewrite IH. ring. Qed.
Lemma sumR_add {A} (f g : A -> R) l : sumR (map (fun x => f x + g x) l) = sumR (map f l) + sumR (map g l).
Proof. unfold sumR. induction l as [|x l IH]; cbn; [ring|]. rewrite IH. ring. Qed.

Lemma max_diam_val Rl ns i acc : (forall n, In n ns -> (0 < n)%Z) -> 0 <= acc ->
  exists d, max_diam Rl ns i acc = Val d /\ acc <= d /\
    forall k n, nth_error ns k = Some n ->
      sqrt (Rl (i+k)%nat 0%nat * Rl (i+k)%nat 0%nat + Rl (i+k)%nat 1%nat * Rl (i+k)%nat 1%nat + Rl (i+k)%nat 2%nat * Rl (i+k)%nat 2%nat) / IZR n <= d.
Proof.
  revert i acc. induction ns as [|n ns IH]; intros i acc Hn Ha.
  - exists acc. split; [reflexivity|]. split; [lra|]. intros k m Hk. destruct k; discriminate.
  - cbn [max_diam]. assert (Hn0 : IZR n <> 0).
    { assert (0 < IZR n) by (apply IZR_lt; apply Hn; left; reflexivity). lra. }
    rewrite fdiv_nz by exact Hn0. cbn [bind].
    set (ri := sqrt _ / IZR n).
    destruct (IH (S i) (if Rltb ri acc then acc else ri)) as (d & E & Hd & Hk).
    { intros m Hm. apply Hn. right. exact Hm. }
    { destruct (Rltb_spec ri acc); lra. }
    exists d. split; [exact E|].
    assert (Hd2 : acc <= d /\ ri <= d) by (destruct (Rltb_spec ri acc); lra).
    split; [lra|]. intros k m Hkm. destruct k as [|k].
    + cbn in Hkm. injection Hkm as <-. rewrite Nat.add_0_r. fold ri. lra.
    + cbn in Hkm. specialize (Hk k m Hkm). rewrite <- Nat.add_succ_comm. exact Hk.
Qed.


Lemma map_scale0 (f : vec -> R) c q : (forall p, f (scale3 c p) = f p * c) ->
  sumR (map (fun pw : vec * R => f (fst pw)) (map (fun pw => (scale3 c (fst pw), snd pw)) q)) = c * sumR (map (fun pw => f (fst pw)) q).
Proof. intros H. rewrite map_map. cbn [fst]. rewrite <- sumR_scal. apply sumR_ext. intros [p w] _. cbn [fst]. rewrite H. ring. Qed.

Section Mesh.
Variables (flt : R -> R) (n : Z * Z * Z) (Rl G : mat3).
Let rank := rank_of n.

Lemma rank_range : (1 <= rank <= 3)%nat.
Proof. unfold rank, rank_of. destruct n as [[a b] c]. destruct (1 <? c)%Z; [lia|]. destruct (1 <? b)%Z; lia. Qed.

Definition tolat (v : vec) : vec := let '(v0, v1, v2) := v in
      (G 0%nat 0%nat * v0 + G 0%nat 1%nat * v1 + G 0%nat 2%nat * v2,
        G 1%nat 0%nat * v0 + G 1%nat 1%nat * v1 + G 1%nat 2%nat * v2,
        G 2%nat 0%nat * v0 + G 2%nat 1%nat * v1 + G 2%nat 2%nat * v2).

Lemma r_pos : 0 < moment_mesh_r rank.
Proof. pose proof rank_range. destruct rank as [|[|[|[|]]]]; cbn; lra. Qed.

Lemma mesh_val : (let '(n1, n2, n3) := n in (1 <= n1 /\ 1 <= n2 /\ 1 <= n3)%Z) ->
  exists d, get_moment_mesh flt n Rl G =
    Val (map (fun pw => (tolat (scale3 (moment_mesh_r rank * d) (fst pw)), snd pw)) (sphere_quad flt rank)) /\ 0 <= d /\
    forall k m, (k < rank)%nat -> nth_error (let '(n1, n2, n3) := n in [n1; n2; n3]) k = Some m ->
      sqrt (Rl k 0%nat * Rl k 0%nat + Rl k 1%nat * Rl k 1%nat + Rl k 2%nat * Rl k 2%nat) / IZR m <= d.
Proof.
  intros Hn. pose proof rank_range as HRR. destruct (table_moments flt rank rank_range) as (Hu & (SX & SY & SZ) & W & _).
  unfold get_moment_mesh. fold rank. pose proof (table_length flt rank) as HL.
  set (q := sphere_quad flt rank) in *. clearbody q. set (r := moment_mesh_r rank). clearbody r.
  destruct n as [[n1 n2] n3].
  set (mm := map (fun pw => (scale3 r (fst pw), snd pw)) q).
  assert (Hl : (length mm <=? 50)%nat = true).
  { apply Nat.leb_le. unfold mm. rewrite map_length. exact HL. }
  rewrite Hl. cbn [check bind].
  assert (Ew : fold_left (fun a (pw : vec * R) => a + snd pw) mm 0 = 1).
  { rewrite fold_sumR. unfold mm. rewrite map_map. cbn [snd]. rewrite <- W. unfold qavg.
    rewrite Rplus_0_l. apply sumR_ext. intros [[[x y] z] w] _. cbn. ring. }
  rewrite Ew. replace (1 - 1) with 0 by ring. rewrite Rabs_R0.
  assert (HS : 0 < SMALL) by (unfold SMALL; lra).
  destruct (Rltb_spec 0 SMALL) as [_|]; [|contradiction]. cbn [check bind].
  destruct (max_diam_val Rl (firstn rank [n1; n2; n3]) 0 0) as (d & Ed & Hd & Hk).
  { intros m Hm. assert (Hm' : In m [n1; n2; n3]) by (rewrite <- (firstn_skipn rank [n1; n2; n3]); apply in_app_iff; left; exact Hm).
    cbn in Hm'. destruct Hm' as [<-|[<-|[<-|[]]]]; lia. }
  { lra. }
  rewrite Ed. cbn [bind].
  set (mm2 := map (fun pw => (scale3 d (fst pw), snd pw)) mm).
  assert (Ef : forallb (fun pw : vec * R => let '(x, y, z) := fst pw in
                       Rltb (Rabs (x*x + y*y + z*z - d*d*(r*r))) SMALL) mm2 = true).
  { apply forallb_forall. intros [p w] Hin. unfold mm2, mm in Hin. rewrite map_map in Hin. apply in_map_iff in Hin.
    destruct Hin as ([[[x y] z] w'] & [= <- <-] & Hin). cbn [fst snd scale3].
    destruct (Hu _ _ Hin) as [Hs _]. unfold on_sphere in Hs.
    match goal with |- Rltb (Rabs ?e) _ = _ => replace e with 0 end.
    - rewrite Rabs_R0. destruct (Rltb_spec 0 SMALL); [reflexivity|contradiction].
    - replace (x * r * d * (x * r * d) + y * r * d * (y * r * d) + z * r * d * (z * r * d)) with (d*d*(r*r) * (x*x+y*y+z*z)) by ring.
      rewrite Hs. ring. }
  match goal with |- context [forallb ?f mm2] => replace (forallb f mm2) with true by (symmetry; exact Ef) end.
  cbn [check bind].
  assert (Et : fold_left (fun a (pw : vec * R) =>
      let '(a0, a1, a2) := a in let '(x, y, z) := fst pw in (a0 + x, a1 + y, a2 + z)) mm2 (0, 0, 0) = 
      (sumR (map (fun pw => fst (fst (fst pw))) mm2), sumR (map (fun pw => snd (fst (fst pw))) mm2), sumR (map (fun pw => snd (fst pw)) mm2))).
  { assert (Eq : forall l a0 a1 a2, fold_left (fun a (pw : vec * R) =>
      let '(a0, a1, a2) := a in let '(x, y, z) := fst pw in (a0 + x, a1 + y, a2 + z)) l (a0, a1, a2) = 
      (a0 + sumR (map (fun pw => fst (fst (fst pw))) l), a1 + sumR (map (fun pw => snd (fst (fst pw))) l), a2 + sumR (map (fun pw => snd (fst pw)) l))).
    { induction l as [|[[[x y] z] w] l IH]; intros a0 a1 a2; cbn; [f_equal; [f_equal|]; ring|].
      rewrite IH. unfold sumR. f_equal; [f_equal|]; ring. }
    rewrite Eq. rewrite !Rplus_0_l. reflexivity. }
  match type of Et with _ = ?rhs => match goal with |- context [fold_left ?f mm2 ?z] =>
    replace (fold_left f mm2 z) with rhs by (symmetry; exact Et) end end.
  clear Et. unfold mm2 at 1 2 3, mm.
  rewrite (map_scale0 (fun p => fst (fst p))), (map_scale0 (fun p => snd (fst p))), (map_scale0 (fun p => snd p));
    [|intros [[x y] z]; reflexivity ..].
  rewrite (map_scale0 (fun p => fst (fst p))), (map_scale0 (fun p => snd (fst p))), (map_scale0 (fun p => snd p));
    [|intros [[x y] z]; reflexivity ..].
  unfold vec in *. rewrite SX, SY, SZ, !Rmult_0_r, Rabs_R0, !Rplus_0_r.
  destruct (Rltb_spec 0 SMALL) as [_|]; [|contradiction]. cbn [check bind].
  exists d. split; [|split; [exact Hd|]].
  - f_equal. unfold mm2, mm. rewrite !map_map. apply map_ext. intros [[[x y] z] w]. cbn [fst snd scale3]. unfold tolat.
    f_equal. f_equal; [f_equal|]; ring.
  - intros k m Hkr Hm. specialize (Hk k m). cbn [Nat.add] in Hk. apply Hk.
    rewrite <- (firstn_skipn rank [n1; n2; n3]) in Hm. rewrite nth_error_app1 in Hm; [exact Hm|].
    apply nth_error_Some. intros E. apply nth_error_None in E. rewrite firstn_length in E. cbn [length] in E.
    assert (k < 3)%nat by lia. lia.
Qed.

Hypothesis HG : dual Rl G.

Lemma cart_tolat v : cart Rl (tolat v) = v.
Proof.
  destruct v as [[x y] z]. unfold tolat, cart.
  pose proof (fun a b Ha Hb => HG a b Ha Hb) as D. unfold rsum in D. cbn in D.
  pose proof (D 0%nat 0%nat ltac:(lia) ltac:(lia)) as D00. pose proof (D 0%nat 1%nat ltac:(lia) ltac:(lia)) as D01. pose proof (D 0%nat 2%nat ltac:(lia) ltac:(lia)) as D02.
  pose proof (D 1%nat 0%nat ltac:(lia) ltac:(lia)) as D10. pose proof (D 1%nat 1%nat ltac:(lia) ltac:(lia)) as D11. pose proof (D 1%nat 2%nat ltac:(lia) ltac:(lia)) as D12.
  pose proof (D 2%nat 0%nat ltac:(lia) ltac:(lia)) as D20. pose proof (D 2%nat 1%nat ltac:(lia) ltac:(lia)) as D21. pose proof (D 2%nat 2%nat ltac:(lia) ltac:(lia)) as D22.
  cbn in *. clear D HG.
  f_equal; [f_equal|].
  - transitivity (x * (0 + Rl 0%nat 0%nat * G 0%nat 0%nat + Rl 1%nat 0%nat * G 1%nat 0%nat + Rl 2%nat 0%nat * G 2%nat 0%nat)
      + y * (0 + Rl 0%nat 0%nat * G 0%nat 1%nat + Rl 1%nat 0%nat * G 1%nat 1%nat + Rl 2%nat 0%nat * G 2%nat 1%nat)
      + z * (0 + Rl 0%nat 0%nat * G 0%nat 2%nat + Rl 1%nat 0%nat * G 1%nat 2%nat + Rl 2%nat 0%nat * G 2%nat 2%nat)); [ring|].
    rewrite D00, D01, D02. ring.
  - transitivity (x * (0 + Rl 0%nat 1%nat * G 0%nat 0%nat + Rl 1%nat 1%nat * G 1%nat 0%nat + Rl 2%nat 1%nat * G 2%nat 0%nat)
      + y * (0 + Rl 0%nat 1%nat * G 0%nat 1%nat + Rl 1%nat 1%nat * G 1%nat 1%nat + Rl 2%nat 1%nat * G 2%nat 1%nat)
      + z * (0 + Rl 0%nat 1%nat * G 0%nat 2%nat + Rl 1%nat 1%nat * G 1%nat 2%nat + Rl 2%nat 1%nat * G 2%nat 2%nat)); [ring|].
    rewrite D10, D11, D12. ring.
  - transitivity (x * (0 + Rl 0%nat 2%nat * G 0%nat 0%nat + Rl 1%nat 2%nat * G 1%nat 0%nat + Rl 2%nat 2%nat * G 2%nat 0%nat)
      + y * (0 + Rl 0%nat 2%nat * G 0%nat 1%nat + Rl 1%nat 2%nat * G 1%nat 1%nat + Rl 2%nat 2%nat * G 2%nat 1%nat)
      + z * (0 + Rl 0%nat 2%nat * G 0%nat 2%nat + Rl 1%nat 2%nat * G 1%nat 2%nat + Rl 2%nat 2%nat * G 2%nat 2%nat)); [ring|].
    rewrite D20, D21, D22. ring.
Qed.

(** The material as seen from the grid point r on the sphere of radius rad: affine in
    the Cartesian displacement. *)
Definition affine_on (epsilon : eps_fun) (r : vec) (rad t0 : R) (g : vec) : Prop :=
  forall q, on_sphere (cart Rl (vsub q r)) rad -> trace (fst (epsilon q)) = t0 + dot g (cart Rl (vsub q r)).

Lemma moment_affine q epsilon r rad t0 g rk : second_moments q rk ->
  affine_on epsilon r rad t0 g -> 
  moment (map (fun pw => (tolat (scale3 rad (fst pw)), snd pw)) q) Rl epsilon r =
  (rad*rad * (fst (fst g) * / INR rk),
   rad*rad * (snd (fst g) * (if (2 <=? rk)%nat then / INR rk else 0)),
   rad*rad * (snd g * (if (3 <=? rk)%nat then / INR rk else 0))).
Proof.
  intros (Hu & _ & _ & X & Y & Z_ & XY & XZ & YZ & XX & YY & ZZ) Haff.
  destruct r as [[rx ry] rz] eqn:Er. destruct g as [[g0 g1] g2]. cbn [fst snd].
  set (T := fun p : vec => t0 + dot (g0, g1, g2) (scale3 rad p)).
  assert (Emom : forall l a, (forall p w, In (p, w) l -> on_sphere p 1) ->
    fold_left (fun acc (p : vec * R) =>
      let '(a0, a1, a2) := acc in
      let '((p0, p1, p2), w) := p in
      let e := fst (epsilon (rx + p0, ry + p1, rz + p2)) in
      let tr := (m00 e + m11 e + m22 e) * w in
      (a0 + tr * p0, a1 + tr * p1, a2 + tr * p2)) (map (fun pw => (tolat (scale3 rad (fst pw)), snd pw)) l) a =
    (let '(a0, a1, a2) := a in
     (a0 + sumR (map (fun pw => T (fst pw) * snd pw * fst (fst (tolat (scale3 rad (fst pw))))) l),
      a1 + sumR (map (fun pw => T (fst pw) * snd pw * snd (fst (tolat (scale3 rad (fst pw))))) l),
      a2 + sumR (map (fun pw => T (fst pw) * snd pw * snd (tolat (scale3 rad (fst pw)))) l)))).
  { induction l as [|[p w] l IH]; intros [[a0 a1] a2] Hl.
    - cbn. f_equal; [f_equal|]; ring.
    - cbn [map fold_left fst snd]. destruct (tolat (scale3 rad p)) as [[l0 l1] l2] eqn:El.
      assert (Et : m00 (fst (epsilon (rx + l0, ry + l1, rz + l2))) + m11 (fst (epsilon (rx + l0, ry + l1, rz + l2)))
                   + m22 (fst (epsilon (rx + l0, ry + l1, rz + l2))) = T p).
      { pose proof (Haff (rx + l0, ry + l1, rz + l2)) as HA.
        assert (Ev : vsub (rx + l0, ry + l1, rz + l2) (rx, ry, rz) = tolat (scale3 rad p)).
        { rewrite El. unfold vsub. f_equal; [f_equal|]; ring. }
        rewrite Ev, cart_tolat in HA. apply HA.
        specialize (Hl p w (or_introl eq_refl)). destruct p as [[x y] z]. unfold on_sphere in *. cbn [scale3].
        transitivity (rad*rad*(x*x+y*y+z*z)); [ring|rewrite Hl; ring]. }
      rewrite Et. rewrite IH by (intros p' w' H'; apply (Hl p' w'); right; exact H').
      unfold sumR. cbn [fold_right fst snd]. rewrite ?El. cbn [fst snd]. f_equal; [f_equal|]; ring. }
  unfold moment. unfold vec in *. rewrite Emom by (intros p w H; apply (Hu p w H)).
  clear Emom Haff Hu.
  rewrite !Rplus_0_l.
  assert (EC : forall c0 c1 c2 (a : nat), (a < 3)%nat ->
     c0 = Rl 0%nat a -> c1 = Rl 1%nat a -> c2 = Rl 2%nat a ->
     c0 * sumR (map (fun pw => T (fst pw) * snd pw * fst (fst (tolat (scale3 rad (fst pw))))) q) +
     c1 * sumR (map (fun pw => T (fst pw) * snd pw * snd (fst (tolat (scale3 rad (fst pw))))) q) +
     c2 * sumR (map (fun pw => T (fst pw) * snd pw * snd (tolat (scale3 rad (fst pw)))) q) =
     sumR (map (fun pw => T (fst pw) * snd pw * (let '(x, y, z) := scale3 rad (fst pw) in match a with O => x | S O => y | _ => z end)) q)).
  { intros c0 c1 c2 a Ha -> -> ->. rewrite <- !sumR_scal, <- !sumR_add. apply sumR_ext. intros [p w] _. cbn [fst snd].
    pose proof (cart_tolat (scale3 rad p)) as Ec. destruct (tolat (scale3 rad p)) as [[l0 l1] l2]. destruct (scale3 rad p) as [[v0 v1] v2].
    unfold cart in Ec. injection Ec as E0 E1 E2. cbn [fst snd].
    assert (Ha' : a = 0%nat \/ a = 1%nat \/ a = 2%nat) by lia.
    destruct Ha' as [->|[->| ->]]; [rewrite <- E0|rewrite <- E1|rewrite <- E2]; ring. }
  rewrite (EC _ _ _ 0%nat), (EC _ _ _ 1%nat), (EC _ _ _ 2%nat) by (lia || reflexivity).
  clear EC.

  assert (Q : forall (h : vec -> R) a0 a1 a2 a3 f0 f1 f2 f3, (forall p, h p = a0 * f0 p + a1 * f1 p + a2 * f2 p + a3 * f3 p) ->
     qavg q h = a0 * qavg q f0 + a1 * qavg q f1 + a2 * qavg q f2 + a3 * qavg q f3).
  { intros h a0 a1 a2 a3 f0 f1 f2 f3 Hh. unfold qavg. rewrite <- !sumR_scal, <- !sumR_add. apply sumR_ext.
    intros [p w] _. cbn [fst snd]. rewrite Hh. ring. }
  f_equal; [f_equal|].
  - transitivity (qavg q (fun p => T p * (let '(x, y, z) := scale3 rad p in x))).
    { unfold qavg. apply sumR_ext. intros [[[x y] z] w] _. cbn [fst snd scale3]. ring. }
    rewrite (Q _ (t0 * rad) (rad*rad*g0) (rad*rad*g1) (rad*rad*g2) (mono 1 0 0) (mono 2 0 0) (mono 1 1 0) (mono 1 0 1)).
    { rewrite X, XY, XZ, XX. ring. }
    intros [[x y] z]. unfold T. cbn [scale3 dot mono pow]. ring.
  - transitivity (qavg q (fun p => T p * (let '(x, y, z) := scale3 rad p in y))).
    { unfold qavg. apply sumR_ext. intros [[[x y] z] w] _. cbn [fst snd scale3]. ring. }
    rewrite (Q _ (t0 * rad) (rad*rad*g0) (rad*rad*g1) (rad*rad*g2) (mono 0 1 0) (mono 1 1 0) (mono 0 2 0) (mono 0 1 1)).
    { rewrite Y, XY, YZ, YY. ring. }
    intros [[x y] z]. unfold T. cbn [scale3 dot mono pow]. ring.
  - transitivity (qavg q (fun p => T p * (let '(x, y, z) := scale3 rad p in z))).
    { unfold qavg. apply sumR_ext. intros [[[x y] z] w] _. cbn [fst snd scale3]. ring. }
    rewrite (Q _ (t0 * rad) (rad*rad*g0) (rad*rad*g1) (rad*rad*g2) (mono 0 0 1) (mono 1 0 1) (mono 0 1 1) (mono 0 0 2)).
    { rewrite Z_, XZ, YZ, ZZ. ring. }
    intros [[x y] z]. unfold T. cbn [scale3 dot mono pow]. ring.
Qed.

Lemma row0_nonzero : 0 < sqrt (Rl 0%nat 0%nat * Rl 0%nat 0%nat + Rl 0%nat 1%nat * Rl 0%nat 1%nat + Rl 0%nat 2%nat * Rl 0%nat 2%nat).
Proof.
  apply sqrt_lt_R0.
  assert (H : 0 <= Rl 0%nat 0%nat * Rl 0%nat 0%nat + Rl 0%nat 1%nat * Rl 0%nat 1%nat + Rl 0%nat 2%nat * Rl 0%nat 2%nat) by nra.
  destruct (Rle_lt_or_eq_dec _ _ H) as [L|E]; [exact L|exfalso].
  assert (E0 : Rl 0%nat 0%nat = 0) by nra. assert (E1 : Rl 0%nat 1%nat = 0) by nra. assert (E2 : Rl 0%nat 2%nat = 0) by nra.
  (* take the lattice coordinates of three Cartesian axes: coordinate 0 is lost, but cart is onto *)
  pose proof (cart_tolat (1, 0, 0)) as A. pose proof (cart_tolat (0, 1, 0)) as B. pose proof (cart_tolat (0, 0, 1)) as Cc.
  unfold tolat, cart in A, B, Cc. injection A as A0 A1 A2. injection B as B0 B1 B2. injection Cc as C0' C1' C2'.
  rewrite E0, E1, E2 in *.
  set (r10 := Rl 1%nat 0%nat) in *. set (r20 := Rl 2%nat 0%nat) in *. set (r11 := Rl 1%nat 1%nat) in *. set (r21 := Rl 2%nat 1%nat) in *.
  set (r12 := Rl 1%nat 2%nat) in *. set (r22 := Rl 2%nat 2%nat) in *.
  set (g10 := G 1%nat 0%nat) in *. set (g11 := G 1%nat 1%nat) in *. set (g12 := G 1%nat 2%nat) in *.
  set (g20 := G 2%nat 0%nat) in *. set (g21 := G 2%nat 1%nat) in *. set (g22 := G 2%nat 2%nat) in *.
  assert (P00 : r10*g10 + r20*g20 = 1) by lra. assert (P10 : r11*g10 + r21*g20 = 0) by lra. assert (P20 : r12*g10 + r22*g20 = 0) by lra.
  assert (P01 : r10*g11 + r20*g21 = 0) by lra. assert (P11 : r11*g11 + r21*g21 = 1) by lra. assert (P21 : r12*g11 + r22*g21 = 0) by lra.
  assert (P02 : r10*g12 + r20*g22 = 0) by lra. assert (P12 : r11*g12 + r21*g22 = 0) by lra. assert (P22 : r12*g12 + r22*g22 = 1) by lra.
  clear - P00 P10 P20 P01 P11 P21 P02 P12 P22.
  (* a 3x2 times 2x3 product has determinant zero, the identity has determinant one *)
  assert (D : (r10*g10 + r20*g20) * ((r11*g11 + r21*g21) * (r12*g12 + r22*g22) - (r11*g12 + r21*g22) * (r12*g11 + r22*g21))
    - (r10*g11 + r20*g21) * ((r11*g10 + r21*g20) * (r12*g12 + r22*g22) - (r11*g12 + r21*g22) * (r12*g10 + r22*g20))
    + (r10*g12 + r20*g22) * ((r11*g10 + r21*g20) * (r12*g11 + r22*g21) - (r11*g11 + r21*g21) * (r12*g10 + r22*g20)) = 0) by ring.
  rewrite P00, P10, P20, P01, P11, P21, P02, P12, P22 in D. lra.
Qed.

Lemma mesh_moment : (let '(n1, n2, n3) := n in (1 <= n1 /\ 1 <= n2 /\ 1 <= n3)%Z) ->
  exists mm rad, get_moment_mesh flt n Rl G = Val mm /\ 0 < rad /\
    forall epsilon r t0 g, affine_on epsilon r rad t0 g ->
      moment mm Rl epsilon r = smul (rad * rad / INR rank) (first_dirs rank g).
Proof.
  intros Hn. destruct (mesh_val Hn) as (d & E & Hd & Hk).
  exists (map (fun pw => (tolat (scale3 (moment_mesh_r rank * d) (fst pw)), snd pw)) (sphere_quad flt rank)), (moment_mesh_r rank * d).
  split; [exact E|]. pose proof rank_range as HRR. split.
  - apply Rmult_lt_0_compat; [apply r_pos|]. pose proof row0_nonzero as H0.
    destruct n as [[n1 n2] n3] eqn:En. specialize (Hk 0%nat n1 ltac:(lia) eq_refl).
    assert (Hn1 : 0 < IZR n1) by (apply IZR_lt; lia).
    assert (0 < sqrt (Rl 0%nat 0%nat * Rl 0%nat 0%nat + Rl 0%nat 1%nat * Rl 0%nat 1%nat + Rl 0%nat 2%nat * Rl 0%nat 2%nat) / IZR n1).
    { apply Rdiv_lt_0_compat; assumption. }
    lra.
  - intros epsilon r t0 g Ha.
    rewrite (moment_affine _ epsilon r _ t0 g rank (table_moments flt rank rank_range) Ha).
    destruct g as [[g0 g1] g2]. cbn [fst snd].
    assert (HR : rank = 1%nat \/ rank = 2%nat \/ rank = 3%nat) by lia.
    destruct HR as [HR|[HR|HR]]; rewrite HR; cbn [first_dirs Nat.leb smul INR]; (f_equal; [f_equal|]); field.
Qed.
End Mesh.
