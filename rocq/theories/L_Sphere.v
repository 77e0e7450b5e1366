(** Proofs about the quadrature tables. *)
From Coq Require Import Reals Lra Lia List Bool ZArith Permutation.
From Verif Require Import Base RC M_Tensor S_Tensor M_Sphere S_Sphere.
Import ListNotations.
Local Open Scope R_scope.

(* ---------------------------------------------------------- permutations *)

Lemma swap_perm l i j : (i < length l)%nat -> (j < length l)%nat -> Permutation l (swap l i j).
Proof.
  intros Hi Hj. apply Permutation_nth_error. split.
  - unfold swap. rewrite !upd_length. reflexivity.
  - exists (fun k => if Nat.eqb k i then j else if Nat.eqb k j then i else k). split.
    + intros a b. destruct (Nat.eqb_spec a i), (Nat.eqb_spec b i), (Nat.eqb_spec a j), (Nat.eqb_spec b j); intros; subst; try congruence.
    + intros k. unfold swap. rewrite nth_error_upd, upd_length, nth_error_upd.
      destruct (Nat.eqb_spec j k) as [->|Hk].
      * destruct (Nat.ltb_spec k (length l)); [|lia]. rewrite Nat.eqb_refl.
        destruct (Nat.eqb_spec k i) as [->|_]; symmetry; apply nth_error_nth'; assumption.
      * destruct (Nat.eqb_spec i k) as [->|Hik].
        -- destruct (Nat.ltb_spec k (length l)); [|lia]. rewrite Nat.eqb_refl. symmetry. apply nth_error_nth'. assumption.
        -- destruct (Nat.eqb_spec k i); [congruence|]. destruct (Nat.eqb_spec k j); [congruence|]. reflexivity.
Qed.

Lemma fold_last_inv {A B} (f : A -> B -> A) (P : A -> Prop) (bs : list B) a :
  P a -> (forall a b, P a -> In b bs -> P (f a b)) -> P (fold_left f bs a).
Proof.
  revert a. induction bs as [|b bs IH]; intros a Ha Hs; [exact Ha|]. cbn. apply IH.
  - apply Hs; [exact Ha|left; reflexivity].
  - intros a' b' Ha' Hb'. apply Hs; [exact Ha'|right; exact Hb'].
Qed.

Lemma jmax_range flt l i : (i < length l)%nat -> (i <= jmax_of flt l i < length l)%nat.
Proof.
  intros Hi. unfold jmax_of.
  apply (fold_last_inv _ (fun st => (i <= snd st < length l)%nat)); [cbn; lia|].
  intros [[a b] m] j Hm Hj. apply in_seq in Hj. cbn [snd] in Hm.
  match goal with |- context [fold_left ?f ?x ?y] => destruct (fold_left f x y) as [u v] end.
  destruct (Rltb a u || (Reqb u a && Rltb b v)); cbn [snd]; lia.
Qed.

Lemma sort_perm flt l : Permutation l (sort_by_distance flt l).
Proof.
  unfold sort_by_distance.
  apply (fold_last_inv _ (fun l' => Permutation l l')); [reflexivity|].
  intros l' i Hp Hi. apply in_seq in Hi. pose proof (Permutation_length Hp) as Hl.
  rewrite Hp. apply swap_perm; [lia|]. apply jmax_range. lia.
Qed.

Lemma sumR_perm l l' : Permutation l l' -> sumR l = sumR l'.
Proof. unfold sumR. induction 1; cbn in *; lra. Qed.

Lemma qavg_perm q q' f : Permutation q q' -> qavg q f = qavg q' f.
Proof. intros H. unfold qavg. apply sumR_perm. apply Permutation_map. exact H. Qed.

(* ------------------------------------------------------------- 50 points *)

Lemma sqrt_sq x : 0 <= x -> sqrt x * sqrt x = x.
Proof. intros H. apply sqrt_sqrt. exact H. Qed.

(** x^(2m) = (x*x)^m *)
Lemma pow_even x m : x ^ (2 * m) = (x * x) ^ m.
Proof. rewrite pow_mult. cbn [pow]. f_equal. ring. Qed.

Definition sq_pt (p : vec) : vec := let '(x, y, z) := p in (x*x, y*y, z*z).
Definition sq_list (q : list (vec * R)) : list (vec * R) := map (fun pw => (sq_pt (fst pw), snd pw)) q.

Lemma qavg_even q a b c : qavg q (mono (2*a) (2*b) (2*c)) = qavg (sq_list q) (mono a b c).
Proof.
  unfold qavg, sq_list. rewrite map_map. f_equal. apply map_ext. intros [[[x y] z] w]. cbn [fst snd sq_pt mono].
  rewrite !pow_even. reflexivity.
Qed.

Definition rat3 : list (vec * R) :=
  let w1 := 9216 / 725760 in let w2 := 16384 / 725760 in
  let w3 := 15309 / 725760 in let w4 := 14641 / 725760 in
  let h := 1/2 in let t := 1/3 in let e := 1/11 in let n := 9/11 in
  concat (repeat [((0,1,0),w1); ((0,0,1),w1); ((1,0,0),w1)] 2) ++
  concat (repeat [((0,h,h),w2); ((h,0,h),w2); ((h,h,0),w2)] 4) ++
  repeat ((t,t,t),w3) 8 ++
  concat (repeat [((n,e,e),w4); ((e,n,e),w4); ((e,e,n),w4)] 8).

Lemma pt_eq (x y z w x' y' z' : R) (l l' : list (vec * R)) :
  x = x' -> y = y' -> z = z' -> l = l' -> ((x, y, z), w) :: l = ((x', y', z'), w) :: l'.
Proof. intros -> -> -> ->. reflexivity. Qed.

Lemma quad3_sq : sq_list quad3 = rat3.
Proof.
  unfold quad3, class1, class2, class3, class4, rat3.
  cbn [rep emit shift3 negx negy negz fst snd app map concat repeat sq_list sq_pt].
  pose proof (sqrt_sq (1/2) ltac:(lra)) as H2. pose proof (sqrt_sq (1/3) ltac:(lra)) as H3.
  pose proof (sqrt_sq (1/11) ltac:(lra)) as H11.
  set (s2 := sqrt (1/2)) in *. set (s3 := sqrt (1/3)) in *. set (s11 := sqrt (1/11)) in *.
  clearbody s2 s3 s11.
  unfold sq_list. cbn [map fst snd sq_pt].
  repeat (apply pt_eq;
    [ first [ring | (transitivity (s2*s2); [ring|exact H2]) | (transitivity (s3*s3); [ring|exact H3])
            | (transitivity (s11*s11); [ring|exact H11]) | (transitivity (9*(s11*s11)); [ring|rewrite H11; lra])] .. | ]).
  reflexivity.
Qed.

Lemma pow_opp x n : (- x) ^ n = (-1) ^ n * x ^ n.
Proof. replace (- x) with (-1 * x) by ring. apply Rpow_mult_distr. Qed.
Lemma m1_odd n : Nat.odd n = true -> (-1) ^ n = -1.
Proof.
  intros H. apply Nat.odd_spec in H. destruct H as [m ->]. rewrite Nat.add_comm. cbn [Nat.add pow].
  rewrite pow_1_even. ring.
Qed.
Lemma zero_odd n : Nat.odd n = true -> 0 ^ n = 0.
Proof. intros H. apply pow_i. destruct n; [discriminate|lia]. Qed.

Ltac expand3 :=
  unfold qavg, sumR, quad3, class1, class2, class3, class4;
  cbn [rep emit shift3 negx negy negz fst snd app map fold_right mono];
  set (s2 := sqrt (1/2)); set (s3 := sqrt (1/3)); set (s11 := sqrt (1/11));
  set (t := 3 * s11); clearbody t; clearbody s2 s3 s11;
  rewrite ?Ropp_involutive.

Lemma quad3_odd a b c : Nat.odd a || Nat.odd b || Nat.odd c = true -> qavg quad3 (mono a b c) = 0.
Proof.
  intros H. expand3. rewrite ?pow_opp, ?pow1.
  destruct (Nat.odd a) eqn:Ea; [rewrite (m1_odd a Ea), (zero_odd a Ea); ring|].
  destruct (Nat.odd b) eqn:Eb; [rewrite (m1_odd b Eb), (zero_odd b Eb); ring|].
  cbn [orb] in H. rewrite (m1_odd c H), (zero_odd c H); ring.
Qed.

Lemma even_cases a : (a <= 11)%nat -> Nat.even a = true -> exists m, (a = 2 * m)%nat /\ (m <= 5)%nat.
Proof. intros H E. apply Nat.even_spec in E. destruct E as [m ->]. exists m. split; [reflexivity|lia]. Qed.

Ltac rat_case :=
  unfold qavg, sumR, rat3; cbn [concat repeat app map fold_right fst snd mono pow];
  unfold sphere_avg; cbn [Nat.mul Nat.add Nat.even andb dfact]; rewrite ?INR_IZR_INZ; cbn [Z.of_nat Pos.of_succ_nat Pos.succ];
  first [lra | field].

Lemma quad3_even a b c : (a + b + c <= 5)%nat -> qavg quad3 (mono (2*a) (2*b) (2*c)) = sphere_avg (2*a) (2*b) (2*c).
Proof.
  intros H. rewrite qavg_even, quad3_sq.
  assert (Ha : (a <= 5)%nat) by lia. assert (Hb : (b <= 5)%nat) by lia. assert (Hc : (c <= 5)%nat) by lia.
  destruct a as [|[|[|[|[|[|]]]]]]; try lia; destruct b as [|[|[|[|[|[|]]]]]]; try lia; destruct c as [|[|[|[|[|[|]]]]]]; try lia;
    clear; rat_case.
Qed.

Lemma quad3_exact a b c : (a + b + c <= 11)%nat -> qavg quad3 (mono a b c) = sphere_avg a b c.
Proof.
  intros H. destruct (Nat.odd a || Nat.odd b || Nat.odd c) eqn:E.
  - rewrite quad3_odd by exact E. unfold sphere_avg.
    destruct (Nat.even a && Nat.even b && Nat.even c) eqn:E2; [|reflexivity]. exfalso.
    rewrite <- !Nat.negb_even in E. destruct (Nat.even a), (Nat.even b), (Nat.even c); discriminate.
  - rewrite <- !Nat.negb_even in E.
    destruct (Nat.even a) eqn:Ea; [|discriminate]. destruct (Nat.even b) eqn:Eb; [|discriminate]. destruct (Nat.even c) eqn:Ec; [|discriminate].
    apply Nat.even_spec in Ea, Eb, Ec. destruct Ea as [m ->], Eb as [n ->], Ec as [p ->].
    apply quad3_even. lia.
Qed.
