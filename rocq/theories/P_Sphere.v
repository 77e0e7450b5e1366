(** Property C06: the quadrature rules used to find interface normals. *)
From Coq Require Import Reals Lra Lia List Bool ZArith Permutation.
From Verif Require Import Base RC M_Tensor S_Tensor M_Sphere S_Sphere L_Sphere L_Sphere2.
Import ListNotations.
Local Open Scope R_scope.

(** The 50-point table averages every monomial of degree at most 11 exactly, whatever
    the order the points are sorted into. *)
Theorem C06_exact_to_degree_11 : forall flt a b c, (a + b + c <= 11)%nat ->
  qavg (sphere_quad flt 3) (mono a b c) = sphere_avg a b c.
Proof.
  intros flt a b c H. rewrite <- (qavg_perm quad3 (sphere_quad flt 3) _ (sort_perm flt quad3)). exact (quad3_exact a b c H).
Qed.
Print Assumptions C06_exact_to_degree_11.

(** All odd moments vanish, of any degree. *)
Theorem C06_odd_moments_vanish : forall flt a b c, Nat.odd a || Nat.odd b || Nat.odd c = true ->
  qavg (sphere_quad flt 3) (mono a b c) = 0.
Proof.
  intros flt a b c H. rewrite <- (qavg_perm quad3 (sphere_quad flt 3) _ (sort_perm flt quad3)). exact (quad3_odd a b c H).
Qed.
Print Assumptions C06_odd_moments_vanish.

(** In one, two and three dimensions: all points lie on the unit sphere and have
    positive weights; the weights sum to one; first moments vanish; second moments are
    the identity on the first [rank] directions divided by [rank]. *)
Theorem C06_tables : forall flt rank, (1 <= rank <= 3)%nat ->
  let q := sphere_quad flt rank in
  (forall p w, In (p, w) q -> on_sphere p 1 /\ 0 < w) /\
  qavg q (mono 0 0 0) = 1 /\
  qavg q (mono 1 0 0) = 0 /\ qavg q (mono 0 1 0) = 0 /\ qavg q (mono 0 0 1) = 0 /\
  qavg q (mono 1 1 0) = 0 /\ qavg q (mono 1 0 1) = 0 /\ qavg q (mono 0 1 1) = 0 /\
  qavg q (mono 2 0 0) = / INR rank /\
  qavg q (mono 0 2 0) = (if (2 <=? rank)%nat then / INR rank else 0) /\
  qavg q (mono 0 0 2) = (if (3 <=? rank)%nat then / INR rank else 0).
Proof. intros flt rank H. destruct (table_moments flt rank H) as (A & _ & B). split; [exact A|exact B]. Qed.
Print Assumptions C06_tables.

(** Sorting only reorders the points. *)
Theorem C06_sort_permutes : forall flt l, Permutation l (sort_by_distance flt l).
Proof. exact sort_perm. Qed.
Print Assumptions C06_sort_permutes.

(** The moment mesh built for any grid and nondegenerate lattice passes all of its own
    checks, and the interface normal computed at a grid point around which the trace of
    the dielectric tensor varies linearly is a positive multiple of the gradient (of its
    part in the first [rank] Cartesian directions); for a constant trace it is zero. *)
Theorem C06_normal_along_gradient : forall flt n Rl G, dual Rl G ->
  (let '(n1, n2, n3) := n in (1 <= n1 /\ 1 <= n2 /\ 1 <= n3)%Z) ->
  exists mm rad, get_moment_mesh flt n Rl G = Val mm /\ 0 < rad /\
    forall (epsilon : eps_fun) r t0 g,
      (forall q, on_sphere (cart Rl (vsub q r)) rad ->
         trace (fst (epsilon q)) = t0 + dot g (cart Rl (vsub q r))) ->
      moment mm Rl epsilon r = smul (rad * rad / INR (rank_of n)) (first_dirs (rank_of n) g).
Proof. intros flt n Rl G HG Hn. exact (mesh_moment flt n Rl G HG Hn). Qed.
Print Assumptions C06_normal_along_gradient.

(** Non-vacuity: a nonorthogonal lattice with its dual. *)
Example C06_example : dual
  (fun i j => match i, j with O, O => 1 | S O, O => 1/2 | S O, S O => 2 | S (S O), S (S O) => 3 | _, _ => 0 end)
  (fun i j => match i, j with O, O => 1 | O, S O => -1/4 | S O, S O => 1/2 | S (S O), S (S O) => 1/3 | _, _ => 0 end).
Proof.
  intros a b Ha Hb. destruct a as [|[|[|]]]; try lia; destruct b as [|[|[|]]]; try lia; cbn; lra.
Qed.
Example C06_example_value : sphere_avg 4 2 0 = 1/35.
Proof. unfold sphere_avg. cbn [Nat.even andb Nat.add dfact]. rewrite ?INR_IZR_INZ. cbn. lra. Qed.
