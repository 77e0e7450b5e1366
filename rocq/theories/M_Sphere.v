(** Model of src/util/sphere-quad.c (the generated quadrature tables) and of
    get_moment_mesh, src/maxwell/maxwell_eps.c 337-400.  Exact real arithmetic; the
    decimal printing of the generated header is not modelled. *)
From Coq Require Import Reals List Bool ZArith.
From Verif Require Import Base RC M_Tensor.
Import ListNotations.
Local Open Scope R_scope.

(** SHIFT3, sphere-quad.c 26. *)
Definition shift3 (p : vec) : vec := let '(x, y, z) := p in (z, x, y).
Definition negx (p : vec) : vec := let '(x, y, z) := p in (- x, y, z).
Definition negy (p : vec) : vec := let '(x, y, z) := p in (x, - y, z).
Definition negz (p : vec) : vec := let '(x, y, z) := p in (x, y, - z).

(** [for (i = 0; i < n; ++i)] with the point (x0,y0,z0) as state, collecting the
    emitted points. *)
Fixpoint rep (n : nat) (body : vec -> list vec * vec) (p : vec) : list vec * vec :=
  match n with
  | O => ([], p)
  | S n' => let '(l, p') := body p in let '(l', p'') := rep n' body p' in (l ++ l', p'')
  end.
Definition emit (p : vec) : list vec * vec := ([p], p).

(** The four classes of the 50-point formula, sphere-quad.c 63-71, 73-84, 86-97, 99-112. *)
Definition class1 : list vec :=
  fst (rep 2 (fun p => rep 3 (fun p => emit (shift3 p)) (negx p)) (1, 0, 0)).
Definition class2 : list vec :=
  fst (rep 2 (fun p => rep 2 (fun p => rep 3 (fun p => emit (shift3 p)) (negy p)) (negx p))
         (sqrt (1/2), sqrt (1/2), 0)).
Definition class3 : list vec :=
  fst (rep 2 (fun p => rep 2 (fun p => rep 2 (fun p => emit (negz p)) (negy p)) (negx p))
         (sqrt (1/3), sqrt (1/3), sqrt (1/3))).
Definition class4 : list vec :=
  fst (rep 2 (fun p => rep 2 (fun p => rep 2 (fun p => rep 3 (fun p => emit (shift3 p)) (negz p)) (negy p)) (negx p))
         (sqrt (1/11), sqrt (1/11), 3 * sqrt (1/11))).

(** spherical_quadrature_points(..., 50), sphere-quad.c 41-113.  The 12- and 72-point
    formulas are not used by the program and not modelled. *)
Definition quad3 : list (vec * R) :=
  map (fun p => (p, 9216 / 725760)) class1 ++ map (fun p => (p, 16384 / 725760)) class2 ++
  map (fun p => (p, 15309 / 725760)) class3 ++ map (fun p => (p, 14641 / 725760)) class4.

(** The two-dimensional points, sphere-quad.c 240-252, NQUAD2 = 12; K_PI is taken to
    be pi. *)
Definition quad2_point (i : nat) : vec :=
  if Nat.eqb i 0 then (1, 0, 0)
  else if Nat.eqb (2*i) 12 then (-1, 0, 0)
  else if Nat.eqb (4*i) 12 then (0, 1, 0)
  else if Nat.eqb (4*i) 36 then (0, -1, 0)
  else (cos (2 * INR i * PI / 12), sin (2 * INR i * PI / 12), 0).
Definition quad2 : list (vec * R) := map (fun i => (quad2_point i, 1/12)) (seq 0 12).

(** The one-dimensional table, sphere-quad.c 238. *)
Definition quad1 : list (vec * R) := [((1, 0, 0), 1/2); ((-1, 0, 0), 1/2)].

(** dist2 and min2, sphere-quad.c 184-189. *)
Definition dist2 (p q : vec) : R :=
  let '(x1, y1, z1) := p in let '(x2, y2, z2) := q in
  (x1-x2)*(x1-x2) + (y1-y2)*(y1-y2) + (z1-z2)*(z1-z2).
Definition min2 (a b : R) : R := if Rltb a b then a else b.

Definition dummy_pt : vec * R := ((0, 0, 0), 0).

(** The scan for jmax, sphere-quad.c 197-212; [flt] is rounding to float. *)
Definition jmax_of (flt : R -> R) (l : list (vec * R)) (i : nat) : nat :=
  let pt k := fst (nth k l dummy_pt) in
  snd (fold_left (fun st j =>
      let '((d2max, d2maxsum), jmax) := st in
      let '(d2min, d2sum) :=
        fold_left (fun ms k =>
          let d2 := flt (dist2 (pt k) (pt j)) in
          (min2 (fst ms) d2, snd ms + d2)) (seq 0 i) (100000000000000000000, 0) in
      if Rltb d2max d2min || (Reqb d2min d2max && Rltb d2maxsum d2sum)
      then ((d2min, d2sum), j) else st)
    (seq i (length l - i)) ((0, 0), i)).
(** The exchange of entries i and jmax, sphere-quad.c 213-215. *)
Definition swap (l : list (vec * R)) (i j : nat) : list (vec * R) :=
  upd_nat (upd_nat l i (nth j l dummy_pt)) j (nth i l dummy_pt).
(** sort_by_distance, sphere-quad.c 192-217. *)
Definition sort_by_distance (flt : R -> R) (l : list (vec * R)) : list (vec * R) :=
  fold_left (fun l i => swap l i (jmax_of flt l i)) (seq 1 (length l - 1)) l.

(** The generated table sphere_quad[rank-1], sphere-quad.c main 222-275. *)
Definition sphere_quad (flt : R -> R) (rank : nat) : list (vec * R) :=
  match rank with
  | 3%nat => sort_by_distance flt quad3
  | 2%nat => sort_by_distance flt quad2
  | _ => quad1
  end.

(** MOMENT_MESH_R_1D, _2D, _3D, maxwell_eps.c 301-303 and 348-349. *)
Definition moment_mesh_r (rank : nat) : R :=
  match rank with
  | 3%nat => 8660254037844386 / 10000000000000000
  | 2%nat => 7071067811865475 / 10000000000000000
  | _ => 1/2
  end.

Definition scale3 (c : R) (p : vec) : vec := let '(x, y, z) := p in (x * c, y * c, z * c).

(** Largest grid spacing along the lattice directions, maxwell_eps.c 370-374. *)
Fixpoint max_diam (Rl : mat3) (ns : list Z) (i : nat) (acc : R) : outcome R :=
  match ns with
  | [] => Val acc
  | n :: ns' =>
      let! ri := fdiv (sqrt (Rl i 0%nat * Rl i 0%nat + Rl i 1%nat * Rl i 1%nat + Rl i 2%nat * Rl i 2%nat)) (IZR n) in
      max_diam Rl ns' (S i) (if Rltb ri acc then acc else ri)
  end.

(** get_moment_mesh, maxwell_eps.c 337-400: the list holds (moment_mesh[i],
    moment_mesh_weights[i]) at return. *)
Definition get_moment_mesh (flt : R -> R) (n : Z * Z * Z) (Rl G : mat3) : outcome (list (vec * R)) :=
  let rank := rank_of n in
  let r := moment_mesh_r rank in
  let mm := map (fun pw => (scale3 r (fst pw), snd pw)) (sphere_quad flt rank) in            (* 351-356 *)
  let! _ := check (length mm <=? 50)%nat in                                                   (* 358 *)
  let wsum := fold_left (fun a pw => a + snd pw) mm 0 in
  let! _ := check (Rltb (Rabs (wsum - 1)) SMALL) in                                           (* 360-362 *)
  let '(n1, n2, n3) := n in
  let! d := max_diam Rl (firstn rank [n1; n2; n3]) 0 0 in
  let mm := map (fun pw => (scale3 d (fst pw), snd pw)) mm in                                 (* 377-386 *)
  let! _ := check (forallb (fun pw => let '(x, y, z) := fst pw in
                       Rltb (Rabs (x*x + y*y + z*z - d*d*(r*r))) SMALL) mm) in
  let '(t0, t1, t2) := fold_left (fun a pw =>
      let '(a0, a1, a2) := a in let '(x, y, z) := fst pw in (a0 + x, a1 + y, a2 + z)) mm (0, 0, 0) in
  let! _ := check (Rltb (Rabs t0 + Rabs t1 + Rabs t2) SMALL) in                               (* 387-388 *)
  Val (map (fun pw => let '(v0, v1, v2) := fst pw in                                          (* 392-398 *)
      ((G 0%nat 0%nat * v0 + G 0%nat 1%nat * v1 + G 0%nat 2%nat * v2,
        G 1%nat 0%nat * v0 + G 1%nat 1%nat * v1 + G 1%nat 2%nat * v2,
        G 2%nat 0%nat * v0 + G 2%nat 1%nat * v1 + G 2%nat 2%nat * v2), snd pw)) mm).
