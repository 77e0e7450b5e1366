(** Model of the sums over a half-stored grid: get_epsilon (mpb/epsilon.c), the integrals
    compute_field_integral (mpb/fields.c) and integrate_fieldL (mpb/field-smob.c), and
    material_grids_addgradient (mpb/material_grid.c). *)
From Coq Require Import List ZArith Reals Bool.
From Verif Require Import Base RC M_Tensor M_Evect M_Grid M_Op M_Fld.
Import ListNotations.
Local Open Scope Z_scope.

(* ------------------------------------------------------------------ *)
(** * get_epsilon *)

(** What epsilon.c 487-492 prints: least and largest value, mean, harmonic mean, share of
    points above 1.0001 and "fill", both in percent. *)
Record estat := { s_low : R; s_high : R; s_mean : R; s_harm : R; s_above : R; s_fill : R }.

(** epsilon.c 442-474: one process's array and its low, high, sum, sum of inverses, count.
    [twice] is the test at 467, see [twice_real], [twice_mpi2].  The case eps_inv == NULL
    (443-444) is not modelled. *)
Definition epsilon_sums (eigs : sym -> R * R * R) (d : mdata) (twice : Z -> bool) : outcome (list R * (R * R * R * R * Z)) :=
  forZ 0 (d_out d) (fun i s =>
    let '(es, (low, high, mean, inv, fill)) := s in
    let! m := rd (d_eps_inv d) i in
    let! e := mean_medium eigs m in
    let low := if Rltb e low then e else low in
    let high := if Rltb high e then e else high in
    let! q := fdiv 1 e in
    let n := if Rltb (10001 / 10000) e then 1 else 0 in
    let '(mean, inv, fill) := (mean + e, inv + q, (fill + n)%Z)%R in
    let '(mean, inv, fill) := if twice i then (mean + e, inv + q, (fill + n)%Z)%R else (mean, inv, fill) in
    Val (es ++ [e], (low, high, mean, inv, fill)))
  ([], (10 ^ 20, - 10 ^ 20, 0, 0, 0%Z)%R).

(** epsilon.c 476-493: the reductions over the processes and the printed numbers. *)
Definition epsilon_report (nx ny nz : Z) (parts : list (R * R * R * R * Z)) : outcome estat :=
  let low := fold_right (fun p a => let '(l, _, _, _, _) := p in Rmin l a) (10 ^ 20)%R parts in
  let high := fold_right (fun p a => let '(_, h, _, _, _) := p in Rmax h a) (- 10 ^ 20)%R parts in
  let mean := fold_right (fun p a => let '(_, _, m, _, _) := p in (m + a)%R) 0%R parts in
  let inv := fold_right (fun p a => let '(_, _, _, v, _) := p in (v + a)%R) 0%R parts in
  let fill := fold_right (fun p a => let '(_, _, _, _, f) := p in f + a) 0 parts in
  let N := IZR (nx * ny * nz) in
  let! mean := fdiv mean N in
  let! harm := fdiv N inv in
  let! above := fdiv (100 * IZR fill) N in
  let! pct := (if Reqb high low then Val 100%R else fdiv (100 * (mean - low)) (high - low)) in
  Val {| s_low := low; s_high := high; s_mean := mean; s_harm := harm; s_above := above; s_fill := pct |}.

(* ------------------------------------------------------------------ *)
(** * Integrals *)

(** field-smob.c 571-581: the test with the counters of its own loops (456-535): j is the
    coordinate of the halved dimension in serial builds, j2 or k2 in parallel ones. *)
Definition last_coord (n2 n3 : Z) (c : Z * Z * Z) : Z :=
  let '(i1, i2, i3) := c in if n3 =? 1 then (if n2 =? 1 then i1 else i2) else i3.
Definition twice_at (n1 n2 n3 : Z) (c : Z * Z * Z) : bool :=
  let l := last_coord n2 n3 c in negb (l =? 0) && negb (2 * l =? last_dim n1 n2 n3).

(** field-smob.c 583-585, fields.c 1462-1464, material_grid.c 441-443. *)
Definition back (n i : Z) : Z := if i =? 0 then 0 else n - i.

(** A field object (field-smob.h 32-43) and its value at a point, as handed to the user's function. *)
Inductive fsmob := RS (f : list R) | CS (f : list C) | CV (f : list C).
Inductive item := IR (x : R) | IC (z : C) | IV (a b c : C).

(** field-smob.c 547-562. *)
Definition item_at (fs : fsmob) (idx : Z) : outcome item :=
  match fs with
  | RS f => let! x := rd f idx in Val (IR x)
  | CS f => let! z := rd f idx in Val (IC z)
  | CV f => let! a := rd f (3 * idx) in let! b := rd f (3 * idx + 1) in let! c := rd f (3 * idx + 2) in Val (IV a b c)
  end.
(** field-smob.c 590-608: at the mirrored point. *)
Definition item_back (fs : fsmob) (idx : Z) : outcome item :=
  let! x := item_at fs idx in
  Val (match x with IV a b c => IV (Cconj a) (Cconj b) (Cconj c) | x => x end).

(** field-smob.c 405-631, for conforming fields of grid n1 x n2 x n3; [loop] is the loop of the
    build (456-535), [twice] its test, none in complex builds; [f] the user's function.  One
    process's share; the sum over processes (625-630) is left to the caller. *)
Definition integrate_fieldL (loop : list (Z * Z * Z * Z)) (twice : Z * Z * Z -> bool) (n1 n2 n3 : Z) (sx sy sz Vol : R)
    (f : vec -> list item -> C) (fields : list fsmob) : outcome C :=
  let! sum := run (fun pt sum =>
    let '(i1, i2, i3, idx) := pt in
    let! p := grid_point sx sy sz n1 n2 n3 i1 i2 i3 in
    let! args := mapM (fun fs => item_at fs idx) fields in
    let sum := (sum + f p args)%C in
    if twice (i1, i2, i3) then
      let! p := grid_point sx sy sz n1 n2 n3 (back n1 i1) (back n2 i2) (back n3 i3) in
      let! args := mapM (fun fs => item_back fs idx) fields in
      Val (sum + f p args)%C
    else Val sum) loop (0, 0)%R in
  let! q := fdiv Vol (IZR (n1 * n2 * n3)) in
  Val (Cscal q sum).

(** fields.c 1427-1431, 1486-1494: the phase at p; PI for the decimal constant. *)
Definition phase_at (k : vec) (sx sy sz : R) (p : vec) : outcome C :=
  let '(k1, k2, k3) := k in let '(x, y, z) := p in
  let! a := fdiv x sx in let! b := fdiv y sy in let! c := fdiv z sz in
  let phi := (2 * PI * (k1 * a + k2 * b + k3 * c))%R in
  Val (cos phi, sin phi).

(** fields.c 1371-1526 for a vector field; energies are the case of [integrate_fieldL] with one
    real field, epsilon being a real field as well.  [twice] is the test 1449-1460. *)
Definition field_integral (loop : list (Z * Z * Z * Z)) (twice : Z * Z * Z * Z -> bool) (n1 n2 n3 : Z) (sx sy sz Vol HN : R) (k : vec)
    (f : C * C * C -> R -> vec -> C) (field : list C) (epsilon : list R) : outcome C :=
  let! sum := run (fun pt sum =>
    let '(i1, i2, i3, idx) := pt in
    let! e := rd epsilon idx in
    let! p := grid_point sx sy sz n1 n2 n3 i1 i2 i3 in
    let! a := rd field (3 * idx) in let! b := rd field (3 * idx + 1) in let! c := rd field (3 * idx + 2) in
    let! ph := phase_at k sx sy sz p in
    let sum := (sum + f (a * ph, b * ph, c * ph) e p)%C in
    if twice pt then
      let! p := grid_point sx sy sz n1 n2 n3 (back n1 i1) (back n2 i2) (back n3 i3) in
      let! ph := phase_at k sx sy sz p in
      Val (sum + f (Cconj a * ph, Cconj b * ph, Cconj c * ph) e p)%C
    else Val sum) loop (0, 0)%R in
  let! q := fdiv Vol HN in
  Val (Cscal q sum).

(** material_grid.c 386-455 after the preparation of Esqr and scalegrad; [point] is
    material_grids_addgradient_point, [twice] the test 428-439. *)
Definition addgradient {V} (loop : list (Z * Z * Z * Z)) (twice : Z * Z * Z * Z -> bool) (n1 n2 n3 : Z) (sx sy sz : R)
    (point : vec -> R -> V -> outcome V) (Esqr : list R) (scalegrad : R) (v : V) : outcome V :=
  run (fun pt v =>
    let '(i1, i2, i3, idx) := pt in
    let! p := grid_point sx sy sz n1 n2 n3 i1 i2 i3 in
    let! e := rd Esqr idx in
    let! v := point p (e * scalegrad)%R v in
    if twice pt then
      let! p := grid_point sx sy sz n1 n2 n3 (back n1 i1) (back n2 i2) (back n3 i3) in
      point p (e * scalegrad)%R v
    else Val v) loop v.
