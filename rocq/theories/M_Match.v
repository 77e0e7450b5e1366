(** Model of the objective of material-grids-match-epsilon-file: match_eps_func (mpb/material_grid.c). *)
From Coq Require Import List ZArith Reals Bool.
From Verif Require Import Base RC M_Tensor M_Evect M_Grid M_Op M_Interp M_Matgrid M_Fld M_Half.
Import ListNotations.
Local Open Scope Z_scope.

(** What the geometry tree finds at a point (material_grid.c 318-340, tree search in libctl,
    not modelled): the rule and the ends of the grid material, the overlapping grids and the
    default grid as in [addgradient_point]; no grids if the material there is not a grid. *)
Record found := { f_kind : kind; f_lo : R; f_hi : R; f_over : list (vec * nat); f_dflt : option (vec * nat) }.

(** What match_eps_func uses besides the parameters: grid sizes, lattice sizes, the values read
    from the file with their sizes, the grids, and the tree. *)
Record mproblem := { q_n1 : Z; q_n2 : Z; q_n3 : Z; q_sx : R; q_sy : R; q_sz : R;
  q_eps : list R; q_ex : Z; q_ey : Z; q_ez : Z; q_grids : list mgrid; q_tree : vec -> found }.

(** 924-927, 955-958: the value in the file at a grid point. *)
Definition file_value (q : mproblem) (i j k : Z) : outcome R :=
  let! x := fdiv (IZR i + / 2) (IZR (q_n1 q)) in
  let! y := fdiv (IZR j + / 2) (IZR (q_n2 q)) in
  let! z := fdiv (IZR k + / 2) (IZR (q_n3 q)) in
  linear_interpolate x y z (q_eps q) (q_ex q) (q_ey q) (q_ez q) 1.

(** 931-935, 961-969: the gradient's share of a grid point, if a gradient is wanted. *)
Definition point_gradient (q : mproblem) (gs : list mgrid) (want : bool) (i j k : Z) (scalegrad : R) (work : list R) : outcome (list R) :=
  if want then
    let! p := grid_point (q_sx q) (q_sy q) (q_sz q) (q_n1 q) (q_n2 q) (q_n3 q) i j k in
    let f := q_tree q p in
    addgradient_point (f_kind f) (f_lo f) (f_hi f) gs (f_over f) (f_dflt f) scalegrad work
  else Val work.

(** 849-974: the loop of one process; [loop] is the loop of the build, [real] tells
    whether it is one with half-stored grids, [mean] is mean_medium_from_matrix of the tensors
    that reset_epsilon has stored for the grids [gs] (823), by index. *)
Definition match_loop (q : mproblem) (gs : list mgrid) (want real : bool) (scaleby : R) (loop : list (Z * Z * Z * Z)) (mean : list mgrid -> Z -> R) (work : list R) : outcome (R * list R) :=
  run (fun pt s =>
    let '(i2, j2, k2, index) := pt in
    let '(val, work) := s in
    let epsilon := mean gs index in
    let! eps0 := file_value q i2 j2 k2 in
    let val := (val + (epsilon - eps0) * (epsilon - eps0))%R in
    let scalegrad := (2 * scaleby * (epsilon - eps0))%R in
    let! work := point_gradient q gs want i2 j2 k2 scalegrad work in
    if real && twice_at (q_n1 q) (q_n2 q) (q_n3 q) (i2, j2, k2) then
      let '(i1c, i2c, i3c) := (back (q_n1 q) i2, back (q_n2 q) j2, back (q_n3 q) k2) in
      let! eps0 := file_value q i1c i2c i3c in
      let val := (val + (epsilon - eps0) * (epsilon - eps0))%R in
      let! work := point_gradient q gs want i1c i2c i3c scalegrad work in
      Val (val, work)
    else Val (val, work)) loop (0%R, work).

(** 975-982: sums over the processes. *)
Definition add_lists (a b : list R) : list R := map (fun p => fst p + snd p)%R (List.combine a b).
Definition sum_lists (n : nat) (ls : list (list R)) : list R := fold_right add_lists (repeat 0%R n) ls.

(** 807-985; [parts] has for each process its loop and its tensors.  All processes have the
    parameters u; the CHECK of the number of parameters is elsewhere (n is the length of u).
    The printed line (983) and the counter of calls are not modelled. *)
Definition match_eps_func (q : mproblem) (real want : bool) (parts : list (list (Z * Z * Z * Z) * (list mgrid -> Z -> R))) (u : list R) : outcome (R * list R) :=
  let! scaleby := fdiv 1 (IZR (q_n1 q * q_n2 q * q_n3 q)) in
  let! gs := grids_set u (q_grids q) in
  let! rs := mapM (fun p => match_loop q gs want real scaleby (fst p) (snd p) (repeat 0%R (length u))) parts in
  Val (fold_right (fun r a => fst r * scaleby + a)%R 0%R rs, sum_lists (length u) (map snd rs)).
