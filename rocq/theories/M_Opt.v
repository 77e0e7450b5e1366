(** Model of the gap optimization (material_grid_opt.c). *)
From Coq Require Import List ZArith Reals Bool.
From Verif Require Import Base RC M_Tensor M_Evect M_Grid.
Import ListNotations.
Local Open Scope Z_scope.

(** memset(a, 0, sizeof(double) * n): a negative n becomes a huge unsigned size. *)
Definition memset0 (a : list R) (n : Z) : outcome (list R) :=
  if (0 <=? n) && (n <=? Z.of_nat (length a)) then Val (repeat 0%R (Z.to_nat n) ++ skipn (Z.to_nat n) a) else UB.

(** 217-253 maxgap_func, called with a gradient array; printing is left out, and
    material_grids_set, reset_epsilon and the flag are in [objective] below. *)
Definition maxgap_func (n : Z) (u grad : list R) (do_min : bool) : outcome (R * list R) :=
  let! f1 := rd u (n - 1) in
  let! f2 := rd u (n - 2) in
  let! gap := fdiv ((f2 - f1) * 2) (f1 + f2) in
  let! grad := memset0 grad (n - 2) in
  let! g1 := fdiv (2 * ((f1 + f2) - (f1 - f2))) ((f1 + f2) * (f1 + f2)) in
  let! grad := wr grad (n - 1) g1 in
  let! g2 := fdiv (2 * (- (f1 + f2) - (f1 - f2))) ((f1 + f2) * (f1 + f2)) in
  let! grad := wr grad (n - 2) g2 in
  let! grad := if do_min then
      let! a := rd grad (n - 1) in let! grad := wr grad (n - 1) (- a)%R in
      let! a := rd grad (n - 2) in wr grad (n - 2) (- a)%R
    else Val grad in
  Val ((if do_min then gap else - gap)%R, grad).

(** 156-158. *)
Inductive ckind := BAND1 | BAND2.

(** What the optimizer's callbacks share: the parameters the dielectric function was last
    built from, d->unsolved, cur_kvector and freqs. *)
Record ostate := { o_params : list R; o_unsolved : bool; o_k : vec; o_freqs : list R }.
Definition vec_eqb (a b : vec) : bool :=
  let '(x, y, z) := a in let '(x', y', z') := b in Reqb x x' && Reqb y y' && Reqb z z'.
(** 224-227; the grid parameters are the first n - 2 entries of u. *)
Definition objective (n : Z) (u : list R) (s : ostate) : ostate :=
  {| o_params := firstn (Z.to_nat (n - 2)) u; o_unsolved := true; o_k := o_k s; o_freqs := o_freqs s |}.
(** 185-189; [solve] gives the frequencies of all bands (solve_kpoint, mpb.c 630 and 822-836),
    assumed not to depend on the random starting fields. *)
Definition ensure_solved (solve : list R -> vec -> list R) (k : vec) (s : ostate) : ostate :=
  if negb (vec_eqb (o_k s) k) || o_unsolved s
  then {| o_params := o_params s; o_unsolved := false; o_k := k; o_freqs := solve (o_params s) k |}
  else {| o_params := o_params s; o_unsolved := false; o_k := o_k s; o_freqs := o_freqs s |}.

(** 166-215 band_constraint without gradient: the band's frequency (stored in f1s or f2s) and
    the value of the constraint. *)
Definition band_constraint (solve : list R -> vec -> list R) (b1 b2 : Z) (ks : list vec) (n : Z) (u : list R) (kd : ckind) (ik : Z) (s : ostate)
  : outcome (R * R * ostate) :=
  let! k := rd ks ik in
  let s := ensure_solved solve k s in
  match kd with
  | BAND1 => let! f := rd (o_freqs s) (b1 - 1) in let! m := rd u (n - 1) in Val (f, (f - m)%R, s)
  | BAND2 => let! f := rd (o_freqs s) (b2 - 1) in let! m := rd u (n - 2) in Val (f, (m - f)%R, s)
  end.

(** Sum of arrays over the processes, mpi_allreduce. *)
Fixpoint addv (a b : list R) : list R := match a, b with x :: a, y :: b => (x + y)%R :: addv a b | _, _ => [] end.
Definition reduce (n : nat) (works : list (list R)) : list R := fold_right (fun w acc => addv (firstn n w) acc) (repeat 0%R n) works.
(** material_grids_addgradient: adds the process's part of scale times the derivative of the
    band's frequency to the first entries of work (its parts: M_Matgrid). *)
Definition add_scaled (s : R) (part w : list R) : list R := addv w (map (Rmult s) part ++ repeat 0%R (length w - length part)).
(** 191-213: the gradient of a constraint.  [parts]: for each process its part of the
    derivative of the frequency; [work]: for each process the contents of its work array. *)
Definition constraint_grad (n : Z) (kd : ckind) (parts works : list (list R)) : outcome (list R) :=
  let one pw := let! w := memset0 (snd pw) (n - 2) in Val (add_scaled (match kd with BAND1 => 1 | BAND2 => -1 end)%R (fst pw) w) in
  let! ws := mapM one (List.combine parts works) in
  let g := reduce (Z.to_nat (n - 2)) ws in
  Val (g ++ match kd with BAND1 => [0; -1] | BAND2 => [1; 0] end)%R.

(** 48-87 mindiff_func with a gradient array; here n is the number of parameters.  [p2], [p1]:
    parts of the derivatives of the even and the odd band's frequency.  One process. *)
Definition mindiff_work (n : Z) (p2 p1 work : list R) : outcome (list R) :=
  let! w := memset0 work (n - 2) in
  Val (add_scaled (-1)%R p1 (add_scaled 1%R p2 w)).
Definition mindiff_grad (n : Z) (p2 p1 work : list R) : outcome (list R) :=
  let! w := mindiff_work n p2 p1 work in Val (firstn (Z.to_nat n) w).
(** 98, 64, 73: band check and value. *)
Definition mindiff_value (num_bands band : Z) (even odd : list R) : outcome R :=
  let! _ := check (band <=? num_bands) in
  let! f2 := rd even (band - 1) in let! f1 := rd odd (band - 1) in Val (f2 - f1)%R.

(** 283-302 and 340-351: the largest of the first band's frequencies, from 0, and the smallest
    of the second's, from HUGE_VAL (None). *)
Definition extremes (f1s f2s : list R) : R * option R :=
  fold_left (fun acc f => let '(mx, mn) := acc in
    (if Rltb mx (fst f) then fst f else mx, match mn with None => Some (snd f) | Some m => if Rltb (snd f) m then Some (snd f) else Some m end))
    (List.combine f1s f2s) (0%R, None).
(** 303: the starting values of the two extra variables. *)
Definition initial_edges (f1s f2s : list R) : outcome (R * R) :=
  match extremes f1s f2s with (mx, Some mn) => Val (mx * (1001 / 1000), mn / (1001 / 1000))%R | _ => NonFin end.
(** 353-364: the result. *)
Definition final_gap (do_min : bool) (f1s f2s : list R) : outcome R :=
  match extremes f1s f2s with
  | (mx, Some mn) =>
    let! g := fdiv ((mn - mx) * 2)%R (mx + mn)%R in
    let func_min := if do_min then g else (- g)%R in
    Val (if do_min then func_min else (- func_min)%R)
  | _ => NonFin
  end.
