(** Model of the band functions of a run: mpb.scm.in run-parity (611-653), the
    combinators apply-band-func-thunk .. output-at-kpoint (792-825), and the calls of
    randomize_fields and the k-point counter of mpb.c (294-319, 826) that they reach.

    Procedures are represented by the way they were built.  The state is the variables
    current-k (mpb.scm.in 603), kpoint_index (mpb.c 258) and the eigenvectors H
    (mpb.c 243) together with whatever else the external procedures read or write; the
    log is the sequence of calls made.  Guile's map on one list calls its procedure
    from left to right. *)
From Coq Require Import Reals List ZArith Bool.
From Verif Require Import Base RC M_Scheme.
Import ListNotations.
Local Open Scope R_scope.

Section Band.
(** K: k vectors; O: lists of geometric objects; F: the memory of the C side; S:
    strings. *)
Context {K O F S : Type}.

(** A procedure given to run or to a combinator: a procedure of no arguments, of one
    argument (the user's or the library's, told apart by a number), the procedure
    randomize-fields (176), and what output-dpwr-in-objects (804-813),
    combine-band-functions (816-818) and output-at-kpoint (821-825) return.
    Procedures requiring two arguments or more are not represented. *)
Inductive bfun :=
| Thunk (n : nat)
| Band (n : nat)
| Randomize
| InObjects (g : bfun) (min_energy : R) (objects : O)
| Combine (fs : list bfun)
| AtKpoint (kpoint : K) (fs : list bfun).

(** What the external procedures do to the memory: init-params, load-eigenvectors,
    output-epsilon, using-mu?, output-mu, solve-kpoint, randomize-fields, the user's
    procedures; the energy found by get-dfield, compute-field-energy and
    compute-energy-in-object-list for a band, which use work arrays only (fields.c
    59-1300; the work arrays are not part of [F]).  [near k q] is vector3-close? of
    libctl with tolerance 1e-8 |q|. *)
Record ext := mkExt {
  x_init : Z -> bool -> F -> F;
  x_load : S -> F -> F;
  x_mu : F -> bool;
  x_solve : K -> F -> F;
  x_rand : F -> F;
  x_thunk : nat -> F -> F;
  x_band : nat -> Z -> F -> F;
  x_energy : O -> Z -> F -> R;
  x_near : K -> K -> bool }.

(** A call, with the k-point counter and current-k when it is made, and the memory it
    finds. *)
Inductive call := CThunk (n : nat) | CBand (n : nat) (b : Z) | CRand | CDpwr (b : Z) (objects : O).
Inductive event :=
| EInit (p : Z) (reset : bool)
| ELoad (s : S)
| EEps
| EMu
| ESolve (index : Z) (k : K)
| ECall (index : Z) (k : option K) (f : F) (c : call).

(** [w_k] is [None] before a first assignment by a run (the vector3 of line 603). *)
Record world := mkW { w_k : option K; w_index : Z; w_f : F; w_log : list event }.

Variable x : ext.

(** One call of an external procedure from a band function: the effect and its record. *)
Definition note (c : call) (eff : F -> F) (w : world) : world :=
  mkW (w_k w) (w_index w) (eff (w_f w)) (w_log w ++ [ECall (w_index w) (w_k w) (w_f w) c]).

(** procedure-num-args, mpb.scm.in 25-29: the lambdas of 805, 817 and 823 take one
    argument. *)
Definition num_args (g : bfun) : Z := match g with Thunk _ => 0 | Randomize => 0 | _ => 1 end.

(** Calling a procedure of no arguments; randomize_fields is mpb.c 294-305. *)
Definition call0 (g : bfun) (w : world) : world :=
  match g with
  | Thunk n => note (CThunk n) (x_thunk x n) w
  | Randomize => note CRand (x_rand x) w
  | _ => w
  end.

(** apply-band-func, mpb.scm.in 792-797, with the bodies of the procedures that the
    combinators return: output-dpwr-in-objects 805-813, combine-band-functions
    817-818, output-at-kpoint 822-825.  In each the call of a procedure of no
    arguments is made for band 1 only (797). *)
Fixpoint apply_band_func (g : bfun) (b : Z) (w : world) : world :=
  if (num_args g =? 0)%Z then (if (b =? 1)%Z then call0 g w else w)
  else
    match g with
    | Band n => note (CBand n b) (x_band x n b) w
    | InObjects g' e o =>
        let energy := x_energy x o b (w_f w) in
        let w := note (CDpwr b o) (fun f => f) w in
        if Rleb e energy then apply_band_func g' b w else w
    | Combine fs => fold_left (fun w f => apply_band_func f b w) fs w
    | AtKpoint q fs =>
        if match w_k w with Some k => x_near x k q | None => false end
        then fold_left (fun w f => apply_band_func f b w) fs w
        else w
    | _ => w
    end.

(** The bands 1 .. num-bands of the do loop of line 642. *)
Definition bands (num_bands : Z) : list Z := map Z.of_nat (seq 1 (Z.to_nat num_bands)).

(** The inner lambda of run-parity, mpb.scm.in 639-643. *)
Definition run_func (num_bands : Z) (g : bfun) (w : world) : world :=
  if (num_args g =? 0)%Z then call0 g w
  else fold_left (fun w b => apply_band_func g b w) (bands num_bands) w.

(** The outer lambda of run-parity, mpb.scm.in 630-644, with the counter of
    solve_kpoint (mpb.c 826).  The variables that C26 models are left out. *)
Definition run_k (num_bands : Z) (gs : list bfun) (w : world) (k : K) : world :=
  let i := (w_index w + 1)%Z in
  let w := mkW (Some k) i (x_solve x k (w_f w)) (w_log w ++ [ESolve i k]) in
  fold_left (fun w g => run_func num_bands g w) gs w.

(** (member randomize-fields band-functions), mpb.scm.in 613. *)
Definition is_rand (g : bfun) : bool := match g with Randomize => true | _ => false end.

(** The third argument of run-parity: false, true or a file name. *)
Inductive resetf := RNo | RYes | RFile (s : S).

(** run-parity, mpb.scm.in 611-653, without the variables that C26 models (all-freqs,
    band-range-data, gap-list), the iteration counts and the timing.  init-params
    leaves the k-point counter 0 (mpb.c 368); it is then set to the start of the block
    (624). *)
Definition run_bands (randomize : bool) (k_points : list K) (k_split_num k_split_index num_bands : Z)
    (p : Z) (reset : resetf) (gs : list bfun) (w : world) : world :=
  let gs := if randomize && negb (existsb is_rand gs) then Randomize :: gs else gs in
  let r := match reset with RNo => false | _ => true end in
  let w := mkW (w_k w) 0 (x_init x p r (w_f w)) (w_log w ++ [EInit p r]) in
  let w := match reset with
           | RFile s => mkW (w_k w) (w_index w) (x_load x s (w_f w)) (w_log w ++ [ELoad s])
           | _ => w
           end in
  let '(start, ks) := list_split k_points k_split_num k_split_index in
  let w := mkW (w_k w) start (w_f w) (w_log w) in
  let w := if (start =? 0)%Z
           then mkW (w_k w) (w_index w) (w_f w)
                    (w_log w ++ EEps :: (if x_mu x (w_f w) then [EMu] else []))
           else w in
  if (0 <? num_bands)%Z then fold_left (run_k num_bands gs) ks w else w.
End Band.

Arguments bfun : clear implicits.
Arguments ext : clear implicits.
Arguments event : clear implicits.
Arguments world : clear implicits.
Arguments resetf : clear implicits.
