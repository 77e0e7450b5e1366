(** Property C96: the band functions of a run. *)
From Coq Require Import Reals Lra List ZArith Bool Lia.
From Verif Require Import Base RC M_Scheme M_Band S_Band L_Band L_Band2.
Import ListNotations.
Local Open Scope R_scope.

(** A run first initializes, reads the eigenvectors of a file if one is given, and for
    the first block of k points writes the dielectric function; it then solves the k
    points of its block in order, and after each makes exactly the calls that its band
    functions ask for there, in the order given: procedures of no arguments once,
    others for the bands 1 .. num-bands in turn; every call is made with current-k at
    that k point and the counter at its number in k-points.  The band functions must
    not change the energies found by output-dpwr-in-objects (they may change the phase
    of the fields), and not contain randomize-fields. *)
Theorem C96_calls : forall K O F S (x : ext K O F S) kps num idx nb p reset (gs : list (bfun K O)) w,
  (0 < nb)%Z -> (forall g, In g gs -> no_rand g) ->
  (forall n f o b, x_energy x o b (x_thunk x n f) = x_energy x o b f) ->
  (forall n c f o b, x_energy x o b (x_band x n c f) = x_energy x o b f) ->
  let start := fst (list_split kps num idx) in
  let ks := snd (list_split kps num idx) in
  exists segs, w_log (run_bands x false kps num idx nb p reset gs w) =
      w_log w ++ preamble p reset (start =? 0)%Z (x_mu x (start_mem x p reset (w_f w))) ++ concat segs /\
    length segs = length ks /\
    forall i k, nth_error ks i = Some k -> exists f tl,
      nth_error segs i = Some (ESolve (start + 1 + Z.of_nat i) k :: tl) /\
      calls_of tl = flat_map (at_k (x_near x) (fun o b => x_energy x o b (x_solve x k f)) nb k) gs /\
      during (start + 1 + Z.of_nat i) k (fun f' => forall o b, x_energy x o b f' = x_energy x o b (x_solve x k f)) tl.
Proof. intros K O F S x kps num idx nb p reset gs w. exact (run_calls x kps num idx nb p reset gs w). Qed.

(** The calls that a procedure of one argument asks for at a k point are those due for
    one of the bands. *)
Theorem C96_due : forall K O near en nb k (g : bfun K O) c, (forall n, g <> Thunk n) -> g <> Randomize ->
  (In c (at_k near en nb k g) <-> exists b, (1 <= b <= nb)%Z /\ due near en k b g c).
Proof. intros K O near en nb k g c. exact (at_k_due near en nb k g c). Qed.

(** If the band functions only read the fields, each call finds the fields that the
    solver left for the current k point. *)
Theorem C96_fields : forall K O F S (x : ext K O F S) kps num idx nb p reset (gs : list (bfun K O)) w,
  (0 < nb)%Z -> (forall g, In g gs -> no_rand g) ->
  (forall n f, x_thunk x n f = f) -> (forall n c f, x_band x n c f = f) ->
  let start := fst (list_split kps num idx) in
  let ks := snd (list_split kps num idx) in
  let mem i := fold_left (fun f k => x_solve x k f) (firstn i ks) (start_mem x p reset (w_f w)) in
  exists segs, w_log (run_bands x false kps num idx nb p reset gs w) =
      w_log w ++ preamble p reset (start =? 0)%Z (x_mu x (start_mem x p reset (w_f w))) ++ concat segs /\
    length segs = length ks /\
    forall i k, nth_error ks i = Some k -> exists tl,
      nth_error segs i = Some (ESolve (start + 1 + Z.of_nat i) k :: tl) /\
      calls_of tl = flat_map (at_k (x_near x) (fun o b => x_energy x o b (mem (i + 1)%nat)) nb k) gs /\
      during (start + 1 + Z.of_nat i) k (eq (mem (i + 1)%nat)) tl.
Proof. intros K O F S x kps num idx nb p reset gs w. exact (run_fields x kps num idx nb p reset gs w). Qed.

(** With k-split-num runs, one for each k-split-index, every k point is solved by
    exactly one run, under its number in k-points, whatever the band functions are and
    whether or not randomize-fields? is set. *)
Theorem C96_split : forall K O F S (x : ext K O F S) rnd kps num nb p reset (gs : list (bfun K O)) (w : world K O F S),
  (0 < nb)%Z -> (0 < num)%Z -> w_log w = [] ->
  concat (map (fun i => solves_of (w_log (run_bands x rnd kps num (Z.of_nat i) nb p reset gs w))) (seq 0 (Z.to_nat num))) =
  combine (map Z.of_nat (seq 1 (length kps))) kps.
Proof.
  intros K O F S x rnd kps num nb p reset gs w Hnb Hnum Hw. rewrite <- (split_all kps num Hnum). f_equal.
  apply map_ext. intros i. exact (proj1 (run_solves x rnd kps num (Z.of_nat i) nb p reset gs w Hnb Hw)).
Qed.

(** Exactly one of them, that of index 0, writes the dielectric function. *)
Theorem C96_epsilon : forall K O F S (x : ext K O F S) rnd kps num idx nb p reset (gs : list (bfun K O)) (w : world K O F S),
  (0 < nb)%Z -> (0 <= idx < num)%Z -> kps <> [] -> w_log w = [] ->
  (In EEps (w_log (run_bands x rnd kps num idx nb p reset gs w)) <-> idx = 0%Z).
Proof.
  intros K O F S x rnd kps num idx nb p reset gs w Hnb Hi Hk Hw.
  rewrite (proj2 (run_solves x rnd kps num idx nb p reset gs w Hnb Hw)). apply start_zero; assumption.
Qed.

(* ------------------------------------------------------------ refuted *)

(** The externals of the examples: k points and memories are numbers, solving sets the
    memory to the k point, randomizing to -1. *)
Definition ex_ext (en : unit -> Z -> Z -> R) : ext Z unit Z unit :=
  mkExt (fun _ _ f => f) (fun _ f => f) (fun _ => false) (fun k _ => k) (fun _ => (-1)%Z)
    (fun _ f => f) (fun _ _ f => f) en Z.eqb.
Definition ex_w : world Z unit Z unit := mkW None 0 0%Z [].

(** With randomize-fields? set, run puts randomize-fields in front of the band
    functions, so that it runs after the k point is solved and before they do: they
    find random fields and not those of the solver, though they do not change them. *)
Theorem C96_randomized_refuted : exists (x : ext Z unit Z unit) gs w,
  (forall g, In g gs -> no_rand g) /\ (forall n f, x_thunk x n f = f) /\ (forall n c f, x_band x n c f = f) /\
  exists i k f c, In (ECall i (Some k) f c) (w_log (run_bands x true [5]%Z 1 0 1 0 RYes gs w)) /\
    c = CBand 7 1 /\ forall f0, f <> x_solve x k f0.
Proof.
  exists (ex_ext (fun _ _ _ => 0)), [Band 7], ex_w. split; [intros g [<-|[]]; constructor|].
  split; [reflexivity|]. split; [reflexivity|].
  exists 1%Z, 5%Z, (-1)%Z, (CBand 7 1). split; [|split; [reflexivity|intros f0; discriminate]].
  change (@In (event Z unit Z unit) (ECall 1 (Some 5%Z) (-1)%Z (CBand 7 1))
    [EInit 0 true; EEps; ESolve 1 5%Z; ECall 1 (Some 5%Z) 5%Z CRand; ECall 1 (Some 5%Z) (-1)%Z (@CBand unit 7 1)]).
  cbn. auto 6.
Qed.

(** A procedure of no arguments given to output-dpwr-in-objects is not called at a k
    point where bands have enough energy in the objects, unless band 1 has. *)
Theorem C96_thunk_in_objects_refuted : exists (x : ext Z unit Z unit) w,
  (forall n f, x_thunk x n f = f) /\
  let log := w_log (run_bands x false [5]%Z 1 0 2 0 RYes [InObjects (Thunk 3) (1/5) tt] w) in
  (1/5 <= x_energy x tt 2 5%Z) /\ In (ECall 1 (Some 5%Z) 5%Z (CDpwr 2 tt)) log /\ ~ In (CThunk 3) (calls_of log).
Proof.
  exists (ex_ext (fun _ b _ => if (b =? 2)%Z then 1/2 else 0)), ex_w. split; [reflexivity|]. cbv zeta.
  split; [cbn; lra|].
  set (x := ex_ext _).
  destruct (run_fields x [5]%Z 1 0 2 0 RYes [InObjects (Thunk 3) (1/5) tt] ex_w ltac:(lia)
              ltac:(intros g [<-|[]]; repeat constructor) ltac:(reflexivity) ltac:(reflexivity))
    as (segs & E & L & H).
  destruct (H 0%nat 5%Z eq_refl) as (tl & H1 & H2 & H3).
  destruct segs as [|s [|s' segs]]; try discriminate L. cbn in H1. injection H1 as ->.
  assert (C : calls_of tl = [CDpwr 1 tt; CDpwr 2 tt]).
  { rewrite H2. cbn. change (Pos.to_nat 2) with 2%nat. cbn. destruct (Rle_dec (1/5) 0); [lra|]. destruct (Rle_dec (1/5) (1/2)); [|lra]. reflexivity. }
  rewrite E. cbn [w_log ex_w app concat]. split.
  - apply in_app_iff. right. rewrite app_nil_r. right.
    assert (U : In (CDpwr 2 tt) (calls_of tl)) by (rewrite C; cbn; auto).
    unfold calls_of in U. apply in_flat_map in U. destruct U as (e & He & U).
    destruct (H3 e He) as (f & c & -> & <-). destruct U as [->|[]]. exact He.
  - unfold calls_of. rewrite flat_map_app, app_nil_r. cbn. fold (calls_of tl). rewrite C. cbn. intuition discriminate.
Qed.

(* ------------------------------------------------------------ an example *)

(** Three k points in two blocks, two bands; a procedure of no arguments, one of one
    argument, and one restricted to a k point: the log of each block. *)
Example C96_ex :
  let x := ex_ext (fun _ _ _ => 0) in
  let gs := [Thunk 1; Band 2; AtKpoint 8%Z [Thunk 3; Band 4]] in
  w_log (run_bands x false [7; 8; 9]%Z 2 0 2 0 RYes gs ex_w) =
    [EInit 0 true; EEps;
     ESolve 1 7%Z; ECall 1 (Some 7) 7 (CThunk 1); ECall 1 (Some 7) 7 (CBand 2 1); ECall 1 (Some 7) 7 (CBand 2 2);
     ESolve 2 8%Z; ECall 2 (Some 8) 8 (CThunk 1); ECall 2 (Some 8) 8 (CBand 2 1); ECall 2 (Some 8) 8 (CBand 2 2);
     ECall 2 (Some 8) 8 (CThunk 3); ECall 2 (Some 8) 8 (CBand 4 1); ECall 2 (Some 8) 8 (CBand 4 2)]%Z /\
  w_log (run_bands x false [7; 8; 9]%Z 2 1 2 0 RYes gs ex_w) =
    [EInit 0 true;
     ESolve 3 9%Z; ECall 3 (Some 9) 9 (CThunk 1); ECall 3 (Some 9) 9 (CBand 2 1); ECall 3 (Some 9) 9 (CBand 2 2)]%Z /\
  (forall g, In g gs -> no_rand g) /\
  (forall n f o b, x_energy x o b (x_thunk x n f) = x_energy x o b f).
Proof.
  cbv zeta. split; [reflexivity|]. split; [reflexivity|]. split; [|reflexivity].
  intros g [<-|[<-|[<-|[]]]]; constructor. intros h [<-|[<-|[]]]; constructor.
Qed.

Print Assumptions C96_calls.
Print Assumptions C96_due.
Print Assumptions C96_fields.
Print Assumptions C96_split.
Print Assumptions C96_epsilon.
Print Assumptions C96_randomized_refuted.
Print Assumptions C96_thunk_in_objects_refuted.
