(** Properties C40, C62: gap optimization. *)
From Coq Require Import List ZArith Reals Lra Lia Bool.
From Verif Require Import Base RC M_Tensor M_Evect M_Grid M_Opt S_Opt S_Matgrid L_Matgrid2 L_Opt.
Import ListNotations.
Local Open Scope R_scope.

(* ------------------------------------------------------------------ *)
(** * C40 *)

(** The objective is plus or minus the relative gap, and the gradient returned with it gives
    its derivative in every direction. *)
Theorem C40_objective : forall u grad m, (2 <= length u)%nat -> length grad = length u ->
  nth (length u - 1) u 0 + nth (length u - 2) u 0 <> 0 ->
  exists g, maxgap_func (Z.of_nat (length u)) u grad m = Val (goal m u, g) /\ length g = length u /\
  forall h, length h = length u -> derivable_pt_lim (fun t => goal m (addl t u h)) 0 (dotl g h).
Proof. exact maxgap_ok. Qed.
Print Assumptions C40_objective.

(** The gradient of a constraint, summed over any number of processes, gives the derivative of
    the constraint in every direction, whatever the work arrays held before, provided the
    processes' parts add up to the derivative of the band's frequency. *)
Theorem C40_constraint : forall kd F u parts works, (2 <= length u)%nat ->
  Forall (fun l => length l = (length u - 2)%nat) parts -> length works = length parts -> Forall (fun l => length l = length u) works ->
  (forall h, length h = (length u - 2)%nat -> derivable_pt_lim (fun t => F (addl t (firstn (length u - 2) u) h)) 0 (dotl (vsum (length u - 2) parts) h)) ->
  exists g, constraint_grad (Z.of_nat (length u)) kd parts works = Val g /\ length g = length u /\
  forall h, length h = length u -> derivable_pt_lim (fun t => cval kd F (addl t u h)) 0 (dotl g h).
Proof. exact constraint_grad_ok. Qed.
Print Assumptions C40_constraint.

(** The reported gap is that between the largest first-band and the smallest second-band
    frequency over the k points, with the same sign in both modes. *)
Theorem C40_reported : forall m f1s f2s, length f2s = length f1s -> f1s <> [] -> (forall f, In f f1s -> 0 < f) -> (forall f, In f f2s -> 0 < f) ->
  exists M mn, In M f1s /\ In mn f2s /\ (forall f, In f f1s -> f <= M) /\ (forall f, In f f2s -> mn <= f) /\ final_gap m f1s f2s = Val (rel_gap M mn).
Proof.
  intros m f1s f2s L N P1 P2. destruct (extremes_ok f1s f2s L N P1 P2) as (M & mn & E & A & B & X & Y). exists M, mn.
  split; [exact A|]. split; [exact B|]. split; [exact X|]. split; [exact Y|].
  pose proof (P1 M A). pose proof (P2 mn B). unfold final_gap. rewrite E, fdiv_nz by lra. cbn [bind]. f_equal. unfold rel_gap. destruct m; field; lra.
Qed.
Print Assumptions C40_reported.

(** The starting point satisfies every constraint. *)
Theorem C40_feasible : forall f1s f2s, length f2s = length f1s -> f1s <> [] -> (forall f, In f f1s -> 0 < f) -> (forall f, In f f2s -> 0 < f) ->
  exists e1 e2, initial_edges f1s f2s = Val (e1, e2) /\ (forall f, In f f1s -> f - e1 < 0) /\ (forall f, In f f2s -> e2 - f < 0).
Proof.
  intros f1s f2s L N P1 P2. destruct (extremes_ok f1s f2s L N P1 P2) as (M & mn & E & A & B & X & Y).
  unfold initial_edges. rewrite E. eexists _, _. split; [reflexivity|]. pose proof (P1 M A). pose proof (P2 mn B). split; intros f Hf.
  - specialize (X f Hf). lra.
  - specialize (Y f Hf). assert (mn / (1001 / 1000) < mn) by lra. lra.
Qed.
Print Assumptions C40_feasible.

(** The other objective, the difference of an even and an odd band: its gradient is computed
    in a work array of which the last two entries are never cleared, so that from the second
    evaluation on it includes earlier gradients.  Even starting from a cleared array, two
    evaluations with the same derivatives [p2] and [p1] return different gradients. *)
Theorem C40_difference_refuted : exists n p2 p1 work g1 g2,
  mindiff_work n p2 p1 (repeat 0 (Z.to_nat n)) = Val work /\ mindiff_grad n p2 p1 (repeat 0 (Z.to_nat n)) = Val g1 /\
  mindiff_grad n p2 p1 work = Val g2 /\ g1 = addv p2 (map Ropp p1) /\ g2 <> g1.
Proof.
  exists 2%Z, [1; 0], [0; 0].
  eexists [_; _], [_; _], [_; _]. unfold mindiff_grad, mindiff_work. cbn.
  split; [reflexivity|]. split; [reflexivity|]. split; [reflexivity|]. split.
  - f_equal; [ring|]. f_equal. ring.
  - intros [= H _]. lra.
Qed.
Print Assumptions C40_difference_refuted.
(** For any number of parameters from two on: the exact error. *)
Theorem C40_difference_error : forall w s2 s1 p2 p1 a2 b2 a1 b1, length p2 = length w -> length p1 = length w ->
  mindiff_grad (Z.of_nat (length w + 2)) (p2 ++ [a2; b2]) (p1 ++ [a1; b1]) (w ++ [s2; s1]) =
  Val (addv p2 (map Ropp p1) ++ [a2 - a1 + s2; b2 - b1 + s1]).
Proof.
  intros w s2 s1 p2 p1 a2 b2 a1 b1 H2 H1. unfold mindiff_grad, mindiff_work. rewrite memset_ok by lia. cbn [bind].
  assert (A : forall s p c d x y v, length p = length v -> add_scaled s (p ++ [c; d]) (v ++ [x; y]) = addv v (map (Rmult s) p) ++ [x + s * c; y + s * d]).
  { intros s p c d x y v Hp. unfold add_scaled. rewrite !app_length, Hp. cbn [length]. rewrite Nat.sub_diag. cbn [repeat]. rewrite app_nil_r, map_app.
    rewrite addv_app by (rewrite map_length; congruence). reflexivity. }
  assert (L : length (addv (repeat 0 (length w)) (map (Rmult 1) p2)) = length w).
  { rewrite addv_length; rewrite ?repeat_length; [reflexivity|]. rewrite map_length. congruence. }
  rewrite A by (rewrite repeat_length; exact H2). rewrite A by congruence. rewrite firstn_all2.
  - f_equal. f_equal.
    + clear A L. revert p2 p1 H2 H1. induction w; destruct p2, p1; cbn; intros; try discriminate; [reflexivity|]. f_equal; [ring|]. apply IHw; congruence.
    + f_equal; [ring|]. f_equal. ring.
  - rewrite app_length, addv_length by (rewrite map_length; congruence). cbn [length]. lia.
Qed.
Print Assumptions C40_difference_error.
(** With a single parameter the size passed to memset is negative. *)
Theorem C40_single_refuted : forall p2 p1 work, mindiff_grad 1 p2 p1 work = UB.
Proof. intros p2 p1 work. unfold mindiff_grad, mindiff_work, memset0. reflexivity. Qed.
Print Assumptions C40_single_refuted.
(** Band numbers below one are not refused. *)
Theorem C40_band_refuted : forall num_bands band even odd, (band <= 0)%Z -> (0 <= num_bands)%Z -> mindiff_value num_bands band even odd = UB.
Proof.
  intros nb b e o H N. unfold mindiff_value, check. destruct (Z.leb_spec b nb); [|lia]. cbn [bind]. unfold rd. destruct (Z.ltb_spec (b - 1) 0); [reflexivity|lia].
Qed.
Print Assumptions C40_band_refuted.

(** Three parameters, two k points. *)
Example C40_example : exists g, maxgap_func 5 [0; 1; / 2; 3; 1] [7; 7; 7; 7; 7] false = Val (-1, g) /\ final_gap false [1; 2] [4; 3] = Val (2 / 5).
Proof.
  destruct (maxgap_ok [0; 1; / 2; 3; 1] [7; 7; 7; 7; 7] false) as (g & E & _); [cbn; lia|reflexivity|cbn; lra|].
  exists g. cbn [length Z.of_nat Pos.of_succ_nat Pos.succ] in E. rewrite E. split; [f_equal; f_equal; unfold goal, rel_gap; cbn; lra|].
  destruct (C40_reported false [1; 2] [4; 3]) as (M & mn & A & B & X & Y & F); [reflexivity|discriminate| | |].
  - intros f [<-|[<-|[]]]; lra.
  - intros f [<-|[<-|[]]]; lra.
  - rewrite F. pose proof (X 2 ltac:(right; left; reflexivity)). pose proof (Y 3 ltac:(right; left; reflexivity)).
    destruct A as [<-|[<-|[]]]; [lra|]. destruct B as [<-|[<-|[]]]; [lra|]. f_equal. unfold rel_gap. lra.
Qed.

(* ------------------------------------------------------------------ *)
(** * C62 *)

(** In every history of calls each constraint sees the frequencies of its own k point for the
    parameters of the latest objective call (before the first one: for those in force at the
    start), although most calls do not solve again; whatever k point and frequencies were
    left by earlier commands.  Its value compares that frequency with its own extra variable. *)
Theorem C62_fresh : forall solve b1 b2 ks n nb, (forall p k, length (solve p k) = nb) -> (0 < b1 <= Z.of_nat nb)%Z -> (0 < b2 <= Z.of_nat nb)%Z -> (2 <= n)%Z ->
  forall cs p stale_k stale_freqs, Forall (call_ok ks n) cs ->
  run solve b1 b2 ks n {| o_params := p; o_unsolved := true; o_k := stale_k; o_freqs := stale_freqs |} cs = Val (expected solve b1 b2 ks n p cs).
Proof.
  intros solve b1 b2 ks n nb L B1 B2 N cs p sk sf H. apply (run_ok solve b1 b2 ks n nb); try assumption. intros U. discriminate.
Qed.
Print Assumptions C62_fresh.

(** The stale k point equal to the first one asked for. *)
Example C62_example : let solve (p : list R) (k : vec) := [nth 0 p 0; 1 + nth 0 p 0] in
  run solve 1 2 [(0, 0, 0)] 3 {| o_params := [5]; o_unsolved := true; o_k := (0, 0, 0); o_freqs := [] |}
    [Constraint [5; 0; 0] BAND1 0; Constraint [5; 0; 0] BAND2 0; Objective [7; 0; 0]; Constraint [7; 0; 0] BAND1 0; Constraint [7; 0; 0] BAND2 0]
  = Val [(5, 5 - 0); (1 + 5, 0 - (1 + 5)); (7, 7 - 0); (1 + 7, 0 - (1 + 7))].
Proof.
  cbv zeta. rewrite (C62_fresh _ _ _ _ _ 2%nat).
  - reflexivity.
  - reflexivity.
  - lia.
  - lia.
  - lia.
  - repeat constructor; cbn; lia.
Qed.
