(** Property C94: the objective of material-grids-match-epsilon-file and its gradient. *)
From Coq Require Import List ZArith Reals Lra Lia Bool.
From Verif Require Import Base RC M_Tensor M_Evect M_Grid M_Op M_Interp S_Interp M_Matgrid S_Matgrid L_Matgrid2 M_Fld S_Fld M_Half S_Half M_Match S_Match L_Match L_Match2.
Import ListNotations.
Local Open Scope R_scope.

(** In every build, on any number of processes, with or without gradient, the value is the mean
    square difference over the whole grid of the dielectric constant and the file's value at
    the cell's centre; with half-stored grids, if the dielectric function has inversion symmetry. *)
Theorem C94_value : forall q rest u real want parts means, sound q -> length u = S_Matgrid.total (q_grids q) ->
  held (q_n1 q) (q_n2 q) (q_n3 q) real parts -> Forall2 (fun p m => tensors_of q rest (fst p, m)) parts means ->
  (want = true -> forall c, In c (whole (q_n1 q) (q_n2 q) (q_n3 q)) -> regular (q_grids q) u (there q c)) ->
  (real = true -> forall c v, In c (whole (q_n1 q) (q_n2 q) (q_n3 q)) -> length v = length u -> eps_here q rest (mirror (q_n1 q) (q_n2 q) (q_n3 q) c) v = eps_here q rest c v) ->
  exists g, match_eps_func q real want (List.combine (map fst parts) means) u = Val (mismatch q rest u, g).
Proof. intros q rest u real want parts means So Lu Hd Hm Rg Ev. destruct (match_ok q rest u real want parts means So Lu Hd Hm Rg Ev) as (g & A & _). exists g. exact A. Qed.
Print Assumptions C94_value.

(** With complex fields, the vector returned is the gradient of that value: its product with
    any direction is the derivative along it. *)
Theorem C94_gradient : forall q rest u parts means, sound q -> length u = S_Matgrid.total (q_grids q) ->
  held (q_n1 q) (q_n2 q) (q_n3 q) false parts -> Forall2 (fun p m => tensors_of q rest (fst p, m)) parts means ->
  (forall c, In c (whole (q_n1 q) (q_n2 q) (q_n3 q)) -> regular (q_grids q) u (there q c)) ->
  exists g, match_eps_func q false true (List.combine (map fst parts) means) u = Val (mismatch q rest u, g) /\ length g = length u /\
    forall h, length h = length u -> derivable_pt_lim (fun t => mismatch q rest (addl t u h)) 0 (dotl g h).
Proof.
  intros q rest u parts means So Lu Hd Hm Rg. destruct (match_ok q rest u false true parts means So Lu Hd Hm (fun _ => Rg) ltac:(discriminate)) as (g & A & B & D).
  exists g. split; [exact A|]. split; [exact B|]. apply D; [reflexivity|discriminate].
Qed.
Print Assumptions C94_gradient.

(** With half-stored grids it is so if the file's values at the centres of opposite cells agree, ... *)
Theorem C94_gradient_half_partial : forall q rest u parts means, sound q -> length u = S_Matgrid.total (q_grids q) ->
  held (q_n1 q) (q_n2 q) (q_n3 q) true parts -> Forall2 (fun p m => tensors_of q rest (fst p, m)) parts means ->
  (forall c, In c (whole (q_n1 q) (q_n2 q) (q_n3 q)) -> regular (q_grids q) u (there q c)) ->
  (forall c v, In c (whole (q_n1 q) (q_n2 q) (q_n3 q)) -> length v = length u -> eps_here q rest (mirror (q_n1 q) (q_n2 q) (q_n3 q) c) v = eps_here q rest c v) ->
  even (q_n1 q) (q_n2 q) (q_n3 q) (target q) ->
  exists g, match_eps_func q true true (List.combine (map fst parts) means) u = Val (mismatch q rest u, g) /\ length g = length u /\
    forall h, length h = length u -> derivable_pt_lim (fun t => mismatch q rest (addl t u h)) 0 (dotl g h).
Proof.
  intros q rest u parts means So Lu Hd Hm Rg Ev Te. destruct (match_ok q rest u true true parts means So Lu Hd Hm (fun _ => Rg) (fun _ => Ev)) as (g & A & B & D).
  exists g. split; [exact A|]. split; [exact B|]. apply D; [reflexivity|]. intros _. exact Te.
Qed.
Print Assumptions C94_gradient_half_partial.

(** ... and otherwise not, even for a file that is symmetric about its centre: the share of the
    opposite point uses the difference at the point itself.  Here the derivative along the
    only parameter is 1/3 and the code returns -1/3. *)
Theorem C94_gradient_half_refuted : exists q rest u parts means v g, sound q /\ length u = S_Matgrid.total (q_grids q) /\
  held (q_n1 q) (q_n2 q) (q_n3 q) true parts /\ Forall2 (fun p m => tensors_of q rest (fst p, m)) parts means /\
  (forall c, In c (whole (q_n1 q) (q_n2 q) (q_n3 q)) -> regular (q_grids q) u (there q c)) /\
  (forall c v, length v = length u -> eps_here q rest (mirror (q_n1 q) (q_n2 q) (q_n3 q) c) v = eps_here q rest c v) /\ rev (q_eps q) = q_eps q /\
  match_eps_func q true true (List.combine (map fst parts) means) u = Val (v, g) /\ v = mismatch q rest u /\
  exists h d, length h = length u /\ derivable_pt_lim (fun t => mismatch q rest (addl t u h)) 0 d /\ 0 < d /\ dotl g h < 0.
Proof.
  exists (mx_q file121), (fun _ => 0), [/ 2], [(loop_real 3 1 1, M_Fld.twice_real (kept (last_dim 3 1 1)) (last_dim 3 1 1))], [mx_mean], (/ 4), [- / 3].
  split; [exact (mx_sound 1 2 1)|]. split; [reflexivity|]. split; [exact (half_serial 3 1 1)|]. split; [constructor; [apply mx_tensors|constructor]|].
  split; [intros c _; apply mx_regular|]. split; [intros c v L; apply mx_even; exact L|]. split; [reflexivity|]. split; [exact mx_half|].
  split; [unfold file121; rewrite mx_mismatch; lra|]. exists [1], (1 / 3). split; [reflexivity|]. split; [|cbn; lra].
  assert (D : derivable_pt_lim (fun t => ((t + (1 / 2)) ^ 2 + (t - (1 / 2)) ^ 2 + (t + (1 / 2)) ^ 2) / 3) 0 (1 / 3)).
  { pose proof (derivable_pt_lim_id 0) as I. replace (1 / 3) with ((2 * (0 - - (1 / 2)) * 1 + 2 * (0 - 1 / 2) * 1 + 2 * (0 - - (1 / 2)) * 1) / 3) by lra.
    apply deriv_scale. apply (deriv_ext (fun t => (id t - - (1 / 2)) ^ 2 + (id t - (1 / 2)) ^ 2 + (id t - - (1 / 2)) ^ 2)); [intros t; unfold id; ring|].
    apply deriv_add; [apply deriv_add|]; apply (deriv_square id _ 0 1 I). }
  refine (deriv_ext _ _ _ _ _ D). intros t. symmetry. refine (eq_trans (mx_mismatch 1 2 1 (fun _ => 0) (/ 2 + t * 1)) _). field.
Qed.
Print Assumptions C94_gradient_half_refuted.

(** Cases meeting the hypotheses: the same grid in both builds, with files of which the second
    has equal values at opposite points. *)
Example C94_ex : sound (mx_q [1; 2; 3]) /\ length [/ 2] = S_Matgrid.total (q_grids (mx_q [1; 2; 3])) /\ held 3 1 1 false [(loop_complex 3 1 1, once)] /\
  tensors_of (mx_q [1; 2; 3]) (fun _ => 0) (loop_complex 3 1 1, mx_mean) /\ (forall c, regular (q_grids (mx_q [1; 2; 3])) [/ 2] (there (mx_q [1; 2; 3]) c)).
Proof. split; [apply mx_sound|]. split; [reflexivity|]. split; [apply whole_serial|]. split; [apply mx_tensors|]. intros c. apply mx_regular. Qed.
Example C94_ex_half : sound (mx_q [1; 2; 2]) /\ even 3 1 1 (target (mx_q [1; 2; 2])) /\ (forall c v, length v = 1%nat -> eps_here (mx_q [1; 2; 2]) (fun _ => 0) (mirror 3 1 1 c) v = eps_here (mx_q [1; 2; 2]) (fun _ => 0) c v).
Proof.
  split; [apply mx_sound|]. split; [|intros c v L; apply mx_even; exact L]. intros c H. apply whole3 in H as [-> |[-> | ->]].
  - reflexivity.
  - change (mirror 3 1 1 (1, 0, 0)%Z) with (2, 0, 0)%Z. rewrite !mx_target by lia. reflexivity.
  - change (mirror 3 1 1 (2, 0, 0)%Z) with (1, 0, 0)%Z. rewrite !mx_target by lia. reflexivity.
Qed.
