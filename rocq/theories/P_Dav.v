(** Property theorems for the Davidson eigensolver: C74 and C75. *)
From Coq Require Import List ZArith Reals Bool Arith Lia Lra.
From Verif Require Import Base RC M_Evect M_Eig M_Dav S_Evect S_Eig S_Dav L_Evect L_Mat L_Eig7 L_Eig13 L_EigEx L_Dav2 L_Dav6 L_Dav7 L_DavEx.
Import ListNotations.
Local Open Scope R_scope.

Example C74_call_ex : call 2 1 2 ex_potr dx_heev ex_opA None None exA (mid 2) dx_Y e12 [0] dx_Work.
Proof. split; [apply dx_ok|]. split; [reflexivity|]. split; [lia|]. split; [apply dx_fields|]. split; [cbn; lia|apply dx_work]. Qed.
Example C74_run_ex : exists rs Y e, davidson ex_potr dx_heev ex_opA None None 2 0 11 dx_Y [0] dx_Work = Val (rs, Y, e).
Proof. apply dx_run. lia. Qed.

(** Every iteration is a Rayleigh-Ritz step: in a space of p to p nb orthonormal fields that satisfy
    the constraint, all values of A are computed exactly, and p neighbouring ones are kept (the
    lowest, without target).  The first space is that of the fields given; every further one holds
    the fields of the step before and their preconditioned residual. *)
Theorem C74_ritz n p nb potr heev opA opK constraint A P tolerance target k Y M0 e Work rs Y' e' : call n p nb potr heev opA opK constraint A P Y M0 e Work ->
  davidson potr heev opA opK constraint tolerance target k Y e Work = Val (rs, Y', e') -> trail n p nb opK A P target M0 rs /\ (2 <= length rs <= k)%nat.
Proof.
  intros (Ok & Enb & Hnb & HY & He & HW) E. destruct (davidson_run n p nb potr heev opA opK constraint A P target tolerance Ok Hnb M0 Y e Work HY He HW Enb k) as [(Ab & _)|(r & r0 & t & Y1 & e1 & M & M' & E1 & Tr & _ & L & _)]; [rewrite Ab in E; discriminate|].
  rewrite E1 in E. injection E as <- <- <-. split; [exact Tr|]. cbn [length] in *. lia.
Qed.
Print Assumptions C74_ritz.

(** Without target no value rises from one iteration to the next, nor does their sum. *)
Theorem C74_falling n p nb potr heev opA opK constraint A P tolerance k Y M0 e Work rs Y' e' l r r0 t : call n p nb potr heev opA opK constraint A P Y M0 e Work ->
  davidson potr heev opA opK constraint tolerance 0 k Y e Work = Val (rs, Y', e') -> rs = l ++ r :: r0 :: t ->
  (forall i, (i < p)%nat -> nth i (r_e r) 0 <= nth i (r_e r0) 0) /\ r_E r <= r_E r0.
Proof.
  intros Cl E El. destruct (C74_ritz _ _ _ _ _ _ _ _ _ _ _ _ _ _ _ _ _ _ _ _ Cl E) as (Tr & _). subst rs. apply trail_app in Tr. destruct Cl as (Ok & _).
  assert (F : forall i, (i < p)%nat -> nth i (r_e r) 0 <= nth i (r_e r0) 0) by (intros i Hi; apply (trail_falls n p nb opK A P 0 M0 (dk_dimA _ _ _ _ _ _ _ _ _ _ Ok) r r0 t i); auto).
  split; [exact F|]. rewrite (trail_E n p nb opK A P 0 M0 r (r0 :: t) Tr). destruct Tr as (_ & Tr). rewrite (trail_E n p nb opK A P 0 M0 r0 t Tr). apply rsum_le. exact F.
Qed.
Print Assumptions C74_falling.

(** The result: orthonormal fields that satisfy the constraint and diagonalize A, with ascending
    values, which are those of the last iteration; their span is that of its fields. *)
Theorem C74_result n p nb potr heev opA opK constraint A P tolerance target k Y M0 e Work rs Y' e' : call n p nb potr heev opA opK constraint A P Y M0 e Work ->
  davidson potr heev opA opK constraint tolerance target k Y e Work = Val (rs, Y', e') ->
  exists r r0 t M M', rs = r :: r0 :: t /\ fields n p (r_Y r) M /\ fields n p Y' M' /\ respan p M M' /\ orthonormal n p M' /\ satisfies n P M' /\ form n A M' M' = mdiag p (fun i => nth i e' 0) /\
    length e' = p /\ (forall i, (i < p)%nat -> nth i e' 0 = nth i (r_e r) 0) /\ (forall i j, (i <= j < p)%nat -> nth i e' 0 <= nth j e' 0) /\
    Rabs (r_E r - r_E r0) < tolerance * / 2 * (Rabs (r_E r) + Rabs (r_E r0) + / 10000000).
Proof.
  intros (Ok & Enb & Hnb & HY & He & HW) E. destruct (davidson_run n p nb potr heev opA opK constraint A P target tolerance Ok Hnb M0 Y e Work HY He HW Enb k) as [(Ab & _)|(r & r0 & t & Y1 & e1 & M & M' & E1 & Tr & Cv & L & Le & H1 & H2 & Rs & Or & Sa & Fd & Ve & As & _)]; [rewrite Ab in E; discriminate|].
  rewrite E1 in E. injection E as <- <- <-. exists r, r0, t, M, M'. repeat (split; [first [reflexivity|assumption]|]). exact Cv.
Qed.
Print Assumptions C74_result.

(** No value found is below the exact one. *)
Theorem C74_above n p nb potr heev opA opK constraint A P tolerance target k Y M0 e Work rs Y' e' m V lam : call n p nb potr heev opA opK constraint A P Y M0 e Work ->
  davidson potr heev opA opK constraint tolerance target k Y e Work = Val (rs, Y', e') -> modes n m P A (mid n) V lam ->
  forall i, (i < p)%nat -> (i < m)%nat /\ lam i <= nth i e' 0.
Proof.
  intros Cl E Md i Hi. destruct (C74_result _ _ _ _ _ _ _ _ _ _ _ _ _ _ _ _ _ _ _ _ Cl E) as (r & r0 & t & M & M' & _ & _ & HF & _ & (DM & OM) & Sa & Fd & _ & _ & As & _).
  apply (above n p m P A (mid n) V lam M' (fun i => nth i e' 0)); auto; [apply mid_herm|apply mdim_id|]. unfold form. rewrite (mid_l n p M' DM). exact OM.
Qed.
Print Assumptions C74_above.
Example C74_above_ex : modes 2 2 (mid 2) exA (mid 2) (mid 2) (fun i => if (i =? 0)%nat then 1 else 3).
Proof.
  split; [apply mdim_id|]. split; [unfold form; rewrite mid_herm, !(mid_l 2 2 (mid 2) (mdim_id 2)); reflexivity|]. split; [unfold form; rewrite mid_herm, (mid_r 2 2 exA exA_dim), (mid_l 2 2 exA exA_dim); reflexivity|].
  split; [intros [|[|i]] [|[|j]] H; cbn; try lra; lia|]. intros p M D _. unfold form. rewrite mid_herm, !(mid_l 2 p M D). reflexivity.
Qed.

(** The solver never reads or writes outside its arrays or divides by zero: it ends with a result or
    stops with an error message, and then the fields given were dependent, or the allowed number of
    iterations was used up, or a step found no independent new directions. *)
Theorem C74_safe n p nb potr heev opA opK constraint A P tolerance target k Y M0 e Work : call n p nb potr heev opA opK constraint A P Y M0 e Work ->
  (exists rs Y' e', davidson potr heev opA opK constraint tolerance target k Y e Work = Val (rs, Y', e')) \/
  davidson potr heev opA opK constraint tolerance target k Y e Work = Abort /\
    (~ independent n p (mid n) (mmul n P M0) \/
     exists rs, trail n p nb opK A P target M0 rs /\ (length rs = k \/
       (length rs <= k)%nat /\ exists r t q W ev it M, rs = r :: t /\ stage n p nb A P q W ev it r M /\ stuck n p nb opK A P q W r)).
Proof.
  intros (Ok & Enb & Hnb & HY & He & HW). destruct (davidson_run n p nb potr heev opA opK constraint A P target tolerance Ok Hnb M0 Y e Work HY He HW Enb k) as [(Ab & Q)|(r & r0 & t & Y1 & e1 & M & M' & E1 & _)]; [right|left; eauto].
  split; [exact Ab|]. destruct Q as [Q|(rs & Tr & [Q|(Q & r & t & q & W & ev & it & M & Q1 & Q2 & _ & Q3)])]; [auto|right; eauto|]. right. exists rs. split; [exact Tr|]. right. split; [exact Q|]. exists r, t, q, W, ev, it, M. auto.
Qed.
Print Assumptions C74_safe.

(** Started with exact modes (fields whose span A keeps, for instance the result of an earlier run),
    the solver never succeeds: the first iteration does not test for convergence, and there is no
    new direction. *)
Theorem C74_exact_start n p nb potr heev opA opK constraint A P tolerance target k Y M0 e Work T : call n p nb potr heev opA opK constraint A P Y M0 e Work ->
  zero_to_zero n p opK -> mdim p p T -> mmul n A (mmul n P M0) = mmul p (mmul n P M0) T ->
  davidson potr heev opA opK constraint tolerance target k Y e Work = Abort.
Proof. intros (Ok & Enb & Hnb & HY & He & HW) ZK DT ET. apply (exact_start n p nb potr heev opA opK constraint A P target tolerance Ok Hnb M0 Y e Work HY He HW Enb k T); auto. Qed.
Print Assumptions C74_exact_start.
Example C74_exact_ex : call 2 1 2 ex_potr dx_heev ex_opA None None exA (mid 2) ex_Y e1 [0] dx_Work /\ zero_to_zero 2 1 None /\ mdim 1 1 (mid 1) /\ mmul 2 exA (mmul 2 (mid 2) e1) = mmul 1 (mmul 2 (mid 2) e1) (mid 1).
Proof.
  split; [split; [apply dx_ok|]; split; [reflexivity|]; split; [lia|]; split; [apply ex_fields|]; split; [cbn; lia|apply dx_work]|]. split; [exact I|]. split; [apply mdim_id|].
  rewrite (mid_l 2 1 e1 e1_dim) at 1. apply exA_e1.
Qed.

(** Problems with fewer than 2 p modes cannot be solved for p bands. *)
Theorem C74_small n p nb potr heev opA opK constraint A P tolerance target k Y M0 e Work m V lam : call n p nb potr heev opA opK constraint A P Y M0 e Work ->
  modes n m P A (mid n) V lam -> (m < 2 * p)%nat -> davidson potr heev opA opK constraint tolerance target k Y e Work = Abort.
Proof.
  intros Cl Md Hm. destruct (C74_safe _ _ _ _ _ _ _ _ _ _ tolerance target k _ _ _ _ Cl) as [(rs & Y' & e' & E)|(E & _)]; [exfalso|exact E].
  destruct (C74_ritz _ _ _ _ _ _ _ _ _ _ _ _ _ _ _ _ _ _ _ _ Cl E) as (Tr & L). destruct rs as [|r [|r0 t]]; cbn [length] in L; try lia. destruct Tr as ((q & W & ev & it & M & St & _ & _ & Hq & _) & _). destruct Cl as (Ok & _).
  pose proof (stage_room _ _ _ _ _ _ _ _ _ _ _ _ _ _ (dk_dimA _ _ _ _ _ _ _ _ _ _ Ok) St Md). lia.
Qed.
Print Assumptions C74_small.
(** Two components and one of them excluded by the constraint: one mode, one band. *)
Example C74_small_ex : call 2 1 2 ex_potr dx_heev ex_opA None (Some sx_constraint) exA sx_P dx_Y e12 [0] dx_Work /\ modes 2 1 sx_P exA (mid 2) e1 (fun _ => 1) /\ (1 < 2 * 1)%nat.
Proof.
  assert (D : mdim 2 2 sx_P) by (intros i j H; apply e1_dim; lia).
  split; [|split; [|lia]].
  - split; [|split; [reflexivity|]; split; [lia|]; split; [apply dx_fields|]; split; [cbn; lia|apply dx_work]]. destruct dx_ok. split; auto.
    + intros X M HX. eexists. split; [reflexivity|]. pose proof HX as (_ & _ & _ & Hr). destruct (rep21 _ _ Hr) as (a & b & r & Ed & Ea & Eb). apply (L_Eig2.fields_set 2 1 X M); [exact HX|rewrite Ed; reflexivity|]. rewrite Ed.
      apply rep21_of; [apply (mdim_mul 2 2 1); [exact D|apply (L_Eig2.fields_dim _ _ _ _ HX)]| |]; unfold mmul, sx_P, e1; cbn [csum Nat.eqb andb]; rewrite ?Ea, ?Eb; apply C_eq; csimp; ring.
    + apply mext; intros i j. unfold mmul, sx_P, e1. cbn [csum]. destruct i as [|[|i]], j as [|[|j]]; cbn [Nat.eqb andb]; apply C_eq; csimp; ring.
  - split; [apply e1_dim|]. split; [|split; [|split; [intros; lra|]]].
    + apply mext; intros i j. unfold form, mmul, madj, mid, e1. cbn [csum]. destruct i as [|[|i]], j as [|[|j]]; cbn [Nat.eqb Nat.ltb Nat.leb andb]; apply C_eq; csimp; ring.
    + apply mext; intros i j. unfold form, mmul, madj, exA, mdiag, e1. cbn [csum]. destruct i as [|[|i]], j as [|[|j]]; cbn [Nat.eqb Nat.ltb Nat.leb andb]; apply C_eq; csimp; ring.
    + intros p M DM Sa. apply mext; intros i j. assert (Q := f_equal (fun F => F i j) Sa). unfold mmul, sx_P, e1 in Q. cbn [csum] in Q. unfold form, mmul, madj, mid, e1. cbn [csum]. destruct i as [|[|i]]; cbn [Nat.eqb Nat.ltb Nat.leb andb] in *.
      * apply C_eq; csimp; ring.
      * rewrite <- Q. apply C_eq; csimp; ring.
      * rewrite DM by lia. apply C_eq; csimp; ring.
Qed.

(** The p values nearest to the target are kept - as long as no p + 1 values of a space are equal. *)
Theorem C75_nearest_partial n p nb potr heev opA opK constraint A P tolerance target k Y M0 e Work rs Y' e' r : call n p nb potr heev opA opK constraint A P Y M0 e Work ->
  davidson potr heev opA opK constraint tolerance target k Y e Work = Val (rs, Y', e') -> target <> 0 -> In r rs ->
  exists q W ev it M, stage n p nb A P q W ev it r M /\ ((forall i, (i + p < q)%nat -> ev i < ev (i + p)%nat) -> nearest p q target ev it).
Proof.
  intros Cl E Ht Hr. destruct (C74_ritz _ _ _ _ _ _ _ _ _ _ _ _ _ _ _ _ _ _ _ _ Cl E) as (Tr & _). apply in_split in Hr as (l & t & ->). apply trail_app in Tr. destruct Tr as ((q & W & ev & it & M & St & _ & Nr & _) & _). exists q, W, ev, it, M. split; [exact St|]. auto.
Qed.
Print Assumptions C75_nearest_partial.

(** With p + 1 equal values the window stops short: of 1, 1, 2 the first is kept for the target 2. *)
Theorem C75_nearest_refuted : exists p q t e it, (1 <= p <= q)%nat /\ length e = q /\ (forall i j, (i <= j < q)%nat -> nth i e 0 <= nth j e 0) /\ t <> 0 /\
  itarget (Z.of_nat p) (Z.of_nat q) t e = Val (Z.of_nat it) /\ ~ nearest p q t (fun i => nth i e 0) it.
Proof.
  exists 1%nat, 3%nat, 2, [1; 1; 2], 0%nat. split; [lia|]. split; [reflexivity|]. split; [intros [|[|[|i]]] [|[|[|j]]] H; cbn; try lra; lia|]. split; [lra|]. split.
  - unfold itarget. destruct (Reqb_spec 2 0); [lra|]. change (Z.to_nat (Z.of_nat 3)) with 3%nat. cbn [window]. change (0 + Z.of_nat 1 <? Z.of_nat 3)%Z with true. change (rd [1; 1; 2] 0) with (Val 1). change (rd [1; 1; 2] (0 + Z.of_nat 1)) with (Val 1). cbn [bind].
    destruct (Rltb_spec (Rabs (2 - 1)) (Rabs (2 - 1))) as [H|_]; [lra|reflexivity].
  - intros N. specialize (N 0%nat 2%nat ltac:(lia) ltac:(lia) ltac:(lia)). cbn [nth] in N. replace (2 - 1) with 1 in N by ring. replace (2 - 2) with 0 in N by ring. rewrite Rabs_R0, Rabs_R1 in N. lra.
Qed.
Print Assumptions C75_nearest_refuted.
