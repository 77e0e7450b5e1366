(** The squared operator and the final diagonalization. *)
From Coq Require Import List ZArith Reals Bool Arith Lia Lra FunctionalExtensionality.
From Verif Require Import Base RC Loops M_Evect M_Lin M_Eig M_Kpt M_Tgt S_Evect S_Eig S_Kpt S_Tgt L_Evect L_Mat L_Eig L_Eig2 L_Eig3 L_Eig4 L_Eig5 L_Eig7 L_Eig9 L_Kpt1 L_Kpt2.
Import ListNotations.
Local Open Scope R_scope.
Add Ring Cring_tg1 : C_ring_theory.

Lemma shift_dim n A t : mdim n n A -> mdim n n (shift n A t).
Proof. intros D. apply mdim_add; [exact D|]. apply mdim_scal, mdim_scal, mdim_id. Qed.
Lemma shift_herm n A t : hermitian A -> hermitian (shift n A t).
Proof. intros H. unfold hermitian, shift, msub in *. rewrite madj_add, !madj_scal, mid_herm, H. reflexivity. Qed.
Lemma shift_mul n m A t X : mdim n m X -> mmul n (shift n A t) X = madd (mmul n A X) (mscal (- t) X).
Proof.
  intros D. unfold shift, msub. rewrite mmul_add_l, !mmul_scal_l, (mid_l n m X D). f_equal. apply mext; intros i j. unfold mscal. apply C_eq; csimp; ring.
Qed.
Lemma sq_dim n A t : mdim n n A -> mdim n n (square_shift n A t).
Proof. intros D. apply (mdim_mul n n n); apply shift_dim; exact D. Qed.
Lemma sq_herm n A t : hermitian A -> hermitian (square_shift n A t).
Proof. intros H. unfold square_shift. unfold hermitian. rewrite madj_mul, shift_herm by exact H. reflexivity. Qed.

Lemma target1_ok n p opA A w : applies n p opA A -> applies n p (target_operator1 opA w) (shift n A (w * w)).
Proof.
  intros Ap X M HX. unfold target_operator1. destruct (Ap X M HX) as (Y & -> & HY). cbn [bind].
  destruct (eaXpbY_ok n p 1 Y _ (- (w * w)) X M HY HX) as (Z & -> & HZ). exists Z. split; [reflexivity|].
  rewrite mscal_1 in HZ. rewrite (shift_mul n p A (w * w) M) by apply (fields_dim _ _ _ _ HX). exact HZ.
Qed.
Lemma target_ok n p opA A w : applies n p opA A -> applies n p (target_operator opA w) (square_shift n A (w * w)).
Proof.
  intros Ap X M HX. unfold target_operator. destruct (target1_ok n p opA A w Ap X M HX) as (W & -> & HW). cbn [bind].
  destruct (target1_ok n p opA A w Ap W _ HW) as (Y & -> & HY). exists Y. split; [reflexivity|]. unfold square_shift. rewrite mmul_assoc. exact HY.
Qed.

(** The final diagonalization of orthonormal fields: a unitary change of basis. *)
Definition unitary (p : nat) (T : mat) : Prop := mdim p p T /\ mmul p T (madj T) = mid p /\ mmul p (madj T) T = mid p.

Lemma get_eigenvals_ok n p potr heev opA A Y M : (1 <= p)%nat -> potr_ok p potr -> heev_ok p heev -> mdim n n A -> hermitian A -> applies n p opA A ->
  fields n p Y M -> form n (mid n) M M = mid p ->
  exists Y' e T, get_eigenvals potr heev opA Y = Val (Y', e) /\ length e = p /\ unitary p T /\ fields n p Y' (mmul p M T) /\
    form n (mid n) (mmul p M T) (mmul p M T) = mid p /\ form n A (mmul p M T) (mmul p M T) = mdiag p (fun i => nth i e 0) /\ (forall i j, (i <= j < p)%nat -> nth i e 0 <= nth j e 0).
Proof.
  intros Hp Po He DA HA Ap HY Gm. assert (DM : mdim n p M) by apply (fields_dim _ _ _ _ HY).
  assert (OM : mmul n (madj M) M = mid p) by (unfold form in Gm; rewrite (mid_l n p M DM) in Gm; exact Gm).
  pose proof (create_square p) as HW0. destruct (XtX_ok n p _ _ Y M _ _ HW0 HW0 HY) as (U & EU & HU). rewrite OM in HU.
  assert (Sv : solver_ok n p potr heev opA None None None false A (mid n) (mid n)).
  { constructor; auto; try apply mdim_id; try apply mid_herm; try reflexivity; try discriminate. apply (mid_l n n), mdim_id. }
  set (h := {| h_Y := Y; h_BY := Y; h_YtBY := U; h_U := U; h_re := false |}).
  destruct (finish_ok n p potr heev opA None None None false A (mid n) (mid n) Sv h M (mid p)) as (Y' & e & M' & E & L & HY' & Rs & G' & F' & A').
  { split; [exact HY|]. split; [rewrite (mid_l n p M DM); exact HY|]. unfold independent, inverse_of. rewrite Gm. split; [exact HU|]. split; [apply posdef_id|]. split; [exact HU|]. split; [apply mdim_id|]. apply (mid_l p p). apply mdim_id. }
  destruct Rs as (T & T' & DT & DT' & TT & TT' & EM). exists Y', e, T. rewrite <- EM.
  assert (U1 : mmul p (madj T) T = mid p). { pose proof G' as Q. rewrite EM, form_span, Gm, (mid_l p p T DT) in Q. exact Q. }
  assert (ET : madj T = T'). { rewrite <- (mid_r p p (madj T)) by (apply mdim_adj; exact DT). rewrite <- TT, <- mmul_assoc, U1. apply (mid_l p p). exact DT'. }
  split; [|split; [exact L|split; [split; [exact DT|split; [rewrite ET; exact TT|exact U1]]|split; [exact HY'|split; [exact G'|split; [exact F'|exact A']]]]]].
  unfold finish in E. cbn [apply_B h_Y h bind gram] in E. unfold get_eigenvals. rewrite (proj1 (proj2 HY)) in E |- *. rewrite EU in E |- *. cbn [bind] in *.
  destruct (invert potr U) as [[U'|]| | |]; cbn [bind] in *; try discriminate. exact E.
Qed.

(** With a target solve_kpoint is as without, for k not 0 and the constraints taken as one. *)
Lemma chain_one l : chain_func [chain_func l] = chain_func l.
Proof. apply functional_extensionality; intros X. cbn [chain_func]. destruct (chain_func l X); reflexivity. Qed.
Lemma chain_cons c l : chain_func [c; chain_func l] = chain_func (c :: l).
Proof. apply functional_extensionality; intros X. cbn [chain_func]. destruct (c X) as [X1| | |]; cbn [bind]; try reflexivity. destruct (chain_func l X1); reflexivity. Qed.
Lemma block_one pc mu solver same zk b0 S2 s b : solve_block pc mu solver same zk b0 S2 s b = solve_block (chain_func (base_chain pc zk)) mu solver same false b0 S2 s b.
Proof.
  destruct b as (ib, q). unfold solve_block. change (base_chain (chain_func (base_chain pc zk)) false) with [chain_func (base_chain pc zk)]. destruct same; cbv iota.
  - rewrite chain_one. reflexivity.
  - destruct (evectmatrix_resize _ _ _) as [Hb| | |]; cbn [bind]; try reflexivity. destruct (block_load _ _ _) as [Hb1| | |]; cbn [bind]; try reflexivity.
    unfold add_deflation. destruct (0 <? ib - b0)%Z.
    + destruct (k_BY s) as [b|].
      * destruct (evectmatrix_resize b _ _) as [b1| | |]; cbn [bind]; try reflexivity. destruct (mu _ _) as [b2| | |]; cbn [bind]; try reflexivity. unfold add_constraint. rewrite chain_cons. reflexivity.
      * cbn [bind]. unfold add_constraint. rewrite chain_cons. reflexivity.
    + cbn [bind]. rewrite chain_one. reflexivity.
Qed.
Lemma loop_one pc mu solver same zk b0 S2 l : forall s, solve_loop pc mu solver same zk b0 S2 l s = solve_loop (chain_func (base_chain pc zk)) mu solver same false b0 S2 l s.
Proof.
  induction l as [|b l IH]; intros s; [reflexivity|]. cbn [solve_loop]. rewrite block_one. destruct (solve_block _ _ _ _ _ _ _ _ _) as [[s'| | |]|]; auto.
Qed.
Lemma target_kpoint pc mu solver fuel zk same neg parity num S2 ev H Hb BY :
  solve_kpoint_target pc mu solver fuel zk same neg num S2 ev H Hb BY = solve_kpoint (chain_func (base_chain pc zk)) mu solver fuel false same neg parity num S2 ev H Hb BY.
Proof.
  unfold solve_kpoint_target, solve_kpoint. destruct (solver_blocks _ _ _ _ _) as [l|]; [|reflexivity]. rewrite loop_one. destruct (solve_loop _ _ _ _ _ _ _ _ _) as [[s| | |]|]; reflexivity.
Qed.
Lemma tcall_kcall n num bs pc zk same mu A P parity fuel S2 ev H Hb BY : tcall n num bs pc zk same mu A P fuel S2 ev H Hb BY ->
  kcall n num bs 0 (chain_func (base_chain pc zk)) false same mu A (mid n) P parity fuel S2 ev H Hb BY.
Proof.
  intros ([DA DB DP HA HB Base Id HP Cm Mu] & Ar & Hf). split; [|split; [exact Ar|split; [reflexivity|split; [discriminate|exact Hf]]]].
  constructor; auto. intros q Hq. change (base_chain (chain_func (base_chain pc zk)) false) with [chain_func (base_chain pc zk)]. rewrite chain_one. apply Base. exact Hq.
Qed.
