(** Small instances: two components, one or two bands solved one by one. *)
From Coq Require Import List ZArith Reals Bool Arith Lia Lra Psatz.
From Verif Require Import Base RC Loops M_Evect M_Lin M_Eig M_Dav M_Kpt M_Tgt S_Evect S_Eig S_Dav S_Kpt S_Tgt L_Evect L_Mat L_Eig L_Eig2 L_Eig4 L_Eig5 L_Eig7 L_Eig13 L_EigEx L_Kpt1 L_Kpt2 L_Kpt3 L_Kpt4 L_Kpt5 L_Kpt6 L_KptEx L_Tgt1 L_Tgt2 L_Tgt3.
Import ListNotations.
Local Open Scope R_scope.
Add Ring Cring_tgx : C_ring_theory.

(** [[a, c], [c, b]]. *)
Definition sm (a b c : R) : mat := fun i j => match i, j with 0%nat, 0%nat => RtoC a | 1%nat, 1%nat => RtoC b | 0%nat, 1%nat => RtoC c | 1%nat, 0%nat => RtoC c | _, _ => C0 end.
Lemma sm_dim a b c : mdim 2 2 (sm a b c).
Proof. intros [|[|i]] [|[|j]] H; try reflexivity; lia. Qed.
Lemma sm_herm a b c : hermitian (sm a b c).
Proof. apply mext; intros [|[|i]] [|[|j]]; unfold madj; cbn [sm]; apply C_eq; csimp; ring. Qed.
Lemma sm_sq a b c t : square_shift 2 (sm a b c) t = sm ((a - t) * (a - t) + c * c) ((b - t) * (b - t) + c * c) (c * (a - t) + c * (b - t)).
Proof. apply mext; intros [|[|i]] [|[|j]]; unfold square_shift, shift, msub, madd, mscal, mmul, mid; cbn; apply C_eq; csimp; ring. Qed.
Lemma sm_dg a b : sm a b 0 = dg a b.
Proof. apply mext; intros [|[|i]] [|[|j]]; unfold dg, mdiag; cbn; try reflexivity; destruct (_ =? _)%nat; reflexivity. Qed.
Lemma sm_col a b c x y : mmul 2 (sm a b c) (col2 x y) = col2 (RtoC a * x + RtoC c * y)%C (RtoC c * x + RtoC b * y)%C.
Proof. rewrite mmul2 by apply sm_dim. reflexivity. Qed.
(** It is applied as a matrix. *)
Definition sm_op (A : mat) (X : emat C) : outcome (emat C) := mat_muinv 2 A X X.
Lemma sm_applies A q : (1 <= q)%nat -> mdim 2 2 A -> applies 2 q (sm_op A) A.
Proof.
  intros Hq DA X M HX. destruct (mat_muinv_ok 2 A q q X M X M DA ltac:(lia) HX HX) as (Y & E & _ & F). exists Y. split; [exact E|].
  rewrite (slice_all 2 q) in F by (apply (mdim_mul 2 2 q); [exact DA|apply (fields_dim _ _ _ _ HX)]). exact F.
Qed.
Lemma ex_algebra : algebra_ok 1 ex_potr ex_heev.
Proof. intros q Hq. assert (q = 1%nat) by lia. subst q. split; [apply ex_potr_ok|apply ex_heev_ok]. Qed.
Definition tx_solver (A A2 : mat) := target_solver ex_potr ex_heev (sm_op A) false (rq_solver A2 (mid 2)).
Lemma rq_lowest_finds a b : a <= b -> solver_finds (fun q P M e => lowest 2 q P (dg a b) (mid 2) M e) 2 1 (rq_solver (dg a b) (mid 2)).
Proof. intros H q c P Y M Y' e Hq Ap DP Id HY E. assert (q = 1%nat) by lia. subst q. apply (rq_lowest_dg a b c P Y Y' e H); auto. Qed.

Lemma kpoint_sm a b c num : kpoint_ok 2 num (fun X => Val X) false (mat_muinv 2 (mid 2)) (sm a b c) (mid 2) (mid 2).
Proof.
  constructor; [apply sm_dim|apply mdim_id|apply mdim_id|apply sm_herm|apply mid_herm| |apply (mid_l 2 2), mdim_id|apply mid_herm|reflexivity|].
  - intros q _. exact (id_applies 2 q).
  - intros. apply (mat_muinv_ok 2 (mid 2) m p H M b0 N); auto. apply mdim_id.
Qed.
Lemma arrays_1 : arrays 2 1 1 0 (mid 2) true [C0] [0] (mk2 C1 C1) kx_blk None.
Proof.
  split; [exists (col2 C1 C1); apply mk2_fields|]. split; [reflexivity|]. split; [lia|]. split; [unfold wf; cbn; lia|]. split; [reflexivity|]. split; [reflexivity|]. split; [split; reflexivity|]. split; [left; reflexivity|]. split; [cbn; lia|reflexivity].
Qed.
Lemma tcall_1 a b c : tcall 2 1 1 (fun X => Val X) false true (mat_muinv 2 (mid 2)) (sm a b c) (mid 2) 1 [C0] [0] (mk2 C1 C1) kx_blk None.
Proof. split; [apply kpoint_sm|]. split; [apply arrays_1|lia]. Qed.
Lemma tcall_2 a b c : tcall 2 2 1 (fun X => Val X) false false (mat_muinv 2 (mid 2)) (sm a b c) (mid 2) 2 [C0; C0] [0; 0] kx_H kx_blk None.
Proof. split; [apply kpoint_sm|]. split; [apply kx_arrays|lia]. Qed.

(** * Runs *)
Definition tx_good (A A2 : mat) (q : nat) (P M : mat) (w : nat -> R) : Prop :=
  ritz_fields 2 q P A (mid 2) M w /\ exists N T e, combined q M N T /\ (rq_good A2 (mid 2) q P N e /\ satisfies 2 P N /\ form 2 (mid 2) N N = mid q).
Lemma tx_inner A2 : hermitian A2 -> solver_finds (fun q P N e => rq_good A2 (mid 2) q P N e /\ satisfies 2 P N /\ form 2 (mid 2) N N = mid q) 2 1 (rq_solver A2 (mid 2)).
Proof.
  intros HA q c P Y M Y' e Hq Ap DP Id HY E. destruct (rq_finds_good A2 (mid 2) q c P Y M Y' e Hq Ap DP Id HY E) as (M1 & F1 & L1 & G). destruct (rq_finds A2 (mid 2) HA (mid_herm 2) q c P Y M Y' e Hq Ap DP Id HY E) as (M2 & F2 & _ & D2 & S2 & O2 & _).
  assert (EM : M1 = M2). { apply mext; intros i j. destruct (Nat.lt_ge_cases i 2) as [Hi|Hi]; [destruct (Nat.lt_ge_cases j q) as [Hj|Hj]|]; [|rewrite (fields_dim _ _ _ _ F1), D2 by lia; reflexivity..].
    rewrite <- (fields_at 2 q Y' M1 i j F1 Hi Hj). apply (fields_at 2 q Y' M2 i j F2 Hi Hj). }
  subst M2. exists M1. auto.
Qed.
Lemma tx_finds A A2 : mdim 2 2 A -> hermitian A -> hermitian A2 -> solver_finds (tx_good A A2) 2 1 (tx_solver A A2).
Proof.
  intros DA HA H2. apply (tgt_finds (fun q P N e => rq_good A2 (mid 2) q P N e /\ satisfies 2 P N /\ form 2 (mid 2) N N = mid q) 2 1 ex_potr ex_heev (sm_op A) A); auto.
  - intros q P N e (_ & S1 & O1). auto.
  - apply ex_algebra.
  - intros q Hq. apply sm_applies; [lia|exact DA].
  - apply tx_inner. exact H2.
Qed.
Lemma quad2_mid x y : quad2 (mid 2) x y = normsqr x + normsqr y.
Proof. unfold quad2, mid, normsqr. cbn [Nat.ltb Nat.leb Nat.eqb andb]. destruct x, y. csimp. ring. Qed.
Lemma tx_val A A2 c P Y M : mdim 2 2 A -> hermitian A -> hermitian A2 -> applies 2 1 c P -> mdim 2 2 P -> mmul 2 P P = P -> P 0%nat 0%nat <> C0 \/ P 1%nat 1%nat <> C0 -> fields 2 1 Y M ->
  exists r, tx_solver A A2 c Y = Some (Val r).
Proof.
  intros DA HA H2 Ap DP Id Nz HY. unfold tx_solver, target_solver. destruct (rq_run A2 (mid 2) c P Y Ap DP) as (x & y & E & K).
  assert (Pos : 0 < quad2 (mid 2) x y).
  { rewrite quad2_mid. assert (Q : x <> C0 \/ y <> C0) by (destruct K as [([N0|N0] & -> & ->)|(Z0 & Z1 & -> & ->)]; auto; destruct Nz as [N0|N0]; [contradiction|auto]). destruct Q as [N0|N0]; apply RC.normsqr_pos in N0; [pose proof (normsqr_nonneg y)|pose proof (normsqr_nonneg x)]; lra. }
  destruct (Rltb_spec 0 (quad2 (mid 2) x y)); [|lra]. rewrite E. pose proof E as E'. apply (tx_inner A2 H2 1%nat c P Y M) in E'; auto. destruct E' as (N & FN & _ & _ & SN & ON).
  destruct (get_eigenvals_ok 2 1 ex_potr ex_heev (sm_op A) A _ N ltac:(lia) ex_potr_ok ex_heev_ok DA HA (sm_applies A 1 ltac:(lia) DA) FN ON) as (Y2 & e2 & T & E2 & _). rewrite E2. eexists. reflexivity.
Qed.
(** One block. *)
Lemma tx_block a b c A2 num same S2 s M d : hermitian A2 -> st_ok 2 num 1 0 same (mid 2) s M -> (1 <= num)%nat -> (same = true <-> 1%nat = num) -> (num * 1 <= length S2)%nat -> (d + 1 <= num)%nat -> satisfies 2 (mid 2) (slice 0 d M) -> form 2 (mid 2) (slice 0 d M) (slice 0 d M) = mid d ->
  (let Q := dproj 2 d (mid 2) (mid 2) (slice 0 d M) in Q 0%nat 0%nat <> C0 \/ Q 1%nat 1%nat <> C0) ->
  exists s' M' e, solve_block (fun X => Val X) (mat_muinv 2 (mid 2)) (tx_solver (sm a b c) A2) same false 0 S2 s (Z.of_nat d, 1%Z) = Some (Val s') /\ st_ok 2 num 1 0 same (mid 2) s' M' /\ slice 0 d M' = slice 0 d M /\
    tx_good (sm a b c) A2 1 (dproj 2 d (mid 2) (mid 2) (slice 0 d M)) (slice d 1 M') e /\ nth d (k_ev s') 0 = e 0%nat /\ (forall i, (i < d)%nat -> nth i (k_ev s') 0 = nth i (k_ev s) 0).
Proof.
  intros H2 St Hnum Hs HS Hd SY OY Nz. assert (DS : mdim 2 d (slice 0 d M)) by (apply (slice_dim 2 (num - 0)); apply (fields_dim _ _ _ _ (proj1 St))).
  destruct (solve_block _ _ _ _ _ _ _ s (Z.of_nat d, 1%Z)) as [r|] eqn:Eb.
  - destruct (block_step 2 num 1 0 (fun X => Val X) false same (mat_muinv 2 (mid 2)) (tx_solver (sm a b c) A2) (sm a b c) (mid 2) (mid 2) S2 _ (kpoint_sm a b c num) ltac:(lia) ltac:(lia) ltac:(rewrite Nat.sub_0_r; exact HS) Hs (tx_finds (sm a b c) A2 (sm_dim _ _ _) (sm_herm _ _ _) H2) s M d 1%nat r St ltac:(lia) ltac:(lia) ltac:(intros E; apply Hs in E; lia) SY OY Eb)
      as [(s' & M' & Mq & e & -> & St' & E0 & E1 & G & V1 & V2)|(l & X & r0 & Ap & FX & Er & Cs)].
    + exists s', M', e. split; [reflexivity|]. split; [exact St'|]. split; [exact E0|]. split; [rewrite E1; exact G|]. split; [|exact V2]. specialize (V1 0%nat ltac:(lia)). rewrite Nat.add_0_r in V1. exact V1.
    + exfalso. pose proof (mid_l 2 2 (mid 2) (mdim_id 2)) as Im. assert (DQ : mdim 2 2 (dproj 2 d (mid 2) (mid 2) (slice 0 d M))) by (apply dproj_dim; auto using mdim_id).
      assert (IQ : mmul 2 (dproj 2 d (mid 2) (mid 2) (slice 0 d M)) (dproj 2 d (mid 2) (mid 2) (slice 0 d M)) = dproj 2 d (mid 2) (mid 2) (slice 0 d M)) by (apply dproj_idem; auto using mdim_id; apply mid_herm).
      destruct (tx_val (sm a b c) A2 _ _ X (slice d 1 M) (sm_dim _ _ _) (sm_herm _ _ _) H2 Ap DQ IQ Nz FX) as (r1 & Ev).
      rewrite Er in Ev. injection Ev as ->. exact Cs.
  - exfalso. unfold solve_block in Eb. destruct same; cbv iota in Eb; [|destruct (let! Hb := _ in _) as [(((X, Hb), l), BY)| | |]]; try discriminate Eb;
      (match type of Eb with context [tx_solver ?A ?B ?c ?X] => assert (tx_solver A B c X <> None) as Ne by (unfold tx_solver, target_solver, rq_solver; destruct (let! X1 := _ in _) as [(?, ?)| | |]; discriminate) end;
       destruct (tx_solver _ _ _ _) as [?|]; [discriminate Eb|apply Ne; reflexivity]).
Qed.
Lemma form_phase n A M N T : combined 1 M N T -> form n A M M 0%nat 0%nat = form n A N N 0%nat 0%nat.
Proof.
  intros ((DT & U1 & U2) & ->). rewrite form_span. pose proof (f_equal (fun F : mat => F 0%nat 0%nat) U2) as Q. unfold mmul, madj, mid in *. cbn in Q. cbn [csum].
  transitivity ((C0 + Cconj (T 0%nat 0%nat) * T 0%nat 0%nat) * form n A N N 0%nat 0%nat)%C; [unfold form, mmul, madj; ring|]. rewrite Q. ring.
Qed.
Lemma dproj_mid0 M : dproj 2 0 (mid 2) (mid 2) (slice 0 0 M) = mid 2.
Proof. apply mext; intros i j. unfold dproj, yyb, slice, msub, madd, mscal, mmul, madj, mid. cbn [csum]. destruct i as [|[|i]], j as [|[|j]]; cbn; apply C_eq; csimp; try ring; destruct (_ =? _)%nat; csimp; ring. Qed.
Lemma C1_neq_0 : C1 <> C0.
Proof. intros E. injection E as E. lra. Qed.
(** The first block: (1, 0) but for a phase. *)
Lemma tx_first a b c A2 num same S2 s M : hermitian A2 -> st_ok 2 num 1 0 same (mid 2) s M -> (1 <= num)%nat -> (same = true <-> 1%nat = num) -> (num * 1 <= length S2)%nat ->
  exists s' M' T, solve_block (fun X => Val X) (mat_muinv 2 (mid 2)) (tx_solver (sm a b c) A2) same false 0 S2 s (0%Z, 1%Z) = Some (Val s') /\ st_ok 2 num 1 0 same (mid 2) s' M' /\ combined 1 (slice 0 1 M') (col2 C1 C0) T /\ nth 0 (k_ev s') 0 = a.
Proof.
  intros H2 St Hn Hs HS. destruct (tx_block a b c A2 num same S2 s M 0%nat H2 St Hn Hs HS ltac:(lia)) as (s' & M' & e & E & St' & _ & ((DM & _ & _ & FA & _) & N & T & e2 & Co & (_ & x & y & K & EN & _) & _) & V & _).
  { unfold satisfies. apply (mid_l 2 0). apply (slice_dim 2 (num - 0)). apply (fields_dim _ _ _ _ (proj1 St)). }
  { apply mext; intros i j. rewrite form_slice. destruct (Nat.ltb_spec i 0), (Nat.ltb_spec j 0); try lia. cbn [andb]. symmetry. apply (mdim_id 0). lia. }
  { rewrite dproj_mid0. left. exact C1_neq_0. }
  rewrite dproj_mid0 in K. assert (x = C1 /\ y = C0) as (-> & ->). { destruct K as [(_ & -> & ->)|(Z & _)]; [split; reflexivity|]. exfalso. exact (C1_neq_0 Z). }
  assert (N1 : quad2 (mid 2) C1 C0 = 1) by (rewrite quad2_mid; unfold normsqr; csimp; ring). rewrite N1, sqrt_1 in EN. assert (EN' : N = col2 C1 C0) by (rewrite EN; f_equal; apply C_eq; csimp; field).
  exists s', M', T. split; [exact E|]. split; [exact St'|]. rewrite EN' in Co. split; [exact Co|]. rewrite V.
  pose proof (f_equal (fun F : mat => F 0%nat 0%nat) FA) as Q. cbv beta in Q. rewrite (form_phase _ _ _ _ _ Co), form2 in Q. unfold mdiag in Q. cbn in Q. apply (f_equal re) in Q. revert Q. csimp. intros Q. lra.
Qed.
Lemma tx_run1 a b c A2 : 0 <= a -> hermitian A2 ->
  exists H' M T, solve_kpoint_target (fun X => Val X) (mat_muinv 2 (mid 2)) (tx_solver (sm a b c) A2) 1 false true false 1 [C0] [0] (mk2 C1 C1) kx_blk None = Some (Val (H', [sqrt a])) /\ fields 2 1 H' M /\ combined 1 M (col2 C1 C0) T.
Proof.
  intros Ha H2. pose proof arrays_1 as ((M0 & F0) & A0 & _ & Wb & Nb & Ab & Hs & HB & HS & Lv).
  destruct (tx_first a b c A2 1 true [C0] {| k_H := mk2 C1 C1; k_blk := kx_blk; k_BY := None; k_ev := [0] |} M0 H2) as (s' & M' & T & E & St & Co & V).
  { split; [exact F0|]. split; [exact A0|]. split; [exact Wb|]. split; [exact Nb|]. split; [exact Ab|]. split; [exact HB|exact Lv]. }
  { lia. } { split; reflexivity. } { cbn; lia. }
  exists (k_H s'), M', T. destruct St as (F' & _ & _ & _ & _ & _ & L'). rewrite (slice_all 2 1 M' (fields_dim _ _ _ _ F')) in Co. split; [|split; [exact F'|exact Co]].
  unfold solve_kpoint_target. change (solver_blocks 1 0 (ealloc kx_blk) 1 (ealloc kx_blk)) with (Some [(0%Z, 1%Z)]). cbv beta iota. cbn [solve_loop]. rewrite E. cbn [bind].
  destruct (k_ev s') as [|v [|? ?]]; try discriminate L'. cbn in V. subst v. cbv -[Rltb sqrt Rplus Rmult Rinv IZR k_H]. destruct (Rltb_spec a 0); [lra|]. reflexivity.
Qed.
Lemma tx_run2 a b A2 : 0 <= a -> 0 <= b -> hermitian A2 ->
  exists H', solve_kpoint_target (fun X => Val X) (mat_muinv 2 (mid 2)) (tx_solver (sm a b 0) A2) 2 false false false 2 [C0; C0] [0; 0] kx_H kx_blk None = Some (Val (H', [sqrt a; sqrt b])).
Proof.
  intros Ha Hb H2. pose proof kx_arrays as ((M0 & F0) & A0 & _ & Wb & Nb & Ab & Hs & HB & HS & Lv).
  destruct (tx_first a b 0 A2 2 false [C0; C0] {| k_H := kx_H; k_blk := kx_blk; k_BY := None; k_ev := [0; 0] |} M0 H2) as (s1 & M1 & T & E1 & St1 & Co & V1).
  { split; [exact F0|]. split; [exact A0|]. split; [exact Wb|]. split; [exact Nb|]. split; [exact Ab|]. split; [exact HB|exact Lv]. }
  { lia. } { split; [discriminate|lia]. } { cbn; lia. }
  assert (D1 : mdim 2 2 M1) by apply (fields_dim _ _ _ _ (proj1 St1)).
  assert (P1 : dproj 2 1 (mid 2) (mid 2) (slice 0 1 M1) = fun i j => if ((i =? 1) && (j =? 1))%nat then C1 else C0).
  { rewrite (combined_proj 2 (mid 2) 1 (slice 0 1 M1) (col2 C1 C0) T (col2_dim _ _) Co). apply mext; intros i j. unfold dproj, yyb, msub, madd, mscal, mmul, madj, mid. cbn [csum]. destruct i as [|[|i]], j as [|[|j]]; cbn; apply C_eq; csimp; try ring. }
  destruct (tx_block a b 0 A2 2 false [C0; C0] s1 M1 1%nat H2 St1 ltac:(lia) ltac:(split; [discriminate|lia]) ltac:(cbn; lia) ltac:(lia)) as (s2 & M2 & e & E2 & St2 & _ & ((DM & _ & _ & FA & _) & N & T2 & e2 & Co2 & (_ & x & y & K & EN & _) & _) & V2 & V3).
  { unfold satisfies. apply (mid_l 2 1). apply (slice_dim 2 2). exact D1. }
  { apply dim1; [apply form_dim; [apply mdim_id|apply (slice_dim 2 2); exact D1|apply (slice_dim 2 2); exact D1]|apply mdim_id|]. rewrite (form_phase _ _ _ _ _ Co), form2. unfold mid. cbn. apply C_eq; csimp; ring. }
  { rewrite P1. right. exact C1_neq_0. }
  rewrite P1 in K. assert (x = C0 /\ y = C1) as (-> & ->). { cbn in K. destruct K as [([Z|Z] & _)|(_ & _ & -> & ->)]; [exfalso; apply Z; reflexivity..|split; reflexivity]. }
  assert (N1 : quad2 (mid 2) C0 C1 = 1) by (rewrite quad2_mid; unfold normsqr; csimp; ring). rewrite N1, sqrt_1 in EN. assert (EN' : N = col2 C0 C1) by (rewrite EN; f_equal; apply C_eq; csimp; field). rewrite EN' in Co2.
  assert (Eb : e 0%nat = b). { pose proof (f_equal (fun F : mat => F 0%nat 0%nat) FA) as Q. cbv beta in Q. rewrite (form_phase _ _ _ _ _ Co2), form2 in Q. unfold mdiag in Q. cbn in Q. apply (f_equal re) in Q. revert Q. csimp. intros Q. lra. }
  exists (k_H s2). unfold solve_kpoint_target. change (solver_blocks 2 0 (ealloc kx_blk) 2 (ealloc kx_blk)) with (Some [(0%Z, 1%Z); (1%Z, 1%Z)]). cbv beta iota. cbn [solve_loop]. rewrite E1. change (Z.of_nat 1) with 1%Z in E2. rewrite E2. cbn [bind].
  destruct St2 as (_ & _ & _ & _ & _ & _ & L2). specialize (V3 0%nat ltac:(lia)). rewrite V1 in V3. rewrite Eb in V2. destruct (k_ev s2) as [|u [|v [|? ?]]]; try discriminate L2. cbn in V2, V3. subst u v.
  cbv -[Rltb sqrt Rplus Rmult Rinv IZR k_H]. destruct (Rltb_spec a 0); [lra|]. destruct (Rltb_spec b 0); [lra|]. reflexivity.
Qed.
