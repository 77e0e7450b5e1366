(** A small instance of the Davidson solver: two components, one band, A = diag(1, 3), two blocks. *)
From Coq Require Import List ZArith Reals Bool Arith Lia Lra.
From Verif Require Import Base RC Loops M_Evect M_Lin M_Eig M_Dav S_Evect S_Eig S_Dav L_Evect L_Evect3 L_Mat L_Eig L_Eig2 L_Eig3 L_Eig4 L_Eig5 L_Eig7 L_Eig12 L_EigEx L_Dav L_Dav2 L_Dav3 L_Dav4 L_Dav5 L_Dav6 L_Dav7.
Import ListNotations.
Local Open Scope R_scope.
Add Ring Cring_dex : C_ring_theory.

(** Diagonalization of 2 x 2 Hermitian matrices ((a, b), (b*, c)). *)
Definition lam1 (a c : R) (b : C) : R := (a + c) / 2 - sqrt ((a - c) / 2 * ((a - c) / 2) + normsqr b).
Definition lam2 (a c : R) (b : C) : R := (a + c) / 2 + sqrt ((a - c) / 2 * ((a - c) / 2) + normsqr b).
Definition eig2 (a c : R) (b : C) : list C * list R :=
  if Reqb (normsqr b) 0 then if Rleb a c then ([C1; C0; C0; C1], [a; c]) else ([C0; C1; C1; C0], [c; a])
  else let l1 := lam1 a c b in let l2 := lam2 a c b in let N := sqrt (normsqr b + (l1 - a) * (l1 - a)) in
    ([Cscal (/ N) (Cconj b); RtoC ((l1 - a) / N); RtoC (- ((l1 - a) / N)); Cscal (/ N) b], [l1; l2]).
Definition dx_heev (p : Z) (d : list C) : list C * list R :=
  if (p =? 1)%Z then ex_heev p d else match d with a :: b :: _ :: c :: r => let (V, e) := eig2 (re a) (re c) b in (V ++ r, e) | _ => (d, []) end.

Lemma dim2 M M' : mdim 2 2 M -> mdim 2 2 M' -> M O O = M' O O -> M O 1%nat = M' O 1%nat -> M 1%nat O = M' 1%nat O -> M 1%nat 1%nat = M' 1%nat 1%nat -> M = M'.
Proof. intros D D' E1 E2 E3 E4. apply mext; intros [|[|i]] [|[|j]]; auto; rewrite D, D' by lia; reflexivity. Qed.
Definition m2 (x y z w : C) : mat := fun i j => match i, j with O, O => x | O, 1%nat => y | 1%nat, O => z | 1%nat, 1%nat => w | _, _ => C0 end.
Lemma m2_dim x y z w : mdim 2 2 (m2 x y z w).
Proof. intros [|[|i]] [|[|j]] H; try reflexivity; lia. Qed.
Lemma normsqr_pos b : 0 <= normsqr b.
Proof. unfold normsqr. nra. Qed.
Lemma lam_facts a c b : normsqr b <> 0 -> let l1 := lam1 a c b in let l2 := lam2 a c b in
  l1 < l2 /\ l1 + l2 = a + c /\ (l1 - a) * (l2 - a) = - normsqr b /\ l1 - a < 0 /\ 0 < normsqr b + (l1 - a) * (l1 - a) /\ normsqr b + (l1 - a) * (l1 - a) = (l1 - a) * (l1 - l2).
Proof.
  intros Nb l1 l2. pose proof (normsqr_pos b) as P. set (s := sqrt ((a - c) / 2 * ((a - c) / 2) + normsqr b)). set (d := (a - c) / 2).
  assert (Q : s * s = d * d + normsqr b) by (unfold s, d; apply sqrt_sqrt; pose proof (Rle_0_sqr ((a - c) / 2)) as Z; unfold Rsqr in Z; lra). assert (Ps : 0 <= s) by (unfold s; apply sqrt_pos).
  assert (Ps' : 0 < s) by (destruct (Req_dec s 0) as [E|E]; [rewrite E in Q; nra|lra]).
  assert (E1 : l1 = a - d - s) by (unfold l1, lam1, d, s; field). assert (E2 : l2 = a - d + s) by (unfold l2, lam2, d, s; field).
  assert (Sd : 0 < s + d) by (destruct (Rlt_dec 0 (s + d)) as [H|H]; [exact H|]; assert (0 <= (- d - s) * (s - d)) by (apply Rmult_le_pos; lra); nra). rewrite E1, E2. split; [lra|]. split; [unfold d; field|]. split; [ring_simplify; nra|]. split; [lra|]. split; nra.
Qed.
Lemma dx_heev_ok2 : heev_ok 2 dx_heev.
Proof.
  intros d M (L & D & E) Hh. destruct d as [|a [|b [|b' [|c r]]]]; cbn in L; try lia.
  assert (E1 := E O O ltac:(lia) ltac:(lia)). assert (E2 := E O 1%nat ltac:(lia) ltac:(lia)). assert (E3 := E 1%nat O ltac:(lia) ltac:(lia)). assert (E4 := E 1%nat 1%nat ltac:(lia) ltac:(lia)). cbn in E1, E2, E3, E4.
  assert (H1 : im a = 0) by (assert (Q := f_equal (fun F => im (F O O)) Hh); unfold madj in Q; rewrite <- E1 in Q; revert Q; csimp; lra).
  assert (H4 : im c = 0) by (assert (Q := f_equal (fun F => im (F 1%nat 1%nat)) Hh); unfold madj in Q; rewrite <- E4 in Q; revert Q; csimp; lra).
  assert (H3 : b' = Cconj b) by (rewrite E2, E3; assert (Q := f_equal (fun F => F 1%nat O) Hh); unfold madj in Q; symmetry; exact Q).
  assert (EM : M = m2 (RtoC (re a)) b (Cconj b) (RtoC (re c))).
  { apply dim2; [exact D|apply m2_dim|..]; cbn [m2]; [rewrite <- E1|auto|rewrite <- E3; exact H3|rewrite <- E4]; apply C_eq; auto. }
  clear E E1 E2 E3 E4 Hh D. unfold dx_heev. cbn [Z.of_nat Z.eqb Pos.eqb Pos.of_succ_nat Pos.succ]. set (x := re a) in *. set (y := re c) in *. rewrite H3. clear H3.
  assert (Fin : forall V e U, eig2 x y b = (V, e) -> length V = 4%nat -> length e = 2%nat -> (forall i j, (i < 2)%nat -> (j < 2)%nat -> nth (i * 2 + j) V C0 = U i j) -> mdim 2 2 U -> mmul 2 U (madj U) = mid 2 -> mmul 2 (madj U) U = mid 2 ->
      M = mmul 2 (madj U) (mmul 2 (mdiag 2 (fun i => nth i e 0)) U) -> nth 0 e 0 <= nth 1 e 0 ->
      let o := (let (V, e) := eig2 x y b in (V ++ r, e)) in length (fst o) = length (a :: b :: Cconj b :: c :: r) /\ length (snd o) = 2%nat /\ exists V, rep 2 2 (fst o) V /\ mmul 2 V (madj V) = mid 2 /\ mmul 2 (madj V) V = mid 2 /\ M = mmul 2 (madj V) (mmul 2 (mdiag 2 (fun i => nth i (snd o) 0)) V) /\ forall i j, (i <= j < 2)%nat -> nth i (snd o) 0 <= nth j (snd o) 0).
  { intros V e U -> LV Le HU DU U1 U2 EU As. cbv zeta. cbn [fst snd]. split; [rewrite app_length, LV; reflexivity|]. split; [exact Le|]. exists U. split; [split; [rewrite app_length, LV; lia|split; [exact DU|]]; intros i j Hi Hj; rewrite app_nth1 by (rewrite LV; lia); apply HU; auto|].
    split; [exact U1|]. split; [exact U2|]. split; [exact EU|]. intros i j Hij. assert (i = O /\ j = O \/ i = O /\ j = 1%nat \/ i = 1%nat /\ j = 1%nat) as [(-> & ->)|[(-> & ->)|(-> & ->)]] by lia; lra. }
  assert (Dd : forall f U, mdim 2 2 U -> mdim 2 2 (mmul 2 (madj U) (mmul 2 (mdiag 2 f) U))).
  { intros f U DU. apply (mdim_mul 2 2 2); [apply mdim_adj, DU|]. apply (mdim_mul 2 2 2); [apply mdiag_dim|exact DU]. }
  pose proof (lam_facts x y b) as LF. unfold eig2 in *. destruct (Reqb_spec (normsqr b) 0) as [Z0|Nz]; [destruct (Rleb_spec x y) as [Le|Gt]|].
  - assert (Zb : b = C0) by (unfold normsqr in Z0; apply C_eq; csimp; nra).
    apply (Fin _ _ (m2 C1 C0 C0 C1) eq_refl eq_refl eq_refl); [intros [|[|i]] [|[|j]] Hi Hj; try lia; reflexivity|apply m2_dim|..].
    + apply dim2; [apply (mdim_mul 2 2 2); [|apply mdim_adj]; apply m2_dim|apply mdim_id|..]; unfold mmul, madj, mid; cbn [csum m2 Nat.eqb Nat.ltb Nat.leb andb]; apply C_eq; csimp; ring.
    + apply dim2; [apply (mdim_mul 2 2 2); [apply mdim_adj|]; apply m2_dim|apply mdim_id|..]; unfold mmul, madj, mid; cbn [csum m2 Nat.eqb Nat.ltb Nat.leb andb]; apply C_eq; csimp; ring.
    + rewrite EM, Zb. apply dim2; [apply m2_dim|apply Dd, m2_dim|..]; unfold mmul, madj, mdiag; cbn [csum m2 nth Nat.eqb Nat.ltb Nat.leb andb]; apply C_eq; csimp; ring.
    + exact Le.
  - assert (Zb : b = C0) by (unfold normsqr in Z0; apply C_eq; csimp; nra).
    apply (Fin _ _ (m2 C0 C1 C1 C0) eq_refl eq_refl eq_refl); [intros [|[|i]] [|[|j]] Hi Hj; try lia; reflexivity|apply m2_dim|..].
    + apply dim2; [apply (mdim_mul 2 2 2); [|apply mdim_adj]; apply m2_dim|apply mdim_id|..]; unfold mmul, madj, mid; cbn [csum m2 Nat.eqb Nat.ltb Nat.leb andb]; apply C_eq; csimp; ring.
    + apply dim2; [apply (mdim_mul 2 2 2); [apply mdim_adj|]; apply m2_dim|apply mdim_id|..]; unfold mmul, madj, mid; cbn [csum m2 Nat.eqb Nat.ltb Nat.leb andb]; apply C_eq; csimp; ring.
    + rewrite EM, Zb. apply dim2; [apply m2_dim|apply Dd, m2_dim|..]; unfold mmul, madj, mdiag; cbn [csum m2 nth Nat.eqb Nat.ltb Nat.leb andb]; apply C_eq; csimp; ring.
    + cbn [nth]. lra.
  - destruct (LF Nz) as (L1 & L2 & L3 & L4 & L5 & L6). cbv zeta in Fin |- *. set (l1 := lam1 x y b) in *. set (l2 := lam2 x y b) in *. set (N := sqrt (normsqr b + (l1 - x) * (l1 - x))) in *.
    assert (NN : N * N = normsqr b + (l1 - x) * (l1 - x)) by (unfold N; apply sqrt_sqrt; lra). assert (PN : 0 < N) by (unfold N; apply sqrt_lt_R0; exact L5).
    set (i := / N) in *. assert (Ni : N * i = 1) by (unfold i; field; lra). assert (ii : i * i * (normsqr b + (l1 - x) * (l1 - x)) = 1) by (rewrite <- NN; nra).
    change ((l1 - x) / N) with ((l1 - x) * i) in *. set (u := (l1 - x) * i) in *. set (v := Cscal i b) in *. assert (ev : Cscal i (Cconj b) = Cconj v) by (unfold v; apply C_eq; csimp; ring). rewrite ev in *.
    assert (uv : normsqr v + u * u = 1). { rewrite <- ii. unfold v, u, normsqr. csimp. ring. }
    assert (bu : b = Cscal (u * (l1 - l2)) v). { unfold u, v. assert (W : (l1 - x) * i * (l1 - l2) * i = 1) by (rewrite <- ii, L6; ring). apply C_eq; csimp; [transitivity ((l1 - x) * i * (l1 - l2) * i * fst b)|transitivity ((l1 - x) * i * (l1 - l2) * i * snd b)]; [rewrite W; ring|ring|rewrite W; ring|ring]. }
    assert (nv : normsqr v * (l2 - l1) = l2 - x). { assert (W : u * u * (l1 - l2) = (l1 - x)) by (unfold u; transitivity ((l1 - x) * (i * i * ((l1 - x) * (l1 - l2)))); [ring|]; rewrite <- L6, ii; ring). replace (normsqr v) with (1 - u * u) by lra. lra. }
    clearbody u v. apply (Fin _ _ (m2 (Cconj v) (RtoC u) (RtoC (- u)) v) eq_refl eq_refl eq_refl); [intros [|[|k]] [|[|j]] Hi Hj; try lia; reflexivity|apply m2_dim|..].
    + unfold normsqr in uv. apply dim2; [apply (mdim_mul 2 2 2); [|apply mdim_adj]; apply m2_dim|apply mdim_id|..]; unfold mmul, madj, mid; cbn [csum m2 Nat.eqb Nat.ltb Nat.leb andb]; apply C_eq; revert uv; csimp; intros uv; lra.
    + unfold normsqr in uv. apply dim2; [apply (mdim_mul 2 2 2); [apply mdim_adj|]; apply m2_dim|apply mdim_id|..]; unfold mmul, madj, mid; cbn [csum m2 Nat.eqb Nat.ltb Nat.leb andb]; apply C_eq; revert uv; csimp; intros uv; lra.
    + rewrite EM. rewrite bu at 1 2. unfold normsqr in uv, nv. apply dim2; [apply m2_dim|apply Dd, m2_dim|..]; unfold mmul, madj, mdiag; cbn [csum m2 nth Nat.eqb Nat.ltb Nat.leb andb]; apply C_eq; revert uv nv; csimp; intros uv nv; nra.
    + cbn [nth]. lra.
Qed.

Lemma dx_ok : davidson_ok 2 1 2 ex_potr dx_heev ex_opA None None exA (mid 2).
Proof.
  split.
  - lia.
  - apply ex_potr_ok.
  - intros k Hk. assert (k = 1 \/ k = 2)%nat as [->| ->] by lia; [|apply dx_heev_ok2]. intros d M. pose proof (ex_heev_ok d M) as H. exact H.
  - apply exA_dim.
  - apply exA_herm.
  - apply ex_applies.
  - exact I.
  - reflexivity.
  - apply (mid_l 2 2), mdim_id.
Qed.
Definition dx_Y : emat C := {| en := 2; ep := 1; ealloc := 1; edata := [C1; C1] |}.
Definition e12 : mat := fun i j => if ((i <? 2) && (j =? 0))%nat then C1 else C0.
Lemma e12_dim : mdim 2 1 e12.
Proof. intros i j H. unfold e12. destruct (Nat.ltb_spec i 2), (Nat.eqb_spec j 0); cbn [andb]; auto; lia. Qed.
Lemma dx_fields : fields 2 1 dx_Y e12.
Proof. split; [reflexivity|]. split; [reflexivity|]. split; [unfold wf; cbn; lia|]. apply rep21_of; [apply e12_dim|reflexivity..]. Qed.
Definition dx_Work : list (emat C) := [dx_Y; dx_Y; dx_Y; dx_Y].
Lemma dx_work : workspace 2 1 dx_Work.
Proof. intros w H. exists e12. cbn in H. repeat destruct H as [<-|H]; try contradiction; apply dx_fields. Qed.

Lemma dx_run k : (2 <= k)%nat -> exists rs Y e, davidson ex_potr dx_heev ex_opA None None 2 0 k dx_Y [0] dx_Work = Val (rs, Y, e).
Proof.
  intros Hk. pose proof (davidson_run 2 1 2 ex_potr dx_heev ex_opA None None exA (mid 2) 0 2 dx_ok ltac:(lia) e12 dx_Y [0] dx_Work dx_fields ltac:(cbn; lia) dx_work eq_refl k) as [(Ab & _)|(r & r0 & t & Y' & e' & M & M' & E & _)]; [exfalso|eauto].
  revert Ab. unfold davidson.
  destruct (dstart_ok 2 1 2 ex_potr dx_heev ex_opA None None exA (mid 2) dx_ok ltac:(lia) e12 dx_Y [0] dx_Work dx_fields ltac:(cbn; lia) dx_work eq_refl) as [(_ & Nd)|(s & M & -> & Ind & Is & Rs & DM)].
  { exfalso. apply Nd. apply posdef1. rewrite (mid_l 2 1 e12 e12_dim). unfold form, mmul, madj, mid, e12. cbn [csum Nat.eqb Nat.ltb Nat.leb andb]. csimp. lra. }
  cbn [bind]. replace (Z.quot (Z.of_nat (length dx_Work)) 2) with 2%Z by reflexivity. destruct k as [|[|k]]; try lia. cbn [dloop].
  destruct (iterate_ok 2 1 2 ex_potr dx_heev ex_opA None None exA (mid 2) 0 2 dx_ok ltac:(lia) 0 s 0 (fun _ => M) Is) as (r & it & U & e0 & _ & Ir & H). unfold conv in H. cbn [Z.ltb Z.compare andb] in H. change (Z.of_nat 2) with 2%Z in H.
  destruct H as ([(_ & Sk)|(s' & b2 & M2 & -> & _ & Is' & _)] & _).
  - exfalso. destruct (stage_of 2 1 2 ex_potr dx_heev ex_opA None None exA (mid 2) 0 dx_ok ltac:(lia) s 0 (fun _ => M) r it U e0 Is Ir) as (St & _). set (MY := ritzM 1 0 (fun _ => M) it U) in *.
    pose proof (blocks_1 2 1 M ltac:(lia) DM) as B1. change (1 * 1)%nat with 1%nat in *. rewrite B1 in *.
    destruct (stage_facts _ _ _ _ _ _ _ _ _ _ _ exA_dim St) as ((DY & OY) & _ & FM & _ & T2 & DT2 & E2). pose proof St as (_ & (_ & OW) & _ & _ & HY & _).
    destruct Sk as (M0 & q & W & G & X & MX & D & T & HM0 & Wq & _ & _ & HK & DD & DT & ET & OD & Nd). assert (M0 = MY) by (apply (rep_fun 2 1 (edata (r_Y r))); [apply HM0|apply HY]). subst M0.
    destruct Wq as [(_ & -> & ->)|(Q & _)]; [|lia]. set (R := residual 2 1 exA MY (fun i => nth i (r_e r) 0)) in *. subst MX.
    assert (DR : mdim 2 1 R). { unfold R, residual, msub. apply mdim_add; [apply (mdim_mul 2 2 1); [apply exA_dim|exact DY]|]. apply mdim_scal, (mdim_mul 2 1 1); [exact DY|apply mdiag_dim]. }
    rewrite (mid_l 2 1 R DR) in ET.
    assert (D0 : D = mzero).
    { assert (Nn : ~ 0 < re (form 2 (mid 2) D D O O)) by (intros Q; apply Nd; apply posdef1; exact Q). unfold form in Nn. rewrite (mid_l 2 1 D DD) in Nn. unfold mmul, madj in Nn. cbn [csum] in Nn. revert Nn. csimp. intros Nn.
      assert (D O O = C0 /\ D 1%nat O = C0) as (D1 & D2). { split; apply C_eq; csimp; nra. } apply mext; intros [|[|i]] [|j]; unfold mzero; auto; apply DD; lia. }
    assert (OR : mmul 2 (madj MY) R = mzero).
    { unfold R, residual, msub. rewrite mmul_add_r, mmul_scal_r, <- (mmul_assoc 2 1 (madj MY) MY), OY, (mid_l 1 1) by apply mdiag_dim. change (mmul 2 (madj MY) (mmul 2 exA MY)) with (form 2 exA MY MY). rewrite FM. apply mscal_m1_add. }
    assert (T0 : T = mzero).
    { rewrite ET, D0, E2 in OR. rewrite madj_mul in OR. rewrite mmul_assoc in OR. rewrite mmul_add_r, mmul_zero_r in OR. rewrite <- (mmul_assoc 2 1 (madj M) M T), OW, (mid_l 1 1 T DT) in OR.
      assert (OT : mmul 1 (madj T2) T2 = mid 1) by (rewrite E2, madj_mul, mmul_assoc, <- (mmul_assoc 2 1 (madj M) M), OW, (mid_l 1 1 T2 DT2) in OY; exact OY).
      assert (Q := f_equal (fun F => F O O) OR). assert (Q2 := f_equal (fun F => re (F O O)) OT). unfold mmul, madd, madj, mzero, mid in Q, Q2. cbn [csum Nat.eqb Nat.ltb Nat.leb andb] in Q, Q2.
      assert (Qr := f_equal re Q). assert (Qi := f_equal im Q). revert Qr Qi Q2. csimp. intros Qr Qi Q2. apply mext; intros [|i] [|j]; try (apply DT; lia).
      assert (Ta := f_equal (fun z => z) Q2). set (ta := fst (T2 O O)) in *. set (tb := snd (T2 O O)) in *. unfold mzero. apply C_eq; csimp; set (xa := fst (T O O)) in *; set (xb := snd (T O O)) in *.
      - replace xa with (ta * (ta * xa + tb * xb) + tb * (tb * xa - ta * xb) + xa * (1 - (ta * ta + tb * tb))) by ring. nra.
      - replace xb with (tb * (ta * xa + tb * xb) - ta * (tb * xa - ta * xb) + xb * (1 - (ta * ta + tb * tb))) by ring. nra. }
    assert (R0 : R = mzero) by (rewrite ET, D0, T0, mmul_zero_r, mzero_add; reflexivity).
    destruct Rs as (T3 & _ & DT3 & _ & _ & _ & EM). rewrite (mid_l 2 1 e12 e12_dim) in EM. rewrite EM, mmul_assoc in E2. set (c := mmul 1 T3 T2 O O).
    assert (M00 : MY O O = c /\ MY 1%nat O = c) by (rewrite E2; unfold c; split; unfold mmul, e12; cbn [csum Nat.eqb Nat.ltb Nat.leb andb]; ring).
    destruct M00 as (Ma & Mb). assert (Q1 := f_equal (fun F => F O O) R0). assert (Q2 := f_equal (fun F => F 1%nat O) R0). unfold R, residual, msub, madd, mscal, mmul, exA, mdiag, mzero in Q1, Q2. cbn [csum Nat.eqb Nat.ltb Nat.leb andb] in Q1, Q2. rewrite Ma, Mb in Q1, Q2. clearbody c.
    assert (Q3 := f_equal (fun F => re (F O O)) OY). unfold mmul, madj, mid in Q3. cbn [csum Nat.eqb Nat.ltb Nat.leb andb] in Q3. rewrite Ma, Mb in Q3. assert (Qa := f_equal re Q1). assert (Qb := f_equal im Q1). assert (Qc := f_equal re Q2). assert (Qd := f_equal im Q2). revert Qa Qb Qc Qd Q3. csimp. intros Qa Qb Qc Qd Q3. nra.
  - cbn [bind]. destruct (iterate_ok 2 1 2 ex_potr dx_heev ex_opA None None exA (mid 2) 0 2 dx_ok ltac:(lia) (0 + 1) s' b2 M2 Is') as (r1 & it1 & U1 & e1' & _ & Ir1 & H). change (Z.of_nat 2) with 2%Z in H.
    assert (Cv : conv 2 (0 + 1) s' r1 = true).
    { unfold conv. cbn [Z.add Z.ltb Z.compare andb]. destruct (Rltb_spec (Rabs (r_E r1 - d_prev_E s')) (2 * / 2 * (Rabs (r_E r1) + Rabs (d_prev_E s') + / 10000000))) as [_|Nc]; [reflexivity|exfalso; apply Nc].
      pose proof (Rabs_triang (r_E r1) (- d_prev_E s')) as Q. rewrite Rabs_Ropp in Q. unfold Rminus. lra. }
    rewrite Cv in H. rewrite H. cbn [bind]. destruct (stage_of 2 1 2 ex_potr dx_heev ex_opA None None exA (mid 2) 0 dx_ok ltac:(lia) s' b2 M2 r1 it1 U1 e1' Is' Ir1) as (St & _).
    destruct (final_ok 2 1 2 ex_potr dx_heev ex_opA None None exA (mid 2) dx_ok ltac:(lia) r1 _ _ _ _ _ St) as (Y' & e' & M' & EF & _). cbv zeta in EF. destruct (XtX _ _ _) as [UU| | |]; try discriminate. cbn [bind] in *. destruct (invert ex_potr UU) as [[U'|]| | |]; try discriminate. cbn [bind] in *. rewrite EF. discriminate.
Qed.

(** A constraint that excludes one of the two components. *)
Definition sx_P : mat := e1.
Definition sx_constraint (X : emat C) : outcome (emat C) := Val (set_data X (match edata X with a :: b :: r => a :: C0 :: r | l => l end)).
