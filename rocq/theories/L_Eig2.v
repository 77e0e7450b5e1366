(** The operations on square matrices and fields, in terms of [square] and [fields]. *)
From Coq Require Import List ZArith Reals Bool Arith Lia Lra.
From Verif Require Import Base RC Loops M_Evect M_Lin M_Eig S_Evect S_Eig L_Evect L_Evect3 L_Mat L_Eig.
Import ListNotations.
Local Open Scope R_scope.
Local Open Scope Z_scope.
Add Ring Cring_e : C_ring_theory.

Lemma square_set p S M d M' : square p S M -> length d = length (sdata S) -> rep p p d M' -> square p (sset S d) M'.
Proof. intros (H1 & (H2 & H3) & _) L R. split; [exact H1|]. split; [|exact R]. split; [exact H2|]. cbn. rewrite L. exact H3. Qed.
Lemma fields_set n p X M d M' : fields n p X M -> length d = length (edata X) -> rep n p d M' -> fields n p (set_data X d) M'.
Proof. intros (H1 & H2 & W & _) L R. split; [exact H1|]. split; [exact H2|]. split; [apply wf_set; auto|exact R]. Qed.
Lemma square_dim p S M : square p S M -> mdim p p M.
Proof. intros (_ & _ & H). apply H. Qed.
Lemma fields_dim n p X M : fields n p X M -> mdim n p M.
Proof. intros (_ & _ & _ & H). apply H. Qed.
Lemma square_len p S M : square p S M -> (p * p <= length (sdata S))%nat.
Proof. intros (_ & _ & H). apply H. Qed.
Lemma fields_len n p X M : fields n p X M -> (n * p <= length (edata X))%nat.
Proof. intros (_ & _ & _ & H). apply H. Qed.
Lemma create_square p : square p (create_sq (Z.of_nat p)) (fun _ _ => C0).
Proof.
  split; [reflexivity|]. unfold create_sq. split; [split; cbn; [lia|rewrite repeat_length; lia]|]. cbn. split; [rewrite repeat_length; lia|]. split; [intros ? ? ?; reflexivity|].
  intros i j _ _. apply nth_repeat.
Qed.

Ltac sz := repeat match goal with H : square _ _ _ |- _ => let E := fresh in pose proof (proj1 H) as E; rewrite E in *; clear E; revert H end; intros.

Section Sq.
Variable p : nat.
Lemma copy_ok A MA B MB : square p A MA -> square p B MB -> exists A', sqmatrix_copy A B = Val A' /\ square p A' MB.
Proof.
  intros HA HB. unfold sqmatrix_copy, check. rewrite (proj1 HA), (proj1 HB), Z.eqb_refl. cbn [bind].
  destruct (rep_copy p p (sdata B) (sdata A) MB) as (y & E & L & Q); [apply HB|apply (square_len _ _ _ HA)|]. rewrite E. cbn [bind]. eexists. split; [reflexivity|].
  apply (square_set p A MA); auto.
Qed.
Lemma AeBC_ok A MA B MB b D MD d : square p A MA -> square p B MB -> square p D MD ->
  exists A', sqmatrix_AeBC A B b D d = Val A' /\ square p A' (mmul p (opm b MB) (opm d MD)).
Proof.
  intros HA HB HD. unfold sqmatrix_AeBC, check. rewrite (proj1 HA), (proj1 HB), (proj1 HD), !Z.eqb_refl. cbn [bind andb].
  destruct (rep_gemm b d p p p 1 (sdata B) MB (sdata D) MD 0 (sdata A) MA (Z.of_nat p) (Z.of_nat p)) as (c & E & L & Q);
    [destruct b; apply HB|destruct d; apply HD|destruct b; reflexivity|destruct d; reflexivity|apply (square_len _ _ _ HA)|apply (square_dim _ _ _ HA)|left; reflexivity|].
  rewrite E. cbn [bind]. eexists. split; [reflexivity|]. apply (square_set p A MA); [exact HA|exact L|].
  replace (mmul p (opm b MB) (opm d MD)) with (madd (mscal 1 (mmul p (opm b MB) (opm d MD))) (mscal 0 MA)); [exact Q|].
  apply mext; intros i j. unfold madd, mscal. apply C_eq; csimp; ring.
Qed.
Lemma ApaBC_ok A MA a B MB b D MD d : (1 <= p)%nat -> square p A MA -> square p B MB -> square p D MD ->
  exists A', sqmatrix_ApaBC A a B b D d = Val A' /\ square p A' (madd MA (mscal a (mmul p (opm b MB) (opm d MD)))).
Proof.
  intros Hp HA HB HD. unfold sqmatrix_ApaBC, check. rewrite (proj1 HA), (proj1 HB), (proj1 HD), !Z.eqb_refl. cbn [bind andb].
  destruct (rep_gemm b d p p p a (sdata B) MB (sdata D) MD 1 (sdata A) MA (Z.of_nat p) (Z.of_nat p)) as (c & E & L & Q);
    [destruct b; apply HB|destruct d; apply HD|destruct b; reflexivity|destruct d; reflexivity|apply (square_len _ _ _ HA)|apply (square_dim _ _ _ HA)|right; split; [exact Hp|apply HA]|].
  rewrite E. cbn [bind]. eexists. split; [reflexivity|]. apply (square_set p A MA); [exact HA|exact L|].
  replace (madd MA (mscal a (mmul p (opm b MB) (opm d MD)))) with (madd (mscal a (mmul p (opm b MB) (opm d MD))) (mscal 1 MA)); [exact Q|].
  apply mext; intros i j. unfold madd, mscal. apply C_eq; csimp; ring.
Qed.
Lemma ApaB_ok A MA a B MB : square p A MA -> square p B MB -> exists A', sqmatrix_ApaB A a B = Val A' /\ square p A' (madd MA (mscal a MB)).
Proof.
  intros HA HB. unfold sqmatrix_ApaB, check. rewrite (proj1 HA), (proj1 HB), Z.eqb_refl. cbn [bind].
  destruct (rep_axpy p p a (sdata B) (sdata A) MB MA) as (y & E & L & Q); [apply HB|apply HA|]. rewrite E. cbn [bind]. eexists. split; [reflexivity|].
  apply (square_set p A MA); auto.
Qed.
Lemma aApbB_ok A MA a b B MB : square p A MA -> square p B MB -> exists A', sqmatrix_aApbB a A b B = Val A' /\ square p A' (madd (mscal a MA) (mscal b MB)).
Proof.
  intros HA HB. unfold sqmatrix_aApbB, check. rewrite (proj1 HA), (proj1 HB), Z.eqb_refl. cbn [bind].
  assert (S : exists d, (if Reqb a 1 then Val (sdata A) else blas_rscal (Z.of_nat p * Z.of_nat p) a (sdata A)) = Val d /\ length d = length (sdata A) /\ rep p p d (mscal a MA)).
  { destruct (Reqb_spec a 1) as [->|]; [|apply rep_rscal; apply HA]. exists (sdata A). rewrite mscal_1. split; [reflexivity|]. split; [reflexivity|apply HA]. }
  destruct S as (d & -> & Ld & Hd). cbn [bind].
  destruct (rep_axpy p p b (sdata B) d MB (mscal a MA)) as (y & E & L & Q); [apply HB|apply Hd|]. rewrite E. cbn [bind]. eexists. split; [reflexivity|].
  apply (square_set p A MA); auto. congruence.
Qed.
Lemma traceAtB_ok A MA B MB : square p A MA -> square p B MB -> sqmatrix_traceAtB A B = Val (mtr p (mmul p (madj MA) MB)).
Proof.
  intros HA HB. unfold sqmatrix_traceAtB, check. rewrite (proj1 HA), (proj1 HB), Z.eqb_refl. cbn [bind]. apply rep_dotc; [apply HA|apply HB].
Qed.
Lemma trace_ok A MA : square p A MA -> sqmatrix_trace A = Val (mtr p MA).
Proof.
  intros HA. unfold sqmatrix_trace. rewrite (proj1 HA).
  destruct (forZ_inv (fun i t => t = csum (Z.to_nat i) (fun i => MA i i)) (fun i t => let! v := rd (sdata A) (i * Z.of_nat p + i) in Val (t + v)%C) 0 (Z.of_nat p) C0) as (s & E & H); [lia|reflexivity| |].
  - intros i s Hi ->. pose proof (square_len _ _ _ HA). rewrite gets_in by nia. cbn [bind]. eexists. split; [reflexivity|].
    rewrite (rep_gets p p _ MA) by (try apply HA; lia). replace (Z.to_nat (i + 1)) with (S (Z.to_nat i)) by lia. reflexivity.
  - rewrite E, H, Nat2Z.id. reflexivity.
Qed.
Definition msym (M : mat) : mat := mscal (/ 2) (madd M (madj M)).
Lemma symmetrize_ok A MA B MB : square p A MA -> square p B MB -> exists A', sqmatrix_symmetrize A B = Val A' /\ square p A' (msym MB).
Proof.
  intros HA HB. unfold sqmatrix_symmetrize, check. rewrite (proj1 HA), (proj1 HB), Z.eqb_refl. cbn [bind].
  pose proof (square_len _ _ _ HA). pose proof (square_len _ _ _ HB). set (z := Z.of_nat p).
  destruct (write2_ok (fun i j => i * z + j) (fun i j (_ : list C) => let! a := rd (sdata B) (i * z + j) in let! b := rd (sdata B) (j * z + i) in Val ((/ 2 * (re a + re b))%R, (/ 2 * (im a - im b))%R))
    (fun i j => msym MB (Z.to_nat i) (Z.to_nat j)) z z ltac:(lia) ltac:(lia) (sdata A)) as (d' & E & L & Q & _).
  - intros i j Hi Hj. nia.
  - intros i j i' j' Hi Hj Hi' Hj' Eq. apply (rowinj z); lia.
  - intros i j d1 Hi Hj _ _. rewrite !gets_in by nia. cbn [bind]. rewrite !(rep_gets p p _ MB) by (try apply HB; lia). unfold msym, mscal, madd, madj. apply (f_equal (@Val C)). apply C_eq; csimp; ring.
  - exists (sset A d'). split; [exact (f_equal (fun o => let! d := o in Val (sset A d)) E)|]. apply (square_set p A MA); [exact HA|exact L|]. apply rep_of; [lia| |].
    + apply mdim_scal, mdim_add; [|apply mdim_adj]; apply (square_dim _ _ _ HB).
    + intros i j Hi Hj. unfold gets. fold z. rewrite (Q i j Hi Hj). reflexivity.
Qed.

Lemma invert_ok potr A MA : potr_ok p potr -> square p A MA -> hermitian MA ->
  match invert potr A with
  | Val (Some A') => posdef p MA /\ exists N, square p A' N /\ inverse_of p MA N
  | Val None => ~ posdef p MA
  | _ => False
  end.
Proof.
  intros Hok HA Hh. unfold invert. rewrite (proj1 HA). specialize (Hok (sdata A) MA ltac:(apply HA) Hh).
  destruct (potr (Z.of_nat p) (sdata A)) as [d|]; [|exact Hok]. destruct Hok as (L & Pd & N & DN & HN & Up).
  destruct (mirror_ok p d) as (d' & E & L' & Q); [rewrite L; apply (square_len _ _ _ HA)|]. rewrite E. cbn [bind]. split; [exact Pd|]. exists N. split; [|split; [exact DN|exact HN]].
  destruct (inv_both p MA N) as (HhN & _); [apply (square_dim _ _ _ HA)|exact Hh|split; [exact DN|exact HN]|].
  apply (square_set p A MA); [exact HA|congruence|]. split; [pose proof (square_len _ _ _ HA); lia|]. split; [exact DN|]. intros i j Hi Hj. rewrite Q by auto.
  destruct (Nat.leb_spec i j).
  - apply Up. lia.
  - rewrite Up by lia. exact (f_equal (fun F : mat => F i j) HhN).
Qed.
End Sq.

Section Ev.
Variables n p : nat.
Lemma ecopy_ok X MX Y MY : fields n p X MX -> fields n p Y MY -> exists X', evectmatrix_copy X Y = Val X' /\ fields n p X' MY.
Proof.
  intros HX HY. unfold evectmatrix_copy, check. rewrite (proj1 HX), (proj1 HY), (proj1 (proj2 HX)), (proj1 (proj2 HY)), !Z.eqb_refl. cbn [bind andb].
  destruct (rep_copy n p (edata Y) (edata X) MY) as (y & E & L & Q); [apply HY|apply (fields_len _ _ _ _ HX)|]. rewrite E. cbn [bind]. eexists. split; [reflexivity|].
  apply (fields_set n p X MX); auto.
Qed.
Lemma eaXpbY_ok a X MX b Y MY : fields n p X MX -> fields n p Y MY -> exists X', evectmatrix_aXpbY a X b Y = Val X' /\ fields n p X' (madd (mscal a MX) (mscal b MY)).
Proof.
  intros HX HY. unfold evectmatrix_aXpbY, check. rewrite (proj1 HX), (proj1 HY), (proj1 (proj2 HX)), (proj1 (proj2 HY)), !Z.eqb_refl. cbn [bind andb].
  assert (S : exists d, (if Reqb a 1 then Val (edata X) else blas_rscal (Z.of_nat n * Z.of_nat p) a (edata X)) = Val d /\ length d = length (edata X) /\ rep n p d (mscal a MX)).
  { destruct (Reqb_spec a 1) as [->|]; [|apply rep_rscal; apply HX]. exists (edata X). rewrite mscal_1. split; [reflexivity|]. split; [reflexivity|apply HX]. }
  destruct S as (d & -> & Ld & Hd). cbn [bind].
  destruct (rep_axpy n p b (edata Y) d MY (mscal a MX)) as (y & E & L & Q); [apply HY|apply Hd|]. rewrite E. cbn [bind]. eexists. split; [reflexivity|].
  apply (fields_set n p X MX); auto. congruence.
Qed.
Lemma aXpbYS_ok a X MX b Y MY S MS sd : (1 <= p)%nat -> fields n p X MX -> fields n p Y MY -> square p S MS ->
  exists X', aXpbYS_sub a X b Y S 0 sd = Val X' /\ fields n p X' (madd (mscal b (mmul p MY (opm sd MS))) (mscal a MX)).
Proof.
  intros Hp HX HY HS. unfold aXpbYS_sub, check. rewrite (proj1 HX), (proj1 HY), (proj1 (proj2 HX)), (proj1 (proj2 HY)), (proj1 HS), !Z.eqb_refl.
  destruct (Z.eqb_spec (Z.of_nat p) 0); [lia|]. destruct (Z.leb_spec (Z.of_nat p) (Z.of_nat p)); [|lia]. cbn [bind andb].
  destruct (Z.leb_spec (0 + (Z.of_nat p - 1) * Z.of_nat p + Z.of_nat p) (Z.of_nat p * Z.of_nat p)); [|lia]. cbn [bind].
  destruct (rep_gemm false sd n p p b (edata Y) MY (sdata S) MS a (edata X) MX (Z.of_nat p) (Z.of_nat p)) as (c & E & L & Q);
    [apply HY|destruct sd; apply HS|reflexivity|destruct sd; reflexivity|pose proof (fields_len _ _ _ _ HX); lia|apply (fields_dim _ _ _ _ HX)|right; split; [exact Hp|apply HX]|].
  rewrite E. cbn [bind]. eexists. split; [reflexivity|]. apply (fields_set n p X MX); auto.
Qed.
Lemma XeYS_ok X MX Y MY S MS sd : (1 <= p)%nat -> fields n p X MX -> fields n p Y MY -> square p S MS ->
  exists X', XeYS X Y S sd = Val X' /\ fields n p X' (mmul p MY (opm sd MS)).
Proof.
  intros Hp HX HY HS. unfold XeYS, check. rewrite (proj1 (proj2 HY)), (proj1 HS), Z.eqb_refl, orb_true_r. cbn [bind].
  destruct (aXpbYS_ok 0 X MX 1 Y MY S MS sd) as (X' & E & H); auto. exists X'. split; [exact E|].
  replace (mmul p MY (opm sd MS)) with (madd (mscal 1 (mmul p MY (opm sd MS))) (mscal 0 MX)); [exact H|].
  apply mext; intros i j. unfold madd, mscal. apply C_eq; csimp; ring.
Qed.
Lemma XpaYS_ok X MX a Y MY S MS sd : (1 <= p)%nat -> fields n p X MX -> fields n p Y MY -> square p S MS ->
  exists X', XpaYS X a Y S sd = Val X' /\ fields n p X' (madd MX (mscal a (mmul p MY (opm sd MS)))).
Proof.
  intros Hp HX HY HS. unfold XpaYS, check. rewrite (proj1 (proj2 HY)), (proj1 HS), Z.eqb_refl, orb_true_r. cbn [bind].
  destruct (aXpbYS_ok 1 X MX a Y MY S MS sd) as (X' & E & H); auto. exists X'. split; [exact E|].
  replace (madd MX (mscal a (mmul p MY (opm sd MS)))) with (madd (mscal a (mmul p MY (opm sd MS))) (mscal 1 MX)); [exact H|].
  apply mext; intros i j. unfold madd, mscal. apply C_eq; csimp; ring.
Qed.
Lemma traceXtY_ok X MX Y MY : fields n p X MX -> fields n p Y MY -> traceXtY X Y = Val (mtr p (mmul n (madj MX) MY)).
Proof.
  intros HX HY. unfold traceXtY, check. rewrite (proj1 HX), (proj1 HY), (proj1 (proj2 HX)), (proj1 (proj2 HY)), !Z.eqb_refl. cbn [bind andb].
  apply rep_dotc; [apply HX|apply HY].
Qed.
Lemma fields_entC X M i j : fields n p X M -> (i < n)%nat -> 0 <= j < Z.of_nat p -> entC X (Z.of_nat i) j = M i (Z.to_nat j).
Proof.
  intros H Hi Hj. unfold entC. rewrite (proj1 (proj2 H)). rewrite (rep_gets n p _ M) by (try apply H; lia). rewrite Nat2Z.id. reflexivity.
Qed.
Lemma dotl_fields X MX Y MY i j : fields n p X MX -> fields n p Y MY -> 0 <= i < Z.of_nat p -> 0 <= j < Z.of_nat p ->
  dotl X Y i j = mmul n (madj MX) MY (Z.to_nat i) (Z.to_nat j).
Proof.
  intros HX HY Hi Hj. unfold dotl, mmul, madj. rewrite (proj1 HX), Nat2Z.id. apply csum_ext; intros l Hl.
  rewrite (fields_entC X MX) by auto. rewrite (fields_entC Y MY) by auto. reflexivity.
Qed.
Lemma XtY_ok U MU X MX Y MY S MS : square p U MU -> square p S MS -> fields n p X MX -> fields n p Y MY ->
  exists U', XtY U X Y S = Val U' /\ square p U' (mmul n (madj MX) MY).
Proof.
  intros HU HS HX HY. unfold XtY, check. rewrite (proj1 (proj2 HX)), (proj1 (proj2 HY)), Z.eqb_refl. cbn [bind].
  destruct (slice2_ok U X Y 0 0 (Z.of_nat p) (Z.of_nat p) 0 S U) as (U' & E & W & P & Q & _); try apply HU; try apply HX; try apply HY; try apply HS; try lia.
  - rewrite (proj1 HX), (proj1 HY). reflexivity.
  - rewrite (proj1 (proj2 HX)). lia.
  - rewrite (proj1 (proj2 HY)). lia.
  - rewrite (proj1 HU). reflexivity.
  - destruct HS as (H1 & (H2 & _) & _). lia.
  - destruct HU as (H1 & (H2 & _) & _). lia.
  - exists U'. split; [exact E|]. assert (Ep : sp U' = Z.of_nat p) by (rewrite P; apply HU). split; [exact Ep|]. split; [exact W|].
    apply rep_of.
    + destruct W as (W1 & W2). nia.
    + apply (mdim_mul p n p); [apply mdim_adj; apply (fields_dim _ _ _ _ HX)|apply (fields_dim _ _ _ _ HY)].
    + intros i j Hi Hj. specialize (Q i j Hi Hj). unfold sent in Q. rewrite Ep in Q. unfold gets. rewrite !Z.add_0_l in Q. rewrite Q. apply dotl_fields; auto.
Qed.
End Ev.
