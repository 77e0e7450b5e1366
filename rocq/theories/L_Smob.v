(** Proofs about the Scheme matrix objects. *)
From Coq Require Import List ZArith Reals Bool Arith Lia Lra.
From Verif Require Import Base RC Loops M_Tensor M_Evect M_Grid M_Op M_Gv M_Pha M_Lin M_Eig M_Ovl M_Smob S_Evect S_Eig L_Evect L_Evect3 L_Mat L_Eig L_Eig2.
Import ListNotations.
Local Open Scope Z_scope.
Add Ring Cring_smob : C_ring_theory.

Lemma new_square junk p : square p (new_sq junk (Z.of_nat p)) (fun i j => if (i <? p)%nat && (j <? p)%nat then junk else C0).
Proof.
  split; [reflexivity|]. split; [split; cbn; [lia|rewrite repeat_length; lia]|]. cbn [new_sq sdata]. split; [rewrite repeat_length; lia|]. split.
  - intros i j H. destruct (Nat.ltb_spec i p), (Nat.ltb_spec j p); try reflexivity. lia.
  - intros i j Hi Hj. rewrite (proj2 (Nat.ltb_lt _ _) Hi), (proj2 (Nat.ltb_lt _ _) Hj). cbn [andb].
    assert (K : forall n k, (k < n)%nat -> nth k (repeat junk n) C0 = junk). { induction n; intros k Hk; [lia|]. destruct k; [reflexivity|]. cbn. apply IHn. lia. }
    apply K. rewrite <- Nat2Z.inj_mul, Nat2Z.id. assert (i * p + p <= p * p)%nat by (replace (i * p + p)%nat with (S i * p)%nat by lia; apply Nat.mul_le_mono_r; lia). lia.
Qed.

Lemma to_scm_ok junk p m M : square p m M -> exists r, sqmatrix2scm junk m = Val r /\ square p r M.
Proof. intros H. unfold sqmatrix2scm. rewrite (proj1 H). apply (copy_ok p _ _ m M (new_square junk p) H). Qed.

Lemma mult_ok junk p A B MA MB : square p A MA -> square p B MB -> exists r, sqmatrix_mult junk A B = Val r /\ square p r (mmul p MA MB).
Proof.
  intros HA HB. unfold sqmatrix_mult, check. rewrite (proj1 HA), (proj1 HB), Z.eqb_refl. cbn [bind].
  destruct (AeBC_ok p _ _ A MA false B MB false (new_square junk p) HA HB) as (D & -> & HD). cbn [bind]. apply to_scm_ok. exact HD.
Qed.

Lemma idx_in p i j : (i < p -> j < p -> i * p + j < p * p)%nat.
Proof. intros Hi Hj. assert (i * p + p <= p * p)%nat by (replace (i * p + p)%nat with (S i * p)%nat by lia; apply Nat.mul_le_mono_r; lia). lia. Qed.
Lemma idx_inj p i j k l : (j < p -> l < p -> i * p + j = k * p + l -> i = k /\ j = l)%nat.
Proof.
  intros Hj Hl E. assert (i = k). { apply (f_equal (fun x => x / p)%nat) in E. rewrite !Nat.div_add_l, !Nat.div_small in E by lia. lia. } subst k. split; [reflexivity|lia].
Qed.

Lemma ref_ok p A M i j : square p A M -> (i < p)%nat -> (j < p)%nat -> sqmatrix_ref A (Z.of_nat i) (Z.of_nat j) = Val (M i j).
Proof.
  intros (E & W & L & _ & V) Hi Hj. unfold sqmatrix_ref. rewrite E. replace ((0 <=? Z.of_nat i) && (0 <=? Z.of_nat j) && (Z.of_nat i <? Z.of_nat p) && (Z.of_nat j <? Z.of_nat p)) with true by lia.
  cbn [check bind]. rewrite <- Nat2Z.inj_mul, <- Nat2Z.inj_add, rd_nthC, V; auto. pose proof (idx_in p i j Hi Hj). lia.
Qed.

Lemma upd_nth_C (l : list C) a b v : (a < length l)%nat -> nth b (upd_nat l a v) C0 = if (b =? a)%nat then v else nth b l C0.
Proof.
  revert a b. induction l as [|x l IH]; intros a b H; [cbn in H; lia|]. destruct a, b; cbn; try reflexivity. rewrite IH by (cbn in H; lia). reflexivity.
Qed.

Lemma set_ok p A M i j c : square p A M -> (i < p)%nat -> (j < p)%nat ->
  exists r, sqmatrix_set A (Z.of_nat i) (Z.of_nat j) c = Val r /\ square p r (fun k l => if (k =? i)%nat && (l =? j)%nat then c else M k l).
Proof.
  intros H Hi Hj. pose proof H as (E & W & L & D & V). unfold sqmatrix_set. rewrite E. replace ((0 <=? Z.of_nat i) && (0 <=? Z.of_nat j) && (Z.of_nat i <? Z.of_nat p) && (Z.of_nat j <? Z.of_nat p)) with true by lia.
  cbn [check bind]. pose proof (idx_in p i j Hi Hj). rewrite <- Nat2Z.inj_mul, <- Nat2Z.inj_add, wr_in by lia. cbn [bind]. eexists. split; [reflexivity|].
  apply (square_set p A M); [exact H|apply upd_length|]. split; [rewrite upd_length; exact L|]. split.
  - intros k l Hkl. destruct (Nat.eqb_spec k i), (Nat.eqb_spec l j); cbn [andb]; try (apply D; exact Hkl). lia.
  - intros k l Hk Hl. rewrite Nat2Z.id, upd_nth_C by lia. destruct (Nat.eqb_spec (k * p + l) (i * p + j)) as [Q|Q].
    + apply idx_inj in Q; [|assumption|assumption]. destruct Q as (-> & ->). rewrite !Nat.eqb_refl. reflexivity.
    + destruct (Nat.eqb_spec k i), (Nat.eqb_spec l j); cbn [andb]; subst; try (apply V; assumption). congruence.
Qed.

Definition diag_of (d : list C) : mat := fun i j => if (i =? j)%nat then nth i d C0 else C0.

Lemma diagm_ok junk d : exists r, sqmatrix_diagm junk d = Val r /\ square (length d) r (diag_of d).
Proof.
  unfold sqmatrix_diagm. set (p := length d). pose proof (new_square junk p) as N. pose proof (proj1 (proj2 (proj2 N))) as NL.
  destruct (forZ_inv (fun k (x : list C) => length x = length (sdata (new_sq junk (Z.of_nat p))) /\ forall q, (Z.of_nat q < k) -> nth q x C0 = C0) (fun i x => wr x i C0) 0 (Z.of_nat p * Z.of_nat p) (sdata (new_sq junk (Z.of_nat p)))) as (x & -> & Lx & Vx).
  { lia. } { split; [reflexivity|]. intros; lia. }
  { intros i s Hi (Ls & Vs). rewrite wr_in by (rewrite Ls; lia). eexists. split; [reflexivity|]. split; [rewrite upd_length; exact Ls|]. intros q Hq. rewrite upd_nth_C by lia.
    destruct (Nat.eqb_spec q (Z.to_nat i)); [reflexivity|]. apply Vs. lia. }
  cbn [bind].
  destruct (forZ_inv (fun k (y : list C) => length y = length x /\ forall i j, (i < p)%nat -> (j < p)%nat -> nth (i * p + j) y C0 = if (i =? j)%nat && (Z.of_nat i <? k) then nth i d C0 else C0)
    (fun i x => let! v := rd d i in wr x (i * Z.of_nat p + i) v) 0 (Z.of_nat p) x) as (y & -> & Ly & Vy).
  { lia. }
  { split; [reflexivity|]. intros i j Hi Hj. replace (Z.of_nat i <? 0) with false by lia. rewrite andb_false_r. apply Vx. pose proof (idx_in p i j Hi Hj). lia. }
  { intros i s Hi (Ls & Vs). set (a := Z.to_nat i). replace i with (Z.of_nat a) by lia. assert (Ha : (a < p)%nat) by lia. rewrite rd_nthC by exact Ha. cbn [bind].
    pose proof (idx_in p a a Ha Ha). rewrite <- Nat2Z.inj_mul, <- Nat2Z.inj_add, wr_in by lia. eexists. split; [reflexivity|]. split; [rewrite upd_length; exact Ls|].
    intros k l Hk Hl. rewrite Nat2Z.id, upd_nth_C by lia. destruct (Nat.eqb_spec (k * p + l) (a * p + a)) as [Q|Q].
    - apply idx_inj in Q; [|assumption|assumption]. destruct Q as (-> & ->). rewrite Nat.eqb_refl. replace (Z.of_nat a <? Z.of_nat a + 1) with true by lia. reflexivity.
    - rewrite Vs by assumption. destruct (Nat.eqb_spec k l); [|reflexivity]. subst l. cbn [andb]. assert (k <> a) by congruence. replace (Z.of_nat k <? Z.of_nat a + 1) with (Z.of_nat k <? i) by lia. reflexivity. }
  cbn [bind]. apply to_scm_ok. apply (square_set p _ _ _ _ N); [lia|]. split; [lia|]. split.
  - intros i j H. unfold diag_of. destruct (Nat.eqb_spec i j); [|reflexivity]. apply nth_overflow. fold p. lia.
  - intros i j Hi Hj. rewrite Vy by assumption. unfold diag_of. replace (Z.of_nat i <? Z.of_nat p) with true by lia. rewrite andb_true_r. reflexivity.
Qed.

Lemma new_ev_wf junk n p : 0 <= n -> 0 <= p -> wf (new_ev junk n p).
Proof. intros Hn Hp. split; [exact Hn|]. split; [cbn; lia|]. cbn [new_ev en ealloc edata]. rewrite repeat_length, Z2Nat.id; [reflexivity|]. apply Z.mul_nonneg_nonneg; assumption. Qed.
