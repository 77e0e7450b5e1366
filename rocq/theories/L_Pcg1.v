(** The operations on divided blocks. *)
From Coq Require Import List ZArith Reals Bool Arith Lia Lra.
From Verif Require Import Base RC Loops M_Evect M_Lin M_Eig S_Evect S_Eig L_Evect L_Evect3 L_Mat L_Eig L_Eig2 L_Eig3 M_Pcg S_Pcg.
Import ListNotations.
Local Open Scope Z_scope.
Add Ring Cring_pcg : C_ring_theory.

(** ** Outcomes *)
Lemma so_bind {A B A' B'} (Q : A -> B -> Prop) (Q' : A' -> B' -> Prop) s q f g : same_outcome Q s q -> (forall a b, Q a b -> same_outcome Q' (f a) (g b)) -> same_outcome Q' (bind s f) (bind q g).
Proof. destruct s, q; cbn; intros H F; try contradiction; auto. Qed.
Lemma so_refl {A} (Q : A -> A -> Prop) s : (forall a, s = Val a -> Q a a) -> same_outcome Q s s.
Proof. destruct s; cbn; intros H; auto. Qed.
Lemma so_eq {A} (s : outcome A) : same_outcome eq s s.
Proof. apply so_refl. reflexivity. Qed.

(** ** Rows *)
Lemma rows_0 M k o i j : (i < k)%nat -> rows o k M i j = M (o + i)%nat j.
Proof. intros H. unfold rows. destruct (Nat.ltb_spec i k); [reflexivity|lia]. Qed.
Lemma rows_madd o k a b A B : rows o k (madd (mscal a A) (mscal b B)) = madd (mscal a (rows o k A)) (mscal b (rows o k B)).
Proof. apply mext; intros i j. unfold rows, madd, mscal. destruct (Nat.ltb_spec i k); [reflexivity|]. apply C_eq; csimp; ring. Qed.
Lemma rows_add o k A B : rows o k (madd A B) = madd (rows o k A) (rows o k B).
Proof. apply mext; intros i j. unfold rows, madd. destruct (Nat.ltb_spec i k); [reflexivity|]. ring. Qed.
Lemma rows_scal o k a A : rows o k (mscal a A) = mscal a (rows o k A).
Proof. apply mext; intros i j. unfold rows, mscal. destruct (Nat.ltb_spec i k); [reflexivity|]. apply C_eq; csimp; ring. Qed.
Lemma rows_sub o k A B : rows o k (msub A B) = msub (rows o k A) (rows o k B).
Proof. unfold msub. rewrite rows_add, rows_scal. reflexivity. Qed.
Lemma rows_mul o k p A S : rows o k (mmul p A S) = mmul p (rows o k A) S.
Proof.
  apply mext; intros i j. unfold rows, mmul. destruct (Nat.ltb_spec i k); [reflexivity|]. induction p as [|p IH]; [reflexivity|]. cbn [csum]. rewrite <- IH. ring.
Qed.

(** ** Divided blocks *)
Lemma spread_len p ns o l M : spread p ns o l M -> length l = length ns.
Proof. revert o l; induction ns as [|k ns IH]; intros o [|X l] H; cbn in *; try contradiction; [reflexivity|]. f_equal. apply (IH _ _ (proj2 H)). Qed.
Lemma spread_dp p ns l M o : ns <> [] -> spread p ns o l M -> dp l = Z.of_nat p.
Proof. destruct ns as [|k ns], l as [|X l]; cbn; intros H S; try contradiction. apply S. Qed.
Lemma each_spread p ns o l M f F : (forall k X M, S_Eig.fields k p X M -> exists Z, f X = Val Z /\ S_Eig.fields k p Z (F M)) -> (forall o k M, rows o k (F M) = F (rows o k M)) ->
  spread p ns o l M -> exists l', each f l = Val l' /\ spread p ns o l' (F M).
Proof.
  intros Hf HF. revert o l; induction ns as [|k ns IH]; intros o [|X l] S; cbn in S; try contradiction; [exists []; split; [reflexivity|exact I]|].
  destruct S as (S1 & S2). destruct (Hf _ _ _ S1) as (Z & E & HZ). destruct (IH _ _ S2) as (l' & E' & S'). exists (Z :: l'). unfold each in *. cbn [mapM]. rewrite E. cbn [bind]. rewrite E'. split; [reflexivity|].
  split; [rewrite HF; exact HZ|exact S'].
Qed.
Lemma each2_spread p ns o l m MX MY f F : (forall k X Y MX MY, S_Eig.fields k p X MX -> S_Eig.fields k p Y MY -> exists Z, f X Y = Val Z /\ S_Eig.fields k p Z (F MX MY)) ->
  (forall o k A B, rows o k (F A B) = F (rows o k A) (rows o k B)) -> spread p ns o l MX -> spread p ns o m MY -> exists l', each2 f l m = Val l' /\ spread p ns o l' (F MX MY).
Proof.
  intros Hf HF. revert o l m; induction ns as [|k ns IH]; intros o [|X l] [|Y m] S T; cbn in S, T; try contradiction; [exists []; split; [reflexivity|exact I]|].
  destruct S as (S1 & S2), T as (T1 & T2). destruct (Hf _ _ _ _ _ S1 T1) as (Z & E & HZ). destruct (IH _ _ _ S2 T2) as (l' & E' & S'). exists (Z :: l'). unfold each2 in *. cbn [combine mapM fst snd]. rewrite E. cbn [bind]. rewrite E'. split; [reflexivity|].
  split; [rewrite HF; exact HZ|exact S'].
Qed.

(** ** Sums over processes *)
Lemma vadd_length x y : length x = length y -> length (vadd x y) = length x.
Proof. intros H. unfold vadd. rewrite map_length, combine_length. lia. Qed.
Lemma vadd_nth x y i : length x = length y -> nth i (vadd x y) C0 = (nth i x C0 + nth i y C0)%C.
Proof.
  revert y i; induction x as [|a x IH]; intros [|b y] i H; try discriminate.
  - destruct i; unfold vadd; cbn [combine map nth]; ring.
  - destruct i; [reflexivity|]. cbn. apply (IH y i). cbn in H. lia.
Qed.
(** The list of local results, entry by entry the sums over the local rows of G. *)
Fixpoint sums (L p : nat) (ns : list nat) (o : nat) (ss : list (list C)) (G : nat -> mat) : Prop :=
  match ns, ss with
  | [], [] => True
  | k :: ns, s :: ss => length s = L /\ (forall i j, (i < p)%nat -> (j < p)%nat -> nth (i * p + j) s C0 = csum k (fun l => G (o + l)%nat i j)) /\ sums L p ns (o + k) ss G
  | _, _ => False
  end.
Lemma reduce_from L p ns o ss G x : sums L p ns o ss G -> length x = L -> length (fold_left vadd ss x) = L /\
  forall i j, (i < p)%nat -> (j < p)%nat -> nth (i * p + j) (fold_left vadd ss x) C0 = (nth (i * p + j) x C0 + csum (total ns) (fun l => G (o + l)%nat i j))%C.
Proof.
  revert o ss x; induction ns as [|k ns IH]; intros o [|s ss] x S Lx; cbn in S; try contradiction.
  - split; [exact Lx|]. intros i j _ _. cbn. ring.
  - destruct S as (S1 & S2 & S3). cbn [fold_left]. destruct (IH _ _ (vadd x s) S3) as (A & B); [rewrite vadd_length; congruence|]. split; [exact A|].
    intros i j Hi Hj. rewrite B by assumption. rewrite vadd_nth by congruence. rewrite S2 by assumption. cbn [total fold_right]. fold (total ns). rewrite csum_app.
    rewrite (csum_ext (total ns) (fun l => G (o + k + l)%nat i j) (fun l => G (o + (k + l))%nat i j)) by (intros l _; rewrite Nat.add_assoc; reflexivity). ring.
Qed.
Lemma reduce_ok L p ns ss G : ns <> [] -> sums L p ns 0 ss G -> length (allreduce_sum ss) = L /\
  forall i j, (i < p)%nat -> (j < p)%nat -> nth (i * p + j) (allreduce_sum ss) C0 = csum (total ns) (fun l => G l i j).
Proof.
  destruct ns as [|k ns]; [congruence|]. intros _ S. destruct ss as [|s ss]; [contradiction|]. destruct S as (S1 & S2 & S3). unfold allreduce_sum.
  destruct (reduce_from L p ns _ ss G s S3 S1) as (A & B). split; [exact A|]. intros i j Hi Hj. rewrite B, S2 by assumption. cbn [total fold_right]. fold (total ns). rewrite csum_app. reflexivity.
Qed.

Section P.
Variables (p : nat) (ns : list nat).
Hypothesis Hp : (1 <= p)%nat.
Hypothesis Hns : ns <> [].
Notation n := (total ns).
Notation W := (create_sq (Z.of_nat p)).

(** ** The products *)
Lemma XtX_local_ok k X M : S_Eig.fields k p X M -> exists s, XtX_local W W X = Val s /\ length s = (p * p)%nat /\
  forall i j, (i < p)%nat -> (j < p)%nat -> nth (i * p + j) s C0 = csum k (fun l => (Cconj (M l i) * M l j)%C).
Proof.
  intros HX. unfold XtX_local, check. rewrite (proj1 (proj2 HX)), (proj1 HX). change (sp W) with (Z.of_nat p). change (salloc W) with (Z.of_nat p). rewrite Z.eqb_refl, Z.leb_refl. cbn [andb bind].
  assert (LS : length (sdata W) = (p * p)%nat) by (cbn [create_sq sdata]; rewrite repeat_length; lia).
  destruct (fill_ok (p * p) (sdata W) C0) as (s1 & E1 & L1); [lia|]. rewrite Nat2Z.inj_mul in E1. rewrite E1. cbn [bind].
  destruct (herk_ok p k (edata X) M s1) as (s2 & -> & L2 & H2); [apply HX|lia|]. cbn [bind].
  destruct (mirror_ok p s2) as (s3 & -> & L3 & H3); [lia|]. exists s3. split; [reflexivity|]. split; [lia|].
  intros i j Hi Hj. rewrite H3 by auto. destruct (Nat.leb_spec i j); [rewrite H2 by lia; reflexivity|]. rewrite H2 by lia. unfold mmul, madj. rewrite csum_conj. apply csum_ext; intros l Hl. apply C_eq; csimp; ring.
Qed.
Lemma XtY_local_ok k X MX Y MY : S_Eig.fields k p X MX -> S_Eig.fields k p Y MY -> exists s, XtY_local W W X Y = Val s /\ length s = (p * p)%nat /\
  forall i j, (i < p)%nat -> (j < p)%nat -> nth (i * p + j) s C0 = csum k (fun l => (Cconj (MX l i) * MY l j)%C).
Proof.
  intros HX HY. unfold XtY_local, check. rewrite (proj1 (proj2 HX)), (proj1 HX), (proj1 (proj2 HY)), (proj1 HY). change (sp W) with (Z.of_nat p). change (salloc W) with (Z.of_nat p). rewrite !Z.eqb_refl, !Z.leb_refl. cbn [andb bind].
  assert (LS : length (sdata W) = (p * p)%nat) by (cbn [create_sq sdata]; rewrite repeat_length; lia).
  destruct (rep_gemm true false p p k 1 (edata X) MX (edata Y) MY 0 (sdata W) (fun _ _ => C0) (Z.of_nat p) (Z.of_nat p)) as (c & E & L & Q);
    [apply HX|apply HY|reflexivity|reflexivity|lia|intros ? ? ?; reflexivity|left; reflexivity|].
  rewrite E. exists c. split; [reflexivity|]. split; [lia|]. intros i j Hi Hj. destruct Q as (_ & _ & Q). rewrite Q by assumption. unfold madd, mscal, mmul, opm, madj. apply C_eq; csimp; ring.
Qed.
Lemma XtX_sums o l M ms : spread p ms o l M -> exists ss, mapM (XtX_local W W) l = Val ss /\ sums (p * p) p ms o ss (fun k i j => (Cconj (M k i) * M k j)%C).
Proof.
  revert o l; induction ms as [|k ms IH]; intros o [|X l] S; cbn in S; try contradiction; [exists []; split; [reflexivity|exact I]|]. destruct S as (S1 & S2).
  destruct (XtX_local_ok _ _ _ S1) as (s & E & L & Q). destruct (IH _ _ S2) as (ss & E' & S'). exists (s :: ss). cbn [mapM]. rewrite E. cbn [bind]. rewrite E'. split; [reflexivity|]. split; [exact L|]. split; [|exact S'].
  intros i j Hi Hj. rewrite Q by assumption. apply csum_ext. intros t Ht. rewrite !rows_0 by exact Ht. reflexivity.
Qed.
Lemma XtY_sums o l m MX MY ms : spread p ms o l MX -> spread p ms o m MY -> exists ss, mapM (fun q => XtY_local W W (fst q) (snd q)) (combine l m) = Val ss /\ sums (p * p) p ms o ss (fun k i j => (Cconj (MX k i) * MY k j)%C).
Proof.
  revert o l m; induction ms as [|k ms IH]; intros o [|X l] [|Y m] S T; cbn in S, T; try contradiction; [exists []; split; [reflexivity|exact I]|]. destruct S as (S1 & S2), T as (T1 & T2).
  destruct (XtY_local_ok _ _ _ _ _ S1 T1) as (s & E & L & Q). destruct (IH _ _ _ S2 T2) as (ss & E' & S'). exists (s :: ss). cbn [combine mapM fst snd]. rewrite E. cbn [bind]. rewrite E'. split; [reflexivity|]. split; [exact L|]. split; [|exact S'].
  intros i j Hi Hj. rewrite Q by assumption. apply csum_ext. intros t Ht. rewrite !rows_0 by exact Ht. reflexivity.
Qed.

(** A matrix of exactly p x p numbers is determined by its entries. *)
Lemma tight_eq S S' M : square p S M -> square p S' M -> salloc S = Z.of_nat p -> salloc S' = Z.of_nat p -> S = S'.
Proof.
  intros (A1 & (A2 & A3) & (_ & _ & A4)) (B1 & (B2 & B3) & (_ & _ & B4)) EA EB. destruct S as [s a d], S' as [s' a' d']. cbn in *. subst s s' a a'. f_equal.
  apply (nth_ext _ _ C0 C0); [lia|]. intros k Hk. assert (Hk' : (k < p * p)%nat) by lia. assert (D : (k = (k / p) * p + k mod p)%nat) by (rewrite Nat.mul_comm; apply Nat.div_mod; lia).
  rewrite D. assert ((k mod p < p)%nat) by (apply Nat.mod_upper_bound; lia). assert ((k / p < p)%nat) by (apply Nat.div_lt_upper_bound; lia). rewrite A4, B4 by assumption. reflexivity.
Qed.
Definition RS (S S' : smat C) : Prop := S = S' /\ exists M, square p S M.
Notation RF := (same_block p ns).

Lemma XtX_alloc U X S U' : XtX U X S = Val U' -> salloc U' = salloc U.
Proof.
  unfold XtX. destruct (check _); try discriminate. cbn [bind]. destruct (forZ _ _ _ _); try discriminate. cbn [bind]. destruct (herk _ _ _ _ _ _ _ _); try discriminate. cbn [bind]. destruct (mirror_upper _ _); try discriminate. cbn [bind].
  destruct (blas_copy _ _ _ _ _ _ _); try discriminate. cbn [bind]. intros E. injection E as <-. reflexivity.
Qed.
Lemma XtY_alloc U X Y S U' : XtY U X Y S = Val U' -> salloc U' = salloc U.
Proof.
  unfold XtY, XtY_slice2. destruct (check _); try discriminate. cbn [bind]. destruct (check _); try discriminate. cbn [bind]. destruct (gemm _ _ _ _ _ _ _ _ _ _ _ _ _ _ _ _); try discriminate. cbn [bind].
  destruct (blas_copy _ _ _ _ _ _ _); try discriminate. cbn [bind]. destruct (forZ _ _ _ _); try discriminate. cbn [bind]. intros E. injection E as <-. reflexivity.
Qed.
Lemma wsq : square p W (fun _ _ => C0).
Proof. apply create_square. Qed.
Lemma XtX_so X l : RF X l -> same_outcome RS (XtX W X W) (XtX_mpi W l W).
Proof.
  intros (M & HX & S). destruct (XtX_ok n p W _ X M W _ wsq wsq HX) as (U & E & HU). rewrite E. pose proof (XtX_alloc _ _ _ _ E) as AU.
  unfold XtX_mpi. destruct (XtX_sums 0 l M ns S) as (ss & Es & Hs). rewrite Es. cbn [bind]. destruct (reduce_ok _ _ _ _ _ Hns Hs) as (L & Q).
  assert (R : rep p p (allreduce_sum ss) (mmul n (madj M) M)).
  { split; [lia|]. split; [apply (mdim_mul p n p); [apply mdim_adj|]; apply (fields_dim _ _ _ _ HX)|]. intros i j Hi Hj. rewrite Q by assumption. reflexivity. }
  change (sp W) with (Z.of_nat p). destruct (rep_copy p p _ (sdata W) _ R (square_len _ _ _ wsq)) as (u & Eu & Lu & Ru). rewrite Eu. cbn [bind same_outcome].
  pose proof (square_set p W _ u _ wsq Lu Ru) as H. split; [|exists (mmul n (madj M) M); exact HU]. apply (tight_eq U (sset W u) _ HU H); [exact AU|reflexivity].
Qed.
Lemma XtY_so X l Y m : RF X l -> RF Y m -> same_outcome RS (XtY W X Y W) (XtY_mpi W l m W).
Proof.
  intros (MX & HX & S) (MY & HY & T). destruct (XtY_ok n p W _ X MX Y MY W _ wsq wsq HX HY) as (U & E & HU). rewrite E. pose proof (XtY_alloc _ _ _ _ _ E) as AU.
  unfold XtY_mpi. destruct (XtY_sums 0 l m MX MY ns S T) as (ss & Es & Hs). rewrite Es. cbn [bind]. destruct (reduce_ok _ _ _ _ _ Hns Hs) as (L & Q).
  assert (R : rep p p (allreduce_sum ss) (mmul n (madj MX) MY)).
  { split; [lia|]. split; [apply (mdim_mul p n p); [apply mdim_adj; apply (fields_dim _ _ _ _ HX)|apply (fields_dim _ _ _ _ HY)]|]. intros i j Hi Hj. rewrite Q by assumption. reflexivity. }
  change (sp W) with (Z.of_nat p). destruct (rep_copy p p _ (sdata W) _ R (square_len _ _ _ wsq)) as (s2 & Eu & Lu & Ru). rewrite Eu. cbn [bind].
  assert (LW : length (sdata W) = (p * p)%nat) by (cbn [create_sq sdata]; rewrite repeat_length; lia).
  destruct (write2_ok (fun i j => i * Z.of_nat p + j) (fun i j _ => rd s2 (i * Z.of_nat p + j)) (fun i j => mmul n (madj MX) MY (Z.to_nat i) (Z.to_nat j)) (Z.of_nat p) (Z.of_nat p) ltac:(lia) ltac:(lia) (sdata W)) as (u & E' & L' & Q' & _).
  - intros i j Hi Hj. rewrite LW. nia.
  - intros i j i' j' Hi Hj Hi' Hj' Heq. destruct (rowinj (Z.of_nat p) i j i' j'); lia.
  - intros i j d1 Hi Hj _ _. rewrite <- (rep_gets p p s2 _ i j Ru Hi Hj). apply gets_in. rewrite Lu, LW. nia.
  - rewrite E'. cbn [bind same_outcome]. assert (Ru' : rep p p u (mmul n (madj MX) MY)).
    { apply rep_of; [lia|apply R|]. intros i j Hi Hj. unfold gets. rewrite Q' by assumption. reflexivity. }
    pose proof (square_set p W _ u _ wsq L' Ru') as H. split; [|exists (mmul n (madj MX) MY); exact HU]. apply (tight_eq U (sset W u) _ HU H); [exact AU|reflexivity].
Qed.
Lemma trace_sum o l m MX MY ms c : spread p ms o l MX -> spread p ms o m MY -> exists ts, mapM (fun q => traceXtY (fst q) (snd q)) (combine l m) = Val ts /\
  fold_left Cadd ts c = (c + csum p (fun i => csum (total ms) (fun k => Cconj (MX (o + k)%nat i) * MY (o + k)%nat i)%C))%C.
Proof.
  revert o l m c; induction ms as [|k ms IH]; intros o [|X l] [|Y m] c S T; cbn in S, T; try contradiction.
  - exists []. split; [reflexivity|]. cbn [fold_left total fold_right csum]. clear. induction p as [|q IH]; cbn [csum]; [ring|]. rewrite IH at 1. ring.
  - destruct S as (S1 & S2), T as (T1 & T2). pose proof (traceXtY_ok k p _ _ _ _ S1 T1) as E.
    destruct (IH (o + k)%nat l m (c + mtr p (mmul k (madj (rows o k MX)) (rows o k MY)))%C S2 T2) as (ts & E' & F). exists (mtr p (mmul k (madj (rows o k MX)) (rows o k MY)) :: ts). cbn [combine mapM fst snd]. rewrite E. cbn [bind]. rewrite E'. split; [reflexivity|].
    cbn [fold_left]. rewrite F. cbn [total fold_right]. fold (total ms). unfold mtr, mmul, madj. match goal with |- (?a + ?b + ?e)%C = _ => replace (a + b + e)%C with (a + (b + e))%C by ring end. rewrite <- csum_add. f_equal. apply csum_ext. intros i Hi. rewrite csum_app. f_equal.
    + apply csum_ext. intros t Ht. rewrite !rows_0 by exact Ht. reflexivity.
    + apply csum_ext. intros t Ht. rewrite Nat.add_assoc. reflexivity.
Qed.
Lemma traceXtY_so X l Y m : RF X l -> RF Y m -> same_outcome eq (traceXtY X Y) (traceXtY_mpi l m).
Proof.
  intros (MX & HX & S) (MY & HY & T). rewrite (traceXtY_ok n p _ _ _ _ HX HY). unfold traceXtY_mpi. destruct (trace_sum 0 l m MX MY ns C0 S T) as (ts & E & F). rewrite E. cbn [bind same_outcome]. rewrite F. unfold mtr, mmul, madj. cbn [Nat.add]. ring.
Qed.

(** ** The operations without communication *)
Lemma RF_bands X l : RF X l -> ep X = Z.of_nat p /\ dp l = Z.of_nat p /\ en X = Z.of_nat n.
Proof. intros (M & HX & S). split; [apply HX|]. split; [apply (spread_dp _ _ _ _ _ Hns S)|apply HX]. Qed.
Lemma XeYS_so X l Y m S S' b : RF X l -> RF Y m -> RS S S' -> same_outcome RF (XeYS X Y S b) (XeYS_mpi l m S' b).
Proof.
  intros (MX & HX & Sl) (MY & HY & T) (<- & MS & HS). destruct (XeYS_ok n p X MX Y MY S MS b Hp HX HY HS) as (Z & E & HZ). rewrite E.
  destruct (each2_spread p ns 0 l m MX MY (fun X Y => XeYS X Y S b) (fun _ B => mmul p B (opm b MS))) as (l' & E' & S').
  - intros k A B MA MB HA HB. apply (XeYS_ok k p A MA B MB S MS b Hp HA HB HS).
  - intros. apply rows_mul.
  - exact Sl.
  - exact T.
  - unfold XeYS_mpi. rewrite E'. exists (mmul p MY (opm b MS)). split; [exact HZ|exact S'].
Qed.
Lemma XpaYS_so X l a Y m S S' b : RF X l -> RF Y m -> RS S S' -> same_outcome RF (XpaYS X a Y S b) (XpaYS_mpi l a m S' b).
Proof.
  intros (MX & HX & Sl) (MY & HY & T) (<- & MS & HS). destruct (XpaYS_ok n p X MX a Y MY S MS b Hp HX HY HS) as (Z & E & HZ). rewrite E.
  destruct (each2_spread p ns 0 l m MX MY (fun X Y => XpaYS X a Y S b) (fun A B => madd A (mscal a (mmul p B (opm b MS))))) as (l' & E' & S').
  - intros k A B MA MB HA HB. apply (XpaYS_ok k p A MA a B MB S MS b Hp HA HB HS).
  - intros. rewrite rows_add, rows_scal, rows_mul. reflexivity.
  - exact Sl.
  - exact T.
  - unfold XpaYS_mpi. rewrite E'. eexists. split; [exact HZ|exact S'].
Qed.
Lemma aXpbY_so a X l b Y m : RF X l -> RF Y m -> same_outcome RF (evectmatrix_aXpbY a X b Y) (aXpbY_mpi a l b m).
Proof.
  intros (MX & HX & Sl) (MY & HY & T). destruct (eaXpbY_ok n p a X MX b Y MY HX HY) as (Z & E & HZ). rewrite E.
  destruct (each2_spread p ns 0 l m MX MY (fun X Y => evectmatrix_aXpbY a X b Y) (fun A B => madd (mscal a A) (mscal b B))) as (l' & E' & S').
  - intros k A B MA MB HA HB. apply (eaXpbY_ok k p a A MA b B MB HA HB).
  - intros. apply rows_madd.
  - exact Sl.
  - exact T.
  - unfold aXpbY_mpi. rewrite E'. eexists. split; [exact HZ|exact S'].
Qed.
Lemma copy_so X l Y m : RF X l -> RF Y m -> same_outcome RF (evectmatrix_copy X Y) (each2 evectmatrix_copy l m).
Proof.
  intros (MX & HX & Sl) (MY & HY & T). destruct (ecopy_ok n p X MX Y MY HX HY) as (Z & E & HZ). rewrite E.
  destruct (each2_spread p ns 0 l m MX MY evectmatrix_copy (fun _ B => B)) as (l' & E' & S').
  - intros k A B MA MB HA HB. apply (ecopy_ok k p A MA B MB HA HB).
  - reflexivity.
  - exact Sl.
  - exact T.
  - rewrite E'. eexists. split; [exact HZ|exact S'].
Qed.
Lemma diff_so X l Y m : RF X l -> RF Y m -> same_outcome RF (diff_data X Y) (each2 diff_data l m).
Proof.
  intros (MX & HX & Sl) (MY & HY & T). destruct (diff_ok n p X MX Y MY HX HY) as (Z & E & HZ). rewrite E.
  destruct (each2_spread p ns 0 l m MX MY diff_data msub) as (l' & E' & S').
  - intros k A B MA MB HA HB. apply (diff_ok k p A MA B MB HA HB).
  - intros. apply rows_sub.
  - exact Sl.
  - exact T.
  - rewrite E'. eexists. split; [exact HZ|exact S'].
Qed.
Lemma rscal_so a X l : RF X l -> same_outcome (fun x l' => RF (set_data X x) l') (blas_rscal (Z.of_nat p * Z.of_nat n) a (edata X)) (rscal_mpi a l).
Proof.
  intros (MX & HX & Sl). destruct (escal_ok n p a X MX HX) as (x & E & L & HZ). rewrite E.
  destruct (each_spread p ns 0 l MX (fun X => let! d := blas_rscal (ep X * en X) a (edata X) in Val (set_data X d)) (mscal a)) as (l' & E' & S').
  - intros k A MA HA. destruct (escal_ok k p a A MA HA) as (y & Ey & _ & HY). rewrite (proj1 HA), (proj1 (proj2 HA)), Ey. eexists. split; [reflexivity|exact HY].
  - intros. apply rows_scal.
  - exact Sl.
  - unfold rscal_mpi. rewrite E'. exists (mscal a MX). split; [exact HZ|exact S'].
Qed.
Lemma zero_so X l : RF X l -> RF (set_data X (map (fun _ => C0) (edata X))) (map (fun Y => set_data Y (map (fun _ => C0) (edata Y))) l).
Proof.
  intros (MX & HX & Sl). exists (fun _ _ => C0).
  assert (K : forall k A MA, S_Eig.fields k p A MA -> S_Eig.fields k p (set_data A (map (fun _ => C0) (edata A))) (fun _ _ => C0)).
  { intros k A MA HA. apply (fields_set k p A MA); [exact HA|apply map_length|]. split; [rewrite map_length; apply (fields_len _ _ _ _ HA)|]. split; [intros ? ? ?; reflexivity|].
    intros i j Hi Hj. destruct (nth_in_or_default (i * p + j) (map (fun _ : C => C0) (edata A)) C0) as [I| ->]; [|reflexivity]. apply in_map_iff in I. destruct I as (? & <- & _). reflexivity. }
  split; [apply (K n X MX HX)|]. revert Sl. generalize 0%nat. clear HX Hns. revert l. induction ns as [|k ms IH]; intros [|A l] o S; cbn in S; try contradiction; [exact I|]. destruct S as (S1 & S2). cbn [map]. split; [|apply IH; exact S2].
  replace (rows o k (fun _ _ => C0)) with (fun _ _ : nat => C0); [apply (K _ _ _ S1)|]. apply mext; intros i j. unfold rows. destruct (i <? k)%nat; reflexivity.
Qed.
End P.
