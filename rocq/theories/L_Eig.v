(** The matrix operations of M_Eig compute what they should. *)
From Coq Require Import List ZArith Reals Bool Arith Lia Lra.
From Verif Require Import Base RC Loops M_Evect M_Lin M_Eig S_Evect S_Eig L_Evect L_Evect3 L_Mat.
Import ListNotations.
Local Open Scope R_scope.
Local Open Scope Z_scope.

Lemma gets_nth d k : gets d (Z.of_nat k) = nth k d C0.
Proof.
  unfold gets, rd. destruct (Z.ltb_spec (Z.of_nat k) 0); [lia|]. rewrite Nat2Z.id. destruct (nth_error d k) as [v|] eqn:E.
  - symmetry. apply nth_error_nth. exact E.
  - symmetry. apply nth_overflow. apply nth_error_None. exact E.
Qed.
Lemma rd_nthC (d : list C) k : (k < length d)%nat -> rd d (Z.of_nat k) = Val (nth k d C0).
Proof. intros H. rewrite gets_in by lia. rewrite gets_nth. reflexivity. Qed.
Lemma rep_gets n m d M i j : rep n m d M -> 0 <= i < Z.of_nat n -> 0 <= j < Z.of_nat m -> gets d (i * Z.of_nat m + j) = M (Z.to_nat i) (Z.to_nat j).
Proof.
  intros (_ & _ & H) Hi Hj. rewrite <- H by lia. rewrite <- gets_nth. f_equal. rewrite Nat2Z.inj_add, Nat2Z.inj_mul, !Z2Nat.id by lia. reflexivity.
Qed.
Lemma rep_of n m d M : (n * m <= length d)%nat -> mdim n m M ->
  (forall i j, 0 <= i < Z.of_nat n -> 0 <= j < Z.of_nat m -> gets d (i * Z.of_nat m + j) = M (Z.to_nat i) (Z.to_nat j)) -> rep n m d M.
Proof.
  intros L D H. split; [exact L|]. split; [exact D|]. intros i j Hi Hj. rewrite <- gets_nth. rewrite Nat2Z.inj_add, Nat2Z.inj_mul.
  rewrite H by lia. rewrite !Nat2Z.id. reflexivity.
Qed.
Lemma rep_fun n m d M M' : rep n m d M -> rep n m d M' -> M = M'.
Proof.
  intros (_ & D & H) (_ & D' & H'). apply mext; intros i j. destruct (Nat.lt_ge_cases i n); [destruct (Nat.lt_ge_cases j m)|].
  - rewrite <- H, <- H' by auto. reflexivity.
  - rewrite D, D' by auto. reflexivity.
  - rewrite D, D' by auto. reflexivity.
Qed.
Lemma flat_lt n m i j : (i < n)%nat -> (j < m)%nat -> (i * m + j < n * m)%nat.
Proof. intros. nia. Qed.

(** ** Flat loops *)
Lemma rep_copy n m x y M : rep n m x M -> (n * m <= length y)%nat ->
  exists y', blas_copy (Z.of_nat n * Z.of_nat m) x 0 1 y 0 1 = Val y' /\ length y' = length y /\ rep n m y' M.
Proof.
  intros (L & D & H) Ly. destruct (blas_copy_ok (Z.of_nat n * Z.of_nat m) x y 0 1 0 1) as (y' & E & L' & Q & _); try lia.
  exists y'. split; [exact E|]. split; [exact L'|]. split; [lia|]. split; [exact D|]. intros i j Hi Hj. rewrite <- H by auto. rewrite <- !gets_nth.
  pose proof (flat_lt n m i j Hi Hj). specialize (Q (Z.of_nat (i * m + j)) ltac:(lia)). rewrite !Z.mul_1_r, !Z.add_0_l in Q. unfold gets. rewrite Q. reflexivity.
Qed.
Lemma rep_rscal n m a x M : rep n m x M ->
  exists x', blas_rscal (Z.of_nat n * Z.of_nat m) a x = Val x' /\ length x' = length x /\ rep n m x' (mscal a M).
Proof.
  intros (L & D & H). destruct (rscal_ok (Z.of_nat n * Z.of_nat m) a x) as (x' & E & L' & Q & _); try lia.
  exists x'. split; [exact E|]. split; [exact L'|]. split; [lia|]. split; [apply mdim_scal; exact D|]. intros i j Hi Hj. unfold mscal. rewrite <- H by auto. rewrite <- !gets_nth.
  pose proof (flat_lt n m i j Hi Hj). apply Q. lia.
Qed.
Lemma rep_axpy n m a x y M N : rep n m x M -> rep n m y N ->
  exists y', blas_axpy (Z.of_nat n * Z.of_nat m) a x y = Val y' /\ length y' = length y /\ rep n m y' (madd N (mscal a M)).
Proof.
  intros (L & D & H) (L2 & D2 & H2). destruct (axpy_ok (Z.of_nat n * Z.of_nat m) a x y) as (y' & E & L' & Q & _); try lia.
  exists y'. split; [exact E|]. split; [exact L'|]. split; [lia|]. split; [apply mdim_add; [exact D2|apply mdim_scal; exact D]|]. intros i j Hi Hj. unfold madd, mscal. rewrite <- H, <- H2 by auto. rewrite <- !gets_nth.
  pose proof (flat_lt n m i j Hi Hj). apply Q. lia.
Qed.

Add Ring Cring_e : C_ring_theory.

Lemma csum_app a b f : csum (a + b) f = (csum a f + csum b (fun k => f (a + k)%nat))%C.
Proof.
  induction b as [|b IH]; [rewrite Nat.add_0_r; cbn; ring|]. rewrite Nat.add_succ_r. cbn [csum]. rewrite IH. ring.
Qed.
Lemma csum_flat n m f : csum (n * m) f = csum n (fun i => csum m (fun j => f (i * m + j)%nat)).
Proof.
  induction n as [|n IH]; [reflexivity|]. cbn [csum]. rewrite <- IH. replace (S n * m)%nat with (n * m + m)%nat by lia. apply csum_app.
Qed.
Lemma dotc_ok n x y : (n <= length x)%nat -> (n <= length y)%nat ->
  dotc (Z.of_nat n) x y = Val (csum n (fun k => (Cconj (nth k x C0) * nth k y C0)%C)).
Proof.
  intros Hx Hy. unfold dotc.
  destruct (forZ_inv (fun i s => s = csum (Z.to_nat i) (fun k => (Cconj (nth k x C0) * nth k y C0)%C))
    (fun i s => let! a := rd x i in let! b := rd y i in Val (s + Cconj a * b)%C) 0 (Z.of_nat n) C0) as (s & E & H); [lia|reflexivity| |].
  - intros i s Hi ->. destruct (Z_of_nat_complete i ltac:(lia)) as (k & ->). rewrite !rd_nthC by lia. cbn [bind]. eexists. split; [reflexivity|].
    replace (Z.to_nat (Z.of_nat k + 1)) with (S k) by lia. rewrite Nat2Z.id. reflexivity.
  - rewrite E, H, Nat2Z.id. reflexivity.
Qed.
Lemma rep_dotc n m x y A B : rep n m x A -> rep n m y B -> dotc (Z.of_nat n * Z.of_nat m) x y = Val (mtr m (mmul n (madj A) B)).
Proof.
  intros (L & D & H) (L2 & D2 & H2). replace (Z.of_nat n * Z.of_nat m) with (Z.of_nat (n * m)) by lia. rewrite dotc_ok by lia. f_equal.
  rewrite csum_flat. unfold mtr, mmul, madj. rewrite csum_swap. apply csum_ext; intros j Hj. apply csum_ext; intros i Hi. rewrite H, H2 by auto. reflexivity.
Qed.

(** ** gemm *)
Definition opm (dagger : bool) (A : mat) : mat := if dagger then madj A else A.
Lemma opm_dim (dagger : bool) m k A : (if dagger then mdim k m A else mdim m k A) -> mdim m k (opm dagger A).
Proof. destruct dagger; cbn; auto. apply mdim_adj. Qed.
Lemma rep_opix (dagger : bool) m k x A i l : (if dagger then rep k m x A else rep m k x A) -> 0 <= i < Z.of_nat m -> 0 <= l < Z.of_nat k ->
  0 <= opix dagger 0 (Z.of_nat (if dagger then m else k)) i l < Z.of_nat (length x) /\
  opv dagger x 0 (Z.of_nat (if dagger then m else k)) i l = opm dagger A (Z.to_nat i) (Z.to_nat l).
Proof.
  destruct dagger; intros H Hi Hl; unfold opix, opv, opm; rewrite !Z.add_0_l.
  - rewrite (rep_gets k m x A) by auto. split; [|reflexivity]. destruct H as (H & _). nia.
  - rewrite (rep_gets m k x A) by auto. split; [|reflexivity]. destruct H as (H & _). nia.
Qed.
Lemma rep_gemm (ta tb : bool) m n k a x A y B b c M fdx fdy : (if ta then rep k m x A else rep m k x A) -> (if tb then rep n k y B else rep k n y B) ->
  fdx = Z.of_nat (if ta then m else k) -> fdy = Z.of_nat (if tb then k else n) -> (n * m <= length c)%nat -> mdim m n M ->
  (b = 0%R \/ ((1 <= k)%nat /\ rep m n c M)) ->
  exists c', gemm ta tb (Z.of_nat m) (Z.of_nat n) (Z.of_nat k) a x 0 fdx y 0 fdy b c 0 (Z.of_nat n) = Val c' /\ length c' = length c /\
    rep m n c' (madd (mscal a (mmul k (opm ta A) (opm tb B))) (mscal b M)).
Proof.
  intros Hx Hy -> -> Lc DM Hb.
  assert (DA : mdim m k (opm ta A)) by (apply opm_dim; destruct ta; apply Hx). assert (DB : mdim k n (opm tb B)) by (apply opm_dim; destruct tb; apply Hy).
  destruct (gemm_ok ta tb (Z.of_nat m) (Z.of_nat n) (Z.of_nat k) a x 0 (Z.of_nat (if ta then m else k)) y 0 (Z.of_nat (if tb then k else n)) b c 0 (Z.of_nat n)) as (c' & E & L & Q & _); try lia.
  - intros i l Hi Hl. apply (rep_opix ta m k x A); auto.
  - intros l j Hl Hj. replace (if tb then k else n) with (if tb then k else n) by reflexivity. apply (rep_opix tb k n y B); auto.
  - intros i j Hi Hj. nia.
  - exists c'. split; [exact E|]. split; [exact L|]. apply rep_of; [lia|apply mdim_add; apply mdim_scal; [apply (mdim_mul m k n)|]; auto|].
    intros i j Hi Hj. specialize (Q i j Hi Hj). rewrite Z.add_0_l in Q. rewrite Q. unfold madd, mscal, mmul.
    assert (Sum : csum (Z.to_nat (Z.of_nat k)) (fun l => (opv ta x 0 (Z.of_nat (if ta then m else k)) i (Z.of_nat l) * opv tb y 0 (Z.of_nat (if tb then k else n)) (Z.of_nat l) j)%C) =
                  csum k (fun l => (opm ta A (Z.to_nat i) l * opm tb B l (Z.to_nat j))%C)).
    { rewrite Nat2Z.id. apply csum_ext. intros l Hl. destruct (rep_opix ta m k x A i (Z.of_nat l) Hx Hi ltac:(lia)) as (_ & ->).
      destruct (rep_opix tb k n y B (Z.of_nat l) j Hy ltac:(lia) Hj) as (_ & ->). rewrite Nat2Z.id. reflexivity. }
    rewrite Sum. destruct Hb as [->|(Hk & Hc)].
    + destruct (Z.eqb_spec (Z.of_nat k) 0) as [K|K].
      * replace k with 0%nat by lia. cbn [csum]. cring.
      * apply C_eq; csimp; ring.
    + destruct (Z.eqb_spec (Z.of_nat k) 0); [lia|]. rewrite (rep_gets m n c M) by auto. reflexivity.
Qed.

(** ** The mirrored half *)
Lemma mirror_ok p d : (p * p <= length d)%nat ->
  exists d', mirror_upper (Z.of_nat p) d = Val d' /\ length d' = length d /\
    forall i j, (i < p)%nat -> (j < p)%nat -> nth (i * p + j) d' C0 = if (i <=? j)%nat then nth (i * p + j) d C0 else Cconj (nth (j * p + i) d C0).
Proof.
  intros Hd. unfold mirror_upper. set (z := Z.of_nat p).
  set (inner := fun i j (d : list C) => let! v := rd d (i * z + j) in wr d (j * z + i) (Cconj v)).
  assert (Inj : forall i j i' j', 0 <= j < z -> 0 <= j' < z -> i * z + j = i' * z + j' -> i = i' /\ j = j') by (intros; apply (rowinj z); lia).
  (* after rows < i and, in row i, columns < j *)
  set (done := fun i j a b => (a < i \/ (a = i /\ b < j)) /\ a < b).
  set (P := fun i j (d' : list C) => length d' = length d /\ forall a b, 0 <= a < z -> 0 <= b < z ->
     (done i j b a -> gets d' (a * z + b) = Cconj (gets d (b * z + a))) /\ (~ done i j b a -> gets d' (a * z + b) = gets d (a * z + b))).
  destruct (forZ_inv (fun i d' => P i 0 d') (fun i d => forZ (i + 1) z (inner i) d) 0 z d) as (d' & E & (L & H)); [lia| | |].
  - split; [reflexivity|]. intros a b Ha Hb. split; [unfold done; intros; lia|reflexivity].
  - intros i d1 Hi (L1 & H1).
    assert (Start : P i (i + 1) d1).
    { split; [exact L1|]. intros a b Ha Hb. destruct (H1 a b Ha Hb) as (Q1 & Q2). split; intros Dn; [apply Q1|apply Q2]; unfold done in *; lia. }
    destruct (forZ_inv (fun j d' => P i j d') (inner i) (i + 1) z d1) as (d2 & E2 & (L2 & H2)); [lia|exact Start| |].
    + intros j d2 Hj (L2 & H2). unfold inner. assert (Rg : 0 <= i * z + j < Z.of_nat (length d2)) by (rewrite L2; nia). assert (Rg' : 0 <= j * z + i < Z.of_nat (length d2)) by (rewrite L2; nia).
      rewrite gets_in by exact Rg. cbn [bind]. assert (Wr : wr d2 (j * z + i) (Cconj (gets d2 (i * z + j))) = Val (upd_nat d2 (Z.to_nat (j * z + i)) (Cconj (gets d2 (i * z + j))))) by (apply wr_in; exact Rg').
      rewrite Wr. set (d3 := upd_nat d2 _ _) in *. assert (Rd : forall x, gets d3 x = if x =? j * z + i then Cconj (gets d2 (i * z + j)) else gets d2 x).
      { intros x. unfold gets at 1. rewrite (rd_wr _ _ _ _ _ Wr). destruct (x =? j * z + i); reflexivity. }
      exists d3. split; [reflexivity|]. split; [unfold d3; rewrite upd_length; exact L2|]. intros a b Ha Hb. rewrite !Rd.
      destruct (Z.eqb_spec (a * z + b) (j * z + i)) as [Eq|Ne].
      * destruct (Inj a b j i ltac:(lia) ltac:(lia) Eq) as (-> & ->). split; [intros _|unfold done; intros; lia].
        destruct (H2 i j ltac:(lia) ltac:(lia)) as (_ & ->); [reflexivity|unfold done; lia].
      * destruct (H2 a b Ha Hb) as (Q1 & Q2). split; intros Dn; [apply Q1|apply Q2]; unfold done in *; [|lia].
        destruct Dn as (Dn & Hab). split; [|exact Hab]. destruct Dn as [Dn|(Dn1 & Dn2)]; [left; exact Dn|]. right. split; [exact Dn1|].
        destruct (Z.eq_dec a j); [subst; lia|lia].
    + exists d2. split; [exact E2|]. split; [exact L2|]. intros a b Ha Hb. destruct (H2 a b Ha Hb) as (Q1 & Q2). split; intros Dn; [apply Q1|apply Q2]; unfold done in *; lia.
  - exists d'. split; [exact E|]. split; [exact L|]. intros i j Hi Hj. destruct (H (Z.of_nat i) (Z.of_nat j) ltac:(lia) ltac:(lia)) as (Q1 & Q2).
    rewrite <- !gets_nth. rewrite !Nat2Z.inj_add, !Nat2Z.inj_mul. fold z. destruct (Nat.leb_spec i j); [apply Q2|apply Q1]; unfold done; lia.
Qed.
