(** Gram matrices, square roots, normalization. *)
From Coq Require Import List ZArith Reals Bool Arith Lia Lra.
From Verif Require Import Base RC Loops M_Evect M_Lin M_Eig S_Evect S_Eig L_Evect L_Evect3 L_Mat L_Eig L_Eig2.
Import ListNotations.
Local Open Scope R_scope.
Local Open Scope Z_scope.
Add Ring Cring_e : C_ring_theory.

Lemma csum_loop k (f : nat -> C) (body : Z -> C -> outcome C) : (forall l s, (l < k)%nat -> body (Z.of_nat l) s = Val (s + f l)%C) ->
  forZ 0 (Z.of_nat k) body C0 = Val (csum k f).
Proof.
  intros H. destruct (forZ_inv (fun i t => t = csum (Z.to_nat i) f) body 0 (Z.of_nat k) C0) as (s & E & Q); [lia|reflexivity| |].
  - intros i s Hi ->. destruct (Z_of_nat_complete i ltac:(lia)) as (l & ->). rewrite H by lia. eexists. split; [reflexivity|].
    replace (Z.to_nat (Z.of_nat l + 1)) with (S l) by lia. rewrite Nat2Z.id. reflexivity.
  - rewrite E, Q, Nat2Z.id. reflexivity.
Qed.

Lemma herk_ok n k x M c : rep k n x M -> (n * n <= length c)%nat ->
  exists c', herk (Z.of_nat n) (Z.of_nat k) 1 x (Z.of_nat n) 0 c (Z.of_nat n) = Val c' /\ length c' = length c /\
    forall i j, (i <= j < n)%nat -> nth (i * n + j) c' C0 = mmul k (madj M) M i j.
Proof.
  intros HM Hc. unfold herk. set (z := Z.of_nat n). destruct (Z.eqb_spec z 0) as [Hz|Hz].
  { exists c. split; [reflexivity|]. split; [reflexivity|]. intros; lia. }
  destruct (Z.eqb_spec (Z.of_nat k) 0) as [Hk|Hk].
  { destruct (write2_ok (fun i j => i * z + j) (fun _ _ (_ : list C) => Val C0) (fun _ _ => C0) z z ltac:(lia) ltac:(lia) c) as (d' & E & L & Q & _).
    - intros i j Hi Hj. nia.
    - intros i j i' j' Hi Hj Hi' Hj' Eq. apply (rowinj z); lia.
    - reflexivity.
    - exists d'. split; [exact E|]. split; [exact L|]. intros i j Hij. replace k with 0%nat by lia. unfold mmul. cbn [csum].
      rewrite <- gets_nth. unfold gets. rewrite Nat2Z.inj_add, Nat2Z.inj_mul. fold z. rewrite (Q (Z.of_nat i) (Z.of_nat j)) by lia. reflexivity. }
  set (f := fun i j => mmul k (madj M) M (Z.to_nat i) (Z.to_nat j)).
  set (inner := fun i j (c : list C) => let! s := forZ 0 (Z.of_nat k) (fun l acc => let! x0 := rd x (l * z + i) in let! y := rd x (l * z + j) in Val (acc + Cconj x0 * y)%C) C0 in
      let! z0 := rd c (i * z + j) in wr c (i * z + j) (Cscal 1 s + Cscal 0 z0)%C).
  assert (In : forall i j c1, 0 <= i < z -> 0 <= j < z -> length c1 = length c -> exists c2, inner i j c1 = Val c2 /\ length c2 = length c /\
     forall y, gets c2 y = if y =? i * z + j then f i j else gets c1 y).
  { intros i j c1 Hi Hj L1. unfold inner. rewrite (csum_loop k (fun l => (Cconj (M l (Z.to_nat i)) * M l (Z.to_nat j))%C)).
    2: { intros l s Hl. pose proof (proj1 HM). rewrite !gets_in by nia. cbn [bind]. unfold z. rewrite !(rep_gets k n x M) by (auto; lia). rewrite Nat2Z.id. reflexivity. }
    cbn [bind]. rewrite gets_in by (rewrite L1; nia). cbn [bind]. set (v := (Cscal 1 _ + _)%C).
    assert (Wr : wr c1 (i * z + j) v = Val (upd_nat c1 (Z.to_nat (i * z + j)) v)) by (apply wr_in; rewrite L1; nia).
    rewrite Wr. eexists. split; [reflexivity|]. split; [rewrite upd_length; exact L1|]. intros y. unfold gets at 1. rewrite (rd_wr _ _ _ _ _ Wr).
    destruct (y =? i * z + j); [|reflexivity]. unfold v, f, mmul, madj. apply C_eq; csimp; ring. }
  set (P := fun i j (c' : list C) => length c' = length c /\ forall a b, 0 <= a -> a <= b < z -> (a < i \/ (a = i /\ b < j)) -> gets c' (a * z + b) = f a b).
  destruct (forZ_inv (fun i c' => P i 0 c') (fun i c => forZ i z (inner i) c) 0 z c) as (c' & E & (L & H)); [lia| | |].
  - split; [reflexivity|]. intros. lia.
  - intros i c1 Hi (L1 & H1).
    assert (Start : P i i c1) by (split; [exact L1|]; intros a b Ha Hb Dn; apply H1; lia).
    destruct (forZ_inv (fun j c' => P i j c') (inner i) i z c1) as (c2 & E2 & (L2 & H2)); [lia|exact Start| |].
    + intros j c2 Hj (L2 & H2). destruct (In i j c2 Hi ltac:(lia) L2) as (c3 & E3 & L3 & Q3). exists c3. split; [exact E3|]. split; [exact L3|].
      intros a b Ha Hb Dn. rewrite Q3. destruct (Z.eqb_spec (a * z + b) (i * z + j)) as [Eq|Ne].
      * destruct (rowinj z a b i j) as (-> & ->); try lia. reflexivity.
      * apply H2; auto. destruct Dn as [Dn|(-> & Dn)]; [left; exact Dn|right]. split; [reflexivity|]. destruct (Z.eq_dec b j); [subst; lia|lia].
    + exists c2. split; [exact E2|]. split; [exact L2|]. intros a b Ha Hb Dn. apply H2; lia.
  - exists c'. split; [exact E|]. split; [exact L|]. intros i j Hij. rewrite <- gets_nth, Nat2Z.inj_add, Nat2Z.inj_mul. fold z. rewrite H by lia. unfold f. rewrite !Nat2Z.id. reflexivity.
Qed.

Lemma fill_ok n (d : list C) v : (n <= length d)%nat -> exists d', forZ 0 (Z.of_nat n) (fun i d => wr d i v) d = Val d' /\ length d' = length d.
Proof.
  intros Hn. destruct (forZ_inv (fun _ d' => length d' = length d) (fun i d => wr d i v) 0 (Z.of_nat n) d) as (d' & E & L); [lia|reflexivity| |].
  - intros i d1 Hi L1. exists (upd_nat d1 (Z.to_nat i) v). split; [apply wr_in; lia|rewrite upd_length; exact L1].
  - exists d'. auto.
Qed.

Section Ev.
Variables n p : nat.
Lemma XtX_ok U MU X MX S MS : square p U MU -> square p S MS -> fields n p X MX -> exists U', XtX U X S = Val U' /\ square p U' (mmul n (madj MX) MX).
Proof.
  intros HU HS HX. unfold XtX, check. rewrite (proj1 (proj2 HX)), (proj1 HU), Z.eqb_refl, (proj1 HX).
  assert (Hs : Z.of_nat p <= salloc S) by (destruct HS as (H1 & (H2 & _) & _); lia). destruct (Z.leb_spec (Z.of_nat p) (salloc S)); [|lia]. cbn [andb bind].
  pose proof (square_len _ _ _ HS) as LS.
  destruct (fill_ok (p * p) (sdata S) C0 LS) as (s1 & E1 & L1). rewrite Nat2Z.inj_mul in E1. rewrite E1. cbn [bind].
  destruct (herk_ok p n (edata X) MX s1) as (s2 & -> & L2 & H2); [apply HX|lia|]. cbn [bind].
  destruct (mirror_ok p s2) as (s3 & -> & L3 & H3); [lia|]. cbn [bind].
  assert (R : rep p p s3 (mmul n (madj MX) MX)).
  { split; [lia|]. split; [apply (mdim_mul p n p); [apply mdim_adj|]; apply (fields_dim _ _ _ _ HX)|]. intros i j Hi Hj. rewrite H3 by auto.
    destruct (Nat.leb_spec i j); [apply H2; lia|]. rewrite H2 by lia. unfold mmul, madj. rewrite csum_conj. apply csum_ext; intros l Hl. apply C_eq; csimp; ring. }
  destruct (rep_copy p p s3 (sdata U) _ R (square_len _ _ _ HU)) as (u & -> & Lu & Ru). cbn [bind]. eexists. split; [reflexivity|]. apply (square_set p U MU); auto.
Qed.
Lemma escal_ok a X M : fields n p X M -> exists x, blas_rscal (Z.of_nat p * Z.of_nat n) a (edata X) = Val x /\ length x = length (edata X) /\ fields n p (set_data X x) (mscal a M).
Proof.
  intros HX. destruct (rep_rscal n p a (edata X) M) as (x & E & L & R); [apply HX|]. exists x. rewrite Z.mul_comm. split; [exact E|]. split; [exact L|]. apply (fields_set n p X M); auto.
Qed.
Lemma diff_ok G MG Q MQ : fields n p G MG -> fields n p Q MQ -> exists X, diff_data G Q = Val X /\ fields n p X (msub MG MQ).
Proof.
  intros HG HQ. unfold diff_data. rewrite (proj1 HG), (proj1 (proj2 HG)). set (m := Z.of_nat n * Z.of_nat p).
  pose proof (fields_len _ _ _ _ HG) as LG. pose proof (fields_len _ _ _ _ HQ) as LQ.
  destruct (forZ_inv (fun i d => length d = length (edata G) /\ forall k, gets d k = if (0 <=? k) && (k <? i) then (gets (edata G) k - gets (edata Q) k)%C else gets (edata G) k)
     (fun i d => let! g := rd d i in let! q := rd (edata Q) i in wr d i (g - q)%C) 0 m (edata G)) as (d & E & (L & H)); [lia| | |].
  - split; [reflexivity|]. intros k. destruct (Z.leb_spec 0 k), (Z.ltb_spec k 0); try lia; reflexivity.
  - intros i d Hi (L & H). rewrite !gets_in by lia. cbn [bind]. set (v := (_ - _)%C).
    assert (Wr : wr d i v = Val (upd_nat d (Z.to_nat i) v)) by (apply wr_in; lia). rewrite Wr. eexists. split; [reflexivity|].
    split; [rewrite upd_length; exact L|]. intros k. unfold gets at 1. rewrite (rd_wr _ _ _ _ _ Wr). destruct (Z.eqb_spec k i) as [->|Ne].
    + destruct (Z.leb_spec 0 i), (Z.ltb_spec i (i + 1)); try lia. cbn [andb]. unfold v. rewrite H. destruct (Z.leb_spec 0 i), (Z.ltb_spec i i); try lia. reflexivity.
    + fold (gets d k). rewrite H. destruct (Z.leb_spec 0 k), (Z.ltb_spec k i), (Z.ltb_spec k (i + 1)); try lia; reflexivity.
  - rewrite E. cbn [bind]. eexists. split; [reflexivity|]. apply (fields_set n p G MG); [exact HG|exact L|]. apply rep_of; [lia| |].
    + apply mdim_add; [|apply mdim_scal]; [apply (fields_dim _ _ _ _ HG)|apply (fields_dim _ _ _ _ HQ)].
    + intros i j Hi Hj. rewrite H. destruct (Z.leb_spec 0 (i * Z.of_nat p + j)), (Z.ltb_spec (i * Z.of_nat p + j) m); try nia. cbn [andb].
      rewrite !(rep_gets n p) with (M := MG) by (try apply HG; lia). rewrite (rep_gets n p (edata Q) MQ) by (try apply HQ; lia). unfold msub, madd, mscal. apply C_eq; csimp; ring.
Qed.
End Ev.

(** ** Square roots *)
Section Sqrt.
Variables (p : nat) (heev : Z -> list C -> list C * list R).
Lemma posdef_row M V e i : mdim p p V -> mmul p V (madj V) = mid p -> M = mmul p (madj V) (mmul p (mdiag p e) V) -> posdef p M -> (i < p)%nat -> (0 < e i)%R.
Proof.
  intros DV VV EM Pd Hi.
  assert (DD : mdim p p (mdiag p e)).
  { intros a b Hab. unfold mdiag. destruct (Nat.ltb_spec a p); [|reflexivity]. destruct (Nat.eqb_spec a b); [lia|reflexivity]. }
  assert (EV : mmul p V (mmul p M (madj V)) = mdiag p e).
  { rewrite EM. rewrite !mmul_assoc. rewrite VV. rewrite (mid_r p p); [|exact DD]. rewrite <- (mmul_assoc p p V (madj V)). rewrite VV. apply (mid_l p p). exact DD. }
  assert (Ei : e i = re (csum p (fun a => csum p (fun b => (Cconj (Cconj (V i a)) * (M a b * Cconj (V i b)))%C)))).
  { pose proof (f_equal (fun F : mat => re (F i i)) EV) as Q. cbn beta in Q. unfold mdiag in Q at 1. destruct (Nat.ltb_spec i p); [|lia]. rewrite Nat.eqb_refl in Q. cbn [andb] in Q. change (re (RtoC (e i))) with (e i) in Q. rewrite <- Q.
    f_equal. unfold mmul, madj. apply csum_ext; intros a Ha. rewrite <- csum_scal. apply csum_ext; intros b Hb. rewrite Cconj_conj. reflexivity. }
  rewrite Ei. apply Pd.
  assert (One : csum p (fun l => (V i l * Cconj (V i l))%C) = C1).
  { pose proof (f_equal (fun F : mat => F i i) VV) as Q. unfold mmul, madj, mid in Q. destruct (Nat.ltb_spec i p); [|lia]. rewrite Nat.eqb_refl in Q. exact Q. }
  destruct (List.Exists_dec (fun a => V i a <> C0) (seq 0 p)) as [Hex|Hno].
  { intros a. destruct (Req_EM_T (re (V i a)) 0) as [E1|E1], (Req_EM_T (im (V i a)) 0) as [E2|E2]; [right; intros Q; apply Q; apply C_eq; [exact E1|exact E2]|left..]; intros Q; rewrite Q in *; cbn in *; auto. }
  - apply Exists_exists in Hex. destruct Hex as (a & Ha & Na). apply in_seq in Ha. exists a. split; [lia|]. intros Q. apply Na. apply (f_equal Cconj) in Q. rewrite Cconj_conj in Q. rewrite Q. apply C_eq; csimp; ring.
  - exfalso. assert (Zr : csum p (fun l => (V i l * Cconj (V i l))%C) = C0).
    { rewrite <- (csum_0 p). apply csum_ext. intros l Hl. assert (V i l = C0).
      { destruct (Req_EM_T (re (V i l)) 0) as [E1|E1], (Req_EM_T (im (V i l)) 0) as [E2|E2]; [apply C_eq; [exact E1|exact E2]|exfalso..];
          apply Hno; apply Exists_exists; exists l; (split; [apply in_seq; lia|]); intros Q; rewrite Q in *; cbn in *; auto. }
      rewrite H. apply C_eq; csimp; ring. }
    rewrite Zr in One. apply (f_equal re) in One. cbn in One. lra.
Qed.
End Sqrt.
