(** The operations only the Davidson solver uses compute what they should. *)
From Coq Require Import List ZArith Reals Bool Arith Lia Lra FunctionalExtensionality.
From Verif Require Import Base RC Loops L_Op M_Evect M_Lin M_Eig M_Dav S_Evect S_Eig S_Dav L_Evect L_Evect3 L_Mat L_Eig L_Eig2 L_Eig3 L_Eig4.
Import ListNotations.
Local Open Scope R_scope.
Local Open Scope Z_scope.
Add Ring Cring_d : C_ring_theory.

Lemma zseq_app a b : forall lo, zseq lo (a + b) = zseq lo a ++ zseq (lo + Z.of_nat a) b.
Proof. induction a as [|a IH]; intros lo; cbn [Nat.add zseq app]; [f_equal; lia|]. f_equal. rewrite IH. do 2 f_equal. lia. Qed.
Lemma forZ_split {S} lo mid hi (f : Z -> S -> outcome S) s : lo <= mid <= hi -> forZ lo hi f s = bind (forZ lo mid f s) (forZ mid hi f).
Proof.
  intros H. rewrite !forZ_foldM. replace (zran lo hi) with (zran lo mid ++ zran mid hi).
  - rewrite foldM_app. destruct (foldM f (zran lo mid) s); cbn [bind]; try reflexivity. symmetry. apply forZ_foldM.
  - unfold zran. replace (Z.to_nat (hi - lo)) with (Z.to_nat (mid - lo) + Z.to_nat (hi - mid))%nat by lia. rewrite zseq_app. do 2 f_equal. lia.
Qed.

(** Entry (r, c) of a stored q x q matrix. *)
Definition cell (q : nat) (S : smat C) (r c : nat) : C := nth (r * q + c) (sdata S) C0.

Lemma upper2full_ok q U (M : mat) : sp U = Z.of_nat q -> wfs U -> mdim q q M -> hermitian M -> (forall r c, (r <= c < q)%nat -> cell q U r c = M r c) ->
  exists F, sqmatrix_copy_upper2full (create_sq (Z.of_nat q)) U = Val F /\ square q F M.
Proof.
  intros Ep (W1 & W2) DM HM HU. unfold sqmatrix_copy_upper2full, check. rewrite Ep. cbn [sp create_sq]. rewrite Z.eqb_refl. cbn [bind].
  assert (LU : (q * q <= length (sdata U))%nat) by nia.
  pose proof (create_square q) as HC. pose proof (square_len _ _ _ HC) as LC.
  set (z := Z.of_nat q). fold z in Ep.
  set (val := fun (i j : Z) (_ : list C) => if j <? i then let! v := rd (sdata U) (j * z + i) in Val (Cconj v) else rd (sdata U) (i * z + j)).
  rewrite (forZ_ext 0 z _ (fun i d => forZ 0 z (fun j d => let! v := val i j d in wr d (i * z + j) v) d)).
  2: { intros i d Hi. rewrite (forZ_split 0 i z) by lia. f_equal.
    - apply forZ_ext. intros j d' Hj. unfold val. destruct (Z.ltb_spec j i); [|lia]. destruct (rd (sdata U) (j * z + i)); reflexivity.
    - apply functional_extensionality. intros d'. apply forZ_ext. intros j d'' Hj. unfold val. destruct (Z.ltb_spec j i); [lia|reflexivity]. }
  assert (Cell : forall r c, 0 <= r <= c -> c < z -> rd (sdata U) (r * z + c) = Val (M (Z.to_nat r) (Z.to_nat c))).
  { intros r c Hr Hc. replace (r * z + c) with (Z.of_nat (Z.to_nat r * q + Z.to_nat c)) by (unfold z; nia). rewrite rd_nthC by (unfold z in *; nia). f_equal. apply HU. unfold z in *; lia. }
  destruct (write2_ok (fun i j => i * z + j) val (fun i j => M (Z.to_nat i) (Z.to_nat j)) z z ltac:(lia) ltac:(lia) (sdata (create_sq z))) as (d & E & L & Q & _).
  - intros i j Hi Hj. unfold z in *. nia.
  - intros i j i' j' Hi Hj Hi' Hj' Eq. apply (rowinj z); lia.
  - intros i j d1 Hi Hj _ _. unfold val. destruct (Z.ltb_spec j i).
    + rewrite Cell by lia. cbn [bind]. f_equal. exact (f_equal (fun X : mat => X (Z.to_nat i) (Z.to_nat j)) HM).
    + apply Cell; lia.
  - cbn [sdata create_sq] in E |- *. rewrite E. cbn [bind]. eexists. split; [reflexivity|]. apply (square_set q _ (fun _ _ => C0)); [exact HC|exact L|].
    apply rep_of; [rewrite L; exact LC|exact DM|]. intros i j Hi Hj. unfold gets. fold z. rewrite (Q i j Hi Hj). reflexivity.
Qed.

Lemma XtY_sub_ok n p q U X MX Y MY r0 c0 : (1 <= p)%nat -> sp U = Z.of_nat q -> wfs U -> (r0 + p <= q)%nat -> (c0 + p <= q)%nat -> fields n p X MX -> fields n p Y MY ->
  exists U', XtY_sub U (Z.of_nat (r0 * q + c0)) X Y (create_sq (Z.of_nat p)) = Val U' /\ sp U' = Z.of_nat q /\ salloc U' = salloc U /\ wfs U' /\
    forall r c, (r < q)%nat -> (c < q)%nat -> cell q U' r c = if (r0 <=? r)%nat && (r <? r0 + p)%nat && (c0 <=? c)%nat && (c <? c0 + p)%nat then mmul n (madj MX) MY (r - r0)%nat (c - c0)%nat else cell q U r c.
Proof.
  intros Hp Eq WU Hr Hc HX HY. unfold XtY_sub, check. rewrite (proj1 HX), (proj1 HY), (proj1 (proj2 HX)), (proj1 (proj2 HY)), Eq, !Z.eqb_refl. cbn [andb salloc sdata create_sq].
  destruct (Z.leb_spec (Z.of_nat p) (Z.of_nat q)); [|lia]. cbn [bind]. destruct (Z.leb_spec (Z.of_nat (r0 * q + c0) + (Z.of_nat p - 1) * Z.of_nat q + Z.of_nat p) (Z.of_nat q * Z.of_nat q)) as [_|Hx]; [|exfalso; nia].
  cbn [bind]. rewrite Z.leb_refl. cbn [bind]. pose proof WU as (W1 & W2). rewrite Eq in W1.
  pose proof (create_square p) as HC. pose proof (square_len _ _ _ HC) as LC. cbn [sdata create_sq] in LC.
  rewrite <- Nat2Z.inj_mul. destruct (fill_ok (p * p) (repeat C0 (Z.to_nat (Z.of_nat (p * p)))) C0) as (s & E & Ls); [rewrite repeat_length, Nat2Z.id; lia|]. rewrite E. cbn [bind].
  rewrite repeat_length, Nat2Z.id in Ls.
  destruct (rep_gemm true false p p n 1 (edata X) MX (edata Y) MY 0 s (fun _ _ => C0) (Z.of_nat p) (Z.of_nat p)) as (c' & E' & L' & Q'); [apply HX|apply HY|reflexivity|reflexivity|lia|intros ? ? _; reflexivity|left; reflexivity|].
  rewrite E'. cbn [bind]. set (G := mmul n (madj MX) MY) in *.
  assert (HG : rep p p c' G). { replace G with (madd (mscal 1 (mmul n (opm true MX) (opm false MY))) (mscal 0 (fun _ _ => C0))); [exact Q'|]. apply mext; intros i j. unfold madd, mscal, G. cbn [opm]. apply C_eq; csimp; ring. }
  set (off := Z.of_nat (r0 * q + c0)). set (zp := Z.of_nat p). set (zq := Z.of_nat q). unfold blas_copy.
  destruct (write2_ok (fun i j => off + i * zq + j * 1) (fun i j (_ : list C) => rd c' (i * zp + j * 1)) (fun i j => G (Z.to_nat i) (Z.to_nat j)) zp zp ltac:(lia) ltac:(lia) (sdata U)) as (u & Eu & Lu & Qu & Ru).
  - intros i j Hi Hj. unfold off, zp, zq in *. nia.
  - intros i j i' j' Hi Hj Hi' Hj' Eqq. apply (rowinj zq); unfold zp, zq in *; lia.
  - intros i j d1 Hi Hj _ _. rewrite Z.mul_1_r, gets_in by (unfold zp in *; nia). unfold zp. rewrite (rep_gets p p c' G) by (auto; unfold zp in *; lia). reflexivity.
  - rewrite Eu. cbn [bind]. eexists. split; [reflexivity|]. cbn [sp sset salloc]. split; [exact Eq|]. split; [reflexivity|]. split; [split; cbn [sp sset salloc sdata]; [rewrite Eq; lia|rewrite Lu; exact W2]|].
    intros r c Hrr Hcc. unfold cell. cbn [sset sdata].
    destruct (Nat.leb_spec r0 r), (Nat.ltb_spec r (r0 + p)), (Nat.leb_spec c0 c), (Nat.ltb_spec c (c0 + p)); cbn [andb];
     try (rewrite <- !gets_nth; unfold gets; rewrite Ru; [reflexivity|]; intros i j Hi Hj Eqq; unfold off, zp, zq in *;
       assert (KK : Z.of_nat r0 + i = Z.of_nat r /\ Z.of_nat c0 + j = Z.of_nat c) by (apply (rowinj (Z.of_nat q)); lia); lia).
    rewrite <- gets_nth. unfold gets. replace (Z.of_nat (r * q + c)) with (off + Z.of_nat (r - r0) * zq + Z.of_nat (c - c0) * 1) by (unfold off, zq; nia).
    rewrite Qu by (unfold zp; lia). rewrite !Nat2Z.id. reflexivity.
Qed.

Lemma XpaY_diag_ok n p X MX a Y MY e : fields n p X MX -> fields n p Y MY -> (p <= length e)%nat ->
  exists d, XpaY_diag_real (edata X) a (edata Y) e (Z.of_nat n) (Z.of_nat p) = Val d /\ fields n p (set_data X d) (madd MX (mscal a (mmul p MY (mdiag p (fun i => nth i e 0%R))))).
Proof.
  intros HX HY He. unfold XpaY_diag_real. set (z := Z.of_nat p). pose proof (fields_len _ _ _ _ HX) as LX. pose proof (fields_len _ _ _ _ HY) as LY.
  assert (Md : forall i j, (j < p)%nat -> mmul p MY (mdiag p (fun i => nth i e 0%R)) i j = (MY i j * RtoC (nth j e 0%R))%C).
  { intros i j Hj. unfold mmul. rewrite (csum_single p j); [|exact Hj|].
    - unfold mdiag. rewrite Nat.eqb_refl. destruct (Nat.ltb_spec j p); [|lia]. reflexivity.
    - intros l Hl Nl. unfold mdiag. destruct (Nat.eqb_spec l j); [congruence|]. rewrite andb_false_r. ring. }
  destruct (write2_ok (fun i j => i * z + j) (fun i j (X : list C) => let! e := rd e j in let! x := rd X (i * z + j) in let! y := rd (edata Y) (i * z + j) in
               let d := (a * e)%R in Val ((re x + d * re y)%R, (im x + d * im y)%R))
     (fun i j => (MX (Z.to_nat i) (Z.to_nat j) + Cscal a (MY (Z.to_nat i) (Z.to_nat j) * RtoC (nth (Z.to_nat j) e 0%R)))%C) (Z.of_nat n) z ltac:(lia) ltac:(lia) (edata X)) as (d & E & L & Q & _).
  - intros i j Hi Hj. unfold z in *. nia.
  - intros i j i' j' Hi Hj Hi' Hj' Eq. apply (rowinj z); lia.
  - intros i j d1 Hi Hj L1 R1. rewrite (rd_nth e j 0%R) by (unfold z in *; lia). cbn [bind]. rewrite R1, gets_in by (unfold z in *; nia). cbn [bind]. rewrite (gets_in (edata Y)) by (unfold z in *; nia). cbn [bind].
    unfold z in *. rewrite (rep_gets n p (edata X) MX), (rep_gets n p (edata Y) MY) by (auto; try apply HX; try apply HY). apply (f_equal (@Val C)). apply C_eq; csimp; ring.
  - exists d. split; [exact E|]. apply (fields_set n p X MX); [exact HX|exact L|]. apply rep_of; [lia| |].
    + apply mdim_add; [apply (fields_dim _ _ _ _ HX)|]. apply mdim_scal. apply (mdim_mul n p p); [apply (fields_dim _ _ _ _ HY)|apply mdiag_dim].
    + intros i j Hi Hj. unfold gets. fold z. rewrite (Q i j Hi Hj). unfold madd, mscal. rewrite Md by lia. reflexivity.
Qed.

(** The p x p part of S from row r and column c. *)
Definition subm (r c p : nat) (S : mat) : mat := fun i j => if (i <? p)%nat && (j <? p)%nat then S (r + i)%nat (c + j)%nat else C0.
Lemma subm_dim r c p S : mdim p p (subm r c p S).
Proof. intros i j [H|H]; unfold subm; destruct (Nat.ltb_spec i p), (Nat.ltb_spec j p); cbn [andb]; try reflexivity; lia. Qed.

Lemma aXpbYS_off n p q a X MX b Y MY S MS r c : (1 <= p)%nat -> fields n p X MX -> fields n p Y MY -> square q S MS -> (r + p <= q)%nat -> (c + p <= q)%nat ->
  exists X', aXpbYS_sub a X b Y S (Z.of_nat (r * q + c)) true = Val X' /\ fields n p X' (madd (mscal b (mmul p MY (madj (subm r c p MS)))) (mscal a MX)).
Proof.
  intros Hp HX HY HS Hr Hc. unfold aXpbYS_sub, check. rewrite (proj1 HX), (proj1 HY), (proj1 (proj2 HX)), (proj1 (proj2 HY)), (proj1 HS), !Z.eqb_refl.
  destruct (Z.eqb_spec (Z.of_nat q) 0); [lia|]. destruct (Z.leb_spec (Z.of_nat p) (Z.of_nat q)); [|lia]. cbn [bind andb].
  destruct (Z.leb_spec (Z.of_nat (r * q + c) + (Z.of_nat p - 1) * Z.of_nat q + Z.of_nat p) (Z.of_nat q * Z.of_nat q)) as [_|Hx]; [|exfalso; nia]. cbn [bind].
  pose proof (fields_len _ _ _ _ HX) as LX. pose proof (fields_len _ _ _ _ HY) as LY. pose proof (square_len _ _ _ HS) as LS.
  set (off := Z.of_nat (r * q + c)).
  destruct (gemm_ok false true (Z.of_nat n) (Z.of_nat p) (Z.of_nat p) b (edata Y) 0 (Z.of_nat p) (sdata S) off (Z.of_nat q) a (edata X) 0 (Z.of_nat p)) as (x & E & L & Q & _); try lia.
  - intros i l Hi Hl. unfold opix. nia.
  - intros l j Hl Hj. unfold opix, off. nia.
  - intros i j Hi Hj. nia.
  - rewrite E. cbn [bind]. eexists. split; [reflexivity|]. apply (fields_set n p X MX); [exact HX|exact L|]. apply rep_of; [lia| |].
    + apply mdim_add; apply mdim_scal; [|apply (fields_dim _ _ _ _ HX)]. apply (mdim_mul n p p); [apply (fields_dim _ _ _ _ HY)|apply mdim_adj, subm_dim].
    + intros i j Hi Hj. specialize (Q i j Hi Hj). rewrite Z.add_0_l in Q. rewrite Q. destruct (Z.eqb_spec (Z.of_nat p) 0); [lia|]. unfold madd, mscal. f_equal.
      * f_equal. unfold mmul. rewrite Nat2Z.id. apply csum_ext. intros l Hl. unfold opv. f_equal.
        -- rewrite Z.add_0_l. rewrite (rep_gets n p (edata Y) MY) by (try apply HY; lia). rewrite Nat2Z.id. reflexivity.
        -- unfold madj, subm. destruct (Nat.ltb_spec (Z.to_nat j) p); [|lia]. destruct (Nat.ltb_spec l p); [|lia]. cbn [andb]. f_equal.
           replace (off + j * Z.of_nat q + Z.of_nat l) with ((Z.of_nat r + j) * Z.of_nat q + (Z.of_nat c + Z.of_nat l)) by (unfold off; nia).
           rewrite (rep_gets q q (sdata S) MS) by (try apply HS; lia). f_equal; lia.
      * f_equal. apply (rep_gets n p (edata X) MX); [apply HX|lia|lia].
Qed.
