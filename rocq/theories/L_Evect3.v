(** Proofs about gemm, deflation, slice products and linear combinations. *)
From Coq Require Import List ZArith Reals Bool Lia.
From Verif Require Import Base RC Loops M_Evect S_Evect L_Evect.
Import ListNotations.
Local Open Scope Z_scope.

Lemma gets_in d x : 0 <= x < Z.of_nat (length d) -> rd d x = Val (gets d x).
Proof. intros H. unfold gets. destruct (rd_in d x H) as (v & ->). reflexivity. Qed.

Definition opv (dagger : bool) (A : list C) (o fd i l : Z) : C :=
  if dagger then Cconj (gets A (o + l * fd + i)) else gets A (o + i * fd + l).
Definition opix (dagger : bool) (o fd i l : Z) : Z := if dagger then o + l * fd + i else o + i * fd + l.

Lemma opel_in dagger A o fd i l : 0 <= opix dagger o fd i l < Z.of_nat (length A) -> opel dagger A o fd i l = Val (opv dagger A o fd i l).
Proof. unfold opix, opel, opv. destruct dagger; intros H; rewrite gets_in by exact H; reflexivity. Qed.

Lemma sum_loop k (f : Z -> outcome C) (g : Z -> C) : 0 <= k -> (forall l, 0 <= l < k -> f l = Val (g l)) ->
  forZ 0 k (fun l acc => let! x := f l in Val (acc + x)%C) C0 = Val (csum (Z.to_nat k) (fun l => g (Z.of_nat l))).
Proof.
  intros Hk Hf.
  destruct (forZ_inv (fun l acc => acc = csum (Z.to_nat l) (fun l => g (Z.of_nat l))) (fun l acc => let! x := f l in Val (acc + x)%C) 0 k C0) as (s & E & ->); auto.
  intros l s Hl ->. rewrite (Hf l Hl). cbn [bind]. eexists. split; [reflexivity|].
  replace (Z.to_nat (l + 1)) with (S (Z.to_nat l)) by lia. cbn [csum]. do 2 f_equal. lia.
Qed.

Lemma dot_loop ta tb A oA fdA B oB fdB k i j : 0 <= k ->
  (forall l, 0 <= l < k -> 0 <= opix ta oA fdA i l < Z.of_nat (length A)) ->
  (forall l, 0 <= l < k -> 0 <= opix tb oB fdB l j < Z.of_nat (length B)) ->
  forZ 0 k (fun l acc => let! x := opel ta A oA fdA i l in let! y := opel tb B oB fdB l j in Val (acc + x * y)%C) C0
  = Val (csum (Z.to_nat k) (fun l => (opv ta A oA fdA i (Z.of_nat l) * opv tb B oB fdB (Z.of_nat l) j)%C)).
Proof.
  intros Hk HA HB.
  destruct (forZ_inv (fun n acc => acc = csum (Z.to_nat n) (fun l => (opv ta A oA fdA i (Z.of_nat l) * opv tb B oB fdB (Z.of_nat l) j)%C))
    (fun l acc => let! x := opel ta A oA fdA i l in let! y := opel tb B oB fdB l j in Val (acc + x * y)%C) 0 k C0) as (s & E & ->); auto.
  intros l s Hl ->. rewrite !opel_in by auto. cbn [bind]. eexists. split; [reflexivity|].
  replace (Z.to_nat (l + 1)) with (S (Z.to_nat l)) by lia. cbn [csum]. rewrite Z2Nat.id by lia. reflexivity.
Qed.

Lemma gemm_ok ta tb m n k a A oA fdA B oB fdB b Cm oC fdC : 0 <= m -> 0 <= n -> 0 <= k -> n <= fdC ->
  (forall i l, 0 <= i < m -> 0 <= l < k -> 0 <= opix ta oA fdA i l < Z.of_nat (length A)) ->
  (forall l j, 0 <= l < k -> 0 <= j < n -> 0 <= opix tb oB fdB l j < Z.of_nat (length B)) ->
  (forall i j, 0 <= i < m -> 0 <= j < n -> 0 <= oC + i * fdC + j < Z.of_nat (length Cm)) ->
  exists c, gemm ta tb m n k a A oA fdA B oB fdB b Cm oC fdC = Val c /\ length c = length Cm /\
    (forall i j, 0 <= i < m -> 0 <= j < n -> gets c (oC + i * fdC + j) =
       if k =? 0 then C0 else
       (Cscal a (csum (Z.to_nat k) (fun l => (opv ta A oA fdA i (Z.of_nat l) * opv tb B oB fdB (Z.of_nat l) j)%C)) + Cscal b (gets Cm (oC + i * fdC + j)))%C) /\
    (forall x, (forall i j, 0 <= i < m -> 0 <= j < n -> oC + i * fdC + j <> x) -> rd c x = rd Cm x).
Proof.
  intros Hm Hn Hk Hfd HA HB HC. unfold gemm.
  assert (Inj : forall i j i' j', 0 <= i < m -> 0 <= j < n -> 0 <= i' < m -> 0 <= j' < n -> oC + i * fdC + j = oC + i' * fdC + j' -> i = i' /\ j = j').
  { intros. apply (rowinj fdC); lia. }
  destruct (Z.eqb_spec (m * n) 0).
  { exists Cm. split; [reflexivity|]. split; [reflexivity|]. split; [intros; nia|reflexivity]. }
  destruct (Z.eqb_spec k 0).
  - destruct (write2_ok (fun i j => oC + i * fdC + j) (fun _ _ _ => Val C0) (fun _ _ => C0) m n Hm Hn Cm HC Inj) as (c & E & L & Q & R); [reflexivity|].
    exists c. split; [exact E|]. split; [exact L|]. split; [|exact R]. intros i j Hi Hj. unfold gets. rewrite Q by auto. reflexivity.
  - destruct (write2_ok (fun i j => oC + i * fdC + j)
      (fun i j c => let! s := forZ 0 k (fun l acc => let! x := opel ta A oA fdA i l in let! y := opel tb B oB fdB l j in Val (acc + x * y)%C) C0 in
                 let! z := rd c (oC + i * fdC + j) in Val (Cscal a s + Cscal b z)%C)
      (fun i j => (Cscal a (csum (Z.to_nat k) (fun l => (opv ta A oA fdA i (Z.of_nat l) * opv tb B oB fdB (Z.of_nat l) j)%C)) + Cscal b (gets Cm (oC + i * fdC + j)))%C)
      m n Hm Hn Cm HC Inj) as (c & E & L & Q & R).
    + intros i j d1 Hi Hj L Eq. rewrite dot_loop by (intros; auto). cbn [bind]. rewrite Eq, gets_in by auto. reflexivity.
    + exists c. split; [exact E|]. split; [exact L|]. split; [|exact R]. intros i j Hi Hj. unfold gets at 1. rewrite Q by auto. reflexivity.
Qed.

(* ------------------------------------------------------------------ *)
(** * Deflation *)

Lemma mapM_ok {X Y} (f : X -> outcome Y) (P : X -> Y -> Prop) l :
  (forall x, In x l -> exists y, f x = Val y /\ P x y) -> exists r, mapM f l = Val r /\ Forall2 P l r.
Proof.
  induction l as [|x l IH]; intros H; cbn [mapM]; [exists []; auto|].
  destruct (H x (or_introl eq_refl)) as (y & -> & Hy). cbn [bind].
  destruct IH as (r & -> & Hr); [intros z Hz; apply H; right; exact Hz|]. cbn [bind].
  eexists. split; [reflexivity|]. constructor; auto.
Qed.

Lemma vadd_length x y : length x = length y -> length (vadd x y) = length x.
Proof. intros H. unfold vadd. rewrite map_length, combine_length. lia. Qed.
Lemma vadd_gets x y k : length x = length y -> 0 <= k < Z.of_nat (length x) -> gets (vadd x y) k = (gets x k + gets y k)%C.
Proof.
  intros L Hk. unfold gets, rd. destruct (Z.ltb_spec k 0); [lia|].
  assert (G : forall (x y : list C) n, length x = length y -> (n < length x)%nat ->
     nth_error (vadd x y) n = match nth_error x n, nth_error y n with Some a, Some b => Some (a + b)%C | _, _ => None end).
  { clear. induction x as [|a x IH]; intros [|b y] n L Hn; cbn in *; try lia. destruct n; cbn; [reflexivity|]. apply IH; lia. }
  rewrite G by lia.
  destruct (nth_error x (Z.to_nat k)) eqn:E1; [|apply nth_error_None in E1; lia].
  destruct (nth_error y (Z.to_nat k)) eqn:E2; [|apply nth_error_None in E2; lia]. reflexivity.
Qed.

Lemma reduce_ok l (n : nat) : Forall (fun x => length x = n) l -> l <> [] ->
  length (allreduce_sum l) = n /\ forall k, 0 <= k < Z.of_nat n -> gets (allreduce_sum l) k = fold_right (fun x acc => (gets x k + acc)%C) C0 l.
Proof.
  intros F Hne. destruct l as [|x l]; [congruence|]. inversion F as [|? ? Hx F']; subst. cbn [allreduce_sum fold_right]. clear Hne F.
  revert x F'. induction l as [|y l IH]; intros x F'; cbn [fold_left fold_right].
  - split; [reflexivity|]. intros. ring.
  - inversion F' as [|? ? Hy F'']; subst.
    assert (Lv : length (vadd x y) = length x) by (apply vadd_length; lia).
    destruct (IH (vadd x y)) as (L & Q).
    { eapply Forall_impl; [|exact F'']. cbn. intros. lia. }
    split; [lia|]. intros k Hk. rewrite Q by lia. rewrite vadd_gets by lia. ring.
Qed.

Definition xby (t : emat C * emat C * emat C) : emat C * emat C := (fst (fst t), snd t).

Lemma deflation_ok p px parts S2 : 1 <= p -> 0 <= px -> Forall (share_ok p px) parts -> px * p <= Z.of_nat (length S2) ->
  exists Xs, deflation_constraint p parts S2 = Val Xs /\
    Forall2 (fun t X' => let X := fst (fst t) in let Y := snd (fst t) in
       wf X' /\ en X' = en X /\ ep X' = px /\ ealloc X' = ealloc X /\
       forall i j, 0 <= i < en X -> 0 <= j < px ->
         entC X' i j = (entC X i j - csum (Z.to_nat p) (fun l => entC Y i (Z.of_nat l) * Cconj (dot (map xby parts) j (Z.of_nat l))))%C) parts Xs.
Proof.
  intros Hp Hpx Fs HS. unfold deflation_constraint.
  destruct (mapM_ok (fun t => local_dots p (fst (fst t)) (snd t) S2)
    (fun t s => length s = length S2 /\ forall j l, 0 <= j < px -> 0 <= l < p -> gets s (j * p + l) = dotl (fst (fst t)) (snd t) j l) parts) as (locals & E & F).
  { intros ((X & Y) & BY) Hin. rewrite Forall_forall in Fs. pose proof (Fs _ Hin) as (WX & WY & WB & PX & N1 & N2 & P1 & P2). cbn [fst snd].
    unfold local_dots, check. destruct (Z.eqb_spec (en X) (en BY)); [|lia]. destruct (Z.leb_spec p (ep BY)); [|lia]. cbn [andb bind].
    destruct WX as (WX1 & WX2 & WX3). destruct WB as (WB1 & WB2 & WB3).
    destruct (gemm_ok true false (ep X) p (en X) 1 (edata X) 0 (ep X) (edata BY) 0 (ep BY) 0 S2 0 p) as (s & Es & L & Q & _); try lia.
    - intros i l Hi Hl. cbn [opix]. rewrite WX3. pose proof (rowin (en X) (ealloc X) (ep X) l i). lia.
    - intros l j Hl Hj. cbn [opix]. rewrite WB3. pose proof (rowin (en BY) (ealloc BY) (ep BY) l j). lia.
    - intros i j Hi Hj. rewrite PX in Hi. pose proof (rowin px p p i j). lia.
    - exists s. split; [exact Es|]. split; [exact L|]. intros j l Hj Hl. replace (j * p + l) with (0 + j * p + l) by lia. rewrite Q by lia.
      unfold dotl. destruct (Z.eqb_spec (en X) 0) as [E0|].
      + rewrite E0. reflexivity.
      + replace (Cscal 1 (csum (Z.to_nat (en X)) (fun l0 => (opv true (edata X) 0 (ep X) j (Z.of_nat l0) * opv false (edata BY) 0 (ep BY) (Z.of_nat l0) l)%C)) + Cscal 0 (gets S2 (0 + j * p + l)))%C
          with (csum (Z.to_nat (en X)) (fun l0 => (opv true (edata X) 0 (ep X) j (Z.of_nat l0) * opv false (edata BY) 0 (ep BY) (Z.of_nat l0) l)%C)) by (clear; cring).
        apply csum_ext. intros i _. unfold opv, entC. rewrite !Z.add_0_l. reflexivity. }
  rewrite E. cbn [bind].
  assert (HSum : forall j l, parts <> [] -> 0 <= j < px -> 0 <= l < p -> gets (allreduce_sum locals) (j * p + l) = dot (map xby parts) j l).
  { intros j l Hne Hj Hl.
    assert (FL : Forall (fun x => length x = length S2) locals).
    { clear -F. induction F as [|? ? ? ? (? & ?)]; constructor; auto. }
    destruct (reduce_ok locals (length S2) FL) as (_ & Q).
    { intros ->. inversion F; subst. congruence. }
    pose proof (rowin px p p j l) as Hr. rewrite Q by lia. clear -F Hj Hl. unfold dot. induction F as [|t s ts ss (L & Q) F IH]; cbn [fold_right map]; [reflexivity|].
    rewrite IH, Q by lia. reflexivity. }
  assert (HLen : parts <> [] -> length (allreduce_sum locals) = length S2).
  { intros Hne. apply reduce_ok.
    - clear -F. induction F as [|? ? ? ? (? & ?)]; constructor; auto.
    - intros ->. inversion F; subst. congruence. }
  apply (mapM_ok (fun t => deflate_local p (fst (fst t)) (snd (fst t)) (allreduce_sum locals))).
  intros ((X & Y) & BY) Hin. assert (Hne : parts <> []) by (intros ->; contradiction).
  rewrite Forall_forall in Fs. pose proof (Fs _ Hin) as (WX & WY & WB & PX & N1 & N2 & P1 & P2). cbn [fst snd].
  unfold deflate_local, check. destruct (Z.leb_spec p (ep Y)); [|lia]. cbn [bind].
  pose proof WX as (WX1 & WX2 & WX3). destruct WY as (WY1 & WY2 & WY3).
  destruct (gemm_ok false true (en X) (ep X) p (-1) (edata Y) 0 (ep Y) (allreduce_sum locals) 0 p 1 (edata X) 0 (ep X)) as (d & Ed & L & Q & _); try lia.
  - intros i l Hi Hl. cbn [opix]. rewrite WY3. pose proof (rowin (en Y) (ealloc Y) (ep Y) i l). lia.
  - intros l j Hl Hj. cbn [opix]. rewrite HLen by auto. rewrite PX in Hj. pose proof (rowin px p p j l). lia.
  - intros i j Hi Hj. rewrite WX3. pose proof (rowin (en X) (ealloc X) (ep X) i j). lia.
  - rewrite Ed. cbn [bind]. eexists. split; [reflexivity|]. split; [apply wf_set; auto|]. cbn [set_data en ep ealloc]. split; [reflexivity|]. split; [lia|]. split; [reflexivity|].
    intros i j Hi Hj. unfold entC at 1. cbn [set_data edata ep]. replace (i * ep X + j) with (0 + i * ep X + j) by lia. rewrite Q by lia.
    destruct (Z.eqb_spec p 0); [lia|].
    rewrite (csum_ext (Z.to_nat p) _ (fun l => (entC Y i (Z.of_nat l) * Cconj (dot (map xby parts) j (Z.of_nat l)))%C)).
    + replace (gets (edata X) (0 + i * ep X + j)) with (entC X i j) by (unfold entC; f_equal; lia).
      generalize (csum (Z.to_nat p) (fun l => (entC Y i (Z.of_nat l) * Cconj (dot (map xby parts) j (Z.of_nat l)))%C)). generalize (entC X i j). clear. cring.
    + intros l Hl. unfold opv. rewrite !Z.add_0_l. rewrite HSum by (auto; lia). reflexivity.
Qed.

Lemma dotl_ext X X' Y Y' j l j' l' : en X = en X' ->
  (forall i, 0 <= i < en X -> entC X i j = entC X' i j') -> (forall i, 0 <= i < en X -> entC Y i l = entC Y' i l') -> dotl X Y j l = dotl X' Y' j' l'.
Proof. intros E H1 H2. unfold dotl. rewrite E. apply csum_ext. intros i Hi. rewrite H1, H2 by lia. reflexivity. Qed.

Lemma dotl_conj X Y j l : en X = en Y -> Cconj (dotl X Y j l) = dotl Y X l j.
Proof. intros E. unfold dotl. rewrite csum_conj, E. apply csum_ext. intros. rewrite Cconj_mul, Cconj_conj. ring. Qed.

Lemma dot_conj_xby p px parts j l : Forall (share_ok p px) parts ->
  Cconj (dot (map xby parts) j l) = dot (map (fun t => (snd t, fst (fst t))) parts) l j.
Proof.
  intros F. induction F as [|((X & Y) & BY) parts H F IH]; cbn [map dot fold_right xby fst snd]; [apply Cconj_0|].
  unfold dot in IH. rewrite Cconj_add, IH, dotl_conj; [reflexivity|]. destruct H as (_ & _ & _ & _ & _ & H & _). exact H.
Qed.

Lemma dot_cons X Y l j l' : dot ((X, Y) :: l) j l' = (dotl X Y j l' + dot l j l')%C.
Proof. reflexivity. Qed.

(** Inner products with the new fields: those with the old ones less the projections. *)
Lemma dot_after p px parts Xs (c : Z -> Z -> C) l j : Forall (share_ok p px) parts -> 0 <= l < p -> 0 <= j < px ->
  Forall2 (fun t X' => en X' = en (fst (fst t)) /\ forall i j, 0 <= i < en (fst (fst t)) -> 0 <= j < px ->
         entC X' i j = (entC (fst (fst t)) i j - csum (Z.to_nat p) (fun l => entC (snd (fst t)) i (Z.of_nat l) * c (Z.of_nat l) j))%C) parts Xs ->
  dot (map (fun q => (snd (fst q), snd q)) (combine parts Xs)) l j =
  (dot (map (fun t => (snd t, fst (fst t))) parts) l j - csum (Z.to_nat p) (fun l' => dot (map (fun t => (snd t, snd (fst t))) parts) l (Z.of_nat l') * c (Z.of_nat l') j))%C.
Proof.
  intros Fs Hl Hj F. induction F as [|((X & Y) & BY) X' parts Xs (N & Q) F IH]; cbn [map combine fst snd] in *.
  - unfold dot. cbn [fold_right]. rewrite (csum_ext _ _ (fun _ => C0)) by (intros; ring). rewrite csum_0. ring.
  - inversion Fs as [|? ? Hs Fs']; subst. destruct Hs as (WX & WY & WB & PX & N1 & N2 & P1 & P2). rewrite !dot_cons. rewrite IH by auto. clear IH.
    rewrite (csum_ext _ (fun l' => (dot ((BY, Y) :: _) _ _ * _)%C) (fun l' => (dotl BY Y l (Z.of_nat l') * c (Z.of_nat l') j +
       dot (map (fun t => (snd t, snd (fst t))) parts) l (Z.of_nat l') * c (Z.of_nat l') j)%C)) by (intros; rewrite dot_cons; ring).
    rewrite csum_add.
    assert (D : dotl BY X' l j = (dotl BY X l j - csum (Z.to_nat p) (fun l' => dotl BY Y l (Z.of_nat l') * c (Z.of_nat l') j))%C).
    { unfold dotl.
      rewrite (csum_ext _ _ (fun i => (Cconj (entC BY (Z.of_nat i) l) * entC X (Z.of_nat i) j + (- csum (Z.to_nat p) (fun l' => Cconj (entC BY (Z.of_nat i) l) * entC Y (Z.of_nat i) (Z.of_nat l') * c (Z.of_nat l') j)))%C)).
      2: { intros i Hi. rewrite Q by lia. 
           rewrite (csum_ext (Z.to_nat p) (fun l' => (Cconj (entC BY (Z.of_nat i) l) * entC Y (Z.of_nat i) (Z.of_nat l') * c (Z.of_nat l') j)%C)
             (fun l' => (Cconj (entC BY (Z.of_nat i) l) * (entC Y (Z.of_nat i) (Z.of_nat l') * c (Z.of_nat l') j))%C)) by (intros; ring).
           rewrite csum_scal. ring. }
      rewrite csum_add, csum_opp. rewrite csum_swap.
      rewrite (csum_ext (Z.to_nat p) _ (fun l' => (csum (Z.to_nat (en BY)) (fun i => Cconj (entC BY (Z.of_nat i) l) * entC Y (Z.of_nat i) (Z.of_nat l')) * c (Z.of_nat l') j)%C)); [ring|].
      intros l' _. rewrite <- csum_scal_r. reflexivity. }
    rewrite D. ring.
Qed.

(* ------------------------------------------------------------------ *)
(** * Linear combinations *)

Lemma rscal_ok n a (x : list C) : 0 <= n <= Z.of_nat (length x) ->
  exists x', blas_rscal n a x = Val x' /\ length x' = length x /\
    (forall i, 0 <= i < n -> gets x' i = Cscal a (gets x i)) /\ (forall i, n <= i -> rd x' i = rd x i).
Proof.
  intros Hn. unfold blas_rscal.
  destruct (forZ_inv (fun k x' => length x' = length x /\ (forall i, 0 <= i < k -> gets x' i = Cscal a (gets x i)) /\ (forall i, k <= i -> rd x' i = rd x i))
    (fun i x => let! v := rd x i in wr x i (Cscal a v)) 0 n x) as (x' & E & H); [lia| | |exists x'; split; [exact E|exact H]].
  - split; [reflexivity|]. split; [intros; lia|reflexivity].
  - intros i x1 Hi (L & Q & R). rewrite (gets_in x1 i) by lia. cbn [bind].
    assert (W : wr x1 i (Cscal a (gets x1 i)) = Val (upd_nat x1 (Z.to_nat i) (Cscal a (gets x1 i)))) by (apply wr_in; lia).
    rewrite W. eexists. split; [reflexivity|]. split; [rewrite upd_length; exact L|]. split.
    + intros k Hk. unfold gets at 1. rewrite (rd_wr _ _ _ _ _ W). destruct (Z.eqb_spec k i) as [->|].
      * unfold gets. rewrite R by lia. reflexivity.
      * apply Q. lia.
    + intros k Hk. rewrite (rd_wr _ _ _ _ _ W). destruct (Z.eqb_spec k i); [lia|]. apply R. lia.
Qed.

Lemma axpy_ok n a (x y : list C) : 0 <= n <= Z.of_nat (length x) -> n <= Z.of_nat (length y) ->
  exists y', blas_axpy n a x y = Val y' /\ length y' = length y /\
    (forall i, 0 <= i < n -> gets y' i = (gets y i + Cscal a (gets x i))%C) /\ (forall i, n <= i -> rd y' i = rd y i).
Proof.
  intros Hn Hy. unfold blas_axpy.
  destruct (forZ_inv (fun k x' => length x' = length y /\ (forall i, 0 <= i < k -> gets x' i = (gets y i + Cscal a (gets x i))%C) /\ (forall i, k <= i -> rd x' i = rd y i))
    (fun i y => let! v := rd x i in let! w := rd y i in wr y i (w + Cscal a v)%C) 0 n y) as (x' & E & H); [lia| | |exists x'; split; [exact E|exact H]].
  - split; [reflexivity|]. split; [intros; lia|reflexivity].
  - intros i x1 Hi (L & Q & R). rewrite (gets_in x i), (gets_in x1 i) by lia. cbn [bind].
    assert (W : wr x1 i (gets x1 i + Cscal a (gets x i))%C = Val (upd_nat x1 (Z.to_nat i) (gets x1 i + Cscal a (gets x i))%C)) by (apply wr_in; lia).
    rewrite W. eexists. split; [reflexivity|]. split; [rewrite upd_length; exact L|]. split.
    + intros k Hk. unfold gets at 1. rewrite (rd_wr _ _ _ _ _ W). destruct (Z.eqb_spec k i) as [->|].
      * unfold gets at 1 3. rewrite R by lia. reflexivity.
      * apply Q. lia.
    + intros k Hk. rewrite (rd_wr _ _ _ _ _ W). destruct (Z.eqb_spec k i); [lia|]. apply R. lia.
Qed.

Lemma axpy_same_ok n a (y : list C) : 0 <= n <= Z.of_nat (length y) ->
  exists y', blas_axpy_same n a y = Val y' /\ length y' = length y /\
    (forall i, 0 <= i < n -> gets y' i = (gets y i + Cscal a (gets y i))%C) /\ (forall i, n <= i -> rd y' i = rd y i).
Proof.
  intros Hn. unfold blas_axpy_same.
  destruct (forZ_inv (fun k x' => length x' = length y /\ (forall i, 0 <= i < k -> gets x' i = (gets y i + Cscal a (gets y i))%C) /\ (forall i, k <= i -> rd x' i = rd y i))
    (fun i y => let! v := rd y i in let! w := rd y i in wr y i (w + Cscal a v)%C) 0 n y) as (x' & E & H); [lia| | |exists x'; split; [exact E|exact H]].
  - split; [reflexivity|]. split; [intros; lia|reflexivity].
  - intros i x1 Hi (L & Q & R). rewrite (gets_in x1 i) by lia. cbn [bind].
    assert (W : wr x1 i (gets x1 i + Cscal a (gets x1 i))%C = Val (upd_nat x1 (Z.to_nat i) (gets x1 i + Cscal a (gets x1 i))%C)) by (apply wr_in; lia).
    rewrite W. eexists. split; [reflexivity|]. split; [rewrite upd_length; exact L|]. split.
    + intros k Hk. unfold gets at 1. rewrite (rd_wr _ _ _ _ _ W). destruct (Z.eqb_spec k i) as [->|].
      * unfold gets. rewrite R by lia. reflexivity.
      * apply Q. lia.
    + intros k Hk. rewrite (rd_wr _ _ _ _ _ W). destruct (Z.eqb_spec k i); [lia|]. apply R. lia.
Qed.

Lemma aXpbY_ok a X b Y : wf X -> wf Y -> en X = en Y -> ep X = ep Y ->
  exists X', evectmatrix_aXpbY a X b Y = Val X' /\ wf X' /\ en X' = en X /\ ep X' = ep X /\ ealloc X' = ealloc X /\
    forall i j, 0 <= i < en X -> 0 <= j < ep X -> entC X' i j = (Cscal a (entC X i j) + Cscal b (entC Y i j))%C.
Proof.
  intros WX WY N P. pose proof WX as (HXn & HXp & HXl). pose proof WY as (HYn & HYp & HYl).
  unfold evectmatrix_aXpbY, check. destruct (Z.eqb_spec (en X) (en Y)); [|lia]. destruct (Z.eqb_spec (ep X) (ep Y)); [|lia]. cbn [andb bind].
  assert (Hsz : 0 <= en X * ep X <= Z.of_nat (length (edata X))) by (rewrite HXl; nia).
  assert (Hsz' : 0 <= en X * ep X <= Z.of_nat (length (edata Y))) by (rewrite HYl; nia).
  assert (S : exists d, (if Reqb a 1 then Val (edata X) else blas_rscal (en X * ep X) a (edata X)) = Val d /\ length d = length (edata X) /\
     forall k, 0 <= k < en X * ep X -> gets d k = Cscal a (gets (edata X) k)).
  { destruct (Reqb_spec a 1) as [->|].
    - exists (edata X). split; [reflexivity|]. split; [reflexivity|]. intros. clear. cring.
    - destruct (rscal_ok (en X * ep X) a (edata X) Hsz) as (d & E & L & Q & _). exists d. auto. }
  destruct S as (d & E & L & Q). rewrite E. cbn [bind].
  destruct (axpy_ok (en X * ep X) b (edata Y) d) as (d' & E' & L' & Q' & _); [lia|lia|]. rewrite E'. cbn [bind].
  eexists. split; [reflexivity|]. split; [apply wf_set; [auto|lia]|]. split; [reflexivity|]. split; [reflexivity|]. split; [reflexivity|].
  intros i j Hi Hj. unfold entC. cbn [set_data edata ep]. pose proof (rowin (en X) (ep X) (ep X) i j).
  rewrite Q', Q by lia. rewrite <- P. reflexivity.
Qed.

Lemma aXpbX_ok a X b : wf X ->
  exists X', evectmatrix_aXpbX a X b = Val X' /\ wf X' /\ en X' = en X /\ ep X' = ep X /\ ealloc X' = ealloc X /\
    forall i j, 0 <= i < en X -> 0 <= j < ep X -> entC X' i j = Cscal (a * (1 + b)) (entC X i j).
Proof.
  intros WX. pose proof WX as (HXn & HXp & HXl). unfold evectmatrix_aXpbX.
  assert (Hsz : 0 <= en X * ep X <= Z.of_nat (length (edata X))) by (rewrite HXl; nia).
  assert (S : exists d, (if Reqb a 1 then Val (edata X) else blas_rscal (en X * ep X) a (edata X)) = Val d /\ length d = length (edata X) /\
     forall k, 0 <= k < en X * ep X -> gets d k = Cscal a (gets (edata X) k)).
  { destruct (Reqb_spec a 1) as [->|].
    - exists (edata X). split; [reflexivity|]. split; [reflexivity|]. intros. clear. cring.
    - destruct (rscal_ok (en X * ep X) a (edata X) Hsz) as (d & E & L & Q & _). exists d. auto. }
  destruct S as (d & E & L & Q). rewrite E. cbn [bind].
  destruct (axpy_same_ok (en X * ep X) b d) as (d' & E' & L' & Q' & _); [lia|]. rewrite E'. cbn [bind].
  eexists. split; [reflexivity|]. split; [apply wf_set; [auto|lia]|]. split; [reflexivity|]. split; [reflexivity|]. split; [reflexivity|].
  intros i j Hi Hj. unfold entC. cbn [set_data edata ep]. pose proof (rowin (en X) (ep X) (ep X) i j).
  rewrite Q', Q by lia. clear. cring.
Qed.

(* ------------------------------------------------------------------ *)
(** * Slice products *)

Lemma slice2_ok U X Y ix iy p q iu S1 S2 : wfs U -> wf X -> wf Y -> wfs S1 -> wfs S2 ->
  en X = en Y -> 0 <= ix -> 0 <= iy -> 0 <= q <= p -> ix + p <= ep X -> iy + q <= ep Y -> p = sp U -> p <= salloc S1 -> p <= salloc S2 ->
  0 <= iu -> iu + q <= p ->
  exists U', XtY_slice2 U X Y ix iy p q iu S1 S2 = Val U' /\ wfs U' /\ sp U' = sp U /\
    (forall i j, 0 <= i < p -> 0 <= j < q -> sent U' i (iu + j) = Val (dotl X Y (ix + i) (iy + j))) /\
    (forall i j, 0 <= i < p -> 0 <= j < p -> ~ (iu <= j < iu + q) -> sent U' i j = sent U i j).
Proof.
  intros (WU1 & WU2) (WX1 & WX2 & WX3) (WY1 & WY2 & WY3) (W11 & W12) (W21 & W22) N Hix Hiy Hq HX HY HU H1 H2 Hiu Hiuq.
  unfold XtY_slice2, check.
  destruct (Z.leb_spec (ix + p) (ep X)); [|lia]. destruct (Z.leb_spec (iy + q) (ep Y)); [|lia]. destruct (Z.leb_spec 0 ix); [|lia].
  destruct (Z.leb_spec 0 iy); [|lia]. destruct (Z.eqb_spec (en X) (en Y)); [|lia]. destruct (Z.eqb_spec p (sp U)); [|lia].
  destruct (Z.leb_spec q p); [|lia]. destruct (Z.leb_spec p (salloc S1)); [|lia]. destruct (Z.leb_spec p (salloc S2)); [|lia]. cbn [andb bind].
  destruct (gemm_ok true false p q (en X) 1 (edata X) ix (ep X) (edata Y) iy (ep Y) 0 (sdata S1) 0 q) as (s1 & E1 & L1 & Q1 & _); try lia.
  - intros i l Hi Hl. cbn [opix]. rewrite WX3. pose proof (rowin (en X) (ealloc X) (ep X) l (ix + i)). lia.
  - intros l j Hl Hj. cbn [opix]. rewrite WY3. pose proof (rowin (en Y) (ealloc Y) (ep Y) l (iy + j)). lia.
  - intros i j Hi Hj. rewrite W12. pose proof (rowin p q q i j). assert (p * q <= salloc S1 * salloc S1) by nia. lia.
  - rewrite E1. cbn [bind].
    destruct (blas_copy_ok (p * q) s1 (sdata S2) 0 1 0 1) as (s2 & E2 & L2 & Q2 & _); [nia| | |lia|].
    + intros i Hi. rewrite L1, W12. nia.
    + intros i Hi. rewrite W22. nia.
    + rewrite E2. cbn [bind].
      assert (V : forall i j, 0 <= i < p -> 0 <= j < q -> rd s2 (i * q + j) = Val (dotl X Y (ix + i) (iy + j))).
      { intros i j Hi Hj. pose proof (rowin p q q i j). replace (i * q + j) with (0 + (i * q + j) * 1) by lia. rewrite Q2 by lia.
        replace (0 + (i * q + j) * 1) with (0 + i * q + j) by lia. rewrite gets_in; [|rewrite L1, W12; assert (p * q <= salloc S1 * salloc S1) by nia; lia]. f_equal. rewrite Q1 by lia.
        unfold dotl. destruct (Z.eqb_spec (en X) 0) as [->|]; [reflexivity|].
        transitivity (csum (Z.to_nat (en X)) (fun l => (opv true (edata X) ix (ep X) i (Z.of_nat l) * opv false (edata Y) iy (ep Y) (Z.of_nat l) j)%C)).
        - clear. cring.
        - apply csum_ext. intros l _. unfold opv, entC.
          replace (Z.of_nat l * ep X + (ix + i)) with (ix + Z.of_nat l * ep X + i) by lia.
          replace (Z.of_nat l * ep Y + (iy + j)) with (iy + Z.of_nat l * ep Y + j) by lia. reflexivity. }
      destruct (write2_ok (fun i j => i * p + j + iu) (fun i j _ => rd s2 (i * q + j)) (fun i j => dotl X Y (ix + i) (iy + j)) p q ltac:(lia) ltac:(lia) (sdata U)) as (u & Eu & Lu & Qu & Ru).
      * intros i j Hi Hj. rewrite WU2. pose proof (rowin p p p i (j + iu)). nia.
      * intros i j i' j' Hi Hj Hi' Hj' Heq. destruct (rowinj p i (j + iu) i' (j' + iu)); lia.
      * intros i j d1 Hi Hj _ _. apply V; auto.
      * rewrite Eu. cbn [bind]. eexists. split; [reflexivity|]. split; [split; [cbn; lia|cbn; rewrite Lu; exact WU2]|]. split; [reflexivity|]. split.
        -- intros i j Hi Hj. unfold sent. cbn [sp sdata]. rewrite <- HU. replace (i * p + (iu + j)) with (i * p + j + iu) by lia. apply Qu; auto.
        -- intros i j Hi Hj Hne. unfold sent. cbn [sp sdata]. rewrite <- HU. apply Ru. intros i1 j1 Hi1 Hj1 Heq.
           destruct (rowinj p i1 (j1 + iu) i j); lia.
Qed.

Lemma Forall2_impl {X Y} (P Q : X -> Y -> Prop) l l' : (forall a b, P a b -> Q a b) -> Forall2 P l l' -> Forall2 Q l l'.
Proof. intros H F. induction F; constructor; auto. Qed.

Lemma Forall2_len {X Y} (P : X -> Y -> Prop) l l' : Forall2 P l l' -> length l = length l'.
Proof. induction 1; cbn; congruence. Qed.

Lemma deflation_dots p px parts S2 : 1 <= p -> 0 <= px -> Forall (share_ok p px) parts -> px * p <= Z.of_nat (length S2) ->
  exists Xs, deflation_constraint p parts S2 = Val Xs /\
    Forall2 (fun t X' => let X := fst (fst t) in let Y := snd (fst t) in
       wf X' /\ en X' = en X /\ ep X' = px /\ ealloc X' = ealloc X /\
       forall i j, 0 <= i < en X -> 0 <= j < px ->
         entC X' i j = (entC X i j - csum (Z.to_nat p) (fun l => entC Y i (Z.of_nat l) * dot (byx parts) (Z.of_nat l) j))%C) parts Xs.
Proof.
  intros Hp Hpx Fs HS. destruct (deflation_ok p px parts S2 Hp Hpx Fs HS) as (Xs & E & F). exists Xs. split; [exact E|].
  eapply Forall2_impl; [|exact F]. cbn. intros t X' (W & N & P & A & Q). split; [exact W|]. split; [exact N|]. split; [exact P|]. split; [exact A|].
  intros i j Hi Hj. rewrite Q by auto. f_equal. apply csum_ext. intros l _. f_equal. apply (dot_conj_xby p px). exact Fs.
Qed.

Lemma delta_sum p (l : Z) (f : Z -> C) : 0 <= l < p ->
  csum (Z.to_nat p) (fun l' => ((if l =? Z.of_nat l' then C1 else C0) * f (Z.of_nat l'))%C) = f l.
Proof.
  intros Hl. rewrite (csum_single (Z.to_nat p) (Z.to_nat l)); [|lia|].
  - rewrite Z2Nat.id by lia. rewrite Z.eqb_refl. ring.
  - intros i _ Hi. destruct (Z.eqb_spec l (Z.of_nat i)); [lia|ring].
Qed.

Lemma deflation_orthogonal : forall p px parts S2, 1 <= p -> 0 <= px -> Forall (share_ok p px) parts -> px * p <= Z.of_nat (length S2) ->
  orthonormal p parts ->
  exists Xs, deflation_constraint p parts S2 = Val Xs /\
    forall l j, 0 <= l < p -> 0 <= j < px -> dot (map (fun q => (snd (fst q), snd q)) (combine parts Xs)) l j = C0.
Proof.
  intros p px parts S2 Hp Hpx Fs HS Ho. destruct (deflation_dots p px parts S2 Hp Hpx Fs HS) as (Xs & E & F).
  exists Xs. split; [exact E|]. intros l j Hl Hj.
  rewrite (dot_after p px parts Xs (fun l j => dot (byx parts) l j) l j Fs Hl Hj).
  - fold (byx parts). rewrite (csum_ext _ _ (fun l' => ((if (l =? Z.of_nat l')%Z then C1 else C0) * dot (byx parts) (Z.of_nat l') j)%C)).
    + rewrite (delta_sum p l (fun l' => dot (byx parts) l' j) Hl). ring.
    + intros l' Hl'. fold (byy parts). rewrite (Ho l (Z.of_nat l')) by lia. reflexivity.
  - eapply Forall2_impl; [|exact F]. cbn. intros t X' (W & N & P & A & Q). auto.
Qed.

Lemma deflation_unchanged : forall p px parts S2, 1 <= p -> 0 <= px -> Forall (share_ok p px) parts -> px * p <= Z.of_nat (length S2) ->
  (forall l j, 0 <= l < p -> 0 <= j < px -> dot (byx parts) l j = C0) ->
  exists Xs, deflation_constraint p parts S2 = Val Xs /\
    Forall2 (fun t X' => en X' = en (fst (fst t)) /\ ep X' = px /\
      forall i j, 0 <= i < en X' -> 0 <= j < px -> entC X' i j = entC (fst (fst t)) i j) parts Xs.
Proof.
  intros p px parts S2 Hp Hpx Fs HS Ho. destruct (deflation_dots p px parts S2 Hp Hpx Fs HS) as (Xs & E & F).
  exists Xs. split; [exact E|]. eapply Forall2_impl; [|exact F]. cbn. intros t X' (W & N & P & A & Q). split; [exact N|]. split; [exact P|].
  intros i j Hi Hj. rewrite Q by lia. rewrite (csum_ext _ _ (fun _ => C0)); [rewrite csum_0; ring|].
  intros l Hl. rewrite Ho by lia. ring.
Qed.

Lemma deflation_idempotent : forall p px parts S2, 1 <= p -> 0 <= px -> Forall (share_ok p px) parts -> px * p <= Z.of_nat (length S2) ->
  orthonormal p parts ->
  exists Xs Xs', deflation_constraint p parts S2 = Val Xs /\
    deflation_constraint p (map (fun q => (snd q, snd (fst (fst q)), snd (fst q))) (combine parts Xs)) S2 = Val Xs' /\
    Forall2 (fun X X' => en X' = en X /\ ep X' = ep X /\ forall i j, 0 <= i < en X -> 0 <= j < px -> entC X' i j = entC X i j) Xs Xs'.
Proof.
  intros p px parts S2 Hp Hpx Fs HS Ho. destruct (deflation_dots p px parts S2 Hp Hpx Fs HS) as (Xs & E & F).
  destruct (deflation_orthogonal p px parts S2 Hp Hpx Fs HS Ho) as (Xs1 & E1 & O). rewrite E in E1. injection E1 as <-.
  set (parts' := map (fun q => (snd q, snd (fst (fst q)), snd (fst q))) (combine parts Xs)).
  assert (Fs' : Forall (share_ok p px) parts').
  { unfold parts'. clear -Fs F. revert Fs. induction F as [|((X & Y) & BY) X' ts Xs (W & N & P & A & Q) F IH]; intros Fs; cbn [combine map]; [constructor|].
    inversion Fs as [|? ? Hs Fs']; subst. destruct Hs as (WX & WY & WB & PX & N1 & N2 & P1 & P2). cbn [fst snd] in *.
    constructor; [|apply IH; exact Fs']. unfold share_ok. split; [exact W|]. split; [exact WY|]. split; [exact WB|]. repeat split; auto; lia. }
  destruct (deflation_unchanged p px parts' S2 Hp Hpx Fs' HS) as (Xs' & E' & F').
  { intros l j Hl Hj. rewrite <- (O l j Hl Hj). f_equal. unfold byx, parts'. rewrite map_map. reflexivity. }
  exists Xs, Xs'. split; [exact E|]. split; [exact E'|].
  assert (LX : length parts = length Xs) by (eapply Forall2_len; exact F).
  clear -F F' LX. unfold parts' in F'. clear parts'. revert Xs' F'. induction F as [|t X' ts Xs (W & N & P & A & Q) F IH]; intros Xs' F'; cbn [combine map] in F'.
  - inversion F'; subst. constructor.
  - inversion F' as [|? X'' ? Xs'' (N'' & P'' & Q'') F'']; subst. cbn [fst snd] in *. constructor.
    + split; [exact N''|]. split; [lia|]. intros i j Hi Hj. apply Q''; lia.
    + apply IH; [cbn in LX; lia|exact F''].
Qed.

