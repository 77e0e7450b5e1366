(** Algebra and calculus of complex matrices. *)
From Coq Require Import List ZArith Reals Bool Arith Lia Lra FunctionalExtensionality.
From Verif Require Import Base RC S_Eig.
Import ListNotations.
Local Open Scope R_scope.

Lemma mext (A B : mat) : (forall i j, A i j = B i j) -> A = B.
Proof. intros H. apply functional_extensionality; intros i. apply functional_extensionality; intros j. apply H. Qed.

Add Ring Cring_m : C_ring_theory.

Lemma mmul_assoc k l A B D : mmul l (mmul k A B) D = mmul k A (mmul l B D).
Proof.
  apply mext; intros i j. unfold mmul.
  transitivity (csum l (fun a => csum k (fun b => (A i b * B b a * D a j)%C))).
  - apply csum_ext; intros a _. rewrite <- csum_scal_r. apply csum_ext. intros; ring.
  - rewrite csum_swap. apply csum_ext; intros b _. rewrite <- csum_scal. apply csum_ext. intros; ring.
Qed.
Lemma mmul_add_l k A B D : mmul k (madd A B) D = madd (mmul k A D) (mmul k B D).
Proof. apply mext; intros i j. unfold mmul, madd. rewrite <- csum_add. apply csum_ext. intros; ring. Qed.
Lemma mmul_add_r k A B D : mmul k D (madd A B) = madd (mmul k D A) (mmul k D B).
Proof. apply mext; intros i j. unfold mmul, madd. rewrite <- csum_add. apply csum_ext. intros; ring. Qed.
Lemma mmul_scal_l k a A B : mmul k (mscal a A) B = mscal a (mmul k A B).
Proof. apply mext; intros i j. unfold mmul, mscal. rewrite Cscal_mul, <- csum_scal. apply csum_ext. intros. rewrite Cscal_mul. ring. Qed.
Lemma mmul_scal_r k a A B : mmul k A (mscal a B) = mscal a (mmul k A B).
Proof. apply mext; intros i j. unfold mmul, mscal. rewrite Cscal_mul, <- csum_scal. apply csum_ext. intros. rewrite Cscal_mul. ring. Qed.
Lemma madj_mul k A B : madj (mmul k A B) = mmul k (madj B) (madj A).
Proof. apply mext; intros i j. unfold mmul, madj. rewrite csum_conj. apply csum_ext. intros. rewrite Cconj_mul. ring. Qed.
Lemma madj_add A B : madj (madd A B) = madd (madj A) (madj B).
Proof. apply mext; intros i j. unfold madj, madd. apply Cconj_add. Qed.
Lemma madj_scal a A : madj (mscal a A) = mscal a (madj A).
Proof. apply mext; intros i j. unfold madj, mscal. cring. Qed.
Lemma madj_adj A : madj (madj A) = A.
Proof. apply mext; intros i j. apply Cconj_conj. Qed.
Lemma mid_herm p : madj (mid p) = mid p.
Proof.
  apply mext; intros i j. unfold madj, mid. destruct (Nat.eqb_spec i j) as [->|H].
  - rewrite Nat.eqb_refl. destruct (j <? p)%nat; cbn; cring.
  - rewrite (proj2 (Nat.eqb_neq j i)) by auto. rewrite !andb_false_r. apply Cconj_0.
Qed.
Lemma mid_l p m A : mdim p m A -> mmul p (mid p) A = A.
Proof.
  intros HA. apply mext; intros i j. unfold mmul, mid. destruct (Nat.ltb_spec i p) as [Hi|Hi].
  - rewrite (csum_single p i) by (first [exact Hi|intros k ? ?; destruct (Nat.eqb_spec i k); [congruence|rewrite ?andb_false_r; ring]]).
    rewrite Nat.eqb_refl. cbn. ring.
  - cbn. rewrite (HA i j) by auto. rewrite (csum_ext p _ (fun _ => C0)) by (intros; ring). apply csum_0.
Qed.
Lemma mid_r n p A : mdim n p A -> mmul p A (mid p) = A.
Proof.
  intros HA. apply mext; intros i j. unfold mmul, mid. destruct (Nat.ltb_spec j p) as [Hj|Hj].
  - rewrite (csum_single p j) by (first [exact Hj|intros k ? ?; destruct (Nat.eqb_spec k j); [congruence|rewrite andb_false_r; ring]]).
    rewrite Nat.eqb_refl. destruct (Nat.ltb_spec j p); [cbn; ring|lia].
  - rewrite (HA i j) by auto. rewrite (csum_ext p _ (fun _ => C0)); [apply csum_0|]. intros k Hk.
    destruct (Nat.eqb_spec k j); [lia|rewrite andb_false_r; ring].
Qed.
Lemma mtr_add k A B : mtr k (madd A B) = (mtr k A + mtr k B)%C.
Proof. apply csum_add. Qed.
Lemma mtr_scal k a A : mtr k (mscal a A) = Cscal a (mtr k A).
Proof. unfold mtr, mscal. rewrite Cscal_mul, <- csum_scal. apply csum_ext; intros. apply Cscal_mul. Qed.
Lemma mtr_cyc k l A B : mtr k (mmul l A B) = mtr l (mmul k B A).
Proof. unfold mtr, mmul. rewrite csum_swap. apply csum_ext; intros a _. apply csum_ext. intros. ring. Qed.
Lemma mtr_adj k A : mtr k (madj A) = Cconj (mtr k A).
Proof. unfold mtr. rewrite csum_conj. reflexivity. Qed.
Lemma re_tr_adj k A : re (mtr k (madj A)) = re (mtr k A).
Proof. rewrite mtr_adj. reflexivity. Qed.

Lemma mdim_mul n k m A B : mdim n k A -> mdim k m B -> mdim n m (mmul k A B).
Proof.
  intros HA HB i j H. unfold mmul. rewrite (csum_ext k _ (fun _ => C0)); [apply csum_0|]. intros l _.
  destruct H as [H|H]; [rewrite (HA i l) by auto|rewrite (HB l j) by auto]; ring.
Qed.
Lemma mdim_adj n m A : mdim n m A -> mdim m n (madj A).
Proof. intros HA i j H. unfold madj. rewrite HA by tauto. apply Cconj_0. Qed.
Lemma mdim_add n m A B : mdim n m A -> mdim n m B -> mdim n m (madd A B).
Proof. intros HA HB i j H. unfold madd. rewrite HA, HB by auto. ring. Qed.
Lemma mdim_scal n m a A : mdim n m A -> mdim n m (mscal a A).
Proof. intros HA i j H. unfold mscal. rewrite HA by auto. cring. Qed.
Lemma mdim_id p : mdim p p (mid p).
Proof.
  intros i j H. unfold mid. destruct (Nat.ltb_spec i p); [|reflexivity]. destruct (Nat.eqb_spec i j); [lia|reflexivity].
Qed.
Lemma mdim_form n p A Y Z : mdim n n A -> mdim n p Y -> mdim n p Z -> mdim p p (form n A Y Z).
Proof. intros. apply (mdim_mul p n p); [apply mdim_adj; auto|apply (mdim_mul n n p); auto]. Qed.

Lemma mscal_mscal a b A : mscal a (mscal b A) = mscal (a * b) A.
Proof. apply mext; intros i j. unfold mscal. cring. Qed.
Lemma mscal_add a A B : mscal a (madd A B) = madd (mscal a A) (mscal a B).
Proof. apply mext; intros i j. unfold mscal, madd. cring. Qed.
Lemma mscal_1 A : mscal 1 A = A.
Proof. apply mext; intros i j. unfold mscal. cring. Qed.

(** ** Inverses of Hermitian matrices *)
Definition inverse_of (p : nat) (M N : mat) : Prop := mdim p p N /\ mmul p M N = mid p.

Lemma inv_both p M N : mdim p p M -> hermitian M -> inverse_of p M N -> hermitian N /\ mmul p N M = mid p.
Proof.
  intros HM Hh (HN & E). unfold hermitian in *.
  assert (E' : mmul p (madj N) M = mid p).
  { rewrite <- (mid_herm p), <- E, madj_mul, Hh. reflexivity. }
  assert (N' : madj N = N).
  { rewrite <- (mid_r p p (madj N)) by (apply mdim_adj; auto). rewrite <- E, <- mmul_assoc, E'. apply (mid_l p p); auto. }
  split; [exact N'|]. rewrite N' in E'. exact E'.
Qed.
Lemma inv_unique p M N N' : mdim p p M -> hermitian M -> inverse_of p M N -> inverse_of p M N' -> N = N'.
Proof.
  intros HM Hh H H'. destruct (inv_both p M N HM Hh H) as (_ & E). destruct H as (D & _). destruct H' as (D' & E').
  rewrite <- (mid_r p p N D), <- E', <- mmul_assoc, E. apply (mid_l p p); auto.
Qed.

(** ** Limits as h -> 0 *)
Definition rlim (f : R -> R) (l : R) : Prop :=
  forall e, 0 < e -> exists d, 0 < d /\ forall h, h <> 0 -> Rabs h < d -> Rabs (f h - l) < e.
Lemma rlim_const c : rlim (fun _ => c) c.
Proof. intros e He. exists 1. split; [lra|]. intros. replace (c - c) with 0 by ring. rewrite Rabs_R0. lra. Qed.
Lemma rlim_id : rlim (fun h => h) 0.
Proof. intros e He. exists e. split; [lra|]. intros h _ H. rewrite Rminus_0_r. exact H. Qed.
Lemma rlim_add f g l m : rlim f l -> rlim g m -> rlim (fun h => f h + g h) (l + m).
Proof.
  intros F G e He. destruct (F (e / 2)) as (d & Hd & Q); [lra|]. destruct (G (e / 2)) as (d' & Hd' & Q'); [lra|].
  exists (Rmin d d'). split; [apply Rmin_pos; auto|]. intros h Hh H.
  pose proof (Q h Hh ltac:(pose proof (Rmin_l d d'); lra)). pose proof (Q' h Hh ltac:(pose proof (Rmin_r d d'); lra)).
  replace (f h + g h - (l + m)) with ((f h - l) + (g h - m)) by ring. pose proof (Rabs_triang (f h - l) (g h - m)). lra.
Qed.
Lemma rlim_mul f g l m : rlim f l -> rlim g m -> rlim (fun h => f h * g h) (l * m).
Proof.
  intros F G e He. set (k := Rabs l + Rabs m + 1). assert (Hk : 0 < k) by (unfold k; pose proof (Rabs_pos l); pose proof (Rabs_pos m); lra).
  set (u := Rmin 1 (e / (2 * k))). assert (Hu : 0 < u) by (apply Rmin_pos; [lra|apply Rdiv_lt_0_compat; lra]).
  destruct (F u Hu) as (d & Hd & Q). destruct (G u Hu) as (d' & Hd' & Q').
  exists (Rmin d d'). split; [apply Rmin_pos; auto|]. intros h Hh H.
  pose proof (Q h Hh ltac:(pose proof (Rmin_l d d'); lra)) as A. pose proof (Q' h Hh ltac:(pose proof (Rmin_r d d'); lra)) as B.
  replace (f h * g h - l * m) with ((f h - l) * (g h - m) + (l * (g h - m) + (f h - l) * m)) by ring.
  eapply Rle_lt_trans; [apply Rabs_triang|]. eapply Rle_lt_trans; [apply Rplus_le_compat_l, Rabs_triang|]. rewrite !Rabs_mult.
  pose proof (Rabs_pos (f h - l)). pose proof (Rabs_pos (g h - m)). pose proof (Rabs_pos l). pose proof (Rabs_pos m).
  assert (u1 : u <= 1) by apply Rmin_l. assert (u2 : u * (2 * k) <= e).
  { apply Rle_trans with (e / (2 * k) * (2 * k)); [apply Rmult_le_compat_r; [lra|apply Rmin_r]|right; field; lra]. }
  unfold k in u2.
  assert (Rabs (f h - l) * Rabs (g h - m) <= u * 1) by (apply Rmult_le_compat; lra).
  assert (Rabs l * Rabs (g h - m) <= Rabs l * u) by (apply Rmult_le_compat_l; lra).
  assert (Rabs (f h - l) * Rabs m <= u * Rabs m) by (apply Rmult_le_compat_r; lra).
  assert (0 <= u * Rabs l) by (apply Rmult_le_pos; lra). assert (0 <= u * Rabs m) by (apply Rmult_le_pos; lra). lra.
Qed.
Lemma rlim_ext f g l : (forall h, h <> 0 -> f h = g h) -> rlim g l -> rlim f l.
Proof. intros E G e He. destruct (G e He) as (d & Hd & Q). exists d. split; [auto|]. intros h Hh H. rewrite E by auto. auto. Qed.
Lemma rlim_eq f l m : l = m -> rlim f l -> rlim f m.
Proof. intros ->. auto. Qed.
Lemma rlim_abs f l : rlim f l -> rlim (fun h => Rabs (f h)) (Rabs l).
Proof. intros F e He. destruct (F e He) as (d & Hd & Q). exists d. split; [auto|]. intros h Hh H. eapply Rle_lt_trans; [apply Rabs_triang_inv2|]. auto. Qed.
Lemma rlim_rsum n f l : (forall i, (i < n)%nat -> rlim (fun h => f h i) (l i)) -> rlim (fun h => rsum n (f h)) (rsum n l).
Proof.
  induction n as [|n IH]; intros H; cbn [rsum]; [apply rlim_const|]. apply rlim_add; [apply IH; intros; apply H; lia|apply H; lia].
Qed.
Lemma rlim_squeeze f g l : (exists d, 0 < d /\ forall h, h <> 0 -> Rabs h < d -> Rabs (f h - l) <= g h) -> rlim g 0 -> rlim f l.
Proof.
  intros (d & Hd & Q) G e He. destruct (G e He) as (d' & Hd' & Q'). exists (Rmin d d'). split; [apply Rmin_pos; auto|].
  intros h Hh H. pose proof (Q h Hh ltac:(pose proof (Rmin_l d d'); lra)). pose proof (Q' h Hh ltac:(pose proof (Rmin_r d d'); lra)) as B.
  rewrite Rminus_0_r in B. pose proof (Rle_abs (g h)). lra.
Qed.
Lemma rlim_derivable f x l : rlim (fun h => (f (x + h) - f x) / h) l <-> derivable_pt_lim f x l.
Proof.
  split; intros H e He.
  - destruct (H e He) as (d & Hd & Q). exists (mkposreal d Hd). intros h Hh Hl. apply Q; auto.
  - destruct (H e He) as (d & Q). exists d. split; [apply cond_pos|]. auto.
Qed.

Definition clim (f : R -> C) (l : C) : Prop := rlim (fun h => re (f h)) (re l) /\ rlim (fun h => im (f h)) (im l).
Lemma clim_const c : clim (fun _ => c) c.
Proof. split; apply rlim_const. Qed.
Lemma clim_ext f g l : (forall h, h <> 0 -> f h = g h) -> clim g l -> clim f l.
Proof. intros E (G1 & G2). split; [apply rlim_ext with (g := fun h => re (g h))|apply rlim_ext with (g := fun h => im (g h))]; auto; intros; rewrite E; auto. Qed.
Lemma clim_add f g l m : clim f l -> clim g m -> clim (fun h => (f h + g h)%C) (l + m)%C.
Proof. intros (F & F') (G & G'). split; cbn; apply rlim_add; auto. Qed.
Lemma clim_mul f g l m : clim f l -> clim g m -> clim (fun h => (f h * g h)%C) (l * m)%C.
Proof.
  intros (F & F') (G & G'). split; cbn [re im Cmul fst snd].
  - unfold Rminus. apply rlim_add; [apply rlim_mul; auto|]. apply rlim_eq with (-1 * (im l * im m)); [ring|].
    apply rlim_ext with (g := fun h => -1 * (im (f h) * im (g h))); [intros; unfold im; ring|]. apply rlim_mul; [apply rlim_const|apply rlim_mul; auto].
  - apply rlim_add; apply rlim_mul; auto.
Qed.
Lemma clim_scal f g l m : rlim f l -> clim g m -> clim (fun h => Cscal (f h) (g h)) (Cscal l m).
Proof. intros F (G & G'). split; cbn; apply rlim_mul; auto. Qed.
Lemma clim_csum n f l : (forall i, (i < n)%nat -> clim (fun h => f h i) (l i)) -> clim (fun h => csum n (f h)) (csum n l).
Proof.
  induction n as [|n IH]; intros H; cbn [csum]; [apply clim_const|]. apply clim_add; [apply IH; intros; apply H; lia|apply H; lia].
Qed.

Definition mlim (F : R -> mat) (L : mat) : Prop := forall i j, clim (fun h => F h i j) (L i j).
Lemma mlim_const A : mlim (fun _ => A) A.
Proof. intros i j. apply clim_const. Qed.
Lemma mlim_ext F G L : (forall h, h <> 0 -> F h = G h) -> mlim G L -> mlim F L.
Proof. intros E H i j. apply clim_ext with (g := fun h => G h i j); [|apply H]. intros. rewrite E; auto. Qed.
Lemma mlim_eq F L M : L = M -> mlim F L -> mlim F M.
Proof. intros ->. auto. Qed.
Lemma mlim_add F G L M : mlim F L -> mlim G M -> mlim (fun h => madd (F h) (G h)) (madd L M).
Proof. intros HF HG i j. apply clim_add; [apply HF|apply HG]. Qed.
Lemma mlim_scal f G l M : rlim f l -> mlim G M -> mlim (fun h => mscal (f h) (G h)) (mscal l M).
Proof. intros HF HG i j. apply clim_scal; [apply HF|apply HG]. Qed.
Lemma mlim_mul k F G L M : mlim F L -> mlim G M -> mlim (fun h => mmul k (F h) (G h)) (mmul k L M).
Proof. intros HF HG i j. apply (clim_csum k (fun h l => (F h i l * G h l j)%C) (fun l => (L i l * M l j)%C)). intros l _. apply clim_mul; [apply HF|apply HG]. Qed.
Lemma mlim_tr k F L : mlim F L -> clim (fun h => mtr k (F h)) (mtr k L).
Proof. intros HF. apply (clim_csum k (fun h i => F h i i) (fun i => L i i)). intros; apply HF. Qed.

(** ** Derivatives *)
Definition mder (F : R -> mat) (x : R) (L : mat) : Prop := mlim (fun h => mscal (/ h) (msub (F (x + h)) (F x))) L.
Lemma mder_cont F x L : mder F x L -> mlim (fun h => F (x + h)) (F x).
Proof.
  intros H. apply mlim_ext with (G := fun h => madd (F x) (mscal h (mscal (/ h) (msub (F (x + h)) (F x))))).
  - intros h Hh. rewrite mscal_mscal, Rinv_r, mscal_1 by auto. apply mext; intros i j. unfold madd, msub, madd, mscal. cring.
  - apply mlim_eq with (madd (F x) (mscal 0 L)); [apply mext; intros i j; unfold madd, mscal; cring|].
    apply mlim_add; [apply mlim_const|]. apply (mlim_scal (fun h => h)); [apply rlim_id|exact H].
Qed.
Lemma mder_eq F x L M : L = M -> mder F x L -> mder F x M.
Proof. intros ->. auto. Qed.
Lemma mder_const A x : mder (fun _ => A) x (fun _ _ => C0).
Proof. apply mlim_ext with (G := fun _ => (fun _ _ => C0)); [|apply mlim_const]. intros h _. apply mext; intros i j. unfold mscal, msub, madd, mscal. cring. Qed.
Lemma mder_add F G x L M : mder F x L -> mder G x M -> mder (fun t => madd (F t) (G t)) x (madd L M).
Proof.
  intros HF HG. eapply mlim_ext; [|apply mlim_add; [apply HF|apply HG]]. intros h Hh. cbn beta. apply mext; intros i j. unfold mscal, msub, madd, mscal. cring.
Qed.
Lemma mder_mul k F G x L M : mder F x L -> mder G x M -> mder (fun t => mmul k (F t) (G t)) x (madd (mmul k L (G x)) (mmul k (F x) M)).
Proof.
  intros HF HG. eapply mlim_ext; [|apply mlim_add; [apply (mlim_mul k); [apply HF|apply (mder_cont G x M HG)]|apply (mlim_mul k); [apply (mlim_const (F x))|apply HG]]].
  intros h Hh. cbn beta. unfold msub. rewrite !mmul_scal_l, !mmul_scal_r, !mmul_add_l, !mmul_add_r, !mmul_scal_l, !mmul_scal_r. apply mext; intros i j. unfold mscal, madd. cring.
Qed.
Lemma mder_scal f G x l M : derivable_pt_lim f x l -> mder G x M -> mder (fun t => mscal (f t) (G t)) x (madd (mscal l (G x)) (mscal (f x) M)).
Proof.
  intros HF HG. apply rlim_derivable in HF. eapply mlim_ext; [|apply mlim_add; [apply mlim_scal; [apply HF|apply (mder_cont G x M HG)]|apply mlim_scal; [apply (rlim_const (f x))|apply HG]]].
  intros h Hh. cbn beta. apply mext; intros i j. unfold msub, mscal, madd, mscal. apply C_eq; csimp; field; auto.
Qed.
Lemma mder_scal_c f A x l : derivable_pt_lim f x l -> mder (fun t => mscal (f t) A) x (mscal l A).
Proof. intros HF. eapply mder_eq; [|apply (mder_scal f (fun _ => A) x l); [exact HF|apply mder_const]]. apply mext; intros i j. unfold madd, mscal. cring. Qed.
Lemma mder_tr k F x L : mder F x L -> derivable_pt_lim (fun t => re (mtr k (F t))) x (re (mtr k L)).
Proof.
  intros HF. apply rlim_derivable. pose proof (mlim_tr k _ _ HF) as (H & _). eapply rlim_ext; [|exact H]. intros h Hh. cbn beta.
  unfold msub. rewrite mtr_scal, mtr_add, mtr_scal. csimp. field. auto.
Qed.

(** ** Continuity of the inverse *)
Definition c1n (z : C) : R := Rabs (re z) + Rabs (im z).
Definition mnorm (p : nat) (A : mat) : R := rsum p (fun i => rsum p (fun j => c1n (A i j))).
Lemma c1n_pos z : 0 <= c1n z.
Proof. unfold c1n. pose proof (Rabs_pos (re z)). pose proof (Rabs_pos (im z)). lra. Qed.
Lemma c1n_add a b : c1n (a + b)%C <= c1n a + c1n b.
Proof. unfold c1n, Cadd. cbn [re im fst snd]. pose proof (Rabs_triang (re a) (re b)). pose proof (Rabs_triang (im a) (im b)). lra. Qed.
Lemma c1n_mul a b : c1n (a * b)%C <= c1n a * c1n b.
Proof.
  unfold c1n, Cmul. cbn [re im fst snd]. pose proof (Rabs_triang (re a * re b) (- (im a * im b))) as H. pose proof (Rabs_triang (re a * im b) (im a * re b)) as H'.
  rewrite Rabs_Ropp in H. rewrite !Rabs_mult in *. unfold Rminus. lra.
Qed.
Lemma c1n_scal x a : c1n (Cscal x a) = Rabs x * c1n a.
Proof. unfold c1n, Cscal. cbn [re im fst snd]. rewrite !Rabs_mult. ring. Qed.
Lemma c1n_csum n f : c1n (csum n f) <= rsum n (fun i => c1n (f i)).
Proof.
  induction n as [|n IH]; cbn [csum rsum]; [unfold c1n, C0; cbn; rewrite Rabs_R0; lra|].
  eapply Rle_trans; [apply c1n_add|]. lra.
Qed.
Lemma mnorm_pos p A : 0 <= mnorm p A.
Proof. apply rsum_nonneg; intros. apply rsum_nonneg; intros. apply c1n_pos. Qed.
Lemma mnorm_add p A B : mnorm p (madd A B) <= mnorm p A + mnorm p B.
Proof.
  unfold mnorm. rewrite <- rsum_add. apply rsum_le; intros. rewrite <- rsum_add. apply rsum_le; intros. apply c1n_add.
Qed.
Lemma mnorm_scal p x A : mnorm p (mscal x A) = Rabs x * mnorm p A.
Proof. unfold mnorm. rewrite <- rsum_scal. apply rsum_ext; intros. rewrite <- rsum_scal. apply rsum_ext; intros. apply c1n_scal. Qed.
Lemma rsum_le_one n f k : (forall i, (i < n)%nat -> 0 <= f i) -> (k < n)%nat -> f k <= rsum n f.
Proof.
  induction n as [|n IH]; intros H Hk; [lia|]. cbn [rsum]. destruct (Nat.eq_dec k n) as [->|N].
  - assert (0 <= rsum n f) by (apply rsum_nonneg; intros; apply H; lia). lra.
  - pose proof (IH ltac:(intros; apply H; lia) ltac:(lia)). pose proof (H n ltac:(lia)). lra.
Qed.
Lemma mnorm_mul p A B : mnorm p (mmul p A B) <= mnorm p A * mnorm p B.
Proof.
  unfold mnorm at 1 2. rewrite Rmult_comm, <- rsum_scal. apply rsum_le; intros i Hi.
  apply Rle_trans with (rsum p (fun j => rsum p (fun l => c1n (A i l) * c1n (B l j)))).
  { apply rsum_le; intros j Hj. eapply Rle_trans; [apply c1n_csum|]. apply rsum_le; intros. apply c1n_mul. }
  rewrite rsum_swap. rewrite <- rsum_scal. apply rsum_le; intros l Hl. rewrite rsum_scal, Rmult_comm. apply Rmult_le_compat_r; [apply c1n_pos|].
  unfold mnorm. apply (rsum_le_one p (fun i => rsum p (fun j => c1n (B i j)))); [|exact Hl]. intros. apply rsum_nonneg. intros. apply c1n_pos.
Qed.
Lemma mnorm_entry p A i j : mdim p p A -> c1n (A i j) <= mnorm p A.
Proof.
  intros HA. destruct (Nat.lt_ge_cases i p) as [Hi|Hi]; [destruct (Nat.lt_ge_cases j p) as [Hj|Hj]|].
  - eapply Rle_trans; [|apply (rsum_le_one p (fun i => rsum p (fun j => c1n (A i j))) i); [|exact Hi]].
    + apply (rsum_le_one p (fun j => c1n (A i j)) j); [intros; apply c1n_pos|exact Hj].
    + intros. apply rsum_nonneg. intros. apply c1n_pos.
  - rewrite HA by auto. unfold c1n, C0. cbn. rewrite Rabs_R0. pose proof (mnorm_pos p A). lra.
  - rewrite HA by auto. unfold c1n, C0. cbn. rewrite Rabs_R0. pose proof (mnorm_pos p A). lra.
Qed.
Lemma mnorm_lim p F : mlim F (fun _ _ => C0) -> rlim (fun h => mnorm p (F h)) 0.
Proof.
  intros H. unfold mnorm. apply rlim_eq with (rsum p (fun _ => rsum p (fun _ => 0))).
  { rewrite (rsum_ext p _ (fun _ => 0)) by (intros; apply rsum_0). apply rsum_0. }
  apply (rlim_rsum p (fun h i => rsum p (fun j => c1n (F h i j)))). intros i _. apply (rlim_rsum p (fun h j => c1n (F h i j))). intros j _.
  destruct (H i j) as (A & B). apply rlim_eq with (Rabs 0 + Rabs 0); [rewrite Rabs_R0; ring|]. unfold c1n. apply rlim_add; apply rlim_abs; assumption.
Qed.

Lemma resolvent p M M' N N' : mdim p p N -> mdim p p N' -> mmul p N' M' = mid p -> mmul p M N = mid p ->
  msub N' N = mscal (-1) (mmul p N' (mmul p (msub M' M) N)).
Proof.
  intros D D' E E'. unfold msub. rewrite mmul_add_l, mmul_add_r, mmul_scal_l, mmul_scal_r, E', (mid_r p p) by auto.
  rewrite <- mmul_assoc, E, (mid_l p p) by auto. apply mext; intros i j. unfold madd, mscal. cring.
Qed.
Lemma mlim_inverse p F N0 F0 G : mlim F F0 -> inverse_of p F0 N0 -> (forall h, h <> 0 -> mdim p p (G h) /\ mmul p (G h) (F h) = mid p) -> mlim G N0.
Proof.
  intros HF (HN & E) HG. set (D := fun h => msub (F h) F0).
  assert (HD : rlim (fun h => mnorm p (D h)) 0).
  { apply mnorm_lim. eapply mlim_ext with (G := fun h => madd (F h) (mscal (-1) F0)); [reflexivity|].
    replace (fun _ _ : nat => C0) with (madd F0 (mscal (-1) F0)) by (apply mext; intros i j; unfold madd, mscal; cring). apply mlim_add; [exact HF|apply mlim_const]. }
  set (k := mnorm p N0). assert (Hk : 0 <= k) by apply mnorm_pos.
  destruct (HD (/ (2 * (k + 1)))) as (d & Hd & Q); [apply Rinv_0_lt_compat; lra|].
  assert (Bd : forall h, h <> 0 -> Rabs h < d -> mnorm p (msub (G h) N0) <= 2 * k * k * mnorm p (D h)).
  { intros h Hh Hl. specialize (Q h Hh Hl). rewrite Rminus_0_r in Q. rewrite Rabs_right in Q by (apply Rle_ge, mnorm_pos).
    destruct (HG h Hh) as (Dg & Eg). pose proof (resolvent p F0 (F h) N0 (G h) HN Dg Eg E) as Rs. fold (D h) in Rs.
    set (g := mnorm p (G h)). set (x := mnorm p (D h)) in *. assert (Hx : 0 <= x) by apply mnorm_pos. assert (Hg : 0 <= g) by apply mnorm_pos.
    assert (N1 : mnorm p (msub (G h) N0) <= g * (x * k)).
    { rewrite Rs, mnorm_scal. replace (Rabs (-1)) with 1 by (rewrite Rabs_left; lra). rewrite Rmult_1_l. eapply Rle_trans; [apply mnorm_mul|].
      apply Rmult_le_compat_l; [exact Hg|]. apply mnorm_mul. }
    assert (Gb : g <= 2 * k).
    { assert (g <= k + g * (x * k)).
      { unfold g at 1. replace (G h) with (madd N0 (msub (G h) N0)) by (apply mext; intros i j; unfold msub, madd, mscal; cring).
        eapply Rle_trans; [apply mnorm_add|]. fold k. lra. }
      assert (x * k <= / 2).
      { apply Rle_trans with (/ (2 * (k + 1)) * k); [apply Rmult_le_compat_r; lra|]. apply Rmult_le_reg_l with (2 * (k + 1)); [lra|]. rewrite <- Rmult_assoc, Rinv_r by lra. lra. }
      assert (g * (x * k) <= g * / 2) by (apply Rmult_le_compat_l; lra). lra. }
    eapply Rle_trans; [exact N1|]. replace (2 * k * k * x) with (2 * k * (x * k)) by ring. apply Rmult_le_compat_r; [apply Rmult_le_pos; lra|exact Gb]. }
  assert (Lk : rlim (fun h => 2 * k * k * mnorm p (D h)) 0) by (apply rlim_eq with (2 * k * k * 0); [ring|]; apply rlim_mul; [apply rlim_const|exact HD]).
  assert (Ent : forall i j h, h <> 0 -> Rabs h < d -> c1n (msub (G h) N0 i j) <= 2 * k * k * mnorm p (D h)).
  { intros i j h Hh Hl. eapply Rle_trans; [apply mnorm_entry|exact (Bd h Hh Hl)]. destruct (HG h Hh). apply mdim_add; [auto|apply mdim_scal; auto]. }
  intros i j. split; (eapply rlim_squeeze; [|exact Lk]); exists d; (split; [exact Hd|]); intros h Hh Hl; specialize (Ent i j h Hh Hl);
    unfold c1n, msub, madd, mscal, Cadd, Cscal in Ent; cbn [re im fst snd] in Ent.
  - replace (re (G h i j) - re (N0 i j)) with (re (G h i j) + -1 * re (N0 i j)) by ring. pose proof (Rabs_pos (im (G h i j) + -1 * im (N0 i j))). lra.
  - replace (im (G h i j) - im (N0 i j)) with (im (G h i j) + -1 * im (N0 i j)) by ring. pose proof (Rabs_pos (re (G h i j) + -1 * re (N0 i j))). lra.
Qed.
Lemma mder_inverse p M N x L : mder M x L -> (forall t, mdim p p (N t) /\ mmul p (M t) (N t) = mid p /\ mmul p (N t) (M t) = mid p) ->
  mder N x (mscal (-1) (mmul p (N x) (mmul p L (N x)))).
Proof.
  intros HM HN. assert (Cn : mlim (fun h => N (x + h)) (N x)).
  { apply (mlim_inverse p (fun h => M (x + h)) (N x) (M x)); [exact (mder_cont M x L HM)|split; apply HN|]. intros h _. split; apply HN. }
  eapply mlim_ext; [|apply (mlim_scal (fun _ => -1)); [apply rlim_const|apply (mlim_mul p); [exact Cn|apply (mlim_mul p); [exact HM|apply (mlim_const (N x))]]]].
  intros h Hh. cbn beta. rewrite (resolvent p (M x) (M (x + h)) (N x) (N (x + h))) by apply HN.
  rewrite mmul_scal_l, mmul_scal_r, !mscal_mscal. f_equal. ring.
Qed.
