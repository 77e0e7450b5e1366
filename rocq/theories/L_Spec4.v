(** Routines that meet the LAPACK contracts exist. *)
From Coq Require Import List ZArith Reals Bool Arith Lia Lra Classical IndefiniteDescription.
From Verif Require Import Base RC M_Evect M_Eig S_Evect S_Eig L_Eig L_Mat L_Eig2 L_Eig4 L_Eig5 L_Eig13 S_Kpt L_Kpt1 L_Spec1 L_Spec2 L_Spec3.
Import ListNotations.
Local Open Scope R_scope.
Add Ring Cring_sp4 : C_ring_theory.

Lemma diag_dim p e : mdim p p (mdiag p e).
Proof. intros i j K. unfold mdiag. destruct (Nat.ltb_spec i p); cbn [andb]; [|reflexivity]. destruct (Nat.eqb_spec i j); [lia|reflexivity]. Qed.

(** Every Hermitian matrix is diagonalised by a unitary one. *)
Lemma spectral p M : mdim p p M -> hermitian M -> exists V e, mdim p p V /\ mmul p V (madj V) = mid p /\ mmul p (madj V) V = mid p /\
  M = mmul p (madj V) (mmul p (mdiag p e) V) /\ forall i j, (i <= j < p)%nat -> e i <= e j.
Proof.
  intros DM HM. assert (Idem : mmul p (mid p) (mid p) = mid p) by (apply (mid_l p p), mdim_id).
  destruct (modes_exist p (mid p) M (mid p) DM (mdim_id p) (mdim_id p) HM (mid_herm p) Idem (posdef_id p)) as (m & V & e & Hm & _ & (DV & OV & FV & As & Cp)).
  pose proof (Cp p (mid p) (mdim_id p) Idem) as E. unfold form in E, OV. rewrite (mid_l p m V DV) in OV. rewrite Idem in E. rewrite (mid_r m p (madj V) (mdim_adj _ _ _ DV)) in E.
  assert (Em : (p <= m)%nat).
  { apply (orthonormal_at_most m (mid m) p (madj V)); [apply mdim_adj; exact DV|]. unfold form. rewrite (mid_l m p) by (apply mdim_adj; exact DV). rewrite madj_adj. symmetry. exact E. }
  assert (m = p) by lia. subst m. clear Em Hm.
  exists (madj V), e. rewrite madj_adj. split; [apply mdim_adj; exact DV|]. split; [exact OV|]. split; [symmetry; exact E|]. split; [|exact As].
  rewrite <- FV. unfold form. rewrite !mmul_assoc. rewrite <- E, (mid_r p p M DM). rewrite <- (mmul_assoc p p V). rewrite <- E. symmetry. apply (mid_l p p). exact DM.
Qed.

Lemma posdef_inverts p M : mdim p p M -> hermitian M -> posdef p M -> exists N, inverse_of p M N.
Proof.
  intros DM HM PM. destruct (spectral p M DM HM) as (V & e & DV & U1 & U2 & E & _).
  assert (Pe : forall i, (i < p)%nat -> 0 < e i).
  { intros i Hi. set (X := mmul p (madj V) (fun a b => if (a =? i)%nat && (b =? 0)%nat then C1 else C0)). set (u := fun a b => if (a =? i)%nat && (b =? 0)%nat then C1 else C0) in X.
    assert (Du : mdim p 1 u) by (intros a b K; unfold u; destruct (Nat.eqb_spec a i), (Nat.eqb_spec b 0); try reflexivity; lia).
    assert (DX : mdim p 1 X) by (apply (mdim_mul p p 1); [apply mdim_adj; exact DV|exact Du]).
    assert (EX : mmul p V X = u) by (unfold X; rewrite <- mmul_assoc, U1; apply (mid_l p 1 u Du)).
    assert (NX : X <> L_Eig4.mzero).
    { intros Q. rewrite Q in EX. pose proof (f_equal (fun F : mat => F i 0%nat) EX) as R. cbv beta in R. rewrite L_Eig4.mmul_zero_r in R. unfold u, L_Eig4.mzero in R. rewrite Nat.eqb_refl in R. cbn in R. apply (f_equal re) in R. revert R. csimp. lra. }
    pose proof (proj1 (posdef_iff p M) PM X DX NX) as K. rewrite E in K. rewrite form_congr, EX in K. unfold form in K.
    replace (mmul p (madj u) (mmul p (mdiag p e) u) 0%nat 0%nat) with (RtoC (e i)) in K; [revert K; csimp; auto|].
    unfold mmul. rewrite (csum_single p i); [|exact Hi|].
    - rewrite (csum_single p i); [|exact Hi|].
      + unfold madj, u, mdiag. rewrite !Nat.eqb_refl. destruct (Nat.ltb_spec i p); [|lia]. cbn [andb]. apply C_eq; csimp; ring.
      + intros b Hb Nb. unfold u. destruct (Nat.eqb_spec b i); [lia|]. cbn [andb]. ring.
    - intros b Hb Nb. unfold madj, u. destruct (Nat.eqb_spec b i); [lia|]. cbn [andb]. apply C_eq; csimp; ring. }
  exists (mmul p (madj V) (mmul p (mdiag p (fun i => / e i)) V)). split.
  - apply (mdim_mul p p p); [apply mdim_adj; exact DV|]. apply (mdim_mul p p p); [apply diag_dim|exact DV].
  - rewrite E at 1. rewrite !mmul_assoc. rewrite <- (mmul_assoc p p V (madj V)), U1. rewrite (mid_l p p) by (apply (mdim_mul p p p); [apply diag_dim|exact DV]).
    rewrite <- (mmul_assoc p p (mdiag p e)). replace (mmul p (mdiag p e) (mdiag p (fun i => / e i))) with (mid p); [rewrite (mid_l p p V DV); exact U2|].
    apply mext; intros i j. unfold mmul. destruct (Nat.lt_ge_cases i p) as [Hi|Hi].
    + rewrite (csum_single p i); [|exact Hi|].
      * unfold mid, mdiag. rewrite Nat.eqb_refl. destruct (Nat.ltb_spec i p); [|lia]. cbn [andb]. destruct (Nat.eqb_spec i j); [|ring]. pose proof (Pe i Hi). apply C_eq; csimp; field; lra.
      * intros b Hb Nb. unfold mdiag. destruct (Nat.eqb_spec i b); [lia|]. rewrite andb_false_r. ring.
    + unfold mid. destruct (Nat.ltb_spec i p); [lia|]. cbn [andb]. symmetry. transitivity (csum p (fun _ => C0)); [|apply csum_0]. apply csum_ext; intros b Hb. unfold mdiag. destruct (Nat.ltb_spec i p); [lia|]. cbn [andb]. ring.
Qed.

(** Storage of a matrix at the beginning of an array of given length. *)
Definition stored_in (p : nat) (M : mat) (d : list C) : list C := map (fun k => M (k / p) (k mod p))%nat (seq 0 (p * p)) ++ skipn (p * p) d.
Lemma stored_rep p M d : mdim p p M -> (p * p <= length d)%nat -> rep p p (stored_in p M d) M /\ length (stored_in p M d) = length d.
Proof.
  intros D L. unfold stored_in. assert (Ll : length (map (fun k => M (k / p) (k mod p))%nat (seq 0 (p * p)) ++ skipn (p * p) d) = length d) by (rewrite app_length, map_length, seq_length, skipn_length; lia).
  split; [|exact Ll]. split; [lia|]. split; [exact D|]. intros i j Hi Hj. assert (H : (i * p + j < p * p)%nat) by nia.
  rewrite app_nth1 by (rewrite map_length, seq_length; exact H). set (g := fun k => M (k / p)%nat (k mod p)%nat).
  rewrite (nth_indep (map g (seq 0 (p * p))) C0 (g 0%nat)) by (rewrite map_length, seq_length; exact H). rewrite map_nth, seq_nth by exact H. unfold g. cbn [Nat.add]. f_equal.
  - rewrite Nat.div_add_l by lia. rewrite Nat.div_small by exact Hj. lia.
  - rewrite Nat.add_comm, Nat.mod_add by lia. apply Nat.mod_small. exact Hj.
Qed.
Lemma rep_unique p d M M' : rep p p d M -> rep p p d M' -> M = M'.
Proof.
  intros (_ & D & E) (_ & D' & E'). apply mext; intros i j. destruct (Nat.lt_ge_cases i p) as [Hi|Hi]; [|rewrite D, D' by lia; reflexivity]. destruct (Nat.lt_ge_cases j p) as [Hj|Hj]; [|rewrite D, D' by lia; reflexivity].
  rewrite <- E, <- E' by assumption. reflexivity.
Qed.

Lemma heev_exists : exists heev, forall p, heev_ok p heev.
Proof.
  destruct (functional_choice (fun (x : nat * list C) (y : list C * list R) => forall M, rep (fst x) (fst x) (snd x) M -> hermitian M ->
     length (fst y) = length (snd x) /\ length (snd y) = fst x /\
     exists V, rep (fst x) (fst x) (fst y) V /\ mmul (fst x) V (madj V) = mid (fst x) /\ mmul (fst x) (madj V) V = mid (fst x) /\
       M = mmul (fst x) (madj V) (mmul (fst x) (mdiag (fst x) (fun i => nth i (snd y) 0)) V) /\
       forall i j, (i <= j < fst x)%nat -> nth i (snd y) 0 <= nth j (snd y) 0)) as (f & Hf).
  - intros (p & d). cbn [fst snd]. destruct (classic (exists M, rep p p d M /\ hermitian M)) as [(M & R & HM)|No].
    + pose proof R as (Ld & DM & _). destruct (spectral p M DM HM) as (V & e & DV & U1 & U2 & E & As). destruct (stored_rep p V d DV Ld) as (RV & LV).
      exists (stored_in p V d, map e (seq 0 p)). cbn [fst snd]. intros M' R' _. assert (M' = M) by (apply (rep_unique p d); assumption). subst M'.
      assert (Ee : forall i, (i < p)%nat -> nth i (map e (seq 0 p)) 0 = e i).
      { intros i Hi. rewrite (nth_indep _ 0 (e 0%nat)) by (rewrite map_length, seq_length; exact Hi). rewrite map_nth, seq_nth by exact Hi. reflexivity. }
      split; [exact LV|]. split; [rewrite map_length, seq_length; reflexivity|]. exists V. split; [exact RV|]. split; [exact U1|]. split; [exact U2|]. split.
      * rewrite E at 1. do 2 f_equal. apply mext; intros i j. unfold mdiag. destruct (Nat.ltb_spec i p); cbn [andb]; [|reflexivity]. rewrite Ee by assumption. reflexivity.
      * intros i j Hij. rewrite !Ee by lia. apply As. exact Hij.
    + exists ([], []). intros M R HM. exfalso. apply No. exists M. auto.
  - exists (fun z d => f (Z.to_nat z, d)). intros p d M R HM. rewrite Nat2Z.id. exact (Hf (p, d) M R HM).
Qed.
Lemma potr_exists : exists potr, forall p, potr_ok p potr.
Proof.
  destruct (functional_choice (fun (x : nat * list C) (y : option (list C)) => forall M, rep (fst x) (fst x) (snd x) M -> hermitian M ->
     match y with
     | Some d' => length d' = length (snd x) /\ posdef (fst x) M /\
         exists N, mdim (fst x) (fst x) N /\ mmul (fst x) M N = mid (fst x) /\ forall i j, (i <= j < fst x)%nat -> nth (i * fst x + j) d' C0 = N i j
     | None => ~ posdef (fst x) M
     end)) as (f & Hf).
  - intros (p & d). cbn [fst snd]. destruct (classic (exists M, rep p p d M /\ hermitian M /\ posdef p M)) as [(M & R & HM & PM)|No].
    + pose proof R as (Ld & DM & _). destruct (posdef_inverts p M DM HM PM) as (N & DN & EN). destruct (stored_rep p N d DN Ld) as ((_ & _ & RN) & LN).
      exists (Some (stored_in p N d)). intros M' R' _. assert (M' = M) by (apply (rep_unique p d); assumption). subst M'. split; [exact LN|]. split; [exact PM|]. exists N. split; [exact DN|]. split; [exact EN|]. intros i j Hij. apply RN; lia.
    + exists None. intros M R HM PM. apply No. exists M. auto.
  - exists (fun z d => f (Z.to_nat z, d)). intros p d M R HM. rewrite Nat2Z.id. exact (Hf (p, d) M R HM).
Qed.
