(** The modes of a uniform medium. *)
From Coq Require Import List ZArith Reals Bool Arith Lia Lra Permutation Sorted.
From Verif Require Import Base RC M_Tensor S_Tensor M_Evect S_Evect M_Grid S_Grid M_Op S_Op L_Op L_Op2 L_Op3 L_Op4 L_Op5 M_Eig S_Eig L_Mat L_Mx1 L_Mx2 L_Mx4.
Import ListNotations.
Local Open Scope R_scope.
Add Ring Cring_mx6 : C_ring_theory.

Lemma insert_sorted (key : nat -> R) x : forall l, StronglySorted (fun a b => key a <= key b) l -> exists l', Permutation (x :: l) l' /\ StronglySorted (fun a b => key a <= key b) l'.
Proof.
  induction l as [|y l IH]; intros Hs.
  - exists [x]. split; [apply Permutation_refl|repeat constructor].
  - inversion Hs as [|? ? Hl Hy]; subst. destruct (Rle_dec (key x) (key y)) as [Le|Gt].
    + exists (x :: y :: l). split; [apply Permutation_refl|]. constructor; [exact Hs|]. constructor; [exact Le|]. eapply Forall_impl; [|exact Hy]. intros a Ha. cbn in *. lra.
    + destruct (IH Hl) as (l' & Pm & Sl). exists (y :: l'). split; [eapply perm_trans; [apply perm_swap|apply perm_skip; exact Pm]|]. constructor; [exact Sl|].
      eapply Permutation_Forall; [exact Pm|]. constructor; [lra|exact Hy].
Qed.
Lemma sort_exists (key : nat -> R) : forall l, exists l', Permutation l l' /\ StronglySorted (fun a b => key a <= key b) l'.
Proof.
  induction l as [|x l (l' & Pm & Sl)]; [exists []; split; constructor|]. destruct (insert_sorted key x l' Sl) as (l2 & P2 & S2). exists l2. split; [eapply perm_trans; [apply perm_skip; exact Pm|exact P2]|exact S2].
Qed.
Lemma sorted_nth (key : nat -> R) : forall l i j, StronglySorted (fun a b => key a <= key b) l -> (i <= j < length l)%nat -> key (nth i l 0%nat) <= key (nth j l 0%nat).
Proof.
  induction l as [|x l IH]; intros i j Hs Hij; cbn in Hij; [lia|]. inversion Hs as [|? ? Hl Hx]; subst. destruct i, j; cbn [nth]; try lia; [lra| |apply IH; auto; lia].
  rewrite Forall_forall in Hx. apply Hx. apply nth_In. lia.
Qed.

Lemma nodup_firstn {A} k (l : list A) : NoDup l -> NoDup (firstn k l).
Proof.
  intros Nd. revert k. induction Nd as [|x l Hx Nd IH]; intros [|k]; cbn [firstn]; try constructor; auto.
  intros Hin. apply Hx. rewrite <- (firstn_skipn k l). apply in_or_app. left. exact Hin.
Qed.

(** A diagonal matrix and its sorted modes. *)
Lemma diag_modes n (lam : nat -> R) : exists l, Permutation (seq 0 n) l /\
  modes n n (mid n) (mdiag n lam) (mid n) (fun i j => if ((j <? n) && (i =? nth j l 0))%nat then C1 else C0) (fun j => lam (nth j l 0%nat)).
Proof.
  destruct (sort_exists lam (seq 0 n)) as (l & Pm & Sl). exists l. split; [exact Pm|].
  assert (Ll : length l = n) by (rewrite <- (Permutation_length Pm); apply seq_length).
  assert (Nd : NoDup l) by (apply (Permutation_NoDup Pm), seq_NoDup).
  assert (In_l : forall j, (j < n)%nat -> (nth j l 0 < n)%nat).
  { intros j Hj. assert (In (nth j l 0%nat) (seq 0 n)) by (apply (Permutation_in _ (Permutation_sym Pm)), nth_In; lia). apply in_seq in H. lia. }
  assert (On_l : forall i, (i < n)%nat -> exists j, (j < n)%nat /\ nth j l 0%nat = i).
  { intros i Hi. assert (In i l) by (apply (Permutation_in _ Pm), in_seq; lia). destruct (In_nth _ _ 0%nat H) as (j & Hj & E). exists j. split; [lia|exact E]. }
  set (V := fun i j => if ((j <? n) && (i =? nth j l 0))%nat then C1 else C0).
  assert (DV : mdim n n V).
  { intros i j H. unfold V. destruct (Nat.ltb_spec j n), (Nat.eqb_spec i (nth j l 0%nat)); cbn [andb]; try reflexivity. specialize (In_l j ltac:(assumption)). lia. }
  assert (Fd : forall mu, S_Eig.form n (mdiag n mu) V V = mdiag n (fun j => mu (nth j l 0%nat))).
  { intros mu. apply mext; intros i j. unfold S_Eig.form. unfold mmul at 1. unfold madj. destruct (Nat.ltb_spec i n) as [Hi|Hi].
    - rewrite (csum_single n (nth i l 0%nat)); [|apply In_l; exact Hi|].
      + unfold V at 1. destruct (Nat.ltb_spec i n); [|lia]. rewrite Nat.eqb_refl. cbn [andb]. unfold mmul. rewrite (csum_single n (nth i l 0%nat)); [|apply In_l; exact Hi|].
        * unfold mdiag. specialize (In_l i Hi). destruct (Nat.ltb_spec (nth i l 0%nat) n); [|lia]. rewrite Nat.eqb_refl. cbn [andb]. destruct (Nat.ltb_spec i n); [|lia]. cbn [andb]. unfold V.
          destruct (Nat.ltb_spec j n) as [Hj|Hj]; cbn [andb].
          -- destruct (Nat.eqb_spec i j) as [->|Nij]; [rewrite Nat.eqb_refl; apply C_eq; csimp; ring|]. destruct (Nat.eqb_spec (nth i l 0%nat) (nth j l 0%nat)) as [E|]; [|apply C_eq; csimp; ring]. exfalso. apply Nij. apply (proj1 (NoDup_nth l 0%nat) Nd); lia || exact E.
          -- destruct (Nat.eqb_spec i j); [lia|]. apply C_eq; csimp; ring.
        * intros k Hk Nk. unfold mdiag. destruct (Nat.eqb_spec (nth i l 0%nat) k); [congruence|]. rewrite andb_false_r. ring.
      + intros k Hk Nk. unfold V at 1. destruct (Nat.eqb_spec k (nth i l 0%nat)); [congruence|]. rewrite andb_false_r. apply C_eq; csimp; ring.
    - rewrite (csum_ext n _ (fun _ => C0)).
      + rewrite csum_0. unfold mdiag. destruct (Nat.ltb_spec i n); [lia|reflexivity].
      + intros k Hk. unfold V at 1. destruct (Nat.ltb_spec i n); [lia|]. cbn [andb]. apply C_eq; csimp; ring. }
  assert (Id : mid n = mdiag n (fun _ => 1)) by (apply mext; intros i j; unfold mid, mdiag; destruct (_ && _); reflexivity).
  split; [exact DV|]. split; [rewrite Id at 1; rewrite Fd; symmetry; exact Id|]. split; [apply Fd|]. split.
  - intros i j Hij. apply sorted_nth; [exact Sl|lia].
  - intros p M DM _. unfold S_Eig.form. rewrite (mid_l n p M DM). apply mext; intros i j. unfold mmul, madj. destruct (Nat.ltb_spec i n) as [Hi|Hi].
    + destruct (On_l i Hi) as (k & Hk & E). rewrite (csum_single n k); [|exact Hk|].
      * unfold V at 1. destruct (Nat.ltb_spec k n); [|lia]. rewrite E, Nat.eqb_refl. cbn [andb]. rewrite (csum_single n i); [|exact Hi|].
        -- unfold V. destruct (Nat.ltb_spec k n); [|lia]. rewrite E, Nat.eqb_refl. cbn [andb]. apply C_eq; csimp; ring.
        -- intros k' Hk' N'. unfold V. rewrite E. destruct (Nat.eqb_spec k' i); [congruence|]. rewrite andb_false_r. apply C_eq; csimp; ring.
      * intros k' Hk' N'. unfold V at 1. destruct (Nat.eqb_spec i (nth k' l 0%nat)) as [Q|]; [|rewrite andb_false_r; ring]. exfalso. apply N'. apply (proj1 (NoDup_nth l 0%nat) Nd); first [lia | congruence].
    + rewrite (DM i j) by lia. rewrite (csum_ext n _ (fun _ => C0)); [symmetry; apply csum_0|]. intros k Hk. rewrite (DV i k) by lia. ring.
Qed.

Section D.
Variable d : mdata.
Hypothesis Wd : wfd d.
Lemma uniform_diag e : orthonormal_basis d -> uniform d (d_eps_inv d) e -> d_mu_inv d = None ->
  omat d (opcol d) = mdiag (rows d) (fun i => e * rdot (kvec d (i / 2)) (kvec d (i / 2))).
Proof.
  intros Ho U Em. apply mext; intros i j. unfold omat, mdiag. destruct (Nat.ltb_spec i (rows d)) as [Hi|Hi]; cbn [andb]; [|reflexivity]. destruct (row_in d i Hi) as (Hg & Hc & E).
  assert (Ez : Z.to_nat (Z.of_nat i / 2) = (i / 2)%nat) by (rewrite <- (Nat2Z.id (i / 2)), Nat2Z.inj_div; reflexivity).
  destruct (Nat.ltb_spec j (rows d)) as [Hj|Hj].
  - unfold opcol. rewrite Em. rewrite (epscol_iso d Wd e (unit_at j) Ho U _ _ Hg Hc). unfold kz. rewrite Ez, <- (kvec_sq d (i / 2) Ho) by lia. unfold unit_at. rewrite E. destruct (Z.eqb_spec (Z.of_nat i) (Z.of_nat j)), (Nat.eqb_spec i j); try lia; apply C_eq; csimp; ring.
  - destruct (Nat.eqb_spec i j); [lia|reflexivity].
Qed.
Lemma no_parity parity : wanted parity 0 1 = 0%Z -> wanted parity 2 3 = 0%Z -> Pp d parity = mid (rows d).
Proof. intros E1 E2. unfold Pp. apply omat_id. intros f. unfold pcol, ycol, zcol, maybe. rewrite E1, E2. apply feq_refl. Qed.
End D.
