(** Uniform media as bounds. *)
From Coq Require Import List ZArith Reals Bool Arith Lia Lra Permutation Sorted.
From Verif Require Import Base RC M_Tensor S_Tensor M_Evect S_Evect M_Grid S_Grid M_Op S_Op L_Op L_Op2 L_Op3 L_Op4 L_Op5 M_Eig S_Eig L_Mat L_Eig2 L_Eig4 L_Eig5 L_Eig7 L_Eig13 L_Kpt2 M_Kpt S_Kpt L_Kpt1 M_Mx S_Mir S_Mx L_Mx1 L_Mx2 L_Mx3 L_Mx4 L_Mx6 S_Cmp L_Cmp1 L_Cmp2.
Import ListNotations.
Local Open Scope Z_scope.
Add Ring Cring_cmp3 : C_ring_theory.

(** The array with the entries of a matrix. *)
Definition emat_of (n p : nat) (M : mat) : emat C :=
  {| en := Z.of_nat n; ep := Z.of_nat p; ealloc := Z.of_nat p; edata := map (fun k => M (k / p)%nat (k mod p)%nat) (seq 0 (n * p)) |}.
Lemma emat_of_fields n p M : (1 <= p)%nat -> mdim n p M -> S_Eig.fields n p (emat_of n p M) M.
Proof.
  intros Hp D. apply fields_of; [|reflexivity|reflexivity|exact D|].
  - split; [cbn; lia|]. split; [cbn; lia|]. cbn. rewrite map_length, seq_length. lia.
  - intros i j Hi Hj. unfold entC, gets. cbn [edata ep emat_of]. unfold rd. replace (Z.of_nat i * Z.of_nat p + Z.of_nat j) with (Z.of_nat (i * p + j)) by lia.
    assert (Hk : (i * p + j < n * p)%nat) by nia. destruct (Z.ltb_spec (Z.of_nat (i * p + j)) 0); [lia|]. rewrite Nat2Z.id.
    rewrite (map_nth_error _ _ _ (d := (i * p + j)%nat)) by (rewrite nth_error_nth' with (d := 0%nat) by (rewrite seq_length; lia); rewrite seq_nth by lia; reflexivity).
    rewrite Nat.div_add_l, Nat.div_small by lia. rewrite (Nat.add_comm (i * p) j), Nat.mod_add, Nat.mod_small by lia. rewrite Nat.add_0_r. reflexivity.
Qed.

Lemma iso_form e x : re (S_Op.form (iso e) x x) = (e * size2 x)%R.
Proof. unfold S_Op.form, size2. rewrite !csum3. cbn [rsum]. unfold iso. cbn [entry m00 m11 m22 m01 m02 m12]. unfold normsqr. csimp. ring. Qed.
Definition flat (d : mdata) (e : R) : list sym := repeat (iso e) (Z.to_nat (npts d)).
Lemma flat_at d e r : (r < Z.to_nat (npts d))%nat -> sym_at (flat d e) r = iso e.
Proof. intros H. unfold sym_at, flat. rewrite (nth_indep _ sym0 (iso e)) by (rewrite repeat_length; exact H). apply nth_repeat. Qed.
Lemma flat_len d e : 0 <= npts d -> Z.of_nat (length (flat d e)) = npts d.
Proof. intros H. unfold flat. rewrite repeat_length. lia. Qed.

Section D.
Variable d : mdata.
Hypothesis Wd : wfd d.
Hypothesis Hn : 0 < d_nfb d.
Hypothesis Ho : orthonormal_basis d.
Hypothesis Em : d_mu_inv d = None.
Notation n := (rows d).

Lemma metric_id : omat d (mumaybe d) = mid n.
Proof. apply omat_id. intros g. unfold mumaybe. rewrite Em. apply feq_refl. Qed.
Lemma flat_diag e : omat d (opcol (with_eps d (flat d e))) = mdiag n (fun i => (e * wave2 d i)%R).
Proof.
  pose proof (uniform_diag (with_eps d (flat d e)) (with_wfd d Wd (flat d e) (flat_len d e ltac:(pose proof (N_pos d Wd); lia))) e Ho (fun r Hr => flat_at d e r Hr) Em) as Q. exact Q.
Qed.
Lemma least_below e : at_least d e -> nowhere_above d (flat d e) (d_eps_inv d).
Proof. intros H r x Hr. rewrite flat_at, iso_form by exact Hr. apply H. exact Hr. Qed.

(** The light line. *)
Lemma line_core e zero_k q a p H MH w : at_least d e ->
  S_Op.fields d H -> ep H = Z.of_nat q -> mx_muinv d H H = Val MH -> (a + p <= q)%nat ->
  (forall i j, (i < p)%nat -> (j < p)%nat -> dotl H MH (Z.of_nat (a + i)) (Z.of_nat (a + j)) = delta i j) ->
  (forall i j, (i < p)%nat -> (j < p)%nat -> mean_form d (sym_at (d_eps_inv d)) (curl d MH (Z.of_nat (a + i))) (curl d MH (Z.of_nat (a + j))) = (RtoC (w i) * delta i j)%C) ->
  (forall i j, (i <= j < p)%nat -> (w i <= w j)%R) -> (forall i r, (i < p)%nat -> zero_k = true -> 0 <= r < 2 -> entC H r (Z.of_nat (a + i)) = C0) ->
  forall k, (k < p)%nat -> exists found, NoDup found /\ length found = S k /\
    forall i, In i found -> (i < 2 * Z.to_nat (npts d))%nat /\ (zero_k = true -> (2 <= i)%nat) /\ (e * wave2 d i <= w k)%R.
Proof.
  intros Lb FH PH EH Hap Or Cu As Zr k Hk. destruct (of_op d Wd q H FH PH) as (Mh & Fh).
  assert (DH : mdim n q Mh) by apply (fields_dim _ _ _ _ Fh). assert (DM : mdim n p (slice a p Mh)) by (apply (slice_dim n q); exact DH).
  set (val := fun i => if (zero_k && (i <? 2)%nat)%bool then (w k + 1)%R else (e * wave2 d i)%R).
  destruct (diag_modes n val) as (l & Pm & DV & FB & FA & Al & Cp). set (V := fun i j => if ((j <? n) && (i =? nth j l 0))%nat then C1 else C0) in *.
  destruct (compare n p n (mdiag n val) (omat d (opcol d)) (mid n) V (fun j => val (nth j l 0%nat)) (slice a p Mh) w) with (k := k) as (Hkn & Le); auto.
  - apply mdim_id.
  - apply (Cp p); [exact DM|]. apply (mid_l n p). exact DM.
  - rewrite <- metric_id. apply mext; intros i j. rewrite form_slice. unfold mid. destruct (Nat.ltb_spec i p) as [Hi|Hi]; cbn [andb]; [|reflexivity]. destruct (Nat.ltb_spec j p) as [Hj|Hj]; cbn [andb]; [|destruct (Nat.eqb_spec i j); [lia|reflexivity]].
    rewrite <- (dot_form d Wd Hn q H MH Mh (a + i) (a + j) Fh EH) by lia. apply Or; assumption.
  - apply mext; intros i j. rewrite form_slice. unfold mdiag. destruct (Nat.ltb_spec i p) as [Hi|Hi]; cbn [andb]; [|reflexivity]. destruct (Nat.ltb_spec j p) as [Hj|Hj]; cbn [andb]; [|destruct (Nat.eqb_spec i j); [lia|reflexivity]].
    rewrite <- (curl_form d Wd Hn q H MH Mh (a + i) (a + j) Ho Fh EH) by lia. rewrite Cu by assumption. unfold delta. destruct (i =? j)%nat; ring.
  - intros U DU. set (X := mmul p (slice a p Mh) U). pose proof (eps_le d Wd (d_eps_inv d) (flat d e) X (least_below e Lb)) as Q. rewrite (with_same d Wd), flat_diag in Q. rewrite diag_quad in *.
    eapply Rle_trans; [|exact Q]. right. apply rsum_ext. intros i Hi. unfold val. destruct (zero_k && (i <? 2)%nat)%bool eqn:Eb; [|reflexivity]. apply andb_prop in Eb. destruct Eb as (Ez & E2). apply Nat.ltb_lt in E2.
    assert (X0 : X i 0%nat = C0).
    { unfold X, mmul. apply csum_0_ext. intros j Hj. unfold slice. destruct (Nat.ltb_spec j p); [|lia]. rewrite <- (fields_at n q H Mh i (a + j) Fh Hi) by lia. rewrite (Zr j (Z.of_nat i) Hj Ez) by lia. ring. }
    rewrite X0. unfold normsqr. csimp. ring.
  - assert (Ll : length l = n) by (rewrite <- (Permutation_length Pm); apply seq_length). assert (Nd : NoDup l) by (apply (Permutation_NoDup Pm), seq_NoDup).
    exists (firstn (S k) l). split; [apply nodup_firstn; exact Nd|]. split; [rewrite firstn_length; lia|]. intros i Hi. destruct (In_nth _ _ 0%nat Hi) as (x & Hx & Ei). rewrite firstn_length in Hx.
    assert (Ei' : nth x l 0%nat = i) by (rewrite <- Ei; rewrite <- (firstn_skipn (S k) l) at 1; apply app_nth1; rewrite firstn_length; lia).
    assert (In i (seq 0 n)) as Hs by (apply (Permutation_in _ (Permutation_sym Pm)); rewrite <- Ei'; apply nth_In; lia). apply in_seq in Hs.
    specialize (Al x k ltac:(lia)). cbv beta in Al. rewrite Ei' in Al. assert (Lv : (val i <= w k)%R) by lra. unfold val in Lv. split; [unfold rows in Hs; lia|].
    destruct zero_k; cbn [andb] in Lv; [|split; [discriminate|exact Lv]]. destruct (Nat.ltb_spec i 2); [lra|]. split; [auto|exact Lv].
Qed.

(** All modes of a uniform medium. *)
Lemma flat_modes e parity : exists l V MV, Permutation (seq 0 (2 * Z.to_nat (npts d))) l /\ (forall i j, (i <= j < 2 * Z.to_nat (npts d))%nat -> (e * wave2 d (nth i l 0%nat) <= e * wave2 d (nth j l 0%nat))%R) /\
  all_modes (with_eps d (flat d e)) (2 * Z.to_nat (npts d)) parity false V MV (fun j => (e * wave2 d (nth j l 0%nat))%R).
Proof.
  set (d' := with_eps d (flat d e)). assert (Wd' : wfd d') by (apply (with_wfd d Wd), flat_len; pose proof (N_pos d Wd); lia).
  destruct (diag_modes n (fun i => (e * wave2 d i)%R)) as (l & Pm & DV & FB & FA & Al & Cp). set (Mv := fun i j => if ((j <? n) && (i =? nth j l 0))%nat then C1 else C0) in *.
  assert (Hr : (1 <= n)%nat) by (unfold rows; pose proof (N_pos d Wd); lia). set (V := emat_of n n Mv). pose proof (emat_of_fields n n Mv Hr DV) as Fv. fold V in Fv.
  assert (FO : S_Op.fields d V) by apply (to_op d Wd n V Mv Fv). destruct (muinv_wide d' Wd' Hn V V FO FO ltac:(lia)) as (MV & E & _).
  exists l, V, MV. split; [exact Pm|]. split; [exact Al|]. change (2 * Z.to_nat (npts d))%nat with n.
  pose proof metric_id as Mi.
  constructor.
  - split; [exact FO|reflexivity].
  - exact E.
  - intros i j Hi Hj. etransitivity; [exact (dot_form d' Wd' Hn n V MV Mv i j Fv E Hi Hj)|]. change (omat d' (mumaybe d')) with (omat d (mumaybe d)). change (rows d') with n. rewrite Mi, FB. unfold mid, delta. destruct (Nat.ltb_spec i n); [reflexivity|lia].
  - intros i j Hi Hj. etransitivity; [exact (curl_form d' Wd' Hn n V MV Mv i j Ho Fv E Hi Hj)|]. change (omat d' (opcol d')) with (omat d (opcol d')). change (rows d') with n. unfold d'. rewrite flat_diag, FA. unfold mdiag, delta. destruct (Nat.ltb_spec i n); [|lia]. cbn [andb]. destruct (i =? j)%nat; ring.
  - exact Al.
  - intros X b FX Hb _ r Hr'. change (npts d') with (npts d) in Hr'. set (q := Z.to_nat (ep X)). assert (PX : ep X = Z.of_nat q) by (unfold q; lia). destruct (of_op d Wd q X FX PX) as (Mx & Fx).
    pose proof (rows_Z d Wd) as Rz. assert (Dx : mdim n q Mx) by apply (fields_dim _ _ _ _ Fx). pose proof (Cp q Mx Dx (mid_l n q Mx Dx)) as EM.
    replace r with (Z.of_nat (Z.to_nat r)) by lia. replace b with (Z.of_nat (Z.to_nat b)) by lia. set (i := Z.to_nat r). set (j := Z.to_nat b). assert (Hi : (i < n)%nat) by (unfold i; lia). assert (Hj : (j < q)%nat) by (unfold j; lia).
    rewrite (fields_at n q X Mx i j Fx Hi Hj). rewrite EM. unfold mmul at 1. apply csum_ext. intros k Hk. rewrite (fields_at n n V Mv i k Fv Hi Hk). f_equal. symmetry. rewrite <- Mi. exact (dot_form2 d' Wd' Hn n q V MV Mv X Mx k j Fv E Fx Hk Hj).
Qed.
End D.
