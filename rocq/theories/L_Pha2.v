(** Real builds, maximality of the chosen phase, scaling of a band. *)
From Coq Require Import List ZArith Reals Bool Lia Lra.
From Verif Require Import Base RC M_Tensor M_Evect S_Evect L_Evect L_Evect3 M_Grid S_Grid M_Op S_Op L_Op M_Pha S_Pha L_Pha.
Import ListNotations.
Local Open Scope Z_scope.

Lemma real_squares_half n f : (real_squares n f = / 2 * (rsum n (fun i => normsqr (f i)) + re (squares n f)))%R.
Proof.
  rewrite squares_re, <- rsum_add, <- rsum_scal. apply rsum_ext. intros i _. destruct (f i) as [a b]. csimp. field.
Qed.
Lemma re_le_modulus s : (re s <= modulus s)%R.
Proof.
  unfold modulus. destruct (Rle_lt_dec (re s) 0) as [L|L]; [apply Rle_trans with 0%R; [exact L|apply sqrt_pos]|].
  rewrite <- (sqrt_square (re s)) at 1 by lra. apply sqrt_le_1_alt. pose proof (Rle_0_sqr (im s)) as Q. unfold Rsqr in Q. lra.
Qed.
Lemma modulus_unit c s : unit_c c -> modulus (c * c * s)%C = modulus s.
Proof.
  intros Uc. unfold modulus. f_equal. transitivity (normsqr c * normsqr c * (re s * re s + im s * im s))%R; [csimp; ring|]. rewrite Uc. ring.
Qed.
Lemma maximal n (F F' : nat -> C) p c : unit_c p -> unit_c c -> (forall i, (i < n)%nat -> F' i = (p * F i)%C) ->
  (p * p * squares n F)%C = RtoC (modulus (squares n F)) -> (real_squares n (fun i => c * F i)%C <= real_squares n F')%R.
Proof.
  intros Up Uc HF' Sq. rewrite !real_squares_half.
  assert (N1 : rsum n (fun i => normsqr (c * F i)%C) = rsum n (fun i => normsqr (F' i))).
  { apply rsum_ext. intros i Hi. rewrite HF' by exact Hi. rewrite !normsqr_mul, Up, Uc. reflexivity. }
  rewrite N1, (squares_ext n F' (fun i => p * F i)%C) by exact HF'. rewrite !squares_scal, Sq. change (re (RtoC ?x)) with x.
  pose proof (re_le_modulus (c * c * squares n F)%C) as Q. rewrite modulus_unit in Q by exact Uc. lra.
Qed.

Lemma scal_ok b s (H : emat C) : wf H -> 1 <= b <= ep H -> exists H', scale_eigenvector b s H = Val H' /\ wf H' /\ en H' = en H /\ ep H' = ep H /\
  (forall i, 0 <= i < en H -> entC H' i (b - 1) = (s * entC H i (b - 1))%C) /\ (forall i j, 0 <= i < en H -> 0 <= j < ep H -> j <> b - 1 -> entC H' i j = entC H i j).
Proof.
  intros W Hb. unfold scale_eigenvector. destruct (Z.ltb_spec 0 b), (Z.leb_spec b (ep H)); try lia. cbn [andb check bind]. unfold blas_scal.
  destruct (column_loop H (b - 1) (fun v => s * v)%C (fun i x => let! v := rd x (b - 1 + i * ep H) in wr x (b - 1 + i * ep H) (s * v)%C) W ltac:(lia)) as (l & E & L & A).
  - intros i l _. replace (b - 1 + i * ep H) with (i * ep H + (b - 1)) by ring. reflexivity.
  - rewrite E. cbn [bind]. eexists. split; [reflexivity|]. destruct W as (W1 & W2 & W3). unfold set_data, wf, entC, gets; cbn [en ep ealloc edata]. split; [rewrite L; auto|]. split; [reflexivity|]. split; [reflexivity|]. split.
    + intros i Hi. rewrite A by lia. rewrite Z.eqb_refl. assert (Hin : 0 <= i * ep H + (b - 1) < Z.of_nat (length (edata H))) by (rewrite W3; nia). rewrite (gets_in _ _ Hin). cbn [bind]. reflexivity.
    + intros i j Hi Hj Nj. rewrite A by lia. destruct (Z.eqb_spec j (b - 1)); [contradiction|]. reflexivity.
Qed.

(** Numbers of a real matrix. *)
Lemma rd_in {A} (l : list A) x : 0 <= x < Z.of_nat (length l) -> exists v, rd l x = Val v.
Proof.
  intros Hx. unfold rd. destruct (Z.ltb_spec x 0); [lia|]. destruct (nth_error l (Z.to_nat x)) as [v|] eqn:Q; [exists v; reflexivity|]. apply nth_error_None in Q. lia.
Qed.
Lemma scal_real_ok b s (H : emat R) : wf H -> 1 <= b <= ep H -> (Rabs (im s * re s) < 1 / 100000000000000)%R ->
  exists H', scale_eigenvector_real b s H = Val H' /\ wf H' /\ en H' = en H /\ ep H' = ep H /\
  forall i j, 0 <= i < en H -> 0 <= j < ep H -> exists v, rd (edata H) (i * ep H + j) = Val v /\ rd (edata H') (i * ep H + j) = Val (if j =? b - 1 then re s * v else v)%R.
Proof.
  intros W Hb Hs. unfold scale_eigenvector_real. destruct (Z.ltb_spec 0 b), (Z.leb_spec b (ep H)); try lia. cbn [andb check bind]. destruct (Rltb_spec (Rabs (im s * re s)) (1 / 100000000000000)); [|contradiction]. cbn [check bind]. unfold blas_scal_real.
  destruct (column_loop H (b - 1) (fun v => re s * v)%R (fun i x => let! v := rd x (b - 1 + i * ep H) in wr x (b - 1 + i * ep H) (re s * v)%R) W ltac:(lia)) as (l & E & L & A).
  - intros i l _. replace (b - 1 + i * ep H) with (i * ep H + (b - 1)) by ring. reflexivity.
  - rewrite E. cbn [bind]. eexists. split; [reflexivity|]. destruct W as (W1 & W2 & W3). unfold set_data, wf; cbn [en ep ealloc edata]. split; [rewrite L; auto|]. split; [reflexivity|]. split; [reflexivity|].
    intros i j Hi Hj. assert (Hin : 0 <= i * ep H + j < Z.of_nat (length (edata H))) by (rewrite W3; nia). destruct (rd_in _ _ Hin) as (v & Ev). exists v. split; [exact Ev|]. rewrite A by assumption. rewrite Ev. cbn [bind]. destruct (j =? b - 1); reflexivity.
Qed.

(** ** Real builds *)
Lemma fix_real_ok out band f (H : emat R) : 0 <= out -> 3 * out <= Z.of_nat (length f) -> wf H -> 1 <= band <= ep H ->
  exists s f' H', fix_field_phase_real out band f H = Val (f', H') /\ (s = 1%R \/ s = (-1)%R) /\
    (forall i, (i < Z.to_nat (3 * out))%nat -> num f' i = (RtoC s * num f i)%C) /\
    (forall i j, 0 <= i < en H -> 0 <= j < ep H -> exists v, rd (edata H) (i * ep H + j) = Val v /\ rd (edata H') (i * ep H + j) = Val (if j =? band - 1 then s * v else v)%R) /\
    ((forall i, (i < Z.to_nat (3 * out))%nat -> key_real (num f i) = 0%R) -> s = 1%R) /\
    ((exists i, (i < Z.to_nat (3 * out))%nat /\ key_real (num f i) <> 0%R) -> sign_of (Z.to_nat (3 * out)) (fun i => key_real (num f' i)) 1).
Proof.
  intros Ho Hf W Hb. unfold fix_field_phase_real. cbv zeta. replace (out * 3) with (3 * out) by ring. set (n := 3 * out) in *. assert (Hn : 0 <= n <= Z.of_nat (length f)) by lia.
  destruct (decide_ok n f Hn key_real) as (s & Es & Hs & H0 & Hd). rewrite Es. cbn [bind].
  destruct (turn_ok n (RtoC (IZR s)) f Hn) as (f' & Ef & Lf & Af & _). rewrite Ef. cbn [bind].
  destruct (column_loop H (band - 1) (fun v => v * IZR s)%R (fun i d => let! v := rd d (i * ep H + band - 1) in wr d (i * ep H + band - 1) (v * IZR s)%R) W ltac:(lia)) as (l & E & L & A).
  { intros i l _. replace (i * ep H + band - 1) with (i * ep H + (band - 1)) by ring. reflexivity. }
  rewrite E. cbn [bind]. exists (IZR s), f', (set_data H l). split; [reflexivity|]. split; [destruct Hs as [->| ->]; auto|]. split; [exact Af|]. split.
  { intros i j Hi Hj. destruct W as (W1 & W2 & W3). assert (Hin : 0 <= i * ep H + j < Z.of_nat (length (edata H))) by (rewrite W3; nia). destruct (rd_in _ _ Hin) as (v & Ev). exists v. split; [exact Ev|]. cbn [set_data edata]. rewrite A by assumption. rewrite Ev. cbn [bind]. destruct (j =? band - 1); [f_equal; ring|reflexivity]. }
  split; [intros Z; rewrite (H0 Z); reflexivity|]. intros Ex. specialize (Hd Ex). apply (sign_ext _ (fun i => IZR s * key_real (num f i))%R).
  - intros i Hi. rewrite Af by exact Hi. unfold key_real. csimp. ring.
  - destruct Hs as [->| ->].
    + apply (sign_ext _ (fun i => key_real (num f i))); [intros; ring|exact Hd].
    + apply (sign_ext _ (fun i => - key_real (num f i))%R); [intros; ring|]. change 1 with (- -1). apply sign_neg. exact Hd.
Qed.
Lemma best_real x : (0 < x)%R -> best_phase (x, 0)%R = C1.
Proof.
  intros Hx. unfold best_phase. cbn [fst snd]. unfold atan2. destruct (Rltb_spec 0 x); [|lra]. replace (- 0 / x)%R with 0%R by (field; lra). rewrite atan_0, Rmult_0_r, cos_0, sin_0. reflexivity.
Qed.
