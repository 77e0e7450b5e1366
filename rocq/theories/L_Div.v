(** Proofs about compute_field_divergence. *)
From Coq Require Import List ZArith Reals Bool Lia Lra.
From Verif Require Import Base RC Loops M_Tensor S_Tensor M_Evect S_Evect L_Evect L_Evect3 M_Grid S_Grid L_Grid5 L_Grid6 M_Op S_Op L_Op L_Op2 L_Op3 L_Dft M_Pha S_Pha.
Import ListNotations.
Local Open Scope Z_scope.

(** An array filled from the front by values computed from the original. *)
Lemma fill_loop (body : Z -> list C -> outcome (list C)) (new : Z -> C) n (a : list C) : 0 <= n <= Z.of_nat (length a) ->
  (forall i l, 0 <= i < n -> length l = length a -> (forall x, i <= x -> gets l x = gets a x) -> (forall x, 0 <= x < i -> gets l x = new x) -> body i l = wr l i (new i)) ->
  exists l, forZ 0 n body a = Val l /\ length l = length a /\ (forall x, 0 <= x < n -> gets l x = new x) /\ (forall x, n <= x -> gets l x = gets a x).
Proof.
  intros Hn Hb. destruct (forZ_inv (fun i l => length l = length a /\ (forall x, 0 <= x < i -> gets l x = new x) /\ (forall x, i <= x -> gets l x = gets a x)) body 0 n a) as (l & E & L & A & B).
  - lia.
  - split; [reflexivity|]. split; [intros; lia|reflexivity].
  - intros i l Hi (L & A & B). rewrite Hb by (assumption || lia). assert (Hin : 0 <= i < Z.of_nat (length l)) by lia. pose proof (wr_in l i (new i) Hin) as W. eexists. split; [exact W|]. split; [rewrite upd_length; exact L|]. split.
    + intros x Hx. unfold gets. rewrite (rd_wr _ _ _ _ _ W). destruct (Z.eqb_spec x i) as [->|]; [reflexivity|]. apply A. lia.
    + intros x Hx. unfold gets at 1. rewrite (rd_wr _ _ _ _ _ W). destruct (Z.eqb_spec x i) as [->|]; [lia|]. apply B. lia.
  - exists l. auto.
Qed.

Section D.
Variable d : mdata.
Hypothesis Wd : wfd d.
Notation N := (npts d).
Notation NN := (Z.to_nat (npts d)).

(** One array with unit stride. *)
Lemma fft1_ok dir a : N <= Z.of_nat (length a) -> exists a', compute_fft dir d a 1 1 1 = Val a' /\ length a' = length a /\
  forall r, 0 <= r < N -> gets a' r = csum NN (fun g => (kern d dir (Z.of_nat g) r * num a g)%C).
Proof.
  intros Ha. pose proof (N_pos d Wd) as Np. unfold compute_fft. fold (npts d). cbv zeta.
  destruct (fill_loop (fun r o => forZ 0 1 (fun q o => let! v := forZ 0 N (fun g s => let! x := rd a (g * 1 + q * 1) in Val (s + kern d dir g r * x)%C) C0 in wr o (r * 1 + q * 1) v) o)
    (fun r => csum NN (fun g => (kern d dir (Z.of_nat g) r * num a g)%C)) N a) as (l & E & L & A & _).
  - lia.
  - intros i l Hi _ _ _. change (forZ 0 1 ?b l) with (let! s := b 0 l in Val s). cbv beta.
    rewrite (forZ_ext 0 N _ (fun g s => let! v := (fun g => let! x := rd a g in Val (kern d dir g i * x)%C) g in Val (s + v)%C)).
    2:{ intros g s Hg. replace (g * 1 + 0 * 1) with g by ring. destruct (rd a g); reflexivity. }
    rewrite (csum_fold N (fun g => (kern d dir g i * gets a g)%C)).
    + cbn [bind]. replace (i * 1 + 0 * 1) with i by ring. unfold num. destruct (wr l i _); reflexivity.
    + lia.
    + intros g Hg. rewrite gets_in by lia. reflexivity.
  - exists l. auto.
Qed.

Definition dk (g : nat) : vec := div_k (kat d g).
Lemma dot_k_ok a : 3 * N <= Z.of_nat (length a) -> exists a', dot_k d a = Val a' /\ length a' = length a /\
  forall g, (g < NN)%nat -> num a' g = kdot (dk g) (fun i => num a (3 * g + i)).
Proof.
  intros Ha. pose proof (N_pos d Wd) as Np. pose proof Wd as (_ & _ & _ & Ho & Hl & Hn & Hs & _). unfold dot_k.
  set (B := fun ij (f : list C) => let! k := rd (d_kG d) ij in let '(kx, ky, kz) := div_k k in let! v := rd3 f (3 * ij) in let '(v0, v1, v2) := v in
    wr f ij (re v0 * kx + re v1 * ky + re v2 * kz, im v0 * kx + im v1 * ky + im v2 * kz)%R).
  rewrite Hs. change (exists a', forZ 0 (d_other d) (fun i f => forZ 0 (d_last d) (fun j f => B (i * d_last d + j) f) f) a = Val a' /\ length a' = length a /\ forall g, (g < NN)%nat -> num a' g = kdot (dk g) (fun i => num a (3 * g + i))).
  rewrite (forZ_flat (d_other d) (d_last d) B) by lia. rewrite Hn.
  destruct (fill_loop B (fun g => kdot (dk (Z.to_nat g)) (fun i => num a (3 * Z.to_nat g + i))) N a) as (l & E & L & A & _).
  - lia.
  - intros i l Hi Ll Hi1 Hi0. unfold B. rewrite (rd_k d Wd) by exact Hi. cbn [bind]. unfold kz, dk. destruct (div_k (kat d (Z.to_nat i))) as [[kx ky] kz] eqn:Ek.
    rewrite rd3_ok by lia. cbn [bind]. unfold arr. rewrite !Hi1 by lia. f_equal. unfold kdot, num. rewrite csum3. rewrite !Nat2Z.inj_add, Nat2Z.inj_mul, Z2Nat.id by lia. change (Z.of_nat 3) with 3. change (Z.of_nat 0) with 0. change (Z.of_nat 1) with 1. change (Z.of_nat 2) with 2. rewrite Z.add_0_r.
    unfold comp. cbn [fst snd]. apply C_eq; csimp; ring.
  - exists l. split; [exact E|]. split; [exact L|]. intros g Hg. unfold num at 1. rewrite A by lia. rewrite Nat2Z.id. reflexivity.
Qed.

(** Forward transform of a synthesized field. *)
Lemma unsynth F g i : (g < NN)%nat -> csum NN (fun r => (kern d (-1) (Z.of_nat r) (Z.of_nat g) * synth d F r i)%C) = (RtoC (mN d) * F g i)%C.
Proof.
  intros Hg.
  rewrite (csum_ext _ _ (fun r => csum NN (fun h => (Cconj (kern d 1 (Z.of_nat g) (Z.of_nat r)) * kern d 1 (Z.of_nat h) (Z.of_nat r) * F h i)%C))).
  2:{ intros r _. unfold synth. rewrite kern_conj, <- csum_scal. apply csum_ext. intros h _. rewrite (kern_wave d h r). ring. }
  rewrite csum_swap. rewrite (csum_single NN g).
  - rewrite csum_scal_r. rewrite kern_orth by (exact Wd || lia). rewrite Z.eqb_refl. reflexivity.
  - exact Hg.
  - intros h Hh Hne. rewrite csum_scal_r, kern_orth by (exact Wd || lia). destruct (Z.eqb_spec (Z.of_nat g) (Z.of_nat h)); [lia|]. ring.
Qed.

(** What the function computes: the divergence with the wave vectors of [div_k]. *)
Lemma divergence_ok F f : holds_field d F f -> exists f', compute_field_divergence d (mN d) f = Val f' /\ length f' = length f /\
  forall r, (r < NN)%nat -> num f' r = (Ci * RtoC (2 * PI) * csum NN (fun g => wave d g r * kdot (dk g) (F g)))%C.
Proof.
  intros (Hf & Hh). pose proof (N_pos d Wd) as Np. unfold compute_field_divergence.
  destruct (compute_fft_ok d Wd (-1) 1 f) as (f1 & E1 & L1 & A1); [lia|lia|]. change (1 * 3) with 3 in E1. rewrite E1. cbn [bind].
  destruct (dot_k_ok f1) as (f2 & E2 & L2 & A2); [lia|]. rewrite E2. cbn [bind].
  destruct (fft1_ok 1 f2) as (f3 & E3 & L3 & A3); [lia|]. rewrite E3. cbn [bind]. rewrite fdiv_nz by (apply (N_nz d Wd)). cbn [bind].
  assert (F1 : forall g i, (g < NN)%nat -> (i < 3)%nat -> num f1 (3 * g + i) = (RtoC (mN d) * F g i)%C).
  { intros g i Hg Hi. rewrite <- unsynth by exact Hg. specialize (A1 (Z.of_nat g) 0 ltac:(lia) ltac:(lia)). replace (Z.of_nat g * 1 + 0) with (Z.of_nat g) in A1 by ring.
    transitivity (vsel i (arr f1 (Z.of_nat g))).
    - unfold num, arr, vsel. rewrite Nat2Z.inj_add, Nat2Z.inj_mul. change (Z.of_nat 3) with 3. destruct i as [|[|[|i]]]; [rewrite Z.add_0_r; reflexivity|reflexivity|reflexivity|lia].
    - rewrite A1, vsel_build by exact Hi. apply csum_ext. intros r Hr. f_equal. rewrite <- Hh by assumption. unfold num, arr, vsel. replace (Z.of_nat r * 1 + 0) with (Z.of_nat r) by ring. rewrite Nat2Z.inj_add, Nat2Z.inj_mul. change (Z.of_nat 3) with 3.
      destruct i as [|[|[|i]]]; [rewrite Z.add_0_r; reflexivity|reflexivity|reflexivity|lia]. }
  assert (F2 : forall g, (g < NN)%nat -> num f2 g = (RtoC (mN d) * kdot (dk g) (F g))%C).
  { intros g Hg. rewrite A2 by exact Hg. unfold kdot. rewrite <- csum_scal. apply csum_ext. intros i Hi. rewrite F1 by assumption. ring. }
  pose proof Wd as (_ & _ & _ & _ & _ & _ & _ & Ho & _). rewrite Ho.
  destruct (fill_loop (fun i f => let! v := rd f i in wr f i (- im v * (2 * PI / mN d), re v * (2 * PI / mN d))%R) (fun x => (Ci * RtoC (2 * PI / mN d) * gets f3 x)%C) N f3) as (l & E & L & A & _).
  - lia.
  - intros i l Hi Ll H1 _. rewrite (gets_in l) by lia. cbn [bind]. rewrite H1 by lia. f_equal. apply C_eq; csimp; ring.
  - exists l. split; [exact E|]. split; [congruence|]. intros r Hr. unfold num. rewrite A by lia. rewrite A3 by lia.
    rewrite (csum_ext NN _ (fun g => (RtoC (mN d) * (wave d g r * kdot (dk g) (F g)))%C)).
    + rewrite csum_scal. transitivity (Ci * RtoC (2 * PI / mN d * mN d) * csum NN (fun g => wave d g r * kdot (dk g) (F g)))%C; [rewrite RtoC_mul; ring|].
      f_equal. f_equal. f_equal. field. apply (N_nz d Wd).
    + intros g Hg. rewrite F2 by exact Hg. rewrite kern_wave. ring.
Qed.
(** The fields of eigenvectors have no divergence. *)
Lemma kdot_cart X b g : kdot (kvec d g) (cart d X b g) = C0.
Proof.
  unfold kdot, cart, kvec, rsc, rcross, comp. rewrite csum3. destruct (km (kat d g)) as [[mx my] mz], (kn (kat d g)) as [[nx ny] nz]. cbn [fst snd]. generalize (kmag (kat d g)), (entC X (2 * Z.of_nat g) b), (entC X (2 * Z.of_nat g + 1) b). clear. intros q [a a'] [c c']. apply C_eq; csimp; ring.
Qed.
End D.

(** The wave vector in [div_k] is right exactly if k+G has no y or no z component. *)
Lemma transverse_n x y z e : transverse (x, y, z) = Val e -> snd (kn e) = 0%R /\ (x = 0%R -> y = 0%R -> fst (fst (kn e)) = 0%R).
Proof.
  unfold transverse. destruct (Reqb _ 0); [intros E; injection E as <-; split; [reflexivity|intros _ _; reflexivity]|].
  destruct (Reqb_spec x 0) as [Zx|Nx], (Reqb_spec y 0) as [Zy|Ny]; cbn [andb].
  1:{ cbn [bind]. destruct (vcross (0, 1, 0)%R (x, y, z)) as [[a1 b1] c1]. destruct (fdiv 1 _); try discriminate. cbn [bind vscale]. intros E. injection E as <-. cbn. split; [reflexivity|intros _ _; reflexivity]. }
  all: cbn [vcross]; destruct (fdiv 1 (sqrt _)) as [li| | |]; try discriminate; cbn [bind vscale]; match goal with |- context [vcross ?u ?v] => destruct (vcross u v) as [[a1 b1] c1] end;
    destruct (fdiv 1 (sqrt _)) as [lj| | |]; try discriminate; cbn [bind vscale]; intros E; injection E as <-; cbn [kn fst snd]; (split; [ring|intros A B; contradiction]).
Qed.
Lemma div_k_exact x y z e : transverse (x, y, z) = Val e -> (div_k e = (x, y, z) <-> y = 0%R \/ z = 0%R).
Proof.
  intros E. destruct (entry_vec _ _ E) as (Ev & _ & Nn & Mn). destruct (transverse_n _ _ _ _ E) as (Nz & N0). clear E.
  unfold div_k. destruct (km e) as [[mx my] mz], (kn e) as [[nx ny] nz]. cbn [fst snd rdot vcross vscale] in *. subst nz. generalize dependent (kmag e). intros k Ev. injection Ev as V1 V2 V3.
  assert (K : (k * my * nx = - (nx * nx * z))%R).
  { rewrite <- V3. transitivity (k * my * nx * (nx * nx + ny * ny + 0 * 0))%R; [rewrite Nn; ring|]. transitivity (k * my * nx * nx * nx + k * ny * nx * (my * ny))%R; [ring|]. replace (my * ny)%R with (- (mx * nx))%R by lra. ring. }
  split.
  - intros W. injection W as W1 W2 W3. assert (Z : (k * my * nx = 0)%R) by lra. rewrite K in Z. destruct (Req_dec z 0) as [|Qz]; [right; assumption|left].
    assert (Q : (nx * nx * z = 0)%R) by lra. apply Rmult_integral in Q as [Q|Q]; [|contradiction]. apply Rmult_integral in Q. rewrite <- V2. destruct Q as [-> | ->]; ring.
  - intros H. assert (Q : (k * my * nx = 0)%R).
    { rewrite K. destruct H as [-> | ->]; [|ring]. destruct (Req_dec nx 0) as [->|Qn]; [ring|]. exfalso. apply Qn. apply N0; [|reflexivity].
      assert (V : (k * mz = 0)%R) by (assert (V : (k * mz * nx = 0)%R) by lra; apply Rmult_integral in V as [V|V]; [exact V|contradiction]). rewrite <- V1. replace ((my * 0 - mz * ny) * k)%R with (- (k * mz * ny))%R by ring. rewrite V. ring. }
    apply (f_equal2 pair); [apply (f_equal2 pair)|]; lra.
Qed.

(** Real builds: the table is overrun as soon as there are two rows. *)
Lemma forZ_step {S} (body : Z -> S -> outcome S) lo hi s s' : forZ lo hi body s = Val s' -> forall i, lo <= i < hi -> exists t t', body i t = Val t'.
Proof.
  unfold forZ. intros E i Hi. remember (Z.to_nat (hi - lo)) as n eqn:En. assert (Hn : lo <= i < lo + Z.of_nat n) by lia. clear En Hi. revert lo s E Hn. induction n as [|n IH]; intros lo s E Hn; [lia|].
  cbn [for_] in E. destruct (body lo s) as [t| | |] eqn:Eb; try discriminate. cbn [bind] in E. destruct (Z.eq_dec i lo) as [->|]; [exists s, t; exact Eb|]. apply (IH (lo + 1) t E). lia.
Qed.
Lemma overrun d f f' : d_last d < d_last_size d -> 2 <= d_other d -> 1 <= d_last d -> Z.of_nat (length (d_kG d)) = d_other d * d_last d -> dot_k d f <> Val f'.
Proof.
  intros Hs Ho Hl Hk E. destruct (forZ_step _ _ _ _ _ E (d_other d - 1) ltac:(lia)) as (t & t' & E1). destruct (forZ_step _ _ _ _ _ E1 (d_last d - 1) ltac:(lia)) as (u & u' & E2). cbv beta zeta in E2.
  assert (R : rd (d_kG d) ((d_other d - 1) * d_last_size d + (d_last d - 1)) = UB).
  { unfold rd. destruct (Z.ltb_spec ((d_other d - 1) * d_last_size d + (d_last d - 1)) 0); [reflexivity|].
    destruct (nth_error (d_kG d) _) eqn:Q; [exfalso|reflexivity]. assert (nth_error (d_kG d) (Z.to_nat ((d_other d - 1) * d_last_size d + (d_last d - 1))) <> None) as Q' by congruence. apply nth_error_Some in Q'.
    assert ((d_other d - 1) * (d_last d + 1) <= (d_other d - 1) * d_last_size d) by (apply Z.mul_le_mono_nonneg_l; lia). nia. }
  rewrite R in E2. discriminate.
Qed.
