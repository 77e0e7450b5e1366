(** Proofs about fix_field_phase and scale_eigenvector. *)
From Coq Require Import List ZArith Reals Bool Lia Lra.
From Verif Require Import Base RC M_Tensor M_Evect S_Evect L_Evect L_Evect3 M_Grid S_Grid M_Op S_Op L_Op M_Pha S_Pha.
Import ListNotations.
Local Open Scope Z_scope.

(** ** atan2 *)
Lemma atan_cos_sin x y : (x <> 0)%R -> (cos (atan (y / x)) = Rabs x / sqrt (x * x + y * y) /\ sin (atan (y / x)) = y / x * (Rabs x / sqrt (x * x + y * y)))%R.
Proof.
  intros Hx. assert (P : (0 < x * x)%R) by (apply Rsqr_pos_lt in Hx; unfold Rsqr in Hx; lra). pose proof (Rle_0_sqr y) as Py. unfold Rsqr in Py.
  assert (E : (1 + (y / x)² = (x * x + y * y) / (x * x))%R) by (unfold Rsqr; field; exact Hx).
  assert (A : (sqrt (x * x) = Rabs x)%R) by (apply sqrt_Rsqr_abs).
  assert (S0 : (0 < sqrt (x * x + y * y))%R) by (apply sqrt_lt_R0; lra).
  assert (A0 : (Rabs x <> 0)%R) by (apply Rabs_no_R0; exact Hx).
  assert (Q : (1 / sqrt (1 + (y / x)²) = Rabs x / sqrt (x * x + y * y))%R).
  { rewrite E, sqrt_div_alt, A by exact P. field. split; lra. }
  rewrite cos_atan, sin_atan. split; [exact Q|]. rewrite <- Q. unfold Rdiv. ring.
Qed.
Lemma atan2_ok x y : (x <> 0 \/ y <> 0)%R -> (cos (atan2 y x) * sqrt (x * x + y * y) = x /\ sin (atan2 y x) * sqrt (x * x + y * y) = y)%R.
Proof.
  intros H. assert (S0 : (0 < sqrt (x * x + y * y))%R).
  { apply sqrt_lt_R0. pose proof (Rle_0_sqr x) as A. pose proof (Rle_0_sqr y) as B. destruct H as [H|H]; apply Rsqr_pos_lt in H; unfold Rsqr in *; lra. }
  unfold atan2. destruct (Rltb_spec 0 x) as [Px|Px]; [|destruct (Rltb_spec x 0) as [Nx|Nx]].
  - destruct (atan_cos_sin x y ltac:(lra)) as (-> & ->). rewrite Rabs_right by lra. split; field; lra.
  - destruct (atan_cos_sin x y ltac:(lra)) as (A & B). rewrite Rabs_left in A, B by lra. destruct (Rltb_spec y 0).
    + unfold Rminus. replace (cos (atan (y / x) + - PI)) with (- cos (atan (y / x)))%R by (rewrite <- neg_cos, <- (cos_period (atan (y / x) + - PI) 1); f_equal; cbn [INR]; ring); replace (sin (atan (y / x) + - PI)) with (- sin (atan (y / x)))%R by (rewrite <- neg_sin, <- (sin_period (atan (y / x) + - PI) 1); f_equal; cbn [INR]; ring); rewrite A, B. split; field; lra.
    + rewrite neg_cos, neg_sin, A, B. split; field; lra.
  - assert (x = 0%R) by lra. subst x. replace (0 * 0 + y * y)%R with (Rsqr y) by (unfold Rsqr; ring). rewrite sqrt_Rsqr_abs.
    destruct (Rltb_spec 0 y); [|destruct (Rltb_spec y 0)].
    + rewrite cos_PI2, sin_PI2, Rabs_right by lra. lra.
    + rewrite cos_neg, sin_neg, cos_PI2, sin_PI2, Rabs_left by lra. lra.
    + lra.
Qed.

(** ** The phase *)
Lemma best_unit s : unit_c (best_phase s).
Proof. unfold unit_c, best_phase. set (t := (1 / 2 * _)%R). pose proof (sin2_cos2 t) as E. unfold Rsqr in E. csimp. lra. Qed.
Definition modulus (s : C) : R := sqrt (re s * re s + im s * im s).
Lemma best_square s : (best_phase s * best_phase s * s)%C = RtoC (modulus s).
Proof.
  destruct (Req_dec (re s) 0) as [Z1|N1], (Req_dec (im s) 0) as [Z2|N2].
  1:{ destruct s as [a b]. unfold re, im in Z1, Z2. cbn in Z1, Z2. subst a b. unfold modulus. replace (re (0, 0)%R * re (0, 0)%R + im (0, 0)%R * im (0, 0)%R)%R with 0%R by (unfold re, im; cbn; ring). rewrite sqrt_0. apply C_eq; csimp; ring. }
  all: assert (A : (re s <> 0 \/ - im s <> 0)%R) by (first [left; assumption|right; intros Q; apply N2; lra]);
    destruct (atan2_ok _ _ A) as (E1 & E2); unfold best_phase; change (fst s) with (re s); change (snd s) with (im s); set (a := atan2 (- im s) (re s)) in *;
    replace (re s * re s + - im s * - im s)%R with (re s * re s + im s * im s)%R in E1, E2 by ring; fold (modulus s) in E1, E2;
    pose proof (cos_2a (1 / 2 * a)) as C2; pose proof (sin_2a (1 / 2 * a)) as S2; replace (2 * (1 / 2 * a))%R with a in C2, S2 by field;
    pose proof (sin2_cos2 a) as U; unfold Rsqr in U; generalize dependent (modulus s); intros M E1 E2; destruct s as [x y]; apply C_eq; csimp;
    set (c := cos (1 / 2 * a)) in *; set (s := sin (1 / 2 * a)) in *.
  all: try (transitivity ((c * c - s * s) * x - (2 * s * c) * y)%R; [ring|]; rewrite <- C2, <- S2; transitivity (M * (sin a * sin a + cos a * cos a))%R; [|rewrite U; ring]; replace x with (cos a * M)%R by lra; replace y with (- (sin a * M))%R by lra; ring).
  all: transitivity ((c * c - s * s) * y + (2 * s * c) * x)%R; [ring|]; rewrite <- C2, <- S2; replace x with (cos a * M)%R by lra; replace y with (- (sin a * M))%R by lra; ring.
Qed.

Section F.
Variable n : Z.
Variable f : list C.
Hypothesis Hn : 0 <= n <= Z.of_nat (length f).
Notation nn := (Z.to_nat n).

Lemma num_rd i : 0 <= i < n -> rd f i = Val (num f (Z.to_nat i)).
Proof. intros Hi. unfold num. rewrite Z2Nat.id by lia. apply gets_in. lia. Qed.
Lemma square_sum_ok : square_sum n f = Val (squares nn (num f)).
Proof.
  unfold square_sum. destruct (forZ_inv (fun i s => s = squares (Z.to_nat i) (num f)) (fun i s => let! v := rd f i in Val (fst s + (re v * re v - im v * im v), snd s + 2 * re v * im v)%R) 0 n (0%R, 0%R)) as (s & E & ->).
  - lia.
  - reflexivity.
  - intros i s Hi ->. rewrite num_rd by lia. cbn [bind]. eexists. split; [reflexivity|]. replace (Z.to_nat (i + 1)) with (S (Z.to_nat i)) by lia. unfold squares. cbn [csum]. apply C_eq; csimp; ring.
  - exact E.
Qed.

Variable key : C -> R.
Notation k := (fun i => key (num f i)).
Lemma max_abs_ok : exists m, max_abs key n f = Val m /\ (0 <= m)%R /\ (forall j, (j < nn)%nat -> (Rabs (k j) <= m)%R) /\ (m = 0%R \/ exists j, (j < nn)%nat /\ Rabs (k j) = m).
Proof.
  unfold max_abs. destruct (forZ_inv (fun i m => (0 <= m)%R /\ (forall j, (j < Z.to_nat i)%nat -> (Rabs (k j) <= m)%R) /\ (m = 0%R \/ exists j, (j < Z.to_nat i)%nat /\ Rabs (k j) = m))
    (fun i m => let! v := rd f i in let r := Rabs (key v) in Val (if Rltb m r then r else m)) 0 n 0%R) as (m & E & H).
  - lia.
  - split; [lra|]. split; [intros j Hj; cbn in Hj; lia|left; reflexivity].
  - intros i m Hi (P0 & P1 & P2). rewrite num_rd by lia. cbn [bind]. eexists. split; [reflexivity|]. cbv zeta. replace (Z.to_nat (i + 1)) with (S (Z.to_nat i)) by lia.
    destruct (Rltb_spec m (Rabs (key (num f (Z.to_nat i))))) as [L|L].
    + split; [apply Rabs_pos|]. split; [|right; exists (Z.to_nat i); split; [lia|reflexivity]]. intros j Hj. destruct (Nat.eq_dec j (Z.to_nat i)) as [->|]; [lra|]. specialize (P1 j ltac:(lia)). lra.
    + split; [exact P0|]. split; [|destruct P2 as [P2|(j & Hj & P2)]; [left; exact P2|right; exists j; split; [lia|exact P2]]].
      intros j Hj. destruct (Nat.eq_dec j (Z.to_nat i)) as [->|]; [lra|]. apply P1. lia.
  - exists m. split; [exact E|]. exact H.
Qed.
Lemma last_big_ok m : forall p, (p <= nn)%nat -> exists r, last_big key m f p = Val r /\
  match r with
  | None => forall j, (j < p)%nat -> (Rabs (k j) < 1 / 2 * m)%R
  | Some (i, s) => exists j, i = Z.of_nat j /\ (j < p)%nat /\ (1 / 2 * m <= Rabs (k j))%R /\ (forall l, (j < l < p)%nat -> (Rabs (k l) < 1 / 2 * m)%R) /\ s = if Rltb (k j) 0 then -1 else 1
  end.
Proof.
  induction p as [|p IH]; intros Hp; cbn [last_big].
  - exists None. split; [reflexivity|]. intros j Hj. lia.
  - rewrite num_rd by lia. rewrite Nat2Z.id. cbn [bind]. cbv zeta. destruct (Rleb_spec (1 / 2 * m) (Rabs (key (num f p)))) as [L|L].
    + eexists. split; [reflexivity|]. exists p. repeat split; try lia; try lra.
    + destruct (IH ltac:(lia)) as (r & E & H). exists r. split; [exact E|]. destruct r as [(i & s)|].
      * destruct H as (j & -> & Hj & A & B & ->). exists j. repeat split; try lia; try assumption. intros l Hl. destruct (Nat.eq_dec l p) as [->|]; [lra|]. apply B. lia.
      * intros j Hj. destruct (Nat.eq_dec j p) as [->|]; [lra|]. apply H. lia.
Qed.
(** One process: the sign is that of the deciding point, 1 if all numbers are zero. *)
Lemma decide_ok : exists s, decide_sign key [(0, n, f)] = Val s /\ (s = 1 \/ s = -1) /\
  ((forall i, (i < nn)%nat -> k i = 0%R) -> s = 1) /\ ((exists i, (i < nn)%nat /\ k i <> 0%R) -> sign_of nn k s).
Proof.
  destruct max_abs_ok as (m & E & P0 & P1 & P2). unfold decide_sign. cbn [mapM]. rewrite E. cbn [bind fold_right mapM candidate]. rewrite (Rmax_left m 0) by exact P0.
  destruct (last_big_ok m nn (le_n _)) as (r & Er & H). rewrite Er. cbn [bind maxloc2 fold_left snd]. eexists. split; [reflexivity|]. destruct r as [(i & s)|].
  - destruct H as (j & -> & Hj & A & B & ->). cbn [snd]. split; [destruct (Rltb _ _); auto|]. split.
    + intros Z. rewrite Z by exact Hj. destruct (Rltb_spec 0 0); [lra|reflexivity].
    + intros (i & Hi & Nz). assert (Mp : (0 < m)%R) by (apply Rlt_le_trans with (Rabs (k i)); [apply Rabs_pos_lt; exact Nz|apply P1; exact Hi]).
      destruct P2 as [P2|P2]; [lra|]. exists j, m. split; [exact Hj|]. split; [exact P1|]. split; [exact P2|]. split; [exact A|]. split; [exact B|].
      destruct (Rltb_spec (k j) 0) as [L|L]; (split; [auto|]).
      * lra.
      * destruct (Req_dec (k j) 0) as [Q|Q]; [rewrite Q, Rabs_R0 in A; lra|]. lra.
  - cbn [snd]. split; [auto|]. split; [auto|]. intros (i & Hi & Nz). exfalso. destruct P2 as [P2|(j & Hj & P2)].
    + pose proof (P1 i Hi). pose proof (Rabs_pos_lt _ Nz). lra.
    + pose proof (H j Hj). lra.
Qed.
End F.
Lemma sign_unique n k s s' : sign_of n k s -> sign_of n k s' -> s = s'.
Proof.
  intros (i & M & Hi & B & (j & Hj & Ej) & A & L & Hs & P) (i' & M' & Hi' & B' & (j' & Hj' & Ej') & A' & L' & Hs' & P').
  assert (M = M') by (pose proof (B j' Hj'); pose proof (B' j Hj); lra). subst M'.
  assert (i = i') by (destruct (Nat.lt_trichotomy i i') as [Q|[Q|Q]]; [pose proof (L i' ltac:(lia)); lra|exact Q|pose proof (L' i ltac:(lia)); lra]). subst i'.
  destruct Hs as [->| ->], Hs' as [->| ->]; lra || reflexivity.
Qed.
Lemma sign_ext n k k' s : (forall i, (i < n)%nat -> k i = k' i) -> sign_of n k s -> sign_of n k' s.
Proof.
  intros E (i & M & Hi & B & (j & Hj & Ej) & A & L & Hs & P). exists i, M. split; [exact Hi|]. split; [intros l Hl; rewrite <- E by exact Hl; auto|].
  split; [exists j; split; [exact Hj|rewrite <- E by exact Hj; exact Ej]|]. split; [rewrite <- E by exact Hi; exact A|]. split; [intros l Hl; rewrite <- E by lia; auto|]. split; [exact Hs|]. rewrite <- E by exact Hi. exact P.
Qed.
Lemma sign_neg n k s : sign_of n k s -> sign_of n (fun i => - k i)%R (- s).
Proof.
  intros (i & M & Hi & B & (j & Hj & Ej) & A & L & Hs & P). exists i, M. split; [exact Hi|]. split; [intros l Hl; rewrite Rabs_Ropp; auto|].
  split; [exists j; split; [exact Hj|rewrite Rabs_Ropp; exact Ej]|]. split; [rewrite Rabs_Ropp; exact A|]. split; [intros l Hl; rewrite Rabs_Ropp; auto|]. split; [lia|]. rewrite opp_IZR. lra.
Qed.

(** ** Multiplying the field and the eigenvector *)
Lemma turn_ok n p f : 0 <= n <= Z.of_nat (length f) -> exists f', turn_field n p f = Val f' /\ length f' = length f /\
  (forall i, (i < Z.to_nat n)%nat -> num f' i = (p * num f i)%C) /\ (forall x, n <= x -> gets f' x = gets f x).
Proof.
  intros Hn. unfold turn_field.
  destruct (forZ_inv (fun i g => length g = length f /\ (forall x, 0 <= x < i -> gets g x = (p * gets f x)%C) /\ (forall x, i <= x -> gets g x = gets f x))
    (fun i f => let! v := rd f i in wr f i (re v * re p - im v * im p, re v * im p + im v * re p)%R) 0 n f) as (f' & E & L & A & B).
  - lia.
  - split; [reflexivity|]. split; [intros; lia|reflexivity].
  - intros i g Hi (L & A & B). rewrite (gets_in g) by lia. cbn [bind]. set (v := (_, _)). assert (Hin : 0 <= i < Z.of_nat (length g)) by lia.
    pose proof (wr_in g i v Hin) as W. eexists. split; [exact W|]. split; [rewrite upd_length; exact L|]. split.
    + intros x Hx. unfold gets at 1. rewrite (rd_wr _ _ _ _ _ W). destruct (Z.eqb_spec x i) as [->|]; [|apply A; lia]. unfold v. rewrite (B i) by lia. apply C_eq; csimp; ring.
    + intros x Hx. unfold gets at 1. rewrite (rd_wr _ _ _ _ _ W). destruct (Z.eqb_spec x i) as [->|]; [lia|]. apply B. lia.
  - exists f'. split; [exact E|]. split; [exact L|]. split; [|exact B]. intros i Hi. apply A. lia.
Qed.

(** A column of a matrix replaced number by number. *)
Lemma column_loop {A} (X : emat A) (b : Z) (g : A -> A) (body : Z -> list A -> outcome (list A)) :
  wf X -> 0 <= b < ep X ->
  (forall i l, 0 <= i < en X -> body i l = (let! v := rd l (i * ep X + b) in wr l (i * ep X + b) (g v))) ->
  exists l, forZ 0 (en X) body (edata X) = Val l /\ length l = length (edata X) /\
    forall i j, 0 <= i < en X -> 0 <= j < ep X -> rd l (i * ep X + j) = if j =? b then (let! v := rd (edata X) (i * ep X + j) in Val (g v)) else rd (edata X) (i * ep X + j).
Proof.
  intros (W1 & W2 & W3) Hb Hbody.
  assert (In : forall i j, 0 <= i < en X -> 0 <= j < ep X -> 0 <= i * ep X + j < Z.of_nat (length (edata X))).
  { intros i j Hi Hj. rewrite W3. nia. }
  destruct (forZ_inv (fun q l => length l = length (edata X) /\ forall i j, 0 <= i < en X -> 0 <= j < ep X ->
      rd l (i * ep X + j) = if (j =? b) && (i <? q) then (let! v := rd (edata X) (i * ep X + j) in Val (g v)) else rd (edata X) (i * ep X + j)) body 0 (en X) (edata X)) as (l & E & L & H).
  - lia.
  - split; [reflexivity|]. intros i j Hi Hj. destruct (Z.ltb_spec i 0); [lia|]. rewrite andb_false_r. reflexivity.
  - intros q l Hq (L & H). rewrite Hbody by lia. rewrite (H q b) by lia. rewrite Z.eqb_refl. destruct (Z.ltb_spec q q); [lia|]. cbn [andb].
    pose proof (In q b ltac:(lia) Hb) as Hin. destruct (rd (edata X) (q * ep X + b)) as [v| | |] eqn:Ev; try (unfold rd in Ev; destruct (Z.ltb_spec (q * ep X + b) 0); [lia|]; destruct (nth_error (edata X) (Z.to_nat (q * ep X + b))) eqn:Q; [discriminate|apply nth_error_None in Q; lia]).
    cbn [bind]. assert (Hin' : 0 <= q * ep X + b < Z.of_nat (length l)) by (rewrite L; exact Hin). pose proof (wr_in l (q * ep X + b) (g v) Hin') as W. eexists. split; [exact W|]. split; [rewrite upd_length; exact L|].
    intros i j Hi Hj. rewrite (rd_wr _ _ _ _ _ W). destruct (Z.eqb_spec (i * ep X + j) (q * ep X + b)) as [Q|Q].
    + assert (i = q /\ j = b) as (-> & ->) by (destruct (Z.lt_trichotomy i q) as [O|[O|O]]; [assert ((i + 1) * ep X <= q * ep X) by (apply Z.mul_le_mono_nonneg_r; lia); lia|subst i; split; lia|assert ((q + 1) * ep X <= i * ep X) by (apply Z.mul_le_mono_nonneg_r; lia); lia]). rewrite Z.eqb_refl. destruct (Z.ltb_spec q (q + 1)); [|lia]. cbn [andb]. rewrite Ev. reflexivity.
    + rewrite H by assumption. destruct (Z.eqb_spec j b) as [->|]; [|reflexivity]. cbn [andb]. destruct (Z.ltb_spec i q), (Z.ltb_spec i (q + 1)); try lia; try reflexivity. assert (i = q) by lia. subst i. contradiction.
  - exists l. split; [exact E|]. split; [exact L|]. intros i j Hi Hj. rewrite H by assumption. destruct (Z.ltb_spec i (en X)); [|lia]. rewrite andb_true_r. reflexivity.
Qed.
Lemma turn_band_ok band p (H : emat C) : wf H -> 1 <= band <= ep H -> exists H', turn_band band p H = Val H' /\ wf H' /\ en H' = en H /\ ep H' = ep H /\
  (forall i, 0 <= i < en H -> entC H' i (band - 1) = (p * entC H i (band - 1))%C) /\
  (forall i j, 0 <= i < en H -> 0 <= j < ep H -> j <> band - 1 -> entC H' i j = entC H i j).
Proof.
  intros W Hb. unfold turn_band.
  destruct (column_loop H (band - 1) (fun v => (re v * re p - im v * im p, re v * im p + im v * re p)%R)
    (fun i d => let! v := rd d (i * ep H + band - 1) in wr d (i * ep H + band - 1) (re v * re p - im v * im p, re v * im p + im v * re p)%R) W ltac:(lia)) as (l & E & L & A).
  - intros i l _. replace (i * ep H + band - 1) with (i * ep H + (band - 1)) by ring. reflexivity.
  - rewrite E. cbn [bind]. eexists. split; [reflexivity|]. destruct W as (W1 & W2 & W3). unfold set_data, wf, entC, gets; cbn [en ep ealloc edata]. split; [rewrite L; auto|]. split; [reflexivity|]. split; [reflexivity|]. split.
    + intros i Hi. rewrite A by lia. rewrite Z.eqb_refl. assert (Hin : 0 <= i * ep H + (band - 1) < Z.of_nat (length (edata H))) by (rewrite W3; nia). rewrite (gets_in _ _ Hin). cbn [bind]. apply C_eq; csimp; ring.
    + intros i j Hi Hj Nj. rewrite A by lia. destruct (Z.eqb_spec j (band - 1)); [contradiction|]. reflexivity.
Qed.

(** ** The whole function *)
Lemma Cmul_zero a b : (a * b)%C = C0 -> a = C0 \/ b = C0.
Proof.
  intros E. assert (N : (normsqr a * normsqr b = 0)%R).
  { replace (normsqr a * normsqr b)%R with (normsqr (a * b)%C) by (csimp; ring). rewrite E. csimp. ring. }
  apply Rmult_integral in N. assert (K : forall z, normsqr z = 0%R -> z = C0).
  { intros [x y] Q. csimp. pose proof (Rle_0_sqr x). pose proof (Rle_0_sqr y). unfold Rsqr in *. assert (Qx : (x * x = 0)%R) by lra. assert (Qy : (y * y = 0)%R) by lra. apply Rmult_integral in Qx, Qy. f_equal; tauto. }
  destruct N as [N|N]; [left|right]; apply K; exact N.
Qed.
Lemma squares_scal n c f : squares n (fun i => c * f i)%C = (c * c * squares n f)%C.
Proof. unfold squares. rewrite <- csum_scal. apply csum_ext. intros i _. ring. Qed.
Lemma squares_ext n f g : (forall i, (i < n)%nat -> f i = g i) -> squares n f = squares n g.
Proof. intros H. apply csum_ext. intros i Hi. rewrite H by exact Hi. reflexivity. Qed.
Lemma squares_re n f : (re (squares n f) = rsum n (fun i => re (f i) * re (f i) - im (f i) * im (f i)))%R.
Proof. induction n as [|n IH]; [reflexivity|]. unfold squares in *. cbn [csum rsum]. rewrite <- IH. generalize (f n), (csum n (fun i => f i * f i)%C). intros [a b] [c d]. csimp. ring. Qed.
Lemma modulus_pos s : s <> C0 -> (0 < modulus s)%R.
Proof.
  intros H. apply sqrt_lt_R0. pose proof (Rle_0_sqr (re s)) as A. pose proof (Rle_0_sqr (im s)) as B. unfold Rsqr in *.
  destruct (Req_dec (re s) 0) as [Q|Q]; [|apply Rsqr_pos_lt in Q; unfold Rsqr in Q; lra]. destruct (Req_dec (im s) 0) as [Q'|Q']; [|apply Rsqr_pos_lt in Q'; unfold Rsqr in Q'; lra].
  exfalso. apply H. destruct s. unfold re, im in *. cbn in *. subst. reflexivity.
Qed.

Lemma fix_ok out band f (H : emat C) : 0 <= out -> 3 * out <= Z.of_nat (length f) -> wf H -> 1 <= band <= ep H ->
  exists p f' H', fix_field_phase out band f H = Val (f', H') /\ unit_c p /\ length f' = length f /\
    (forall i, (i < Z.to_nat (3 * out))%nat -> num f' i = (p * num f i)%C) /\ (forall x, 3 * out <= x -> gets f' x = gets f x) /\
    wf H' /\ en H' = en H /\ ep H' = ep H /\ (forall i, 0 <= i < en H -> entC H' i (band - 1) = (p * entC H i (band - 1))%C) /\
    (forall i j, 0 <= i < en H -> 0 <= j < ep H -> j <> band - 1 -> entC H' i j = entC H i j) /\
    (p * p * squares (Z.to_nat (3 * out)) (num f))%C = RtoC (modulus (squares (Z.to_nat (3 * out)) (num f))) /\
    (squares (Z.to_nat (3 * out)) (num f) <> C0 -> sign_of (Z.to_nat (3 * out)) (fun i => re (num f' i)) 1).
Proof.
  intros Ho Hf W Hb. unfold fix_field_phase. cbv zeta. replace (out * 3) with (3 * out) by ring. set (n := 3 * out) in *. assert (Hn : 0 <= n <= Z.of_nat (length f)) by lia.
  unfold choose_phase. cbn [mapM]. rewrite square_sum_ok by exact Hn. cbn [bind fold_right fst snd]. set (S := squares (Z.to_nat n) (num f)).
  replace (fst S + 0, snd S + 0)%R with S by (rewrite !Rplus_0_r; apply surjective_pairing).
  destruct (decide_ok n f Hn (key_complex (best_phase S))) as (s & Es & Hs & _ & Hd). rewrite Es. cbn [bind].
  set (u := best_phase S) in *. set (p := (re u * IZR s, im u * IZR s)%R). pose proof (best_unit S) as Uu. fold u in Uu. pose proof (best_square S) as Sq. fold u in Sq.
  assert (Ss : (IZR s * IZR s = 1)%R) by (destruct Hs as [->| ->]; ring).
  assert (Pu : p = (RtoC (IZR s) * u)%C) by (unfold p; apply C_eq; csimp; ring).
  destruct (turn_ok n p f Hn) as (f' & Ef & Lf & Af & Bf). destruct (turn_band_ok band p H W Hb) as (H' & EH & WH & NH & PH & AH & BH).
  exists p, f', H'. rewrite Ef. cbn [bind]. rewrite EH. split; [reflexivity|]. split.
  { rewrite Pu. unfold unit_c in *. transitivity (IZR s * IZR s * normsqr u)%R; [csimp; ring|]. rewrite Uu, Ss. ring. }
  split; [exact Lf|]. split; [exact Af|]. split; [exact Bf|]. split; [exact WH|]. split; [exact NH|]. split; [exact PH|]. split; [exact AH|]. split; [exact BH|]. split.
  - rewrite Pu, <- Sq. transitivity (RtoC (IZR s * IZR s) * (u * u * S))%C; [rewrite RtoC_mul; ring|]. rewrite Ss. change (RtoC 1) with C1. ring.
  - intros Nz. pose proof (modulus_pos S Nz) as Mp.
    assert (Ex : exists i, (i < Z.to_nat n)%nat /\ key_complex u (num f i) <> 0%R).
    { assert (D : forall m, (forall i, (i < m)%nat -> key_complex u (num f i) = 0%R) \/ exists i, (i < m)%nat /\ key_complex u (num f i) <> 0%R).
      { induction m as [|m [IH|(i & Hi & IH)]]; [left; intros; lia| |right; exists i; split; [lia|exact IH]].
        destruct (Req_dec (key_complex u (num f m)) 0) as [Q|Q]; [left|right; exists m; split; [lia|exact Q]]. intros i Hi. destruct (Nat.eq_dec i m) as [->|]; [exact Q|]. apply IH. lia. }
      destruct (D (Z.to_nat n)) as [All|Ex]; [exfalso|exact Ex].
      assert (E : (re (squares (Z.to_nat n) (fun i => u * num f i)%C) <= 0)%R).
      { rewrite squares_re. rewrite <- (Ropp_involutive (rsum _ _)). apply Ropp_le_cancel. rewrite Ropp_involutive, Ropp_0. 
        assert (NN : forall m, (m <= Z.to_nat n)%nat -> (rsum m (fun i => re (u * num f i)%C * re (u * num f i)%C - im (u * num f i)%C * im (u * num f i)%C) <= 0)%R).
        { induction m as [|m IH]; intros Hm; cbn [rsum]; [lra|]. specialize (IH ltac:(lia)). specialize (All m ltac:(lia)).
          assert (Rz : re (u * num f m)%C = 0%R) by (rewrite <- All; unfold key_complex; csimp; ring). rewrite Rz. pose proof (Rle_0_sqr (im (u * num f m)%C)) as Q. unfold Rsqr in Q. lra. }
        pose proof (NN (Z.to_nat n) (le_n _)). lra. }
      rewrite squares_scal in E. fold S in E. rewrite Sq in E. change (re (RtoC (modulus S))) with (modulus S) in E. lra. }
    specialize (Hd Ex). apply (sign_ext _ (fun i => IZR s * key_complex u (num f i))%R).
    + intros i Hi. rewrite Af by exact Hi. unfold p, key_complex. csimp. ring.
    + destruct Hs as [->| ->].
      * apply (sign_ext _ (fun i => key_complex u (num f i))); [intros; ring|exact Hd].
      * apply (sign_ext _ (fun i => - key_complex u (num f i))%R); [intros; ring|]. change 1 with (- -1). apply sign_neg. exact Hd.
Qed.
Lemma canonical_phase n (F G F' G' : nat -> C) c p q : unit_c c -> unit_c p -> unit_c q -> squares n F <> C0 ->
  (forall i, (i < n)%nat -> G i = (c * F i)%C) -> (forall i, (i < n)%nat -> F' i = (p * F i)%C) -> (forall i, (i < n)%nat -> G' i = (q * G i)%C) ->
  (p * p * squares n F)%C = RtoC (modulus (squares n F)) -> (q * q * squares n G)%C = RtoC (modulus (squares n G)) ->
  sign_of n (fun i => re (F' i)) 1 -> sign_of n (fun i => re (G' i)) 1 -> (q * c)%C = p.
Proof.
  intros Uc Up Uq Nz HG HF' HG' SF SG PF PG.
  assert (EG : squares n G = (c * c * squares n F)%C) by (rewrite <- squares_scal; apply squares_ext; exact HG).
  assert (Ms : modulus (squares n G) = modulus (squares n F)).
  { rewrite EG. unfold modulus. f_equal. transitivity (normsqr c * normsqr c * (re (squares n F) * re (squares n F) + im (squares n F) * im (squares n F)))%R; [csimp; ring|]. rewrite Uc. ring. }
  assert (Z : ((q * c - p) * ((q * c + p) * squares n F))%C = C0).
  { transitivity ((q * q * (c * c * squares n F)) - (p * p * squares n F))%C; [ring|]. rewrite <- EG, SG, SF, Ms. ring. }
  apply Cmul_zero in Z. destruct Z as [Z|Z]; [replace (q * c)%C with (q * c - p + p)%C by ring; rewrite Z; ring|]. apply Cmul_zero in Z. destruct Z as [Z|Z]; [|contradiction].
  assert (Q : (q * c)%C = (- p)%C) by (replace (q * c)%C with (q * c + p - p)%C by ring; rewrite Z; ring). exfalso.
  assert (A : sign_of n (fun i => - re (F' i))%R 1).
  { refine (sign_ext _ _ _ _ _ PG). intros i Hi. rewrite HG', HG, HF' by exact Hi. replace (q * (c * F i))%C with ((q * c) * F i)%C by ring. rewrite Q. csimp. ring. }
  pose proof (sign_unique _ _ _ _ A (sign_neg _ _ _ PF)). lia.
Qed.
