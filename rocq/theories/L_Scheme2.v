(** Proofs about next-factor2357 and first-brillouin-zone. *)
From Coq Require Import Reals Lra Lia List Bool ZArith Znumtheory.
From Verif Require Import Base RC M_Scheme S_Scheme.
Import ListNotations.

Section Factor.
Local Open Scope Z_scope.

Lemma divby_pos p : 2 <= p -> forall fuel N, 0 < N -> (Z.to_nat N < fuel)%nat ->
  exists M e, divby fuel N p = Some M /\ 0 < M <= N /\ 0 <= e /\ N = p ^ e * M /\ ~ (p | M).
Proof.
  intros Hp. induction fuel as [|f IH]; intros N HN Hf; [lia|].
  cbn [divby]. rewrite Z.rem_mod_nonneg by lia. destruct (Z.eqb_spec (N mod p) 0) as [E|E].
  - rewrite Z.quot_div_nonneg by lia.
    assert (EN : N = p * (N / p)) by (pose proof (Z.div_mod N p ltac:(lia)); lia).
    assert (Hq : 0 < N / p) by nia. assert (Hq2 : N / p < N) by nia.
    destruct (IH (N / p) Hq ltac:(lia)) as (M & e & H1 & H2 & H3 & H4 & H5).
    exists M, (e + 1). split; [exact H1|]. split; [nia|]. split; [lia|]. split; [|exact H5].
    rewrite Z.pow_add_r, Z.pow_1_r by lia. rewrite EN at 1. rewrite H4 at 1. ring.
  - exists N, 0. split; [reflexivity|]. split; [lia|]. split; [lia|]. split; [ring|].
    intros D. apply Z.mod_divide in D; [congruence|lia].
Qed.

Lemma prime_divisor n : 1 < n -> exists q, prime q /\ (q | n).
Proof.
  intros H. assert (H0 : 0 <= n) by lia. revert H. revert n H0.
  apply (Z_lt_induction (fun n => 1 < n -> exists q, prime q /\ (q | n))).
  intros m IH Hm. destruct (prime_dec m) as [P|NP]; [exists m; split; [exact P|apply Z.divide_refl]|].
  destruct (not_prime_divide m Hm NP) as (d & Hd & Dd).
  destruct (IH d ltac:(lia) ltac:(lia)) as (q & Pq & Dq). exists q. split; [exact Pq|].
  eapply Z.divide_trans; eassumption.
Qed.

Lemma prime_5 : prime 5.
Proof.
  destruct (prime_dec 5) as [P|NP]; [exact P|].
  destruct (not_prime_divide 5 ltac:(lia) NP) as (d & Hd & Dd).
  assert (E : d = 2 \/ d = 3 \/ d = 4) by lia.
  destruct E as [->|[->| ->]]; destruct Dd as [z Hz]; lia.
Qed.
Lemma prime_7 : prime 7.
Proof.
  destruct (prime_dec 7) as [P|NP]; [exact P|].
  destruct (not_prime_divide 7 ltac:(lia) NP) as (d & Hd & Dd).
  assert (E : d = 2 \/ d = 3 \/ d = 4 \/ d = 5 \/ d = 6) by lia.
  destruct E as [->|[->|[->|[->| ->]]]]; destruct Dd as [z Hz]; lia.
Qed.

Lemma small_primes q : prime q -> q <= 7 -> q = 2 \/ q = 3 \/ q = 5 \/ q = 7.
Proof.
  intros P H. pose proof (prime_ge_2 q P).
  assert (E : q = 2 \/ q = 3 \/ q = 4 \/ q = 5 \/ q = 6 \/ q = 7) by lia.
  destruct E as [->|[->|[->|[->|[->| ->]]]]]; auto.
  - exfalso. destruct (prime_divisors 4 P 2) as [A|[A|[A|A]]]; try lia. exists 2. lia.
  - exfalso. destruct (prime_divisors 6 P 2) as [A|[A|[A|A]]]; try lia. exists 3. lia.
Qed.

Lemma smooth7_mul a b : smooth7 (a * b) <-> smooth7 a /\ smooth7 b.
Proof.
  split.
  - intros H. split; intros p P D; apply (H p P); [apply Z.divide_mul_l|apply Z.divide_mul_r]; exact D.
  - intros [Ha Hb] p P D. destruct (prime_mult p P a b D); auto.
Qed.

Lemma smooth7_pow p e : 0 <= e -> prime p -> p <= 7 -> smooth7 (p ^ e).
Proof.
  intros He P Hp. revert e He. apply natlike_ind.
  - intros q Pq D. pose proof (prime_ge_2 q Pq). apply Z.divide_pos_le in D; [|lia]. cbn in D. lia.
  - intros e He IH. rewrite Z.pow_succ_r by lia. apply smooth7_mul. split; [|exact IH].
    intros q Pq D. rewrite (prime_div_prime q p Pq P D). exact Hp.
Qed.

Lemma factor2357_correct N fuel : 0 < N -> (Z.to_nat N < fuel)%nat ->
  exists b, factor2357 fuel N = Some b /\ (b = true <-> smooth7 N).
Proof.
  intros HN Hf. unfold factor2357.
  destruct (divby_pos 2 ltac:(lia) fuel N HN Hf) as (a & e1 & E1 & Ha & He1 & EN & D1). rewrite E1.
  destruct (divby_pos 3 ltac:(lia) fuel a ltac:(lia) ltac:(lia)) as (b & e2 & E2 & Hb & He2 & Ea & D2). rewrite E2.
  destruct (divby_pos 5 ltac:(lia) fuel b ltac:(lia) ltac:(lia)) as (c & e3 & E3 & Hc & He3 & Eb & D3). rewrite E3.
  destruct (divby_pos 7 ltac:(lia) fuel c ltac:(lia) ltac:(lia)) as (d & e4 & E4 & Hd & He4 & Ec & D4). rewrite E4.
  exists (1 =? d). split; [reflexivity|].
  rewrite EN, Ea, Eb, Ec. rewrite !smooth7_mul. rewrite Z.eqb_eq. split.
  - intros <-. repeat split; try (apply smooth7_pow; [assumption| |lia]); auto using prime_2, prime_3, prime_5, prime_7.
    intros p P D. pose proof (prime_ge_2 p P). apply Z.divide_pos_le in D; lia.
  - intros (_ & _ & _ & _ & Hs). destruct (Z.eq_dec d 1) as [->|Hne]; [reflexivity|]. exfalso.
    destruct (prime_divisor d ltac:(lia)) as (q & Pq & Dq).
    pose proof (Hs q Pq Dq) as Hq.
    destruct (small_primes q Pq Hq) as [->|[->|[->| ->]]].
    + apply D1. rewrite Ea, Eb, Ec. auto using Z.divide_mul_r.
    + apply D2. rewrite Eb, Ec. auto using Z.divide_mul_r.
    + apply D3. rewrite Ec. auto using Z.divide_mul_r.
    + apply D4. exact Dq.
Qed.

Lemma next_factor_search T fuel N : 0 < N -> N <= T -> smooth7 T -> (Z.to_nat T + Z.to_nat (T - N) < fuel)%nat ->
  exists r, next_factor2357 fuel N = Some r /\ N <= r /\ smooth7 r /\ forall m, N <= m < r -> ~ smooth7 m.
Proof.
  revert N. induction fuel as [|f IH]; intros N HN HT HS Hf; [lia|].
  cbn [next_factor2357].
  destruct (factor2357_correct N (S f) HN ltac:(lia)) as (b & Eb & Hb). rewrite Eb.
  destruct b.
  - exists N. split; [reflexivity|]. split; [lia|]. split; [apply Hb; reflexivity|]. intros m Hm. lia.
  - assert (HN' : ~ smooth7 N) by (intros H; apply Hb in H; discriminate).
    assert (N <> T) by (intros ->; contradiction).
    destruct (IH (N+1) ltac:(lia) ltac:(lia) HS ltac:(lia)) as (r & E & H1 & H2 & H3).
    exists r. split; [exact E|]. split; [lia|]. split; [exact H2|].
    intros m Hm. destruct (Z.eq_dec m N) as [->|]; [exact HN'|apply H3; lia].
Qed.

Lemma next_factor_correct N : 0 < N -> exists r fuel0,
  (forall fuel, (fuel0 <= fuel)%nat -> next_factor2357 fuel N = Some r) /\
  N <= r /\ smooth7 r /\ forall m, N <= m < r -> ~ smooth7 m.
Proof.
  intros HN. set (T := 2 ^ N).
  assert (HT : N <= T). { unfold T. pose proof (Z.pow_gt_lin_r 2 N ltac:(lia) ltac:(lia)). lia. }
  assert (HS : smooth7 T) by (unfold T; apply smooth7_pow; [lia|apply prime_2|lia]).
  set (fuel0 := (Z.to_nat T + Z.to_nat (T - N) + 1)%nat).
  destruct (next_factor_search T fuel0 N HN HT HS ltac:(lia)) as (r & E & H1 & H2 & H3).
  exists r, fuel0. split; [|auto].
  intros fuel Hf.
  destruct (next_factor_search T fuel N HN HT HS ltac:(lia)) as (r' & E' & H1' & H2' & H3').
  rewrite E'. f_equal. destruct (Z.lt_trichotomy r r') as [L|[L|L]]; [|symmetry; exact L|].
  - exfalso. apply (H3' r); [lia|exact H2].
  - exfalso. apply (H3 r'); [lia|exact H2'].
Qed.

Lemma divby_zero fuel p : divby fuel 0 p = None.
Proof. induction fuel as [|f IH]; [reflexivity|]. cbn [divby]. destruct p; exact IH. Qed.

Lemma divby_neg p fuel N M : 2 <= p -> N < 0 -> divby fuel N p = Some M -> M < 0.
Proof.
  intros Hp. revert N. induction fuel as [|f IH]; intros N HN; [discriminate|].
  cbn [divby]. destruct (Z.eqb_spec (Z.rem N p) 0) as [E|E].
  - apply IH. pose proof (Z.quot_rem N p ltac:(lia)). nia.
  - intros [= <-]. exact HN.
Qed.

Lemma next_factor_diverges N fuel : N <= 0 -> next_factor2357 fuel N = None.
Proof.
  revert N. induction fuel as [|f IH]; intros N HN; [reflexivity|].
  cbn [next_factor2357]. destruct (Z.eq_dec N 0) as [->|Hne].
  - unfold factor2357. rewrite divby_zero. reflexivity.
  - destruct (factor2357 (S f) N) as [[|]|] eqn:E; [exfalso|apply IH; lia|reflexivity].
    unfold factor2357 in E.
    destruct (divby (S f) N 2) as [a|] eqn:E1; [|discriminate]. apply divby_neg in E1; [|lia|lia].
    destruct (divby (S f) a 3) as [b|] eqn:E2; [|discriminate]. apply divby_neg in E2; [|lia|lia].
    destruct (divby (S f) b 5) as [c|] eqn:E3; [|discriminate]. apply divby_neg in E3; [|lia|lia].
    destruct (divby (S f) c 7) as [d|] eqn:E4; [|discriminate]. apply divby_neg in E4; [|lia|lia].
    destruct d; [lia| lia | discriminate E].
Qed.
End Factor.

(* ------------------------------------------------------------------ BZ *)
Section BZ.
Local Open Scope R_scope.
Variable B : basis.

Definition norm1 (v : v3) : R := let '(x, y, z) := v in Rabs x + Rabs y + Rabs z.

Lemma abs_le_norm v : let '(x, y, z) := v in Rabs x <= vnorm v /\ Rabs y <= vnorm v /\ Rabs z <= vnorm v.
Proof.
  destruct v as [[x y] z]. unfold vnorm.
  assert (G : forall t s, 0 <= s -> Rabs t <= sqrt (t*t + s)).
  { intros t s Hs. rewrite <- sqrt_Rsqr_abs. apply sqrt_le_1_alt. unfold Rsqr. lra. }
  repeat split.
  - replace (x*x+y*y+z*z) with (x*x + (y*y+z*z)) by ring. apply G. nra.
  - replace (x*x+y*y+z*z) with (y*y + (x*x+z*z)) by ring. apply G. nra.
  - replace (x*x+y*y+z*z) with (z*z + (x*x+y*y)) by ring. apply G. nra.
Qed.

Lemma lin_bound v a b c : let '(x, y, z) := v in
  Rabs (a*x + b*y + c*z) <= (Rabs a + Rabs b + Rabs c) * vnorm v.
Proof.
  pose proof (abs_le_norm v) as H. destruct v as [[x y] z]. destruct H as (Hx & Hy & Hz).
  eapply Rle_trans; [apply Rabs_triang|]. eapply Rle_trans; [apply Rplus_le_compat_r; apply Rabs_triang|].
  rewrite !Rabs_mult.
  pose proof (Rabs_pos a). pose proof (Rabs_pos b). pose proof (Rabs_pos c).
  set (n := vnorm (x, y, z)) in *.
  assert (Rabs a * Rabs x <= Rabs a * n) by (apply Rmult_le_compat_l; assumption).
  assert (Rabs b * Rabs y <= Rabs b * n) by (apply Rmult_le_compat_l; assumption).
  assert (Rabs c * Rabs z <= Rabs c * n) by (apply Rmult_le_compat_l; assumption).
  lra.
Qed.

Hypothesis HB : independent B.

Lemma coord_bound : exists C, 0 <= C /\ forall k, let '(k1, k2, k3) := k in
  Rabs k1 <= C * bz_n B k /\ Rabs k2 <= C * bz_n B k /\ Rabs k3 <= C * bz_n B k.
Proof.
  unfold independent, volume in HB. unfold bz_n, recip2cart.
  destruct B as [[[[x1 y1] z1] [[x2 y2] z2]] [[x3 y3] z3]].
  set (D := x1 * (y2*z3 - z2*y3) + y1 * (z2*x3 - x2*z3) + z1 * (x2*y3 - y2*x3)) in *.
  set (a1 := (y2*z3 - z2*y3)/D). set (b1 := (z2*x3 - x2*z3)/D). set (c1 := (x2*y3 - y2*x3)/D).
  set (a2 := (y3*z1 - z3*y1)/D). set (b2 := (z3*x1 - x3*z1)/D). set (c2 := (x3*y1 - y3*x1)/D).
  set (a3 := (y1*z2 - z1*y2)/D). set (b3 := (z1*x2 - x1*z2)/D). set (c3 := (x1*y2 - y1*x2)/D).
  exists ((Rabs a1 + Rabs b1 + Rabs c1) + (Rabs a2 + Rabs b2 + Rabs c2) + (Rabs a3 + Rabs b3 + Rabs c3)).
  pose proof (Rabs_pos a1). pose proof (Rabs_pos b1). pose proof (Rabs_pos c1).
  pose proof (Rabs_pos a2). pose proof (Rabs_pos b2). pose proof (Rabs_pos c2).
  pose proof (Rabs_pos a3). pose proof (Rabs_pos b3). pose proof (Rabs_pos c3).
  split; [lra|]. intros [[k1 k2] k3].
  set (v := (k1 * x1 + k2 * x2 + k3 * x3, k1 * y1 + k2 * y2 + k3 * y3, k1 * z1 + k2 * z2 + k3 * z3)).
  pose proof (lin_bound v a1 b1 c1) as L1. pose proof (lin_bound v a2 b2 c2) as L2. pose proof (lin_bound v a3 b3 c3) as L3.
  assert (Hv : 0 <= vnorm v) by (unfold v, vnorm; apply sqrt_pos).
  unfold v in L1, L2, L3. fold v in L1, L2, L3.
  set (n := vnorm v) in *.
  match type of L1 with Rabs ?e <= _ => replace e with k1 in L1 by (unfold a1, b1, c1, D; field; exact HB) end.
  match type of L2 with Rabs ?e <= _ => replace e with k2 in L2 by (unfold a2, b2, c2, D; field; exact HB) end.
  match type of L3 with Rabs ?e <= _ => replace e with k3 in L3 by (unfold a3, b3, c3, D; field; exact HB) end.
  assert (forall p q, 0 <= p -> 0 <= q -> p * n <= (p + q) * n) by (intros; nra).
  repeat split.
  - eapply Rle_trans; [exact L1|]. match goal with |- ?p * n <= ?r * n => assert (0 <= r - p) by lra end. nra.
  - eapply Rle_trans; [exact L2|]. match goal with |- ?p * n <= ?r * n => assert (0 <= r - p) by lra end. nra.
  - eapply Rle_trans; [exact L3|]. match goal with |- ?p * n <= ?r * n => assert (0 <= r - p) by lra end. nra.
Qed.

Variable k0 : v3.

Definition zbox (N : nat) : list Z := map (fun i => (Z.of_nat i - Z.of_nat N)%Z) (seq 0 (2*N+1)).
Lemma zbox_in N z : (Z.abs z <= Z.of_nat N)%Z -> In z (zbox N).
Proof.
  intros H. unfold zbox. apply in_map_iff. exists (Z.to_nat (z + Z.of_nat N)). split; [lia|]. apply in_seq. lia.
Qed.
Definition box (N : nat) : list (Z*Z*Z) :=
  flat_map (fun a => flat_map (fun b => map (fun c => (a,b,c)) (zbox N)) (zbox N)) (zbox N).
Lemma box_in N a b c : (Z.abs a <= Z.of_nat N)%Z -> (Z.abs b <= Z.of_nat N)%Z -> (Z.abs c <= Z.of_nat N)%Z -> In (a,b,c) (box N).
Proof.
  intros Ha Hb Hc. unfold box. apply in_flat_map. exists a. split; [apply zbox_in; exact Ha|].
  apply in_flat_map. exists b. split; [apply zbox_in; exact Hb|]. apply in_map_iff. exists c. split; [reflexivity|apply zbox_in; exact Hc].
Qed.

Definition shift (z : Z*Z*Z) : v3 := let '(a,b,c) := z in v3add k0 (IZR a, IZR b, IZR c).

Lemma box_exists : exists N, forall a b c,
  bz_n B (shift (a,b,c)) <= bz_n B k0 -> In (a,b,c) (box N).
Proof.
  destruct coord_bound as (C & HC & Hk).
  destruct k0 as [[x y] z] eqn:Ek.
  set (M := C * bz_n B (x,y,z) + Rabs x + Rabs y + Rabs z).
  exists (Z.to_nat (up M)). intros a b c H.
  pose proof (Hk (shift (a,b,c))) as G. unfold shift in *. rewrite Ek in *. unfold v3add in *.
  destruct G as (G1 & G2 & G3).
  assert (Hn : 0 <= bz_n B (x + IZR a, y + IZR b, z + IZR c)).
  { unfold bz_n, vnorm. destruct (recip2cart B _) as [[? ?] ?]. apply sqrt_pos. }
  assert (HM : C * bz_n B (x + IZR a, y + IZR b, z + IZR c) <= C * bz_n B (x,y,z)) by (apply Rmult_le_compat_l; assumption).
  pose proof (Rabs_pos x). pose proof (Rabs_pos y). pose proof (Rabs_pos z).
  assert (T : forall t w, Rabs (t + IZR w) <= C * bz_n B (x,y,z) -> Rabs t <= Rabs x + Rabs y + Rabs z ->
     (Z.abs w <= Z.of_nat (Z.to_nat (up M)))%Z).
  { intros t w Hw1 Hw2. assert (E : Rabs (IZR w) <= M).
    { replace (IZR w) with ((t + IZR w) + - t) by ring. eapply Rle_trans; [apply Rabs_triang|]. rewrite Rabs_Ropp.
      unfold M. lra. }
    rewrite <- abs_IZR in E. destruct (archimed M) as [A1 _].
    assert (Hu : IZR (Z.abs w) < IZR (up M)) by lra. apply lt_IZR in Hu. lia. }
  apply box_in.
  - apply (T x); lra.
  - apply (T y); lra.
  - apply (T z); lra.
Qed.

Definition measure (N : nat) (cur : v3) : nat :=
  length (filter (fun z => Rltb (bz_n B (shift z)) (bz_n B cur)) (box N)).

Lemma filter_length_le {A} (f g : A -> bool) l : (forall a, f a = true -> g a = true) -> (length (filter f l) <= length (filter g l))%nat.
Proof.
  intros H. induction l as [|a l IH]; cbn; [lia|].
  destruct (f a) eqn:E; [rewrite (H _ E); cbn; lia|]. destruct (g a); cbn; lia.
Qed.
Lemma filter_length_lt {A} (f g : A -> bool) l a : (forall a, f a = true -> g a = true) -> In a l -> f a = false -> g a = true ->
  (length (filter f l) < length (filter g l))%nat.
Proof.
  intros H. induction l as [|b l IH]; cbn; [intros []|].
  intros [->|Hin] Hf Hg.
  - rewrite Hf, Hg. cbn. pose proof (filter_length_le f g l H). lia.
  - specialize (IH Hin Hf Hg). destruct (f b) eqn:E; [rewrite (H _ E); cbn; lia|]. destruct (g b); cbn; lia.
Qed.

Variable N : nat.
Hypothesis HN : forall a b c, bz_n B (shift (a,b,c)) <= bz_n B k0 -> In (a,b,c) (box N).

Definition good (cur : v3) : Prop := equivalent k0 cur /\ bz_n B cur <= bz_n B k0.

Lemma measure_lt cur cur' : good cur -> equivalent k0 cur' -> bz_n B cur' < bz_n B cur ->
  good cur' /\ (measure N cur' < measure N cur)%nat.
Proof.
  intros [_ Hc] (a & b & c & ->) Hlt. split; [split; [exists a, b, c; reflexivity|lra]|].
  unfold measure. apply (filter_length_lt _ _ _ (a,b,c)).
  - intros z Hz. destruct (Rltb_spec (bz_n B (shift z)) (bz_n B (v3add k0 (IZR a, IZR b, IZR c)))); [|discriminate].
    destruct (Rltb_spec (bz_n B (shift z)) (bz_n B cur)); [reflexivity|lra].
  - apply HN. unfold shift. lra.
  - unfold shift. match goal with |- Rltb ?x ?x = false => destruct (Rltb_spec x x); [lra|reflexivity] end.
  - unfold shift. destruct (Rltb_spec (bz_n B (v3add k0 (IZR a, IZR b, IZR c))) (bz_n B cur)); [reflexivity|contradiction].
Qed.

Definition intvec (v : v3) : Prop := exists a b c : Z, v = (IZR a, IZR b, IZR c).
Lemma equiv_add k v : equivalent k0 k -> intvec v -> equivalent k0 (v3add k v).
Proof.
  intros (a & b & c & ->) (d & e & f & ->). exists (a+d)%Z, (b+e)%Z, (c+f)%Z.
  rewrite !plus_IZR. destruct k0 as [[x y] z]. unfold v3add. f_equal; [f_equal|]; ring.
Qed.
Lemma intvec_neg v : intvec v -> intvec (v3neg v).
Proof.
  intros (a & b & c & ->). exists (-a)%Z, (-b)%Z, (-c)%Z. rewrite !opp_IZR. unfold v3neg, v3sub. f_equal; [f_equal|]; ring.
Qed.
Lemma v3add_neg k v : v3add k (v3neg v) = v3sub k v.
Proof. destruct k as [[x y] z], v as [[a b] c]. unfold v3add, v3neg, v3sub. f_equal; [f_equal|]; ring. Qed.

(** Each search either stays put (and is then not improvable) or strictly improves. *)
Definition progress (k k' : v3) (P : Prop) : Prop :=
  good k' /\ (measure N k' <= measure N k)%nat /\ ((k' = k /\ P) \/ bz_n B k' < bz_n B k).

Lemma try_plus_ok v : intvec v -> forall fuel k, good k -> (measure N k < fuel)%nat ->
  exists k', try_plus B fuel k v = Some k' /\ progress k k' (bz_n B k <= bz_n B (v3add k v)).
Proof.
  intros Hv. induction fuel as [|f IH]; intros k Hk Hf; [lia|].
  cbn [try_plus]. destruct (Rltb_spec (bz_n B (v3add k v)) (bz_n B k)) as [Hlt|Hge].
  - destruct (measure_lt k (v3add k v) Hk (equiv_add k v (proj1 Hk) Hv) Hlt) as [Hg Hm].
    destruct (IH _ Hg ltac:(lia)) as (k' & E & G & M' & D). exists k'. split; [exact E|].
    split; [exact G|]. split; [lia|]. right. destruct D as [[-> _]|D]; lra.
  - exists k. split; [reflexivity|]. split; [exact Hk|]. split; [lia|]. left. split; [reflexivity|lra].
Qed.

Lemma try_both_ok v fuel k : intvec v -> good k -> (measure N k < fuel)%nat ->
  exists k', try_both B fuel k v = Some k' /\
    progress k k' (bz_n B k <= bz_n B (v3add k v) /\ bz_n B k <= bz_n B (v3sub k v)).
Proof.
  intros Hv Hk Hf. unfold try_both.
  destruct (try_plus_ok v Hv fuel k Hk Hf) as (k1 & E1 & G1 & M1 & D1). rewrite E1.
  destruct (try_plus_ok (v3neg v) (intvec_neg v Hv) fuel k1 G1 ltac:(lia)) as (k2 & E2 & G2 & M2 & D2).
  exists k2. split; [exact E2|]. split; [exact G2|]. split; [lia|].
  rewrite v3add_neg in D2.
  destruct D1 as [[-> P1]|D1]; destruct D2 as [[-> P2]|D2]; [left; auto|right; lra|right; lra|right; lra].
Qed.

Lemma try_list_ok vs fuel k : (forall v, In v vs -> intvec v) -> good k -> (measure N k < fuel)%nat ->
  exists k', fold_left (fun o v => match o with None => None | Some k => try_both B fuel k v end) vs (Some k) = Some k' /\
    progress k k' (unimprovable B vs k).
Proof.
  revert k. induction vs as [|v vs IH]; intros k Hv Hk Hf.
  - exists k. split; [reflexivity|]. split; [exact Hk|]. split; [lia|]. left. split; [reflexivity|]. intros w [].
  - cbn [fold_left].
    destruct (try_both_ok v fuel k (Hv v (or_introl eq_refl)) Hk Hf) as (k1 & E1 & G1 & M1 & D1). rewrite E1.
    destruct (IH k1 (fun w H => Hv w (or_intror H)) G1 ltac:(lia)) as (k2 & E2 & G2 & M2 & D2).
    exists k2. split; [exact E2|]. split; [exact G2|]. split; [lia|].
    destruct D1 as [[-> P1]|D1]; destruct D2 as [[-> P2]|D2]; [left|right; lra|right; lra|right; lra].
    split; [reflexivity|]. intros w [<-|Hw]; [exact P1|apply P2; exact Hw].
Qed.

Lemma trylist_int v : In v trylist -> intvec v.
Proof.
  intros H. unfold trylist in H. cbn [In] in H.
  repeat (destruct H as [<-|H]; [eexists _, _, _; reflexivity|]). destruct H.
Qed.

Lemma try_all_repeat_ok fuel k : good k -> (measure N k < fuel)%nat ->
  exists k', try_all_repeat B fuel k = Some k' /\ good k' /\ bz_n B k' <= bz_n B k /\ unimprovable B trylist k'.
Proof.
  revert k. induction fuel as [|f IH]; intros k Hk Hf; [lia|].
  cbn [try_all_repeat]. unfold try_all.
  destruct (try_list_ok trylist (S f) k trylist_int Hk Hf) as (k1 & E1 & G1 & M1 & D1). rewrite E1.
  destruct (Rltb_spec (bz_n B k1) (bz_n B k)) as [Hlt|Hge].
  - destruct (measure_lt k k1 Hk (proj1 G1) Hlt) as [_ Hm].
    destruct (IH k1 G1 ltac:(lia)) as (k' & E & G & L & U). exists k'. split; [exact E|]. split; [exact G|]. split; [lra|exact U].
  - destruct D1 as [[-> P]|D]; [|lra]. exists k. split; [reflexivity|]. split; [exact Hk|]. split; [lra|exact P].
Qed.
End BZ.

Local Open Scope R_scope.
Lemma fbz_ok B rnd k : independent B ->
  exists fuel0, forall fuel, (fuel0 <= fuel)%nat ->
    exists k', first_brillouin_zone B rnd fuel k = Some k' /\
      equivalent k k' /\ bz_n B k' <= bz_n B k /\ unimprovable B trylist k'.
Proof.
  intros HB. destruct (box_exists B HB k) as (N & HN).
  exists (S (measure B k N k)). intros fuel Hf.
  assert (Gk : good B k k).
  { split; [|lra]. exists 0%Z, 0%Z, 0%Z. destruct k as [[x y] z]. unfold v3add. f_equal; [f_equal|]; ring. }
  unfold first_brillouin_zone. destruct k as [[x y] z] eqn:Ek. rewrite <- Ek in *.
  set (k0 := v3sub k (IZR (rnd x), IZR (rnd y), IZR (rnd z))).
  destruct (Rltb_spec (bz_n B k0) (bz_n B k)) as [Hlt|Hge].
  - assert (He : equivalent k k0).
    { exists (- rnd x)%Z, (- rnd y)%Z, (- rnd z)%Z. unfold k0. rewrite Ek, !opp_IZR. unfold v3add, v3sub. reflexivity. }
    destruct (measure_lt B k N HN k k0 Gk He Hlt) as [G M].
    destruct (try_all_repeat_ok B k N HN fuel k0 G ltac:(lia)) as (k' & E & [G1 G2] & L & U).
    exists k'. split; [exact E|]. split; [exact G1|]. split; [lra|exact U].
  - destruct (try_all_repeat_ok B k N HN fuel k Gk ltac:(lia)) as (k' & E & [G1 G2] & L & U).
    exists k'. split; [exact E|]. split; [exact G1|]. split; [lra|exact U].
Qed.

(** a k that nothing improves is returned unchanged *)
Lemma try_list_stay B vs f k : unimprovable B vs k ->
  fold_left (fun o v => match o with None => None | Some k => try_both B (S f) k v end) vs (Some k) = Some k.
Proof.
  induction vs as [|v vs IH]; intros H; [reflexivity|]. cbn [fold_left].
  destruct (H v (or_introl eq_refl)) as [H1 H2].
  assert (E : try_both B (S f) k v = Some k).
  { unfold try_both. cbn [try_plus]. destruct (Rltb_spec (bz_n B (v3add k v)) (bz_n B k)); [lra|].
    rewrite v3add_neg. destruct (Rltb_spec (bz_n B (v3sub k v)) (bz_n B k)); [lra|]. reflexivity. }
  rewrite E. apply IH. intros w Hw. apply H. right. exact Hw.
Qed.
Lemma fbz_stay B rnd f k : unimprovable B trylist k ->
  (let '(x, y, z) := k in bz_n B k <= bz_n B (v3sub k (IZR (rnd x), IZR (rnd y), IZR (rnd z)))) ->
  first_brillouin_zone B rnd (S f) k = Some k.
Proof.
  intros HU HR. unfold first_brillouin_zone. destruct k as [[x y] z] eqn:Ek. rewrite <- Ek in *.
  destruct (Rltb_spec (bz_n B (v3sub k (IZR (rnd x), IZR (rnd y), IZR (rnd z)))) (bz_n B k)); [lra|].
  cbn [try_all_repeat]. unfold try_all. rewrite try_list_stay by exact HU.
  destruct (Rltb_spec (bz_n B k) (bz_n B k)); [lra|reflexivity].
Qed.

(** witness: skewed reciprocal lattice b1=(1,0,0), b2=(2.2,0.1,0), b3=(0,0,1), k=(-1.16,0.6,0) *)
Definition skew : basis := ((1,0,0), (22/10,1/10,0), (0,0,1)).
Definition kskew : v3 := (-116/100, 6/10, 0).

Lemma norm_le B k k' : (let '(x,y,z) := recip2cart B k in let '(x',y',z') := recip2cart B k' in x*x+y*y+z*z <= x'*x'+y'*y'+z'*z') ->
  bz_n B k <= bz_n B k'.
Proof.
  unfold bz_n, vnorm. destruct (recip2cart B k) as [[x y] z], (recip2cart B k') as [[x' y'] z']. apply sqrt_le_1_alt.
Qed.
Lemma norm_lt B k k' : (let '(x,y,z) := recip2cart B k in let '(x',y',z') := recip2cart B k' in x*x+y*y+z*z < x'*x'+y'*y'+z'*z') ->
  bz_n B k < bz_n B k'.
Proof.
  unfold bz_n, vnorm. destruct (recip2cart B k) as [[x y] z], (recip2cart B k') as [[x' y'] z'].
  intros H. apply sqrt_lt_1_alt. split; [nra|exact H].
Qed.

Lemma skew_unimprovable : unimprovable skew trylist kskew.
Proof.
  intros v H. unfold trylist in H. cbn [In] in H.
  repeat (destruct H as [<-|H]; [split; apply norm_le; unfold skew, kskew, recip2cart, v3add, v3sub; lra|]). destruct H.
Qed.

Lemma skew_not_bz : ~ in_first_bz skew kskew.
Proof.
  intros H. specialize (H (v3add kskew (IZR 2, IZR (-1), IZR 0)) ltac:(exists 2%Z, (-1)%Z, 0%Z; reflexivity)).
  assert (bz_n skew (v3add kskew (IZR 2, IZR (-1), IZR 0)) < bz_n skew kskew).
  { apply norm_lt. unfold skew, kskew, recip2cart, v3add. lra. }
  lra.
Qed.
