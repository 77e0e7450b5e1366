(** The whole of solve_kpoint. *)
From Coq Require Import List ZArith Reals Bool Arith Lia Lra.
From Verif Require Import Base RC Loops M_Evect M_Lin M_Eig M_Kpt S_Evect S_Eig S_Kpt L_Evect L_Evect2 L_Evect3 L_Mat L_Eig L_Eig2 L_Eig4 L_Kpt1 L_Kpt2 L_Kpt3.
Import ListNotations.
Local Open Scope R_scope.
Local Open Scope Z_scope.
Add Ring Cring_k4 : C_ring_theory.

Lemma for_cases {S} (P : Z -> S -> Prop) (f : Z -> S -> outcome S) n : forall i0 s, P i0 s ->
  (forall i s, i0 <= i < i0 + Z.of_nat n -> P i s -> (exists s', f i s = Val s' /\ P (i + 1) s') \/ f i s = NonFin) ->
  (exists s', for_ n i0 f s = Val s' /\ P (i0 + Z.of_nat n) s') \/ for_ n i0 f s = NonFin.
Proof.
  induction n as [|n IH]; intros i0 s H0 Hs.
  - left. exists s. split; [reflexivity|]. replace (i0 + Z.of_nat 0) with i0 by lia. exact H0.
  - cbn [for_]. destruct (Hs i0 s ltac:(lia) H0) as [(s1 & -> & H1)| ->]; [|right; reflexivity]. cbn [bind].
    destruct (IH (i0 + 1) s1 H1) as [(s2 & -> & H2)| ->]; [intros; apply Hs; auto; lia| |right; reflexivity].
    left. exists s2. split; [reflexivity|]. replace (i0 + Z.of_nat (Datatypes.S n)) with (i0 + 1 + Z.of_nat n) by lia. exact H2.
Qed.

Lemma freqs_ok (neg : bool) num (ev : list R) : length ev = num ->
  let r := forZ 0 (Z.of_nat num) (fun i f => let! v := rd ev i in let! w := (if neg then Val v else fsqrt v) in wr f i w) (map (fun _ => 0%R) ev) in
  (exists f, r = Val f /\ length f = num /\ forall i, (i < num)%nat -> freq_of neg (nth i f 0%R) (nth i ev 0%R)) \/ r = NonFin.
Proof.
  intros L. cbv zeta. unfold forZ. rewrite Z.sub_0_r, Nat2Z.id.
  destruct (for_cases (fun k d => length d = num /\ forall i, (Z.of_nat i < k)%Z -> (i < num)%nat -> freq_of neg (nth i d 0%R) (nth i ev 0%R))
    (fun i f => let! v := rd ev i in let! w := (if neg then Val v else fsqrt v) in wr f i w) num 0 (map (fun _ => 0%R) ev)) as [(f & E & Lf & Q)|E].
  - split; [rewrite map_length; exact L|]. intros; lia.
  - intros i d Hi (Ld & Q). rewrite (L_Eig4.rd_nth ev i 0%R) by lia. cbn [bind].
    assert (Wr : forall w, freq_of neg w (nth (Z.to_nat i) ev 0%R) -> exists s', wr d i w = Val s' /\ length s' = num /\ forall i0, (Z.of_nat i0 < i + 1)%Z -> (i0 < num)%nat -> freq_of neg (nth i0 s' 0%R) (nth i0 ev 0%R)).
    { intros w Hw. destruct (wr d i w) as [d1| | |] eqn:W; try (rewrite wr_in in W by lia; discriminate). exists d1. split; [reflexivity|]. pose proof (wr_length _ _ _ _ W) as L1. split; [congruence|].
      intros j Hj Hn. pose proof (rd_wr _ _ _ (Z.of_nat j) _ W) as RW. rewrite (L_Eig4.rd_nth d1 (Z.of_nat j) 0%R), (L_Eig4.rd_nth d (Z.of_nat j) 0%R), Nat2Z.id in RW by lia.
      destruct (Z.eqb_spec (Z.of_nat j) i) as [<-|N]; injection RW as ->; [rewrite Nat2Z.id in Hw; exact Hw|apply Q; lia]. }
    destruct neg.
    + left. cbn [bind]. apply Wr. reflexivity.
    + unfold fsqrt. destruct (Rltb_spec (nth (Z.to_nat i) ev 0%R) 0) as [Lt|Ge]; [right; reflexivity|]. left. cbn [bind]. apply Wr. split; [apply sqrt_pos|apply sqrt_sqrt; lra].
  - left. exists f. split; [exact E|]. split; [exact Lf|]. intros i Hi. apply Q; lia.
  - right. exact E.
Qed.

Lemma zeros_ok b (ev : list R) : (b <= length ev)%nat ->
  exists ev', forZ 0 (Z.of_nat b) (fun i d => wr d i 0%R) ev = Val ev' /\ length ev' = length ev /\ forall i, nth i ev' 0%R = if (i <? b)%nat then 0%R else nth i ev 0%R.
Proof.
  intros Hb. destruct (forZ_inv (fun k d => length d = length ev /\ forall i, nth i d 0%R = if (Z.of_nat i <? k) then 0%R else nth i ev 0%R) (fun i d => wr d i 0%R) 0 (Z.of_nat b) ev ltac:(lia)) as (d & E & L & Q).
  - split; [reflexivity|]. intros i. destruct (Z.ltb_spec (Z.of_nat i) 0); [lia|reflexivity].
  - intros k d Hk (L & Q). destruct (wr d k 0%R) as [d1| | |] eqn:W; try (rewrite wr_in in W by lia; discriminate). exists d1. split; [reflexivity|]. pose proof (wr_length _ _ _ _ W) as L1. split; [congruence|].
    intros i. destruct (Nat.lt_ge_cases i (length ev)) as [Hi|Hi].
    + pose proof (rd_wr _ _ _ (Z.of_nat i) _ W) as RW. rewrite (L_Eig4.rd_nth d1 (Z.of_nat i) 0%R), (L_Eig4.rd_nth d (Z.of_nat i) 0%R), Nat2Z.id in RW by lia. rewrite Q in RW.
      destruct (Z.eqb_spec (Z.of_nat i) k), (Z.ltb_spec (Z.of_nat i) (k + 1)), (Z.ltb_spec (Z.of_nat i) k); try lia; injection RW as ->; reflexivity.
    + destruct (Z.ltb_spec (Z.of_nat i) (k + 1)); [lia|]. rewrite !nth_overflow by lia. reflexivity.
  - exists d. split; [exact E|]. split; [exact L|]. intros i. rewrite Q. destruct (Z.ltb_spec (Z.of_nat i) (Z.of_nat b)), (Nat.ltb_spec i b); try lia; reflexivity.
Qed.

Section Run.
Variables (n num bs b0 : nat) (parity_c : emat C -> outcome (emat C)) (zero_k same neg : bool) (muinv : emat C -> emat C -> outcome (emat C)).
Variable solver : (emat C -> outcome (emat C)) -> emat C -> option (outcome (emat C * list R)).
Variables (A B P0 : mat) (parity : Z) (S2 : list C) (ev : list R) (H Hblock : emat C) (BY : option (emat C)).
Variable good : nat -> mat -> mat -> (nat -> R) -> Prop.
Hypothesis Ok : kpoint_ok n num parity_c zero_k muinv A B P0.
Hypothesis Ar : arrays n num bs b0 B same S2 ev H Hblock BY.
Hypothesis Hb0 : Z.of_nat b0 = if zero_k then const_count parity (Z.of_nat num) else 0.
Hypothesis Hn2 : zero_k = true -> (2 <= n)%nat.
Hypothesis Fin : solver_finds good n bs solver.
Let m := (num - b0)%nat.
Variable Inv : nat -> mat -> (nat -> R) -> Prop.
Hypothesis Inv_0 : forall M w, Inv 0 M w.
Hypothesis Inv_orth : forall d M w, Inv d M w -> satisfies n P0 (slice 0 d M) /\ form n B (slice 0 d M) (slice 0 d M) = mid d.
Hypothesis Inv_ext : forall M w w', (forall i, (i < m)%nat -> w i = w' i) -> Inv m M w -> Inv m M w'.
Hypothesis Inv_step : forall k q M w M' e w', let d := (k * bs)%nat in (1 <= q <= bs)%nat -> (d + q <= m)%nat -> mdim n m M -> mdim n m M' -> Inv d M w -> slice 0 d M' = slice 0 d M ->
  good q (dproj n d B P0 (slice 0 d M)) (slice d q M') e -> (forall j, (j < q)%nat -> w' (d + j)%nat = e j) -> (forall i, (i < d)%nat -> w' i = w i) -> Inv (d + q) M' w'.

Lemma kpoint_run fuel : (num <= fuel)%nat ->
  match solve_kpoint parity_c muinv solver fuel zero_k same neg parity (Z.of_nat num) S2 ev H Hblock BY with
  | Some (Val (H', f)) => exists M w, fields n num H' M /\ ealloc H' = Z.of_nat num /\ length f = num /\ (forall i, (i < num)%nat -> freq_of neg (nth i f 0%R) (w i)) /\
      (forall i, (i < b0)%nat -> w i = 0%R /\ forall g, (g < n)%nat -> M g i = if Z.of_nat g =? const_row parity (Z.of_nat i) then C1 else C0) /\
      Inv m (slice b0 m M) (fun i => w (b0 + i)%nat)
  | Some UB => ~ solver_safe n bs solver
  | _ => True
  end.
Proof.
  intros Hf. destruct Ar as ((M0 & HH) & AH & Hbs & Wb & Nb & Ab & Hs & HBY & HS & Lv). pose proof HH as (NH & PH & WH & _).
  assert (Hb0n : (b0 <= num)%nat) by (destruct zero_k; [pose proof (const_count_range parity (Z.of_nat num))|]; lia).
  unfold solve_kpoint. rewrite num_const_spec, PH. rewrite <- Hb0.
  assert (Beg : exists H1 M1, (if zero_k then zero_k_begin H (Z.of_nat b0) else Val H) = Val H1 /\ fields n m H1 M1 /\ ealloc H1 = Z.of_nat num).
  { destruct zero_k.
    - destruct (begin_ok H (Z.of_nat b0) WH ltac:(lia)) as (H1 & E & W1 & N1 & P1 & A1 & Q).
      exists H1, (slice b0 m M0). split; [exact E|]. split; [|congruence]. apply fields_of; [exact W1|congruence|unfold m; lia|apply (slice_dim n num); apply (fields_dim _ _ _ _ HH)|].
      intros i j Hi Hj. rewrite (ent_entC _ _ _ _ _ _ (Q (Z.of_nat i) (Z.of_nat j) ltac:(lia) ltac:(unfold m in *; lia))). rewrite <- Nat2Z.inj_add. rewrite (fields_at n num H M0) by (auto; unfold m in *; lia).
      unfold slice. destruct (Nat.ltb_spec j m); [|lia]. f_equal. lia.
    - assert (b0 = 0%nat) by lia. exists H, M0. unfold m. replace (num - b0)%nat with num by lia. auto. }
  destruct Beg as (H1 & M1 & E1 & F1 & A1). rewrite E1. rewrite Ab.
  destruct (solver_blocks_ok fuel (Z.of_nat b0) (Z.of_nat num) (Z.of_nat bs) ltac:(lia) ltac:(lia) ltac:(lia)) as (blocks & Eb & _). rewrite Eb.
  destruct (solve_loop _ _ _ _ _ _ _ _ _) as [r|] eqn:El; [|exact I].
  destruct (loop_ok n num bs b0 parity_c zero_k same muinv solver A B P0 S2 good Ok Hb0n Hbs HS Hs Fin Inv Inv_orth Inv_step fuel 0 {| k_H := H1; k_blk := Hblock; k_BY := BY; k_ev := ev |} M1 blocks r)
    as [(s & M2 & -> & St & HI)|(Nv & Ns)]; try assumption.
  - unfold st_ok. cbn [k_H k_blk k_BY k_ev]. split; [exact F1|]. split; [exact A1|]. split; [exact Wb|]. split; [exact Nb|]. split; [exact Ab|]. split; [exact HBY|exact Lv].
  - cbn. lia.
  - apply Inv_0.
  - cbn [Nat.mul]. rewrite Nat.add_0_r. exact Eb.
  - cbn [bind]. destruct St as (F2 & A2 & _ & _ & _ & _ & L2).
    assert (Fi : exists H3 M3 ev3, (if zero_k then let! H2 := zero_k_end (k_H s) (Z.of_nat b0) in let! H3 := set_const_bands C0 C1 H2 parity 0 in let! ev := forZ 0 (Z.of_nat b0) (fun i ev => wr ev i 0%R) (k_ev s) in Val (H3, ev) else Val (k_H s, k_ev s)) = Val (H3, ev3) /\
      fields n num H3 M3 /\ ealloc H3 = Z.of_nat num /\ length ev3 = num /\ slice b0 m M3 = M2 /\ (forall i, (b0 <= i)%nat -> nth i ev3 0%R = nth i (k_ev s) 0%R) /\
      (forall i, (i < b0)%nat -> nth i ev3 0%R = 0%R /\ forall g, (g < n)%nat -> M3 g i = if Z.of_nat g =? const_row parity (Z.of_nat i) then C1 else C0)).
    { destruct zero_k.
      - pose proof F2 as (N2 & P2 & W2 & _).
        destruct (end_ok (k_H s) (Z.of_nat b0) W2 ltac:(lia)) as (Ha & Ea & Wa & Na & Pa & Aa & Qa); [unfold m in *; lia|]. rewrite Ea. cbn [bind].
        destruct (set_const_ok C0 C1 Ha parity 0 Wa) as (Hc & Ec & Wc & Nc & Pc & Ac & Qc & Rc); [intros _; specialize (Hn2 eq_refl); lia|]. rewrite Ec. cbn [bind].
        destruct (zeros_ok b0 (k_ev s) ltac:(lia)) as (ev3 & Ev & Lv3 & Qv). rewrite Ev. cbn [bind].
        assert (Pn : ep Ha = Z.of_nat num) by congruence.
        set (M3 := fun g i => if ((g <? n) && (i <? num))%nat then entC Hc (Z.of_nat g) (Z.of_nat i) else C0).
        exists Hc, M3, ev3. split; [reflexivity|]. split; [|split; [congruence|split; [congruence|split; [|split]]]].
        + apply fields_of; [exact Wc|congruence|congruence|intros i j Hij; unfold M3; destruct (Nat.ltb_spec i n), (Nat.ltb_spec j num); cbn [andb]; try reflexivity; lia|]. intros i j Hi Hj. unfold M3. destruct (Nat.ltb_spec i n), (Nat.ltb_spec j num); try lia. reflexivity.
        + apply mext; intros g j. unfold slice. destruct (Nat.ltb_spec j m) as [Hj|Hj]; [|symmetry; apply (fields_dim _ _ _ _ F2); fold m; lia].
          unfold M3. destruct (Nat.ltb_spec g n) as [Hg|Hg]; [|symmetry; apply (fields_dim _ _ _ _ F2); lia]. destruct (Nat.ltb_spec (b0 + j) num); [|unfold m in *; lia]. cbn [andb].
          rewrite (ent_entC _ _ _ _ _ _ (Rc (Z.of_nat g) (Z.of_nat (b0 + j)) ltac:(lia) ltac:(rewrite Pn, <- Hb0; lia))).
          replace (Z.of_nat (b0 + j)) with (Z.of_nat j + Z.of_nat b0) by lia. rewrite (ent_entC _ _ _ _ _ _ (Qa (Z.of_nat g) (Z.of_nat j) ltac:(lia) ltac:(unfold m in *; lia))). apply (fields_at n m); auto.
        + intros i Hi. rewrite Qv. destruct (Nat.ltb_spec i b0); [lia|reflexivity].
        + intros i Hi. rewrite Qv. destruct (Nat.ltb_spec i b0); [|lia]. split; [reflexivity|]. intros g Hg. unfold M3. destruct (Nat.ltb_spec g n), (Nat.ltb_spec i num); try lia. cbn [andb].
          unfold entC, gets. pose proof (Qc (Z.of_nat g) (Z.of_nat i) ltac:(lia) ltac:(rewrite Pn, <- Hb0; lia)) as Q. unfold ent in Q. rewrite Q. cbn [Z.leb Z.compare andb]. reflexivity.
      - assert (b0 = 0%nat) by lia. exists (k_H s), M2, (k_ev s). split; [reflexivity|]. assert (Em : m = num) by (unfold m; lia).
        split; [rewrite <- Em; exact F2|]. split; [exact A2|]. split; [exact L2|]. split; [|split; [reflexivity|intros; lia]]. replace b0 with 0%nat by lia. apply (slice_all n m). apply (fields_dim _ _ _ _ F2). }
    destruct Fi as (H3 & M3 & ev3 & E3 & F3 & A3 & L3 & Sl & Ve & Cst). rewrite E3. cbn [bind].
    destruct (freqs_ok neg num ev3 L3) as [(f & -> & Lf & Qf)| ->]; cbn [bind]; [|exact I].
    exists M3, (fun i => nth i ev3 0%R). split; [exact F3|]. split; [exact A3|]. split; [exact Lf|]. split; [exact Qf|]. split; [exact Cst|].
    rewrite Sl. apply (Inv_ext M2 (fun i => nth (b0 + i) (k_ev s) 0%R)); [intros i Hi; symmetry; apply Ve; lia|exact HI].
  - destruct r as [s| | |]; cbn [bind]; try exact I; [exfalso; apply (Nv s eq_refl)|]. intros Sf. apply (Ns Sf eq_refl).
Qed.
End Run.
