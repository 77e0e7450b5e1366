(** Invariant of the line search. *)
From Coq Require Import List ZArith Reals Bool Lia Lra Psatz.
From Verif Require Import Base RC M_Lin S_Lin L_Lin.
Import ListNotations.
Local Open Scope R_scope.

Definition valid (p : lpar) : Prop := ginit p < 0 /\ 0 <= ftol p /\ 0 <= gtol p /\ 0 <= xtol p /\ 0 <= stpmin p <= stpmax p.
Definition free (p : lpar) (v : lsave) (x : R) : Prop :=
  stage v = 1%Z /\ gx v < 0 /\ stx v <= stmin v <= stmax v /\ (x = stx v \/ stx v < x < stmax v) /\ in_bounds p x /\ fx v <= ftest p (stx v).
Definition bracketed (p : lpar) (v : lsave) (x : R) : Prop :=
  gx v * (sty v - stx v) < 0 /\ stmin v = MIN (stx v) (sty v) /\ stmax v = MAX (stx v) (sty v) /\
  (x = stx v \/ (stmin v < x < stmax v /\ xtol p * stmax v < stmax v - stmin v /\ in_bounds p x)) /\
  (stage v = 1%Z -> fx v <= ftest p (stx v)) /\ (stage v <> 1%Z -> fx v <= ftest p (MAX (stx v) (sty v))).
Definition Inv (p : lpar) (v : lsave) (x : R) : Prop :=
  (stx v = 0 \/ in_bounds p (stx v)) /\ (sty v = 0 \/ in_bounds p (sty v)) /\ if brackt v then bracketed p v x else free p v x.

Lemma start_inv p x v : dcsrch_start p x = Some v -> valid p /\ Inv p v x /\ stx v = 0 /\ fx v = finit p /\ gx v = ginit p /\ sty v = 0 /\ fy v = finit p /\ gy v = ginit p.
Proof.
  unfold dcsrch_start. intros E.
  destruct (Rltb_spec x (stpmin p)); [discriminate|]. destruct (Rltb_spec (stpmax p) x); [discriminate|]. destruct (Rleb_spec 0 (ginit p)); [discriminate|]. destruct (Rltb_spec (ftol p) 0); [discriminate|].
  destruct (Rltb_spec (gtol p) 0); [discriminate|]. destruct (Rltb_spec (xtol p) 0); [discriminate|]. destruct (Rltb_spec (stpmin p) 0); [discriminate|]. destruct (Rltb_spec (stpmax p) (stpmin p)); [discriminate|].
  cbn [orb] in E. injection E as <-. cbn [stx sty fx gx fy gy]. split; [unfold valid; lra|]. split; [|auto 8]. unfold Inv, free, in_bounds, ftest. cbn [brackt stage stx sty fx gx stmin stmax].
  split; [auto|]. split; [auto|]. split; [reflexivity|]. split; [lra|]. split; [lra|]. split; [|split; lra]. destruct (Req_dec x 0) as [->|]; [left; reflexivity|right; lra].
Qed.

Lemma gtest_neg p : valid p -> gtest p <= 0.
Proof. intros (A & B & _). unfold gtest. nra. Qed.

(** What is known when a call asks for another evaluation. *)
Lemma verdict_FG p v x f g : verdict p v x f g = FG ->
  ~ (f <= ftest p x /\ Rabs g <= gtol p * - ginit p) /\ ~ (x = stpmin p /\ (ftest p x < f \/ gtest p <= g)) /\ ~ (x = stpmax p /\ f <= ftest p x /\ g <= gtest p) /\
  (brackt v = true -> xtol p * stmax v < stmax v - stmin v /\ stmin v < x < stmax v).
Proof.
  unfold verdict. intros E.
  destruct (Rleb_spec f (ftest p x)) as [A|A], (Rleb_spec (Rabs g) (gtol p * - ginit p)) as [B|B], (Reqb_spec x (stpmin p)) as [C|C], (Rltb_spec (ftest p x) f) as [D|D], (Rleb_spec (gtest p) g) as [D'|D'],
    (Reqb_spec x (stpmax p)) as [G|G], (Rleb_spec g (gtest p)) as [K|K], (brackt v), (Rleb_spec (stmax v - stmin v) (xtol p * stmax v)) as [L|L], (Rleb_spec x (stmin v)) as [M|M], (Rleb_spec (stmax v) x) as [N|N];
    cbn in E; try discriminate; (repeat split; intros; try discriminate; try tauto; lra).
Qed.

Lemma next_free p v st sx fx1 gx1 sy fy1 gy1 s v' x' : next_step p v st (sx, fx1, gx1) (sy, fy1, gy1) s false = (v', x') ->
  v' = {| brackt := false; stage := st; gx := gx1; gy := gy1; fx := fx1; fy := fy1; stx := sx; sty := sy; stmin := s + (s - sx) * (11 / 10); stmax := s + (s - sx) * 4; width := width v; width1 := width1 v |} /\
  x' = MIN (MAX s (stpmin p)) (stpmax p).
Proof. unfold next_step. cbn [andb orb]. intros E. injection E as <- <-. auto. Qed.

Lemma next_br p v st sx fx1 gx1 sy fy1 gy1 s v' x' : next_step p v st (sx, fx1, gx1) (sy, fy1, gy1) s true = (v', x') ->
  v' = {| brackt := true; stage := st; gx := gx1; gy := gy1; fx := fx1; fy := fy1; stx := sx; sty := sy; stmin := MIN sx sy; stmax := MAX sx sy; width := Rabs (sy - sx); width1 := width v |} /\
  exists s', (s' = s \/ s' = sx + (sy - sx) * (1 / 2)) /\ (width1 v * (66 / 100) <= Rabs (sy - sx) -> s' = sx + (sy - sx) * (1 / 2)) /\
  let t := MIN (MAX s' (stpmin p)) (stpmax p) in
  ((x' = sx /\ (t <= MIN sx sy \/ MAX sx sy <= t \/ MAX sx sy - MIN sx sy <= xtol p * MAX sx sy)) \/ (x' = t /\ MIN sx sy < t < MAX sx sy /\ xtol p * MAX sx sy < MAX sx sy - MIN sx sy)).
Proof.
  unfold next_step. cbn [andb]. intros E. injection E as <- <-. split; [reflexivity|]. exists (if Rleb (width1 v * (66 / 100)) (Rabs (sy - sx)) then sx + (sy - sx) * (1 / 2) else s).
  split; [destruct (Rleb _ _); auto|]. split; [destruct (Rleb_spec (width1 v * (66 / 100)) (Rabs (sy - sx))); [auto|intros; lra]|]. cbv zeta.
  set (s' := if Rleb (width1 v * (66 / 100)) (Rabs (sy - sx)) then sx + (sy - sx) * (1 / 2) else s). set (t := MIN (MAX s' (stpmin p)) (stpmax p)).
  destruct (Rleb_spec t (MIN sx sy)); cbn [orb]; [left; auto|]. destruct (Rleb_spec (MAX sx sy) t); cbn [orb]; [left; auto|]. destruct (Rleb_spec (MAX sx sy - MIN sx sy) (xtol p * MAX sx sy)); [left; auto|]. right. lra.
Qed.

Lemma clamp_in p s : valid p -> in_bounds p (MIN (MAX s (stpmin p)) (stpmax p)).
Proof.
  intros (_ & _ & _ & _ & H). unfold in_bounds. destruct (MAX_spec s (stpmin p)) as [(-> & A)|(-> & A)]; [destruct (MIN_spec s (stpmax p)) as [(-> & B)|(-> & B)]|destruct (MIN_spec (stpmin p) (stpmax p)) as [(-> & B)|(-> & B)]]; lra.
Qed.

Lemma ftest_anti p a b : valid p -> a <= b -> ftest p b <= ftest p a.
Proof. intros V H. pose proof (gtest_neg p V). unfold ftest. nra. Qed.

(** The free case: the point becomes the best one, or the interval is bracketed. *)
Lemma step_br p v x f g st x1 y1 s v' x' : valid p -> Inv p v x -> st = (if (stage v =? 1)%Z && Rleb f (ftest p x) && Rleb 0 g then 2%Z else stage v) -> verdict p v x f g = FG ->
  update p v st x f g = Val (x1, y1, s, true) -> next_step p v st x1 y1 s true = (v', x') -> Inv p v' x' /\ fx v' <= fx v.
Proof.
  intros V I Hst Hv U N. destruct (verdict_FG _ _ _ _ _ Hv) as (NC & _ & _ & Hb). pose proof (gtest_neg p V) as Gn.
  (* the situation before *)
  assert (P : in_bounds p x /\ fx v <= ftest p (stx v) /\ (stage v <> 1%Z -> fx v <= ftest p x /\ fx v <= ftest p (sty v)) /\ (x <> stx v -> gx v * (x - stx v) < 0) /\ (brackt v = true -> gx v * (sty v - x) < 0)).
  { destruct I as (I1 & I2 & I). destruct (brackt v).
    - destruct I as (B1 & B2 & B3 & B4 & B5 & B6). destruct (Hb eq_refl) as (_ & Hin).
      assert (X : in_bounds p x). { destruct B4 as [->|B4]; [|tauto]. rewrite B2, B3 in Hin. destruct (MIN_spec (stx v) (sty v)) as [(E & ?)|(E & ?)], (MAX_spec (stx v) (sty v)) as [(E' & ?)|(E' & ?)]; rewrite E, E' in Hin; lra. }
      split; [exact X|]. rewrite B2, B3 in Hin.
      assert (Fs : fx v <= ftest p (stx v)).
      { destruct (Z.eq_dec (stage v) 1) as [Q|Q]; [auto|]. eapply Rle_trans; [apply B6, Q|]. apply ftest_anti; [exact V|]. destruct (MAX_spec (stx v) (sty v)) as [(-> & ?)|(-> & ?)]; lra. }
      split; [exact Fs|]. destruct (MIN_spec (stx v) (sty v)) as [(E & H1)|(E & H1)], (MAX_spec (stx v) (sty v)) as [(E' & H2)|(E' & H2)]; rewrite E, E' in *; try lra.
      + split; [intros Q; specialize (B6 Q); split; [|exact B6]; eapply Rle_trans; [exact B6|apply ftest_anti; [exact V|lra]]|]. assert (gx v < 0) by nra. split; [intros; nra|intros; nra].
      + split; [intros Q; specialize (B6 Q); split; (eapply Rle_trans; [exact B6|apply ftest_anti; [exact V|lra]])|]. assert (0 < gx v) by nra. split; [intros; nra|intros; nra].
    - destruct I as (F1 & F2 & F3 & F4 & F5 & F6). split; [exact F5|]. split; [exact F6|]. split; [intros Q; contradiction|]. split; [|discriminate]. intros Ne. destruct F4 as [->|F4]; [contradiction|]. nra. }
  destruct P as (X & Fs & F2 & Sg & Sy).
  assert (St : st <> 1%Z -> fx v <= ftest p x /\ fx v <= ftest p (sty v) /\ stage v <> 1%Z \/ (stage v = 1%Z /\ f <= ftest p x /\ 0 <= g)).
  { intros Q. destruct (Z.eqb_spec (stage v) 1) as [E|E]; [|left; tauto]. right. cbn [andb] in Hst. destruct (Rleb_spec f (ftest p x)), (Rleb_spec 0 g); cbn in Hst; try congruence. auto. }
  assert (St1 : st = 1%Z -> stage v = 1%Z). { intros Q. destruct (Z.eqb_spec (stage v) 1); [assumption|]. cbn in Hst. congruence. }
  (* the new interval *)
  assert (Core : exists sx1 fx1 gx1 sy1 fy1 gy1, x1 = (sx1, fx1, gx1) /\ y1 = (sy1, fy1, gy1) /\ fx1 <= fx v /\ (sx1 = 0 \/ in_bounds p sx1) /\ (sy1 = 0 \/ in_bounds p sy1) /\ gx1 * (sy1 - sx1) < 0 /\
    (st = 1%Z -> fx1 <= ftest p sx1) /\ (st <> 1%Z -> fx1 <= ftest p sx1 /\ fx1 <= ftest p sy1)).
  { destruct I as (I1 & I2 & _). destruct (update_shape _ _ _ _ _ _ _ _ _ _ U) as [(-> & -> & _ & Ne & _)|[(Q1 & Q2 & Q3 & Q4)|[(-> & -> & _ & L & Gg & Ne & Pl)|(-> & -> & Bv & L & Gg & Nx & Pl & _)]]].
    - exists (stx v), (fx v), (gx v), x, f, g. do 2 (split; [reflexivity|]). split; [lra|]. do 2 (split; [first [assumption|right; exact X]|]). split; [apply Sg, Ne|]. split; [auto|]. intros Q. split; [exact Fs|]. destruct (St Q) as [S0|(S0 & S1 & S2)]; [tauto|].
      unfold update in U. destruct (Rle_lt_dec (fx v) f) as [L|L]; [lra|].
      exfalso. (* plain, f < fx: not case 1 *) cbv zeta in U. assert (Z.eqb st 1 = false) by (apply Z.eqb_neq; exact Q). rewrite H in U. cbn [andb] in U. apply dcstep_shape in U as (_ & [(U & _)|[(_ & _ & U & _)|(_ & _ & U & _)]]); [lra| |]; injection U as U _ _; congruence.
    - exfalso. pose proof Fs. unfold ftest in *. lra.
    - exists x, f, g, (stx v), (fx v), (gx v). do 2 (split; [reflexivity|]). split; [lra|]. do 2 (split; [first [assumption|right; exact X]|]). split; [assert (gx v * (x - stx v) < 0) by (apply Sg, Ne); nra|]. split.
      + intros Q. destruct (Rle_lt_dec f (ftest p x)); [assumption|]. exfalso. apply Pl. auto.
      + intros Q. destruct (St Q) as [S0|(S0 & S1 & S2)]; [|split; [exact S1|lra]]. split; lra.
    - symmetry in Bv. assert (Gz : g <> 0).
      { intros ->. apply NC. rewrite Rabs_R0. destruct V as (V1 & V2 & V3 & _). split; [|nra]. destruct (Z.eq_dec st 1) as [Q|Q]; [destruct (Rle_lt_dec f (ftest p x)); [assumption|exfalso; apply Pl; auto]|].
        destruct (St Q) as [S0|S0]; [lra|tauto]. }
      exists x, f, g, (sty v), (fy v), (gy v). do 2 (split; [reflexivity|]). split; [lra|]. do 2 (split; [first [assumption|right; exact X]|]). specialize (Sy Bv). split; [nra|]. split.
      + intros Q. destruct (Rle_lt_dec f (ftest p x)); [assumption|]. exfalso. apply Pl. auto.
      + intros Q. destruct (St Q) as [S0|(S0 & S1 & S2)]; [split; lra|]. split; [exact S1|]. eapply Rle_trans; [exact S1|]. apply ftest_anti; [exact V|].
        assert (0 < g) by lra. assert (0 < gx v) by nra. nra. }
  destruct Core as (sx1 & fx1 & gx1 & sy1 & fy1 & gy1 & -> & -> & Lf & B1 & B2 & Sd & T1 & T2). destruct (next_br _ _ _ _ _ _ _ _ _ _ _ _ N) as (-> & s' & _ & _ & Hx). cbn [fx]. split; [|exact Lf].
  unfold Inv, bracketed. cbn [brackt stage stx sty fx gx stmin stmax]. split; [exact B1|]. split; [exact B2|]. split; [exact Sd|]. split; [reflexivity|]. split; [reflexivity|]. split.
  - destruct Hx as [(Hx & _)|(Hx & Hi & Ht)]; [left; exact Hx|right]. rewrite Hx. split; [exact Hi|]. split; [exact Ht|]. apply clamp_in. exact V.
  - split; [exact T1|]. intros Q. destruct (MAX_spec sx1 sy1) as [(-> & _)|(-> & _)]; apply T2; exact Q.
Qed.

Lemma step_free p v x f g st x1 y1 s v' x' : valid p -> Inv p v x -> st = (if (stage v =? 1)%Z && Rleb f (ftest p x) && Rleb 0 g then 2%Z else stage v) -> verdict p v x f g = FG ->
  update p v st x f g = Val (x1, y1, s, false) -> next_step p v st x1 y1 s false = (v', x') ->
  brackt v = false /\ Inv p v' x' /\ fx v' <= fx v /\ x1 = (x, f, g) /\ f <= ftest p x /\ g < 0 /\ x <= s /\ (stx v < x -> x < s /\ stmin v <= s).
Proof.
  intros V I Hst Hv U N. destruct (verdict_FG _ _ _ _ _ Hv) as (NC & _). pose proof (gtest_neg p V) as Gn. destruct I as (I1 & I2 & I).
  destruct (update_shape _ _ _ _ _ _ _ _ _ _ U) as [(_ & _ & Q & _)|[(Q1 & Q2 & Q3 & Q4)|[(_ & _ & Q & _)|(-> & -> & Bv & L & Gg & Nx & Pl & Hs)]]]; try discriminate.
  - exfalso. assert (Fs : fx v <= ftest p (stx v)).
    { destruct (brackt v); [destruct I as (B1 & B2 & B3 & B4 & B5 & B6)|exact (proj2 (proj2 (proj2 (proj2 (proj2 I)))))].
      destruct (Z.eq_dec (stage v) 1) as [Q|Q]; [auto|]. eapply Rle_trans; [apply B6, Q|]. apply ftest_anti; [exact V|]. destruct (MAX_spec (stx v) (sty v)) as [(-> & ?)|(-> & ?)]; lra. }
    unfold ftest in *. lra.
  - symmetry in Bv. rewrite Bv in I. split; [exact Bv|]. destruct I as (F1 & F2 & F3 & F4 & F5 & F6). rewrite F1 in Hst. cbn [Z.eqb Pos.eqb andb] in Hst.
    assert (Fl : f <= ftest p x).
    { destruct (Rle_lt_dec f (ftest p x)) as [|B]; [assumption|]. exfalso. apply Pl. split; [|auto]. rewrite Hst. destruct (Rleb_spec f (ftest p x)); [lra|reflexivity]. }
    assert (Gz : g <> 0). { intros ->. apply NC. rewrite Rabs_R0. destruct V as (V1 & V2 & V3 & _). split; [exact Fl|nra]. }
    assert (Gl : g < 0) by nra. assert (S1 : st = 1%Z). { rewrite Hst. destruct (Rleb_spec f (ftest p x)), (Rleb_spec 0 g); try lra; reflexivity. }
    destruct (Hs Bv F2 Gz) as (H0 & H1); [destruct F4 as [->|F4]; [lra|lra]|].
    assert (Sx : x <= s /\ (stx v < x -> x < s /\ stmin v <= s)).
    { destruct F4 as [E|F4]; [rewrite (H0 E), E; lra|]. destruct (H1 ltac:(lra) ltac:(lra)) as (A & B). specialize (B ltac:(lra)). lra. }
    destruct (next_free _ _ _ _ _ _ _ _ _ _ _ _ N) as (-> & ->). cbn [fx]. split; [|repeat split; tauto || lra || auto].
    unfold Inv, free. cbn [brackt stage stx sty fx gx stmin stmax]. split; [right; exact F5|]. split; [exact I2|]. split; [exact S1|]. split; [exact Gl|]. split; [lra|]. split; [|split; [apply clamp_in; exact V|exact Fl]].
    unfold in_bounds in F5. destruct (MAX_spec s (stpmin p)) as [(-> & A)|(-> & A)]; [|assert (s = stpmin p) as <- by lra]; destruct (MIN_spec s (stpmax p)) as [(-> & B)|(-> & B)]; try lra.
Qed.

(** One evaluation. *)
Lemma step_inv p v x f g v' x' : valid p -> Inv p v x -> dcsrch p v x f g = Val (FG, v', x') -> Inv p v' x' /\ fx v' <= fx v.
Proof.
  intros V I E. unfold dcsrch in E. cbv zeta in E. destruct (verdict p v x f g) eqn:Hv; try discriminate.
  set (st := if (stage v =? 1)%Z && Rleb f (ftest p x) && Rleb 0 g then 2%Z else stage v) in *.
  destruct (update p v st x f g) as [[[[x1 y1] s] b]| | |] eqn:U; cbn [bind] in E; try discriminate. destruct (next_step p v st x1 y1 s b) as [v2 x2] eqn:N. injection E as <- <-. destruct b.
  - exact (step_br p v x f g st x1 y1 s v2 x2 V I eq_refl Hv U N).
  - destruct (step_free p v x f g st x1 y1 s v2 x2 V I eq_refl Hv U N) as (_ & A & B & _). auto.
Qed.
Lemma step_points p v x f g v' x' : dcsrch p v x f g = Val (FG, v', x') -> valid p -> Inv p v x ->
  let a := (stx v, fx v, gx v) in let b := (sty v, fy v, gy v) in let q := (x, f, g) in let a' := (stx v', fx v', gx v') in let b' := (sty v', fy v', gy v') in
  (a' = a /\ b' = q /\ (ftest p x < f \/ fx v < f)) \/ (a' = q /\ b' = a) \/ (a' = q /\ b' = b).
Proof.
  intros E V I a b q a' b'. unfold dcsrch in E. cbv zeta in E. destruct (verdict p v x f g) eqn:Hv; try discriminate.
  set (st := if (stage v =? 1)%Z && Rleb f (ftest p x) && Rleb 0 g then 2%Z else stage v) in *.
  destruct (update p v st x f g) as [[[[x1 y1] s] bb]| | |] eqn:U; cbn [bind] in E; try discriminate. destruct (next_step p v st x1 y1 s bb) as [v2 x2] eqn:N. injection E as <- <-.
  assert (K : forall sx fx1 gx1 sy fy1 gy1, x1 = (sx, fx1, gx1) -> y1 = (sy, fy1, gy1) -> (stx v2, fx v2, gx v2) = x1 /\ (sty v2, fy v2, gy v2) = y1).
  { intros sx fx1 gx1 sy fy1 gy1 -> ->. destruct bb; [destruct (next_br _ _ _ _ _ _ _ _ _ _ _ _ N) as (-> & _)|destruct (next_free _ _ _ _ _ _ _ _ _ _ _ _ N) as (-> & _)]; auto. }
  unfold a', b'. destruct (update_shape _ _ _ _ _ _ _ _ _ _ U) as [(E1 & E2 & _ & _ & W)|[(Q1 & Q2 & Q3 & Q4)|[(E1 & E2 & _)|(E1 & E2 & _)]]].
  - destruct (K _ _ _ _ _ _ E1 E2) as (-> & ->). auto.
  - exfalso. destruct I as (I1 & I2 & I). pose proof (gtest_neg p V) as Gn. assert (Fs : fx v <= ftest p (stx v)).
    { destruct (brackt v); [destruct I as (B1 & B2 & B3 & B4 & B5 & B6)|exact (proj2 (proj2 (proj2 (proj2 (proj2 I)))))].
      destruct (Z.eq_dec (stage v) 1) as [Q|Q]; [auto|]. eapply Rle_trans; [apply B6, Q|]. apply ftest_anti; [exact V|]. destruct (MAX_spec (stx v) (sty v)) as [(-> & ?)|(-> & ?)]; lra. }
    unfold ftest in *. lra.
  - destruct (K _ _ _ _ _ _ E1 E2) as (-> & ->). auto.
  - destruct (K _ _ _ _ _ _ E1 E2) as (-> & ->). auto.
Qed.

(** ** Executions *)
Section Runs.
Variable F : nat -> R -> R * R.
Variable p : lpar.
Lemma reach_valid n v x : reach F p n v x -> valid p.
Proof. induction 1 as [x v E|n v x f g v' x' R IH Ef E]; [exact (proj1 (start_inv _ _ _ E))|exact IH]. Qed.
Lemma reach_inv n v x : reach F p n v x -> Inv p v x.
Proof. intros R. pose proof (reach_valid _ _ _ R) as V. induction R as [x v E|n v x f g v' x' R IH Ef E]; [exact (proj1 (proj2 (start_inv _ _ _ E)))|]. exact (proj1 (step_inv _ _ _ _ _ _ _ V IH E)). Qed.
Lemma known_S n q : known F p n q -> known F p (S n) q.
Proof. intros [->|(m & v & s & Hm & R & E)]; [left; reflexivity|right]. exists m, v, s. repeat split; [lia|exact R|exact E]. Qed.
Lemma reach_known n v x : reach F p n v x -> known F p n (stx v, fx v, gx v) /\ known F p n (sty v, fy v, gy v).
Proof.
  intros R. pose proof (reach_valid _ _ _ R) as V. induction R as [x v E|n v x f g v' x' R IH Ef E].
  - destruct (start_inv _ _ _ E) as (_ & _ & -> & -> & -> & -> & -> & ->). split; left; reflexivity.
  - destruct IH as (Ka & Kb). pose proof (step_points _ _ _ _ _ _ _ E V (reach_inv _ _ _ R)) as P. cbv zeta in P.
    assert (Kq : known F p (S n) (x, f, g)) by (right; exists n, v, x; split; [lia|split; [exact R|rewrite Ef; reflexivity]]).
    apply known_S in Ka. apply known_S in Kb. destruct P as [(-> & -> & _)|[(-> & ->)|(-> & ->)]]; auto.
Qed.
Lemma dcsrch_done v x f g t v' x' : dcsrch p v x f g = Val (t, v', x') -> t <> FG -> verdict p v x f g = t /\ x' = x.
Proof.
  unfold dcsrch. cbv zeta. intros D N. destruct (verdict p v x f g); [|injection D as <- <- <-; auto|injection D as <- <- <-; auto|injection D as <- <- <-; auto].
  destruct (update _ _ _ _ _ _) as [[[[? ?] ?] ?]| | |]; cbn [bind] in D; try discriminate. destruct (next_step _ _ _ _ _ _ _). injection D as <- _ _. contradiction.
Qed.
Lemma search_end fuel : forall n v x r, reach F p n v x -> search fuel F p n v x = Some (Val r) ->
  exists m v', reach F p m v' (r_x r) /\ F m (r_x r) = (r_f r, r_df r) /\ verdict p v' (r_x r) (r_f r) (r_df r) = r_task r /\ r_task r <> FG.
Proof.
  induction fuel as [|k IH]; intros n v x r R E; [discriminate|]. cbn [search] in E. destruct (F n x) as [f df] eqn:Ef.
  destruct (dcsrch p v x f df) as [[[t v'] x']| | |] eqn:D; try discriminate.
  assert (Q : t = FG \/ (t <> FG /\ Some (Val {| r_x := x'; r_f := f; r_df := df; r_task := t |}) = Some (Val r))) by (destruct t; [left; reflexivity|right; split; [discriminate|exact E]..]).
  destruct Q as [->|(Nt & Q)].
  - apply (IH (S n) v' x' r); [exact (reach_next F p n v x f df v' x' R Ef D)|exact E].
  - destruct (dcsrch_done _ _ _ _ _ _ _ D Nt) as (Hv & ->). injection Q as <-. exists n, v. cbn [r_x r_f r_df r_task]. auto.
Qed.
End Runs.
