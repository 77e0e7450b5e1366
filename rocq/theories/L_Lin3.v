(** The line search ends. *)
From Coq Require Import List ZArith Reals Bool Lia Lra Psatz.
From Verif Require Import Base RC M_Lin S_Lin L_Lin L_Lin2.
Import ListNotations.
Local Open Scope R_scope.

Section Halt.
Variable F : nat -> R -> R * R.
Variable p : lpar.
Hypothesis V : valid p.
Definition halts (n : nat) (v : lsave) (x : R) : Prop := exists fuel, search fuel F p n v x <> None.

Lemma halts_step n v x : (forall f g v' x', F n x = (f, g) -> dcsrch p v x f g = Val (FG, v', x') -> halts (S n) v' x') -> halts n v x.
Proof.
  intros H. destruct (F n x) as [f g] eqn:Ef. destruct (dcsrch p v x f g) as [[[t v'] x']| | |] eqn:D.
  2-4: exists 1%nat; cbn [search]; rewrite Ef, D; discriminate.
  destruct t; [|exists 1%nat; cbn [search]; rewrite Ef, D; discriminate..]. destruct (H f g v' x' eq_refl D) as (k & Hk). exists (S k). cbn [search]. rewrite Ef, D. exact Hk.
Qed.

(** ** Bracketed *)
Lemma halts_stx n v : Inv p v (stx v) -> brackt v = true -> halts n v (stx v).
Proof.
  intros (_ & _ & I) B. rewrite B in I. destruct I as (_ & B2 & B3 & _). apply halts_step. intros f g v' x' _ D. exfalso. unfold dcsrch in D. cbv zeta in D.
  destruct (verdict p v (stx v) f g) eqn:Hv; try discriminate. destruct (verdict_FG _ _ _ _ _ Hv) as (_ & _ & _ & Hb). destruct (Hb B) as (_ & Hi). rewrite B2, B3 in Hi.
  destruct (MIN_spec (stx v) (sty v)) as [(E & ?)|(E & ?)], (MAX_spec (stx v) (sty v)) as [(E' & ?)|(E' & ?)]; rewrite E, E' in Hi; lra.
Qed.
Definition len (v : lsave) : R := Rabs (sty v - stx v).
Definition mid (v : lsave) : R := stx v + (sty v - stx v) * (1 / 2).

(** A step from a bracketed state: the widths, and when the interval is bisected. *)
Lemma br_step v x f g v' x' : Inv p v x -> brackt v = true -> x <> stx v -> dcsrch p v x f g = Val (FG, v', x') ->
  brackt v' = true /\ Inv p v' x' /\ width v' = len v' /\ width1 v' = width v /\
  (exists e, (e = stx v \/ e = sty v) /\ len v' = Rabs (x - e) /\ ((stx v' = x /\ sty v' = e) \/ (stx v' = e /\ sty v' = x))) /\
  (x' = stx v' \/ len v' < width1 v * (66 / 100) \/ x' = MIN (MAX (mid v') (stpmin p)) (stpmax p)).
Proof.
  intros I B Ne D. pose proof (step_inv _ _ _ _ _ _ _ V I D) as (I' & _). pose proof (step_points _ _ _ _ _ _ _ D V I) as P. cbv zeta in P.
  assert (Q : brackt v' = true /\ width v' = len v' /\ width1 v' = width v /\ (x' = stx v' \/ len v' < width1 v * (66 / 100) \/ x' = MIN (MAX (mid v') (stpmin p)) (stpmax p))).
  { unfold dcsrch in D. cbv zeta in D. destruct (verdict p v x f g) eqn:Hv; try discriminate.
    set (st := if (stage v =? 1)%Z && Rleb f (ftest p x) && Rleb 0 g then 2%Z else stage v) in *.
    destruct (update p v st x f g) as [[[[x1 y1] s] b]| | |] eqn:U; cbn [bind] in D; try discriminate. destruct (next_step p v st x1 y1 s b) as [v2 x2] eqn:N. injection D as <- <-.
    assert (Hb : b = true).
    { destruct b; [reflexivity|]. destruct (step_free p v x f g st x1 y1 s v2 x2 V I eq_refl Hv U N) as (Q & _). congruence. }
    subst b. destruct x1 as ((sx, fx1), gx1), y1 as ((sy, fy1), gy1). destruct (next_br _ _ _ _ _ _ _ _ _ _ _ _ N) as (-> & s' & _ & Hs & Hx). unfold len, mid. cbn [brackt width width1 stx sty].
    split; [reflexivity|]. split; [reflexivity|]. split; [reflexivity|]. destruct Hx as [(-> & _)|(-> & _)]; [left; reflexivity|right].
    destruct (Rlt_le_dec (Rabs (sy - sx)) (width1 v * (66 / 100))) as [A|A]; [left; exact A|right]. rewrite (Hs A). reflexivity. }
  destruct Q as (Q1 & Q2 & Q3 & Q4). split; [exact Q1|]. split; [exact I'|]. split; [exact Q2|]. split; [exact Q3|]. split; [|exact Q4]. unfold len.
  destruct P as [(P1 & P2 & _)|[(P1 & P2)|(P1 & P2)]]; injection P1 as P1 _ _; injection P2 as P2 _ _; rewrite P1, P2.
  - exists (stx v). auto.
  - exists (stx v). split; [auto|]. split; [apply Rabs_minus_sym|auto].
  - exists (sty v). split; [auto|]. split; [apply Rabs_minus_sym|auto].
Qed.
Lemma inside v x : Inv p v x -> brackt v = true -> x <> stx v -> len v = stmax v - stmin v /\ xtol p * stmax v < len v /\ stmin v < x < stmax v /\ stpmin p <= stmax v /\ in_bounds p x /\
  (stmin v = stx v /\ stmax v = sty v \/ stmin v = sty v /\ stmax v = stx v).
Proof.
  intros (I1 & I2 & I) B Ne. rewrite B in I. destruct I as (B1 & B2 & B3 & B4 & _). destruct B4 as [|(Hi & Hw & Hb)]; [contradiction|]. unfold len. unfold in_bounds in *. destruct V as (_ & _ & _ & _ & V5).
  destruct (MIN_spec (stx v) (sty v)) as [(E & ?)|(E & ?)], (MAX_spec (stx v) (sty v)) as [(E' & ?)|(E' & ?)]; rewrite E in B2; rewrite E' in B3; try lra.
  - rewrite Rabs_right by lra. repeat split; lra.
  - rewrite Rabs_left by lra. repeat split; lra.
Qed.
(** The next interval is smaller... *)
Lemma shrink v x f g v' x' : Inv p v x -> brackt v = true -> x <> stx v -> dcsrch p v x f g = Val (FG, v', x') -> len v' < len v.
Proof.
  intros I B Ne D. destruct (br_step _ _ _ _ _ _ I B Ne D) as (_ & _ & _ & _ & (e & He & -> & _) & _). destruct (inside _ _ I B Ne) as (-> & _ & Hi & _ & _ & Hc).
  unfold Rabs. destruct (Rcase_abs (x - e)); destruct He as [->| ->], Hc as [(C1 & C2)|(C1 & C2)]; lra.
Qed.
(** ...at most half as large if it was bisected, unless the search ends. *)
Lemma bisect v x f g v' x' : Inv p v x -> brackt v = true -> x <> stx v -> x = MIN (MAX (mid v) (stpmin p)) (stpmax p) -> dcsrch p v x f g = Val (FG, v', x') -> x' = stx v' \/ len v' <= len v / 2.
Proof.
  intros I B Ne Hx D. destruct (br_step _ _ _ _ _ _ I B Ne D) as (B' & I' & _ & _ & (e & He & -> & Hxy) & _). destruct (inside _ _ I B Ne) as (-> & _ & Hi & Hm & Hb & Hc).
  assert (M : mid v = stmin v + (stmax v - stmin v) / 2) by (unfold mid; destruct Hc as [(-> & ->)|(-> & ->)]; lra). unfold in_bounds in Hb.
  assert (Mx : stmax v <= stpmax p /\ (stmin v = 0 \/ stpmin p <= stmin v)).
  { destruct I as (I1 & I2 & _). unfold in_bounds in *. destruct V as (_ & _ & _ & _ & V5). destruct Hc as [(-> & ->)|(-> & ->)]; lra. }
  destruct (MAX_spec (mid v) (stpmin p)) as [(E & A)|(E & A)]; rewrite E in Hx.
  - right. assert (X : x = mid v) by (destruct (MIN_spec (mid v) (stpmax p)) as [(E2 & _)|(E2 & A2)]; rewrite E2 in Hx; lra). rewrite X, M. unfold Rabs. destruct (Rcase_abs _), He as [->| ->], Hc as [(C1 & C2)|(C1 & C2)]; lra.
  - assert (X : x = stpmin p) by (destruct (MIN_spec (stpmin p) (stpmax p)) as [(E2 & _)|(E2 & A2)]; rewrite E2 in Hx; lra).
    destruct (Req_dec e (stmin v)) as [Ee|Ee].
    + destruct (Req_dec x' (stx v')) as [|Nx]; [left; assumption|exfalso]. destruct (inside _ _ I' B' Nx) as (_ & _ & Hi' & _ & Hb' & Hc'). unfold in_bounds in Hb'.
      destruct Hxy as [(X1 & X2)|(X1 & X2)], Hc' as [(C1 & C2)|(C1 & C2)]; rewrite X1, X2 in *; lra.
    + right. unfold Rabs. destruct (Rcase_abs _), He as [->| ->], Hc as [(C1 & C2)|(C1 & C2)]; lra.
Qed.

Lemma small_power (c : R) : 0 < c -> forall A, exists N, A * (66 / 100) ^ N <= c.
Proof.
  intros Hc A. destruct (Rle_lt_dec A 0) as [H|H]; [exists O; cbn; lra|].
  destruct (pow_lt_1_zero (66 / 100) ltac:(rewrite Rabs_right; lra) (c / A)) as (N & HN); [apply Rdiv_lt_0_compat; assumption|]. exists N. specialize (HN N (Nat.le_refl _)).
  rewrite Rabs_right in HN by (apply Rle_ge, pow_le; lra). apply Rlt_le. replace c with (A * (c / A)) by (field; lra). apply Rmult_lt_compat_l; assumption.
Qed.
(** States in Q stay in Q, and their intervals are longer than c or the search ends. *)
Section Contract.
Variable Q : nat -> lsave -> R -> Prop.
Variable c : R.
Hypothesis Hc : 0 < c.
Hypothesis Qstep : forall n v x f g v' x', Q n v x -> Inv p v x -> brackt v = true -> x <> stx v -> F n x = (f, g) -> dcsrch p v x f g = Val (FG, v', x') -> Q (S n) v' x'.
Hypothesis Qbig : forall n v x, Q n v x -> Inv p v x -> brackt v = true -> x <> stx v -> c < len v \/ halts n v x.
Lemma contract N : forall n v x, Q n v x -> Inv p v x -> brackt v = true -> width v = len v -> len v <= width1 v -> width1 v * len v * (66 / 100) ^ N <= c * c -> halts n v x.
Proof.
  induction N as [|N IH]; intros n v x K I B W Lw Phi.
  - destruct (Req_dec x (stx v)) as [->|Ne]; [apply halts_stx; assumption|]. destruct (Qbig n v x K I B Ne) as [H|H]; [|exact H]. exfalso. cbn [pow] in Phi. nra.
  - destruct (Req_dec x (stx v)) as [->|Ne]; [apply halts_stx; assumption|]. cbn [pow] in Phi. set (q := (66 / 100) ^ N) in *. assert (Hq : 0 < q) by (apply pow_lt; lra).
    destruct (Qbig n v x K I B Ne) as [L0|H]; [|exact H].
    apply halts_step. intros f g v1 x1 Ef D1. pose proof (Qstep _ _ _ _ _ _ _ K I B Ne Ef D1) as K1. destruct (br_step _ _ _ _ _ _ I B Ne D1) as (B1 & I1 & W1 & W1' & _ & C1). pose proof (shrink _ _ _ _ _ _ I B Ne D1) as S1.
    assert (P1 : 0 <= len v1) by apply Rabs_pos.
    destruct (Req_dec x1 (stx v1)) as [->|Ne1]; [apply halts_stx; assumption|]. destruct C1 as [C1|[C1|C1]]; [contradiction| |].
    + apply IH; try assumption; rewrite ?W1', ?W; [lra|]. eapply Rle_trans; [|exact Phi]. apply Rle_trans with (len v * (width1 v * (66 / 100)) * q); [|lra]. apply Rmult_le_compat_r; [lra|]. apply Rmult_le_compat_l; lra.
    + apply halts_step. intros f1 g1 v2 x2 Ef2 D2. pose proof (Qstep _ _ _ _ _ _ _ K1 I1 B1 Ne1 Ef2 D2) as K2. destruct (br_step _ _ _ _ _ _ I1 B1 Ne1 D2) as (B2 & I2 & W2 & W2' & _). pose proof (shrink _ _ _ _ _ _ I1 B1 Ne1 D2) as S2. assert (P2 : 0 <= len v2) by apply Rabs_pos.
      destruct (bisect _ _ _ _ _ _ I1 B1 Ne1 C1 D2) as [->|H2]; [apply halts_stx; assumption|].
      apply IH; try assumption; rewrite ?W2', ?W1; [lra|]. eapply Rle_trans; [|exact Phi]. apply Rle_trans with (len v1 * (len v1 / 2) * q); [apply Rmult_le_compat_r; [lra|]; apply Rmult_le_compat_l; lra|].
      apply Rle_trans with (width1 v * len v * (66 / 100) * q); [|lra]. apply Rmult_le_compat_r; [lra|]. nra.
Qed.
Lemma halts_bracketed n v x : Q n v x -> Inv p v x -> brackt v = true -> width v = len v -> halts n v x.
Proof.
  intros K I B W. destruct (Req_dec x (stx v)) as [->|Ne]; [apply halts_stx; assumption|]. apply halts_step. intros f g v1 x1 Ef D1. pose proof (Qstep _ _ _ _ _ _ _ K I B Ne Ef D1) as K1.
  destruct (br_step _ _ _ _ _ _ I B Ne D1) as (B1 & I1 & W1 & W1' & _). pose proof (shrink _ _ _ _ _ _ I B Ne D1) as S1.
  destruct (small_power (c * c) ltac:(nra) (width1 v1 * len v1)) as (N & HN). apply (contract N); try assumption. rewrite W1', W. lra.
Qed.
End Contract.

(** Intervals that start above zero. *)
Lemma nested v x f g v' x' : Inv p v x -> brackt v = true -> x <> stx v -> dcsrch p v x f g = Val (FG, v', x') -> stmin v <= stmin v'.
Proof.
  intros I B Ne D. destruct (br_step _ _ _ _ _ _ I B Ne D) as (B' & I' & _ & _ & (e & He & _ & Hxy) & _). destruct (inside _ _ I B Ne) as (_ & _ & Hi & _ & _ & Hc).
  destruct I' as (_ & _ & I'). rewrite B' in I'. destruct I' as (_ & -> & _). destruct (MIN_spec (stx v') (sty v')) as [(-> & _)|(-> & _)]; destruct Hxy as [(X1 & X2)|(X1 & X2)], He as [->| ->], Hc as [(C1 & C2)|(C1 & C2)]; rewrite ?X1, ?X2; lra.
Qed.
Lemma halts_above n v x : 0 < xtol p -> 0 < stmin v -> Inv p v x -> brackt v = true -> width v = len v -> halts n v x.
Proof.
  intros Xp Hm I B W. set (a := stmin v) in *. apply (halts_bracketed (fun _ v _ => a <= stmin v) (xtol p * a)); try assumption.
  - nra.
  - intros m u y f g u' y' Hu Iu Bu Nu _ D. pose proof (nested _ _ _ _ _ _ Iu Bu Nu D). lra.
  - intros m u y Hu Iu Bu Nu. left. destruct (inside _ _ Iu Bu Nu) as (_ & Hw & Hi & _). nra.
  - apply Rle_refl.
Qed.

(** ** Before *)
Section Free.
Variable Q : nat -> lsave -> R -> Prop.
Hypothesis Qnext : forall n v x f g v' x', Q n v x -> F n x = (f, g) -> dcsrch p v x f g = Val (FG, v', x') -> Q (S n) v' x'.
Hypothesis Qbr : forall n v x, Q n v x -> Inv p v x -> brackt v = true -> width v = len v -> halts n v x.
Hypothesis Top : forall n f g, F n (stpmax p) = (f, g) -> f <= ftest p (stpmax p) -> gtest p < g -> g < 0 -> Rabs g <= gtol p * - ginit p.
Lemma free_step n v x f g v' x' : Q n v x -> Inv p v x -> brackt v = false -> stx v < x -> F n x = (f, g) -> dcsrch p v x f g = Val (FG, v', x') ->
  halts (S n) v' x' \/ (Q (S n) v' x' /\ Inv p v' x' /\ brackt v' = false /\ x < stpmax p /\ stx v' = x /\ (x' = stpmax p \/ (x' < stpmax p /\ x < x' /\ stmin v <= x' /\ stmin v' = x' + (x' - stx v') * (11 / 10)))).
Proof.
  intros K I B Lx Ef D. pose proof (Qnext _ _ _ _ _ _ _ K Ef D) as K'. pose proof (step_inv _ _ _ _ _ _ _ V I D) as (I' & _). unfold dcsrch in D. cbv zeta in D. destruct (verdict p v x f g) eqn:Hv; try discriminate.
  set (st := if (stage v =? 1)%Z && Rleb f (ftest p x) && Rleb 0 g then 2%Z else stage v) in *.
  destruct (update p v st x f g) as [[[[x1 y1] s] b]| | |] eqn:U; cbn [bind] in D; try discriminate. destruct (next_step p v st x1 y1 s b) as [v2 x2] eqn:N. injection D as <- <-. destruct b.
  - left. destruct x1 as ((sx, fx1), gx1), y1 as ((sy, fy1), gy1). destruct (next_br _ _ _ _ _ _ _ _ _ _ _ _ N) as (E & _). apply Qbr; [exact K'|exact I'|rewrite E; reflexivity|rewrite E; reflexivity].
  - right. destruct (step_free p v x f g st x1 y1 s v2 x2 V I eq_refl Hv U N) as (_ & _ & _ & Ex & Fl & Gl & _ & Hs). destruct (Hs Lx) as (Hs1 & Hs2). subst x1. destruct y1 as ((sy, fy1), gy1).
    destruct (next_free _ _ _ _ _ _ _ _ _ _ _ _ N) as (E & E'). destruct (verdict_FG _ _ _ _ _ Hv) as (NC & _ & NM & _).
    assert (Hx : in_bounds p x) by (destruct I as (_ & _ & I); rewrite B in I; apply I). unfold in_bounds in Hx.
    assert (Lm : x < stpmax p).
    { destruct (Req_dec x (stpmax p)) as [Q0|Q0]; [|lra]. exfalso. assert (H : gtest p < g) by (destruct (Rle_lt_dec g (gtest p)); [exfalso; apply NM; auto|assumption]).
      apply NC. split; [exact Fl|]. rewrite Q0 in *. exact (Top n f g Ef Fl H Gl). }
    split; [exact K'|]. split; [exact I'|]. split; [rewrite E; reflexivity|]. split; [exact Lm|]. split; [rewrite E; reflexivity|]. rewrite E. cbn [stmin stx].
    assert (M : MAX s (stpmin p) = s) by (destruct (MAX_spec s (stpmin p)) as [(-> & _)|(-> & ?)]; [reflexivity|lra]). rewrite M in E'. destruct (MIN_spec s (stpmax p)) as [(Q1 & A)|(Q1 & A)]; rewrite Q1 in E'; [|left; exact E'].
    destruct (Req_dec s (stpmax p)) as [Z|Z]; [left; congruence|right]. rewrite E'. repeat split; lra.
Qed.
Lemma halts_top n v : Q n v (stpmax p) -> Inv p v (stpmax p) -> brackt v = false -> stx v < stpmax p -> halts n v (stpmax p).
Proof.
  intros K I B Lx. apply halts_step. intros f g v' x' Ef D. destruct (free_step _ _ _ _ _ _ _ K I B Lx Ef D) as [H|(_ & _ & _ & H & _)]; [exact H|lra].
Qed.
Lemma grow N : forall n v x, Q n v x -> Inv p v x -> brackt v = false -> stx v < x -> x < stpmax p -> stmin v = x + (x - stx v) * (11 / 10) -> stpmax p - x <= INR N * (x - stx v) -> halts n v x.
Proof.
  induction N as [|N IH]; intros n v x K I B Lx Lm Em Hn; [cbn in Hn; lra|].
  apply halts_step. intros f g v' x' Ef D. destruct (free_step _ _ _ _ _ _ _ K I B Lx Ef D) as [H|(K' & I' & B' & _ & Sx & [->|(H1 & H2 & H3 & H4)])]; [exact H|apply halts_top; [exact K'|exact I'|exact B'|lra]|].
  apply IH; try assumption; [lra|]. rewrite S_INR in Hn. pose proof (pos_INR N). rewrite Sx. nra.
Qed.
Lemma halts_free n v x : Q n v x -> Inv p v x -> brackt v = false -> stx v < x -> halts n v x.
Proof.
  intros K I B Lx. apply halts_step. intros f g v' x' Ef D. destruct (free_step _ _ _ _ _ _ _ K I B Lx Ef D) as [H|(K' & I' & B' & Lm & Sx & [->|(H1 & H2 & H3 & H4)])]; [exact H|apply halts_top; [exact K'|exact I'|exact B'|lra]|].
  assert (QN : exists N, stpmax p - x' <= INR N * (x' - stx v')).
  { set (a := (stpmax p - x') / (x' - stx v')). destruct (archimed a) as (A1 & _). exists (Z.to_nat (Z.max 0 (up a))). rewrite INR_IZR_INZ, Z2Nat.id by lia.
    assert (A2 : a <= IZR (Z.max 0 (up a))) by (apply Rle_trans with (IZR (up a)); [lra|apply IZR_le; lia]). replace (stpmax p - x') with (a * (x' - stx v')) by (unfold a; field; lra). apply Rmult_le_compat_r; lra. }
  destruct QN as (N & HN). apply (grow N); try assumption. lra.
Qed.
End Free.
End Halt.
