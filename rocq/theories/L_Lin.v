(** Lemmas about the line search. *)
From Coq Require Import List ZArith Reals Bool Lia Lra Psatz.
From Verif Require Import Base RC M_Lin S_Lin.
Import ListNotations.
Local Open Scope R_scope.

Lemma MIN_spec a b : (MIN a b = a /\ a <= b) \/ (MIN a b = b /\ b <= a).
Proof. unfold MIN. destruct (Rltb_spec a b); [left|right]; split; auto; lra. Qed.
Lemma MAX_spec a b : (MAX a b = a /\ b <= a) \/ (MAX a b = b /\ a <= b).
Proof. unfold MAX. destruct (Rltb_spec b a); [left|right]; split; auto; lra. Qed.


(** The interval after dcstep. *)
Lemma case1_ne sx fx dx stp fp dp u : case1 sx fx dx stp fp dp = Val u -> stp <> sx.
Proof. intros E ->. unfold case1, cubic_theta, fdiv in E. destruct (Req_EM_T (sx - sx) 0) as [|N]; [cbn [bind] in *; discriminate|]. apply N. ring. Qed.
Lemma case2_ne sx fx dx stp fp dp u : case2 sx fx dx stp fp dp = Val u -> stp <> sx.
Proof. intros E ->. unfold case2, cubic_theta, fdiv in E. destruct (Req_EM_T (sx - sx) 0) as [|N]; [cbn [bind] in *; discriminate|]. apply N. ring. Qed.
Lemma case3_out sx fx dx sy stp fp dp lo hi u : case3 sx fx dx sy stp fp dp false lo hi = Val u -> sx <= stp <= hi -> dx < 0 -> 0 <= dp * dx -> Rabs dp < Rabs dx -> dp <> 0 ->
  stp < hi -> stp < u /\ (lo <= hi -> lo <= u <= hi).
Proof.
  intros E Hs Hx G A Nz Hh. unfold case3 in E. cbv zeta in E.
  assert (P : dx < dp < 0).
  { assert (dp < 0) by nra. rewrite (Rabs_left dp), (Rabs_left dx) in A by lra. lra. }
  unfold cubic_theta in E. unfold fdiv at 1 in E. destruct (Req_EM_T (stp - sx) 0) as [|N0]; [cbn [bind] in *; discriminate|]. cbn [bind] in E. assert (L : sx < stp) by lra.
  destruct (fdiv _ _) as [t| | |]; cbn [bind] in E; try discriminate. destruct (fdiv dx _) as [a| | |]; cbn [bind] in E; try discriminate. destruct (fdiv dp _) as [b| | |]; cbn [bind] in E; try discriminate.
  destruct (Rltb_spec sx stp) as [L0|]; [|lra]. match type of E with context [Reqb ?g 0] => set (gamma := g) in * end.
  destruct (fdiv _ _) as [r| | |]; cbn [bind] in E; try discriminate. unfold fdiv in E. destruct (Req_EM_T (dp - dx) 0); [lra|]. cbn [bind] in E.
  set (stpq := stp + dp / (dp - dx) * (sx - stp)) in *. assert (Q : stp < stpq).
  { unfold stpq. assert (dp / (dp - dx) < 0) by (unfold Rdiv; assert (0 < / (dp - dx)) by (apply Rinv_0_lt_compat; lra); nra). nra. }
  set (stpc := if Rltb r 0 && negb (Reqb gamma 0) then stp + r * (sx - stp) else hi) in *.
  assert (Cc : stp < stpc). { unfold stpc. destruct (Rltb_spec r 0); cbn [andb]; [|exact Hh]. destruct (negb (Reqb gamma 0)); [nra|exact Hh]. }
  set (w := if Rltb (Rabs (stpq - stp)) (Rabs (stpc - stp)) then stpc else stpq) in *. assert (W : stp < w) by (unfold w; destruct (Rltb (Rabs (stpq - stp)) (Rabs (stpc - stp))); [exact Cc|exact Q]).
  injection E as <-. destruct (MIN_spec hi w) as [(E1 & H1)|(E1 & H1)]; rewrite E1.
  - destruct (MAX_spec lo hi) as [(E2 & H2)|(E2 & H2)]; rewrite E2; split; try lra.
  - destruct (MAX_spec lo w) as [(E2 & H2)|(E2 & H2)]; rewrite E2; split; try lra.
Qed.
Lemma dcstep_shape sx fx dx y stp fp dp b lo hi x' y' s b' : dcstep (sx, fx, dx) y stp fp dp b lo hi = Val (x', y', s, b') -> dx <> 0 /\
  ((fx < fp /\ x' = (sx, fx, dx) /\ y' = (stp, fp, dp) /\ b' = true /\ stp <> sx) \/
   (fp <= fx /\ dp * dx < 0 /\ x' = (stp, fp, dp) /\ y' = (sx, fx, dx) /\ b' = true /\ stp <> sx) \/
   (fp <= fx /\ 0 <= dp * dx /\ x' = (stp, fp, dp) /\ y' = y /\ b' = b /\
    (b = false -> dx < 0 -> dp <> 0 -> sx <= stp <= hi -> (stp = sx -> s = lo) /\ (sx < stp -> stp < hi -> stp < s /\ (lo <= hi -> lo <= s <= hi))))).
Proof.
  destruct y as ((sy, fy), dy). unfold dcstep. intros E. unfold fdiv in E. destruct (Req_EM_T (Rabs dx) 0) as [|Hd]; [cbn [bind] in *; discriminate|]. cbn [bind] in E.
  assert (Nd : dx <> 0) by (intros Q; apply Hd; rewrite Q; apply Rabs_R0). split; [exact Nd|].
  assert (Sg : forall z, z * (dx / Rabs dx) < 0 <-> z * dx < 0).
  { intros z. assert (P : 0 < Rabs dx) by (apply Rabs_pos_lt; exact Nd). replace (z * dx) with (z * (dx / Rabs dx) * Rabs dx) by (field; exact Hd). split; intros H; nra. }
  destruct (Rltb_spec fx fp) as [L|L].
  - left. destruct (case1 sx fx dx stp fp dp) as [u| | |] eqn:C; cbn [bind] in E; try discriminate. injection E as <- <- <- <-. apply case1_ne in C. auto.
  - destruct (Rltb_spec (dp * (dx / Rabs dx)) 0) as [G|G].
    + right. left. destruct (case2 sx fx dx stp fp dp) as [u| | |] eqn:C; cbn [bind] in E; try discriminate. injection E as <- <- <- <-. apply Sg in G. apply case2_ne in C. repeat split; auto; lra.
    + right. right. assert (G' : 0 <= dp * dx) by (destruct (Rlt_le_dec (dp * dx) 0) as [Q|Q]; [apply Sg in Q; contradiction|exact Q]).
      destruct (Rltb_spec (Rabs dp) (Rabs dx)) as [A|A].
      * destruct (case3 sx fx dx sy stp fp dp b lo hi) as [u| | |] eqn:C; cbn [bind] in E; try discriminate. injection E as <- <- <- <-. split; [lra|]. split; [exact G'|]. repeat (split; [reflexivity|]).
        intros -> Dx Nz Hs. split.
        -- intros ->. exfalso. unfold case3, cubic_theta in C. unfold fdiv at 1 in C. destruct (Req_EM_T (sx - sx) 0) as [|N]; [cbn [bind] in *; discriminate|]. apply N. ring.
        -- intros Ls Hh. exact (case3_out _ _ _ _ _ _ _ _ _ _ C Hs Dx G' A Nz Hh).
      * destruct (case4 sx sy fy dy stp fp dp b lo hi) as [u| | |] eqn:C; cbn [bind] in E; try discriminate. injection E as <- <- <- <-. split; [lra|]. split; [exact G'|]. repeat (split; [reflexivity|]).
        intros -> Dx Nz Hs. cbn [case4] in C. split.
        -- intros ->. destruct (Rltb_spec sx sx); [lra|]. injection C as <-. reflexivity.
        -- intros Ls Hh. destruct (Rltb_spec sx stp); [|lra]. injection C as <-. split; [exact Hh|lra].
Qed.

(** The interval after a call, in terms of the values of the function itself. *)
Definition plain (p : lpar) (v : lsave) (st : Z) (stp f : R) : Prop := ~ (st = 1%Z /\ f <= fx v /\ ftest p stp < f).
Lemma update_shape p v st stp f g x' y' s b' : update p v st stp f g = Val (x', y', s, b') -> let x := (stx v, fx v, gx v) in let y := (sty v, fy v, gy v) in let q := (stp, f, g) in
  (x' = x /\ y' = q /\ b' = true /\ stp <> stx v /\ (ftest p stp < f \/ fx v < f)) \/
  (st = 1%Z /\ f <= fx v /\ ftest p stp < f /\ f - stp * gtest p <= fx v - stx v * gtest p) \/
  (x' = q /\ y' = x /\ b' = true /\ f <= fx v /\ g * gx v < 0 /\ stp <> stx v /\ plain p v st stp f) \/
  (x' = q /\ y' = y /\ b' = brackt v /\ f <= fx v /\ 0 <= g * gx v /\ gx v <> 0 /\ plain p v st stp f /\
   (brackt v = false -> gx v < 0 -> g <> 0 -> stx v <= stp <= stmax v -> (stp = stx v -> s = stmin v) /\ (stx v < stp -> stp < stmax v -> stp < s /\ (stmin v <= stmax v -> stmin v <= s <= stmax v)))).
Proof.
  intros E x y q. unfold update in E. cbv zeta in E.
  destruct ((st =? 1)%Z && Rleb f (fx v) && Rltb (ftest p stp) f) eqn:C.
  - apply andb_prop in C as (C1 & C3). apply andb_prop in C1 as (C1 & C2). destruct (Rleb_spec f (fx v)) as [L|]; [|discriminate]. destruct (Rltb_spec (ftest p stp) f) as [T|]; [|discriminate]. apply Z.eqb_eq in C1.
    destruct (dcstep _ _ _ _ _ _ _ _) as [[[[x2 y2] s2] b2]| | |] eqn:D; cbn [bind] in E; try discriminate. apply dcstep_shape in D as (_ & D).
    destruct x2 as ((a1, a2), a3), y2 as ((c1, c2), c3). injection E as <- <- <- <-.
    destruct D as [(H1 & H2 & H3 & -> & Ne)|[(H1 & _)|(H1 & _)]].
    + left. injection H2 as -> -> ->. injection H3 as -> -> ->. unfold x, q. split; [f_equal; [f_equal|]; ring|]. split; [f_equal; [f_equal|]; ring|]. auto.
    + right. left. auto.
    + right. left. auto.
  - apply dcstep_shape in E as (Nd & D).
    assert (C' : plain p v st stp f).
    { intros (-> & A & B). cbn [Z.eqb Pos.eqb] in C. destruct (Rleb_spec f (fx v)); [|contradiction]. destruct (Rltb_spec (ftest p stp) f); [discriminate|contradiction]. }
    destruct D as [(H1 & -> & -> & -> & Ne)|[(H1 & H2 & -> & -> & -> & Ne)|(H1 & H2 & -> & -> & -> & H3)]].
    + left. auto 8.
    + right. right. left. auto 8.
    + right. right. right. auto 12.
Qed.
