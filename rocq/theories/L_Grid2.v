(** The mirror constraints are commuting orthogonal projections. *)
From Coq Require Import List ZArith Reals Lia Lra Bool.
From Verif Require Import Base RC Loops M_Tensor M_Evect S_Evect L_Evect L_Evect2 L_Evect3 M_Grid S_Grid L_Grid.
Import ListNotations.
Local Open Scope Z_scope.

Lemma wanted_pm parity a b : wanted parity a b <> 0 -> wanted parity a b = 1 \/ wanted parity a b = -1.
Proof. unfold wanted. destruct (Z.testbit parity a), (Z.testbit parity b); auto; congruence. Qed.
Lemma inside_oppz lnx ny nz p x y z c b : inside lnx ny nz p x y z c b -> inside lnx ny nz p x y (opp nz z) c b.
Proof. intros (I1 & I2 & I3 & I4 & I5). repeat split; try lia; apply opp_range; lia. Qed.
Lemma inside_oppy lnx ny nz p x y z c b : inside lnx ny nz p x y z c b -> inside lnx ny nz p x (opp ny y) z c b.
Proof. intros (I1 & I2 & I3 & I4 & I5). repeat split; try lia; apply opp_range; lia. Qed.

Ltac pm c s := destruct (c =? 0), s as [-> | ->]; cbn [Z.opp]; apply C_eq; csimp; lra.

(** Every entry is an amplitude or beyond the table. *)
Lemma amp_ext lnx ny nz p X Y : 0 <= p -> 0 < ny -> 0 < nz -> length X = length Y -> lnx * ny * nz * 2 * p <= Z.of_nat (length X) ->
  (forall x y z c b, inside lnx ny nz p x y z c b -> amp ny nz p X x y z c b = amp ny nz p Y x y z c b) ->
  (forall i, lnx * ny * nz * 2 * p <= i -> rd X i = rd Y i) -> X = Y.
Proof.
  intros Hp0 Hy Hz L Hl Ha Hb. apply list_ext; [exact L|]. intros i Hi. destruct (Z_le_dec (lnx * ny * nz * 2 * p) i) as [|Hn]; [apply Hb; auto|].
  rewrite (gets_in X i), (gets_in Y i) by lia. f_equal.
  assert (Hp : 0 < p) by (destruct (Z.eq_dec p 0) as [->|]; lia).
  pose proof (Z.div_mod i p ltac:(lia)) as D1. pose proof (Z.mod_pos_bound i p ltac:(lia)).
  pose proof (Z.div_mod (i / p) 2 ltac:(lia)) as D2. pose proof (Z.mod_pos_bound (i / p) 2 ltac:(lia)).
  pose proof (Z.div_mod (i / p / 2) nz ltac:(lia)) as D3. pose proof (Z.mod_pos_bound (i / p / 2) nz ltac:(lia)).
  pose proof (Z.div_mod (i / p / 2 / nz) ny ltac:(lia)) as D4. pose proof (Z.mod_pos_bound (i / p / 2 / nz) ny ltac:(lia)).
  assert (0 <= i / p < lnx * ny * nz * 2) by (split; [apply Z.div_pos; lia|apply Z.div_lt_upper_bound; lia]).
  assert (0 <= i / p / 2 < lnx * ny * nz) by (split; [apply Z.div_pos; lia|apply Z.div_lt_upper_bound; lia]).
  assert (0 <= i / p / 2 / nz < lnx * ny) by (split; [apply Z.div_pos; lia|apply Z.div_lt_upper_bound; lia]).
  assert (0 <= i / p / 2 / nz / ny < lnx) by (split; [apply Z.div_pos; lia|apply Z.div_lt_upper_bound; lia]).
  specialize (Ha (i / p / 2 / nz / ny) ((i / p / 2 / nz) mod ny) ((i / p / 2) mod nz) ((i / p) mod 2) (i mod p)).
  unfold amp in Ha. replace ((((i / p / 2 / nz / ny * ny + (i / p / 2 / nz) mod ny) * nz + (i / p / 2) mod nz) * 2 + (i / p) mod 2) * p + i mod p) with i in Ha.
  - apply Ha. repeat split; lia.
  - replace (i / p / 2 / nz / ny * ny + (i / p / 2 / nz) mod ny) with (i / p / 2 / nz) by lia.
    replace (i / p / 2 / nz * nz + (i / p / 2) mod nz) with (i / p / 2) by lia.
    replace (i / p / 2 * 2 + (i / p) mod 2) with (i / p) by lia. lia.
Qed.

Section Proj.
Variables lnx ny nz p : Z.
Notation prj := (projected lnx ny nz p).
Notation mz := (fun y z : Z => y). 
Notation zz := (fun y z : Z => opp nz z).
Notation my := (fun y z : Z => opp ny y).
Notation yz := (fun y z : Z => z).
Notation ins := (inside lnx ny nz p).

Lemma projz_sym s X X' : s = 1 \/ s = -1 -> prj (IZR s) mz zz X X' -> zsymmetric s lnx ny nz p X'.
Proof.
  intros Hs (L & Q & R) x y z c b I. unfold zflip. rewrite Q by (apply inside_oppz; exact I). rewrite Q by exact I. cbv beta.
  rewrite opp_opp by apply I. pm c Hs.
Qed.
Lemma projy_sym s X X' : s = 1 \/ s = -1 -> prj (IZR (- s)) my yz X X' -> ysymmetric s lnx ny nz p X'.
Proof.
  intros Hs (L & Q & R) x y z c b I. unfold yflip. rewrite Q by (apply inside_oppy; exact I). rewrite Q by exact I. cbv beta.
  rewrite opp_opp by apply I. pm c Hs.
Qed.
Lemma zsym_flip s X x y z c b : s = 1 \/ s = -1 -> zsymmetric s lnx ny nz p X -> ins x y z c b ->
  amp ny nz p X x y (opp nz z) c b = Cscal (if c =? 0 then IZR s else - IZR s) (amp ny nz p X x y z c b).
Proof.
  intros Hs H I. specialize (H x y z c b I). unfold zflip in H. set (A := amp ny nz p X x y (opp nz z) c b) in *.
  set (B := amp ny nz p X x y z c b) in *.
  assert (E : A = Cscal (if c =? 0 then 1 else -1) (Cscal (IZR s) B)) by (rewrite <- H; destruct (c =? 0); apply C_eq; csimp; lra).
  rewrite E. destruct (c =? 0); apply C_eq; csimp; lra.
Qed.
Lemma ysym_flip s X x y z c b : s = 1 \/ s = -1 -> ysymmetric s lnx ny nz p X -> ins x y z c b ->
  amp ny nz p X x (opp ny y) z c b = Cscal (if c =? 0 then IZR (- s) else - IZR (- s)) (amp ny nz p X x y z c b).
Proof.
  intros Hs H I. specialize (H x y z c b I). unfold yflip in H. set (A := amp ny nz p X x (opp ny y) z c b) in *.
  set (B := amp ny nz p X x y z c b) in *.
  assert (E : A = Cscal (if c =? 0 then -1 else 1) (Cscal (IZR s) B)) by (rewrite <- H; destruct (c =? 0); apply C_eq; csimp; lra).
  rewrite E. rewrite opp_IZR. destruct (c =? 0); apply C_eq; csimp; lra.
Qed.
(** A symmetric field is left alone. *)
Lemma projz_fix s X X' : 0 <= p -> 0 < ny -> 0 < nz -> lnx * ny * nz * 2 * p <= Z.of_nat (length X) -> s = 1 \/ s = -1 -> prj (IZR s) mz zz X X' ->
  zsymmetric s lnx ny nz p X -> X' = X.
Proof.
  intros Hp Hy Hz Hl Hs (L & Q & R) Sy. apply (amp_ext lnx ny nz p); auto; [lia|]. intros x y z c b I. rewrite Q by exact I. cbv beta.
  rewrite (zsym_flip s) by auto. pm c Hs.
Qed.
Lemma projy_fix s X X' : 0 <= p -> 0 < ny -> 0 < nz -> lnx * ny * nz * 2 * p <= Z.of_nat (length X) -> s = 1 \/ s = -1 -> prj (IZR (- s)) my yz X X' ->
  ysymmetric s lnx ny nz p X -> X' = X.
Proof.
  intros Hp Hy Hz Hl Hs (L & Q & R) Sy. apply (amp_ext lnx ny nz p); auto; [lia|]. intros x y z c b I. rewrite Q by exact I. cbv beta.
  rewrite (ysym_flip s) by auto. pm c Hs.
Qed.
(** The y projection keeps z symmetry. *)
Lemma projy_keeps s t X X' : s = 1 \/ s = -1 -> prj (IZR t) my yz X X' -> zsymmetric s lnx ny nz p X -> zsymmetric s lnx ny nz p X'.
Proof.
  intros Hs (L & Q & R) Sy x y z c b I. unfold zflip. rewrite Q by (apply inside_oppz; exact I). rewrite Q by exact I. cbv beta.
  rewrite (zsym_flip s) by auto. rewrite (zsym_flip s X x (opp ny y)) by (auto; apply inside_oppy; exact I).
  set (A := amp ny nz p X x y z c b). set (B := amp ny nz p X x (opp ny y) z c b). clearbody A B. clear. destruct (c =? 0); apply C_eq; csimp; lra.
Qed.
End Proj.

(** ** The constraint functions *)

Lemma mask_or parity a b : 0 <= a -> 0 <= b -> a <> b -> has parity (Z.lor (2 ^ a) (2 ^ b)) = Z.testbit parity a || Z.testbit parity b.
Proof.
  intros Ha Hb Hab. unfold has. rewrite mask_zero by auto. destruct (Z.testbit parity a), (Z.testbit parity b); reflexivity.
Qed.

Definition zmaybe lnx ny nz p parity X X' :=
  (wanted parity 0 1 = 0 /\ X' = X) \/
  (wanted parity 0 1 <> 0 /\ projected lnx ny nz p (IZR (wanted parity 0 1)) (fun y z => y) (fun y z => opp nz z) X X').
Definition ymaybe lnx ny nz p parity X X' :=
  (wanted parity 2 3 = 0 /\ X' = X) \/
  (wanted parity 2 3 <> 0 /\ projected lnx ny nz p (IZR (- wanted parity 2 3)) (fun y z => opp ny y) (fun y z => z) X X').

Lemma zc_ok nx lnx ny nz parity p X : field lnx ny nz p X -> sizes nx lnx ny nz ->
  exists X', zparity_constraint nx lnx ny nz parity p X = Val X' /\ zmaybe lnx ny nz p parity X X' /\ length X' = length X.
Proof.
  intros F S. destruct (Z.eq_dec (wanted parity 0 1) 0) as [E|E].
  - exists X. split; [|split; [left; auto|reflexivity]]. unfold zparity_constraint. rewrite zsign_spec, E. reflexivity.
  - destruct (zproj_ok nx lnx ny nz parity p X F S E) as (X' & EX & P). exists X'. split; [exact EX|]. split; [right; auto|apply P].
Qed.
Lemma yc_ok lnx ny nz parity p X : field lnx ny nz p X ->
  exists X', yparity_constraint lnx ny nz parity p X = Val X' /\ ymaybe lnx ny nz p parity X X' /\ length X' = length X.
Proof.
  intros F. destruct (Z.eq_dec (wanted parity 2 3) 0) as [E|E].
  - exists X. split; [|split; [left; auto|reflexivity]]. unfold yparity_constraint. rewrite ysign_spec, E. reflexivity.
  - destruct (yproj_ok lnx ny nz parity p X F E) as (X' & EX & P). exists X'. split; [exact EX|]. split; [right; auto|apply P].
Qed.
Lemma field_len lnx ny nz p X X' : length X' = length X -> field lnx ny nz p X -> field lnx ny nz p X'.
Proof. intros L (A & B & D & E & F). repeat split; auto. lia. Qed.

(** The combined constraint is one after the other. *)
Lemma pc_eq nx lnx ny nz parity p X : parity_constraint nx lnx ny nz parity p X =
  (let! X1 := zparity_constraint nx lnx ny nz parity p X in yparity_constraint lnx ny nz parity p X1).
Proof.
  unfold parity_constraint. change EVEN_Z with (2 ^ 0). change ODD_Z with (2 ^ 1). change EVEN_Y with (2 ^ 2). change ODD_Y with (2 ^ 3).
  rewrite !mask_or by lia.
  assert (Z0 : Z.testbit parity 0 || Z.testbit parity 1 = false -> zparity_constraint nx lnx ny nz parity p X = Val X).
  { intros E. apply orb_false_iff in E as (E1 & E2). unfold zparity_constraint. rewrite zsign_spec. unfold wanted. rewrite E1, E2. reflexivity. }
  assert (Y0 : forall Y, Z.testbit parity 2 || Z.testbit parity 3 = false -> yparity_constraint lnx ny nz parity p Y = Val Y).
  { intros Y E. apply orb_false_iff in E as (E1 & E2). unfold yparity_constraint. rewrite ysign_spec. unfold wanted. rewrite E1, E2. reflexivity. }
  destruct (Z.testbit parity 0 || Z.testbit parity 1) eqn:Ez; [|rewrite Z0 by reflexivity]; cbn [bind];
  (destruct (Z.testbit parity 2 || Z.testbit parity 3) eqn:Ey; [reflexivity|]).
  - destruct (zparity_constraint nx lnx ny nz parity p X); cbn [bind]; [|reflexivity..]. rewrite Y0 by reflexivity. reflexivity.
  - rewrite Y0 by reflexivity. reflexivity.
Qed.

Lemma pc_ok nx lnx ny nz parity p X : field lnx ny nz p X -> sizes nx lnx ny nz ->
  exists X1 X', parity_constraint nx lnx ny nz parity p X = Val X' /\ zmaybe lnx ny nz p parity X X1 /\ ymaybe lnx ny nz p parity X1 X' /\
    length X1 = length X /\ length X' = length X.
Proof.
  intros F S. rewrite pc_eq. destruct (zc_ok nx lnx ny nz parity p X F S) as (X1 & -> & Z1 & L1). cbn [bind].
  destruct (yc_ok lnx ny nz parity p X1 (field_len _ _ _ _ _ _ L1 F)) as (X' & E & Y1 & L2). exists X1, X'. rewrite E. repeat split; auto. congruence.
Qed.

Lemma pc_symmetric nx lnx ny nz parity p X : field lnx ny nz p X -> sizes nx lnx ny nz ->
  exists X', parity_constraint nx lnx ny nz parity p X = Val X' /\ length X' = length X /\
    (wanted parity 0 1 <> 0 -> zsymmetric (wanted parity 0 1) lnx ny nz p X') /\
    (wanted parity 2 3 <> 0 -> ysymmetric (wanted parity 2 3) lnx ny nz p X').
Proof.
  intros F S. destruct (pc_ok nx lnx ny nz parity p X F S) as (X1 & X' & E & Hz & Hy & L1 & L2). exists X'. split; [exact E|]. split; [exact L2|]. split.
  - intros W. pose proof (wanted_pm _ _ _ W) as Hs. destruct Hz as [(C & _)|(_ & Pz)]; [contradiction|].
    pose proof (projz_sym _ _ _ _ _ _ _ Hs Pz) as Sz. destruct Hy as [(_ & ->)|(_ & Py)]; [exact Sz|].
    exact (projy_keeps lnx ny nz p _ _ _ _ Hs Py Sz).
  - intros W. pose proof (wanted_pm _ _ _ W) as Hs. destruct Hy as [(C & _)|(_ & Py)]; [contradiction|]. exact (projy_sym _ _ _ _ _ _ _ Hs Py).
Qed.

Lemma pc_fixes nx lnx ny nz parity p X : field lnx ny nz p X -> sizes nx lnx ny nz ->
  (wanted parity 0 1 <> 0 -> zsymmetric (wanted parity 0 1) lnx ny nz p X) ->
  (wanted parity 2 3 <> 0 -> ysymmetric (wanted parity 2 3) lnx ny nz p X) ->
  parity_constraint nx lnx ny nz parity p X = Val X.
Proof.
  intros F S Sz Sy. destruct (pc_ok nx lnx ny nz parity p X F S) as (X1 & X' & E & Hz & Hy & L1 & L2). rewrite E. f_equal.
  pose proof F as (F1 & F2 & F3 & F4 & F5).
  assert (X1 = X). { destruct Hz as [(_ & ->)|(W & Pz)]; [reflexivity|]. apply (projz_fix lnx ny nz p (wanted parity 0 1)); auto. apply wanted_pm; auto. }
  subst X1. destruct Hy as [(_ & ->)|(W & Py)]; [reflexivity|]. apply (projy_fix lnx ny nz p (wanted parity 2 3)); auto. apply wanted_pm; auto.
Qed.

Lemma pc_idem nx lnx ny nz parity p X X' : field lnx ny nz p X -> sizes nx lnx ny nz ->
  parity_constraint nx lnx ny nz parity p X = Val X' -> parity_constraint nx lnx ny nz parity p X' = Val X'.
Proof.
  intros F S E. destruct (pc_symmetric nx lnx ny nz parity p X F S) as (X2 & E2 & L & A & B). rewrite E in E2. injection E2 as <-.
  apply pc_fixes; auto. exact (field_len _ _ _ _ _ _ L F).
Qed.

Lemma zy_commute nx lnx ny nz parity p X : field lnx ny nz p X -> sizes nx lnx ny nz ->
  (let! X1 := zparity_constraint nx lnx ny nz parity p X in yparity_constraint lnx ny nz parity p X1) =
  (let! X1 := yparity_constraint lnx ny nz parity p X in zparity_constraint nx lnx ny nz parity p X1).
Proof.
  intros F S. pose proof F as (F1 & F2 & F3 & F4 & F5).
  destruct (zc_ok nx lnx ny nz parity p X F S) as (Xz & Ez & Hz & Lz).
  destruct (yc_ok lnx ny nz parity p X F) as (Xy & Ey & Hy & Ly). rewrite Ez, Ey. cbn [bind].
  destruct (yc_ok lnx ny nz parity p Xz (field_len _ _ _ _ _ _ Lz F)) as (Xzy & Ezy & Hzy & Lzy).
  destruct (zc_ok nx lnx ny nz parity p Xy (field_len _ _ _ _ _ _ Ly F) S) as (Xyz & Eyz & Hyz & Lyz). rewrite Ezy, Eyz. f_equal.
  destruct Hz as [(W & ->)|(W & (_ & Qz & Rz))].
  { destruct Hyz as [(_ & ->)|(C & _)]; [|contradiction]. rewrite Ey in Ezy. congruence. }
  destruct Hyz as [(C & _)|(_ & (_ & Qyz & Ryz))]; [contradiction|].
  destruct Hy as [(Wy & ->)|(Wy & (_ & Qy & Ry))].
  { destruct Hzy as [(_ & ->)|(C & _)]; [|contradiction]. rewrite Ez in Eyz. congruence. }
  destruct Hzy as [(C & _)|(_ & (_ & Qzy & Rzy))]; [contradiction|].
  apply (amp_ext lnx ny nz p); auto; [congruence|rewrite Lzy, Lz; exact F5| |].
  - intros x y z c b I. pose proof (inside_oppz _ _ _ _ _ _ _ _ _ I) as Iz. pose proof (inside_oppy _ _ _ _ _ _ _ _ _ I) as Iy.
    rewrite Qzy, Qyz, Qz, Qy by exact I. cbv beta. rewrite Qz by exact Iy. rewrite Qy by exact Iz. cbv beta. clear. destruct (c =? 0); apply C_eq; csimp; lra.
  - intros i Hi. rewrite Rzy, Rz, Ryz, Ry by exact Hi. reflexivity.
Qed.
