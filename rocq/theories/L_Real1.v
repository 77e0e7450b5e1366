(** The loops of the real-scalar operator. *)
From Coq Require Import List ZArith Reals Bool Lia Lra.
From Verif Require Import Base RC Loops M_Tensor S_Tensor M_Evect S_Evect L_Evect L_Evect3 M_Grid S_Grid M_Op S_Op L_Op L_Op2 M_Real S_Real.
Import ListNotations.
Local Open Scope Z_scope.

Lemma rd_nthR {A} (l : list A) i z : 0 <= i < Z.of_nat (length l) -> rd l i = Val (nth (Z.to_nat i) l z).
Proof. intros H. unfold rd. destruct (Z.ltb_spec i 0); [lia|]. rewrite (nth_error_nth' l z) by lia. reflexivity. Qed.
Definition getr (a : list R) (x : Z) : R := match rd a x with Val v => v | _ => 0%R end.
Lemma getr_in a x : 0 <= x < Z.of_nat (length a) -> rd a x = Val (getr a x).
Proof. intros H. unfold getr. destruct (rd_in a x H) as (v & ->). reflexivity. Qed.
Lemma getr_wr a a' i v x : wr a i v = Val a' -> getr a' x = if x =? i then v else getr a x.
Proof. intros W. unfold getr. rewrite (rd_wr _ _ _ _ _ W). destruct (x =? i); reflexivity. Qed.
Lemma wr_ok (a : list R) i v : 0 <= i < Z.of_nat (length a) -> exists a', wr a i v = Val a' /\ length a' = length a /\ (forall x, getr a' x = if x =? i then v else getr a x).
Proof. intros H. exists (upd_nat a (Z.to_nat i) v). pose proof (wr_in a i v H) as W. split; [exact W|]. split; [apply upd_length|]. intros x. exact (getr_wr _ _ _ _ _ W). Qed.

(** A loop whose passes write disjoint sets of places, [w] places per pass. *)
Lemma scatter n w (pos : Z -> Z -> Z) (new : Z -> Z -> R) (body : Z -> list R -> outcome (list R)) a : 0 <= n ->
  (forall q t q' t', 0 <= q < n -> 0 <= t < w -> 0 <= q' < n -> 0 <= t' < w -> pos q t = pos q' t' -> q = q' /\ t = t') ->
  (forall q s, 0 <= q < n -> length s = length a -> (forall t, 0 <= t < w -> getr s (pos q t) = getr a (pos q t)) ->
     exists s', body q s = Val s' /\ length s' = length a /\ (forall t, 0 <= t < w -> getr s' (pos q t) = new q t) /\
       (forall x, (forall t, 0 <= t < w -> x <> pos q t) -> getr s' x = getr s x)) ->
  exists a', forZ 0 n body a = Val a' /\ length a' = length a /\ (forall q t, 0 <= q < n -> 0 <= t < w -> getr a' (pos q t) = new q t) /\
    (forall x, (forall q t, 0 <= q < n -> 0 <= t < w -> x <> pos q t) -> getr a' x = getr a x).
Proof.
  intros Hn Inj Hb.
  destruct (forZ_inv (fun i s => length s = length a /\ (forall q t, 0 <= q < i -> 0 <= t < w -> getr s (pos q t) = new q t) /\
    (forall q t, i <= q < n -> 0 <= t < w -> getr s (pos q t) = getr a (pos q t)) /\
    (forall x, (forall q t, 0 <= q < n -> 0 <= t < w -> x <> pos q t) -> getr s x = getr a x)) body 0 n a Hn) as (a' & E & L & H & _ & O).
  - split; [reflexivity|]. split; [intros; lia|]. split; reflexivity.
  - intros i s Hi (L & H1 & H2 & H3). destruct (Hb i s Hi L (fun t Ht => H2 i t ltac:(lia) Ht)) as (s' & E & L' & N & O).
    exists s'. split; [exact E|]. split; [exact L'|].
    assert (K : forall q t, 0 <= q < n -> 0 <= t < w -> q <> i -> getr s' (pos q t) = getr s (pos q t)).
    { intros q t Hq Ht Hne. apply O. intros t' Ht' Ep. destruct (Inj q t i t' Hq Ht Hi Ht' Ep). contradiction. }
    split; [|split].
    + intros q t Hq Ht. destruct (Z.eq_dec q i) as [->|Hne]; [apply N; exact Ht|]. rewrite K by (lia || assumption). apply H1; [lia|exact Ht].
    + intros q t Hq Ht. rewrite K by (lia || assumption). apply H2; [lia|exact Ht].
    + intros x Hx. rewrite O by (intros t Ht; apply Hx; [lia|exact Ht]). apply H3. exact Hx.
  - exists a'. auto.
Qed.

(** Vectors of scalars and of complex numbers in an array of scalars. *)
Definition rsel (i : Z) (v : rvec) : R := if i =? 0 then fst (fst v) else if i =? 1 then snd (fst v) else snd v.
Definition rarr (a : list R) (q : Z) : rvec := (getr a (3 * q), getr a (3 * q + 1), getr a (3 * q + 2)).
Definition cget (a : list R) (i : Z) : C := (getr a (2 * i), getr a (2 * i + 1)).
Definition carr (a : list R) (q : Z) : cvec := (cget a (3 * q), cget a (3 * q + 1), cget a (3 * q + 2)).
Lemma rarr_new a q v : (forall t, 0 <= t < 3 -> getr a (3 * q + t) = rsel t v) -> rarr a q = v.
Proof.
  intros H. destruct v as [[x y] z]. unfold rarr. rewrite <- (Z.add_0_r (3 * q)) at 1. rewrite !H by lia. reflexivity.
Qed.
Lemma rdr3_ok a q : 0 <= q -> 3 * q + 2 < Z.of_nat (length a) -> rdr3 a (3 * q) = Val (rarr a q).
Proof. intros H1 H2. unfold rdr3, rarr. rewrite !getr_in by lia. reflexivity. Qed.
Lemma wrr3_ok a q v : 0 <= q -> 3 * q + 2 < Z.of_nat (length a) ->
  exists a', wrr3 a (3 * q) v = Val a' /\ length a' = length a /\ (forall t, 0 <= t < 3 -> getr a' (3 * q + t) = rsel t v) /\
    (forall x, (forall t, 0 <= t < 3 -> x <> 3 * q + t) -> getr a' x = getr a x).
Proof.
  intros H1 H2. destruct v as [[v0 v1] v2]. unfold wrr3.
  destruct (wr_ok a (3 * q) v0) as (a1 & -> & L1 & G1); [lia|]. cbn [bind].
  destruct (wr_ok a1 (3 * q + 1) v1) as (a2 & -> & L2 & G2); [lia|]. cbn [bind].
  destruct (wr_ok a2 (3 * q + 2) v2) as (a3 & -> & L3 & G3); [lia|].
  exists a3. split; [reflexivity|]. split; [congruence|]. split.
  - intros t Ht. rewrite G3, G2, G1. unfold rsel. cbn [fst snd].
    destruct (Z.eqb_spec (3 * q + t) (3 * q + 2)), (Z.eqb_spec (3 * q + t) (3 * q + 1)), (Z.eqb_spec (3 * q + t) (3 * q)), (Z.eqb_spec t 0), (Z.eqb_spec t 1); try lia; reflexivity.
  - intros x Hx. rewrite G3, G2, G1. pose proof (Hx 0 ltac:(lia)). pose proof (Hx 1 ltac:(lia)). pose proof (Hx 2 ltac:(lia)).
    destruct (Z.eqb_spec x (3 * q + 2)), (Z.eqb_spec x (3 * q + 1)), (Z.eqb_spec x (3 * q)); try lia; reflexivity.
Qed.
Lemma rdc_ok a i : 0 <= i -> 2 * i + 1 < Z.of_nat (length a) -> rdc a i = Val (cget a i).
Proof. intros H1 H2. unfold rdc, cget. rewrite !getr_in by lia. reflexivity. Qed.
Lemma wrc_ok a i v : 0 <= i -> 2 * i + 1 < Z.of_nat (length a) ->
  exists a', wrc a i v = Val a' /\ length a' = length a /\ cget a' i = v /\ (forall x, x <> 2 * i -> x <> 2 * i + 1 -> getr a' x = getr a x).
Proof.
  intros H1 H2. destruct v as [v0 v1]. unfold wrc. cbn [re im fst snd].
  destruct (wr_ok a (2 * i) v0) as (a1 & -> & L1 & G1); [lia|]. cbn [bind].
  destruct (wr_ok a1 (2 * i + 1) v1) as (a2 & -> & L2 & G2); [lia|].
  exists a2. split; [reflexivity|]. split; [congruence|]. split.
  - unfold cget. rewrite !G2, !G1, !Z.eqb_refl. destruct (Z.eqb_spec (2 * i) (2 * i + 1)); [lia|]. reflexivity.
  - intros x Hx Hx'. rewrite G2, G1. destruct (Z.eqb_spec x (2 * i + 1)), (Z.eqb_spec x (2 * i)); try lia; reflexivity.
Qed.
Lemma rdc3_ok a q : 0 <= q -> 6 * q + 5 < Z.of_nat (length a) -> rdc3 a (3 * q) = Val (carr a q).
Proof. intros H1 H2. unfold rdc3, carr. rewrite !rdc_ok by lia. reflexivity. Qed.
Lemma wrc3_ok a q v : 0 <= q -> 6 * q + 5 < Z.of_nat (length a) ->
  exists a', wrc3 a (3 * q) v = Val a' /\ length a' = length a /\ carr a' q = v /\ (forall x, x < 6 * q \/ 6 * q + 5 < x -> getr a' x = getr a x).
Proof.
  intros H1 H2. destruct v as [[v0 v1] v2]. unfold wrc3.
  destruct (wrc_ok a (3 * q) v0) as (a1 & -> & L1 & E1 & G1); [lia|lia|]. cbn [bind].
  destruct (wrc_ok a1 (3 * q + 1) v1) as (a2 & -> & L2 & E2 & G2); [lia|lia|]. cbn [bind].
  destruct (wrc_ok a2 (3 * q + 2) v2) as (a3 & -> & L3 & E3 & G3); [lia|lia|].
  exists a3. split; [reflexivity|]. split; [congruence|]. split.
  - unfold carr. rewrite E3. rewrite <- E2, <- E1. unfold cget. repeat (f_equal; [|]); try (rewrite !G3 by lia; rewrite ?G2 by lia; reflexivity).
  - intros x Hx. rewrite G3, G2, G1 by lia. reflexivity.
Qed.
