From Coq Require Import List ZArith Reals Bool Lia Lra.
From Verif Require Import Base RC M_Scheme M_Findk S_Findk.
Import ListNotations.
Local Open Scope R_scope.

Lemma vref_ok : forall l i x, (0 <= i)%Z -> nth_error l (Z.to_nat i) = Some x -> vector_ref l i = Val x.
Proof. intros l i x H E. unfold vector_ref. destruct (Z.ltb_spec i 0); [lia|]. now rewrite E. Qed.

Lemma vset_ok : forall l i x, (0 <= i < Z.of_nat (length l))%Z -> exists l', vector_set l i x = Val l' /\
  length l' = length l /\
  forall j, nth_error l' j = if Nat.eqb j (Z.to_nat i) then Some x else nth_error l j.
Proof.
  intros l i x H. unfold vector_set. destruct (Z.ltb_spec i 0); [lia|]. destruct (Z.leb_spec (Z.of_nat (length l)) i); [lia|].
  cbn [orb]. eexists. split; [reflexivity|].
  assert (Hi : (Z.to_nat i < length l)%nat) by lia. set (n := Z.to_nat i) in *. clearbody n. clear - Hi.
  revert l Hi. induction n; intros [|a l] Hi; cbn in Hi; try lia.
  - cbn. split; [reflexivity|]. intros [|j]; reflexivity.
  - destruct (IHn l ltac:(lia)) as [L N]. split.
    + cbn. cbn in L. rewrite L. reflexivity.
    + intros [|j]; [reflexivity|]. cbn in N. cbn. apply N.
Qed.

Lemma ncdr_ok : forall A n (l : list A), (n <= length l)%nat -> ncdr n l = Val (skipn n l).
Proof. induction n; intros [|a l] H; cbn in *; try reflexivity; try lia. apply IHn. lia. Qed.

Lemma assoc_cons : forall b k b' k' v t,
  assoc b k (((b', k'), v) :: t) = if (b =? b')%Z && Reqb k k' then Some v else assoc b k t.
Proof. reflexivity. Qed.

Section FK.
Variable solve : Z -> v3 -> list (R * R).
Variable omega : R.
Variable band_min : Z.

Definition upd (k : R) (fv : R * R) (k0 : R) (o : option (R * R)) : R :=
  match o with
  | None => k
  | Some tv => if Rltb (Rabs (fst fv - omega)) (Rabs (fst tv)) then k else k0
  end.

Lemma cache_ok : forall k b f v st,
  (band_min <= b < band_min + Z.of_nat (length (f_k0s st)))%Z ->
  exists st', cache omega band_min k b f v st = Val st' /\
    f_nb st' = f_nb st /\ f_kpts st' = f_kpts st /\ f_runs st' = f_runs st /\ f_calls st' = f_calls st /\
    length (f_k0s st') = length (f_k0s st) /\
    f_tab st' = ((b, k), (f - omega, v)) :: f_tab st /\
    forall j k0, nth_error (f_k0s st) j = Some k0 ->
      nth_error (f_k0s st') j =
        Some (if Nat.eqb j (Z.to_nat (b - band_min)) then upd k (f, v) k0 (assoc b k0 (f_tab st)) else k0).
Proof.
  intros k b f v st Hb. unfold cache.
  destruct (nth_error (f_k0s st) (Z.to_nat (b - band_min))) as [k0|] eqn:E.
  2:{ exfalso. apply nth_error_None in E. revert Hb E. generalize (length (f_k0s st)). intros n Hb E. lia. }
  rewrite (vref_ok (f_k0s st) (b - band_min) k0 ltac:(lia) E). cbn [bind].
  destruct (vset_ok (f_k0s st) (b - band_min) k ltac:(lia)) as (l' & Es & Ls & Ns).
  assert (KEEP : forall j k1, nth_error (f_k0s st) j = Some k1 ->
     nth_error l' j = Some (if Nat.eqb j (Z.to_nat (b - band_min)) then k else k1)).
  { intros j k1 Ej. rewrite Ns. destruct (Nat.eqb j (Z.to_nat (b - band_min))); [reflexivity|assumption]. }
  destruct (assoc b k0 (f_tab st)) as [tv|] eqn:Ea.
  - destruct (Rltb (Rabs (f - omega)) (Rabs (fst tv))) eqn:El.
    + rewrite Es. cbn [bind]. eexists. split; [reflexivity|]. cbn. repeat (split; [first [reflexivity|assumption]|]).
      intros j k1 Ej. rewrite (KEEP _ _ Ej). destruct (Nat.eqb_spec j (Z.to_nat (b - band_min))); [|reflexivity].
      subst j. rewrite E in Ej. injection Ej as <-. rewrite Ea. cbn. rewrite El. reflexivity.
    + cbn [bind]. eexists. split; [reflexivity|]. cbn. repeat (split; [first [reflexivity|assumption]|]).
      intros j k1 Ej. destruct (Nat.eqb_spec j (Z.to_nat (b - band_min))); [|assumption].
      subst j. rewrite E in Ej. injection Ej as <-. rewrite Ea. cbn. rewrite El. exact E.
  - rewrite Es. cbn [bind]. eexists. split; [reflexivity|]. cbn. repeat (split; [first [reflexivity|assumption]|]).
    intros j k1 Ej. rewrite (KEEP _ _ Ej). destruct (Nat.eqb_spec j (Z.to_nat (b - band_min))); [|reflexivity].
    subst j. rewrite E in Ej. injection Ej as <-. rewrite Ea. reflexivity.
Qed.

Lemma cache_all_ok : forall k n lo fvs st,
  length fvs = n -> (band_min <= lo)%Z -> (lo + Z.of_nat n <= band_min + Z.of_nat (length (f_k0s st)))%Z ->
  exists st', cache_all omega band_min k (arith_sequence lo 1 n) fvs st = Val st' /\
    f_nb st' = f_nb st /\ f_kpts st' = f_kpts st /\ f_runs st' = f_runs st /\ f_calls st' = f_calls st /\
    length (f_k0s st') = length (f_k0s st) /\
    (forall b k', assoc b k' (f_tab st') =
       if ((lo <=? b)%Z && (b <? lo + Z.of_nat n)%Z) && Reqb k' k
       then let fv := nth (Z.to_nat (b - lo)) fvs (0, 0) in Some (fst fv - omega, snd fv)
       else assoc b k' (f_tab st)) /\
    forall b k0, (band_min <= b)%Z -> nth_error (f_k0s st) (Z.to_nat (b - band_min)) = Some k0 ->
      nth_error (f_k0s st') (Z.to_nat (b - band_min)) =
        Some (if (lo <=? b)%Z && (b <? lo + Z.of_nat n)%Z
              then upd k (nth (Z.to_nat (b - lo)) fvs (0, 0)) k0 (assoc b k0 (f_tab st)) else k0).
Proof.
  intros k n. induction n as [|n IH]; intros lo [|[f v] fvs] st L Hlo Hhi; cbn in L; try lia.
  - cbn. eexists. split; [reflexivity|]. repeat (split; [reflexivity|]). split.
    + intros b k'. destruct (Z.leb_spec lo b), (Z.ltb_spec b (lo + 0)); cbn; try reflexivity; lia.
    + intros b k0 Hb E. destruct (Z.leb_spec lo b), (Z.ltb_spec b (lo + 0)); cbn; try assumption; lia.
  - cbn [arith_sequence cache_all].
    destruct (cache_ok k lo f v st ltac:(lia)) as (s1 & E1 & A1 & A2 & A3 & A4 & A5 & A6 & A7).
    rewrite E1. cbn [bind].
    destruct (IH (lo + 1)%Z fvs s1 ltac:(lia) ltac:(lia) ltac:(lia)) as (s2 & E2 & B1 & B2 & B3 & B4 & B5 & B6 & B7).
    exists s2. split; [exact E2|]. repeat (split; [congruence|]).
    assert (T1 : forall b, (lo + 1 <= b)%Z -> forall k', assoc b k' (f_tab s1) = assoc b k' (f_tab st)).
    { intros b Hb k'. rewrite A6, assoc_cons. destruct (Z.eqb_spec b lo); [lia|]. reflexivity. }
    assert (NT : forall b, (lo + 1 <= b)%Z -> nth (Z.to_nat (b - lo)) ((f, v) :: fvs) (0, 0) = nth (Z.to_nat (b - (lo + 1))) fvs (0, 0)).
    { intros b Hb. replace (Z.to_nat (b - lo)) with (S (Z.to_nat (b - (lo + 1)))) by lia. reflexivity. }
    split.
    + intros b k'. rewrite B6.
      destruct (Z.leb_spec (lo + 1) b), (Z.ltb_spec b (lo + 1 + Z.of_nat n)); cbn [andb].
      * destruct (Z.leb_spec lo b); [|lia]. destruct (Z.ltb_spec b (lo + Z.of_nat (S n))); [|lia]. cbn [andb].
        rewrite NT by lia. rewrite T1 by lia. reflexivity.
      * destruct (Z.leb_spec lo b); [|lia]. destruct (Z.ltb_spec b (lo + Z.of_nat (S n))); [lia|]. cbn [andb].
        apply T1. lia.
      * rewrite A6, assoc_cons. destruct (Z.leb_spec lo b); destruct (Z.ltb_spec b (lo + Z.of_nat (S n))); try lia; cbn [andb].
        -- replace b with lo by lia. rewrite Z.eqb_refl, Z.sub_diag. reflexivity.
        -- destruct (Z.eqb_spec b lo); [lia|]. reflexivity.
      * lia.
    + intros b k0 Hb E. specialize (A7 _ _ E). specialize (B7 b _ Hb A7).
      rewrite B7. f_equal. destruct (Nat.eqb_spec (Z.to_nat (b - band_min)) (Z.to_nat (lo - band_min))).
      * replace b with lo in * by lia. destruct (Z.leb_spec (lo + 1) lo); [lia|]. cbn [andb].
        destruct (Z.leb_spec lo lo); [|lia]. destruct (Z.ltb_spec lo (lo + Z.of_nat (S n))); [|lia]. cbn [andb].
        rewrite Z.sub_diag. reflexivity.
      * destruct (Z.leb_spec (lo + 1) b), (Z.ltb_spec b (lo + 1 + Z.of_nat n)); cbn [andb];
        destruct (Z.leb_spec lo b); destruct (Z.ltb_spec b (lo + Z.of_nat (S n))); try lia; cbn [andb]; try reflexivity.
        rewrite NT by lia. rewrite T1 by lia. reflexivity.
Qed.
End FK.
