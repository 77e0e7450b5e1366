(** Property C76: the wave vectors found by find-k. *)
From Coq Require Import List ZArith Reals Bool Lia Lra.
From Verif Require Import Base RC M_Scheme M_Findk S_Findk L_Findk2 L_FindkEx.
Import ListNotations.
Local Open Scope R_scope.

(** For any root finder, any solver and any number of bands: find-k completes, and the result is that
    of treating the bands from the highest down, each search starting from the number tried so far
    that comes closest to the frequency for this band, all its questions answered with frequency and
    velocity of that band at that k.  The answers are those of a calculation with A k bands at this k,
    where A k is the highest band for which k was tried, and at every k tried there is one single
    calculation.  num-bands and k-points are as before.  Every band function is called once for
    each band, from the highest down, after a calculation of the band at the k found for it. *)
Theorem C76_search : forall solve k_split_num omega band_min band_max korig kdir1 frd guess nf num_bands k_points,
  (forall b k, (0 <= b)%Z -> length (solve b k) = Z.to_nat b) ->
  (1 <= band_min)%Z -> (0 < k_split_num)%Z -> Z.of_nat (length guess) = (band_max - band_min + 1)%Z ->
  exists ks st A distinct tried,
    find_k solve k_split_num 0 omega band_min band_max korig kdir1 frd guess nf num_bands k_points = Val (ks, st) /\
    searched (fun b k => of_band omega b (solve (A k) (kvec korig kdir1 k))) frd
      (combine (downwards band_max (length guess)) (rev guess)) [] (rev ks) tried /\
    (forall b k, In (b, k) tried -> (b <= A k)%Z /\ In (A k, k) tried /\ In k distinct) /\
    (forall k, In k distinct -> In (A k, k) tried) /\ NoDup distinct /\
    f_nb st = num_bands /\ f_kpts st = k_points /\
    rev (f_runs st) = map (fun k => (A k, kvec korig kdir1 k)) distinct ++
      (if Nat.eqb nf 0 then []
       else combine (downwards band_max (length guess)) (map (kvec korig kdir1) (rev ks))) /\
    rev (f_calls st) = flat_map (fun p => map (fun i => (fst p, i, kvec korig kdir1 (snd p))) (seq 0 nf))
                         (combine (downwards band_max (length guess)) (rev ks)).
Proof.
  intros solve k_split_num omega band_min band_max korig kdir1 frd guess nf num_bands k_points H1 H2 H3 H4.
  exact (find_k_ok solve k_split_num omega band_min band_max korig kdir1 frd guess H1 H2 H3 H4 nf num_bands k_points).
Qed.
Print Assumptions C76_search.

(** When the values of a band do not depend on how many bands are calculated, the cached values do
    not matter: every search sees the frequency and velocity of its own band. *)
Theorem C76_exact : forall solve F k_split_num omega band_min band_max korig kdir1 frd guess nf num_bands k_points ks st,
  (forall b k, (0 <= b)%Z -> length (solve b k) = Z.to_nat b) ->
  (forall b i k, (1 <= i <= b)%Z -> nth_error (solve b k) (Z.to_nat (i - 1)) = Some (F i k)) ->
  (1 <= band_min)%Z -> (0 < k_split_num)%Z -> Z.of_nat (length guess) = (band_max - band_min + 1)%Z ->
  find_k solve k_split_num 0 omega band_min band_max korig kdir1 frd guess nf num_bands k_points = Val (ks, st) ->
  exists tried,
    searched (fun b k => (fst (F b (kvec korig kdir1 k)) - omega, snd (F b (kvec korig kdir1 k)))) frd
      (combine (downwards band_max (length guess)) (rev guess)) [] (rev ks) tried.
Proof. exact find_k_exact. Qed.
Print Assumptions C76_exact.

(** Hence, whatever the root finder guarantees of its result for a function, find-k guarantees
    for every band: the i-th number returned is for band band_min + i. *)
Theorem C76_roots : forall solve F (good : (R -> R * R) -> R -> Prop)
    k_split_num omega band_min band_max korig kdir1 frd guess nf num_bands k_points ks st,
  (forall b k, (0 <= b)%Z -> length (solve b k) = Z.to_nat b) ->
  (forall b i k, (1 <= i <= b)%Z -> nth_error (solve b k) (Z.to_nat (i - 1)) = Some (F i k)) ->
  (1 <= band_min)%Z -> (0 < k_split_num)%Z -> Z.of_nat (length guess) = (band_max - band_min + 1)%Z ->
  find_k solve k_split_num 0 omega band_min band_max korig kdir1 frd guess nf num_bands k_points = Val (ks, st) ->
  (forall f start k asked, plays f (frd start) k asked -> good f k) ->
  length ks = length guess /\
  forall i k, nth_error ks i = Some k ->
    good (fun k => let fv := F (band_min + Z.of_nat i)%Z (kvec korig kdir1 k) in (fst fv - omega, snd fv)) k.
Proof. exact find_k_roots. Qed.
Print Assumptions C76_roots.

(** The k points of find-k are split like those of any run: with any chunk but the first selected
    nothing is calculated, and no search that asks for a value gets one. *)
Theorem C76_split_refuted : exists k_split_num k_split_index,
  (0 <= k_split_index < k_split_num)%Z /\
  forall solve omega band_min band_max korig kdir1 frd guess nf num_bands k_points ks st,
    (band_min <= band_max)%Z -> (forall g, exists k next, frd g = Ask k next) ->
    find_k solve k_split_num k_split_index omega band_min band_max korig kdir1 frd guess nf num_bands k_points
      <> Val (ks, st).
Proof. exact find_k_split. Qed.
Print Assumptions C76_split_refuted.

(** Two bands, frequency of band b at k equal to b + k: one Newton step from a guess finds
    k = 2 and k = 1 for the frequency 3.  Band 1 is not calculated again: its values at k = 0 were
    found with those of band 2. *)
Example C76_ex :
  (forall b k, (0 <= b)%Z -> length (fx_solve b k) = Z.to_nat b) /\
  (forall b i k, (1 <= i <= b)%Z -> nth_error (fx_solve b k) (Z.to_nat (i - 1)) = Some (fx_F i k)) /\
  exists ks st,
    find_k fx_solve 1 0 3 1 2 (0, 0, 0) (1, 0, 0) fx_frd [0; 0] 1 8 [(0, 0, 0)] = Val (ks, st) /\
    ks = [2; 1] /\ f_nb st = 8%Z /\
    f_runs st = [(1%Z, (2, 0, 0)); (2%Z, (1, 0, 0)); (2%Z, (0, 0, 0))] /\
    f_calls st = [(1%Z, 0%nat, (2, 0, 0)); (2%Z, 0%nat, (1, 0, 0))].
Proof. exact fx_run. Qed.
