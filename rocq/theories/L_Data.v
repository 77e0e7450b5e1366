(** Proofs about mpb-data: one direction, one point, the whole array. *)
From Coq Require Import String List ZArith Reals Lra Lia Bool Psatz.
From Verif Require Import Base RC Loops M_Tensor M_Interp L_Interp L_Interp3 M_Evect M_Data S_Data.
Import ListNotations.
Local Open Scope Z_scope.

Lemma int_part_is x m : (IZR m <= x < IZR m + 1)%R -> Int_part x = m.
Proof.
  intros H. pose proof (Int_part_bounds x) as B.
  assert (-1 < Int_part x - m < 1)%Z; [|lia]. split; apply lt_IZR; rewrite minus_IZR; lra.
Qed.
Lemma modf_positive_ok x : modf_positive x = ((x - IZR (Int_part x))%R, Int_part x).
Proof.
  unfold modf_positive. pose proof (Int_part_bounds x) as B.
  destruct (Rlt_le_dec x 0) as [N|P].
  - destruct (rtrunc_neg x N) as [T _]. destruct (Rltb_spec (x - IZR (rtrunc x)) 0) as [L|L].
    + destruct (Rleb_spec 1 (x - IZR (rtrunc x) + 1)); [lra|].
      rewrite (int_part_is x (rtrunc x - 1)) by (rewrite minus_IZR; lra). rewrite minus_IZR. f_equal. lra.
    + rewrite (int_part_is x (rtrunc x)) by lra. reflexivity.
  - destruct (rtrunc_nonneg x P) as [T _]. destruct (Rltb_spec (x - IZR (rtrunc x)) 0) as [L|L]; [lra|].
    rewrite (int_part_is x (rtrunc x)) by lra. reflexivity.
Qed.

Definition weight (near : bool) (X : R) : R :=
  let d := (X - IZR (Int_part X))%R in if near then (if Rle_dec d (1 / 2) then 0 else 1)%R else d.
Lemma axis_ok near n x : 1 <= n ->
  axis near n x = let F := Int_part (x * IZR n) in let w := weight near (x * IZR n) in ((F mod n, F / n, (1 - w)%R), ((F + 1) mod n, (F + 1) / n, w)).
Proof.
  intros Hn. assert (Hr : (1 <= IZR n)%R) by (apply IZR_le; assumption).
  unfold axis. rewrite modf_positive_ok. set (c := Int_part x). set (f := (x - IZR c)%R).
  pose proof (Int_part_bounds x) as B. fold c in B.
  assert (Hf : (0 <= f < 1)%R) by (unfold f; lra).
  assert (P : (0 <= f * IZR n < IZR n)%R) by nra.
  destruct (rtrunc_nonneg (f * IZR n) (proj1 P)) as [T T0]. set (i := rtrunc (f * IZR n)) in *.
  assert (Hi : 0 <= i < n). { split; [assumption|]. apply lt_IZR. lra. }
  assert (F : Int_part (x * IZR n) = i + c * n).
  { apply int_part_is. rewrite plus_IZR, mult_IZR. replace (x * IZR n)%R with (f * IZR n + IZR c * IZR n)%R by (unfold f; ring). lra. }
  assert (D : (f * IZR n - IZR i = x * IZR n - IZR (Int_part (x * IZR n)))%R). { rewrite F, plus_IZR, mult_IZR. unfold f. ring. }
  assert (M : (i + c * n) mod n = i) by (rewrite Z.mod_add by lia; apply Z.mod_small; assumption).
  assert (Q : (i + c * n) / n = c) by (rewrite Z.div_add by lia; rewrite Z.div_small by assumption; lia).
  unfold adj_point. destruct (Rleb_spec 0 (f * IZR n - IZR i)) as [L|L]; [|lra]. rewrite Z.geb_leb.
  unfold weight. rewrite D, F. cbv zeta. rewrite M, Q.
  assert (W : (if Rleb (x * IZR n - IZR (i + c * n)) (/ 2) then 0%R else 1%R) = if Rle_dec (x * IZR n - IZR (i + c * n)) (1 / 2) then 0%R else 1%R).
  { destruct (Rleb_spec (x * IZR n - IZR (i + c * n)) (/ 2)); destruct (Rle_dec (x * IZR n - IZR (i + c * n)) (1 / 2)); reflexivity || lra. }
  destruct (Z.leb_spec n (i + 1)).
  - assert (i = n - 1) by lia. replace (i + c * n + 1) with (0 + (c + 1) * n) by lia.
    rewrite Z.mod_add, Z.div_add by lia. rewrite Z.mod_small, Z.div_small by lia.
    replace (i + 1 - n) with 0 by lia. replace (0 + (c + 1)) with (c + 1) by lia.
    replace (0 + (c + 1) * n) with (i + c * n + 1) by lia. destruct near; rewrite ?W; reflexivity.
  - replace (i + c * n + 1) with ((i + 1) + c * n) by lia.
    rewrite Z.mod_add, Z.div_add by lia. rewrite Z.mod_small, Z.div_small by lia. rewrite Z.add_0_l. destruct near; rewrite ?W; reflexivity.
Qed.

Definition sv (k : option vec) : vec := match k with Some (k0, k1, k2) => (k0 * (2 * PI), k1 * (2 * PI), k2 * (2 * PI))%R | None => (0, 0, 0)%R end.
Lemma add_ok m k sum d ix iy iz w : memo_ok m ->
  exists m', memo_ok m' /\ add_cmplx_times_phase m sum d ix iy iz (sv k) w = ((sum + Cscal w (bloch k (ix, iy, iz) * d))%C, m').
Proof.
  intros Hm. destruct m as [[ph pr] pi]. destruct Hm as [Hr Hi].
  assert (E : exists s0 s1 s2 : R, sv k = (s0, s1, s2) /\
    bloch k (ix, iy, iz) = (cos (IZR ix * s0 + IZR iy * s1 + IZR iz * s2), sin (IZR ix * s0 + IZR iy * s1 + IZR iz * s2))).
  { destruct k as [[[k0 k1] k2]|].
    - exists (k0 * (2 * PI))%R, (k1 * (2 * PI))%R, (k2 * (2 * PI))%R. split; [reflexivity|]. unfold bloch. f_equal; f_equal; ring.
    - exists 0%R, 0%R, 0%R. split; [reflexivity|]. unfold bloch. f_equal; f_equal; ring. }
  destruct E as (s0 & s1 & s2 & -> & ->). unfold add_cmplx_times_phase.
  set (np := (IZR ix * s0 + IZR iy * s1 + IZR iz * s2)%R).
  destruct (Reqb_spec np ph) as [e|e].
  - exists (ph, pr, pi). split; [split; assumption|]. rewrite e, <- Hr, <- Hi. apply f_equal2; [|reflexivity]. unfold Cadd, Cscal, Cmul, re, im; cbn [fst snd]. apply f_equal2; ring.
  - exists (np, cos np, sin np). split; [split; reflexivity|]. apply f_equal2; [|reflexivity]. unfold Cadd, Cscal, Cmul, re, im; cbn [fst snd]. apply f_equal2; ring.
Qed.

Lemma place_in n c : sizes_ok n -> inside n c -> 0 <= place n c < volume n.
Proof.
  destruct n as [[n0 n1] n2], c as [[i j] k]. unfold sizes_ok, inside, place, volume. intros H I.
  assert (0 <= i * n1 + j < n0 * n1) by nia. nia.
Qed.
Lemma rd_get n d c : sizes_ok n -> array n d -> inside n c -> rd d (place n c) = Val (get n d c).
Proof.
  intros H A I. pose proof (place_in n c H I) as P. unfold array in A.
  destruct (rd_in d (place n c)) as [v E]; [lia|]. rewrite E. f_equal. unfold get.
  unfold rd in E. destruct (Z.ltb_spec (place n c) 0); [lia|]. destruct (nth_error d (Z.to_nat (place n c))) eqn:N; [|discriminate].
  injection E as ->. symmetry. apply nth_error_nth with (1 := N).
Qed.
Lemma home_inside n c : sizes_ok n -> inside n (home n c).
Proof.
  destruct n as [[n0 n1] n2], c as [[i j] k]. unfold sizes_ok, inside, home. intros H.
  pose proof (Z.mod_pos_bound i n0). pose proof (Z.mod_pos_bound j n1). pose proof (Z.mod_pos_bound k n2). lia.
Qed.

Lemma neigh near X : neighbours near X = [(Int_part X, (1 - weight near X)%R); (Int_part X + 1, weight near X)].
Proof. reflexivity. Qed.

Lemma point_complex_ok near n k d_re d_im x y z m : sizes_ok n -> array n d_re -> array n d_im -> memo_ok m ->
  let '(n0, n1, n2) := n in
  exists m', memo_ok m' /\
    point_complex d_re d_im n1 n2 (sv k) (axis near n0 x) (axis near n1 y) (axis near n2 z) m =
    Val (cblend near (cont n k d_re d_im) (x * IZR n0, y * IZR n1, z * IZR n2)%R, m').
Proof.
  destruct n as [[n0 n1] n2]. intros Hn A B Hm. set (n := (n0, n1, n2)) in *.
  assert (G : forall c, rd d_re (in_index n1 n2 (fst (fst (home n c))) (snd (fst (home n c))) (snd (home n c))) = Val (get n d_re (home n c)) /\
                        rd d_im (in_index n1 n2 (fst (fst (home n c))) (snd (fst (home n c))) (snd (home n c))) = Val (get n d_im (home n c))).
  { intros [[a b] c]. pose proof (home_inside n (a, b, c) Hn) as Hi. split; [exact (rd_get n d_re _ Hn A Hi)|exact (rd_get n d_im _ Hn B Hi)]. }
  destruct Hn as (h0 & h1 & h2). rewrite (axis_ok near n0 x h0), (axis_ok near n1 y h1), (axis_ok near n2 z h2). cbv zeta.
  unfold cblend, blend. rewrite !neigh.
  set (X := Int_part (x * IZR n0)). set (Y := Int_part (y * IZR n1)). set (Zz := Int_part (z * IZR n2)).
  set (wx := weight near (x * IZR n0)). set (wy := weight near (y * IZR n1)). set (wz := weight near (z * IZR n2)).
  assert (S : forall m0 s0 I J K w, memo_ok m0 -> exists m', memo_ok m' /\
    (let! a := rd d_re (in_index n1 n2 (I mod n0) (J mod n1) (K mod n2)) in
     let! b := rd d_im (in_index n1 n2 (I mod n0) (J mod n1) (K mod n2)) in
     Val (add_cmplx_times_phase m0 s0 (a, b) (I / n0) (J / n1) (K / n2) (sv k) w)) = Val ((s0 + Cscal w (cont n k d_re d_im (I, J, K)))%C, m')).
  { intros m0 s0 I J K w H0. destruct (G (I, J, K)) as [G1 G2]. cbn [home n fst snd] in G1, G2. rewrite G1. cbn [bind]. rewrite G2. cbn [bind].
    destruct (add_ok m0 k s0 (get n d_re (home n (I, J, K)), get n d_im (home n (I, J, K))) (I / n0) (J / n1) (K / n2) w H0) as (m' & O & E).
    exists m'. split; [exact O|]. exact (f_equal (@Val _) E). }
  unfold point_complex, corners. cbn [foldM pick fst snd].
  destruct (S m (0, 0)%R X Y Zz ((1 - wx) * (1 - wy) * (1 - wz))%R Hm) as (m1 & O1 & E1). rewrite E1. cbn [bind fst snd].
  edestruct (S m1) as (m2 & O2 & E2); [exact O1|]. rewrite E2. cbn [bind fst snd].
  edestruct (S m2) as (m3 & O3 & E3); [exact O2|]. rewrite E3. cbn [bind fst snd].
  edestruct (S m3) as (m4 & O4 & E4); [exact O3|]. rewrite E4. cbn [bind fst snd].
  edestruct (S m4) as (m5 & O5 & E5); [exact O4|]. rewrite E5. cbn [bind fst snd].
  edestruct (S m5) as (m6 & O6 & E6); [exact O5|]. rewrite E6. cbn [bind fst snd].
  edestruct (S m6) as (m7 & O7 & E7); [exact O6|]. rewrite E7. cbn [bind fst snd].
  edestruct (S m7) as (m8 & O8 & E8); [exact O7|]. rewrite E8. cbn [bind fst snd].
  exists m8. split; [exact O8|]. f_equal. f_equal. cbn [map rsum_l fold_right fst snd].
  clear. generalize (cont n k d_re d_im). intros f. unfold Cadd, Cscal, re, im. cbn [fst snd]. apply (f_equal2 pair); ring.
Qed.
Lemma point_real_ok near n d_re x y z : sizes_ok n -> array n d_re ->
  let '(n0, n1, n2) := n in
  point_real d_re n1 n2 (axis near n0 x) (axis near n1 y) (axis near n2 z) = Val (blend near (rcont n d_re) (x * IZR n0, y * IZR n1, z * IZR n2)%R).
Proof.
  destruct n as [[n0 n1] n2]. intros Hn A. set (n := (n0, n1, n2)) in *.
  assert (G : forall I J K, rd d_re (in_index n1 n2 (I mod n0) (J mod n1) (K mod n2)) = Val (rcont n d_re (I, J, K))).
  { intros I J K. apply (rd_get n d_re (home n (I, J, K)) Hn A). apply home_inside; assumption. }
  destruct Hn as (h0 & h1 & h2). rewrite (axis_ok near n0 x h0), (axis_ok near n1 y h1), (axis_ok near n2 z h2). cbv zeta.
  unfold blend. rewrite !neigh.
  set (X := Int_part (x * IZR n0)). set (Y := Int_part (y * IZR n1)). set (Zz := Int_part (z * IZR n2)).
  set (wx := weight near (x * IZR n0)). set (wy := weight near (y * IZR n1)). set (wz := weight near (z * IZR n2)).
  unfold point_real, corners. cbn [foldM pick fst snd]. rewrite !G. cbn [bind map rsum_l fold_right fst snd].
  f_equal. clear. generalize (rcont n d_re). intros f. ring.
Qed.
