(** Proofs about mpb-data: without options, copies, transposition. *)
From Coq Require Import String List ZArith Reals Lra Lia Bool Psatz.
From Verif Require Import Base RC Loops M_Tensor M_Interp L_Interp L_Interp3 M_Evect L_Out L_Out3 M_Data S_Data L_Data L_Data2 L_Data3 L_Data4 L_Data5.
Import ListNotations.
Local Open Scope Z_scope.

Definition mul3 (m v : vec) : vec := let '(a, b, c) := m in let '(x, y, z) := v in (a * x, b * y, c * z)%R.
Lemma times_place m L n c : same_place L (times m L) n c (mul3 m (frac n c)).
Proof.
  unfold same_place. destruct m as [[a b] d], L as [[[[a0 a1] a2] [[b0 b1] b2]] [[c0 c1] c2]], (frac n c) as [[x y] z].
  unfold combo, times, mul3, sc3. f_equal; [f_equal|]; ring.
Qed.
Lemma out_count_mult res m l n : ~ (0 < res)%R -> 1 <= n -> 1 <= m -> out_count res (IZR m) l n = n * m.
Proof.
  intros R N M. unfold out_count. destruct (Rlt_dec 0 res); [contradiction|]. rewrite <- mult_IZR, int_part_IZR. nia.
Qed.
Lemma out_dims_mult res m0 m1 m2 R dims : ~ (0 < res)%R -> dims_ok dims -> copies_ok (m0, m1, m2) dims ->
  pad (out_dims res (IZR m0, IZR m1, IZR m2) R dims) = let '(n0, n1, n2) := pad dims in (n0 * m0, n1 * m1, n2 * m2).
Proof.
  intros Hr D (H0 & H1 & H2 & C1 & C2). destruct (dims_cases dims D) as (n0 & n1 & n2 & P & S & C). rewrite P in *. unfold sizes_ok in S.
  unfold out_dims. destruct R as [[c0 c1] c2].
  destruct C as [(-> & -> & ->)|[(-> & ->)| ->]]; cbn [combine map pad nth length] in *; rewrite !out_count_mult by (auto; lia); try (rewrite C1 by lia); try (rewrite C2 by lia); reflexivity.
Qed.
Lemma gridpos_copies n m o c : sizes_ok n -> let '(m0, m1, m2) := m in let '(n0, n1, n2) := n in let '(i, j, k) := c in
  1 <= m0 -> 1 <= m1 -> 1 <= m2 -> o = (n0 * m0, n1 * m1, n2 * m2) ->
  gridpos n (mul3 (IZR m0, IZR m1, IZR m2) (frac o c)) =
  (IZR i + IZR (n0 * (1 - m0)) / 2, IZR j + IZR (n1 * (1 - m1)) / 2, IZR k + IZR (n2 * (1 - m2)) / 2)%R.
Proof.
  destruct n as [[n0 n1] n2], m as [[m0 m1] m2], c as [[i j] k]. intros (A & B & D) H0 H1 H2 ->.
  unfold gridpos, mul3, frac. rewrite !mult_IZR, !minus_IZR.
  assert (forall x, 1 <= x -> IZR x <> 0%R) as Nz by (intros; apply IZR_neq; lia).
  f_equal; [f_equal|]; field; split; apply Nz; assumption.
Qed.

Section Copies.
Variables (Rin : m33) (st : setting) (m0 m1 m2 : Z) (dims : list Z).
Hypothesis (F : fits Rin st) (Hr : ~ (0 < s_res st)%R) (Hm : s_mult st = (IZR m0, IZR m1, IZR m2)) (HR : s_Rout st = times (s_mult st) Rin).
Hypothesis (D : dims_ok dims) (Hc : copies_ok (m0, m1, m2) dims).

Lemma copies_size : pad (odims st dims) = let '(n0, n1, n2) := pad dims in (n0 * m0, n1 * m1, n2 * m2).
Proof. unfold odims. rewrite Hm. apply out_dims_mult; assumption. Qed.
Definition spot (c : Z * Z * Z) : vec := mul3 (IZR m0, IZR m1, IZR m2) (frac (pad (odims st dims)) c).
Lemma copies_place c : same_place Rin (s_Rout st) (pad (odims st dims)) c (spot c).
Proof. rewrite HR, Hm. apply times_place. Qed.
Lemma copies_pos c : let '(n0, n1, n2) := pad dims in let '(i, j, k) := c in
  gridpos (pad dims) (spot c) = (IZR i + IZR (n0 * (1 - m0)) / 2, IZR j + IZR (n1 * (1 - m1)) / 2, IZR k + IZR (n2 * (1 - m2)) / 2)%R.
Proof.
  pose proof copies_size as CS. destruct (dims_cases dims D) as (_ & _ & _ & _ & S & _).
  pose proof (gridpos_copies (pad dims) (m0, m1, m2) (pad (odims st dims)) c S) as G. unfold spot.
  destruct (pad dims) as [[n0 n1] n2], c as [[i j] k]. destruct Hc as (H0 & H1 & H2 & _). apply G; assumption.
Qed.
(** Exact copies if the shift of the middle is a whole number of points. *)
Lemma copies_int off c : (let '(n0, n1, n2) := pad dims in let '(a, b, d) := off in 2 * a = n0 * (1 - m0) /\ 2 * b = n1 * (1 - m1) /\ 2 * d = n2 * (1 - m2)) ->
  gridpos (pad dims) (spot c) = let '(i, j, k) := shifted off c in (IZR i, IZR j, IZR k).
Proof.
  intros O. pose proof (copies_pos c) as P. destruct (pad dims) as [[n0 n1] n2], c as [[i j] k], off as [[a b] d]. rewrite P. unfold shifted. destruct O as (<- & <- & <-).
  rewrite !plus_IZR, !mult_IZR. f_equal; [f_equal|]; field.
Qed.
(** A cell further on. *)
Lemma copies_next s c : let '(n0, n1, n2) := pad dims in let '(a, b, d) := s in
  gridpos (pad dims) (spot (shifted (a * n0, b * n1, d * n2) c)) = let '(x, y, z) := gridpos (pad dims) (spot c) in (x + IZR (a * n0), y + IZR (b * n1), z + IZR (d * n2))%R.
Proof.
  pose proof (fun c => copies_pos c) as P. destruct (pad dims) as [[n0 n1] n2], c as [[i j] k], s as [[a b] d].
  rewrite (P (i, j, k)). unfold shifted. rewrite (P (i + a * n0, j + b * n1, k + d * n2)). rewrite !plus_IZR. f_equal; [f_equal|]; ring.
Qed.
Lemma copies_phase near k d_re d_im s c : let '(n0, n1, n2) := pad dims in let '(a, b, d) := s in
  cblend near (cont (pad dims) k d_re d_im) (gridpos (pad dims) (spot (shifted (a * n0, b * n1, d * n2) c))) =
  (bloch k s * cblend near (cont (pad dims) k d_re d_im) (gridpos (pad dims) (spot c)))%C.
Proof.
  pose proof (copies_next s c) as N. destruct (dims_cases dims D) as (_ & _ & _ & _ & S & _).
  destruct s as [[a b] d]. pose proof (fun c => cont_shift (pad dims) k d_re d_im a b d c S) as CS.
  destruct (pad dims) as [[n0 n1] n2] eqn:E. rewrite N. destruct (gridpos (n0, n1, n2) (spot c)) as [[x y] z].
  rewrite <- cblend_mul. unfold cblend. rewrite !blend_shift. apply f_equal2; apply blend_ext; intros p; rewrite CS; reflexivity.
Qed.
Lemma copies_same near d_re s c : let '(n0, n1, n2) := pad dims in let '(a, b, d) := s in
  blend near (rcont (pad dims) d_re) (gridpos (pad dims) (spot (shifted (a * n0, b * n1, d * n2) c))) =
  blend near (rcont (pad dims) d_re) (gridpos (pad dims) (spot c)).
Proof.
  pose proof (copies_next s c) as N. destruct (dims_cases dims D) as (_ & _ & _ & _ & S & _).
  destruct s as [[a b] d]. pose proof (fun c => rcont_shift (pad dims) d_re a b d c S) as CS.
  destruct (pad dims) as [[n0 n1] n2] eqn:E. rewrite N. destruct (gridpos (n0, n1, n2) (spot c)) as [[x y] z].
  rewrite !blend_shift. apply blend_ext; intros p; apply CS.
Qed.
End Copies.

(** ** Without options *)
Definition plain (Rin : m33) (st : setting) : Prop :=
  fits Rin st /\ ~ (0 < s_res st)%R /\ s_mult st = (1, 1, 1)%R /\ s_Rout st = times (s_mult st) Rin /\ s_trans st = false /\ s_scale st = (1, 0)%R.
Lemma plain_dims Rin st dims : plain Rin st -> dims_ok dims -> odims st dims = dims.
Proof.
  intros (F & Hr & Hm & HR & _) D. unfold odims. rewrite Hm. destruct (dims_cases dims D) as (n0 & n1 & n2 & P & S & C). rewrite P in S. unfold sizes_ok in S.
  unfold out_dims. destruct (s_Rout st) as [[c0 c1] c2].
  destruct C as [(-> & -> & ->)|[(-> & ->)| ->]]; cbn [combine map]; rewrite !(out_count_mult (s_res st) 1) by (auto; lia); rewrite !Z.mul_1_r; reflexivity.
Qed.
Lemma copies_one dims : copies_ok (1, 1, 1) dims.
Proof. unfold copies_ok. lia. Qed.
Lemma plain_int Rin st dims c : plain Rin st -> dims_ok dims ->
  gridpos (pad dims) (spot st 1 1 1 dims c) = let '(i, j, k) := c in (IZR i, IZR j, IZR k).
Proof.
  intros (F & Hr & Hm & HR & _) D. rewrite (copies_int st 1 1 1 dims Hr Hm D (copies_one dims) (0, 0, 0)).
  - destruct c as [[i j] k]. unfold shifted. rewrite !Z.add_0_r. reflexivity.
  - destruct (pad dims) as [[n0 n1] n2]. lia.
Qed.
Lemma plain_complex Rin st junk dims nr ni d_re d_im m : plain Rin st -> dims_ok dims -> array (pad dims) d_re -> array (pad dims) d_im -> memo_ok m ->
  exists m', convert st junk (Z.of_nat (length dims)) (pad dims) nr d_re (Some (ni, d_im)) m = Val ([(new_name st nr, (dims, d_re)); (new_name st ni, (dims, d_im))], m') /\ memo_ok m'.
Proof.
  intros Pl D A B Hm. pose proof Pl as (F & Hr & Hmu & HR & Ht & Hs). pose proof (plain_dims Rin st dims Pl D) as Od.
  destruct (dims_cases dims D) as (_ & _ & _ & _ & S & _).
  destruct (convert_complex Rin st junk dims nr ni d_re d_im m F D A B Hm) as (a & b & m' & E & Hm' & Aa & Ab & G); [rewrite Ht; discriminate|].
  assert (CP : forall c, same_place Rin (s_Rout st) (pad dims) c (spot st 1 1 1 dims c)). { intros c. pose proof (copies_place Rin st 1 1 1 dims Hmu HR c) as Q. rewrite Od in Q. exact Q. }
  rewrite Ht, Od, Hs in *. cbn [flip flip_dims] in *. exists m'. split; [|exact Hm']. rewrite E.
  assert (Q : forall c, inside (pad dims) c -> (get (pad dims) a c, get (pad dims) b c) = (get (pad dims) d_re c, get (pad dims) d_im c)).
  { intros c Ic. rewrite (G c _ Ic (CP c)). rewrite (plain_int Rin st dims c Pl D). destruct c as [[i j] k]. rewrite cblend_int. rewrite cont_inside by exact Ic.
    unfold Cmul, re, im; cbn [fst snd]. apply f_equal2; ring. }
  rewrite (array_ext _ a d_re S Aa A (fun c Ic => f_equal fst (Q c Ic))), (array_ext _ b d_im S Ab B (fun c Ic => f_equal snd (Q c Ic))). reflexivity.
Qed.
Lemma plain_real Rin st junk dims nr d_re m : plain Rin st -> dims_ok dims -> array (pad dims) d_re ->
  convert st junk (Z.of_nat (length dims)) (pad dims) nr d_re None m = Val ([(new_name st nr, (dims, d_re))], m).
Proof.
  intros Pl D A. pose proof Pl as (F & Hr & Hmu & HR & Ht & Hs). pose proof (plain_dims Rin st dims Pl D) as Od.
  destruct (dims_cases dims D) as (_ & _ & _ & _ & S & _).
  destruct (convert_real Rin st junk dims nr d_re m F D A) as (a & E & Aa & G); [rewrite Ht; discriminate|].
  assert (CP : forall c, same_place Rin (s_Rout st) (pad dims) c (spot st 1 1 1 dims c)). { intros c. pose proof (copies_place Rin st 1 1 1 dims Hmu HR c) as Q. rewrite Od in Q. exact Q. }
  rewrite Ht, Od in *. cbn [flip flip_dims] in *. rewrite E.
  assert (Q : forall c, inside (pad dims) c -> get (pad dims) a c = get (pad dims) d_re c).
  { intros c Ic. rewrite (G c _ Ic (CP c)). rewrite (plain_int Rin st dims c Pl D). destruct c as [[i j] k]. rewrite blend_int. apply rcont_inside. exact Ic. }
  rewrite (array_ext _ a d_re S Aa A Q). reflexivity.
Qed.
