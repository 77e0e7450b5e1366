(** Proofs about mpb-data: conversion of a dataset. *)
From Coq Require Import String List ZArith Reals Lra Lia Bool Psatz.
From Verif Require Import Base RC Loops M_Tensor M_Interp L_Interp L_Interp3 M_Evect L_Out L_Out3 M_Data S_Data L_Data L_Data2 L_Data3 L_Data4.
Import ListNotations.
Local Open Scope Z_scope.

Definition odims (st : setting) (dims : list Z) : list Z := out_dims (s_res st) (s_mult st) (s_Rout st) dims.
Lemma where_gridpos cm n o c : (let '(x, y, z) := where_ cm o c in let '(n0, n1, n2) := n in (x * IZR n0, y * IZR n1, z * IZR n2)%R) = gridpos n (combo cm (frac o c)).
Proof. unfold where_, gridpos. destruct n as [[n0 n1] n2], (combo cm (frac o c)) as [[x y] z]. reflexivity. Qed.
Lemma fresh_array (junk : Z -> R) o : sizes_ok o -> let '(o0, o1, o2) := o in array o (map junk (zrange (o0 * o1 * o2))).
Proof.
  destruct o as [[o0 o1] o2]. unfold sizes_ok, array, volume. intros H. rewrite map_length. unfold zrange. rewrite map_length, seq_length. nia.
Qed.

Lemma convert_complex Rin st junk dims nr ni d_re d_im m :
  fits Rin st -> dims_ok dims -> array (pad dims) d_re -> array (pad dims) d_im -> memo_ok m -> (s_trans st = true -> (2 <= length dims)%nat) ->
  exists a b m', convert st junk (Z.of_nat (length dims)) (pad dims) nr d_re (Some (ni, d_im)) m =
      Val ([(new_name st nr, (flip_dims (s_trans st) (odims st dims), a)); (new_name st ni, (flip_dims (s_trans st) (odims st dims), b))], m') /\
    memo_ok m' /\ array (pad (odims st dims)) a /\ array (pad (odims st dims)) b /\
    forall c r, inside (pad (odims st dims)) c -> same_place Rin (s_Rout st) (pad (odims st dims)) c r ->
      (get (flip (s_trans st) (pad (odims st dims))) a (flip (s_trans st) c), get (flip (s_trans st) (pad (odims st dims))) b (flip (s_trans st) c)) =
      (s_scale st * cblend (s_near st) (cont (pad dims) (s_k st) d_re d_im) (gridpos (pad dims) r))%C.
Proof.
  intros F D A B Hm T. destruct (out_sizes_ok st dims D) as (E & Do & Lo). fold (odims st dims) in E, Do, Lo.
  destruct (dims_cases dims D) as (_ & _ & _ & _ & S & _). destruct (dims_cases _ Do) as (_ & _ & _ & _ & So & _).
  unfold convert. rewrite E. set (o := pad (odims st dims)) in *. pose proof (fresh_array junk o So) as FA. destruct o as [[o0 o1] o2] eqn:Eo.
  cbn [option_map snd]. rewrite <- Eo in *.
  destruct (map_complex (s_near st) (s_trans st) (pad dims) o (s_cm st) (s_k st) d_re d_im _ _ m S So A B FA FA Hm) as (a & b & m' & -> & Hm' & Aa & Ab & G).
  cbn [bind]. pose proof (fun c => scale_ok (flip (s_trans st) o) (s_scale st) a b c (flip_sizes _ _ So)) as SC.
  pose proof (scale_array o (s_scale st) a b Aa Ab) as SA. destruct (scale_data (s_scale st) a b) as [a' b'] eqn:Es. cbn [fst snd] in SA. destruct SA as [Aa' Ab'].
  assert (W : forall d, array o d -> write_dataset (Z.of_nat (length dims)) (out_sizes2 (s_trans st) o) d = Val (flip_dims (s_trans st) (odims st dims), d)).
  { intros d Ad. rewrite <- Lo. apply write_ok; auto. rewrite Lo. exact T. }
  rewrite (W a' Aa'). cbn [bind]. rewrite (W b' Ab'). cbn [bind].
  exists a', b', m'. split; [reflexivity|]. split; [exact Hm'|]. split; [exact Aa'|]. split; [exact Ab'|].
  intros c r Ic Sp. rewrite (proj1 (F _ _ _) Sp). rewrite <- where_gridpos. rewrite <- G by exact Ic.
  apply SC; [unfold array in *; rewrite flip_volume; exact Aa|unfold array in *; rewrite flip_volume; exact Ab|apply flip_inside; exact Ic].
Qed.
Lemma convert_real Rin st junk dims nr d_re m :
  fits Rin st -> dims_ok dims -> array (pad dims) d_re -> (s_trans st = true -> (2 <= length dims)%nat) ->
  exists a, convert st junk (Z.of_nat (length dims)) (pad dims) nr d_re None m = Val ([(new_name st nr, (flip_dims (s_trans st) (odims st dims), a))], m) /\
    array (pad (odims st dims)) a /\
    forall c r, inside (pad (odims st dims)) c -> same_place Rin (s_Rout st) (pad (odims st dims)) c r ->
      get (flip (s_trans st) (pad (odims st dims))) a (flip (s_trans st) c) = blend (s_near st) (rcont (pad dims) d_re) (gridpos (pad dims) r).
Proof.
  intros F D A T. destruct (out_sizes_ok st dims D) as (E & Do & Lo). fold (odims st dims) in E, Do, Lo.
  destruct (dims_cases dims D) as (_ & _ & _ & _ & S & _). destruct (dims_cases _ Do) as (_ & _ & _ & _ & So & _).
  unfold convert. rewrite E. set (o := pad (odims st dims)) in *. pose proof (fresh_array junk o So) as FA. destruct o as [[o0 o1] o2] eqn:Eo.
  cbn [option_map snd]. rewrite <- Eo in *.
  destruct (map_real (s_near st) (s_trans st) (pad dims) o (s_cm st) (s_k st) d_re _ m S So A FA) as (a & -> & Aa & G).
  cbn [bind].
  assert (W : forall d, array o d -> write_dataset (Z.of_nat (length dims)) (out_sizes2 (s_trans st) o) d = Val (flip_dims (s_trans st) (odims st dims), d)).
  { intros d Ad. rewrite <- Lo. apply write_ok; auto. rewrite Lo. exact T. }
  rewrite (W a Aa). cbn [bind]. exists a. split; [reflexivity|]. split; [exact Aa|].
  intros c r Ic Sp. rewrite (proj1 (F _ _ _) Sp). rewrite <- where_gridpos. apply G. exact Ic.
Qed.
(** Without any condition on the transposition it still ends normally. *)
Lemma convert_any st junk dims nr d_re im m :
  dims_ok dims -> array (pad dims) d_re -> (match im with Some (_, d_im) => array (pad dims) d_im | None => True end) -> memo_ok m ->
  exists w m', convert st junk (Z.of_nat (length dims)) (pad dims) nr d_re im m = Val (w, m') /\ memo_ok m'.
Proof.
  intros D A B Hm. destruct (out_sizes_ok st dims D) as (E & Do & Lo). fold (odims st dims) in E, Do, Lo.
  destruct (dims_cases dims D) as (_ & _ & _ & _ & S & _). destruct (dims_cases _ Do) as (_ & _ & _ & _ & So & _).
  unfold convert. rewrite E. set (o := pad (odims st dims)) in *. pose proof (fresh_array junk o So) as FA. destruct o as [[o0 o1] o2] eqn:Eo. rewrite <- Eo in *.
  assert (W : forall d, array o d -> exists w, write_dataset (Z.of_nat (length dims)) (out_sizes2 (s_trans st) o) d = Val w).
  { intros d Ad. rewrite <- Lo. apply write_any; auto. }
  destruct im as [[ni d_im]|]; cbn [option_map snd].
  - destruct (map_complex (s_near st) (s_trans st) (pad dims) o (s_cm st) (s_k st) d_re d_im _ _ m S So A B FA FA Hm) as (a & b & m' & -> & Hm' & Aa & Ab & _).
    cbn [bind]. pose proof (scale_array o (s_scale st) a b Aa Ab) as [Aa' Ab']. destruct (scale_data (s_scale st) a b) as [a' b']. cbn [fst snd] in Aa', Ab'.
    destruct (W _ Aa') as [w ->]. cbn [bind]. destruct (W _ Ab') as [w' ->]. cbn [bind]. eexists _, m'. split; [reflexivity|exact Hm'].
  - destruct (map_real (s_near st) (s_trans st) (pad dims) o (s_cm st) (s_k st) d_re _ m S So A FA) as (a & -> & Aa & _).
    cbn [bind]. destruct (W _ Aa) as [w ->]. cbn [bind]. eexists _, m. split; [reflexivity|exact Hm].
Qed.

Lemma read_ok rank d : dims_ok (fst d) -> Z.of_nat (length (fst d)) <= rank -> read_dataset rank d = Val (Z.of_nat (length (fst d)), pad (fst d), snd d).
Proof.
  intros ([L1 L3] & _) R. unfold read_dataset. destruct (Z.ltb_spec 0 rank); [|lia]. cbn [check bind].
  rewrite Z.geb_leb. destruct (Z.leb_spec (Z.of_nat (length (fst d))) rank); [|lia]. reflexivity.
Qed.
Lemma pad_eq (p q : Z * Z * Z) : p = q -> let '(a0, a1, a2) := p in let '(b0, b1, b2) := q in (a0 =? b0) && (a1 =? b1) && (a2 =? b2) = true.
Proof. intros <-. destruct p as [[a0 a1] a2]. rewrite !Z.eqb_refl. reflexivity. Qed.
Lemma handle_complex st junk f nr ni dims d_re d_im m : f nr = Some (dims, d_re) -> f ni = Some (dims, d_im) -> dims_ok dims ->
  handle_dataset st junk f nr (Some ni) m = convert st junk (Z.of_nat (length dims)) (pad dims) nr d_re (Some (ni, d_im)) m.
Proof.
  intros E1 E2 D. unfold handle_dataset. rewrite E1. rewrite (read_ok 3 (dims, d_re)); [|exact D|destruct D as [[_ L] _]; cbn; lia]. cbn [bind fst snd]. rewrite E2.
  rewrite (read_ok (Z.of_nat (length dims)) (dims, d_im)); [|exact D|cbn; lia]. cbn [bind fst snd].
  pose proof (pad_eq (pad dims) (pad dims) eq_refl) as P. destruct (pad dims) as [[a0 a1] a2]. rewrite P. reflexivity.
Qed.
Lemma handle_real st junk f nr dims d_re m : f nr = Some (dims, d_re) -> dims_ok dims ->
  handle_dataset st junk f nr None m = convert st junk (Z.of_nat (length dims)) (pad dims) nr d_re None m.
Proof.
  intros E1 D. unfold handle_dataset. rewrite E1. rewrite (read_ok 3 (dims, d_re)); [|exact D|destruct D as [[_ L] _]; cbn; lia]. reflexivity.
Qed.

(** ** Interpolation at grid points and shifts *)
Lemma int_part_IZR i : Int_part (IZR i) = i.
Proof. apply int_part_is. lra. Qed.
Lemma neighbours_int near i : neighbours near (IZR i) = [(i, 1%R); (i + 1, 0%R)].
Proof.
  unfold neighbours. rewrite int_part_IZR. replace (IZR i - IZR i)%R with 0%R by ring.
  destruct near; [destruct (Rle_dec 0 (1 / 2)); [|lra]|]; rewrite Rminus_0_r; reflexivity.
Qed.
Lemma blend_int near f i j k : blend near f (IZR i, IZR j, IZR k) = f (i, j, k).
Proof. unfold blend. rewrite !neighbours_int. cbn [map rsum_l fold_right fst snd]. ring. Qed.
Lemma cblend_int near f i j k : cblend near f (IZR i, IZR j, IZR k) = f (i, j, k).
Proof. unfold cblend. rewrite !blend_int. unfold re, im. rewrite <- surjective_pairing. reflexivity. Qed.
Lemma neighbours_shift near X s : neighbours near (X + IZR s)%R = map (fun p => (fst p + s, snd p)) (neighbours near X).
Proof.
  unfold neighbours. pose proof (Int_part_bounds X) as B.
  rewrite (int_part_is (X + IZR s) (Int_part X + s)) by (rewrite plus_IZR; lra).
  replace (X + IZR s - IZR (Int_part X + s))%R with (X - IZR (Int_part X))%R by (rewrite plus_IZR; ring).
  cbn [map fst snd]. replace (Int_part X + 1 + s) with (Int_part X + s + 1) by lia. reflexivity.
Qed.
Lemma blend_shift near f x y z a b d : blend near f (x + IZR a, y + IZR b, z + IZR d)%R = blend near (fun c => f (shifted (a, b, d) c)) (x, y, z).
Proof. unfold blend. rewrite !neighbours_shift. unfold neighbours. cbn [map rsum_l fold_right fst snd shifted]. reflexivity. Qed.
Lemma blend_ext near f g p : (forall c, f c = g c) -> blend near f p = blend near g p.
Proof. intros H. destruct p as [[x y] z]. unfold blend, neighbours. cbn [map rsum_l fold_right fst snd]. rewrite !H. reflexivity. Qed.
Lemma blend_lin near f g s t p : blend near (fun c => s * f c + t * g c)%R p = (s * blend near f p + t * blend near g p)%R.
Proof. destruct p as [[x y] z]. unfold blend, neighbours. cbn [map rsum_l fold_right fst snd]. ring. Qed.
Lemma cblend_mul near f u p : cblend near (fun c => (u * f c)%C) p = (u * cblend near f p)%C.
Proof.
  assert (E1 : blend near (fun c => re (u * f c)%C) p = (re u * blend near (fun c => re (f c)) p + - im u * blend near (fun c => im (f c)) p)%R).
  { rewrite <- blend_lin. apply blend_ext. intros c. unfold Cmul, re, im; cbn [fst snd]; ring. }
  assert (E2 : blend near (fun c => im (u * f c)%C) p = (im u * blend near (fun c => re (f c)) p + re u * blend near (fun c => im (f c)) p)%R).
  { rewrite <- blend_lin. apply blend_ext. intros c. unfold Cmul, re, im; cbn [fst snd]; ring. }
  unfold cblend. rewrite E1, E2. clear E1 E2. generalize (blend near (fun c => re (f c)) p), (blend near (fun c => im (f c)) p). intros x y.
  unfold Cmul, re, im; cbn [fst snd]. apply f_equal2; ring.
Qed.
Lemma cblend_ext near f g p : (forall c, f c = g c) -> cblend near f p = cblend near g p.
Proof. intros H. unfold cblend. apply f_equal2; apply blend_ext; intros c; rewrite H; reflexivity. Qed.

Lemma bloch_add k a b d i j l : bloch k (i + a, j + b, l + d) = (bloch k (a, b, d) * bloch k (i, j, l))%C.
Proof.
  unfold bloch. destruct (match k with Some k => k | None => (0, 0, 0)%R end) as [[k0 k1] k2]. rewrite !plus_IZR.
  replace (2 * PI * (k0 * (IZR i + IZR a) + k1 * (IZR j + IZR b) + k2 * (IZR l + IZR d)))%R
    with (2 * PI * (k0 * IZR a + k1 * IZR b + k2 * IZR d) + 2 * PI * (k0 * IZR i + k1 * IZR j + k2 * IZR l))%R by ring.
  rewrite cos_plus, sin_plus. unfold Cmul, re, im. cbn [fst snd]. apply f_equal2; ring.
Qed.
Lemma bloch_0 k : bloch k (0, 0, 0) = (1, 0)%R.
Proof. unfold bloch. destruct (match k with Some k => k | None => (0, 0, 0)%R end) as [[k0 k1] k2]. rewrite !Rmult_0_r, !Rplus_0_r, !Rmult_0_r, cos_0, sin_0. reflexivity. Qed.
(** Whole cells further on, the continuation has the phase of those cells. *)
Lemma cont_shift n k d_re d_im a b d c : sizes_ok n -> let '(n0, n1, n2) := n in
  cont n k d_re d_im (shifted (a * n0, b * n1, d * n2) c) = (bloch k (a, b, d) * cont n k d_re d_im c)%C.
Proof.
  destruct n as [[n0 n1] n2], c as [[i j] l]. intros (H0 & H1 & H2). unfold cont, shifted, home, cell.
  rewrite !Z.mod_add, !Z.div_add by lia. rewrite bloch_add. set (u := bloch k (a, b, d)). set (v := bloch k (i / n0, j / n1, l / n2)).
  set (w := (get (n0, n1, n2) d_re (i mod n0, j mod n1, l mod n2), get (n0, n1, n2) d_im (i mod n0, j mod n1, l mod n2))).
  clearbody u v w. destruct u, v, w. unfold Cmul, re, im; cbn [fst snd]. apply f_equal2; ring.
Qed.
Lemma rcont_shift n d_re a b d c : sizes_ok n -> let '(n0, n1, n2) := n in rcont n d_re (shifted (a * n0, b * n1, d * n2) c) = rcont n d_re c.
Proof.
  destruct n as [[n0 n1] n2], c as [[i j] l]. intros (H0 & H1 & H2). unfold rcont, shifted, home. rewrite !Z.mod_add by lia. reflexivity.
Qed.
Lemma cont_inside n k d_re d_im c : inside n c -> cont n k d_re d_im c = (get n d_re c, get n d_im c).
Proof.
  destruct n as [[n0 n1] n2], c as [[i j] l]. unfold inside. intros (H0 & H1 & H2). unfold cont, home, cell.
  rewrite !Z.mod_small, !Z.div_small by assumption. rewrite bloch_0. unfold Cmul, re, im; cbn [fst snd]. apply f_equal2; ring.
Qed.
Lemma rcont_inside n d c : inside n c -> rcont n d c = get n d c.
Proof.
  destruct n as [[n0 n1] n2], c as [[i j] l]. unfold inside. intros (H0 & H1 & H2). unfold rcont, home. rewrite !Z.mod_small by assumption. reflexivity.
Qed.

(** Arrays with the same entries are the same. *)
Lemma array_ext n a b : sizes_ok n -> array n a -> array n b -> (forall c, inside n c -> get n a c = get n b c) -> a = b.
Proof.
  destruct n as [[n0 n1] n2]. intros (H0 & H1 & H2) A B E. unfold array, volume in A, B. apply (nth_ext _ _ 0%R 0%R); [lia|]. intros t Ht.
  specialize (E (Z.of_nat t / (n1 * n2), (Z.of_nat t / n2) mod n1, Z.of_nat t mod n2)). unfold get, place in E.
  assert (Q : (Z.of_nat t / (n1 * n2) * n1 + (Z.of_nat t / n2) mod n1) * n2 + Z.of_nat t mod n2 = Z.of_nat t).
  { rewrite (Z.mul_comm n1 n2). rewrite <- Z.div_div by lia.
    pose proof (Z.div_mod (Z.of_nat t) n2). pose proof (Z.div_mod (Z.of_nat t / n2) n1). nia. }
  rewrite Q, Nat2Z.id in E. apply E. unfold inside.
  pose proof (Z.mod_pos_bound (Z.of_nat t / n2) n1). pose proof (Z.mod_pos_bound (Z.of_nat t) n2).
  split; [|lia]. split; [apply Z.div_pos; nia|]. apply Z.div_lt_upper_bound; nia.
Qed.
