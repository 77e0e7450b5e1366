(** Proofs about mpb-data: the theorems. *)
From Coq Require Import String List ZArith Reals Lra Lia Bool Psatz.
From Verif Require Import Base RC Loops M_Tensor M_Interp L_Interp L_Interp3 M_Evect L_Out L_Out3 M_Data S_Data L_Data L_Data2 L_Data3 L_Data4 L_Data5 L_Data6 L_Data7 L_Data8 L_Data9.
Import ListNotations.
Local Open Scope Z_scope.

Lemma new_is st o nam : s_same st = o_same o -> new_name st nam = written_name (o_same o) nam.
Proof. unfold new_name, written_name. intros ->. reflexivity. Qed.
Lemma place_exists Rin st n c : fits Rin st -> exists r, same_place Rin (s_Rout st) n c r.
Proof. intros F. exists (combo (s_cm st) (frac n c)). apply F. reflexivity. Qed.

Lemma data_complex o L k cp st junk f nr ni dims d_re d_im m :
  prepare o (lattice_attr L) (vec_attr k) (vec_attr cp) = Val st -> f nr = Some (dims, d_re) -> f ni = Some (dims, d_im) -> dset_ok (dims, d_re) -> dset_ok (dims, d_im) ->
  memo_ok m -> (o_trans o = true -> (2 <= length dims)%nat) ->
  let Rin := times (or_one cp) L in
  exists R cart, (if o_rect o then rectify Rin (o_ve o) = Val (R, cart) else R = Rin) /\
  let Rout := times (o_mult o) R in let od := out_dims (o_res o) (o_mult o) Rout dims in
  exists a b m', handle_dataset st junk f nr (Some ni) m =
      Val ([(written_name (o_same o) nr, (flip_dims (o_trans o) od, a)); (written_name (o_same o) ni, (flip_dims (o_trans o) od, b))], m') /\
    memo_ok m' /\ array (pad od) a /\ array (pad od) b /\
    forall c, inside (pad od) c -> (exists r, same_place Rin Rout (pad od) c r) /\ forall r, same_place Rin Rout (pad od) c r ->
      value_at (o_trans o) (pad od) a b c = (o_scale o * cblend (o_near o) (cont (pad dims) (kcell cp k) d_re d_im) (gridpos (pad dims) r))%C.
Proof.
  intros E E1 E2 [D A] [_ B] Hm T Rin. destruct (prepare_ok _ _ _ _ _ E) as (F & _ & K & A1 & A2 & A3 & A4 & A5 & A6 & R & cart & Q & B1 & _). fold Rin in F, Q.
  exists R, cart. split; [destruct (o_rect o); [exact Q|exact (proj1 Q)]|]. cbv zeta. cbn [fst snd] in *.
  rewrite (handle_complex st junk f nr ni dims d_re d_im m E1 E2 D).
  destruct (convert_complex Rin st junk dims nr ni d_re d_im m F D A B Hm) as (a & b & m' & E' & Hm' & X & Y & G); [rewrite A5; exact T|].
  unfold odims in *. rewrite (new_is _ _ nr A6), (new_is _ _ ni A6) in E'. rewrite ?A1, ?A3, ?A5, ?B1 in E'; rewrite ?A1, ?A3, ?A5, ?B1 in X; rewrite ?A1, ?A3, ?A5, ?B1 in Y; rewrite ?A1, ?A3, ?A5, ?B1 in G.
  exists a, b, m'. split; [exact E'|]. split; [exact Hm'|]. split; [exact X|]. split; [exact Y|]. intros c Ic. split; [rewrite <- B1; apply place_exists; exact F|].
  intros r Hr. unfold value_at. rewrite A2, A4, K in G. apply G; assumption.
Qed.
Lemma data_real o L k cp st junk f nr dims d_re m :
  prepare o (lattice_attr L) (vec_attr k) (vec_attr cp) = Val st -> f nr = Some (dims, d_re) -> dset_ok (dims, d_re) -> (o_trans o = true -> (2 <= length dims)%nat) ->
  let Rin := times (or_one cp) L in
  exists R cart, (if o_rect o then rectify Rin (o_ve o) = Val (R, cart) else R = Rin) /\
  let Rout := times (o_mult o) R in let od := out_dims (o_res o) (o_mult o) Rout dims in
  exists a, handle_dataset st junk f nr None m = Val ([(written_name (o_same o) nr, (flip_dims (o_trans o) od, a))], m) /\ array (pad od) a /\
    forall c, inside (pad od) c -> (exists r, same_place Rin Rout (pad od) c r) /\ forall r, same_place Rin Rout (pad od) c r ->
      get (flip (o_trans o) (pad od)) a (flip (o_trans o) c) = blend (o_near o) (rcont (pad dims) d_re) (gridpos (pad dims) r).
Proof.
  intros E E1 [D A] T Rin. destruct (prepare_ok _ _ _ _ _ E) as (F & _ & K & A1 & A2 & A3 & A4 & A5 & A6 & R & cart & Q & B1 & _). fold Rin in F, Q.
  exists R, cart. split; [destruct (o_rect o); [exact Q|exact (proj1 Q)]|]. cbv zeta. cbn [fst snd] in *.
  rewrite (handle_real st junk f nr dims d_re m E1 D).
  destruct (convert_real Rin st junk dims nr d_re m F D A) as (a & E' & X & G); [rewrite A5; exact T|].
  unfold odims in *. rewrite (new_is _ _ nr A6) in E'. rewrite ?A1, ?A3, ?A5, ?B1 in E'; rewrite ?A1, ?A3, ?A5, ?B1 in X; rewrite ?A1, ?A3, ?A5, ?B1 in G.
  exists a. split; [exact E'|]. split; [exact X|]. intros c Ic. split; [rewrite <- B1; apply place_exists; exact F|].
  intros r Hr. rewrite A4 in G. apply G; assumption.
Qed.

(** ** Copies *)
Lemma data_copies o L k cp st junk f nr ni dims d_re d_im m m0 m1 m2 :
  prepare o (lattice_attr L) (vec_attr k) (vec_attr cp) = Val st -> f nr = Some (dims, d_re) -> f ni = Some (dims, d_im) -> dset_ok (dims, d_re) -> dset_ok (dims, d_im) ->
  memo_ok m -> (o_trans o = true -> (2 <= length dims)%nat) ->
  o_rect o = false -> ~ (0 < o_res o)%R -> o_mult o = (IZR m0, IZR m1, IZR m2) -> copies_ok (m0, m1, m2) dims ->
  let od := zmul (pad dims) (m0, m1, m2) in
  exists ld a b m', handle_dataset st junk f nr (Some ni) m = Val ([(written_name (o_same o) nr, (ld, a)); (written_name (o_same o) ni, (ld, b))], m') /\
    length ld = length dims /\ pad ld = flip (o_trans o) od /\ array od a /\ array od b /\
    (forall s c, inside od c -> inside od (shifted (zmul s (pad dims)) c) ->
      value_at (o_trans o) od a b (shifted (zmul s (pad dims)) c) = (bloch (kcell cp k) s * value_at (o_trans o) od a b c)%C) /\
    (forall off c, zmul (2, 2, 2) off = zmul (pad dims) (1 - m0, 1 - m1, 1 - m2) -> inside od c ->
      value_at (o_trans o) od a b c = (o_scale o * cont (pad dims) (kcell cp k) d_re d_im (shifted off c))%C).
Proof.
  intros E E1 E2 [D A] [_ B] Hm T NR Hr Hmu Hc. destruct (prepare_ok _ _ _ _ _ E) as (F & _ & K & A1 & A2 & A3 & A4 & A5 & A6 & R & cart & Q & B1 & _).
  rewrite NR in Q. destruct Q as [-> _]. set (Rin := times (or_one cp) L) in *. cbv zeta. cbn [fst snd] in *.
  assert (Hr' : ~ (0 < s_res st)%R) by (rewrite A1; exact Hr). assert (Hm2 : s_mult st = (IZR m0, IZR m1, IZR m2)) by congruence. assert (HR : s_Rout st = times (s_mult st) Rin) by congruence.
  rewrite (handle_complex st junk f nr ni dims d_re d_im m E1 E2 D).
  destruct (convert_complex Rin st junk dims nr ni d_re d_im m F D A B Hm) as (a & b & m' & E' & Hm' & X & Y & G); [rewrite A5; exact T|].
  rewrite (new_is _ _ nr A6), (new_is _ _ ni A6) in E'.
  pose proof (copies_size st m0 m1 m2 dims Hr' Hm2 D Hc) as Sz. pose proof (copies_place Rin st m0 m1 m2 dims Hm2 HR) as Pl.
  pose proof (copies_int st m0 m1 m2 dims Hr' Hm2 D Hc) as In. pose proof (copies_phase st m0 m1 m2 dims Hr' Hm2 D Hc) as Ph.
  destruct (out_sizes_ok st dims D) as (_ & _ & Ln). fold (odims st dims) in Ln.
  assert (Sz' : pad (odims st dims) = zmul (pad dims) (m0, m1, m2)). { rewrite Sz. destruct (pad dims) as [[n0 n1] n2]. reflexivity. }
  exists (flip_dims (s_trans st) (odims st dims)), a, b, m'. split; [exact E'|]. rewrite <- Sz'. rewrite A5 in *. split; [|split; [|split; [exact X|split; [exact Y|split]]]].
  - rewrite <- Ln. destruct (o_trans o); [|reflexivity]. destruct (odims st dims) as [|? [|? ?]]; reflexivity.
  - apply flip_dims_pad. rewrite Ln. exact T.
  - intros s c Ic Is. unfold value_at. rewrite (G _ _ Ic (Pl c)), (G _ _ Is (Pl _)). rewrite K in *.
    specialize (Ph (s_near st) (kcell cp k) d_re d_im s c). destruct (pad dims) as [[n0 n1] n2], s as [[s0 s1] s2]. cbn [zmul]. rewrite Ph. ring.
  - intros off c Ho Ic. unfold value_at. rewrite (G _ _ Ic (Pl c)). rewrite (In off).
    + destruct (shifted off c) as [[x y] z]. rewrite cblend_int. rewrite K, A2. reflexivity.
    + destruct (pad dims) as [[n0 n1] n2], off as [[o0 o1] o2]. cbn [zmul] in Ho. pose proof (f_equal fst Ho) as H1. pose proof (f_equal snd Ho) as H2. cbn [fst snd] in H1, H2.
      pose proof (f_equal fst H1) as H3. pose proof (f_equal snd H1) as H4. cbn [fst snd] in H3, H4. auto.
Qed.
Lemma data_real_copies o L k cp st junk f nr dims d_re m m0 m1 m2 :
  prepare o (lattice_attr L) (vec_attr k) (vec_attr cp) = Val st -> f nr = Some (dims, d_re) -> dset_ok (dims, d_re) -> (o_trans o = true -> (2 <= length dims)%nat) ->
  o_rect o = false -> ~ (0 < o_res o)%R -> o_mult o = (IZR m0, IZR m1, IZR m2) -> copies_ok (m0, m1, m2) dims ->
  let od := zmul (pad dims) (m0, m1, m2) in let val a c := get (flip (o_trans o) od) a (flip (o_trans o) c) in
  exists ld a, handle_dataset st junk f nr None m = Val ([(written_name (o_same o) nr, (ld, a))], m) /\
    length ld = length dims /\ pad ld = flip (o_trans o) od /\ array od a /\
    (forall s c, inside od c -> inside od (shifted (zmul s (pad dims)) c) -> val a (shifted (zmul s (pad dims)) c) = val a c) /\
    (forall off c, zmul (2, 2, 2) off = zmul (pad dims) (1 - m0, 1 - m1, 1 - m2) -> inside od c -> val a c = rcont (pad dims) d_re (shifted off c)).
Proof.
  intros E E1 [D A] T NR Hr Hmu Hc. destruct (prepare_ok _ _ _ _ _ E) as (F & _ & K & A1 & A2 & A3 & A4 & A5 & A6 & R & cart & Q & B1 & _).
  rewrite NR in Q. destruct Q as [-> _]. set (Rin := times (or_one cp) L) in *. cbv zeta. cbn [fst snd] in *.
  assert (Hr' : ~ (0 < s_res st)%R) by (rewrite A1; exact Hr). assert (Hm2 : s_mult st = (IZR m0, IZR m1, IZR m2)) by congruence. assert (HR : s_Rout st = times (s_mult st) Rin) by congruence.
  rewrite (handle_real st junk f nr dims d_re m E1 D).
  destruct (convert_real Rin st junk dims nr d_re m F D A) as (a & E' & X & G); [rewrite A5; exact T|].
  rewrite (new_is _ _ nr A6) in E'.
  pose proof (copies_size st m0 m1 m2 dims Hr' Hm2 D Hc) as Sz. pose proof (copies_place Rin st m0 m1 m2 dims Hm2 HR) as Pl.
  pose proof (copies_int st m0 m1 m2 dims Hr' Hm2 D Hc) as In. pose proof (copies_same st m0 m1 m2 dims Hr' Hm2 D Hc) as Ph.
  destruct (out_sizes_ok st dims D) as (_ & _ & Ln). fold (odims st dims) in Ln.
  assert (Sz' : pad (odims st dims) = zmul (pad dims) (m0, m1, m2)). { rewrite Sz. destruct (pad dims) as [[n0 n1] n2]. reflexivity. }
  exists (flip_dims (s_trans st) (odims st dims)), a. split; [exact E'|]. rewrite <- Sz'. rewrite A5 in *. split; [|split; [|split; [exact X|split]]].
  - rewrite <- Ln. destruct (o_trans o); [|reflexivity]. destruct (odims st dims) as [|? [|? ?]]; reflexivity.
  - apply flip_dims_pad. rewrite Ln. exact T.
  - intros s c Ic Is. rewrite (G _ _ Ic (Pl c)), (G _ _ Is (Pl _)).
    specialize (Ph (s_near st) d_re s c). destruct (pad dims) as [[n0 n1] n2], s as [[s0 s1] s2]. cbn [zmul]. rewrite Ph. reflexivity.
  - intros off c Ho Ic. rewrite (G _ _ Ic (Pl c)). rewrite (In off).
    + destruct (shifted off c) as [[x y] z]. rewrite blend_int. reflexivity.
    + destruct (pad dims) as [[n0 n1] n2], off as [[o0 o1] o2]. cbn [zmul] in Ho. pose proof (f_equal fst Ho) as H1. pose proof (f_equal snd Ho) as H2. cbn [fst snd] in H1, H2.
      pose proof (f_equal fst H1) as H3. pose proof (f_equal snd H1) as H4. cbn [fst snd] in H3, H4. auto.
Qed.

(** ** Vector fields *)
Lemma data_vector o L k cp st junk f dims xr xi yr yi zr zi m :
  prepare o (lattice_attr L) (vec_attr k) (vec_attr cp) = Val st ->
  Forall2 (fun nam d => f nam = Some (dims, d) /\ dset_ok (dims, d)) six_names [xr; xi; yr; yi; zr; zi] -> memo_ok m -> (o_trans o = true -> (2 <= length dims)%nat) ->
  let Rin := times (or_one cp) L in
  exists Rc cart, (if o_rect o then rectify Rin (o_ve o) = Val (Rc, cart) else Rc = Rin /\ cart = ((1, 0, 0), (0, 1, 0), (0, 0, 1))%R) /\
  let Rout := times (o_mult o) Rc in let od := out_dims (o_res o) (o_mult o) Rout dims in
  exists l m', handle_cvector_dataset st junk f m = Val (map (fun p => (written_name (o_same o) (fst p), (flip_dims (o_trans o) od, snd p))) (combine six_names l), m') /\ memo_ok m' /\
    exists ox oxi oy oyi oz ozi xr' xi' yr' yi' zr' zi', l = [ox; oxi; oy; oyi; oz; ozi] /\
      (forall c, inside (pad dims) c -> (get (pad dims) xr' c, get (pad dims) yr' c, get (pad dims) zr' c) = flip (o_trans o) (combo cart (get (pad dims) xr c, get (pad dims) yr c, get (pad dims) zr c))) /\
      (forall c, inside (pad dims) c -> (get (pad dims) xi' c, get (pad dims) yi' c, get (pad dims) zi' c) = flip (o_trans o) (combo cart (get (pad dims) xi c, get (pad dims) yi c, get (pad dims) zi c))) /\
      Forall2 (fun q p => array (pad od) (fst q) /\ array (pad od) (snd q) /\ forall c r, inside (pad od) c -> same_place Rin Rout (pad od) c r ->
        value_at (o_trans o) (pad od) (fst q) (snd q) c = (o_scale o * cblend (o_near o) (cont (pad dims) (kcell cp k) (fst p) (snd p)) (gridpos (pad dims) r))%C)
        [(ox, oxi); (oy, oyi); (oz, ozi)] [(xr', xi'); (yr', yi'); (zr', zi')].
Proof.
  intros E P Hm T Rin. destruct (prepare_ok _ _ _ _ _ E) as (F & _ & K & A1 & A2 & A3 & A4 & A5 & A6 & R & cart & Q & B1 & B2). fold Rin in F, Q.
  exists R, cart. split; [exact Q|]. cbv zeta.
  assert (D : dims_ok dims) by (inversion P as [|? ? ? ? [_ [D _]] _]; exact D).
  assert (P' : six_present f dims [xr; xi; yr; yi; zr; zi]).
  { unfold six_present. clear - P. induction P as [|nam d l l' [H1 [_ H2]] _ IH]; constructor; [split; assumption|exact IH]. }
  destruct (cvector_ok Rin st junk f dims xr xi yr yi zr zi m F D P' Hm) as (w & m' & E' & Hm' & ox & oxi & oy & oyi & oz & ozi & xr' & xi' & yr' & yi' & zr' & zi' & -> & G1 & G2 & G3); [rewrite A5; exact T|].
  exists [ox; oxi; oy; oyi; oz; ozi], m'. rewrite E'. unfold odims in *. split.
  { f_equal. f_equal. apply map_ext. intros [nam d]. cbn [fst snd]. rewrite (new_is _ _ nam A6), A1, A3, A5, B1. reflexivity. }
  split; [exact Hm'|]. exists ox, oxi, oy, oyi, oz, ozi, xr', xi', yr', yi', zr', zi'. split; [reflexivity|].
  assert (SW : forall v, combo (s_cart st) v = flip (o_trans o) (combo cart v)).
  { intros [[x y] z]. rewrite B2. destruct (o_trans o); [|reflexivity]. destruct cart as [[[[a0 a1] a2] [[b0 b1] b2]] [[c0 c1] c2]]. reflexivity. }
  split; [intros c Ic; rewrite (G1 c Ic); apply SW|]. split; [intros c Ic; rewrite (G2 c Ic); apply SW|].
  rewrite A1, A2, A3, A4, A5, B1, K in G3. exact G3.
Qed.

(** ** The rectangular cell *)
Lemma unit_dir v : v <> (0, 0, 0)%R -> exists s, (0 < s)%R /\ v = sc3 s (v_unit v) /\ dot3 (v_unit v) (v_unit v) = 1%R.
Proof. intros H. destruct (unit_ok v H) as (s & S & _ & _ & _ & V & U). exists s. split; [exact S|]. split; [exact V|exact U]. Qed.
Lemma rows u0 u1 u2 v : combo (m_transpose (u0, u1, u2)) v = (dot3 u0 v, dot3 u1 v, dot3 u2 v).
Proof. destruct u0 as [[? ?] ?], u1 as [[? ?] ?], u2 as [[? ?] ?], v as [[? ?] ?]. unfold combo, m_transpose, dot3. reflexivity. Qed.
(** Projections on three orthonormal vectors keep inner products. *)
Lemma parseval u0 u1 u2 v w : dot3 u0 u0 = 1%R -> dot3 u1 u1 = 1%R -> dot3 u2 u2 = 1%R -> dot3 u0 u1 = 0%R -> dot3 u0 u2 = 0%R -> dot3 u1 u2 = 0%R ->
  dot3 (dot3 u0 v, dot3 u1 v, dot3 u2 v) (dot3 u0 w, dot3 u1 w, dot3 u2 w) = dot3 v w.
Proof.
  intros H0 H1 H2 H01 H02 H12.
  assert (T : triple (u0, u1, u2) <> 0%R).
  { assert (Q : (triple (u0, u1, u2) * triple (u0, u1, u2) = 1)%R).
    { transitivity (dot3 u0 u0 * (dot3 u1 u1 * dot3 u2 u2 - dot3 u1 u2 * dot3 u1 u2) - dot3 u0 u1 * (dot3 u0 u1 * dot3 u2 u2 - dot3 u1 u2 * dot3 u0 u2) + dot3 u0 u2 * (dot3 u0 u1 * dot3 u1 u2 - dot3 u1 u1 * dot3 u0 u2))%R.
      - destruct u0 as [[? ?] ?], u1 as [[? ?] ?], u2 as [[? ?] ?]. unfold triple, dot3. ring.
      - rewrite H0, H1, H2, H01, H02, H12. ring. }
    intros Z0. rewrite Z0 in Q. lra. }
  set (v' := v_minus v (v_minus (v_scale (dot3 u0 v) u0) (v_minus (v_scale (- dot3 u1 v) u1) (v_scale (dot3 u2 v) u2)))).
  assert (V : v' = (0, 0, 0)%R).
  { assert (X : forall u, v_dot v' u = (dot3 u v - dot3 u0 v * dot3 u u0 - dot3 u1 v * dot3 u u1 - dot3 u2 v * dot3 u u2)%R).
    { intros u. unfold v'. destruct u0 as [[? ?] ?], u1 as [[? ?] ?], u2 as [[? ?] ?], u as [[? ?] ?], v as [[? ?] ?]. unfold v_dot, v_minus, v_scale, dot3. ring. }
    assert (Cm : forall a b, dot3 a b = dot3 b a) by (intros [[? ?] ?] [[? ?] ?]; unfold dot3; ring).
    apply (cramer u0 u1 u2 _ T); rewrite X; rewrite ?H0, ?H1, ?H2, ?(Cm u1 u0), ?(Cm u2 u0), ?(Cm u2 u1), ?H01, ?H02, ?H12; ring. }
  assert (W : forall x, dot3 v x = (dot3 u0 v * dot3 u0 x + dot3 u1 v * dot3 u1 x + dot3 u2 v * dot3 u2 x)%R).
  { intros x. assert (Y : v_dot v' x = (dot3 v x - (dot3 u0 v * dot3 u0 x + dot3 u1 v * dot3 u1 x + dot3 u2 v * dot3 u2 x))%R).
    { unfold v'. destruct u0 as [[? ?] ?], u1 as [[? ?] ?], u2 as [[? ?] ?], x as [[? ?] ?], v as [[? ?] ?]. unfold v_dot, v_minus, v_scale, dot3. ring. }
    rewrite V in Y. destruct x as [[? ?] ?]. unfold v_dot in Y at 1. lra. }
  rewrite (W w). reflexivity.
Qed.
Lemma rect_ok Rin ve : let v := match ve with Some v => v | None => fst (fst Rin) end in
  let s := (triple Rin / v_dot (edge_normal Rin) v)%R in
  triple Rin <> 0%R -> v_dot (edge_normal Rin) v <> 0%R ->
  exists r0 r1 r2 u0 u1 u2 cart, rectify Rin ve = Val ((r0, r1, r2), cart) /\
    dot3 r0 r1 = 0%R /\ dot3 r0 r2 = 0%R /\ dot3 r1 r2 = 0%R /\ r0 = sc3 s v /\ triple (r0, r1, r2) = triple Rin /\
    (exists l0 l1 l2, (0 < l0)%R /\ (0 < l1)%R /\ (0 < l2)%R /\ r0 = sc3 l0 u0 /\ r1 = sc3 l1 u1 /\ r2 = sc3 l2 u2) /\
    dot3 u0 u0 = 1%R /\ dot3 u1 u1 = 1%R /\ dot3 u2 u2 = 1%R /\
    (forall w, combo cart w = (dot3 u0 w, dot3 u1 w, dot3 u2 w)) /\ forall w w', dot3 (combo cart w) (combo cart w') = dot3 w w'.
Proof.
  intros v s T Q. pose proof (rectify_ok Rin ve) as P. destruct Rin as [[c0 c1] c2]. cbn [fst] in v. fold v in P.
  destruct (P T Q) as (r0 & r1 & r2 & E & O1 & O2 & O3 & R0 & V & U0 & U1 & U2). clear P. fold s in R0.
  assert (N : r0 <> (0, 0, 0)%R /\ r1 <> (0, 0, 0)%R /\ r2 <> (0, 0, 0)%R).
  { repeat split; intros ->; apply T; rewrite <- V; [apply triple_zero0|apply triple_zero1|apply triple_zero2]. }
  destruct N as (N0 & N1 & N2). destruct (unit_dir r0 N0) as (l0 & L0 & D0 & W0), (unit_dir r1 N1) as (l1 & L1 & D1 & W1), (unit_dir r2 N2) as (l2 & L2 & D2 & W2).
  exists r0, r1, r2, (v_unit r0), (v_unit r1), (v_unit r2), (m_transpose (v_unit r0, v_unit r1, v_unit r2)).
  split; [exact E|]. split; [exact O1|]. split; [exact O2|]. split; [exact O3|]. split; [exact R0|]. split; [exact V|]. split; [exists l0, l1, l2; auto 10|].
  split; [exact W0|]. split; [exact W1|]. split; [exact W2|]. split; [intros w; apply rows|]. intros w w'. rewrite !rows.
  assert (Z0 : forall a b la lb ua ub, (0 < la)%R -> (0 < lb)%R -> a = sc3 la ua -> b = sc3 lb ub -> v_dot a b = 0%R -> dot3 ua ub = 0%R).
  { intros a b la lb ua ub Pa Pb -> -> H. assert (X : v_dot (sc3 la ua) (sc3 lb ub) = (la * lb * dot3 ua ub)%R). { destruct ua as [[? ?] ?], ub as [[? ?] ?]. unfold v_dot, sc3, dot3. ring. }
    rewrite X in H. assert (0 < la * lb)%R by (apply Rmult_lt_0_compat; assumption). apply Rmult_integral in H. destruct H; [lra|assumption]. }
  apply parseval; auto; [exact (Z0 r0 r1 l0 l1 _ _ L0 L1 D0 D1 O1)|exact (Z0 r0 r2 l0 l2 _ _ L0 L2 D0 D2 O2)|exact (Z0 r1 r2 l1 l2 _ _ L1 L2 D1 D2 O3)].
Qed.
Lemma rect_default Rin : triple Rin <> 0%R -> v_dot (edge_normal Rin) (fst (fst Rin)) = triple Rin.
Proof. destruct Rin as [[[[a0 a1] a2] [[b0 b1] b2]] [[c0 c1] c2]]. intros _. unfold edge_normal, v_dot, v_cross, v_minus, triple. cbn [fst]. ring. Qed.
