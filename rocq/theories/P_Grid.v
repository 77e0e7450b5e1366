(** Properties C07-C12, C19, C58-C60: plane waves, grid loops, parities, constant bands. *)
From Coq Require Import List ZArith Reals Lia Lra Bool.
From Verif Require Import Base RC M_Tensor M_Evect S_Evect L_Evect L_Evect2 L_Evect3 M_Grid S_Grid L_Grid L_Grid2 L_Grid3 L_Grid4 L_Grid5 L_Grid6.
Import ListNotations.
Local Open Scope Z_scope.

Lemma kpG_kG k G1 G2 G3 a b c : kpG k G1 G2 G3 a b c = kG k G1 G2 G3 (- a) (- b) (- c).
Proof. destruct k as ((?, ?), ?), G1 as ((?, ?), ?), G2 as ((?, ?), ?), G3 as ((?, ?), ?). unfold kpG, kG. cbn [fst snd vadd3 rsc]. rewrite !opp_IZR. f_equal; [f_equal|]; ring. Qed.

(* ------------------------------------------------------------------ *)
(** * C07: transverse basis *)

(** For every k, lattice, grid and slab the table is built without error, and the entry of
    every position holds a right-handed orthonormal triple along k+G (fixed axes if k+G=0). *)
Theorem C07_basis nx ny nz s l k G1 G2 G3 : 0 <= l -> 0 < ny -> 0 < nz ->
  exists t, k_plus_G nx ny nz s l k G1 G2 G3 = Val t /\ Z.of_nat (length t) = l * ny * nz /\
    forall x y z, 0 <= x < l -> 0 <= y < ny -> 0 <= z < nz ->
      let q := kG k G1 G2 G3 (- kidx nx (s + x)) (- kidx ny y) (- kidx nz z) in
      exists e, rd t ((x * ny + y) * nz + z) = Val e /\
        (q <> (0, 0, 0)%R -> triple q (km e) (kn e) (kmag e)) /\
        (q = (0, 0, 0)%R -> kmag e = 0%R /\ km e = (0, 0, 1)%R /\ kn e = (0, 1, 0)%R).
Proof.
  intros Hl Hy Hz. destruct (table_ok nx ny nz s l k G1 G2 G3 Hl Hy Hz) as (t & E & L & H). exists t. split; [exact E|]. split; [exact L|].
  intros x y z Hx Hy' Hz' q. destruct (H x y z Hx Hy' Hz') as (e & E1 & E2). exists e. split; [exact E1|]. rewrite kpG_kG in E2. fold q in E2.
  destruct (transverse_ok q) as (e' & E3 & A & B). rewrite E2 in E3. injection E3 as <-. split; [exact B|exact A].
Qed.
Example C07_example : exists e, transverse (0, 0, 2)%R = Val e /\ kn e = (0, 1, 0)%R /\ triple (0, 0, 2)%R (km e) (kn e) (kmag e).
Proof.
  destruct (transverse_ok (0, 0, 2)%R) as (e & E & _ & B). exists e. split; [exact E|]. split; [|apply B; intros Q; injection Q; lra].
  unfold transverse in E. destruct (Reqb_spec (0 * 0 + 0 * 0 + 2 * 2) 0); [lra|]. destruct (Reqb_spec 0 0) as [_|]; [|lra]. cbn [andb bind vcross] in E.
  apply bind_val in E as (li & _ & E). injection E as <-. reflexivity.
Qed.
Print Assumptions C07_basis.

(* ------------------------------------------------------------------ *)
(** * C08: the table is a bijection onto the frequencies *)

Theorem C08_bijection nx ny nz : 0 < nx -> 0 < ny -> 0 < nz ->
  NoDup (planewaves nx ny nz 0 nx) /\ (forall a b c, In (a, b, c) (planewaves nx ny nz 0 nx) <-> freq nx a /\ freq ny b /\ freq nz c) /\
  (forall x y z, 0 <= x < nx -> 0 <= y < ny -> 0 <= z < nz -> rd (planewaves nx ny nz 0 nx) ((x * ny + y) * nz + z) = Val (kidx nx x, kidx ny y, kidx nz z)).
Proof.
  intros Hx Hy Hz. destruct (planewaves_bij nx ny nz Hx Hy Hz) as (A & B). split; [exact A|]. split; [exact B|].
  intros x y z Qx Qy Qz. exact (planewaves_rd nx ny nz 0 nx x y z Qx Qy Qz).
Qed.
(** Position to frequency and frequency to position are mutually inverse; the plane wave of
    frequency index a carries the reciprocal vector with index -a. *)
Theorem C08_inverse n : 0 < n ->
  (forall x, 0 <= x < n -> freq n (kidx n x) /\ order_pos n (- kidx n x) = Val x) /\
  (forall g, freq n (- g) -> exists x, order_pos n g = Val x /\ 0 <= x < n /\ kidx n x = - g).
Proof. intros Hn. split; [intros x Hx; split; [exact (kidx_freq n x Hx)|exact (order_kidx n x Hx)]|intros g Hg; exact (order_freq n g Hn Hg)]. Qed.
Theorem C08_even_window n g : 0 < n -> n mod 2 = 0 -> (freq n g <-> - (n / 2) <= g < n / 2).
Proof. intros Hn He. unfold freq. pose proof (Z.div_mod n 2 ltac:(lia)). destruct (Z.eqb_spec n 1) as [->|]; [discriminate|]. lia. Qed.
(** The slabs of the processes, put together in order, are the whole table. *)
Theorem C08_slabs nx ny nz s l l' : 0 <= l -> 0 <= l' ->
  planewaves nx ny nz s l ++ planewaves nx ny nz (s + l) l' = planewaves nx ny nz s (l + l').
Proof. intros Hl Hl'. symmetry. exact (planewaves_split nx ny nz s l l' Hl Hl'). Qed.
Example C08_example : planewaves 2 1 4 0 2 = [(0,0,0); (0,0,1); (0,0,-2); (0,0,-1); (-1,0,0); (-1,0,1); (-1,0,-2); (-1,0,-1)] /\ order_pos 4 1 = Val 3 /\ order_pos 4 4 = Val 0 /\ order_pos 4 5 = Abort.
Proof. repeat split. Qed.
Print Assumptions C08_bijection.
Print Assumptions C08_inverse.
Print Assumptions C08_even_window.
Print Assumptions C08_slabs.

(* ------------------------------------------------------------------ *)
(** * C09: grid loops *)

Theorem C09_complex n1 n2 n3 : 0 <= n1 -> 0 <= n2 -> 0 <= n3 -> visits (loop_complex n1 n2 n3) (n1 * n2 * n3) (box 0 n1 0 n2 0 n3).
Proof. exact (loop_complex_ok n1 n2 n3). Qed.
Theorem C09_complex_mpi n1 n2 n3 local_n2 start : 0 <= n1 -> 0 <= local_n2 -> 0 <= n3 ->
  visits (loop_complex_mpi n1 n2 n3 local_n2 start) (local_n2 * n1 * n3) (box 0 n1 start (start + local_n2) 0 n3).
Proof. exact (loop_mpi_gen n1 n3 local_n2 start). Qed.
(** Real fields: the last dimension of the transform keeps n/2+1 points. *)
Theorem C09_real n1 n2 n3 : 0 < n1 -> 0 < n2 -> 0 < n3 ->
  visits (loop_real n1 n2 n3)
    (if n3 =? 1 then (if n2 =? 1 then n1 / 2 + 1 else n1 * (n2 / 2 + 1)) else n1 * n2 * (n3 / 2 + 1))
    (if n3 =? 1 then (if n2 =? 1 then box 0 (n1 / 2 + 1) 0 1 0 1 else box 0 n1 0 (n2 / 2 + 1) 0 1) else box 0 n1 0 n2 0 (n3 / 2 + 1)).
Proof. exact (loop_real_ok n1 n2 n3). Qed.
Theorem C09_real_mpi n1 n2 n3 local_n2 start : 0 <= n1 -> 0 <= local_n2 -> 0 < n3 ->
  let l3 := if n3 =? 1 then 1 else n3 / 2 + 1 in
  visits (loop_real_mpi n1 n2 n3 local_n2 start) (local_n2 * n1 * l3) (box 0 n1 start (start + local_n2) 0 l3).
Proof.
  intros H1 H2 H3 l3.
  assert (E : (if n3 >? 1 then Z.quot (last_dim_size n1 n2 n3) 2 else 1) = l3).
  { unfold l3. rewrite Z.gtb_ltb. destruct (Z.ltb_spec 1 n3); destruct (Z.eqb_spec n3 1); try lia. unfold last_dim_size, last_dim, fft_rank.
    destruct (Z.eqb_spec n3 1); [lia|]. cbn [Z.eqb Pos.eqb]. apply quot_half. lia. }
  unfold loop_real_mpi. rewrite E. apply loop_mpi_gen; try assumption. unfold l3. destruct (n3 =? 1); [lia|]. pose proof (Z.div_pos n3 2). lia.
Qed.
Example C09_example : loop_real 3 1 1 = [(0,0,0,0); (1,0,0,1)] /\ map fst (loop_complex_mpi 2 9 1 2 5) = [(0,5,0); (1,5,0); (0,6,0); (1,6,0)].
Proof. split; reflexivity. Qed.
Print Assumptions C09_complex.
Print Assumptions C09_complex_mpi.
Print Assumptions C09_real.
Print Assumptions C09_real_mpi.

(* ------------------------------------------------------------------ *)
(** * C10: parity constraints are orthogonal projections *)

(** The result obeys the demanded symmetries. *)
Theorem C10_symmetric nx lnx ny nz parity p X : field lnx ny nz p X -> sizes nx lnx ny nz ->
  exists X', parity_constraint nx lnx ny nz parity p X = Val X' /\ length X' = length X /\
    (wanted parity 0 1 <> 0 -> zsymmetric (wanted parity 0 1) lnx ny nz p X') /\
    (wanted parity 2 3 <> 0 -> ysymmetric (wanted parity 2 3) lnx ny nz p X').
Proof. exact (pc_symmetric nx lnx ny nz parity p X). Qed.
(** Fields already obeying them are unchanged. *)
Theorem C10_fixes nx lnx ny nz parity p X : field lnx ny nz p X -> sizes nx lnx ny nz ->
  (wanted parity 0 1 <> 0 -> zsymmetric (wanted parity 0 1) lnx ny nz p X) ->
  (wanted parity 2 3 <> 0 -> ysymmetric (wanted parity 2 3) lnx ny nz p X) ->
  parity_constraint nx lnx ny nz parity p X = Val X.
Proof. exact (pc_fixes nx lnx ny nz parity p X). Qed.
Theorem C10_idempotent nx lnx ny nz parity p X X' : field lnx ny nz p X -> sizes nx lnx ny nz ->
  parity_constraint nx lnx ny nz parity p X = Val X' -> parity_constraint nx lnx ny nz parity p X' = Val X'.
Proof. exact (pc_idem nx lnx ny nz parity p X X'). Qed.
Theorem C10_selfadjoint nx lnx ny nz parity p X X' Y Y' b b' : field lnx ny nz p X -> field lnx ny nz p Y -> sizes nx lnx ny nz -> 0 <= b < p -> 0 <= b' < p ->
  parity_constraint nx lnx ny nz parity p X = Val X' -> parity_constraint nx lnx ny nz parity p Y = Val Y' ->
  inner lnx ny nz p X' Y b b' = inner lnx ny nz p X Y' b b'.
Proof. exact (pc_adj nx lnx ny nz parity p X X' Y Y' b b'). Qed.
(** Even (1) and odd (2) z projections are complementary and annihilate one another. *)
Theorem C10_z_complementary nx lnx ny nz p X : field lnx ny nz p X -> sizes nx lnx ny nz ->
  exists Xe Xo, zparity_constraint nx lnx ny nz 1 p X = Val Xe /\ zparity_constraint nx lnx ny nz 2 p X = Val Xo /\
    (forall x y z c b, inside lnx ny nz p x y z c b -> amp ny nz p X x y z c b = (amp ny nz p Xe x y z c b + amp ny nz p Xo x y z c b)%C) /\
    exists Z1 Z2, zparity_constraint nx lnx ny nz 2 p Xe = Val Z1 /\ zparity_constraint nx lnx ny nz 1 p Xo = Val Z2 /\
    (forall x y z c b, inside lnx ny nz p x y z c b -> amp ny nz p Z1 x y z c b = C0 /\ amp ny nz p Z2 x y z c b = C0).
Proof. exact (z_complement nx lnx ny nz p X). Qed.
Theorem C10_y_complementary lnx ny nz p X : field lnx ny nz p X ->
  exists Xe Xo, yparity_constraint lnx ny nz 4 p X = Val Xe /\ yparity_constraint lnx ny nz 8 p X = Val Xo /\
    (forall x y z c b, inside lnx ny nz p x y z c b -> amp ny nz p X x y z c b = (amp ny nz p Xe x y z c b + amp ny nz p Xo x y z c b)%C) /\
    exists Z1 Z2, yparity_constraint lnx ny nz 8 p Xe = Val Z1 /\ yparity_constraint lnx ny nz 4 p Xo = Val Z2 /\
    (forall x y z c b, inside lnx ny nz p x y z c b -> amp ny nz p Z1 x y z c b = C0 /\ amp ny nz p Z2 x y z c b = C0).
Proof. exact (y_complement lnx ny nz p X). Qed.
Theorem C10_commute nx lnx ny nz parity p X : field lnx ny nz p X -> sizes nx lnx ny nz ->
  (let! X1 := zparity_constraint nx lnx ny nz parity p X in yparity_constraint lnx ny nz parity p X1) =
  (let! X1 := yparity_constraint lnx ny nz parity p X in zparity_constraint nx lnx ny nz parity p X1).
Proof. exact (zy_commute nx lnx ny nz parity p X). Qed.
Example C10_example : field 1 1 3 1 [C1; C0; C1; C0; C0; Ci] /\ sizes 1 1 1 3 /\ wanted 1 0 1 = 1 /\ wanted 9 2 3 = -1.
Proof. split; [unfold field; cbn; lia|]. split; [intros _ Q; discriminate|]. split; reflexivity. Qed.
Print Assumptions C10_symmetric.
Print Assumptions C10_fixes.
Print Assumptions C10_idempotent.
Print Assumptions C10_selfadjoint.
Print Assumptions C10_z_complementary.
Print Assumptions C10_y_complementary.
Print Assumptions C10_commute.

(* ------------------------------------------------------------------ *)
(** * C11: reported parities *)

(** A band whose field has the symmetry reports exactly +1 or -1, whatever the split over
    processes, as long as it is not zero. *)
Theorem C11_z_symmetric nx ny nz p b shares s : 0 <= b < p -> (forall t, In t shares -> field (fst t) ny nz p (snd t) /\ sizes nx (fst t) ny nz) ->
  total (fun lnx X => norm2 lnx ny nz p X b) shares <> 0%R -> s = 1 \/ s = -1 -> (forall t, In t shares -> zsymmetric s (fst t) ny nz p (snd t)) ->
  (let! l := mapM (fun t => zparity_sums nx (fst t) ny nz p b (snd t)) shares in parity_value l) = Val (IZR s).
Proof. intros Hb HF Hn Hs H. exact (reported_z_sym nx ny nz p b Hb shares HF Hn s Hs H). Qed.
Theorem C11_y_symmetric nx ny nz p b shares s : 0 <= b < p -> (forall t, In t shares -> field (fst t) ny nz p (snd t) /\ sizes nx (fst t) ny nz) ->
  total (fun lnx X => norm2 lnx ny nz p X b) shares <> 0%R -> s = 1 \/ s = -1 -> (forall t, In t shares -> ysymmetric s (fst t) ny nz p (snd t)) ->
  (let! l := mapM (fun t => yparity_sums (fst t) ny nz p b (snd t)) shares in parity_value l) = Val (IZR s).
Proof. intros Hb HF Hn Hs H. exact (reported_y_sym nx ny nz p b Hb shares HF Hn s Hs H). Qed.
(** In general: the flip expectation over the squared norm, within [-1,1], for bands whose
    mirrored plane waves carry equal intensity.  Missing: other bands, see C11_bound_refuted. *)
Theorem C11_z_partial nx ny nz p b shares : 0 <= b < p -> (forall t, In t shares -> field (fst t) ny nz p (snd t) /\ sizes nx (fst t) ny nz) ->
  let N := total (fun lnx X => norm2 lnx ny nz p X b) shares in
  let E := total (fun lnx X => zexpect lnx ny nz p X b) shares in
  N <> 0%R -> (forall t, In t shares -> zbalanced (fst t) ny nz p (snd t) b) ->
  (let! l := mapM (fun t => zparity_sums nx (fst t) ny nz p b (snd t)) shares in parity_value l) = Val (E / N)%R /\ (-1 <= E / N <= 1)%R.
Proof.
  intros Hb HF N E Hn H. split; [exact (reported_z_bal nx ny nz p b Hb shares HF Hn H)|].
  apply (ratio_bound ny nz p b shares Hn (fun lnx X => zexpect lnx ny nz p X b)). intros t Ht. destruct (HF t Ht) as ((A & B & D & _) & _). exact (zexp_bound (fst t) ny nz p (snd t) b A B D).
Qed.
Theorem C11_y_partial nx ny nz p b shares : 0 <= b < p -> (forall t, In t shares -> field (fst t) ny nz p (snd t) /\ sizes nx (fst t) ny nz) ->
  let N := total (fun lnx X => norm2 lnx ny nz p X b) shares in
  let E := total (fun lnx X => yexpect lnx ny nz p X b) shares in
  N <> 0%R -> (forall t, In t shares -> ybalanced (fst t) ny nz p (snd t) b) ->
  (let! l := mapM (fun t => yparity_sums (fst t) ny nz p b (snd t)) shares in parity_value l) = Val (E / N)%R /\ (-1 <= E / N <= 1)%R.
Proof.
  intros Hb HF N E Hn H. split; [exact (reported_y_bal nx ny nz p b Hb shares HF Hn H)|].
  apply (ratio_bound ny nz p b shares Hn (fun lnx X => yexpect lnx ny nz p X b)). intros t Ht. destruct (HF t Ht) as ((A & B & D & _) & _). exact (yexp_bound (fst t) ny nz p (snd t) b A B D).
Qed.
(** A normalized band on three points with reported parity 4/3. *)
Definition ex_unbalanced : list C := [C0; C0; RtoC (3 / 5); C0; RtoC (4 / 5); C0].
Theorem C11_bound_refuted : field 1 1 3 1 ex_unbalanced /\ norm2 1 1 3 1 ex_unbalanced 0 = 1%R /\
  (let! l := mapM (fun t => zparity_sums 1 (fst t) 1 3 1 0 (snd t)) [(1, ex_unbalanced)] in parity_value l) = Val (4 / 3)%R.
Proof.
  split; [unfold field; cbn; lia|]. split.
  - cbv -[Rplus Rmult Rminus Ropp Rdiv Rinv IZR]. field.
  - cbv -[Rplus Rmult Rminus Ropp Rdiv Rinv IZR Reqb fdiv]. rewrite fdiv_nz by lra. f_equal. field.
Qed.
Example C11_example : zsymmetric 1 1 1 1 1 [C1; C0] /\ total (fun lnx X => norm2 lnx 1 1 1 X 0) [(1, [C1; C0])] = 1%R /\ zbalanced 1 1 1 1 [C1; C0] 0.
Proof.
  split; [|split].
  - intros x y z c b (H1 & H2 & H3 & H4 & H5). assert (x = 0 /\ y = 0 /\ z = 0 /\ b = 0) as (-> & -> & -> & ->) by lia. assert (c = 0 \/ c = 1) as [->| ->] by lia; cbv -[Rplus Rmult Rminus Ropp Rdiv Rinv IZR]; f_equal; ring.
  - cbv -[Rplus Rmult Rminus Ropp Rdiv Rinv IZR]. ring.
  - intros x y z H1 H2 H3. assert (x = 0 /\ y = 0 /\ z = 0) as (-> & -> & ->) by lia. reflexivity.
Qed.
Print Assumptions C11_z_symmetric.
Print Assumptions C11_y_symmetric.
Print Assumptions C11_z_partial.
Print Assumptions C11_y_partial.
Print Assumptions C11_bound_refuted.

(* ------------------------------------------------------------------ *)
(** * C12: requested parities *)

(** The parity in force: bits 0,1 (z) are dropped if both are asked for or kz is not zero,
    bits 2,3 (y) likewise, no other bit changes. *)
Theorem C12_reduced ky kz parity : let d := set_data_parity ky kz parity in
  (Z.testbit d 0 && Z.testbit d 1 = false) /\ (Z.testbit d 2 && Z.testbit d 3 = false) /\
  (kz <> 0%R -> Z.testbit d 0 = false /\ Z.testbit d 1 = false) /\ (ky <> 0%R -> Z.testbit d 2 = false /\ Z.testbit d 3 = false) /\
  (kz = 0%R -> Z.testbit parity 0 && Z.testbit parity 1 = false -> Z.testbit d 0 = Z.testbit parity 0 /\ Z.testbit d 1 = Z.testbit parity 1) /\
  (ky = 0%R -> Z.testbit parity 2 && Z.testbit parity 3 = false -> Z.testbit d 2 = Z.testbit parity 2 /\ Z.testbit d 3 = Z.testbit parity 3) /\
  (forall j, 4 <= j -> Z.testbit d j = Z.testbit parity j) /\
  (forall j, 0 <= j -> Z.testbit parity j = false -> Z.testbit d j = false) /\
  set_data_parity ky kz d = d.
Proof.
  intros d. unfold d. rewrite !sdp_bits by lia. unfold zcut, ycut. cbn [Z.eqb Pos.eqb orb andb].
  split; [|split; [|split; [|split; [|split; [|split; [|split; [|split]]]]]]].
  - destruct (Z.testbit parity 0), (Z.testbit parity 1), (Reqb kz 0); reflexivity.
  - destruct (Z.testbit parity 2), (Z.testbit parity 3), (Reqb ky 0); reflexivity.
  - intros H. destruct (Reqb_spec kz 0); [contradiction|]. destruct (Z.testbit parity 0), (Z.testbit parity 1); auto.
  - intros H. destruct (Reqb_spec ky 0); [contradiction|]. destruct (Z.testbit parity 2), (Z.testbit parity 3); auto.
  - intros H. destruct (Reqb_spec kz 0); [|contradiction]. destruct (Z.testbit parity 0), (Z.testbit parity 1); auto; discriminate.
  - intros H. destruct (Reqb_spec ky 0); [|contradiction]. destruct (Z.testbit parity 2), (Z.testbit parity 3); auto; discriminate.
  - intros j Hj. rewrite sdp_bits by lia. destruct (Z.eqb_spec j 0), (Z.eqb_spec j 1), (Z.eqb_spec j 2), (Z.eqb_spec j 3); try lia. cbn [orb andb negb]. rewrite !andb_true_r. reflexivity.
  - intros j Hj H. rewrite sdp_bits, H by lia. reflexivity.
  - exact (sdp_idem ky kz parity).
Qed.
(** set-parity accepts exactly the requests that need no reduction, and -1 repeats the last one. *)
Theorem C12_accepts ky kz d last p st : set_parity ky kz (d, last) p = Val st <->
  let r := if p =? -1 then Z.max 0 last else p in set_data_parity ky kz r = r /\ st = (r, r).
Proof.
  unfold set_parity. cbn [snd]. set (r := if p =? -1 then (if last <? 0 then 0 else last) else p).
  assert (R : (if p =? -1 then Z.max 0 last else p) = r) by (unfold r; destruct (p =? -1); [destruct (Z.ltb_spec last 0); lia|reflexivity]). cbv zeta. rewrite R.
  destruct (Z.eqb_spec (set_data_parity ky kz r) r) as [E|E]; cbn [check bind].
  - rewrite E. split; [intros [= <-]; auto|intros (_ & ->); reflexivity].
  - split; [discriminate|]. intros (Q & _). contradiction.
Qed.
Example C12_example : set_data_parity 0 1 5 = 4 /\ set_data_parity 0 0 7 = 4 /\ set_parity 0 0 (0, -1) 5 = Val (5, 5) /\ set_parity 0 0 (5, 5) (-1) = Val (5, 5) /\ set_parity 0 0 (0, 0) 3 = Abort.
Proof.
  assert (R0 : Reqb 0 0 = true) by (destruct (Reqb_spec 0 0); [reflexivity|lra]). assert (R1 : Reqb 1 0 = false) by (destruct (Reqb_spec 1 0); [lra|reflexivity]).
  unfold set_parity, set_data_parity. rewrite R0, R1. repeat split.
Qed.
Print Assumptions C12_reduced.
Print Assumptions C12_accepts.

(* ------------------------------------------------------------------ *)
(** * C19: constant bands *)

(** The constant fields compatible with a (reduced) parity are those whose m component
    vanishes unless m is allowed and whose n component vanishes unless n is allowed; so
    their space has as many dimensions as allowed components. *)
Theorem C19_compatible nx lnx ny nz p X parity : 0 < lnx -> field lnx ny nz p X -> sizes nx lnx ny nz -> const_only lnx ny nz p X ->
  (Z.testbit parity 0 && Z.testbit parity 1 = false) -> (Z.testbit parity 2 && Z.testbit parity 3 = false) ->
  (forall b, 0 <= b < p -> (m_allowed parity = false -> amp ny nz p X 0 0 0 0 b = C0) /\ (n_allowed parity = false -> amp ny nz p X 0 0 0 1 b = C0)) <->
  parity_constraint nx lnx ny nz parity p X = Val X.
Proof.
  intros Hx F S CO R1 R2. pose proof F as (F1 & F2 & F3 & _). rewrite <- (const_sym lnx ny nz p X parity Hx F2 F3 CO R1 R2). split.
  - intros (A & B). exact (pc_fixes nx lnx ny nz parity p X F S A B).
  - intros E. destruct (pc_symmetric nx lnx ny nz parity p X F S) as (X' & E' & _ & A & B). rewrite E in E'. injection E' as <-. auto.
Qed.
(** The solver counts that many, or all bands if there are fewer. *)
Theorem C19_count parity p : num_const_bands p parity = Z.min p (Z.b2z (m_allowed parity) + Z.b2z (n_allowed parity)).
Proof. exact (num_const_spec p parity). Qed.
(** The constant bands written hold these states: one allowed component each, equal to 1,
    orthonormal, and left alone by the constraints. *)
Theorem C19_states nx ny nz X parity : 0 < nx -> 0 < ny -> 0 < nz -> wf X -> en X = nx * ny * nz * 2 ->
  (Z.testbit parity 0 && Z.testbit parity 1 = false) -> (Z.testbit parity 2 && Z.testbit parity 3 = false) ->
  exists X', set_const_bands C0 C1 X parity 0 = Val X' /\
    let nc := num_const_bands (ep X) parity in
    (forall j, 0 <= j < nc -> exists r, (r = 0 /\ m_allowed parity = true \/ r = 1 /\ n_allowed parity = true) /\
      forall x y z c, inside nx ny nz (ep X) x y z c j ->
        amp ny nz (ep X) (edata X') x y z c j = if (x =? 0) && (y =? 0) && (z =? 0) && (c =? r) then C1 else C0) /\
    (forall j j', 0 <= j < nc -> 0 <= j' < nc -> inner nx ny nz (ep X) (edata X') (edata X') j j' = if j =? j' then C1 else C0) /\
    (exists Y, parity_constraint nx nx ny nz parity (ep X) (edata X') = Val Y /\
      forall j x y z c, 0 <= j < nc -> inside nx ny nz (ep X) x y z c j -> amp ny nz (ep X) Y x y z c j = amp ny nz (ep X) (edata X') x y z c j).
Proof.
  intros Hx Hy Hz W En R1 R2. destruct (const_bands_field X parity nx ny nz W En Hx Hy Hz) as (X' & E & W' & E1 & E2 & F & H). exists X'. split; [exact E|].
  cbv zeta. rewrite num_const_spec. split; [|split].
  - intros j Hj. destruct (H j Hj) as (A & B). exists (const_row parity j). split; [destruct B as [(-> & ->)|(-> & ->)]; auto|]. exact A.
  - intros j j' Hj Hj'. exact (const_bands_orth X parity nx ny nz X' W En Hx Hy Hz E j j' Hj Hj').
  - assert (S : sizes nx nx ny nz) by (intros _ _; reflexivity).
    destruct (pc_ok nx nx ny nz parity (ep X) (edata X') F S) as (_ & Y & EY & _). exists Y. split; [exact EY|].
    intros j x y z c Hj Q. destruct (H j Hj) as (A & B).
    assert (Op : forall n i, 0 < n -> 0 <= i < n -> (opp n i =? 0) = (i =? 0)).
    { intros n i Hn Hi. destruct (Z.eqb_spec i 0) as [->|]; [unfold opp; cbn [Z.opp]; rewrite Zmod_0_l; reflexivity|].
      destruct (Z.eqb_spec (opp n i) 0) as [Q0|]; [|reflexivity]. exfalso. pose proof (opp_opp n i Hi) as OO. rewrite Q0 in OO. unfold opp in OO. cbn [Z.opp] in OO. rewrite Zmod_0_l in OO. lia. }
    destruct (pc_band nx nx ny nz parity (ep X) (edata X') j F S) as (Y' & EY' & _ & P).
    + pose proof (const_count_range parity (ep X)). destruct W as (_ & Wp & _). lia.
    + intros Wz x' y' z' c' (Q1 & Q2 & Q3 & Q4 & Q5). pose proof (opp_range nz z' ltac:(lia)). unfold zflip. rewrite !A by (unfold inside; lia). rewrite Op by lia.
      destruct (x' =? 0), (y' =? 0), (z' =? 0); cbn [andb unit_at]; try (destruct (c' =? 0); apply C_eq; csimp; ring).
      revert R1 R2 Wz B. unfold m_allowed, n_allowed, wanted.
      destruct (Z.testbit parity 0), (Z.testbit parity 1), (Z.testbit parity 2), (Z.testbit parity 3); cbn [andb negb]; intros R1 R2 Wz [(-> & B)|(-> & B)]; try discriminate; try (exfalso; apply Wz; reflexivity);
        assert (c' = 0 \/ c' = 1) as [->| ->] by lia; cbn [Z.eqb unit_at]; apply C_eq; csimp; ring.
    + intros Wz x' y' z' c' (Q1 & Q2 & Q3 & Q4 & Q5). pose proof (opp_range ny y' ltac:(lia)). unfold yflip. rewrite !A by (unfold inside; lia). rewrite Op by lia.
      destruct (x' =? 0), (y' =? 0), (z' =? 0); cbn [andb unit_at]; try (destruct (c' =? 0); apply C_eq; csimp; ring).
      revert R1 R2 Wz B. unfold m_allowed, n_allowed, wanted.
      destruct (Z.testbit parity 0), (Z.testbit parity 1), (Z.testbit parity 2), (Z.testbit parity 3); cbn [andb negb]; intros R1 R2 Wz [(-> & B)|(-> & B)]; try discriminate; try (exfalso; apply Wz; reflexivity);
        assert (c' = 0 \/ c' = 1) as [->| ->] by lia; cbn [Z.eqb unit_at]; apply C_eq; csimp; ring.
    + rewrite EY in EY'. injection EY' as <-. apply P. exact Q.
Qed.
(** The zero-k constraint sets the two constant components (on the process holding them) to
    zero in every band and changes nothing else. *)
Theorem C19_removed {A} (zero : A) X Nstart : wf X -> (Nstart <= 0 -> 2 <= en X) ->
  exists X', zero_k_constraint zero X Nstart = Val X' /\ en X' = en X /\ ep X' = ep X /\
    forall i j, 0 <= i < en X -> 0 <= j < ep X -> ent X' i j = if (Nstart <=? 0) && (i <? 2) then Val zero else ent X i j.
Proof. intros W H. destruct (zero_k_ok zero X Nstart W H) as (X' & E & _ & E1 & E2 & _ & P). exists X'. auto. Qed.
Example C19_example : wf {| en := 4; ep := 2; ealloc := 2; edata := [C1; C1; C1; C1; C1; C1; C1; C1] |} /\ 4 = 2 * 1 * 1 * 2 /\ num_const_bands 2 0 = 2 /\ num_const_bands 2 1 = 1 /\ num_const_bands 2 5 = 0 /\ num_const_bands 2 9 = 1.
Proof. split; [split; [|split]; cbn; lia|]. repeat split. Qed.
Print Assumptions C19_compatible.
Print Assumptions C19_count.
Print Assumptions C19_states.
Print Assumptions C19_removed.

(* ------------------------------------------------------------------ *)
(** * C58: dominant plane wave *)

(** One process: the vector returned is k+G of a position whose intensity in the band no other exceeds. *)
Theorem C58_dominant nx ny nz s l k G1 G2 G3 t p band data : 0 < l -> field l ny nz p data -> 1 <= band <= p -> k_plus_G nx ny nz s l k G1 G2 G3 = Val t ->
  exists m x y z, dominant_planewave (local_N l ny nz) p band data t = Val (m, kG k G1 G2 G3 (- kidx nx (s + x)) (- kidx ny y) (- kidx nz z)) /\
    0 <= x < l /\ 0 <= y < ny /\ 0 <= z < nz /\
    m = intensity ny nz p data x y z (band - 1) /\
    forall x' y' z', 0 <= x' < l -> 0 <= y' < ny -> 0 <= z' < nz -> (intensity ny nz p data x' y' z' (band - 1) <= m)%R.
Proof.
  intros H1 H2 H3 H4. destruct (dominant_ok nx ny nz s l k G1 G2 G3 t p band data H1 H2 H3 H4) as (m & x & y & z & E & R). exists m, x, y, z. rewrite <- kpG_kG. auto.
Qed.
Theorem C58_band_checked N p band data t : ~ (1 <= band <= p) -> dominant_planewave N p band data t = Abort.
Proof. intros H. unfold dominant_planewave. assert (((1 <=? band) && (band <=? p)) = false) as -> by lia. reflexivity. Qed.
(** Several processes in one group: the result of one with the largest intensity. *)
Theorem C58_one_group (res : list (R * vec)) : res <> [] ->
  exists m v, dominant_mpi (map Z.of_nat (seq 0 (length res))) res = Val v /\ In (m, v) res /\ forall r, In r res -> (fst r <= m)%R.
Proof. intros H. destruct (dominant_mpi_ok res H) as (m & v & E & R). exists m, v. split; [|exact R]. revert E. unfold zrange. rewrite Nat2Z.id. auto. Qed.
(** Processor groups: three processes, the second group holds global ranks 1 and 2; the
    result of the process with less intensity is returned.  With two groups of two, the second group gets an MPI error. *)
Theorem C58_groups_refuted : exists ranks res v w, dominant_mpi ranks res = Val v /\ ranks = [1; 2] /\ In (2%R, w) res /\ res = [(2%R, w); (1%R, v)] /\ v <> w /\
  dominant_mpi [2; 3] res = Abort.
Proof.
  exists [1; 2], [(2%R, (1, 0, 0)%R); (1%R, (0, 1, 0)%R)], (0, 1, 0)%R, (1, 0, 0)%R.
  assert (E1 : Rltb 2 1 = false) by (destruct (Rltb_spec 2 1); [lra|reflexivity]). assert (E2 : Reqb 2 1 = false) by (destruct (Reqb_spec 2 1); [lra|reflexivity]).
  unfold dominant_mpi, maxloc. cbn [map combine fold_left fst snd]. rewrite E1, E2. cbn.
  repeat split; auto. intros Q. injection Q. lra.
Qed.
(** A process without plane waves reads table entry 0. *)
Theorem C58_empty_refuted : exists data : list C, field 0 1 1 1 data /\ k_plus_G 1 1 1 0 0 (0,0,0)%R (1,0,0)%R (0,1,0)%R (0,0,1)%R = Val [] /\ dominant_planewave (local_N 0 1 1) 1 1 data [] = UB.
Proof. exists []. split; [unfold field; cbn; lia|]. split; reflexivity. Qed.
Example C58_example : field 1 1 2 1 [C0; C0; C1; C0] /\ (1 <= 1 <= 1) /\ exists t, k_plus_G 1 1 2 0 1 (0,0,0)%R (1,0,0)%R (0,1,0)%R (0,0,1)%R = Val t.
Proof. split; [unfold field; cbn; lia|]. split; [lia|]. destruct (C07_basis 1 1 2 0 1 (0,0,0)%R (1,0,0)%R (0,1,0)%R (0,0,1)%R) as (t & E & _); try lia. exists t. exact E. Qed.
Print Assumptions C58_dominant.
Print Assumptions C58_band_checked.
Print Assumptions C58_one_group.
Print Assumptions C58_groups_refuted.
Print Assumptions C58_empty_refuted.

(* ------------------------------------------------------------------ *)
(** * C59: the parity constraints pair mirrored plane waves *)

(** The paired position holds the negated frequency exactly for all but the outermost frequencies: the
    one in the middle of the table, or the two around the middle if the size is odd. *)
Theorem C59_pairs n x : 0 <= x < n -> kidx n (opp n x) = - kidx n x <-> ~ (1 < n /\ Z.abs (2 * x - n) <= 1).
Proof.
  intros Hx. unfold kidx, opp. pose proof (Z.quot_div_nonneg n 2 ltac:(lia) ltac:(lia)) as Q. pose proof (Z.div_mod n 2 ltac:(lia)) as Dv. pose proof (Z.mod_pos_bound n 2 ltac:(lia)) as Mb. rewrite Q.
  destruct (Z.eq_dec x 0) as [-> |N].
  - rewrite Z.mod_0_l by lia. destruct (Z.geb_spec 0 (Z.max 1 (n / 2))); lia.
  - assert (E : (- x) mod n = n - x) by (symmetry; apply (Z.mod_unique_pos _ _ (-1)); lia). rewrite E. destruct (Z.geb_spec (n - x) (Z.max 1 (n / 2))), (Z.geb_spec x (Z.max 1 (n / 2))); lia.
Qed.
(** Odd sizes from 3 on: the frequency set is not symmetric, so some pair is not mirrored. *)
Theorem C59_odd_refuted n : 3 <= n -> n mod 2 = 1 -> exists x, 0 <= x < n /\ kidx n (opp n x) <> - kidx n x.
Proof. intros H H'. exists (n / 2). pose proof (Z.div_mod n 2 ltac:(lia)). split; [lia|]. exact (mirror_odd n H H'). Qed.
Example C59_example : map (kidx 4) [0; 1; 2; 3] = [0; 1; -2; -1] /\ map (kidx 3) [0; 1; 2] = [0; -2; -1] /\ map (opp 3) [0; 1; 2] = [0; 2; 1].
Proof. repeat split. Qed.
Print Assumptions C59_pairs.
Print Assumptions C59_odd_refuted.

(* ------------------------------------------------------------------ *)
(** * C60: prescribed plane waves *)

(** For orders within the frequency set, and axis not along k+G: the band holds the plane
    wave of wave vector k+G with magnetic field s S + p P, where P is the unit vector along
    (k+G) x axis and S = direction(k+G) x P; everything else in the band is zero and the other
    bands are unchanged. Holds on every process for its slab. *)
Theorem C60_planewave_partial nx ny nz s l k G1 G2 G3 t p band data g0 g1 g2 sa pa axis :
  field l ny nz p data -> 1 <= band <= p -> 0 <= s -> s + l <= nx -> 0 < nx -> k_plus_G nx ny nz s l k G1 G2 G3 = Val t ->
  freq nx (- g0) -> freq ny (- g1) -> freq nz (- g2) ->
  let q := kG k G1 G2 G3 g0 g1 g2 in
  rcross q axis <> (0, 0, 0)%R ->
  exists x y z d S P u v e, set_planewave nx ny nz s l t p band data (g0, g1, g2) sa pa axis = Val d /\ length d = length data /\
    0 <= x < nx /\ 0 <= y < ny /\ 0 <= z < nz /\ kidx nx x = - g0 /\ kidx ny y = - g1 /\ kidx nz z = - g2 /\
    transverse q = Val e /\
    rdot P P = 1%R /\ rdot P q = 0%R /\ rdot P axis = 0%R /\ (0 < rdot P (rcross q axis))%R /\ rsc (kmag e) S = rcross q P /\
    same_mix (km e) (kn e) u v S P sa pa /\ (normsqr u + normsqr v = normsqr sa + normsqr pa)%R /\
    forall x' y' z' c b, inside l ny nz p x' y' z' c b ->
      amp ny nz p d x' y' z' c b = if b =? band - 1 then (if (s + x' =? x) && (y' =? y) && (z' =? z) then (if c =? 0 then u else v) else C0) else amp ny nz p data x' y' z' c b.
Proof.
  intros F Hb Hs Hsl Hnx Et Q0 Q1 Q2 q Hq. pose proof F as (F1 & F2 & F3 & _).
  destruct (order_freq nx g0 Hnx Q0) as (x & Ex & Hx & Kx). destruct (order_freq ny g1 F2 Q1) as (y & Ey & Hy & Ky). destruct (order_freq nz g2 F3 Q2) as (z & Ez & Hz & Kz).
  destruct (transverse_ok q) as (e & Ee & Zq & Nq). destruct (entry_vec _ _ Ee) as (Ve & A1 & A2 & A3).
  assert (Hq0 : q <> (0, 0, 0)%R). { intros Qz. apply Hq. rewrite Qz. destruct axis as ((?, ?), ?). cbn [rcross]. f_equal; [f_equal|]; ring. }
  destruct (Nq Hq0) as (_ & _ & _ & _ & _ & Tq & Lq).
  assert (Hk0 : (0 < kmag e)%R).
  { rewrite Lq. destruct q as ((a, b), c). cbn [rdot]. apply sqrt_lt_R0. pose proof (Rle_0_sqr a); pose proof (Rle_0_sqr b); pose proof (Rle_0_sqr c). unfold Rsqr in *.
    destruct (Req_dec a 0), (Req_dec b 0), (Req_dec c 0); [exfalso; apply Hq0; congruence|nra ..]. }
  set (d := rcross (km e) (kn e)) in *.
  assert (Rsc : forall w, rcross q w = rsc (kmag e) (rcross d w)).
  { intros w. rewrite <- Tq. destruct d as ((?, ?), ?), w as ((?, ?), ?). cbn [rcross rsc]. f_equal; [f_equal|]; ring. }
  assert (Hd : rcross d axis <> (0, 0, 0)%R). { intros Z0. apply Hq. rewrite Rsc, Z0. cbn [rsc]. f_equal; [f_equal|]; ring. }
  destruct (amp_ok e sa pa axis A1 A2 A3 Hd) as (u & v & S & P & EA & P1 & Pk & PA & PP & ES & M & NN). fold d in Pk, PP, ES.
  destruct (set_planewave_ok nx ny nz s l t p band data g0 g1 g2 sa pa axis x y z e F Hb Hs Hsl Ex Ey Ez) with (u := u) (v := v) as (r & Er & Lr & Hr); auto.
  { intros Hxs. destruct (table_ok nx ny nz s l k G1 G2 G3 F1 F2 F3) as (t' & E' & _ & Ht). rewrite Et in E'. injection E' as <-.
    destruct (Ht (x - s) y z) as (e' & E1 & E2); [lia|lia|lia|]. replace (s + (x - s)) with x in E2 by lia. rewrite Kx, Ky, Kz, kpG_kG, !Z.opp_involutive in E2. fold q in E2. rewrite Ee in E2. injection E2 as <-. exact E1. }
  exists x, y, z, r, S, P, u, v, e. split; [exact Er|]. split; [exact Lr|]. do 6 (split; [assumption|]). split; [exact Ee|]. split; [exact P1|].
  split. { rewrite <- Tq. revert Pk. destruct d as ((?, ?), ?), P as ((?, ?), ?). cbn [rdot rsc]. intros Pk. nra. }
  split; [exact PA|]. split. { rewrite Rsc. revert PP. destruct (rcross d axis) as ((a, b), c), P as ((p0, p1), p2). cbn [rdot rsc]. intros PP.
    replace (p0 * (kmag e * a) + p1 * (kmag e * b) + p2 * (kmag e * c))%R with (kmag e * (p0 * a + p1 * b + p2 * c))%R by ring. apply Rmult_lt_0_compat; assumption. }
  split; [rewrite Rsc, ES; reflexivity|]. split; [exact M|]. split; [exact NN|exact Hr].
Qed.
(** Orders outside the frequency set are not refused: order 5 on 8 points sets order -3,
    order -2 on 3 points sets order 1, order 1 in a direction with one point sets order 0. *)
Theorem C60_order_refuted : exists n g x, order_pos n g = Val x /\ 0 <= x < n /\ kidx n x <> - g /\ kidx n x = - (g - n).
Proof. exists 8, 5, 3. cbn. repeat split; lia. Qed.
Theorem C60_orders n g x : 0 < n -> order_pos n g = Val x -> 0 <= x < n /\ - n < g <= n /\ (kidx n x = - g \/ kidx n x = - (g - n) \/ kidx n x = - (g + n)).
Proof.
  intros Hn. unfold order_pos, check, kidx. rewrite Z.quot_div_nonneg, Z.gtb_ltb by lia. pose proof (Z.div_mod n 2 ltac:(lia)). pose proof (Z.mod_pos_bound n 2 ltac:(lia)).
  destruct (Z.ltb_spec 0 g).
  - destruct (Z.leb_spec 0 (n - g)), (Z.ltb_spec (n - g) n); cbn [andb bind]; try discriminate. intros [= <-]. rewrite Z.geb_leb. destruct (Z.leb_spec (Z.max 1 (n / 2)) (n - g)); lia.
  - destruct (Z.leb_spec 0 (- g)), (Z.ltb_spec (- g) n); cbn [andb bind]; try discriminate. intros [= <-]. rewrite Z.geb_leb. destruct (Z.leb_spec (Z.max 1 (n / 2)) (- g)); lia.
Qed.
(** An axis along k+G is refused. *)
Theorem C60_axis (e : kdata) sa pa axis : rcross (rcross (km e) (kn e)) axis = (0, 0, 0)%R -> planewave_amp e sa pa axis = Abort.
Proof. exact (amp_parallel e sa pa axis). Qed.
Example C60_example : field 2 1 4 1 (repeat C1 16) /\ freq 4 (- 1) /\ freq 2 (- 0) /\ rcross (kG (0,0,0)%R (1,0,0)%R (0,1,0)%R (0,0,1)%R 0 0 1) (1, 0, 0)%R <> (0, 0, 0)%R.
Proof. split; [unfold field; cbn; lia|]. split; [unfold freq; cbn; lia|]. split; [unfold freq; cbn; lia|]. unfold kG. cbn. intros Q. injection Q. lra. Qed.
Print Assumptions C60_planewave_partial.
Print Assumptions C60_order_refuted.
Print Assumptions C60_orders.
Print Assumptions C60_axis.
