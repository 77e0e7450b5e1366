(** Half-stored grids, and what each loop of the real-scalar operator leaves in the array. *)
From Coq Require Import List ZArith Reals Bool Lia Lra.
From Verif Require Import Base RC Loops M_Tensor S_Tensor M_Evect S_Evect L_Evect L_Evect3 M_Grid S_Grid L_Grid M_Op S_Op L_Op L_Op2 L_Op5 M_Real S_Real L_Real1.
Import ListNotations.
Local Open Scope Z_scope.

Lemma against_opp n i : 0 <= i < n -> against n i = opp n i.
Proof.
  intros H. unfold against, opp. destruct (Z.eqb_spec i 0) as [->|]; [rewrite Zmod_0_l; reflexivity|].
  apply (Z.mod_unique_pos _ _ (-1)); lia.
Qed.

Section D.
Variable d : mdata.
Hypothesis Wr : wfr d.
Notation N := (npts d).
Notation NN := (Z.to_nat (npts d)).
Notation L := (d_last d).
Notation S := (stored d).
Notation O := (d_other d).
Notation nx := (d_nx d). Notation ny := (d_ny d). Notation nz := (d_nz d).

Lemma r_sizes : 1 <= nx /\ 1 <= ny /\ 1 <= nz.
Proof. destruct Wr as (A & B & D & _). auto. Qed.
Lemma r_N : 1 <= N.
Proof. destruct r_sizes as (A & B & D). unfold npts. assert (1 <= nx * ny) by nia. nia. Qed.
Lemma r_L : 1 <= L.
Proof. destruct Wr as (A & B & D & E & _). rewrite E. unfold last_dim. destruct (_ =? 1); [lia|]. destruct (_ =? 2); lia. Qed.
Lemma r_OL : O * L = N. Proof. apply Wr. Qed.
Lemma r_O : 1 <= O.
Proof. pose proof r_OL. pose proof r_N. pose proof r_L. nia. Qed.
Lemma r_S : S = L / 2 + 1.
Proof. unfold stored. rewrite Z.quot_div_nonneg; pose proof r_L; lia. Qed.
Lemma r_S_bounds : 1 <= S <= L /\ L < 2 * S.
Proof. rewrite r_S. pose proof r_L. pose proof (Z.div_mod L 2 ltac:(lia)). pose proof (Z.mod_pos_bound L 2 ltac:(lia)). assert (0 <= L / 2) by (apply Z.div_pos; lia). destruct (Z.eq_dec L 1) as [E|]; [rewrite E; cbn; lia|]. lia. Qed.
Lemma r_LS : d_last_size d = 2 * S.
Proof. rewrite r_S. apply Wr. Qed.
Lemma r_out : d_out d = O * S.
Proof. rewrite r_S. apply Wr. Qed.
Definition M : Z := O * d_last_size d.
Lemma r_M : M = 2 * (O * S).
Proof. unfold M. rewrite r_LS. ring. Qed.

Lemma row g : 0 <= g < N -> 0 <= g / L < O /\ 0 <= g mod L < L /\ g = g / L * L + g mod L.
Proof.
  intros Hg. pose proof r_L. pose proof r_OL. pose proof (Z.mod_pos_bound g L ltac:(lia)). pose proof (Z.div_mod g L ltac:(lia)).
  assert (0 <= g / L) by (apply Z.div_pos; lia). assert (g / L < O) by (apply Z.div_lt_upper_bound; lia). lia.
Qed.
Lemma padded_in g : 0 <= g < N -> 0 <= padded d g < M.
Proof.
  intros Hg. destruct (row g Hg) as (A & B & _). unfold padded, M. pose proof r_LS. pose proof r_S_bounds.
  apply (rowin O (d_last_size d) (d_last_size d)); lia.
Qed.
Lemma padded_inj g g' : 0 <= g < N -> 0 <= g' < N -> padded d g = padded d g' -> g = g'.
Proof.
  intros Hg Hg' E. destruct (row g Hg) as (A & B & Eg), (row g' Hg') as (A' & B' & Eg'). unfold padded in E. pose proof r_LS. pose proof r_S_bounds.
  apply rowinj in E; [|lia|lia]. destruct E as [E1 E2]. rewrite Eg, Eg', E1, E2. reflexivity.
Qed.
Lemma unstored_in h : 0 <= h < O * S -> 0 <= unstored d h < N.
Proof.
  intros Hh. pose proof r_S_bounds. pose proof r_OL. unfold unstored.
  pose proof (Z.mod_pos_bound h S ltac:(lia)). assert (0 <= h / S) by (apply Z.div_pos; lia). assert (h / S < O) by (apply Z.div_lt_upper_bound; lia).
  rewrite <- r_OL. apply (rowin O L L); lia.
Qed.
(** The place of a point of the stored half. *)
Definition place (r : Z) : Z := r / L * S + r mod L.
Lemma place_in r : 0 <= r < N -> r mod L < S -> 0 <= place r < O * S.
Proof. intros Hr H. destruct (row r Hr) as (A & B & _). pose proof r_S_bounds. apply (rowin O S S); lia. Qed.
Lemma place_un r : 0 <= r < N -> r mod L < S -> unstored d (place r) = r.
Proof.
  intros Hr H. destruct (row r Hr) as (A & B & E). pose proof r_S_bounds. unfold unstored, place.
  rewrite Z.div_add_l, (Z.div_small (r mod L)) by lia. rewrite (Z.add_comm _ (r mod L)), Z.mod_add, (Z.mod_small (r mod L)) by lia. lia.
Qed.

Lemma r_point r : 0 <= r < N -> exists x y z, 0 <= x < nx /\ 0 <= y < ny /\ 0 <= z < nz /\ r = pt d x y z.
Proof. intros Hr. destruct r_sizes as (A & B & D). unfold pt. destruct (point_exists nx ny nz r ltac:(lia) ltac:(lia) ltac:(lia) Hr) as (x & y & z & H). exists x, y, z. exact H. Qed.
Lemma pt_in x y z : 0 <= x < nx -> 0 <= y < ny -> 0 <= z < nz -> 0 <= pt d x y z < N.
Proof. intros Hx Hy Hz. unfold pt, npts. assert (0 <= x * ny + y < nx * ny) by nia. split; nia. Qed.
Lemma pt_point x y z : 0 <= y < ny -> 0 <= z < nz -> point ny nz (pt d x y z) = (x, y, z).
Proof.
  intros Hy Hz. unfold point, pt. rewrite (Z.mul_comm ny nz), <- Z.div_div by lia. rewrite Z.div_add_l, (Z.div_small z), Z.add_0_r by lia. rewrite Z.div_add_l, (Z.div_small y), Z.add_0_r by lia.
  rewrite (Z.add_comm (x * ny) y), Z.mod_add, (Z.mod_small y) by lia. rewrite (Z.add_comm _ z), Z.mod_add, (Z.mod_small z) by lia. reflexivity.
Qed.
Lemma opposite_pt x y z : 0 <= x < nx -> 0 <= y < ny -> 0 <= z < nz -> opposite d (pt d x y z) = pt d (opp nx x) (opp ny y) (opp nz z).
Proof. intros Hx Hy Hz. unfold opposite. rewrite pt_point by assumption. rewrite !against_opp by assumption. reflexivity. Qed.
Lemma opposite_in r : 0 <= r < N -> 0 <= opposite d r < N.
Proof. intros Hr. destruct (r_point r Hr) as (x & y & z & Hx & Hy & Hz & ->). rewrite opposite_pt by assumption. apply pt_in; apply opp_range; lia. Qed.
Lemma opposite_inv r : 0 <= r < N -> opposite d (opposite d r) = r.
Proof. intros Hr. destruct (r_point r Hr) as (x & y & z & Hx & Hy & Hz & ->). rewrite !opposite_pt by (assumption || (apply opp_range; lia)). rewrite !opp_opp by assumption. reflexivity. Qed.
Lemma pt_last x y z : 0 <= x < nx -> 0 <= y < ny -> 0 <= z < nz -> pt d x y z mod L = if nz =? 1 then (if ny =? 1 then x else y) else z.
Proof.
  intros Hx Hy Hz. assert (E : L = last_dim nx ny nz) by apply Wr. rewrite E. unfold last_dim, fft_rank, pt.
  destruct (Z.eqb_spec nz 1) as [E3|E3]; [destruct (Z.eqb_spec ny 1) as [E2|E2]|].
  - change (1 =? 1) with true. cbv iota. assert (y = 0) by lia. assert (z = 0) by lia. rewrite E3, E2. subst y z. replace ((x * 1 + 0) * 1 + 0) with x by ring. apply Z.mod_small. lia.
  - change (2 =? 1) with false. change (2 =? 2) with true. rewrite E3. assert (z = 0) by lia. subst z. cbv iota. replace ((x * ny + y) * 1 + 0) with (y + x * ny) by ring. rewrite Z.mod_add by lia. apply Z.mod_small. lia.
  - change (3 =? 1) with false. change (3 =? 2) with false. cbv iota. rewrite (Z.add_comm _ z), Z.mod_add by lia. apply Z.mod_small. lia.
Qed.
Lemma opposite_last r : 0 <= r < N -> opposite d r mod L = opp L (r mod L).
Proof.
  intros Hr. destruct (r_point r Hr) as (x & y & z & Hx & Hy & Hz & ->). rewrite opposite_pt by assumption.
  rewrite !pt_last by (assumption || (apply opp_range; lia)). assert (E : L = last_dim nx ny nz) by apply Wr. rewrite E. unfold last_dim, fft_rank.
  destruct (nz =? 1); [destruct (ny =? 1)|]; reflexivity.
Qed.
Lemma other_half r : 0 <= r < N -> S <= r mod L -> opposite d r mod L < S.
Proof.
  intros Hr Hs. rewrite opposite_last by exact Hr. destruct (row r Hr) as (_ & B & _). pose proof r_S_bounds.
  rewrite <- against_opp by exact B. unfold against. destruct (Z.eqb_spec (r mod L) 0); lia.
Qed.

(* ------------------------------------------------------------------ *)
Definition fldr (X : emat R) (b g c : Z) : R := entR X (2 * g + c) b.
Lemma fldr_rd X b g c : fields_r d X -> 0 <= b < ep X -> 0 <= g < N -> 0 <= c < 2 -> rd (edata X) ((2 * g + c) * ep X + b) = Val (fldr X b g c).
Proof.
  intros ((H1 & H2 & H3) & E) Hb Hg Hc. unfold fldr, entR, ent. destruct (rd_in (edata X) ((2 * g + c) * ep X + b)) as (v & ->); [|reflexivity].
  rewrite H3. apply (rowin (en X) (ealloc X) (ep X)); lia.
Qed.
Lemma rd_kr g : 0 <= g < N -> rd (d_kG d) g = Val (kz d g).
Proof.
  intros Hg. assert (Lk : Z.of_nat (length (d_kG d)) = N) by apply Wr.
  unfold kz, kat, rd. destruct (Z.ltb_spec g 0); [lia|]. rewrite (nth_error_nth' (d_kG d) {| kmag := 0; km := (0, 0, 0)%R; kn := (0, 0, 0)%R |}) by lia. reflexivity.
Qed.
Lemma wave_loop_r {T} (body : Z -> kdata -> Z -> T -> outcome T) nb s : 0 < nb ->
  forZ 0 O (fun i s => forZ 0 L (fun j s => let! k := rd (d_kG d) (i * L + j) in forZ 0 nb (fun b s => body (i * L + j) k b s) s) s) s =
  forZ 0 (N * nb) (fun q => body (q / nb) (kz d (q / nb)) (q mod nb)) s.
Proof.
  intros Hb. pose proof r_OL as E. pose proof r_O. pose proof r_L.
  rewrite (forZ_flat O L (fun x s => let! k := rd (d_kG d) x in forZ 0 nb (fun b s => body x k b s) s)) by lia. rewrite E. pose proof r_N.
  rewrite <- (forZ_flat2 N nb (fun g b => body g (kz d g) b)) by lia.
  apply forZ_ext. intros i t Hi. rewrite rd_kr by lia. reflexivity.
Qed.
Lemma divmodr q nb : 0 < nb -> 0 <= q < N * nb -> 0 <= q / nb < N /\ 0 <= q mod nb < nb /\ q = q / nb * nb + q mod nb.
Proof.
  intros Hb Hq. pose proof (Z.mod_pos_bound q nb Hb). pose proof (Z.div_mod q nb ltac:(lia)).
  assert (0 <= q / nb) by (apply Z.div_pos; lia). assert (q / nb < N) by (apply Z.div_lt_upper_bound; lia). lia.
Qed.

(** Where a component of a vector of a plane wave is. *)
Definition slot (nb g b t : Z) : Z := 3 * (padded d g * nb + b) + t.
Lemma slot_inj nb g b t g' b' t' : 0 <= g < N -> 0 <= b < nb -> 0 <= t < 3 -> 0 <= g' < N -> 0 <= b' < nb -> 0 <= t' < 3 ->
  slot nb g b t = slot nb g' b' t' -> g = g' /\ b = b' /\ t = t'.
Proof.
  intros Hg Hb Ht Hg' Hb' Ht' E. unfold slot in E. assert (Et : t = t') by lia. subst t'. assert (E' : padded d g * nb + b = padded d g' * nb + b') by lia.
  apply rowinj in E'; [|lia|lia]. destruct E' as [E1 E2]. apply padded_inj in E1; auto.
Qed.
Lemma slot_in nb g b t len : 0 <= g < N -> 0 <= b < nb -> 0 <= t < 3 -> 3 * M * nb <= len -> 0 <= slot nb g b t < len.
Proof. intros Hg Hb Ht Hl. pose proof (padded_in g Hg). unfold slot. assert (0 <= padded d g * nb + b < M * nb) by (apply (rowin M nb nb); lia). lia. Qed.

Lemma to_cartesian_r_ok asg X start nb fft : fields_r d X -> 0 <= start -> 0 < nb -> start + nb <= ep X -> 3 * M * nb <= Z.of_nat (length fft) ->
  exists f', to_cartesian_r asg d X start nb fft = Val f' /\ length f' = length fft /\
    (forall g b, 0 <= g < N -> 0 <= b < nb -> rarr f' (padded d g * nb + b) = asg (kz d g) (fldr X (start + b) g 0) (fldr X (start + b) g 1)).
Proof.
  intros HX Hs Hb Hp Hf. unfold to_cartesian_r. cbv zeta.
  rewrite (forZ_ext 0 O _ (fun i fft => forZ 0 L (fun j fft => let! k := rd (d_kG d) (i * L + j) in forZ 0 nb (fun b fft =>
      let! v0 := rd (edata X) ((i * L + j) * 2 * ep X + b + start) in let! v1 := rd (edata X) ((i * L + j) * 2 * ep X + b + start + ep X) in
      wrr3 fft (3 * (padded d (i * L + j) * nb + b)) (asg k v0 v1)) fft) fft)).
  2:{ intros i f Hi. apply forZ_ext. intros j f1 Hj. unfold padded. rewrite Z.div_add_l, (Z.div_small j), Z.add_0_r by lia.
      rewrite (Z.add_comm (i * L) j), Z.mod_add, (Z.mod_small j), (Z.add_comm j) by lia. reflexivity. }
  rewrite (wave_loop_r (fun g k b f => let! v0 := rd (edata X) (g * 2 * ep X + b + start) in
      let! v1 := rd (edata X) (g * 2 * ep X + b + start + ep X) in wrr3 f (3 * (padded d g * nb + b)) (asg k v0 v1)) nb fft Hb).
  pose proof r_N as Np.
  match goal with |- context [forZ 0 (N * nb) ?f _] => destruct (scatter (N * nb) 3 (fun q t => slot nb (q / nb) (q mod nb) t)
    (fun q t => rsel t (asg (kz d (q / nb)) (fldr X (start + q mod nb) (q / nb) 0) (fldr X (start + q mod nb) (q / nb) 1))) f fft) as (f' & E & Lf & H & _) end.
  - nia.
  - intros q t q' t' Hq Ht Hq' Ht' E. destruct (divmodr q nb Hb Hq) as (A & B & Eq), (divmodr q' nb Hb Hq') as (A' & B' & Eq').
    apply slot_inj in E; auto. destruct E as (E1 & E2 & E3). split; [|exact E3]. rewrite Eq, Eq', E1, E2. reflexivity.
  - intros q s Hq Ls _. destruct (divmodr q nb Hb Hq) as (Hg & Hm & Eq).
    replace (q / nb * 2 * ep X + q mod nb + start) with ((2 * (q / nb) + 0) * ep X + (start + q mod nb)) by ring.
    rewrite fldr_rd by (auto; lia). cbn [bind].
    replace ((2 * (q / nb) + 0) * ep X + (start + q mod nb) + ep X) with ((2 * (q / nb) + 1) * ep X + (start + q mod nb)) by ring.
    rewrite fldr_rd by (auto; lia). cbn [bind].
    pose proof (slot_in nb (q / nb) (q mod nb) 0 (Z.of_nat (length fft)) Hg Hm ltac:(lia) Hf) as S0.
    pose proof (slot_in nb (q / nb) (q mod nb) 2 (Z.of_nat (length fft)) Hg Hm ltac:(lia) Hf) as S2. unfold slot in S0, S2 |- *.
    match goal with |- context [wrr3 s _ ?v] => destruct (wrr3_ok s (padded d (q / nb) * nb + q mod nb) v) as (s' & W & L' & A & B); [lia|rewrite Ls; lia|] end.
    exists s'. split; [exact W|]. split; [congruence|]. split; [exact A|exact B].
  - exists f'. split; [exact E|]. split; [exact Lf|]. intros g b Hg Hbb. apply rarr_new. intros t Ht.
    assert (Hq : 0 <= g * nb + b < N * nb) by (apply (rowin N nb nb); lia). specialize (H (g * nb + b) t Hq Ht).
    destruct (divmod' g b nb Hbb) as (E1 & E2). rewrite E1, E2 in H. exact H.
Qed.

(* ------------------------------------------------------------------ *)
(** The transforms. *)
Lemma r2c_ok nb fft : 0 < nb -> 3 * M * nb <= Z.of_nat (length fft) ->
  exists f', compute_fft_r 1 d fft (nb * 3) (nb * 3) 1 = Val f' /\ length f' = length fft /\
    (forall h b, 0 <= h < O * S -> 0 <= b < nb -> carr f' (h * nb + b) =
       vbuild (fun i => csum NN (fun g => (kern d 1 (Z.of_nat g) (unstored d h) * RtoC (rsel (Z.of_nat i) (rarr fft (padded d (Z.of_nat g) * nb + b))))%C))).
Proof.
  intros Hb Hf. change (compute_fft_r 1 d fft (nb * 3) (nb * 3) 1) with (fft_r2c d fft (nb * 3) (nb * 3) 1). unfold fft_r2c.
  pose proof r_N as Np. pose proof r_O as Op. pose proof r_S_bounds as Sp. pose proof r_M as EM.
  assert (P1 : 0 < O * S) by nia.
  set (S0 := fun x : Z => csum NN (fun g => (kern d 1 (Z.of_nat g) (unstored d (x / (nb * 3))) * RtoC (getr fft (padded d (Z.of_nat g) * (nb * 3) + x mod (nb * 3))))%C)).
  assert (B : forall h q, 0 <= h < O * S -> 0 <= q < nb * 3 ->
    forZ 0 (nx * ny * nz) (fun g s => let! x := rd fft (padded d g * (nb * 3) + q * 1) in Val (s + kern d 1 g (unstored d h) * RtoC x)%C) C0 = Val (S0 (h * (nb * 3) + q))).
  { intros h q Hh Hq. unfold S0. destruct (divmod' h q (nb * 3) Hq) as (-> & ->). change (nx * ny * nz) with N.
    rewrite <- (csum_fold N (fun g => (kern d 1 g (unstored d h) * RtoC (getr fft (padded d g * (nb * 3) + q)))%C) ltac:(lia)
      (fun g => let! x := rd fft (padded d g * (nb * 3) + q * 1) in Val (kern d 1 g (unstored d h) * RtoC x)%C)).
    - apply forZ_ext. intros g s Hg. destruct (rd fft (padded d g * (nb * 3) + q * 1)); reflexivity.
    - intros g Hg. rewrite Z.mul_1_r. rewrite getr_in; [reflexivity|].
      pose proof (rowin M (nb * 3) (nb * 3) (padded d g) q (padded_in g Hg) Hq ltac:(lia)). lia. }
  rewrite (forZ_ext 0 (O * S) _ (fun h o => forZ 0 (nb * 3) (fun q o => wrc o (h * (nb * 3) + q) (S0 (h * (nb * 3) + q))) o)).
  2:{ intros h o Hh. apply forZ_ext. intros q o' Hq. rewrite (B h q Hh Hq). cbn [bind]. rewrite Z.mul_1_r. reflexivity. }
  rewrite (forZ_flat (O * S) (nb * 3) (fun x o => wrc o x (S0 x))) by lia.
  destruct (scatter (O * S * (nb * 3)) 2 (fun x t => 2 * x + t) (fun x t => if t =? 0 then re (S0 x) else im (S0 x)) (fun x o => wrc o x (S0 x)) fft) as (f' & E & Lf & H & _).
  - nia.
  - intros; lia.
  - intros x s Hx Ls _. assert (I : 2 * x + 1 < Z.of_nat (length s)) by (rewrite Ls; nia).
    destruct (wrc_ok s x (S0 x) ltac:(lia) I) as (s' & W & L' & A & Bo). exists s'. split; [exact W|]. split; [congruence|]. split.
    + intros t Ht. unfold cget in A. assert (t = 0 \/ t = 1) as [-> | ->] by lia; cbn [Z.eqb]; rewrite ?Z.add_0_r; rewrite <- A; reflexivity.
    + intros y Hy. apply Bo; [specialize (Hy 0)|specialize (Hy 1)]; lia.
  - exists f'. split; [exact E|]. split; [exact Lf|]. intros h b Hh Hbb.
    assert (K : forall i, 0 <= i < 3 -> cget f' (3 * (h * nb + b) + i) = csum NN (fun g => (kern d 1 (Z.of_nat g) (unstored d h) * RtoC (getr fft (3 * (padded d (Z.of_nat g) * nb + b) + i)))%C)).
    { intros i Hi. replace (3 * (h * nb + b) + i) with (h * (nb * 3) + (3 * b + i)) by ring.
      assert (Hq : 0 <= 3 * b + i < nb * 3) by lia.
      assert (Hx : 0 <= h * (nb * 3) + (3 * b + i) < O * S * (nb * 3)) by (apply (rowin (O * S) (nb * 3) (nb * 3)); lia).
      unfold cget. pose proof (H _ 0 Hx ltac:(lia)) as H0. rewrite Z.add_0_r in H0. rewrite H0, (H _ 1 Hx) by lia. cbn [Z.eqb].
      transitivity (S0 (h * (nb * 3) + (3 * b + i))); [destruct (S0 _); reflexivity|].
      unfold S0. destruct (divmod' h (3 * b + i) (nb * 3) Hq) as (-> & ->). apply csum_ext. intros g _. do 3 f_equal. ring. }
    unfold carr. rewrite <- (Z.add_0_r (3 * (h * nb + b))) at 1. rewrite !K by lia. unfold vbuild, rsel, rarr. cbn [fst snd Z.of_nat Z.eqb Pos.of_succ_nat Pos.succ Pos.eqb].
    apply (f_equal2 pair); [apply (f_equal2 pair)|]; apply csum_ext; intros g _; rewrite ?Z.add_0_r; reflexivity.
Qed.

Definition mirrored (u : Z -> cvec) (r : Z) : cvec :=
  if r mod L <? S then u r else vbuild (fun i => Cconj (vsel i (u (opposite d r)))).
Lemma c2r_ok nb fft (u : Z -> Z -> cvec) : 0 < nb -> 3 * M * nb <= Z.of_nat (length fft) ->
  (forall h b, 0 <= h < O * S -> 0 <= b < nb -> carr fft (h * nb + b) = u b (unstored d h)) ->
  exists f', compute_fft_r (-1) d fft (nb * 3) (nb * 3) 1 = Val f' /\ length f' = length fft /\
    (forall g b, 0 <= g < N -> 0 <= b < nb -> rarr f' (padded d g * nb + b) =
       let v := back d (mirrored (u b)) g in (re (vsel 0 v), re (vsel 1 v), re (vsel 2 v))).
Proof.
  intros Hb Hf Hu. change (compute_fft_r (-1) d fft (nb * 3) (nb * 3) 1) with (fft_c2r d fft (nb * 3) (nb * 3) 1). unfold fft_c2r.
  pose proof r_N as Np. pose proof r_O as Op. pose proof r_S_bounds as Sp. pose proof r_M as EM. pose proof r_L as Lp.
  assert (P1 : 0 < O * S) by nia.
  assert (G : forall r b i, 0 <= r < N -> r mod L < S -> 0 <= b < nb -> (i < 3)%nat ->
    rdc fft ((r / L * S + r mod L) * (nb * 3) + (3 * b + Z.of_nat i) * 1) = Val (vsel i (u b r))).
  { intros r b i Hr Hs Hbb Hi. change (r / L * S + r mod L) with (place r). pose proof (place_in r Hr Hs) as Pi.
    assert (Q : 0 <= place r * nb + b < O * S * nb) by (apply (rowin (O * S) nb nb); lia).
    replace (place r * (nb * 3) + (3 * b + Z.of_nat i) * 1) with (3 * (place r * nb + b) + Z.of_nat i) by ring.
    rewrite rdc_ok by lia. f_equal. rewrite <- (place_un r Hr Hs) at 2. rewrite <- Hu by assumption. unfold carr, vsel. cbn [fst snd].
    destruct i as [|[|[|i]]]; try lia; cbn [Z.of_nat Pos.of_succ_nat Pos.succ]; rewrite ?Z.add_0_r; reflexivity. }
  assert (A : forall r b i, 0 <= r < N -> 0 <= b < nb -> (i < 3)%nat -> hermitian_at d fft (nb * 3) 1 (3 * b + Z.of_nat i) r = Val (vsel i (mirrored (u b) r))).
  { intros r b i Hr Hbb Hi. unfold hermitian_at, mirrored. destruct (Z.ltb_spec (r mod L) S) as [Hs|Hs]; [apply G; assumption|].
    pose proof (other_half r Hr Hs) as Hs'. pose proof (opposite_in r Hr) as Hr'. rewrite (G (opposite d r) b i) by assumption. cbn [bind]. rewrite vsel_build by exact Hi. reflexivity. }
  set (S0 := fun g x : Z => re (vsel (Z.to_nat (x mod 3)) (back d (mirrored (u (x / 3))) g))).
  assert (Bs : forall g q, 0 <= g < N -> 0 <= q < nb * 3 ->
    (let! v := forZ 0 (nx * ny * nz) (fun r s => let! x := hermitian_at d fft (nb * 3) 1 q r in Val (s + kern d (-1) r g * x)%C) C0 in Val (re v)) = Val (S0 g q)).
  { intros g q Hg Hq. pose proof (Z.mod_pos_bound q 3 ltac:(lia)) as M3. pose proof (Z.div_mod q 3 ltac:(lia)) as D3.
    assert (Hq3 : 0 <= q / 3 < nb) by (split; [apply Z.div_pos; lia|apply Z.div_lt_upper_bound; lia]). change (nx * ny * nz) with N.
    rewrite (forZ_ext 0 N _ (fun r s => let! x := Val (kern d (-1) r g * vsel (Z.to_nat (q mod 3)) (mirrored (u (q / 3)) r))%C in Val (s + x)%C)).
    - rewrite (csum_fold N (fun r => (kern d (-1) r g * vsel (Z.to_nat (q mod 3)) (mirrored (u (q / 3)) r))%C)) by (lia || reflexivity). cbn [bind].
      unfold S0, back. rewrite vsel_build by lia. reflexivity.
    - intros r s Hr. replace q with (3 * (q / 3) + Z.of_nat (Z.to_nat (q mod 3))) at 1 by lia. rewrite A by lia. reflexivity. }
  rewrite (forZ_ext 0 (nx * ny * nz) _ (fun g o => forZ 0 (nb * 3) (fun q o => wr o (padded d g * (nb * 3) + q) (S0 g q)) o)).
  2:{ intros g o Hg. apply forZ_ext. intros q o' Hq. specialize (Bs g q Hg Hq).
      match goal with |- bind ?x _ = _ => destruct x as [v| | |]; cbn [bind] in Bs |- *; try discriminate end. injection Bs as ->. rewrite Z.mul_1_r. reflexivity. }
  change (nx * ny * nz) with N. rewrite (forZ_flat2 N (nb * 3) (fun g q o => wr o (padded d g * (nb * 3) + q) (S0 g q))) by lia.
  destruct (scatter (N * (nb * 3)) 1 (fun x _ => padded d (x / (nb * 3)) * (nb * 3) + x mod (nb * 3)) (fun x _ => S0 (x / (nb * 3)) (x mod (nb * 3)))
    (fun x o => wr o (padded d (x / (nb * 3)) * (nb * 3) + x mod (nb * 3)) (S0 (x / (nb * 3)) (x mod (nb * 3)))) fft) as (f' & E & Lf & H & _).
  - nia.
  - intros x t x' t' Hx Ht Hx' Ht' E. destruct (divmodr x (nb * 3) ltac:(lia) Hx) as (A1 & B1 & E1), (divmodr x' (nb * 3) ltac:(lia) Hx') as (A2 & B2 & E2).
    apply rowinj in E; [|lia|lia]. destruct E as (Ea & Eb). apply padded_inj in Ea; auto. split; [rewrite E1, E2, Ea, Eb; reflexivity|lia].
  - intros x s Hx Ls _. destruct (divmodr x (nb * 3) ltac:(lia) Hx) as (A1 & B1 & _).
    pose proof (rowin M (nb * 3) (nb * 3) _ _ (padded_in _ A1) B1 ltac:(lia)) as I.
    match goal with |- context [wr s ?p ?v] => destruct (wr_ok s p v) as (s' & W & L' & Gs); [rewrite Ls; lia|] end. exists s'. split; [exact W|]. split; [congruence|]. split.
    + intros t Ht. rewrite Gs, Z.eqb_refl. reflexivity.
    + intros y Hy. rewrite Gs. specialize (Hy 0 ltac:(lia)). destruct (Z.eqb_spec y (padded d (x / (nb * 3)) * (nb * 3) + x mod (nb * 3))); [contradiction|reflexivity].
  - exists f'. split; [exact E|]. split; [exact Lf|]. intros g b Hg Hbb. cbv zeta.
    assert (K : forall i, 0 <= i < 3 -> getr f' (3 * (padded d g * nb + b) + i) = re (vsel (Z.to_nat i) (back d (mirrored (u b)) g))).
    { intros i Hi. assert (Hq : 0 <= 3 * b + i < nb * 3) by lia.
      assert (Hx : 0 <= g * (nb * 3) + (3 * b + i) < N * (nb * 3)) by (apply (rowin N (nb * 3) (nb * 3)); lia).
      specialize (H _ 0 Hx ltac:(lia)). destruct (divmod' g (3 * b + i) (nb * 3) Hq) as (E1 & E2). rewrite E1, E2 in H.
      replace (3 * (padded d g * nb + b) + i) with (padded d g * (nb * 3) + (3 * b + i)) by ring. rewrite H. unfold S0.
      rewrite (Z.mul_comm 3 b). destruct (divmod' b i 3 Hi) as (-> & ->). reflexivity. }
    unfold rarr. rewrite <- (Z.add_0_r (3 * (padded d g * nb + b))) at 1. rewrite !K by lia. reflexivity.
Qed.

(* ------------------------------------------------------------------ *)
(** The tensors, at the stored points. *)
Lemma e_from_d_r_ok t nb fft : Z.of_nat (length t) = O * S -> 0 < nb -> 3 * M * nb <= Z.of_nat (length fft) ->
  exists f', e_from_d_r d nb t fft = Val f' /\ length f' = length fft /\
    (forall h b, 0 <= h < O * S -> 0 <= b < nb -> carr f' (h * nb + b) = assign_symmatrix_vector (sym_at t (Z.to_nat h)) (carr fft (h * nb + b))).
Proof.
  intros Lt Hb Hf. unfold e_from_d_r. rewrite r_out. pose proof r_O as Op. pose proof r_S_bounds as Sp. pose proof r_M as EM. assert (P1 : 0 < O * S) by nia.
  rewrite (forZ_ext 0 (O * S) _ (fun i f => forZ 0 nb (fun b f => let! v := rdc3 f (3 * (i * nb + b)) in wrc3 f (3 * (i * nb + b)) (assign_symmatrix_vector (sym_at t (Z.to_nat i)) v)) f)).
  2:{ intros i f Hi. rewrite (L_Real1.rd_nthR t i sym0) by lia. reflexivity. }
  rewrite (forZ_flat2 (O * S) nb (fun i b f => let! v := rdc3 f (3 * (i * nb + b)) in wrc3 f (3 * (i * nb + b)) (assign_symmatrix_vector (sym_at t (Z.to_nat i)) v))) by lia.
  set (new := fun q => assign_symmatrix_vector (sym_at t (Z.to_nat (q / nb))) (carr fft q)).
  assert (Cs : forall (a a' : list R) q, (forall x, 0 <= x < 6 -> getr a (6 * q + x) = getr a' (6 * q + x)) -> carr a q = carr a' q).
  { intros a a' q Hx. assert (Y : forall i, 0 <= i < 3 -> cget a (3 * q + i) = cget a' (3 * q + i)).
    { intros i Hi. unfold cget. pose proof (Hx (2 * i) ltac:(lia)) as X1. pose proof (Hx (2 * i + 1) ltac:(lia)) as X2.
      replace (6 * q + 2 * i) with (2 * (3 * q + i)) in X1 by ring. replace (6 * q + (2 * i + 1)) with (2 * (3 * q + i) + 1) in X2 by ring. rewrite X1, X2. reflexivity. }
    unfold carr. pose proof (Y 0 ltac:(lia)) as Y0. rewrite Z.add_0_r in Y0. rewrite Y0, !Y by lia. reflexivity. }
  match goal with |- context [forZ 0 (O * S * nb) ?f _] => destruct (forZ_inv (fun i s => length s = length fft /\ (forall q, 0 <= q < i -> carr s q = new q) /\
    (forall x, 6 * i <= x -> getr s x = getr fft x)) f 0 (O * S * nb) fft) as (f' & E & Lf & H & _) end.
  - nia.
  - split; [reflexivity|]. split; [intros; lia|reflexivity].
  - intros q s Hq (Ls & H1 & H2).
    assert (Eq : q / nb * nb + q mod nb = q) by (pose proof (Z.div_mod q nb ltac:(lia)); lia). rewrite Eq.
    assert (I : 6 * q + 5 < Z.of_nat (length s)) by (rewrite Ls; nia). rewrite rdc3_ok by lia. cbn [bind].
    destruct (wrc3_ok s q (assign_symmatrix_vector (sym_at t (Z.to_nat (q / nb))) (carr s q)) ltac:(lia) I) as (s' & W & L' & A & B).
    exists s'. split; [exact W|]. split; [congruence|]. split.
    + intros q' Hq'. destruct (Z.eq_dec q' q) as [->|].
      * rewrite A. unfold new. f_equal. apply Cs. intros x Hx. apply H2. lia.
      * rewrite <- H1 by lia. apply Cs. intros x Hx. apply B. lia.
    + intros x Hx. rewrite B by lia. apply H2. lia.
  - exists f'. split; [exact E|]. split; [exact Lf|]. intros h b Hh Hbb. rewrite H by (apply (rowin (O * S) nb nb); lia).
    unfold new. destruct (divmod' h b nb Hbb) as (-> & _). reflexivity.
Qed.

(* ------------------------------------------------------------------ *)
Lemma to_transverse_r_ok prj X start nb fft : fields_r d X -> 0 <= start -> 0 < nb -> start + nb <= ep X -> 3 * M * nb <= Z.of_nat (length fft) ->
  exists X', to_transverse_r prj d X start nb fft = Val X' /\ fields_r d X' /\ ep X' = ep X /\ ealloc X' = ealloc X /\
    (forall g b, 0 <= g < N -> 0 <= b < nb ->
       fldr X' (start + b) g 0 = fst (prj (kz d g) (rarr fft (padded d g * nb + b))) /\ fldr X' (start + b) g 1 = snd (prj (kz d g) (rarr fft (padded d g * nb + b)))) /\
    (forall g b c, 0 <= g < N -> 0 <= c < 2 -> 0 <= b < ep X -> ~ (start <= b < start + nb) -> fldr X' b g c = fldr X b g c).
Proof.
  intros HX Hs Hb Hp Hf. unfold to_transverse_r. cbv zeta.
  rewrite (forZ_ext 0 O _ (fun i dt => forZ 0 L (fun j dt => let! k := rd (d_kG d) (i * L + j) in forZ 0 nb (fun b dt =>
      let! a := rdr3 fft (3 * (padded d (i * L + j) * nb + b)) in let '(v0, v1) := prj k a in
      let! dt := wr dt ((i * L + j) * 2 * ep X + b + start) v0 in wr dt ((i * L + j) * 2 * ep X + b + start + ep X) v1) dt) dt)).
  2:{ intros i f Hi. apply forZ_ext. intros j f1 Hj. unfold padded. rewrite Z.div_add_l, (Z.div_small j), Z.add_0_r by lia.
      rewrite (Z.add_comm (i * L) j), Z.mod_add, (Z.mod_small j), (Z.add_comm j) by lia. reflexivity. }
  rewrite (wave_loop_r (fun g k b dt => let! a := rdr3 fft (3 * (padded d g * nb + b)) in let '(v0, v1) := prj k a in
      let! dt := wr dt (g * 2 * ep X + b + start) v0 in wr dt (g * 2 * ep X + b + start + ep X) v1) nb (edata X) Hb).
  pose proof r_N as Np. destruct HX as (W & En). pose proof W as (Wn & Wp & Wl).
  set (pos := fun q c => (2 * (q / nb) + c) * ep X + (start + q mod nb)).
  set (newv := fun q c : Z => let v := prj (kz d (q / nb)) (rarr fft (padded d (q / nb) * nb + q mod nb)) in if c =? 0 then fst v else snd v).
  match goal with |- context [forZ 0 (N * nb) ?f _] => destruct (scatter (N * nb) 2 pos newv f (edata X)) as (dt & E & Ld & H & O1) end.
  - nia.
  - intros q c q' c' Hq Hc Hq' Hc' E. destruct (divmodr q nb Hb Hq) as (A1 & B1 & E1), (divmodr q' nb Hb Hq') as (A2 & B2 & E2).
    unfold pos in E. apply rowinj in E; [|lia|lia]. destruct E as (Ea & Eb). assert (Eg : q / nb = q' / nb) by lia. assert (Em : q mod nb = q' mod nb) by lia. split; [rewrite E1, E2, Eg, Em; reflexivity|lia].
  - intros q s Hq Ls _. destruct (divmodr q nb Hb Hq) as (Hg & Hm & Eq).
    pose proof (slot_in nb (q / nb) (q mod nb) 0 (Z.of_nat (length fft)) Hg Hm ltac:(lia) Hf) as S0.
    pose proof (slot_in nb (q / nb) (q mod nb) 2 (Z.of_nat (length fft)) Hg Hm ltac:(lia) Hf) as S2. unfold slot in S0, S2.
    rewrite rdr3_ok by lia. cbn [bind].
    assert (Q0 : newv q 0 = fst (prj (kz d (q / nb)) (rarr fft (padded d (q / nb) * nb + q mod nb)))) by reflexivity.
    assert (Q1 : newv q 1 = snd (prj (kz d (q / nb)) (rarr fft (padded d (q / nb) * nb + q mod nb)))) by reflexivity.
    destruct (prj (kz d (q / nb)) (rarr fft (padded d (q / nb) * nb + q mod nb))) as [v0 v1]. cbn [fst snd] in Q0, Q1.
    replace (q / nb * 2 * ep X + q mod nb + start) with (pos q 0) by (unfold pos; ring). replace (pos q 0 + ep X) with (pos q 1) by (unfold pos; ring).
    assert (I : forall c, 0 <= c < 2 -> 0 <= pos q c < Z.of_nat (length (edata X))) by (intros c Hc; unfold pos; rewrite Wl; apply rowin; lia).
    destruct (wr_ok s (pos q 0) v0) as (s1 & -> & L1 & G1); [rewrite Ls; apply I; lia|]. cbn [bind].
    destruct (wr_ok s1 (pos q 1) v1) as (s2 & -> & L2 & G2); [rewrite L1, Ls; apply I; lia|].
    exists s2. split; [reflexivity|]. split; [congruence|].
    assert (Ne : pos q 0 <> pos q 1) by (unfold pos; intros X0; apply rowinj in X0; lia). split.
    + intros t Ht. assert (t = 0 \/ t = 1) as [-> | ->] by lia; rewrite G2, ?G1, ?Z.eqb_refl; [|congruence]. destruct (Z.eqb_spec (pos q 0) (pos q 1)); [contradiction|]. congruence.
    + intros x Hx. rewrite G2, G1. pose proof (Hx 0 ltac:(lia)). pose proof (Hx 1 ltac:(lia)). destruct (Z.eqb_spec x (pos q 1)); [contradiction|]. destruct (Z.eqb_spec x (pos q 0)); [contradiction|]. reflexivity.
  - rewrite E. cbn [bind]. exists (set_data X dt). split; [reflexivity|]. split; [split; [apply wf_set; [exact W|exact Ld]|exact En]|]. split; [reflexivity|]. split; [reflexivity|].
    assert (Fl : forall Z0 b g c, fldr Z0 b g c = getr (edata Z0) ((2 * g + c) * ep Z0 + b)) by reflexivity. split.
    + intros g b Hg Hbb. assert (Hq : 0 <= g * nb + b < N * nb) by (apply (rowin N nb nb); lia). rewrite !Fl. cbn [edata ep set_data].
      pose proof (H _ 0 Hq ltac:(lia)) as H0. pose proof (H _ 1 Hq ltac:(lia)) as H1. unfold pos, newv in H0, H1. destruct (divmod' g b nb Hbb) as (E1 & E2). rewrite E1, E2 in H0, H1. cbn [Z.eqb] in H0, H1. auto.
    + intros g b c Hg Hc Hbb Hn. rewrite !Fl. cbn [edata ep set_data]. apply O1. intros q t Hq Ht Ex. destruct (divmodr q nb Hb Hq) as (Hg' & Hm & _). unfold pos in Ex. apply rowinj in Ex; [|lia|lia]. lia.
Qed.
End D.
