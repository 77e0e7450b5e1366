(** The loops of the Maxwell operator. *)
From Coq Require Import List ZArith Reals Bool Lia Lra Sorting.Sorted.
From Verif Require Import Base RC Loops M_Tensor S_Tensor M_Evect S_Evect L_Evect L_Evect3 M_Grid S_Grid M_Op S_Op.
Import ListNotations.
Local Open Scope Z_scope.

Lemma zseq_app lo a b : zseq lo (a + b) = zseq lo a ++ zseq (lo + Z.of_nat a) b.
Proof.
  revert lo; induction a as [|a IH]; intros lo; cbn [zseq app plus Nat.add].
  - f_equal. lia.
  - f_equal. rewrite IH. f_equal. f_equal. lia.
Qed.
Lemma zseq_shift lo k n : zseq (lo + k) n = map (fun x => x + k) (zseq lo n).
Proof. revert lo; induction n as [|n IH]; intros lo; cbn; [reflexivity|]. f_equal. rewrite <- IH. f_equal. lia. Qed.
Lemma foldM_map {S X Y} (h : Y -> X) (f : X -> S -> outcome S) l s : foldM f (map h l) s = foldM (fun y => f (h y)) l s.
Proof. revert s; induction l as [|a l IH]; intros s; cbn; [reflexivity|]. destruct (f (h a) s); cbn; auto. Qed.

(** Two nested loops over the rows and columns of a table are one loop over its entries. *)
Lemma forZ_flat {S} a b (f : Z -> S -> outcome S) s : 0 <= a -> 0 <= b ->
  forZ 0 a (fun i s => forZ 0 b (fun j s => f (i * b + j) s) s) s = forZ 0 (a * b) f s.
Proof.
  intros Ha Hb. rewrite !forZ_foldM. unfold zran. rewrite !Z.sub_0_r.
  rewrite Z2Nat.inj_mul by lia.
  generalize (Z.to_nat a). clear Ha a. intros n. revert s.
  assert (G : forall n i0 s, foldM (fun i s => forZ 0 b (fun j s => f (i * b + j) s) s) (zseq i0 n) s = foldM f (zseq (i0 * b) (n * Z.to_nat b)) s).
  { induction n0 as [|n0 IH]; intros i0 s; [reflexivity|].
    change (Nat.mul (Datatypes.S n0) (Z.to_nat b)) with (Nat.add (Z.to_nat b) (Nat.mul n0 (Z.to_nat b))). rewrite zseq_app, foldM_app. cbn [zseq foldM].
    assert (E : forZ 0 b (fun j s => f (i0 * b + j) s) s = foldM f (zseq (i0 * b) (Z.to_nat b)) s).
    { rewrite forZ_foldM. unfold zran. rewrite Z.sub_0_r. replace (zseq (i0 * b) (Z.to_nat b)) with (zseq (0 + i0 * b) (Z.to_nat b)) by (f_equal; lia). rewrite zseq_shift, foldM_map.
      apply foldM_ext. intros x t _. f_equal. lia. }
    rewrite E. destruct (foldM f (zseq (i0 * b) (Z.to_nat b)) s); cbn [bind]; auto.
    rewrite IH. rewrite Z2Nat.id by lia. f_equal. f_equal. lia. }
  intros s. rewrite G. reflexivity.
Qed.

Lemma forZ_ext {S} lo hi (f g : Z -> S -> outcome S) s : (forall i s, lo <= i < hi -> f i s = g i s) -> forZ lo hi f s = forZ lo hi g s.
Proof. intros H. rewrite !forZ_foldM. apply foldM_ext. intros x t Hx. apply zran_in in Hx. apply H. exact Hx. Qed.

(** The same for any body, the row and column recovered by division. *)
Lemma forZ_flat2 {S} a b (f : Z -> Z -> S -> outcome S) s : 0 <= a -> 0 < b ->
  forZ 0 a (fun i s => forZ 0 b (fun j s => f i j s) s) s = forZ 0 (a * b) (fun q => f (q / b) (q mod b)) s.
Proof.
  intros Ha Hb. rewrite <- forZ_flat by lia. apply forZ_ext. intros i t Hi. apply forZ_ext. intros j t' Hj.
  rewrite Z.div_add_l, Z.div_small, Z.add_0_r by lia. rewrite Z.add_comm, Z.mod_add, Z.mod_small by lia. reflexivity.
Qed.

Lemma gets_val d x v : rd d x = Val v -> gets d x = v.
Proof. unfold gets. intros ->. reflexivity. Qed.

Definition arr (a : list C) (q : Z) : cvec := (gets a (3 * q), gets a (3 * q + 1), gets a (3 * q + 2)).

Lemma rd3_ok a q : 0 <= q -> 3 * q + 2 < Z.of_nat (length a) -> rd3 a (3 * q) = Val (arr a q).
Proof. intros H1 H2. unfold rd3, arr. rewrite !gets_in by lia. reflexivity. Qed.

Lemma wr3_ok a q v : 0 <= q -> 3 * q + 2 < Z.of_nat (length a) ->
  exists a', wr3 a (3 * q) v = Val a' /\ length a' = length a /\ arr a' q = v /\ (forall x, x < 3 * q \/ 3 * q + 2 < x -> gets a' x = gets a x).
Proof.
  intros H1 H2. destruct v as [[v0 v1] v2]. unfold wr3.
  rewrite (wr_in a) by lia. cbn [bind]. set (a1 := upd_nat a _ v0).
  assert (W1 : wr a (3 * q) v0 = Val a1) by (apply wr_in; lia).
  assert (L1 : length a1 = length a) by apply upd_length.
  rewrite (wr_in a1) by lia. cbn [bind]. set (a2 := upd_nat a1 _ v1).
  assert (W2 : wr a1 (3 * q + 1) v1 = Val a2) by (apply wr_in; lia).
  assert (L2 : length a2 = length a) by (unfold a2; rewrite upd_length; exact L1).
  destruct (wr a2 (3 * q + 2) v2) as [a3| | |] eqn:W3; try (rewrite wr_in in W3 by lia; discriminate).
  exists a3. split; [reflexivity|]. split; [rewrite (wr_length _ _ _ _ W3); exact L2|]. split.
  - unfold arr. rewrite (gets_val a3 (3 * q) v0), (gets_val a3 (3 * q + 1) v1), (gets_val a3 (3 * q + 2) v2); [reflexivity|..].
    + rewrite (rd_wr _ _ _ _ _ W3), Z.eqb_refl. reflexivity.
    + rewrite (rd_wr _ _ _ _ _ W3). destruct (Z.eqb_spec (3 * q + 1) (3 * q + 2)); [lia|]. rewrite (rd_wr _ _ _ _ _ W2), Z.eqb_refl. reflexivity.
    + rewrite (rd_wr _ _ _ _ _ W3). destruct (Z.eqb_spec (3 * q) (3 * q + 2)); [lia|]. rewrite (rd_wr _ _ _ _ _ W2).
      destruct (Z.eqb_spec (3 * q) (3 * q + 1)); [lia|]. rewrite (rd_wr _ _ _ _ _ W1), Z.eqb_refl. reflexivity.
  - intros x Hx. unfold gets. rewrite (rd_wr _ _ _ _ _ W3). destruct (Z.eqb_spec x (3 * q + 2)); [lia|]. rewrite (rd_wr _ _ _ _ _ W2).
    destruct (Z.eqb_spec x (3 * q + 1)); [lia|]. rewrite (rd_wr _ _ _ _ _ W1). destruct (Z.eqb_spec x (3 * q)); [lia|]. reflexivity.
Qed.

(** A loop that gives each of the vectors 0 .. n-1 of an array a new value computed from its
    old one. *)
Lemma vec_loop n (body : Z -> list C -> outcome (list C)) (new : Z -> cvec -> cvec) a : 0 <= n -> 3 * n <= Z.of_nat (length a) ->
  (forall q a1, 0 <= q < n -> length a1 = length a -> arr a1 q = arr a q -> exists v, body q a1 = wr3 a1 (3 * q) v /\ v = new q (arr a q)) ->
  exists a', forZ 0 n body a = Val a' /\ length a' = length a /\ (forall q, 0 <= q < n -> arr a' q = new q (arr a q)).
Proof.
  intros Hn Hl Hb.
  destruct (forZ_inv (fun i s => length s = length a /\ (forall q, 0 <= q < i -> arr s q = new q (arr a q)) /\ (forall q, i <= q < n -> arr s q = arr a q)) body 0 n a Hn)
    as (a' & E & L & H & _).
  - split; [reflexivity|]. split; [intros; lia|reflexivity].
  - intros i s Hi (L & H1 & H2). destruct (Hb i s Hi L (H2 i ltac:(lia))) as (v & Ev & ->).
    destruct (wr3_ok s i (new i (arr a i)) ltac:(lia) ltac:(lia)) as (s' & W & L' & A & O). exists s'. rewrite Ev. split; [exact W|]. split; [congruence|].
    assert (K : forall q, q <> i -> arr s' q = arr s q). { intros q Hq. unfold arr. rewrite !O by lia. reflexivity. }
    split.
    + intros q Hq. destruct (Z.eq_dec q i) as [->|Hne]; [exact A|]. rewrite K by exact Hne. apply H1. lia.
    + intros q Hq. rewrite K by lia. apply H2. lia.
  - exists a'. auto.
Qed.

Section D.
Variable d : mdata.
Hypothesis Wd : wfd d.
Notation N := (npts d).
Lemma N_pos : 1 <= N.
Proof. destruct Wd as (A & B & D & _). unfold npts. assert (1 <= d_nx d * d_ny d) by nia. nia. Qed.

Definition kz (g : Z) : kdata := kat d (Z.to_nat g).
Lemma rd_k g : 0 <= g < N -> rd (d_kG d) g = Val (kz g).
Proof.
  intros H. destruct Wd as (_ & _ & _ & _ & _ & _ & _ & _ & L & _). unfold rd. destruct (Z.ltb_spec g 0); [lia|].
  unfold kz, kat. rewrite (nth_error_nth' _ {| kmag := 0; km := (0, 0, 0)%R; kn := (0, 0, 0)%R |}) by lia. reflexivity.
Qed.
Lemma rd_sym t r : Z.of_nat (length t) = N -> 0 <= r < N -> rd t r = Val (sym_at t (Z.to_nat r)).
Proof.
  intros L H. unfold rd. destruct (Z.ltb_spec r 0); [lia|]. unfold sym_at. rewrite (nth_error_nth' _ sym0) by lia. reflexivity.
Qed.

Definition fld (X : emat C) (b g c : Z) : C := entC X (2 * g + c) b.

Lemma fld_rd X b g c : fields d X -> 0 <= b < ep X -> 0 <= g < N -> 0 <= c < 2 ->
  rd (edata X) ((2 * g + c) * ep X + b) = Val (fld X b g c).
Proof.
  intros (W & En) Hb Hg Hc. unfold fld, entC. apply gets_in. destruct W as (H1 & H2 & ->). apply rowin; [lia|exact Hb|lia].
Qed.

(** The loops over plane waves and bands as one loop. *)
Lemma wave_loop {S} (body : Z -> kdata -> Z -> S -> outcome S) nb s : 0 < nb ->
  forZ 0 (d_other d) (fun i s => forZ 0 (d_last d) (fun j s =>
    let! k := rd (d_kG d) (i * d_last d + j) in
    forZ 0 nb (fun b s => body (i * d_last d + j) k b s) s) s) s
  = forZ 0 (N * nb) (fun q s => body (q / nb) (kz (q / nb)) (q mod nb) s) s.
Proof.
  intros Hb. destruct Wd as (_ & _ & _ & Ho & Hl & Hn & _).
  rewrite (forZ_flat (d_other d) (d_last d) (fun g s => let! k := rd (d_kG d) g in forZ 0 nb (fun b s => body g k b s) s)) by lia.
  rewrite Hn. rewrite <- (forZ_flat2 N nb (fun g b s => body g (kz g) b s)) by (pose proof N_pos; lia).
  apply forZ_ext. intros g t Hg. rewrite rd_k by exact Hg. reflexivity.
Qed.
Lemma divmod q nb : 0 < nb -> 0 <= q < N * nb -> 0 <= q / nb < N /\ 0 <= q mod nb < nb /\ q = q / nb * nb + q mod nb.
Proof.
  intros Hb Hq. split; [|split].
  - split; [apply Z.div_pos; lia|]. apply Z.div_lt_upper_bound; lia.
  - apply Z.mod_pos_bound. exact Hb.
  - pose proof (Z.div_mod q nb). lia.
Qed.
Lemma divmod' g b nb : 0 <= b < nb -> (g * nb + b) / nb = g /\ (g * nb + b) mod nb = b.
Proof.
  intros Hb. split.
  - rewrite Z.div_add_l, Z.div_small by lia. lia.
  - rewrite Z.add_comm, Z.mod_add, Z.mod_small by lia. reflexivity.
Qed.

Lemma to_cartesian_ok asg X start nb fft : fields d X -> 0 <= start -> 0 < nb -> start + nb <= ep X -> 3 * N * nb <= Z.of_nat (length fft) ->
  exists f', to_cartesian asg d X start nb fft = Val f' /\ length f' = length fft /\
    (forall g b, 0 <= g < N -> 0 <= b < nb -> arr f' (g * nb + b) = asg (kz g) (fld X (start + b) g 0) (fld X (start + b) g 1)).
Proof.
  intros HX Hs Hb Hp Hf. unfold to_cartesian. assert (Ls : d_last_size d = d_last d) by apply Wd. rewrite Ls. cbv zeta.
  rewrite (wave_loop (fun g k b f => let! v0 := rd (edata X) (g * 2 * ep X + b + start) in
      let! v1 := rd (edata X) (g * 2 * ep X + b + start + ep X) in wr3 f (3 * (g * nb + b)) (asg k v0 v1)) nb fft Hb).
  pose proof N_pos as Np.
  destruct (vec_loop (N * nb) (fun q f => let! v0 := rd (edata X) (q / nb * 2 * ep X + q mod nb + start) in
      let! v1 := rd (edata X) (q / nb * 2 * ep X + q mod nb + start + ep X) in wr3 f (3 * (q / nb * nb + q mod nb)) (asg (kz (q / nb)) v0 v1))
    (fun q _ => asg (kz (q / nb)) (fld X (start + q mod nb) (q / nb) 0) (fld X (start + q mod nb) (q / nb) 1)) fft) as (f' & E & L & H).
  - nia.
  - lia.
  - intros q a1 Hq La _. destruct (divmod q nb Hb Hq) as (Hg & Hm & Eq).
    replace (q / nb * 2 * ep X + q mod nb + start) with ((2 * (q / nb) + 0) * ep X + (start + q mod nb)) by ring.
    rewrite fld_rd by (auto; lia). cbn [bind].
    replace ((2 * (q / nb) + 0) * ep X + (start + q mod nb) + ep X) with ((2 * (q / nb) + 1) * ep X + (start + q mod nb)) by ring.
    rewrite fld_rd by (auto; lia). cbn [bind]. rewrite <- Eq. eexists. split; [reflexivity|reflexivity].
  - exists f'. split; [exact E|]. split; [exact L|]. intros g b Hg Hbb.
    rewrite H by (split; [nia|]; pose proof (rowin N nb nb g b Hg Hbb ltac:(lia)); lia).
    destruct (divmod' g b nb Hbb) as (-> & ->). reflexivity.
Qed.

(** A loop over the grid points and bands of an array in position space. *)
Lemma grid_loop {T} (rdT : Z -> outcome T) (tz : Z -> T) (F : T -> cvec -> cvec) nb fft : 0 < nb -> 3 * N * nb <= Z.of_nat (length fft) ->
  (forall i, 0 <= i < N -> rdT i = Val (tz i)) ->
  exists f', forZ 0 N (fun i f => let! t := rdT i in forZ 0 nb (fun b f =>
      let! v := rd3 f (3 * (i * nb + b)) in wr3 f (3 * (i * nb + b)) (F t v)) f) fft = Val f' /\ length f' = length fft /\
    (forall i b, 0 <= i < N -> 0 <= b < nb -> arr f' (i * nb + b) = F (tz i) (arr fft (i * nb + b))).
Proof.
  intros Hb Hf Ht. pose proof N_pos as Np.
  destruct (vec_loop (N * nb) (fun q f => let! v := rd3 f (3 * (q / nb * nb + q mod nb)) in wr3 f (3 * (q / nb * nb + q mod nb)) (F (tz (q / nb)) v))
    (fun q v => F (tz (q / nb)) v) fft) as (f' & E & L & H).
  - nia.
  - lia.
  - intros q a1 Hq La Ha. destruct (divmod q nb Hb Hq) as (Hg & Hm & Eq). rewrite <- Eq. rewrite rd3_ok by lia. cbn [bind]. rewrite Ha.
    eexists. split; reflexivity.
  - exists f'. split; [|split; [exact L|]].
    + rewrite <- E. rewrite <- (forZ_flat2 N nb (fun i b f => let! v := rd3 f (3 * (i * nb + b)) in wr3 f (3 * (i * nb + b)) (F (tz i) v))) by lia.
      apply forZ_ext. intros i s Hi. rewrite Ht by exact Hi. reflexivity.
    + intros i b Hi Hbb. rewrite H by (split; [nia|]; pose proof (rowin N nb nb i b Hi Hbb ltac:(lia)); lia).
      destruct (divmod' i b nb Hbb) as (-> & _). reflexivity.
Qed.
Lemma e_from_d_ok t nb fft : Z.of_nat (length t) = N -> 0 < nb -> 3 * N * nb <= Z.of_nat (length fft) ->
  exists f', e_from_d d nb t fft = Val f' /\ length f' = length fft /\
    (forall i b, 0 <= i < N -> 0 <= b < nb -> arr f' (i * nb + b) = assign_symmatrix_vector (sym_at t (Z.to_nat i)) (arr fft (i * nb + b))).
Proof.
  intros Lt Hb Hf. unfold e_from_d. assert (O : d_out d = N) by apply Wd. rewrite O.
  exact (grid_loop (rd t) (fun i => sym_at t (Z.to_nat i)) assign_symmatrix_vector nb fft Hb Hf (fun i Hi => rd_sym t i Lt Hi)).
Qed.

Lemma csum_fold n (f : Z -> C) : 0 <= n -> forall (h : Z -> outcome C), (forall g, 0 <= g < n -> h g = Val (f g)) ->
  forZ 0 n (fun g s => let! x := h g in Val (s + x)%C) C0 = Val (csum (Z.to_nat n) (fun g => f (Z.of_nat g))).
Proof.
  intros Hn h Hh.
  destruct (forZ_inv (fun i s => s = csum (Z.to_nat i) (fun g => f (Z.of_nat g))) (fun g s => let! x := h g in Val (s + x)%C) 0 n C0 Hn) as (s & E & ->).
  - reflexivity.
  - intros i s Hi ->. rewrite Hh by exact Hi. cbn [bind]. eexists. split; [reflexivity|].
    replace (Z.to_nat (i + 1)) with (S (Z.to_nat i)) by lia. cbn [csum]. rewrite Z2Nat.id by lia. reflexivity.
  - exact E.
Qed.

Definition vsel (i : nat) (v : cvec) : C := match i with 0%nat => fst (fst v) | 1%nat => snd (fst v) | _ => snd v end.
Definition vbuild (f : nat -> C) : cvec := (f 0%nat, f 1%nat, f 2%nat).

Lemma compute_fft_ok dir nb fft : 0 < nb -> 3 * N * nb <= Z.of_nat (length fft) ->
  exists f', compute_fft dir d fft (nb * 3) (nb * 3) 1 = Val f' /\ length f' = length fft /\
    (forall r b, 0 <= r < N -> 0 <= b < nb -> arr f' (r * nb + b) =
       vbuild (fun i => csum (Z.to_nat N) (fun g => (kern d dir (Z.of_nat g) r * vsel i (arr fft (Z.of_nat g * nb + b)))%C))).
Proof.
  intros Hb Hf. unfold compute_fft. fold N. cbv zeta.
  set (S0 := fun x : Z => csum (Z.to_nat N) (fun g => (kern d dir (Z.of_nat g) (x / (nb * 3)) * gets fft (Z.of_nat g * (nb * 3) + x mod (nb * 3)))%C)).
  pose proof N_pos as Np.
  assert (B : forall r q, 0 <= r < N -> 0 <= q < nb * 3 ->
    forZ 0 N (fun g s => let! x := rd fft (g * (nb * 3) + q * 1) in Val (s + kern d dir g r * x)%C) C0 = Val (S0 (r * (nb * 3) + q))).
  { intros r q Hr Hq. unfold S0. destruct (divmod' r q (nb * 3) Hq) as (-> & ->).
    rewrite <- (csum_fold N (fun g => (kern d dir g r * gets fft (g * (nb * 3) + q))%C) ltac:(lia)
      (fun g => let! x := rd fft (g * (nb * 3) + q * 1) in Val (kern d dir g r * x)%C)).
    - apply forZ_ext. intros g s Hg. destruct (rd fft (g * (nb * 3) + q * 1)); reflexivity.
    - intros g Hg. rewrite Z.mul_1_r. rewrite gets_in; [reflexivity|].
      pose proof (rowin N (nb * 3) (nb * 3) g q Hg Hq ltac:(lia)). lia. }
  rewrite (forZ_ext 0 N _ (fun r o => forZ 0 (nb * 3) (fun q o => wr o (r * (nb * 3) + q) (S0 (r * (nb * 3) + q))) o)).
  2:{ intros r o Hr. apply forZ_ext. intros q o' Hq. rewrite (B r q Hr Hq). cbn [bind]. rewrite Z.mul_1_r. reflexivity. }
  rewrite (forZ_flat N (nb * 3) (fun x o => wr o x (S0 x))) by lia.
  destruct (forZ_inv (fun i s => length s = length fft /\ (forall x, 0 <= x < i -> gets s x = S0 x)) (fun x o => wr o x (S0 x)) 0 (N * (nb * 3)) fft) as (f' & E & L & H).
  - nia.
  - split; [reflexivity|]. intros; lia.
  - intros i s Hi (L & H). assert (Hin : 0 <= i < Z.of_nat (length s)) by (rewrite L; lia).
    exists (upd_nat s (Z.to_nat i) (S0 i)). pose proof (wr_in s i (S0 i) Hin) as W. split; [exact W|]. split; [rewrite upd_length; exact L|].
    intros x Hx. unfold gets. rewrite (rd_wr _ _ _ _ _ W). destruct (Z.eqb_spec x i) as [->|]; [reflexivity|]. apply H. lia.
  - exists f'. split; [exact E|]. split; [exact L|]. intros r b Hr Hbb.
    assert (K : forall i, 0 <= i < 3 -> gets f' (3 * (r * nb + b) + i) = csum (Z.to_nat N) (fun g => (kern d dir (Z.of_nat g) r * gets fft (3 * (Z.of_nat g * nb + b) + i))%C)).
    { intros i Hi. replace (3 * (r * nb + b) + i) with (r * (nb * 3) + (3 * b + i)) by ring.
      assert (Hq : 0 <= 3 * b + i < nb * 3) by lia.
      rewrite H. 2:{ pose proof (rowin N (nb * 3) (nb * 3) r (3 * b + i) Hr Hq ltac:(lia)). lia. }
      unfold S0. destruct (divmod' r (3 * b + i) (nb * 3) Hq) as (-> & ->). apply csum_ext. intros g _. f_equal. f_equal. ring. }
    unfold arr at 1. rewrite <- (Z.add_0_r (3 * (r * nb + b))) at 1. rewrite !K by lia. unfold vbuild, vsel, arr. cbn [fst snd].
    apply (f_equal2 pair); [apply (f_equal2 pair)|]; apply csum_ext; intros g _; rewrite ?Z.add_0_r; reflexivity.
Qed.

Lemma to_transverse_ok prj X start nb fft : fields d X -> 0 <= start -> 0 < nb -> start + nb <= ep X -> 3 * N * nb <= Z.of_nat (length fft) ->
  exists X', to_transverse prj d X start nb fft = Val X' /\ fields d X' /\ ep X' = ep X /\ ealloc X' = ealloc X /\
    (forall g b, 0 <= g < N -> 0 <= b < nb ->
       fld X' (start + b) g 0 = fst (prj (kz g) (arr fft (g * nb + b))) /\ fld X' (start + b) g 1 = snd (prj (kz g) (arr fft (g * nb + b)))) /\
    (forall g b c, 0 <= g < N -> 0 <= c < 2 -> 0 <= b < ep X -> ~ (start <= b < start + nb) -> fld X' b g c = fld X b g c).
Proof.
  intros HX Hs Hb Hp Hf. unfold to_transverse. assert (Ls : d_last_size d = d_last d) by apply Wd. rewrite Ls. cbv zeta.
  rewrite (wave_loop (fun g k b dt => let! a := rd3 fft (3 * (g * nb + b)) in let '(v0, v1) := prj k a in
      let! dt := wr dt (g * 2 * ep X + b + start) v0 in wr dt (g * 2 * ep X + b + start + ep X) v1) nb (edata X) Hb).
  pose proof N_pos as Np. destruct HX as (W & En). pose proof W as (Wn & Wp & Wl).
  set (newv := fun g b c : Z => if c =? 0 then fst (prj (kz g) (arr fft (g * nb + b))) else snd (prj (kz g) (arr fft (g * nb + b)))).
  set (P := fun (q : Z) (dt : list C) => length dt = length (edata X) /\
    forall g b c, 0 <= g < N -> 0 <= c < 2 -> 0 <= b < ep X ->
      ((start <= b < start + nb /\ g * nb + (b - start) < q) -> gets dt ((2 * g + c) * ep X + b) = newv g (b - start) c) /\
      (~ (start <= b < start + nb /\ g * nb + (b - start) < q) -> gets dt ((2 * g + c) * ep X + b) = gets (edata X) ((2 * g + c) * ep X + b))).
  match goal with |- context [forZ 0 (N * nb) ?f _] => destruct (forZ_inv P f 0 (N * nb) (edata X)) as (dt & E & L & H) end.
  - nia.
  - split; [reflexivity|]. intros g b c Hg Hc Hbb. split; [intros (A & A2); nia|reflexivity].
  - intros q s Hq (L & H). destruct (divmod q nb Hb Hq) as (Hg & Hm & Eq). set (g0 := q / nb) in *. set (b0 := q mod nb) in *. rewrite <- Eq.
    rewrite rd3_ok by lia. cbn [bind].
    assert (Q0 : newv g0 b0 0 = fst (prj (kz g0) (arr fft q))) by (unfold newv; cbn [Z.eqb]; rewrite <- Eq; reflexivity).
    assert (Q1 : newv g0 b0 1 = snd (prj (kz g0) (arr fft q))) by (unfold newv; cbn [Z.eqb]; rewrite <- Eq; reflexivity).
    destruct (prj (kz g0) (arr fft q)) as [v0 v1]. cbn [fst snd] in Q0, Q1.
    replace (g0 * 2 * ep X + b0 + start) with ((2 * g0 + 0) * ep X + (start + b0)) by ring.
    replace ((2 * g0 + 0) * ep X + (start + b0) + ep X) with ((2 * g0 + 1) * ep X + (start + b0)) by ring.
    assert (I : forall c, 0 <= c < 2 -> 0 <= (2 * g0 + c) * ep X + (start + b0) < Z.of_nat (length (edata X))).
    { intros c Hc. rewrite Wl. apply rowin; [lia|lia|lia]. }
    destruct (wr s ((2 * g0 + 0) * ep X + (start + b0)) v0) as [s1| | |] eqn:W1; try (rewrite wr_in in W1 by (rewrite L; apply I; lia); discriminate).
    cbn [bind]. assert (L1 : length s1 = length s) by (eapply wr_length; exact W1).
    destruct (wr s1 ((2 * g0 + 1) * ep X + (start + b0)) v1) as [s2| | |] eqn:W2; try (rewrite wr_in in W2 by (rewrite L1, L; apply I; lia); discriminate).
    exists s2. split; [reflexivity|]. assert (L2 : length s2 = length s1) by (eapply wr_length; exact W2). split; [congruence|].
    intros g b c Hg' Hc Hb'.
    assert (G : gets s2 ((2 * g + c) * ep X + b) = if (g =? g0) && (b =? start + b0) then newv g0 b0 c else gets s ((2 * g + c) * ep X + b)).
    { unfold gets. rewrite (rd_wr _ _ _ _ _ W2). destruct (Z.eqb_spec ((2 * g + c) * ep X + b) ((2 * g0 + 1) * ep X + (start + b0))) as [Ex|Ex].
      - apply rowinj in Ex; [|lia|lia]. destruct Ex as (Ex & ->). assert (g = g0 /\ c = 1) as (-> & ->) by lia. rewrite !Z.eqb_refl. cbn [andb]. symmetry. exact Q1.
      - rewrite (rd_wr _ _ _ _ _ W1). destruct (Z.eqb_spec ((2 * g + c) * ep X + b) ((2 * g0 + 0) * ep X + (start + b0))) as [Ey|Ey].
        + apply rowinj in Ey; [|lia|lia]. destruct Ey as (Ey & ->). assert (g = g0 /\ c = 0) as (-> & ->) by lia. rewrite !Z.eqb_refl. cbn [andb]. symmetry. exact Q0.
        + destruct (Z.eqb_spec g g0) as [->|]; [|reflexivity]. destruct (Z.eqb_spec b (start + b0)) as [->|]; [|reflexivity].
          exfalso. assert (c = 0 \/ c = 1) as [-> | ->] by lia; [apply Ey|apply Ex]; reflexivity. }
    rewrite G. destruct (H g b c Hg' Hc Hb') as (H1 & H2).
    destruct (Z.eqb_spec g g0) as [->|Hne]; [destruct (Z.eqb_spec b (start + b0)) as [->|Hne]|]; cbn [andb].
    + split; [intros _; f_equal; lia|]. intros Hn. exfalso. apply Hn. split; [lia|]. lia.
    + split; [intros (A1 & A2); apply H1; split; [lia|]; lia|intros A; apply H2; intros (A1 & A2); apply A; split; [lia|lia]].
    + split; [intros (A1 & A2); apply H1; split; [lia|]|intros A; apply H2; intros (A1 & A2); apply A; split; [lia|lia]].
      destruct (Z.eq_dec (g * nb + (b - start)) q) as [Eqq|]; [|lia]. exfalso. apply Hne. rewrite Eq in Eqq. apply rowinj in Eqq; lia.
  - rewrite E. cbn [bind]. exists (set_data X dt). split; [reflexivity|]. split; [split; [apply wf_set; [exact W|exact L]|exact En]|]. split; [reflexivity|]. split; [reflexivity|].
    assert (K : forall g b, 0 <= g < N -> 0 <= b < nb -> g * nb + b < N * nb) by (intros g b Hg Hbb; pose proof (rowin N nb nb g b Hg Hbb ltac:(lia)); lia).
    split.
    + intros g b Hg Hbb. unfold fld, entC. cbn [edata ep set_data]. split.
      * destruct (H g (start + b) 0 Hg ltac:(lia) ltac:(lia)) as (H1 & _). rewrite H1.
        -- unfold newv. cbn [Z.eqb]. do 3 f_equal. lia.
        -- split; [lia|]. specialize (K g b Hg Hbb). lia.
      * destruct (H g (start + b) 1 Hg ltac:(lia) ltac:(lia)) as (H1 & _). rewrite H1.
        -- unfold newv. cbn [Z.eqb]. do 3 f_equal. lia.
        -- split; [lia|]. specialize (K g b Hg Hbb). lia.
    + intros g b c Hg Hc Hbb Hn. unfold fld, entC. cbn [edata ep set_data]. destruct (H g b c Hg Hc Hbb) as (_ & H2). apply H2. intros (A & _). contradiction.
Qed.
End D.
