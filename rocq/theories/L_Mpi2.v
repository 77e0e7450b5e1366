(** The steps of the parallel operator, all processes together. *)
From Coq Require Import List ZArith Reals Bool Lia.
From Verif Require Import Base RC Loops M_Tensor S_Tensor M_Evect S_Evect L_Evect L_Evect3 M_Grid S_Grid L_Grid5 M_Op S_Op L_Op L_Op2 L_Op5 M_Real S_Real M_Mpi S_Mpi L_Mpi1.
Import ListNotations.
Local Open Scope Z_scope.

Lemma point_of nx ny nz i : 0 <= nx -> 0 < ny -> 0 < nz -> 0 <= i < nx * ny * nz -> exists x y z, point ny nz i = (x, y, z) /\ 0 <= x < nx /\ 0 <= y < ny /\ 0 <= z < nz /\ i = (x * ny + y) * nz + z.
Proof.
  intros Hx Hy Hz Hi. unfold point. do 3 eexists. split; [reflexivity|].
  assert (E1 : i = nz * (i / nz) + i mod nz) by (apply Z.div_mod; lia). assert (E2 : i / nz = ny * (i / nz / ny) + (i / nz) mod ny) by (apply Z.div_mod; lia).
  rewrite (Z.mul_comm ny nz), <- Z.div_div by lia.
  pose proof (Z.mod_pos_bound i nz Hz). pose proof (Z.mod_pos_bound (i / nz) ny Hy).
  assert (0 <= i / nz / ny) by (apply Z.div_pos; [apply Z.div_pos; lia|lia]).
  assert (i / nz / ny < nx). { apply Z.div_lt_upper_bound; [lia|]. apply Z.div_lt_upper_bound; [lia|]. nia. }
  repeat split; try lia.
Qed.
Lemma point_back ny nz x y z : 0 <= y < ny -> 0 <= z < nz -> point ny nz ((x * ny + y) * nz + z) = (x, y, z).
Proof.
  intros Hy Hz. unfold point.
  assert (A : ((x * ny + y) * nz + z) / nz = x * ny + y) by (rewrite Z.div_add_l, Z.div_small by lia; lia).
  rewrite (Z.mul_comm ny nz), <- Z.div_div by lia. rewrite A. f_equal; [f_equal|].
  - rewrite Z.div_add_l, Z.div_small by lia. lia.
  - rewrite Z.add_comm, Z.mod_add, Z.mod_small by lia. reflexivity.
  - rewrite Z.add_comm, Z.mod_add, Z.mod_small by lia. reflexivity.
Qed.

Section D.
Variable d : mdata.
Hypothesis Wd : wfd d.
Notation N := (npts d).
Notation NN := (Z.to_nat (npts d)).
Notation nx := (d_nx d).
Notation ny := (d_ny d).
Notation nz := (d_nz d).

Lemma pos3 : 1 <= nx /\ 1 <= ny /\ 1 <= nz.
Proof. destruct Wd as (A & B & D & _). auto. Qed.

Section P.
Variable p : proc.
Hypothesis Sh : share d p.

Lemma sh_x : d_nx (pd p) = nx. Proof. apply Sh. Qed.
Lemma sh_y : d_ny (pd p) = ny. Proof. apply Sh. Qed.
Lemma sh_z : d_nz (pd p) = nz. Proof. apply Sh. Qed.
Lemma sh_kern dir g r : kern (pd p) dir g r = kern d dir g r.
Proof. unfold kern. rewrite sh_x, sh_y, sh_z. reflexivity. Qed.
Lemma sh_mN : mN (pd p) = mN d.
Proof. unfold mN. rewrite sh_x, sh_y, sh_z. reflexivity. Qed.
Lemma sh_xc : x_count p = pnx p * ny * nz.
Proof. unfold x_count. rewrite sh_y, sh_z. reflexivity. Qed.
Lemma sh_yc : y_count p = nx * pny p * nz.
Proof. unfold y_count. rewrite sh_x, sh_z. reflexivity. Qed.
Lemma sh_slx : slab (px0 p) (pnx p) nx. Proof. apply Sh. Qed.
Lemma sh_sly : slab (py0 p) (pny p) ny. Proof. destruct Sh as (_ & _ & _ & _ & _ & H & _). exact H. Qed.
Lemma pnx_nn : 0 <= pnx p.
Proof. pose proof sh_slx as [H|H]; lia. Qed.
Lemma pny_nn : 0 <= pny p.
Proof. pose proof sh_sly as [H|H]; lia. Qed.
Lemma xc_nn : 0 <= x_count p.
Proof. rewrite sh_xc. pose proof pos3. pose proof pnx_nn. apply Z.mul_nonneg_nonneg; [apply Z.mul_nonneg_nonneg|]; lia. Qed.
Lemma yc_nn : 0 <= y_count p.
Proof. rewrite sh_yc. pose proof pos3. pose proof pny_nn. apply Z.mul_nonneg_nonneg; [apply Z.mul_nonneg_nonneg|]; lia. Qed.

(** Number i of the slab in x. *)
Lemma x_pt_of i : 0 <= i < x_count p -> exists x y z, px0 p <= x < px0 p + pnx p /\ 0 <= x < nx /\ 0 <= y < ny /\ 0 <= z < nz /\
  i = ((x - px0 p) * ny + y) * nz + z /\ x_pt p i = pt d x y z.
Proof.
  intros Hi. rewrite sh_xc in Hi. pose proof pos3 as (H1 & H2 & H3). destruct (point_of (pnx p) ny nz i pnx_nn ltac:(lia) ltac:(lia) Hi) as (x & y & z & _ & Hx & Hy & Hz & E).
  exists (x + px0 p), y, z. pose proof sh_slx as S. unfold slab in S. repeat split; try lia.
  unfold x_pt, pt. rewrite sh_y, sh_z, E. ring.
Qed.
Lemma x_pt_in x y z : px0 p <= x < px0 p + pnx p -> 0 <= y < ny -> 0 <= z < nz ->
  let i := ((x - px0 p) * ny + y) * nz + z in 0 <= i < x_count p /\ x_pt p i = pt d x y z.
Proof.
  intros Hx Hy Hz i. assert (Hx' : 0 <= x - px0 p < pnx p) by lia. split.
  - rewrite sh_xc. assert (0 <= (x - px0 p) * ny + y < pnx p * ny) by nia. unfold i. nia.
  - unfold x_pt, pt, i. rewrite sh_y, sh_z. ring.
Qed.
Lemma pt_range x y z : 0 <= x < nx -> 0 <= y < ny -> 0 <= z < nz -> 0 <= pt d x y z < N.
Proof. intros Hx Hy Hz. unfold pt, npts. assert (0 <= x * ny + y < nx * ny) by nia. nia. Qed.
Lemma x_pt_range i : 0 <= i < x_count p -> 0 <= x_pt p i < N.
Proof. intros Hi. destruct (x_pt_of i Hi) as (x & y & z & _ & Hx & Hy & Hz & _ & ->). apply pt_range; assumption. Qed.

(** Number i of the slab in y. *)
Lemma y_pt_of i : 0 <= i < y_count p -> exists x y z, py0 p <= y < py0 p + pny p /\ 0 <= x < nx /\ 0 <= y < ny /\ 0 <= z < nz /\
  i = ((y - py0 p) * nx + x) * nz + z /\ y_pt p i = pt d x y z.
Proof.
  intros Hi. rewrite sh_yc in Hi. pose proof pos3 as (H1 & H2 & H3). rewrite (Z.mul_comm nx (pny p)) in Hi.
  destruct (point_of (pny p) nx nz i pny_nn ltac:(lia) ltac:(lia) Hi) as (y & x & z & Ep & Hy & Hx & Hz & E).
  exists x, (y + py0 p), z. pose proof sh_sly as S. unfold slab in S. repeat split; try lia.
  unfold y_pt, pt. rewrite sh_x, sh_y, sh_z, Ep. ring.
Qed.
Lemma y_pt_in x y z : py0 p <= y < py0 p + pny p -> 0 <= x < nx -> 0 <= z < nz ->
  let i := ((y - py0 p) * nx + x) * nz + z in 0 <= i < y_count p /\ y_pt p i = pt d x y z.
Proof.
  intros Hy Hx Hz i. assert (Hy' : 0 <= y - py0 p < pny p) by lia. split.
  - rewrite sh_yc. assert (0 <= (y - py0 p) * nx + x < pny p * nx) by nia. unfold i. nia.
  - unfold y_pt, i. rewrite sh_x, sh_z, point_back by assumption. rewrite sh_y. unfold pt. f_equal. f_equal. lia.
Qed.
Lemma y_pt_range i : 0 <= i < y_count p -> 0 <= y_pt p i < N.
Proof. intros Hi. destruct (y_pt_of i Hi) as (x & y & z & _ & Hx & Hy & Hz & _ & ->). apply pt_range; assumption. Qed.

Lemma sh_kz i : 0 <= i < x_count p -> kz (pd p) i = kz d (x_pt p i).
Proof.
  intros Hi. destruct (x_pt_of i Hi) as (x & y & z & Hs & Hx & Hy & Hz & -> & ->).
  destruct Sh as (_ & _ & _ & _ & _ & _ & _ & _ & _ & _ & _ & _ & H & _). unfold kz. apply H; assumption.
Qed.
Lemma sh_sym tp t : slab_of d p tp t -> forall i, 0 <= i < y_count p -> sym_at tp (Z.to_nat i) = sym_at t (Z.to_nat (y_pt p i)).
Proof.
  intros (_ & H) i Hi. destruct (y_pt_of i Hi) as (x & y & z & Hs & Hx & Hy & Hz & -> & ->). apply H. unfold loop_complex_mpi.
  apply in_flat_map. exists (y - py0 p). split; [apply zrange_in; lia|]. apply in_flat_map. exists x. split; [apply zrange_in; lia|].
  apply in_map_iff. exists z. split; [|apply zrange_in; lia]. repeat f_equal. lia.
Qed.
Lemma sh_waves : 0 <= d_other (pd p) /\ 1 <= d_last (pd p) /\ d_other (pd p) * d_last (pd p) = x_count p /\ d_last_size (pd p) = d_last (pd p) /\ Z.of_nat (length (d_kG (pd p))) = x_count p.
Proof. rewrite sh_xc. destruct Sh as (_ & _ & _ & _ & _ & _ & H1 & H2 & H3 & H4 & _ & H5 & _). auto. Qed.
Lemma sh_out : d_out (pd p) = y_count p.
Proof. rewrite sh_yc. destruct Sh as (_ & _ & _ & _ & _ & _ & _ & _ & _ & _ & H & _). exact H. Qed.
End P.

(** Blocks and arrays described by functions of the whole grid. *)
Variables (P cap : Z).
Definition fl (p : proc) (X : emat C) (F : Z -> ff) : Prop :=
  wf X /\ en X = 2 * x_count p /\ ep X = P /\ forall i c b, 0 <= i < x_count p -> 0 <= c < 2 -> 0 <= b < P -> fld X b i c = F b (x_pt p i) c.
Definition ST (l : list pst) (F G : Z -> ff) : Prop :=
  divided d (map s_p l) /\ room l cap /\ forall s, In s l -> fl (s_p s) (s_in s) F /\ fl (s_p s) (s_out s) G.
Definition AX (l : list pst) (nb : Z) (A : Z -> Z -> cvec) : Prop := forall s, In s l -> forall i b, 0 <= i < x_count (s_p s) -> 0 <= b < nb ->
  arr (s_fft s) (i * nb + b) = A b (x_pt (s_p s) i).
Definition AY (l : list pst) (nb : Z) (A : Z -> Z -> cvec) : Prop := forall s, In s l -> forall i b, 0 <= i < y_count (s_p s) -> 0 <= b < nb ->
  arr (s_fft s) (i * nb + b) = A b (y_pt (s_p s) i).

Lemma st_share l F G s : ST l F G -> In s l -> share d (s_p s).
Proof. intros ((H & _) & _) I. apply H. apply in_map. exact I. Qed.

Lemma step_gen (f : pst -> outcome pst) l (R : pst -> pst -> Prop) : (forall s, In s l -> exists s', f s = Val s' /\ s_p s' = s_p s /\ s_in s' = s_in s /\ R s s') ->
  exists l', mapM f l = Val l' /\ same_processes l l' /\ (forall s', In s' l' -> exists s, In s l /\ s_p s' = s_p s /\ s_in s' = s_in s /\ R s s').
Proof.
  intros H. destruct (mapM_ok f (fun s s' => In s l /\ s_p s' = s_p s /\ s_in s' = s_in s /\ R s s') l) as (l' & E & F2).
  - intros s I. destruct (H s I) as (s' & E & K). exists s'. auto.
  - exists l'. split; [exact E|]. clear E H. split.
    + unfold same_processes. assert (G : forall (m m' : list pst), Forall2 (fun s s' => In s l /\ s_p s' = s_p s /\ s_in s' = s_in s /\ R s s') m m' -> map s_p m' = map s_p m /\ map s_in m' = map s_in m).
      { intros m m' F. induction F as [|a b m m' (_ & K1 & K2 & _) F (IH1 & IH2)]; [auto|]. cbn [map]. rewrite K1, K2, IH1, IH2. auto. }
      apply G. exact F2.
    + intros s' I. assert (G : forall (m m' : list pst), Forall2 (fun s s' => In s l /\ s_p s' = s_p s /\ s_in s' = s_in s /\ R s s') m m' -> In s' m' -> exists s, In s l /\ s_p s' = s_p s /\ s_in s' = s_in s /\ R s s').
      { intros m m' F. induction F as [|a b m m' K F IH]; [intros []|]. intros [->|J]; [exists a; exact K|auto]. }
      exact (G l l' F2 I).
Qed.
Lemma same_trans l l' l'' : same_processes l l' -> same_processes l' l'' -> same_processes l l''.
Proof. intros (A & B) (A' & B'). split; congruence. Qed.

(** A step on the scratch arrays. *)
Lemma step_fft f l F G (R : pst -> list C -> Prop) : ST l F G -> (forall s, In s l -> exists a, f s = Val (set_fft s a) /\ length a = length (s_fft s) /\ R s a) ->
  exists l', mapM f l = Val l' /\ same_processes l l' /\ ST l' F G /\ (forall s', In s' l' -> exists s, In s l /\ s_p s' = s_p s /\ s_in s' = s_in s /\ s_out s' = s_out s /\ R s (s_fft s')).
Proof.
  intros (Dv & Ro & Fl) H.
  destruct (step_gen f l (fun s s' => s_out s' = s_out s /\ length (s_fft s') = length (s_fft s) /\ R s (s_fft s'))) as (l' & E & Sa & Q).
  - intros s I. destruct (H s I) as (a & E & L & K). exists (set_fft s a). split; [exact E|]. split; [reflexivity|]. split; [reflexivity|]. split; [reflexivity|]. split; [exact L|exact K].
  - exists l'. split; [exact E|]. split; [exact Sa|]. split.
    + split; [destruct Sa as (-> & _); exact Dv|]. split.
      * intros s' I. destruct (Q s' I) as (s & J & E1 & _ & _ & L & _). rewrite E1, L. apply Ro. exact J.
      * intros s' I. destruct (Q s' I) as (s & J & E1 & E2 & E3 & _). rewrite E1, E2, E3. apply Fl. exact J.
    + intros s' I. destruct (Q s' I) as (s & J & E1 & E2 & E3 & _ & K). exists s. auto.
Qed.

Lemma room_x l nb s : room l cap -> In s l -> nb <= cap -> 0 <= x_count (s_p s) -> 3 * x_count (s_p s) * nb <= Z.of_nat (length (s_fft s)).
Proof. intros H I Hc Hx. destruct (H s I) as (H1 & _). nia. Qed.
Lemma room_y l nb s : room l cap -> In s l -> nb <= cap -> 0 <= y_count (s_p s) -> 3 * y_count (s_p s) * nb <= Z.of_nat (length (s_fft s)).
Proof. intros H I Hc Hx. destruct (H s I) as (_ & H1). nia. Qed.

(** Cartesian components. *)
Definition pick (o : bool) (s : pst) : emat C := if o then s_out s else s_in s.
Lemma cart_step rng asg (o : bool) start nb l F G : ST l F G -> 0 <= start -> 0 < nb -> start + nb <= P -> nb <= cap ->
  exists l', local (fun s => let! _ := (if rng : bool then band_range (pick o s) start nb else Val tt) in
      let! f := to_cartesian asg (pd (s_p s)) (pick o s) start nb (s_fft s) in Val (set_fft s f)) l = Val l' /\ same_processes l l' /\ ST l' F G /\
    AX l' nb (fun b g => let H := if o then G else F in asg (kz d g) (H (start + b) g 0) (H (start + b) g 1)).
Proof.
  intros S Hs Hb Hp Hc. unfold local.
  destruct (step_fft (fun s => let! _ := (if rng : bool then band_range (pick o s) start nb else Val tt) in
      let! f := to_cartesian asg (pd (s_p s)) (pick o s) start nb (s_fft s) in Val (set_fft s f)) l F G
    (fun s a => forall i b, 0 <= i < x_count (s_p s) -> 0 <= b < nb -> arr a (i * nb + b) = let H := if o then G else F in let g := x_pt (s_p s) i in asg (kz d g) (H (start + b) g 0) (H (start + b) g 1)) S)
    as (l' & E & Sa & S' & Q).
  - intros s I. pose proof (st_share l F G s S I) as Sh. destruct S as (_ & Ro & Fl).
    assert (K : fl (s_p s) (pick o s) (if o then G else F)) by (destruct (Fl s I); unfold pick; destruct o; assumption).
    destruct K as (W & En & Ep & K). destruct (sh_waves (s_p s) Sh) as (W1 & W2 & W3 & W4 & W5). pose proof (xc_nn (s_p s) Sh) as Xn.
    assert (Er : (if rng then band_range (pick o s) start nb else Val tt) = Val tt) by (destruct rng; [apply range_ok; lia|reflexivity]).
    destruct (to_cartesian_loc (pd (s_p s)) (x_count (s_p s)) Xn W1 W2 W3 W4 W5 asg (pick o s) start nb (s_fft s) W En Hs Hb ltac:(lia) (room_x l nb s Ro I Hc Xn)) as (a & E & L & A).
    exists a. rewrite Er. cbn [bind]. rewrite E. cbn [bind]. split; [reflexivity|]. split; [exact L|]. intros i b Hi Hbb. rewrite A by assumption.
    rewrite (sh_kz _ Sh) by exact Hi. rewrite !K by lia. reflexivity.
  - exists l'. split; [exact E|]. split; [exact Sa|]. split; [exact S'|]. intros s' I i b Hi Hbb. destruct (Q s' I) as (s & J & E1 & _ & _ & K). rewrite E1 in *. apply K; assumption.
Qed.

(** A pointwise step in position space. *)
Lemma grid_step (f : pst -> outcome (list C)) l F G nb A (T : Z -> cvec -> cvec) : ST l F G -> AY l nb A -> nb <= cap ->
  (forall s, In s l -> share d (s_p s) -> 3 * y_count (s_p s) * nb <= Z.of_nat (length (s_fft s)) ->
     exists a, f s = Val a /\ length a = length (s_fft s) /\ forall i b, 0 <= i < y_count (s_p s) -> 0 <= b < nb -> arr a (i * nb + b) = T (y_pt (s_p s) i) (arr (s_fft s) (i * nb + b))) ->
  exists l', local (fun s => let! a := f s in Val (set_fft s a)) l = Val l' /\ same_processes l l' /\ ST l' F G /\ AY l' nb (fun b r => T r (A b r)).
Proof.
  intros S Ay Hc H. unfold local.
  destruct (step_fft (fun s => let! a := f s in Val (set_fft s a)) l F G
    (fun s a => forall i b, 0 <= i < y_count (s_p s) -> 0 <= b < nb -> arr a (i * nb + b) = T (y_pt (s_p s) i) (arr (s_fft s) (i * nb + b))) S) as (l' & E & Sa & S' & Q).
  - intros s I. pose proof (st_share l F G s S I) as Sh. destruct S as (_ & Ro & _). destruct (H s I Sh (room_y l nb s Ro I Hc (yc_nn _ Sh))) as (a & -> & L & K). exists a. auto.
  - exists l'. split; [exact E|]. split; [exact Sa|]. split; [exact S'|]. intros s' I i b Hi Hbb. destruct (Q s' I) as (s & J & E1 & _ & _ & K). rewrite E1 in *. rewrite K by assumption. rewrite (Ay s J) by assumption. reflexivity.
Qed.

(** The transforms. *)
Lemma gets3 a q i : (i < 3)%nat -> gets a (3 * q + Z.of_nat i) = vsel i (arr a q).
Proof. intros H. destruct i as [|[|[|]]]; try lia; cbn [vsel arr fst snd]; [rewrite Z.add_0_r|..]; reflexivity. Qed.
Lemma fft_sum (get : Z -> Z -> outcome C) dir q pt0 (A : Z -> C) : (forall g, 0 <= g < N -> get g q = Val (A g)) ->
  forZ 0 N (fun g a => let! x := get g q in Val (a + kern d dir g pt0 * x)%C) C0 = Val (csum NN (fun g => (kern d dir (Z.of_nat g) pt0 * A (Z.of_nat g))%C)).
Proof.
  intros H. pose proof (N_pos d Wd).
  rewrite <- (csum_fold N (fun g => (kern d dir g pt0 * A g)%C) ltac:(lia) (fun g => let! x := get g q in Val (kern d dir g pt0 * x)%C)).
  - apply forZ_ext. intros g s Hg. destruct (get g q); reflexivity.
  - intros g Hg. rewrite H by exact Hg. reflexivity.
Qed.
Lemma find_some_in {X} (f : X -> bool) l x : In x l -> f x = true -> exists y, find f l = Some y /\ In y l /\ f y = true.
Proof.
  intros I H. destruct (find f l) as [y|] eqn:E.
  - exists y. split; [reflexivity|]. apply find_some in E. exact E.
  - exfalso. pose proof (find_none f l E x I). congruence.
Qed.
Definition comps (nb : Z) (A : Z -> Z -> cvec) (g q : Z) : C := vsel (Z.to_nat (q mod 3)) (A (q / 3) g).
Lemma arr_get a nb i q v : 0 <= i -> 0 <= q < nb * 3 -> 3 * (i * nb + nb) <= Z.of_nat (length a) -> arr a (i * nb + q / 3) = v -> rd a (i * (nb * 3) + q) = Val (vsel (Z.to_nat (q mod 3)) v).
Proof.
  intros Hi Hq Hl <-. pose proof (Z.mod_pos_bound q 3 ltac:(lia)) as Hm. pose proof (Z.div_mod q 3 ltac:(lia)) as Hd.
  rewrite gets_in by nia. f_equal. rewrite <- gets3 by lia. rewrite Z2Nat.id by lia. f_equal. lia.
Qed.
Lemma get_x_ok l F G nb A g q : ST l F G -> 0 < nb <= cap -> AX l nb A -> 0 <= g < N -> 0 <= q < nb * 3 -> get_x l ny nz (nb * 3) g q = Val (comps nb A g q).
Proof.
  intros ((Sh & Cx & Cy) & Ro & _) Hb Ax Hg Hq. pose proof pos3 as (H1 & H2 & H3). destruct (point_of nx ny nz g ltac:(lia) ltac:(lia) ltac:(lia) Hg) as (x & y & z & Ep & Hx & Hy & Hz & Eg).
  unfold get_x. rewrite Ep. destruct (Cx x Hx) as (p & Ip & Hp). apply in_map_iff in Ip. destruct Ip as (s0 & <- & I0).
  destruct (find_some_in (in_x x) l s0 I0) as (s & -> & I & Hin). { unfold in_x. apply andb_true_intro. split; [apply Z.leb_le|apply Z.ltb_lt]; lia. }
  unfold in_x in Hin. apply andb_prop in Hin. destruct Hin as (Hi1 & Hi2). apply Z.leb_le in Hi1. apply Z.ltb_lt in Hi2.
  assert (Sp : share d (s_p s)) by (apply Sh; apply in_map; exact I).
  destruct (x_pt_in (s_p s) Sp x y z ltac:(lia) Hy Hz) as (Hi & Ex). cbv zeta in Hi, Ex.
  apply arr_get; [lia|exact Hq| |].
  - pose proof (room_x l nb s Ro I ltac:(lia) (xc_nn _ Sp)). nia.
  - rewrite (Ax s I) by (exact Hi || (split; [apply Z.div_pos; lia|apply Z.div_lt_upper_bound; lia])). rewrite Ex. unfold pt. rewrite <- Eg. reflexivity.
Qed.
Lemma get_y_ok l F G nb A g q : ST l F G -> 0 < nb <= cap -> AY l nb A -> 0 <= g < N -> 0 <= q < nb * 3 -> get_y l nx ny nz (nb * 3) g q = Val (comps nb A g q).
Proof.
  intros ((Sh & Cx & Cy) & Ro & _) Hb Ay Hg Hq. pose proof pos3 as (H1 & H2 & H3). destruct (point_of nx ny nz g ltac:(lia) ltac:(lia) ltac:(lia) Hg) as (x & y & z & Ep & Hx & Hy & Hz & Eg).
  unfold get_y. rewrite Ep. destruct (Cy y Hy) as (p & Ip & Hp). apply in_map_iff in Ip. destruct Ip as (s0 & <- & I0).
  destruct (find_some_in (in_y y) l s0 I0) as (s & -> & I & Hin). { unfold in_y. apply andb_true_intro. split; [apply Z.leb_le|apply Z.ltb_lt]; lia. }
  unfold in_y in Hin. apply andb_prop in Hin. destruct Hin as (Hi1 & Hi2). apply Z.leb_le in Hi1. apply Z.ltb_lt in Hi2.
  assert (Sp : share d (s_p s)) by (apply Sh; apply in_map; exact I).
  destruct (y_pt_in (s_p s) Sp x y z ltac:(lia) Hx Hz) as (Hi & Ex). cbv zeta in Hi, Ex.
  apply arr_get; [lia|exact Hq| |].
  - pose proof (room_y l nb s Ro I ltac:(lia) (yc_nn _ Sp)). nia.
  - rewrite (Ay s I) by (exact Hi || (split; [apply Z.div_pos; lia|apply Z.div_lt_upper_bound; lia])). rewrite Ex. unfold pt. rewrite <- Eg. reflexivity.
Qed.
Definition tr (dir : Z) (A : Z -> Z -> cvec) (b r : Z) : cvec := vbuild (fun i => csum NN (fun g => (kern d dir (Z.of_nat g) r * vsel i (A b (Z.of_nat g)))%C)).
Lemma filled nb A n dir (pt0 : Z -> Z) a : (forall i q, 0 <= i < n -> 0 <= q < nb * 3 -> gets a (i * (nb * 3) + q) = csum NN (fun g => (kern d dir (Z.of_nat g) (pt0 i) * comps nb A (Z.of_nat g) q)%C)) ->
  forall i b, 0 <= i < n -> 0 <= b < nb -> arr a (i * nb + b) = tr dir A b (pt0 i).
Proof.
  intros H i b Hi Hb.
  assert (K : forall j, (j < 3)%nat -> gets a (3 * (i * nb + b) + Z.of_nat j) = csum NN (fun g => (kern d dir (Z.of_nat g) (pt0 i) * vsel j (A b (Z.of_nat g)))%C)).
  { intros j Hj. replace (3 * (i * nb + b) + Z.of_nat j) with (i * (nb * 3) + (b * 3 + Z.of_nat j)) by ring. rewrite H by lia. apply csum_ext. intros g _. unfold comps.
    rewrite Z.div_add_l, Z.div_small, Z.add_0_r by lia. rewrite (Z.add_comm (b * 3)), Z.mod_add, Z.mod_small by lia. rewrite Nat2Z.id. reflexivity. }
  unfold tr, vbuild. unfold arr. pose proof (K 0%nat ltac:(lia)) as K0. pose proof (K 1%nat ltac:(lia)) as K1. pose proof (K 2%nat ltac:(lia)) as K2.
  cbn [Z.of_nat Pos.of_succ_nat Pos.succ] in K0, K1, K2. rewrite Z.add_0_r in K0. rewrite K0, K1, K2. reflexivity.
Qed.
Lemma fft_fwd l F G nb A : ST l F G -> 0 < nb <= cap -> AX l nb A ->
  exists l', compute_fft_mpi 1 l (nb * 3) (nb * 3) 1 = Val l' /\ same_processes l l' /\ ST l' F G /\ AY l' nb (tr 1 A).
Proof.
  intros S Hb Ax. unfold compute_fft_mpi. rewrite Z.eqb_refl. cbn [andb Z.eqb Pos.eqb check bind].
  destruct (step_fft (fft_at 1 l (nb * 3)) l F G (fun s a => forall i b, 0 <= i < y_count (s_p s) -> 0 <= b < nb -> arr a (i * nb + b) = tr 1 A b (y_pt (s_p s) i)) S) as (l' & E & Sa & S' & Q).
  - intros s I. pose proof (st_share l F G s S I) as Sh. pose proof S as (_ & Ro & _). pose proof (room_y l nb s Ro I ltac:(lia) (yc_nn _ Sh)) as Rm.
    destruct (fill_loop (y_count (s_p s)) (nb * 3) (fun i q => csum NN (fun g => (kern d 1 (Z.of_nat g) (y_pt (s_p s) i) * comps nb A (Z.of_nat g) q)%C))
      (fun i q => forZ 0 N (fun g a => let! x := get_x l ny nz (nb * 3) g q in Val (a + kern d 1 g (y_pt (s_p s) i) * x)%C) C0) (s_fft s)) as (a & E & L & K).
    + apply yc_nn. exact Sh.
    + lia.
    + lia.
    + intros i q Hi Hq. apply (fft_sum (fun g q => get_x l ny nz (nb * 3) g q) 1 q (y_pt (s_p s) i) (fun g => comps nb A g q)). intros g Hg. apply (get_x_ok l F G nb A g q S Hb Ax Hg Hq).
    + exists a. split; [|split; [exact L|]].
      * unfold fft_at. cbn [Z.ltb Z.compare]. rewrite (sh_x _ Sh), (sh_y _ Sh), (sh_z _ Sh). fold N. 
        match goal with |- bind ?u _ = _ => assert (Eu : u = Val a) end; [|rewrite Eu; reflexivity].
        rewrite <- E. apply forZ_ext. intros i o Hi. apply forZ_ext. intros q o' Hq.
        match goal with |- bind ?u _ = bind ?v _ => assert (Eu : u = v) end; [|rewrite Eu; reflexivity]. apply forZ_ext. intros g c Hg. rewrite (sh_kern _ Sh). reflexivity.
      * apply (filled nb A). exact K.
  - exists l'. split; [exact E|]. split; [exact Sa|]. split; [exact S'|]. intros s' I i b Hi Hbb. destruct (Q s' I) as (s & J & E1 & _ & _ & K). rewrite E1 in *. apply K; assumption.
Qed.
Lemma fft_bwd l F G nb A : ST l F G -> 0 < nb <= cap -> AY l nb A ->
  exists l', compute_fft_mpi (-1) l (nb * 3) (nb * 3) 1 = Val l' /\ same_processes l l' /\ ST l' F G /\ AX l' nb (tr (-1) A).
Proof.
  intros S Hb Ax. unfold compute_fft_mpi. rewrite Z.eqb_refl. cbn [andb Z.eqb Pos.eqb check bind].
  destruct (step_fft (fft_at (-1) l (nb * 3)) l F G (fun s a => forall i b, 0 <= i < x_count (s_p s) -> 0 <= b < nb -> arr a (i * nb + b) = tr (-1) A b (x_pt (s_p s) i)) S) as (l' & E & Sa & S' & Q).
  - intros s I. pose proof (st_share l F G s S I) as Sh. pose proof S as (_ & Ro & _). pose proof (room_x l nb s Ro I ltac:(lia) (xc_nn _ Sh)) as Rm.
    destruct (fill_loop (x_count (s_p s)) (nb * 3) (fun i q => csum NN (fun g => (kern d (-1) (Z.of_nat g) (x_pt (s_p s) i) * comps nb A (Z.of_nat g) q)%C))
      (fun i q => forZ 0 N (fun g a => let! x := get_y l nx ny nz (nb * 3) g q in Val (a + kern d (-1) g (x_pt (s_p s) i) * x)%C) C0) (s_fft s)) as (a & E & L & K).
    + apply xc_nn. exact Sh.
    + lia.
    + lia.
    + intros i q Hi Hq. apply (fft_sum (fun g q => get_y l nx ny nz (nb * 3) g q) (-1) q (x_pt (s_p s) i) (fun g => comps nb A g q)). intros g Hg. apply (get_y_ok l F G nb A g q S Hb Ax Hg Hq).
    + exists a. split; [|split; [exact L|]].
      * unfold fft_at. cbn [Z.ltb Z.compare]. rewrite (sh_x _ Sh), (sh_y _ Sh), (sh_z _ Sh). fold N. 
        match goal with |- bind ?u _ = _ => assert (Eu : u = Val a) end; [|rewrite Eu; reflexivity].
        rewrite <- E. apply forZ_ext. intros i o Hi. apply forZ_ext. intros q o' Hq.
        match goal with |- bind ?u _ = bind ?v _ => assert (Eu : u = v) end; [|rewrite Eu; reflexivity]. apply forZ_ext. intros g c Hg. rewrite (sh_kern _ Sh). reflexivity.
      * apply (filled nb A). exact K.
  - exists l'. split; [exact E|]. split; [exact Sa|]. split; [exact S'|]. intros s' I i b Hi Hbb. destruct (Q s' I) as (s & J & E1 & _ & _ & K). rewrite E1 in *. apply K; assumption.
Qed.
(** Back to the transverse components. *)
Lemma trans_step (prj : R -> kdata -> cvec -> C * C) num start nb l F G A : ST l F G -> 0 <= start -> 0 < nb -> start + nb <= P -> nb <= cap -> AX l nb A ->
  exists l', local (fun s => let! scale := fdiv num (mN (pd (s_p s))) in
      let! X := to_transverse (prj scale) (pd (s_p s)) (s_out s) start nb (s_fft s) in Val (set_out s X)) l = Val l' /\ same_processes l l' /\
    ST l' F (fun b g c => if (start <=? b) && (b <? start + nb) then let v := prj (num / mN d)%R (kz d g) (A (b - start) g) in if c =? 0 then fst v else snd v else G b g c).
Proof.
  intros S Hs Hb Hp Hc Ax. unfold local. pose proof S as (Dv & Ro & Fl).
  set (G' := fun b g c => if (start <=? b) && (b <? start + nb) then let v := prj (num / mN d)%R (kz d g) (A (b - start) g) in if c =? 0 then fst v else snd v else G b g c).
  destruct (step_gen (fun s => let! scale := fdiv num (mN (pd (s_p s))) in
      let! X := to_transverse (prj scale) (pd (s_p s)) (s_out s) start nb (s_fft s) in Val (set_out s X)) l (fun s s' => s_fft s' = s_fft s /\ fl (s_p s) (s_out s') G')) as (l' & E & Sa & Q).
  - intros s I. pose proof (st_share l F G s S I) as Sh. destruct (Fl s I) as (_ & W & En & Ep & K). destruct (sh_waves (s_p s) Sh) as (W1 & W2 & W3 & W4 & W5). pose proof (xc_nn (s_p s) Sh) as Xn.
    destruct (to_transverse_loc (pd (s_p s)) (x_count (s_p s)) Xn W1 W2 W3 W4 W5 (prj (num / mN d)%R) (s_out s) start nb (s_fft s) W En Hs Hb ltac:(lia) (room_x l nb s Ro I Hc Xn))
      as (X' & E & W' & En' & Ep' & Q1 & Q2).
    rewrite (sh_mN _ Sh), fdiv_nz by (apply N_nz; exact Wd). cbn [bind]. rewrite E. cbn [bind]. eexists. split; [reflexivity|]. split; [reflexivity|]. split; [reflexivity|]. split; [reflexivity|].
    cbn [set_out s_out]. split; [exact W'|]. split; [exact En'|]. split; [congruence|]. intros i c b Hi Hcc Hbb. unfold G'.
    destruct (Z.leb_spec start b) as [Hl|Hl]; cbn [andb]; [destruct (Z.ltb_spec b (start + nb)) as [Hr|Hr]|].
    + destruct (Q1 i (b - start) Hi ltac:(lia)) as (R0 & R1). replace (start + (b - start)) with b in R0, R1 by lia. rewrite (Ax s I) in R0, R1 by (assumption || lia).
      rewrite (sh_kz _ Sh) in R0, R1 by exact Hi. cbv zeta. assert (c = 0 \/ c = 1) as [-> | ->] by lia; [exact R0|exact R1].
    + rewrite Q2 by lia. apply K; assumption.
    + rewrite Q2 by lia. apply K; assumption.
  - exists l'. split; [exact E|]. split; [exact Sa|]. split; [destruct Sa as (-> & _); exact Dv|]. split.
    + intros s' I. destruct (Q s' I) as (s & J & E1 & _ & L & _). rewrite E1, L. apply Ro. exact J.
    + intros s' I. destruct (Q s' I) as (s & J & E1 & E2 & _ & K). rewrite E1, E2. split; [apply Fl; exact J|exact K].
Qed.
(** Bands copied. *)
Lemma copy_step (o : bool) start nb l F G : ST l F G -> 0 <= start -> 0 < nb -> start + nb <= P ->
  exists l', local (fun s => let! X := evectmatrix_copy_slice (s_out s) (pick o s) start start nb in Val (set_out s X)) l = Val l' /\ same_processes l l' /\
    ST l' F (fun b g c => if (start <=? b) && (b <? start + nb) then (if o then G else F) b g c else G b g c).
Proof.
  intros S Hs Hb Hp. unfold local. pose proof S as (Dv & Ro & Fl).
  set (G' := fun b g c => if (start <=? b) && (b <? start + nb) then (if o then G else F) b g c else G b g c).
  destruct (step_gen (fun s => let! X := evectmatrix_copy_slice (s_out s) (pick o s) start start nb in Val (set_out s X)) l (fun s s' => s_fft s' = s_fft s /\ fl (s_p s) (s_out s') G')) as (l' & E & Sa & Q).
  - intros s I. pose proof (st_share l F G s S I) as Sh. destruct (Fl s I) as (FI & FO). pose proof FO as (W & En & Ep & K).
    assert (Kp : fl (s_p s) (pick o s) (if o then G else F)) by (unfold pick; destruct o; assumption). destruct Kp as (Wp & Enp & Epp & Kp).
    destruct (copy_slice_ok (s_out s) (pick o s) start start nb W Wp ltac:(congruence) Hs Hs ltac:(lia) ltac:(lia)) as (X' & E & W' & N' & P' & A' & Q1 & Q2).
    rewrite E. cbn [bind]. eexists. split; [reflexivity|]. split; [reflexivity|]. split; [reflexivity|]. split; [reflexivity|].
    cbn [set_out s_out]. split; [exact W'|]. split; [congruence|]. split; [congruence|]. intros i c b Hi Hcc Hbb. unfold G'.
    assert (Ge : forall (X Y : emat C) i j i' j', ent X i j = ent Y i' j' -> entC X i j = entC Y i' j').
    { intros X Y i1 j i' j' Hx. unfold ent in Hx. unfold entC, gets. rewrite Hx. reflexivity. }
    destruct (Z.leb_spec start b) as [Hl|Hl]; cbn [andb]; [destruct (Z.ltb_spec b (start + nb)) as [Hr|Hr]|].
    + rewrite <- Kp by assumption. unfold fld. replace b with (start + (b - start)) by lia. apply Ge. apply Q1; lia.
    + rewrite <- K by assumption. unfold fld. apply Ge. apply Q2; lia.
    + rewrite <- K by assumption. unfold fld. apply Ge. apply Q2; lia.
  - exists l'. split; [exact E|]. split; [exact Sa|]. split; [destruct Sa as (-> & _); exact Dv|]. split.
    + intros s' I. destruct (Q s' I) as (s & J & E1 & _ & L & _). rewrite E1, L. apply Ro. exact J.
    + intros s' I. destruct (Q s' I) as (s & J & E1 & E2 & _ & K). rewrite E1, E2. split; [apply Fl; exact J|exact K].
Qed.
End D.
