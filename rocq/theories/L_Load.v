(** Loops and files of material grids. *)
From Coq Require Import List ZArith Reals Lra Lia Bool.
From Verif Require Import Base RC M_Tensor M_Interp S_Interp L_Interp P_Interp M_Evect M_Grid M_Matgrid M_Load S_Load.
Import ListNotations.
Local Open Scope R_scope.

Lemma modf_ok x : 0 <= x -> frac_of x (modf_frac x).
Proof.
  intros H. unfold modf_frac, rtrunc. destruct (Rleb_spec 0 x); [|lra]. destruct (base_Int_part x) as (A & B). split; [lra|]. exists (Int_part x). ring.
Qed.
Lemma frac_unique x r r' : frac_of x r -> frac_of x r' -> r = r'.
Proof.
  intros (A & m & E) (B & m' & E'). assert (Q : r - r' = IZR (m' - m)) by (rewrite minus_IZR; lra).
  assert (-1 < IZR (m' - m) < 1) as (Q1 & Q2) by lra. apply lt_IZR in Q1, Q2. assert (m' - m = 0)%Z as Z0 by lia. rewrite Z0 in Q. lra.
Qed.
Lemma wr_getr (a : list R) i v : (0 <= i < Z.of_nat (length a))%Z -> exists a', wr a i v = Val a' /\ length a' = length a /\ (forall x, getr a' x = if (x =? i)%Z then v else getr a x).
Proof.
  intros H. exists (upd_nat a (Z.to_nat i) v). pose proof (wr_in a i v H) as W. split; [exact W|]. split; [apply upd_length|]. intros x. unfold getr. rewrite (rd_wr _ _ _ _ _ W). destruct (x =? i)%Z; reflexivity.
Qed.
Lemma flat_bound nx ny nz i j k : (0 <= i < nx -> 0 <= j < ny -> 0 <= k < nz -> 0 <= (i * ny + j) * nz + k < nx * ny * nz)%Z.
Proof.
  intros Hi Hj Hk. assert (A : (0 <= i * ny + j <= nx * ny - 1)%Z) by (split; [nia|]; assert ((i * ny <= (nx - 1) * ny)%Z) by (apply Z.mul_le_mono_nonneg_r; lia); lia).
  assert (B : ((i * ny + j) * nz <= (nx * ny - 1) * nz)%Z) by (apply Z.mul_le_mono_nonneg_r; lia). split; [|lia]. assert (0 <= (i * ny + j) * nz)%Z by (apply Z.mul_nonneg_nonneg; lia). lia.
Qed.
Lemma fill_ok ny nz nx (a0 : list R) (V : Z -> Z -> Z -> R) (body : Z -> Z -> Z -> list R -> outcome (list R)) : (0 < nx -> 0 < ny -> 0 < nz -> nx * ny * nz <= Z.of_nat (length a0) ->
  (forall i j k a, 0 <= i < nx -> 0 <= j < ny -> 0 <= k < nz -> body i j k a = wr a ((i * ny + j) * nz + k) (V i j k)) ->
  exists a, forZ 0 nx (fun i a => forZ 0 ny (fun j a => forZ 0 nz (body i j) a) a) a0 = Val a /\ length a = length a0 /\
    (forall i j k, 0 <= i < nx -> 0 <= j < ny -> 0 <= k < nz -> getr a ((i * ny + j) * nz + k) = V i j k) /\
    (forall x, nx * ny * nz <= x -> getr a x = getr a0 x))%Z.
Proof.
  intros Hx Hy Hz L B.
  set (W := fun x => V (x / nz / ny)%Z ((x / nz) mod ny)%Z (x mod nz)%Z).
  set (P := fun q (a : list R) => length a = length a0 /\ forall x, (0 <= x)%Z -> getr a x = if (x <? q)%Z then W x else getr a0 x).
  assert (EW : forall i j k, (0 <= i < nx)%Z -> (0 <= j < ny)%Z -> (0 <= k < nz)%Z -> W ((i * ny + j) * nz + k)%Z = V i j k).
  { intros i j k Hi Hj Hk. unfold W. rewrite Z.div_add_l, (Z.div_small k nz), Z.add_0_r by lia. rewrite (Z.add_comm _ k), Z_mod_plus_full, (Z.mod_small k nz) by lia.
    rewrite Z.div_add_l, (Z.div_small j ny), Z.add_0_r by lia. rewrite (Z.add_comm _ j), Z_mod_plus_full, (Z.mod_small j ny) by lia. reflexivity. }
  destruct (forZ_inv (fun i a => P (i * ny * nz)%Z a) (fun i a => forZ 0 ny (fun j a => forZ 0 nz (body i j) a) a) 0 nx a0) as (a & E & Pa).
  - lia.
  - split; [reflexivity|]. intros x H. destruct (Z.ltb_spec x (0 * ny * nz)); [lia|reflexivity].
  - intros i a1 Hi P1.
    destruct (forZ_inv (fun j a => P ((i * ny + j) * nz)%Z a) (fun j a => forZ 0 nz (body i j) a) 0 ny a1) as (a2 & E2 & P2); [lia|rewrite Z.add_0_r; exact P1| |exists a2; split; [exact E2|]; replace ((i + 1) * ny * nz)%Z with ((i * ny + ny) * nz)%Z by ring; exact P2].
    intros j a3 Hj P3.
    destruct (forZ_inv (fun k a => P ((i * ny + j) * nz + k)%Z a) (body i j) 0 nz a3) as (a4 & E4 & P4); [lia|rewrite Z.add_0_r; exact P3| |exists a4; split; [exact E4|]; replace ((i * ny + (j + 1)) * nz)%Z with ((i * ny + j) * nz + nz)%Z by ring; exact P4].
    intros k a5 Hk (L5 & P5). rewrite B by assumption.
    assert (Hq : (0 <= (i * ny + j) * nz + k < nx * ny * nz)%Z) by (apply flat_bound; assumption).
    destruct (wr_getr a5 ((i * ny + j) * nz + k) (V i j k)) as (a6 & E6 & L6 & G6); [lia|]. exists a6. split; [exact E6|]. split; [lia|]. intros x Hx0. rewrite G6, P5 by exact Hx0.
    destruct (Z.eqb_spec x ((i * ny + j) * nz + k)) as [->|N].
    + destruct (Z.ltb_spec ((i * ny + j) * nz + k) ((i * ny + j) * nz + (k + 1))); [|lia]. symmetry. apply EW; assumption.
    + destruct (Z.ltb_spec x ((i * ny + j) * nz + k)), (Z.ltb_spec x ((i * ny + j) * nz + (k + 1))); try lia; reflexivity.
  - destruct Pa as (La & Ga). exists a. split; [exact E|]. split; [exact La|]. split.
    + intros i j k Hi Hj Hk. pose proof (flat_bound nx ny nz i j k Hi Hj Hk) as Hq. rewrite Ga by lia. destruct (Z.ltb_spec ((i * ny + j) * nz + k) (nx * ny * nz)); [apply EW; assumption|lia].
    + intros x Hx0. assert (0 < nx * ny * nz)%Z by (apply Z.mul_pos_pos; [apply Z.mul_pos_pos|]; assumption). rewrite Ga by lia. destruct (Z.ltb_spec x (nx * ny * nz)); [lia|reflexivity].
Qed.

Lemma tents_ext nx ny nz r F G : (forall i j k, (0 <= i < nx)%Z -> (0 <= j < ny)%Z -> (0 <= k < nz)%Z -> F i j k = G i j k) -> tents nx ny nz r F = tents nx ny nz r G.
Proof.
  intros H. destruct r as [[x y] z]. unfold tents, weighted, gsum. apply rsum_ext. intros i Hi. apply rsum_ext. intros j Hj. apply rsum_ext. intros k Hk. rewrite H by lia. reflexivity.
Qed.

Lemma read_ok f n0 n1 n2 F : file_holds f n0 n1 n2 F -> read_dataset (Some f) = Val (n0, n1, n2, h_data f).
Proof.
  intros ((k & E) & _). unfold read_dataset, check. assert (L : length (h_dims f) = (3 - k)%nat /\ (k <= 3)%nat).
  { apply (f_equal (@length Z)) in E. rewrite app_length, repeat_length in E. cbn in E. lia. }
  destruct (Z.leb_spec (Z.of_nat (length (h_dims f))) 3); [|lia]. cbn [bind]. destruct (h_dims f) as [|a [|b [|c [|]]]]; cbn [length] in L; cbn [app] in E.
  - destruct L as (L & Lk). assert (k = 3)%nat by lia. subst k. cbn in E. injection E as <- <- <-. reflexivity.
  - destruct L as (L & Lk). assert (k = 2)%nat by lia. subst k. cbn in E. injection E as <- <- <-. reflexivity.
  - destruct L as (L & Lk). assert (k = 1)%nat by lia. subst k. cbn in E. injection E as <- <- <-. reflexivity.
  - destruct L as (L & Lk). assert (k = 0)%nat by lia. subst k. cbn in E. injection E as <- <- <-. reflexivity.
  - exfalso. cbn [length] in L. lia.
Qed.

(** One pass over the grid. *)
Definition point_of (n : Z) (s : R) (i : Z) : R := modf_frac ((IZR i + / 2) * (s / IZR n)).
Lemma point_frac n s i : (0 < n)%Z -> 0 < s -> (0 <= i < n)%Z -> frac_of ((IZR i + / 2) * s / IZR n) (point_of n s i).
Proof.
  intros Hn Hs Hi. unfold point_of. replace ((IZR i + / 2) * s / IZR n) with ((IZR i + / 2) * (s / IZR n)) by (unfold Rdiv; ring). apply modf_ok.
  apply IZR_lt in Hn. destruct Hi as (Hi & _). apply IZR_le in Hi. assert (0 < s / IZR n) by (apply Rdiv_lt_0_compat; lra). nra.
Qed.
Lemma scale_pos c : exists s, (if Rltb 0 c then c else 1) = s /\ periods c s /\ 0 < s.
Proof. destruct (Rltb_spec 0 c); eexists; (split; [reflexivity|]); (split; [unfold periods|]; lra). Qed.
Lemma clip_eq v : (if Rltb 1 v then 1 else if Rltb v 0 then 0 else v) = clip v.
Proof.
  unfold clip. destruct (Rltb_spec 1 v); [rewrite Rmax_right, Rmin_left by lra; reflexivity|]. destruct (Rltb_spec v 0); [rewrite Rmax_left, Rmin_right by lra; reflexivity|]. rewrite Rmax_right, Rmin_right by lra. reflexivity.
Qed.
Lemma load_ok g f n0 n1 n2 F cx cy cz : (0 < gx g -> 0 < gy g -> 0 < gz g -> gx g * gy g * gz g <= Z.of_nat (length (gdata g)))%Z -> (0 < gx g)%Z -> (0 < gy g)%Z -> (0 < gz g)%Z -> file_holds f n0 n1 n2 F ->
  exists sx sy sz g', periods cx sx /\ periods cy sy /\ periods cz sz /\ 0 < sx /\ 0 < sy /\ 0 < sz /\
    load_grid g (Some f) (cx, cy, cz) = Val g' /\ same_sizes g' g /\ length (gdata g') = length (gdata g) /\
    (forall i j k, inside g i j k -> value g' i j k = clip (tents n0 n1 n2 (point_of (gx g) sx i, point_of (gy g) sy j, point_of (gz g) sz k) F)) /\
    (forall x, (gx g * gy g * gz g <= x)%Z -> getr (gdata g') x = getr (gdata g) x).
Proof.
  intros L Hx Hy Hz FH. specialize (L Hx Hy Hz). destruct (scale_pos cx) as (sx & Ex & Px & Sx). destruct (scale_pos cy) as (sy & Ey & Py & Sy). destruct (scale_pos cz) as (sz & Ez & Pz & Sz).
  exists sx, sy, sz. unfold load_grid. rewrite (read_ok f n0 n1 n2 F FH). cbn [bind]. rewrite Ex, Ey, Ez. destruct FH as (_ & GD & HF).
  assert (Nx : IZR (gx g) <> 0) by (apply IZR_lt in Hx; lra). assert (Ny : IZR (gy g) <> 0) by (apply IZR_lt in Hy; lra). assert (Nz : IZR (gz g) <> 0) by (apply IZR_lt in Hz; lra).
  match goal with |- context [forZ 0 (gx g) (fun ix a1 => forZ 0 (gy g) (fun iy a2 => forZ 0 (gz g) (fun iz => @?b ix iy iz) a2) a1) _] => set (body := b) end.
  destruct (fill_ok (gy g) (gz g) (gx g) (gdata g) (fun i j k => clip (tents n0 n1 n2 (point_of (gx g) sx i, point_of (gy g) sy j, point_of (gz g) sz k) F)) body Hx Hy Hz L) as (a & E & La & Va & Oa).
  { intros i j k a Hi Hj Hk. unfold body. rewrite !fdiv_nz by assumption. cbn [bind]. fold (point_of (gx g) sx i) (point_of (gy g) sy j) (point_of (gz g) sz k).
    assert (U : unit_pt (point_of (gx g) sx i, point_of (gy g) sy j, point_of (gz g) sz k)).
    { pose proof (point_frac (gx g) sx i Hx Sx Hi) as (A & _). pose proof (point_frac (gy g) sy j Hy Sy Hj) as (A' & _). pose proof (point_frac (gz g) sz k Hz Sz Hk) as (A'' & _). cbn. lra. }
    rewrite (proj1 (C23_interpolates n0 n1 n2 1 (h_data f) _ _ _ GD U)). cbn [bind]. rewrite clip_eq. do 2 f_equal. apply tents_ext. exact HF. }
  unfold body in E. cbv beta in E. rewrite E. cbn [bind]. eexists. do 6 (split; [assumption|]). split; [reflexivity|]. split; [repeat split|]. split; [exact La|]. split.
  - intros i j k (Hi & Hj & Hk). unfold value, at3. cbn [gx gy gz gdata]. rewrite Z.mul_1_r. apply Va; assumption.
  - exact Oa.
Qed.

(** Points of a tiling. *)
Lemma point_tile n s m i : (0 < m)%Z -> (0 < s)%Z -> n = (s * m)%Z -> (0 <= i < n)%Z -> point_of n (IZR s) i = (IZR (i mod m) + / 2) / IZR m.
Proof.
  intros Hm Hs -> Hi. pose proof (Z.mod_pos_bound i m Hm) as Hr. pose proof (Z.div_mod i m ltac:(lia)) as Q.
  apply (frac_unique ((IZR i + / 2) * IZR s / IZR (s * m))).
  - apply point_frac; [lia|apply (IZR_lt 0); lia|exact Hi].
  - assert (Pm : 0 < IZR m) by (apply (IZR_lt 0); lia). assert (Ps : 0 < IZR s) by (apply (IZR_lt 0); lia). destruct Hr as (R1 & R2). assert (R3 : (i mod m <= m - 1)%Z) by lia. apply IZR_le in R1, R3. rewrite minus_IZR in R3.
    split.
    + split; [apply Rmult_le_pos; [lra|left; apply Rinv_0_lt_compat; exact Pm]|]. apply (Rmult_lt_reg_r (IZR m)); [exact Pm|]. replace ((IZR (i mod m) + / 2) / IZR m * IZR m) with (IZR (i mod m) + / 2) by (field; lra). lra.
    + exists (i / m)%Z. rewrite Q at 1. rewrite plus_IZR, !mult_IZR. field. lra.
Qed.
Lemma tents_centre n0 n1 n2 (f : h5) F i j k : file_holds f n0 n1 n2 F -> (0 <= i < n0)%Z -> (0 <= j < n1)%Z -> (0 <= k < n2)%Z ->
  tents n0 n1 n2 ((IZR i + / 2) / IZR n0, (IZR j + / 2) / IZR n1, (IZR k + / 2) / IZR n2) F = F i j k.
Proof.
  intros (_ & GD & HF) Hi Hj Hk. pose proof (C23_centre n0 n1 n2 1 (h_data f) i j k GD Hi Hj Hk) as Q.
  assert (U : unit_pt ((IZR i + / 2) / IZR n0, (IZR j + / 2) / IZR n1, (IZR k + / 2) / IZR n2)).
  { assert (A : forall n x, (0 <= x < n)%Z -> 0 <= (IZR x + / 2) / IZR n <= 1).
    { intros n x (X1 & X2). assert (X3 : (x <= n - 1)%Z) by lia. assert (Pn : 0 < IZR n) by (apply (IZR_lt 0); lia). apply IZR_le in X1, X3. rewrite minus_IZR in X3. split.
      - apply Rmult_le_pos; [lra|left; apply Rinv_0_lt_compat; exact Pn].
      - apply (Rmult_le_reg_r (IZR n)); [exact Pn|]. replace ((IZR x + / 2) / IZR n * IZR n) with (IZR x + / 2) by (field; lra). lra. }
    cbn. auto. }
  rewrite (proj1 (C23_interpolates n0 n1 n2 1 (h_data f) _ _ _ GD U)) in Q. injection Q as Q. rewrite HF in Q by assumption. rewrite <- Q. exact (tents_ext n0 n1 n2 ((IZR i + / 2) / IZR n0, (IZR j + / 2) / IZR n1, (IZR k + / 2) / IZR n2) F _ (fun a b c A B D => eq_sym (HF a b c A B D))).
Qed.
Lemma clip_id x : 0 <= x <= 1 -> clip x = x.
Proof. intros H. unfold clip. rewrite Rmax_right, Rmin_right by lra. reflexivity. Qed.
Lemma clip_range x : 0 <= clip x <= 1.
Proof. unfold clip. split; [apply Rmin_glb; [lra|apply Rmax_l]|apply Rmin_l]. Qed.

(** Saving. *)
Lemma mapM_rd (a : list R) n : (n <= length a)%nat -> mapM (fun i => rd a i) (zrange (Z.of_nat n)) = Val (firstn n a).
Proof.
  intros H. assert (Q : forall l p, (forall i, In i p -> (0 <= i < Z.of_nat (length l))%Z) -> mapM (fun i => rd l i) p = Val (map (fun i => getr l i) p)).
  { intros l p. induction p as [|x p IH]; intros Hp; cbn [mapM map]; [reflexivity|]. rewrite (rd_getr l x) by (apply Hp; left; reflexivity). cbn [bind]. rewrite IH by (intros i Hi; apply Hp; right; exact Hi). reflexivity. }
  rewrite Q. 
  - f_equal. unfold zrange. rewrite Nat2Z.id. rewrite map_map. apply (nth_ext _ _ 0 0); [rewrite map_length, seq_length, firstn_length; lia|]. intros i Hi. rewrite map_length, seq_length in Hi.
    rewrite (nth_indep _ 0 (getr a (Z.of_nat 0))) by (rewrite map_length, seq_length; exact Hi). rewrite (map_nth (fun i => getr a (Z.of_nat i))), seq_nth by exact Hi. cbn [Nat.add].
    unfold getr, rd. destruct (Z.ltb_spec (Z.of_nat i) 0); [lia|]. rewrite Nat2Z.id. rewrite (nth_error_nth' a 0) by lia.
    rewrite <- (firstn_skipn n a) at 1. rewrite app_nth1 by (rewrite firstn_length; lia). reflexivity.
  - intros i Hi. unfold zrange in Hi. apply in_map_iff in Hi. destruct Hi as (x & <- & Hx). apply in_seq in Hx. lia.
Qed.
Lemma save_ok g : whole_grid g -> exists f, save_grid g = Val f /\ file_holds f (gx g) (gy g) (gz g) (value g) /\ (length (h_dims f) = 1 \/ last (h_dims f) 0%Z <> 1%Z)%nat.
Proof.
  intros (Hx & Hy & Hz & L). unfold save_grid.
  assert (Q : forall dims k, dims ++ repeat 1%Z k = [gx g; gy g; gz g] -> fold_left Z.mul dims 1%Z = (gx g * gy g * gz g)%Z -> (length dims = 1 \/ last dims 0%Z <> 1%Z)%nat ->
    exists f, (let! data := mapM (fun i => rd (gdata g) i) (zrange (fold_left Z.mul dims 1%Z)) in Val {| h_dims := dims; h_data := data |}) = Val f /\ file_holds f (gx g) (gy g) (gz g) (value g) /\ (length (h_dims f) = 1 \/ last (h_dims f) 0%Z <> 1%Z)%nat).
  { intros dims k Ed Ep Hl. rewrite Ep, <- L, mapM_rd by lia. rewrite firstn_all. cbn [bind]. eexists. split; [reflexivity|]. split; [|exact Hl].
    split; [exists k; exact Ed|]. cbn [h_data]. split; [unfold grid_data; lia|]. reflexivity. }
  destruct (Z.eqb_spec (gz g) 1) as [E1|N1]; [destruct (Z.eqb_spec (gy g) 1) as [E2|N2]|].
  - apply (Q _ 2%nat); change (Z.to_nat 1) with 1%nat; cbn [firstn app repeat fold_left length last]; [rewrite E1, E2; reflexivity|rewrite E1, E2; ring|auto].
  - apply (Q _ 1%nat); change (Z.to_nat 2) with 2%nat; cbn [firstn app repeat fold_left length last]; [rewrite E1; reflexivity|rewrite E1; ring|auto].
  - apply (Q _ 0%nat); change (Z.to_nat 3) with 3%nat; cbn [firstn app repeat fold_left length last]; [reflexivity|ring|auto].
Qed.

(** Broadcast. *)
Lemma sync_ok g l : whole_grid g -> Forall (fun h => whole_grid h /\ same_sizes h g) l -> synchronize_material_grid (g :: l) = Val (repeat g (S (length l))).
Proof.
  intros Wg H. unfold synchronize_material_grid. assert (Q : mapM (bcast_grid (gdata g)) l = Val (repeat g (length l))).
  { induction H as [|h l (Wh & S1 & S2 & S3) _ IH]; cbn [mapM repeat length]; [reflexivity|]. destruct Wg as (_ & _ & _ & Lg), Wh as (_ & _ & _ & Lh).
    unfold bcast_grid at 1. rewrite Lg, Lh, S1, S2, S3 in *. rewrite !Z.leb_refl. cbn [andb bind]. rewrite IH. cbn [bind].
    rewrite firstn_all2 by lia. rewrite skipn_all2 by lia. rewrite app_nil_r. destruct g. reflexivity. }
  rewrite Q. reflexivity.
Qed.
