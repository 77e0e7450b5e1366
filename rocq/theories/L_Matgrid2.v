(** Proofs about gradients with respect to material-grid parameters, and about noise. *)
From Coq Require Import List ZArith Reals Lra Lia Bool.
From Verif Require Import Base RC M_Tensor M_Evect M_Grid M_Interp M_Matgrid S_Interp S_Matgrid L_Evect L_Evect3 L_Interp L_Interp2 L_Matgrid.
Import ListNotations.
Local Open Scope R_scope.

(** Inner products. *)
Lemma getr_cons a (l : list R) i : (0 < i)%Z -> getr (a :: l) i = getr l (i - 1).
Proof.
  intros H. unfold getr. rewrite !rd_nth by lia. replace (Z.to_nat i) with (S (Z.to_nat (i - 1))) by lia. reflexivity.
Qed.
Lemma dotl_upd v h i a : (i < length v)%nat -> length h = length v ->
  dotl (upd_nat v i a) h = dotl v h + (a - nth i v 0) * nth i h 0.
Proof.
  revert h i. induction v as [|b v IH]; intros [|c h] i H L; cbn in *; try lia.
  destruct i; cbn; [ring|]. rewrite IH by lia. ring.
Qed.
Lemma getr_nth l i : (0 <= i)%Z -> getr l i = nth (Z.to_nat i) l 0.
Proof.
  intros H. unfold getr. rewrite rd_nth by exact H. destruct (nth_error l (Z.to_nat i)) eqn:E.
  - symmetry. apply nth_error_nth. exact E.
  - symmetry. apply nth_overflow, nth_error_None, E.
Qed.
Lemma add_at_ok v i w : (0 <= i < Z.of_nat (length v))%Z -> exists v', add_at v i w = Val v' /\ length v' = length v /\
  forall h, length h = length v -> dotl v' h = dotl v h + w * getr h i.
Proof.
  intros H. unfold add_at. rewrite (rd_getr v i H). cbn [bind]. rewrite wr_in by exact H. eexists. split; [reflexivity|].
  split; [apply upd_length|]. intros h L. rewrite dotl_upd by lia. rewrite !getr_nth by lia. ring.
Qed.

Lemma idx_stride nx ny nz stride off L x y z : (0 < stride)%Z -> (0 <= off)%Z -> (off + (nx * ny * nz - 1) * stride < L)%Z ->
  (0 <= x < nx)%Z -> (0 <= y < ny)%Z -> (0 <= z < nz)%Z -> (0 <= off + ((x * ny + y) * nz + z) * stride < L)%Z.
Proof.
  intros S O HL Hx Hy Hz. pose proof (idx3 nx ny nz x y z Hx Hy Hz) as I.
  assert ((((x * ny + y) * nz + z) * stride <= (nx * ny * nz - 1) * stride)%Z) by (apply Z.mul_le_mono_nonneg_r; lia).
  assert (0 <= ((x * ny + y) * nz + z) * stride)%Z by (apply Z.mul_nonneg_nonneg; lia). lia.
Qed.

(** Scale factor applied by each rule. *)
Definition rule_factor (k : kind) (u uval : R) : R :=
  match k with U_MIN => if Reqb u uval then 1 else 0 | U_PROD => uval / u | U_SUM => 1 end.

Lemma weights_ok off v nx ny nz stride s ud k uval x y z :
  grid_data nx ny nz stride ud -> mir_pt (x, y, z) -> (0 <= off)%Z -> (off + (nx * ny * nz - 1) * stride < Z.of_nat (length v))%Z ->
  (k = U_PROD -> tents nx ny nz (abs_pt (x, y, z)) (at3 ny nz stride ud) <> 0) ->
  exists v', add_interpolate_weights x y z off v nx ny nz stride s ud k uval = Val v' /\ length v' = length v /\
    forall h, length h = length v -> dotl v' h = dotl v h +
      s * rule_factor k (tents nx ny nz (abs_pt (x, y, z)) (at3 ny nz stride ud)) uval *
      tents nx ny nz (abs_pt (x, y, z)) (fun i j l => getr h (off + ((i * ny + j) * nz + l) * stride)%Z).
Proof.
  intros G M O L NZ. pose proof (linear_interpolate_abs _ _ _ _ _ _ _ _ G M) as LI. pose proof G as (Nx & Ny & Nz & St & _).
  set (u := tents _ _ _ _ _) in *. unfold linear_interpolate in LI. unfold add_interpolate_weights.
  destruct M as (Mx & My & Mz).
  assert (Tx := nearest_ok nx (Rabs x) Nx (conj (Rabs_pos x) (Rabs_le x 1 ltac:(lra)))). rewrite <- nearest_abs in Tx by exact Mx.
  assert (Ty := nearest_ok ny (Rabs y) Ny (conj (Rabs_pos y) (Rabs_le y 1 ltac:(lra)))). rewrite <- nearest_abs in Ty by exact My.
  assert (Tz := nearest_ok nz (Rabs z) Nz (conj (Rabs_pos z) (Rabs_le z 1 ltac:(lra)))). rewrite <- nearest_abs in Tz by exact Mz.
  rewrite LI. cbn [bind]. clear LI.
  destruct (nearest nx x) as [[x1 x2] dx], (nearest ny y) as [[y1 y2] dy], (nearest nz z) as [[z1 z2] dz].
  assert (TH : forall h, tents nx ny nz (abs_pt (x, y, z)) (fun i j l => getr h (off + ((i * ny + j) * nz + l) * stride)%Z) = _)
    by (intros h; pose proof (trilinear_ok nx ny nz (fun i j l => Val (getr h (off + ((i * ny + j) * nz + l) * stride)%Z)) _ _ _ _ _ _ _ Tx Ty Tz (fun _ _ _ _ _ _ => eq_refl)) as T;
        unfold trilinear in T; cbn [bind] in T; injection T as T; symmetry; exact T).
  assert (I : forall x y z, (0 <= x < nx)%Z -> (0 <= y < ny)%Z -> (0 <= z < nz)%Z -> (0 <= off + ((x * ny + y) * nz + z) * stride < Z.of_nat (length v))%Z)
    by (intros; apply (idx_stride nx); assumption).
  destruct Tx as (X1 & X2 & _), Ty as (Y1 & Y2 & _), Tz as (Z1 & Z2 & _).
  set (add := add_weights off v ny nz stride (x1, x2, dx) (y1, y2, dy) (z1, z2, dz)).
  assert (A : forall s, exists v', add s = Val v' /\ length v' = length v /\ forall h, length h = length v -> dotl v' h = dotl v h +
    s * tents nx ny nz (abs_pt (x, y, z)) (fun i j l => getr h (off + ((i * ny + j) * nz + l) * stride)%Z)).
  { intros s'. unfold add, add_weights.
    destruct (add_at_ok v (off + ((x1 * ny + y1) * nz + z1) * stride) ((1 - dx) * (1 - dy) * (1 - dz) * s')) as (v1 & E1 & L1 & D1); [auto|]. rewrite E1. cbn [bind].
    destruct (add_at_ok v1 (off + ((x2 * ny + y1) * nz + z1) * stride) (dx * (1 - dy) * (1 - dz) * s')) as (v2 & E2 & L2 & D2); [rewrite L1; auto|]. rewrite E2. cbn [bind].
    destruct (add_at_ok v2 (off + ((x1 * ny + y2) * nz + z1) * stride) ((1 - dx) * dy * (1 - dz) * s')) as (v3 & E3 & L3 & D3); [rewrite L2, L1; auto|]. rewrite E3. cbn [bind].
    destruct (add_at_ok v3 (off + ((x2 * ny + y2) * nz + z1) * stride) (dx * dy * (1 - dz) * s')) as (v4 & E4 & L4 & D4); [rewrite L3, L2, L1; auto|]. rewrite E4. cbn [bind].
    destruct (add_at_ok v4 (off + ((x1 * ny + y1) * nz + z2) * stride) ((1 - dx) * (1 - dy) * dz * s')) as (v5 & E5 & L5 & D5); [rewrite L4, L3, L2, L1; auto|]. rewrite E5. cbn [bind].
    destruct (add_at_ok v5 (off + ((x2 * ny + y1) * nz + z2) * stride) (dx * (1 - dy) * dz * s')) as (v6 & E6 & L6 & D6); [rewrite L5, L4, L3, L2, L1; auto|]. rewrite E6. cbn [bind].
    destruct (add_at_ok v6 (off + ((x1 * ny + y2) * nz + z2) * stride) ((1 - dx) * dy * dz * s')) as (v7 & E7 & L7 & D7); [rewrite L6, L5, L4, L3, L2, L1; auto|]. rewrite E7. cbn [bind].
    destruct (add_at_ok v7 (off + ((x2 * ny + y2) * nz + z2) * stride) (dx * dy * dz * s')) as (v8 & E8 & L8 & D8); [rewrite L7, L6, L5, L4, L3, L2, L1; auto|].
    exists v8. split; [exact E8|]. split; [congruence|]. intros h Lh.
    rewrite D8, D7, D6, D5, D4, D3, D2, D1 by congruence. rewrite TH. ring. }
  clearbody add. unfold rule_factor. destruct k.
  - destruct (Reqb u uval).
    + destruct (A s) as (v' & E & Lv & D). exists v'. split; [exact E|]. split; [exact Lv|]. intros h Lh. rewrite D by exact Lh. ring.
    + exists v. split; [reflexivity|]. split; [reflexivity|]. intros. ring.
  - rewrite fdiv_nz by (apply NZ; reflexivity). cbn [bind]. destruct (A (s * (uval / u))) as (v' & E & Lv & D). exists v'. split; [exact E|]. split; [exact Lv|]. exact D.
  - destruct (A s) as (v' & E & Lv & D). exists v'. split; [exact E|]. split; [exact Lv|]. intros h Lh. rewrite D by exact Lh. ring.
Qed.

(** Positions of the grids in the parameter vector. *)
Lemma offset_total gs i : Forall grid_ok gs -> grid_offset gs i = Z.of_nat (total (firstn i gs)).
Proof.
  intros H. apply ntot_total. apply Forall_forall. intros g Hg. rewrite Forall_forall in H. apply H.
  rewrite <- (firstn_skipn i gs). apply in_or_app. left. exact Hg.
Qed.
Lemma total_cons g t : total (g :: t) = (Z.to_nat (gx g * gy g * gz g) + total t)%nat.
Proof. reflexivity. Qed.
Lemma total_firstn gs i g : nth_error gs i = Some g -> (total (firstn i gs) + Z.to_nat (gx g * gy g * gz g) <= total gs)%nat.
Proof.
  revert i. induction gs as [|a t IH]; intros [|i] H; try discriminate; cbn [nth_error firstn] in *; rewrite ?total_cons.
  - injection H as ->. change (total []) with O. lia.
  - specialize (IH i H). lia.
Qed.
Lemma skipn_add {A} n m (u : list A) : skipn m (skipn n u) = skipn (n + m) u.
Proof. revert u. induction n; intros u; [reflexivity|]. destruct u; cbn; [rewrite skipn_nil; reflexivity|]. apply IHn. Qed.
Lemma with_params_nth gs u i g : nth_error gs i = Some g -> nth_error (with_params gs u) i =
  Some {| gx := gx g; gy := gy g; gz := gz g; gdata := firstn (Z.to_nat (gx g * gy g * gz g)) (skipn (total (firstn i gs)) u) |}.
Proof.
  revert i u. induction gs as [|a t IH]; intros [|i] u H; try discriminate; cbn [nth_error firstn with_params] in *.
  - injection H as ->. reflexivity.
  - rewrite (IH i _ H), total_cons, skipn_add. reflexivity.
Qed.
Lemma with_params_length gs u : length (with_params gs u) = length gs.
Proof. revert u. induction gs; intros u; cbn; [reflexivity|]. rewrite IHgs. reflexivity. Qed.

Definition entry_at (gs : list mgrid) (h : list R) (e : vec * nat) : R :=
  let g := nth (snd e) gs g0 in
  tents (gx g) (gy g) (gz g) (abs_pt (fst e)) (fun i j l => getr h (grid_offset gs (snd e) + ((i * gy g + j) * gz g + l) * 1)%Z).
Lemma tents_ext nx ny nz p F G : (forall i j k, (0 <= i < nx)%Z -> (0 <= j < ny)%Z -> (0 <= k < nz)%Z -> F i j k = G i j k) -> tents nx ny nz p F = tents nx ny nz p G.
Proof. destruct p as [[x y] z]. intros H. unfold tents. apply weighted_ext, H. Qed.
Lemma tents_lin nx ny nz p F G t : tents nx ny nz p (fun i j k => F i j k + t * G i j k) = tents nx ny nz p F + t * tents nx ny nz p G.
Proof.
  destruct p as [[x y] z]. unfold tents, weighted. rewrite <- gsum_scal, <- gsum_add. apply gsum_ext. intros. ring.
Qed.
Lemma entry_value_at gs u e : Forall grid_ok gs -> length u = total gs -> entry_ok gs e -> entry_value (with_params gs u) e = entry_at gs u e.
Proof.
  intros H L [_ B]. destruct (nth_error gs (snd e)) as [g|] eqn:E; [|apply nth_error_None in E; lia].
  unfold entry_value, entry_at, grid_value. rewrite (nth_error_nth _ _ _ (with_params_nth gs u _ g E)), (nth_error_nth _ _ _ E). cbn [gx gy gz gdata].
  assert (G : grid_ok g) by (rewrite Forall_forall in H; apply H; apply nth_error_In in E; exact E).
  pose proof (size_pos g G). apply tents_ext. intros i j k Hi Hj Hk. pose proof (idx3 _ _ _ i j k Hi Hj Hk).
  unfold at3, getr. rewrite offset_total by exact H. rewrite rd_slice by lia. reflexivity.
Qed.
Lemma getr_addl t u h i : length h = length u -> getr (addl t u h) i = getr u i + t * getr h i.
Proof.
  intros L. destruct (Z.lt_ge_cases i 0).
  - unfold getr, rd. destruct (Z.ltb_spec i 0); [ring|lia].
  - rewrite !getr_nth by lia. generalize (Z.to_nat i). clear H i. revert h L. induction u as [|a u IH]; intros [|b h] L n; try discriminate.
    + destruct n; cbn; ring.
    + destruct n; cbn; [reflexivity|]. apply IH. cbn in L. lia.
Qed.
Lemma addl_length t u h : length h = length u -> length (addl t u h) = length u.
Proof. revert h. induction u; intros [|b h] L; cbn in *; try lia. rewrite IHu; lia. Qed.
Lemma entry_at_lin gs u h t e : length h = length u -> entry_at gs (addl t u h) e = entry_at gs u e + t * entry_at gs h e.
Proof.
  intros L. unfold entry_at. rewrite <- tents_lin. apply tents_ext. intros. apply getr_addl. exact L.
Qed.

Lemma offset_params gs u i : grid_offset (with_params gs u) i = grid_offset gs i.
Proof.
  unfold grid_offset, grids_ntot. generalize 0%Z. revert i u. induction gs as [|g t IH]; intros [|i] u z; cbn; try reflexivity. apply IH.
Qed.
Lemma add_entry_ok gs u k s uval v e : Forall grid_ok gs -> length u = total gs -> length v = total gs -> entry_ok gs e ->
  (k = U_PROD -> entry_at gs u e <> 0) ->
  exists v', add_entry (with_params gs u) k s uval v e = Val v' /\ length v' = length v /\
    forall h, length h = total gs -> dotl v' h = dotl v h + s * rule_factor k (entry_at gs u e) uval * entry_at gs h e.
Proof.
  intros H L Lv EO NZ. pose proof (entry_value_at gs u e H L EO) as EV. rewrite <- EV in NZ |- *.
  destruct EO as [M B]. destruct (nth_error gs (snd e)) as [g|] eqn:E; [|apply nth_error_None in E; lia].
  pose proof (with_params_nth gs u _ g E) as W. unfold add_entry, grid_at. rewrite W. cbn [bind].
  destruct e as [[[x y] z] i]. cbn [fst snd] in *. cbn [gx gy gz gdata].
  unfold entry_value, grid_value in *. cbn [fst snd] in *. rewrite (nth_error_nth _ _ _ W) in *. cbn [gx gy gz gdata] in *.
  assert (G : grid_ok g) by (rewrite Forall_forall in H; apply H; apply nth_error_In in E; exact E).
  pose proof (size_pos g G). pose proof (total_firstn gs i g E). rewrite offset_params, offset_total by exact H.
  assert (GD : grid_data (gx g) (gy g) (gz g) 1 (firstn (Z.to_nat (gx g * gy g * gz g)) (skipn (total (firstn i gs)) u))).
  { destruct G as (A & B' & C). repeat split; try lia. rewrite firstn_length, skipn_length. lia. }
  destruct (weights_ok (Z.of_nat (total (firstn i gs))) v (gx g) (gy g) (gz g) 1 s _ k uval x y z GD M ltac:(lia) ltac:(lia) NZ) as (v' & E' & L' & D).
  exists v'. split; [exact E'|]. split; [exact L'|]. intros h Lh. rewrite D by congruence. unfold entry_at. cbn [fst snd].
  rewrite (nth_error_nth _ _ _ E), offset_total by exact H. reflexivity.
Qed.

Lemma add_entries_ok gs u k s uval es : Forall grid_ok gs -> length u = total gs -> Forall (entry_ok gs) es ->
  (k = U_PROD -> forall e, In e es -> entry_at gs u e <> 0) -> forall v, length v = total gs ->
  exists v', fold_left (fun a e => let! v := a in add_entry (with_params gs u) k s uval v e) es (Val v) = Val v' /\ length v' = length v /\
    forall h, length h = total gs -> dotl v' h = dotl v h + s * fold_right Rplus 0 (map (fun e => rule_factor k (entry_at gs u e) uval * entry_at gs h e) es).
Proof.
  intros H L. induction 1 as [|e es EO Hes IH]; intros NZ v Lv; cbn [fold_left map fold_right].
  - exists v. split; [reflexivity|]. split; [reflexivity|]. intros. ring.
  - cbn [bind]. destruct (add_entry_ok gs u k s uval v e H L Lv EO) as (v1 & E1 & L1 & D1); [intros Q; apply (NZ Q); left; reflexivity|].
    rewrite E1. destruct (IH ltac:(intros Q e' He'; apply (NZ Q); right; exact He') v1 ltac:(congruence)) as (v' & E & L' & D).
    exists v'. split; [exact E|]. split; [congruence|]. intros h Lh. rewrite D, D1 by exact Lh. ring.
Qed.

Lemma grids_at gs u es : Forall grid_ok gs -> (total gs <= length u)%nat -> Forall (entry_ok gs) es -> exists o, mapM (grid_at (with_params gs u)) es = Val o /\
  Forall (fun t => filled (snd t) /\ mir_pt (fst t)) o /\ map (fun t => grid_value (fst t) (snd t)) o = map (entry_value (with_params gs u)) es.
Proof.
  intros H L. pose proof (with_params_filled gs u H L) as WF. induction 1 as [|e es [M B] Hes (o & E & F & Q)]; cbn [mapM].
  - exists []. repeat split; constructor.
  - unfold grid_at at 1. destruct (nth_error (with_params gs u) (snd e)) as [g|] eqn:N; [|apply nth_error_None in N; rewrite with_params_length in N; lia].
    cbn [bind]. rewrite E. cbn [bind]. eexists. split; [reflexivity|]. split.
    + constructor; [|exact F]. cbn. split; [|exact M]. rewrite Forall_forall in WF. apply WF. apply nth_error_In in N. exact N.
    + cbn [map fst snd]. rewrite Q. f_equal. unfold entry_value. rewrite (nth_error_nth _ _ _ N). reflexivity.
Qed.

Lemma mapM_app {X Y} (f : X -> outcome Y) l l' o o' : mapM f l = Val o -> mapM f l' = Val o' -> mapM f (l ++ l') = Val (o ++ o').
Proof.
  revert o. induction l as [|a l IH]; intros o E E'; cbn in *; [injection E as <-; exact E'|].
  destruct (f a); try discriminate. cbn in *. destruct (mapM f l) eqn:El; try discriminate. injection E as <-. rewrite (IH _ eq_refl E'). reflexivity.
Qed.

(** Whole gradient at one point. *)
Lemma addgradient_ok k lo hi gs u over dflt s v : Forall grid_ok gs -> length u = total gs -> length v = total gs ->
  over ++ opt_list dflt <> [] -> Forall (entry_ok gs) (over ++ opt_list dflt) ->
  (k = U_PROD -> forall e, In e (over ++ opt_list dflt) -> entry_at gs u e <> 0) ->
  let us := map (entry_at gs u) (over ++ opt_list dflt) in
  exists v', addgradient_point k lo hi (with_params gs u) over dflt s v = Val v' /\ length v' = length v /\
    forall h, length h = total gs -> dotl v' h = dotl v h + s * (hi - lo) * (match k with U_SUM => / INR (length us) | _ => 1 end) *
      fold_right Rplus 0 (map (fun e => rule_factor k (entry_at gs u e) (combine k us) * entry_at gs h e) (over ++ opt_list dflt)).
Proof.
  intros H L Lv NE EO NZ us. pose proof EO as EO'. apply Forall_app in EO'. destruct EO' as [EO1 EO2].
  destruct (grids_at gs u over H ltac:(lia) EO1) as (o & E1 & F1 & Q1). destruct (grids_at gs u (opt_list dflt) H ltac:(lia) EO2) as (o2 & E2 & F2 & Q2).
  assert (US : map (entry_value (with_params gs u)) (over ++ opt_list dflt) = us).
  { unfold us. apply map_ext_in. intros e He. rewrite Forall_forall in EO. apply entry_value_at; auto. }
  assert (X : exists dd, (match dflt with Some e => let! t := grid_at (with_params gs u) e in Val (Some t) | None => Val None end) = Val dd /\ opt_list dd = o2).
  { destruct dflt as [e|]; cbn in E2.
    - destruct (grid_at (with_params gs u) e) as [t| | |]; try discriminate. cbn in *. injection E2 as <-. exists (Some t). auto.
    - injection E2 as <-. exists None. auto. }
  destruct X as (dd & Ed & Od).
  assert (MV : matgrid_val k o dd = Val (combine k us)).
  { rewrite matgrid_val_ok.
    - rewrite Od, map_app, Q1, Q2, <- map_app, US. reflexivity.
    - rewrite Od. apply Forall_app. auto.
    - rewrite Od. intros C. assert (Z : map (fun t => grid_value (fst t) (snd t)) (o ++ o2) = []) by (rewrite C; reflexivity).
      rewrite map_app, Q1, Q2, <- map_app in Z. destruct (over ++ opt_list dflt); [contradiction|discriminate]. }
  assert (CN : (Z.of_nat (length over) + match dflt with Some _ => 1 | None => 0 end)%Z = Z.of_nat (length us)).
  { unfold us. rewrite map_length, app_length. destruct dflt; cbn; lia. }
  assert (CP : (0 < length us)%nat) by (unfold us; rewrite map_length; destruct (over ++ opt_list dflt); [contradiction|cbn; lia]).
  unfold addgradient_point.
  assert (R : forall A (a b : A), match over, dflt with [], None => a | _, _ => b end = b) by (intros; destruct over; [destruct dflt; [reflexivity|contradiction]|reflexivity]).
  rewrite R. rewrite E1. cbn [bind]. rewrite Ed. cbn [bind]. rewrite MV. cbn [bind]. rewrite CN.
  assert (SC : (match k with U_SUM => fdiv (s * (hi - lo)) (IZR (Z.of_nat (length us))) | _ => Val (s * (hi - lo)) end) =
    Val (s * (hi - lo) * match k with U_SUM => / INR (length us) | _ => 1 end)).
  { destruct k; try (rewrite Rmult_1_r; reflexivity). rewrite fdiv_nz; [rewrite INR_IZR_INZ; reflexivity|]. apply not_0_IZR. lia. }
  rewrite SC. cbn [bind].
  destruct (add_entries_ok gs u k (s * (hi - lo) * match k with U_SUM => / INR (length us) | _ => 1 end) (combine k us) (over ++ opt_list dflt) H L EO NZ v Lv) as (v' & E & L' & D).
  exists v'. split; [|split; [exact L'|exact D]].
  rewrite <- E, fold_left_app. destruct dflt; cbn [opt_list fold_left]; [reflexivity|]. destruct (fold_left _ over _); reflexivity.
Qed.

(** The rules as functions of the perturbation. *)
Lemma eps_of_at k lo hi gs es u : Forall grid_ok gs -> length u = total gs -> Forall (entry_ok gs) es ->
  eps_of k lo hi gs es u = combine k (map (entry_at gs u) es) * (hi - lo) + lo.
Proof.
  intros H L EO. unfold eps_of. do 2 f_equal. f_equal. apply map_ext_in. intros e He. rewrite Forall_forall in EO. apply entry_value_at; auto.
Qed.
Lemma eps_line k lo hi gs es u h t : Forall grid_ok gs -> length u = total gs -> length h = total gs -> Forall (entry_ok gs) es ->
  eps_of k lo hi gs es (addl t u h) = combine k (map (fun e => entry_at gs u e + t * entry_at gs h e) es) * (hi - lo) + lo.
Proof.
  intros H L Lh EO. rewrite eps_of_at; try assumption; [|rewrite addl_length; congruence]. do 3 f_equal. apply map_ext. intros e. apply entry_at_lin. congruence.
Qed.

Lemma local_line f a b del : 0 < del -> (forall t, Rabs t < del -> f t = a + t * b) -> derivable_pt_lim f 0 b.
Proof.
  intros Hd H eps He. exists (mkposreal del Hd). intros t Ht Hl. cbn in Hl. rewrite Rplus_0_l.
  rewrite (H t Hl), (H 0) by (rewrite Rabs_R0; exact Hd). replace ((a + t * b - (a + 0 * b)) / t - b) with 0 by (field; exact Ht). rewrite Rabs_R0. exact He.
Qed.

Lemma sum_line {A} (a b : A -> R) t es : fold_right Rplus 0 (map (fun e => a e + t * b e) es) = fold_right Rplus 0 (map a es) + t * fold_right Rplus 0 (map b es).
Proof. induction es; cbn; [ring|]. rewrite IHes. ring. Qed.
Lemma prod_nz {A} (a : A -> R) es : (forall e, In e es -> a e <> 0) -> fold_right Rmult 1 (map a es) <> 0.
Proof. induction es as [|e es IH]; intros H; cbn; [lra|]. apply Rmult_integral_contrapositive_currified; [apply H; left; reflexivity|]. apply IH. intros. apply H. right. assumption. Qed.
Lemma prod_derive {A} (a b : A -> R) es : (forall e, In e es -> a e <> 0) ->
  derivable_pt_lim (fun t => fold_right Rmult 1 (map (fun e => a e + t * b e) es)) 0
    (fold_right Rplus 0 (map (fun e => fold_right Rmult 1 (map a es) / a e * b e) es)).
Proof.
  induction es as [|e es IH]; intros H; cbn [map fold_right].
  - apply (derivable_pt_lim_const 1).
  - assert (D1 : derivable_pt_lim (fun t => a e + t * b e) 0 (b e)) by (apply (local_line _ (a e) (b e) 1); [lra|reflexivity]).
    specialize (IH (fun e' He' => H e' (or_intror He'))).
    pose proof (derivable_pt_lim_mult _ _ _ _ _ D1 IH) as D. unfold mult_fct in D. cbn beta in D.
    assert (E0 : map (fun e => a e + 0 * b e) es = map a es) by (apply map_ext; intros; ring). rewrite E0 in D.
    match goal with |- derivable_pt_lim _ _ ?l => replace l with (b e * fold_right Rmult 1 (map a es) + (a e + 0 * b e) * fold_right Rplus 0 (map (fun e => fold_right Rmult 1 (map a es) / a e * b e) es)); [exact D|] end.
    assert (Hae := H e (or_introl eq_refl)). f_equal; [field; exact Hae|].
    assert (H' : forall e', In e' es -> a e' <> 0) by (intros; apply H; right; assumption). clear - H'.
    generalize (fold_right Rmult 1 (map a es)). intros P. induction es as [|e' es IH]; cbn; [ring|].
    rewrite <- IH by (intros; apply H'; right; assumption). assert (a e' <> 0) by (apply H'; left; reflexivity). field. assumption.
Qed.

(** Minimum attained by one entry only. *)
Lemma near_zero c d : 0 < c -> exists del, 0 < del /\ forall t, Rabs t < del -> 0 < c + t * d.
Proof.
  intros Hc. exists (c / (Rabs d + 1)). pose proof (Rabs_pos d). split; [apply Rdiv_lt_0_compat; lra|]. intros t Ht.
  assert (Rabs (t * d) < c).
  { rewrite Rabs_mult. apply Rle_lt_trans with (Rabs t * (Rabs d + 1)); [apply Rmult_le_compat_l; [apply Rabs_pos|lra]|].
    apply Rlt_le_trans with (c / (Rabs d + 1) * (Rabs d + 1)); [apply Rmult_lt_compat_r; lra|right; field; lra]. }
  unfold Rabs in *. destruct (Rcase_abs (t * d)); lra.
Qed.
Lemma near_all {A} (c d : A -> R) l : (forall e, In e l -> 0 < c e) -> exists del, 0 < del /\ forall t, Rabs t < del -> forall e, In e l -> 0 < c e + t * d e.
Proof.
  induction l as [|e l IH]; intros H; [exists 1; split; [lra|intros ? ? ? []]|].
  destruct (IH (fun e' He' => H e' (or_intror He'))) as (d1 & P1 & Q1). destruct (near_zero (c e) (d e) (H e (or_introl eq_refl))) as (d2 & P2 & Q2).
  exists (Rmin d1 d2). split; [apply Rmin_glb_lt; assumption|]. intros t Ht e' [<-|He'].
  - apply Q2. eapply Rlt_le_trans; [exact Ht|apply Rmin_r].
  - apply Q1; [|exact He']. eapply Rlt_le_trans; [exact Ht|apply Rmin_l].
Qed.
Lemma min_lower us m : m <= 1 -> (forall a, In a us -> m <= a) -> m <= fold_right Rmin 1 us.
Proof. induction us as [|a l IH]; intros M H; cbn; [exact M|]. apply Rmin_glb; [apply H; left; reflexivity|]. apply IH; [exact M|]. intros; apply H; right; assumption. Qed.
Lemma min_upper us a : In a us -> fold_right Rmin 1 us <= a.
Proof. induction us as [|b l IH]; intros []; cbn; [subst; apply Rmin_l|]. eapply Rle_trans; [apply Rmin_r|auto]. Qed.
Lemma min_is us m : m <= 1 -> (forall a, In a us -> m <= a) -> In m us -> fold_right Rmin 1 us = m.
Proof. intros. apply Rle_antisym; [apply min_upper; assumption|apply min_lower; assumption]. Qed.

(** The three rules. *)
Section Rules.
Context (lo hi : R) (gs : list mgrid) (u v : list R) (over : list (vec * nat)) (dflt : option (vec * nat)) (s : R).
Context (H : Forall grid_ok gs) (L : length u = total gs) (Lv : length v = total gs).
Context (NE : over ++ opt_list dflt <> []) (EO : Forall (entry_ok gs) (over ++ opt_list dflt)).

Lemma grad_sum : exists v', addgradient_point U_SUM lo hi (with_params gs u) over dflt s v = Val v' /\ length v' = length v /\
  forall h t, length h = total gs ->
    t * (dotl v' h - dotl v h) = s * (eps_of U_SUM lo hi gs (over ++ opt_list dflt) (addl t u h) - eps_of U_SUM lo hi gs (over ++ opt_list dflt) u).
Proof.
  destruct (addgradient_ok U_SUM lo hi gs u over dflt s v H L Lv NE EO ltac:(discriminate)) as (v' & E & L' & D).
  exists v'. split; [exact E|]. split; [exact L'|]. intros h t Lh. rewrite (D h Lh). rewrite eps_line, eps_of_at by assumption.
  unfold combine. rewrite sum_line. rewrite !map_length. cbn [rule_factor].
  rewrite (map_ext (fun e => 1 * entry_at gs h e) (entry_at gs h)) by (intros; ring).
  assert (0 < INR (length (over ++ opt_list dflt))) by (apply lt_0_INR; destruct (over ++ opt_list dflt); [contradiction|cbn; lia]). field. lra.
Qed.

Lemma grad_prod : (forall e, In e (over ++ opt_list dflt) -> entry_value (with_params gs u) e <> 0) ->
  exists v', addgradient_point U_PROD lo hi (with_params gs u) over dflt s v = Val v' /\ length v' = length v /\
  forall h, length h = total gs -> exists d, derivable_pt_lim (fun t => eps_of U_PROD lo hi gs (over ++ opt_list dflt) (addl t u h)) 0 d /\
    dotl v' h - dotl v h = s * d.
Proof.
  intros NZ'. assert (NZ : forall e, In e (over ++ opt_list dflt) -> entry_at gs u e <> 0).
  { intros e He. rewrite Forall_forall in EO. rewrite <- entry_value_at by auto. apply NZ'. exact He. }
  destruct (addgradient_ok U_PROD lo hi gs u over dflt s v H L Lv NE EO (fun _ => NZ)) as (v' & E & L' & D).
  exists v'. split; [exact E|]. split; [exact L'|]. intros h Lh.
  pose proof (prod_derive (entry_at gs u) (entry_at gs h) (over ++ opt_list dflt) NZ) as PD.
  set (d := fold_right Rplus 0 _) in PD. exists (d * (hi - lo)). split.
  - intros eps He. destruct (derivable_pt_lim_scal _ (hi - lo) _ _ PD eps He) as [del Q]. exists del. intros t Ht Hl. specialize (Q t Ht Hl).
    rewrite !eps_line by assumption. unfold combine. unfold mult_real_fct in Q.
    match type of Q with Rabs ?a < _ => match goal with |- Rabs ?b < _ => replace b with a; [exact Q|] end end. field. exact Ht.
  - rewrite (D h Lh). unfold d. cbn [rule_factor combine]. ring.
Qed.

Lemma grad_min l1 e l2 : over ++ opt_list dflt = l1 ++ e :: l2 -> entry_value (with_params gs u) e < 1 ->
  (forall f, In f (l1 ++ l2) -> entry_value (with_params gs u) e < entry_value (with_params gs u) f) ->
  exists v', addgradient_point U_MIN lo hi (with_params gs u) over dflt s v = Val v' /\ length v' = length v /\
  forall h, length h = total gs -> exists d, derivable_pt_lim (fun t => eps_of U_MIN lo hi gs (over ++ opt_list dflt) (addl t u h)) 0 d /\
    dotl v' h - dotl v h = s * d.
Proof.
  intros SP E1' LT'. assert (EV : forall f, In f (over ++ opt_list dflt) -> entry_value (with_params gs u) f = entry_at gs u f).
  { intros f Hf. rewrite Forall_forall in EO. apply entry_value_at; auto. }
  assert (E1 : entry_at gs u e < 1). { rewrite <- EV; [exact E1'|]. rewrite SP. apply in_or_app. right. left. reflexivity. }
  assert (LT : forall f, In f (l1 ++ l2) -> entry_at gs u e < entry_at gs u f).
  { intros f Hf. rewrite <- !EV; [apply LT'; exact Hf| |]; rewrite SP; apply in_or_app; [|right; left; reflexivity].
    apply in_app_or in Hf. destruct Hf; [left|right; right]; assumption. }
  destruct (addgradient_ok U_MIN lo hi gs u over dflt s v H L Lv NE EO ltac:(discriminate)) as (v' & E & L' & D).
  exists v'. split; [exact E|]. split; [exact L'|]. intros h Lh. exists (entry_at gs h e * (hi - lo)).
  assert (MIN : forall b, b e < 1 -> (forall f, In f (l1 ++ l2) -> b e < b f) -> combine U_MIN (map b (over ++ opt_list dflt)) = b e).
  { intros b B1 BL. unfold combine. rewrite SP. apply min_is; [lra| |].
    - intros a Ha. apply in_map_iff in Ha. destruct Ha as (f & <- & Hf). apply in_app_or in Hf. destruct Hf as [Hf|[<-|Hf]]; [|lra|];
        (left; apply BL; apply in_or_app; auto).
    - apply in_map, in_or_app. right. left. reflexivity. }
  split.
  - destruct (near_zero (1 - entry_at gs u e) (- entry_at gs h e) ltac:(lra)) as (d1 & P1 & Q1).
    destruct (near_all (fun f => entry_at gs u f - entry_at gs u e) (fun f => entry_at gs h f - entry_at gs h e) (l1 ++ l2)) as (d2 & P2 & Q2).
    { intros f Hf. specialize (LT f Hf). lra. }
    apply (local_line _ (entry_at gs u e * (hi - lo) + lo) _ (Rmin d1 d2)); [apply Rmin_glb_lt; assumption|].
    intros t Ht. rewrite eps_line by assumption. rewrite (MIN (fun e => entry_at gs u e + t * entry_at gs h e)); [ring| |].
    + specialize (Q1 t (Rlt_le_trans _ _ _ Ht (Rmin_l _ _))). lra.
    + intros f Hf. specialize (Q2 t (Rlt_le_trans _ _ _ Ht (Rmin_r _ _)) f Hf). cbn beta in Q2. lra.
  - rewrite (D h Lh). rewrite (MIN _ E1 LT), SP, map_app, fold_right_app. cbn [map fold_right rule_factor].
    destruct (Reqb_spec (entry_at gs u e) (entry_at gs u e)); [|contradiction].
    assert (Z : forall l c, (forall f, In f l -> entry_at gs u e < entry_at gs u f) ->
      fold_right Rplus c (map (fun f => (if Reqb (entry_at gs u f) (entry_at gs u e) then 1 else 0) * entry_at gs h f) l) = c).
    { clear. induction l as [|f l IH]; intros c Q; cbn; [reflexivity|]. rewrite IH by (intros; apply Q; right; assumption).
      specialize (Q f (or_introl eq_refl)). destruct (Reqb_spec (entry_at gs u f) (entry_at gs u e)); [lra|ring]. }
    rewrite !Z by (intros; apply LT; apply in_or_app; auto). ring.
Qed.
End Rules.

(** Noise. *)
Lemma rand_ok n : forall u, 0 <= u < INR n + 1 -> exists v m, rand_loop n u = Some v /\ 0 <= v <= 1 /\ u = v + IZR m.
Proof.
  induction n as [|n IH]; intros u H; cbn [rand_loop].
  - cbn in H. destruct (Rltb_spec u 0); [lra|]. destruct (Rltb_spec 1 u); [lra|]. exists u, 0%Z. cbn. repeat split; try lra.
  - rewrite S_INR in H. destruct (Rltb_spec u 0); [lra|]. destruct (Rltb_spec 1 u); cbn [orb].
    + destruct (Rltb_spec (1 - u) 0); [|lra]. destruct (IH (- (1 - u)) ltac:(lra)) as (v & m & E & B & Q). exists v, (m + 1)%Z. rewrite plus_IZR. repeat split; try lra; try exact E.
    + exists u, 0%Z. repeat split; lra.
Qed.
Lemma rand_more f u v : rand_loop f u = Some v -> forall f', (f <= f')%nat -> rand_loop f' u = Some v.
Proof.
  revert u. induction f as [|f IH]; intros u E f' Hf.
  - cbn in E. destruct f'; cbn; destruct (_ || _); congruence.
  - destruct f' as [|f']; [lia|]. cbn in *. destruct (_ || _); [|exact E]. apply IH; [exact E|lia].
Qed.
Lemma rand_total u : exists f v m, rand_loop f u = Some v /\ 0 <= v <= 1 /\ Rabs u = v + IZR m.
Proof.
  destruct (rtrunc_nonneg (Rabs u) (Rabs_pos u)) as [B B0].
  assert (Q : Rabs u < INR (Z.to_nat (rtrunc (Rabs u))) + 1) by (rewrite INR_IZR_INZ, Z2Nat.id by exact B0; lra).
  destruct (rand_ok (Z.to_nat (rtrunc (Rabs u))) (Rabs u) (conj (Rabs_pos u) Q)) as (v & m & E & BB & QQ).
  destruct (Rle_lt_dec 0 u) as [H|H].
  - rewrite Rabs_right in * by lra. eauto 6.
  - rewrite Rabs_left in * by exact H. exists (S (Z.to_nat (rtrunc (- u)))), v, m. split; [|split; assumption].
    cbn [rand_loop]. destruct (Rltb_spec u 0); [|lra]. destruct (Rltb_spec 1 u); [lra|]. cbn [orb]. destruct (Rltb_spec u 0); [exact E|lra].
Qed.

(** The default material's grid. *)
Lemma tent_far n i t : (2 * i > n)%Z -> 0 <= t <= IZR n / 2 -> (0 < n)%Z -> tent n i t = 0.
Proof.
  intros Hi Ht Hn. unfold tent, clamp. assert (N : 1 <= IZR n) by (apply (IZR_le 1); lia).
  assert (I : IZR n + 1 <= 2 * IZR i) by (rewrite <- (mult_IZR 2), <- plus_IZR; apply IZR_le; lia).
  assert (C : Rmin (Rmax t (/ 2)) (IZR n - / 2) <= IZR n / 2).
  { eapply Rle_trans; [apply Rmin_l|]. apply Rmax_lub; lra. }
  rewrite Rabs_left1 by lra. rewrite Rmax_left by lra. reflexivity.
Qed.
Lemma default_half g g' p : filled g -> filled g' -> gx g = gx g' -> gy g = gy g' -> gz g = gz g' ->
  (let '(x, y, z) := p in -1 / 2 <= x <= 1 / 2 /\ -1 / 2 <= y <= 1 / 2 /\ -1 / 2 <= z <= 1 / 2) ->
  (forall i j k, (0 <= i)%Z -> (0 <= j)%Z -> (0 <= k)%Z -> (2 * i <= gx g)%Z -> (2 * j <= gy g)%Z -> (2 * k <= gz g)%Z ->
    at3 (gy g) (gz g) 1 (gdata g) i j k = at3 (gy g) (gz g) 1 (gdata g') i j k) ->
  material_grid_val p g = material_grid_val p g'.
Proof.
  destruct p as [[x y] z]. intros F F' X Y Z (Hx & Hy & Hz) H.
  rewrite !material_grid_val_ok by (try assumption; cbn; lra). f_equal. unfold grid_value. rewrite <- X, <- Y, <- Z.
  destruct F as [(A & B & C) _]. unfold tents, abs_pt, weighted. apply gsum_ext. intros i j k Hi Hj Hk.
  assert (R : forall n r, (0 < n)%Z -> -1 / 2 <= r <= 1 / 2 -> 0 <= Rabs r * IZR n <= IZR n / 2).
  { intros n r Hn Hr. assert (0 <= IZR n) by (apply (IZR_le 0); lia). assert (0 <= Rabs r <= 1 / 2) by (split; [apply Rabs_pos|apply Rabs_le; lra]).
    split; [apply Rmult_le_pos; lra|]. replace (IZR n / 2) with (1 / 2 * IZR n) by lra. apply Rmult_le_compat_r; lra. }
  destruct (Z.le_gt_cases (2 * i) (gx g)); [|rewrite (tent_far (gx g)) by (auto; lia); ring].
  destruct (Z.le_gt_cases (2 * j) (gy g)); [|rewrite (tent_far (gy g)) by (auto; lia); ring].
  destruct (Z.le_gt_cases (2 * k) (gz g)); [|rewrite (tent_far (gz g)) by (auto; lia); ring].
  rewrite H by lia. reflexivity.
Qed.
