(** Properties C37, C38, C39, C51, C61: material grids. *)
From Coq Require Import List ZArith Reals Lra Lia Bool.
From Verif Require Import Base RC M_Tensor M_Evect M_Grid M_Interp M_Matgrid S_Interp S_Matgrid L_Interp L_Interp2 L_Matgrid L_Matgrid2.
Import ListNotations.
Local Open Scope R_scope.

(* ------------------------------------------------------------------ *)
(** * C37 *)

(** The number of parameters is the sum of the grid sizes. *)
Theorem C37_count : forall gs, Forall grid_ok gs -> grids_ntot gs = Z.of_nat (total gs).
Proof. exact ntot_total. Qed.
Print Assumptions C37_count.

(** Writing a vector and reading gives that vector. *)
Theorem C37_set_get : forall gs u w, Forall filled gs -> length u = total gs -> length w = total gs ->
  exists gs', grids_set u gs = Val gs' /\ grids_get w gs' = Val u.
Proof.
  intros gs u w H L Lw. exists (with_params gs u). split; [apply grids_set_ok; [exact H|lia]|].
  assert (G : Forall grid_ok gs) by (eapply Forall_impl; [|exact H]; intros g [Hg _]; exact Hg).
  rewrite grids_get_ok by (try (apply with_params_filled; [exact G|lia]); rewrite with_params_total; lia).
  rewrite with_params_concat by exact L. rewrite with_params_total, skipn_all2 by lia. rewrite app_nil_r. reflexivity.
Qed.
Print Assumptions C37_set_get.

(** Reading the parameters and writing them back changes nothing. *)
Theorem C37_get_set : forall gs w, Forall filled gs -> length w = total gs ->
  exists u, grids_get w gs = Val u /\ length u = total gs /\ grids_set u gs = Val gs.
Proof.
  intros gs w H L. eexists. split; [apply grids_get_ok; [exact H|lia]|]. rewrite skipn_all2 by lia. rewrite app_nil_r.
  assert (N : length (concat (map gdata gs)) = total gs).
  { clear L. induction H as [|g t [_ Lg] Ht IH]; [reflexivity|]. cbn [map concat]. rewrite app_length, IH, Lg. reflexivity. }
  split; [exact N|]. rewrite grids_set_ok by (try exact H; lia). rewrite with_params_own by exact H. reflexivity.
Qed.
Print Assumptions C37_get_set.

(** Writing puts the parameters of each grid one after the other, in order, and keeps the sizes. *)
Theorem C37_set : forall gs u, Forall filled gs -> (total gs <= length u)%nat -> grids_set u gs = Val (with_params gs u).
Proof. exact grids_set_ok. Qed.
Print Assumptions C37_set.

Example C37_example : let gs := [ {| gx := 2; gy := 1; gz := 1; gdata := [0; 0] |}; {| gx := 1; gy := 1; gz := 1; gdata := [0] |} ] in
  Forall filled gs /\ grids_set [1; 2; 3] gs = Val [ {| gx := 2; gy := 1; gz := 1; gdata := [1; 2] |}; {| gx := 1; gy := 1; gz := 1; gdata := [3] |} ].
Proof. cbv zeta. split; [repeat constructor|reflexivity]. Qed.

(* ------------------------------------------------------------------ *)
(** * C38 *)

(** The value of overlapping grids is the minimum (with 1), product or mean of their
    interpolated values. *)
Theorem C38_value : forall k over dflt, Forall (fun t => filled (snd t) /\ mir_pt (fst t)) (over ++ opt_list dflt) -> over ++ opt_list dflt <> [] ->
  matgrid_val k over dflt = Val (combine k (map (fun t => grid_value (fst t) (snd t)) (over ++ opt_list dflt))).
Proof. exact matgrid_val_ok. Qed.
Print Assumptions C38_value.

(** Parameters in [0,1] give a value in [0,1] and a dielectric constant between the ends. *)
Theorem C38_range : forall k over dflt eps_min eps_max,
  Forall (fun t => filled (snd t) /\ mir_pt (fst t)) (over ++ opt_list dflt) -> over ++ opt_list dflt <> [] ->
  (forall t a, In t (over ++ opt_list dflt) -> In a (gdata (snd t)) -> 0 <= a <= 1) -> eps_min <= eps_max ->
  exists v, matgrid_val k over dflt = Val v /\ 0 <= v <= 1 /\ eps_min <= matgrid_epsilon v eps_min eps_max <= eps_max.
Proof.
  intros k over dflt lo hi H N P E. eexists. split; [apply matgrid_val_ok; assumption|].
  match goal with |- 0 <= ?v <= 1 /\ _ => assert (R : 0 <= v <= 1) end.
  { apply combine_range; [destruct (over ++ opt_list dflt); [contradiction|discriminate]|].
    intros a Ha. apply in_map_iff in Ha. destruct Ha as (t & <- & Ht). rewrite Forall_forall in H. destruct (H t Ht) as [F M].
    apply grid_value_bounds; [exact F|exact M|]. intros a Ha. exact (P t a Ht Ha). }
  split; [exact R|]. apply epsilon_between; assumption.
Qed.
Print Assumptions C38_range.

Example C38_example : let g := {| gx := 2; gy := 1; gz := 1; gdata := [0; 1] |} in
  Forall (fun t => filled (snd t) /\ mir_pt (fst t)) ([((5 / 8, / 2, / 2), g)] ++ opt_list (Some ((-1 / 4, 0, 0), g))).
Proof. cbv zeta. repeat constructor; cbn; lra. Qed.

(* ------------------------------------------------------------------ *)
(** * C39 *)

(** One grid: the increments added to the gradient, contracted with any perturbation h of
    the parameters, are scale times the interpolated perturbation, that is scale times the
    change of the interpolated value; nothing outside the grid's part is touched. *)
Theorem C39_weights : forall off v nx ny nz stride s ud uval x y z,
  grid_data nx ny nz stride ud -> mir_pt (x, y, z) -> (0 <= off)%Z -> (off + (nx * ny * nz - 1) * stride < Z.of_nat (length v))%Z ->
  exists v', add_interpolate_weights x y z off v nx ny nz stride s ud U_SUM uval = Val v' /\ length v' = length v /\
    forall h, length h = length v -> dotl v' h - dotl v h =
      s * tents nx ny nz (abs_pt (x, y, z)) (fun i j l => getr h (off + ((i * ny + j) * nz + l) * stride)%Z).
Proof.
  intros off v nx ny nz stride s ud uval x y z G M O L.
  destruct (weights_ok off v nx ny nz stride s ud U_SUM uval x y z G M O L ltac:(discriminate)) as (v' & E & L' & D).
  exists v'. split; [exact E|]. split; [exact L'|]. intros h Lh. rewrite (D h Lh). cbn [rule_factor]. ring.
Qed.
Print Assumptions C39_weights.

(** Overlapping grids, mean rule: for every perturbation, not only small ones, the gradient
    gives the exact change of the dielectric constant. *)
Theorem C39_mean : forall lo hi gs u v over dflt s, Forall grid_ok gs -> length u = total gs -> length v = total gs ->
  over ++ opt_list dflt <> [] -> Forall (entry_ok gs) (over ++ opt_list dflt) ->
  exists v', addgradient_point U_SUM lo hi (with_params gs u) over dflt s v = Val v' /\ length v' = length v /\
  forall h t, length h = total gs ->
    t * (dotl v' h - dotl v h) = s * (eps_of U_SUM lo hi gs (over ++ opt_list dflt) (addl t u h) - eps_of U_SUM lo hi gs (over ++ opt_list dflt) u).
Proof. exact grad_sum. Qed.
Print Assumptions C39_mean.

(** Product rule: the derivative in every direction, when no grid value is zero there. *)
Theorem C39_product_partial : forall lo hi gs u v over dflt s, Forall grid_ok gs -> length u = total gs -> length v = total gs ->
  over ++ opt_list dflt <> [] -> Forall (entry_ok gs) (over ++ opt_list dflt) ->
  (forall e, In e (over ++ opt_list dflt) -> entry_value (with_params gs u) e <> 0) ->
  exists v', addgradient_point U_PROD lo hi (with_params gs u) over dflt s v = Val v' /\ length v' = length v /\
  forall h, length h = total gs -> exists d, derivable_pt_lim (fun t => eps_of U_PROD lo hi gs (over ++ opt_list dflt) (addl t u h)) 0 d /\
    dotl v' h - dotl v h = s * d.
Proof. exact grad_prod. Qed.
Print Assumptions C39_product_partial.

(** Where a grid value is zero the derivative exists but the code divides zero by zero. *)
Theorem C39_product_zero_refuted : exists gs u over v, Forall grid_ok gs /\ length u = total gs /\ length v = total gs /\ Forall (entry_ok gs) over /\
  (forall h, length h = total gs -> exists d, derivable_pt_lim (fun t => eps_of U_PROD 1 2 gs over (addl t u h)) 0 d) /\
  addgradient_point U_PROD 1 2 (with_params gs u) over None 1 v = NonFin.
Proof.
  set (g := {| gx := 1; gy := 1; gz := 1; gdata := [0] |}). assert (G : Forall grid_ok [g]) by (constructor; [unfold grid_ok; cbn; lia|constructor]).
  assert (EO : Forall (entry_ok [g]) [((/ 2, / 2, / 2), O)]) by (constructor; [split; cbn; [lra|lia]|constructor]).
  exists [g], [0], [((/ 2, / 2, / 2), O)], [0].
  split; [exact G|]. split; [reflexivity|]. split; [reflexivity|]. split; [exact EO|]. split.
  - intros h Lh. eexists. apply (local_line _ 1 (entry_at [g] h ((/ 2, / 2, / 2), O)) 1); [lra|]. intros t _.
    rewrite eps_line by (try exact G; try exact EO; try exact Lh; reflexivity). cbn [map combine fold_right].
    replace (entry_at [g] [0] ((/ 2, / 2, / 2), O)) with 0; [ring|].
    unfold entry_at, tents, abs_pt, weighted, gsum. cbn. change (Pos.to_nat 1) with 1%nat. cbn. unfold getr. cbn. ring.
  - unfold addgradient_point. cbn [mapM grid_at nth_error with_params snd fst bind].
    assert (F : filled {| gx := gx g; gy := gy g; gz := gz g; gdata := firstn (Z.to_nat (gx g * gy g * gz g)) [0] |}).
    { split; [unfold grid_ok; cbn; lia|reflexivity]. }
    assert (M : mir_pt (/ 2, / 2, / 2)) by (cbn; lra).
    rewrite matgrid_val_ok by (first [discriminate | cbn [app opt_list]; constructor; [split; [exact F|exact M]|constructor]]).
    cbn [bind fold_left add_entry grid_at nth_error with_params snd fst].
    pose proof (linear_interpolate_abs _ _ _ _ _ (/ 2) (/ 2) (/ 2) (filled_data _ F) M) as LI. unfold linear_interpolate in LI.
    unfold add_interpolate_weights. cbn [gx gy gz gdata] in *. rewrite LI. cbn [bind].
    match goal with |- context [fdiv _ ?u] => assert (Z : u = 0) end.
    { unfold tents, abs_pt, weighted, gsum, at3, getr. cbn. change (Pos.to_nat 1) with 1%nat. cbn. ring. }
    rewrite Z. unfold fdiv. destruct (Req_EM_T 0 0); [reflexivity|contradiction].
Qed.
Print Assumptions C39_product_zero_refuted.

(** Minimum rule: the derivative in every direction, where exactly one grid is smallest (the
    minimum is not differentiable elsewhere). *)
Theorem C39_minimum : forall lo hi gs u v over dflt s, Forall grid_ok gs -> length u = total gs -> length v = total gs ->
  over ++ opt_list dflt <> [] -> Forall (entry_ok gs) (over ++ opt_list dflt) ->
  forall l1 e l2, over ++ opt_list dflt = l1 ++ e :: l2 -> entry_value (with_params gs u) e < 1 ->
  (forall f, In f (l1 ++ l2) -> entry_value (with_params gs u) e < entry_value (with_params gs u) f) ->
  exists v', addgradient_point U_MIN lo hi (with_params gs u) over dflt s v = Val v' /\ length v' = length v /\
  forall h, length h = total gs -> exists d, derivable_pt_lim (fun t => eps_of U_MIN lo hi gs (over ++ opt_list dflt) (addl t u h)) 0 d /\
    dotl v' h - dotl v h = s * d.
Proof. exact grad_min. Qed.
Print Assumptions C39_minimum.

(** Two grids overlapping, the second also the default material's. *)
Example C39_example : let gs := [ {| gx := 2; gy := 1; gz := 1; gdata := [] |}; {| gx := 1; gy := 1; gz := 3; gdata := [] |} ] in
  Forall grid_ok gs /\ total gs = 5%nat /\ Forall (entry_ok gs) ([((5 / 8, / 2, 1), O); ((/ 3, / 2, 1), 1%nat)] ++ opt_list (Some ((-1 / 4, 0, / 2), 1%nat))).
Proof.
  cbv zeta. split; [repeat constructor; unfold grid_ok; cbn; lia|]. split; [reflexivity|].
  cbn [app opt_list]. repeat (apply Forall_cons || apply Forall_nil); (split; cbn; [lra|lia]).
Qed.

(* ------------------------------------------------------------------ *)
(** * C51 *)

(** For every starting value the loop ends, in [0,1]. *)
Theorem C51_range : forall u, exists f v, rand_loop f u = Some v /\ 0 <= v <= 1 /\ forall f', (f <= f')%nat -> rand_loop f' u = Some v.
Proof.
  intros u. destruct (rand_total u) as (f & v & m & E & B & _). exists f, v. split; [exact E|]. split; [exact B|]. apply rand_more. exact E.
Qed.
Print Assumptions C51_range.

(** What it computes: the absolute value less an integer. *)
Theorem C51_wraps : forall u f v, rand_loop f u = Some v -> exists m : Z, Rabs u = v + IZR m.
Proof.
  intros u f v E. destruct (rand_total u) as (f' & v' & m & E' & _ & Q). exists m. rewrite Q. f_equal.
  pose proof (rand_more _ _ _ E (max f f') (Nat.le_max_l _ _)). pose proof (rand_more _ _ _ E' (max f f') (Nat.le_max_r _ _)). congruence.
Qed.
Print Assumptions C51_wraps.

(** Hence above 1 it does not reflect, as its comment says: 2 - u is expected for u in (1,2). *)
Theorem C51_reflection_refuted : forall u, 1 < u < 2 -> u <> 3 / 2 -> exists v, rand_loop 1 u = Some v /\ v <> 2 - u.
Proof.
  intros u H N. exists (u - 1). split; [|lra]. cbn. destruct (Rltb_spec u 0); [lra|]. destruct (Rltb_spec 1 u); [|lra]. cbn.
  destruct (Rltb_spec (1 - u) 0); [|lra]. destruct (Rltb_spec (- (1 - u)) 0); [lra|]. destruct (Rltb_spec 1 (- (1 - u))); [lra|]. cbn. f_equal. lra.
Qed.
Print Assumptions C51_reflection_refuted.

(** Below 0, down to -1, it reflects. *)
Theorem C51_reflects_below_partial : forall u, -1 <= u < 0 -> rand_loop 1 u = Some (- u).
Proof.
  intros u H. cbn. destruct (Rltb_spec u 0); [|lra]. destruct (Rltb_spec 1 u); [lra|]. cbn.
  destruct (Rltb_spec u 0); [|lra]. destruct (Rltb_spec (- u) 0); [lra|]. destruct (Rltb_spec 1 (- u)); [lra|]. reflexivity.
Qed.
Print Assumptions C51_reflects_below_partial.

Example C51_example : rand_loop 1 (5 / 4) = Some (1 / 4).
Proof.
  cbn. destruct (Rltb_spec (5 / 4) 0); [lra|]. destruct (Rltb_spec 1 (5 / 4)); [|lra]. cbn.
  destruct (Rltb_spec (1 - 5 / 4) 0); [|lra]. destruct (Rltb_spec (- (1 - 5 / 4)) 0); [lra|]. destruct (Rltb_spec 1 (- (1 - 5 / 4))); [lra|]. cbn. f_equal. lra.
Qed.

(* ------------------------------------------------------------------ *)
(** * C61 *)

(** The grid of the default material is read at p/size, which runs over [-1/2,1/2] in the
    cell, not over [0,1]: parameters beyond the middle of any direction have no effect at
    any point of the cell. *)
Theorem C61_default_grid_refuted : forall g g' px py pz sx sy sz,
  filled g -> filled g' -> gx g = gx g' -> gy g = gy g' -> gz g = gz g' -> 0 < sx -> 0 < sy -> 0 < sz ->
  - sx / 2 <= px <= sx / 2 -> - sy / 2 <= py <= sy / 2 -> - sz / 2 <= pz <= sz / 2 ->
  (forall i j k, (0 <= i)%Z -> (0 <= j)%Z -> (0 <= k)%Z -> (2 * i <= gx g)%Z -> (2 * j <= gy g)%Z -> (2 * k <= gz g)%Z ->
    at3 (gy g) (gz g) 1 (gdata g) i j k = at3 (gy g) (gz g) 1 (gdata g') i j k) ->
  exists cx cy cz, default_coord false px sx = Val cx /\ default_coord false py sy = Val cy /\ default_coord false pz sz = Val cz /\
  material_grid_val (cx, cy, cz) g = material_grid_val (cx, cy, cz) g'.
Proof.
  intros g g' px py pz sx sy sz F F' X Y Z Sx Sy Sz Hx Hy Hz H. exists (px / sx), (py / sy), (pz / sz).
  unfold default_coord. rewrite !fdiv_nz by lra. split; [reflexivity|]. split; [reflexivity|]. split; [reflexivity|].
  assert (Q : forall p s, 0 < s -> - s / 2 <= p <= s / 2 -> -1 / 2 <= p / s <= 1 / 2).
  { clear. intros p s Hs Hp. split; apply (Rmult_le_reg_r s); try exact Hs; unfold Rdiv; rewrite Rmult_assoc with (r1 := p), Rinv_l by lra; lra. }
  apply default_half; auto.
Qed.
Print Assumptions C61_default_grid_refuted.

(** Two grids of three parameters that differ in the last one. *)
Example C61_example : let g a := {| gx := 3; gy := 1; gz := 1; gdata := [0; 1; a] |} in
  filled (g 0) /\ filled (g 1) /\ (forall i j k, (0 <= i)%Z -> (0 <= j)%Z -> (0 <= k)%Z -> (2 * i <= 3)%Z -> (2 * j <= 1)%Z -> (2 * k <= 1)%Z ->
    at3 1 1 1 (gdata (g 0)) i j k = at3 1 1 1 (gdata (g 1)) i j k).
Proof.
  cbv zeta. split; [split; [unfold grid_ok; cbn; lia|reflexivity]|]. split; [split; [unfold grid_ok; cbn; lia|reflexivity]|].
  intros i j k Hi Hj Hk Hi2 Hj2 Hk2. assert (j = 0%Z) by lia. assert (k = 0%Z) by lia. subst.
  assert (i = 0%Z \/ i = 1%Z) as [-> | ->] by lia; reflexivity.
Qed.
