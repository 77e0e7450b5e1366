(** Properties C87, C88 and C89: which material is where, the average over a pixel, and the components written out. *)
From Coq Require Import List ZArith Reals Bool Lia Lra.
From Verif Require Import Base RC M_Tensor S_Tensor L_Tensor L_Tensor2 M_Med S_Med L_Med1 L_Med2 L_Med3 L_Med4.
Import ListNotations.
Local Open Scope R_scope.

(* ------------------------------------------------------------------ C87 *)

(** The last object in the list that contains the point decides: its material, after any number of calls of
    material functions, gives the tensor, together with its inverse. *)
Theorem C87_object : forall e objs contains (herm mu : bool) fuel r i m k m' T,
  let p := q_shift e (unit_pos e r) in
  searches e objs contains ->
  topmost (length objs) contains p i -> nth_error objs i = Some m -> m <> Nothing ->
  leads e p k m m' -> (k <= fuel)%nat -> tensor_is mu m' T -> PD T -> herm = true \/ real_tensor T ->
  exists Ti, medium_func herm mu e fuel r = Some (Val (T, Ti)) /\ is_inverse T Ti.
Proof. intros e objs contains herm mu fuel r i m k m' T p Hs. exact (func_object e objs contains Hs herm mu fuel r i m k m' T). Qed.
Print Assumptions C87_object.

(** A material grid there gives a value between its two ends. *)
Theorem C87_grid : forall e objs contains (herm mu : bool) fuel r i g,
  let p := q_shift e (unit_pos e r) in
  searches e objs contains ->
  topmost (length objs) contains p i -> nth_error objs i = Some (Grid g) ->
  let lo := if mu then g_mmin g else g_emin g in let hi := if mu then g_mmax g else g_emax g in
  0 < lo <= hi -> exists o, q_find e p = Some o /\ (0 <= q_grid e p (Some o) g <= 1 ->
    let v := lo + q_grid e p (Some o) g * (hi - lo) in
    lo <= v <= hi /\ medium_func herm mu e fuel r = Some (Val (iso v, iso (/ v)))).
Proof. intros e objs contains herm mu fuel r i g p Hs. exact (func_grid e objs contains Hs herm mu fuel r i g). Qed.
Print Assumptions C87_grid.

(** In the background, which is where there is no object or one made of nothing, the default material decides. *)
Theorem C87_background : forall e objs contains (herm mu : bool) fuel r k m' T,
  let p := q_shift e (unit_pos e r) in
  searches e objs contains ->
  background objs contains p -> q_file e mu = None ->
  leads e p k (q_default e) m' -> (k <= fuel)%nat -> tensor_is mu m' T -> PD T -> herm = true \/ real_tensor T ->
  exists Ti, medium_func herm mu e fuel r = Some (Val (T, Ti)) /\ is_inverse T Ti.
Proof. intros e objs contains herm mu fuel r k m' T p Hs. exact (func_background e objs contains Hs herm mu fuel r k m' T). Qed.
Print Assumptions C87_background.

(** With an input file, the file decides there, at the place in the lattice basis. *)
Theorem C87_file : forall e objs contains (herm mu : bool) fuel r f,
  searches e objs contains -> background objs contains (q_shift e (unit_pos e r)) -> q_file e mu = Some f ->
  medium_func herm mu e fuel r = Some (f r).
Proof. intros e objs contains herm mu fuel r f Hs. exact (func_file e objs contains Hs herm mu fuel r f). Qed.
Print Assumptions C87_file.

(** Whatever tensor comes back, the second one is its inverse. *)
Theorem C87_inverse : forall (herm mu : bool) e fuel r T Ti,
  (forall f x A Ai, q_file e mu = Some f -> f x = Val (A, Ai) -> is_inverse A Ai) ->
  medium_func herm mu e fuel r = Some (Val (T, Ti)) -> is_inverse T Ti.
Proof. exact func_inverse. Qed.
Print Assumptions C87_inverse.

(** The structure repeats with the lattice. *)
Theorem C87_periodic : forall (herm mu : bool) e fuel x y z a b c, wraps e ->
  (forall f, q_file e mu = Some f -> forall u v w l m n, f (u + IZR l, v + IZR m, w + IZR n) = f (u, v, w)) ->
  medium_func herm mu e fuel (x + IZR a, y + IZR b, z + IZR c) = medium_func herm mu e fuel (x, y, z).
Proof. exact func_periodic. Qed.
Print Assumptions C87_periodic.

(** Without material functions, a structure found to have no permeability has mu = 1 at every point. *)
Theorem C87_no_mu_partial : forall (herm : bool) e objs contains force fuel r, searches e objs contains ->
  has_mu e force objs = false -> q_default e <> Nothing ->
  (forall f, q_default e <> Function f) -> (forall f, ~ In (Function f) objs) ->
  medium_func herm true e fuel r = Some (Val (iso 1, iso 1)).
Proof. exact no_mu_everywhere. Qed.
Print Assumptions C87_no_mu_partial.

(** With a material function it is false: a magnetic material returned by one is not noticed. *)
Definition magnetic : env := slab_env [(Function 7, -1/4, 1/4)] (Medium 1 1) None (fun _ _ => Medium 1 4).
Theorem C87_no_mu_refuted : exists e objs contains r, searches e objs contains /\ has_mu e false objs = false /\
  medium_func true true e 1 r = Some (Val (iso 4, iso (/ 4))).
Proof.
  exists magnetic, [Function 7], (slab_contains [(Function 7, -1/4, 1/4)]), (1/2, 1/2, 1/2).
  split; [exact (slab_searches [(Function 7, -1/4, 1/4)] _ _ _)|]. split.
  - unfold has_mu, magnetic, slab_env. cbn [q_file q_default material_has_mu existsb orb]. destruct (Reqb_spec 1 1); [reflexivity|lra].
  - unfold medium_func, magnetic, slab_env, unit_pos. cbn [q_size q_none q_shift q_find q_default q_file q_call].
    rewrite wrap_cell by lra. cbn [fst slab_find]. rewrite inside_in by lra. cbn [f_mat fst follow q_call material_tensor].
    rewrite fdiv_nz by lra. cbn [bind]. unfold Rdiv. rewrite Rmult_1_l. reflexivity.
Qed.
Print Assumptions C87_no_mu_refuted.

(** "A material function may return any material" is false: nothing, which elsewhere stands for the background,
    ends the program; and so it does as the default material. *)
Theorem C87_function_nothing_refuted : exists e objs contains r, searches e objs contains /\
  q_default e = Medium 2 1 /\ (exists f p, In (Function f) objs /\ p = q_shift e (unit_pos e r) /\ q_call e f p = Nothing) /\
  forall fuel, medium_func true false e (S fuel) r = Some Abort.
Proof.
  exists (slab_env [(Function 7, -1/4, 1/4)] (Medium 2 1) None (fun _ _ => Nothing)), [Function 7],
    (slab_contains [(Function 7, -1/4, 1/4)]), (1/2, 1/2, 1/2).
  split; [exact (slab_searches [(Function 7, -1/4, 1/4)] _ _ _)|]. split; [reflexivity|]. split.
  { exists 7%Z. eexists. split; [left; reflexivity|]. split; reflexivity. }
  intros fuel. unfold medium_func, slab_env, unit_pos. cbn [q_size q_none q_shift q_find q_default q_file q_call].
  rewrite wrap_cell by lra. cbn [fst slab_find]. rewrite inside_in by lra. cbn [f_mat fst follow q_call].
  replace (follow _ fuel _ Nothing) with (Some Nothing) by (destruct fuel; reflexivity). reflexivity.
Qed.
Print Assumptions C87_function_nothing_refuted.

(** A wall of 12 with a slab of 4 put over part of it, in 2: the slab wins where they overlap. *)
Definition walls : list slab := [(Medium 12 1, -1/4, 1/2); (Medium 4 1, 1/4, 1/2)].
Definition walled : env := slab_env walls (Medium 2 1) None (fun _ _ => Nothing).
Example C87_object_example : exists Ti, medium_func false false walled 0 (11/16, 1/2, 1/2) = Some (Val (iso 4, Ti)) /\ is_inverse (iso 4) Ti.
Proof.
  apply (C87_object walled (map (fun s => fst (fst s)) walls) (slab_contains walls) false false 0 _ 1%nat (Medium 4 1) 0%nat (Medium 4 1)).
  - exact (slab_searches walls _ _ _).
  - unfold walled, slab_env, unit_pos. cbn [q_size q_none q_shift]. rewrite wrap_cell by lra. split; [cbn; lia|]. split.
    + exists (Medium 4 1, 1/4, 1/2). split; [reflexivity|]. apply inside_in. cbn [fst]. lra.
    + cbn. intros j Hj. lia.
  - reflexivity.
  - discriminate.
  - constructor. discriminate.
  - lia.
  - constructor.
  - apply iso_PD. lra.
  - right. repeat split.
Qed.
Example C87_background_example : exists Ti, medium_func false false walled 0 (1/8, 1/2, 1/2) = Some (Val (iso 2, Ti)) /\ is_inverse (iso 2) Ti.
Proof.
  apply (C87_background walled (map (fun s => fst (fst s)) walls) (slab_contains walls) false false 0 _ 0%nat (Medium 2 1)).
  - exact (slab_searches walls _ _ _).
  - left. unfold walled, slab_env, unit_pos. cbn [q_size q_none q_shift]. rewrite wrap_cell by lra.
    intros j Hj (s & E & Ei). cbn [fst] in Ei. destruct j as [|[|j]]; cbn in E.
    + injection E as <-. rewrite inside_out in Ei by lra. discriminate.
    + injection E as <-. rewrite inside_out in Ei by lra. discriminate.
    + destruct j; discriminate.
  - reflexivity.
  - constructor. discriminate.
  - lia.
  - constructor.
  - apply iso_PD. lra.
  - right. repeat split.
Qed.
Example C87_periodic_example : medium_func true false walled 0 (11/16 + IZR 3, 1/2 + IZR 0, 1/2 + IZR (-1)) = medium_func true false walled 0 (11/16, 1/2, 1/2).
Proof. apply C87_periodic; [apply slab_wraps|discriminate]. Qed.
Example C87_no_mu_example : has_mu walled false (map (fun s => fst (fst s)) walls) = false.
Proof.
  unfold has_mu, walled, slab_env, walls. cbn [q_file q_default material_has_mu existsb orb map fst].
  destruct (Reqb_spec 1 1); [reflexivity|lra].
Qed.
(** A grid from 2 to 6 at half way. *)
Example C87_grid_example : medium_func true false (slab_env [(Grid {| g_id := 1; g_emin := 2; g_emax := 6; g_mmin := 1; g_mmax := 1 |}, -1/4, 1/4)]
  (Medium 1 1) None (fun _ _ => Nothing)) 0 (1/2, 1/2, 1/2) = Some (Val (iso 4, iso (/ 4))).
Proof.
  unfold medium_func, slab_env, unit_pos. cbn [q_size q_none q_shift q_find q_default q_file].
  rewrite wrap_cell by lra. cbn [fst slab_find]. rewrite inside_in by lra. cbn [f_mat fst follow g_emin g_emax q_grid make_value material_tensor].
  replace (1 / 2 * (6 - 2) + 2) with 4 by lra. rewrite fdiv_nz by lra. cbn [bind]. unfold Rdiv. rewrite Rmult_1_l. reflexivity.
Qed.
(** A function that calls itself does not end. *)
Example C87_function_loop : forall fuel,
  medium_func true false (slab_env [(Function 7, -1/4, 1/4)] (Medium 2 1) None (fun _ _ => Function 7)) fuel (1/2, 1/2, 1/2) = None.
Proof.
  intros fuel. unfold medium_func. cbn [q_find q_shift q_default slab_env unit_pos q_size q_none]. rewrite wrap_cell by lra.
  cbn [fst slab_find]. rewrite inside_in by lra. cbn [f_mat fst].
  match goal with |- context[follow ?e fuel ?p _] => assert (K : follow e fuel p (Function 7) = None) by (induction fuel as [|n IH]; [reflexivity|exact IH]) end.
  rewrite K. reflexivity.
Qed.

(* ------------------------------------------------------------------ C88 *)

(** When the average is delivered: either every point looked at has the same tensor, which is the answer, or there
    are two tensors such that every point looked at has one or the other, and the answer is their average over
    the pixel, weighted by the part of the pixel inside the object on top and oriented by its normal.  Only one image of
    that object under the lattice translations is involved: a point looked at lies in this image or has the lower tensor. *)
Theorem C88_average : forall e objs contains (herm mu : bool) d r T n,
  searches e objs contains -> (forall a b, q_eqm e a b = true -> a = b) ->
  (q_file e mu = None \/ ~ In (q_default e) objs) ->
  mean_func herm mu e d r = Val (Some (T, n)) ->
  (n = (0, 0, 0) /\ forall q, In q (look_points e d r) -> value_at e objs contains mu (q_shift e q) T) \/
  exists TU TL qu ql, In qu (look_points e d r) /\ In ql (look_points e d r) /\
    value_at e objs contains mu (q_shift e qu) TU /\ value_at e objs contains mu (q_shift e ql) TL /\
    (forall q, In q (look_points e d r) -> value_at e objs contains mu (q_shift e q) TU \/ value_at e objs contains mu (q_shift e q) TL) /\
    (forall q, In q (look_points e d r) -> same_image e q qu \/ value_at e objs contains mu (q_shift e q) TL) /\
    averaged e objs contains d r TU TL qu ql T n.
Proof. intros e objs contains herm mu d r T n Hs Heq. exact (mean_average e objs contains Hs Heq herm mu d r T n). Qed.
Print Assumptions C88_average.

(** A pixel in one material gets the tensor at its centre. *)
Theorem C88_center : forall e objs contains (herm mu : bool) fuel d r T,
  searches e objs contains -> (forall a b, q_eqm e a b = true -> a = b) ->
  mean_func herm mu e d r = Val (Some (T, (0, 0, 0))) ->
  exists Ti, medium_func herm mu e fuel r = Some (Val (T, Ti)).
Proof. intros e objs contains herm mu fuel d r T Hs Heq. exact (mean_center e objs contains Hs Heq herm mu fuel d r T). Qed.
Print Assumptions C88_center.

(** No null object is looked into and no unset variable is read. *)
Theorem C88_safe : forall e objs contains (herm mu : bool) d r,
  searches e objs contains -> (forall a b, q_eqm e a b = true -> a = b) -> mean_func herm mu e d r <> UB.
Proof. intros e objs contains herm mu d r Hs Heq. exact (mean_safe e objs contains Hs Heq herm mu d r). Qed.
Print Assumptions C88_safe.

(** With positive definite materials the average is declined or positive definite. *)
Theorem C88_positive_definite : forall e objs contains (herm mu : bool) d r,
  searches e objs contains -> (forall a b, q_eqm e a b = true -> a = b) ->
  (forall m, m = q_default e \/ In m objs -> m <> Nothing -> constant m -> exists T, tensor_is mu m T /\ PD T /\ (herm = true \/ real_tensor T)) ->
  q_default e <> Nothing ->
  (forall by_ o, 0 <= q_overlap e (vsub (vsub (unit_pos e r) (half_pixel e d)) by_) (vsub (vadd (unit_pos e r) (half_pixel e d)) by_) o <= 1) ->
  (let '(sx, sy, sz) := q_size e in sx <> 0 /\ sy <> 0 /\ sz <> 0) ->
  mean_func herm mu e d r = Val None \/ exists T n, mean_func herm mu e d r = Val (Some (T, n)) /\ PD T.
Proof. intros e objs contains herm mu d r Hs Heq. exact (mean_PD e objs contains Hs Heq herm mu d r). Qed.
Print Assumptions C88_positive_definite.

(** Without the condition on the input file the first claim is false: an object made of the default material hides
    that part of the pixel belongs to the file. *)
Definition filed_slabs : list slab := [(Medium 1 1, -1/4, 1/4); (Medium 12 1, 1/4, 1/2)].
Definition filed : env := slab_env filed_slabs (Medium 1 1) (Some (fun _ => Val (iso 5, iso (/ 5)))) (fun _ _ => Nothing).
Theorem C88_file_refuted : exists e objs contains d r q T n,
  searches e objs contains /\ (forall a b, q_eqm e a b = true -> a = b) /\
  mean_func true false e d r = Val (Some (T, n)) /\ mean_eps_two (iso 12) (iso 1) (1/4) 1 0 0 = Val (Some T) /\
  In (unit_pos e q) (look_points e d r) /\ (forall fuel, medium_func true false e fuel q = Some (Val (iso 5, iso (/ 5)))).
Proof.
  destruct (mean_eps_two_PD (iso 12) (iso 1) (1/4) 1 0 0) as (T & ET & _); [apply iso_PD; lra|apply iso_PD; lra|lra|intros [= K]; lra|].
  exists filed, [Medium 1 1; Medium 12 1], (slab_contains filed_slabs), (1/2, 1, 1), (1/2, 1/2, 1/2), (1/4, 1/2, 1/2), T, (1/2, 0, 0).
  split; [exact (slab_searches filed_slabs _ _ _)|]. split; [exact medium_eqb_eq|].
  set (o0 := {| f_obj := 0; f_mat := Medium 1 1; f_by := (0,0,0); f_id := 1 |}).
  set (o1 := {| f_obj := 1; f_mat := Medium 12 1; f_by := (0,0,0); f_id := 2 |}).
  assert (L0 : look filed (0, 0, 0) = {| s_obj := Some o0; s_by := (0, 0, 0); s_id := 1; s_mat := Medium 1 1 |}).
  { unfold filed. rewrite slab_look by lra. cbn [slab_find filed_slabs]. rewrite inside_out by lra. rewrite inside_in by lra. cbn [f_by f_id f_mat fst]. rewrite ?vadd_00. reflexivity. }
  assert (L1 : look filed (-1/2, 0, 0) = {| s_obj := None; s_by := (0, 0, 0); s_id := 0; s_mat := Medium 1 1 |}).
  { unfold filed. rewrite slab_look by lra. cbn [slab_find filed_slabs]. rewrite inside_out by lra. rewrite inside_out by lra. cbn [f_by f_id f_mat fst]. rewrite ?vadd_00. reflexivity. }
  assert (L2 : look filed (1/2, 0, 0) = {| s_obj := Some o1; s_by := (0, 0, 0); s_id := 2; s_mat := Medium 12 1 |}).
  { unfold filed. rewrite slab_look by lra. cbn [slab_find filed_slabs]. rewrite inside_in by lra. cbn [f_by f_id f_mat fst]. rewrite ?vadd_00. reflexivity. }
  split; [|split; [exact ET|split]].
  - eapply (slab_mean filed_slabs (Medium 1 1) (Some (fun _ => Val (iso 5, iso (/ 5)))) (fun _ _ => Nothing) _ _ 1 12 o1 (1/4) T).
    + fold filed. cbn [map look_all]. rewrite L0, L1, L2. rewrite step_first by (cbn; lia). cbn [bind].
      rewrite step_second by (cbn; lia). cbn [bind]. rewrite step_third by (cbn; lia). cbn [s_id s_mat].
      change (q_eqm filed) with medium_eqb. rewrite eqb_same. reflexivity.
    + cbn; lia.
    + cbn; lia.
    + cbn; lia.
    + reflexivity.
    + reflexivity.
    + lra.
    + lra.
    + lra.
    + reflexivity.
    + reflexivity.
    + reflexivity.
    + right. split; reflexivity.
    + reflexivity.
    + reflexivity.
    + unfold slab_overlap. cbn [o1 f_obj]. change (nth_error filed_slabs (Z.to_nat 1)) with (Some (Medium 12 1, 1/4, 1/2)). cbn [fst].
      rewrite Rmin_left, (Rmax_left (1/4)) by lra. rewrite Rmax_right; lra.
    + exact (mean_swap (iso 12) (iso 1) (1/4) 1 0 0 T ET).
  - unfold filed at 2. rewrite slab_points. right. left. unfold unit_pos, filed, slab_env. cbn [q_size q_none]. f_equal; f_equal; lra.
  - intros fuel. unfold medium_func, filed, slab_env, unit_pos. cbn [q_size q_none q_shift q_find q_default q_file].
    rewrite wrap_cell by lra. cbn [fst slab_find filed_slabs]. rewrite inside_out by lra. rewrite inside_out by lra. reflexivity.
Qed.
Print Assumptions C88_file_refuted.

(** "The weight is the part of the pixel that has the material" is false: an object over the interface, made of the
    material below, is not subtracted.  Here 12 fills the middle half of the pixel in 1, but its weight is 3/4. *)
Definition cut_slabs : list slab := [(Medium 12 1, -1/4, 1/2); (Medium 1 1, 1/4, 1/2)].
Definition cut : env := slab_env cut_slabs (Medium 1 1) None (fun _ _ => Nothing).
Theorem C88_fraction_refuted : exists e objs contains d r T n,
  searches e objs contains /\ (forall a b, q_eqm e a b = true -> a = b) /\ q_file e false = None /\
  unit_pos e r = (0, 0, 0) /\ half_pixel e d = (1/2, 0, 0) /\
  (forall x, -1/2 <= x <= 1/2 -> (-1/4 <= x < 1/4 -> value_at e objs contains false (q_shift e (x, 0, 0)) (iso 12)) /\
     (~ -1/4 <= x < 1/4 -> value_at e objs contains false (q_shift e (x, 0, 0)) (iso 1))) /\
  mean_func true false e d r = Val (Some (T, n)) /\ mean_eps_two (iso 12) (iso 1) (3/4) 1 0 0 = Val (Some T) /\
  mean_eps_two (iso 12) (iso 1) (1/2) 1 0 0 <> Val (Some T).
Proof.
  destruct (mean_eps_two_iso 12 1 (3/4) 1 0 0) as (T & ET & _ & HT); [lra|lra|lra|intros [= K]; lra|].
  exists cut, [Medium 12 1; Medium 1 1], (slab_contains cut_slabs), (1/2, 1, 1), (1/2, 1/2, 1/2), T, (1/2, 0, 0).
  pose proof (slab_searches cut_slabs (Medium 1 1) None (fun _ _ => Nothing)) as Hs.
  split; [exact Hs|]. split; [exact medium_eqb_eq|]. split; [reflexivity|].
  split; [unfold unit_pos, cut, slab_env; cbn [q_size q_none]; f_equal; f_equal; lra|].
  split; [unfold half_pixel, cut, slab_env; cbn [q_size q_none]; f_equal; [f_equal|]; lra|].
  split.
  { intros x Hx. change (q_shift cut) with slab_wrap. rewrite wrap_cell by lra.
    assert (C0 : forall y, slab_contains cut_slabs 0 (y, 0, 0) <-> -1/4 <= y <= 1/2).
    { intros y. split; [intros (s & [= <-] & E); cbn [fst] in E; destruct (Rle_dec (-1/4) y), (Rle_dec y (1/2)); try lra; rewrite inside_out in E by lra; discriminate|].
      intros H. exists (Medium 12 1, -1/4, 1/2). split; [reflexivity|]. apply inside_in. exact H. }
    assert (C1 : forall y, slab_contains cut_slabs 1 (y, 0, 0) <-> 1/4 <= y <= 1/2).
    { intros y. split; [intros (s & [= <-] & E); cbn [fst] in E; destruct (Rle_dec (1/4) y), (Rle_dec y (1/2)); try lra; rewrite inside_out in E by lra; discriminate|].
      intros H. exists (Medium 1 1, 1/4, 1/2). split; [reflexivity|]. apply inside_in. exact H. }
    split; intros H.
    - apply value_object with 0%nat (Medium 12 1); [|reflexivity|discriminate|constructor]. split; [cbn; lia|]. split; [apply C0; lra|].
      intros j Hj. cbn in Hj. assert (j = 1%nat) as -> by lia. rewrite C1. lra.
    - destruct (Rle_dec (1/4) x) as [K|K].
      + apply value_object with 1%nat (Medium 1 1); [|reflexivity|discriminate|constructor]. split; [cbn; lia|]. split; [apply C1; lra|].
        intros j Hj. cbn in Hj. lia.
      + apply value_background; [|reflexivity|constructor]. left. intros j Hj. cbn in Hj. destruct j as [|[|j]]; [rewrite C0; lra|rewrite C1; lra|lia]. }
  set (o0 := {| f_obj := 0; f_mat := Medium 12 1; f_by := (0,0,0); f_id := 1 |}).
  set (o1 := {| f_obj := 1; f_mat := Medium 1 1; f_by := (0,0,0); f_id := 2 |}).
  assert (L0 : look cut (0, 0, 0) = {| s_obj := Some o0; s_by := (0, 0, 0); s_id := 1; s_mat := Medium 12 1 |}).
  { unfold cut. rewrite slab_look by lra. cbn [slab_find cut_slabs]. rewrite inside_out by lra. rewrite inside_in by lra. cbn [f_by f_id f_mat fst]. rewrite ?vadd_00. reflexivity. }
  assert (L1 : look cut (-1/2, 0, 0) = {| s_obj := None; s_by := (0, 0, 0); s_id := 0; s_mat := Medium 1 1 |}).
  { unfold cut. rewrite slab_look by lra. cbn [slab_find cut_slabs]. rewrite inside_out by lra. rewrite inside_out by lra. cbn [f_by f_id f_mat fst]. rewrite ?vadd_00. reflexivity. }
  assert (L2 : look cut (1/2, 0, 0) = {| s_obj := Some o1; s_by := (0, 0, 0); s_id := 2; s_mat := Medium 1 1 |}).
  { unfold cut. rewrite slab_look by lra. cbn [slab_find cut_slabs]. rewrite inside_in by lra. cbn [f_by f_id f_mat fst]. rewrite ?vadd_00. reflexivity. }
  split; [|split; [exact ET|]].
  - eapply (slab_mean cut_slabs (Medium 1 1) None (fun _ _ => Nothing) _ _ 12 1 o0 (3/4) T).
    + fold cut. cbn [map look_all]. rewrite L0, L1, L2. rewrite step_first by (cbn; lia). cbn [bind].
      rewrite step_second by (cbn; lia). cbn [bind]. rewrite step_third by (cbn; lia). cbn [s_id s_mat].
      change (q_eqm cut) with medium_eqb. rewrite eqb_same. rewrite (eqb_diff 12 1 1 1) by lra. reflexivity.
    + cbn; lia.
    + cbn; lia.
    + cbn; lia.
    + reflexivity.
    + reflexivity.
    + lra.
    + lra.
    + lra.
    + reflexivity.
    + reflexivity.
    + reflexivity.
    + left. reflexivity.
    + reflexivity.
    + reflexivity.
    + unfold slab_overlap. cbn [o0 f_obj]. change (nth_error cut_slabs (Z.to_nat 0)) with (Some (Medium 12 1, -1/4, 1/2)). cbn [fst].
      rewrite Rmin_left, (Rmax_left (-1/4)) by lra. rewrite Rmax_right; lra.
    + exact ET.
  - intros E2. destruct (mean_eps_two_iso 12 1 (1/2) 1 0 0) as (T2 & ET2 & _ & HT2); [lra|lra|lra|intros [= K]; lra|].
    rewrite ET2 in E2. injection E2 as ->.
    pose (t := fun i : nat => if Nat.eqb i 1 then 1 else 0).
    assert (Ht : 1 * t 0%nat + 0 * t 1%nat + 0 * t 2%nat = 0) by (unfold t; cbn [Nat.eqb]; lra).
    pose proof (HT t 1%nat Ht ltac:(lia)) as A. rewrite (HT2 t 1%nat Ht ltac:(lia)) in A. unfold RtoC, t in A. cbn [Nat.eqb] in A.
    injection A as A. lra.
Qed.
Print Assumptions C88_fraction_refuted.

(** A pixel of the wall of 12 next to the background of 1: the average is positive definite, with the weight 3/4. *)
Definition edge_slabs : list slab := [(Medium 12 1, -1/4, 1/2)].
Definition edge : env := slab_env edge_slabs (Medium 1 1) None (fun _ _ => Nothing).
Example C88_example : exists T, mean_func true false edge (1/2, 1, 1) (1/2, 1/2, 1/2) = Val (Some (T, (1/2, 0, 0))) /\ PD T /\
  mean_eps_two (iso 12) (iso 1) (3/4) 1 0 0 = Val (Some T).
Proof.
  destruct (mean_eps_two_PD (iso 12) (iso 1) (3/4) 1 0 0) as (T & ET & PT); [apply iso_PD; lra|apply iso_PD; lra|lra|intros [= K]; lra|].
  exists T. split; [|split; [exact PT|exact ET]].
  set (o0 := {| f_obj := 0; f_mat := Medium 12 1; f_by := (0,0,0); f_id := 1 |}).
  assert (L0 : look edge (0, 0, 0) = {| s_obj := Some o0; s_by := (0, 0, 0); s_id := 1; s_mat := Medium 12 1 |}).
  { unfold edge. rewrite slab_look by lra. cbn [slab_find edge_slabs]. rewrite inside_in by lra. cbn [f_by f_id f_mat fst]. rewrite ?vadd_00. reflexivity. }
  assert (L1 : look edge (-1/2, 0, 0) = {| s_obj := None; s_by := (0, 0, 0); s_id := 0; s_mat := Medium 1 1 |}).
  { unfold edge. rewrite slab_look by lra. cbn [slab_find edge_slabs]. rewrite inside_out by lra. cbn [f_by f_id f_mat fst]. rewrite ?vadd_00. reflexivity. }
  assert (L2 : look edge (1/2, 0, 0) = {| s_obj := Some o0; s_by := (0, 0, 0); s_id := 1; s_mat := Medium 12 1 |}).
  { unfold edge. rewrite slab_look by lra. cbn [slab_find edge_slabs]. rewrite inside_in by lra. cbn [f_by f_id f_mat fst]. rewrite ?vadd_00. reflexivity. }
  eapply (slab_mean edge_slabs (Medium 1 1) None (fun _ _ => Nothing) _ _ 12 1 o0 (3/4) T).
  + fold edge. cbn [map look_all]. rewrite L0, L1, L2. rewrite step_first by (cbn; lia). cbn [bind].
    rewrite step_second by (cbn; lia). cbn [bind]. unfold look_step, same_seen. cbn [s_id id_of Z.eqb Pos.eqb s_by].
    change (q_veq edge (0, 0, 0) (0, 0, 0)) with (Reqb 0 0). destruct (Reqb_spec 0 0); [|lra]. reflexivity.
  + cbn; lia.
  + cbn; lia.
  + cbn; lia.
  + reflexivity.
  + reflexivity.
  + lra.
  + lra.
  + lra.
  + reflexivity.
  + reflexivity.
  + reflexivity.
  + left. reflexivity.
  + reflexivity.
  + reflexivity.
  + unfold slab_overlap. cbn [o0 f_obj]. change (nth_error edge_slabs (Z.to_nat 0)) with (Some (Medium 12 1, -1/4, 1/2)). cbn [fst].
    rewrite Rmin_left, (Rmax_left (-1/4)) by lra. rewrite Rmax_right; lra.
  + exact ET.
Qed.
(** The other assumptions of the positive definite average hold there too. *)
Example C88_assumptions : let d := (1/2, 1, 1) in let r := (1/2, 1/2, 1/2) in
  (forall by_ o, 0 <= q_overlap edge (vsub (vsub (unit_pos edge r) (half_pixel edge d)) by_) (vsub (vadd (unit_pos edge r) (half_pixel edge d)) by_) o <= 1) /\
  (let '(sx, sy, sz) := q_size edge in sx <> 0 /\ sy <> 0 /\ sz <> 0).
Proof.
  cbv zeta. split; [|cbn; repeat split; lra]. intros [[u v] w] o. change (q_overlap edge) with (slab_overlap edge_slabs). unfold slab_overlap.
  destruct (nth_error edge_slabs (Z.to_nat o)) as [[[m a] b]|]; [|lra].
  unfold unit_pos, half_pixel, edge, slab_env. cbn [q_size q_none vsub vadd fst].
  match goal with |- context[Rmin b ?y' - Rmax a ?x'] => set (x := x'); set (y := y') end.
  assert (Hlt : x < y) by (unfold x, y; lra). split; [apply Rmax_l|]. apply Rmax_lub; [lra|].
  apply Rmult_le_reg_r with (y - x); [lra|]. unfold Rdiv. rewrite Rmult_assoc, Rinv_l by lra.
  pose proof (Rmin_r b y). pose proof (Rmax_r a x). lra.
Qed.

(* ------------------------------------------------------------------ C89 *)

(** The component c1 c2 of the tensor, or of its inverse, as written to a file: real part, and imaginary part off the
    diagonal. *)
Theorem C89_component : forall Ti c1 c2 (imag inv : bool), PD Ti -> (0 <= c1 < 3)%Z -> (0 <= c2 < 3)%Z -> (imag = true -> c1 <> c2) ->
  exists T, is_inverse Ti T /\
    let M := if inv then Ti else T in
    tensor_component c1 c2 imag inv Ti = Val (if imag then im (entry M (Z.to_nat c1) (Z.to_nat c2)) else re (entry M (Z.to_nat c1) (Z.to_nat c2))).
Proof. exact component_entry. Qed.
Print Assumptions C89_component.

(** On the diagonal the imaginary part, if asked for, comes out as the real part: the condition is needed. *)
Example C89_diagonal : PD (iso 2) /\ im (entry (iso 2) 0 0) = 0 /\ tensor_component 0 0 true true (iso 2) = Val 2.
Proof. split; [apply iso_PD; lra|]. split; reflexivity. Qed.

Example C89_example : tensor_component 1 0 true true (mkSym 2 2 2 (1/2, 1) C0 C0) = Val (-1) /\
  entry (mkSym 2 2 2 (1/2, 1) C0 C0) 1 0 = (1/2, -1).
Proof. split; [reflexivity|]. unfold entry. cbn [m01]. unfold Cconj. cbn [re im fst snd]. f_equal. Qed.
