(** Proofs about material grids. *)
From Coq Require Import List ZArith Reals Lra Lia Bool.
From Verif Require Import Base RC M_Tensor M_Evect M_Grid M_Interp M_Matgrid S_Interp S_Matgrid L_Evect L_Evect3 L_Interp L_Interp2.
Import ListNotations.
Local Open Scope R_scope.

(** Values. *)
Lemma linear_interpolate_abs nx ny nz stride d x y z : grid_data nx ny nz stride d -> mir_pt (x, y, z) ->
  linear_interpolate x y z d nx ny nz stride = Val (tents nx ny nz (abs_pt (x, y, z)) (at3 ny nz stride d)).
Proof.
  intros G (Hx & Hy & Hz). unfold linear_interpolate. rewrite (nearest_abs nx x Hx), (nearest_abs ny y Hy), (nearest_abs nz z Hz).
  apply (linear_interpolate_ok nx ny nz stride d (Rabs x) (Rabs y) (Rabs z) G).
  repeat split; try apply Rabs_pos; apply Rabs_le; lra.
Qed.
Lemma size_pos g : grid_ok g -> (0 < gx g * gy g * gz g)%Z.
Proof. intros (A & B & C). apply Z.mul_pos_pos; [apply Z.mul_pos_pos|]; assumption. Qed.
Lemma filled_data g : filled g -> grid_data (gx g) (gy g) (gz g) 1 (gdata g).
Proof. intros [G L]. pose proof (size_pos g G). destruct G as (A & B & C). repeat split; try lia. Qed.
Lemma material_grid_val_ok p g : filled g -> mir_pt p -> material_grid_val p g = Val (grid_value p g).
Proof. destruct p as [[x y] z]. intros F M. unfold material_grid_val, grid_value. apply linear_interpolate_abs; [apply filled_data; exact F|exact M]. Qed.
Lemma grid_value_bounds p g lo hi : filled g -> mir_pt p -> (forall a, In a (gdata g) -> lo <= a <= hi) -> lo <= grid_value p g <= hi.
Proof.
  destruct p as [[x y] z]. intros F (Hx & Hy & Hz) H. pose proof (filled_data g F) as G. pose proof G as (A & B & C & _).
  unfold grid_value, tents, abs_pt.
  assert (U : forall r, -1 <= r <= 1 -> 0 <= Rabs r <= 1) by (intros; split; [apply Rabs_pos|apply Rabs_le; lra]).
  apply weighted_bounds; auto using tent_convex. intros i j k Hi Hj Hk. apply H.
  pose proof (rd_at3 _ _ _ _ _ i j k G Hi Hj Hk) as E. unfold rd in E. destruct (_ <? 0)%Z; [discriminate|].
  destruct (nth_error _ _) eqn:N; [|discriminate]. injection E as <-. apply nth_error_In in N. exact N.
Qed.

Definition mstep (k : kind) (acc : R * R * R * Z) (t : vec * mgrid) : outcome (R * R * R * Z) :=
  let! u := material_grid_val (fst t) (snd t) in
  let '(uprod, umin, usum, count) := acc in
  Val (uprod * u, (if Rltb u umin then u else umin), usum + u, (count + 1)%Z).
Lemma mfold k l : Forall (fun t => filled (snd t) /\ mir_pt (fst t)) l -> forall p m s c, m <= 1 ->
  fold_left (fun a t => let! acc := a in mstep k acc t) l (Val (p, m, s, c)) =
  Val (p * fold_right Rmult 1 (map (fun t => grid_value (fst t) (snd t)) l),
       Rmin m (fold_right Rmin 1 (map (fun t => grid_value (fst t) (snd t)) l)),
       s + fold_right Rplus 0 (map (fun t => grid_value (fst t) (snd t)) l), (c + Z.of_nat (length l))%Z).
Proof.
  induction 1 as [|[q g] l [F M] Hl IH]; intros p m s c Hm; cbn [fold_left map fold_right].
  - rewrite Rmin_left by exact Hm. rewrite Rmult_1_r, Rplus_0_r. f_equal. f_equal. cbn. lia.
  - cbn [bind]. unfold mstep at 2. cbn [fst snd] in *. rewrite material_grid_val_ok by assumption. cbn [bind].
    rewrite IH by (destruct (Rltb_spec (grid_value q g) m); lra). f_equal. f_equal; [f_equal; [f_equal|]|].
    + ring.
    + destruct (Rltb_spec (grid_value q g) m); unfold Rmin; repeat destruct Rle_dec; lra.
    + ring.
    + cbn [length]. lia.
Qed.
Lemma matgrid_val_ok k over dflt : Forall (fun t => filled (snd t) /\ mir_pt (fst t)) (over ++ opt_list dflt) -> over ++ opt_list dflt <> [] ->
  matgrid_val k over dflt = Val (combine k (map (fun t => grid_value (fst t) (snd t)) (over ++ opt_list dflt))).
Proof.
  intros H N.
  change (matgrid_val k over dflt) with
    (let! acc := fold_left (fun a t => let! acc := a in mstep k acc t) over (Val (1, 1, 0, 0%Z)) in
     let! acc := match dflt with Some t => mstep k acc t | None => Val acc end in
     let '(uprod, umin, usum, count) := acc in
     match k with U_MIN => Val umin | U_PROD => Val uprod | U_SUM => fdiv usum (IZR count) end).
  assert (E : (let! acc := fold_left (fun a t => let! acc := a in mstep k acc t) over (Val (1, 1, 0, 0%Z)) in
    match dflt with Some t => mstep k acc t | None => Val acc end) =
    fold_left (fun a t => let! acc := a in mstep k acc t) (over ++ opt_list dflt) (Val (1, 1, 0, 0%Z))).
  { rewrite fold_left_app. destruct dflt; cbn [opt_list fold_left]; [reflexivity|]. destruct (fold_left _ over _); reflexivity. }
  rewrite (mfold k _ H) in E by lra. set (us := map _ (over ++ opt_list dflt)) in *.
  assert (Q : forall X (f : R * R * R * Z -> outcome X), (let! acc := fold_left (fun a t => let! acc := a in mstep k acc t) over (Val (1, 1, 0, 0%Z)) in
    let! acc := match dflt with Some t => mstep k acc t | None => Val acc end in f acc) =
    let! acc := (let! acc := fold_left (fun a t => let! acc := a in mstep k acc t) over (Val (1, 1, 0, 0%Z)) in
    match dflt with Some t => mstep k acc t | None => Val acc end) in f acc) by (intros; destruct (fold_left _ over _); reflexivity).
  rewrite Q, E. cbn [bind]. rewrite Rmult_1_l, Rplus_0_l, Z.add_0_l.
  assert (L : length (over ++ opt_list dflt) = length us) by (unfold us; rewrite map_length; reflexivity).
  assert (M : fold_right Rmin 1 us <= 1) by (generalize us; clear; intros l; induction l; cbn; [lra|]; eapply Rle_trans; [apply Rmin_r|exact IHl]).
  rewrite Rmin_right by exact M. rewrite L. unfold combine. destruct k; try reflexivity.
  rewrite fdiv_nz. - rewrite INR_IZR_INZ. reflexivity.
  - apply not_0_IZR. rewrite <- L. destruct (over ++ opt_list dflt); [contradiction|cbn; lia].
Qed.

(** Range. *)
Lemma combine_range k us : us <> [] -> (forall a, In a us -> 0 <= a <= 1) -> 0 <= combine k us <= 1.
Proof.
  intros N H. destruct k; cbn.
  - clear N. induction us as [|a l IH]; cbn; [lra|]. assert (0 <= a <= 1) by (apply H; left; reflexivity).
    assert (0 <= fold_right Rmin 1 l <= 1) by (apply IH; intros; apply H; right; assumption).
    generalize dependent (fold_right Rmin 1 l). intros b _ Hb. unfold Rmin. destruct Rle_dec; lra.
  - clear N. induction us as [|a l IH]; cbn; [lra|]. assert (0 <= a <= 1) by (apply H; left; reflexivity).
    assert (0 <= fold_right Rmult 1 l <= 1) by (apply IH; intros; apply H; right; assumption).
    split; [apply Rmult_le_pos; lra|apply Rle_trans with (1 * 1); [apply Rmult_le_compat; lra|lra]].
  - assert (S : 0 <= fold_right Rplus 0 us <= INR (length us)).
    { clear N. induction us as [|a l IH]; [cbn; lra|]. cbn [fold_right length]. rewrite S_INR. assert (0 <= a <= 1) by (apply H; left; reflexivity).
      assert (0 <= fold_right Rplus 0 l <= INR (length l)) by (apply IH; intros; apply H; right; assumption). lra. }
    assert (0 < INR (length us)) by (apply lt_0_INR; destruct us; [contradiction|cbn; lia]).
    split; [apply Rmult_le_pos; [lra|left; apply Rinv_0_lt_compat; lra]|].
    apply (Rmult_le_reg_r (INR (length us))); [lra|]. unfold Rdiv. rewrite Rmult_assoc, Rinv_l by lra. lra.
Qed.
Lemma epsilon_between v a b : 0 <= v <= 1 -> a <= b -> a <= matgrid_epsilon v a b <= b.
Proof. intros. unfold matgrid_epsilon. split; nra. Qed.

(** Parameters. *)
Lemma rd_nth {A} (l : list A) i : (0 <= i)%Z -> rd l i = match nth_error l (Z.to_nat i) with Some a => Val a | None => UB end.
Proof. intros H. unfold rd. destruct (Z.ltb_spec i 0); [lia|reflexivity]. Qed.
Lemma list_rd_ext {A} (l l' : list A) : length l = length l' -> (forall i, (0 <= i < Z.of_nat (length l))%Z -> rd l i = rd l' i) -> l = l'.
Proof.
  revert l'. induction l as [|a l IH]; intros [|b l'] L H; try discriminate; [reflexivity|]. f_equal.
  - specialize (H 0%Z ltac:(cbn; lia)). cbn in H. injection H as ->. reflexivity.
  - apply IH; [injection L; auto|]. intros i Hi. specialize (H (i + 1)%Z ltac:(cbn [length]; lia)). rewrite !rd_nth in H by lia.
    rewrite !rd_nth by lia. replace (Z.to_nat (i + 1)) with (S (Z.to_nat i)) in H by lia. exact H.
Qed.
Lemma nth_error_skip {A} (u : list A) j i : nth_error (skipn j u) i = nth_error u (j + i).
Proof. revert u. induction j; intros [|b u]; cbn; auto. destruct i; reflexivity. Qed.
Lemma nth_error_first {A} (u : list A) n i : (i < n)%nat -> nth_error (firstn n u) i = nth_error u i.
Proof. revert u i. induction n; intros u i H; [lia|]. destruct u; [destruct i; reflexivity|]. destruct i; cbn; [reflexivity|]. apply IHn. lia. Qed.
Lemma rd_slice {A} (u : list A) j n i : (0 <= i < Z.of_nat n)%Z -> rd (firstn n (skipn j u)) i = rd u (Z.of_nat j + i).
Proof.
  intros H. rewrite !rd_nth by lia. rewrite nth_error_first by lia. rewrite nth_error_skip. replace (Z.to_nat (Z.of_nat j + i)) with (j + Z.to_nat i)%nat by lia. reflexivity.
Qed.

Lemma copy_in {A} (u a : list A) j n : length a = n -> (j + n <= length u)%nat ->
  forZ 0 (Z.of_nat n) (fun k a => let! v := rd u (Z.of_nat j + k) in wr a k v) a = Val (firstn n (skipn j u)).
Proof.
  intros L B.
  destruct (forZ_inv (fun k b => length b = n /\ forall i, (0 <= i < k)%Z -> rd b i = rd u (Z.of_nat j + i))
    (fun k a => let! v := rd u (Z.of_nat j + k) in wr a k v) 0 (Z.of_nat n) a) as (b & E & Lb & Hb).
  - lia.
  - split; [exact L|]. intros; lia.
  - intros i b Hi [Lb Hb]. destruct (rd_in u (Z.of_nat j + i) ltac:(lia)) as [v Ev]. rewrite Ev. cbn [bind].
    rewrite wr_in by lia. eexists. split; [reflexivity|]. split; [rewrite upd_length; exact Lb|].
    intros i' Hi'. rewrite (rd_wr b _ i i' v (wr_in b i v ltac:(lia))). destruct (Z.eqb_spec i' i) as [->|]; [symmetry; exact Ev|]. apply Hb. lia.
  - rewrite E. f_equal. apply list_rd_ext.
    + rewrite firstn_length, skipn_length. lia.
    + intros i Hi. rewrite rd_slice by lia. apply Hb. lia.
Qed.
Lemma copy_out {A} (u a : list A) j n : length a = n -> (j + n <= length u)%nat ->
  forZ 0 (Z.of_nat n) (fun k u => let! v := rd a k in wr u (Z.of_nat j + k) v) u = Val (firstn j u ++ a ++ skipn (j + n) u).
Proof.
  intros L B.
  destruct (forZ_inv (fun k b => length b = length u /\ forall i, (0 <= i)%Z -> rd b i = if ((Z.of_nat j <=? i) && (i <? Z.of_nat j + k))%Z%bool then rd a (i - Z.of_nat j) else rd u i)
    (fun k u => let! v := rd a k in wr u (Z.of_nat j + k) v) 0 (Z.of_nat n) u) as (b & E & Lb & Hb).
  - lia.
  - split; [reflexivity|]. intros i Hi. destruct (Z.leb_spec (Z.of_nat j) i), (Z.ltb_spec i (Z.of_nat j + 0)); cbn; try lia; reflexivity.
  - intros i b Hi [Lb Hb]. destruct (rd_in a i ltac:(lia)) as [v Ev]. rewrite Ev. cbn [bind].
    rewrite wr_in by lia. eexists. split; [reflexivity|]. split; [rewrite upd_length; exact Lb|].
    intros i' Hi'. rewrite (rd_wr b _ (Z.of_nat j + i) i' v (wr_in b (Z.of_nat j + i) v ltac:(lia))). destruct (Z.eqb_spec i' (Z.of_nat j + i)) as [->|].
    + destruct (Z.leb_spec (Z.of_nat j) (Z.of_nat j + i)), (Z.ltb_spec (Z.of_nat j + i) (Z.of_nat j + (i + 1))); try lia. cbn.
      replace (Z.of_nat j + i - Z.of_nat j)%Z with i by lia. symmetry; exact Ev.
    + rewrite Hb by lia. destruct (Z.leb_spec (Z.of_nat j) i'), (Z.ltb_spec i' (Z.of_nat j + i)), (Z.ltb_spec i' (Z.of_nat j + (i + 1))); cbn; try lia; reflexivity.
  - rewrite E. f_equal. apply list_rd_ext.
    + rewrite !app_length, firstn_length, skipn_length. lia.
    + intros i Hi. rewrite Hb by lia.
      destruct (Z.leb_spec (Z.of_nat j) i), (Z.ltb_spec i (Z.of_nat j + Z.of_nat n)); cbn; try lia.
      * rewrite !rd_nth by lia. rewrite nth_error_app2 by (rewrite firstn_length; lia). rewrite firstn_length, Nat.min_l by lia.
        rewrite nth_error_app1 by lia. replace (Z.to_nat (i - Z.of_nat j)) with (Z.to_nat i - j)%nat by lia. reflexivity.
      * rewrite !rd_nth by lia. rewrite nth_error_app2 by (rewrite firstn_length; lia). rewrite firstn_length, Nat.min_l by lia.
        rewrite nth_error_app2 by lia. rewrite nth_error_skip. replace (j + n + (Z.to_nat i - j - length a))%nat with (Z.to_nat i) by lia. reflexivity.
      * rewrite !rd_nth by lia. rewrite nth_error_app1 by (rewrite firstn_length; lia). rewrite nth_error_first by lia. reflexivity.
Qed.

Lemma ntot_total gs : Forall grid_ok gs -> grids_ntot gs = Z.of_nat (total gs).
Proof.
  unfold grids_ntot. assert (Q : forall gs s, Forall grid_ok gs -> fold_left (fun s g => (s + gsize g)%Z) gs s = (s + Z.of_nat (total gs))%Z).
  { clear. induction gs as [|g t IH]; intros s H; cbn [fold_left]; [cbn; lia|]. inversion_clear H. rewrite IH by assumption.
    unfold total. cbn [map list_sum fold_right]. unfold gsize. pose proof (size_pos g ltac:(assumption)). unfold list_sum. lia. }
  intros H. rewrite Q by exact H. lia.
Qed.

Lemma grids_set_ok gs u : Forall filled gs -> (total gs <= length u)%nat -> grids_set u gs = Val (with_params gs u).
Proof.
  intros H L. unfold grids_set.
  assert (Q : forall gs out j, Forall filled gs -> (j + total gs <= length u)%nat ->
    exists j', fold_left (fun acc g => let! acc := acc in let '(out, j) := acc in
      let! a := forZ 0 (gsize g) (fun k a => let! v := rd u (j + k) in wr a k v) (gdata g) in
      Val (out ++ [ {| gx := gx g; gy := gy g; gz := gz g; gdata := a |} ], (j + gsize g)%Z)) gs (Val (out, Z.of_nat j)) = Val (out ++ with_params gs (skipn j u), j')).
  { clear. induction gs as [|g t IH]; intros out j H L; cbn [fold_left with_params].
    - rewrite app_nil_r. eauto.
    - inversion_clear H as [|? ? F Ft]. destruct F as [G Lg]. pose proof (size_pos g G) as P. cbn [bind].
      unfold total in L. cbn [map] in L. change (list_sum (?a :: ?l)) with (a + list_sum l)%nat in L.
      assert (E : gsize g = Z.of_nat (Z.to_nat (gx g * gy g * gz g))) by (unfold gsize; lia).
      pose proof (copy_in u (gdata g) j _ Lg ltac:(lia)) as K. rewrite <- E in K. rewrite K. cbn [bind].
      replace (Z.of_nat j + gsize g)%Z with (Z.of_nat (j + Z.to_nat (gx g * gy g * gz g))) by (unfold gsize; lia).
      destruct (IH (out ++ [{| gx := gx g; gy := gy g; gz := gz g; gdata := firstn (Z.to_nat (gx g * gy g * gz g)) (skipn j u) |}])
        (j + Z.to_nat (gx g * gy g * gz g))%nat Ft) as [j' Q]; [unfold total; lia|]. exists j'. rewrite Q. rewrite <- app_assoc. cbn [app].
      do 3 f_equal. f_equal. f_equal. rewrite Nat.add_comm. clear. revert u. induction j; intros u; [rewrite Nat.add_0_r; reflexivity|].
      rewrite Nat.add_succ_r. destruct u; cbn; [rewrite skipn_nil; reflexivity|]. apply IHj. }
  destruct (Q gs [] O H L) as [j' E]. cbn in E |- *. rewrite E. reflexivity.
Qed.

Lemma grids_get_ok gs u : Forall filled gs -> (total gs <= length u)%nat -> grids_get u gs = Val (concat (map gdata gs) ++ skipn (total gs) u).
Proof.
  intros H L. unfold grids_get.
  assert (Q : forall gs pre u, Forall filled gs -> (total gs <= length u)%nat ->
    exists j', fold_left (fun acc g => let! acc := acc in let '(u, j) := acc in
      let! u := forZ 0 (gsize g) (fun k u => let! v := rd (gdata g) k in wr u (j + k) v) u in
      Val (u, (j + gsize g)%Z)) gs (Val (pre ++ u, Z.of_nat (length pre))) = Val (pre ++ concat (map gdata gs) ++ skipn (total gs) u, j')).
  { clear. induction gs as [|g t IH]; intros pre u H L; cbn [fold_left].
    - cbn. eauto.
    - inversion_clear H as [|? ? F Ft]. destruct F as [G Lg]. pose proof (size_pos g G) as P. cbn [bind].
      unfold total in *. cbn [map] in *. change (list_sum (?a :: ?l)) with (a + list_sum l)%nat in *.
      set (n := Z.to_nat (gx g * gy g * gz g)) in *.
      assert (E : gsize g = Z.of_nat n) by (unfold gsize; lia).
      pose proof (copy_out (pre ++ u) (gdata g) (length pre) n Lg ltac:(rewrite app_length; lia)) as K. rewrite <- E in K. rewrite K. cbn [bind].
      rewrite firstn_app, firstn_all, Nat.sub_diag, firstn_O, app_nil_r.
      rewrite skipn_app. replace (length pre + n - length pre)%nat with n by lia.
      rewrite (skipn_all2 pre) by lia. cbn [app]. rewrite app_assoc.
      replace (Z.of_nat (length pre) + gsize g)%Z with (Z.of_nat (length (pre ++ gdata g))) by (rewrite app_length; lia).
      destruct (IH (pre ++ gdata g) (skipn n u) Ft ltac:(rewrite skipn_length; lia)) as [j' Q]. exists j'. rewrite Q. cbn [concat].
      rewrite <- !app_assoc. do 5 f_equal.
      clear. revert u. induction n; intros u; [reflexivity|]. destruct u; cbn; [rewrite skipn_nil; reflexivity|]. apply IHn. }
  destruct (Q gs [] u H L) as [j' E]. cbn in E |- *. rewrite E. reflexivity.
Qed.

Lemma with_params_concat gs u : length u = total gs -> concat (map gdata (with_params gs u)) = u.
Proof.
  revert u. induction gs as [|g t IH]; intros u L; cbn.
  - destruct u; [reflexivity|discriminate].
  - unfold total in L. cbn [map] in L. change (list_sum (?a :: ?l)) with (a + list_sum l)%nat in L.
    rewrite IH by (rewrite skipn_length; unfold total; lia). apply firstn_skipn.
Qed.
Lemma with_params_own gs : Forall filled gs -> with_params gs (concat (map gdata gs)) = gs.
Proof.
  induction 1 as [|g t [G L] Ht IH]; [reflexivity|]. cbn. rewrite <- L, firstn_app, firstn_all, Nat.sub_diag, firstn_O, app_nil_r.
  rewrite skipn_app, skipn_all, Nat.sub_diag. cbn. rewrite IH. destruct g; reflexivity.
Qed.
Lemma with_params_filled gs u : Forall grid_ok gs -> (total gs <= length u)%nat -> Forall filled (with_params gs u).
Proof.
  revert u. induction gs as [|g t IH]; intros u H L; cbn; [constructor|]. inversion_clear H.
  unfold total in L. cbn [map] in L. change (list_sum (?a :: ?l)) with (a + list_sum l)%nat in L.
  constructor; [|apply IH; [assumption|rewrite skipn_length; unfold total; lia]].
  split; [assumption|]. cbn. rewrite firstn_length. lia.
Qed.
Lemma with_params_total gs u : total (with_params gs u) = total gs.
Proof. revert u. unfold total. induction gs as [|g t IH]; intros u; cbn; [reflexivity|]. cbn in IH. rewrite IH. reflexivity. Qed.
