(** Proofs: Bloch phase, points beyond the mirror range, the seam of the file's cell. *)
From Coq Require Import List ZArith Reals Lra Lia Bool.
From Verif Require Import Base RC M_Tensor M_Evect M_Grid M_Interp S_Interp L_Evect L_Evect3 L_Interp L_Interp2.
Import ListNotations.
Local Open Scope R_scope.

Lemma bloch_move k size p a b c : has_size size -> exists ph, bloch_phase k size p = Val ph /\
  let '(kx, ky, kz) := k in let phi := 2 * PI * (kx * IZR a + ky * IZR b + kz * IZR c) in
  bloch_phase k size (move p size a b c) = Val (Cmul ph (cos phi, sin phi)).
Proof.
  destruct k as [[kx ky] kz], size as [[sx sy] sz], p as [[px py] pz]. intros (A & B & D). cbn. rewrite !fdiv_nz by assumption. cbn [bind].
  eexists. split; [reflexivity|]. unfold Cmul, re, im. cbn [fst snd]. rewrite <- cos_plus.
  match goal with |- Val (cos ?x, sin ?x) = Val (cos ?y, ?s) => replace s with (sin y) by (rewrite sin_plus; ring); replace x with y; [reflexivity|] end.
  field. auto.
Qed.
Lemma bloch_field_move rf nx ny nz l d size p a b c : has_size size ->
  get_bloch_field_point rf nx ny nz l d size (move p size a b c) = get_bloch_field_point rf nx ny nz l d size p.
Proof. intros H. unfold get_bloch_field_point, interp_cval. rewrite !interp_val_move by exact H. reflexivity. Qed.
Lemma field_point_move rf nx ny nz l d k size p a b c : has_size size ->
  let '(kx, ky, kz) := k in let phi := 2 * PI * (kx * IZR a + ky * IZR b + kz * IZR c) in
  get_field_point false rf nx ny nz l d k size (move p size a b c) =
  let! f := get_field_point false rf nx ny nz l d k size p in
  let '(u, v, w) := f in Val (Cmul u (cos phi, sin phi), Cmul v (cos phi, sin phi), Cmul w (cos phi, sin phi)).
Proof.
  intros H. destruct (bloch_move k size p a b c H) as (ph & E & E'). destruct k as [[kx ky] kz]. cbv zeta in *.
  unfold get_field_point. rewrite bloch_field_move by exact H. destruct (get_bloch_field_point rf nx ny nz l d size p) as [[[u v] w]| | |]; cbn [bind]; try reflexivity.
  rewrite E, E'. cbn [bind]. generalize (cos (2 * PI * (kx * IZR a + ky * IZR b + kz * IZR c)), sin (2 * PI * (kx * IZR a + ky * IZR b + kz * IZR c))). intros q. clear. f_equal. f_equal; [f_equal|]; cring.
Qed.

Lemma rtrunc_is x m : IZR m <= x < IZR m + 1 -> 0 <= x -> rtrunc x = m.
Proof.
  intros H P. destruct (rtrunc_nonneg x P) as [B _].
  assert (-1 < rtrunc x - m < 1)%Z; [|lia]. split; apply lt_IZR; rewrite minus_IZR; lra.
Qed.
Lemma rtrunc_is_neg x m : IZR m - 1 < x <= IZR m -> x < 0 -> rtrunc x = m.
Proof.
  intros H P. destruct (rtrunc_neg x P) as [B _].
  assert (-1 < rtrunc x - m < 1)%Z; [|lia]. split; apply lt_IZR; rewrite minus_IZR; lra.
Qed.

Lemma nearest_1 r : 0 <= r < 1 -> r < / 2 \/ / 2 <= r -> nearest 1 r = (0%Z, 0%Z, Rabs (r - / 2)).
Proof.
  intros H _. unfold nearest, mirror. destruct (Rltb_spec r 0); [lra|]. destruct (Rltb_spec 1 r); [lra|].
  rewrite Rmult_1_r. rewrite (rtrunc_is r 0) by lra. cbn [Z.eqb Pos.eqb]. replace (r - 0 - / 2) with (r - / 2) by lra.
  destruct (Rleb_spec 0 (r - / 2)); reflexivity.
Qed.
Lemma above_2 : nearest 2 (5 / 4) = (0%Z, 0%Z, 1).
Proof.
  unfold nearest, mirror. destruct (Rltb_spec (5 / 4) 0); [lra|]. destruct (Rltb_spec 1 (5 / 4)); [|lra].
  rewrite (rtrunc_is_neg _ 0) by lra. cbn [Z.eqb Pos.eqb]. destruct (Rleb_spec 0 ((1 - 5 / 4) * 2 - 0 - / 2)); [lra|]. cbn.
  rewrite Rabs_left by lra. f_equal. lra.
Qed.
Lemma above_2' : nearest 2 (3 / 4) = (1%Z, 1%Z, 0).
Proof.
  unfold nearest, mirror. destruct (Rltb_spec (3 / 4) 0); [lra|]. destruct (Rltb_spec 1 (3 / 4)); [lra|].
  rewrite (rtrunc_is _ 1) by lra. cbn [Z.eqb Pos.eqb]. destruct (Rleb_spec 0 (3 / 4 * 2 - 1 - / 2)); [|lra]. cbn.
  rewrite Rabs_right by lra. f_equal. lra.
Qed.
Lemma above_4 : nearest 4 (3 / 2) = ((-2)%Z, (-2)%Z, / 2).
Proof.
  unfold nearest, mirror. destruct (Rltb_spec (3 / 2) 0); [lra|]. destruct (Rltb_spec 1 (3 / 2)); [|lra].
  rewrite (rtrunc_is_neg _ (-2)) by lra. cbn [Z.eqb Pos.eqb]. destruct (Rleb_spec 0 ((1 - 3 / 2) * 4 - -2 - / 2)); [lra|]. cbn.
  rewrite Rabs_left by lra. f_equal. lra.
Qed.

Lemma mirror_above : linear_interpolate (5 / 4) (/ 2) (/ 2) [0; 1] 2 1 1 1 = Val 0 /\ linear_interpolate (2 - 5 / 4) (/ 2) (/ 2) [0; 1] 2 1 1 1 = Val 1.
Proof.
  replace (2 - 5 / 4) with (3 / 4) by lra. unfold linear_interpolate. rewrite above_2, above_2', nearest_1 by lra. replace (/ 2 - / 2) with 0 by lra. rewrite Rabs_R0.
  unfold trilinear. cbn. change (Pos.to_nat 1) with 1%nat. cbn. split; f_equal; ring.
Qed.
Lemma overrun_above : linear_interpolate (3 / 2) (/ 2) (/ 2) [0; 1; 2; 3] 4 1 1 1 = UB.
Proof. unfold linear_interpolate. rewrite above_4, nearest_1 by lra. unfold trilinear. cbn. reflexivity. Qed.

(** The two sides of the cell boundary. *)
Lemma nearest_2_low r : 0 <= r < / 4 -> nearest 2 r = (0%Z, 0%Z, / 2 - r * 2).
Proof.
  intros H. unfold nearest, mirror. destruct (Rltb_spec r 0); [lra|]. destruct (Rltb_spec 1 r); [lra|].
  rewrite (rtrunc_is _ 0) by lra. cbn [Z.eqb Pos.eqb]. destruct (Rleb_spec 0 (r * 2 - 0 - / 2)); [lra|]. cbn.
  rewrite Rabs_left by lra. f_equal. lra.
Qed.
Lemma nearest_2_high r : 3 / 4 < r < 1 -> nearest 2 r = (1%Z, 1%Z, r * 2 - 3 / 2).
Proof.
  intros H. unfold nearest, mirror. destruct (Rltb_spec r 0); [lra|]. destruct (Rltb_spec 1 r); [lra|].
  rewrite (rtrunc_is _ 1) by lra. cbn [Z.eqb Pos.eqb]. destruct (Rleb_spec 0 (r * 2 - 1 - / 2)); [|lra]. cbn.
  rewrite Rabs_right by lra. f_equal. lra.
Qed.
Lemma wrap_in r : 0 <= r < 1 -> wrap r = r.
Proof. intros H. apply (frac_unique r); [apply wrap_ok|]. split; [exact H|]. exists 0%Z. lra. Qed.
Lemma seam del : 0 < del -> exists r, - del < r < 0 /\
  epsilon_file_func [1; 3] 2 1 1 (r, / 2, / 2) = Val (3, 1 / 3) /\ epsilon_file_func [1; 3] 2 1 1 (0, / 2, / 2) = Val (1, 1 / 1).
Proof.
  intros H. exists (- Rmin (del / 2) (/ 8)). assert (Q : 0 < Rmin (del / 2) (/ 8)) by (apply Rmin_glb_lt; lra).
  pose proof (Rmin_l (del / 2) (/ 8)). pose proof (Rmin_r (del / 2) (/ 8)). set (e := Rmin (del / 2) (/ 8)) in *. clearbody e. split; [lra|].
  unfold epsilon_file_func. rewrite (wrap_in (/ 2)) by lra. rewrite (wrap_in 0) by lra.
  assert (W : wrap (- e) = 1 - e). { apply (frac_unique (- e)); [apply wrap_ok|]. split; [lra|]. exists (-1)%Z. lra. }
  rewrite W. unfold linear_interpolate. rewrite (nearest_2_low 0), (nearest_2_high (1 - e)), nearest_1 by lra.
  replace (/ 2 - / 2) with 0 by lra. rewrite Rabs_R0. unfold trilinear. cbn. change (Pos.to_nat 1) with 1%nat. cbn. split.
  - match goal with |- (let! i := fdiv 1 ?v in _) = _ => replace v with 3 by ring end. rewrite fdiv_nz by lra. reflexivity.
  - match goal with |- (let! i := fdiv 1 ?v in _) = _ => replace v with 1 by ring end. rewrite fdiv_nz by lra. reflexivity.
Qed.
