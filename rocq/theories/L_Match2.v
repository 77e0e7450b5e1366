(** The gradient of the match in builds with half-stored grids: a case where it points the wrong way. *)
From Coq Require Import List ZArith Reals Lra Lia Bool Permutation.
From Verif Require Import Base RC M_Tensor M_Evect M_Grid M_Op M_Interp S_Interp L_Interp L_Interp2 M_Matgrid S_Matgrid L_Matgrid L_Matgrid2 M_Fld S_Fld L_Fld3 M_Half S_Half L_Half L_Half2 M_Match S_Match L_Match.
Import ListNotations.
Local Open Scope R_scope.

Definition mx_g : mgrid := {| gx := 1; gy := 1; gz := 1; gdata := [0] |}.
(** Three points in a cell of length 1, a default grid of one value between 1 and 2, the file [file]. *)
Definition mx_q (file : list R) : mproblem := {| q_n1 := 3; q_n2 := 1; q_n3 := 1; q_sx := 1; q_sy := 1; q_sz := 1; q_eps := file; q_ex := 3; q_ey := 1; q_ez := 1;
  q_grids := [mx_g]; q_tree := fun p => {| f_kind := U_SUM; f_lo := 1; f_hi := 2; f_over := []; f_dflt := Some (p, O) |} |}.
Definition mx_mean (gs : list mgrid) (idx : Z) : R := match gs with [g] => nth 0 (gdata g) 0 + 1 | _ => 0 end.

Lemma tent1 t : tent 1 0 t = 1.
Proof. unfold tent, clamp. replace (Rmin (Rmax t (/ 2)) (1 - / 2)) with (/ 2). { replace (/ 2 - 0 - / 2) with 0 by lra. rewrite Rabs_R0. unfold Rmax. destruct Rle_dec; lra. } unfold Rmin, Rmax. destruct Rle_dec, Rle_dec; lra. Qed.
Lemma value1 p x : grid_value p {| gx := 1; gy := 1; gz := 1; gdata := [x] |} = x.
Proof.
  destruct p as ((a & b) & c). unfold grid_value, tents, abs_pt, weighted, gsum, at3, getr. cbn [gx gy gz gdata]. change (Z.to_nat 1) with 1%nat. cbn [rsum Z.of_nat]. rewrite !tent1. cbn. ring.
Qed.
Lemma whole3 c : In c (whole 3 1 1) -> c = (0, 0, 0)%Z \/ c = (1, 0, 0)%Z \/ c = (2, 0, 0)%Z.
Proof. destruct c as ((i & j) & k). intros H. apply whole_in in H. assert (j = 0 /\ k = 0 /\ (i = 0 \/ i = 1 \/ i = 2))%Z as (-> & -> & [-> |[-> | ->]]) by lia; auto. Qed.
Lemma mx_site i : site 1 1 1 3 1 1 (i, 0, 0)%Z = place 1 1 1 3 1 1 i 0 0.
Proof. reflexivity. Qed.

Lemma mx_eps file rest c x : eps_here (mx_q file) rest c [x] = x + 1.
Proof. unfold eps_here, there, entries. cbn [mx_q q_tree f_over f_dflt f_kind f_lo f_hi q_grids app opt_list]. unfold eps_of, combine, entry_value. cbn [map fst snd nth with_params mx_g gx gy gz fold_right length INR]. change (Z.to_nat (1 * 1 * 1)) with 1%nat. cbn [firstn]. rewrite value1. field. Qed.
Lemma mx_target a b d i : (0 <= i < 3)%Z -> target (mx_q [a; b; d]) (i, 0, 0)%Z = nth (Z.to_nat i) [a; b; d] 0.
Proof.
  intros H. unfold target. cbn [mx_q q_ex q_ey q_ez q_eps q_n1 q_n2 q_n3].
  assert (G : grid_data 3 1 1 1 [a; b; d]) by (unfold grid_data; cbn; lia).
  pose proof (interp_centre 3 1 1 1 [a; b; d] i 0 0 G H ltac:(lia) ltac:(lia)) as X.
  rewrite linear_interpolate_ok in X; [|exact G|].
  - assert (X' : forall p q : R, Val p = Val q -> p = q) by (intros p q Q; injection Q; auto). refine (eq_trans (X' _ _ X) _). unfold at3, getr, rd. assert (i = 0 \/ i = 1 \/ i = 2)%Z as [-> |[-> | ->]] by lia; reflexivity.
  - split; [|split]; apply centre_in; lia.
Qed.
Lemma mx_sound a b d : sound (mx_q [a; b; d]).
Proof.
  unfold sound. cbn [mx_q q_n1 q_n2 q_n3 q_ex q_ey q_ez q_eps q_grids]. repeat (split; [lia|]). split; [unfold grid_data; cbn; lia|]. split; [repeat constructor|].
  intros c H. unfold there, entries. cbn [mx_q q_tree f_over f_dflt app opt_list]. constructor; [|constructor]. split; [|cbn; lia]. cbn [fst q_sx q_sy q_sz q_n1 q_n2 q_n3 mx_q].
  apply whole3 in H as [-> |[-> | ->]]; cbn; lra.
Qed.
Lemma mx_regular file c u : regular (q_grids (mx_q file)) u (there (mx_q file) c).
Proof. exact I. Qed.
Lemma mx_tensors file rest L : tensors_of (mx_q file) rest (L, mx_mean).
Proof. intros c idx u _ Lu. destruct u as [|x [|y u]]; cbn in Lu; try lia. rewrite mx_eps. reflexivity. Qed.
Lemma mx_even file rest c v : length v = 1%nat -> eps_here (mx_q file) rest (mirror 3 1 1 c) v = eps_here (mx_q file) rest c v.
Proof. intros L. destruct v as [|x [|y v]]; cbn in L; try lia. rewrite !mx_eps. reflexivity. Qed.
Lemma mx_whole : whole 3 1 1 = [(0, 0, 0); (1, 0, 0); (2, 0, 0)]%Z.
Proof. reflexivity. Qed.
Lemma mx_mismatch a b d rest x : mismatch (mx_q [a; b; d]) rest [x] = ((x + 1 - a) ^ 2 + (x + 1 - b) ^ 2 + (x + 1 - d) ^ 2) / 3.
Proof.
  unfold mismatch. cbn [q_n1 q_n2 q_n3]. change (q_n1 (mx_q [a; b; d])) with 3%Z. change (q_n2 (mx_q [a; b; d])) with 1%Z. change (q_n3 (mx_q [a; b; d])) with 1%Z. rewrite mx_whole. unfold sumR. cbn [fold_right]. rewrite !mx_eps.
  rewrite !mx_target by lia. change (Z.to_nat 0) with 0%nat. change (Z.to_nat 1) with 1%nat. change (Z.to_nat 2) with 2%nat. cbn [nth]. change (3 * 1 * 1)%Z with 3%Z. field.
Qed.

(** One point's share of the gradient. *)
Lemma mx_point a b d i s x w : (0 <= i < 3)%Z -> point_gradient (mx_q [a; b; d]) (with_params [mx_g] [x]) true i 0 0 s [w] = Val [w + s].
Proof.
  intros H. assert (Hw : In (i, 0, 0)%Z (whole 3 1 1)) by (apply whole_in; lia).
  destruct (grad_ok (mx_q [a; b; d]) (fun _ => 0) [x] true (mx_sound a b d) eq_refl (fun _ c _ => mx_regular [a; b; d] c [x]) i 0 0 s [w] Hw eq_refl) as (w' & A & B & D).
  change (with_params [mx_g] [x]) with (with_params (q_grids (mx_q [a; b; d])) [x]). rewrite A. destruct w' as [|y [|z w']]; cbn in B; try lia. destruct (D eq_refl [1] eq_refl) as (e & De & Q). cbn in Q.
  assert (E1 : derivable_pt_lim (fun t => eps_here (mx_q [a; b; d]) (fun _ => 0) (i, 0, 0)%Z (addl t [x] [1])) 0 1).
  { apply (local_line _ (x + 1) 1 1); [lra|]. intros t _. cbn [addl]. rewrite mx_eps. ring. }
  pose proof (uniqueness_limite _ _ _ _ De E1) as ->. f_equal. f_equal. lra.
Qed.

Definition file121 : list R := [1; 2; 1].
(** The file 1, 2, 1 and the parameter 1/2: the value is right and the gradient has the wrong sign. *)
Lemma mx_point121 i s x w : (0 <= i < 3)%Z -> point_gradient (mx_q file121) (with_params [mx_g] [x]) true i 0 0 s [w] = Val [w + s].
Proof. exact (mx_point 1 2 1 i s x w). Qed.
Lemma mx_half : match_eps_func (mx_q file121) true true [(loop_real 3 1 1, mx_mean)] [/ 2] = Val (/ 4, [- / 3]).
Proof.
  unfold match_eps_func. change (q_n1 (mx_q file121) * q_n2 (mx_q file121) * q_n3 (mx_q file121))%Z with 3%Z. rewrite fdiv_nz by lra. cbn [bind].
  change (grids_set [/ 2] (q_grids (mx_q file121))) with (Val (with_params [mx_g] [/ 2])). cbn [bind mapM fst snd]. unfold match_loop. change (loop_real 3 1 1) with [(0, 0, 0, 0); (1, 0, 0, 1)]%Z. cbn [run].
  assert (F : forall i, (0 <= i < 3)%Z -> file_value (mx_q file121) i 0 0 = Val (nth (Z.to_nat i) file121 0)).
  { intros i Hi. rewrite (file_ok (mx_q file121) [0] (mx_sound 1 2 1) eq_refl i 0 0) by (apply whole_in; cbn; lia). f_equal. exact (mx_target 1 2 1 i Hi). }
  rewrite !F by lia. cbn [bind]. change (repeat 0 (length [/ 2])) with [0].
  change (mx_mean (with_params [mx_g] [/ 2]) 0) with (/ 2 + 1). change (mx_mean (with_params [mx_g] [/ 2]) 1) with (/ 2 + 1).
  rewrite mx_point121 by lia. cbn [bind]. change (true && twice_at (q_n1 (mx_q file121)) (q_n2 (mx_q file121)) (q_n3 (mx_q file121)) (0, 0, 0)%Z) with false. cbn [bind].
  rewrite F by lia. cbn [bind]. rewrite mx_point121 by lia. cbn [bind]. change (true && twice_at (q_n1 (mx_q file121)) (q_n2 (mx_q file121)) (q_n3 (mx_q file121)) (1, 0, 0)%Z) with true. cbv iota.
  change (back (q_n1 (mx_q file121)) 1) with 2%Z. change (back (q_n2 (mx_q file121)) 0) with 0%Z. change (back (q_n3 (mx_q file121)) 0) with 0%Z. rewrite F by lia. cbn [bind]. rewrite mx_point121 by lia. cbn [bind].
  change (Z.to_nat 0) with 0%nat. change (Z.to_nat 1) with 1%nat. change (Z.to_nat 2) with 2%nat. unfold file121. cbn [nth fold_right fst snd map length]. unfold sum_lists, add_lists. cbn [fold_right repeat List.combine map fst snd].
  apply f_equal. apply f_equal2; [field|]. apply (f_equal (fun x => [x])). field.
Qed.
