(** Frequencies are the square roots of the eigenvalues. *)
From Coq Require Import List ZArith Reals Bool Arith Lia Lra.
From Verif Require Import Base RC M_Evect M_Lin M_Eig M_Kpt S_Kpt L_Kpt4.
Import ListNotations.
Local Open Scope Z_scope.

Lemma rd_in (l : list R) i v : rd l i = Val v -> In v l.
Proof. unfold rd. destruct (i <? 0); [discriminate|]. destruct (nth_error l (Z.to_nat i)) eqn:E; [|discriminate]. intros Q. injection Q as <-. apply (nth_error_In _ _ E). Qed.
Lemma roots_fin (ev : list R) : (forall v, In v ev -> (0 <= v)%R) ->
  forall k i0 f, for_ k i0 (fun i f => let! v := rd ev i in let! w := (if false then Val v else fsqrt v) in wr f i w) f <> NonFin.
Proof.
  intros Pos. induction k as [|k IH]; intros i0 f; cbn [for_]; [discriminate|]. destruct (rd ev i0) as [v| | |] eqn:E; cbn [bind]; try discriminate.
  - unfold fsqrt. destruct (Rltb_spec v 0) as [Lt|]; [pose proof (Pos v (rd_in _ _ _ E)); lra|]. cbn [bind]. unfold wr at 1. destruct (_ && _); cbn [bind]; [apply IH|discriminate].
  - exfalso. unfold rd in E. destruct (i0 <? 0); [discriminate|]. destruct (nth_error _ _); discriminate.
Qed.
Lemma nth_same (f g : list R) num : length f = num -> length g = num -> (forall i, (i < num)%nat -> nth i f 0%R = nth i g 0%R) -> f = g.
Proof. intros L1 L2 H. apply (nth_ext f g 0%R 0%R); [congruence|]. intros i Hi. apply H. lia. Qed.

Lemma for_length (ev : list R) : forall k i0 f f', for_ k i0 (fun i f => let! v := rd ev i in let! w := (if true then Val v else fsqrt v) in wr f i w) f = Val f' -> length f' = length f.
Proof.
  induction k as [|k IH]; intros i0 f f' E; cbn [for_] in E; [injection E as <-; reflexivity|]. destruct (rd ev i0) as [v| | |]; cbn [bind] in E; try discriminate.
  destruct (wr f i0 v) as [f1| | |] eqn:W; cbn [bind] in E; try discriminate. rewrite (IH _ _ _ E). apply (wr_length _ _ _ _ W).
Qed.
Lemma kpoint_roots parity_c muinv solver fuel zero_k same parity num S2 ev H Hblock BY H' f :
  solve_kpoint parity_c muinv solver fuel zero_k same true parity (Z.of_nat num) S2 ev H Hblock BY = Some (Val (H', f)) -> length f = num -> (forall v, In v f -> (0 <= v)%R) ->
  solve_kpoint parity_c muinv solver fuel zero_k same false parity (Z.of_nat num) S2 ev H Hblock BY = Some (Val (H', map sqrt f)).
Proof.
  intros E Lf Pos. unfold solve_kpoint in *. destruct (if zero_k then zero_k_begin H _ else Val H) as [H1| | |]; try discriminate; [|destruct (solver_blocks _ _ _ _ _); discriminate..].
  destruct (solver_blocks _ _ _ _ _) as [bl|]; [|discriminate]. destruct (solve_loop _ _ _ _ _ _ _ _ _) as [r|]; [|discriminate]. apply (f_equal (@Some _)). injection E as E.
  destruct r as [s| | |]; cbn [bind] in *; try discriminate. match type of E with bind ?o _ = _ => destruct o as [(H2, ev1)| | |] end; cbn [bind] in *; try discriminate.
  match type of E with bind ?o _ = _ => destruct o as [g| | |] eqn:L end; cbn [bind] in *; try discriminate. injection E as -> ->.
  assert (Lev : length ev1 = num).
  { rewrite <- Lf. pose proof (for_length _ _ _ _ _ L) as Q. rewrite map_length in Q. symmetry. exact Q. }
  pose proof (freqs_ok true num ev1 Lev) as K. cbv zeta in K. destruct K as [(g & Eg & Lg & Q)|Eg]; pose proof (eq_trans (eq_sym Eg) L) as E1; [|discriminate]. injection E1 as ->. clear Eg.
  assert (f = ev1) by (apply (nth_same f ev1 num); auto). subst ev1.
  pose proof (freqs_ok false num f Lf) as K. cbv zeta in K. destruct K as [(g & Eg & Lg2 & Q')|K].
  - rewrite Eg. cbn [bind]. apply (f_equal (fun x => Val (H', x))). apply (nth_same g (map sqrt f) num); auto; [rewrite map_length; exact Lf|]. intros i Hi. destruct (Q' i Hi) as (P & S).
    rewrite (nth_indep (map sqrt f) 0%R (sqrt 0%R)) by (rewrite map_length; lia). rewrite map_nth, <- S. rewrite sqrt_square by exact P. reflexivity.
  - exfalso. unfold forZ in K. apply (roots_fin f Pos _ _ _ K).
Qed.
