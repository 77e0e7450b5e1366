(** Property C52: the FFT plan cache. *)
From Coq Require Import List ZArith Bool Lia.
From Verif Require Import Base M_Plan S_Plan L_Plan.
Import ListNotations.
Local Open Scope Z_scope.

(** Any sequence of requests: unless FFTW fails to make a plan, every request is executed with a
    plan for its direction and layout, and never more than 32 pairs of plans are kept. *)
Theorem C52_fits : forall grid w rs, no_plans w ->
  (run_ffts rs (new_pdata grid) w = Abort /\ ~ all_ok rs) \/
  (exists ps d w', run_ffts rs (new_pdata grid) w = Val (ps, d, w') /\ Forall2 (fun x p => fits grid (snd x) p) rs ps /\
     pd_n d <= 32 /\ Z.of_nat (length (f_live w')) = 2 * pd_n d).
Proof.
  intros grid w rs Hw. destruct (run_ok (fun _ => True) grid rs _ w [] (inv_new _ grid w Hw)) as [H|(ps & d & w' & ss & E & I & F & _)]; [apply Forall_forall; exact (fun _ _ => I)|left; exact H|].
  right. exists ps, d, w'. split; [exact E|]. split; [clear - F; induction F as [|x p l l' (F1 & _) F IH]; constructor; assumption|]. destruct I as (_ & _ & En & Hl & _ & El & _). split; [lia|]. rewrite En, El. unfold ids.
  rewrite <- (rev_length ss). clear. induction (rev ss) as [|s l IH]; [reflexivity|]. cbn [flat_map app length]. lia.
Qed.
Print Assumptions C52_fits.
(** Every plan that was made is destroyed exactly once, in the cache or with the data. *)
Theorem C52_no_leak : forall grid w rs ps d w', no_plans w -> run_ffts rs (new_pdata grid) w = Val (ps, d, w') -> exists w'', destroy_plans d w' = Val w'' /\ no_plans w''.
Proof.
  intros grid w rs ps d w' Hw E. destruct (run_ok (fun _ => True) grid rs _ w [] (inv_new _ grid w Hw)) as [(H & _)|(ps1 & d1 & w1 & ss & E1 & I & _)]; [apply Forall_forall; exact (fun _ _ => I)|congruence|].
  rewrite E in E1. injection E1 as -> -> ->. exact (destroy_ok _ _ _ _ _ I).
Qed.
Print Assumptions C52_no_leak.
(** For the first 32 requests a layout is planned once: asked again, nothing is made. *)
Theorem C52_reuse : forall grid w rs ps d w' x r, no_plans w -> run_ffts rs (new_pdata grid) w = Val (ps, d, w') -> (length rs <= 32)%nat -> In x rs -> same_layout r (snd x) ->
  forall ok1 ok2, exists p, compute_fft ok1 ok2 r d w' = Val (p, d, w').
Proof.
  intros grid w rs ps d w' x r Hw E L Hx Sl ok1 ok2. destruct (run_ok (fun _ => True) grid rs _ w [] (inv_new _ grid w Hw)) as [(H & _)|(ps1 & d1 & w1 & ss & E1 & I & _ & _ & K)]; [apply Forall_forall; exact (fun _ _ => I)|congruence|].
  rewrite E in E1. injection E1 as -> -> ->. specialize (K ltac:(cbn; lia) x Hx). destruct (fft_hit _ _ ok1 ok2 r _ _ _ I) as (p & s & Q & _); [|exists p; exact Q].
  unfold found in *. apply rkey_same in Sl. rewrite Sl. exact K.
Qed.
Print Assumptions C52_reuse.
(** All callers of this program work in place, as the two scratch pointers are the same, so
    their plans always suit the arrays they are executed on. *)
Theorem C52_callers : forall grid w rs cs ps d w' fft_data, no_plans w -> map snd rs = map (call fft_data fft_data) cs -> run_ffts rs (new_pdata grid) w = Val (ps, d, w') ->
  Forall2 (fun x p => fits grid (snd x) p /\ placed (snd x) p) rs ps.
Proof.
  intros grid w rs cs ps d w' fd Hw Hc E.
  assert (Hs : forall x, In x rs -> r_in (snd x) = r_out (snd x)).
  { intros x Hx. apply (in_map snd) in Hx. rewrite Hc in Hx. apply in_map_iff in Hx. destruct Hx as (c & <- & _). destruct c; cbn; unfold other_buf; rewrite ?Z.eqb_refl; reflexivity. }
  destruct (run_ok (fun b => b = true) grid rs _ w [] (inv_new _ grid w Hw)) as [(H & _)|(ps1 & d1 & w1 & ss & E1 & I & F & _)]; [apply Forall_forall; intros x Hx; unfold suits; apply Z.eqb_eq, Hs, Hx|congruence|].
  rewrite E in E1. injection E1 as -> -> ->. clear - F Hs. induction F as [|x p l l' (F1 & F2) F IH]; [constructor|]. constructor.
  - split; [exact F1|]. unfold placed. rewrite F2. split; [intros _; apply Hs; left; reflexivity|reflexivity].
  - apply IH. intros y Hy. apply Hs. right. exact Hy.
Qed.
Print Assumptions C52_callers.
(** The function itself does not look at the arrays: a request out of place after one in place
    with the same layout gets the in-place plan. *)
Theorem C52_placed_refuted : exists rs ps d w' x p, run_ffts rs (new_pdata (4, 4, 1)) {| f_next := 0; f_live := [] |} = Val (ps, d, w') /\
  nth_error rs 1 = Some x /\ nth_error ps 1 = Some p /\ ~ placed (snd x) p.
Proof.
  exists [(true, true, req 1 10 10 3 3 1); (true, true, req 1 10 20 3 3 1)]. eexists _, _, _, _, _. split; [reflexivity|]. split; [reflexivity|]. split; [reflexivity|].
  unfold placed. cbn. intros [H _]. specialize (H eq_refl). discriminate.
Qed.
Print Assumptions C52_placed_refuted.

(** An operator application on two bands, then a divergence: three layouts, four requests. *)
Example C52_example : exists ps d w, run_ffts (map (fun c => (true, true, call 10 10 c)) [d_from_H 10 2; H_from_e 10 2; div_to 10; div_from 10]) (new_pdata (4, 4, 1)) {| f_next := 0; f_live := [] |} = Val (ps, d, w) /\
  pd_n d = 3 /\ map p_id ps = [1; 0; 2; 5].
Proof. eexists _, _, _. split; [vm_compute; reflexivity|]. split; reflexivity. Qed.
(** With 33 layouts the last pair is not kept. *)
Example C52_full : exists ps d w, run_ffts (map (fun n => (true, true, call 10 10 (ucross (Z.of_nat n)))) (seq 1 33)) (new_pdata (4, 4, 1)) {| f_next := 0; f_live := [] |} = Val (ps, d, w) /\
  pd_n d = 32 /\ length (f_live w) = 64%nat /\ f_next w = 66.
Proof. eexists _, _, _. split; [vm_compute; reflexivity|]. repeat split; reflexivity. Qed.
