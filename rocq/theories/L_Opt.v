(** Proofs about the gap optimization. *)
From Coq Require Import List ZArith Reals Lra Lia Bool.
From Verif Require Import Base RC M_Tensor M_Evect M_Grid M_Opt S_Opt S_Matgrid L_Matgrid2.
Import ListNotations.
Local Open Scope R_scope.

Lemma rd_mid {A} (l : list A) a t i : i = Z.of_nat (length l) -> rd (l ++ a :: t) i = Val a.
Proof.
  intros ->. unfold rd. destruct (Z.ltb_spec (Z.of_nat (length l)) 0); [lia|]. rewrite Nat2Z.id, nth_error_app2 by lia.
  rewrite Nat.sub_diag. reflexivity.
Qed.
Lemma upd_mid {A} (l : list A) a t v : upd_nat (l ++ a :: t) (length l) v = l ++ v :: t.
Proof. induction l; cbn; [reflexivity|]. rewrite IHl. reflexivity. Qed.
Lemma wr_mid {A} (l : list A) a t v i : i = Z.of_nat (length l) -> wr (l ++ a :: t) i v = Val (l ++ v :: t).
Proof. intros ->. rewrite wr_in by (rewrite app_length; cbn; lia). rewrite Nat2Z.id, upd_mid. reflexivity. Qed.
Lemma app2 {A} (l : list A) a b : l ++ [a; b] = (l ++ [a]) ++ [b].
Proof. rewrite <- app_assoc. reflexivity. Qed.
Lemma last2 {A} (l : list A) : (2 <= length l)%nat -> exists m a b, l = m ++ [a; b] /\ length m = (length l - 2)%nat.
Proof.
  intros H. assert (N : l <> []) by (intros ->; cbn in H; lia). destruct (exists_last N) as (l1 & b & ->).
  rewrite app_length in *. cbn in *. assert (N1 : l1 <> []) by (intros ->; cbn in H; lia). destruct (exists_last N1) as (m & a & ->).
  exists m, a, b. rewrite app_length. cbn. split; [rewrite <- app_assoc; reflexivity|lia].
Qed.
Lemma memset_ok l t n : n = Z.of_nat (length l) -> memset0 (l ++ t) n = Val (repeat 0 (length l) ++ t).
Proof.
  intros ->. unfold memset0. rewrite app_length. destruct (Z.leb_spec 0 (Z.of_nat (length l))); [|lia].
  destruct (Z.leb_spec (Z.of_nat (length l)) (Z.of_nat (length l + length t))); [|lia]. cbn [andb].
  rewrite Nat2Z.id, skipn_app, skipn_all, Nat.sub_diag. reflexivity.
Qed.

Lemma dotl_app a b c d : length a = length c -> dotl (a ++ b) (c ++ d) = dotl a c + dotl b d.
Proof. revert c. induction a; destruct c; cbn; intros H; try discriminate; [ring|]. rewrite IHa by congruence. ring. Qed.
Lemma dotl_0 n h : dotl (repeat 0 n) h = 0.
Proof. revert h. induction n; destruct h; cbn; try reflexivity. rewrite IHn. ring. Qed.
Lemma addl_app t a b c d : length a = length c -> addl t (a ++ b) (c ++ d) = addl t a c ++ addl t b d.
Proof. revert c. induction a; destruct c; cbn; intros H; try discriminate; [reflexivity|]. rewrite IHa by congruence. reflexivity. Qed.

Lemma goal_at m p f2 f1 : goal m (p ++ [f2; f1]) = if m then rel_gap f1 f2 else - rel_gap f1 f2.
Proof.
  unfold goal. rewrite app_length. cbn [length].
  replace (length p + 2 - 1)%nat with (length p + 1)%nat by lia. replace (length p + 2 - 2)%nat with (length p) by lia.
  rewrite !app_nth2 by lia. rewrite Nat.sub_diag. replace (length p + 1 - length p)%nat with 1%nat by lia. reflexivity.
Qed.

Lemma line_lim a b : derivable_pt_lim (fun t => a + t * b) 0 b.
Proof. apply (local_line _ a b 1); [lra|]. reflexivity. Qed.

Lemma lim_ext f g x l : (forall t, f t = g t) -> derivable_pt_lim g x l -> derivable_pt_lim f x l.
Proof. intros E H e He. destruct (H e He) as (d & Hd). exists d. intros h Hh Hb. rewrite !E. exact (Hd h Hh Hb). Qed.
Lemma lim_eq f x l l' : l = l' -> derivable_pt_lim f x l -> derivable_pt_lim f x l'.
Proof. intros <-. exact (fun H => H). Qed.

Lemma gap_lim f1 f2 h1 h2 : f1 + f2 <> 0 -> derivable_pt_lim (fun t => rel_gap (f1 + t * h1) (f2 + t * h2)) 0
  (- (2 * ((f1 + f2) - (f1 - f2)) / ((f1 + f2) * (f1 + f2))) * h1 + - (2 * (- (f1 + f2) - (f1 - f2)) / ((f1 + f2) * (f1 + f2))) * h2).
Proof.
  intros H.
  assert (N : derivable_pt_lim (fun t => (f2 - f1) + t * (h2 - h1)) 0 (h2 - h1)) by apply line_lim.
  assert (D : derivable_pt_lim (fun t => (f1 + f2) / 2 + t * ((h1 + h2) / 2)) 0 ((h1 + h2) / 2)) by apply line_lim.
  assert (D0 : (f1 + f2) / 2 + 0 * ((h1 + h2) / 2) <> 0) by lra.
  pose proof (derivable_pt_lim_div _ _ _ _ _ N D D0) as Q.
  eapply lim_eq; [|eapply lim_ext; [|exact Q]]; cbv beta.
  - unfold Rsqr. field. lra.
  - intros t. unfold div_fct, rel_gap. f_equal; [ring|field].
Qed.

Lemma maxgap_ok u grad m : (2 <= length u)%nat -> length grad = length u ->
  nth (length u - 1) u 0 + nth (length u - 2) u 0 <> 0 ->
  exists g, maxgap_func (Z.of_nat (length u)) u grad m = Val (goal m u, g) /\ length g = length u /\
  forall h, length h = length u -> derivable_pt_lim (fun t => goal m (addl t u h)) 0 (dotl g h).
Proof.
  intros L Lg N. destruct (last2 u L) as (p & f2 & f1 & -> & Lp). rewrite app_length in *. cbn [length] in *. clear Lp.
  assert (L2 : (2 <= length grad)%nat) by lia. destruct (last2 grad L2) as (q & y & x & -> & Lq). rewrite app_length in *. cbn [length] in *.
  assert (E : length q = length p) by lia. clear Lq L2 L Lg.
  rewrite !app_nth2 in N by lia. replace (length p + 2 - 1 - length p)%nat with 1%nat in N by lia. replace (length p + 2 - 2 - length p)%nat with 0%nat in N by lia.
  cbn [nth] in N.
  set (n := Z.of_nat (length p + 2)). assert (N1 : (n - 1 = Z.of_nat (length (p ++ [f2])))%Z) by (rewrite app_length; cbn; lia).
  assert (N2 : (n - 2 = Z.of_nat (length p))%Z) by lia.
  exists (repeat 0 (length p) ++ [ (if m then -1 else 1) * (2 * (- (f1 + f2) - (f1 - f2)) / ((f1 + f2) * (f1 + f2))); (if m then -1 else 1) * (2 * ((f1 + f2) - (f1 - f2)) / ((f1 + f2) * (f1 + f2))) ]).
  split; [|split].
  - unfold maxgap_func. rewrite app2 at 1. rewrite (rd_mid (p ++ [f2]) f1 [] _ N1). cbn [bind]. rewrite (rd_mid p f2 [f1] _ N2). cbn [bind].
    rewrite fdiv_nz by lra. cbn [bind]. rewrite (memset_ok q [y; x]) by lia. cbn [bind]. rewrite E.
    assert (Q : (f1 + f2) * (f1 + f2) <> 0) by (intros Z; apply Rmult_integral in Z; lra).
    rewrite fdiv_nz by exact Q. cbn [bind].
    rewrite app2. assert (R1 : forall w : R, (n - 1 = Z.of_nat (length (repeat 0%R (length p) ++ [w])))%Z) by (intros w; rewrite app_length, repeat_length; cbn; lia).
    assert (R2 : (n - 2 = Z.of_nat (length (repeat 0%R (length p))))%Z) by (rewrite repeat_length; lia).
    rewrite (wr_mid _ x [] _ _ (R1 y)). cbn [bind]. rewrite fdiv_nz by exact Q. cbn [bind].
    rewrite <- app2, (wr_mid _ y _ _ _ R2). cbn [bind]. destruct m.
    + rewrite app2. rewrite (rd_mid _ _ [] _ (R1 _)). cbn [bind]. rewrite (wr_mid _ _ [] _ _ (R1 _)). cbn [bind]. rewrite <- app2.
      rewrite (rd_mid _ _ _ _ R2). cbn [bind]. rewrite (wr_mid _ _ _ _ _ R2). cbn [bind]. rewrite goal_at. f_equal. f_equal.
      * unfold rel_gap. field. lra.
      * f_equal. f_equal; [ring|]. f_equal. ring.
    + cbn [bind]. rewrite goal_at. f_equal. f_equal.
      * unfold rel_gap. field. lra.
      * f_equal. f_equal; [ring|]. f_equal. ring.
  - rewrite app_length, repeat_length. reflexivity.
  - intros h Lh. destruct (last2 h ltac:(lia)) as (r & h2 & h1 & -> & Lr). rewrite app_length in *. cbn [length] in *.
    apply (lim_ext _ (fun t => (if m then 1 else -1) * rel_gap (f1 + t * h1) (f2 + t * h2))).
    + intros t. rewrite addl_app by lia. cbn [addl]. rewrite goal_at. destruct m; ring.
    + rewrite dotl_app by (rewrite repeat_length; lia). rewrite dotl_0. cbn [dotl].
      eapply lim_eq; [|apply derivable_pt_lim_scal; exact (gap_lim f1 f2 h1 h2 N)]. destruct m; ring.
Qed.

(* constraints *)
Lemma addv_length a b : length a = length b -> length (addv a b) = length a.
Proof. revert b. induction a; destruct b; cbn; intros H; try discriminate; [reflexivity|]. rewrite IHa by congruence. reflexivity. Qed.
Lemma addv_0_r a : addv a (repeat 0 (length a)) = a.
Proof. induction a; cbn; [reflexivity|]. rewrite IHa, Rplus_0_r. reflexivity. Qed.
Lemma addv_0_l a : addv (repeat 0 (length a)) a = a.
Proof. induction a; cbn; [reflexivity|]. rewrite IHa, Rplus_0_l. reflexivity. Qed.
Lemma addv_app a b c d : length a = length b -> addv (a ++ c) (b ++ d) = addv a b ++ addv c d.
Proof. revert b. induction a; destruct b; cbn; intros H; try discriminate; [reflexivity|]. rewrite IHa by congruence. reflexivity. Qed.
Lemma dotl_addv a b h : length a = length b -> length h = length a -> dotl (addv a b) h = dotl a h + dotl b h.
Proof. revert b h. induction a; destruct b, h; cbn; intros H H'; try discriminate; [ring|]. rewrite IHa by congruence. ring. Qed.
Lemma dotl_scal s a h : dotl (map (Rmult s) a) h = s * dotl a h.
Proof. revert h. induction a; destruct h; cbn; try ring. rewrite IHa. ring. Qed.

Lemma vsum_length m parts : Forall (fun l => length l = m) parts -> length (vsum m parts) = m.
Proof. induction 1; cbn; [apply repeat_length|]. fold (vsum m l). rewrite addv_length; [exact H|]. lia. Qed.

Lemma reduce_scaled m s parts works : Forall (fun l => length l = m) parts -> length works = length parts ->
  Forall (fun w => exists a b, length a = m /\ w = a ++ b) works ->
  exists ws, mapM (fun x => let! w := memset0 (snd x) (Z.of_nat m) in Val (add_scaled s (fst x) w)) (List.combine parts works) = Val ws /\
    reduce m ws = map (Rmult s) (vsum m parts).
Proof.
  intros H. revert works. induction H as [|p t Hp Ht IH]; intros works L F.
  - exists []. cbn. split; [reflexivity|]. clear. induction m; cbn; [reflexivity|]. rewrite <- IHm. f_equal. ring.
  - destruct works as [|w ws]; [discriminate|]. cbn [List.combine]. inversion F as [|? ? (a & b & La & Ew) F']. subst w x l.
    destruct (IH ws ltac:(cbn in L; lia) F') as (r & E & R). exists (add_scaled s p (repeat 0 m ++ b) :: r).
    cbn [mapM fst snd]. rewrite memset_ok by (f_equal; lia). cbn [bind]. rewrite E. cbn [bind]. rewrite La. split; [reflexivity|].
    cbn [reduce fold_right vsum]. fold (reduce m r). fold (vsum m t). rewrite R.
    unfold add_scaled. rewrite app_length, repeat_length, Hp. replace (m + length b - m)%nat with (length b) by lia.
    rewrite addv_app by (rewrite repeat_length, map_length; lia). rewrite addv_0_r.
    replace (repeat 0 m) with (repeat 0 (length (map (Rmult s) p))) by (rewrite map_length, Hp; reflexivity). rewrite addv_0_l.
    rewrite firstn_app. rewrite map_length, Hp, Nat.sub_diag. cbn [firstn]. rewrite app_nil_r, firstn_all2 by (rewrite map_length; lia).
    pose proof (vsum_length _ _ Ht) as Lv. revert Hp Lv. generalize (vsum m t) as v. clear.
    intros v. revert v m. induction p; destruct v; cbn; intros k H H'; try lia; [reflexivity|]. f_equal; [ring|]. apply (IHp _ (k - 1)%nat); lia.
Qed.

Lemma cval_at kd F p f2 f1 : cval kd F (p ++ [f2; f1]) = match kd with BAND1 => F p - f1 | BAND2 => f2 - F p end.
Proof.
  unfold cval. rewrite app_length. cbn [length].
  replace (length p + 2 - 1)%nat with (length p + 1)%nat by lia. replace (length p + 2 - 2)%nat with (length p) by lia.
  rewrite !app_nth2 by lia. rewrite Nat.sub_diag. replace (length p + 1 - length p)%nat with 1%nat by lia.
  rewrite firstn_app, firstn_all, Nat.sub_diag. cbn [firstn]. rewrite app_nil_r. reflexivity.
Qed.

Lemma constraint_grad_ok kd F u parts works : (2 <= length u)%nat ->
  Forall (fun l => length l = (length u - 2)%nat) parts -> length works = length parts -> Forall (fun l => length l = length u) works ->
  (forall h, length h = (length u - 2)%nat -> derivable_pt_lim (fun t => F (addl t (firstn (length u - 2) u) h)) 0 (dotl (vsum (length u - 2) parts) h)) ->
  exists g, constraint_grad (Z.of_nat (length u)) kd parts works = Val g /\ length g = length u /\
  forall h, length h = length u -> derivable_pt_lim (fun t => cval kd F (addl t u h)) 0 (dotl g h).
Proof.
  intros L Fp Lw Fw D. destruct (last2 u L) as (p & f2 & f1 & -> & Lp). rewrite app_length in *. cbn [length] in *.
  replace (length p + 2 - 2)%nat with (length p) in * by lia. clear Lp L.
  rewrite firstn_app, firstn_all, Nat.sub_diag in D. cbn [firstn] in D. rewrite app_nil_r in D.
  assert (Fw' : Forall (fun w => exists a b, length a = length p /\ w = a ++ b) works).
  { eapply Forall_impl; [|exact Fw]. intros w Hw. cbn in Hw. exists (firstn (length p) w), (skipn (length p) w).
    rewrite firstn_skipn, firstn_length. split; [lia|reflexivity]. }
  destruct (reduce_scaled (length p) (match kd with BAND1 => 1 | BAND2 => -1 end) parts works Fp Lw Fw') as (ws & E & R).
  unfold constraint_grad. replace (Z.of_nat (length p + 2) - 2)%Z with (Z.of_nat (length p)) by lia.
  rewrite E. cbn [bind]. rewrite Nat2Z.id, R. eexists. split; [reflexivity|].
  pose proof (vsum_length _ _ Fp) as Lv. split.
  - rewrite app_length, map_length, Lv. destruct kd; reflexivity.
  - intros h Lh. destruct (last2 h ltac:(lia)) as (r & h2 & h1 & -> & Lr). rewrite app_length in *. cbn [length] in *.
    assert (Lr' : length r = length p) by lia. specialize (D r Lr').
    apply (lim_ext _ (fun t => match kd with BAND1 => F (addl t p r) - (f1 + t * h1) | BAND2 => (f2 + t * h2) - F (addl t p r) end)).
    + intros t. rewrite addl_app by lia. cbn [addl]. rewrite cval_at. reflexivity.
    + rewrite dotl_app by (rewrite map_length; lia). rewrite dotl_scal. destruct kd; cbn [dotl].
      * eapply lim_eq; [|apply derivable_pt_lim_minus; [exact D|apply line_lim]]. ring.
      * eapply lim_eq; [|apply derivable_pt_lim_minus; [apply line_lim|exact D]]. ring.
Qed.

(* history *)
Lemma vec_eqb_ok a b : vec_eqb a b = true <-> a = b.
Proof.
  destruct a as [[x y] z], b as [[x' y'] z']. cbn.
  destruct (Reqb_spec x x'), (Reqb_spec y y'), (Reqb_spec z z'); cbn; split; intros H; try discriminate; try congruence.
Qed.
Definition fresh (solve : list R -> vec -> list R) (s : ostate) : Prop := o_unsolved s = false -> o_freqs s = solve (o_params s) (o_k s).
Lemma ensure_ok solve k s : fresh solve s -> fresh solve (ensure_solved solve k s) /\ o_params (ensure_solved solve k s) = o_params s /\
  o_freqs (ensure_solved solve k s) = solve (o_params s) k.
Proof.
  intros H. unfold ensure_solved. destruct (vec_eqb (o_k s) k) eqn:E; cbn [negb orb].
  - apply vec_eqb_ok in E. destruct (o_unsolved s) eqn:U; cbn; split; try split; unfold fresh; cbn; auto; rewrite <- E; auto.
  - cbn. split; [intros _; reflexivity|]. split; reflexivity.
Qed.
Lemma rd_nth0 {A} (l : list A) i d : (0 <= i < Z.of_nat (length l))%Z -> rd l i = Val (nth (Z.to_nat i) l d).
Proof.
  intros H. unfold rd. destruct (Z.ltb_spec i 0); [lia|]. rewrite (nth_error_nth' l d) by lia. reflexivity.
Qed.
Lemma run_ok solve b1 b2 ks n nb : (forall p k, length (solve p k) = nb) -> (0 < b1 <= Z.of_nat nb)%Z -> (0 < b2 <= Z.of_nat nb)%Z -> (2 <= n)%Z ->
  forall cs s, fresh solve s -> Forall (call_ok ks n) cs -> run solve b1 b2 ks n s cs = Val (expected solve b1 b2 ks n (o_params s) cs).
Proof.
  intros L B1 B2 N cs. induction cs as [|c t IH]; intros s F H; [reflexivity|]. inversion H as [|? ? Hc Ht]; subst. destruct c as [u|u kd ik]; cbn [run expected].
  - rewrite IH; [reflexivity| |exact Ht]. intros U. discriminate.
  - destruct Hc as [Lu Hk]. unfold band_constraint. rewrite (rd_nth0 ks ik (0, 0, 0) Hk). cbn [bind].
    destruct (ensure_ok solve (nth (Z.to_nat ik) ks (0, 0, 0)) s F) as (F' & P & Q). rewrite Q.
    destruct kd; rewrite (rd_nth0 _ _ 0) by (rewrite L; lia); cbn [bind]; rewrite (rd_nth0 u _ 0) by lia; cbn [bind];
      rewrite IH by assumption; rewrite P; cbv zeta.
    + replace (Z.to_nat (n - 1)) with (length u - 1)%nat by lia. reflexivity.
    + replace (Z.to_nat (n - 2)) with (length u - 2)%nat by lia. reflexivity.
Qed.

(* band edges *)
Lemma extremes_gen l : forall mx mn, exists M m, fold_left (fun acc f => let '(mx, mn) := acc in
    (if Rltb mx (fst f) then fst f else mx, match mn with None => Some (snd f) | Some m => if Rltb (snd f) m then Some (snd f) else Some m end))
    l (mx, Some mn) = (M, Some m) /\ mx <= M /\ m <= mn /\ (forall f : R * R, In f l -> fst f <= M /\ m <= snd f) /\
    (M = mx \/ exists f : R * R, In f l /\ M = fst f) /\ (m = mn \/ exists f : R * R, In f l /\ m = snd f).
Proof.
  induction l as [|f t IH]; intros mx mn.
  - exists mx, mn. cbn. split; [reflexivity|]. split; [lra|]. split; [lra|]. split; [intros f []|]. split; left; reflexivity.
  - cbn [fold_left]. set (mx' := if Rltb mx (fst f) then fst f else mx). set (mn' := if Rltb (snd f) mn then snd f else mn).
    destruct (IH mx' mn') as (M & m & E & A & B & I & P & Q). exists M, m. split.
    + rewrite <- E. f_equal. f_equal. unfold mn'. destruct (Rltb (snd f) mn); reflexivity.
    + assert (mx <= mx' /\ fst f <= mx' /\ (mx' = mx \/ mx' = fst f)) as (X1 & X2 & X3) by (unfold mx'; destruct (Rltb_spec mx (fst f)); repeat split; auto; lra).
      assert (mn' <= mn /\ mn' <= snd f /\ (mn' = mn \/ mn' = snd f)) as (Y1 & Y2 & Y3) by (unfold mn'; destruct (Rltb_spec (snd f) mn); repeat split; auto; lra).
      split; [lra|]. split; [lra|]. split.
      * intros g [<-|Hg]; [split; lra|exact (I g Hg)].
      * split.
        -- destruct P as [->|(g & Hg & ->)]; [destruct X3 as [->| ->]; [left; reflexivity|right; exists f; split; [left|]; reflexivity]|right; exists g; split; [right; exact Hg|reflexivity]].
        -- destruct Q as [->|(g & Hg & ->)]; [destruct Y3 as [->| ->]; [left; reflexivity|right; exists f; split; [left|]; reflexivity]|right; exists g; split; [right; exact Hg|reflexivity]].
Qed.
Lemma extremes_ok f1s f2s : length f2s = length f1s -> f1s <> [] -> (forall f, In f f1s -> 0 < f) -> (forall f, In f f2s -> 0 < f) ->
  exists M m, extremes f1s f2s = (M, Some m) /\ In M f1s /\ In m f2s /\ (forall f, In f f1s -> f <= M) /\ (forall f, In f f2s -> m <= f).
Proof.
  intros L N P1 P2. destruct f1s as [|a f1s]; [contradiction|]. destruct f2s as [|b f2s]; [discriminate|]. unfold extremes. cbn [List.combine fold_left fst snd].
  assert (0 < a) by (apply P1; left; reflexivity). destruct (Rltb_spec 0 a); [|lra].
  destruct (extremes_gen (List.combine f1s f2s) a b) as (M & m & E & A & B & I & P & Q). exists M, m. split; [exact E|].
  assert (C1 : forall f, In f f1s -> exists g, In (f, g) (List.combine f1s f2s)).
  { clear - L. revert f2s L. induction f1s as [|x t IH]; intros [|y s] L f Hf; cbn in *; try lia; try contradiction.
    destruct Hf as [->|Hf]; [exists y; left; reflexivity|]. destruct (IH s ltac:(lia) f Hf) as (g & Hg). exists g. right. exact Hg. }
  assert (C2 : forall f, In f f2s -> exists g, In (g, f) (List.combine f1s f2s)).
  { clear - L. revert f2s L. induction f1s as [|x t IH]; intros [|y s] L f Hf; cbn in *; try lia; try contradiction.
    destruct Hf as [->|Hf]; [exists x; left; reflexivity|]. destruct (IH s ltac:(lia) f Hf) as (g & Hg). exists g. right. exact Hg. }
  split; [|split; [|split]].
  - destruct P as [->|([x y] & Hg & ->)]; [left; reflexivity|right; exact (in_combine_l _ _ _ _ Hg)].
  - destruct Q as [->|([x y] & Hg & ->)]; [left; reflexivity|right; exact (in_combine_r _ _ _ _ Hg)].
  - intros f [<-|Hf]; [exact A|]. destruct (C1 f Hf) as (g & Hg). exact (proj1 (I _ Hg)).
  - intros f [<-|Hf]; [exact B|]. destruct (C2 f Hf) as (g & Hg). exact (proj2 (I _ Hg)).
Qed.
