(** Proofs about the match with a file. *)
From Coq Require Import List ZArith Reals Lra Lia Bool Permutation.
From Verif Require Import Base RC M_Tensor M_Evect M_Grid M_Op M_Interp S_Interp L_Interp L_Interp2 M_Matgrid S_Matgrid L_Matgrid L_Matgrid2 M_Fld S_Fld L_Fld3 M_Half S_Half L_Half L_Half2 M_Match S_Match.
Import ListNotations.
Local Open Scope R_scope.

Lemma deriv_ext f g x l : (forall t, f t = g t) -> derivable_pt_lim f x l -> derivable_pt_lim g x l.
Proof. intros E D eps He. destruct (D eps He) as (del & H). exists del. intros h Hh Hl. rewrite <- !E. exact (H h Hh Hl). Qed.
Lemma deriv_square f c x l : derivable_pt_lim f x l -> derivable_pt_lim (fun t => (f t - c) ^ 2) x (2 * (f x - c) * l).
Proof.
  intros D. pose proof (derivable_pt_lim_minus f (fun _ => c) x l 0 D (derivable_pt_lim_const c x)) as M.
  pose proof (derivable_pt_lim_mult _ _ _ _ _ M M) as Q. apply (deriv_ext (mult_fct (f - (fun _ => c))%F (f - (fun _ => c))%F)).
  - intros t. unfold mult_fct, minus_fct. ring.
  - replace (2 * (f x - c) * l) with ((l - 0) * (f - (fun _ => c))%F x + (f - (fun _ => c))%F x * (l - 0)); [exact Q|]. unfold minus_fct. ring.
Qed.
Lemma deriv_add f g x a b : derivable_pt_lim f x a -> derivable_pt_lim g x b -> derivable_pt_lim (fun t => f t + g t) x (a + b).
Proof. exact (derivable_pt_lim_plus f g x a b). Qed.
Lemma deriv_scale f x a c : derivable_pt_lim f x a -> derivable_pt_lim (fun t => f t / c) x (a / c).
Proof.
  intros D. apply (deriv_ext (mult_real_fct (/ c) f)); [intros t; unfold mult_real_fct; unfold Rdiv; ring|].
  replace (a / c) with (/ c * a) by (unfold Rdiv; ring). exact (derivable_pt_lim_scal f (/ c) x a D).
Qed.
Lemma addl_0 u : forall h, length h = length u -> addl 0 u h = u.
Proof. induction u as [|a u IH]; intros [|b h] H; cbn in *; try lia; [reflexivity|]. rewrite IH by lia. f_equal. ring. Qed.

Lemma dot_add a : forall b h, length a = length b -> dotl (add_lists a b) h = dotl a h + dotl b h.
Proof.
  induction a as [|x a IH]; intros [|y b] h H; cbn in *; try lia; [lra|]. destruct h as [|z h]; [lra|]. fold (add_lists a b). rewrite IH by lia. ring.
Qed.
Lemma add_len a b : length a = length b -> length (add_lists a b) = length a.
Proof. intros H. unfold add_lists. rewrite map_length, combine_length. lia. Qed.
Lemma dot_zero n : forall h, dotl (repeat 0 n) h = 0.
Proof. induction n as [|n IH]; intros [|b h]; cbn; try reflexivity. rewrite IH. ring. Qed.

Lemma centre_in n i : (0 <= i < n)%Z -> 0 <= (IZR i + / 2) / IZR n <= 1.
Proof.
  intros H. assert (P : 0 < IZR n) by (apply IZR_lt; lia). assert (A : 0 <= IZR i) by (apply IZR_le; lia). assert (B : IZR i + 1 <= IZR n) by (rewrite <- plus_IZR; apply IZR_le; lia).
  split; [apply Rmult_le_pos; [lra|apply Rlt_le, Rinv_0_lt_compat, P]|]. apply (Rmult_le_reg_r (IZR n) _ _ P). unfold Rdiv. rewrite Rmult_assoc, Rinv_l by lra. lra.
Qed.

Section Point.
Variables (gs : list mgrid) (u : list R).
Hypothesis G : Forall grid_ok gs.
Hypothesis Lu : length u = S_Matgrid.total gs.
Definition eps_f (r : R) (f : found) (u : list R) : R :=
  match entries f with [] => r | es => eps_of (f_kind f) (f_lo f) (f_hi f) gs es u end.
Lemma point_ok f r s w : Forall (entry_ok gs) (entries f) -> regular gs u f -> length w = S_Matgrid.total gs ->
  exists w', addgradient_point (f_kind f) (f_lo f) (f_hi f) (with_params gs u) (f_over f) (f_dflt f) s w = Val w' /\ length w' = length w /\
  forall h, length h = S_Matgrid.total gs -> exists d, derivable_pt_lim (fun t => eps_f r f (addl t u h)) 0 d /\ dotl w' h - dotl w h = s * d.
Proof.
  intros EO Rg Lw. destruct (entries f) as [|e es] eqn:Ef.
  - unfold entries in Ef. apply app_eq_nil in Ef as (E1 & E2). assert (E3 : f_dflt f = None) by (destruct (f_dflt f); [discriminate E2|reflexivity]). exists w. unfold addgradient_point. rewrite E1, E3. split; [reflexivity|]. split; [reflexivity|].
    intros h Lh. exists 0. split; [|ring]. apply (deriv_ext (fun _ => r)); [|apply derivable_pt_lim_const]. intros t. unfold eps_f, entries. rewrite E1, E3. reflexivity.
  - assert (NE : entries f <> []) by (rewrite Ef; discriminate). rewrite <- Ef in EO.
    assert (EV : forall v, eps_f r f v = eps_of (f_kind f) (f_lo f) (f_hi f) gs (entries f) v) by (intros v; unfold eps_f; rewrite Ef; reflexivity).
    unfold regular in Rg. destruct (f_kind f) eqn:K.
    + destruct Rg as [Rg|(l1 & e1 & l2 & SP & A & B)]; [contradiction|]. destruct (grad_min (f_lo f) (f_hi f) gs u w (f_over f) (f_dflt f) s G Lu Lw NE EO l1 e1 l2 SP A B) as (w' & E & L' & D).
      exists w'. split; [exact E|]. split; [exact L'|]. intros h Lh. destruct (D h Lh) as (d & Dd & Q). exists d. split; [|exact Q]. exact (deriv_ext _ _ _ _ (fun t => eq_sym (EV _)) Dd).
    + destruct (grad_prod (f_lo f) (f_hi f) gs u w (f_over f) (f_dflt f) s G Lu Lw NE EO Rg) as (w' & E & L' & D).
      exists w'. split; [exact E|]. split; [exact L'|]. intros h Lh. destruct (D h Lh) as (d & Dd & Q). exists d. split; [|exact Q]. exact (deriv_ext _ _ _ _ (fun t => eq_sym (EV _)) Dd).
    + destruct (grad_sum (f_lo f) (f_hi f) gs u w (f_over f) (f_dflt f) s G Lu Lw NE EO) as (w' & E & L' & D).
      destruct (grad_sum (f_lo f) (f_hi f) gs u w (f_over f) (f_dflt f) 1 G Lu Lw NE EO) as (w1 & _ & _ & D1).
      exists w'. split; [exact E|]. split; [exact L'|]. intros h Lh. exists (dotl w1 h - dotl w h). split.
      * apply (local_line _ (eps_f r f u) _ 1); [lra|]. intros t _. specialize (D1 h t Lh). rewrite !EV. fold (entries f) in D1. lra.
      * pose proof (D h 1 Lh) as X. pose proof (D1 h 1 Lh) as Y. nra.
Qed.
End Point.

Section Match.
Variables (q : mproblem) (rest : Z * Z * Z -> R) (u : list R) (real want : bool).
Hypothesis So : sound q.
Hypothesis Lu : length u = S_Matgrid.total (q_grids q).
Notation n1 := (q_n1 q).
Notation n2 := (q_n2 q).
Notation n3 := (q_n3 q).
Notation gs := (with_params (q_grids q) u).
Notation E := (eps_here q rest).
Notation T := (target q).
Hypothesis Rg : want = true -> forall c, In c (whole n1 n2 n3) -> regular (q_grids q) u (there q c).
Hypothesis Ev : real = true -> forall c v, In c (whole n1 n2 n3) -> length v = length u -> E (mirror n1 n2 n3 c) v = E c v.

Lemma grids_fine : Forall grid_ok (q_grids q).
Proof. destruct So as (_ & _ & _ & _ & F & _). eapply Forall_impl; [|exact F]. intros g (Hg & _). exact Hg. Qed.
Lemma file_ok i j k : In (i, j, k) (whole n1 n2 n3) -> file_value q i j k = Val (T (i, j, k)).
Proof.
  intros H. apply whole_in in H as (H1 & H2 & H3). destruct So as (P1 & P2 & P3 & Gd & _). unfold file_value. rewrite !fdiv_nz by (apply not_0_IZR; lia). cbn [bind].
  apply linear_interpolate_ok; [exact Gd|]. split; [|split]; apply centre_in; assumption.
Qed.
Lemma grad_ok i j k s w : In (i, j, k) (whole n1 n2 n3) -> length w = length u ->
  exists w', point_gradient q gs want i j k s w = Val w' /\ length w' = length w /\
  (want = true -> forall h, length h = length u -> exists d, derivable_pt_lim (fun t => E (i, j, k) (addl t u h)) 0 d /\ dotl w' h - dotl w h = s * d).
Proof.
  intros H Lw. destruct So as (P1 & P2 & P3 & _ & _ & EO). unfold point_gradient. destruct want; [|exists w; split; [reflexivity|]; split; [reflexivity|discriminate]].
  rewrite site_ok by assumption. cbn [bind]. fold (there q (i, j, k)).
  destruct (point_ok (q_grids q) u grids_fine Lu (there q (i, j, k)) (rest (i, j, k)) s w (EO _ H) (Rg eq_refl _ H) ltac:(lia)) as (w' & A & B & D).
  exists w'. split; [exact A|]. split; [exact B|]. intros _ h Lh. apply (D h). lia.
Qed.

Notation pts L := (flat_map (fun pt : Z * Z * Z * Z => stands_for n1 n2 n3 (real && twice_at n1 n2 n3 (fst pt)) (fst pt)) L).
Notation sq v := (fun c => (E c v - T c) ^ 2).
Variable sb : R.
Lemma loop_ok mean : forall L, (forall c idx, In (c, idx) L -> In c (whole n1 n2 n3) /\ mean gs idx = E c u) ->
  forall v0 w0, length w0 = length u -> exists w',
    run (fun pt s =>
      let '(i2, j2, k2, index) := pt in
      let '(val, work) := s in
      let epsilon := mean gs index in
      let! eps0 := file_value q i2 j2 k2 in
      let val := (val + (epsilon - eps0) * (epsilon - eps0))%R in
      let scalegrad := (2 * sb * (epsilon - eps0))%R in
      let! work := point_gradient q gs want i2 j2 k2 scalegrad work in
      if real && twice_at n1 n2 n3 (i2, j2, k2) then
        let '(i1c, i2c, i3c) := (back n1 i2, back n2 j2, back n3 k2) in
        let! eps0 := file_value q i1c i2c i3c in
        let val := (val + (epsilon - eps0) * (epsilon - eps0))%R in
        let! work := point_gradient q gs want i1c i2c i3c scalegrad work in
        Val (val, work)
      else Val (val, work)) L (v0, w0) = Val (v0 + sumR (sq u) (pts L), w') /\ length w' = length w0 /\
    (want = true -> (real = true -> even n1 n2 n3 T) -> forall h, length h = length u -> exists D,
      derivable_pt_lim (fun t => sumR (sq (addl t u h)) (pts L)) 0 D /\ dotl w' h - dotl w0 h = sb * D).
Proof.
  destruct So as (P1 & P2 & P3 & _).
  induction L as [|(((i & j) & k) & idx) L IH]; intros H v0 w0 Lw.
  - exists w0. cbn [run flat_map]. unfold sumR. cbn [fold_right]. split; [do 2 f_equal; ring|]. split; [reflexivity|]. intros _ _ h Lh. exists 0. split; [apply derivable_pt_lim_const|ring].
  - destruct (H _ _ (or_introl eq_refl)) as (Hw & He). cbn [run]. rewrite (file_ok i j k Hw). cbn [bind]. rewrite He. set (c := (i, j, k)) in *.
    destruct (grad_ok i j k (2 * sb * (E c u - T c)) w0 Hw Lw) as (w1 & A1 & L1 & D1). rewrite A1. cbn [bind flat_map fst]. fold c. unfold stands_for at 1 3.
    destruct (real && twice_at n1 n2 n3 c) eqn:Tw.
    + apply andb_true_iff in Tw as (Rl & _). pose proof (mirror_in n1 n2 n3 c Hw) as Mw. specialize (Ev Rl).
      assert (Em : (back n1 i, back n2 j, back n3 k) = mirror n1 n2 n3 c) by (unfold c, mirror; apply whole_in in Hw; rewrite !back_opp by lia; reflexivity).
      destruct (mirror n1 n2 n3 c) as ((i' & j') & k') eqn:Ec. injection Em as -> -> ->. rewrite (file_ok i' j' k' Mw). cbn [bind]. set (c' := (i', j', k')) in *.
      destruct (grad_ok i' j' k' (2 * sb * (E c u - T c)) w1 Mw ltac:(lia)) as (w2 & A2 & L2 & D2). rewrite A2. cbn [bind].
      destruct (IH (fun c idx X => H c idx (or_intror X)) (v0 + (E c u - T c) * (E c u - T c) + (E c u - T c') * (E c u - T c')) w2 ltac:(lia)) as (w' & A & B & D).
      exists w'. split; [|split; [lia|]].
      * refine (eq_trans A _). apply (f_equal (fun x => Val (x, w'))). rewrite sumR_app. unfold sumR at 2. cbn [fold_right]. pose proof (Ev c u Hw eq_refl) as X. rewrite Ec in X. fold c' in X. rewrite X. ring.
      * intros Wt Te h Lh. destruct (D1 Wt h Lh) as (d1 & Q1 & R1). destruct (D2 Wt h Lh) as (d2 & Q2 & R2). destruct (D Wt Te h Lh) as (d3 & Q3 & R3).
        pose proof (Te Rl c Hw) as TE. rewrite Ec in TE. fold c' in TE. pose proof (Ev c u Hw eq_refl) as X. rewrite Ec in X. fold c' in X.
        exists (2 * (E c (addl 0 u h) - T c) * d1 + (2 * (E c' (addl 0 u h) - T c') * d2 + d3)). split.
        -- apply (deriv_ext (fun t => (E c (addl t u h) - T c) ^ 2 + ((E c' (addl t u h) - T c') ^ 2 + sumR (sq (addl t u h)) (pts L)))).
           ++ intros t. rewrite sumR_app. unfold sumR at 2. cbn [fold_right]. ring.
           ++ apply deriv_add; [exact (deriv_square _ _ _ _ Q1)|]. apply deriv_add; [exact (deriv_square _ _ _ _ Q2)|exact Q3].
        -- rewrite addl_0 by exact Lh. rewrite X, TE. replace (dotl w' h - dotl w0 h) with ((dotl w' h - dotl w2 h) + (dotl w2 h - dotl w1 h) + (dotl w1 h - dotl w0 h)) by ring.
           rewrite R1, R2, R3. ring.
    + cbn [bind]. destruct (IH (fun c idx X => H c idx (or_intror X)) (v0 + (E c u - T c) * (E c u - T c)) w1 ltac:(lia)) as (w' & A & B & D).
      exists w'. split; [|split; [lia|]].
      * refine (eq_trans A _). apply (f_equal (fun x => Val (x, w'))). rewrite sumR_app. unfold sumR at 2. cbn [fold_right]. ring.
      * intros Wt Te h Lh. destruct (D1 Wt h Lh) as (d1 & Q1 & R1). destruct (D Wt Te h Lh) as (d3 & Q3 & R3).
        exists (2 * (E c (addl 0 u h) - T c) * d1 + d3). split.
        -- apply (deriv_ext (fun t => (E c (addl t u h) - T c) ^ 2 + sumR (sq (addl t u h)) (pts L))).
           ++ intros t. rewrite sumR_app. unfold sumR at 2. cbn [fold_right]. ring.
           ++ apply deriv_add; [exact (deriv_square _ _ _ _ Q1)|exact Q3].
        -- rewrite addl_0 by exact Lh. replace (dotl w' h - dotl w0 h) with ((dotl w' h - dotl w1 h) + (dotl w1 h - dotl w0 h)) by ring. rewrite R1, R3. ring.
Qed.

End Match.

(** All processes. *)
Lemma match_ok q rest u real want parts means : sound q -> length u = S_Matgrid.total (q_grids q) ->
  held (q_n1 q) (q_n2 q) (q_n3 q) real parts -> Forall2 (fun p m => tensors_of q rest (fst p, m)) parts means ->
  (want = true -> forall c, In c (whole (q_n1 q) (q_n2 q) (q_n3 q)) -> regular (q_grids q) u (there q c)) ->
  (real = true -> forall c v, In c (whole (q_n1 q) (q_n2 q) (q_n3 q)) -> length v = length u -> eps_here q rest (mirror (q_n1 q) (q_n2 q) (q_n3 q) c) v = eps_here q rest c v) ->
  exists g, match_eps_func q real want (List.combine (map fst parts) means) u = Val (mismatch q rest u, g) /\ length g = length u /\
    (want = true -> (real = true -> even (q_n1 q) (q_n2 q) (q_n3 q) (target q)) -> forall h, length h = length u ->
      derivable_pt_lim (fun t => mismatch q rest (addl t u h)) 0 (dotl g h)).
Proof.
  intros So Lu Hd Hm Rg Ev. pose proof So as (P1 & P2 & P3 & _ & F & _).
  set (N := IZR (q_n1 q * q_n2 q * q_n3 q)). assert (HN : N <> 0) by (apply not_0_IZR; nia).
  assert (K : forall ps ms, (forall p, In p ps -> In p parts) -> Forall2 (fun p m => tensors_of q rest (fst p, m)) ps ms ->
    exists rs, mapM (fun p => match_loop q (with_params (q_grids q) u) want real (1 / N) (fst p) (snd p) (repeat 0 (length u))) (List.combine (map fst ps) ms) = Val rs /\
      fold_right (fun r a => fst r * (1 / N) + a) 0 rs = sumR (fun c => (eps_here q rest c u - target q c) ^ 2) (flat_map (points (q_n1 q) (q_n2 q) (q_n3 q)) ps) / N /\
      length (sum_lists (length u) (map snd rs)) = length u /\
      (want = true -> (real = true -> even (q_n1 q) (q_n2 q) (q_n3 q) (target q)) -> forall h, length h = length u -> exists D,
        derivable_pt_lim (fun t => sumR (fun c => (eps_here q rest c (addl t u h) - target q c) ^ 2) (flat_map (points (q_n1 q) (q_n2 q) (q_n3 q)) ps)) 0 D /\ dotl (sum_lists (length u) (map snd rs)) h = 1 / N * D)).
  { induction ps as [|p ps IH]; intros ms Hp H; inversion H as [|? m ? ms' H1 H2]; subst.
    - exists []. cbn. unfold sumR. cbn. split; [reflexivity|]. split; [unfold Rdiv; ring|]. split; [apply repeat_length|]. intros _ _ h Lh. exists 0. split; [apply derivable_pt_lim_const|]. rewrite dot_zero. ring.
    - destruct (IH ms' (fun x Hx => Hp x (or_intror Hx)) H2) as (rs & A & B & Cl & D). pose proof (Hp p (or_introl eq_refl)) as Hin.
      destruct (loop_ok q rest u real want So Lu Rg Ev (1 / N) m (fst p)) with (v0 := 0) (w0 := repeat 0 (length u)) as (w & LA & LL & LD); [|apply repeat_length|].
      { intros c idx Hi. split; [exact (held_in _ _ _ P1 P2 P3 real parts p c idx Hd Hin Hi)|]. apply (H1 c idx u Hi Lu). }
      assert (Ep : flat_map (fun pt : Z * Z * Z * Z => stands_for (q_n1 q) (q_n2 q) (q_n3 q) (real && twice_at (q_n1 q) (q_n2 q) (q_n3 q) (fst pt)) (fst pt)) (fst p) = points (q_n1 q) (q_n2 q) (q_n3 q) p).
      { unfold points. apply flat_map_eq. intros (c & idx) Hi. cbn [fst snd]. rewrite (held_twice _ _ _ P1 P2 P3 real parts p c idx Hd Hin Hi). reflexivity. }
      rewrite Ep in LA, LD. rewrite repeat_length in LL. exists ((0 + sumR (fun c => (eps_here q rest c u - target q c) ^ 2) (points (q_n1 q) (q_n2 q) (q_n3 q) p), w) :: rs). cbn [map List.combine mapM fst snd].
      assert (LA' : match_loop q (with_params (q_grids q) u) want real (1 / N) (fst p) m (repeat 0 (length u)) = Val (0 + sumR (fun c => (eps_here q rest c u - target q c) ^ 2) (points (q_n1 q) (q_n2 q) (q_n3 q) p), w)) by exact LA.
      rewrite LA'. cbn [bind]. rewrite A. split; [reflexivity|]. cbn [fold_right map fst snd flat_map]. rewrite B, sumR_app. split; [field; exact HN|].
      change (sum_lists (length u) (w :: map snd rs)) with (add_lists w (sum_lists (length u) (map snd rs))).
      split; [rewrite add_len; lia|]. intros Wt Te h Lh. destruct (LD Wt Te h Lh) as (d1 & Q1 & R1). destruct (D Wt Te h Lh) as (d2 & Q2 & R2). rewrite dot_zero in R1.
      exists (d1 + d2). split; [|rewrite dot_add by lia; rewrite R2; lra].
      apply (deriv_ext (fun t => sumR (fun c => (eps_here q rest c (addl t u h) - target q c) ^ 2) (points (q_n1 q) (q_n2 q) (q_n3 q) p) +
        sumR (fun c => (eps_here q rest c (addl t u h) - target q c) ^ 2) (flat_map (points (q_n1 q) (q_n2 q) (q_n3 q)) ps))); [intros t; symmetry; apply sumR_app|apply deriv_add; assumption]. }
  destruct (K parts means (fun p Hp => Hp) Hm) as (rs & A & B & Cl & D). exists (sum_lists (length u) (map snd rs)). split; [|split; [exact Cl|]].
  - unfold match_eps_func. fold N. rewrite fdiv_nz by exact HN. cbn [bind]. rewrite grids_set_ok by (try exact F; lia). cbn [bind]. rewrite A. cbn [bind]. apply (f_equal (fun x => Val (x, sum_lists (length u) (map snd rs)))).
    rewrite B. unfold mismatch. fold N. f_equal. apply sumR_perm. exact (held_perm _ _ _ P1 P2 P3 real parts Hd).
  - intros Wt Te h Lh. destruct (D Wt Te h Lh) as (d & Q & R). rewrite R. replace (1 / N * d) with (d / N) by (field; exact HN).
    apply (deriv_ext (fun t => sumR (fun c => (eps_here q rest c (addl t u h) - target q c) ^ 2) (flat_map (points (q_n1 q) (q_n2 q) (q_n3 q)) parts) / N)).
    + intros t. unfold mismatch. fold N. f_equal. apply sumR_perm. exact (held_perm _ _ _ P1 P2 P3 real parts Hd).
    + apply deriv_scale. exact Q.
Qed.
