(** Properties C43, C48, C49: phases, divergence and scaling of fields. *)
From Coq Require Import List ZArith Reals Bool Lia Lra.
From Verif Require Import Base RC M_Tensor S_Tensor M_Evect S_Evect M_Grid S_Grid L_Grid6 M_Op S_Op L_Op3 L_Op5 M_Pha S_Pha L_Pha L_Pha2 L_Pha3 L_Div.
Import ListNotations.
Local Open Scope Z_scope.

(* ------------------------------------------------------------------ *)
(** * C43: the phase of a field *)

(** The field and the band's eigenvector are multiplied by one and the same unit number;
    nothing else changes. *)
Theorem C43_unit : forall out band f H, 0 <= out -> 3 * out <= Z.of_nat (length f) -> wf H -> 1 <= band <= ep H ->
  exists p f' H', fix_field_phase out band f H = Val (f', H') /\ unit_c p /\ length f' = length f /\
    (forall i, (i < Z.to_nat (3 * out))%nat -> num f' i = (p * num f i)%C) /\ (forall x, 3 * out <= x -> gets f' x = gets f x) /\
    en H' = en H /\ ep H' = ep H /\ (forall i, 0 <= i < en H -> entC H' i (band - 1) = (p * entC H i (band - 1))%C) /\
    (forall i j, 0 <= i < en H -> 0 <= j < ep H -> j <> band - 1 -> entC H' i j = entC H i j).
Proof.
  intros out band f H Ho Hf W Hb. destruct (fix_ok out band f H Ho Hf W Hb) as (p & f' & H' & E & U & L & A & B & _ & N & P & C & D & _). exists p, f', H'. tauto.
Qed.
Print Assumptions C43_unit.
(** No other phase gives real parts with a larger sum of squares. *)
Theorem C43_maximal : forall out band f H f' H', 0 <= out -> 3 * out <= Z.of_nat (length f) -> wf H -> 1 <= band <= ep H -> fix_field_phase out band f H = Val (f', H') ->
  forall c, unit_c c -> (real_squares (Z.to_nat (3 * out)) (fun i => c * num f i)%C <= real_squares (Z.to_nat (3 * out)) (num f'))%R.
Proof.
  intros out band f H f' H' Ho Hf W Hb E c Uc. destruct (fix_ok out band f H Ho Hf W Hb) as (p & f2 & H2 & E' & U & _ & A & _ & _ & _ & _ & _ & _ & Sq & _). rewrite E in E'. injection E' as <- <-.
  exact (maximal _ (num f) (num f') p c U Uc A Sq).
Qed.
Print Assumptions C43_maximal.
(** The last number whose real part is at least half the largest is positive. *)
Theorem C43_sign : forall out band f H f' H', 0 <= out -> 3 * out <= Z.of_nat (length f) -> wf H -> 1 <= band <= ep H -> fix_field_phase out band f H = Val (f', H') ->
  squares (Z.to_nat (3 * out)) (num f) <> C0 -> sign_of (Z.to_nat (3 * out)) (fun i => re (num f' i)) 1.
Proof.
  intros out band f H f' H' Ho Hf W Hb E Nz. destruct (fix_ok out band f H Ho Hf W Hb) as (p & f2 & H2 & E' & _ & _ & _ & _ & _ & _ & _ & _ & _ & _ & Sg). rewrite E in E'. injection E' as <- <-. exact (Sg Nz).
Qed.
Print Assumptions C43_sign.
(** If the sum of the squares is not zero the result does not depend on the phase the field
    had: for the field c f (and the eigenvector c v) it is the same as for f (and v). *)
Theorem C43_canonical_partial : forall out band f g H K f' g' H' K' c, 0 <= out -> 3 * out <= Z.of_nat (length f) -> 3 * out <= Z.of_nat (length g) -> wf H -> wf K -> 1 <= band <= ep H -> 1 <= band <= ep K ->
  squares (Z.to_nat (3 * out)) (num f) <> C0 -> unit_c c -> (forall i, (i < Z.to_nat (3 * out))%nat -> num g i = (c * num f i)%C) ->
  fix_field_phase out band f H = Val (f', H') -> fix_field_phase out band g K = Val (g', K') ->
  (forall i, (i < Z.to_nat (3 * out))%nat -> num g' i = num f' i) /\
  (en K = en H -> (forall i, 0 <= i < en H -> entC K i (band - 1) = (c * entC H i (band - 1))%C) -> forall i, 0 <= i < en H -> entC K' i (band - 1) = entC H' i (band - 1)).
Proof.
  intros out band f g H K f' g' H' K' c Ho Hf Hg WH WK HbH HbK Nz Uc Hc E1 E2.
  destruct (fix_ok out band f H Ho Hf WH HbH) as (p & f2 & H2 & E1' & Up & _ & Af & _ & _ & _ & _ & Ah & _ & Sp & Gp). rewrite E1 in E1'. injection E1' as <- <-.
  destruct (fix_ok out band g K Ho Hg WK HbK) as (q & g2 & K2 & E2' & Uq & _ & Ag & _ & _ & _ & _ & Ak & _ & Sq & Gq). rewrite E2 in E2'. injection E2' as <- <-.
  assert (Nz' : squares (Z.to_nat (3 * out)) (num g) <> C0).
  { rewrite (squares_ext _ (num g) (fun i => c * num f i)%C) by exact Hc. rewrite squares_scal. intros Q. apply Cmul_zero in Q as [Q|Q]; [|contradiction]. apply Cmul_zero in Q.
    assert (Q' : c = C0) by tauto. rewrite Q' in Uc. unfold unit_c in Uc. csimp. lra. }
  pose proof (canonical_phase _ (num f) (num g) (num f') (num g') c p q Uc Up Uq Nz Hc Af Ag Sp Sq (Gp Nz) (Gq Nz')) as Q.
  assert (T : forall z : C, (q * (c * z))%C = (p * z)%C) by (intros z; rewrite <- Q; ring).
  split.
  - intros i Hi. rewrite Ag, Af, Hc by exact Hi. apply T.
  - intros En Hk i Hi. rewrite Ak, Ah by (rewrite ?En; exact Hi). rewrite Hk by exact Hi. apply T.
Qed.
Print Assumptions C43_canonical_partial.
(** Fixing a fixed field changes nothing. *)
Theorem C43_idempotent_partial : forall out band f H f' H' f'' H'', 0 <= out -> 3 * out <= Z.of_nat (length f) -> wf H -> 1 <= band <= ep H -> squares (Z.to_nat (3 * out)) (num f) <> C0 ->
  fix_field_phase out band f H = Val (f', H') -> fix_field_phase out band f' H' = Val (f'', H'') ->
  (forall i, (i < Z.to_nat (3 * out))%nat -> num f'' i = num f' i) /\ (forall i, 0 <= i < en H -> entC H'' i (band - 1) = entC H' i (band - 1)).
Proof.
  intros out band f H f' H' f'' H'' Ho Hf W Hb Nz E1 E2.
  destruct (fix_ok out band f H Ho Hf W Hb) as (p & f2 & H2 & E1' & Up & Lf & Af & _ & WH & NH & PH & Ah & _). rewrite E1 in E1'. injection E1' as <- <-.
  destruct (C43_canonical_partial out band f f' H H' f' f'' H' H'' p Ho Hf ltac:(lia) W WH Hb ltac:(lia) Nz Up Af E1 E2) as (A & B). split; [exact A|]. apply B; assumption.
Qed.
Print Assumptions C43_idempotent_partial.
(** A circularly polarized field has sum of squares zero; there the result depends on the
    phase: the fields (1, i, 0) and i (1, i, 0) are fixed to different fields. *)
Definition circ (c : C) : list C := [(c * C1)%C; (c * Ci)%C; C0].
Definition ex_evec : emat C := {| en := 1; ep := 1; ealloc := 1; edata := [C1] |}.
Theorem C43_canonical_refuted : exists f' g' H' K', fix_field_phase 1 1 (circ C1) ex_evec = Val (f', H') /\ fix_field_phase 1 1 (circ Ci) ex_evec = Val (g', K') /\
  (forall i, (i < 3)%nat -> num (circ Ci) i = (Ci * num (circ C1) i)%C) /\ num f' 0 = C1 /\ num g' 0 = (- Ci)%C.
Proof.
  assert (W : wf ex_evec) by (unfold wf, ex_evec; cbn; lia).
  assert (K : forall c s, (c = C1 /\ s = 1) \/ (c = Ci /\ s = -1) -> choose_phase [(0, 3, circ c)] = Val (RtoC (IZR s))).
  { intros c s Hc. unfold choose_phase. cbn [mapM]. rewrite square_sum_ok by (cbn; lia). cbn [bind fold_right fst snd].
    assert (Q : squares (Z.to_nat 3) (num (circ c)) = C0).
    { change (Z.to_nat 3) with 3%nat. unfold squares. cbn [csum]. change (num (circ c) 0) with (c * C1)%C. change (num (circ c) 1) with (c * Ci)%C. change (num (circ c) 2) with C0. apply C_eq; csimp; ring. }
    rewrite Q. replace (fst C0 + 0, snd C0 + 0)%R with (0, 0)%R by (unfold C0; cbn; f_equal; ring).
    assert (Bp : best_phase (0, 0)%R = C1).
    { unfold best_phase, atan2. cbn [fst snd]. destruct (Rltb_spec 0 0); [lra|]. destruct (Rltb_spec 0 (- 0)); [lra|]. destruct (Rltb_spec (- 0) 0); [lra|]. rewrite Rmult_0_r, cos_0, sin_0. reflexivity. }
    rewrite Bp. destruct (decide_ok 3 (circ c) ltac:(cbn; lia) (key_complex C1)) as (t & Et & _ & _ & Ht). rewrite Et. cbn [bind]. apply (f_equal (@Val C)).
    assert (t = s); [|subst t; apply C_eq; csimp; ring].
    assert (Ev : forall i, (i < 3)%nat -> key_complex C1 (num (circ c) i) = match i with 0%nat => if Z.eq_dec s 1 then 1%R else 0%R | 1%nat => if Z.eq_dec s 1 then 0%R else (-1)%R | _ => 0%R end).
    { intros i Hi. destruct Hc as [(-> & ->)|(-> & ->)]; destruct i as [|[|[|i]]]; try lia; unfold key_complex;
      [change (num (circ C1) 0) with (C1 * C1)%C|change (num (circ C1) 1) with (C1 * Ci)%C|change (num (circ C1) 2) with C0|change (num (circ Ci) 0) with (Ci * C1)%C|change (num (circ Ci) 1) with (Ci * Ci)%C|change (num (circ Ci) 2) with C0];
      cbv [Z.eq_dec Z_rec]; cbn - [Rmult Rplus Rminus]; csimp; ring. }
    assert (S0 : sign_of 3 (fun i => key_complex C1 (num (circ c) i)) s).
    { destruct Hc as [(-> & ->)|(-> & ->)].
      - exists 0%nat, 1%R. split; [lia|]. split; [|split; [exists 0%nat; split; [lia|rewrite Ev by lia; cbn; apply Rabs_R1]|split; [|split; [|split; [lia|]]]]].
        + intros j Hj. rewrite Ev by exact Hj. destruct j as [|[|[|j]]]; cbn; try lia; rewrite ?Rabs_R1, ?Rabs_R0; lra.
        + rewrite Ev by lia. cbn. rewrite Rabs_R1. lra.
        + intros j Hj. rewrite Ev by lia. destruct j as [|[|[|j]]]; cbn; try lia; rewrite ?Rabs_R0; lra.
        + rewrite Ev by lia. cbn. lra.
      - exists 1%nat, 1%R. assert (A1 : Rabs (-1) = 1%R) by (rewrite Rabs_left by lra; ring). split; [lia|]. split; [|split; [exists 1%nat; split; [lia|rewrite Ev by lia; cbn; exact A1]|split; [|split; [|split; [lia|]]]]].
        + intros j Hj. rewrite Ev by exact Hj. destruct j as [|[|[|j]]]; cbn; try lia; rewrite ?A1, ?Rabs_R0; lra.
        + rewrite Ev by lia. cbn. rewrite A1. lra.
        + intros j Hj. rewrite Ev by lia. destruct j as [|[|[|j]]]; cbn; try lia; rewrite ?Rabs_R0; lra.
        + rewrite Ev by lia. cbn. lra. }
    apply (sign_unique 3 (fun i => key_complex C1 (num (circ c) i))); [|exact S0]. apply Ht.
    destruct Hc as [(-> & ->)|(-> & ->)]; [exists 0%nat|exists 1%nat]; (split; [cbn; lia|]); rewrite Ev by lia; cbn; lra. }
  unfold fix_field_phase. change (1 * 3) with 3. cbv zeta. rewrite (K C1 1) by auto. rewrite (K Ci (-1)) by auto. cbn [bind].
  destruct (turn_ok 3 (RtoC 1) (circ C1)) as (f' & Ef & _ & Af & _); [cbn; lia|]. destruct (turn_ok 3 (RtoC (-1)) (circ Ci)) as (g' & Eg & _ & Ag & _); [cbn; lia|].
  destruct (turn_band_ok 1 (RtoC 1) ex_evec W ltac:(cbn; lia)) as (H1 & EH & _). destruct (turn_band_ok 1 (RtoC (-1)) ex_evec W ltac:(cbn; lia)) as (K1 & EK & _).
  rewrite Ef, Eg. cbn [bind]. rewrite EH, EK. cbn [bind]. exists f', g', H1, K1. split; [reflexivity|]. split; [reflexivity|]. split; [|split].
  - intros i Hi. destruct i as [|[|[|i]]]; [| | |lia];
      [change (num (circ C1) 0) with (C1 * C1)%C; change (num (circ Ci) 0) with (Ci * C1)%C|change (num (circ C1) 1) with (C1 * Ci)%C; change (num (circ Ci) 1) with (Ci * Ci)%C|change (num (circ C1) 2) with C0; change (num (circ Ci) 2) with C0]; ring.
  - rewrite Af by (cbn; lia). change (num (circ C1) 0) with (C1 * C1)%C. apply C_eq; csimp; ring.
  - rewrite Ag by (cbn; lia). change (num (circ Ci) 0) with (Ci * C1)%C. apply C_eq; csimp; ring.
Qed.
Print Assumptions C43_canonical_refuted.
Example C43_example : squares 3 (num [C1; Ci; RtoC 2]) <> C0 /\ wf ex_evec.
Proof.
  split; [|unfold wf, ex_evec; cbn; lia]. unfold squares. cbn [csum]. change (num [C1; Ci; RtoC 2] 0) with C1. change (num [C1; Ci; RtoC 2] 1) with Ci. change (num [C1; Ci; RtoC 2] 2) with (RtoC 2).
  intros Q. apply (f_equal re) in Q. csimp. lra.
Qed.
(** Over several processes the index of the deciding number is formed from the number of
    grid points, not of components, before a process's part, so that the sign depends on the
    distribution: here on two grid points held by one or by two processes. *)
Theorem C43_parallel_refuted : exists f g : list C, choose_phase [(0, 6, f ++ g)] = Val (RtoC (-1)) /\ choose_phase [(0 * 1 * 1, 3, f); (1 * 1 * 1, 3, g)] = Val (RtoC 1).
Proof.
  exists [C0; C0; C1], [RtoC (-1); C0; C0]. set (f := [C0; C0; C1]). set (g := [RtoC (-1); C0; C0]).
  assert (Sf : squares 3 (num f) = (1, 0)%R) by (unfold squares; cbn [csum]; change (num f 0) with C0; change (num f 1) with C0; change (num f 2) with C1; apply C_eq; csimp; ring).
  assert (Sg : squares 3 (num g) = (1, 0)%R) by (unfold squares; cbn [csum]; change (num g 0) with (RtoC (-1)); change (num g 1) with C0; change (num g 2) with C0; apply C_eq; csimp; ring).
  assert (Sfg : squares 6 (num (f ++ g)) = (2, 0)%R).
  { unfold squares; cbn [csum]. change (num (f ++ g) 0) with C0; change (num (f ++ g) 1) with C0; change (num (f ++ g) 2) with C1; change (num (f ++ g) 3) with (RtoC (-1)); change (num (f ++ g) 4) with C0; change (num (f ++ g) 5) with C0. apply C_eq; csimp; ring. }
  assert (A1 : Rabs (-1) = 1%R) by (rewrite Rabs_left by lra; ring).
  assert (Kc : forall v, key_complex C1 v = re v) by (intros [a b]; unfold key_complex; csimp; ring).
  split.
  - unfold choose_phase. cbn [mapM]. rewrite square_sum_ok by (cbn; lia). cbn [bind fold_right]. change (Z.to_nat 6) with 6%nat. rewrite Sfg. cbn [fst snd]. rewrite !Rplus_0_r, best_real by lra.
    destruct (decide_ok 6 (f ++ g) ltac:(cbn; lia) (key_complex C1)) as (t & Et & _ & _ & Ht). rewrite Et. cbn [bind]. apply (f_equal (@Val C)).
    assert (t = -1); [|subst t; apply C_eq; csimp; ring]. change (Z.to_nat 6) with 6%nat in Ht.
    assert (Ev : forall i, (i < 6)%nat -> key_complex C1 (num (f ++ g) i) = match i with 2%nat => 1%R | 3%nat => (-1)%R | _ => 0%R end).
    { intros i Hi. rewrite Kc. do 6 (destruct i as [|i]; [reflexivity|]). lia. }
    apply (sign_unique 6 (fun i => key_complex C1 (num (f ++ g) i))); [apply Ht; exists 2%nat; split; [lia|]; rewrite Ev by lia; cbn; lra|].
    exists 3%nat, 1%R. split; [lia|]. split; [|split; [exists 3%nat; split; [lia|rewrite Ev by lia; exact A1]|split; [|split; [|split; [lia|]]]]].
    + intros j Hj. rewrite Ev by exact Hj. do 6 (destruct j as [|j]; [rewrite ?A1, ?Rabs_R1, ?Rabs_R0; lra|]). lia.
    + rewrite Ev by lia. rewrite A1. lra.
    + intros j Hj. rewrite Ev by lia. do 4 (destruct j as [|j]; [lia|]). do 2 (destruct j as [|j]; [rewrite Rabs_R0; lra|]). lia.
    + rewrite Ev by lia. lra.
  - unfold choose_phase. cbn [mapM]. rewrite !square_sum_ok by (cbn; lia). cbn [bind fold_right mapM]. change (Z.to_nat 3) with 3%nat. rewrite Sf, Sg. cbn [fst snd].
    replace (1 + (1 + 0), 0 + (0 + 0))%R with (2, 0)%R by (f_equal; ring). rewrite best_real by lra.
    assert (M : forall l, length l = 3%nat -> (forall j, (j < 3)%nat -> (Rabs (re (num l j)) <= 1)%R) -> (exists j, (j < 3)%nat /\ Rabs (re (num l j)) = 1%R) -> max_abs (key_complex C1) 3 l = Val 1%R).
    { intros l Ll Hl (j & Hj & El). destruct (max_abs_ok 3 l ltac:(lia) (key_complex C1)) as (m & Em & P0 & P1 & P2). rewrite Em. f_equal. change (Z.to_nat 3) with 3%nat in *. specialize (P1 j Hj). rewrite Kc, El in P1.
      destruct P2 as [->|(i & Hi & <-)]; [lra|]. rewrite Kc in *. specialize (Hl i Hi). lra. }
    unfold decide_sign. cbn [mapM].
    rewrite (M f), (M g); try reflexivity.
    2:{ intros j Hj. destruct j as [|[|[|j]]]; [change (num g 0) with (RtoC (-1)); cbn; rewrite A1; lra|change (num g 1) with C0; cbn; rewrite Rabs_R0; lra|change (num g 2) with C0; cbn; rewrite Rabs_R0; lra|lia]. }
    2:{ exists 0%nat. split; [lia|]. change (num g 0) with (RtoC (-1)). exact A1. }
    2:{ intros j Hj. destruct j as [|[|[|j]]]; [change (num f 0) with C0; cbn; rewrite Rabs_R0; lra|change (num f 1) with C0; cbn; rewrite Rabs_R0; lra|change (num f 2) with C1; cbn; rewrite Rabs_R1; lra|lia]. }
    2:{ exists 2%nat. split; [lia|]. change (num f 2) with C1. exact Rabs_R1. }
    cbn [bind fold_right mapM]. rewrite (Rmax_left 1 0), (Rmax_left 1 1) by lra. unfold candidate. change (Z.to_nat 3) with 3%nat. cbn [last_big].
    change (rd f (Z.of_nat 2)) with (Val C1). change (rd g (Z.of_nat 2)) with (Val C0). change (rd g (Z.of_nat 1)) with (Val C0). change (rd g (Z.of_nat 0)) with (Val (RtoC (-1))). cbn [bind]. rewrite !Kc. cbn [re fst C0 C1 RtoC].
    rewrite Rabs_R0, Rabs_R1, A1. destruct (Rleb_spec (1 / 2 * 1) 1); [|lra]. destruct (Rleb_spec (1 / 2 * 1) 0); [lra|]. cbn [bind]. destruct (Rltb_spec 1 0); [lra|]. destruct (Rltb_spec (-1) 0); [|lra].
    cbn. apply (f_equal (@Val C)). apply C_eq; csimp; ring.
Qed.
Print Assumptions C43_parallel_refuted.
(** The index is the only reason: were it formed from the number of components, no distribution
    would make a difference. *)
Theorem C43_parallel_index_partial : forall parts, choose_phase (divided 0 parts) = choose_phase [(0, Z.of_nat (length (concat parts)), concat parts)].
Proof. intros parts. rewrite choose_parts. reflexivity. Qed.
Print Assumptions C43_parallel_index_partial.
(** With the offsets as they are (any), the distribution makes no difference when one process
    holds all numbers whose key is at least half of the largest. *)
Theorem C43_parallel_partial : forall l1 o f l2, (forall p, In p (l1 ++ (o, f) :: l2) -> 0 <= fst p) ->
  let whole := concat (map snd (l1 ++ (o, f) :: l2)) in
  let real_part v := re (best_phase (squares (length whole) (num whole)) * v)%C in
  (forall p v, In p (l1 ++ l2) -> In v (snd p) -> exists w, In w f /\ (Rabs (real_part v) < 1 / 2 * Rabs (real_part w))%R) ->
  choose_phase (map (fun p => (fst p, Z.of_nat (length (snd p)), snd p)) (l1 ++ (o, f) :: l2)) = choose_phase [(0, Z.of_nat (length whole), whole)].
Proof.
  intros l1 o f l2 Ho whole rp Hs. apply (choose_one l1 o f l2 Ho). intros wh key p v Hp Hv. destruct (Hs p v Hp Hv) as (w & Hw & L). exists w. split; [exact Hw|].
  assert (K : forall z, key z = rp z) by (intros [a b]; unfold key, rp, key_complex; fold wh; unfold whole; fold wh; destruct (best_phase _) as [c d]; csimp; ring).
  rewrite !K. exact L.
Qed.
Print Assumptions C43_parallel_partial.
Example C43_parallel_example : (* two processes of one grid point each, all of the field in the first *)
  choose_phase [(0, 3, [C1; Ci; RtoC 2]); (1, 3, [C0; C0; C0])] = choose_phase [(0, 6, [C1; Ci; RtoC 2; C0; C0; C0])].
Proof.
  apply (C43_parallel_partial [] 0 [C1; Ci; RtoC 2] [(1, [C0; C0; C0])]).
  - intros p [<-|[<-|[]]]; cbn; lia.
  - cbn [map app concat snd length]. set (ph := best_phase _). intros p v [<-|[]] Hv. cbn [snd] in Hv. assert (v = C0) as -> by (destruct Hv as [H|[H|[H|[]]]]; symmetry; exact H).
    assert (U : (normsqr ph = 1)%R) by apply best_unit.
    destruct (Req_dec (re ph) 0) as [Z|N].
    + exists Ci. split; [right; left; reflexivity|]. replace (re (ph * C0)%C) with 0%R by (csimp; ring). rewrite Rabs_R0. apply Rmult_lt_0_compat; [lra|]. apply Rabs_pos_lt. clearbody ph. destruct ph as [a b]. csimp. unfold re in Z. cbn in Z. subst a. intros Q. assert (b = 0%R) by lra. subst b. lra.
    + exists C1. split; [left; reflexivity|]. replace (re (ph * C0)%C) with 0%R by (csimp; ring). rewrite Rabs_R0. apply Rmult_lt_0_compat; [lra|]. apply Rabs_pos_lt. clearbody ph. destruct ph as [a b]. unfold re in N. cbn in N. csimp. lra.
Qed.
(** Real builds: only the sign is chosen; the result is the same for f and -f if real and
    imaginary part differ somewhere among the stored points. *)
Theorem C43_real_partial : forall out band f g H K, 0 <= out -> 3 * out <= Z.of_nat (length f) -> 3 * out <= Z.of_nat (length g) -> wf H -> wf K -> 1 <= band <= ep H -> 1 <= band <= ep K ->
  (exists i, (i < Z.to_nat (3 * out))%nat /\ re (num f i) <> im (num f i)) -> (forall i, (i < Z.to_nat (3 * out))%nat -> num g i = (- num f i)%C) ->
  exists f' g' H' K', fix_field_phase_real out band f H = Val (f', H') /\ fix_field_phase_real out band g K = Val (g', K') /\
    forall i, (i < Z.to_nat (3 * out))%nat -> num g' i = num f' i /\ (num f' i = num f i \/ num f' i = (- num f i)%C).
Proof.
  intros out band f g H K Ho Hf Hg WH WK HbH HbK (i0 & Hi0 & Ni) Hneg.
  destruct (fix_real_ok out band f H Ho Hf WH HbH) as (s & f' & H' & E1 & Hs & A1 & _ & _ & S1). destruct (fix_real_ok out band g K Ho Hg WK HbK) as (t & g' & K' & E2 & Ht & A2 & _ & _ & S2).
  exists f', g', H', K'. split; [exact E1|]. split; [exact E2|].
  assert (X1 : exists i, (i < Z.to_nat (3 * out))%nat /\ key_real (num f i) <> 0%R) by (exists i0; split; [exact Hi0|]; unfold key_real; lra).
  assert (X2 : exists i, (i < Z.to_nat (3 * out))%nat /\ key_real (num g i) <> 0%R) by (exists i0; split; [exact Hi0|]; rewrite Hneg by exact Hi0; unfold key_real; csimp; lra).
  specialize (S1 X1). specialize (S2 X2).
  assert (Q : t = (- s)%R).
  { assert (D : t = s \/ t = (- s)%R) by (destruct Hs as [->| ->], Ht as [->| ->]; lra). destruct D as [->|D]; [exfalso|exact D].
    assert (B : sign_of (Z.to_nat (3 * out)) (fun i => - key_real (num f' i))%R 1).
    { refine (sign_ext _ _ _ _ _ S2). intros i Hi. rewrite A1, A2, Hneg by exact Hi. unfold key_real. csimp. ring. }
    pose proof (sign_unique _ _ _ _ B (sign_neg _ _ _ S1)). lia. }
  subst t. intros i Hi. rewrite A1, A2, Hneg by exact Hi. split; [rewrite RtoC_opp; ring|]. destruct Hs as [->| ->]; [left|right]; apply C_eq; csimp; ring.
Qed.
Print Assumptions C43_real_partial.
(** A field with equal real and imaginary parts at all stored points (1 + i at point 1 of a
    grid of four, so 1 - i at point 3, and 0 at the points 0 and 2) and its negative are both
    left as they are. *)
Definition ex_half (c : C) : list C := [C0; C0; C0; c; C0; C0; C0; C0; C0].
Theorem C43_real_refuted : forall H, wf H -> 1 <= ep H -> exists f' g' H' K', fix_field_phase_real 3 1 (ex_half (1, 1)%R) H = Val (f', H') /\ fix_field_phase_real 3 1 (ex_half (-1, -1)%R) H = Val (g', K') /\
  num f' 3 = (1, 1)%R /\ num g' 3 = (-1, -1)%R.
Proof.
  intros H W Hb. destruct (fix_real_ok 3 1 (ex_half (1, 1)%R) H ltac:(lia) ltac:(cbn; lia) W ltac:(lia)) as (s & f' & H' & E1 & _ & A1 & _ & Z1 & _). destruct (fix_real_ok 3 1 (ex_half (-1, -1)%R) H ltac:(lia) ltac:(cbn; lia) W ltac:(lia)) as (t & g' & K' & E2 & _ & A2 & _ & Z2 & _).
  change (Z.to_nat (3 * 3)) with 9%nat in *. exists f', g', H', K'. split; [exact E1|]. split; [exact E2|].
  assert (K : forall c i, re c = im c -> (i < 9)%nat -> key_real (num (ex_half c) i) = 0%R).
  { intros c i Hc Hi. unfold key_real. assert (Q : num (ex_half c) i = if Nat.eqb i 3 then c else C0) by (do 9 (destruct i as [|i]; [reflexivity|]); lia). rewrite Q. destruct (Nat.eqb i 3); [lra|]. csimp. ring. }
  rewrite A1, A2 by lia. rewrite Z1, Z2 by (intros i Hi; apply K; [reflexivity|exact Hi]). change (num (ex_half (1, 1)%R) 3) with (1, 1)%R. change (num (ex_half (-1, -1)%R) 3) with (-1, -1)%R. split; apply C_eq; csimp; ring.
Qed.
Print Assumptions C43_real_refuted.

(* ------------------------------------------------------------------ *)
(** * C48: the divergence *)

(** Where the function's wave vectors are those of the plane waves the result is the
    divergence... *)
Theorem C48_divergence_partial : forall d F f, wfd d -> holds_field d F f -> (forall g, (g < Z.to_nat (npts d))%nat -> div_k (kat d g) = kvec d g) ->
  exists f', compute_field_divergence d (mN d) f = Val f' /\ length f' = length f /\ forall r, (r < Z.to_nat (npts d))%nat -> num f' r = divergence d F r.
Proof.
  intros d F f Wd Hf Hk. destruct (divergence_ok d Wd F f Hf) as (f' & E & L & A). exists f'. split; [exact E|]. split; [exact L|]. intros r Hr. rewrite A by exact Hr.
  unfold divergence. f_equal. apply csum_ext. intros g Hg. unfold dk. rewrite Hk by exact Hg. reflexivity.
Qed.
Print Assumptions C48_divergence_partial.
(** ...and zero for the fields of eigenvectors. *)
Theorem C48_band_partial : forall d X b f, wfd d -> holds_field d (cart d X b) f -> (forall g, (g < Z.to_nat (npts d))%nat -> div_k (kat d g) = kvec d g) ->
  exists f', compute_field_divergence d (mN d) f = Val f' /\ forall r, (r < Z.to_nat (npts d))%nat -> num f' r = C0.
Proof.
  intros d X b f Wd Hf Hk. destruct (C48_divergence_partial d _ f Wd Hf Hk) as (f' & E & _ & A). exists f'. split; [exact E|]. intros r Hr. rewrite A by exact Hr. unfold divergence.
  rewrite (csum_ext _ _ (fun _ => C0)), csum_0; [ring|]. intros g _. rewrite kdot_cart. ring.
Qed.
Print Assumptions C48_band_partial.
(** For a plane wave with wave vector (x, y, z), whose basis is the one update_maxwell_data_k
    stores, that is so exactly if y or z is zero. *)
Theorem C48_exact : forall x y z e, transverse (x, y, z) = Val e -> vscale (kmag e) (vcross (km e) (kn e)) = (x, y, z) /\ (div_k e = (x, y, z) <-> y = 0%R \/ z = 0%R).
Proof. intros x y z e E. split; [exact (proj1 (entry_vec _ _ E))|exact (div_k_exact x y z e E)]. Qed.
Print Assumptions C48_exact.
(** So a band of wave vector (0, 3, 4), whose field has no divergence, is reported to have one. *)
Definition ex_k34 : kdata := {| kmag := 5; km := (0, 4 / 5, - (3 / 5))%R; kn := (-1, 0, 0)%R |}.
Definition ex_d34 : mdata := create_shape 1 1 1 1 [ex_k34] [iso 1] None [25%R] 1.
Definition ex_band : emat C := {| en := 2; ep := 1; ealloc := 1; edata := [C1; C0] |}.
Theorem C48_refuted : exists f f', transverse (0, 3, 4)%R = Val ex_k34 /\ holds_field ex_d34 (cart ex_d34 ex_band 0) f /\ divergence ex_d34 (cart ex_d34 ex_band 0) 0 = C0 /\
  compute_field_divergence ex_d34 (mN ex_d34) f = Val f' /\ num f' 0 <> C0.
Proof.
  assert (S3 : sqrt ((0 * 4 - 1 * 3) * (0 * 4 - 1 * 3) + (1 * 0 - 0 * 4) * (1 * 0 - 0 * 4) + (0 * 3 - 0 * 0) * (0 * 3 - 0 * 0))%R = 3%R).
  { replace ((0 * 4 - 1 * 3) * (0 * 4 - 1 * 3) + (1 * 0 - 0 * 4) * (1 * 0 - 0 * 4) + (0 * 3 - 0 * 0) * (0 * 3 - 0 * 0))%R with (3 * 3)%R by ring. apply sqrt_square. lra. }
  assert (Wd : wfd ex_d34) by (apply create_wfd; try lia; try reflexivity; discriminate).
  assert (Wv : wave ex_d34 0 0 = C1).
  { unfold wave. cbn [ex_d34 create_shape d_nx d_ny d_nz]. change (Z.of_nat 0 / (1 * 1)) with 0. change (Z.of_nat 0 / 1 mod 1) with 0. change (Z.of_nat 0 mod 1) with 0. replace (- (2 * PI) * (IZR (0 * 0) / 1 + IZR (0 * 0) / 1 + IZR (0 * 0) / 1))%R with 0%R by (cbn; field). rewrite cos_0, sin_0. reflexivity. }
  set (F := cart ex_d34 ex_band 0). set (f := [F 0%nat 0%nat; F 0%nat 1%nat; F 0%nat 2%nat]).
  assert (Hf : holds_field ex_d34 F f).
  { split; [cbn; lia|]. intros r c Hr Hc. destruct r as [|r]; [|cbn in Hr; lia]. unfold synth. change (Z.to_nat (npts ex_d34)) with 1%nat. cbn [csum]. rewrite Wv. replace (C0 + C1 * F 0%nat c)%C with (F 0%nat c) by ring.
    destruct c as [|[|[|c]]]; [reflexivity|reflexivity|reflexivity|lia]. }
  destruct (divergence_ok ex_d34 Wd F f Hf) as (f' & E & _ & A). exists f, f'. split; [|split; [exact Hf|split; [|split; [exact E|]]]].
  - unfold transverse. replace (0 * 0 + 3 * 3 + 4 * 4)%R with (5 * 5)%R by ring. destruct (Reqb_spec (5 * 5) 0); [lra|]. destruct (Reqb_spec 0 0); [|lra]. destruct (Reqb_spec 3 0); [lra|]. cbn [andb vcross]. rewrite S3, fdiv_nz by lra. cbn [bind vscale vcross].
    match goal with |- context [sqrt ?x] => match x with (?a * ?a + ?b * ?b + ?c * ?c)%R => replace x with (5 * 5)%R by field end end. rewrite sqrt_square by lra. rewrite fdiv_nz by lra. cbn [bind]. unfold ex_k34, vscale. f_equal.
    assert (Rc : forall a b c a' b' c' a2 b2 c2 a3 b3 c3 : R, a = a2 -> b = b2 -> c = c2 -> a' = a3 -> b' = b3 -> c' = c3 -> {| kmag := 5; km := (a, b, c); kn := (a', b', c') |} = {| kmag := 5; km := (a2, b2, c2); kn := (a3, b3, c3) |}) by (intros; subst; reflexivity).
    apply Rc; field.
  - unfold divergence. change (Z.to_nat (npts ex_d34)) with 1%nat. cbn [csum]. unfold F. rewrite kdot_cart. ring.
  - rewrite A by (cbn; lia). change (Z.to_nat (npts ex_d34)) with 1%nat. cbn [csum]. rewrite Wv. unfold kdot, dk. rewrite csum3. change (kat ex_d34 0) with ex_k34.
    assert (F0 : F 0%nat 0%nat = C0 /\ F 0%nat 1%nat = RtoC (4 / 5) /\ F 0%nat 2%nat = RtoC (- (3 / 5))).
    { unfold F, cart. change (kat ex_d34 0) with ex_k34. change (entC ex_band (2 * Z.of_nat 0) 0) with C1. change (entC ex_band (2 * Z.of_nat 0 + 1) 0) with C0. cbn [ex_k34 km kn comp fst snd]. repeat split; apply C_eq; csimp; ring. }
    destruct F0 as (-> & -> & ->). unfold div_k, ex_k34. cbn [km kn kmag comp fst snd]. intros Q. apply (f_equal im) in Q. csimp.
    assert (K : (2 * PI * (12 / 5) = 0)%R) by (rewrite <- Q; field). pose proof PI_RGT_0. lra.
Qed.
Print Assumptions C48_refuted.
(** Real builds: with two rows or more the table of wave vectors is read past its end. *)
Theorem C48_real_refuted : forall nx ny nz kG eps f f', 1 <= nx -> 1 <= ny -> 1 <= nz -> Z.of_nat (length kG) = nx * ny * nz -> 2 <= other_dims nx nx ny nz ->
  dot_k (real_shape nx ny nz kG eps) f <> Val f'.
Proof.
  intros nx ny nz kG eps f f' Hx Hy Hz Hk Ho. set (l := last_dim nx ny nz).
  assert (Hl : 1 <= l /\ nx * ny * nz = other_dims nx nx ny nz * l).
  { assert (D : forall a b, 1 <= b -> 1 <= a -> Z.quot (a * b) b * b = a * b) by (intros a b Hb Ha; rewrite Z.quot_mul by lia; reflexivity).
    unfold other_dims, local_N, l, last_dim, fft_rank. destruct (Z.eqb_spec nz 1), (Z.eqb_spec ny 1); subst; cbn [Z.eqb Pos.eqb]; (split; [lia|]);
      rewrite ?Z.mul_1_r; try (rewrite D by nia; reflexivity); rewrite Z.quot_same by lia; lia. }
  destruct Hl as (Hl & Hp). apply overrun; cbn [real_shape d_last d_last_size d_other d_kG]; fold l.
  - unfold last_dim_size. fold l. rewrite Z.quot_div_nonneg by lia. pose proof (Z.div_mod l 2). pose proof (Z.mod_pos_bound l 2 ltac:(lia)). lia.
  - exact Ho.
  - exact Hl.
  - lia.
Qed.
Print Assumptions C48_real_refuted.
Example C48_real_example : 2 <= other_dims 4 4 3 1 /\ last_dim_size 4 3 1 = 4 /\ last_dim 4 3 1 = 3.
Proof. cbn. lia. Qed.

(* ------------------------------------------------------------------ *)
(** * C49: scaling a band *)

Theorem C49_scale : forall b s H, wf H -> 1 <= b <= ep H -> exists H', scale_eigenvector b s H = Val H' /\ wf H' /\ en H' = en H /\ ep H' = ep H /\
  (forall i, 0 <= i < en H -> entC H' i (b - 1) = (s * entC H i (b - 1))%C) /\ (forall i j, 0 <= i < en H -> 0 <= j < ep H -> j <> b - 1 -> entC H' i j = entC H i j).
Proof. intros b s H W Hb. exact (scal_ok b s H W Hb). Qed.
Print Assumptions C49_scale.
Theorem C49_norm : forall b s H H', wf H -> 1 <= b <= ep H -> unit_c s -> scale_eigenvector b s H = Val H' ->
  rsum (Z.to_nat (en H)) (fun i => normsqr (entC H' (Z.of_nat i) (b - 1))) = rsum (Z.to_nat (en H)) (fun i => normsqr (entC H (Z.of_nat i) (b - 1))).
Proof.
  intros b s H H' W Hb Us E. destruct (scal_ok b s H W Hb) as (H2 & E' & _ & _ & _ & A & _). rewrite E in E'. injection E' as <-. apply rsum_ext. intros i Hi. rewrite A by lia. rewrite normsqr_mul, Us. ring.
Qed.
Print Assumptions C49_norm.
Theorem C49_band_refused : forall b s H (K : emat R), ~ (1 <= b <= ep H) -> ~ (1 <= b <= ep K) -> scale_eigenvector b s H = Abort /\ scale_eigenvector_real b s K = Abort.
Proof.
  intros b s H K N1 N2. unfold scale_eigenvector, scale_eigenvector_real. destruct (Z.ltb_spec 0 b), (Z.leb_spec b (ep H)), (Z.leb_spec b (ep K)); try lia; split; reflexivity.
Qed.
Print Assumptions C49_band_refused.
(** Real builds: real numbers scale the band; numbers both of whose parts are not small are
    refused. *)
Theorem C49_real_partial : forall b s (H : emat R), wf H -> 1 <= b <= ep H ->
  (im s = 0%R -> exists H', scale_eigenvector_real b s H = Val H' /\ forall i j, 0 <= i < en H -> 0 <= j < ep H ->
     exists v, rd (edata H) (i * ep H + j) = Val v /\ rd (edata H') (i * ep H + j) = Val (if j =? b - 1 then re s * v else v)%R) /\
  ((1 / 100000000000000 <= Rabs (im s) * Rabs (re s))%R -> scale_eigenvector_real b s H = Abort).
Proof.
  intros b s H W Hb. split.
  - intros Z. destruct (scal_real_ok b s H W Hb) as (H' & E & _ & _ & _ & A); [rewrite Z, Rmult_0_l, Rabs_R0; lra|]. exists H'. auto.
  - intros L. unfold scale_eigenvector_real. destruct (Z.ltb_spec 0 b), (Z.leb_spec b (ep H)); try lia. cbn [andb check bind]. rewrite Rabs_mult. destruct (Rltb_spec (Rabs (im s) * Rabs (re s)) (1 / 100000000000000)); [lra|]. reflexivity.
Qed.
Print Assumptions C49_real_partial.
(** Purely imaginary numbers are accepted and erase the band, although their modulus is one. *)
Theorem C49_real_refuted : exists s, unit_c s /\ forall b (H : emat R), wf H -> 1 <= b <= ep H -> exists H', scale_eigenvector_real b s H = Val H' /\
  forall i, 0 <= i < en H -> rd (edata H') (i * ep H + (b - 1)) = Val 0%R.
Proof.
  exists Ci. split; [unfold unit_c; csimp; ring|]. intros b H W Hb. destruct (scal_real_ok b Ci H W Hb) as (H' & E & _ & _ & _ & A); [change (re Ci) with 0%R; rewrite Rmult_0_r, Rabs_R0; lra|]. exists H'. split; [exact E|].
  intros i Hi. destruct (A i (b - 1) Hi ltac:(lia)) as (v & _ & ->). rewrite Z.eqb_refl. change (re Ci) with 0%R. f_equal. ring.
Qed.
Print Assumptions C49_real_refuted.
Example C49_example : exists H', scale_eigenvector 2 Ci {| en := 2; ep := 2; ealloc := 2; edata := [C1; C1; C1; RtoC 3] |} = Val H' /\ edata H' = [C1; (Ci * C1)%C; C1; (Ci * RtoC 3)%C].
Proof. eexists. split; [reflexivity|]. reflexivity. Qed.
