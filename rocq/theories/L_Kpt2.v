(** One block of bands: the constraint it is solved with, and where its results go. *)
From Coq Require Import List ZArith Reals Bool Arith Lia Lra.
From Verif Require Import Base RC Loops M_Evect M_Lin M_Eig M_Kpt S_Evect S_Eig S_Kpt L_Evect L_Evect2 L_Evect3 L_Mat L_Eig L_Eig2 L_Eig4 L_Kpt1.
Import ListNotations.
Local Open Scope R_scope.
Local Open Scope Z_scope.
Add Ring Cring_k2 : C_ring_theory.

Lemma fields_of n p X M : wf X -> en X = Z.of_nat n -> ep X = Z.of_nat p -> mdim n p M ->
  (forall i j, (i < n)%nat -> (j < p)%nat -> entC X (Z.of_nat i) (Z.of_nat j) = M i j) -> fields n p X M.
Proof.
  intros W N P D H. split; [exact N|]. split; [exact P|]. split; [exact W|]. apply rep_of.
  - destruct W as (W1 & W2 & W3). nia.
  - exact D.
  - intros i j Hi Hj. specialize (H (Z.to_nat i) (Z.to_nat j) ltac:(lia) ltac:(lia)). rewrite !Z2Nat.id in H by lia. unfold entC in H. rewrite P in H. exact H.
Qed.
Lemma ent_entC X i j Y i' j' : ent X i j = ent Y i' j' -> entC X i j = entC Y i' j'.
Proof. unfold ent, entC, gets. intros ->. reflexivity. Qed.
Lemma fields_at n p X M i j : fields n p X M -> (i < n)%nat -> (j < p)%nat -> entC X (Z.of_nat i) (Z.of_nat j) = M i j.
Proof. intros H Hi Hj. rewrite (fields_entC n p X M i (Z.of_nat j)) by (auto; lia). rewrite Nat2Z.id. reflexivity. Qed.

Lemma chain_applies n q c P l Q : applies n q c P -> applies n q (chain_func l) Q -> applies n q (chain_func (c :: l)) (mmul n Q P).
Proof.
  intros Hc Hl X M HX. destruct (Hc X M HX) as (X1 & E1 & H1). destruct (Hl X1 _ H1) as (X2 & E2 & H2). exists X2. cbn [chain_func]. rewrite E1. cbn [bind]. split; [exact E2|]. rewrite mmul_assoc. exact H2.
Qed.

Lemma deflate_applies n m p pb q H M BY N S2 B : (1 <= p <= m)%nat -> (p <= pb)%nat -> fields n m H M -> fields n pb BY N -> mdim n n B -> hermitian B ->
  slice 0 p N = slice 0 p (mmul n B M) -> (q * p <= length S2)%nat ->
  applies n q (deflate (Z.of_nat p) H BY S2) (msub (mid n) (yyb n p B (slice 0 p M))).
Proof.
  intros Hp Hpb HH HB DB HhB EN HS X MX HX. unfold deflate.
  assert (Sh : Forall (share_ok (Z.of_nat p) (Z.of_nat q)) [(X, H, BY)]).
  { constructor; [|constructor]. cbn. destruct HX as (X1 & X2 & X3 & _), HH as (H1 & H2 & H3 & _), HB as (B1 & B2 & B3 & _). split; [exact X3|]. split; [exact H3|]. split; [exact B3|]. lia. }
  destruct (deflation_ok (Z.of_nat p) (Z.of_nat q) [(X, H, BY)] S2 ltac:(lia) ltac:(lia) Sh ltac:(lia)) as (Xs & E & F). rewrite E. cbn [bind].
  inversion F as [|? X' ? l' (W & N' & P' & _ & Ent) F' ]; subst. inversion F'; subst. cbn [fst snd map xby] in *. exists X'. split; [reflexivity|].
  assert (DX : mdim n q MX) by apply (fields_dim _ _ _ _ HX). assert (DM : mdim n m M) by apply (fields_dim _ _ _ _ HH).
  assert (Dy : mdim n n (yyb n p B (slice 0 p M))) by (apply (yyb_dim n p B); [exact DB|apply (slice_dim n m); exact DM]).
  pose proof (proj1 HX) as NX.
  apply fields_of; [exact W|congruence|exact P'| |].
  - apply (mdim_mul n n q); [|exact DX]. unfold msub. apply mdim_add; [apply mdim_id|apply mdim_scal; exact Dy].
  - intros i j Hi Hj. rewrite Ent by lia. rewrite (fields_at n q X MX i j HX Hi Hj), Nat2Z.id. unfold msub. rewrite mmul_add_l, mmul_scal_l, (mid_l n q MX DX). unfold madd, mscal.
    assert (Ec : mmul n (yyb n p B (slice 0 p M)) MX i j = csum p (fun l => (entC H (Z.of_nat i) (Z.of_nat l) * Cconj (dot [(X, BY)] (Z.of_nat j) (Z.of_nat l)))%C)).
    { unfold yyb. rewrite mmul_assoc. unfold mmul at 1. apply csum_ext; intros l Hl. rewrite (fields_at n m H M i l HH Hi) by lia. unfold slice at 1. destruct (Nat.ltb_spec l p); [|lia]. f_equal.
      transitivity (mmul n (madj N) MX l j).
      - assert (EA : mmul n (madj (slice 0 p M)) B = madj (slice 0 p N)) by (rewrite EN, <- mmul_slice, madj_mul, HhB; reflexivity). rewrite EA. unfold mmul, madj, slice. destruct (Nat.ltb_spec l p); [|lia]. reflexivity.
      - unfold dot. cbn [fold_right fst snd]. unfold dotl. rewrite NX, Nat2Z.id. rewrite Cconj_add. rewrite csum_conj. unfold mmul, madj.
        transitivity (csum n (fun k => (Cconj (N k l) * MX k j)%C) + C0)%C; [ring|]. f_equal; [|apply C_eq; csimp; ring]. apply csum_ext; intros k Hk.
        rewrite (fields_at n q X MX k j HX Hk Hj), (fields_at n pb BY N k l HB Hk) by lia. apply C_eq; csimp; ring. }
    rewrite Ec. cbn [fst snd map xby]. set (t := csum _ _). clearbody t. generalize (MX i j) as u. intros u. destruct t, u. apply C_eq; csimp; ring.
Qed.

Lemma put_ok b q (e ev : list R) : length e = q -> (b + q <= length ev)%nat ->
  exists ev', put_values (Z.of_nat b) (Z.of_nat q) e ev = Val ev' /\ length ev' = length ev /\
    (forall j, (j < q)%nat -> nth (b + j) ev' 0%R = nth j e 0%R) /\ (forall i, (i < b)%nat -> nth i ev' 0%R = nth i ev 0%R).
Proof.
  intros Le Lv. unfold put_values.
  destruct (forZ_inv (fun k d => length d = length ev /\ forall i, (i < length ev)%nat -> nth i d 0%R = if ((b <=? i) && (i <? b + Z.to_nat k))%nat then nth (i - b) e 0%R else nth i ev 0%R)
    (fun j d => let! v := rd e j in wr d (Z.of_nat b + j) v) 0 (Z.of_nat q) ev ltac:(lia)) as (d & E & L & Q).
  - split; [reflexivity|]. intros i Hi. destruct (Nat.leb_spec b i), (Nat.ltb_spec i (b + Z.to_nat 0)); cbn [andb]; try lia; reflexivity.
  - intros j d Hj (L & Q). rewrite (L_Eig4.rd_nth e j 0%R) by lia. cbn [bind].
    destruct (wr d (Z.of_nat b + j) (nth (Z.to_nat j) e 0%R)) as [d1| | |] eqn:W; try (rewrite wr_in in W by lia; discriminate).
    exists d1. split; [reflexivity|]. pose proof (wr_length _ _ _ _ W) as L1. split; [congruence|]. intros i Hi.
    pose proof (rd_wr _ _ _ (Z.of_nat i) _ W) as RW. rewrite (L_Eig4.rd_nth d1 (Z.of_nat i) 0%R), (L_Eig4.rd_nth d (Z.of_nat i) 0%R), Nat2Z.id in RW by lia. rewrite Q in RW by lia.
    destruct (Z.eqb_spec (Z.of_nat i) (Z.of_nat b + j)).
    + injection RW as ->. destruct (Nat.leb_spec b i), (Nat.ltb_spec i (b + Z.to_nat (j + 1))); cbn [andb]; try lia. f_equal. lia.
    + injection RW as ->. destruct (Nat.leb_spec b i), (Nat.ltb_spec i (b + Z.to_nat (j + 1))), (Nat.ltb_spec i (b + Z.to_nat j)); cbn [andb]; try lia; reflexivity.
  - exists d. split; [exact E|]. split; [exact L|]. split.
    + intros j Hj. rewrite Q by lia. destruct (Nat.leb_spec b (b + j)), (Nat.ltb_spec (b + j) (b + Z.to_nat (Z.of_nat q))); cbn [andb]; try lia. f_equal. lia.
    + intros i Hi. rewrite Q by lia. destruct (Nat.leb_spec b i); [lia|reflexivity].
Qed.

Section Block.
Variables (n num bs b0 : nat) (parity_c : emat C -> outcome (emat C)) (zero_k same : bool) (muinv : emat C -> emat C -> outcome (emat C)).
Variable solver : (emat C -> outcome (emat C)) -> emat C -> option (outcome (emat C * list R)).
Variables (A B P0 : mat) (S2 : list C) (good : nat -> mat -> mat -> (nat -> R) -> Prop).
Hypothesis Ok : kpoint_ok n num parity_c zero_k muinv A B P0.
Hypothesis Hb0 : (b0 <= num)%nat.
Hypothesis Hbs : (1 <= bs <= num)%nat.
Hypothesis HS2 : ((num - b0) * bs <= length S2)%nat.
Hypothesis Hsame : same = true <-> bs = num.
Hypothesis Fin : solver_finds good n bs solver.
Let m := (num - b0)%nat.

Definition st_ok (s : kst) (M : mat) : Prop :=
  fields n m (k_H s) M /\ ealloc (k_H s) = Z.of_nat num /\ wf (k_blk s) /\ en (k_blk s) = Z.of_nat n /\ ealloc (k_blk s) = Z.of_nat bs /\
  match k_BY s with Some b => wf b /\ en b = Z.of_nat n /\ ealloc b = Z.of_nat num | None => same = true \/ B = mid n end /\ length (k_ev s) = num.

Lemma before_ok s M d q : st_ok s M -> (1 <= q <= bs)%nat -> (d + q <= m)%nat -> (same = true -> d = 0%nat /\ q = m) ->
  satisfies n P0 (slice 0 d M) -> form n B (slice 0 d M) (slice 0 d M) = mid d ->
  exists X Hb l BY, (if same then Val (k_H s, k_blk s, base_chain parity_c zero_k, k_BY s)
    else let! Hb := evectmatrix_resize (k_blk s) (Z.of_nat q) false in
      let! Hb := block_load Hb (k_H s) (Z.of_nat d) in
      let! (l, BY) := add_deflation muinv (Z.of_nat d) S2 (base_chain parity_c zero_k) (k_H s) (k_BY s) in
      Val (Hb, Hb, l, BY)) = Val (X, Hb, l, BY) /\
    applies n q (chain_func l) (dproj n d B P0 (slice 0 d M)) /\ fields n q X (slice d q M) /\
    wf Hb /\ en Hb = Z.of_nat n /\ ealloc Hb = Z.of_nat bs /\
    match BY with Some b => wf b /\ en b = Z.of_nat n /\ ealloc b = Z.of_nat num | None => same = true \/ B = mid n end.
Proof.
  intros (HH & AH & Wb & Nb & Ab & HBY & Lev) Hq Hd Hs SY OY.
  assert (DM : mdim n m M) by apply (fields_dim _ _ _ _ HH). destruct Ok as [DA DB DP HA HB Base Id HP Cm Mu].
  assert (P00 : dproj n 0 B P0 (slice 0 0 M) = P0).
  { unfold dproj. replace (msub (mid n) (yyb n 0 B (slice 0 0 M))) with (mid n); [apply (mid_r n n P0 DP)|]. apply mext; intros i j. unfold msub, madd, mscal, yyb, mmul at 1. cbn [csum]. apply C_eq; csimp; ring. }
  destruct same eqn:Es.
  - destruct (Hs eq_refl) as (-> & ->). exists (k_H s), (k_blk s), (base_chain parity_c zero_k), (k_BY s). split; [reflexivity|].
    split; [rewrite P00; apply Base; lia|]. rewrite (slice_all n m M DM). split; [exact HH|]. split; [exact Wb|]. split; [exact Nb|]. split; [exact Ab|]. exact HBY.
  - rewrite L_Evect.resize_nopres by lia. cbn [bind]. set (Hb1 := {| en := en (k_blk s); ep := Z.of_nat q; ealloc := ealloc (k_blk s); edata := edata (k_blk s) |}).
    assert (W1 : wf Hb1) by (destruct Wb as (w1 & w2 & w3); split; [exact w1|]; split; [cbn; lia|exact w3]).
    pose proof HH as (NH & PH & WH & _).
    destruct (load_ok Hb1 (k_H s) (Z.of_nat d) W1 WH) as (Hb2 & E2 & W2 & N2 & P2 & A2 & Ld); [cbn; congruence|lia|cbn; lia|]. rewrite E2. cbn [bind].
    assert (FX : fields n q Hb2 (slice d q M)).
    { apply fields_of; [exact W2|cbn in N2; congruence|exact P2|apply (slice_dim n m); exact DM|]. intros i j Hi Hj. cbn in Ld. rewrite (ent_entC _ _ _ _ _ _ (Ld (Z.of_nat i) (Z.of_nat j) ltac:(lia) ltac:(lia))).
      unfold slice. destruct (Nat.ltb_spec j q); [|lia]. rewrite <- Nat2Z.inj_add. rewrite (fields_at n m (k_H s) M) by (auto; lia). f_equal. lia. }
    unfold add_deflation. destruct (Z.ltb_spec 0 (Z.of_nat d)) as [Hd0|Hd0].
    2: { replace d with 0%nat in * by lia. cbn [bind]. exists Hb2, Hb2, (base_chain parity_c zero_k), (k_BY s). split; [reflexivity|]. split; [rewrite P00; apply Base; lia|].
         split; [exact FX|]. split; [exact W2|]. split; [cbn in N2; congruence|]. split; [cbn in A2; congruence|]. exact HBY. }
    assert (HqS : (q * d <= length S2)%nat) by (apply (Nat.le_trans _ (bs * m)); [apply Nat.mul_le_mono; lia|fold m in HS2; rewrite Nat.mul_comm; exact HS2]).
    destruct (k_BY s) as [b|].
    + destruct HBY as (Wy & Ny & Ay). rewrite L_Evect.resize_nopres by lia. cbn [bind]. set (b1 := {| en := en b; ep := Z.of_nat d; ealloc := ealloc b; edata := edata b |}).
      assert (Wb1 : wf b1) by (destruct Wy as (w1 & w2 & w3); split; [exact w1|]; split; [cbn; lia|exact w3]).
      assert (Fb1 : fields n d b1 (fun i j => if ((i <? n) && (j <? d))%nat then entC b1 (Z.of_nat i) (Z.of_nat j) else C0)).
      { apply fields_of; [exact Wb1|exact Ny|reflexivity|intros i j H; destruct (Nat.ltb_spec i n), (Nat.ltb_spec j d); cbn [andb]; try reflexivity; lia|]. intros i j Hi Hj. destruct (Nat.ltb_spec i n), (Nat.ltb_spec j d); try lia. reflexivity. }
      destruct (Mu m d (k_H s) M b1 _ ltac:(lia) ltac:(lia) HH Fb1) as (b2 & E3 & A3 & F3). rewrite E3. cbn [bind].
      exists Hb2, Hb2, (add_constraint (base_chain parity_c zero_k) (deflate (Z.of_nat d) (k_H s) b2 S2)), (Some b2). split; [reflexivity|]. split.
      * unfold dproj, add_constraint. apply chain_applies; [|apply Base; lia]. apply (deflate_applies n m d d q (k_H s) M b2 _ S2 B ltac:(lia) ltac:(lia) HH F3 DB HB); [|exact HqS].
        apply mext; intros i j. unfold slice. destruct (Nat.ltb_spec j d) as [Hj|Hj]; cbn [Nat.add]; [destruct (Nat.ltb_spec j d); [reflexivity|lia]|reflexivity].
      * split; [exact FX|]. split; [exact W2|]. split; [cbn in N2; congruence|]. split; [cbn in A2; congruence|]. split; [apply F3|]. split; [apply F3|]. cbn in A3. congruence.
    + destruct HBY as [?|EB]; [discriminate|]. cbn [bind].
      exists Hb2, Hb2, (add_constraint (base_chain parity_c zero_k) (deflate (Z.of_nat d) (k_H s) (k_H s) S2)), None. split; [reflexivity|]. split.
      * unfold dproj, add_constraint. apply chain_applies; [|apply Base; lia]. apply (deflate_applies n m d m q (k_H s) M (k_H s) M S2 B ltac:(lia) ltac:(lia) HH HH DB HB); [|exact HqS].
        rewrite EB, (mid_l n m M DM). reflexivity.
      * split; [exact FX|]. split; [exact W2|]. split; [cbn in N2; congruence|]. split; [cbn in A2; congruence|]. right. exact EB.
Qed.

Lemma block_step s M d q r : st_ok s M -> (1 <= q <= bs)%nat -> (d + q <= m)%nat -> (same = true -> d = 0%nat /\ q = m) ->
  satisfies n P0 (slice 0 d M) -> form n B (slice 0 d M) (slice 0 d M) = mid d ->
  solve_block parity_c muinv solver same zero_k (Z.of_nat b0) S2 s (Z.of_nat (b0 + d), Z.of_nat q) = Some r ->
  (exists s' M' Mq e, r = Val s' /\ st_ok s' M' /\ slice 0 d M' = slice 0 d M /\ slice d q M' = Mq /\
     good q (dproj n d B P0 (slice 0 d M)) Mq e /\ (forall j, (j < q)%nat -> nth (b0 + d + j) (k_ev s') 0%R = e j) /\ (forall i, (i < b0 + d)%nat -> nth i (k_ev s') 0%R = nth i (k_ev s) 0%R)) \/
  (exists l X r0, applies n q (chain_func l) (dproj n d B P0 (slice 0 d M)) /\ fields n q X (slice d q M) /\ solver (chain_func l) X = Some r0 /\
     match r0, r with Abort, Abort => True | UB, UB => True | NonFin, NonFin => True | _, _ => False end).
Proof.
  intros St Hq Hd Hs SY OY. unfold solve_block. replace (Z.of_nat (b0 + d) - Z.of_nat b0) with (Z.of_nat d) by lia.
  destruct (before_ok s M d q St Hq Hd Hs SY OY) as (X & Hb & l & BY & E & Ap & FX & Wb & Nb & Ab & HBY). rewrite E. clear E.
  destruct St as (HH & AH & _ & _ & _ & _ & Lev). assert (DM : mdim n m M) by apply (fields_dim _ _ _ _ HH). pose proof Ok as [DA DB DP HA HB Base Id HP Cm Mu].
  destruct (solver (chain_func l) X) as [r0|] eqn:Er; [|discriminate]. intros [= <-].
  destruct r0 as [(Y, e)| | |]; [|right; exists l, X; eexists; split; [exact Ap|]; split; [exact FX|]; split; [exact Er|exact I]..].
  left. assert (DY : mdim n d (slice 0 d M)) by (apply (slice_dim n m); exact DM).
  destruct (Fin q _ (dproj n d B P0 (slice 0 d M)) X (slice d q M) Y e Hq Ap) as (Mq & FY & Le & G); [apply dproj_dim; auto|apply dproj_idem; auto|exact FX|exact Er|].
  cbn [bind]. pose proof HH as (NH & PH & WH & _). pose proof FY as (NY & PY & WY & _).
  destruct (save_ok Y (k_H s) (Z.of_nat d) WY WH) as (H' & E1 & W' & N' & P' & A' & In & Out); [congruence|lia|lia|]. rewrite E1. cbn [bind].
  destruct (put_ok (b0 + d) q e (k_ev s) Le ltac:(lia)) as (ev' & E2 & L2 & In2 & Out2). rewrite E2. cbn [bind].
  set (M' := fun i j => if ((d <=? j) && (j <? d + q))%nat then Mq i (j - d)%nat else M i j).
  assert (DMq : mdim n q Mq) by apply (fields_dim _ _ _ _ FY).
  exists {| k_H := H'; k_blk := Hb; k_BY := BY; k_ev := ev' |}, M', Mq, (fun i => nth i e 0%R). split; [reflexivity|]. split; [|split; [|split; [|split; [|split]]]].
  - unfold st_ok. cbn [k_H k_blk k_BY k_ev]. split; [|split; [congruence|]; split; [exact Wb|]; split; [exact Nb|]; split; [exact Ab|]; split; [exact HBY|congruence]].
    apply fields_of; [exact W'|congruence|congruence| |].
    + intros i j H. unfold M'. destruct (Nat.leb_spec d j), (Nat.ltb_spec j (d + q)); cbn [andb]; [apply DMq; lia|apply DM; lia..].
    + intros i j Hi Hj. unfold M'. destruct (Nat.leb_spec d j), (Nat.ltb_spec j (d + q)); cbn [andb].
      * specialize (In (Z.of_nat i) (Z.of_nat (j - d)) ltac:(lia) ltac:(lia)). replace (Z.of_nat (j - d) + Z.of_nat d) with (Z.of_nat j) in In by lia. rewrite (ent_entC _ _ _ _ _ _ In). apply (fields_at n q); auto. lia.
      * rewrite (ent_entC _ _ _ _ _ _ (Out (Z.of_nat i) (Z.of_nat j) ltac:(lia) ltac:(lia) ltac:(lia))). apply (fields_at n m); auto.
      * rewrite (ent_entC _ _ _ _ _ _ (Out (Z.of_nat i) (Z.of_nat j) ltac:(lia) ltac:(lia) ltac:(lia))). apply (fields_at n m); auto.
      * lia.
  - apply mext; intros i j. unfold slice, M'. cbn [Nat.add]. destruct (Nat.ltb_spec j d); [|reflexivity]. destruct (Nat.leb_spec d j); [lia|]. reflexivity.
  - apply mext; intros i j. unfold slice, M'. destruct (Nat.ltb_spec j q); [|symmetry; apply DMq; lia]. destruct (Nat.leb_spec d (d + j)), (Nat.ltb_spec (d + j) (d + q)); try lia. cbn [andb]. f_equal. lia.
  - exact G.
  - exact In2.
  - exact Out2.
Qed.
End Block.
