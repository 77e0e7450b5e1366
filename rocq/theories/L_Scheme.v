(** Proofs about band ranges, gaps, list splitting. *)
From Coq Require Import Reals Lra Lia List Bool ZArith.
From Verif Require Import Base RC M_Scheme S_Scheme.
Import ListNotations.
Local Open Scope R_scope.

Section Ranges.
Context {K : Type}.
Implicit Types brd : list (@brange K).

Definition step1 (k : K) (br : @brange K) (f : R) : brange :=
  (if Rltb f (fst (fst br)) then (f, Some k) else fst br,
   if Rltb (fst (snd br)) f then (f, Some k) else snd br).

Lemma ubrd_acc k brd fs acc : ubrd k brd fs acc = rev acc ++ ubrd k brd fs [].
Proof.
  revert brd acc. induction fs as [|f fs IH]; intros brd acc; [reflexivity|].
  cbn [ubrd]. rewrite IH. symmetry. rewrite IH. cbn [rev app]. rewrite <- ?app_assoc. reflexivity.
Qed.

Lemma update_nth k brd fs b :
  nth_error (update_band_range_data brd fs k) b =
  match nth_error fs b with
  | Some f => Some (step1 k (match nth_error brd b with Some br => br | None => br_new end) f)
  | None => nth_error brd b
  end.
Proof.
  unfold update_band_range_data. revert brd b. induction fs as [|f fs IH]; intros brd b.
  - cbn. destruct b; reflexivity.
  - cbn [ubrd]. rewrite ubrd_acc. cbn [rev app].
    destruct b as [|b]; cbn [nth_error app].
    + destruct brd; reflexivity.
    + rewrite IH. destruct brd; cbn [nth_error]; [destruct b|]; reflexivity.
Qed.

Definition range_inv (runs : list (K * list R)) brd : Prop :=
  forall b, match nth_error brd b with
            | None => band_vals b runs = []
            | Some br => is_range (band_vals b runs) br
            end.

Lemma band_vals_app b (r1 r2 : list (K * list R)) : band_vals b (r1 ++ r2) = band_vals b r1 ++ band_vals b r2.
Proof. unfold band_vals. apply flat_map_app. Qed.

Lemma is_range_new k f : Rabs f < infinity -> is_range [(k, f)] (step1 k br_new f).
Proof.
  intros H. apply Rabs_def2 in H. unfold step1, br_new. cbn [fst snd].
  destruct (Rltb_spec f infinity) as [_|]; [|lra]. destruct (Rltb_spec (- infinity) f) as [_|]; [|lra].
  exists k, k. cbn. split; [reflexivity|]. split; [auto|]. split; [auto|].
  intros k' f' [[= <- <-]|[]]. lra.
Qed.

Lemma is_range_step vals k f (br : @brange K) : is_range vals br -> is_range (vals ++ [(k, f)]) (step1 k br f).
Proof.
  intros (k1 & k2 & E & H1 & H2 & H3). unfold step1.
  destruct br as [[m x1] [M x2]]. cbn [fst snd] in *. injection E as -> ->.
  pose proof (H3 _ _ H1) as [A1 A2].
  destruct (Rltb_spec f m) as [Hm|Hm]; destruct (Rltb_spec M f) as [HM|HM]; cbn [fst snd].
  - lra.
  - exists k, k2. cbn [fst snd]. split; [reflexivity|]. rewrite !in_app_iff. cbn. split; [auto|]. split; [auto|].
    intros k' f' H. apply in_app_iff in H. destruct H as [H|[[= <- <-]|[]]]; [pose proof (H3 _ _ H)|]; lra.
  - exists k1, k. cbn [fst snd]. split; [reflexivity|]. rewrite !in_app_iff. cbn. split; [auto|]. split; [auto|].
    intros k' f' H. apply in_app_iff in H. destruct H as [H|[[= <- <-]|[]]]; [pose proof (H3 _ _ H)|]; lra.
  - exists k1, k2. cbn [fst snd]. split; [reflexivity|]. rewrite !in_app_iff. split; [auto|]. split; [auto|].
    intros k' f' H. apply in_app_iff in H. destruct H as [H|[[= <- <-]|[]]]; [pose proof (H3 _ _ H)|]; lra.
Qed.

Definition finite_runs (runs : list (K * list R)) : Prop :=
  forall k fs f, In (k, fs) runs -> In f fs -> Rabs f < infinity.

Lemma range_inv_step runs brd k fs : (forall f, In f fs -> Rabs f < infinity) ->
  range_inv runs brd -> range_inv (runs ++ [(k, fs)]) (update_band_range_data brd fs k).
Proof.
  intros Hf H b. specialize (H b). rewrite update_nth, band_vals_app.
  assert (E : band_vals b [(k, fs)] = match nth_error fs b with Some f => [(k, f)] | None => [] end).
  { unfold band_vals. cbn. destruct (nth_error fs b); reflexivity. }
  rewrite E. destruct (nth_error fs b) as [f|] eqn:Ef.
  - destruct (nth_error brd b) as [br|].
    + apply is_range_step. exact H.
    + rewrite H. cbn [app]. apply is_range_new. apply Hf. eapply nth_error_In. exact Ef.
  - rewrite app_nil_r. exact H.
Qed.

Definition all_updates (runs : list (K * list R)) : list brange :=
  fold_left (fun brd kf => update_band_range_data brd (snd kf) (fst kf)) runs [].

Lemma all_updates_inv runs : finite_runs runs -> range_inv runs (all_updates runs).
Proof.
  unfold all_updates. induction runs as [|[k fs] runs IH] using rev_ind.
  - intros _ b. cbn. destruct b; reflexivity.
  - intros H. rewrite fold_left_app. cbn [fold_left fst snd]. apply range_inv_step.
    + intros f Hf. apply (H k fs f); [apply in_app_iff; right; left; reflexivity|exact Hf].
    + apply IH. intros k' fs' f' Hi. apply (H k' fs' f'). apply in_app_iff. left. exact Hi.
Qed.

(* gaps *)
Definition gap_of (p : @brange K * @brange K) : R * R * R :=
  let lo := fst (snd (fst p)) in let hi := fst (fst (snd p)) in (200 * (hi - lo) / (hi + lo), lo, hi).
Definition has_gap (p : @brange K * @brange K) : bool := negb (Rleb (fst (fst (snd p))) (fst (snd (fst p)))).

Lemma ogaps_spec cur rest acc :
  (forall p, In p (combine (cur :: rest) rest) -> has_gap p = true -> fst (fst (snd p)) + fst (snd (fst p)) <> 0) ->
  ogaps cur rest acc = Val (rev acc ++ map gap_of (filter has_gap (combine (cur :: rest) rest))).
Proof.
  revert cur acc. induction rest as [|nxt rest IH]; intros cur acc H.
  - cbn. rewrite app_nil_r. reflexivity.
  - cbn [ogaps]. change (combine (cur :: nxt :: rest) (nxt :: rest)) with ((cur, nxt) :: combine (nxt :: rest) rest) in *.
    cbn [filter]. unfold has_gap at 1. cbn [fst snd].
    destruct (Rleb (fst (fst nxt)) (fst (snd cur))) eqn:E; cbn [negb].
    + apply IH. intros p Hp. apply H. right. exact Hp.
    + rewrite fdiv_nz. 2:{ apply (H (cur, nxt)); [left; reflexivity|]. unfold has_gap. cbn [fst snd]. rewrite E. reflexivity. }
      cbn [bind]. rewrite IH by (intros p Hp; apply H; right; exact Hp).
      cbn [rev map]. rewrite <- app_assoc. reflexivity.
Qed.

Lemma ogaps_nz cur rest acc g :
  ogaps cur rest acc = Val g ->
  (forall p, In p (combine (cur :: rest) rest) -> has_gap p = true -> fst (fst (snd p)) + fst (snd (fst p)) <> 0).
Proof.
  revert cur acc. induction rest as [|nxt rest IH]; intros cur acc H p Hp; [destruct Hp|].
  change (combine (cur :: nxt :: rest) (nxt :: rest)) with ((cur, nxt) :: combine (nxt :: rest) rest) in Hp.
  cbn [ogaps] in H. destruct (Rleb (fst (fst nxt)) (fst (snd cur))) eqn:E.
  - destruct Hp as [<-|Hp]; [unfold has_gap; cbn [fst snd]; rewrite E; discriminate|eauto].
  - unfold fdiv in H. destruct (Req_EM_T _ _) as [Ez|Nz]; cbn [bind] in H; [discriminate|].
    destruct Hp as [<-|Hp]; [intros _; exact Nz|eauto].
Qed.

Lemma combine_tl_nth {A} (l : list A) p :
  In p (combine l (tl l)) <-> exists i, nth_error l i = Some (fst p) /\ nth_error l (S i) = Some (snd p).
Proof.
  destruct l as [|a l]; [cbn; split; [intros []|intros (i & H & _); destruct i; discriminate]|]. cbn [tl].
  revert a. induction l as [|b l IH]; intros a.
  - cbn. split; [intros []|]. intros (i & _ & H). destruct i; discriminate.
  - change (combine (a :: b :: l) (b :: l)) with ((a, b) :: combine (b :: l) l). cbn [In]. rewrite IH. split.
    + intros [<-|(i & H1 & H2)]; [exists 0%nat; auto|exists (S i); auto].
    + intros (i & H1 & H2). destruct i as [|i].
      * left. destruct p; cbn in *. congruence.
      * right. exists i. auto.
Qed.

Lemma gap_arith hi lo : hi + lo <> 0 -> 100 * ((hi - lo) / ((hi + lo) / 2)) = 200 * (hi - lo) / (hi + lo).
Proof. intros H. field. exact H. Qed.

Lemma output_gaps_iff brd gaps : output_gaps brd = Val gaps ->
  forall g, In g gaps <-> exists i, gap_between brd i g.
Proof.
  intros H g. unfold output_gaps in H. destruct brd as [|b r].
  - injection H as <-. split; [intros []|]. intros (i & b1 & _ & H & _). destruct i; discriminate.
  - pose proof (ogaps_nz _ _ _ _ H) as Hnz. rewrite ogaps_spec in H by exact Hnz. injection H as <-. cbn [rev app].
    rewrite in_map_iff. split.
    + intros (p & <- & Hp). apply filter_In in Hp. destruct Hp as [Hp Hg].
      pose proof (Hnz p Hp Hg) as Hn.
      apply (combine_tl_nth (b :: r) p) in Hp. destruct Hp as (i & H1 & H2). exists i, (fst p), (snd p).
      split; [exact H1|]. split; [exact H2|]. cbv zeta. unfold has_gap in Hg.
      destruct (Rleb_spec (fst (fst (snd p))) (fst (snd (fst p)))); [discriminate|].
      split; [lra|]. unfold gap_of. rewrite gap_arith by exact Hn. reflexivity.
    + intros (i & b1 & b2 & H1 & H2 & Hlt & ->).
      assert (Hin : In (b1, b2) (combine (b :: r) r)).
      { apply (combine_tl_nth (b :: r) (b1, b2)). exists i. auto. }
      assert (Hg : has_gap (b1, b2) = true).
      { unfold has_gap. cbn [fst snd]. destruct (Rleb_spec (fst (fst b2)) (fst (snd b1))); [lra|reflexivity]. }
      exists (b1, b2). split; [|apply filter_In; split; assumption].
      unfold gap_of. cbn [fst snd]. rewrite gap_arith; [reflexivity|].
      apply (Hnz _ Hin Hg).
Qed.

Lemma output_gaps_total brd :
  (forall br, In br brd -> 0 <= fst (snd br)) -> exists gaps, output_gaps brd = Val gaps.
Proof.
  intros H. destruct brd as [|b r]; [eexists; reflexivity|].
  cbn [output_gaps]. rewrite ogaps_spec; [eexists; reflexivity|].
  intros p Hp Hg. unfold has_gap in Hg.
  destruct (Rleb_spec (fst (fst (snd p))) (fst (snd (fst p)))); [discriminate|].
  assert (0 <= fst (snd (fst p))).
  { apply H. destruct p as [p1 p2]. eapply in_combine_l. exact Hp. }
  lra.
Qed.

Lemma retrieve_gap_spec brd lb b1 b2 : (1 <= lb)%Z ->
  nth_error brd (Z.to_nat (lb - 1)) = Some b1 -> nth_error brd (Z.to_nat lb) = Some b2 ->
  fst (snd b1) + fst (fst b2) <> 0 ->
  retrieve_gap brd lb = Val (100 * ((fst (fst b2) - fst (snd b1)) / ((fst (fst b2) + fst (snd b1)) / 2))).
Proof.
  intros Hl H1 H2 Hn. unfold retrieve_gap.
  assert (Hlen : (Z.to_nat lb < length brd)%nat) by (apply nth_error_Some; congruence).
  destruct (Z.ltb_spec (Z.of_nat (length brd)) (lb + 1)); [lia|].
  unfold list_ref. destruct (Z.ltb_spec (lb - 1) 0); [lia|]. rewrite H1. cbn [bind].
  destruct (Z.ltb_spec lb 0); [lia|]. rewrite H2. cbn [bind].
  rewrite fdiv_nz by lra. f_equal. field. lra.
Qed.

Lemma retrieve_gap_refuses brd lb : (lb < 1 \/ Z.of_nat (length brd) < lb + 1)%Z -> retrieve_gap brd lb = Abort.
Proof.
  intros H. unfold retrieve_gap. destruct (Z.ltb_spec (Z.of_nat (length brd)) (lb + 1)); [reflexivity|].
  destruct H as [H|H]; [|lia]. unfold list_ref. destruct (Z.ltb_spec (lb - 1) 0); [reflexivity|lia].
Qed.

End Ranges.

(* ------------------------------------------------------------ list-split *)

Local Open Scope Z_scope.

Fixpoint pick {A} (L : list A) (start stop index : Z) : list A :=
  match L with
  | [] => []
  | a :: L' => if (start <=? index) && (index <? stop) then a :: pick L' start stop (index+1) else pick L' start stop (index+1)
  end.

Lemma list_sub_pick {A} (L : list A) s l i acc : list_sub L s l i acc = rev acc ++ pick L s (s+l) i.
Proof.
  revert i acc. induction L as [|a L IH]; intros i acc; cbn [list_sub pick]; [rewrite app_nil_r; reflexivity|].
  destruct ((s <=? i) && (i <? s + l)); rewrite IH; [|reflexivity]. cbn [rev]. rewrite <- app_assoc. reflexivity.
Qed.

Lemma pick_firstn_skipn {A} (L : list A) s t i : i <= s ->
  pick L s t i = firstn (Z.to_nat (t - s)) (skipn (Z.to_nat (s - i)) L).
Proof.
  revert i. induction L as [|a L IH]; intros i Hi; cbn [pick].
  - rewrite skipn_nil, firstn_nil. reflexivity.
  - destruct (Z.eq_dec i s) as [->|Hne].
    + rewrite Z.sub_diag. cbn [Z.to_nat skipn].
      destruct (Z.leb_spec s s); [|lia]. destruct (Z.ltb_spec s t); cbn [andb].
      * destruct (Z.to_nat (t - s)) as [|m] eqn:Em; [lia|]. cbn [firstn]. f_equal.
        clear IH Hi. assert (G : forall j, s < j -> pick L s t j = firstn (Z.to_nat (t - j)) L).
        { clear. induction L as [|b L IH]; intros j Hj; cbn [pick]; [rewrite firstn_nil; reflexivity|].
          destruct (Z.leb_spec s j); [|lia]. destruct (Z.ltb_spec j t); cbn [andb].
          - destruct (Z.to_nat (t - j)) as [|m] eqn:Em; [lia|]. cbn [firstn]. f_equal. rewrite IH by lia. f_equal. lia.
          - rewrite IH by lia. replace (Z.to_nat (t - j)) with 0%nat by lia.
            replace (Z.to_nat (t - (j+1))) with 0%nat by lia. reflexivity. }
        rewrite G by lia. f_equal. lia.
      * replace (Z.to_nat (t - s)) with 0%nat by lia. cbn [firstn].
        assert (G : forall j, t <= j -> pick L s t j = []).
        { clear. induction L as [|b L IH]; intros j Hj; cbn [pick]; [reflexivity|].
          destruct (Z.ltb_spec j t); [lia|]. rewrite andb_false_r. apply IH. lia. }
        apply G. lia.
    + destruct (Z.leb_spec s i); [lia|]. cbn [andb]. rewrite IH by lia.
      replace (Z.to_nat (s - i)) with (S (Z.to_nat (s - (i+1)))) by lia. reflexivity.
Qed.

Definition block_size (n num : Z) : Z := (n + num - 1) / num.

Lemma list_split_spec {A} (L : list A) num i : 0 <= i < num ->
  let bs := block_size (Z.of_nat (length L)) num in
  list_split L num i = (i * bs, firstn (Z.to_nat bs) (skipn (Z.to_nat (i * bs)) L)).
Proof.
  intros Hi bs. unfold list_split.
  destruct (Z.leb_spec num i); [lia|]. destruct (Z.ltb_spec i 0); [lia|]. cbn [orb].
  set (n := Z.of_nat (length L)) in *.
  assert (Hn : 0 <= n) by (unfold n; lia).
  assert (Eq : Z.quot (n + num + -1) num = bs).
  { unfold bs, block_size. rewrite Z.quot_div_nonneg by lia. f_equal; lia. }
  rewrite Eq. rewrite list_sub_pick. cbn [rev app].
  assert (Hb : 0 <= bs) by (unfold bs, block_size; apply Z.div_pos; lia).
  rewrite pick_firstn_skipn by nia. f_equal.
  replace (i * bs - 0) with (i * bs) by lia.
  replace (i * bs + Z.min bs (n - i * bs) - i * bs) with (Z.min bs (n - i*bs)) by lia.
  destruct (Z.le_gt_cases bs (n - i*bs)).
  - rewrite Z.min_l by lia. reflexivity.
  - rewrite Z.min_r by lia. rewrite !firstn_all2; [reflexivity| |]; rewrite skipn_length; lia.
Qed.

Lemma block_size_covers n num : 0 <= n -> 0 < num -> n <= num * block_size n num.
Proof.
  intros Hn Hm. unfold block_size. pose proof (Z.div_mod (n + num - 1) num ltac:(lia)).
  pose proof (Z.mod_pos_bound (n + num - 1) num ltac:(lia)). lia.
Qed.

Lemma concat_blocks {A} (b : nat) (m : nat) (L : list A) :
  concat (map (fun i => firstn b (skipn (i * b) L)) (seq 0 m)) = firstn (m * b) L.
Proof.
  induction m as [|m IH]; [reflexivity|].
  rewrite seq_S, map_app, concat_app, IH. cbn [map concat plus]. rewrite app_nil_r.
  rewrite <- (firstn_skipn (m*b) (firstn (S m * b) L)).
  rewrite firstn_firstn, skipn_firstn_comm. f_equal; f_equal; lia.
Qed.

Lemma list_split_concat {A} (L : list A) num : 0 < num ->
  concat (map (fun i => snd (list_split L num (Z.of_nat i))) (seq 0 (Z.to_nat num))) = L.
Proof.
  intros Hn. set (bs := block_size (Z.of_nat (length L)) num).
  assert (Hb : 0 <= bs) by (unfold bs, block_size; apply Z.div_pos; lia).
  erewrite map_ext_in.
  2:{ intros i Hi. apply in_seq in Hi. rewrite list_split_spec by lia. cbn [snd]. fold bs.
      replace (Z.to_nat (Z.of_nat i * bs)) with (i * Z.to_nat bs)%nat by lia. reflexivity. }
  rewrite concat_blocks. apply firstn_all2.
  pose proof (block_size_covers (Z.of_nat (length L)) num ltac:(lia) Hn). fold bs in H. nia.
Qed.

Lemma list_split_start {A} (L : list A) num i : 0 <= i < num -> snd (list_split L num i) <> [] ->
  fst (list_split L num i) =
  Z.of_nat (length (concat (map (fun j => snd (list_split L num (Z.of_nat j))) (seq 0 (Z.to_nat i))))).
Proof.
  intros Hi Hne. set (bs := block_size (Z.of_nat (length L)) num).
  assert (Hb : 0 <= bs) by (unfold bs, block_size; apply Z.div_pos; lia).
  rewrite (list_split_spec L num i Hi) in *. fold bs in Hne |- *. cbn [fst snd] in *.
  erewrite map_ext_in.
  2:{ intros j Hj. apply in_seq in Hj. rewrite list_split_spec by lia. cbn [snd]. fold bs.
      replace (Z.to_nat (Z.of_nat j * bs)) with (j * Z.to_nat bs)%nat by lia. reflexivity. }
  rewrite concat_blocks, firstn_length.
  destruct (Nat.le_gt_cases (Z.to_nat i * Z.to_nat bs) (length L)).
  - rewrite Nat.min_l by assumption. nia.
  - exfalso. apply Hne. rewrite skipn_all2 by nia. apply firstn_nil.
Qed.

Lemma list_split_sizes {A} (L : list A) num i : 0 <= i < num ->
  let bs := block_size (Z.of_nat (length L)) num in
  Z.of_nat (length (snd (list_split L num i))) = Z.max 0 (Z.min bs (Z.of_nat (length L) - i * bs)).
Proof.
  intros Hi bs. rewrite (list_split_spec L num i Hi). fold bs. cbn [snd].
  assert (Hb : 0 <= bs) by (unfold bs, block_size; apply Z.div_pos; lia).
  rewrite firstn_length, skipn_length. nia.
Qed.

Lemma list_split_out {A} (L : list A) num i : i < 0 \/ num <= i -> list_split L num i = (Z.of_nat (length L), []).
Proof.
  intros H. unfold list_split. destruct (Z.leb_spec num i); cbn [orb]; [reflexivity|].
  destruct (Z.ltb_spec i 0); [reflexivity|lia].
Qed.

(* ------------------------------------------------------------ run-parity *)

Local Open Scope R_scope.

Lemma run_fold {K} (solve : K -> list R) ks brd af :
  fold_left (fun acc k => let '(brd, af) := acc in
          (update_band_range_data brd (solve k) k, solve k :: af)) ks (brd, af)
  = (fold_left (fun b kf => update_band_range_data b (snd kf) (fst kf)) (map (fun k => (k, solve k)) ks) brd,
     rev (map solve ks) ++ af).
Proof.
  revert brd af. induction ks as [|k ks IH]; intros brd af; [reflexivity|].
  cbn [fold_left map rev fst snd]. rewrite IH, <- app_assoc. reflexivity.
Qed.

Lemma run_parity_spec {K} (solve : K -> list R) kps num idx nb st st' :
  (0 < nb)%Z ->
  run_parity solve kps num idx nb st = Val st' ->
  let ks := snd (list_split kps num idx) in
  st_freqs st' = map solve ks /\
  st_brd st' = all_updates (map (fun k => (k, solve k)) ks) /\
  ((1 < length ks)%nat -> output_gaps (st_brd st') = Val (st_gaps st')) /\
  ((length ks <= 1)%nat -> st_gaps st' = []).
Proof.
  intros Hnb. unfold run_parity. destruct (Z.ltb_spec 0 nb); [|lia].
  set (ks := snd (list_split kps num idx)). rewrite run_fold. cbv zeta.
  fold (all_updates (map (fun k => (k, solve k)) ks)).
  rewrite app_nil_r.
  destruct (Z.ltb_spec 1 (Z.of_nat (length ks))) as [Hl|Hl].
  - destruct (output_gaps (all_updates (map (fun k : K => (k, solve k)) ks))) eqn:E; cbn [bind]; try discriminate.
    intros [= <-]. cbn [st_freqs st_brd st_gaps]. rewrite rev_involutive. repeat split; [auto|lia].
  - intros [= <-]. cbn [st_freqs st_brd st_gaps]. rewrite rev_involutive. repeat split; lia.
Qed.
