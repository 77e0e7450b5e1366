(** Proofs about half-stored grids: statistics and integrals. *)
From Coq Require Import List ZArith Reals Bool Lia Lra Permutation.
From Verif Require Import Base RC Loops M_Tensor M_Evect S_Evect M_Grid S_Grid L_Grid L_Grid5 M_Op S_Op M_Fld S_Fld L_Fld3 M_Half S_Half L_Half.
Import ListNotations.
Local Open Scope Z_scope.

(** What the report should say of a quantity on the whole grid. *)
Lemma report_ok n1 n2 n3 E parts pts : 0 < n1 -> 0 < n2 -> 0 < n3 -> (forall c, In c (whole n1 n2 n3) -> 0 < E c < 10 ^ 20)%R ->
  Forall2 (stat E) pts parts -> Permutation (concat pts) (whole n1 n2 n3) ->
  exists s, epsilon_report n1 n2 n3 parts = Val s /\ least E (whole n1 n2 n3) (s_low s) /\ largest E (whole n1 n2 n3) (s_high s) /\
    (s_mean s = sumR E (whole n1 n2 n3) / IZR (n1 * n2 * n3) /\ s_harm s = IZR (n1 * n2 * n3) / sumR (fun c => / E c) (whole n1 n2 n3) /\
     s_above s = 100 * sumR (fun c => above (E c) (10001 / 10000)) (whole n1 n2 n3) / IZR (n1 * n2 * n3) /\
     (s_high s = s_low s -> s_fill s = 100) /\ (s_high s <> s_low s -> s_fill s = 100 * (s_mean s - s_low s) / (s_high s - s_low s)))%R.
Proof.
  intros P1 P2 P3 HE Hs Hp. unfold epsilon_report.
  set (low := fold_right _ (10 ^ 20)%R parts). set (high := fold_right _ (- 10 ^ 20)%R parts). set (mean := fold_right _ 0%R parts). set (inv := fold_right _ 0%R parts). set (n := fold_right _ 0 parts).
  assert (St : stat E (whole n1 n2 n3) (low, high, mean, inv, n)).
  { apply (stat_perm E _ _ _ Hp). subst low high mean inv n. clear Hp. induction Hs as [|x q xs qs Hx Hs IH].
    - cbn. repeat split; try lra; try tauto; left; lra.
    - destruct q as ((((l & h) & m) & v) & k). cbn [concat fold_right]. apply stat_app; assumption. }
  clearbody low high mean inv n. destruct St as (L1 & L2 & L3 & H1 & H2 & H3 & Hm & Hv & Hn).
  assert (In0 : In (0, 0, 0) (whole n1 n2 n3)) by (apply whole_in; lia).
  assert (HN : IZR (n1 * n2 * n3) <> 0%R) by (apply not_0_IZR; nia).
  assert (Hi : (0 < inv)%R).
  { rewrite Hv. assert (G : forall l, (forall c, In c l -> 0 < E c)%R -> (0 <= sumR (fun c => (/ E c)%R) l /\ (l <> [] -> 0 < sumR (fun c => (/ E c)%R) l))%R).
    { induction l as [|a l IH]; intros H; cbn [sumR fold_right]; [split; [lra|congruence]|]. fold (sumR (fun c => / E c)%R l). destruct (IH (fun c Hc => H c (or_intror Hc))) as (A & _). pose proof (Rinv_0_lt_compat _ (H a (or_introl eq_refl))). split; intros; lra. }
    apply G; [intros c Hc; apply HE, Hc|]. intros X. rewrite X in In0. exact In0. }
  rewrite !fdiv_nz by (try exact HN; lra). cbn [bind].
  assert (Lo : least E (whole n1 n2 n3) low). { split; [|exact L3]. destruct L1 as [L1|L1]; [|exact L1]. specialize (L3 _ In0). destruct (HE _ In0). lra. }
  assert (Hi' : largest E (whole n1 n2 n3) high). { split; [|exact H3]. destruct H1 as [H1|H1]; [|exact H1]. specialize (H3 _ In0). destruct (HE _ In0). lra. }
  destruct (Reqb_spec high low) as [Q|Q]; cbn [bind].
  - eexists. split; [reflexivity|]. cbn [s_low s_high s_mean s_harm s_above s_fill]. rewrite Hm, Hv, Hn. repeat split; try (apply Lo); try (apply Hi'); try reflexivity. intros X. contradiction.
  - rewrite fdiv_nz by lra. cbn [bind]. eexists. split; [reflexivity|]. cbn [s_low s_high s_mean s_harm s_above s_fill]. rewrite <- Hm, <- Hv, <- Hn. repeat split; try (apply Lo); try (apply Hi'); try reflexivity. intros X. contradiction.
Qed.

(** One process's data: medium, and its average dielectric constant by index. *)
Lemma epsilon_ok n1 n2 n3 real parts eigs (ds : list mdata) E : 0 < n1 -> 0 < n2 -> 0 < n3 -> held n1 n2 n3 real parts -> even n1 n2 n3 E ->
  (forall c, In c (whole n1 n2 n3) -> 0 < E c < 10 ^ 20)%R ->
  Forall2 (fun p d => Z.of_nat (length (fst p)) = d_out d /\ exists eps, epsilons eigs d eps /\ shows (fst p) eps E) parts ds ->
  exists rs, Forall2 (fun (q : (list (Z * Z * Z * Z) * (Z -> bool)) * mdata) r => let '(p, d) := q in epsilon_sums eigs d (snd p) = Val r /\
      forall c idx, In (c, idx) (fst p) -> nth (Z.to_nat idx) (fst r) 0%R = E c) (combine parts ds) rs /\ Forall2 (stat E) (map (points n1 n2 n3) parts) (map snd rs).
Proof.
  intros P1 P2 P3 H Ev HE Hd.
  assert (G : forall ps ds, (forall p, In p ps -> In p parts) -> Forall2 (fun p d => Z.of_nat (length (fst p)) = d_out d /\ exists eps, epsilons eigs d eps /\ shows (fst p) eps E) ps ds ->
    exists rs, Forall2 (fun (q : (list (Z * Z * Z * Z) * (Z -> bool)) * mdata) r => let '(p, d) := q in epsilon_sums eigs d (snd p) = Val r /\
      forall c idx, In (c, idx) (fst p) -> nth (Z.to_nat idx) (fst r) 0%R = E c) (combine ps ds) rs /\ Forall2 (stat E) (map (points n1 n2 n3) ps) (map snd rs)).
  { clear Hd ds. induction ps as [|p ps IH]; intros ds Hp Hd; inversion Hd as [|? d ? ds' Hd1 Hd2]; subst; [exists []; split; constructor|].
    destruct (IH ds' (fun x Hx => Hp x (or_intror Hx)) Hd2) as (rs & A & B). destruct Hd1 as (Hl & eps & He & Hs).
    pose proof (Hp p (or_introl eq_refl)) as Hin. destruct (held_index n1 n2 n3 P1 P2 P3 real parts p H Hin) as (size & Sz & Hz).
    assert (size = d_out d). { rewrite <- Hl, <- (map_length snd), Hz. unfold zrange. rewrite map_length, seq_length. lia. } subst size.
    destruct (sums_ok n1 n2 n3 eigs d p E eps Ev He Hz Sz Hs) as (q & Q1 & Q2).
    { intros c idx Hi. pose proof (held_in n1 n2 n3 P1 P2 P3 real parts p c idx H Hin Hi) as W. split; [exact W|]. destruct (HE c W). lra. }
    exists ((map eps (seq 0 (Z.to_nat (d_out d))), q) :: rs). cbn [combine map snd]. split; constructor; auto. split; [exact Q1|]. intros c idx Hi. cbn [fst].
    assert (Hr : 0 <= idx < d_out d). { apply zrange_in. rewrite <- Hz. apply (in_map snd) in Hi. exact Hi. }
    rewrite (nth_indep _ 0%R (eps 0%nat)) by (rewrite map_length, seq_length; lia). rewrite map_nth, seq_nth by lia. apply (Hs c idx Hi). }
  exact (G parts ds (fun p Hp => Hp) Hd).
Qed.

(* ------------------------------------------------------------------ *)
(** * Integrals *)

Lemma mapM_items {X Y} (f : X -> outcome Y) l r : Forall2 (fun x y => f x = Val y) l r -> mapM f l = Val r.
Proof. induction 1 as [|x y l r H Hs IH]; [reflexivity|]. cbn [mapM]. rewrite H. cbn [bind]. rewrite IH. reflexivity. Qed.

Lemma forall2_shift {X Y} (P Q : X -> Y -> Prop) l r : (forall x y, P x y -> Q x y) -> Forall2 P l r -> Forall2 Q l r.
Proof. intros H. induction 1; constructor; auto. Qed.
Lemma forall2_map {X Y D} (P : X -> D -> Prop) (g : Y -> D) l r : Forall2 (fun x y => P x (g y)) l r -> Forall2 P l (map g r).
Proof. induction 1; constructor; auto. Qed.
Lemma site_ok sx sy sz n1 n2 n3 i1 i2 i3 : 0 < n1 -> 0 < n2 -> 0 < n3 -> In (i1, i2, i3) (whole n1 n2 n3) -> grid_point sx sy sz n1 n2 n3 i1 i2 i3 = Val (site sx sy sz n1 n2 n3 (i1, i2, i3)).
Proof. intros P1 P2 P3 H. apply whole_in in H. apply grid_point_ok; lia. Qed.
Lemma site_back sx sy sz n1 n2 n3 i1 i2 i3 : 0 < n1 -> 0 < n2 -> 0 < n3 -> In (i1, i2, i3) (whole n1 n2 n3) ->
  grid_point sx sy sz n1 n2 n3 (back n1 i1) (back n2 i2) (back n3 i3) = Val (site sx sy sz n1 n2 n3 (mirror n1 n2 n3 (i1, i2, i3))).
Proof.
  intros P1 P2 P3 H. pose proof (mirror_in n1 n2 n3 _ H) as M. apply whole_in in H. rewrite !back_opp by lia. apply site_ok; assumption.
Qed.

Lemma integral_run n1 n2 n3 tw sx sy sz (f : vec -> list item -> C) fields Fs : 0 < n1 -> 0 < n2 -> 0 < n3 ->
  let G := fun c => f (site sx sy sz n1 n2 n3 c) (map (fun F : Z * Z * Z -> item => F c) Fs) in
  forall L : list (Z * Z * Z * Z), (forall c idx, In (c, idx) L -> In c (whole n1 n2 n3) /\ Forall2 (fun fs F => item_at fs idx = Val (F c)) fields Fs /\
    (tw c = true -> Forall2 (fun fs (F : Z * Z * Z -> item) => item_back fs idx = Val (F (mirror n1 n2 n3 c))) fields Fs)) ->
  forall s0, run (fun pt sum =>
    let '(i1, i2, i3, idx) := pt in
    let! p := grid_point sx sy sz n1 n2 n3 i1 i2 i3 in
    let! args := mapM (fun fs => item_at fs idx) fields in
    let sum := (sum + f p args)%C in
    if tw (i1, i2, i3) then
      let! p := grid_point sx sy sz n1 n2 n3 (back n1 i1) (back n2 i2) (back n3 i3) in
      let! args := mapM (fun fs => item_back fs idx) fields in
      Val (sum + f p args)%C
    else Val sum) L s0 = Val (s0 + sumC G (flat_map (fun pt => stands_for n1 n2 n3 (tw (fst pt)) (fst pt)) L))%C.
Proof.
  intros P1 P2 P3 G. induction L as [|(((i1 & i2) & i3) & idx) L IH]; intros H s0.
  - cbn [run flat_map]. apply (f_equal (@Val C)). unfold sumC. cbn [fold_right]. cring.
  - destruct (H (i1, i2, i3) idx (or_introl eq_refl)) as (Hw & Ha & Hb). cbn [run]. rewrite site_ok by assumption. cbn [bind].
    rewrite (mapM_items _ fields (map (fun F : Z * Z * Z -> item => F (i1, i2, i3)) Fs)) by (apply forall2_map; exact Ha). cbn [bind flat_map fst]. rewrite sumC_app. unfold stands_for at 1.
    destruct (tw (i1, i2, i3)).
    + rewrite site_back by assumption. cbn [bind]. rewrite (mapM_items _ fields (map (fun F : Z * Z * Z -> item => F (mirror n1 n2 n3 (i1, i2, i3))) Fs)) by (apply forall2_map; exact (Hb eq_refl)). cbn [bind].
      rewrite IH by (intros; apply H; right; assumption). apply (f_equal (@Val C)). unfold sumC at 2. cbn [fold_right]. fold (G (i1, i2, i3)). fold (G (mirror n1 n2 n3 (i1, i2, i3))). cring.
    + cbn [bind]. rewrite IH by (intros; apply H; right; assumption). apply (f_equal (@Val C)). unfold sumC at 2. cbn [fold_right]. fold (G (i1, i2, i3)). cring.
Qed.

Lemma back_item n1 n2 n3 fs idx c (F : Z * Z * Z -> item) : no_cscalar fs -> item_at fs idx = Val (F c) -> F (mirror n1 n2 n3 c) = conj_item (F c) -> item_back fs idx = Val (F (mirror n1 n2 n3 c)).
Proof.
  intros Nc H E. unfold item_back. rewrite H, E. cbn [bind]. destruct fs as [g|g|g]; [|contradiction|].
  - unfold item_at in H. apply bind_val in H as (x & _ & H). injection H as H. rewrite <- H. reflexivity.
  - unfold item_at in H. apply bind_val in H as (x & _ & H). apply bind_val in H as (y & _ & H). apply bind_val in H as (z & _ & H). injection H as H. rewrite <- H. reflexivity.
Qed.

(** The processes' shares add up to the integral over the whole grid. *)
Lemma shares_integral n1 n2 n3 real parts sx sy sz Vol f (fss : list (list fsmob)) Fs : 0 < n1 -> 0 < n2 -> 0 < n3 -> held n1 n2 n3 real parts ->
  Forall2 (fun p fields => Forall2 (fun fs F => shows_items (fst p) fs F) fields Fs /\ (real = true -> Forall no_cscalar fields)) parts fss ->
  (real = true -> Forall (fun F : Z * Z * Z -> item => forall c, In c (whole n1 n2 n3) -> F (mirror n1 n2 n3 c) = conj_item (F c)) Fs) ->
  exists vs, Forall2 (fun q v => integrate_fieldL (fst (fst q)) (fun c => real && twice_at n1 n2 n3 c) n1 n2 n3 sx sy sz Vol f (snd q) = Val v) (combine parts fss) vs /\
    fold_right Cadd (0, 0)%R vs = Cscal (Vol / IZR (n1 * n2 * n3)) (sumC (fun c => f (site sx sy sz n1 n2 n3 c) (map (fun F => F c) Fs)) (whole n1 n2 n3)).
Proof.
  intros P1 P2 P3 H Hf HF. set (G := fun c => f (site sx sy sz n1 n2 n3 c) (map (fun F : Z * Z * Z -> item => F c) Fs)). rewrite <- (sumC_perm G _ _ (held_perm n1 n2 n3 P1 P2 P3 real parts H)).
  assert (HN : IZR (n1 * n2 * n3) <> 0%R) by (apply not_0_IZR; nia).
  assert (K : forall ps fss, (forall p, In p ps -> In p parts) -> Forall2 (fun p fields => Forall2 (fun fs F => shows_items (fst p) fs F) fields Fs /\ (real = true -> Forall no_cscalar fields)) ps fss ->
    exists vs, Forall2 (fun q v => integrate_fieldL (fst (fst q)) (fun c => real && twice_at n1 n2 n3 c) n1 n2 n3 sx sy sz Vol f (snd q) = Val v) (combine ps fss) vs /\
    fold_right Cadd (0, 0)%R vs = Cscal (Vol / IZR (n1 * n2 * n3)) (sumC G (flat_map (points n1 n2 n3) ps))).
  { clear Hf fss. induction ps as [|p ps IH]; intros fss Hp Hf; inversion Hf as [|? fields ? fss' Hf1 Hf2]; subst.
    - exists []. split; [constructor|]. unfold sumC. cbn. cring.
    - destruct (IH fss' (fun x Hx => Hp x (or_intror Hx)) Hf2) as (vs & A & B). destruct Hf1 as (Hs & Hn). pose proof (Hp p (or_introl eq_refl)) as Hin.
      assert (R : integrate_fieldL (fst p) (fun c => real && twice_at n1 n2 n3 c) n1 n2 n3 sx sy sz Vol f fields = Val (Cscal (Vol / IZR (n1 * n2 * n3)) (sumC G (points n1 n2 n3 p)))).
      { unfold integrate_fieldL. rewrite (integral_run n1 n2 n3 (fun c => real && twice_at n1 n2 n3 c) sx sy sz f fields Fs P1 P2 P3).
        - cbn [bind]. rewrite fdiv_nz by exact HN. cbn [bind]. apply (f_equal (@Val C)). fold G.
          replace (flat_map (fun pt : Z * Z * Z * Z => stands_for n1 n2 n3 (real && twice_at n1 n2 n3 (fst pt)) (fst pt)) (fst p)) with (points n1 n2 n3 p); [cring|].
          unfold points. apply flat_map_eq. intros (c & idx) Hi. cbn [fst snd]. rewrite (held_twice n1 n2 n3 P1 P2 P3 real parts p c idx H Hin Hi). reflexivity.
        - intros c idx Hi. pose proof (held_in n1 n2 n3 P1 P2 P3 real parts p c idx H Hin Hi) as W. split; [exact W|]. split.
          + apply (forall2_shift _ _ _ _ (fun fs F (X : shows_items (fst p) fs F) => X c idx Hi) Hs).
          + intros T. apply andb_true_iff in T as (T & _). specialize (Hn T). specialize (HF T). clear - Hs Hn HF W Hi.
            induction Hs as [|fs F l r X Xs IH]; constructor.
            * inversion Hn as [|? ? Hn1 Hn2]. inversion HF as [|? ? HF1 HF2]. subst. apply back_item; [exact Hn1|exact (X c idx Hi)|exact (HF1 c W)].
            * inversion Hn. inversion HF. subst. apply IH; assumption. }
      eexists (_ :: vs). cbn [combine fold_right flat_map]. split; [constructor; [exact R|exact A]|]. rewrite B, sumC_app. cring. }
  exact (K parts fss (fun p Hp => Hp) Hf).
Qed.

(** compute_field_integral of complex builds. *)
Lemma phase_ok k sx sy sz p : sx <> 0%R -> sy <> 0%R -> sz <> 0%R -> phase_at k sx sy sz p = Val (bloch k sx sy sz p).
Proof. intros A B D. destruct k as ((k1 & k2) & k3), p as ((x & y) & z). unfold phase_at. rewrite !fdiv_nz by assumption. reflexivity. Qed.

Lemma field_run n1 n2 n3 (L : list (Z * Z * Z * Z)) sx sy sz Vol HN k f field epsilon F E : 0 < n1 -> 0 < n2 -> 0 < n3 -> sx <> 0%R -> sy <> 0%R -> sz <> 0%R -> HN <> 0%R ->
  (forall c idx, In (c, idx) L -> In c (whole n1 n2 n3)) -> shows3 L field F -> (forall c idx, In (c, idx) L -> rd epsilon idx = Val (E c)) ->
  field_integral L once4 n1 n2 n3 sx sy sz Vol HN k f field epsilon =
  Val (Cscal (Vol / HN) (sumC (fun c => let p := site sx sy sz n1 n2 n3 c in f (with_phase (bloch k sx sy sz p) (F c)) (E c) p) (map fst L))).
Proof.
  intros P1 P2 P3 Sx Sy Sz Hh Hw Hf He. unfold field_integral. set (G := fun c => let p := site sx sy sz n1 n2 n3 c in f (with_phase (bloch k sx sy sz p) (F c)) (E c) p).
  match goal with |- context [run ?g L _] => assert (K : forall l, (forall pt, In pt l -> In pt L) -> forall s0, run g l s0 = Val (s0 + sumC G (map fst l))%C) end.
  { induction l as [|(((i1 & i2) & i3) & idx) l IH]; intros Sub s0; cbn [run map].
    - apply (f_equal (@Val C)). unfold sumC. cbn [fold_right]. cring.
    - pose proof (Sub _ (or_introl eq_refl)) as Hi. rewrite (He _ _ Hi). cbn [bind]. rewrite site_ok by (try assumption; exact (Hw _ _ Hi)). cbn [bind].
      pose proof (Hf _ _ Hi) as H3. destruct (F (i1, i2, i3)) as ((x & y) & z) eqn:EF. destruct H3 as (A & B & D). rewrite A, B, D. cbn [bind]. rewrite phase_ok by assumption. cbn [bind once4].
      rewrite IH by (intros; apply Sub; right; assumption). apply (f_equal (@Val C)). cbn [fst]. unfold sumC at 2. cbn [fold_right]. fold (sumC G (map fst l)).
      replace (G (i1, i2, i3)) with (f (x * bloch k sx sy sz (site sx sy sz n1 n2 n3 (i1, i2, i3)), y * bloch k sx sy sz (site sx sy sz n1 n2 n3 (i1, i2, i3)), z * bloch k sx sy sz (site sx sy sz n1 n2 n3 (i1, i2, i3)))%C (E (i1, i2, i3)) (site sx sy sz n1 n2 n3 (i1, i2, i3))) by (unfold G; rewrite EF; reflexivity). cring. }
  rewrite (K L) by auto. cbn [bind]. rewrite fdiv_nz by exact Hh. cbn [bind]. apply (f_equal (@Val C)). cring.
Qed.
Lemma whole_once n1 n2 n3 parts p : held n1 n2 n3 false parts -> In p parts -> points n1 n2 n3 p = map fst (fst p).
Proof.
  intros H Hp. unfold points.
  assert (S : snd p = once). { inversion H; subst; [destruct Hp as [<-|[]]; reflexivity|apply in_map_iff in Hp as (sh & <- & _); reflexivity]. }
  rewrite S. apply single_perm.
Qed.
Lemma field_integral_ok n1 n2 n3 parts sx sy sz Vol HN k f (ds : list (list C * list R)) F E : 0 < n1 -> 0 < n2 -> 0 < n3 -> held n1 n2 n3 false parts -> sx <> 0%R -> sy <> 0%R -> sz <> 0%R -> HN <> 0%R ->
  Forall2 (fun p d => shows3 (fst p) (fst d) F /\ forall c idx, In (c, idx) (fst p) -> rd (snd d) idx = Val (E c)) parts ds ->
  exists vs, Forall2 (fun q v => field_integral (fst (fst q)) once4 n1 n2 n3 sx sy sz Vol HN k f (fst (snd q)) (snd (snd q)) = Val v) (combine parts ds) vs /\
    fold_right Cadd (0, 0)%R vs = Cscal (Vol / HN) (sumC (fun c => let p := site sx sy sz n1 n2 n3 c in f (with_phase (bloch k sx sy sz p) (F c)) (E c) p) (whole n1 n2 n3)).
Proof.
  intros P1 P2 P3 H Sx Sy Sz Hh Hd. set (G := fun c => let p := site sx sy sz n1 n2 n3 c in f (with_phase (bloch k sx sy sz p) (F c)) (E c) p). rewrite <- (sumC_perm G _ _ (held_perm n1 n2 n3 P1 P2 P3 false parts H)).
  assert (K : forall ps ds, (forall p, In p ps -> In p parts) -> Forall2 (fun p d => shows3 (fst p) (fst d) F /\ forall c idx, In (c, idx) (fst p) -> rd (snd d) idx = Val (E c)) ps ds ->
    exists vs, Forall2 (fun q v => field_integral (fst (fst q)) once4 n1 n2 n3 sx sy sz Vol HN k f (fst (snd q)) (snd (snd q)) = Val v) (combine ps ds) vs /\
    fold_right Cadd (0, 0)%R vs = Cscal (Vol / HN) (sumC G (flat_map (points n1 n2 n3) ps))).
  { clear Hd ds. induction ps as [|p ps IH]; intros ds Hp Hd; inversion Hd as [|? d ? ds' Hd1 Hd2]; subst.
    - exists []. split; [constructor|]. unfold sumC. cbn. cring.
    - destruct (IH ds' (fun x Hx => Hp x (or_intror Hx)) Hd2) as (vs & A & B). destruct Hd1 as (D1 & D2). pose proof (Hp p (or_introl eq_refl)) as Hin.
      eexists (_ :: vs). cbn [combine fold_right flat_map]. split; [constructor; [|exact A]|].
      + cbn [fst snd]. exact (field_run n1 n2 n3 (fst p) sx sy sz Vol HN k f (fst d) (snd d) F E P1 P2 P3 Sx Sy Sz Hh (fun c idx Hi => held_in n1 n2 n3 P1 P2 P3 false parts p c idx H Hin Hi) D1 D2).
      + rewrite B, sumC_app, (whole_once n1 n2 n3 parts p H Hin). fold G. cring. }
  exact (K parts ds (fun p Hp => Hp) Hd).
Qed.
