(** What the parallel operators compute. *)
From Coq Require Import List ZArith Reals Bool Lia.
From Verif Require Import Base RC Loops M_Tensor S_Tensor M_Evect S_Evect L_Evect L_Evect3 M_Grid S_Grid L_Grid5 M_Op S_Op L_Op L_Op2 M_Real S_Real M_Mpi S_Mpi L_Mpi1 L_Mpi2.
Import ListNotations.
Local Open Scope Z_scope.

Section D.
Variable d : mdata.
Hypothesis Wd : wfd d.
Variables (P cap : Z).
Notation N := (npts d).
Notation ST := (ST d P cap).

Definition upd (G : Z -> ff) (start nb : Z) (H : Z -> ff) : Z -> ff := fun b g c => if (start <=? b) && (b <? start + nb) then H b g c else G b g c.
Lemma upd_in G start nb H b : start <= b < start + nb -> upd G start nb H b = H b.
Proof. intros Hb. unfold upd. destruct (Z.leb_spec start b); [|lia]. destruct (Z.ltb_spec b (start + nb)); [reflexivity|lia]. Qed.
Lemma upd_out G start nb H b : ~ (start <= b < start + nb) -> upd G start nb H b = G b.
Proof. intros Hb. unfold upd. destruct (Z.leb_spec start b); [|reflexivity]. destruct (Z.ltb_spec b (start + nb)); [lia|reflexivity]. Qed.

Lemma st_ext l F G G' : ST l F G -> (forall b, 0 <= b < P -> feq d (G b) (G' b)) -> ST l F G'.
Proof.
  intros S H. pose proof S as (Dv & Ro & Fl). split; [exact Dv|]. split; [exact Ro|]. intros s I. destruct (Fl s I) as (FI & W & En & Ep & K). split; [exact FI|].
  split; [exact W|]. split; [exact En|]. split; [exact Ep|]. intros i c b Hi Hc Hb. rewrite K by assumption. apply H; [assumption| |assumption].
  apply (x_pt_range d Wd); [|assumption]. apply (st_share d P cap l F G s S I).
Qed.
Lemma st_upd l F G start nb H H' : ST l F (upd G start nb H) -> (forall b, 0 <= b < P -> start <= b < start + nb -> feq d (H b) (H' b)) -> ST l F (upd G start nb H').
Proof.
  intros S E. apply (st_ext l F _ _ S). intros b Hb. destruct (Z_le_gt_dec start b) as [Hl|Hl]; [destruct (Z_lt_le_dec b (start + nb)) as [Hr|Hr]|].
  - rewrite !upd_in by lia. apply E; lia.
  - rewrite !upd_out by lia. intros g c _ _. reflexivity.
  - rewrite !upd_out by lia. intros g c _ _. reflexivity.
Qed.

(** To position space, something pointwise there, and back. *)
Lemma sandwich rng rng' asg prj num (o : bool) start nb (f : pst -> outcome (list C)) T l F G : ST l F G -> 0 <= start -> 0 < nb -> start + nb <= P -> nb <= cap ->
  (forall l1 s, In s l1 -> share d (s_p s) -> 3 * y_count (s_p s) * nb <= Z.of_nat (length (s_fft s)) ->
     exists a, f s = Val a /\ length a = length (s_fft s) /\ forall i b, 0 <= i < y_count (s_p s) -> 0 <= b < nb -> arr a (i * nb + b) = T (y_pt (s_p s) i) (arr (s_fft s) (i * nb + b))) ->
  exists l1 l2 l3, position_mpi rng asg (pick o) start nb l = Val l1 /\ local (fun s => let! a := f s in Val (set_fft s a)) l1 = Val l2 /\ back_mpi prj rng' num start nb l2 = Val l3 /\
    same_processes l l1 /\ same_processes l l2 /\ same_processes l l3 /\ ST l3 F (upd G start nb (fun b => sand d asg (prj (num / mN d)%R) T ((if o then G else F) b))).
Proof.
  intros S Hs Hb Hp Hc Hf. unfold position_mpi.
  destruct (cart_step d Wd P cap rng asg o start nb l F G S Hs Hb Hp Hc) as (l0 & E0 & Sa0 & S0 & A0). rewrite E0. cbn [bind].
  destruct (fft_fwd d Wd P cap l0 F G nb _ S0 ltac:(lia) A0) as (l1 & E1 & Sa1 & S1 & A1).
  destruct (grid_step d Wd P cap f l1 F G nb _ T S1 A1 Hc (Hf l1)) as (l2 & E2 & Sa2 & S2 & A2).
  exists l1, l2. unfold back_mpi.
  assert (Er : local (fun s => let! _ := (if rng' then band_range (s_out s) start nb else Val tt) in Val s) l2 = Val l2).
  { unfold local. assert (K : forall s, In s l2 -> ep (s_out s) = P). { intros s I. destruct S2 as (_ & _ & Fl). destruct (Fl s I) as (_ & _ & _ & Ep & _). exact Ep. }
    clear - K Hs Hp. induction l2 as [|s m IH]; [reflexivity|]. cbn [mapM].
    assert (Er : (if rng' then band_range (s_out s) start nb else Val tt) = Val tt) by (destruct rng'; [apply range_ok; [lia|rewrite (K s (or_introl eq_refl)); lia]|reflexivity]).
    rewrite Er. cbn [bind]. rewrite IH; [reflexivity|]. intros s' I. apply K. right. exact I. }
  destruct (fft_bwd d Wd P cap l2 F G nb _ S2 ltac:(lia) A2) as (l2' & E3 & Sa3 & S3 & A3).
  destruct (trans_step d Wd P cap prj num start nb l2' F G _ S3 Hs Hb Hp Hc A3) as (l3 & E4 & Sa4 & S4).
  exists l3. split; [exact E1|]. split; [exact E2|]. split; [rewrite Er; cbn [bind]; rewrite E3; cbn [bind]; exact E4|].
  assert (Q1 : same_processes l l1) by (eapply same_trans; eassumption). assert (Q2 : same_processes l l2) by (eapply same_trans; eassumption).
  split; [exact Q1|]. split; [exact Q2|]. split; [eapply same_trans; [exact Q2|eapply same_trans; eassumption]|].
  apply (st_ext _ _ _ _ S4). intros b Hbb g c Hg Hcc. unfold upd. destruct (Z.leb_spec start b) as [Hl|Hl]; [|reflexivity]. destruct (Z.ltb_spec b (start + nb)) as [Hr|Hr]; [|reflexivity]. cbn [andb].
  unfold sand. cbv zeta. replace (start + (b - start)) with b by lia.
  change (tr d (-1) (fun b0 r => T r (tr d 1 (fun b1 g0 => asg (kz d g0) ((if o then G else F) (start + b1) g0 0) ((if o then G else F) (start + b1) g0 1)) b0 r)) (b - start) g)
    with (back d (fun r => T r (position d asg ((if o then G else F) (start + (b - start))) r)) g).
  replace (start + (b - start)) with b by lia. reflexivity.
Qed.

Lemma agree_ok l F G : ST l F G -> agree has_mu l = Val (match d_mu_inv d with Some _ => true | None => false end).
Proof.
  intros S. assert (K : forall s, In s l -> has_mu s = match d_mu_inv d with Some _ => true | None => false end).
  { intros s I. pose proof (st_share d P cap l F G s S I) as Sh. destruct Sh as (_ & _ & _ & _ & _ & _ & _ & _ & _ & _ & _ & _ & _ & _ & H). unfold has_mu.
    destruct (d_mu_inv (pd (s_p s))), (d_mu_inv d); try reflexivity; destruct H. }
  assert (Ne : exists s, In s l). { destruct S as ((_ & Cx & _) & _). pose proof (pos3 d Wd) as (H1 & _). destruct (Cx 0 ltac:(lia)) as (p & I & _). apply in_map_iff in I. destruct I as (s & _ & I). exists s. exact I. }
  unfold agree. destruct (d_mu_inv d) as [mu|].
  - assert (E : forallb has_mu l = true) by (apply forallb_forall; exact K). rewrite E. reflexivity.
  - assert (E : forallb has_mu l = false). { destruct (forallb has_mu l) eqn:E; [|reflexivity]. rewrite forallb_forall in E. destruct Ne as (s & I). exfalso. pose proof (K s I) as Q. rewrite (E s I) in Q. discriminate. }
    rewrite E. assert (E' : forallb (fun s => negb (has_mu s)) l = true) by (apply forallb_forall; intros s I; rewrite (K s I); reflexivity). rewrite E'. reflexivity.
Qed.

Lemma tens_ok (sel : mdata -> list sym) t nb : (forall p, share d p -> slab_of d p (sel (pd p)) t) -> 0 < nb -> forall (l1 : list pst) s, In s l1 -> share d (s_p s) -> 3 * y_count (s_p s) * nb <= Z.of_nat (length (s_fft s)) ->
     exists a, e_from_d (pd (s_p s)) nb (sel (pd (s_p s))) (s_fft s) = Val a /\ length a = length (s_fft s) /\
       forall i b, 0 <= i < y_count (s_p s) -> 0 <= b < nb -> arr a (i * nb + b) = tens t (y_pt (s_p s) i) (arr (s_fft s) (i * nb + b)).
Proof.
  intros Hs Hb l1 s _ Sh Hr. pose proof (Hs _ Sh) as Sl. pose proof Sl as (Ln & _). rewrite <- (sh_yc d (s_p s) Sh) in Ln.
  destruct (e_from_d_loc (pd (s_p s)) (y_count (s_p s)) (sel (pd (s_p s))) nb (s_fft s) (yc_nn d Wd _ Sh) (sh_out d _ Sh) Ln Hb Hr) as (a & E & L & A).
  exists a. split; [exact E|]. split; [exact L|]. intros i b Hi Hbb. rewrite A by assumption. unfold tens. rewrite (sh_sym d Wd _ Sh _ _ Sl) by exact Hi. reflexivity.
Qed.
Lemma eps_slab p : share d p -> slab_of d p (d_eps_inv (pd p)) (d_eps_inv d).
Proof. intros Sh. apply Sh. Qed.
Lemma mu_slab mu p : d_mu_inv d = Some mu -> share d p -> slab_of d p (mu_of (pd p)) mu.
Proof. intros E Sh. destruct Sh as (_ & _ & _ & _ & _ & _ & _ & _ & _ & _ & _ & _ & _ & _ & H). rewrite E in H. unfold mu_of. destruct (d_mu_inv (pd p)); [exact H|destruct H]. Qed.

Lemma H_from_B_mu_ok mu same (o : bool) start nb l F G : d_mu_inv d = Some mu -> ST l F G -> 0 <= start -> 0 < nb -> start + nb <= P -> nb <= cap ->
  exists l', H_from_B_mpi same (pick o) start nb l = Val l' /\ same_processes l l' /\ ST l' F (upd G start nb (fun b => mucol d mu ((if o then G else F) b))).
Proof.
  intros Emu S Hs Hb Hp Hc. unfold H_from_B_mpi. rewrite (agree_ok l F G S), Emu. cbn [bind].
  destruct (sandwich true false assign_t2c project_c2t 1 o start nb (fun s => e_from_d (pd (s_p s)) nb (mu_of (pd (s_p s))) (s_fft s)) (tens mu) l F G S Hs Hb Hp Hc
    (tens_ok mu_of mu nb (fun p => mu_slab mu p Emu) Hb)) as (l1 & l2 & l3 & E1 & E2 & E3 & _ & _ & Sa & S3).
  rewrite E1. cbn [bind]. unfold e_from_d_mpi. rewrite E2. cbn [bind]. exists l3. split; [exact E3|]. split; [exact Sa|exact S3].
Qed.
Lemma H_from_B_none_ok same (o : bool) start nb l F G : d_mu_inv d = None -> ST l F G -> 0 <= start -> 0 < nb -> start + nb <= P -> (same = true -> o = true) ->
  exists l', H_from_B_mpi same (pick o) start nb l = Val l' /\ same_processes l l' /\ ST l' F (upd G start nb (if o then G else F)).
Proof.
  intros Emu S Hs Hb Hp Ho. unfold H_from_B_mpi. rewrite (agree_ok l F G S), Emu. cbn [bind]. destruct same.
  - rewrite Ho by reflexivity. exists l. split; [reflexivity|]. split; [split; reflexivity|]. apply (st_ext _ _ _ _ S). intros b Hbb g c Hg Hcc. unfold upd. destruct ((start <=? b) && (b <? start + nb)); reflexivity.
  - destruct (copy_step d P cap o start nb l F G S Hs Hb Hp) as (l' & E & Sa & S'). exists l'. auto.
Qed.
Lemma curl_curl_ok (o : bool) start nb l F G : ST l F G -> 0 <= start -> 0 < nb -> start + nb <= P -> nb <= cap ->
  exists l1 l2 l3, position_mpi true assign_cross_t2c (pick o) start nb l = Val l1 /\ e_from_d_mpi d_eps_inv nb l1 = Val l2 /\ back_mpi assign_cross_c2t true (-1) start nb l2 = Val l3 /\
    same_processes l l3 /\ ST l3 F (upd G start nb (fun b => epscol d ((if o then G else F) b))).
Proof.
  intros S Hs Hb Hp Hc.
  destruct (sandwich true true assign_cross_t2c assign_cross_c2t (-1) o start nb (fun s => e_from_d (pd (s_p s)) nb (d_eps_inv (pd (s_p s))) (s_fft s)) (tens (d_eps_inv d)) l F G S Hs Hb Hp Hc
    (tens_ok d_eps_inv (d_eps_inv d) nb eps_slab Hb)) as (l1 & l2 & l3 & E1 & E2 & E3 & _ & _ & Sa & S3).
  exists l1, l2, l3. auto.
Qed.

Lemma operator_batch_mpi_ok start nb l F G : ST l F G -> 0 <= start -> 0 < nb -> start + nb <= P -> nb <= cap ->
  exists l', operator_batch_mpi (start, nb) l = Val l' /\ same_processes l l' /\ ST l' F (upd G start nb (fun b => opcol d (F b))).
Proof.
  intros S Hs Hb Hp Hc. unfold operator_batch_mpi. rewrite (agree_ok l F G S). unfold opcol. destruct (d_mu_inv d) as [mu|] eqn:Emu; cbn [bind].
  - destruct (H_from_B_mu_ok mu false false start nb l F G Emu S Hs Hb Hp Hc) as (l1 & E1 & Sa1 & S1). cbv iota in S1.
    change (H_from_B_mpi false s_in start nb l) with (H_from_B_mpi false (pick false) start nb l). rewrite E1. cbn [bind].
    destruct (curl_curl_ok true start nb l1 F _ S1 Hs Hb Hp Hc) as (l2 & l3 & l4 & E2 & E3 & E4 & Sa4 & S4). cbv iota in S4.
    change (position_mpi true assign_cross_t2c s_out start nb l1) with (position_mpi true assign_cross_t2c (pick true) start nb l1). rewrite E2. cbn [bind]. rewrite E3. cbn [bind]. rewrite E4. cbn [bind].
    destruct (H_from_B_mu_ok mu true true start nb l4 F _ Emu S4 Hs Hb Hp Hc) as (l5 & E5 & Sa5 & S5). cbv iota in S5.
    exists l5. split; [exact E5|]. split; [eapply same_trans; [exact Sa1|eapply same_trans; eassumption]|].
    apply (st_ext _ _ _ _ S5). intros b Hbb. destruct (Z_le_gt_dec start b) as [Hl|Hl]; [destruct (Z_lt_le_dec b (start + nb)) as [Hr|Hr]|].
    + rewrite !upd_in by lia. intros g c _ _. reflexivity.
    + rewrite !upd_out by lia. intros g c _ _. reflexivity.
    + rewrite !upd_out by lia. intros g c _ _. reflexivity.
  - destruct (curl_curl_ok false start nb l F G S Hs Hb Hp Hc) as (l2 & l3 & l4 & E2 & E3 & E4 & Sa4 & S4). cbv iota in S4.
    change (position_mpi true assign_cross_t2c s_in start nb l) with (position_mpi true assign_cross_t2c (pick false) start nb l). rewrite E2. cbn [bind]. rewrite E3. cbn [bind]. rewrite E4. cbn [bind].
    destruct (H_from_B_none_ok true true start nb l4 F _ Emu S4 Hs Hb Hp ltac:(auto)) as (l5 & E5 & Sa5 & S5). cbv iota in S5.
    exists l5. split; [exact E5|]. split; [eapply same_trans; eassumption|].
    apply (st_ext _ _ _ _ S5). intros b Hbb g c _ _. unfold upd. destruct ((start <=? b) && (b <? start + nb)); reflexivity.
Qed.
Lemma muinv_batch_mpi_ok start nb l F G : ST l F G -> 0 <= start -> 0 < nb -> start + nb <= P -> nb <= cap ->
  exists l', H_from_B_mpi false s_in start nb l = Val l' /\ same_processes l l' /\ ST l' F (upd G start nb (fun b => mumaybe d (F b))).
Proof.
  intros S Hs Hb Hp Hc. unfold mumaybe. change (H_from_B_mpi false s_in start nb l) with (H_from_B_mpi false (pick false) start nb l). destruct (d_mu_inv d) as [mu|] eqn:Emu.
  - exact (H_from_B_mu_ok mu false false start nb l F G Emu S Hs Hb Hp Hc).
  - exact (H_from_B_none_ok false false start nb l F G Emu S Hs Hb Hp ltac:(discriminate)).
Qed.
Lemma ucross_batch_mpi_ok u start nb l F G : ST l F G -> 0 <= start -> 0 < nb -> start + nb <= P -> nb <= cap ->
  exists l', ucross_batch_mpi u (start, nb) l = Val l' /\ same_processes l l' /\ ST l' F (upd G start nb (fun b => ucol d u (F b))).
Proof.
  intros S Hs Hb Hp Hc. unfold ucross_batch_mpi.
  destruct (sandwich false true (assign_ucross_t2c u) assign_cross_c2t (-1) false start nb (fun s => e_from_d (pd (s_p s)) nb (d_eps_inv (pd (s_p s))) (s_fft s)) (tens (d_eps_inv d)) l F G S Hs Hb Hp Hc
    (tens_ok d_eps_inv (d_eps_inv d) nb eps_slab Hb)) as (l1 & l2 & l3 & E1 & E2 & E3 & _ & _ & Sa & S3).
  change (position_mpi false (assign_ucross_t2c u) s_in start nb l) with (position_mpi false (assign_ucross_t2c u) (pick false) start nb l). rewrite E1. cbn [bind]. unfold e_from_d_mpi. rewrite E2. cbn [bind].
  exists l3. auto.
Qed.
Lemma trace_sh p i : share d p -> 0 <= i < y_count p -> trace_at (pd p) i = trace_at d (y_pt p i).
Proof. intros Sh Hi. unfold trace_at. rewrite (sh_sym d Wd _ Sh _ _ (eps_slab p Sh)) by exact Hi. reflexivity. Qed.
Lemma precond2_batch_mpi_ok start nb l F G : (forall r, 0 <= r < N -> trace_at d r <> 0%R) -> ST l F G -> 0 <= start -> 0 < nb -> start + nb <= P -> nb <= cap ->
  exists l', precond2_batch_mpi (start, nb) l = Val l' /\ same_processes l l' /\ ST l' F (upd G start nb (fun b => precol d (G b))).
Proof.
  intros Ht S Hs Hb Hp Hc. unfold precond2_batch_mpi.
  destruct (sandwich false false assign_crossinv_t2c assign_crossinv_c2t (-1) true start nb (fun s => times_eps (pd (s_p s)) nb (s_fft s)) (epsmul d) l F G S Hs Hb Hp Hc) as (l1 & l2 & l3 & E1 & E2 & E3 & _ & _ & Sa & S3).
  - intros _ s _ Sh Hr. pose proof (eps_slab _ Sh) as (Ln & _). rewrite <- (sh_yc d (s_p s) Sh) in Ln.
    destruct (times_eps_loc (pd (s_p s)) (y_count (s_p s)) nb (s_fft s) (yc_nn d Wd _ Sh) (sh_out d _ Sh) Ln) as (a & E & L & A); [|exact Hb|exact Hr|].
    + intros i Hi. rewrite trace_sh by assumption. apply Ht. apply (y_pt_range d Wd); assumption.
    + exists a. split; [exact E|]. split; [exact L|]. intros i b Hi Hbb. rewrite A by assumption. unfold epsmul. rewrite trace_sh by assumption. reflexivity.
  - change (position_mpi false assign_crossinv_t2c s_out start nb l) with (position_mpi false assign_crossinv_t2c (pick true) start nb l). rewrite E1. cbn [bind]. rewrite E2. cbn [bind]. exists l3. auto.
Qed.

(** All batches. *)
Lemma batches_mpi_run (nfb : Z) (step : Z * Z -> list pst -> outcome (list pst)) (new : Z -> ff -> ff) F : 0 < nfb -> 0 <= P ->
  (forall b f f', feq d f f' -> feq d (new b f) (new b f')) ->
  (forall start nb l G, ST l F G -> 0 <= start -> 0 < nb <= nfb -> start + nb <= P -> exists l', step (start, nb) l = Val l' /\ same_processes l l' /\ ST l' F (upd G start nb (fun b => new b (G b)))) ->
  forall fuel l G, ST l F G -> (Z.to_nat P <= fuel)%nat -> exists bs l', batches fuel 0 P nfb = Some bs /\ run step bs l = Val l' /\ same_processes l l' /\ ST l' F (fun b => new b (G b)).
Proof.
  intros Hn HP Ext St.
  assert (Gn : forall fuel cur l G, 0 <= cur -> (Z.to_nat (P - cur) <= fuel)%nat -> ST l F G ->
    exists bs l', batches fuel cur P nfb = Some bs /\ run step bs l = Val l' /\ same_processes l l' /\ ST l' F (fun b => if b <? cur then G b else new b (G b))).
  { assert (Base : forall cur l G, P <= cur -> ST l F G -> ST l F (fun b => if b <? cur then G b else new b (G b))).
    { intros cur l G Hc S. apply (st_ext _ _ _ _ S). intros b Hb. destruct (Z.ltb_spec b cur); [|lia]. intros g c _ _. reflexivity. }
    induction fuel as [|fuel IH]; intros cur l G Hc Hfu S.
    - cbn [batches]. destruct (Z.ltb_spec cur P); [lia|]. exists [], l. split; [reflexivity|]. split; [reflexivity|]. split; [split; reflexivity|]. apply Base; assumption.
    - cbn [batches]. destruct (Z.ltb_spec cur P) as [Hlt|Hge].
      + destruct (St cur (Z.min nfb (P - cur)) l G S ltac:(lia) ltac:(lia) ltac:(lia)) as (l1 & E1 & Sa1 & S1).
        destruct (IH (cur + nfb) l1 _ ltac:(lia) ltac:(lia) S1) as (bs & l' & El & Er & Sa & S').
        exists ((cur, Z.min nfb (P - cur)) :: bs), l'. rewrite El. split; [reflexivity|]. split; [cbn [run]; rewrite E1; cbn [bind]; exact Er|]. split; [eapply same_trans; eassumption|].
        apply (st_ext _ _ _ _ S'). intros b Hb. destruct (Z.ltb_spec b (cur + nfb)) as [H1|H1]; destruct (Z.ltb_spec b cur) as [H2|H2]; try lia.
        * rewrite upd_out by lia. intros g c _ _. reflexivity.
        * rewrite upd_in by lia. intros g c _ _. reflexivity.
        * apply Ext. rewrite upd_out by lia. intros g c _ _. reflexivity.
      + exists [], l. split; [reflexivity|]. split; [reflexivity|]. split; [split; reflexivity|]. apply Base; assumption. }
  intros fuel l G S Hf. destruct (Gn fuel 0 l G ltac:(lia) ltac:(lia) S) as (bs & l' & E1 & E2 & Sa & S'). exists bs, l'. split; [exact E1|]. split; [exact E2|]. split; [exact Sa|].
  apply (st_ext _ _ _ _ S'). intros b Hb. destruct (Z.ltb_spec b 0); [lia|]. intros g c _ _. reflexivity.
Qed.
Lemma batches_of fuel l F G : ST l F G -> batches_mpi fuel l = batches fuel 0 P (d_nfb d).
Proof.
  intros S. assert (Ne : exists s, In s l). { destruct S as ((_ & Cx & _) & _). pose proof (pos3 d Wd) as (H1 & _). destruct (Cx 0 ltac:(lia)) as (p & I & _). apply in_map_iff in I. destruct I as (s & _ & I). exists s. exact I. }
  destruct l as [|s m]; [destruct Ne as (s & [])|]. cbn [batches_mpi]. pose proof (st_share d P cap (s :: m) F G s S (or_introl eq_refl)) as Sh. destruct S as (_ & _ & Fl).
  destruct (Fl s (or_introl eq_refl)) as ((_ & _ & -> & _) & _). destruct Sh as (_ & _ & _ & -> & _). reflexivity.
Qed.
End D.

(** Blocks. *)
Lemma part_fl d p Xp X : wfd d -> share d p -> part d p Xp X <-> fl (ep X) p Xp (fld X).
Proof.
  intros Wd Sh. unfold part, fl. rewrite (sh_xc d p Sh). split; intros (W & En & Ep & H); (split; [exact W|]; split; [exact En|]; split; [exact Ep|]).
  - intros i c b Hi Hc Hb. rewrite <- (sh_xc d p Sh) in Hi. destruct (x_pt_of d Wd p Sh i Hi) as (x & y & z & Hx & _ & Hy & Hz & -> & ->). unfold fld. apply H; assumption.
  - intros x y z c b Hx Hy Hz Hc Hb. destruct (x_pt_in d p Sh x y z Hx Hy Hz) as (Hi & E). cbv zeta in Hi, E. rewrite (sh_xc d p Sh) in Hi. unfold fld in H. rewrite (H _ c b Hi Hc Hb). rewrite E. reflexivity.
Qed.

Section O.
Variable d : mdata.
Hypothesis Wd : wfd d.
Lemma parts_st l X out : parts d l X out -> ep X = ep out -> forall cap, room l cap -> ST d (ep X) cap l (fld X) (fld out).
Proof.
  intros (Dv & H) Ep cap Ro. split; [exact Dv|]. split; [exact Ro|]. intros s I. assert (Sh : share d (s_p s)) by (apply Dv; apply in_map; exact I).
  destruct (H s I) as (H1 & H2). split; [apply (proj1 (part_fl d _ _ _ Wd Sh)); assumption|]. rewrite Ep. apply (proj1 (part_fl d _ _ _ Wd Sh)); assumption.
Qed.
Lemma st_parts l X Y cap G : ST d (ep X) cap l (fld X) G -> ep Y = ep X -> (forall b, 0 <= b < ep X -> feq d (fld Y b) (G b)) -> parts d l X Y.
Proof.
  intros S Ep H. assert (S' : ST d (ep X) cap l (fld X) (fld Y)). { apply (st_ext d Wd _ _ _ _ _ _ S). intros b Hb g c Hg Hc. symmetry. apply H; assumption. }
  pose proof S' as (Dv & _ & Fl). split; [exact Dv|]. intros s I. assert (Sh : share d (s_p s)) by (apply Dv; apply in_map; exact I). destruct (Fl s I) as (F1 & F2).
  split; [apply (proj2 (part_fl d _ _ _ Wd Sh)); assumption|]. apply (proj2 (part_fl d _ _ _ Wd Sh)). rewrite Ep. exact F2.
Qed.
Lemma st_room l X cap F G : ST d X cap l F G -> room l cap.
Proof. intros (_ & R & _). exact R. Qed.

Lemma operators_mpi fuel fuel' l X out fft : parts d l X out -> room l (Z.min (d_nfb d) (ep X)) -> (Z.to_nat (ep X) <= fuel')%nat -> ready fuel d X out fft ->
  exists l' Y f, maxwell_operator_mpi fuel' l = Some (Val l') /\ maxwell_operator fuel d X out fft = Some (Val (Y, f)) /\
    same_processes l l' /\ parts d l' X Y /\ room l' (Z.min (d_nfb d) (ep X)) /\ S_Op.fields d Y /\ ep Y = ep X.
Proof.
  intros Pa Ro Hf' (HX & HY & Ep & Hn & Hf & Hfu). pose proof (parts_st l X out Pa Ep _ Ro) as S. assert (HP : 0 <= ep X) by (destruct HX as ((_ & W & _) & _); lia).
  destruct (operator_ok d Wd fuel X out fft HX HY Ep Hn Hf Hfu) as (Y & f & E & FY & EY & _ & H).
  destruct (batches_mpi_run d Wd (ep X) (Z.min (d_nfb d) (ep X)) (d_nfb d) operator_batch_mpi (fun b _ => opcol d (fld X b)) (fld X) Hn HP) with (fuel := fuel') (l := l) (G := fld out)
    as (bs & l' & E1 & E2 & Sa & S').
  - intros b f0 f1 _ g c _ _. reflexivity.
  - intros start nb l0 G S0 Hs Hb Hp. apply (operator_batch_mpi_ok d Wd); [exact S0|lia..].
  - exact S.
  - exact Hf'.
  - exists l', Y, f. unfold maxwell_operator_mpi. rewrite (batches_of d Wd _ _ fuel' l _ _ S), E1. cbn [option_map]. rewrite E2. split; [reflexivity|]. split; [exact E|]. split; [exact Sa|].
    split; [apply (st_parts l' X Y _ _ S' EY H)|]. split; [exact (st_room _ _ _ _ _ S')|]. auto.
Qed.
Lemma muinvs_mpi fuel fuel' l X out fft : parts d l X out -> room l (Z.min (d_nfb d) (ep X)) -> (Z.to_nat (ep X) <= fuel')%nat -> ready fuel d X out fft ->
  exists l' Y f, muinv_operator_mpi fuel' l = Some (Val l') /\ muinv_operator fuel d X out fft = Some (Val (Y, f)) /\
    same_processes l l' /\ parts d l' X Y /\ room l' (Z.min (d_nfb d) (ep X)) /\ S_Op.fields d Y /\ ep Y = ep X.
Proof.
  intros Pa Ro Hf' (HX & HY & Ep & Hn & Hf & Hfu). pose proof (parts_st l X out Pa Ep _ Ro) as S. assert (HP : 0 <= ep X) by (destruct HX as ((_ & W & _) & _); lia).
  destruct (muinv_ok d Wd fuel X out fft HX HY Ep Hn Hf Hfu) as (Y & f & E & FY & EY & _ & H).
  destruct (batches_mpi_run d Wd (ep X) (Z.min (d_nfb d) (ep X)) (d_nfb d) (fun bt l => H_from_B_mpi false s_in (fst bt) (snd bt) l) (fun b _ => mumaybe d (fld X b)) (fld X) Hn HP) with (fuel := fuel') (l := l) (G := fld out)
    as (bs & l' & E1 & E2 & Sa & S').
  - intros b f0 f1 _ g c _ _. reflexivity.
  - intros start nb l0 G S0 Hs Hb Hp. apply (muinv_batch_mpi_ok d Wd); [exact S0|lia..].
  - exact S.
  - exact Hf'.
  - exists l', Y, f. unfold muinv_operator_mpi. rewrite (batches_of d Wd _ _ fuel' l _ _ S), E1. cbn [option_map]. rewrite E2. split; [reflexivity|]. split; [exact E|]. split; [exact Sa|].
    split; [apply (st_parts l' X Y _ _ S' EY H)|]. split; [exact (st_room _ _ _ _ _ S')|]. auto.
Qed.
Lemma ucrosses_mpi u fuel fuel' l X out fft : parts d l X out -> room l (Z.min (d_nfb d) (ep X)) -> (Z.to_nat (ep X) <= fuel')%nat -> ready fuel d X out fft ->
  exists l' Y f, ucross_op_mpi fuel' u l = Some (Val l') /\ ucross_op fuel d u X out fft = Some (Val (Y, f)) /\
    same_processes l l' /\ parts d l' X Y /\ room l' (Z.min (d_nfb d) (ep X)) /\ S_Op.fields d Y /\ ep Y = ep X.
Proof.
  intros Pa Ro Hf' (HX & HY & Ep & Hn & Hf & Hfu). pose proof (parts_st l X out Pa Ep _ Ro) as S. assert (HP : 0 <= ep X) by (destruct HX as ((_ & W & _) & _); lia).
  destruct (ucross_ok d Wd fuel u X out fft HX HY Ep Hn Hf Hfu) as (Y & f & E & FY & EY & _ & H).
  destruct (batches_mpi_run d Wd (ep X) (Z.min (d_nfb d) (ep X)) (d_nfb d) (ucross_batch_mpi u) (fun b _ => ucol d u (fld X b)) (fld X) Hn HP) with (fuel := fuel') (l := l) (G := fld out)
    as (bs & l' & E1 & E2 & Sa & S').
  - intros b f0 f1 _ g c _ _. reflexivity.
  - intros start nb l0 G S0 Hs Hb Hp. apply (ucross_batch_mpi_ok d Wd); [exact S0|lia..].
  - exact S.
  - exact Hf'.
  - exists l', Y, f. unfold ucross_op_mpi. rewrite (batches_of d Wd _ _ fuel' l _ _ S), E1. cbn [option_map]. rewrite E2. split; [reflexivity|]. split; [exact E|]. split; [exact Sa|].
    split; [apply (st_parts l' X Y _ _ S' EY H)|]. split; [exact (st_room _ _ _ _ _ S')|]. auto.
Qed.
Lemma preconds_mpi fuel fuel' l X out fft : (forall r, 0 <= r < npts d -> trace_at d r <> 0%R) -> parts d l X out -> room l (Z.min (d_nfb d) (ep X)) -> (Z.to_nat (ep X) <= fuel')%nat -> ready fuel d X out fft ->
  exists l' Y f, preconditioner2_mpi fuel' l = Some (Val l') /\ preconditioner2 fuel d out fft = Some (Val (Y, f)) /\
    same_processes l l' /\ parts d l' X Y /\ room l' (Z.min (d_nfb d) (ep X)) /\ S_Op.fields d Y /\ ep Y = ep X.
Proof.
  intros Ht Pa Ro Hf' (HX & HY & Ep & Hn & Hf & Hfu). pose proof (parts_st l X out Pa Ep _ Ro) as S. assert (HP : 0 <= ep X) by (destruct HX as ((_ & W & _) & _); lia).
  destruct (precond2_ok d Wd fuel out fft Ht HY Hn) as (Y & f & E & FY & EY & _ & H); [rewrite <- Ep; exact Hf|rewrite <- Ep; exact Hfu|].
  destruct (batches_mpi_run d Wd (ep X) (Z.min (d_nfb d) (ep X)) (d_nfb d) precond2_batch_mpi (fun b f => precol d f) (fld X) Hn HP) with (fuel := fuel') (l := l) (G := fld out)
    as (bs & l' & E1 & E2 & Sa & S').
  - intros b f0 f1 H01. apply sand_ext. exact H01.
  - intros start nb l0 G S0 Hs Hb Hp. apply (precond2_batch_mpi_ok d Wd); [exact Ht|exact S0|lia..].
  - exact S.
  - exact Hf'.
  - exists l', Y, f. unfold preconditioner2_mpi. rewrite (batches_of d Wd _ _ fuel' l _ _ S), E1. cbn [option_map]. rewrite E2. split; [reflexivity|]. split; [exact E|]. split; [exact Sa|].
    rewrite <- Ep in EY, H. split; [apply (st_parts l' X Y _ _ S' EY H)|]. split; [exact (st_room _ _ _ _ _ S')|]. auto.
Qed.
End O.
