(** Proofs about the plan cache. *)
From Coq Require Import List ZArith Bool Lia.
From Verif Require Import Base M_Plan S_Plan.
Import ListNotations.
Local Open Scope Z_scope.

Definition key (s : slot) : Z * Z * Z := (s_howmany s, s_stride s, s_dist s).
Definition rkey (r : request) : Z * Z * Z := (r_howmany r, r_stride r, r_dist r).
Definition ids (l : list slot) : list Z := flat_map (fun s => [p_id (s_iplan s); p_id (s_plan s)]) l.
Definition mine (grid : Z * Z * Z) (s : slot) (fwd : bool) (p : plan) : Prop :=
  p_fwd p = fwd /\ p_grid p = grid /\ p_howmany p = s_howmany s /\ p_stride p = s_stride s /\ p_dist p = s_dist s.
Definition good (A : bool -> Prop) (grid : Z * Z * Z) (s : slot) : Prop :=
  mine grid s false (s_plan s) /\ mine grid s true (s_iplan s) /\ A (p_inplace (s_plan s)) /\ A (p_inplace (s_iplan s)).
Definition inv (A : bool -> Prop) (grid : Z * Z * Z) (d : pdata) (w : fftw) (ss : list slot) : Prop :=
  pd_grid d = grid /\ pd_slots d = map Some ss ++ repeat None (32 - length ss) /\ pd_n d = Z.of_nat (length ss) /\ (length ss <= 32)%nat /\
  Forall (good A grid) ss /\ f_live w = ids (rev ss) /\ NoDup (f_live w) /\ Forall (fun i => i < f_next w) (f_live w).

Lemma rd_app {X} (a b : list X) x : rd (a ++ x :: b) (Z.of_nat (length a)) = Val x.
Proof. unfold rd. destruct (Z.ltb_spec (Z.of_nat (length a)) 0); [lia|]. rewrite Nat2Z.id, nth_error_app2, Nat.sub_diag by lia. reflexivity. Qed.
Lemma rd_some (a : list slot) b (s : slot) : rd (map Some a ++ Some s :: b) (Z.of_nat (length a)) = Val (Some s).
Proof. rewrite <- (map_length Some a). apply rd_app. Qed.
Lemma wr_app {X} (a b : list X) x y : wr (a ++ x :: b) (Z.of_nat (length a)) y = Val (a ++ y :: b).
Proof.
  rewrite wr_in by (rewrite app_length; cbn; lia). rewrite Nat2Z.id. f_equal. induction a as [|z a IH]; [reflexivity|]. cbn. now rewrite IH.
Qed.
Lemma rkey_same r r' : same_layout r r' <-> rkey r = rkey r'.
Proof. unfold same_layout, rkey. split; [intros (-> & -> & ->); reflexivity|intros [= -> -> ->]; auto]. Qed.

Lemma find_ok r rest : forall ss pre,
  (exists a s b, ss = a ++ s :: b /\ key s = rkey r /\ find_plan (length ss) (Z.of_nat (length pre)) (map Some (pre ++ ss) ++ rest) r = Val (Z.of_nat (length (pre ++ a)))) \/
  (~ In (rkey r) (map key ss) /\ find_plan (length ss) (Z.of_nat (length pre)) (map Some (pre ++ ss) ++ rest) r = Val (Z.of_nat (length (pre ++ ss)))).
Proof.
  induction ss as [|s ss IH]; intros pre.
  - right. rewrite app_nil_r. split; [intros []|reflexivity].
  - cbn [length find_plan]. unfold rd_slot. rewrite map_app, <- app_assoc. cbn [map app]. rewrite rd_some. cbn [bind].
    assert (K : (negb (r_howmany r =? s_howmany s) || negb (r_stride r =? s_stride s) || negb (r_dist r =? s_dist s)) = false <-> key s = rkey r).
    { unfold key, rkey. destruct (Z.eqb_spec (r_howmany r) (s_howmany s)), (Z.eqb_spec (r_stride r) (s_stride s)), (Z.eqb_spec (r_dist r) (s_dist s)); cbn; split; intros Q; try discriminate Q; try reflexivity; try congruence; injection Q; intros; congruence. }
    destruct (negb (r_howmany r =? s_howmany s) || negb (r_stride r =? s_stride s) || negb (r_dist r =? s_dist s)) eqn:E.
    + assert (Nk : key s <> rkey r) by (intros Q; apply K in Q; discriminate).
      destruct (IH (pre ++ [s])) as [(a & t & b & E1 & E2 & E3)|(N & E3)].
      * left. exists (s :: a), t, b. split; [now rewrite E1|]. split; [exact E2|].
        rewrite app_length in E3. cbn [length] in E3. replace (Z.of_nat (length pre + 1)) with (Z.of_nat (length pre) + 1) in E3 by lia.
        rewrite !map_app, <- !app_assoc in E3. cbn [map app] in E3. exact E3.
      * right. split; [intros [Q|Q]; [exact (Nk Q)|exact (N Q)]|].
        rewrite app_length in E3. cbn [length] in E3. replace (Z.of_nat (length pre + 1)) with (Z.of_nat (length pre) + 1) in E3 by lia.
        rewrite !map_app, <- !app_assoc in E3. cbn [map app] in E3. exact E3.
    + left. exists [], s, ss. split; [reflexivity|]. split; [now apply K|]. rewrite app_nil_r. reflexivity.
Qed.

Lemma exec_in p w : In (p_id p) (f_live w) -> execute_plan p w = Val tt.
Proof. intros H. unfold execute_plan. replace (existsb (Z.eqb (p_id p)) (f_live w)) with true; [reflexivity|]. symmetry. apply existsb_exists. exists (p_id p). split; [exact H|apply Z.eqb_refl]. Qed.
Lemma destroy_in p w : In (p_id p) (f_live w) -> destroy_plan p w = Val {| f_next := f_next w; f_live := remove Z.eq_dec (p_id p) (f_live w) |}.
Proof. intros H. unfold destroy_plan. replace (existsb (Z.eqb (p_id p)) (f_live w)) with true; [reflexivity|]. symmetry. apply existsb_exists. exists (p_id p). split; [exact H|apply Z.eqb_refl]. Qed.
Lemma ids_app a b : ids (a ++ b) = ids a ++ ids b. Proof. unfold ids. apply flat_map_app. Qed.
Lemma ids_in s l : In s l -> In (p_id (s_plan s)) (ids (rev l)) /\ In (p_id (s_iplan s)) (ids (rev l)).
Proof. intros H. unfold ids. split; apply in_flat_map; exists s; (split; [now apply in_rev in H|cbn; auto]). Qed.

Section A.
Variable A : bool -> Prop.
Variable grid : Z * Z * Z.

Lemma inv_new w : no_plans w -> inv A grid (new_pdata grid) w [].
Proof. intros H. unfold no_plans in H. unfold inv. rewrite H. cbn. repeat split; auto; try lia; constructor. Qed.

Definition found (r : request) (ss : list slot) : Prop := In (rkey r) (map key ss).

(** A layout in the cache: nothing is made or destroyed. *)
Lemma fft_hit ok1 ok2 r d w ss : inv A grid d w ss -> found r ss ->
  exists p s, compute_fft ok1 ok2 r d w = Val (p, d, w) /\ In s ss /\ fits grid r p /\ A (p_inplace p) /\ (p = s_plan s \/ p = s_iplan s).
Proof.
  intros (Eg & Es & En & Hl & Gd & El & Nd & Lt) F. destruct (find_ok r (repeat None (32 - length ss)) ss []) as [(a & s & b & E1 & E2 & E3)|(N & _)]; [|contradiction].
  cbn [app length] in E3. change (Z.of_nat 0) with 0 in E3. unfold compute_fft. rewrite Es, En, Nat2Z.id, E3. cbn [bind].
  assert (La : (length a < length ss)%nat) by (rewrite E1, app_length; cbn; lia).
  destruct (Z.ltb_spec (Z.of_nat (length a)) (Z.of_nat (length ss))); [|lia].
  assert (R : rd_slot (map Some ss ++ repeat None (32 - length ss)) (Z.of_nat (length a)) = Val s).
  { unfold rd_slot. rewrite E1 at 1. rewrite map_app, <- app_assoc. cbn [map app]. rewrite <- (map_length Some a). rewrite rd_app. reflexivity. }
  rewrite R. cbn [bind]. assert (Is : In s ss) by (rewrite E1; apply in_elt). destruct (ids_in s ss Is) as (I1 & I2). rewrite <- El in I1, I2.
  rewrite exec_in by (destruct (r_dir r <? 0); assumption). cbn [bind].
  destruct (Z.eqb_spec (Z.of_nat (length a)) MAX_NPLANS) as [Q|_]; [unfold MAX_NPLANS in Q; lia|].
  destruct (Z.eqb_spec (Z.of_nat (length a)) (Z.of_nat (length ss))); [lia|].
  eexists _, s. split; [reflexivity|]. split; [exact Is|]. pose proof (proj1 (Forall_forall _ _) Gd s Is) as (G1 & G2 & G3 & G4).
  unfold key, rkey in E2. injection E2 as K1 K2 K3. unfold fits. destruct (r_dir r <? 0); cbn.
  - destruct G1 as (? & ? & ? & ? & ?). rewrite <- K1, <- K2, <- K3. repeat split; auto.
  - destruct G2 as (? & ? & ? & ? & ?). rewrite <- K1, <- K2, <- K3. repeat split; auto.
Qed.

Lemma fft_miss ok1 ok2 r d w ss : inv A grid d w ss -> ~ found r ss -> A (r_in r =? r_out r) ->
  (compute_fft ok1 ok2 r d w = Abort /\ (ok1, ok2) <> (true, true)) \/
  (exists p d' w' ss', compute_fft ok1 ok2 r d w = Val (p, d', w') /\ inv A grid d' w' ss' /\ fits grid r p /\ p_inplace p = (r_in r =? r_out r) /\ incl ss ss' /\
     ((length ss < 32)%nat -> found r ss' /\ length ss' = S (length ss))).
Proof.
  intros (Eg & Es & En & Hl & Gd & El & Nd & Lt) F HA. destruct (find_ok r (repeat None (32 - length ss)) ss []) as [(a & s & b & E1 & E2 & E3)|(N & E3)].
  { exfalso. apply F. unfold found. rewrite E1, map_app, <- E2. cbn. apply in_elt. }
  cbn [app length] in E3. change (Z.of_nat 0) with 0 in E3. unfold compute_fft. rewrite Es, En, Nat2Z.id, E3. cbn [bind]. rewrite Z.ltb_irrefl.
  destruct ok1; [|left; cbn; destruct ok2; split; (reflexivity || discriminate)]. destruct ok2; [|left; cbn; split; (reflexivity || discriminate)]. right. cbn [make_plan fst snd bind f_next f_live].
  set (p := {| p_id := f_next w; p_fwd := false; p_grid := pd_grid d; p_howmany := r_howmany r; p_stride := r_stride r; p_dist := r_dist r; p_inplace := r_in r =? r_out r |}).
  set (q := {| p_id := f_next w + 1; p_fwd := true; p_grid := pd_grid d; p_howmany := r_howmany r; p_stride := r_stride r; p_dist := r_dist r; p_inplace := r_in r =? r_out r |}).
  rewrite exec_in by (destruct (r_dir r <? 0); cbn; auto). cbn [bind].
  assert (Fit : fits grid r (if r_dir r <? 0 then p else q)) by (unfold fits; destruct (r_dir r <? 0); cbn; auto).
  assert (Np : ~ In (f_next w) (f_live w)) by (intros Q; apply (proj1 (Forall_forall _ _) Lt) in Q; lia).
  assert (Nq : ~ In (f_next w + 1) (f_live w)) by (intros Q; apply (proj1 (Forall_forall _ _) Lt) in Q; lia).
  destruct (Z.eqb_spec (Z.of_nat (length ss)) MAX_NPLANS) as [Q|Q]; unfold MAX_NPLANS in Q.
  - rewrite destroy_in by (cbn; auto). cbn [bind f_next f_live]. rewrite destroy_in.
    2: { cbn. destruct (Z.eq_dec (f_next w) (f_next w + 1)); [lia|]. cbn. auto. }
    cbn [bind]. eexists _, d, _, ss. split; [reflexivity|]. split; [|split; [exact Fit|split; [destruct (r_dir r <? 0); reflexivity|split; [apply incl_refl|lia]]]].
    assert (Rm : remove Z.eq_dec (p_id q) (remove Z.eq_dec (p_id p) (f_next w + 1 :: f_next w :: f_live w)) = f_live w).
    { cbn [p_id p q remove]. destruct (Z.eq_dec (f_next w) (f_next w + 1)); [lia|]. destruct (Z.eq_dec (f_next w) (f_next w)); [|lia]. cbn [remove].
      destruct (Z.eq_dec (f_next w + 1) (f_next w + 1)); [|lia]. rewrite !notin_remove; [reflexivity|exact Np|rewrite notin_remove; assumption]. }
    unfold inv. cbn [f_live f_next]. rewrite Rm. repeat split; auto. apply Forall_impl with (2 := Lt). intros; lia.
  - rewrite Z.eqb_refl. replace (32 - length ss)%nat with (S (31 - length ss)) by lia. cbn [repeat]. pose proof (wr_app (map Some ss) (repeat None (31 - length ss)) None) as W. rewrite map_length in W. rewrite W. clear W. cbn [bind].
    eexists _, _, _, (ss ++ [_]). split; [reflexivity|]. split; [|split; [exact Fit|split; [destruct (r_dir r <? 0); reflexivity|split; [apply incl_appl, incl_refl|]]]].
    + unfold inv. cbn [pd_grid pd_slots pd_n f_live f_next]. split; [exact Eg|]. split.
      { rewrite map_app, <- app_assoc, app_length. cbn [map app length]. do 2 f_equal. f_equal. lia. }
      split; [rewrite app_length; cbn; lia|]. split; [rewrite app_length; cbn; lia|]. split.
      { apply Forall_app. split; [exact Gd|]. constructor; [|constructor]. unfold good, mine. cbn. auto 10. }
      split; [rewrite rev_app_distr, ids_app; cbn; now rewrite El|]. split.
      { constructor; [cbn; intros [K|K]; [lia|contradiction]|]. constructor; assumption. }
      constructor; [lia|]. constructor; [lia|]. apply Forall_impl with (2 := Lt). intros; lia.
    + intros _. split; [|rewrite app_length; cbn; lia]. unfold found. rewrite map_app. cbn. apply in_elt.
Qed.

(** All calls: induction over the sequence. *)
Definition suits (x : bool * bool * request) : Prop := A (r_in (snd x) =? r_out (snd x)).
Lemma dec_found r ss : {found r ss} + {~ found r ss}.
Proof. apply in_dec. intros [[a b] c] [[a' b'] c']. destruct (Z.eq_dec a a'), (Z.eq_dec b b'), (Z.eq_dec c c'); [left; congruence|right; congruence..]. Defined.

Lemma step r ok1 ok2 d w ss : inv A grid d w ss -> A (r_in r =? r_out r) ->
  (compute_fft ok1 ok2 r d w = Abort /\ (ok1, ok2) <> (true, true)) \/
  (exists p d' w' ss', compute_fft ok1 ok2 r d w = Val (p, d', w') /\ inv A grid d' w' ss' /\ fits grid r p /\ A (p_inplace p) /\ incl ss ss' /\
     ((length ss < 32)%nat -> found r ss' /\ (length ss' <= S (length ss))%nat)).
Proof.
  intros I HA. destruct (dec_found r ss) as [F|F].
  - right. destruct (fft_hit ok1 ok2 r d w ss I F) as (p & s & E & _ & H1 & H2 & _). exists p, d, w, ss. split; [exact E|]. split; [exact I|]. split; [exact H1|]. split; [exact H2|]. split; [apply incl_refl|]. intros _. split; [exact F|lia].
  - destruct (fft_miss ok1 ok2 r d w ss I F HA) as [H|(p & d' & w' & ss' & E & I' & H1 & H2 & H3 & H4)]; [left; exact H|].
    right. exists p, d', w', ss'. split; [exact E|]. split; [exact I'|]. split; [exact H1|]. split; [rewrite H2; exact HA|]. split; [exact H3|]. intros L. destruct (H4 L) as (? & ?). split; [assumption|lia].
Qed.

Lemma run_ok : forall rs d w ss, inv A grid d w ss -> Forall suits rs ->
  (run_ffts rs d w = Abort /\ ~ all_ok rs) \/
  (exists ps d' w' ss', run_ffts rs d w = Val (ps, d', w') /\ inv A grid d' w' ss' /\ Forall2 (fun x p => fits grid (snd x) p /\ A (p_inplace p)) rs ps /\ incl ss ss' /\
    ((length ss + length rs <= 32)%nat -> forall x, In x rs -> found (snd x) ss')).
Proof.
  induction rs as [|[[ok1 ok2] r] rs IH]; intros d w ss I Su.
  - right. exists [], d, w, ss. split; [reflexivity|]. split; [exact I|]. split; [constructor|]. split; [apply incl_refl|]. intros _ x [].
  - apply Forall_cons_iff in Su. destruct Su as (Sr & Su). cbn [snd] in Sr. cbn [run_ffts]. destruct (step r ok1 ok2 d w ss I Sr) as [(E & N)|(p & d1 & w1 & s1 & E & I1 & H1 & H2 & H3 & H4)]; rewrite E; cbn [bind].
    + left. split; [reflexivity|]. intros Q. apply Forall_cons_iff in Q. destruct Q as (Q & _). cbn in Q. contradiction.
    + destruct (IH d1 w1 s1 I1 Su) as [(E2 & N)|(ps & d2 & w2 & s2 & E2 & I2 & F2 & J2 & K2)]; rewrite E2; cbn [bind].
      * left. split; [reflexivity|]. intros Q. apply Forall_cons_iff in Q. destruct Q as (_ & Q). contradiction.
      * right. exists (p :: ps), d2, w2, s2. split; [reflexivity|]. split; [exact I2|]. split; [constructor; [cbn; auto|exact F2]|]. split; [exact (incl_tran H3 J2)|].
        intros L x Hx. cbn [length] in L. destruct H4 as (H4 & H5); [lia|]. destruct Hx as [<-|Hx]; [|apply K2; [lia|exact Hx]]. cbn [snd].
        unfold found in *. apply in_map_iff in H4. destruct H4 as (s & Ks & Is). apply in_map_iff. exists s. split; [exact Ks|]. apply J2, Is.
Qed.

(** Destruction. *)
Lemma destroy_ok d w ss : inv A grid d w ss -> exists w', destroy_plans d w = Val w' /\ f_live w' = [].
Proof.
  intros (Eg & Es & En & Hl & Gd & El & Nd & Lt). unfold destroy_plans, forZ. rewrite En, Z.sub_0_r, Nat2Z.id.
  assert (G : forall t pre w, ss = pre ++ t -> f_live w = ids (rev t) -> NoDup (f_live w) -> exists w', for_ (length t) (Z.of_nat (length pre)) (fun i w => let! s := rd_slot (pd_slots d) i in let! w1 := destroy_plan (s_plan s) w in destroy_plan (s_iplan s) w1) w = Val w' /\ f_live w' = []).
  { induction t as [|s t IH]; intros pre v E Ev Nv.
    - exists v. split; [reflexivity|exact Ev].
    - assert (Rs : rd_slot (pd_slots d) (Z.of_nat (length pre)) = Val s).
      { rewrite Es, E, map_app, <- app_assoc. unfold rd_slot. cbn [map app]. rewrite rd_some. reflexivity. }
      cbn [length for_]. rewrite Rs. cbn [bind].
      cbn [rev] in Ev. rewrite ids_app in Ev. cbn [ids flat_map app] in Ev. fold ids in Ev.
      rewrite destroy_in by (rewrite Ev; apply in_app_iff; right; cbn; auto). cbn [bind f_next f_live].
      rewrite Ev in Nv.
      assert (N1 : ~ In (p_id (s_plan s)) (ids (rev t) ++ [p_id (s_iplan s)])).
      { change [p_id (s_iplan s); p_id (s_plan s)] with ([p_id (s_iplan s)] ++ [p_id (s_plan s)]) in Nv. rewrite app_assoc in Nv. apply NoDup_remove_2 in Nv. now rewrite app_nil_r in Nv. }
      assert (N2 : ~ In (p_id (s_iplan s)) (ids (rev t))).
      { pose proof (NoDup_remove_2 _ _ _ Nv) as Q. intros K. apply Q, in_app_iff. auto. }
      assert (R1 : remove Z.eq_dec (p_id (s_plan s)) (f_live v) = ids (rev t) ++ [p_id (s_iplan s)]).
      { rewrite Ev. change [p_id (s_iplan s); p_id (s_plan s)] with ([p_id (s_iplan s)] ++ [p_id (s_plan s)]). rewrite app_assoc, remove_app, (notin_remove _ _ _ N1).
        cbn. destruct (Z.eq_dec (p_id (s_plan s)) (p_id (s_plan s))); [apply app_nil_r|contradiction]. }
      rewrite destroy_in by (cbn [f_live]; rewrite R1; apply in_app_iff; right; cbn; auto). cbn [bind f_next f_live]. rewrite R1.
      assert (R2 : remove Z.eq_dec (p_id (s_iplan s)) (ids (rev t) ++ [p_id (s_iplan s)]) = ids (rev t)).
      { rewrite remove_app, (notin_remove _ _ _ N2). cbn. destruct (Z.eq_dec (p_id (s_iplan s)) (p_id (s_iplan s))); [apply app_nil_r|contradiction]. }
      rewrite R2. replace (Z.of_nat (length pre) + 1) with (Z.of_nat (length (pre ++ [s]))) by (rewrite app_length; cbn; lia).
      apply IH; [rewrite E, <- app_assoc; reflexivity|reflexivity|]. cbn [f_live].
      apply NoDup_remove_1 in Nv. change [p_id (s_plan s)] with ([] ++ p_id (s_plan s) :: []) in Nv. 
      pose proof (NoDup_remove_1 _ _ _ Nv) as Q; rewrite !app_nil_r in Q; exact Q. }
  exact (G ss [] w eq_refl El Nd).
Qed.
End A.
