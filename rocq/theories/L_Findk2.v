From Coq Require Import List ZArith Reals Bool Lia Lra.
From Verif Require Import Base RC M_Scheme M_Findk S_Findk L_Findk.
Import ListNotations.
Local Open Scope R_scope.

Lemma split_one : forall (k : v3) n, (0 < n)%Z -> list_split [k] n 0 = (0%Z, [k]).
Proof.
  intros k n H. unfold list_split. cbn [length]. destruct (Z.leb_spec n 0); [lia|]. cbn [orb Z.ltb Z.compare].
  replace (Z.of_nat 1 + n + -1)%Z with n by lia. rewrite Z.quot_same by lia. reflexivity.
Qed.

Lemma nth_skip : forall A n m (l : list A) d, nth m (skipn n l) d = nth (n + m) l d.
Proof. induction n; intros m [|a l] d; cbn; try reflexivity; [destruct m; reflexivity|apply IHn]. Qed.

Lemma rev_last : forall A (l : list A) d, l <> [] -> exists t, rev l = nth (length l - 1) l d :: t.
Proof.
  intros A l d H. rewrite <- (rev_involutive l) in H. destruct (rev l) as [|x t] eqn:E; [now cbn in H|].
  exists t. f_equal. rewrite <- (rev_involutive l), E. cbn [rev]. rewrite app_length, app_nth2; cbn; [|lia].
  now replace (length (rev t) + 1 - 1 - length (rev t))%nat with 0%nat by lia.
Qed.

Fixpoint look (k : R) (D : list (Z * R)) : option Z :=
  match D with [] => None | (a, k') :: D' => if Reqb k k' then Some a else look k D' end.

Lemma Reqb_refl : forall x, Reqb x x = true.
Proof. intros x. now destruct (Reqb_spec x x). Qed.

Lemma look_in : forall k a D, look k D = Some a -> In (a, k) D.
Proof.
  induction D as [|[a' k'] D IH]; cbn; [discriminate|]. destruct (Reqb_spec k k').
  - intros [= ->]. subst. now left.
  - intros H. right. auto.
Qed.
Lemma look_none : forall k D, look k D = None -> ~ In k (map snd D).
Proof.
  induction D as [|[a' k'] D IH]; cbn; [tauto|]. destruct (Reqb_spec k k'); [discriminate|].
  intros H [E|E]; [now subst|now apply IH].
Qed.
Lemma in_look : forall k a D, NoDup (map snd D) -> In (a, k) D -> look k D = Some a.
Proof.
  induction D as [|[a' k'] D IH]; cbn; [tauto|]. intros N [E|E].
  - injection E as -> ->. now rewrite Reqb_refl.
  - inversion N as [|x l Hx Hl]; subst. destruct (Reqb_spec k k'); [|auto].
    subst. exfalso. apply Hx. now apply (in_map snd) in E.
Qed.

Lemma arith_down : forall n b, arith_sequence b (-1) n = downwards b n.
Proof.
  induction n; intros b; [reflexivity|]. cbn [arith_sequence]. rewrite IHn. unfold downwards. cbn [seq map].
  rewrite Z.sub_0_r. f_equal. rewrite <- seq_shift, map_map. apply map_ext. intros i. lia.
Qed.

Section FK.
Variable solve : Z -> v3 -> list (R * R).
Variables ksn : Z.
Variable omega : R.
Variables band_min band_max : Z.
Variables korig kdir1 : v3.
Variable frd : R -> search.
Variable guess : list R.
Hypothesis Hlen : forall b k, (0 <= b)%Z -> length (solve b k) = Z.to_nat b.
Hypothesis Hmin : (1 <= band_min)%Z.
Hypothesis Hksn : (0 < ksn)%Z.
Hypothesis Hguess : Z.of_nat (length guess) = (band_max - band_min + 1)%Z.

Notation kv := (kvec korig kdir1).
Definition val (a b : Z) (k : R) : R * R := of_band omega b (solve a (kv k)).

Record inv (bc : Z) (D tried : list (Z * R)) (st : fstate) : Prop := {
  i_runs : f_runs st = map (fun p => (fst p, kv (snd p))) D;
  i_calls : f_calls st = [];
  i_nodup : NoDup (map snd D);
  i_range : forall a k, In (a, k) D -> (bc <= a <= band_max)%Z;
  i_tab : forall b k, assoc b k (f_tab st) =
      match look k D with
      | Some a => if (band_min <=? b)%Z && (b <=? a)%Z then Some (val a b k) else None
      | None => None
      end;
  i_len : length (f_k0s st) = length guess;
  i_k0 : forall b, (band_min <= b <= bc)%Z -> exists k0,
      nth_error (f_k0s st) (Z.to_nat (b - band_min)) = Some k0 /\
      match D with
      | [] => nth_error guess (Z.to_nat (b - band_min)) = Some k0
      | _ => exists a, In (a, k0) D /\
               forall a' k', In (a', k') D -> Rabs (fst (val a b k0)) <= Rabs (fst (val a' b k'))
      end;
  i_t1 : forall b k, In (b, k) tried -> exists a, In (a, k) D /\ (b <= a)%Z;
  i_t2 : forall a k, In (a, k) D -> In (a, k) tried
}.

Lemma run_one_ok : forall b k k0s tab runs calls, (0 < b)%Z ->
  run_one solve ksn 0 (mkF b [k] k0s tab runs calls) =
  Val (solve b k, mkF b [k] k0s tab ((b, k) :: runs) calls).
Proof.
  intros b k k0s tab runs calls Hb. unfold run_one. cbn [f_kpts f_nb f_k0s f_tab f_runs f_calls].
  rewrite split_one by assumption. cbn [snd rev app map]. destruct (Z.ltb_spec 0 b); [|lia]. reflexivity.
Qed.

Lemma rootfun_ok : forall bc D tried st k, (band_min <= bc <= band_max)%Z -> inv bc D tried st ->
  exists st' D' a,
    rootfun solve ksn 0 omega band_min korig kdir1 bc k st = Val (val a bc k, st') /\
    In (a, k) D' /\ (D' = D \/ D' = (bc, k) :: D) /\ inv bc D' ((bc, k) :: tried) st'.
Proof.
  intros bc D tried st k Hb I. unfold rootfun. rewrite (i_tab _ _ _ _ I).
  destruct (look k D) as [a|] eqn:El.
  - pose proof (look_in _ _ _ El) as Ha. pose proof (i_range _ _ _ _ I _ _ Ha) as Hr.
    destruct (Z.leb_spec band_min bc); [|lia]. destruct (Z.leb_spec bc a); [|lia]. cbn [andb].
    exists st, D, a. split; [reflexivity|]. split; [assumption|]. split; [now left|].
    destruct I as [J1 J2 J3 J4 J5 J6 J7 J8 J9]. constructor; try assumption.
    + intros b k' [E|E]; [|auto]. injection E as <- <-. exists a. split; [assumption|lia].
    + intros a' k' Hin. right. auto.
  - rewrite run_one_ok by lia. cbn [bind].
    set (fv := solve bc (kv k)).
    assert (Lfv : length fv = Z.to_nat bc) by (apply Hlen; lia).
    rewrite ncdr_ok by lia. cbn [bind].
    set (s0 := mkF bc [kv k] (f_k0s st) (f_tab st) ((bc, kv k) :: f_runs st) (f_calls st)).
    destruct (cache_all_ok omega band_min k (Z.to_nat (bc - band_min - -1)) band_min (skipn (Z.to_nat (band_min - 1)) fv) s0)
      as (s1 & E1 & A1 & A2 & A3 & A4 & A5 & A6 & A7).
    { rewrite skipn_length. lia. } { lia. } { cbn. rewrite (i_len _ _ _ _ I). lia. }
    rewrite E1. cbn [bind].
    destruct (rev_last _ fv (0, 0)) as [t Et]. { intros E. rewrite E in Lfv. cbn in Lfv. lia. }
    rewrite Et.
    assert (Ev : (let (f, v) := nth (length fv - 1) fv (0, 0) in Val (f - omega, v, s1)) = Val (val bc bc k, s1)).
    { unfold val, of_band. fold fv. replace (Z.to_nat (bc - 1)) with (length fv - 1)%nat by lia.
      destruct (nth (length fv - 1) fv (0, 0)). reflexivity. }
    exists s1, ((bc, k) :: D), bc. split; [exact Ev|]. split; [now left|]. split; [now right|].
    pose proof (look_none _ _ El) as Nk.
    destruct I as [J1 J2 J3 J4 J5 J6 J7 J8 J9].
    assert (NT : forall b, (band_min <= b)%Z ->
       (let x := nth (Z.to_nat (b - band_min)) (skipn (Z.to_nat (band_min - 1)) fv) (0, 0) in (fst x - omega, snd x)) = val bc b k).
    { intros b Hb'. cbv zeta. rewrite nth_skip. unfold val, of_band. fold fv.
      replace (Z.to_nat (band_min - 1) + Z.to_nat (b - band_min))%nat with (Z.to_nat (b - 1)) by lia.
      destruct (nth (Z.to_nat (b - 1)) fv (0, 0)). reflexivity. }
    constructor.
    + rewrite A3. cbn. now rewrite J1.
    + rewrite A4. exact J2.
    + cbn. constructor; assumption.
    + intros a' k' [E|E]; [injection E as <- <-; lia|eauto].
    + intros b k'. rewrite A6. cbn [look]. cbn [f_tab s0]. rewrite J5. destruct (Reqb_spec k' k).
      * subst k'. rewrite El. rewrite andb_true_r.
        destruct (Z.leb_spec band_min b); [|reflexivity].
        destruct (Z.ltb_spec b (band_min + Z.of_nat (Z.to_nat (bc - band_min - -1)))), (Z.leb_spec b bc); try lia; cbn [andb]; [|reflexivity].
        f_equal. apply NT. lia.
      * rewrite andb_false_r. reflexivity.
    + rewrite A5. exact J6.
    + intros b Hb'. destruct (J7 b Hb') as (k0 & E0 & C0).
      pose proof (A7 b k0 ltac:(lia) E0) as E1'. 
      destruct (Z.leb_spec band_min b); [|lia].
      destruct (Z.ltb_spec b (band_min + Z.of_nat (Z.to_nat (bc - band_min - -1)))); [|lia]. cbn [andb] in E1'.
      eexists. split; [exact E1'|]. cbn [f_tab s0]. rewrite J5.
      pose proof (NT b ltac:(lia)) as NTb. cbv zeta in NTb.
      set (x := nth (Z.to_nat (b - band_min)) (skipn (Z.to_nat (band_min - 1)) fv) (0, 0)) in *.
      destruct D as [|p D].
      * cbn. exists bc. split; [now left|]. intros a' k' [E|[]]. injection E as <- <-. apply Rle_refl.
      * destruct C0 as (a & Ha & Hmn). rewrite (in_look _ _ _ J3 Ha).
        pose proof (J4 _ _ Ha). destruct (Z.leb_spec band_min b); [|lia]. destruct (Z.leb_spec b a); [|lia].
        cbn [andb upd]. assert (Ex : fst x - omega = fst (val bc b k)) by now rewrite <- NTb.
        rewrite Ex. destruct (Rltb_spec (Rabs (fst (val bc b k))) (Rabs (fst (val a b k0)))) as [Hlt|Hge].
        -- exists bc. split; [now left|]. intros a' k' [E|E]; [injection E as <- <-; apply Rle_refl|].
           specialize (Hmn _ _ E). lra.
        -- exists a. split; [now right|]. intros a' k' [E|E]; [injection E as <- <-; lra|eauto].
    + intros b k' [E|E]; [injection E as <- <-; exists bc; split; [now left|lia]|].
      destruct (J8 _ _ E) as (a & Ha & Hba). exists a. split; [now right|assumption].
    + intros a' k' [E|E]; [injection E as <- <-; now left|right; auto].
Qed.

Definition agrees (A : R -> Z) (D : list (Z * R)) : Prop := forall a k, In (a, k) D -> A k = a.

Lemma run_search_ok : forall bc, (band_min <= bc <= band_max)%Z -> forall s D tried st, inv bc D tried st ->
  exists r st' D' asked,
    run_search solve ksn 0 omega band_min korig kdir1 bc s st = Val (r, st') /\
    incl D D' /\ inv bc D' (rev (map (pair bc) asked) ++ tried) st' /\
    forall A, agrees A D' -> plays (fun k => val (A k) bc k) s r asked.
Proof.
  intros bc Hb s. induction s as [k|k next IH]; intros D tried st I.
  - cbn. exists k, st, D, []. split; [reflexivity|]. split; [intros x Hx; exact Hx|]. split; [exact I|]. intros A _. constructor.
  - cbn [run_search]. destruct (rootfun_ok bc D tried st k Hb I) as (s1 & D1 & a & E1 & Ha & HD & I1).
    rewrite E1. cbn [bind].
    destruct (IH (val a bc k) D1 _ s1 I1) as (r & s2 & D2 & asked & E2 & Hin & I2 & P2).
    exists r, s2, D2, (k :: asked). split; [exact E2|]. split.
    { intros x Hx. apply Hin. destruct HD as [->| ->]; [assumption|now right]. }
    split.
    { cbn [map rev]. rewrite <- app_assoc. exact I2. }
    intros A HA. constructor. rewrite (HA a k) by (apply Hin; assumption). now apply P2.
Qed.

Lemma inv_down : forall bc D tried st, inv bc D tried st -> inv (bc - 1) D tried st.
Proof.
  intros bc D tried st [J1 J2 J3 J4 J5 J6 J7 J8 J9]. constructor; try assumption.
  - intros a k H. specialize (J4 _ _ H). lia.
  - intros b Hb. apply J7. lia.
Qed.

Lemma search_bands_ok : forall n bc D tried st,
  (bc <= band_max)%Z -> bc = (band_min + Z.of_nat n - 1)%Z -> inv bc D tried st ->
  exists ks st' D' tried',
    search_bands solve ksn 0 omega band_min korig kdir1 frd (arith_sequence bc (-1) n) st = Val (ks, st') /\
    incl D D' /\ inv (band_min - 1) D' tried' st' /\
    forall A, agrees A D' ->
      searched (fun b k => val (A k) b k) frd (combine (downwards bc n) (rev (firstn n guess))) tried ks tried'.
Proof.
  induction n as [|n IH]; intros bc D tried st Hbc Eb I.
  - cbn. exists [], st, D, tried. replace (band_min - 1)%Z with bc by lia.
    split; [reflexivity|]. split; [intros x Hx; exact Hx|]. split; [exact I|]. intros A _. constructor.
  - cbn [arith_sequence search_bands].
    destruct (i_k0 _ _ _ _ I bc ltac:(lia)) as (k0 & E0 & C0).
    rewrite (vref_ok (f_k0s st) (bc - band_min) k0 ltac:(lia) E0). cbn [bind].
    destruct (run_search_ok bc ltac:(lia) (frd k0) D tried st I) as (r & s1 & D1 & asked & E1 & Hi1 & I1 & P1).
    rewrite E1. cbn [bind].
    destruct (IH (bc + -1)%Z D1 _ s1 ltac:(lia) ltac:(lia) (inv_down _ _ _ _ I1)) as (ks & s2 & D2 & t2 & E2 & Hi2 & I2 & P2).
    rewrite E2. cbn [bind]. exists (r :: ks), s2, D2, t2. split; [reflexivity|].
    split; [intros x Hx; auto|]. split; [exact I2|].
    intros A HA.
    assert (Hn : Z.to_nat (bc - band_min) = n) by lia.
    destruct (nth_error guess n) as [g0|] eqn:Eg.
    2:{ apply nth_error_None in Eg. exfalso. lia. }
    assert (EF : rev (firstn (S n) guess) = g0 :: rev (firstn n guess)).
    { clear - Eg. revert n Eg. induction guess as [|x l IHl]; intros [|n] Eg; try discriminate.
      - injection Eg as ->. reflexivity.
      - cbn [firstn rev]. change (match l with [] => [] | a :: l0 => a :: firstn n l0 end) with (firstn (S n) l).
        rewrite (IHl n Eg). reflexivity. }
    rewrite EF. rewrite <- arith_down. cbn [arith_sequence combine]. rewrite arith_down.
    assert (HA1 : agrees A D1) by (intros a k Hk; apply HA; auto).
    assert (HA0 : agrees A D) by (intros a k Hk; apply HA1; auto).
    econstructor; [|apply P1; exact HA1|apply P2; exact HA].
    unfold closest. destruct tried as [|t tr].
    + destruct D as [|[a k] D].
      * rewrite Hn in C0. rewrite Eg in C0. now injection C0 as ->.
      * destruct (i_t2 _ _ _ _ I a k (or_introl eq_refl)).
    + destruct D as [|p D].
      * destruct t as [b k]. destruct (i_t1 _ _ _ _ I b k (or_introl eq_refl)) as (a & [] & _).
      * destruct C0 as (a & Ha & Hmn). split.
        { exists a. apply (i_t2 _ _ _ _ I). exact Ha. }
        intros b k' Hk'. destruct (i_t1 _ _ _ _ I b k' Hk') as (a' & Ha' & _).
        rewrite (HA0 _ _ Ha), (HA0 _ _ Ha'). apply (Hmn _ _ Ha').
Qed.

Lemma inv_start : forall nb kp, inv band_max [] [] (mkF nb kp guess [] [] []).
Proof.
  intros nb kp. constructor; cbn; try reflexivity; try tauto.
  - constructor.
  - intros b Hb. destruct (nth_error guess (Z.to_nat (b - band_min))) as [g|] eqn:E; [eauto|].
    apply nth_error_None in E. exfalso. lia.
Qed.

Lemma calls_loop : forall nf b k st, (1 <= b)%Z ->
  forZ 1 (b + 1) (fun b' st => if (b' =? b)%Z then Val (call_all nf b k st) else Val st) st = Val (call_all nf b k st).
Proof.
  intros nf b k st H.
  destruct (forZ_inv (fun i s => s = if (i <=? b)%Z then st else call_all nf b k st)
     (fun b' st => if (b' =? b)%Z then Val (call_all nf b k st) else Val st) 1 (b + 1) st) as (s' & E & P).
  - lia.
  - destruct (Z.leb_spec 1 b); [reflexivity|lia].
  - intros i s Hi ->. destruct (Z.leb_spec i b); [|lia]. destruct (Z.eqb_spec i b).
    + eexists. split; [reflexivity|]. destruct (Z.leb_spec (i + 1) b); [lia|reflexivity].
    + eexists. split; [reflexivity|]. destruct (Z.leb_spec (i + 1) b); [reflexivity|lia].
  - rewrite E, P. destruct (Z.leb_spec (b + 1) b); [lia|reflexivity].
Qed.

Lemma band_funcs_ok : forall nf bks st, Forall (fun p => 1 <= fst p)%Z bks ->
  exists st', band_funcs solve ksn 0 korig kdir1 nf bks st = Val st' /\
    f_runs st' = rev (map (fun p => (fst p, kv (snd p))) bks) ++ f_runs st /\
    f_calls st' = rev (flat_map (fun p => map (fun i => (fst p, i, kv (snd p))) (seq 0 nf)) bks) ++ f_calls st.
Proof.
  intros nf bks. induction bks as [|[b k] bks IH]; intros st F.
  - exists st. repeat split; reflexivity.
  - inversion F as [|x l Hx Hl]; subst. cbn in Hx. cbn [band_funcs]. rewrite run_one_ok by lia. cbn [bind f_nb].
    rewrite (calls_loop nf b (kv k)) by lia. cbn [bind].
    destruct (IH (call_all nf b (kv k) (mkF b [kv k] (f_k0s st) (f_tab st) ((b, kv k) :: f_runs st) (f_calls st))) Hl)
      as (s' & E & R' & C').
    exists s'. split; [exact E|]. rewrite R', C'. cbn [f_runs f_calls call_all map rev flat_map fst snd].
    rewrite rev_app_distr, <- !app_assoc. split; reflexivity.
Qed.

Lemma searched_length : forall g bgs tried ks tried', searched g frd bgs tried ks tried' -> length ks = length bgs.
Proof. induction 1; cbn; congruence. Qed.

Lemma find_k_ok : forall nf nb kp, exists ks st A distinct tried,
  find_k solve ksn 0 omega band_min band_max korig kdir1 frd guess nf nb kp = Val (ks, st) /\
  searched (fun b k => of_band omega b (solve (A k) (kv k))) frd
    (combine (downwards band_max (length guess)) (rev guess)) [] (rev ks) tried /\
  (forall b k, In (b, k) tried -> (b <= A k)%Z /\ In (A k, k) tried /\ In k distinct) /\
  (forall k, In k distinct -> In (A k, k) tried) /\ NoDup distinct /\
  f_nb st = nb /\ f_kpts st = kp /\
  rev (f_runs st) = map (fun k => (A k, kv k)) distinct ++
    (if Nat.eqb nf 0 then [] else combine (downwards band_max (length guess)) (map kv (rev ks))) /\
  rev (f_calls st) = flat_map (fun p => map (fun i => (fst p, i, kv (snd p))) (seq 0 nf))
                       (combine (downwards band_max (length guess)) (rev ks)).
Proof.
  intros nf nb kp. unfold find_k.
  replace (Z.to_nat (band_max - band_min - -1)) with (length guess) by lia.
  destruct (search_bands_ok (length guess) band_max [] [] (mkF nb kp guess [] [] []) ltac:(lia) ltac:(lia) (inv_start nb kp))
    as (rks & s1 & D & tried & E1 & _ & I & P).
  rewrite E1. cbn [bind]. rewrite firstn_all in P.
  set (A := fun k => match look k D with Some a => a | None => 0%Z end).
  assert (HA : agrees A D).
  { intros a k H. unfold A. rewrite (in_look _ _ _ (i_nodup _ _ _ _ I) H). reflexivity. }
  specialize (P A HA).
  assert (Lr : length rks = length guess).
  { apply searched_length in P. rewrite P, combine_length, rev_length. unfold downwards. rewrite map_length, seq_length. lia. }
  assert (RD : rev (f_runs s1) = map (fun k => (A k, kv k)) (rev (map snd D))).
  { rewrite (i_runs _ _ _ _ I), <- map_rev, <- map_rev, map_map. apply map_ext_in. intros [a k] Hk.
    apply in_rev in Hk. cbn. now rewrite (HA a k). }
  assert (T1 : forall b k, In (b, k) tried -> (b <= A k)%Z /\ In (A k, k) tried /\ In k (rev (map snd D))).
  { intros b k Hk. destruct (i_t1 _ _ _ _ I b k Hk) as (a & Ha & Hba). rewrite (HA _ _ Ha). split; [assumption|].
    split; [apply (i_t2 _ _ _ _ I); assumption|]. rewrite <- in_rev. now apply (in_map snd) in Ha. }
  assert (T2 : forall k, In k (rev (map snd D)) -> In (A k, k) tried).
  { intros k Hk. rewrite <- in_rev in Hk. apply in_map_iff in Hk. destruct Hk as ([a k'] & E & Hk). cbn in E. subst k'.
    rewrite (HA _ _ Hk). now apply (i_t2 _ _ _ _ I). }
  assert (T3 : NoDup (rev (map snd D))).
  { apply NoDup_rev. exact (i_nodup _ _ _ _ I). }
  rewrite !rev_involutive.
  destruct (Nat.eqb_spec nf 0) as [->|Hnf].
  - cbn [bind]. exists (rev rks). eexists. exists A, (rev (map snd D)), tried. split; [reflexivity|].
    rewrite rev_involutive. cbn [f_nb f_kpts f_runs f_calls]. rewrite RD, (i_calls _ _ _ _ I), app_nil_r.
    repeat (split; [first [assumption|reflexivity]|]). cbn.
    symmetry. clear. induction (combine (downwards band_max (length guess)) rks); [reflexivity|assumption].
  - rewrite arith_down.
    destruct (band_funcs_ok nf (combine (downwards band_max (length guess)) rks) s1) as (s2 & E2 & R2 & C2).
    { apply Forall_forall. intros [b k] Hk. apply in_combine_l in Hk. cbn. unfold downwards in Hk.
      apply in_map_iff in Hk. destruct Hk as (i & <- & Hi). apply in_seq in Hi. lia. }
    rewrite E2. cbn [bind]. exists (rev rks). eexists. exists A, (rev (map snd D)), tried. split; [reflexivity|].
    rewrite rev_involutive. cbn [f_nb f_kpts f_runs f_calls].
    repeat (split; [first [assumption|reflexivity]|]). split.
    + rewrite R2, rev_app_distr, rev_involutive, RD. f_equal.
      clear. generalize (downwards band_max (length guess)). intros l. revert l.
      induction rks as [|r rks IH]; intros [|x l]; try reflexivity. cbn. now rewrite IH.
    + rewrite C2, (i_calls _ _ _ _ I), app_nil_r, rev_involutive. reflexivity.
Qed.
End FK.
