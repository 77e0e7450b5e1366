From Coq Require Import List ZArith Reals Bool Lia Lra Sorted.
From Verif Require Import Base RC M_Scheme M_Findk S_Findk L_Findk L_Findk2.
Import ListNotations.
Local Open Scope R_scope.

Lemma plays_ext : forall g h s r asked, (forall k, In k asked -> g k = h k) -> plays g s r asked -> plays h s r asked.
Proof.
  intros g h s r asked H P. induction P; [constructor|]. constructor. rewrite <- H by now left.
  apply IHP. intros k' Hk. apply H. now right.
Qed.

Lemma searched_tried : forall g frd bgs tried ks tried', searched g frd bgs tried ks tried' -> incl tried tried'.
Proof.
  induction 1 as [|b g0 rest tried start k asked ks tried' C P S IH]; [intros x Hx; exact Hx|].
  intros x Hx. apply IH. apply in_or_app. now right.
Qed.

Lemma searched_ext : forall g h frd bgs tried ks tried', searched g frd bgs tried ks tried' ->
  StronglySorted (fun x y => y <= x)%Z (map fst bgs) ->
  (forall b a k, In b (map fst bgs) -> In (a, k) tried -> (b <= a)%Z) ->
  (forall b k a, In b (map fst bgs) -> In (a, k) tried' -> (b <= a)%Z -> g b k = h b k) ->
  searched h frd bgs tried ks tried'.
Proof.
  induction 1 as [|b g0 rest tried start k asked ks tried' C P S IH]; intros So T H; [constructor|].
  pose proof (searched_tried _ _ _ _ _ _ S) as HI.
  assert (HT : incl tried tried'). { intros x Hx. apply HI. apply in_or_app. now right. }
  cbn in So. inversion So as [|x l So' Fo]; subst. rewrite Forall_forall in Fo.
  econstructor; [| |apply IH].
  - unfold closest in *. destruct tried as [|t tr]; [exact C|]. destruct C as [[a Ha] Hm].
    split; [now exists a|]. intros b' k' Hk.
    rewrite <- (H b start a); [|cbn; auto|auto|apply (T b a start); cbn; auto].
    rewrite <- (H b k' b'); [|cbn; auto|auto|apply (T b b' k'); cbn; auto]. eauto.
  - eapply plays_ext; [|exact P]. intros k' Hk. apply (H b k' b); [cbn; auto| |lia]. apply HI. apply in_or_app. left.
    rewrite <- in_rev. now apply in_map.
  - exact So'.
  - intros b' a k' Hb Hk. apply in_app_or in Hk. destruct Hk as [E|E].
    + rewrite <- in_rev in E. apply in_map_iff in E. destruct E as (x & E & _). injection E as <- <-. auto.
    + apply (T b' a k'); [cbn; auto|exact E].
  - intros b' k' a Hb Hk. apply (H b' k' a); [cbn; auto|assumption].
Qed.

Lemma searched_good : forall g frd (good : (R -> R * R) -> R -> Prop) bgs tried ks tried',
  searched g frd bgs tried ks tried' ->
  (forall f start k asked, plays f (frd start) k asked -> good f k) ->
  Forall2 (fun bg k => good (g (fst bg)) k) bgs ks.
Proof. intros g frd good bgs tried ks tried' H G. induction H; constructor; cbn; eauto. Qed.

Lemma downwards_in : forall b n x, In x (downwards b n) -> (b - Z.of_nat n < x <= b)%Z.
Proof. intros b n x H. apply in_map_iff in H. destruct H as (i & <- & Hi). apply in_seq in Hi. lia. Qed.

Lemma downwards_sorted : forall b n, StronglySorted (fun x y => y <= x)%Z (downwards b n).
Proof.
  intros b n. rewrite <- arith_down. revert b. induction n; intros b; cbn [arith_sequence]; [constructor|]. constructor; [apply IHn|].
  rewrite Forall_forall. intros x Hx. rewrite arith_down in Hx. apply downwards_in in Hx. lia.
Qed.

Lemma downwards_length : forall b n, length (downwards b n) = n.
Proof. intros. unfold downwards. now rewrite map_length, seq_length. Qed.

Lemma fst_combine : forall A B (l : list A) (l' : list B), length l = length l' -> map fst (combine l l') = l.
Proof. induction l; intros [|b l'] H; cbn in *; try congruence. f_equal. apply IHl. congruence. Qed.

Lemma find_k_exact : forall solve F k_split_num omega band_min band_max korig kdir1 frd guess nf num_bands k_points ks st,
  (forall b k, (0 <= b)%Z -> length (solve b k) = Z.to_nat b) ->
  (forall b i k, (1 <= i <= b)%Z -> nth_error (solve b k) (Z.to_nat (i - 1)) = Some (F i k)) ->
  (1 <= band_min)%Z -> (0 < k_split_num)%Z -> Z.of_nat (length guess) = (band_max - band_min + 1)%Z ->
  find_k solve k_split_num 0 omega band_min band_max korig kdir1 frd guess nf num_bands k_points = Val (ks, st) ->
  exists tried,
    searched (fun b k => (fst (F b (kvec korig kdir1 k)) - omega, snd (F b (kvec korig kdir1 k)))) frd
      (combine (downwards band_max (length guess)) (rev guess)) [] (rev ks) tried.
Proof.
  intros solve F ksn omega band_min band_max korig kdir1 frd guess nf num_bands k_points ks st H1 HF H2 H3 H4 E.
  destruct (find_k_ok solve ksn omega band_min band_max korig kdir1 frd guess H1 H2 H3 H4 nf num_bands k_points)
    as (ks' & st' & A & distinct & tried & E' & S & T & _).
  rewrite E in E'. injection E' as <- <-. exists tried.
  assert (EB : map fst (combine (downwards band_max (length guess)) (rev guess)) = downwards band_max (length guess)).
  { apply fst_combine. now rewrite downwards_length, rev_length. }
  eapply searched_ext; [exact S|..]; rewrite ?EB.
  - apply downwards_sorted.
  - intros b a k _ [].
  - intros b k a Hb Hk Hba. apply downwards_in in Hb. destruct (T _ _ Hk) as (Ha & _).
    cbv beta. unfold of_band. rewrite (nth_error_nth _ _ (0, 0) (HF (A k) b (kvec korig kdir1 k) ltac:(lia))).
    destruct (F b (kvec korig kdir1 k)). reflexivity.
Qed.

Lemma find_k_roots : forall solve F (good : (R -> R * R) -> R -> Prop)
    k_split_num omega band_min band_max korig kdir1 frd guess nf num_bands k_points ks st,
  (forall b k, (0 <= b)%Z -> length (solve b k) = Z.to_nat b) ->
  (forall b i k, (1 <= i <= b)%Z -> nth_error (solve b k) (Z.to_nat (i - 1)) = Some (F i k)) ->
  (1 <= band_min)%Z -> (0 < k_split_num)%Z -> Z.of_nat (length guess) = (band_max - band_min + 1)%Z ->
  find_k solve k_split_num 0 omega band_min band_max korig kdir1 frd guess nf num_bands k_points = Val (ks, st) ->
  (forall f start k asked, plays f (frd start) k asked -> good f k) ->
  length ks = length guess /\
  forall i k, nth_error ks i = Some k ->
    good (fun k => let fv := F (band_min + Z.of_nat i)%Z (kvec korig kdir1 k) in (fst fv - omega, snd fv)) k.
Proof.
  intros solve F good ksn omega band_min band_max korig kdir1 frd guess nf num_bands k_points ks st H1 HF H2 H3 H4 E G.
  destruct (find_k_exact _ _ _ _ _ _ _ _ _ _ _ _ _ _ _ H1 HF H2 H3 H4 E) as [tried HS].
  assert (L : length ks = length guess).
  { pose proof (searched_length _ _ _ _ _ _ HS) as L. rewrite combine_length, !rev_length, downwards_length in L. lia. }
  split; [exact L|]. intros i k Hk.
  pose proof (searched_good _ _ _ _ _ _ _ HS G) as F2.
  assert (Hi : (i < length ks)%nat) by (apply nth_error_Some; congruence).
  assert (Er : nth_error (rev ks) (length ks - S i) = Some k).
  { rewrite (nth_error_nth' _ 0) by (rewrite rev_length; lia). rewrite rev_nth by lia.
    replace (length ks - S (length ks - S i))%nat with i by lia. now rewrite (nth_error_nth _ _ _ Hk). }
  assert (Eb : exists g0, nth_error (combine (downwards band_max (length guess)) (rev guess)) (length ks - S i) = Some ((band_min + Z.of_nat i)%Z, g0)).
  { exists (nth (length ks - S i) (rev guess) 0).
    rewrite (nth_error_nth' _ (0%Z, 0)) by (rewrite combine_length, rev_length, downwards_length; lia).
    rewrite combine_nth by now rewrite downwards_length, rev_length. f_equal. f_equal.
    unfold downwards. rewrite (nth_indep _ _ (band_max - Z.of_nat 0)%Z) by (rewrite map_length, seq_length; lia).
    rewrite (map_nth (fun i => (band_max - Z.of_nat i)%Z)). rewrite seq_nth by lia. lia. }
  destruct Eb as [g0 Eb]. revert Er Eb. generalize (length ks - S i)%nat. revert F2.
  generalize (combine (downwards band_max (length guess)) (rev guess)) (rev ks).
  intros l1 l2 F2 n. revert n. induction F2; intros [|n] Er Eb; try discriminate.
  - injection Er as ->. injection Eb as ->. assumption.
  - eauto.
Qed.

Lemma find_k_split : exists k_split_num k_split_index,
  (0 <= k_split_index < k_split_num)%Z /\
  forall solve omega band_min band_max korig kdir1 frd guess nf num_bands k_points ks st,
    (band_min <= band_max)%Z -> (forall g, exists k next, frd g = Ask k next) ->
    find_k solve k_split_num k_split_index omega band_min band_max korig kdir1 frd guess nf num_bands k_points
      <> Val (ks, st).
Proof.
  exists 2%Z, 1%Z. split; [lia|]. intros solve omega band_min band_max korig kdir1 frd guess nf num_bands k_points ks st Hb Hf.
  unfold find_k. destruct (Z.to_nat (band_max - band_min - -1)) eqn:En; [lia|].
  cbn [arith_sequence search_bands f_k0s]. destruct (vector_ref guess (band_max - band_min)) as [g| | |]; try discriminate.
  cbn [bind]. destruct (Hf g) as (k & next & ->). cbn. discriminate.
Qed.

(** ** An example *)
Definition fx_F (b : Z) (k : v3) : R * R := (IZR b + fst (fst k), 1).
Definition fx_solve (b : Z) (k : v3) : list (R * R) := map (fun i => fx_F (Z.of_nat i) k) (seq 1 (Z.to_nat b)).
Definition fx_frd (g : R) : search := Ask g (fun a => Done (g - fst a / snd a)).

Lemma fx_run :
  (forall b k, (0 <= b)%Z -> length (fx_solve b k) = Z.to_nat b) /\
  (forall b i k, (1 <= i <= b)%Z -> nth_error (fx_solve b k) (Z.to_nat (i - 1)) = Some (fx_F i k)) /\
  exists ks st,
    find_k fx_solve 1 0 3 1 2 (0, 0, 0) (1, 0, 0) fx_frd [0; 0] 1 8 [(0, 0, 0)] = Val (ks, st) /\
    ks = [2; 1] /\ f_nb st = 8%Z /\
    f_runs st = [(1%Z, (2, 0, 0)); (2%Z, (1, 0, 0)); (2%Z, (0, 0, 0))] /\
    f_calls st = [(1%Z, 0%nat, (2, 0, 0)); (2%Z, 0%nat, (1, 0, 0))].
Proof.
  split. { intros b k H. unfold fx_solve. now rewrite map_length, seq_length. }
  split.
  { intros b i k H. unfold fx_solve. rewrite (nth_error_nth' _ (fx_F (Z.of_nat 0) k)) by (rewrite map_length, seq_length; lia).
    rewrite (map_nth (fun i => fx_F (Z.of_nat i) k)). rewrite seq_nth by lia. do 2 f_equal. lia. }
  cbv -[Reqb Rltb IZR Rplus Rminus Rmult Rdiv Rinv Ropp Rabs].
  rewrite !Reqb_refl. cbv -[Reqb Rltb IZR Rplus Rminus Rmult Rdiv Rinv Ropp Rabs].
  eexists _, _. split; [reflexivity|].
  repeat split; repeat (f_equal; try lra).
Qed.
