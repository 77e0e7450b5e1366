(** Proofs about mpb-data: whole files. *)
From Coq Require Import String List ZArith Reals Lra Lia Bool Psatz.
From Verif Require Import Base RC Loops M_Tensor M_Interp L_Interp L_Interp3 M_Evect L_Out L_Out3 M_Data S_Data L_Data L_Data2 L_Data3 L_Data4 L_Data5 L_Data6 L_Data7.
Import ListNotations.
Local Open Scope Z_scope.

Lemma vol_pad dims : dims_ok dims -> exists n0 n1 n2, pad dims = (n0, n1, n2) /\ n0 * n1 * n2 = volume (pad dims).
Proof. intros D. destruct (dims_cases dims D) as (n0 & n1 & n2 & P & _). exists n0, n1, n2. rewrite P. split; reflexivity. Qed.

Definition six_present (f : datasets) (dims : list Z) (v : list (list R)) : Prop :=
  Forall2 (fun nam d => f nam = Some (dims, d) /\ array (pad dims) d) six_names v.
Lemma present_six f dims xr xi yr yi zr zi : dims_ok dims -> six_present f dims [xr; xi; yr; yi; zr; zi] ->
  six f = Val (Some (map (fun v => (Z.of_nat (length dims), pad dims, v)) [xr; xi; yr; yi; zr; zi])).
Proof.
  intros D P. unfold six_present, six_names in P. repeat match goal with H : Forall2 _ (_ :: _) (_ :: _) |- _ => inversion H; clear H; subst end.
  repeat match goal with H : _ /\ _ |- _ => destruct H end.
  rewrite six_is. unfold six_names. cbn [foldM].
  repeat match goal with E : f ?n = Some _ |- context [six_step f ?n (Some ?l)] => rewrite (six_hit f n l _ E D); cbn [bind fst snd app]; rewrite ?alike_refl; cbn [bind] end.
  reflexivity.
Qed.

(** ** Vector fields *)
Lemma cvector_ok Rin st junk f dims xr xi yr yi zr zi m :
  fits Rin st -> dims_ok dims -> six_present f dims [xr; xi; yr; yi; zr; zi] -> memo_ok m -> (s_trans st = true -> (2 <= length dims)%nat) ->
  exists o m', handle_cvector_dataset st junk f m = Val (o, m') /\ memo_ok m' /\
    exists ox oxi oy oyi oz ozi xr' xi' yr' yi' zr' zi',
      o = map (fun p => (new_name st (fst p), (flip_dims (s_trans st) (odims st dims), snd p))) (combine six_names [ox; oxi; oy; oyi; oz; ozi]) /\
      (forall c, inside (pad dims) c -> (get (pad dims) xr' c, get (pad dims) yr' c, get (pad dims) zr' c) = combo (s_cart st) (get (pad dims) xr c, get (pad dims) yr c, get (pad dims) zr c)) /\
      (forall c, inside (pad dims) c -> (get (pad dims) xi' c, get (pad dims) yi' c, get (pad dims) zi' c) = combo (s_cart st) (get (pad dims) xi c, get (pad dims) yi c, get (pad dims) zi c)) /\
      Forall2 (fun (q p : list R * list R) => array (pad (odims st dims)) (fst q) /\ array (pad (odims st dims)) (snd q) /\ forall c r, inside (pad (odims st dims)) c -> same_place Rin (s_Rout st) (pad (odims st dims)) c r ->
        (get (flip (s_trans st) (pad (odims st dims))) (fst q) (flip (s_trans st) c), get (flip (s_trans st) (pad (odims st dims))) (snd q) (flip (s_trans st) c)) =
        (s_scale st * cblend (s_near st) (cont (pad dims) (s_k st) (fst p) (snd p)) (gridpos (pad dims) r))%C)
        [(ox, oxi); (oy, oyi); (oz, ozi)] [(xr', xi'); (yr', yi'); (zr', zi')].
Proof.
  intros F D P Hm T. unfold handle_cvector_dataset. rewrite (present_six _ _ _ _ _ _ _ _ D P). cbn [bind map].
  unfold six_present, six_names in P. repeat match goal with H : Forall2 _ (_ :: _) (_ :: _) |- _ => inversion H; clear H; subst end.
  repeat match goal with H : _ /\ _ |- _ => destruct H end.
  destruct (dims_cases dims D) as (_ & _ & _ & _ & S & _). destruct (vol_pad dims D) as (n0 & n1 & n2 & Pd & V). rewrite Pd. cbn [fst snd]. rewrite V. rewrite <- Pd.
  destruct (rotate_ok (s_cart st) (pad dims) xr yr zr S) as (xr' & yr' & zr' & -> & A1 & A2 & A3 & G1); auto. cbn [bind].
  destruct (rotate_ok (s_cart st) (pad dims) xi yi zi S) as (xi' & yi' & zi' & -> & B1 & B2 & B3 & G2); auto. cbn [bind].
  cbn [foldM fst snd].
  destruct (convert_complex Rin st junk dims "x.r" "x.i" xr' xi' m F D A1 B1 Hm T) as (ox & oxi & m1 & E1 & K1 & X1 & X2 & Gx). rewrite E1. cbn [bind fst snd app].
  destruct (convert_complex Rin st junk dims "y.r" "y.i" yr' yi' m1 F D A2 B2 K1 T) as (oy & oyi & m2 & E2 & K2 & Y1 & Y2 & Gy). rewrite E2. cbn [bind fst snd app].
  destruct (convert_complex Rin st junk dims "z.r" "z.i" zr' zi' m2 F D A3 B3 K2 T) as (oz & ozi & m3 & E3 & K3 & Z1 & Z2 & Gz). rewrite E3. cbn [bind fst snd app].
  eexists _, m3. split; [reflexivity|]. split; [exact K3|].
  exists ox, oxi, oy, oyi, oz, ozi, xr', xi', yr', yi', zr', zi'. split; [reflexivity|]. split; [exact G1|]. split; [exact G2|].
  repeat constructor; cbn [fst snd]; assumption.
Qed.

(** ** All results are values or deliberate stops *)
Definition ends {A} (P : A -> Prop) (x : outcome A) : Prop := match x with Val a => P a | Abort => True | _ => False end.
Lemma ends_bind {A B} (P : A -> Prop) (Q : B -> Prop) x (k : A -> outcome B) : ends P x -> (forall a, P a -> ends Q (k a)) -> ends Q (bind x k).
Proof. destruct x; cbn; auto; contradiction. Qed.
Lemma ends_foldM {T X} (step : T -> X -> outcome X) (P : X -> Prop) l s : P s -> (forall t s, In t l -> P s -> ends P (step t s)) -> ends P (foldM step l s).
Proof.
  revert s; induction l as [|t l IH]; intros s Hs H; cbn [foldM]; [exact Hs|]. apply (ends_bind P); [apply H; [left; reflexivity|exact Hs]|].
  intros a Ha. apply IH; [exact Ha|]. intros; apply H; [right; assumption|assumption].
Qed.
Definition good (w : list (string * dset) * memo) : Prop := memo_ok (snd w).
Lemma handle_ends st junk f nr ni m : (forall nam d, f nam = Some d -> dset_ok d) -> memo_ok m -> ends good (handle_dataset st junk f nr ni m).
Proof.
  intros H Hm. unfold handle_dataset. destruct (f nr) as [d|] eqn:E; [|exact Hm].
  destruct (H nr d E) as [D A]. rewrite (read_ok 3 d D) by (destruct D as [[_ L] _]; lia). cbn [bind].
  assert (G : forall im, match im with Some (_, d_im) => array (pad (fst d)) d_im | None => True end -> ends good (convert st junk (Z.of_nat (length (fst d))) (pad (fst d)) nr (snd d) im m)).
  { intros im B. destruct (convert_any st junk (fst d) nr (snd d) im m D A B Hm) as (w & m' & -> & Hm'). exact Hm'. }
  destruct ni as [ni|]; [|apply (G None); exact I]. destruct (f ni) as [d'|] eqn:E'; [|exact Hm].
  destruct (H ni d' E') as [D' A']. unfold read_dataset.
  assert (L : 0 < Z.of_nat (length (fst d))) by (destruct D as [[L _] _]; lia). destruct (Z.ltb_spec 0 (Z.of_nat (length (fst d)))); [|lia]. cbn [check bind].
  rewrite Z.geb_leb. destruct (Z.leb_spec (Z.of_nat (length (fst d'))) (Z.of_nat (length (fst d)))); [|exact I]. cbn [check bind].
  assert (P' : pad (fst d') = (nth 0 (fst d') 1, nth 1 (fst d') 1, nth 2 (fst d') 1)) by reflexivity. rewrite P' in A'.
  destruct (pad (fst d)) as [[b0 b1] b2] eqn:P. revert P' A'. generalize (nth 0 (fst d') 1), (nth 1 (fst d') 1), (nth 2 (fst d') 1). intros a0 a1 a2 P' A'.
  destruct ((a0 =? b0) && (a1 =? b1) && (a2 =? b2)) eqn:Q; [|exact I]. cbn [check bind]. rewrite !andb_true_iff, !Z.eqb_eq in Q. destruct Q as ((-> & ->) & ->).
  (* the second rank may be smaller; the sizes agree *)
  assert (R : exists dims, dims_ok dims /\ Z.of_nat (length dims) = Z.of_nat (length (fst d')) /\ pad dims = (b0, b1, b2)) by (exists (fst d'); auto).
  destruct R as (dims & Dd & Ld & Pd). rewrite <- Ld, <- Pd.
  destruct (convert_any st junk dims nr (snd d) (Some (ni, snd d')) m Dd) as (w & m' & -> & Hm').
  - unfold array in *. rewrite Pd. exact A.
  - unfold array in *. rewrite Pd. exact A'.
  - exact Hm.
  - exact Hm'.
Qed.
Lemma cvector_ends st junk f m : (forall nam d, f nam = Some d -> dset_ok d) -> memo_ok m -> ends good (handle_cvector_dataset st junk f m).
Proof.
  intros H Hm. unfold handle_cvector_dataset.
  destruct (six_cases f (fun nam d _ => H nam d)) as [E|(dims & l & E & D & Fa)]; rewrite E; cbn [bind].
  - apply ends_foldM; [exact Hm|]. intros [[nr ni] n] [w m0] _ Hm0. cbn [snd fst].
    apply (ends_bind good); [apply handle_ends; assumption|]. intros [w1 m1] Hm1. apply (ends_bind good); [apply handle_ends; assumption|]. intros [w2 m2] Hm2. exact Hm2.
  - unfold six_names in Fa. repeat match goal with H : Forall2 _ (_ :: _) _ |- _ => inversion H; clear H; subst end. match goal with H : Forall2 _ [] _ |- _ => inversion H; clear H; subst end.
    repeat match goal with H : _ /\ _ |- _ => destruct H end. cbn [map].
    destruct (dims_cases dims D) as (_ & _ & _ & _ & S & _). destruct (vol_pad dims D) as (n0 & n1 & n2 & Pd & V). rewrite Pd. cbn [fst snd]. rewrite V. rewrite <- Pd.
    match goal with |- context [rotate ?c ?v ?x ?y ?z] => destruct (rotate_ok c (pad dims) x y z S) as (xr' & yr' & zr' & -> & A1 & A2 & A3 & _); auto end. cbn [bind].
    match goal with |- context [rotate ?c ?v ?x ?y ?z] => destruct (rotate_ok c (pad dims) x y z S) as (xi' & yi' & zi' & -> & B1 & B2 & B3 & _); auto end. cbn [bind].
    apply ends_foldM; [exact Hm|]. intros [[[nr ni] r] i] [w m0] In0 Hm0. cbn [snd fst].
    assert (A : array (pad dims) r /\ array (pad dims) i). { destruct In0 as [E0|[E0|[E0|[]]]]; injection E0; intros; subst; split; assumption. }
    destruct (convert_any st junk dims nr r (Some (ni, i)) m0 D (proj1 A) (proj2 A) Hm0) as (w1 & m1 & -> & Hm1). exact Hm1.
Qed.
Lemma file_ends o junk lattice bloch copies f dn m st : prepare o lattice bloch copies = Val st -> (forall nam d, f nam = Some d -> dset_ok d) -> memo_ok m ->
  ends good (handle_file o junk lattice bloch copies f dn m).
Proof.
  intros E H Hm. unfold handle_file. rewrite E. cbn [bind]. apply (ends_bind good).
  - apply ends_foldM; [exact Hm|]. intros d [w m0] _ Hm0. cbn [snd fst].
    apply (ends_bind good); [apply handle_ends; assumption|]. intros [w1 m1] Hm1. apply (ends_bind good); [apply handle_ends; assumption|]. intros [w2 m2] Hm2. exact Hm2.
  - intros [w m1] Hm1. apply (ends_bind good); [apply cvector_ends; assumption|]. intros [w2 m2] Hm2. exact Hm2.
Qed.

(** ** Without options: the same datasets again *)
Section Plain.
Variables (Rin : m33) (st : setting) (junk : Z -> R) (f : datasets).
Hypothesis (Pl : plain Rin st) (Sm : s_same st = false) (Hc : s_cart st = ((1, 0, 0), (0, 1, 0), (0, 0, 1))%R).
Hypothesis (Ok : forall nam d, f nam = Some d -> dset_ok d).
Definition sound (w : list (string * dset)) : Prop := forall nam d, In (nam, d) w -> f nam = Some d.
Definition has_real (w : list (string * dset)) (nam : string) : Prop := forall d, f nam = Some d -> In (nam, d) w.
Definition has_pair (w : list (string * dset)) (nr ni : string) : Prop := forall d d', f nr = Some d -> f ni = Some d' -> In (nr, d) w /\ In (ni, d') w.
Lemma nn nam : new_name st nam = nam.
Proof. unfold new_name. rewrite Sm. reflexivity. Qed.
Lemma sound_app w w' : sound w -> sound w' -> sound (w ++ w').
Proof. intros A B nam d I. apply in_app_iff in I. destruct I; auto. Qed.
Lemma real_mono w w' nam : has_real w nam -> has_real (w ++ w') nam.
Proof. intros H d E. apply in_app_iff. left. apply H; exact E. Qed.
Lemma pair_mono w w' nr ni : has_pair w nr ni -> has_pair (w ++ w') nr ni.
Proof. intros H d d' E E'. rewrite !in_app_iff. destruct (H d d' E E'). auto. Qed.
Lemma plain_handle_real nr m : memo_ok m -> exists w, handle_dataset st junk f nr None m = Val (w, m) /\ sound w /\ has_real w nr.
Proof.
  intros Hm. destruct (f nr) as [[dims d]|] eqn:E.
  - destruct (Ok nr _ E) as [D A]. cbn [fst snd] in *. rewrite (handle_real st junk f nr dims d m E D). rewrite (plain_real Rin st junk dims nr d m Pl D A).
    rewrite nn. eexists. split; [reflexivity|]. split.
    + intros nam d0 [I|[]]. injection I as <- <-. exact E.
    + intros d0 E0. rewrite E in E0. injection E0 as <-. left. reflexivity.
  - exists []. split; [unfold handle_dataset; rewrite E; reflexivity|]. split; [intros ? ? []|]. intros d E0. rewrite E in E0. discriminate.
Qed.
Lemma plain_handle_pair nr ni m : memo_ok m -> (forall d d', f nr = Some d -> f ni = Some d' -> fst d = fst d') ->
  exists w m', handle_dataset st junk f nr (Some ni) m = Val (w, m') /\ memo_ok m' /\ sound w /\ has_pair w nr ni.
Proof.
  intros Hm Mt. destruct (f nr) as [[dims d]|] eqn:E.
  - destruct (Ok nr _ E) as [D A]. destruct (f ni) as [[dims' d']|] eqn:E'.
    + pose proof (Mt _ _ eq_refl eq_refl) as Q. cbn [fst snd] in *. subst dims'. destruct (Ok ni _ E') as [_ A']. cbn [fst snd] in *.
      rewrite (handle_complex st junk f nr ni dims d d' m E E' D). destruct (plain_complex Rin st junk dims nr ni d d' m Pl D A A' Hm) as (m' & -> & Hm'). rewrite !nn.
      eexists _, m'. split; [reflexivity|]. split; [exact Hm'|]. split.
      * intros nam d0 [I|[I|[]]]; injection I as <- <-; assumption.
      * intros d0 d1 E0 E1. rewrite E in E0. rewrite E' in E1. injection E0 as <-. injection E1 as <-. split; [left; reflexivity|right; left; reflexivity].
    + exists [], m. split; [unfold handle_dataset; rewrite E; rewrite (read_ok 3 (dims, d) D) by (destruct D as [[_ L] _]; cbn in *; lia); cbn [bind]; rewrite E'; reflexivity|].
      split; [exact Hm|]. split; [intros ? ? []|]. intros d0 d1 _ E1. rewrite E' in E1. discriminate.
  - exists [], m. split; [unfold handle_dataset; rewrite E; reflexivity|]. split; [exact Hm|]. split; [intros ? ? []|]. intros d0 d1 E0. rewrite E in E0. discriminate.
Qed.
Lemma plain_cvector m : memo_ok m -> matched f "x" -> matched f "y" -> matched f "z" ->
  exists w m', handle_cvector_dataset st junk f m = Val (w, m') /\ memo_ok m' /\ sound w /\ has_pair w "x.r" "x.i" /\ has_pair w "y.r" "y.i" /\ has_pair w "z.r" "z.i".
Proof.
  intros Hm Mx My Mz. unfold handle_cvector_dataset.
  destruct (six_cases f (fun nam d _ => Ok nam d)) as [E|(dims & l & E & D & Fa)]; rewrite E; cbn [bind].
  - cbn [foldM fst snd].
    destruct (plain_handle_pair "x.r" "x.i" m Hm Mx) as (w1 & m1 & -> & H1 & S1 & P1). cbn [bind].
    destruct (plain_handle_real "x" m1 H1) as (w2 & -> & S2 & _). cbn [bind fst snd app].
    destruct (plain_handle_pair "y.r" "y.i" m1 H1 My) as (w3 & m3 & -> & H3 & S3 & P3). cbn [bind].
    destruct (plain_handle_real "y" m3 H3) as (w4 & -> & S4 & _). cbn [bind fst snd].
    destruct (plain_handle_pair "z.r" "z.i" m3 H3 Mz) as (w5 & m5 & -> & H5 & S5 & P5). cbn [bind].
    destruct (plain_handle_real "z" m5 H5) as (w6 & -> & S6 & _). cbn [bind fst snd].
    eexists _, m5. split; [reflexivity|]. split; [exact H5|]. split; [repeat apply sound_app; assumption|].
    assert (R : forall w a nr ni, has_pair a nr ni -> has_pair (w ++ a) nr ni). { intros w a nr ni P d d' E1 E2. rewrite !in_app_iff. destruct (P d d' E1 E2). auto. }
    split; [|split].
    + apply pair_mono, pair_mono, pair_mono, P1.
    + apply pair_mono, R, pair_mono, P3.
    + apply R, pair_mono, P5.
  - unfold six_names in Fa. repeat match goal with H : Forall2 _ (_ :: _) _ |- _ => inversion H; clear H; subst end. match goal with H : Forall2 _ [] _ |- _ => inversion H; clear H; subst end.
    repeat match goal with H : _ /\ _ |- _ => destruct H end. cbn [map].
    destruct (dims_cases dims D) as (_ & _ & _ & _ & S & _). destruct (vol_pad dims D) as (n0 & n1 & n2 & Pd & V). rewrite Pd. cbn [fst snd]. rewrite V. rewrite <- Pd.
    rewrite Hc. rewrite rotate_one by assumption. cbn [bind]. rewrite rotate_one by assumption. cbn [bind]. cbn [foldM fst snd].
    match goal with |- context [convert st junk _ (pad dims) ?nr ?r (Some (?ni, ?i)) m] => destruct (plain_complex Rin st junk dims nr ni r i m Pl D) as (m1 & -> & H1'); auto end. cbn [bind fst snd app].
    match goal with |- context [convert st junk _ (pad dims) ?nr ?r (Some (?ni, ?i)) m1] => destruct (plain_complex Rin st junk dims nr ni r i m1 Pl D) as (m2 & -> & H2'); auto end. cbn [bind fst snd app].
    match goal with |- context [convert st junk _ (pad dims) ?nr ?r (Some (?ni, ?i)) m2] => destruct (plain_complex Rin st junk dims nr ni r i m2 Pl D) as (m3 & -> & H3'); auto end. cbn [bind fst snd app].
    rewrite !nn. eexists _, m3. split; [reflexivity|]. split; [exact H3'|]. split.
    + intros nam d0 I. repeat (destruct I as [I|I]; [injection I as <- <-; assumption|]). destruct I.
    + split; [|split]; intros dd dd' Ea Eb; repeat match goal with H1 : f ?n = Some ?a, H2 : f ?n = Some ?b |- _ => lazymatch a with b => fail | _ => rewrite H1 in H2; injection H2 as H2; try subst b; try subst a end end; cbn [In]; auto 10.
Qed.
End Plain.
