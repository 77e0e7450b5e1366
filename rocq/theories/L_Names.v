(** Proofs about file names. *)
From Coq Require Import String List ZArith Bool Ascii Lia.
From Verif Require Import Base M_Names.
Import ListNotations.
Local Open Scope Z_scope.

Lemma starts_spec pat s : starts pat s = true <-> exists t, s = pat ++ t.
Proof.
  revert s; induction pat as [|a p IH]; intros s; cbn.
  - split; [intros _; exists s; reflexivity|reflexivity].
  - destruct s as [|b t].
    + split; [discriminate|intros (t & H); discriminate].
    + rewrite andb_true_iff, IH. split.
      * intros (H & t' & ->). apply Ascii.eqb_eq in H. subst. exists t'. reflexivity.
      * intros (t' & H). injection H as -> ->. split; [apply Ascii.eqb_refl|]. exists t'. reflexivity.
Qed.

(** Occurrence of [pat] at offset [o]. *)
Definition occurs (pat s : str) (o : Z) : Prop := exists u t, s = u ++ pat ++ t /\ Z.of_nat (length u) = o.

Lemma strstr_some s pat o : strstr s pat = Some o -> occurs pat s o /\ forall o', occurs pat s o' -> o <= o'.
Proof.
  revert o; induction s as [|a s IH]; intros o; cbn [strstr].
  - destruct (starts pat []) eqn:E; [|discriminate]. intros H. injection H as <-.
    apply starts_spec in E. destruct E as (t & E). split; [exists [], t; split; [exact E|reflexivity]|].
    intros o' (u & t' & _ & <-). lia.
  - destruct (starts pat (a :: s)) eqn:E.
    + intros H. injection H as <-. apply starts_spec in E. destruct E as (t & E).
      split; [exists [], t; split; [exact E|reflexivity]|]. intros o' (u & t' & _ & <-). lia.
    + destruct (strstr s pat) as [o1|] eqn:E1; [|discriminate]. cbn. intros H. injection H as <-.
      destruct (IH o1 eq_refl) as ((u & t & -> & Hu) & Hmin). split.
      * exists (a :: u), t. split; [reflexivity|]. cbn [length]. lia.
      * intros o' (u' & t' & H' & <-). destruct u' as [|b u'].
        { exfalso. cbn in H'. assert (starts pat (a :: u ++ pat ++ t) = true) by (apply starts_spec; exists t'; exact H'). congruence. }
        injection H' as -> H'. assert (o1 <= Z.of_nat (length u')) by (apply Hmin; exists u', t'; auto). cbn [length]. lia.
Qed.
Lemma strstr_none s pat : strstr s pat = None -> forall o, ~ occurs pat s o.
Proof.
  induction s as [|a s IH]; cbn [strstr].
  - destruct (starts pat []) eqn:E; [discriminate|]. intros _ o (u & t & H & _).
    destruct u; [|discriminate]. cbn in H. assert (starts pat [] = true) by (apply starts_spec; exists t; exact H). congruence.
  - destruct (starts pat (a :: s)) eqn:E; [discriminate|]. destruct (strstr s pat) eqn:E1; [discriminate|].
    intros _ o (u & t & H & _). destruct u as [|b u].
    + assert (starts pat (a :: s) = true) by (apply starts_spec; exists t; exact H). congruence.
    + injection H as -> H. apply (IH eq_refl (Z.of_nat (length u))). exists u, t. auto.
Qed.

Lemma add_value s : add_fname_suffix s = Val s \/ add_fname_suffix s = Val (s ++ suffix).
Proof.
  unfold add_fname_suffix, strcpy, strcat. change (len suffix) with 3.
  destruct (Z.leb_spec (len s + 1) (len s + 3 + 1)); [|lia]. cbn [bind].
  destruct (negb _); [right|left; reflexivity]. destruct (Z.leb_spec (len s + 3 + 1) (len s + 3 + 1)); [reflexivity|lia].
Qed.

Lemma app_inj_len {A} (u u' t t' : list A) : u ++ t = u' ++ t' -> length t = length t' -> u = u' /\ t = t'.
Proof.
  intros H L. assert (L' : length u = length u') by (apply (f_equal (@length A)) in H; rewrite !app_length in H; lia).
  revert u' H L'; induction u as [|a u IH]; intros [|b u'] H L'; cbn in *; try discriminate; [auto|].
  injection H as -> H. destruct (IH u' H) as (-> & ->); [lia|auto].
Qed.

Lemma add_kept s : add_fname_suffix s = Val s ->
  exists p, s = p ++ suffix /\ forall o, occurs suffix s o -> o = Z.of_nat (length p).
Proof.
  unfold add_fname_suffix, strcpy, strcat. change (len suffix) with 3.
  destruct (Z.leb_spec (len s + 1) (len s + 3 + 1)); [|lia]. cbn [bind].
  destruct (strstr s suffix) as [o|] eqn:E.
  - destruct (Z.eqb_spec o (len s - 3)) as [->|Hne]; cbn [negb].
    + intros _. apply strstr_some in E. destruct E as ((u & t & Hs & Hu) & Hmin).
      assert (t = []).
      { apply length_zero_iff_nil. apply (f_equal (@length ascii)) in Hs. rewrite !app_length in Hs.
        change (length suffix) with 3%nat in Hs. unfold len in *. lia. }
      subst t. rewrite app_nil_r in Hs. exists u. split; [exact Hs|].
      intros o' Ho'. pose proof (Hmin o' Ho'). destruct Ho' as (u' & t' & H' & <-).
      apply (f_equal (@length ascii)) in H'. rewrite !app_length in H'. change (length suffix) with 3%nat in H'.
      unfold len in *. lia.
    + destruct (Z.leb_spec (len s + 3 + 1) (len s + 3 + 1)); [|lia]. intros H1. injection H1 as H1.
      exfalso. apply (f_equal (@length ascii)) in H1. rewrite app_length in H1. change (length suffix) with 3%nat in H1. lia.
  - cbn [negb]. destruct (Z.leb_spec (len s + 3 + 1) (len s + 3 + 1)); [|lia]. intros H1. injection H1 as H1.
    exfalso. apply (f_equal (@length ascii)) in H1. rewrite app_length in H1. change (length suffix) with 3%nat in H1. lia.
Qed.

Lemma add_keeps p : (forall o, occurs suffix (p ++ suffix) o -> o = Z.of_nat (length p)) ->
  add_fname_suffix (p ++ suffix) = Val (p ++ suffix).
Proof.
  intros H. unfold add_fname_suffix, strcpy. change (len suffix) with 3.
  destruct (Z.leb_spec (len (p ++ suffix) + 1) (len (p ++ suffix) + 3 + 1)); [|lia]. cbn [bind].
  destruct (strstr (p ++ suffix) suffix) as [o|] eqn:E.
  - apply strstr_some in E. destruct E as (Ho & _). rewrite (H o Ho). unfold len. rewrite app_length.
    change (length suffix) with 3%nat. destruct (Z.eqb_spec (Z.of_nat (length p)) (Z.of_nat (length p + 3) - 3)); [reflexivity|lia].
  - exfalso. apply (strstr_none _ _ E (Z.of_nat (length p))). exists p, []. rewrite app_nil_r. auto.
Qed.

(** An occurrence in [p ++ ".h5"] is the last one or lies inside [p]. *)
Lemma occurs_app p o : occurs suffix (p ++ suffix) o -> o = Z.of_nat (length p) \/ occurs suffix p o.
Proof.
  intros (u & t & H & <-). destruct (le_lt_dec 3 (length t)) as [Ht|Ht].
  - right. exists u. destruct (@exists_last ascii t) as (t1 & c1 & ->). { destruct t; [cbn in Ht; lia|discriminate]. }
    rewrite app_length in Ht; cbn in Ht.
    destruct (@exists_last ascii t1) as (t2 & c2 & ->). { destruct t1; [cbn in Ht; lia|discriminate]. }
    rewrite app_length in Ht; cbn in Ht.
    destruct (@exists_last ascii t2) as (t3 & c3 & ->). { destruct t2; [cbn in Ht; lia|discriminate]. }
    exists t3. split; [|reflexivity].
    assert (H' : p ++ suffix = (u ++ suffix ++ t3) ++ [c3; c2; c1]).
    { rewrite H. rewrite <- !app_assoc. reflexivity. }
    apply app_inj_len in H'; [|reflexivity]. apply H'.
  - left. unfold suffix in *. cbn [list_ascii_of_string] in *.
    destruct t as [|t1 [|t2 [|t3 t]]]; cbn in Ht; try lia.
    + rewrite app_nil_r in H. apply app_inj_len in H; [|reflexivity]. destruct H as (-> & _). reflexivity.
    + exfalso. match type of H with p ++ [?x;?y;?z] = u ++ [_;_;_] ++ [t1] => 
        assert (H' : (p ++ [x]) ++ [y; z] = (u ++ [x; y]) ++ [z; t1]) by (rewrite <- !app_assoc; exact H) end.
      apply app_inj_len in H'; [|reflexivity]. destruct H' as (_ & H'). discriminate.
    + exfalso. match type of H with p ++ [?x;?y;?z] = u ++ [_;_;_] ++ [t1; t2] => 
        assert (H' : p ++ [x; y; z] = (u ++ [x; y]) ++ [z; t1; t2]) by (rewrite <- !app_assoc; exact H) end.
      apply app_inj_len in H'; [|reflexivity]. destruct H' as (_ & H'). discriminate.
Qed.

Lemma add_plain s : (forall o, ~ occurs suffix s o) ->
  add_fname_suffix s = Val (s ++ suffix) /\ add_fname_suffix (s ++ suffix) = Val (s ++ suffix).
Proof.
  intros H. split.
  - destruct (add_value s) as [E|E]; [|exact E]. exfalso. destruct (add_kept s E) as (p & -> & _).
    apply (H (Z.of_nat (length p))). exists p, []. rewrite app_nil_r. auto.
  - apply add_keeps. intros o Ho. destruct (occurs_app s o Ho) as [E|E]; [exact E|]. exfalso. exact (H o E).
Qed.

Lemma add_ends s r : add_fname_suffix s = Val r -> exists p, r = p ++ suffix.
Proof.
  intros H. destruct (add_value s) as [E|E].
  - rewrite E in H. injection H as <-. destruct (add_kept s E) as (p & Hp & _). exists p. exact Hp.
  - rewrite E in H. injection H as <-. exists s. reflexivity.
Qed.

Lemma strchr_some s c o : strchr s c = Some o -> exists u t, s = u ++ c :: t /\ ~ In c u /\ Z.of_nat (length u) = o.
Proof.
  revert o; induction s as [|a s IH]; intros o; cbn; [discriminate|].
  destruct (Ascii.eqb_spec a c) as [->|Hne].
  - intros H. injection H as <-. exists [], s. auto.
  - destruct (strchr s c) as [o1|]; [|discriminate]. cbn. intros H. injection H as <-.
    destruct (IH o1 eq_refl) as (u & t & -> & Hu & Hl). exists (a :: u), t. split; [reflexivity|]. split.
    + intros [E|E]; auto.
    + cbn [length]. lia.
Qed.
Lemma strchr_none s c : strchr s c = None -> ~ In c s.
Proof.
  induction s as [|a s IH]; cbn; [auto|]. destruct (Ascii.eqb_spec a c) as [->|Hne]; [discriminate|].
  destruct (strchr s c); [discriminate|]. intros _ [E|E]; auto. exact (IH eq_refl E).
Qed.

Lemma split_colon f d : ~ In colon f -> split_fname (f ++ colon :: d) = Val (f, d).
Proof.
  intros Hf. unfold split_fname. destruct (strchr (f ++ colon :: d) colon) as [o|] eqn:E.
  - apply strchr_some in E. destruct E as (u & t & H & Hu & Ho).
    assert (u = f /\ t = d) as (-> & ->).
    { clear Ho. revert f Hf H. induction u as [|a u IH]; intros [|b f] Hf H; cbn in H.
      - injection H as ->. auto.
      - injection H as -> H. exfalso. apply Hf. left. reflexivity.
      - injection H as <- H. exfalso. apply Hu. left. reflexivity.
      - injection H as -> H. destruct (IH (fun h => Hu (or_intror h)) f (fun h => Hf (or_intror h)) H) as (-> & ->). auto. }
    unfold strncpy_cut, len. rewrite app_length. cbn [length]. subst o.
    replace (Z.of_nat (length f + S (length d)) - (Z.of_nat (length f + S (length d)) - Z.of_nat (length f))) with (Z.of_nat (length f)) by lia.
    destruct (Z.leb_spec (Z.of_nat (length f) + 1) (Z.of_nat (length f) + 1)); [|lia].
    destruct (Z.leb_spec 0 (Z.of_nat (length f))); [|lia]. destruct (Z.ltb_spec (Z.of_nat (length f)) (Z.of_nat (length f) + 1)); [|lia].
    cbn [andb bind]. rewrite Nat2Z.id, firstn_app, firstn_all, Nat.sub_diag. cbn [firstn]. rewrite app_nil_r.
    do 2 f_equal. replace (Z.to_nat (Z.of_nat (length f) + 1)) with (length (f ++ [colon])) by (rewrite app_length; cbn; lia).
    change (colon :: d) with ([colon] ++ d). rewrite app_assoc. rewrite skipn_app, skipn_all, Nat.sub_diag. reflexivity.
  - exfalso. apply (strchr_none _ _ E). apply in_or_app. right. left. reflexivity.
Qed.

Lemma split_plain f : ~ In colon f -> split_fname f = Val (f, []).
Proof.
  intros Hf. unfold split_fname. destruct (strchr f colon) as [o|] eqn:E.
  - exfalso. apply strchr_some in E. destruct E as (u & t & -> & _). apply Hf. apply in_or_app. right. left. reflexivity.
  - unfold strcpy. destruct (Z.leb_spec (len f + 1) (len f + 1)); [|lia]. cbn [bind]. unfold len. rewrite Nat2Z.id, skipn_all. reflexivity.
Qed.

Lemma split_any s : exists f d, split_fname s = Val (f, d) /\ ~ In colon f /\
  (s = f ++ colon :: d \/ (s = f /\ d = [] /\ ~ In colon s)).
Proof.
  destruct (strchr s colon) as [o|] eqn:E.
  - apply strchr_some in E. destruct E as (u & t & -> & Hu & _). exists u, t. split; [apply split_colon; exact Hu|]. auto.
  - apply strchr_none in E. exists s, []. split; [apply split_plain; exact E|]. auto.
Qed.

Lemma app_inj_front {A} (u u' t t' : list A) : u ++ t = u' ++ t' -> length u = length u' -> u = u' /\ t = t'.
Proof.
  intros H L. apply app_inj_len; [exact H|]. apply (f_equal (@length A)) in H. rewrite !app_length in H. lia.
Qed.

Lemma kept_iff s : add_fname_suffix s = Val s <->
  exists p, s = p ++ suffix /\ forall u t, s = u ++ suffix ++ t -> u = p.
Proof.
  split.
  - intros H. destruct (add_kept s H) as (p & -> & Ho). exists p. split; [reflexivity|].
    intros u t E. assert (L : Z.of_nat (length u) = Z.of_nat (length p)) by (apply Ho; exists u, t; auto).
    apply app_inj_front in E; [|lia]. symmetry. apply E.
  - intros (p & -> & H). apply add_keeps. intros o (u & t & E & <-). rewrite (H u t E). reflexivity.
Qed.
