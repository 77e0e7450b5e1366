(** Run-level statements about band ranges and gaps. *)
From Coq Require Import Reals Lra Lia List Bool ZArith Sorted.
From Verif Require Import Base RC M_Scheme S_Scheme L_Scheme.
Import ListNotations.
Local Open Scope R_scope.

Section S.
Context {K : Type}.

Lemma gaps_indexed (cur : @brange K) rest :
  (forall p, In p (combine (cur :: rest) rest) -> has_gap p = true -> fst (fst (snd p)) + fst (snd (fst p)) <> 0) ->
  exists is, StronglySorted lt is /\
    Forall2 (gap_between (cur :: rest)) is (map gap_of (filter has_gap (combine (cur :: rest) rest))).
Proof.
  revert cur. induction rest as [|nxt rest IH]; intros cur H.
  - exists []. split; constructor.
  - change (combine (cur :: nxt :: rest) (nxt :: rest)) with ((cur, nxt) :: combine (nxt :: rest) rest) in *.
    destruct (IH nxt (fun p Hp => H p (or_intror Hp))) as (is & Hs & Hf).
    assert (Hs' : StronglySorted lt (map S is)).
    { clear -Hs. induction Hs as [|a l Hs IH Ha]; [constructor|]. cbn. constructor; [exact IH|].
      rewrite Forall_forall in *. intros x Hx. apply in_map_iff in Hx. destruct Hx as (y & <- & Hy).
      specialize (Ha y Hy). lia. }
    assert (Hf' : Forall2 (gap_between (cur :: nxt :: rest)) (map S is)
             (map gap_of (filter has_gap (combine (nxt :: rest) rest)))).
    { clear -Hf. induction Hf as [|i g l l' Hg Hf IH]; [constructor|]. cbn [map]. constructor; [|exact IH]. exact Hg. }
    cbn [filter]. destruct (has_gap (cur, nxt)) eqn:Eg.
    + exists (O :: map S is). split.
      * constructor; [exact Hs'|]. rewrite Forall_forall. intros x Hx. apply in_map_iff in Hx. destruct Hx as (y & <- & _). lia.
      * cbn [map]. constructor; [|exact Hf'].
        pose proof (H (cur, nxt) (or_introl eq_refl) Eg) as Hn. cbn [fst snd] in Hn.
        exists cur, nxt. split; [reflexivity|]. split; [reflexivity|]. cbv zeta. unfold has_gap in Eg. cbn [fst snd] in Eg.
        destruct (Rleb_spec (fst (fst nxt)) (fst (snd cur))); [discriminate|]. split; [lra|].
        unfold gap_of. cbn [fst snd]. rewrite gap_arith by exact Hn. reflexivity.
    + exists (map S is). split; [exact Hs'|exact Hf'].
Qed.

Lemma output_gaps_indexed (brd : list (@brange K)) gaps : output_gaps brd = Val gaps ->
  exists is, StronglySorted lt is /\ Forall2 (gap_between brd) is gaps.
Proof.
  intros H. unfold output_gaps in H. destruct brd as [|b r].
  - injection H as <-. exists []. split; constructor.
  - pose proof (ogaps_nz _ _ _ _ H) as Hnz. rewrite ogaps_spec in H by exact Hnz. injection H as <-. cbn [rev app].
    apply gaps_indexed. exact Hnz.
Qed.

Variable solve : K -> list R.
Variables (kps : list K) (num idx nb : Z) (st : run_state K).
Let ks := snd (list_split kps num idx).

Lemma runs_finite : (forall k f, In k ks -> In f (solve k) -> Rabs f < infinity) ->
  finite_runs (map (fun k => (k, solve k)) ks).
Proof.
  intros H k fs f Hi Hf. apply in_map_iff in Hi. destruct Hi as (k' & [= -> <-] & Hk). eauto.
Qed.

Lemma run_ranges st' : (0 < nb)%Z -> run_parity solve kps num idx nb st = Val st' ->
  (forall k f, In k ks -> In f (solve k) -> Rabs f < infinity) ->
  forall b, match nth_error (st_brd st') b with
            | Some br => is_range (band_vals b (map (fun k => (k, solve k)) ks)) br
            | None => band_vals b (map (fun k => (k, solve k)) ks) = []
            end.
Proof.
  intros Hnb Hr Hf. destruct (run_parity_spec _ _ _ _ _ _ _ Hnb Hr) as (_ & E & _). fold ks in E. rewrite E.
  intros b. exact (all_updates_inv _ (runs_finite Hf) b).
Qed.

Lemma run_gaps st' : (0 < nb)%Z -> run_parity solve kps num idx nb st = Val st' ->
  (1 < length ks)%nat ->
  (exists is, StronglySorted lt is /\ Forall2 (gap_between (st_brd st')) is (st_gaps st')) /\
  forall g, In g (st_gaps st') <-> exists i, gap_between (st_brd st') i g.
Proof.
  intros Hnb Hr Hl. destruct (run_parity_spec _ _ _ _ _ _ _ Hnb Hr) as (_ & _ & E & _). fold ks in E.
  specialize (E Hl). split; [apply output_gaps_indexed; exact E|apply output_gaps_iff; exact E].
Qed.

Lemma run_total : 
  (forall k f, In k ks -> In f (solve k) -> 0 <= f < infinity) ->
  exists st', run_parity solve kps num idx nb st = Val st'.
Proof.
  intros Hf. unfold run_parity. destruct (Z.ltb_spec 0 nb); [|eexists; reflexivity].
  fold ks. rewrite run_fold. fold (all_updates (map (fun k => (k, solve k)) ks)).
  destruct (Z.ltb_spec 1 (Z.of_nat (length ks))); [|eexists; reflexivity].
  set (brd := all_updates _).
  destruct (output_gaps_total brd) as (g & ->); [|eexists; reflexivity].
  intros br Hin. apply In_nth_error in Hin. destruct Hin as (b & Hb).
  assert (Hfin : finite_runs (map (fun k => (k, solve k)) ks)).
  { apply runs_finite. intros k f Hk Hi. destruct (Hf k f Hk Hi). rewrite Rabs_pos_eq; assumption. }
  pose proof (all_updates_inv _ Hfin b) as Hi. fold brd in Hi. rewrite Hb in Hi.
  destruct Hi as (k1 & k2 & _ & _ & H2 & _).
  unfold band_vals in H2. apply in_flat_map in H2. destruct H2 as ([k fs] & Hk & Hx). cbn [fst snd] in Hx.
  apply in_map_iff in Hk. destruct Hk as (k' & [= -> <-] & Hk).
  destruct (nth_error (solve k) b) as [f|] eqn:Ef; [|destruct Hx]. destruct Hx as [[= _ <-]|[]].
  apply (Hf k f Hk). eapply nth_error_In. exact Ef.
Qed.
End S.

Lemma run_freqs : forall K (solve : K -> list R) kps num idx nb st st',
  (0 < nb)%Z -> run_parity solve kps num idx nb st = Val st' ->
  st_freqs st' = map solve (snd (list_split kps num idx)) /\
  ((length (snd (list_split kps num idx)) <= 1)%nat -> st_gaps st' = []).
Proof.
  intros K solve kps num idx nb st st' Hnb Hr.
  destruct (run_parity_spec _ _ _ _ _ _ _ Hnb Hr) as (E & _ & _ & E2). split; assumption.
Qed.
