(** Proofs about the band functions of a run. *)
From Coq Require Import Reals Lra List ZArith Bool Lia.
From Verif Require Import Base RC M_Scheme L_Scheme L_Scheme2 L_Scheme3 M_Band S_Band.
Import ListNotations.
Local Open Scope R_scope.

Section L.
Context {K O F S : Type}.
Notation bf := (bfun K O).

(** Induction over procedures. *)
Lemma bfun_ind' (P : bf -> Prop) :
  (forall n, P (Thunk n)) -> (forall n, P (Band n)) -> P Randomize ->
  (forall g e o, P g -> P (InObjects g e o)) ->
  (forall fs, (forall g, In g fs -> P g) -> P (Combine fs)) ->
  (forall q fs, (forall g, In g fs -> P g) -> P (AtKpoint q fs)) ->
  forall g, P g.
Proof.
  intros H1 H2 H3 H4 H5 H6. fix IH 1. intros [n|n| |g e o|fs|q fs].
  - apply H1.
  - apply H2.
  - exact H3.
  - apply H4, IH.
  - apply H5. induction fs as [|a fs IHf]; cbn; [intros g []|]. intros g [<-|Hg]; [apply IH|exact (IHf g Hg)].
  - apply H6. induction fs as [|a fs IHf]; cbn; [intros g []|]. intros g [<-|Hg]; [apply IH|exact (IHf g Hg)].
Qed.

(** The list of requests holds what is due. *)
Lemma requested_due near en k b (g : bf) : forall c, In c (requested near en k b g) <-> due near en k b g c.
Proof.
  induction g as [n|n| |g e o IH|fs IH|q fs IH] using bfun_ind'; intros c; cbn.
  - destruct (Z.eq_dec b 1) as [E|E]; cbn; split.
    + intros [<-|[]]. constructor. exact E.
    + intros H. inversion H. left. reflexivity.
    + intros [].
    + intros H. inversion H. contradiction.
  - split; [intros [<-|[]]; constructor|intros H; inversion H; left; reflexivity].
  - destruct (Z.eq_dec b 1) as [E|E]; cbn; split.
    + intros [<-|[]]. constructor. exact E.
    + intros H. inversion H. left. reflexivity.
    + intros [].
    + intros H. inversion H. contradiction.
  - destruct (Rle_dec e (en o b)) as [E|E]; split.
    + intros [<-|H]; [constructor|apply due_in; [exact E|apply IH, H]].
    + intros H. inversion H; subst; [left; reflexivity|right; apply IH; assumption].
    + intros [<-|[]]. constructor.
    + intros H. inversion H; subst; [left; reflexivity|contradiction].
  - rewrite in_flat_map. split.
    + intros (g & Hg & H). apply (due_comb _ _ _ _ g); [exact Hg|]. apply (IH g Hg), H.
    + intros H. inversion H; subst. exists g. split; [assumption|]. apply IH; assumption.
  - destruct (near k q) eqn:E; [rewrite in_flat_map|]; split.
    + intros (g & Hg & H). apply (due_at _ _ _ _ q g); [exact E|exact Hg|]. apply (IH g Hg), H.
    + intros H. inversion H; subst. exists g. split; [assumption|]. apply IH; assumption.
    + intros [].
    + intros H. inversion H; subst. congruence.
Qed.

Variable x : ext K O F S.

(** A relation between memories that the user's procedures keep and that does not
    change energies. *)
Variable Rm : F -> F -> Prop.
Hypothesis Rrefl : forall f, Rm f f.
Hypothesis Rtrans : forall f g h, Rm f g -> Rm g h -> Rm f h.
Hypothesis Rthunk : forall n f, Rm f (x_thunk x n f).
Hypothesis Rband : forall n b f, Rm f (x_band x n b f).
Hypothesis Ren : forall f g o b, Rm f g -> x_energy x o b g = x_energy x o b f.

Definition step (f0 : F) (cs : list (@call O)) (w w' : world K O F S) : Prop :=
  exists i k tl, w_k w = Some k /\ w_index w = i /\ w_k w' = Some k /\ w_index w' = i /\
    w_log w' = w_log w ++ tl /\ calls_of tl = cs /\ during i k (Rm f0) tl /\ Rm f0 (w_f w').

Lemma step_none f0 w : w_k w <> None -> Rm f0 (w_f w) -> step f0 [] w w.
Proof.
  intros Hk Hf. destruct (w_k w) as [k|] eqn:E; [|congruence].
  exists (w_index w), k, []. rewrite app_nil_r. repeat split; auto. intros e [].
Qed.

Lemma step_app f0 cs ds w w' w'' : step f0 cs w w' -> step f0 ds w' w'' -> step f0 (cs ++ ds) w w''.
Proof.
  intros (i & k & t & A1 & A2 & A3 & A4 & A5 & A6 & A7 & A8) (j & q & u & B1 & B2 & B3 & B4 & B5 & B6 & B7 & B8).
  assert (q = k) by congruence. subst q. rewrite A4 in B2. subst j.
  exists i, k, (t ++ u). split; [exact A1|]. split; [exact A2|]. split; [exact B3|]. split; [exact B4|].
  split; [rewrite B5, A5, app_assoc; reflexivity|]. split; [|split; [|exact B8]].
  - unfold calls_of in *. rewrite flat_map_app. congruence.
  - intros e He. apply in_app_iff in He. destruct He as [He|He]; [exact (A7 e He)|exact (B7 e He)].
Qed.

Lemma step_note f0 c eff w : w_k w <> None -> Rm f0 (w_f w) -> (forall f, Rm f (eff f)) ->
  step f0 [c] w (note c eff w).
Proof.
  intros Hk Hf He. destruct (w_k w) as [k|] eqn:E; [|congruence].
  exists (w_index w), k, [ECall (w_index w) (Some k) (w_f w) c]. unfold note. cbn. rewrite E. repeat split; auto.
  - intros e [<-|[]]. exists (w_f w), c. auto.
  - exact (Rtrans _ _ _ Hf (He (w_f w))).
Qed.

Lemma step_k f0 cs w w' : step f0 cs w w' -> w_k w' = w_k w /\ w_k w' <> None /\ Rm f0 (w_f w') /\ w_index w' = w_index w.
Proof. intros (i & k & t & A1 & A2 & A3 & A4 & A5 & A6 & A7 & A8). repeat split; congruence. Qed.

(** The same over a list. *)
Lemma step_fold {A} f0 (act : world K O F S -> A -> world K O F S) (cs : A -> list (@call O)) l (k : K) :
  (forall a w, In a l -> w_k w = Some k -> Rm f0 (w_f w) -> step f0 (cs a) w (act w a)) ->
  forall w, w_k w = Some k -> Rm f0 (w_f w) -> step f0 (flat_map cs l) w (fold_left act l w).
Proof.
  induction l as [|a l IH]; intros H w Hk Hf.
  - cbn. apply step_none; [congruence|exact Hf].
  - cbn [flat_map fold_left]. pose proof (H a w (or_introl eq_refl) Hk Hf) as H1.
    destruct (step_k _ _ _ _ H1) as (E1 & E2 & E3 & _).
    apply (step_app f0 _ _ _ _ _ H1). apply IH; [|congruence|exact E3].
    intros a' w' Ha. apply H. right. exact Ha.
Qed.

(** apply-band-func makes the calls requested. *)
Lemma apply_step f0 k b (g : bf) : no_rand g -> forall w, w_k w = Some k -> Rm f0 (w_f w) ->
  step f0 (requested (x_near x) (fun o b => x_energy x o b f0) k b g) w (apply_band_func x g b w).
Proof.
  induction g as [n|n| |g e o IH|fs IH|q fs IH] using bfun_ind'; intros Hn w Hk Hf; cbn.
  - destruct (Z.eq_dec b 1) as [->|E]; cbn.
    + apply step_note; [congruence|exact Hf|intros; apply Rthunk].
    + rewrite (proj2 (Z.eqb_neq b 1) E). apply step_none; [congruence|exact Hf].
  - apply step_note; [congruence|exact Hf|intros; apply Rband].
  - inversion Hn.
  - inversion Hn; subst.
    assert (H1 : step f0 [CDpwr b o] w (note (CDpwr b o) (fun f => f) w))
      by (apply step_note; [congruence|exact Hf|exact Rrefl]).
    assert (Eq : x_energy x o b (w_f w) = x_energy x o b f0) by (apply Ren, Hf). rewrite Eq.
    destruct (Rle_dec e (x_energy x o b f0)) as [E|E].
    + destruct (Rleb_spec e (x_energy x o b f0)) as [E'|E']; [|lra].
      change (CDpwr b o :: requested (x_near x) (fun o b => x_energy x o b f0) k b g)
        with ([CDpwr b o] ++ requested (x_near x) (fun o b => x_energy x o b f0) k b g).
      apply (step_app _ _ _ _ _ _ H1). destruct (step_k _ _ _ _ H1) as (E1 & _ & E3 & _).
      apply IH; [assumption|congruence|exact E3].
    + destruct (Rleb_spec e (x_energy x o b f0)) as [E'|E']; [lra|]. exact H1.
  - inversion Hn as [| | |fs' Hfs|]; subst.
    refine (step_fold f0 (fun w f => apply_band_func x f b w) _ fs k _ w Hk Hf).
    intros a w' Ha Hk' Hf'. apply (IH a Ha); auto.
  - inversion Hn as [| | | |q' fs' Hfs]; subst. rewrite Hk. destruct (x_near x k q).
    + refine (step_fold f0 (fun w f => apply_band_func x f b w) _ fs k _ w Hk Hf).
      intros a w' Ha Hk' Hf'. apply (IH a Ha); auto.
    + apply step_none; [congruence|exact Hf].
Qed.

Lemma flat_map_map {A B C} (f : B -> list C) (h : A -> B) l : flat_map f (map h l) = flat_map (fun a => f (h a)) l.
Proof. induction l; cbn; congruence. Qed.

Lemma func_step f0 k nb (g : bf) : no_rand g -> forall w, w_k w = Some k -> Rm f0 (w_f w) ->
  step f0 (at_k (x_near x) (fun o b => x_energy x o b f0) nb k g) w (run_func x nb g w).
Proof.
  intros Hn w Hk Hf.
  assert (G : step f0 (flat_map (fun b => requested (x_near x) (fun o b => x_energy x o b f0) k (Z.of_nat b) g)
                         (seq 1 (Z.to_nat nb))) w (fold_left (fun w b => apply_band_func x g b w) (bands nb) w)).
  { unfold bands.
    rewrite <- (flat_map_map (fun b => requested (x_near x) (fun o b => x_energy x o b f0) k b g) Z.of_nat).
    refine (step_fold f0 (fun w b => apply_band_func x g b w) _ _ k _ w Hk Hf).
    intros b w' _ Hk' Hf'. apply apply_step; auto. }
  destruct g; unfold run_func; cbn [num_args Z.eqb at_k]; try exact G.
  - cbn. apply step_note; [congruence|exact Hf|intros; apply Rthunk].
  - inversion Hn.
Qed.

(** One k point. *)
Lemma k_step nb (gs : list bf) k w : (forall g, In g gs -> no_rand g) ->
  let f0 := x_solve x k (w_f w) in
  let w' := run_k x nb gs w k in
  exists tl, w_index w' = (w_index w + 1)%Z /\
    w_log w' = w_log w ++ ESolve (w_index w + 1) k :: tl /\
    calls_of tl = flat_map (at_k (x_near x) (fun o b => x_energy x o b f0) nb k) gs /\
    during (w_index w + 1) k (Rm f0) tl /\ Rm f0 (w_f w').
Proof.
  intros Hn f0 w'. unfold w', run_k. fold f0.
  set (w1 := mkW (Some k) (w_index w + 1) f0 (w_log w ++ [ESolve (w_index w + 1) k])).
  assert (H : step f0 (flat_map (at_k (x_near x) (fun o b => x_energy x o b f0) nb k) gs) w1
                (fold_left (fun w g => run_func x nb g w) gs w1)).
  { refine (step_fold f0 (fun w g => run_func x nb g w) _ gs k _ w1 eq_refl (Rrefl f0)).
    intros g w2 Hg Hk2 Hf2. apply func_step; auto. }
  destruct H as (i & q & tl & A1 & A2 & A3 & A4 & A5 & A6 & A7 & A8).
  cbn in A1, A2. injection A1 as <-. subst i. exists tl. repeat split; auto.
  rewrite A5. cbn [w_log w1]. rewrite <- app_assoc. reflexivity.
Qed.

(** All the k points of a block. *)
Definition good_seg nb (gs : list bf) (i : Z) (k : K) (f : F) (seg : list (event K O F S)) : Prop :=
  let f0 := x_solve x k f in
  exists tl, seg = ESolve i k :: tl /\
    calls_of tl = flat_map (at_k (x_near x) (fun o b => x_energy x o b f0) nb k) gs /\
    during i k (Rm f0) tl.

Lemma ks_steps nb (gs : list bf) ks : (forall g, In g gs -> no_rand g) -> forall w,
  exists segs fs, w_log (fold_left (run_k x nb gs) ks w) = w_log w ++ concat segs /\
    length segs = length ks /\ length fs = length ks /\
    (forall i k, nth_error ks i = Some k -> exists f seg, nth_error fs i = Some f /\ nth_error segs i = Some seg /\
       good_seg nb gs (w_index w + 1 + Z.of_nat i) k f seg) /\
    (forall f, nth_error fs 0 = Some f -> f = w_f w) /\
    (forall i f k g, nth_error fs i = Some f -> nth_error ks i = Some k -> nth_error fs (i + 1) = Some g ->
       Rm (x_solve x k f) g).
Proof.
  intros Hn. induction ks as [|k ks IH]; intros w.
  - exists [], []. cbn. rewrite app_nil_r. repeat split.
    + intros [|i] k; discriminate.
    + discriminate.
    + intros [|i] f k g; discriminate.
  - cbn [fold_left]. destruct (k_step nb gs k w Hn) as (tl & A1 & A2 & A3 & A4 & A5).
    destruct (IH (run_k x nb gs w k)) as (segs & fs & B1 & B2 & B3 & B4 & B5 & B6).
    exists ((ESolve (w_index w + 1) k :: tl) :: segs), (w_f w :: fs).
    split; [rewrite B1, A2; cbn [concat]; rewrite <- app_assoc; reflexivity|].
    cbn [length]. split; [congruence|]. split; [congruence|]. split; [|split].
    + intros [|i] q Hq; cbn [nth_error] in Hq.
      * injection Hq as <-. exists (w_f w), (ESolve (w_index w + 1) k :: tl). cbn [nth_error]. repeat split.
        replace (w_index w + 1 + Z.of_nat 0)%Z with (w_index w + 1)%Z by lia. exists tl. auto.
      * destruct (B4 i q Hq) as (f & seg & C1 & C2 & C3). exists f, seg. cbn [nth_error]. repeat split; auto.
        rewrite A1 in C3. replace (w_index w + 1 + Z.of_nat (Datatypes.S i))%Z with (w_index w + 1 + 1 + Z.of_nat i)%Z by lia.
        exact C3.
    + cbn. intros f E. injection E as <-. reflexivity.
    + intros [|i] f q g H1 H2 H3; cbn [nth_error] in *.
      * injection H1 as <-. injection H2 as <-. cbn in H3. rewrite (B5 g H3). exact A5.
      * exact (B6 i f q g H1 H2 H3).
Qed.
End L.
