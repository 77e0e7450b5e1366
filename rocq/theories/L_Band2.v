(** Proofs about whole runs and about runs split over processes. *)
From Coq Require Import Reals Lra List ZArith Bool Lia.
From Verif Require Import Base RC M_Scheme L_Scheme L_Scheme2 L_Scheme3 M_Band S_Band L_Band.
Import ListNotations.
Local Open Scope R_scope.

Section L.
Context {K O F S : Type}.
Variable x : ext K O F S.

(** The state in which the first k point is solved. *)
Lemma run_shape kps num idx nb p reset (gs : list (bfun K O)) w : (0 < nb)%Z ->
  exists w1, run_bands x false kps num idx nb p reset gs w =
      fold_left (run_k x nb gs) (snd (list_split kps num idx)) w1 /\
    w_log w1 = w_log w ++ preamble p reset (fst (list_split kps num idx) =? 0)%Z (x_mu x (start_mem x p reset (w_f w))) /\
    w_index w1 = fst (list_split kps num idx) /\ w_f w1 = start_mem x p reset (w_f w).
Proof.
  intros Hnb. unfold run_bands. rewrite (proj2 (Z.ltb_lt 0 nb) Hnb). cbn [andb].
  destruct (list_split kps num idx) as [start ks]. cbn [fst snd].
  eexists. split; [reflexivity|]. unfold preamble, start_mem.
  destruct reset as [| |s]; destruct (start =? 0)%Z; cbn [w_log w_f w_index w_k];
    repeat rewrite <- app_assoc; cbn [app]; rewrite ?app_nil_r; repeat split; reflexivity.
Qed.

Lemma run_calls kps num idx nb p reset (gs : list (bfun K O)) w : (0 < nb)%Z ->
  (forall g, In g gs -> no_rand g) ->
  (forall n f o b, x_energy x o b (x_thunk x n f) = x_energy x o b f) ->
  (forall n c f o b, x_energy x o b (x_band x n c f) = x_energy x o b f) ->
  let start := fst (list_split kps num idx) in
  let ks := snd (list_split kps num idx) in
  exists segs, w_log (run_bands x false kps num idx nb p reset gs w) =
      w_log w ++ preamble p reset (start =? 0)%Z (x_mu x (start_mem x p reset (w_f w))) ++ concat segs /\
    length segs = length ks /\
    forall i k, nth_error ks i = Some k -> exists f tl,
      nth_error segs i = Some (ESolve (start + 1 + Z.of_nat i) k :: tl) /\
      calls_of tl = flat_map (at_k (x_near x) (fun o b => x_energy x o b (x_solve x k f)) nb k) gs /\
      during (start + 1 + Z.of_nat i) k (fun f' => forall o b, x_energy x o b f' = x_energy x o b (x_solve x k f)) tl.
Proof.
  intros Hnb Hn H1 H2 start ks. destruct (run_shape kps num idx nb p reset gs w Hnb) as (w1 & A1 & A2 & A3 & A4).
  fold start ks in A1, A2, A3.
  destruct (ks_steps x (fun f g => forall o b, x_energy x o b g = x_energy x o b f)
              ltac:(intros f o b; reflexivity) ltac:(intros f g h U V o b; exact (eq_trans (V o b) (U o b)))
              H1 H2 ltac:(intros f g o b U; exact (U o b))
              nb gs ks Hn w1) as (segs & fs & B1 & B2 & B3 & B4 & _).
  exists segs. rewrite A1, B1, A2, <- app_assoc. split; [reflexivity|]. split; [exact B2|].
  intros i k Hk. destruct (B4 i k Hk) as (f & seg & C1 & C2 & (tl & C3 & C4 & C5)).
  rewrite A3 in *. exists f, tl. rewrite C2, C3. auto.
Qed.

Lemma run_fields kps num idx nb p reset (gs : list (bfun K O)) w : (0 < nb)%Z ->
  (forall g, In g gs -> no_rand g) ->
  (forall n f, x_thunk x n f = f) -> (forall n c f, x_band x n c f = f) ->
  let start := fst (list_split kps num idx) in
  let ks := snd (list_split kps num idx) in
  let mem i := fold_left (fun f k => x_solve x k f) (firstn i ks) (start_mem x p reset (w_f w)) in
  exists segs, w_log (run_bands x false kps num idx nb p reset gs w) =
      w_log w ++ preamble p reset (start =? 0)%Z (x_mu x (start_mem x p reset (w_f w))) ++ concat segs /\
    length segs = length ks /\
    forall i k, nth_error ks i = Some k -> exists tl,
      nth_error segs i = Some (ESolve (start + 1 + Z.of_nat i) k :: tl) /\
      calls_of tl = flat_map (at_k (x_near x) (fun o b => x_energy x o b (mem (i + 1)%nat)) nb k) gs /\
      during (start + 1 + Z.of_nat i) k (eq (mem (i + 1)%nat)) tl.
Proof.
  intros Hnb Hn H1 H2 start ks mem. destruct (run_shape kps num idx nb p reset gs w Hnb) as (w1 & A1 & A2 & A3 & A4).
  fold start ks in A1, A2, A3.
  destruct (ks_steps x eq ltac:(reflexivity) ltac:(intros; congruence)
              ltac:(intros; symmetry; apply H1) ltac:(intros; symmetry; apply H2) ltac:(intros; congruence)
              nb gs ks Hn w1) as (segs & fs & B1 & B2 & B3 & B4 & B5 & B6).
  exists segs. rewrite A1, B1, A2, <- app_assoc. split; [reflexivity|]. split; [exact B2|].
  assert (M : forall i k, nth_error ks i = Some k -> mem (i + 1)%nat = x_solve x k (mem i)).
  { intros i k Hk. unfold mem.
    assert (E : firstn (i + 1) ks = firstn i ks ++ [k]).
    { clear - Hk. revert i Hk. induction ks as [|a l IH]; intros [|i] Hk; try discriminate; cbn in *.
      - injection Hk as <-. reflexivity.
      - rewrite (IH i Hk). reflexivity. }
    rewrite E, fold_left_app. reflexivity. }
  assert (G : forall i f, nth_error fs i = Some f -> f = mem i).
  { induction i as [|i IH]; intros f Hf.
    - rewrite (B5 f Hf), A4. reflexivity.
    - assert (Hi : (i < length fs)%nat) by (assert (nth_error fs (Datatypes.S i) <> None) as U by congruence;
        apply nth_error_Some in U; lia).
      destruct (nth_error fs i) as [f'|] eqn:Ef; [|apply nth_error_None in Ef; lia].
      destruct (nth_error ks i) as [k|] eqn:Ek; [|apply nth_error_None in Ek; lia].
      pose proof (B6 i f' k f Ef Ek) as U. replace (i + 1)%nat with (Datatypes.S i) in U by lia.
      specialize (U Hf). rewrite <- U, (IH f' eq_refl), <- (M i k Ek). f_equal. lia. }
  intros i k Hk. destruct (B4 i k Hk) as (f & seg & C1 & C2 & (tl & C3 & C4 & C5)).
  rewrite A3 in *. exists tl. rewrite (G i f C1), <- (M i k Hk) in C4, C5. rewrite C2, C3. auto.
Qed.

(** The k points solved by a run: no hypothesis on the band functions. *)
Lemma solves_app (a b : list (event K O F S)) : solves_of (a ++ b) = solves_of a ++ solves_of b.
Proof. apply flat_map_app. Qed.

Definition same (w w' : world K O F S) : Prop := w_index w' = w_index w /\ solves_of (w_log w') = solves_of (w_log w) /\
  (In EEps (w_log w') <-> In EEps (w_log w)).

Lemma same_refl w : same w w. Proof. repeat split; auto. Qed.
Lemma same_trans a b c : same a b -> same b c -> same a c.
Proof. intros (A & B & C) (D & E & G). unfold same. rewrite D, E, G. auto. Qed.
Lemma same_note c eff w : same w (note c eff w).
Proof.
  unfold same, note. cbn [w_index w_log]. rewrite solves_app, in_app_iff. cbn. rewrite app_nil_r. intuition congruence.
Qed.
Lemma same_fold {A} (act : world K O F S -> A -> world K O F S) l :
  (forall a w, In a l -> same w (act w a)) -> forall w, same w (fold_left act l w).
Proof.
  induction l as [|a l IH]; intros H w; cbn; [apply same_refl|].
  apply (same_trans _ (act w a)); [apply H; left; reflexivity|]. apply IH. intros; apply H; right; assumption.
Qed.

Lemma same_apply (g : bfun K O) b : forall w, same w (apply_band_func x g b w).
Proof.
  induction g as [n|n| |g e o IH|fs IH|q fs IH] using bfun_ind'; intros w; cbn.
  - destruct (b =? 1)%Z; [apply same_note|apply same_refl].
  - apply same_note.
  - destruct (b =? 1)%Z; [apply same_note|apply same_refl].
  - destruct (Rleb _ _); [eapply same_trans; [apply same_note|apply IH]|apply same_note].
  - apply (same_fold (fun w f => apply_band_func x f b w)). intros a w' Ha. apply IH, Ha.
  - destruct (match w_k w with Some _ => _ | None => _ end); [|apply same_refl].
    apply (same_fold (fun w f => apply_band_func x f b w)). intros a w' Ha. apply IH, Ha.
Qed.

Lemma same_func nb (g : bfun K O) w : same w (run_func x nb g w).
Proof.
  unfold run_func. destruct (num_args g =? 0)%Z.
  - destruct g; cbn; try apply same_refl; apply same_note.
  - apply (same_fold (fun w b => apply_band_func x g b w)). intros. apply same_apply.
Qed.

Lemma k_solves nb (gs : list (bfun K O)) ks : forall w,
  solves_of (w_log (fold_left (run_k x nb gs) ks w)) =
  solves_of (w_log w) ++ combine (map (fun j => w_index w + 1 + Z.of_nat j)%Z (seq 0 (length ks))) ks /\
  (In EEps (w_log (fold_left (run_k x nb gs) ks w)) <-> In EEps (w_log w)).
Proof.
  induction ks as [|k ks IH]; intros w; cbn [fold_left length seq map combine].
  - rewrite app_nil_r. split; [reflexivity|tauto].
  - destruct (IH (run_k x nb gs w k)) as (A & B).
    set (w1 := mkW (Some k) (w_index w + 1) (x_solve x k (w_f w)) (w_log w ++ [ESolve (w_index w + 1) k])).
    assert (H : same w1 (run_k x nb gs w k)).
    { unfold run_k. fold w1. apply (same_fold (fun w g => run_func x nb g w)). intros. apply same_func. }
    destruct H as (H1 & H2 & H3). cbn [w1 w_index w_log] in H1, H2, H3. split.
    + rewrite A, H1, H2, solves_app, <- app_assoc. cbn [solves_of flat_map app]. f_equal.
      replace (w_index w + 1 + Z.of_nat 0)%Z with (w_index w + 1)%Z by lia. f_equal. f_equal.
      rewrite <- seq_shift, map_map. apply map_ext. intros j. lia.
    + rewrite B, H3, in_app_iff. cbn. intuition congruence.
Qed.

(** With or without randomize-fields?. *)
Lemma run_solves rnd kps num idx nb p reset (gs : list (bfun K O)) (w : world K O F S) : (0 < nb)%Z -> w_log w = [] ->
  let start := fst (list_split kps num idx) in
  let ks := snd (list_split kps num idx) in
  let log := w_log (run_bands x rnd kps num idx nb p reset gs w) in
  solves_of log = combine (map (fun j => start + 1 + Z.of_nat j)%Z (seq 0 (length ks))) ks /\
  (In EEps log <-> start = 0%Z).
Proof.
  intros Hnb Hw start ks log. unfold log.
  set (gs' := if rnd && negb (existsb is_rand gs) then Randomize :: gs else gs).
  assert (E : run_bands x rnd kps num idx nb p reset gs w = run_bands x false kps num idx nb p reset gs' w) by reflexivity.
  rewrite E. destruct (run_shape kps num idx nb p reset gs' w Hnb) as (w1 & A1 & A2 & A3 & _).
  fold start ks in A1, A2, A3. rewrite A1. destruct (k_solves nb gs' ks w1) as (B1 & B2).
  rewrite B1, B2, A2, A3, Hw. cbn [app]. unfold preamble. split.
  - rewrite !solves_app. destruct reset; destruct (start =? 0)%Z; try destruct (x_mu x _); reflexivity.
  - destruct (Z.eqb_spec start 0) as [Z0|Z0].
    + split; [auto|]. intros _. rewrite !in_app_iff. right. right. left. reflexivity.
    + split; [|contradiction]. rewrite !in_app_iff. intros [[U|[]]|[U|[]]]; [discriminate|].
      destruct reset; [destruct U..|destruct U as [U|[]]; discriminate].
Qed.
End L.

(** The pieces of a split list with their counters. *)
Lemma seq_shift_map s n : map Z.of_nat (seq (s + 1) n) = map (fun j => Z.of_nat s + 1 + Z.of_nat j)%Z (seq 0 n).
Proof.
  revert s. induction n as [|n IH]; intros s; [reflexivity|]. cbn [seq map]. f_equal; [lia|].
  replace (Datatypes.S (s + 1)) with (Datatypes.S s + 1)%nat by lia. rewrite IH, <- seq_shift, map_map.
  apply map_ext. intros j. lia.
Qed.

Lemma combine_app {A B} (a a' : list A) (b b' : list B) : length a = length b ->
  combine (a ++ a') (b ++ b') = combine a b ++ combine a' b'.
Proof. revert b. induction a as [|u a IH]; intros [|v b] H; try discriminate; [reflexivity|]. cbn. f_equal. apply IH. auto. Qed.

Lemma seq_add a b s : seq s (a + b) = seq s a ++ seq (s + a) b.
Proof. apply seq_app. Qed.

Lemma split_counters {A} (L : list A) num m : (Z.of_nat m <= num)%Z ->
  concat (map (fun i => combine (map (fun j => fst (list_split L num (Z.of_nat i)) + 1 + Z.of_nat j)%Z
                                   (seq 0 (length (snd (list_split L num (Z.of_nat i))))))
                          (snd (list_split L num (Z.of_nat i)))) (seq 0 m)) =
  let pre := concat (map (fun i => snd (list_split L num (Z.of_nat i))) (seq 0 m)) in
  combine (map Z.of_nat (seq 1 (length pre))) pre.
Proof.
  induction m as [|m IH]; intros Hm; [reflexivity|].
  rewrite seq_S, !map_app, !concat_app, IH by lia. cbn [plus map concat]. rewrite !app_nil_r. cbv zeta.
  set (pre := concat (map (fun i => snd (list_split L num (Z.of_nat i))) (seq 0 m))).
  set (ks := snd (list_split L num (Z.of_nat m))).
  rewrite app_length, seq_add, map_app, combine_app by (rewrite map_length, seq_length; reflexivity).
  f_equal. destruct ks as [|k ks'] eqn:E; [reflexivity|]. rewrite <- E.
  assert (Hs : fst (list_split L num (Z.of_nat m)) = Z.of_nat (length pre)).
  { assert (U : snd (list_split L num (Z.of_nat m)) <> []) by (unfold ks in E; congruence).
    rewrite (list_split_start L num (Z.of_nat m) ltac:(lia) U).
    rewrite Nat2Z.id. reflexivity. }
  rewrite Hs. replace (1 + length pre)%nat with (length pre + 1)%nat by lia. rewrite seq_shift_map. reflexivity.
Qed.

Lemma split_all {A} (L : list A) num : (0 < num)%Z ->
  concat (map (fun i => combine (map (fun j => fst (list_split L num (Z.of_nat i)) + 1 + Z.of_nat j)%Z
                                   (seq 0 (length (snd (list_split L num (Z.of_nat i))))))
                          (snd (list_split L num (Z.of_nat i)))) (seq 0 (Z.to_nat num))) =
  combine (map Z.of_nat (seq 1 (length L))) L.
Proof.
  intros H. rewrite split_counters by lia. cbv zeta. rewrite (list_split_concat L num H). reflexivity.
Qed.

Lemma start_zero {A} (L : list A) num i : L <> [] -> (0 <= i < num)%Z ->
  fst (list_split L num i) = 0%Z <-> i = 0%Z.
Proof.
  intros HL Hi. unfold list_split.
  rewrite (proj2 (Z.leb_gt num i)), (proj2 (Z.ltb_ge i 0)) by lia. cbn [orb fst].
  assert (Hl : (1 <= Z.of_nat (length L))%Z) by (destruct L; [congruence|cbn [length]; lia]).
  assert (Hb : (1 <= Z.quot (Z.of_nat (length L) + num + -1) num)%Z).
  { rewrite Z.quot_div_nonneg by lia. apply Z.div_le_lower_bound; lia. }
  split; [intros E; nia|intros ->; reflexivity].
Qed.

(** What a procedure of one argument is called to do at a k point. *)
Lemma at_k_due {K O} near en nb k (g : bfun K O) c :
  (forall n, g <> Thunk n) -> g <> Randomize ->
  (In c (at_k near en nb k g) <-> exists b, (1 <= b <= nb)%Z /\ due near en k b g c).
Proof.
  intros H1 H2.
  assert (G : In c (flat_map (fun b => requested near en k (Z.of_nat b) g) (seq 1 (Z.to_nat nb))) <->
              exists b, (1 <= b <= nb)%Z /\ due near en k b g c).
  { rewrite in_flat_map. split.
    - intros (b & Hb & Hc). apply in_seq in Hb. exists (Z.of_nat b). split; [lia|]. apply requested_due, Hc.
    - intros (b & Hb & Hc). exists (Z.to_nat b). rewrite Z2Nat.id by lia. split; [apply in_seq; lia|].
      apply requested_due, Hc. }
  destruct g; cbn [at_k]; try exact G; [exfalso; apply (H1 n); reflexivity|exfalso; apply H2; reflexivity].
Qed.
