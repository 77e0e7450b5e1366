(** Proofs about the material at a point. *)
From Coq Require Import List ZArith Reals Bool Lia Lra.
From Verif Require Import Base RC M_Tensor S_Tensor L_Tensor L_Tensor2 M_Med S_Med.
Import ListNotations.
Local Open Scope R_scope.

Lemma iso_inverse v : v <> 0 -> is_inverse (iso v) (iso (/ v)).
Proof.
  intros Hv. assert (E : invert (iso v) = Val (iso (/ v))).
  { unfold invert, iso. cbn [re im C0 fst snd]. destruct (Reqb_spec 0 0); [cbn [andb]|lra].
    rewrite (fdiv_nz 1 v Hv). cbn [bind]. unfold Rdiv. rewrite Rmult_1_l. reflexivity. }
  exact (invert_val _ _ E).
Qed.

Lemma material_tensor_inv herm mu m T Ti : material_tensor herm mu m = Val (T, Ti) -> is_inverse T Ti.
Proof.
  destruct m as [eps mv|a|g|f|]; cbn [material_tensor]; try discriminate.
  - unfold fdiv. destruct (Req_EM_T (if mu then mv else eps) 0) as [H|H]; cbn [bind]; [discriminate|].
    intros [= <- <-]. fold (iso (if mu then mv else eps)).
    replace (1 / (if mu then mv else eps)) with (/ (if mu then mv else eps)) by (unfold Rdiv; ring).
    exact (iso_inverse _ H).
  - destruct (check (herm || aniso_real (aniso_tensor mu a))); cbn [bind]; try discriminate.
    destruct (invert (aniso_tensor mu a)) as [W| | |] eqn:E; cbn [bind]; try discriminate.
    intros [= <- <-]. exact (invert_val _ _ E).
Qed.

(** The tensor returned is the one the material stands for, and it is returned. *)
Lemma tensor_is_fun mu m T : tensor_is mu m T -> forall herm A Ti, material_tensor herm mu m = Val (A, Ti) -> A = T.
Proof.
  intros H herm A Ti. destruct H as [eps mv|eps mv|a x y z u v w iu iv iw E1 E2 E3|a x y z u v w iu iv iw E1 E2 E3]; cbn [material_tensor].
  - unfold fdiv. destruct (Req_EM_T eps 0); cbn [bind]; [discriminate|]. intros [= <- _]. reflexivity.
  - unfold fdiv. destruct (Req_EM_T mv 0); cbn [bind]; [discriminate|]. intros [= <- _]. reflexivity.
  - destruct (check _); cbn [bind]; try discriminate. destruct (invert _); cbn [bind]; try discriminate.
    intros [= <- _]. unfold aniso_tensor. rewrite E1, E2, E3. f_equal; apply C_eq; csimp; ring.
  - destruct (check _); cbn [bind]; try discriminate. destruct (invert _); cbn [bind]; try discriminate.
    intros [= <- _]. unfold aniso_tensor. rewrite E1, E2, E3. f_equal; apply C_eq; csimp; ring.
Qed.
Lemma iso_PD_pos v : PD (iso v) -> 0 < v.
Proof. intros H. exact (PD_m00 _ H). Qed.
Lemma aniso_realb T : real_tensor T -> aniso_real T = true.
Proof.
  intros (A & B & D). unfold aniso_real. rewrite A, B, D.
  replace (0 * 0 + 0 * 0 + 0 * 0) with 0 by ring. rewrite sqrt_0. destruct (Reqb_spec 0 0); [reflexivity|lra].
Qed.
Lemma tensor_is_val herm mu m T : tensor_is mu m T -> PD T -> (herm = true \/ real_tensor T) ->
  exists Ti, material_tensor herm mu m = Val (T, Ti) /\ is_inverse T Ti.
Proof.
  intros H P Hr.
  assert (exists A Ti, material_tensor herm mu m = Val (A, Ti)) as (A & Ti & E).
  { assert (Hx : forall a, aniso_tensor mu a = T -> tensor_is mu (Aniso a) T -> exists A Ti, material_tensor herm mu (Aniso a) = Val (A, Ti)).
    { intros a Ea _. cbn [material_tensor]. rewrite Ea.
      replace (herm || aniso_real T)%bool with true
        by (destruct Hr as [->|Hr]; [reflexivity|rewrite (aniso_realb T Hr); destruct herm; reflexivity]).
      cbn [check bind]. destruct (invert_PD T P) as (W & EW & _). rewrite EW. cbn [bind]. eauto. }
    inversion H as [eps mv E1 E2 E3|eps mv E1 E2 E3|a x y z u v w iu iv iw E1 E2 E3 E4 E5|a x y z u v w iu iv iw E1 E2 E3 E4 E5]; subst.
    - apply iso_PD_pos in P. cbn [material_tensor]. rewrite fdiv_nz by lra. cbn [bind]. eauto.
    - apply iso_PD_pos in P. cbn [material_tensor]. rewrite fdiv_nz by lra. cbn [bind]. eauto.
    - apply Hx; [|exact H]. unfold aniso_tensor. rewrite E1, E2, E3. f_equal; apply C_eq; csimp; ring.
    - apply Hx; [|exact H]. unfold aniso_tensor. rewrite E1, E2, E3. f_equal; apply C_eq; csimp; ring. }
  pose proof (tensor_is_fun _ _ _ H _ _ _ E) as ->. exists Ti. split; [exact E|]. exact (material_tensor_inv _ _ _ _ _ E).
Qed.

Lemma leads_follow e p k m m' fuel : leads e p k m m' -> (k <= fuel)%nat -> follow e fuel p m = Some m'.
Proof.
  intros H. revert fuel. induction H as [m Hm|k f m H IH]; intros fuel Hk.
  - destruct m; try (destruct fuel; reflexivity). exfalso. exact (Hm _ eq_refl).
  - destruct fuel as [|fuel]; [lia|]. cbn [follow]. apply IH. lia.
Qed.
Lemma leads_plain e p k m m' : leads e p k m m' -> forall f, m' <> Function f.
Proof. induction 1; assumption. Qed.

Lemma topmost_unique n c p i j : topmost n c p i -> topmost n c p j -> i = j.
Proof.
  intros (A & B & D) (A' & B' & D'). destruct (Nat.lt_trichotomy i j) as [H|[H|H]]; [|exact H|].
  - exfalso. exact (D j (conj H A') B').
  - exfalso. exact (D' i (conj H A) B).
Qed.

Section WithEnv.
Variables (e : env) (objs : list material) (contains : nat -> vec -> Prop).
Hypothesis Hs : searches e objs contains.

Lemma find_topmost p i m : topmost (length objs) contains p i -> nth_error objs i = Some m ->
  exists o, q_find e p = Some o /\ f_mat o = m.
Proof.
  intros Ht Hi. destruct Hs as (prec & _ & _ & H). specialize (H p). destruct (q_find e p) as [o|].
  - destruct H as (j & Hj & Hn & _). rewrite (topmost_unique _ _ _ _ _ Hj Ht), Hi in Hn. exists o. split; congruence.
  - exfalso. destruct Ht as (A & B & _). exact (H i A B).
Qed.
Lemma find_background p : background objs contains p ->
  q_find e p = None \/ exists o, q_find e p = Some o /\ f_mat o = Nothing.
Proof.
  intros [Ho|(i & Ht & Hi)].
  - left. destruct Hs as (prec & _ & _ & H). specialize (H p). destruct (q_find e p) as [o|]; [|reflexivity].
    destruct H as (j & (A & B & _) & _). exfalso. exact (Ho j A B).
  - right. exact (find_topmost p i Nothing Ht Hi).
Qed.

(** The value at a point, by where it is. *)
Lemma func_object (herm mu : bool) fuel r i m k m' T :
  let p := q_shift e (unit_pos e r) in
  topmost (length objs) contains p i -> nth_error objs i = Some m -> m <> Nothing ->
  leads e p k m m' -> (k <= fuel)%nat -> tensor_is mu m' T -> PD T -> herm = true \/ real_tensor T ->
  exists Ti, medium_func herm mu e fuel r = Some (Val (T, Ti)) /\ is_inverse T Ti.
Proof.
  intros p Ht Hi Hm Hl Hk HT HP Hh. destruct (find_topmost p i m Ht Hi) as (o & Eo & Em).
  destruct (tensor_is_val herm mu m' T HT HP Hh) as (Ti & E & Hinv). exists Ti. split; [|exact Hinv].
  unfold medium_func. fold p. rewrite Eo, Em.
  assert (Ef : (match m with Nothing => (None, q_default e) | _ => (Some o, m) end) = (Some o, m)) by (destruct m; reflexivity || contradiction).
  rewrite Ef. rewrite (leads_follow e p k m m' fuel Hl Hk).
  assert (Eg : match m' with Grid g => let '(lo, hi) := if mu then (g_mmin g, g_mmax g) else (g_emin g, g_emax g) in
                  make_value mu (q_grid e p (Some o) g * (hi - lo) + lo) | _ => m' end = m') by (destruct HT; reflexivity).
  rewrite Eg, E. destruct (q_file e mu); reflexivity.
Qed.
Lemma func_grid (herm mu : bool) fuel r i g :
  let p := q_shift e (unit_pos e r) in
  topmost (length objs) contains p i -> nth_error objs i = Some (Grid g) ->
  let lo := if mu then g_mmin g else g_emin g in let hi := if mu then g_mmax g else g_emax g in
  0 < lo <= hi -> exists o, q_find e p = Some o /\ (0 <= q_grid e p (Some o) g <= 1 ->
    let v := lo + q_grid e p (Some o) g * (hi - lo) in
    lo <= v <= hi /\ medium_func herm mu e fuel r = Some (Val (iso v, iso (/ v)))).
Proof.
  intros p Ht Hi lo hi Hlo. destruct (find_topmost p i _ Ht Hi) as (o & Eo & Em). exists o. split; [exact Eo|]. intros Hv v.
  assert (Bv : lo <= v <= hi) by (unfold v; split; nra). split; [exact Bv|].
  unfold medium_func. fold p. rewrite Eo, Em.
  assert (E : material_tensor herm mu (make_value mu (q_grid e p (Some o) g * (hi - lo) + lo)) = Val (iso v, iso (/ v))).
  { unfold make_value. replace (q_grid e p (Some o) g * (hi - lo) + lo) with v by (unfold v; ring).
    destruct mu; cbn [material_tensor]; rewrite fdiv_nz by lra; cbn [bind]; unfold Rdiv; rewrite Rmult_1_l; reflexivity. }
  assert (Ef : follow e fuel p (Grid g) = Some (Grid g)) by (destruct fuel; reflexivity). rewrite Ef.
  unfold lo, hi in E. destruct mu; rewrite E; [destruct (q_file e true)|destruct (q_file e false)]; reflexivity.
Qed.
Lemma func_background (herm mu : bool) fuel r k m' T :
  let p := q_shift e (unit_pos e r) in
  background objs contains p -> q_file e mu = None ->
  leads e p k (q_default e) m' -> (k <= fuel)%nat -> tensor_is mu m' T -> PD T -> herm = true \/ real_tensor T ->
  exists Ti, medium_func herm mu e fuel r = Some (Val (T, Ti)) /\ is_inverse T Ti.
Proof.
  intros p Hb Hf Hl Hk HT HP Hh.
  destruct (tensor_is_val herm mu m' T HT HP Hh) as (Ti & E & Hinv). exists Ti. split; [|exact Hinv].
  assert (Eg : forall tp : option found, match m' with Grid g => let '(lo, hi) := if mu then (g_mmin g, g_mmax g) else (g_emin g, g_emax g) in
                  make_value mu (q_grid e p tp g * (hi - lo) + lo) | _ => m' end = m') by (destruct HT; reflexivity).
  unfold medium_func. fold p. destruct (find_background p Hb) as [Eo|(o & Eo & Em)]; rewrite Eo, ?Em.
  - destruct (q_default e) eqn:Ed; rewrite Hf; rewrite (leads_follow e p k _ m' fuel Hl Hk), Eg, E; reflexivity.
  - rewrite Hf, (leads_follow e p k _ m' fuel Hl Hk), Eg, E. reflexivity.
Qed.
Lemma func_file (herm mu : bool) fuel r f :
  background objs contains (q_shift e (unit_pos e r)) -> q_file e mu = Some f ->
  medium_func herm mu e fuel r = Some (f r).
Proof.
  intros Hb Hf. unfold medium_func. destruct (find_background _ Hb) as [Eo|(o & Eo & Em)]; rewrite Eo, ?Em.
  - destruct (q_default e); rewrite Hf; reflexivity.
  - rewrite Hf. reflexivity.
Qed.

End WithEnv.

Lemma func_inverse (herm mu : bool) e fuel r T Ti :
  (forall f x A Ai, q_file e mu = Some f -> f x = Val (A, Ai) -> is_inverse A Ai) ->
  medium_func herm mu e fuel r = Some (Val (T, Ti)) -> is_inverse T Ti.
Proof.
  intros Hf. unfold medium_func. set (p := q_shift e (unit_pos e r)).
  destruct (match match q_find e p with Some o => f_mat o | None => q_default e end with
            | Nothing => (None, q_default e) | _ => (q_find e p, match q_find e p with Some o => f_mat o | None => q_default e end) end) as [tp m].
  assert (K : forall tp : option found, match follow e fuel p m with
      | Some m0 => Some (material_tensor herm mu match m0 with
          | Grid g => let '(lo, hi) := if mu then (g_mmin g, g_mmax g) else (g_emin g, g_emax g) in
              make_value mu (q_grid e p tp g * (hi - lo) + lo) | _ => m0 end)
      | None => None end = Some (Val (T, Ti)) -> is_inverse T Ti).
  { intros tp'. destruct (follow e fuel p m) as [m'|]; [|discriminate]. intros [= E]. exact (material_tensor_inv _ _ _ _ _ E). }
  destruct tp as [o|].
  - destruct (q_file e mu); apply K.
  - destruct (q_file e mu) as [f|] eqn:Ef; [|apply K]. intros [= E]. exact (Hf f r _ _ eq_refl E).
Qed.

Lemma func_periodic (herm mu : bool) e fuel x y z a b c : wraps e ->
  (forall f, q_file e mu = Some f -> forall u v w l m n, f (u + IZR l, v + IZR m, w + IZR n) = f (u, v, w)) ->
  medium_func herm mu e fuel (x + IZR a, y + IZR b, z + IZR c) = medium_func herm mu e fuel (x, y, z).
Proof.
  intros Hw Hf. unfold medium_func.
  assert (E : q_shift e (unit_pos e (x + IZR a, y + IZR b, z + IZR c)) = q_shift e (unit_pos e (x, y, z))).
  { rewrite <- (Hw (unit_pos e (x, y, z)) a b c). f_equal. unfold unit_pos, vadd. destruct (q_size e) as [[sx sy] sz].
    destruct (q_none e) as [[nx ny] nz]. destruct nx, ny, nz; repeat (f_equal; try ring). }
  rewrite E. set (p := q_shift e (unit_pos e (x, y, z))).
  destruct (match match q_find e p with Some o => f_mat o | None => q_default e end with
            | Nothing => (None, q_default e) | _ => (q_find e p, match q_find e p with Some o => f_mat o | None => q_default e end) end) as [tp m].
  destruct tp as [o|]; [reflexivity|]. destruct (q_file e mu) as [f|] eqn:Ef; [|reflexivity].
  rewrite (Hf f eq_refl x y z a b c). reflexivity.
Qed.

(** Permeability. *)
Lemma no_mu_one herm m : material_has_mu m = false -> m <> Nothing -> constant m ->
  material_tensor herm true m = Val (iso 1, iso 1).
Proof.
  intros H Hn [Hg Hf]. destruct m as [eps mv|a|g|f|]; cbn [material_has_mu material_tensor] in *.
  - destruct (Reqb_spec mv 1) as [E|]; [|discriminate]. rewrite E, fdiv_nz by lra. cbn [bind].
    replace (1/1) with 1 by lra. reflexivity.
  - unfold aniso_tensor. destruct (a_mdiag a) as [[x y] z], (a_moff a) as [[u v] w], (a_mim a) as [[iu iv] iw].
    cbn [m01 m02 m12 im re fst snd].
    repeat (apply orb_false_iff in H; destruct H as [H ?]).
    repeat match goal with K : negb (Reqb ?s ?t) = false |- _ => destruct (Reqb_spec s t) as [?E|]; [clear K|discriminate] end.
    assert (ET : mkSym x y z (re u, im u + iu) (re v, im v + iv) (re w, im w + iw) = iso 1) by (unfold iso, C0; congruence).
    unfold C in *. rewrite ET. replace (herm || aniso_real (iso 1))%bool with true
      by (rewrite aniso_realb by (repeat split); destruct herm; reflexivity). cbn [check bind].
    assert (EI : invert (iso 1) = Val (iso 1)).
    { unfold invert, iso. cbn [re im C0 fst snd]. destruct (Reqb_spec 0 0); [cbn [andb]|lra].
      rewrite fdiv_nz by lra. cbn [bind]. replace (1/1) with 1 by lra. reflexivity. }
    rewrite EI. reflexivity.
  - exfalso. exact (Hg g eq_refl).
  - exfalso. exact (Hf f eq_refl).
  - contradiction.
Qed.
Lemma no_mu_everywhere herm e objs contains force fuel r : searches e objs contains ->
  has_mu e force objs = false -> q_default e <> Nothing ->
  (forall f, q_default e <> Function f) -> (forall f, ~ In (Function f) objs) ->
  medium_func herm true e fuel r = Some (Val (iso 1, iso 1)).
Proof.
  intros Hs H Hd Hdf Hof. unfold has_mu in H. apply orb_false_iff in H. destruct H as [H Hobj].
  apply orb_false_iff in H. destruct H as [H Hdm]. apply orb_false_iff in H. destruct H as [Hfile _].
  assert (Hone : forall m, (m = q_default e \/ In m objs) -> material_has_mu m = false).
  { intros m [->|Hi]; [exact Hdm|]. destruct (material_has_mu m) eqn:E; [|reflexivity].
    rewrite <- Hobj. symmetry. apply existsb_exists. eauto. }
  assert (K : forall p tp m, (m = q_default e \/ In m objs) -> m <> Nothing ->
    match follow e fuel p m with
      | Some m0 => Some (material_tensor herm true match m0 with
          | Grid g => let '(lo, hi) := (g_mmin g, g_mmax g) in make_value true (q_grid e p tp g * (hi - lo) + lo) | _ => m0 end)
      | None => None end = Some (Val (iso 1, iso 1))).
  { intros p tp m Hm Hn. pose proof (Hone m Hm) as Hz.
    destruct m as [eps mv|a|g|f|].
    - replace (follow e fuel p (Medium eps mv)) with (Some (Medium eps mv)) by (destruct fuel; reflexivity).
      rewrite no_mu_one; [reflexivity|exact Hz|exact Hn|split; discriminate].
    - replace (follow e fuel p (Aniso a)) with (Some (Aniso a)) by (destruct fuel; reflexivity).
      rewrite no_mu_one; [reflexivity|exact Hz|exact Hn|split; discriminate].
    - replace (follow e fuel p (Grid g)) with (Some (Grid g)) by (destruct fuel; reflexivity).
      cbn [material_has_mu] in Hz. apply orb_false_iff in Hz. destruct Hz as [Z1 Z2].
      destruct (Reqb_spec (g_mmin g) 1) as [E1|]; [|discriminate]. destruct (Reqb_spec (g_mmax g) 1) as [E2|]; [|discriminate].
      rewrite E1, E2. replace (q_grid e p tp g * (1 - 1) + 1) with 1 by ring. unfold make_value. cbn [material_tensor].
      rewrite fdiv_nz by lra. cbn [bind]. replace (1/1) with 1 by lra. reflexivity.
    - exfalso. destruct Hm as [E|Hi]; [exact (Hdf f (eq_sym E))|exact (Hof f Hi)].
    - contradiction. }
  unfold medium_func. set (p := q_shift e (unit_pos e r)).
  destruct (q_file e true) as [f|]; [discriminate|].
  destruct (q_find e p) as [o|] eqn:Eo.
  - assert (Hi : In (f_mat o) objs).
    { destruct Hs as (prec & _ & _ & Hp). specialize (Hp p). rewrite Eo in Hp. destruct Hp as (i & _ & Hn & _).
      exact (nth_error_In _ _ Hn). }
    destruct (f_mat o) eqn:Em; try (exact (K p (Some o) _ (or_intror Hi) ltac:(discriminate))).
    exact (K p None _ (or_introl eq_refl) Hd).
  - destruct (q_default e) eqn:Ed; try (exact (K p None _ (or_introl eq_refl) ltac:(discriminate))). contradiction.
Qed.
