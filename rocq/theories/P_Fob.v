(** Property C83: field objects, the Poynting vector and the energy density. *)
From Coq Require Import String Ascii List ZArith Reals Lra Lia Bool.
From Verif Require Import Base RC M_Tensor S_Tensor M_Evect S_Evect M_Grid S_Grid M_Op S_Op L_Op2 L_Op5 P_Op M_Fld S_Fld M_Gv S_Gv L_Gv M_Half M_Fob S_Fob L_Fob1 L_Fob2 L_Fob3 L_Fob4 L_Fob5.
Import ListNotations.
Local Open Scope Z_scope.

(** A new object is zero everywhere, of the kind asked for and the shape of the given field. *)
Theorem C83_make : forall s k r k0 ch sh m, good s -> is_field s r k0 ch sh m -> (k = KV -> st_env s <> None) ->
  exists s' n m', make k r s = Val (s', Obj n) /\ nth_error (st_objs s) n = None /\
    is_field s' (Obj n) k (match k with KR => "R" | KC => "C" | KV => "c" end)%char sh m' /\
    (forall i, value k m' i = match k with KR => IR 0 | KC => IC C0 | KV => IV C0 C0 C0 end) /\
    (forall r k ch sh m, is_field s r k ch sh m -> is_field s' r k ch sh m) /\ good s'.
Proof.
  intros s k r k0 ch sh m G F He. eexists _, _, _. split; [exact (make_ok s k r k0 ch sh m F He)|]. split; [apply nth_error_None; lia|]. split; [|split; [|split]].
  - pose proof (new_is s k sh) as H. destruct k; exact H.
  - intros i. apply zero_value.
  - intros r1 k1 ch1 sh1 m1 F1. apply old_is. exact F1.
  - apply good_make; [exact G|apply (field_room _ _ _ _ _ _ G F)].
Qed.
Print Assumptions C83_make.

(** field-set! copies the values and the letter, and changes nothing else. *)
Theorem C83_set : forall s dst src k chd chs sh md ms, good s -> is_field s dst k chd sh md -> is_field s src k chs sh ms -> (dst = Cur -> kind_of_letter chs = Some k) ->
  exists s' m, field_setB dst src s = Val s' /\ is_field s' dst k chs sh m /\ same_values k sh m ms /\ others_kept dst s s' /\ good s'.
Proof.
  intros s dst src k chd chs sh md ms G Fd Fs HL. destruct (set_core s dst src k chd chs sh md ms G Fd Fs (same_chars _ _ _ _ _ _ G Fs)) as (m & E & L & V).
  exists (finish s dst chs m), m. unfold field_setB. destruct (assert_ok _ _ _ _ _ _ Fd) as (-> & _). cbn [bind]. destruct (assert_ok _ _ _ _ _ _ Fs) as (-> & _). cbn [bind].
  split; [exact E|]. split; [apply (finish_field s dst k chd sh md); assumption|]. split; [exact V|]. split; [apply finish_others|].
  apply (good_finish s dst k chd sh md); auto. apply (same_chars _ _ _ _ _ _ G Fs).
Qed.
Print Assumptions C83_set.
(** Fields of another kind or shape are refused. *)
Theorem C83_set_refused : forall s dst src k k' chd chs sh sh' md ms, is_field s dst k chd sh md -> is_field s src k' chs sh' ms -> k <> k' \/ sh <> sh' ->
  field_setB dst src s = Abort.
Proof.
  intros s dst src k k' chd chs sh sh' md ms Fd Fs Hne. unfold field_setB. destruct (assert_ok _ _ _ _ _ _ Fd) as (-> & _). cbn [bind]. destruct (assert_ok _ _ _ _ _ _ Fs) as (-> & _). cbn [bind].
  unfold field_set. cbn [view_of w_kind w_sh]. destruct (kind_eqb k k') eqn:Ek; [|reflexivity]. destruct (conform sh sh') eqn:Es; [|reflexivity].
  apply kind_eqb_spec in Ek. apply conform_spec in Es. tauto.
Qed.
Print Assumptions C83_set_refused.

(** A copy has the values and the letter of the original, and everything else stays. *)
Theorem C83_copy : forall s r k ch sh m, good s -> is_field s r k ch sh m -> (k = KV -> st_env s <> None) ->
  exists s' n m', field_copy r s = Val (s', Obj n) /\ nth_error (st_objs s) n = None /\ is_field s' (Obj n) k ch sh m' /\ same_values k sh m' m /\
    (forall r k ch sh m, is_field s r k ch sh m -> is_field s' r k ch sh m) /\ st_band s' = st_band s /\ good s'.
Proof.
  intros s r k ch sh m G F He. destruct (copy_core s r k ch sh m G F He) as (s' & m' & E & F' & V & A1 & A2 & A3 & A4 & A5 & A6 & A7 & G').
  exists s', (length (st_objs s)), m'. split; [exact E|]. split; [apply nth_error_None; lia|]. split; [exact F'|]. split; [exact V|]. split; [|split; [exact A5|exact G']].
  intros r1 k1 ch1 sh1 m1 [e k2 He1 Hh1 Hk1|n o Hn]; [|apply obj_is; apply A7; exact Hn]. pose proof (cur_is s' e k2) as Q. rewrite A1, A2, A3, A4 in Q. apply Q; assumption.
Qed.
Print Assumptions C83_copy.

(** Every sequence of commands, from the start of the program or any good state, either ends in a
    good state or is refused; it never reads or writes outside the arrays and never divides by
    zero. *)
Theorem C83_safe : forall cs s, good s -> Forall good_cmd cs -> match fruns cs s with Val s' => good s' | Abort => True | UB | NonFin => False end.
Proof. intros cs s G H. pose proof (fruns_okt cs s G H) as K. destruct (fruns cs s); cbn [okt] in K; try exact K. apply K. Qed.
Print Assumptions C83_safe.
Theorem C83_start : good fstate0.
Proof. split; [exact I|]. split; [discriminate|]. split; [intros H; exfalso; apply H; reflexivity|constructor]. Qed.
Print Assumptions C83_start.
(** Objects are the user's own: none of the commands changes one it is not told to write to. *)
Theorem C83_frame : forall cs s s' n k ch sh m, good s -> Forall good_cmd cs -> fruns cs s = Val s' -> Forall (spares n) cs ->
  is_field s (Obj n) k ch sh m -> is_field s' (Obj n) k ch sh m.
Proof.
  intros cs s s' n k ch sh m G H E Hs F. pose proof (fruns_okt cs s G H) as K. rewrite E in K. cbn [okt] in K. apply (kept_is n s s'); [apply K; exact Hs|exact F].
Qed.
Print Assumptions C83_frame.

(** A field that was copied can be loaded again after any other computations on the same grid. *)
Theorem C83_restore : forall s k ch sh m, good s -> is_field s Cur k ch sh m -> exists s1 n, field_copy Cur s = Val (s1, Obj n) /\
  forall cs s2 e2, Forall good_cmd cs -> Forall (spares n) cs -> fruns cs s1 = Val s2 -> st_env s2 = Some e2 -> env_shape e2 = sh ->
    exists s3 m3, field_load (Obj n) s2 = Val s3 /\ is_field s3 Cur k ch sh m3 /\ same_values k sh m3 m /\ st_objs s3 = st_objs s2.
Proof.
  intros s k ch sh m G F. assert (He : st_env s <> None) by (inversion F; congruence). assert (Hkl : kind_of_letter ch = Some k) by (inversion F; congruence).
  destruct (copy_core s Cur k ch sh m G F (fun _ => He)) as (s1 & m1 & E & F1 & V1 & _ & _ & _ & _ & _ & _ & _ & G1). exists s1, (length (st_objs s)). split; [exact E|].
  intros cs s2 e2 Hg Hs Er He2 Hsh. pose proof (fruns_okt cs s1 G1 Hg) as K. rewrite Er in K. cbn [okt] in K. destruct K as (G2 & K). pose proof (kept_is _ s1 s2 _ _ _ _ (K _ Hs) F1) as F2.
  destruct (load_core s2 _ k ch sh m1 e2 G2 F2 He2 (eq_sym Hsh)) as (m3 & E3 & _ & V3). exists (set_field s2 m3 true ch (st_band s2)), m3. split; [exact E3|].
  split; [rewrite <- Hsh; apply (cur_is (set_field s2 m3 true ch (st_band s2)) e2 k); cbn; auto|]. split; [|reflexivity].
  intros i Hi. rewrite (V3 i Hi). apply V1. exact Hi.
Qed.
Print Assumptions C83_restore.

(** field-map! gives the function of the values the sources had before, at every point, even if the
    destination is among the sources; it is refused only if the function is undefined or its result
    of another kind somewhere. *)
Theorem C83_map : forall s dst f src k ch sh md srcs, good s -> is_field s dst k ch sh md -> Forall2 (fun r t => let '(k, ch, m) := t in is_field s r k ch sh m) src srcs ->
  (dst = Cur -> Forall (fun t => let '(k, ch, _) := t in kind_of_letter ch = Some k) srcs) ->
  (exists s' m, field_map dst f src s = Val s' /\ is_field s' dst k (map_letter k ch srcs) sh m /\ others_kept dst s s' /\ good s' /\
    forall i, (i < points sh)%nat -> exists x, f (map (fun t => let '(k, _, m) := t in value k m i) srcs) = Some x /\ stored_as k x = Some (value k m i)) \/
  (field_map dst f src s = Abort /\ exists i, (i < points sh)%nat /\
    match f (map (fun t => let '(k, _, m) := t in value k m i) srcs) with Some x => stored_as k x = None | None => True end).
Proof.
  intros s dst f src k ch sh md srcs G F HF HL. destruct (map_full s dst k ch sh md f src srcs G F HF) as [(m & E & L & V)|B]; [left|right; exact B].
  exists (finish s dst (map_letter k ch srcs) m), m. split; [exact E|]. split; [|split; [apply finish_others|split; [|exact V]]].
  - apply (finish_field s dst k ch sh md); [exact F|]. intros Hd. specialize (HL Hd). assert (Hk : kind_of_letter ch = Some k) by (subst dst; inversion F; congruence).
    unfold map_letter. destruct srcs as [|[[k' ch'] m'] [|t l]]; [exact Hk| |destruct k; reflexivity]. inversion HL; subst. destruct k, k'; assumption.
  - pose proof (map_okt s dst f src G) as K. rewrite E in K. apply K.
Qed.
Print Assumptions C83_map.

(** get-poynting: conj(E) x H at every point, as a field without the Bloch phase. *)
Theorem C83_poynting : forall s e b, good s -> st_env s = Some e -> v_k e <> 0 -> 1 <= b <= ep (v_H e) ->
  exists ef hf s', M_Fld.get_efield (v_d e) (v_Vol e) (v_freqs e) (v_H e) (v_W0 e) b (unflat (st_mem s)) = Val ef /\
    get_hfield (v_d e) (v_Vol e) (v_H e) (v_W0 e) b ef = Val hf /\ poynting b s = Val s' /\
    is_field s' Cur KV "v" (env_shape e) (st_mem s') /\ st_band s' = b /\ good s' /\
    (forall i, (i < Z.to_nat (npts (v_d e)))%nat -> value KV (st_mem s') i = vitem (cross (fun c => Cconj (at_point ef i c)) (at_point hf i))) /\
    (forall n k ch sh m, is_field s (Obj n) k ch sh m -> is_field s' (Obj n) k ch sh m).
Proof.
  intros s e b G He Hk Hb. destruct (poynting_run s e b G He Hk Hb) as (ef & hf & s' & Ee & Eh & Ep & Hc & Hh & Hb' & He' & V). exists ef, hf, s'. split; [exact Ee|]. split; [exact Eh|]. split; [exact Ep|].
  pose proof (poynting_okt (fun _ => True) b s G) as K. rewrite Ep in K. cbn [okt] in K. destruct K as (G' & K).
  split; [rewrite <- Hc; apply (cur_is s' e KV); auto; rewrite Hc; reflexivity|]. split; [exact Hb'|]. split; [exact G'|]. split; [exact V|].
  intros n k ch sh m F. apply (kept_is n s s'); [apply K; exact I|exact F].
Qed.
Print Assumptions C83_poynting.
(** Its flux along u is what compute-1-group-velocity-component gives, which is the group velocity
    (C64). *)
Theorem C83_flux : forall s e b w u W1 fft, good s -> st_env s = Some e -> v_k e <> 0 -> 1 <= b <= ep (v_H e) -> rd (v_freqs e) (b - 1) = Val w -> w <> 0%R ->
  1 <= ealloc (v_W0 e) -> fields (v_d e) W1 -> 1 <= ealloc W1 -> 0 < d_nfb (v_d e) -> 3 * npts (v_d e) <= Z.of_nat (length fft) ->
  exists s', poynting b s = Val s' /\
    group_velocity_1 false u (v_freqs e) b (v_d e) (v_H e) (v_W0 e) W1 fft = Some (Val (flux (Z.to_nat (npts (v_d e))) (v_Vol e) u (st_mem s'))).
Proof.
  intros s e b w u W1 fft G He Hk Hb Ew Hw A0 F1 A1 Hn Hf. destruct (flux_gvv s e b w u G He Hk Hb Ew Hw) as (s' & Ep & Efx). exists s'. split; [exact Ep|].
  pose proof G as (Ge & _). rewrite He in Ge. destruct Ge as (Wd & HV & _ & FH & F0 & _ & Lq & _).
  destruct (gv1_ok (v_d e) false u (v_freqs e) b (v_H e) (v_W0 e) W1 fft Wd FH Hb Lq F0 A0 F1 A1 Hn Hf) as (x & E & _ & H1). rewrite E. do 2 f_equal.
  assert (Q : getr (v_freqs e) (b - 1) = w) by (rewrite getr_in in Ew by lia; injection Ew as <-; reflexivity). rewrite Q in H1. specialize (H1 Hw). cbn [divisor] in H1.
  apply Rmult_eq_reg_l with w; [|exact Hw]. rewrite Efx. exact H1.
Qed.
Print Assumptions C83_flux.

(** get-tot-pwr: the sum of the energy densities of D and B at every point. *)
Theorem C83_tot_pwr : forall s e b, good s -> st_env s = Some e -> v_k e <> 0 -> 1 <= b <= ep (v_H e) ->
  exists df bf ft s', get_dfield (v_d e) (v_Vol e) (v_freqs e) (v_H e) (v_W0 e) b (unflat (st_mem s)) = Val df /\ 3 * npts (v_d e) <= Z.of_nat (length ft) /\
    get_bfield (v_d e) (v_Vol e) (v_H e) b ft = Val bf /\ tot_pwr b s = Val s' /\ is_field s' Cur KR "R" (env_shape e) (st_mem s') /\ st_band s' = b /\ good s' /\
    (forall i, (i < Z.to_nat (npts (v_d e)))%nat -> value KR (st_mem s') i = IR (density FD (v_d e) df i + density FB (v_d e) bf i)%R) /\
    (forall n k ch sh m, is_field s (Obj n) k ch sh m -> is_field s' (Obj n) k ch sh m).
Proof.
  intros s e b G He Hk Hb. destruct (tot_run s e b G He Hk Hb) as (df & bf & ft & s' & Ed & Lf & Eb & Et & Hc & Hh & Hb' & He' & V). exists df, bf, ft, s'. split; [exact Ed|]. split; [exact Lf|]. split; [exact Eb|]. split; [exact Et|].
  pose proof (tot_pwr_okt (fun _ => True) b s G) as K. rewrite Et in K. cbn [okt] in K. destruct K as (G' & K).
  split; [rewrite <- Hc; apply (cur_is s' e KR); auto; rewrite Hc; reflexivity|]. split; [exact Hb'|]. split; [exact G'|]. split; [exact V|].
  intros n k ch sh m F. apply (kept_is n s s'); [apply K; exact I|exact F].
Qed.
Print Assumptions C83_tot_pwr.

(** What is wrong.  The permeability as current field is refused by every field object command. *)
Theorem C83_mu_refused : forall s s', st_env s <> None -> do_medium true s = Val s' -> st_has s' = true /\ st_ch s' = "m"%char /\
  (forall k, make k Cur s' = Abort) /\ field_copy Cur s' = Abort /\ (forall dst f l1 l2, field_map dst f (l1 ++ Cur :: l2) s' = Abort) /\ (forall dst, field_setB dst Cur s' = Abort).
Proof.
  intros s s' He E. unfold do_medium in E. destruct (st_env s) as [e|] eqn:Ee; [|contradiction]. match type of E with bind ?o _ = _ => destruct o as [mem| | |]; try discriminate end. cbn [bind] in E. injection E as <-.
  split; [reflexivity|]. split; [reflexivity|].
  assert (A : assert_field Cur (set_field s mem true "m" 0) = Abort) by (unfold assert_field, update_curfield_smob; cbn [set_field st_env st_ch]; rewrite Ee; reflexivity).
  split; [intros k; unfold make; rewrite A; reflexivity|]. split; [unfold field_copy, field_make; rewrite A; reflexivity|]. split.
  - intros dst f l1 l2. unfold field_map. destruct (assert_abort (set_field s mem true "m" 0) dst) as [-> |(vd & ->)]; [reflexivity|]. cbn [bind].
    assert (Q : mapM (fun r => let! v := assert_field r (set_field s mem true "m" 0) in let! _ := check (conform (w_sh vd) (w_sh v)) in Val v) (l1 ++ Cur :: l2) = Abort); [|rewrite Q; reflexivity].
    induction l1 as [|r l1 IH]; cbn [app mapM]; [rewrite A; reflexivity|]. destruct (assert_abort (set_field s mem true "m" 0) r) as [-> |(v & ->)]; [reflexivity|]. cbn [bind].
    destruct (conform (w_sh vd) (w_sh v)); [|reflexivity]. cbn [check bind]. rewrite IH. reflexivity.
  - intros dst. unfold field_setB. destruct (assert_abort (set_field s mem true "m" 0) dst) as [-> |(vd & ->)]; [reflexivity|]. cbn [bind]. rewrite A. reflexivity.
Qed.
Print Assumptions C83_mu_refused.

(** A grid of two points, two bands, everything one; and a state with the field H of the first. *)
Definition ex_env : fenv := {| v_d := ex_d 1 None; v_Vol := 2; v_HN := 2; v_freqs := [1; 2]%R; v_H := ex_X; v_W0 := {| en := 4; ep := 1; ealloc := 1; edata := repeat C1 4 |}; v_k := 1; v_eigs := fun _ => (1, 1, 1)%R |}.
Definition ex_obj : fobj := {| fo_kind := KR; fo_ch := "R"; fo_sh := env_shape ex_env; fo_data := [1; 2]%R |}.
Definition ex_state : fstate := {| st_env := Some ex_env; st_mem := [0; 1; 1; 0; 0; 0; 0; 0; 0; 0; 0; 0]%R; st_has := true; st_ch := "h"; st_band := 1; st_objs := [ex_obj] |}.
Example C83_example : good ex_state /\ is_field ex_state Cur KV "h" (env_shape ex_env) (st_mem ex_state) /\ is_field ex_state (Obj 0) KR "R" (env_shape ex_env) [1; 2]%R /\
  points (env_shape ex_env) = 2%nat /\ 1 <= 2 <= ep (v_H ex_env) /\ v_k ex_env <> 0 /\ rd (v_freqs ex_env) 1 = Val 2%R /\ good_cmd (Phys ex_env (st_mem ex_state)) /\ Forall (spares 0) [GetD 2; EnergyF; SetF Cur (Obj 0)].
Proof.
  assert (GE : good_env ex_env (st_mem ex_state)).
  { unfold good_env, ex_env. cbn [v_d v_Vol v_HN v_H v_W0 v_freqs v_eigs]. split; [apply create_wfd; try lia; try reflexivity; intros m E; discriminate E|].
    split; [lra|]. split; [lra|]. repeat split; cbn; try lia; try lra; auto. intros m e0 e1 e2 [= <- <- <-]. lra. }
  split; [|split; [|split; [|split; [|split; [|split; [|split; [|split]]]]]]].
  - split; [exact GE|]. split; [discriminate|]. split; [reflexivity|]. constructor; [|constructor]. unfold good_obj. cbn. repeat split; try lia. discriminate.
  - apply (cur_is ex_state ex_env KV); reflexivity.
  - apply (obj_is ex_state 0 ex_obj). reflexivity.
  - reflexivity.
  - cbn. lia.
  - discriminate.
  - reflexivity.
  - exact GE.
  - repeat constructor; discriminate.
Qed.
Example C83_flux_example : 1 <= ealloc (v_W0 ex_env) /\ fields (v_d ex_env) (v_W0 ex_env) /\ 0 < d_nfb (v_d ex_env) /\ 3 * npts (v_d ex_env) <= Z.of_nat (length (repeat C0 6)).
Proof. cbn. unfold fields, wf, npts. cbn. repeat split; lia. Qed.

(** The permeability cannot be used through cur-field, though the permittivity can. *)
Theorem C83_mu_refuted : exists s s' s'', good s /\ do_medium true s = Val s' /\ field_copy Cur s' = Abort /\ do_medium false s = Val s'' /\ exists x, field_copy Cur s'' = Val x.
Proof.
  destruct C83_example as (G & _). exists ex_state.
  assert (E1 : exists s', do_medium true ex_state = Val s').
  { pose proof (medium_okt (fun _ => True) true ex_state G) as K. destruct (do_medium true ex_state) as [s'| | |] eqn:E; try contradiction K; [eauto|]. exfalso. cbn in E. discriminate E. }
  assert (E2 : exists m, do_medium false ex_state = Val (set_field ex_state m true "n" 0)).
  { pose proof (medium_okt (fun _ => True) false ex_state G) as K. unfold do_medium in *. cbn [ex_state st_env] in *.
    match type of K with okt _ _ (bind ?o _) => destruct o as [m| | |] eqn:E; try contradiction K end; [eexists; reflexivity|].
    exfalso. cbn in E. unfold mean_medium in E. cbn in E. rewrite !fdiv_nz in E by lra. cbn in E. discriminate E. }
  destruct E1 as (s' & E1), E2 as (m & E2). exists s', (set_field ex_state m true "n" 0). split; [exact G|]. split; [exact E1|].
  split; [apply (C83_mu_refused ex_state s' ltac:(discriminate) E1)|]. split; [exact E2|].
  pose proof (medium_okt (fun _ => True) false ex_state G) as K. rewrite E2 in K. destruct K as (G2 & _).
  destruct (C83_copy _ Cur KR "n" (env_shape ex_env) m G2) as (s3 & n & m' & E3 & _); [apply (cur_is (set_field ex_state m true "n" 0) ex_env KR); reflexivity|discriminate|]. exists (s3, Obj n). exact E3.
Qed.
Print Assumptions C83_mu_refuted.

(** cvector-field-nonbloch! accepts a scalar field, which is a vector field after being loaded. *)
Theorem C83_nonbloch_refuted : exists s s1 s2 m, good s /\ is_field s (Obj 0) KR "R" (env_shape ex_env) [1; 2]%R /\ nonbloch (Obj 0) s = Val s1 /\ field_load (Obj 0) s1 = Val s2 /\
  is_field s2 Cur KV "v" (env_shape ex_env) m.
Proof.
  destruct C83_example as (G & _ & F & _). set (s1 := finish ex_state (Obj 0) "v" [1; 2]%R).
  assert (E1 : nonbloch (Obj 0) ex_state = Val s1) by reflexivity. assert (G1 : good s1) by (apply (good_finish ex_state (Obj 0) KR "R" (env_shape ex_env) [1; 2]%R); auto; discriminate).
  assert (F1 : is_field s1 (Obj 0) KR "v" (env_shape ex_env) [1; 2]%R) by (apply (finish_field ex_state (Obj 0) KR "R" (env_shape ex_env) [1; 2]%R); auto; discriminate).
  destruct (load_core s1 (Obj 0) KR "v" (env_shape ex_env) [1; 2]%R ex_env G1 F1 eq_refl eq_refl) as (m & E2 & _). exists ex_state, s1, (set_field s1 m true "v" (st_band s1)), m.
  split; [exact G|]. split; [exact F|]. split; [exact E1|]. split; [exact E2|]. apply (cur_is (set_field s1 m true "v" (st_band s1)) ex_env KV); reflexivity.
Qed.
Print Assumptions C83_nonbloch_refuted.

(** get-poynting of a band that does not exist is not refused: it is conj(F) x F of whatever was
    loaded; here it is not even zero. *)
Theorem C83_band_refuted : exists s b s' m, good s /\ (forall e, st_env s = Some e -> ep (v_H e) < b) /\ poynting b s = Val s' /\
  is_field s' Cur KV "v" (env_shape ex_env) m /\ value KV m 0 = IV C0 C0 (0, -2)%R.
Proof.
  destruct C83_example as (G & _). destruct (poynting_refused ex_state ex_env 3 "h" G eq_refl eq_refl) as (s' & E & Hc & Hh & _ & He & V); [discriminate|reflexivity|cbn; lia|].
  exists ex_state, 3, s', (st_mem s'). split; [exact G|]. split; [intros e [= <-]; cbn; lia|]. split; [exact E|]. split; [rewrite <- Hc; apply (cur_is s' ex_env KV); auto; rewrite Hc; reflexivity|].
  rewrite (V 0%nat ltac:(cbn; lia)). unfold vitem, cross, cnum, num, ex_state. cbn [Nat.modulo Nat.divmod Nat.add fst snd Nat.sub Nat.mul st_mem nth]. f_equal; apply C_eq; csimp; ring.
Qed.
Print Assumptions C83_band_refuted.
