(** Copies, the Poynting vector and the energy density. *)
From Coq Require Import String Ascii List ZArith Reals Lra Lia Bool.
From Verif Require Import Base RC Loops M_Tensor S_Tensor M_Evect S_Evect M_Grid S_Grid M_Op S_Op M_Fld S_Fld M_Half M_Cur M_Fob S_Fob L_Fld L_Fld2 L_Op2 L_Op3 L_Fob1 L_Fob2 L_Fob3.
Import ListNotations.
Local Open Scope Z_scope.

Lemma zero_num n p : num (repeat 0%R n) p = 0%R.
Proof. unfold num. apply nth_repeat. Qed.
Lemma zero_value k sh i : value k (fo_data (zeros k sh)) i = match k with KR => IR 0 | KC => IC C0 | KV => IV C0 C0 C0 end.
Proof. cbn [zeros fo_data]. destruct k; cbn [value]; unfold cnum; rewrite ?zero_num; reflexivity. Qed.
Lemma new_is s k sh : is_field (set_objs s (st_objs s ++ [zeros k sh])) (Obj (length (st_objs s))) k (plain k) sh (fo_data (zeros k sh)).
Proof.
  pose proof (obj_is (set_objs s (st_objs s ++ [zeros k sh])) (length (st_objs s)) (zeros k sh)) as H. apply H. cbn [set_objs st_objs]. rewrite nth_error_app2 by lia. rewrite Nat.sub_diag. reflexivity.
Qed.
Lemma old_is s l r k ch sh m : is_field s r k ch sh m -> is_field (set_objs s (st_objs s ++ l)) r k ch sh m.
Proof.
  intros [e k' He Hh Hk|n o Hn]; [apply (cur_is (set_objs s (st_objs s ++ l)) e k'); auto|]. apply (obj_is (set_objs s (st_objs s ++ l)) n o). cbn [set_objs st_objs]. rewrite nth_error_app1; [exact Hn|]. apply nth_error_Some. congruence.
Qed.
Lemma kept_is n s s' k ch sh m : kept n s s' -> is_field s (Obj n) k ch sh m -> is_field s' (Obj n) k ch sh m.
Proof. intros K H. inversion H as [|n' o Hn]; subst. apply obj_is. apply K. exact Hn. Qed.

Lemma copy_core s r k ch sh m : good s -> is_field s r k ch sh m -> (k = KV -> st_env s <> None) ->
  exists s' m', field_copy r s = Val (s', Obj (length (st_objs s))) /\ is_field s' (Obj (length (st_objs s))) k ch sh m' /\ same_values k sh m' m /\
    st_env s' = st_env s /\ st_mem s' = st_mem s /\ st_has s' = st_has s /\ st_ch s' = st_ch s /\ st_band s' = st_band s /\
    length (st_objs s') = S (length (st_objs s)) /\ (forall n o, nth_error (st_objs s) n = Some o -> nth_error (st_objs s') n = Some o) /\ good s'.
Proof.
  intros G F He. unfold field_copy, field_make. destruct (assert_ok _ _ _ _ _ _ F) as (A & _). rewrite A. cbn [bind view_of w_kind]. rewrite (make_ok s k r k ch sh m F He). cbn [bind].
  set (s1 := set_objs s (st_objs s ++ [zeros k sh])). assert (G1 : good s1) by (apply good_make; [exact G|apply (field_room _ _ _ _ _ _ G F)]).
  pose proof (new_is s k sh) as Fn. fold s1 in Fn. pose proof (old_is s [zeros k sh] r k ch sh m F) as Fo. fold s1 in Fo.
  destruct (set_core s1 (Obj (length (st_objs s))) r k (plain k) ch sh _ m G1 Fn Fo (same_chars _ _ _ _ _ _ G F)) as (m' & E & L & V).
  unfold field_setB. destruct (assert_ok _ _ _ _ _ _ Fn) as (-> & _). cbn [bind]. destruct (assert_ok _ _ _ _ _ _ Fo) as (-> & _). cbn [bind]. rewrite E. cbn [bind].
  set (s2 := finish s1 (Obj (length (st_objs s))) ch m'). exists s2, m'.
  split; [reflexivity|]. split; [apply (finish_field s1 _ k (plain k) sh _ ch m' Fn); discriminate|]. split; [exact V|].
  destruct (finish_others s1 (Obj (length (st_objs s))) ch m') as (O1 & O2 & O3 & O4 & O5). fold s2 in O1, O2, O3, O4, O5. destruct (O5 ltac:(discriminate)) as (O6 & O7 & O8).
  split; [exact O1|]. split; [exact O6|]. split; [exact O7|]. split; [exact O8|]. split; [exact O2|].
  split; [rewrite O3; unfold s1; cbn [set_objs st_objs]; rewrite app_length; cbn; lia|].
  split; [|apply (good_finish s1 _ k (plain k) sh _ ch m' G1 Fn L); apply (same_chars _ _ _ _ _ _ G F)].
  intros n o Ho. assert (n < length (st_objs s))%nat by (apply nth_error_Some; congruence). rewrite O4 by (intros Q; injection Q as Q; lia). unfold s1. cbn [set_objs st_objs]. rewrite nth_error_app1 by assumption. exact Ho.
Qed.

(** field-map! for given sources. *)
Lemma map_core s r0 k0 ch0 sh md f rs srcs : good s -> is_field s r0 k0 ch0 sh md -> Forall2 (fun r km => exists ch, is_field s r (fst km) ch sh (snd km)) rs srcs ->
  exists vs, Forall2 (fun r vkm => src_ok s sh r (fst vkm) (snd vkm)) rs (combine vs srcs) /\ length vs = length srcs /\
  ((exists m, field_map r0 f rs s = Val (finish s r0 (new_letter k0 ch0 vs) m) /\ length m = length md /\
    forall i, (i < points sh)%nat -> exists x, f (args_at srcs i) = Some x /\ stored_as k0 x = Some (value k0 m i)) \/
  (field_map r0 f rs s = Abort /\ exists i, (i < points sh)%nat /\ match f (args_at srcs i) with Some x => stored_as k0 x = None | None => True end)).
Proof.
  intros G F0 HF.
  assert (K : exists vs, mapM (fun r => let! v := assert_field r s in let! _ := check (conform sh (w_sh v)) in Val v) rs = Val vs /\
    Forall2 (fun r vkm => src_ok s sh r (fst vkm) (snd vkm)) rs (combine vs srcs) /\ length vs = length srcs).
  { clear F0. induction HF as [|r km rs srcs (ch & Fr) HF IH]; [exists []; split; [reflexivity|split; [constructor|reflexivity]]|].
    destruct IH as (vs & E & H & L). exists (view_of r (fst km) ch sh :: vs). cbn [mapM]. destruct (assert_ok _ _ _ _ _ _ Fr) as (-> & _). cbn [bind view_of w_sh]. rewrite conform_refl. cbn [check bind].
    rewrite E. cbn [bind]. split; [reflexivity|]. split; [|cbn [length]; congruence]. cbn [combine]. constructor; [|exact H]. exists ch. split; [exact Fr|reflexivity]. }
  destruct K as (vs & E & H & L). exists vs. split; [exact H|]. split; [exact L|]. unfold field_map. destruct (assert_ok _ _ _ _ _ _ F0) as (-> & _). cbn [bind view_of w_sh]. rewrite E. cbn [bind].
  destruct (map_loop s r0 k0 ch0 sh md f rs vs srcs G F0 H L) as [(m & Em & Lm & V)|(Em & B)]; rewrite Em; cbn [bind].
  - left. exists m. split; [|auto]. cbn [view_of w_kind w_ch]. pose proof (finish_ok s r0 k0 ch0 sh md (new_letter k0 ch0 vs) m F0) as Q. unfold new_letter in Q |- *. rewrite Q. reflexivity.
  - right. split; [reflexivity|exact B].
Qed.

(** Values of a stored complex field. *)
Lemma flat_num f j : (j < length f)%nat -> cnum (flat f) j = gets f (Z.of_nat j).
Proof.
  intros H. pose proof (cget_flat f (Z.of_nat j) ltac:(lia)) as A. rewrite cget_num in A; [|lia|rewrite flat_length; lia]. rewrite Nat2Z.id in A. assert (Q : forall x y : C, Val x = Val y -> x = y) by (intros x y [= ->]; reflexivity). apply Q. exact A.
Qed.
Lemma flat_value f i : (3 * i + 2 < length f)%nat -> value KV (flat f) i = vitem (at_point f i).
Proof.
  intros H. cbn [value]. rewrite !flat_num by lia. unfold vitem, at_point. f_equal; f_equal; lia.
Qed.

Lemma load_run get ch b s e f : st_env s = Some e -> v_k e <> 0 -> 1 <= b <= ep (v_H e) -> get e (unflat (st_mem s)) = Val f -> load_field get ch b s = Val (set_field s (flat f) true ch b).
Proof.
  intros He Hk Hb Hg. unfold load_field. rewrite He. destruct (Z.eqb_spec (v_k e) 0); [contradiction|]. destruct (Z.ltb_spec b 1); [lia|]. destruct (Z.ltb_spec (ep (v_H e)) b); [lia|]. cbn [orb]. rewrite Hg. reflexivity.
Qed.
Lemma efield_run s e b : good s -> st_env s = Some e -> v_k e <> 0 -> 1 <= b <= ep (v_H e) ->
  exists f, M_Fld.get_efield (v_d e) (v_Vol e) (v_freqs e) (v_H e) (v_W0 e) b (unflat (st_mem s)) = Val f /\ length f = length (unflat (st_mem s)) /\ do_efield b s = Val (set_field s (flat f) true "e" b).
Proof.
  intros G He Hk Hb. pose proof (good_work s e G He) as WS. destruct (good_freq s e b G He Hb) as (w & Ew). pose proof G as (Ge & _). rewrite He in Ge. destruct Ge as (Wd & HV & _ & FH & _).
  destruct (efield_ok (v_d e) Wd (v_Vol e) (v_freqs e) (v_H e) (v_W0 e) b (unflat (st_mem s)) w HV FH Hb WS Ew) as (df & f & Ed & Ee & L & _). exists f. split; [exact Ee|]. split; [exact L|].
  unfold do_efield, do_dfield. rewrite (load_run _ "d" b s e df He Hk Hb Ed). cbn [bind]. unfold do_e_from_d. cbn [set_field st_has st_ch st_env st_mem st_band negb orb Ascii.eqb Bool.eqb]. rewrite He, unflat_flat.
  unfold M_Fld.get_efield in Ee. rewrite Ed in Ee. cbn [bind] in Ee. rewrite Ee. reflexivity.
Qed.

Lemma cross_items (x y : nat -> C) : conj_cross [vitem x; vitem y] = Some (vitem (cross (fun c => Cconj (x c)) y)).
Proof. reflexivity. Qed.

Lemma poynting_run s e b : good s -> st_env s = Some e -> v_k e <> 0 -> 1 <= b <= ep (v_H e) ->
  exists ef hf s', M_Fld.get_efield (v_d e) (v_Vol e) (v_freqs e) (v_H e) (v_W0 e) b (unflat (st_mem s)) = Val ef /\
    get_hfield (v_d e) (v_Vol e) (v_H e) (v_W0 e) b ef = Val hf /\ poynting b s = Val s' /\ st_ch s' = "v"%char /\ st_has s' = true /\ st_band s' = b /\ st_env s' = Some e /\
    (forall i, (i < Z.to_nat (npts (v_d e)))%nat -> value KV (st_mem s') i = vitem (cross (fun c => Cconj (at_point ef i c)) (at_point hf i))).
Proof.
  intros G He Hk Hb. destruct (efield_run s e b G He Hk Hb) as (ef & Ee & Le & Ed). pose proof G as (Ge & _). rewrite He in Ge. destruct Ge as (Wd & HV & _ & FH & _ & _ & _ & Ev & Lm & _).
  set (s1 := set_field s (flat ef) true "e" b). assert (L1 : length (flat ef) = length (st_mem s)) by (apply flat_same; assumption).
  assert (G1 : good s1) by (apply (good_mem s e); auto). pose proof (unflat_length _ Ev) as Lu. pose proof (npts_pos _ Wd).
  assert (F1 : is_field s1 Cur KV "e" (env_shape e) (flat ef)) by (apply (cur_is s1 e KV); auto).
  destruct (copy_core s1 Cur KV "e" (env_shape e) (flat ef) G1 F1 ltac:(unfold s1; cbn; congruence)) as (s2 & m2 & E2 & F2 & V2 & A1 & A2 & A3 & A4 & A5 & A6 & A7 & G2).
  assert (He2 : st_env s2 = Some e) by (rewrite A1; exact He). assert (M2 : st_mem s2 = flat ef) by (rewrite A2; reflexivity).
  pose proof (good_work s2 e G2 He2) as WS2. rewrite M2, unflat_flat in WS2.
  destruct (hfield_ok (v_d e) Wd (v_Vol e) (v_H e) (v_W0 e) b ef HV FH Hb WS2) as (hf & Eh & Lh & _).
  set (s3 := set_field s2 (flat hf) true "h" b). assert (E3 : do_hfield b s2 = Val s3).
  { unfold do_hfield. apply (load_run _ "h" b s2 e hf He2 Hk Hb). rewrite M2, unflat_flat. exact Eh. }
  assert (G3 : good s3) by (apply (good_mem s2 e); auto; rewrite M2, !flat_length, Lh; reflexivity).
  assert (F3 : is_field s3 Cur KV "h" (env_shape e) (flat hf)) by (apply (cur_is s3 e KV); auto).
  assert (F3o : is_field s3 (Obj (length (st_objs s1))) KV "e" (env_shape e) m2).
  { apply (kept_is _ s2); [apply kept_objs; reflexivity|exact F2]. }
  destruct (map_core s3 Cur KV "h" (env_shape e) (flat hf) conj_cross [Obj (length (st_objs s1)); Cur] [(KV, m2); (KV, flat hf)] G3 F3) as (vs & HV2 & Lvs & Hm).
  { constructor; [exists "e"%char; exact F3o|]. constructor; [exists "h"%char; exact F3|constructor]. }
  assert (N : points (env_shape e) = Z.to_nat (npts (v_d e))) by (unfold points; cbn [env_shape sh_N]; rewrite (npts_out _ Wd); reflexivity).
  assert (AV : forall i, (i < points (env_shape e))%nat -> conj_cross (args_at [(KV, m2); (KV, flat hf)] i) = Some (vitem (cross (fun c => Cconj (at_point ef i c)) (at_point hf i)))).
  { intros i Hi. unfold args_at. cbn [map fst snd]. rewrite (V2 i Hi). rewrite !flat_value by lia. apply cross_items. }
  destruct Hm as [(m & Em & Lm' & Vm)|(_ & i & Hi & B)]; [|rewrite (AV i Hi) in B; discriminate].
  set (s4 := finish s3 Cur (new_letter KV "h" vs) m) in *.
  exists ef, hf, (set_field s4 m true "v" b). split; [exact Ee|]. split; [exact Eh|]. split.
  - unfold poynting. rewrite Ed. cbn [bind]. fold s1. rewrite E2. cbn [bind]. rewrite E3. cbn [bind]. rewrite Em. cbn [bind]. unfold nonbloch.
    assert (NL : new_letter KV "h" vs = "c"%char) by (destruct vs as [|? [|? ?]]; try discriminate; reflexivity).
    assert (F4 : is_field s4 Cur KV "c" (env_shape e) m) by (rewrite <- NL; apply (finish_field s3 Cur KV "h" (env_shape e) (flat hf)); [exact F3|intros _; rewrite NL; reflexivity]).
    destruct (assert_ok _ _ _ _ _ _ F4) as (-> & _). cbn [bind]. unfold set_ch, view_of. cbn [w_cur w_ptr ptr_of]. reflexivity.
  - cbn [set_field st_ch st_has st_band st_env st_mem]. split; [reflexivity|]. split; [reflexivity|]. split; [reflexivity|]. split; [exact He2|].
    intros i Hi. rewrite <- N in Hi. destruct (Vm i Hi) as (x & Ex & Sx). rewrite (AV i Hi) in Ex. assert (Q : x = vitem (cross (fun c => Cconj (at_point ef i c)) (at_point hf i))) by congruence. rewrite Q in Sx. assert (Q2 : forall a b : item, Some a = Some b -> b = a) by (intros a b0 [= ->]; reflexivity). apply Q2. exact Sx.
Qed.

Lemma kr_value m i x : rd m (Z.of_nat i) = Val x -> value KR m i = IR x.
Proof. intros H. pose proof (rd_val_in _ _ _ H) as B. rewrite rd_num in H by exact B. rewrite Nat2Z.id in H. injection H as <-. reflexivity. Qed.

Lemma tot_run s e b : good s -> st_env s = Some e -> v_k e <> 0 -> 1 <= b <= ep (v_H e) ->
  exists df bf ft s', get_dfield (v_d e) (v_Vol e) (v_freqs e) (v_H e) (v_W0 e) b (unflat (st_mem s)) = Val df /\ 3 * npts (v_d e) <= Z.of_nat (length ft) /\
    get_bfield (v_d e) (v_Vol e) (v_H e) b ft = Val bf /\ tot_pwr b s = Val s' /\ st_ch s' = "R"%char /\ st_has s' = true /\ st_band s' = b /\ st_env s' = Some e /\
    (forall i, (i < Z.to_nat (npts (v_d e)))%nat -> value KR (st_mem s') i = IR (density FD (v_d e) df i + density FB (v_d e) bf i)%R).
Proof.
  intros G He Hk Hb. pose proof (good_work s e G He) as WS. destruct (good_freq s e b G He Hb) as (w & Ew). pose proof G as (Ge & _). rewrite He in Ge. destruct Ge as (Wd & HV & _ & FH & _ & _ & _ & Ev & Lm & _).
  pose proof (unflat_length _ Ev) as Lu. pose proof (npts_pos _ Wd) as Np.
  assert (N : points (env_shape e) = Z.to_nat (npts (v_d e))) by (unfold points; cbn [env_shape sh_N]; rewrite (npts_out _ Wd); reflexivity).
  destruct (dfield_ok (v_d e) Wd (v_Vol e) (v_freqs e) (v_H e) (v_W0 e) b (unflat (st_mem s)) w HV FH Hb WS Ew) as (df & Ed & Ld & _).
  set (s1 := set_field s (flat df) true "d" b). assert (E1 : do_dfield b s = Val s1) by (apply (load_run _ "d" b s e df He Hk Hb Ed)).
  assert (G1 : good s1) by (apply (good_mem s e); auto; apply flat_same; assumption).
  destruct (energy_run s1 e FD G1 He) as (m1 & fr1 & Een & Lm1 & V1). cbn [s1 set_field st_mem] in Lm1, V1. unfold s1 in V1. cbn [set_field st_mem] in V1. rewrite unflat_flat in V1.
  set (s2 := set_field s1 m1 true "D" b). assert (E2 : do_energy s1 = Val s2).
  { assert (Q1 : st_ch s1 = "d"%char) by reflexivity. assert (Q2 : st_has s1 = true) by reflexivity. assert (Q3 : st_env s1 = Some e) by exact He. unfold do_energy. rewrite Q1, Q2, Q3. cbn [negb orb in_str andb Ascii.eqb Bool.eqb]. rewrite Een. reflexivity. }
  assert (G2 : good s2) by (apply (good_mem s1 e); auto).
  assert (F2 : is_field s2 Cur KR "D" (env_shape e) m1) by (apply (cur_is s2 e KR); auto).
  destruct (copy_core s2 Cur KR "D" (env_shape e) m1 G2 F2 ltac:(discriminate)) as (s3 & m3 & E3 & F3 & V3 & A1 & A2 & A3 & A4 & A5 & A6 & A7 & G3).
  assert (He3 : st_env s3 = Some e) by (rewrite A1; exact He).
  assert (F3c : is_field s3 Cur KR "D" (env_shape e) m1).
  { pose proof (cur_is s3 e KR He3) as Q. rewrite A2, A3, A4 in Q. apply Q; reflexivity. }
  pose proof (make_ok s3 KR Cur KR "D" (env_shape e) m1 F3c ltac:(discriminate)) as E4. set (s4 := set_objs s3 (st_objs s3 ++ [zeros KR (env_shape e)])) in *.
  assert (G4 : good s4) by (apply good_make; [exact G3|apply (field_room _ _ _ _ _ _ G3 F3c)]). pose proof (new_is s3 KR (env_shape e)) as F4t. fold s4 in F4t.
  pose proof (old_is s3 [zeros KR (env_shape e)] _ _ _ _ _ F3) as F4e. fold s4 in F4e.
  assert (He4 : st_env s4 = Some e) by exact He3. pose proof (good_work s4 e G4 He4) as WS4.
  destruct (bfield_ok (v_d e) Wd (v_Vol e) (v_H e) b (unflat (st_mem s4)) HV FH Hb) as (bf & Eb & Lb & _); [apply WS4|].
  set (s5 := set_field s4 (flat bf) true "b" b). assert (E5 : do_bfield b s4 = Val s5) by (apply (load_run _ "b" b s4 e bf He4 Hk Hb Eb)).
  assert (Ev4 : Nat.even (length (st_mem s4)) = true) by (destruct G4 as (Q & _); rewrite He4 in Q; apply Q).
  assert (G5 : good s5) by (apply (good_mem s4 e); auto; apply flat_same; assumption).
  destruct (energy_run s5 e FB G5 He4) as (m6 & fr6 & Een6 & Lm6 & V6). unfold s5 in V6. cbn [set_field st_mem] in V6. rewrite unflat_flat in V6.
  set (s6 := set_field s5 m6 true "B" b). assert (E6 : do_energy s5 = Val s6).
  { assert (Q1 : st_ch s5 = "b"%char) by reflexivity. assert (Q2 : st_has s5 = true) by reflexivity. assert (Q3 : st_env s5 = Some e) by exact He4. unfold do_energy. rewrite Q1, Q2, Q3. cbn [negb orb in_str andb Ascii.eqb Bool.eqb]. rewrite Een6. reflexivity. }
  assert (G6 : good s6) by (apply (good_mem s5 e); auto).
  assert (F6 : is_field s6 Cur KR "B" (env_shape e) m6) by (apply (cur_is s6 e KR); auto).
  assert (F6e : is_field s6 (Obj (length (st_objs s2))) KR "D" (env_shape e) m3) by (apply (kept_is _ s4); [apply kept_objs; reflexivity|exact F4e]).
  assert (F6t : is_field s6 (Obj (length (st_objs s3))) KR "R" (env_shape e) (fo_data (zeros KR (env_shape e)))) by (apply (kept_is _ s4); [apply kept_objs; reflexivity|exact F4t]).
  destruct (map_core s6 (Obj (length (st_objs s3))) KR "R" (env_shape e) _ add_items [Obj (length (st_objs s2)); Cur] [(KR, m3); (KR, m6)] G6 F6t) as (vs & HVs & Lvs & Hm).
  { constructor; [exists "D"%char; exact F6e|]. constructor; [exists "B"%char; exact F6|constructor]. }
  assert (AV : forall i, (i < points (env_shape e))%nat -> add_items (args_at [(KR, m3); (KR, m6)] i) = Some (IR (density FD (v_d e) df i + density FB (v_d e) bf i)%R)).
  { intros i Hi. unfold args_at. cbn [map fst snd]. rewrite (V3 i Hi). rewrite N in Hi. pose proof (V1 (Z.of_nat i) ltac:(lia)) as Q1. pose proof (V6 (Z.of_nat i) ltac:(lia)) as Q6. rewrite Nat2Z.id in Q1, Q6.
    rewrite (kr_value _ _ _ Q1), (kr_value _ _ _ Q6). reflexivity. }
  destruct Hm as [(m & Em & Lm' & Vm)|(_ & i & Hi & B)]; [|rewrite (AV i Hi) in B; discriminate].
  assert (NL : new_letter KR "R" vs = "R"%char) by (destruct vs as [|? [|? ?]]; try discriminate; reflexivity). rewrite NL in Em.
  set (s7 := finish s6 (Obj (length (st_objs s3))) "R" m) in *.
  assert (F7 : is_field s7 (Obj (length (st_objs s3))) KR "R" (env_shape e) m) by (apply (finish_field s6 _ KR "R" (env_shape e) _ "R" m F6t); discriminate).
  assert (G7 : good s7) by (apply (good_finish s6 _ KR "R" (env_shape e) _ "R" m G6 F6t Lm'); discriminate).
  destruct (finish_others s6 (Obj (length (st_objs s3))) "R" m) as (O1 & O2 & _). fold s7 in O1, O2.
  assert (He7 : st_env s7 = Some e) by (rewrite O1; exact He4).
  destruct (load_core s7 _ KR "R" (env_shape e) m e G7 F7 He7 eq_refl) as (m8 & E8 & L8 & V8).
  exists df, bf, (unflat (st_mem s4)), (set_field s7 m8 true "R" (st_band s7)). split; [exact Ed|]. split; [apply WS4|]. split; [exact Eb|]. split.
  - unfold tot_pwr. rewrite E1. cbn [bind]. rewrite E2. cbn [bind]. rewrite E3. cbn [bind]. rewrite E4. cbn [bind]. rewrite E5. cbn [bind]. rewrite E6. cbn [bind]. rewrite Em. cbn [bind]. exact E8.
  - cbn [set_field st_ch st_has st_band st_env st_mem]. split; [reflexivity|]. split; [reflexivity|]. split; [rewrite O2; reflexivity|]. split; [exact He7|].
    intros i Hi. rewrite <- N in Hi. rewrite (V8 i Hi). destruct (Vm i Hi) as (x & Ex & Sx). rewrite (AV i Hi) in Ex. assert (Q : x = IR (density FD (v_d e) df i + density FB (v_d e) bf i)) by congruence. rewrite Q in Sx. assert (Q2 : forall a b : item, Some a = Some b -> b = a) by (intros a b0 [= ->]; reflexivity). apply Q2. exact Sx.
Qed.

(** field-map! with the letters of the sources. *)
Lemma map_full s r0 k0 ch0 sh md f rs (srcs : list (kind * ascii * list R)) : good s -> is_field s r0 k0 ch0 sh md ->
  Forall2 (fun r t => let '(k, ch, m) := t in is_field s r k ch sh m) rs srcs ->
  (exists m, field_map r0 f rs s = Val (finish s r0 (map_letter k0 ch0 srcs) m) /\ length m = length md /\
    forall i, (i < points sh)%nat -> exists x, f (map (fun t => let '(k, _, m) := t in value k m i) srcs) = Some x /\ stored_as k0 x = Some (value k0 m i)) \/
  (field_map r0 f rs s = Abort /\ exists i, (i < points sh)%nat /\ match f (map (fun t => let '(k, _, m) := t in value k m i) srcs) with Some x => stored_as k0 x = None | None => True end).
Proof.
  intros G F0 HF. set (drop := fun t : kind * ascii * list R => let '(k, _, m) := t in (k, m)).
  assert (AA : forall i, args_at (map drop srcs) i = map (fun t => let '(k, _, m) := t in value k m i) srcs) by (intros i; unfold args_at; rewrite map_map; apply map_ext; intros [[k ch] m]; reflexivity).
  destruct (map_core s r0 k0 ch0 sh md f rs (map drop srcs) G F0) as (vs & HVs & Lvs & Hm).
  { clear F0 AA. induction HF as [|r [[k ch] m] rs srcs Fr HF IH]; cbn [map]; constructor; [exists ch; exact Fr|exact IH]. }
  assert (NL : new_letter k0 ch0 vs = map_letter k0 ch0 srcs).
  { rewrite map_length in Lvs. destruct srcs as [|[[k ch] m] srcs]; destruct vs as [|v vs]; try discriminate; [reflexivity|]. destruct srcs as [|t srcs]; destruct vs as [|v' vs]; try discriminate; [|reflexivity].
    cbn [map combine drop] in HVs. inversion HF as [|r t0 rs' l Fr HF' E1 E2]; subst. cbv beta iota in Fr. inversion HVs as [|r1 t1 l1 l2 (c & Fc & Ev) HV']; subst. cbn [fst snd] in Fc, Ev.
    destruct (field_fun _ _ _ _ _ _ _ _ _ _ Fr Fc) as (_ & Ec & _). unfold new_letter. rewrite Ev. cbn [view_of w_kind w_ch]. rewrite <- Ec. cbn [map_letter]. destruct k0, k; reflexivity. }
  rewrite NL in Hm. destruct Hm as [(m & Em & Lm & V)|(Em & i & Hi & B)].
  - left. exists m. split; [exact Em|]. split; [exact Lm|]. intros i Hi. rewrite <- AA. apply V. exact Hi.
  - right. split; [exact Em|]. exists i. split; [exact Hi|]. rewrite <- AA. exact B.
Qed.

(** Refused bands. *)
Lemma load_refused get ch b s : (match st_env s with Some e => b < 1 \/ ep (v_H e) < b | None => True end) -> load_field get ch b s = Val s.
Proof. intros H. unfold load_field. destruct (st_env s) as [e|]; [|reflexivity]. destruct (v_k e =? 0); [reflexivity|]. destruct (Z.ltb_spec b 1), (Z.ltb_spec (ep (v_H e)) b); try reflexivity; lia. Qed.
Lemma poynting_refused s e b ch : good s -> st_env s = Some e -> st_ch s = ch -> ch <> "d"%char -> kind_of_letter ch = Some KV -> b < 1 \/ ep (v_H e) < b ->
  exists s', poynting b s = Val s' /\ st_ch s' = "v"%char /\ st_has s' = true /\ st_band s' = st_band s /\ st_env s' = Some e /\
    forall i, (i < Z.to_nat (npts (v_d e)))%nat -> let F c := cnum (st_mem s) (3 * i + c) in value KV (st_mem s') i = vitem (cross (fun c => Cconj (F c)) F).
Proof.
  intros G He Hc Hd Hkl Hb. assert (Hh : st_has s = true) by (apply G; rewrite Hc; intros ->; discriminate). pose proof G as (Ge & _). rewrite He in Ge. destruct Ge as (Wd & _).
  assert (N : points (env_shape e) = Z.to_nat (npts (v_d e))) by (unfold points; cbn [env_shape sh_N]; rewrite (npts_out _ Wd); reflexivity).
  assert (F1 : is_field s Cur KV ch (env_shape e) (st_mem s)) by (rewrite <- Hc; apply (cur_is s e KV); auto; congruence).
  assert (Ed : do_efield b s = Val s).
  { unfold do_efield, do_dfield. rewrite load_refused by (rewrite He; exact Hb). cbn [bind]. unfold do_e_from_d. rewrite Hh, Hc, He. cbn [negb orb]. destruct (Ascii.eqb_spec ch "d"); [contradiction|]. reflexivity. }
  destruct (copy_core s Cur KV ch (env_shape e) (st_mem s) G F1 ltac:(congruence)) as (s2 & m2 & E2 & F2 & V2 & A1 & A2 & A3 & A4 & A5 & A6 & A7 & G2).
  assert (He2 : st_env s2 = Some e) by (rewrite A1; exact He).
  assert (E3 : do_hfield b s2 = Val s2) by (apply load_refused; rewrite He2; exact Hb).
  assert (F3 : is_field s2 Cur KV ch (env_shape e) (st_mem s)).
  { pose proof (cur_is s2 e KV He2) as Q. rewrite A2, A3, A4, Hc in Q. apply Q; assumption. }
  destruct (map_full s2 Cur KV ch (env_shape e) (st_mem s) conj_cross [Obj (length (st_objs s)); Cur] [(KV, ch, m2); (KV, ch, st_mem s)] G2 F3) as [(m & Em & Lm & Vm)|(_ & i & Hi & B)].
  { constructor; [exact F2|]. constructor; [exact F3|constructor]. }
  - exists (set_field (finish s2 Cur "c" m) m true "v" (st_band s)). cbn [map_letter] in Em. split; [|split; [reflexivity|split; [reflexivity|split; [reflexivity|split; [exact He2|]]]]].
    + unfold poynting. rewrite Ed. cbn [bind]. rewrite E2. cbn [bind]. rewrite E3. cbn [bind]. rewrite Em. cbn [bind]. unfold nonbloch.
      assert (F4 : is_field (finish s2 Cur "c" m) Cur KV "c" (env_shape e) m) by (apply (finish_field s2 Cur KV ch (env_shape e) (st_mem s)); [exact F3|reflexivity]).
      destruct (assert_ok _ _ _ _ _ _ F4) as (-> & _). cbn [bind]. unfold set_ch, view_of. cbn [w_cur w_ptr ptr_of]. f_equal. unfold finish, set_field. cbn. rewrite A5. reflexivity.
    + intros i Hi. cbv zeta. cbn [set_field st_mem]. rewrite <- N in Hi. destruct (Vm i Hi) as (x & Ex & Sx). cbn [map] in Ex. rewrite (V2 i Hi) in Ex. cbn [value conj_cross] in Ex.
      assert (Q : forall (a b : item), Some a = Some b -> b = a) by (intros a b0 [= ->]; reflexivity). apply Q in Ex. rewrite Ex in Sx. apply Q in Sx. rewrite Sx. unfold vitem, cross. cbn [Nat.modulo Nat.divmod Nat.add fst snd Nat.sub]. rewrite !Nat.add_0_r. reflexivity.
  - cbn [map] in B. rewrite (V2 i Hi) in B. cbn [value conj_cross stored_as] in B. discriminate.
Qed.
