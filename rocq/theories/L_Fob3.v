(** Field objects: every command keeps the state in order and other objects as they are. *)
From Coq Require Import String Ascii List ZArith Reals Lra Lia Bool.
From Verif Require Import Base RC Loops M_Tensor S_Tensor M_Evect S_Evect M_Grid S_Grid M_Op S_Op M_Fld S_Fld M_Half M_Cur M_Fob S_Fob L_Fld L_Fld2 L_Op2 L_Op3 L_Fob1 L_Fob2.
Import ListNotations.
Local Open Scope Z_scope.

(** Complex and real views of the scratch array. *)
Lemma even_pair {A} (P : list A -> Prop) : P [] -> (forall a b l, Nat.even (length l) = true -> P l -> P (a :: b :: l)) -> forall l, Nat.even (length l) = true -> P l.
Proof.
  intros P0 P2 l. remember (length l) as n eqn:E. revert l E. induction n as [n IH] using lt_wf_ind. intros l E H. destruct l as [|a [|b l]]; [exact P0|subst; discriminate|].
  cbn [length] in E. subst n. cbn in H. apply P2; [exact H|]. apply (IH (length l)); auto.
Qed.
Lemma flat_unflat m : Nat.even (length m) = true -> flat (unflat m) = m.
Proof. revert m. apply (even_pair (fun m => flat (unflat m) = m)); [reflexivity|]. intros a b l _ IH. cbn [unflat flat flat_map app]. fold (flat (unflat l)). rewrite IH. reflexivity. Qed.
Lemma unflat_flat f : unflat (flat f) = f.
Proof. induction f as [|[a b] f IH]; [reflexivity|]. cbn [flat flat_map app unflat re im fst snd]. fold (flat f). rewrite IH. reflexivity. Qed.
Lemma unflat_length m : Nat.even (length m) = true -> (2 * length (unflat m) = length m)%nat.
Proof. revert m. apply (even_pair (fun m => (2 * length (unflat m) = length m)%nat)); [reflexivity|]. intros a b l _ IH. cbn [unflat length]. lia. Qed.
Lemma flat_even f : Nat.even (length (flat f)) = true.
Proof. rewrite flat_length. rewrite Nat.even_mul. reflexivity. Qed.
Lemma flat_same f m : Nat.even (length m) = true -> length f = length (unflat m) -> length (flat f) = length m.
Proof. intros E H. rewrite flat_length, H. apply unflat_length. exact E. Qed.

Definition kept (n : nat) (s s' : fstate) : Prop := forall o, nth_error (st_objs s) n = Some o -> nth_error (st_objs s') n = Some o.
Lemma kept_refl n s : kept n s s.
Proof. intros o H. exact H. Qed.
Lemma kept_trans n a b c : kept n a b -> kept n b c -> kept n a c.
Proof. intros H H' o Ho. apply H', H, Ho. Qed.
Lemma kept_objs n s s' : st_objs s' = st_objs s -> kept n s s'.
Proof. intros E o. rewrite E. auto. Qed.
Lemma kept_app n s s' l : st_objs s' = st_objs s ++ l -> kept n s s'.
Proof. intros E o H. rewrite E, nth_error_app1; [exact H|]. apply nth_error_Some. congruence. Qed.
Lemma kept_others n r s s' : others_kept r s s' -> r <> Obj n -> kept n s s'.
Proof. intros (_ & _ & _ & H & _) Hr o Ho. rewrite H by exact Hr. exact Ho. Qed.

Definition okt (sp : nat -> Prop) (s : fstate) (o : outcome fstate) : Prop :=
  match o with Val s' => good s' /\ forall n, sp n -> kept n s s' | Abort => True | _ => False end.
Lemma okt_bind (sp sp' : nat -> Prop) s o k : okt sp s o -> (forall n, sp' n -> sp n) -> (forall s', o = Val s' -> good s' -> okt sp' s' (k s')) -> okt sp' s (bind o k).
Proof.
  intros H Hs Hk. destruct o as [s'| | |]; cbn [okt bind] in *; auto. destruct H as (G & K). specialize (Hk s' eq_refl G). destruct (k s') as [t| | |]; cbn [okt] in *; auto.
  destruct Hk as (G' & K'). split; [exact G'|]. intros n Hn. apply (kept_trans n s s' t); auto.
Qed.
Lemma okt_same sp s : good s -> okt sp s (Val s).
Proof. intros G. split; [exact G|]. intros n _. apply kept_refl. Qed.

(** New contents of the scratch array. *)
Lemma good_mem s e mem has ch b : good s -> st_env s = Some e -> length mem = length (st_mem s) -> (ch <> "-"%char -> has = true) -> good (set_field s mem has ch b).
Proof.
  intros (Ge & Gh & Gc & Go) He L Hc. unfold good. cbn [set_field st_env st_mem st_has st_ch st_objs]. rewrite He in *. split; [|split; [congruence|split; [exact Hc|exact Go]]].
  unfold good_env in *. rewrite L. exact Ge.
Qed.
Lemma good_work s e : good s -> st_env s = Some e -> workspace (v_d e) (v_W0 e) (unflat (st_mem s)).
Proof.
  intros (Ge & _) He. rewrite He in Ge. destruct Ge as (_ & _ & _ & _ & FW & PW & _ & Ev & L & _). split; [exact FW|]. split; [exact PW|]. pose proof (unflat_length _ Ev). lia.
Qed.
Lemma good_freq s e b : good s -> st_env s = Some e -> 1 <= b <= ep (v_H e) -> exists w, rd (v_freqs e) (b - 1) = Val w.
Proof. intros (Ge & _) He Hb. rewrite He in Ge. destruct Ge as (_ & _ & _ & _ & _ & _ & L & _). apply rd_in. lia. Qed.

Lemma load_okt sp get ch b s : good s -> ch <> "-"%char ->
  (forall e, st_env s = Some e -> 1 <= b <= ep (v_H e) -> exists f, get e (unflat (st_mem s)) = Val f /\ length f = length (unflat (st_mem s))) -> okt sp s (load_field get ch b s).
Proof.
  intros G Hc H. unfold load_field. destruct (st_env s) as [e|] eqn:He; [|apply okt_same; exact G]. destruct (v_k e =? 0); [apply okt_same; exact G|].
  destruct (Z.ltb_spec b 1); [apply okt_same; exact G|]. destruct (Z.ltb_spec (ep (v_H e)) b); [apply okt_same; exact G|]. cbn [orb].
  destruct (H e eq_refl ltac:(lia)) as (f & -> & L). cbn [bind okt]. split; [|intros n _; apply kept_objs; reflexivity].
  apply (good_mem s e); auto. apply flat_same; [|exact L]. destruct G as (Ge & _). rewrite He in Ge. apply Ge.
Qed.
Lemma dfield_okt sp b s : good s -> okt sp s (do_dfield b s).
Proof.
  intros G. apply load_okt; [exact G|discriminate|]. intros e He Hb. pose proof (good_work s e G He) as WS. destruct (good_freq s e b G He Hb) as (w & Ew).
  pose proof G as (Ge & _). rewrite He in Ge. destruct Ge as (Wd & HV & _ & FH & _). destruct (dfield_ok (v_d e) Wd (v_Vol e) (v_freqs e) (v_H e) (v_W0 e) b (unflat (st_mem s)) w HV FH Hb WS Ew) as (f & E & L & _).
  exists f. auto.
Qed.
Lemma hfield_okt sp b s : good s -> okt sp s (do_hfield b s).
Proof.
  intros G. apply load_okt; [exact G|discriminate|]. intros e He Hb. pose proof (good_work s e G He) as WS.
  pose proof G as (Ge & _). rewrite He in Ge. destruct Ge as (Wd & HV & _ & FH & _). destruct (hfield_ok (v_d e) Wd (v_Vol e) (v_H e) (v_W0 e) b (unflat (st_mem s)) HV FH Hb WS) as (f & E & L & _).
  exists f. auto.
Qed.
Lemma bfield_okt sp b s : good s -> okt sp s (do_bfield b s).
Proof.
  intros G. apply load_okt; [exact G|discriminate|]. intros e He Hb. pose proof (good_work s e G He) as WS.
  pose proof G as (Ge & _). rewrite He in Ge. destruct Ge as (Wd & HV & _ & FH & _). destruct (bfield_ok (v_d e) Wd (v_Vol e) (v_H e) b (unflat (st_mem s)) HV FH Hb) as (f & E & L & _); [apply WS|].
  exists f. auto.
Qed.
Lemma e_from_d_okt sp s : good s -> okt sp s (do_e_from_d s).
Proof.
  intros G. unfold do_e_from_d. destruct (negb (st_has s) || negb (Ascii.eqb (st_ch s) "d")); [apply okt_same; exact G|]. destruct (st_env s) as [e|] eqn:He; [|exact I].
  pose proof (good_work s e G He) as (_ & _ & L). pose proof G as (Ge & _). rewrite He in Ge. destruct Ge as (Wd & _ & _ & _ & _ & _ & _ & Ev & _).
  destruct (e_mid (v_d e) Wd (d_eps_inv (v_d e)) 1 (eps_len (v_d e) Wd) ltac:(lia) (unflat (st_mem s)) ltac:(lia)) as (f & -> & Lf & _). cbn [bind okt].
  split; [|intros n _; apply kept_objs; reflexivity]. apply (good_mem s e); auto. apply flat_same; assumption.
Qed.
Lemma efield_okt sp b s : good s -> okt sp s (do_efield b s).
Proof. intros G. unfold do_efield. apply (okt_bind sp); [apply dfield_okt; exact G|auto|]. intros s' _ G'. apply e_from_d_okt. exact G'. Qed.

Lemma good_stored s e : good s -> st_env s = Some e -> stored (v_d e) (unflat (st_mem s)).
Proof.
  intros G He. pose proof (good_work s e G He) as (_ & _ & L). destruct G as (Ge & _). rewrite He in Ge. destruct Ge as (Wd & _). pose proof (npts_pos _ Wd). pose proof (npts_out _ Wd) as O.
  unfold wfd in Wd. split; [lia|]. split; [lia|]. split; [lia|]. intros mu Em. rewrite O. apply Wd. exact Em.
Qed.
Lemma upper_dash c : upper c <> "-"%char \/ upper c = c.
Proof.
  unfold upper. repeat match goal with |- context [Ascii.eqb c ?x] => destruct (Ascii.eqb c x); [left; discriminate|] end. right. reflexivity.
Qed.
(** The energy density in the scratch array. *)
Definition etype (ch : ascii) : ftype := if Ascii.eqb ch "d" then FD else if Ascii.eqb ch "b" then FB else FOther.
Lemma energy_run s e t : good s -> st_env s = Some e -> exists mem fr, compute_field_energy t (v_d e) once (v_Vol e) (v_HN e) (st_mem s) = Val (mem, fr) /\ length mem = length (st_mem s) /\
  forall i, 0 <= i < npts (v_d e) -> rd mem i = Val (density t (v_d e) (unflat (st_mem s)) (Z.to_nat i)).
Proof.
  intros G He. pose proof (good_stored s e G He) as St. destruct G as (Ge & _). rewrite He in Ge. destruct Ge as (Wd & _ & HN & _ & _ & _ & _ & Ev & _).
  destruct (energy_internal_ok t (v_d e) once (unflat (st_mem s)) St) as (mem & E & L & V). unfold compute_field_energy. rewrite (flat_unflat _ Ev) in E, L. rewrite E. cbn [bind].
  rewrite fdiv_nz by lra. cbn [bind]. eexists mem, _. split; [reflexivity|]. split; [exact L|]. rewrite (npts_out _ Wd) in V. exact V.
Qed.
Lemma energy_okt sp s : good s -> okt sp s (do_energy s).
Proof.
  intros G. unfold do_energy. destruct (st_has s) eqn:Hh; cbn [negb orb]; [|apply okt_same; exact G]. destruct (in_str (st_ch s) "dhb"); cbn [negb]; [|apply okt_same; exact G].
  destruct (st_env s) as [e|] eqn:He; [|exfalso; destruct G as (_ & Gh & _); exact (Gh Hh He)].
  destruct (Ascii.eqb (st_ch s) "h" && _); [apply okt_same; exact G|].
  destruct (energy_run s e (etype (st_ch s)) G He) as (mem & fr & E & L & _). unfold etype in E. rewrite E. cbn [bind okt].
  split; [|intros n _; apply kept_objs; reflexivity]. apply (good_mem s e); auto.
Qed.
Lemma medium_loop (l : option (list sym)) (eigs : sym -> R * R * R) n mem : 0 <= n <= Z.of_nat (length mem) -> (forall x, l = Some x -> n <= Z.of_nat (length x)) ->
  (forall m e0 e1 e2, eigs m = (e0, e1, e2) -> (0 < e0 + e1)%R) ->
  exists mem', forZ 0 n (fun i mem => let! x := (match l with None => Val 1%R | Some l => let! m := rd l i in mean_medium eigs m end) in wr mem i x) mem = Val mem' /\ length mem' = length mem.
Proof.
  intros Hn Hl He. match goal with |- context [forZ 0 n ?b _] => destruct (forZ_inv (fun i m => length m = length mem) b 0 n mem) as (m & E & L) end.
  - lia.
  - reflexivity.
  - intros i m Hi L. destruct l as [l|].
    + destruct (rd_in l i) as (x & Ex); [specialize (Hl l eq_refl); lia|]. rewrite Ex. cbn [bind]. unfold mean_medium. destruct (eigs x) as [[e0 e1] e2] eqn:Ee. specialize (He _ _ _ _ Ee).
      rewrite fdiv_nz by lra. cbn [bind]. rewrite wr_in by lia. eexists. split; [reflexivity|]. rewrite upd_length. exact L.
    + cbn [bind]. rewrite wr_in by lia. eexists. split; [reflexivity|]. rewrite upd_length. exact L.
  - exists m. auto.
Qed.
Lemma medium_okt sp mu s : good s -> okt sp s (do_medium mu s).
Proof.
  intros G. unfold do_medium. destruct (st_env s) as [e|] eqn:He; [|apply okt_same; exact G]. pose proof G as (Ge & _). rewrite He in Ge.
  destruct Ge as (Wd & _ & _ & _ & _ & _ & _ & _ & L & Eg). pose proof (npts_pos _ Wd).
  destruct (medium_loop (if mu then d_mu_inv (v_d e) else Some (d_eps_inv (v_d e))) (v_eigs e) (d_out (v_d e)) (st_mem s)) as (m & -> & Lm).
  - rewrite (npts_out _ Wd). lia.
  - intros x Hx. rewrite (npts_out _ Wd). destruct mu; [|injection Hx as <-; unfold wfd in Wd; lia]. unfold wfd in Wd. destruct Wd as (_ & _ & _ & _ & _ & _ & _ & _ & _ & _ & M). rewrite (M x Hx). lia.
  - exact Eg.
  - cbn [bind okt]. split; [|intros n _; apply kept_objs; reflexivity]. apply (good_mem s e); auto.
Qed.

(** Making objects. *)
Definition zeros (k : kind) (sh : shape) : fobj := {| fo_kind := k; fo_ch := plain k; fo_sh := sh; fo_data := repeat 0%R (Z.to_nat (width k * sh_N sh)) |}.
Lemma make_ok s k r k0 ch sh m : is_field s r k0 ch sh m -> (k = KV -> st_env s <> None) -> make k r s = Val (set_objs s (st_objs s ++ [zeros k sh]), Obj (length (st_objs s))).
Proof.
  intros F He. unfold make. destruct (assert_ok _ _ _ _ _ _ F) as (-> & _). cbn [bind view_of w_sh].
  replace (match k, st_env s with KV, None => false | _, _ => true end) with true; [reflexivity|]. destruct k; try reflexivity. destruct (st_env s); [reflexivity|]. exfalso. apply He; reflexivity.
Qed.
Lemma good_make s k sh : good s -> 0 <= sh_N sh -> good (set_objs s (st_objs s ++ [zeros k sh])).
Proof.
  intros (Ge & Gh & Gc & Go) Hn. unfold good. cbn [set_objs st_env st_mem st_has st_ch st_objs]. split; [exact Ge|]. split; [exact Gh|]. split; [exact Gc|].
  apply Forall_app. split; [exact Go|]. constructor; [|constructor]. split; [exact Hn|]. split; [|apply plain_not_dash]. cbn [zeros fo_data fo_kind fo_sh]. rewrite repeat_length.
  destruct k; cbn [width]; lia.
Qed.
Lemma make_inv s k r s' r' : good s -> make k r s = Val (s', r') -> exists k0 ch sh m, is_field s r k0 ch sh m /\ (k = KV -> st_env s <> None) /\ s' = set_objs s (st_objs s ++ [zeros k sh]) /\ r' = Obj (length (st_objs s)).
Proof.
  intros G H. destruct (assert_abort s r) as [A|(v & A)]; [unfold make in H; rewrite A in H; discriminate|].
  destruct (assert_inv s r v G A) as (k0 & ch & sh & m & F & ->). exists k0, ch, sh, m. split; [exact F|].
  assert (He : k = KV -> st_env s <> None). { intros -> E. unfold make in H. rewrite A, E in H. discriminate. }
  split; [exact He|]. rewrite (make_ok s k r k0 ch sh m F He) in H. injection H as <- <-. auto.
Qed.
Lemma make_total s k r : make k r s = Abort \/ exists x, make k r s = Val x.
Proof.
  unfold make. destruct (assert_abort s r) as [-> |(v & ->)]; [left; reflexivity|]. cbn [bind]. destruct (match k, st_env s with KV, None => false | _, _ => true end); [right; eexists; reflexivity|left; reflexivity].
Qed.
Lemma make_okt (sp : nat -> Prop) s k r (K : fstate * fref -> outcome fstate) : good s ->
  (forall s' n, make k r s = Val (s', Obj n) -> n = length (st_objs s) -> good s' -> (forall j, kept j s s') -> match K (s', Obj n) with Val t => good t /\ forall j, sp j -> kept j s t | Abort => True | _ => False end) ->
  okt sp s (bind (make k r s) K).
Proof.
  intros G H. destruct (make_total s k r) as [-> |([s' r'] & E)]; [exact I|]. rewrite E. cbn [bind]. destruct (make_inv s k r s' r' G E) as (k0 & ch & sh & m & F & He & -> & ->).
  apply H; [exact E|reflexivity| |]. - apply good_make; [exact G|]. apply (field_room _ _ _ _ _ _ G F). - intros j. apply (kept_app j s _ [zeros k sh]). reflexivity.
Qed.

Lemma same_chars s r k ch sh m : good s -> is_field s r k ch sh m -> ch <> "-"%char.
Proof.
  intros G [e k' He Hh Hk|n o Hn]; [apply (letter_not_dash _ _ Hk)|]. destruct G as (_ & _ & _ & Go). rewrite Forall_forall in Go. apply (Go o (nth_error_In _ _ Hn)).
Qed.
Lemma nonbloch_okt s r : good s -> okt (fun n => r <> Obj n) s (nonbloch r s).
Proof.
  intros G. unfold nonbloch. destruct (assert_abort s r) as [-> |(v & A)]; [exact I|]. rewrite A. cbn [bind]. destruct (assert_inv s r v G A) as (k & ch & sh & m & F & ->).
  destruct (assert_ok _ _ _ _ _ _ F) as (_ & P). rewrite <- (with_self s (ptr_of r) m P) at 2. rewrite (finish_ok s r k ch sh m "v" m F). cbn [okt].
  split; [apply (good_finish s r k ch sh m); auto; discriminate|]. intros n Hn. apply (kept_others n r); [apply finish_others|exact Hn].
Qed.
Lemma set_inv vd vs s s' : field_set vd vs s = Val s' -> w_kind vd = w_kind vs /\ w_sh vd = w_sh vs.
Proof.
  unfold field_set. destruct (kind_eqb (w_kind vd) (w_kind vs)) eqn:E; [|discriminate]. destruct (conform (w_sh vd) (w_sh vs)) eqn:E'; [|discriminate].
  intros _. split; [apply kind_eqb_spec; exact E|apply conform_spec; exact E'].
Qed.
Lemma set_okt s dst src : good s -> okt (fun n => dst <> Obj n) s (field_setB dst src s).
Proof.
  intros G. unfold field_setB. destruct (assert_abort s dst) as [-> |(vd & Ad)]; [exact I|]. rewrite Ad. cbn [bind]. destruct (assert_abort s src) as [-> |(vs & As)]; [exact I|]. rewrite As. cbn [bind].
  destruct (assert_inv s dst vd G Ad) as (k & ch & sh & m & F & ->). destruct (assert_inv s src vs G As) as (k' & ch' & sh' & m' & F' & ->).
  destruct (kind_eqb k k') eqn:Ek; [|unfold field_set; cbn [view_of w_kind]; rewrite Ek; exact I]. apply kind_eqb_spec in Ek. subst k'.
  destruct (conform sh sh') eqn:Ec; [|unfold field_set; cbn [view_of w_kind w_sh]; rewrite Ec, andb_false_r; exact I]. apply conform_spec in Ec. subst sh'.
  destruct (set_core s dst src k ch ch' sh m m' G F F' (same_chars _ _ _ _ _ _ G F')) as (x & -> & L & _). cbn [okt].
  split; [apply (good_finish s dst k ch sh m); auto; apply (same_chars _ _ _ _ _ _ G F')|]. intros n Hn. apply (kept_others n dst); [apply finish_others|exact Hn].
Qed.
(** field-load: as setting the current field, whatever it is. *)
Lemma load_core s r k ch sh m e : good s -> is_field s r k ch sh m -> st_env s = Some e -> sh = env_shape e ->
  exists m', field_load r s = Val (set_field s m' true ch (st_band s)) /\ length m' = length (st_mem s) /\ same_values k sh m' m.
Proof.
  intros G F He Hs. unfold field_load. destruct (assert_ok _ _ _ _ _ _ F) as (-> & Ps). cbn [bind].
  assert (U : exists vc b, update_curfield_smob s = Val (vc, b) /\ w_sh vc = env_shape e /\ w_ptr vc = PFft).
  { destruct (assert_abort s Cur) as [A|(v & A)].
    - unfold assert_field in A. unfold update_curfield_smob in *. rewrite He in *. destruct (in_str (st_ch s) "dhbecv"); [discriminate|]. destruct (in_str (st_ch s) "DHBnR"); [discriminate|].
      destruct (in_str (st_ch s) "C"); [discriminate|]. eexists _, _. split; [reflexivity|]. split; reflexivity.
    - destruct (assert_inv s Cur v G A) as (k1 & c1 & sh1 & m1 & F1 & ->). unfold assert_field in A. destruct (update_curfield_smob s) as [[vc b]| | |]; try discriminate. cbn [bind] in A.
      destruct b; [|discriminate]. injection A as ->. eexists _, _. split; [reflexivity|]. inversion F1 as [e' k2 He' _ _|]; subst. rewrite He in He'. injection He' as <-. split; reflexivity. }
  destruct U as (vc & b & -> & Sv & Pv). cbn [bind view_of w_sh]. rewrite Sv, <- Hs, conform_refl. cbn [check bind].
  unfold field_set. cbn [w_kind w_sh w_ch w_ptr view_of]. rewrite conform_refl, (proj2 (kind_eqb_spec k k) eq_refl). cbn [andb check bind].
  destruct (Ascii.eqb_spec ch "-") as [E|_]; [exfalso; exact (same_chars _ _ _ _ _ _ G F E)|]. cbn [negb check bind]. rewrite Pv.
  destruct (field_room _ _ _ _ _ _ G F) as (N0 & Ls). pose proof G as (Ge & _). rewrite He in Ge. destruct Ge as (Wd & _ & _ & _ & _ & _ & _ & _ & Lm & _).
  assert (N1 : sh_N sh = npts (v_d e)) by (subst sh; cbn [env_shape sh_N]; apply npts_out; exact Wd).
  destruct (copy_loop k s PFft (ptr_of r) (st_mem s) m (match k with KV => sh_N sh * 3 | _ => sh_N sh end) (match k with KR => 1 | _ => 2 end) eq_refl eq_refl Ps) as (m' & E & L & A & _);
    [destruct k; lia|destruct k; cbn [width] in *; lia|destruct k; cbn [width] in *; lia|].
  exists m'. rewrite E. cbn [bind]. split; [reflexivity|]. split; [exact L|].
  intros i Hi. apply (values_from k m' m (points sh)); [exact Hi|]. intros p Hp. apply A. unfold points in Hp. destruct k; unfold nwidth, width in Hp;
    [change (Z.to_nat 1) with 1%nat in Hp|change (Z.to_nat 2) with 2%nat in Hp|change (Z.to_nat 6) with 6%nat in Hp]; lia.
Qed.
Lemma loadF_okt sp s r : good s -> okt sp s (field_load r s).
Proof.
  intros G. destruct (assert_abort s r) as [A|(v & A)]; [unfold field_load; rewrite A; exact I|]. destruct (assert_inv s r v G A) as (k & ch & sh & m & F & ->).
  destruct (st_env s) as [e|] eqn:He; [|unfold field_load, update_curfield_smob; rewrite A, He; exact I].
  destruct (conform sh (env_shape e)) eqn:Ec.
  - apply conform_spec in Ec. destruct (load_core s r k ch sh m e G F He Ec) as (m' & -> & L & _). cbn [okt]. split; [|intros n _; apply kept_objs; reflexivity].
    apply (good_mem s e); auto.
  - unfold field_load. rewrite A. cbn [bind]. unfold update_curfield_smob. rewrite He.
    destruct (in_str (st_ch s) "dhbecv"); [cbn [bind view_of w_sh]; rewrite Ec; exact I|]. destruct (in_str (st_ch s) "DHBnR"); [cbn [bind view_of w_sh]; rewrite Ec; exact I|].
    destruct (in_str (st_ch s) "C"); cbn [bind view_of w_sh]; rewrite Ec; exact I.
Qed.
Lemma copy_okt sp s r : good s -> okt sp s (let! (s, _) := field_copy r s in Val s).
Proof.
  intros G. unfold field_copy, field_make. destruct (assert_abort s r) as [-> |(v & A)]; [exact I|]. rewrite A. cbn [bind].
  destruct (assert_inv s r v G A) as (k & ch & sh & m & F & ->). cbn [view_of w_kind].
  destruct (make_total s k r) as [-> |([s' r'] & E)]; [exact I|]. rewrite E. cbn [bind]. destruct (make_inv s k r s' r' G E) as (k0 & ch0 & sh0 & m0 & F0 & He & -> & ->).
  assert (G' : good (set_objs s (st_objs s ++ [zeros k sh0]))) by (apply good_make; [exact G|]; apply (field_room _ _ _ _ _ _ G F0)).
  pose proof (set_okt _ (Obj (length (st_objs s))) r G') as S. destruct (field_setB _ _ _) as [t| | |]; cbn [bind okt] in *; auto.
  destruct S as (Gt & Kt). split; [exact Gt|]. intros n _ o Ho. apply (Kt n); [|cbn [set_objs st_objs]; rewrite nth_error_app1; [exact Ho|apply nth_error_Some; congruence]].
  assert (n < length (st_objs s))%nat by (apply nth_error_Some; congruence). intros Q. injection Q as Q. lia.
Qed.
Lemma sources_ok s sh0 rs vs : good s -> mapM (fun r => let! v := assert_field r s in let! _ := check (conform sh0 (w_sh v)) in Val v) rs = Val vs ->
  exists srcs, Forall2 (fun r vkm => src_ok s sh0 r (fst vkm) (snd vkm)) rs (combine vs srcs) /\ length vs = length srcs.
Proof.
  intros G. revert vs. induction rs as [|r rs IH]; intros vs H; cbn [mapM] in H.
  - injection H as <-. exists []. split; [constructor|reflexivity].
  - destruct (assert_field r s) as [v| | |] eqn:A; try discriminate. cbn [bind] in H. destruct (conform sh0 (w_sh v)) eqn:Ec; [|discriminate]. cbn [check bind] in H.
    destruct (mapM _ rs) as [vs'| | |]; try discriminate. cbn [bind] in H. injection H as <-. destruct (IH vs' eq_refl) as (srcs & HF & HL).
    destruct (assert_inv s r v G A) as (k & ch & sh & m & F & ->). cbn [view_of w_sh] in Ec. apply conform_spec in Ec. subst sh.
    exists ((k, m) :: srcs). cbn [combine length]. split; [|congruence]. constructor; [|exact HF]. exists ch. split; [exact F|reflexivity].
Qed.
Lemma sources_abort s sh0 rs : mapM (fun r => let! v := assert_field r s in let! _ := check (conform sh0 (w_sh v)) in Val v) rs = Abort \/
  exists vs, mapM (fun r => let! v := assert_field r s in let! _ := check (conform sh0 (w_sh v)) in Val v) rs = Val vs.
Proof.
  induction rs as [|r rs IH]; cbn [mapM]; [right; eexists; reflexivity|]. destruct (assert_abort s r) as [-> |(v & ->)]; [left; reflexivity|]. cbn [bind].
  destruct (conform sh0 (w_sh v)); [|left; reflexivity]. cbn [check bind]. destruct IH as [-> |(vs & ->)]; [left; reflexivity|right; eexists; reflexivity].
Qed.
(** The letter the destination gets. *)
Definition new_letter (k : kind) (ch : ascii) (vs : list fview) : ascii :=
  match vs with [v] => if kind_eqb (w_kind v) k then w_ch v else ch | [] => ch | _ => plain k end.
Lemma new_letter_dash s sh k ch rs vs srcs : good s -> ch <> "-"%char -> Forall2 (fun r vkm => src_ok s sh r (fst vkm) (snd vkm)) rs (combine vs srcs) -> length vs = length srcs -> new_letter k ch vs <> "-"%char.
Proof.
  intros G Hc HF HL. unfold new_letter. destruct vs as [|v [|v' vs]]; [exact Hc| |apply plain_not_dash]. destruct (kind_eqb (w_kind v) k); [|exact Hc].
  destruct srcs as [|km [|]]; try discriminate. cbn [combine] in HF. destruct rs as [|r rs]; [inversion HF|]. assert (S : src_ok s sh r v km) by (inversion HF; assumption). destruct S as (c & F & ->).
  cbn [view_of w_ch]. exact (same_chars _ _ _ _ _ _ G F).
Qed.
Lemma map_okt s dst f src : good s -> okt (fun n => dst <> Obj n) s (field_map dst f src s).
Proof.
  intros G. unfold field_map. destruct (assert_abort s dst) as [-> |(vd & Ad)]; [exact I|]. rewrite Ad. cbn [bind]. destruct (assert_inv s dst vd G Ad) as (k & ch & sh & m & F & ->).
  cbn [view_of w_sh]. destruct (sources_abort s sh src) as [-> |(vs & E)]; [exact I|]. rewrite E. cbn [bind]. destruct (sources_ok s sh src vs G E) as (srcs & HF & HL).
  destruct (map_loop s dst k ch sh m f src vs srcs G F HF HL) as [(m' & Em & L & _)|(Em & _)]; rewrite Em; [|exact I]. cbn [bind view_of w_kind w_ch].
  pose proof (finish_ok s dst k ch sh m (new_letter k ch vs) m' F) as Q. unfold new_letter in Q. rewrite Q. cbn [okt].
  split; [apply (good_finish s dst k ch sh m); auto; apply (new_letter_dash s sh k ch src vs srcs); auto; apply (same_chars _ _ _ _ _ _ G F)|].
  intros n Hn. apply (kept_others n dst); [apply finish_others|exact Hn].
Qed.

Lemma field_copy_val s r s' r' : good s -> field_copy r s = Val (s', r') -> good s' /\ (forall n, kept n s s') /\ r' = Obj (length (st_objs s)).
Proof.
  intros G H. pose proof (copy_okt (fun _ => True) s r G) as K. rewrite H in K. cbn [bind okt] in K. destruct K as (G' & K). split; [exact G'|]. split; [intros n; apply K; exact I|].
  unfold field_copy in H. destruct (field_make r s) as [[s1 r1]| | |] eqn:E; try discriminate. cbn [bind] in H. destruct (field_setB r1 r s1) as [s2| | |]; try discriminate. cbn [bind] in H. injection H as _ <-.
  unfold field_make in E. destruct (assert_field r s) as [v| | |]; try discriminate. cbn [bind] in E. destruct (make_inv s _ r s1 r1 G E) as (? & ? & ? & ? & _ & _ & _ & ->). reflexivity.
Qed.
Lemma copy_total s r : good s -> field_copy r s = Abort \/ exists x, field_copy r s = Val x.
Proof.
  intros G. pose proof (copy_okt (fun _ => True) s r G) as K. destruct (field_copy r s) as [x| | |]; cbn [bind okt] in K; try contradiction; [right; eexists; reflexivity|left; reflexivity].
Qed.
Lemma poynting_okt sp b s : good s -> okt sp s (poynting b s).
Proof.
  intros G. unfold poynting. apply (okt_bind sp); [apply efield_okt; exact G|auto|]. intros s1 _ G1.
  destruct (copy_total s1 Cur G1) as [-> |([s2 r] & E2)]; [exact I|]. rewrite E2. cbn [bind]. destruct (field_copy_val _ _ _ _ G1 E2) as (G2 & K2 & ->).
  assert (K : okt sp s2 (let! s := do_hfield b s2 in let! s := field_map Cur conj_cross [Obj (length (st_objs s1)); Cur] s in nonbloch Cur s)).
  { apply (okt_bind sp); [apply hfield_okt; exact G2|auto|]. intros s3 _ G3. apply (okt_bind (fun n => Cur <> Obj n)); [apply map_okt; exact G3|intros n _; discriminate|].
    intros s4 _ G4. pose proof (nonbloch_okt s4 Cur G4) as Q. destruct (nonbloch Cur s4); cbn [okt] in *; auto. destruct Q as (Q1 & Q2). split; [exact Q1|]. intros n _. apply Q2. discriminate. }
  destruct (bind (do_hfield b s2) _) as [t| | |]; cbn [okt] in *; auto. destruct K as (Gt & Kt). split; [exact Gt|]. intros n Hn. apply (kept_trans n s1 s2 t); auto.
Qed.
Lemma tot_pwr_okt sp b s : good s -> okt sp s (tot_pwr b s).
Proof.
  intros G. unfold tot_pwr. apply (okt_bind sp); [apply dfield_okt; exact G|auto|]. intros s1 _ G1. apply (okt_bind sp); [apply energy_okt; exact G1|auto|]. intros s2 _ G2.
  destruct (copy_total s2 Cur G2) as [-> |([s3 r] & E3)]; [exact I|]. rewrite E3. cbn [bind]. destruct (field_copy_val _ _ _ _ G2 E3) as (G3 & K3 & ->).
  destruct (make_total s3 KR Cur) as [-> |([s4 r4] & E4)]; [exact I|]. rewrite E4. cbn [bind]. destruct (make_inv s3 KR Cur s4 r4 G3 E4) as (k0 & ch0 & sh0 & m0 & F0 & _ & E5 & ->).
  assert (G4 : good s4) by (subst s4; apply good_make; [exact G3|]; apply (field_room _ _ _ _ _ _ G3 F0)).
  assert (L34 : (length (st_objs s2) < length (st_objs s3))%nat).
  { unfold field_copy, field_make in E3. destruct (assert_field Cur s2) as [v| | |]; try discriminate. cbn [bind] in E3. destruct (make (w_kind v) Cur s2) as [[sa ra]| | |] eqn:Em; try discriminate.
    destruct (make_inv s2 _ Cur sa ra G2 Em) as (? & ? & sh1 & ? & Fa & _ & Ea & ->). cbn [bind] in E3. pose proof (good_make s2 (w_kind v) sh1 G2 (proj1 (field_room _ _ _ _ _ _ G2 Fa))) as Ga. rewrite <- Ea in Ga.
    pose proof (set_okt sa (Obj (length (st_objs s2))) Cur Ga) as Sq. destruct (field_setB _ _ sa) as [sb| | |] eqn:Es; try discriminate. cbn [bind] in E3. injection E3 as <-.
    unfold field_setB in Es. destruct (assert_field (Obj (length (st_objs s2))) sa) as [vd| | |] eqn:Ad; try discriminate. cbn [bind] in Es. destruct (assert_field Cur sa) as [vs| | |] eqn:As; try discriminate. cbn [bind] in Es.
    destruct (assert_inv _ _ _ Ga Ad) as (k & ch & sh & m & Fd & ->). destruct (assert_inv _ _ _ Ga As) as (k' & ch' & sh' & m' & Fs & ->).
    destruct (set_inv _ _ _ _ Es) as (Ek & Esh). cbn [view_of w_kind w_sh] in Ek, Esh. subst k' sh'.
    destruct (set_core sa _ _ _ _ _ _ _ _ Ga Fd Fs (same_chars _ _ _ _ _ _ Ga Fs)) as (mm & Em' & _). rewrite Em' in Es. assert (Es' : sb = finish sa (Obj (length (st_objs s2))) ch' mm) by congruence. rewrite Es'.
    destruct (finish_others sa (Obj (length (st_objs s2))) ch' mm) as (_ & _ & -> & _). rewrite Ea. cbn [set_objs st_objs]. rewrite app_length. cbn. lia. }
  assert (K : okt (fun n => n <> length (st_objs s3)) s4 (let! s := do_bfield b s4 in let! s := do_energy s in let! s := field_map (Obj (length (st_objs s3))) add_items [Obj (length (st_objs s2)); Cur] s in field_load (Obj (length (st_objs s3))) s)).
  { apply (okt_bind (fun n => n <> length (st_objs s3))); [apply bfield_okt; exact G4|auto|]. intros s5 _ G5. apply (okt_bind (fun n => n <> length (st_objs s3))); [apply energy_okt; exact G5|auto|]. intros s6 _ G6.
    apply (okt_bind (fun n => Obj (length (st_objs s3)) <> Obj n)); [apply map_okt; exact G6|intros n Hn Q; injection Q as Q; congruence|]. intros s7 _ G7. apply loadF_okt. exact G7. }
  destruct (bind (do_bfield b s4) _) as [t| | |]; cbn [okt] in *; auto. destruct K as (Gt & Kt). split; [exact Gt|]. intros n Hn o Ho.
  assert (n < length (st_objs s2))%nat by (apply nth_error_Some; congruence). apply Kt; [lia|]. subst s4. cbn [set_objs st_objs]. pose proof (K3 n o Ho) as Q. rewrite nth_error_app1; [exact Q|]. lia.
Qed.

Theorem fdo_okt c s : good s -> good_cmd c -> okt (fun n => spares n c) s (fdo c s).
Proof.
  intros G Hc. destruct c; cbn [fdo spares].
  - cbn [okt good_cmd] in *. split; [|intros n _; apply kept_objs; reflexivity]. unfold good. cbn. split; [exact Hc|]. split; [discriminate|]. split; [congruence|]. apply G.
  - apply dfield_okt; exact G.
  - apply efield_okt; exact G.
  - apply hfield_okt; exact G.
  - apply bfield_okt; exact G.
  - apply energy_okt; exact G.
  - apply medium_okt; exact G.
  - apply make_okt; [exact G|]. intros s' n _ _ G' K. split; [exact G'|]. intros j _. apply K.
  - unfold field_make. destruct (assert_abort s r) as [-> |(v & ->)]; [exact I|]. cbn [bind]. apply make_okt; [exact G|]. intros s' n _ _ G' K. split; [exact G'|]. intros j _. apply K.
  - apply copy_okt; exact G.
  - apply nonbloch_okt; exact G.
  - apply set_okt; exact G.
  - apply loadF_okt; exact G.
  - apply map_okt; exact G.
  - apply poynting_okt; exact G.
  - apply tot_pwr_okt; exact G.
Qed.
Theorem fruns_okt cs : forall s, good s -> Forall good_cmd cs -> okt (fun n => Forall (spares n) cs) s (fruns cs s).
Proof.
  induction cs as [|c cs IH]; intros s G H; cbn [fruns]; [apply okt_same; exact G|]. inversion H as [|? ? H1 H2]; subst.
  apply (okt_bind (fun n => spares n c)); [apply fdo_okt; assumption|intros n Hn; inversion Hn; assumption|]. intros s' _ G'.
  specialize (IH s' G' H2). destruct (fruns cs s') as [t| | |]; cbn [okt] in *; auto. destruct IH as (Gt & Kt). split; [exact Gt|]. intros n Hn. apply Kt. inversion Hn; assumption.
Qed.
