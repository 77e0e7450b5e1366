(** Field objects: references, setting, mapping. *)
From Coq Require Import String Ascii List ZArith Reals Lra Lia Bool.
From Verif Require Import Base RC Loops M_Tensor S_Tensor M_Evect S_Evect M_Grid S_Grid M_Op S_Op M_Fld S_Fld M_Half M_Cur M_Fob S_Fob L_Fld L_Fob1.
Import ListNotations.
Local Open Scope Z_scope.

(** Letters. *)
Lemma letter_kind ch : kind_of_letter ch =
  if in_str ch "dhbecv" then Some KV else if in_str ch "DHBnR" then Some KR else if in_str ch "C" then Some KC else None.
Proof. destruct ch as [b0 b1 b2 b3 b4 b5 b6 b7]. destruct b0, b1, b2, b3, b4, b5, b6, b7; reflexivity. Qed.
Lemma plain_kind k : kind_of_letter (plain k) = Some k.
Proof. destruct k; reflexivity. Qed.
Lemma letter_not_dash ch k : kind_of_letter ch = Some k -> ch <> "-"%char.
Proof. intros H ->. discriminate. Qed.
Lemma plain_not_dash k : plain k <> "-"%char.
Proof. destruct k; discriminate. Qed.

Definition ptr_of (r : fref) : fptr := match r with Cur => PFft | Obj n => PObj n end.
Definition view_of (r : fref) (k : kind) (ch : ascii) (sh : shape) : fview :=
  {| w_kind := k; w_ch := ch; w_sh := sh; w_ptr := ptr_of r; w_cur := match r with Cur => true | Obj _ => false end |}.

Lemma assert_ok s r k ch sh m : is_field s r k ch sh m -> assert_field r s = Val (view_of r k ch sh) /\ peek s (ptr_of r) = Val m.
Proof.
  intros [e k' He Hh Hk|n o Hn].
  - split; [|reflexivity]. unfold assert_field, update_curfield_smob, cur_ptr. rewrite He, Hh. rewrite letter_kind in Hk.
    destruct (in_str (st_ch s) "dhbecv"); [injection Hk as <-; reflexivity|]. destruct (in_str (st_ch s) "DHBnR"); [injection Hk as <-; reflexivity|].
    destruct (in_str (st_ch s) "C"); [injection Hk as <-; reflexivity|discriminate].
  - unfold assert_field, peek, ptr_of. rewrite Hn. split; reflexivity.
Qed.
Lemma assert_inv s r v : good s -> assert_field r s = Val v -> exists k ch sh m, is_field s r k ch sh m /\ v = view_of r k ch sh.
Proof.
  intros (_ & _ & G & _) H. destruct r as [|n].
  - unfold assert_field, update_curfield_smob in H. destruct (st_env s) as [e|] eqn:He; [|discriminate]. pose proof (letter_kind (st_ch s)) as K.
    assert (D : kind_of_letter (st_ch s) <> None -> st_has s = true).
    { intros D. apply G. intros E. apply D. rewrite E. reflexivity. }
    unfold cur_ptr in H.
    destruct (in_str (st_ch s) "dhbecv").
    { rewrite D in H by congruence. injection H as <-. exists KV, (st_ch s), (env_shape e), (st_mem s). split; [apply cur_is; auto; apply D; congruence|reflexivity]. }
    destruct (in_str (st_ch s) "DHBnR").
    { rewrite D in H by congruence. injection H as <-. exists KR, (st_ch s), (env_shape e), (st_mem s). split; [apply cur_is; auto; apply D; congruence|reflexivity]. }
    destruct (in_str (st_ch s) "C").
    { rewrite D in H by congruence. injection H as <-. exists KC, (st_ch s), (env_shape e), (st_mem s). split; [apply cur_is; auto; apply D; congruence|reflexivity]. }
    discriminate.
  - unfold assert_field in H. destruct (nth_error (st_objs s) n) as [o|] eqn:E; [|discriminate]. injection H as <-.
    exists (fo_kind o), (fo_ch o), (fo_sh o), (fo_data o). split; [apply obj_is; exact E|reflexivity].
Qed.
Lemma assert_abort s r : assert_field r s = Abort \/ exists v, assert_field r s = Val v.
Proof.
  destruct r as [|n]; unfold assert_field, update_curfield_smob.
  - destruct (st_env s); [|left; reflexivity]. destruct (in_str (st_ch s) "dhbecv"); [right; eexists; reflexivity|]. destruct (in_str (st_ch s) "DHBnR"); [right; eexists; reflexivity|].
    destruct (in_str (st_ch s) "C"); [right; eexists; reflexivity|left; reflexivity].
  - destruct (nth_error (st_objs s) n); [right; eexists; reflexivity|left; reflexivity].
Qed.
Lemma field_fun s r k ch sh m k' ch' sh' m' : is_field s r k ch sh m -> is_field s r k' ch' sh' m' -> k = k' /\ ch = ch' /\ sh = sh' /\ m = m'.
Proof.
  intros H H'. pose proof (assert_ok _ _ _ _ _ _ H) as (A & B). pose proof (assert_ok _ _ _ _ _ _ H') as (A' & B'). rewrite A in A'. rewrite B in B'.
  injection A' as <- <- <-. injection B' as <-. auto.
Qed.

Lemma npts_out d : wfd d -> d_out d = npts d.
Proof. unfold wfd. tauto. Qed.
Lemma npts_pos d : wfd d -> 0 < npts d.
Proof. unfold wfd, npts. intros H. assert (0 < d_nx d * d_ny d) by (apply Z.mul_pos_pos; lia). apply Z.mul_pos_pos; lia. Qed.

(** The room a field has. *)
Lemma field_room s r k ch sh m : good s -> is_field s r k ch sh m -> 0 <= sh_N sh /\ width k * sh_N sh <= Z.of_nat (length m).
Proof.
  intros (Ge & _ & _ & Go) [e k' He Hh Hk|n o Hn].
  - rewrite He in Ge. destruct Ge as (Wd & _ & _ & _ & _ & _ & _ & _ & L & _). cbn [env_shape sh_N]. rewrite (npts_out _ Wd). assert (0 < npts (v_d e)) by (apply npts_pos; exact Wd).
    split; [lia|]. destruct k'; cbn [width]; lia.
  - rewrite Forall_forall in Go. destruct (Go o (nth_error_In _ _ Hn)) as (A & B & _). split; [exact A|]. lia.
Qed.

Lemma conform_refl a : conform a a = true.
Proof. unfold conform. rewrite !Z.eqb_refl. reflexivity. Qed.
Lemma conform_spec a b : conform a b = true <-> a = b.
Proof.
  split; [|intros ->; apply conform_refl]. unfold conform. rewrite !andb_true_iff, !Z.eqb_eq. destruct a, b. cbn. intros H. repeat match goal with K : _ /\ _ |- _ => destruct K end. subst. reflexivity.
Qed.
Lemma kind_eqb_spec a b : kind_eqb a b = true <-> a = b.
Proof. destruct a, b; cbn; split; intros H; congruence || reflexivity || discriminate. Qed.

(** Writing the numbers and the letter of a field. *)
Definition finish (s : fstate) (r : fref) (ch : ascii) (m : list R) : fstate :=
  match r with
  | Cur => set_field s m true ch (st_band s)
  | Obj n => match nth_error (st_objs s) n with Some o => put_obj s n {| fo_kind := fo_kind o; fo_ch := ch; fo_sh := fo_sh o; fo_data := m |} | None => s end
  end.
Lemma finish_ok s r k ch0 sh m0 ch m : is_field s r k ch0 sh m0 -> set_ch (with_arr s (ptr_of r) m) (view_of r k ch0 sh) ch = Val (finish s r ch m).
Proof.
  intros [e k' He Hh Hk|n o Hn]; unfold set_ch, view_of, finish; cbn [w_cur w_ptr ptr_of with_arr].
  - reflexivity.
  - rewrite Hn. cbn [put_obj set_objs st_objs]. rewrite (nth_upd_same _ _ _ _ Hn). cbn [fo_kind fo_sh fo_data]. unfold put_obj, set_objs. cbn [st_env st_mem st_has st_ch st_band st_objs]. rewrite upd_twice. reflexivity.
Qed.
Lemma finish_others s r ch m : others_kept r s (finish s r ch m).
Proof.
  unfold others_kept, finish. destruct r as [|n].
  - cbn [set_field st_env st_band st_objs]. split; [reflexivity|]. split; [reflexivity|]. split; [reflexivity|]. split; [reflexivity|]. congruence.
  - destruct (nth_error (st_objs s) n) as [o|] eqn:E; [|repeat split; auto]. cbn [put_obj set_objs st_env st_band st_objs st_mem st_has st_ch]. rewrite upd_length.
    repeat split; auto. intros k Hk. apply nth_upd_other. congruence.
Qed.
Lemma finish_field s r k ch0 sh m0 ch m : is_field s r k ch0 sh m0 -> (r = Cur -> kind_of_letter ch = Some k) -> is_field (finish s r ch m) r k ch sh m.
Proof.
  intros [e k' He Hh Hk|n o Hn] HL; unfold finish.
  - apply (cur_is (set_field s m true ch (st_band s)) e k'); cbn; auto.
  - rewrite Hn. pose proof (obj_is (put_obj s n {| fo_kind := fo_kind o; fo_ch := ch; fo_sh := fo_sh o; fo_data := m |}) n _ (nth_upd_same _ _ _ _ Hn)) as F. exact F.
Qed.
Lemma good_finish s r k ch0 sh m0 ch m : good s -> is_field s r k ch0 sh m0 -> length m = length m0 -> ch <> "-"%char -> good (finish s r ch m).
Proof.
  intros (Ge & Gh & Gc & Go) [e k' He Hh Hk|n o Hn] L Hc; unfold finish, good.
  - cbn [set_field st_env st_mem st_has st_ch st_objs]. rewrite He in *. split; [|split; [congruence|split; [reflexivity|exact Go]]].
    unfold good_env in *. rewrite L. exact Ge.
  - rewrite Hn. cbn [put_obj set_objs st_env st_mem st_has st_ch st_objs]. split; [exact Ge|]. split; [exact Gh|]. split; [exact Gc|].
    rewrite Forall_forall in Go |- *. intros x Hx. apply In_nth_error in Hx. destruct Hx as (i & Hi). destruct (Nat.eq_dec n i) as [<-|Ne].
    + rewrite (nth_upd_same _ _ _ _ Hn) in Hi. injection Hi as <-. destruct (Go o (nth_error_In _ _ Hn)) as (A & B & _). split; [exact A|]. split; [cbn; lia|exact Hc].
    + rewrite nth_upd_other in Hi by exact Ne. apply Go. exact (nth_error_In _ _ Hi).
Qed.

(** Values from numbers. *)
Lemma values_from k m m' n i : (i < n)%nat -> (forall p, (p < nwidth k * n)%nat -> num m p = num m' p) -> value k m i = value k m' i.
Proof. intros Hi H. apply value_ext. intros p Hp. apply H. nia. Qed.

(** field-set!. *)
Lemma set_core s rd rs k chd chs sh md ms : good s -> is_field s rd k chd sh md -> is_field s rs k chs sh ms -> chs <> "-"%char ->
  exists m, field_set (view_of rd k chd sh) (view_of rs k chs sh) s = Val (finish s rd chs m) /\ length m = length md /\ same_values k sh m ms.
Proof.
  intros G Fd Fs Hc. unfold field_set, view_of; cbn [w_kind w_sh w_ch w_ptr]. rewrite conform_refl, (proj2 (kind_eqb_spec k k) eq_refl). cbn [andb check bind].
  destruct (Ascii.eqb_spec chs "-") as [|_]; [contradiction|]. cbn [negb check bind].
  destruct (assert_ok _ _ _ _ _ _ Fd) as (_ & Pd). destruct (assert_ok _ _ _ _ _ _ Fs) as (_ & Ps).
  destruct (field_room _ _ _ _ _ _ G Fd) as (N0 & Ld). destruct (field_room _ _ _ _ _ _ G Fs) as (_ & Ls).
  destruct (copy_loop k s (ptr_of rd) (ptr_of rs) md ms (match k with KV => sh_N sh * 3 | _ => sh_N sh end) (match k with KR => 1 | _ => 2 end) eq_refl Pd Ps) as (m & E & L & A & _);
    [destruct k; lia|destruct k; cbn [width] in *; lia|destruct k; cbn [width] in *; lia|].
  exists m. split; [|split; [exact L|]].
  - rewrite E. cbn [bind]. exact (finish_ok s rd k chd sh md chs m Fd).
  - intros i Hi. apply (values_from k m ms (points sh)); [exact Hi|]. intros p Hp. apply A. unfold points in Hp. destruct k; unfold nwidth, width in Hp;
    [change (Z.to_nat 1) with 1%nat in Hp|change (Z.to_nat 2) with 2%nat in Hp|change (Z.to_nat 6) with 6%nat in Hp]; lia.
Qed.

(** field-map!. *)
Definition args_at (srcs : list (kind * list R)) (i : nat) : list item := map (fun km => value (fst km) (snd km) i) srcs.

(** The sources as they are when the loop starts. *)
Definition src_ok (s : fstate) (sh : shape) (r : fref) (v : fview) (km : kind * list R) : Prop :=
  exists ch, is_field s r (fst km) ch sh (snd km) /\ v = view_of r (fst km) ch sh.

Lemma mapM_ext {A B} (f g : A -> outcome B) l : (forall x, In x l -> f x = g x) -> mapM f l = mapM g l.
Proof. induction l as [|a l IH]; intros H; [reflexivity|]. cbn [mapM]. rewrite (H a) by (left; reflexivity). rewrite IH by (intros x Hx; apply H; right; exact Hx). reflexivity. Qed.

Lemma read_args s r0 k0 ch0 sh md m i rs vs srcs : good s -> is_field s r0 k0 ch0 sh md -> length m = length md ->
  (forall p, (nwidth k0 * i <= p)%nat -> num m p = num md p) -> (Z.of_nat i < sh_N sh) ->
  Forall2 (fun r vkm => src_ok s sh r (fst vkm) (snd vkm)) rs (combine vs srcs) -> length vs = length srcs ->
  mapM (fun v => let! a := peek (with_arr s (ptr_of r0) m) (w_ptr v) in value_at (w_kind v) a (Z.of_nat i)) vs = Val (args_at srcs i).
Proof.
  intros G F0 L Hm Hi. revert vs srcs. induction rs as [|r rs IH]; intros vs srcs H HL; destruct vs as [|v vs], srcs as [|km srcs]; try discriminate; cbn [combine] in H.
  - reflexivity.
  - inversion H.
  - inversion H.
  - assert (H1 : src_ok s sh r v km) by (inversion H; assumption). assert (H2 : Forall2 (fun r vkm => src_ok s sh r (fst vkm) (snd vkm)) rs (combine vs srcs)) by (inversion H; assumption). cbn [mapM].
    destruct H1 as (ch & F & Ev). cbn [fst snd] in F, Ev. subst v. cbn [view_of w_ptr w_kind].
    destruct (assert_ok _ _ _ _ _ _ F0) as (_ & P0). destruct (assert_ok _ _ _ _ _ _ F) as (_ & P). rewrite (peek_with _ _ _ _ m _ P0 P). cbn [bind].
    destruct (field_room _ _ _ _ _ _ G F) as (N0 & Lr).
    assert (V : value_at (fst km) (if ptr_eqb (ptr_of r0) (ptr_of r) then m else snd km) (Z.of_nat i) = Val (value (fst km) (snd km) i)).
    { destruct (ptr_eqb_spec (ptr_of r0) (ptr_of r)) as [Ep|_].
      - assert (r0 = r) as <- by (destruct r0, r; cbn in Ep; congruence). destruct (field_fun _ _ _ _ _ _ _ _ _ _ F0 F) as (-> & -> & _ & ->).
        rewrite value_at_ok; [|lia|]. { rewrite Nat2Z.id. f_equal. apply value_ext. intros p Hp. apply Hm. lia. }
        rewrite L. destruct (fst km); cbn [width] in *; lia.
      - rewrite value_at_ok; [rewrite Nat2Z.id; reflexivity|lia|]. destruct (fst km); cbn [width] in *; lia. }
    rewrite V. cbn [bind]. rewrite (IH vs srcs H2) by (cbn in HL; lia). cbn [bind]. reflexivity.
Qed.

Lemma map_loop s r0 k0 ch0 sh md f rs vs srcs : good s -> is_field s r0 k0 ch0 sh md ->
  Forall2 (fun r vkm => src_ok s sh r (fst vkm) (snd vkm)) rs (combine vs srcs) -> length vs = length srcs ->
  (exists m, forZ 0 (sh_N sh) (map1 f (view_of r0 k0 ch0 sh) vs) s = Val (with_arr s (ptr_of r0) m) /\ length m = length md /\
    forall i, (i < points sh)%nat -> exists x, f (args_at srcs i) = Some x /\ stored_as k0 x = Some (value k0 m i)) \/
  (forZ 0 (sh_N sh) (map1 f (view_of r0 k0 ch0 sh) vs) s = Abort /\ exists i, (i < points sh)%nat /\ match f (args_at srcs i) with Some x => stored_as k0 x = None | None => True end).
Proof.
  intros G F0 HF HL. destruct (field_room _ _ _ _ _ _ G F0) as (N0 & Ld). destruct (assert_ok _ _ _ _ _ _ F0) as (_ & P0).
  set (bad := fun i => match f (args_at srcs i) with Some x => stored_as k0 x = None | None => True end).
  (* by the number of points *)
  assert (K : forall n, (n <= points sh)%nat ->
    (exists m, forZ 0 (Z.of_nat n) (map1 f (view_of r0 k0 ch0 sh) vs) s = Val (with_arr s (ptr_of r0) m) /\ length m = length md /\
      (forall p, (nwidth k0 * n <= p)%nat -> num m p = num md p) /\
      forall i, (i < n)%nat -> exists x, f (args_at srcs i) = Some x /\ stored_as k0 x = Some (value k0 m i)) \/
    (forZ 0 (Z.of_nat n) (map1 f (view_of r0 k0 ch0 sh) vs) s = Abort /\ exists i, (i < n)%nat /\ bad i)).
  { induction n as [|n IH]; intros Hn.
    - left. exists md. split; [unfold forZ; cbn; rewrite (with_self _ _ _ P0); reflexivity|]. split; [reflexivity|]. split; [reflexivity|]. intros i Hi. lia.
    - replace (Z.of_nat (S n)) with (Z.of_nat n + 1) by lia. rewrite forZ_foldM. replace (zran 0 (Z.of_nat n + 1)) with (zran 0 (Z.of_nat n) ++ [Z.of_nat n]).
      2:{ unfold zran. replace (Z.to_nat (Z.of_nat n + 1 - 0)) with (S n) by lia. rewrite zseq_snoc. replace (Z.to_nat (Z.of_nat n - 0)) with n by lia. f_equal. }
      rewrite foldM_app, <- forZ_foldM. destruct IH as [(m & -> & L & Hm & Hv)|(-> & i & Hi & Hb)]; [lia| |].
      2:{ right. split; [reflexivity|]. exists i. split; [lia|exact Hb]. }
      cbn [bind foldM]. unfold map1. cbn [view_of w_ptr w_kind].
      rewrite (read_args s r0 k0 ch0 sh md m n rs vs srcs G F0 L Hm ltac:(unfold points in Hn; lia) HF HL). cbn [bind].
      assert (Pk : peek (with_arr s (ptr_of r0) m) (ptr_of r0) = Val m) by (rewrite (peek_with _ _ _ _ m _ P0 P0); destruct (ptr_eqb_spec (ptr_of r0) (ptr_of r0)); congruence).
      rewrite Pk. cbn [bind].
      destruct (f (args_at srcs n)) as [x|] eqn:Ef.
      2:{ right. split; [reflexivity|]. exists n. split; [lia|]. unfold bad. rewrite Ef. exact I. }
      destruct (stored_as k0 x) as [y|] eqn:Es.
      2:{ right. split; [rewrite write_at_bad by exact Es; reflexivity|]. exists n. split; [lia|]. unfold bad. rewrite Ef. exact Es. }
      destruct (write_at_ok k0 m (Z.of_nat n) x y) as (m' & -> & L' & V & W); [lia| |exact Es|].
      { rewrite L. unfold points in Hn. assert (Z.of_nat n + 1 <= sh_N sh) by lia. destruct k0; cbn [width] in *; lia. }
      cbn [bind]. rewrite (poke_ok _ _ _ _ Pk), with_with. left. exists m'. rewrite Nat2Z.id in V, W. split; [reflexivity|]. split; [congruence|]. split.
      + intros p Hp. rewrite W by nia. apply Hm. nia.
      + intros i Hi. destruct (Nat.eq_dec i n) as [->|Ne]; [exists x; split; [exact Ef|rewrite V; exact Es]|].
        destruct (Hv i ltac:(lia)) as (z & Ez & Sz). exists z. split; [exact Ez|]. rewrite Sz. f_equal. apply value_ext. intros p Hp. symmetry. apply W. left. nia. }
  specialize (K (points sh) (Nat.le_refl _)). replace (Z.of_nat (points sh)) with (sh_N sh) in K by (unfold points; lia).
  destruct K as [(m & E & L & _ & H)|H]; [left; exists m; auto|right; exact H].
Qed.
