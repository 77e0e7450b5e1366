(** Proofs about the averaging over a pixel crossed by at most two materials. *)
From Coq Require Import List ZArith Reals Bool Lia Lra.
From Verif Require Import Base RC M_Tensor S_Tensor L_Tensor L_Tensor2 M_Med S_Med L_Med1.
Import ListNotations.
Local Open Scope R_scope.

Lemma tensor_of_val (herm mu : bool) m T Ti : material_tensor herm mu m = Val (T, Ti) -> tensor_is mu m T.
Proof.
  destruct m as [eps mv|a|g|f|]; cbn [material_tensor]; try discriminate.
  - destruct (fdiv 1 _); cbn [bind]; try discriminate. intros [= <- _]. destruct mu; constructor.
  - destruct (check _); cbn [bind]; try discriminate. destruct (invert _); cbn [bind]; try discriminate.
    intros [= <- _]. unfold aniso_tensor.
    destruct mu.
    + destruct (a_mdiag a) as [[x y] z] eqn:E1, (a_moff a) as [[u v] w] eqn:E2, (a_mim a) as [[iu iv] iw] eqn:E3.
      pose proof (is_amu a x y z u v w iu iv iw E1 E2 E3) as K.
      match goal with |- tensor_is _ _ ?t => match type of K with tensor_is _ _ ?t' => replace t with t'; [exact K|] end end.
      f_equal; apply C_eq; csimp; ring.
    + destruct (a_ediag a) as [[x y] z] eqn:E1, (a_eoff a) as [[u v] w] eqn:E2, (a_eim a) as [[iu iv] iw] eqn:E3.
      pose proof (is_aeps a x y z u v w iu iv iw E1 E2 E3) as K.
      match goal with |- tensor_is _ _ ?t => match type of K with tensor_is _ _ ?t' => replace t with t'; [exact K|] end end.
      f_equal; apply C_eq; csimp; ring.
Qed.

Lemma bind_nu {A B : Type} (x : outcome A) (f : A -> outcome B) : x <> UB -> (forall v, f v <> UB) -> bind x f <> UB.
Proof. intros Hx Hf. destruct x; cbn [bind]; try discriminate; [apply Hf|contradiction Hx; reflexivity]. Qed.
Lemma fdiv_nu x y : fdiv x y <> UB.
Proof. unfold fdiv. destruct (Req_EM_T y 0); discriminate. Qed.
Lemma mean_nu e1 e2 f a b c : mean_eps_two e1 e2 f a b c <> UB.
Proof.
  assert (Ht : forall t, tau_of t <> UB) by (intros [? ? ? ? ? ?]; unfold tau_of; repeat (apply bind_nu; [apply fdiv_nu|intros ?]); discriminate).
  assert (Hi : forall t, tau_inv t <> UB) by (intros [? ? ? ? ? ?]; unfold tau_inv; repeat (apply bind_nu; [apply fdiv_nu|intros ?]); discriminate).
  unfold mean_eps_two. destruct (Reqb _ 0); [discriminate|]. apply bind_nu; [apply fdiv_nu|]. intros ni.
  apply bind_nu.
  { unfold rotation_matrix. destruct (if (Rltb _ _ || Rltb _ _)%bool then _ else _) as [[c0 c1] c2]. apply bind_nu; [apply fdiv_nu|discriminate]. }
  intros Rt. apply bind_nu; [apply Ht|]. intros t1. apply bind_nu; [apply Ht|]. intros t2. apply bind_nu; [apply Hi|]. discriminate.
Qed.

Lemma not_variable m : variable_material m = false -> constant m.
Proof. destruct m; cbn; try discriminate; intros _; split; discriminate. Qed.

Section WithEnv.
Variables (e : env) (objs : list material) (contains : nat -> vec -> Prop).
Hypothesis Hs : searches e objs contains.
Hypothesis Heq : forall a b, q_eqm e a b = true -> a = b.

Definition good (s : seen) : Prop := exists q, s = look e q.

Lemma find_prec p o : q_find e p = Some o -> exists prec i, (forall i j, (i < j)%nat -> (prec i < prec j)%Z) /\ f_id o = prec i /\ (0 < f_id o)%Z.
Proof.
  intros E. destruct Hs as (prec & Hm & Hp & H). specialize (H p). rewrite E in H. destruct H as (i & _ & _ & Ei).
  exists prec, i. split; [exact Hm|]. split; [exact Ei|]. rewrite Ei. apply Hp.
Qed.
Lemma good_id s : good s -> (0 <= s_id s)%Z.
Proof.
  intros (q & ->). unfold look. destruct (q_find e (q_shift e q)) as [o|] eqn:E; cbn; [|lia].
  destruct (find_prec _ _ E) as (_ & _ & _ & _ & H). lia.
Qed.
Lemma prec_inj (prec : nat -> Z) i j : (forall i j, (i < j)%nat -> (prec i < prec j)%Z) -> prec i = prec j -> i = j.
Proof. intros H E. destruct (Nat.lt_trichotomy i j) as [K|[K|K]]; [|exact K|]; apply H in K; lia. Qed.
Lemma find_same_id p q o o' : q_find e p = Some o -> q_find e q = Some o' -> f_id o = f_id o' -> f_mat o = f_mat o'.
Proof.
  intros E E' Hid. destruct Hs as (prec & Hm & Hp & H).
  pose proof (H p) as A. rewrite E in A. destruct A as (i & _ & Ni & Pi).
  pose proof (H q) as B. rewrite E' in B. destruct B as (j & _ & Nj & Pj).
  assert (i = j) by (apply (prec_inj prec _ _ Hm); congruence). subst j. congruence.
Qed.
Lemma good_same s t : good s -> good t -> s_id s = s_id t -> s_mat s = s_mat t.
Proof.
  intros (p & ->) (q & ->). unfold look.
  destruct (q_find e (q_shift e p)) as [o|] eqn:E, (q_find e (q_shift e q)) as [o'|] eqn:E'; cbn.
  - intros Hid. rewrite (find_same_id _ _ _ _ E E' Hid). reflexivity.
  - destruct (find_prec _ _ E) as (_ & _ & _ & _ & H). lia.
  - destruct (find_prec _ _ E') as (_ & _ & _ & _ & H). lia.
  - reflexivity.
Qed.
Lemma good_obj s : good s -> (0 < s_id s)%Z -> exists o, s_obj s = Some o.
Proof. intros (q & ->). unfold look. destruct (q_find e (q_shift e q)) as [o|]; cbn; [eauto|lia]. Qed.
Lemma good_var s : good s -> var_obj (s_obj s) = false -> (variable_material (q_default e) && hole (s_obj s))%bool = false ->
  variable_material (s_mat s) = false.
Proof.
  intros (q & ->). unfold look. destruct (q_find e (q_shift e q)) as [o|]; cbn.
  - intros A B. destruct (f_mat o) eqn:Em; try exact A. rewrite andb_true_r in B. exact B.
  - intros _ B. rewrite andb_true_r in B. exact B.
Qed.

(** The same image of the same object; the place of a point with two candidates. *)
Definition image (s t : seen) : Prop := s_id s = s_id t /\ (s = t \/ q_veq e (s_by s) (s_by t) = true).
Definition place (a b t : seen) : Prop := (s_mat t = s_mat a \/ s_mat t = s_mat b) /\
  ((s_id a < s_id b)%Z -> s_mat t = s_mat a \/ image t b) /\ ((s_id b < s_id a)%Z -> s_mat t = s_mat b \/ image t a).
Lemma place_a a b t : good a -> good t -> image t a -> place a b t.
Proof. intros Ga Gt H. pose proof (good_same t a Gt Ga (proj1 H)) as E. unfold place. auto. Qed.
Lemma place_b a b t : good b -> good t -> image t b -> place a b t.
Proof. intros Gb Gt H. pose proof (good_same t b Gt Gb (proj1 H)) as E. unfold place. auto. Qed.

(** The state of the loop after the points [l]. *)
Definition Inv (l : list seen) (o1 o2 : option seen) : Prop :=
  match o1 with
  | None => l = [] /\ o2 = None
  | Some a => hd_error l = Some a /\ good a /\
      match o2 with
      | None => forall t, In t l -> good t /\ image t a
      | Some b => good b /\ In b l /\ forall t, In t l -> place a b t
      end
  end.
Lemma same_seen_ok s o : good s -> (forall t, o = Some t -> good t) ->
  exists v, same_seen e s o = Val v /\ (v = true -> exists t, o = Some t /\ image s t).
Proof.
  intros Gs Go. unfold same_seen. destruct (Z.eqb_spec (s_id s) (id_of o)) as [E|E]; [|exists false; split; [reflexivity|discriminate]].
  destruct o as [t|]; cbn [id_of] in E.
  - eexists. split; [reflexivity|]. intros K. exists t. split; [reflexivity|]. split; [exact E|right; exact K].
  - pose proof (good_id s Gs). lia.
Qed.
Lemma step_inv l o1 o2 s : good s -> Inv l o1 o2 ->
  look_step e (o1, o2) s = Val None \/ exists o1' o2', look_step e (o1, o2) s = Val (Some (o1', o2')) /\ Inv (l ++ [s]) o1' o2'.
Proof.
  intros Gs HI.
  assert (G1 : forall t, o1 = Some t -> good t) by (intros t ->; apply HI).
  assert (G2 : forall t, o2 = Some t -> good t).
  { intros t ->. destruct o1; cbn in HI; [apply HI|]. destruct HI; discriminate. }
  unfold look_step.
  destruct (same_seen_ok s o1 Gs G1) as (b1 & -> & H1). cbn [bind].
  assert (E2 : exists b2, (if b1 then Val true else same_seen e s o2) = Val b2 /\
      (b2 = true -> exists t, (o1 = Some t \/ o2 = Some t) /\ image s t)).
  { destruct b1.
    - exists true. split; [reflexivity|]. intros _. destruct (H1 eq_refl) as (t & A & B). eauto.
    - destruct (same_seen_ok s o2 Gs G2) as (b2 & E & H2). exists b2. split; [exact E|]. intros Hb.
      destruct (H2 Hb) as (t & A & B). eauto. }
  destruct E2 as (b2 & -> & H2). cbn [bind]. clear H1.
  destruct b2.
  { right. exists o1, o2. split; [reflexivity|]. destruct (H2 eq_refl) as (t & Ht & Em).
    destruct o1 as [a|]; cbn [Inv] in HI |- *.
    - destruct HI as (Hh & Ga & HI). split; [destruct l; [discriminate|exact Hh]|]. split; [exact Ga|].
      destruct o2 as [b|].
      + destruct HI as (Gb & Ib & HI). split; [exact Gb|]. split; [apply in_or_app; left; exact Ib|].
        intros u Hu. apply in_app_or in Hu. destruct Hu as [Hu|[<-|[]]]; [exact (HI u Hu)|].
        destruct Ht as [[= ->]|[= ->]]; [apply place_a|apply place_b]; assumption.
      + intros u Hu. apply in_app_or in Hu. destruct Hu as [Hu|[<-|[]]]; [exact (HI u Hu)|].
        destruct Ht as [[= ->]|[=]]. split; assumption.
    - exfalso. destruct HI as [_ ->]. destruct Ht; discriminate. }
  destruct (Z.eqb_spec (id_of o1) (-1)) as [E1|E1].
  { assert (o1 = None) as ->.
    { destruct o1 as [a|]; [|reflexivity]. cbn in E1. pose proof (good_id a (G1 a eq_refl)). lia. }
    destruct HI as [-> ->]. right. exists (Some s), None. split; [reflexivity|]. cbn [Inv app].
    split; [reflexivity|]. split; [exact Gs|]. intros t [<-|[]]. split; [exact Gs|]. split; [reflexivity|left; reflexivity]. }
  destruct o1 as [a|]; [|exfalso; apply E1; reflexivity].
  cbn [Inv] in HI. destruct HI as (Hh & Ga & HI).
  assert (Hh' : hd_error (l ++ [s]) = Some a) by (destruct l; [discriminate|exact Hh]).
  destruct (Z.eqb_spec (id_of o2) (-1)) as [E3|E3].
  { assert (o2 = None) as ->.
    { destruct o2 as [b|]; [|reflexivity]. cbn in E3. pose proof (good_id b (G2 b eq_refl)). lia. }
    right. exists (Some a), (Some s). split; [reflexivity|]. cbn [Inv]. split; [exact Hh'|]. split; [exact Ga|].
    split; [exact Gs|]. split; [apply in_or_app; right; left; reflexivity|].
    intros t Ht. apply in_app_or in Ht. destruct Ht as [Ht|[<-|[]]].
    - destruct (HI t Ht). apply place_a; assumption.
    - apply place_b; [exact Gs|exact Gs|]. split; [reflexivity|left; reflexivity]. }
  destruct o2 as [b|]; [|exfalso; apply E3; reflexivity].
  destruct HI as (Gb & Ib & HI).
  destruct ((s_id a <=? s_id s)%Z && (s_id b <=? s_id s)%Z && ((s_id a =? s_id b)%Z || q_eqm e (s_mat a) (s_mat b)))%bool eqn:Ec.
  { right. exists (Some a), (Some s). split; [reflexivity|]. cbn [Inv]. split; [exact Hh'|]. split; [exact Ga|].
    split; [exact Gs|]. split; [apply in_or_app; right; left; reflexivity|].
    apply andb_true_iff in Ec. destruct Ec as [El Ec]. apply orb_true_iff in Ec. apply andb_true_iff in El. destruct El as [El _]. apply Z.leb_le in El.
    assert (Em : s_mat a = s_mat b).
    { destruct Ec as [K|K]; [|exact (Heq _ _ K)]. apply Z.eqb_eq in K. exact (good_same a b Ga Gb K). }
    intros t Ht. apply in_app_or in Ht. destruct Ht as [Ht|[<-|[]]].
    - assert (K : s_mat t = s_mat a) by (destruct (HI t Ht) as ([K|K] & _); congruence). unfold place. split; [left; exact K|]. split; [left; exact K|lia].
    - apply place_b; [exact Gs|exact Gs|]. split; [reflexivity|left; reflexivity]. }
  destruct (negb ((s_id a <? s_id b)%Z && ((s_id a =? s_id s)%Z || q_eqm e (s_mat a) (s_mat s))) &&
            negb ((s_id b <? s_id a)%Z && ((s_id b =? s_id s)%Z || q_eqm e (s_mat b) (s_mat s))))%bool eqn:Ed; [left; reflexivity|].
  right. exists (Some a), (Some b). split; [reflexivity|]. cbn [Inv]. split; [exact Hh'|]. split; [exact Ga|].
  split; [exact Gb|]. split; [apply in_or_app; left; exact Ib|].
  intros t Ht. apply in_app_or in Ht. destruct Ht as [Ht|[<-|[]]]; [exact (HI t Ht)|].
  apply andb_false_iff in Ed. destruct Ed as [K|K]; apply negb_false_iff, andb_true_iff in K; destruct K as [Kl K]; apply orb_true_iff in K; apply Z.ltb_lt in Kl.
  - assert (Em : s_mat s = s_mat a) by (destruct K as [K|K]; [apply Z.eqb_eq in K; symmetry; exact (good_same a s Ga Gs K)|symmetry; exact (Heq _ _ K)]).
    split; [left; exact Em|]. split; [left; exact Em|lia].
  - assert (Em : s_mat s = s_mat b) by (destruct K as [K|K]; [apply Z.eqb_eq in K; symmetry; exact (good_same b s Gb Gs K)|symmetry; exact (Heq _ _ K)]).
    split; [right; exact Em|]. split; [lia|left; exact Em].
Qed.
Lemma look_all_inv l : forall l0 o1 o2, (forall s, In s l -> good s) -> Inv l0 o1 o2 ->
  look_all e (o1, o2) l = Val None \/ exists o1' o2', look_all e (o1, o2) l = Val (Some (o1', o2')) /\ Inv (l0 ++ l) o1' o2'.
Proof.
  induction l as [|s l IH]; intros l0 o1 o2 Hg HI.
  - right. exists o1, o2. rewrite app_nil_r. split; [reflexivity|exact HI].
  - cbn [look_all]. destruct (step_inv l0 o1 o2 s (Hg s (or_introl eq_refl)) HI) as [E|(p1 & p2 & E & HI')]; rewrite E; cbn [bind].
    + left. reflexivity.
    + destruct (IH (l0 ++ [s]) p1 p2 (fun t Ht => Hg t (or_intror Ht)) HI') as [E'|(r1 & r2 & E' & K)].
      * left. exact E'.
      * right. exists r1, r2. split; [exact E'|]. rewrite <- app_assoc in K. exact K.
Qed.

Lemma points_center d r : hd_error (look_points e d r) = Some (unit_pos e r).
Proof.
  unfold look_points. destruct (unit_pos e r) as [[x y] z], (half_pixel e d) as [[d1 d2] d3].
  assert (E : exists l, neighbors (q_dim e) = (0, 0, 0) :: l).
  { unfold neighbors. destruct (q_dim e) as [|[|[|[|n]]]]; eexists; reflexivity. }
  destruct E as (l & ->). cbn [map hd_error]. do 2 f_equal; [f_equal|]; ring.
Qed.

(** What the routine does after the loop. *)
Lemma mean_cases herm mu d r :
  mean_func herm mu e d r = Val None \/
  exists a qb, let b := look e qb in
    a = look e (unit_pos e r) /\ In qb (look_points e d r) /\
    (forall q, In q (look_points e d r) -> place a b (look e q)) /\
    variable_material (s_mat a) = false /\ variable_material (s_mat b) = false /\
    (q_file e mu <> None -> hole (s_obj a) = false /\ hole (s_obj b) = false) /\
    mean_func herm mu e d r = let! t1 := material_tensor herm mu (s_mat a) in
      if (s_id a =? s_id b)%Z || q_eqm e (s_mat a) (s_mat b) then Val (Some (fst t1, (0, 0, 0))) else interface herm mu e d r a b (fst t1).
Proof.
  unfold mean_func.
  destruct (look_all_inv (map (look e) (look_points e d r)) [] None None) as [E|(o1 & o2 & E & HI)].
  { intros s Hin. apply in_map_iff in Hin. destruct Hin as (q & <- & _). exists q. reflexivity. }
  { split; reflexivity. }
  { left. rewrite E. reflexivity. }
  rewrite E. cbn [bind]. cbn [app] in HI. pose proof (points_center d r) as Hc.
  destruct o1 as [a|]; cbn [Inv] in HI.
  2:{ exfalso. destruct HI as [K _]. apply map_eq_nil in K. rewrite K in Hc. discriminate. }
  destruct HI as (Hh & Ga & HI).
  assert (Ea : a = look e (unit_pos e r)).
  { destruct (look_points e d r) as [|q0 l]; [discriminate|]. cbn in Hh, Hc. congruence. }
  cbn [id_of]. pose proof (good_id a Ga) as Ha. replace (-1 <? s_id a)%Z with true by (symmetry; apply Z.ltb_lt; lia). cbn [check bind].
  assert (HB : exists b, (if match o2 with Some s => s_id s | None => -1 end =? -1 then Some a else o2)%Z = Some b /\ good b /\
     In b (map (look e) (look_points e d r)) /\ forall t, In t (map (look e) (look_points e d r)) -> place a b t).
  { destruct o2 as [b|].
    - destruct HI as (Gb & Ib & HI). exists b. pose proof (good_id b Gb).
      replace (s_id b =? -1)%Z with false by (symmetry; apply Z.eqb_neq; lia). split; [reflexivity|]. split; [exact Gb|]. split; assumption.
    - exists a. split; [reflexivity|]. split; [exact Ga|]. split.
      + destruct (map (look e) (look_points e d r)); [discriminate|]. injection Hh as ->. left. reflexivity.
      + intros t Ht. destruct (HI t Ht). apply place_a; assumption. }
  destruct HB as (b & Eb & Gb & Ib & Hall). unfold id_of. rewrite Eb.
  match goal with |- context[if ?c then Val None else _] => destruct c eqn:Ev end; [left; reflexivity|].
  right. apply orb_false_iff in Ev. destruct Ev as [Ev Ew]. apply orb_false_iff in Ev. destruct Ev as [V1 V2].
  apply in_map_iff in Ib. destruct Ib as (qb & Eqb & Iqb). exists a, qb. cbv zeta. rewrite Eqb. split; [exact Ea|]. split; [exact Iqb|].
  split.
  { intros q Hq. apply Hall. apply in_map. exact Hq. }
  apply andb_false_iff in Ew.
  assert (Wd : (variable_material (q_default e) && hole (s_obj a))%bool = false /\ (variable_material (q_default e) && hole (s_obj b))%bool = false).
  { destruct Ew as [K|K]; apply orb_false_iff in K; destruct K as [K1 K2].
    - rewrite K1. split; reflexivity.
    - rewrite K1, K2, andb_false_r. split; reflexivity. }
  destruct Wd as [W1 W2].
  split; [exact (good_var a Ga V1 W1)|]. split; [exact (good_var b Gb V2 W2)|].
  split; [|reflexivity].
  intros Hf. destruct Ew as [K|K]; apply orb_false_iff in K; destruct K as [K1 K2].
  - destruct (q_file e mu); [discriminate|contradiction].
  - split; assumption.
Qed.

Lemma look_material q : material_at e objs contains (q_shift e q) (s_mat (look e q)).
Proof.
  unfold look. destruct Hs as (prec & _ & _ & H). specialize (H (q_shift e q)).
  destruct (q_find e (q_shift e q)) as [o|]; cbn [s_mat].
  - destruct H as (i & Ht & Hn & _).
    destruct (f_mat o) eqn:Em; try (apply at_object with i; [exact Ht|exact Hn|discriminate]).
    apply at_background. right. exists i. split; [exact Ht|exact Hn].
  - apply at_background. left. exact H.
Qed.

Lemma mean_safe herm mu d r : mean_func herm mu e d r <> UB.
Proof.
  destruct (mean_cases herm mu d r) as [->|(a & qb & Ea & _ & _ & _ & _ & _ & ->)]; [discriminate|].
  assert (Hm : forall m, material_tensor herm mu m <> UB).
  { intros m. destruct m as [eps mv|an|g|f|]; cbn [material_tensor]; try discriminate.
    - unfold fdiv. destruct (Req_EM_T _ 0); cbn [bind]; discriminate.
    - destruct (herm || _)%bool; cbn [check bind]; [|discriminate].
      destruct (invert_cases (aniso_tensor mu an)) as [(W & -> & _)|[(-> & _)|(-> & _)]]; cbn [bind]; discriminate. }
  destruct (material_tensor herm mu (s_mat a)) as [t1| | |] eqn:E1; cbn [bind]; try discriminate.
  2:{ intros _. exact (Hm _ E1). }
  destruct ((s_id a =? s_id (look e qb))%Z || q_eqm e (s_mat a) (s_mat (look e qb)))%bool eqn:Ec; [discriminate|].
  apply orb_false_iff in Ec. destruct Ec as [Ec _]. apply Z.eqb_neq in Ec. unfold interface.
  set (b := look e qb) in *.
  assert (Ga : good a) by (exists (unit_pos e r); exact Ea). assert (Gb : good b) by (exists qb; reflexivity).
  pose proof (good_id a Ga). pose proof (good_id b Gb).
  assert (Ht : exists o, s_obj (if (s_id b <? s_id a)%Z then a else b) = Some o).
  { destruct (Z.ltb_spec (s_id b) (s_id a)).
    - apply (good_obj a Ga). lia.
    - apply (good_obj b Gb). lia. }
  destruct Ht as (o & ->). destruct (q_normal e _ _) as [[vx vy] vz], (q_size e) as [[sx sy] sz], (q_none e) as [[nx ny] nz].
  assert (Hf : forall (c : bool) x y, (if c then Val 0 else fdiv x y) <> UB).
  { intros c x y. destruct c; [discriminate|]. unfold fdiv. destruct (Req_EM_T y 0); discriminate. }
  destruct (if nx then Val 0 else fdiv vx sx) as [n0| | |] eqn:N0; cbn [bind]; try discriminate; [|intros _; exact (Hf nx vx sx N0)].
  destruct (if ny then Val 0 else fdiv vy sy) as [n1| | |] eqn:N1; cbn [bind]; try discriminate; [|intros _; exact (Hf ny vy sy N1)].
  destruct (if nz then Val 0 else fdiv vz sz) as [n2| | |] eqn:N2; cbn [bind]; try discriminate; [|intros _; exact (Hf nz vz sz N2)].
  destruct (material_tensor herm mu (s_mat b)) as [t2| | |] eqn:E2; cbn [bind]; try discriminate; [|intros _; exact (Hm _ E2)].
  match goal with |- context[mean_eps_two ?x ?y ?f ?u ?v ?w] => destruct (mean_eps_two x y f u v w) as [[T|]| | |] eqn:Em end; cbn [bind]; try discriminate.
  exfalso. exact (mean_nu _ _ _ _ _ _ Em).
Qed.

End WithEnv.
