(** The average over a pixel: what it is made of, and that it is positive definite. *)
From Coq Require Import List ZArith Reals Bool Lia Lra.
From Verif Require Import Base RC M_Tensor S_Tensor L_Tensor L_Tensor2 M_Med S_Med L_Med1 L_Med2.
Import ListNotations.
Local Open Scope R_scope.

Lemma mean_swap e1 e2 f a b c T : mean_eps_two e1 e2 f a b c = Val (Some T) -> mean_eps_two e2 e1 (1 - f) a b c = Val (Some T).
Proof.
  unfold mean_eps_two. destruct (Reqb _ 0); [discriminate|]. destruct (fdiv 1 _) as [ni| | |]; cbn [bind]; try discriminate.
  destruct (rotation_matrix _ _ _) as [Rt| | |]; cbn [bind]; try discriminate.
  destruct (tau_of (rotate e1 Rt)) as [t1| | |]; cbn [bind]; try discriminate.
  destruct (tau_of (rotate e2 Rt)) as [t2| | |]; cbn [bind]; try discriminate.
  assert (H : forall x y, (1 - f) * y + (1 - (1 - f)) * x = f * x + (1 - f) * y) by (intros; ring).
  rewrite !H. intros E; exact E.
Qed.

Section WithEnv.
Variables (e : env) (objs : list material) (contains : nat -> vec -> Prop).
Hypothesis Hs : searches e objs contains.
Hypothesis Heq : forall a b, q_eqm e a b = true -> a = b.

Lemma look_value mu q T : (q_file e mu = None \/ hole (s_obj (look e q)) = false) -> tensor_is mu (s_mat (look e q)) T ->
  value_at e objs contains mu (q_shift e q) T.
Proof.
  unfold look. destruct Hs as (prec & _ & _ & H). specialize (H (q_shift e q)).
  destruct (q_find e (q_shift e q)) as [o|]; cbn [s_mat s_obj hole].
  - destruct H as (i & Ht & Hn & _). intros Hf HT.
    destruct (f_mat o) eqn:Em; try (eapply value_object; [exact Ht|exact Hn|discriminate|exact HT]).
    apply value_background; [right; exists i; split; [exact Ht|exact Hn]| |exact HT].
    destruct Hf as [Hf|Hf]; [exact Hf|discriminate].
  - intros [Hf|Hf]; [|discriminate]. intros HT. apply value_background; [left; exact H|exact Hf|exact HT].
Qed.
(** A point that is not in the background has the material of an object. *)
Lemma look_objs q : hole (s_obj (look e q)) = false -> In (s_mat (look e q)) objs.
Proof.
  unfold look. destruct Hs as (prec & _ & _ & H). specialize (H (q_shift e q)).
  destruct (q_find e (q_shift e q)) as [o|]; cbn [s_mat s_obj hole]; [|discriminate].
  destruct H as (i & _ & Hn & _). apply nth_error_In in Hn. destruct (f_mat o); intros K; try discriminate; exact Hn.
Qed.
Lemma look_hole q : hole (s_obj (look e q)) = true -> s_mat (look e q) = q_default e.
Proof.
  unfold look. destruct (q_find e (q_shift e q)) as [o|]; cbn [s_mat s_obj hole]; [|reflexivity].
  destruct (f_mat o); intros K; try discriminate; reflexivity.
Qed.

Lemma order_ids qu ql : (s_id (look e ql) < s_id (look e qu))%Z ->
  exists o i, q_find e (q_shift e qu) = Some o /\ s_obj (look e qu) = Some o /\ s_by (look e qu) = vadd (f_by o) (vsub qu (q_shift e qu)) /\
    topmost (length objs) contains (q_shift e qu) i /\ forall j, topmost (length objs) contains (q_shift e ql) j -> (j < i)%nat.
Proof.
  destruct Hs as (prec & Hm & Hp & H). intros Hlt.
  pose proof (H (q_shift e qu)) as A. pose proof (H (q_shift e ql)) as B. unfold look in *.
  destruct (q_find e (q_shift e qu)) as [o|] eqn:Eu; cbn [s_id s_obj s_by] in *.
  - destruct A as (i & Ti & Ni & Pi). exists o, i. split; [reflexivity|]. split; [reflexivity|]. split; [reflexivity|]. split; [exact Ti|].
    intros j Tj. destruct (q_find e (q_shift e ql)) as [o'|] eqn:El; cbn [s_id] in *.
    + destruct B as (j' & Tj' & Nj & Pj). rewrite (topmost_unique _ _ _ _ _ Tj Tj').
      destruct (Nat.lt_trichotomy j' i) as [K|[K|K]]; [exact K| |]; exfalso; [subst; lia|apply Hm in K; lia].
    + destruct Tj as (K1 & K2 & _). exfalso. exact (B j K1 K2).
  - exfalso. destruct (q_find e (q_shift e ql)) as [o'|] eqn:El; cbn [s_id] in *; [|lia].
    destruct B as (j & _ & _ & Pj). pose proof (Hp j). lia.
Qed.

Lemma interface_averaged (herm mu : bool) d r qa qb e1 T n : s_id (look e qa) <> s_id (look e qb) ->
  interface herm mu e d r (look e qa) (look e qb) e1 = Val (Some (T, n)) ->
  exists TB, tensor_is mu (s_mat (look e qb)) TB /\
    ((s_id (look e qb) < s_id (look e qa))%Z /\ averaged e objs contains d r e1 TB qa qb T n \/
     (s_id (look e qa) < s_id (look e qb))%Z /\ averaged e objs contains d r TB e1 qb qa T n).
Proof.
  intros Hne. unfold interface. set (a := look e qa) in *. set (b := look e qb) in *.
  assert (Hcase : exists qu ql, (qu = qa /\ ql = qb /\ (s_id b <? s_id a)%Z = true \/ qu = qb /\ ql = qa /\ (s_id b <? s_id a)%Z = false) /\
     (s_id (look e ql) < s_id (look e qu))%Z).
  { destruct (Z.ltb_spec (s_id b) (s_id a)) as [K|K].
    - exists qa, qb. split; [left; repeat split|exact K].
    - exists qb, qa. split; [right; repeat split|]. fold a b. lia. }
  destruct Hcase as (qu & ql & Hc & Hlt). destruct (order_ids qu ql Hlt) as (o & i & Ef & Eo & Eb & Ti & Tj).
  assert (Etop : (if (s_id b <? s_id a)%Z then a else b) = look e qu) by (destruct Hc as [(-> & _ & ->)|(-> & _ & ->)]; reflexivity).
  cbv zeta. rewrite Etop, Eo, Eb. set (by_ := vadd (f_by o) (vsub qu (q_shift e qu))).
  destruct (q_normal e (vsub (unit_pos e r) by_) (f_obj o)) as [[vx vy] vz] eqn:En.
  destruct (q_size e) as [[sx sy] sz] eqn:Esz. destruct (q_none e) as [[nx ny] nz] eqn:Enn.
  assert (Hf : forall (c : bool) x y v, (if c then Val 0 else fdiv x y) = Val v -> v = if c then 0 else x / y).
  { intros c x y v. destruct c; [intros [= <-]; reflexivity|]. unfold fdiv. destruct (Req_EM_T y 0); [discriminate|]. intros [= <-]. reflexivity. }
  destruct (if nx then Val 0 else fdiv vx sx) as [n0| | |] eqn:N0; cbn [bind]; try discriminate.
  destruct (if ny then Val 0 else fdiv vy sy) as [n1| | |] eqn:N1; cbn [bind]; try discriminate.
  destruct (if nz then Val 0 else fdiv vz sz) as [n2| | |] eqn:N2; cbn [bind]; try discriminate.
  apply Hf in N0, N1, N2.
  destruct (material_tensor herm mu (s_mat b)) as [[TB TBi]| | |] eqn:E2; cbn [bind fst]; try discriminate.
  match goal with |- context[mean_eps_two e1 TB ?f ?u ?v ?w] => destruct (mean_eps_two e1 TB f u v w) as [[T'|]| | |] eqn:Em end; cbn [bind]; try discriminate.
  intros [= <- <-]. exists TB. split; [exact (tensor_of_val _ _ _ _ _ E2)|].
  assert (Hn : (n0, n1, n2) = reduced e (q_normal e (vsub (unit_pos e r) by_) (f_obj o))).
  { unfold reduced. rewrite En, Esz, Enn, N0, N1, N2. reflexivity. }
  destruct Hc as [(-> & -> & Hb)|(-> & -> & Hb)]; rewrite Hb in Em; [left|right]; (split; [exact Hlt|]); exists o, i;
    (split; [exact Ef|]); (split; [exact Ti|]); (split; [exact Tj|]); cbv zeta; fold by_; (split; [exact Hn|]).
  - exact Em.
  - apply mean_swap in Em.
    replace (1 - (1 - q_overlap e (vsub (vsub (unit_pos e r) (half_pixel e d)) by_) (vsub (vadd (unit_pos e r) (half_pixel e d)) by_) (f_obj o)))
      with (q_overlap e (vsub (vsub (unit_pos e r) (half_pixel e d)) by_) (vsub (vadd (unit_pos e r) (half_pixel e d)) by_) (f_obj o)) in Em by ring.
    exact Em.
Qed.

Lemma image_same q q' : (0 < s_id (look e q'))%Z -> image e (look e q) (look e q') -> same_image e q q'.
Proof.
  unfold image, look, same_image. destruct Hs as (prec & _ & Hp & H). pose proof (H (q_shift e q)) as A.
  destruct (q_find e (q_shift e q)) as [o|] eqn:E, (q_find e (q_shift e q')) as [o'|] eqn:E'; cbn [s_id s_by]; intros Hi (Hid & Hb).
  - exists o, o'. split; [reflexivity|]. split; [reflexivity|]. split; [exact Hid|]. cbv zeta. destruct Hb as [Hb|Hb]; [left|right; exact Hb].
    congruence.
  - lia.
  - lia.
  - lia.
Qed.
Lemma mean_average (herm mu : bool) d r T n : (q_file e mu = None \/ ~ In (q_default e) objs) ->
  mean_func herm mu e d r = Val (Some (T, n)) ->
  (n = (0, 0, 0) /\ forall q, In q (look_points e d r) -> value_at e objs contains mu (q_shift e q) T) \/
  exists TU TL qu ql, In qu (look_points e d r) /\ In ql (look_points e d r) /\
    value_at e objs contains mu (q_shift e qu) TU /\ value_at e objs contains mu (q_shift e ql) TL /\
    (forall q, In q (look_points e d r) -> value_at e objs contains mu (q_shift e q) TU \/ value_at e objs contains mu (q_shift e q) TL) /\
    (forall q, In q (look_points e d r) -> same_image e q qu \/ value_at e objs contains mu (q_shift e q) TL) /\
    averaged e objs contains d r TU TL qu ql T n.
Proof.
  intros Hf Hmean. destruct (mean_cases e objs contains Hs Heq herm mu d r) as [E|(a & qb & Ea & Iqb & Hall & Va & Vb & Hh & E)]; [congruence|].
  rewrite Hmean in E. clear Hmean. subst a.
  assert (Ia : In (unit_pos e r) (look_points e d r)).
  { pose proof (points_center e d r) as K. destruct (look_points e d r) as [|q0 l]; [discriminate|]. cbn in K. left. congruence. }
  assert (Hv : forall q, In q (look_points e d r) -> q_file e mu = None \/ hole (s_obj (look e q)) = false).
  { intros q Hq. destruct Hf as [Hf|Hf]; [left; exact Hf|]. destruct (q_file e mu) eqn:Ef; [|left; reflexivity]. right.
    destruct (Hh ltac:(discriminate)) as [H1 H2]. destruct (hole (s_obj (look e q))) eqn:Eh; [|reflexivity]. exfalso.
    apply look_hole in Eh. apply look_objs in H1, H2. destruct (proj1 (Hall q Hq)) as [K|K]; rewrite Eh in K; apply Hf; rewrite K; assumption. }
  symmetry in E. destruct (material_tensor herm mu (s_mat (look e (unit_pos e r)))) as [[TA TAi]| | |] eqn:E1; cbn [bind fst] in E; try discriminate.
  pose proof (tensor_of_val _ _ _ _ _ E1) as HTA.
  destruct ((s_id (look e (unit_pos e r)) =? s_id (look e qb))%Z || q_eqm e (s_mat (look e (unit_pos e r))) (s_mat (look e qb)))%bool eqn:Ec.
  - injection E as <- <-. left. split; [reflexivity|].
    assert (Em : s_mat (look e (unit_pos e r)) = s_mat (look e qb)).
    { apply orb_true_iff in Ec. destruct Ec as [K|K]; [|exact (Heq _ _ K)]. apply Z.eqb_eq in K.
      apply (good_same e objs contains Hs); [eexists; reflexivity|eexists; reflexivity|exact K]. }
    intros q Hq. apply look_value; [exact (Hv q Hq)|]. destruct (proj1 (Hall q Hq)) as [K|K]; rewrite K, <- ?Em; exact HTA.
  - apply orb_false_iff in Ec. destruct Ec as [Ec _]. apply Z.eqb_neq in Ec. right.
    destruct (interface_averaged herm mu d r (unit_pos e r) qb TA T n Ec E) as (TB & HTB & Hav).
    assert (Hval : forall q, In q (look_points e d r) -> value_at e objs contains mu (q_shift e q) TA \/ value_at e objs contains mu (q_shift e q) TB).
    { intros q Hq. destruct (proj1 (Hall q Hq)) as [K|K]; [left|right]; (apply look_value; [exact (Hv q Hq)|]); rewrite K; assumption. }
    pose proof (look_value mu _ TA (Hv _ Ia) HTA) as VA. pose proof (look_value mu _ TB (Hv _ Iqb) HTB) as VB.
    assert (Pos : forall q, (0 <= s_id (look e q))%Z) by (intros q; apply (good_id e objs contains Hs); eexists; reflexivity).
    destruct Hav as [(Lt & Hav)|(Lt & Hav)].
    + exists TA, TB, (unit_pos e r), qb. do 5 (split; [assumption|]). split; [|exact Hav]. intros q Hq. destruct (Hall q Hq) as (_ & _ & K).
      destruct (K Lt) as [K'|K']; [right; apply look_value; [exact (Hv q Hq)|]; rewrite K'; exact HTB|left]. apply image_same; [|exact K'].
      specialize (Pos qb). lia.
    + exists TB, TA, qb, (unit_pos e r). do 4 (split; [assumption|]). split; [intros q Hq; destruct (Hval q Hq); [right|left]; assumption|].
      split; [|exact Hav]. intros q Hq. destruct (Hall q Hq) as (_ & K & _).
      destruct (K Lt) as [K'|K']; [right; apply look_value; [exact (Hv q Hq)|]; rewrite K'; exact HTA|left]. apply image_same; [|exact K'].
      specialize (Pos (unit_pos e r)). lia.
Qed.

(** A pixel in one material gets the value at its centre. *)
Lemma mean_center (herm mu : bool) fuel d r T : mean_func herm mu e d r = Val (Some (T, (0, 0, 0))) ->
  exists Ti, medium_func herm mu e fuel r = Some (Val (T, Ti)).
Proof.
  intros Hmean. destruct (mean_cases e objs contains Hs Heq herm mu d r) as [E|(a & qb & Ea & Iqb & Hall & Va & Vb & Hh & E)]; [congruence|].
  rewrite Hmean in E. subst a. symmetry in E.
  destruct (material_tensor herm mu (s_mat (look e (unit_pos e r)))) as [[TA TAi]| | |] eqn:E1; cbn [bind fst] in E; try discriminate.
  destruct ((s_id (look e (unit_pos e r)) =? s_id (look e qb))%Z || q_eqm e (s_mat (look e (unit_pos e r))) (s_mat (look e qb)))%bool eqn:Ec.
  - injection E as <-. exists TAi. unfold medium_func.
    assert (Hv : forall tp, match follow e fuel (q_shift e (unit_pos e r)) (s_mat (look e (unit_pos e r))) with
      | Some m0 => Some (material_tensor herm mu match m0 with
          | Grid g => let '(lo, hi) := if mu then (g_mmin g, g_mmax g) else (g_emin g, g_emax g) in
              make_value mu (q_grid e (q_shift e (unit_pos e r)) tp g * (hi - lo) + lo) | _ => m0 end)
      | None => None end = Some (Val (TA, TAi))).
    { intros tp. destruct (s_mat (look e (unit_pos e r))) eqn:Em; try discriminate; (replace (follow _ _ _ _) with (Some (s_mat (look e (unit_pos e r)))) by (rewrite Em; destruct fuel; reflexivity)); rewrite Em, E1; reflexivity. }
    assert (Hx : q_file e mu = None \/ hole (s_obj (look e (unit_pos e r))) = false).
    { destruct (q_file e mu); [|left; reflexivity]. right. apply Hh. discriminate. }
    revert Hv Hx. unfold look. destruct (q_find e (q_shift e (unit_pos e r))) as [o|]; cbn [s_mat s_obj hole].
    + intros Hv Hx. destruct (f_mat o); try (destruct (q_file e mu); exact (Hv (Some o))).
      destruct Hx as [Hx|Hx]; [|discriminate]. rewrite Hx. exact (Hv None).
    + intros Hv [Hx|Hx]; [|discriminate]. rewrite Hx. destruct (q_default e); exact (Hv None).
  - exfalso. apply orb_false_iff in Ec. destruct Ec as [Ec _]. apply Z.eqb_neq in Ec.
    assert (K : forall TU TL qu ql, ~ averaged e objs contains d r TU TL qu ql T (0, 0, 0)).
    { intros TU TL qu ql (o & i & _ & _ & _ & _ & K). revert K. unfold mean_eps_two, cartesian.
      match goal with |- context[sqrt ?x] => replace x with 0 by ring end. rewrite sqrt_0. destruct (Reqb_spec 0 0); [discriminate|lra]. }
    destruct (interface_averaged herm mu d r (unit_pos e r) qb TA T _ Ec E) as (TB & _ & [(_ & K')|(_ & K')]); exact (K _ _ _ _ K').
Qed.

Lemma mean_PD (herm mu : bool) d r :
  (forall m, m = q_default e \/ In m objs -> m <> Nothing -> constant m -> exists T, tensor_is mu m T /\ PD T /\ (herm = true \/ real_tensor T)) ->
  q_default e <> Nothing ->
  (forall by_ o, 0 <= q_overlap e (vsub (vsub (unit_pos e r) (half_pixel e d)) by_) (vsub (vadd (unit_pos e r) (half_pixel e d)) by_) o <= 1) ->
  (let '(sx, sy, sz) := q_size e in sx <> 0 /\ sy <> 0 /\ sz <> 0) ->
  mean_func herm mu e d r = Val None \/ exists T n, mean_func herm mu e d r = Val (Some (T, n)) /\ PD T.
Proof.
  intros HP Hd Ho Hz. destruct (mean_cases e objs contains Hs Heq herm mu d r) as [E|(a & qb & Ea & Iqb & Hall & Va & Vb & Hh & E)]; [left; exact E|].
  assert (Hm : forall q, s_mat (look e q) = q_default e \/ In (s_mat (look e q)) objs).
  { intros q. destruct (hole (s_obj (look e q))) eqn:K; [left; exact (look_hole q K)|right; exact (look_objs q K)]. }
  assert (Hnn : forall q, s_mat (look e q) <> Nothing).
  { intros q. unfold look. destruct (q_find e (q_shift e q)) as [o|]; cbn [s_mat]; [|exact Hd]. destruct (f_mat o) eqn:Em; try discriminate. exact Hd. }
  assert (HT : forall q, variable_material (s_mat (look e q)) = false -> exists T Ti, material_tensor herm mu (s_mat (look e q)) = Val (T, Ti) /\ PD T).
  { intros q Hv. destruct (HP _ (Hm q) (Hnn q) (not_variable _ Hv)) as (T & H1 & H2 & H3).
    destruct (tensor_is_val herm mu _ T H1 H2 H3) as (Ti & Et & _). exists T, Ti. split; [exact Et|exact H2]. }
  subst a. destruct (HT _ Va) as (TA & TAi & EA & PA). destruct (HT _ Vb) as (TB & TBi & EB & PB).
  rewrite EA in E. cbn [bind fst] in E.
  destruct ((s_id (look e (unit_pos e r)) =? s_id (look e qb))%Z || q_eqm e (s_mat (look e (unit_pos e r))) (s_mat (look e qb)))%bool eqn:Ec.
  - right. exists TA, (0, 0, 0). split; [exact E|exact PA].
  - apply orb_false_iff in Ec. destruct Ec as [Ec _]. apply Z.eqb_neq in Ec. rewrite E. unfold interface. rewrite EB. cbv zeta. cbn [fst].
    assert (Hobj : exists o, s_obj (if (s_id (look e qb) <? s_id (look e (unit_pos e r)))%Z then look e (unit_pos e r) else look e qb) = Some o).
    { destruct (Z.ltb_spec (s_id (look e qb)) (s_id (look e (unit_pos e r)))) as [K|K].
      - destruct (order_ids _ _ K) as (o & _ & _ & Eo & _). eauto.
      - destruct (order_ids qb (unit_pos e r) ltac:(lia)) as (o & _ & _ & Eo & _). eauto. }
    destruct Hobj as (o & ->).
    destruct (q_normal e _ _) as [[vx vy] vz]. destruct (q_size e) as [[sx sy] sz]. destruct Hz as (Hx & Hy & Hz).
    destruct (q_none e) as [[nx ny] nz].
    assert (Hf : forall (c : bool) x y, y <> 0 -> exists v, (if c then Val 0 else fdiv x y) = Val v).
    { intros c x y Hyy. destruct c; [eauto|]. rewrite fdiv_nz by exact Hyy. eauto. }
    destruct (Hf nx vx sx Hx) as (n0 & ->). destruct (Hf ny vy sy Hy) as (n1 & ->). destruct (Hf nz vz sz Hz) as (n2 & ->). cbn [bind fst].
    match goal with |- context[mean_eps_two TA TB ?f ?u ?v ?w] => set (fl := f); set (uu := u); set (vv := v); set (ww := w) end.
    assert (Hfl : 0 <= fl <= 1) by (unfold fl; match goal with |- context[q_overlap e (vsub _ ?x) (vsub _ ?x) ?z] => pose proof (Ho x z) end; destruct (_ <? _)%Z; lra).
    destruct (Req_EM_T (sqrt (uu * uu + vv * vv + ww * ww)) 0) as [K|K].
    + left. unfold mean_eps_two. rewrite K. destruct (Reqb_spec 0 0); [reflexivity|lra].
    + right. destruct (mean_eps_two_PD TA TB fl uu vv ww PA PB Hfl) as (T & -> & PT).
      { intros [= E0 E1 E2]. apply K. rewrite E0, E1, E2. replace (0 * 0 + 0 * 0 + 0 * 0) with 0 by ring. apply sqrt_0. }
      cbn [bind]. exists T, (n0, n1, n2). split; [reflexivity|exact PT].
Qed.

End WithEnv.
