(** Property theorems for mirror symmetric structures: C80. *)
From Coq Require Import List ZArith Reals Bool Arith Lia Lra.
From Verif Require Import Base RC M_Tensor S_Tensor M_Evect S_Evect M_Grid S_Grid L_Grid6 M_Op S_Op L_Op L_Op2 L_Op3 L_Op4 L_Op5 L_Dft P_Op L_Mx1 L_Mx2 S_Mir L_Mir1 L_Mir2 L_Mir3 L_Mir4.
Import ListNotations.
Local Open Scope Z_scope.

(** Mirrored fields have the same matrix elements, if the structure is mirror symmetric and the
    fields have nothing at the outermost frequencies; without permeability or, with it, if there is
    one point across the mirror plane. *)
Theorem C80_mirror d k G1 G2 G3 n n' X Y X' Y' o o' f f' AY AY' g g' j l j' l' : made d k G1 G2 G3 -> ready n d Y o f -> ready n' d Y' o' f' -> fields d X -> fields d X' ->
  maxwell_operator n d Y o f = Some (Val (AY, g)) -> maxwell_operator n' d Y' o' f' = Some (Val (AY', g')) -> 0 <= l < ep Y -> 0 <= l' < ep Y' ->
  (zplane k G1 G2 G3 /\ zstructure d /\ (d_mu_inv d = None \/ d_nz d = 1) /\ zlimited d X j /\ zlimited d Y l /\ zimage d X' j' X j /\ zimage d Y' l' Y l) \/
  (yplane k G1 G2 G3 /\ ystructure d /\ (d_mu_inv d = None \/ d_ny d = 1) /\ ylimited d X j /\ ylimited d Y l /\ yimage d X' j' X j /\ yimage d Y' l' Y l) ->
  dotl X' AY' j' l' = dotl X AY j l.
Proof.
  intros Md Ry Ry' Fx Fx' E E' Hl Hl' H. pose proof (made_wfd d k G1 G2 G3 Md) as Wd.
  rewrite (op_dot _ _ X _ _ _ _ _ j l Wd Fx Ry E Hl), (op_dot _ _ X' _ _ _ _ _ j' l' Wd Fx' Ry' E' Hl').
  destruct H as [(Pl & St & Mu & L1 & L2 & I1 & I2)|(Pl & St & Mu & L1 & L2 & I1 & I2)].
  - apply (z_form d k G1 G2 G3); assumption.
  - apply (y_form d k G1 G2 G3); assumption.
Qed.
Print Assumptions C80_mirror.

(** Fields of opposite parity are not coupled. *)
Theorem C80_decoupled d k G1 G2 G3 n X Y o f AY g j l s : made d k G1 G2 G3 -> ready n d Y o f -> fields d X ->
  maxwell_operator n d Y o f = Some (Val (AY, g)) -> 0 <= l < ep Y -> s = 1 \/ s = -1 ->
  (zplane k G1 G2 G3 /\ zstructure d /\ (d_mu_inv d = None \/ d_nz d = 1) /\ zlimited d X j /\ zlimited d Y l /\ zparity d s X j /\ zparity d (- s) Y l) \/
  (yplane k G1 G2 G3 /\ ystructure d /\ (d_mu_inv d = None \/ d_ny d = 1) /\ ylimited d X j /\ ylimited d Y l /\ yparity d s X j /\ yparity d (- s) Y l) ->
  dotl X AY j l = C0.
Proof.
  intros Md Ry Fx E Hl Hs H. pose proof (made_wfd d k G1 G2 G3 Md) as Wd. rewrite (op_dot _ _ X _ _ _ _ _ j l Wd Fx Ry E Hl).
  destruct H as [(Pl & St & Mu & L1 & L2 & I1 & I2)|(Pl & St & Mu & L1 & L2 & I1 & I2)].
  - apply (z_select d k G1 G2 G3 Md X Y j l s); assumption.
  - apply (y_select d k G1 G2 G3 Md X Y j l s); assumption.
Qed.
Print Assumptions C80_decoupled.

(** In two dimensions (one point across the plane) the operator keeps the parity of every field: TE
    fields give TE fields and TM fields TM fields. *)
Theorem C80_flat d k G1 G2 G3 n X o f AX g b s : made d k G1 G2 G3 -> ready n d X o f -> maxwell_operator n d X o f = Some (Val (AX, g)) -> 0 <= b < ep X ->
  (zplane k G1 G2 G3 -> zstructure d -> d_nz d = 1 -> zparity d s X b -> zparity d s AX b) /\
  (yplane k G1 G2 G3 -> ystructure d -> d_ny d = 1 -> yparity d s X b -> yparity d s AX b).
Proof.
  intros Md Rx E Hb. pose proof (made_wfd d k G1 G2 G3 Md) as Wd. destruct (op_result _ _ _ _ _ _ _ Wd Rx E) as (_ & _ & Q). specialize (Q b Hb). split; intros Pl St N1 P.
  - apply (z_flat d k G1 G2 G3 Md s X b AX); assumption.
  - apply (y_flat d k G1 G2 G3 Md s X b AX); assumption.
Qed.
Print Assumptions C80_flat.

Ltac ampv := repeat match goal with |- context [amp ?a ?b ?c ?e ?x ?y ?z ?u ?v] => let w := eval cbv -[C0 C1 Copp] in (amp a b c e x y z u v) in change (amp a b c e x y z u v) with w end.
Ltac wavev := match goal with |- context [opp ?n ?z] => let w := eval compute in (opp n z) in change (opp n z) with w end; cbn [Z.eqb Pos.eqb]; ampv; apply C_eq; csimp; ring.
(** Four points along z, the structure symmetric about 0; the wave of order 1 and its image, and an
    even and an odd combination of the two. *)
Definition mi_d (t : list kdata) : mdata := create_shape 1 1 4 1 t [iso 1; iso (/ 2); iso (/ 3); iso (/ 2)] None [] 0%R.
Definition mi_X (a b c d : C) : emat C := {| en := 8; ep := 1; ealloc := 1; edata := [C0; C0; a; b; C0; C0; c; d] |}.
Example C80_mirror_ex : exists t, made (mi_d t) mr_k mr_k mr_2 mr_3 /\ zplane mr_k mr_k mr_2 mr_3 /\ zstructure (mi_d t) /\ d_mu_inv (mi_d t) = None /\
  (forall a b c e, ready 1 (mi_d t) (mi_X a b c e) (mi_X a b c e) (repeat C0 12) /\ zlimited (mi_d t) (mi_X a b c e) 0) /\
  zimage (mi_d t) (mi_X C0 C0 C1 (- C1)) 0 (mi_X C1 C1 C0 C0) 0 /\
  zparity (mi_d t) 1 (mi_X C1 C1 C1 (- C1)) 0 /\ zparity (mi_d t) (-1) (mi_X C1 C1 (- C1) C1) 0.
Proof.
  destruct (table_ok 1 1 4 0 1 mr_k mr_k mr_2 mr_3 ltac:(lia) ltac:(lia) ltac:(lia)) as (t & E & _). exists t.
  split; [exists 1, 1, 4, 1, t, [iso 1; iso (/ 2); iso (/ 3); iso (/ 2)], None, [], 0%R; repeat (split; [lia || reflexivity || exact E || discriminate|]); reflexivity|].
  split; [repeat split|]. split.
  { split; [|discriminate]. intros x y z i j Hx Hy Hz Hi Hj. cbn [mi_d create_shape d_eps_inv d_nx d_ny d_nz] in *. assert (Ex : x = 0) by lia. assert (Ey : y = 0) by lia. subst.
    assert (O : sym_at [iso 1; iso (/ 2); iso (/ 3); iso (/ 2)] (idx (mi_d t) 0 0 (opp 4 z)) = sym_at [iso 1; iso (/ 2); iso (/ 3); iso (/ 2)] (idx (mi_d t) 0 0 z)) by (assert (z = 0 \/ z = 1 \/ z = 2 \/ z = 3) as [-> |[-> |[-> | ->]]] by lia; reflexivity).
    rewrite O. assert (I : exists e, sym_at [iso 1; iso (/ 2); iso (/ 3); iso (/ 2)] (idx (mi_d t) 0 0 z) = iso e) by (assert (z = 0 \/ z = 1 \/ z = 2 \/ z = 3) as [-> |[-> |[-> | ->]]] by lia; eexists; reflexivity).
    destruct I as (e & ->). destruct i as [|[|[|]]], j as [|[|[|]]]; try lia; unfold iso; cbn [entry m00 m11 m22 m01 m02 m12 zsgn]; apply C_eq; csimp; ring. }
  split; [reflexivity|]. split.
  { intros a b c e. split; [unfold ready, S_Op.fields, wf, scratch; repeat split; cbn; lia|].
    intros x y z u Hx Hy Hz Hu (_ & O). cbn [mi_d create_shape d_nx d_ny d_nz] in *. assert (Ex : x = 0) by lia. assert (Ey : y = 0) by lia. assert (Ez : z = 2) by lia. subst.
    assert (u = 0 \/ u = 1) as [-> | ->] by lia; reflexivity. }
  assert (G : forall (F : Z -> Z -> Z -> Z -> Prop), (forall z c, 0 <= z < 4 -> 0 <= c < 2 -> F 0 0 z c) -> forall x y z c, 0 <= x < 1 -> 0 <= y < 1 -> 0 <= z < 4 -> 0 <= c < 2 -> F x y z c).
  { intros F H x y z c Hx Hy Hz Hc. replace x with 0 by lia. replace y with 0 by lia. auto. }
  assert (K : forall (F : Z -> Z -> Prop), F 0 0 -> F 0 1 -> F 1 0 -> F 1 1 -> F 2 0 -> F 2 1 -> F 3 0 -> F 3 1 -> forall z c, 0 <= z < 4 -> 0 <= c < 2 -> F z c).
  { intros F ? ? ? ? ? ? ? ? z c Hz Hc. assert (z = 0 \/ z = 1 \/ z = 2 \/ z = 3) as [-> |[-> |[-> | ->]]] by lia; assert (c = 0 \/ c = 1) as [-> | ->] by lia; assumption. }
  split; [|split].
  - unfold zimage. cbn [mi_d create_shape d_nx d_ny d_nz]. apply G. apply K; unfold zflip; wavev.
  - unfold zparity. cbn [mi_d create_shape d_nx d_ny d_nz]. apply G. apply K; unfold zflip; wavev.
  - unfold zparity. cbn [mi_d create_shape d_nx d_ny d_nz]. apply G. apply K; unfold zflip; wavev.
Qed.
(** Two dimensions, with a permeability: both mirrors, an even and an odd field. *)
Definition mf_d (t : list kdata) : mdata := create_shape 2 1 1 1 t [mr_T; iso (/ 3)] (Some [iso 1; iso (/ 2)]) [] 0%R.
Definition mf_X (a b c d : C) : emat C := {| en := 4; ep := 1; ealloc := 1; edata := [a; b; c; d] |}.
Example C80_flat_ex : exists t, made (mf_d t) mr_k mr_k mr_2 mr_3 /\ zplane mr_k mr_k mr_2 mr_3 /\ zstructure (mf_d t) /\ d_nz (mf_d t) = 1 /\
  (forall a b c e, ready 1 (mf_d t) (mf_X a b c e) (mf_X a b c e) (repeat C0 6)) /\
  zparity (mf_d t) 1 (mf_X C1 C0 C1 C0) 0 /\ zparity (mf_d t) (-1) (mf_X C0 C1 C0 (- C1)) 0.
Proof.
  destruct (table_ok 2 1 1 0 2 mr_k mr_k mr_2 mr_3 ltac:(lia) ltac:(lia) ltac:(lia)) as (t & E & _). exists t.
  split; [exists 2, 1, 1, 1, t, [mr_T; iso (/ 3)], (Some [iso 1; iso (/ 2)]), [], 0%R; repeat (split; [lia || reflexivity || exact E|]); split; [intros m [= <-]; reflexivity|reflexivity]|].
  split; [repeat split|].
  split.
  { split; [|intros mu [= <-]]; intros x y z i j Hx Hy Hz Hi Hj; cbn [mf_d create_shape d_eps_inv d_nx d_ny d_nz] in *; replace y with 0 by lia; replace z with 0 by lia; assert (x = 0 \/ x = 1) as [-> | ->] by lia; change (opp 1 0) with 0;
      match goal with |- entry (sym_at ?l ?n) _ _ = _ => let w := eval cbv -[mr_T iso Rinv IZR] in (sym_at l n) in change (sym_at l n) with w end;
      destruct i as [|[|[|]]], j as [|[|[|]]]; try lia; unfold mr_T, iso; cbn [entry m00 m11 m22 m01 m02 m12 zsgn]; apply C_eq; csimp; ring. }
  split; [reflexivity|]. split; [intros; unfold ready, S_Op.fields, wf, scratch; repeat split; cbn; lia|].
  assert (K : forall (F : Z -> Prop), F 0 -> F 1 -> forall c, 0 <= c < 2 -> F c) by (intros F ? ? c Hc; assert (c = 0 \/ c = 1) as [-> | ->] by lia; assumption).
  split; intros x y z c Hx Hy Hz Hc; cbn [mf_d create_shape d_nx d_ny d_nz] in *; replace y with 0 by lia; replace z with 0 by lia; assert (x = 0 \/ x = 1) as [-> | ->] by lia; revert c Hc; apply K; unfold zflip; wavev.
Qed.

(** Without leaving out the outermost frequencies it is false with more than one point across the
    plane: a wave of even parity at the edge of the frequency table gets a part of odd parity. *)
Theorem C80_refuted : exists d k G1 G2 G3 n X o f AX g b, made d k G1 G2 G3 /\ zplane k G1 G2 G3 /\ zstructure d /\ d_mu_inv d = None /\ ready n d X o f /\
  maxwell_operator n d X o f = Some (Val (AX, g)) /\ 0 <= b < ep X /\ zparity d 1 X b /\ ~ zparity d 1 AX b.
Proof.
  destruct mr_table as (t & E). pose proof (mr_made t E) as Md. pose proof (made_wfd _ _ _ _ _ Md) as Wd. destruct (mr_ready t) as (F1 & F2 & Ep & Hn & Hs & Hf).
  destruct (operator_ok (mr_d t) Wd 1 mr_X mr_X (repeat C0 6) F1 F2 Ep Hn Hs Hf) as (AX & g & EA & _ & _ & _ & Q).
  exists (mr_d t), mr_k, mr_k, mr_2, mr_3, 1%nat, mr_X, mr_X, (repeat C0 6), AX, g, 0. split; [exact Md|]. split; [repeat split|]. split; [apply mr_structure|]. split; [reflexivity|]. split; [apply mr_ready|]. split; [exact EA|]. split; [cbn; lia|].
  split; [apply mr_even|]. apply mr_odd; [exact E|]. apply Q. cbn. lia.
Qed.
Print Assumptions C80_refuted.
