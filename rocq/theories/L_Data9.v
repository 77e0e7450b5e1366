(** Proofs about mpb-data: files without options, and preparation. *)
From Coq Require Import String List ZArith Reals Lra Lia Bool Psatz.
From Verif Require Import Base RC Loops M_Tensor M_Interp L_Interp L_Interp3 M_Evect L_Out L_Out3 M_Data S_Data L_Data L_Data2 L_Data3 L_Data4 L_Data5 L_Data6 L_Data7 L_Data8.
Import ListNotations.
Local Open Scope Z_scope.

Lemma inverse_total L : triple L <> 0%R -> exists I, m_inverse L = Val I.
Proof.
  intros T. destruct L as [[[[a0 a1] a2] [[b0 b1] b2]] [[c0 c1] c2]]. unfold m_inverse.
  destruct (Reqb_spec (v_dot (a0, a1, a2) (v_cross (b0, b1, b2) (c0, c1, c2))) 0) as [E|E]; [|eexists; reflexivity].
  exfalso. apply T. unfold v_dot, v_cross in E. unfold triple. lra.
Qed.
Lemma attrs_ok L k cp : exists v1 v2 k',
  read_lattice (lattice_attr L) = Val (L, v1) /\ read_kvector (vec_attr k) v1 = Val (k', v2) /\ read_copies (vec_attr cp) v2 L k' = Val (times (or_one cp) L, kcell cp k).
Proof.
  destruct L as [[[[a0 a1] a2] [[b0 b1] b2]] [[c0 c1] c2]].
  destruct k as [[[k0 k1] k2]|], cp as [[[p0 p1] p2]|]; eexists _, _, _; (split; [reflexivity|]); (split; [reflexivity|]); cbn; unfold v_scale; rewrite ?Rmult_1_l, ?Rmult_1_r; reflexivity.
Qed.
Lemma prepare_total o L k cp : let Rin := times (or_one cp) L in triple Rin <> 0%R ->
  (o_rect o = true -> v_dot (edge_normal Rin) (match o_ve o with Some v => v | None => fst (fst Rin) end) <> 0%R) ->
  exists st, prepare o (lattice_attr L) (vec_attr k) (vec_attr cp) = Val st.
Proof.
  intros Rin T Q. destruct (attrs_ok L k cp) as (v1 & v2 & k' & E1 & E2 & E3). unfold prepare. rewrite E1. cbn [bind]. rewrite E2. cbn [bind]. rewrite E3. cbn [bind]. fold Rin.
  destruct (inverse_total Rin T) as (I & EI).
  assert (exists R cart, (if o_rect o then rectify Rin (o_ve o) else Val (Rin, ((1, 0, 0), (0, 1, 0), (0, 0, 1))%R)) = Val (R, cart)) as (R & cart & ->).
  { destruct (o_rect o); [|eexists _, _; reflexivity]. specialize (Q eq_refl). pose proof (rectify_ok Rin (o_ve o)) as P. destruct Rin as [[c0 c1] c2]. cbn [fst] in *.
    destruct (P T Q) as (r0 & r1 & r2 & E & _). eexists _, _; exact E. }
  cbn [bind]. destruct R as [[r0 r1] r2], (o_mult o) as [[m0 m1] m2]. rewrite EI. cbn [bind]. eexists; reflexivity.
Qed.
Lemma phase_zero : phase_scale 0 = (1, 0)%R.
Proof. unfold phase_scale. replace (2 * PI * 0 / 360)%R with 0%R by lra. rewrite cos_0, sin_0. csimp; f_equal; ring. Qed.
Lemma default_plain L k cp st : prepare default_options (lattice_attr L) (vec_attr k) (vec_attr cp) = Val st ->
  plain (times (or_one cp) L) st /\ s_same st = false /\ s_cart st = ((1, 0, 0), (0, 1, 0), (0, 0, 1))%R.
Proof.
  intros E. destruct (prepare_ok _ _ _ _ _ E) as (F & T & K & A1 & A2 & A3 & A4 & A5 & A6 & R & cart & (-> & ->) & B1 & B2).
  split; [|split; [exact A6|exact B2]]. unfold plain. rewrite A1, A2, A3, A5. cbn [o_res o_scale o_mult o_trans default_options].
  repeat split; try apply F; try lra; try apply phase_zero; auto.
Qed.

Definition in_file (f : datasets) (w : list (string * dset)) (names : list string) : Prop :=
  forall d, In d names -> has_real f w d /\ has_pair f w (append d ".r") (append d ".i").
Lemma names_plain Rin st junk f names m : plain Rin st -> s_same st = false -> (forall nam d, f nam = Some d -> dset_ok d) -> (forall d, In d names -> matched f d) -> memo_ok m ->
  forall w0, sound f w0 -> exists w m', foldM (fun d w =>
    let! (w1, m) := handle_dataset st junk f d None (snd w) in
    let! (w2, m) := handle_dataset st junk f (append d ".r") (Some (append d ".i")) m in
    Val (fst w ++ w1 ++ w2, m)) names (w0, m) = Val (w0 ++ w, m') /\ memo_ok m' /\ sound f (w0 ++ w) /\ in_file f (w0 ++ w) names.
Proof.
  intros Pl Sm Ok. revert m. induction names as [|d names IH]; intros m Mt Hm w0 S0; cbn [foldM].
  - exists [], m. rewrite app_nil_r. split; [reflexivity|]. split; [exact Hm|]. split; [exact S0|]. intros d [].
  - cbn [snd fst]. destruct (plain_handle_real Rin st junk f Pl Sm Ok d m Hm) as (w1 & -> & S1 & P1). cbn [bind].
    destruct (plain_handle_pair Rin st junk f Pl Sm Ok (append d ".r") (append d ".i") m Hm (Mt d (or_introl eq_refl))) as (w2 & m2 & -> & H2 & S2 & P2). cbn [bind].
    destruct (IH m2 (fun x Hx => Mt x (or_intror Hx)) H2 (w0 ++ w1 ++ w2)) as (w & m' & -> & Hm' & S' & P').
    { apply sound_app; [exact S0|apply sound_app; assumption]. }
    exists (w1 ++ w2 ++ w), m'. rewrite <- !app_assoc in *. split; [reflexivity|]. split; [exact Hm'|]. split; [exact S'|].
    intros x [<-|Hx]; [|apply P'; exact Hx]. split.
    + intros y Ey. rewrite !in_app_iff. right; left; apply P1; exact Ey.
    + intros y y' Ey Ey'. rewrite !in_app_iff. destruct (P2 y y' Ey Ey'). tauto.
Qed.
Lemma file_plain L k cp junk f dn m : triple (times (or_one cp) L) <> 0%R -> (forall nam d, f nam = Some d -> dset_ok d) ->
  (forall d, In d (chosen dn ++ ["x"; "y"; "z"]%string) -> matched f d) -> memo_ok m ->
  exists w m', handle_file default_options junk (lattice_attr L) (vec_attr k) (vec_attr cp) f dn m = Val (w, m') /\ memo_ok m' /\ sound f w /\
    in_file f w (chosen dn) /\ forall d, In d ["x"; "y"; "z"]%string -> has_pair f w (append d ".r") (append d ".i").
Proof.
  intros T Ok Mt Hm. destruct (prepare_total default_options L k cp T) as (st & E); [discriminate|].
  destruct (default_plain L k cp st E) as (Pl & Sm & Hc). unfold handle_file. rewrite E. cbn [bind].
  destruct (names_plain _ st junk f (chosen dn) m Pl Sm Ok (fun d Hd => Mt d (proj2 (in_app_iff _ _ _) (or_introl Hd))) Hm [] (fun _ _ (F : False) => match F with end)) as (w & m1 & E1 & H1 & S1 & P1).
  cbn [app] in *. fold (chosen dn). rewrite E1. cbn [bind].
  destruct (plain_cvector _ st junk f Pl Sm Hc Ok m1 H1) as (w2 & m2 & -> & H2 & S2 & Px & Py & Pz).
  1-3: apply Mt; apply in_app_iff; right; cbn [In]; auto.
  cbn [bind]. exists (w ++ w2), m2. split; [reflexivity|]. split; [exact H2|]. split; [apply sound_app; assumption|]. split.
  - intros d Hd. destruct (P1 d Hd). split; [apply real_mono|apply pair_mono]; assumption.
  - assert (R : forall nr ni, has_pair f w2 nr ni -> has_pair f (w ++ w2) nr ni). { intros nr ni P d d' E2 E3. rewrite !in_app_iff. destruct (P d d' E2 E3). auto. }
    intros d [<-|[<-|[<-|[]]]]; apply R; assumption.
Qed.
