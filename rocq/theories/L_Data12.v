(** Proofs about mpb-data: transposition. *)
From Coq Require Import String List ZArith Reals Lra Lia Bool Psatz.
From Verif Require Import Base RC Loops M_Tensor M_Evect L_Out3 M_Data S_Data L_Data L_Data2 L_Data3 L_Data4 L_Data5 L_Data6 L_Data7 L_Data8 L_Data9 L_Data10.
Import ListNotations.
Local Open Scope Z_scope.

Lemma data_transpose o L k cp st st' junk f nr dims d_re m :
  prepare o (lattice_attr L) (vec_attr k) (vec_attr cp) = Val st -> prepare (turned o) (lattice_attr L) (vec_attr k) (vec_attr cp) = Val st' ->
  o_trans o = false -> f nr = Some (dims, d_re) -> dset_ok (dims, d_re) -> (2 <= length dims)%nat ->
  exists nam ld a a', handle_dataset st junk f nr None m = Val ([(nam, (ld, a))], m) /\ handle_dataset st' junk f nr None m = Val ([(nam, (flip_dims true ld, a'))], m) /\
    array (pad ld) a /\ array (pad ld) a' /\ forall i j l, inside (pad ld) (i, j, l) -> get (pad (flip_dims true ld)) a' (j, i, l) = get (pad ld) a (i, j, l).
Proof.
  intros E E' T E1 D Ln.
  destruct (data_real o L k cp st junk f nr dims d_re m E E1 D) as (R & cart & Q & a & H & A & G); [congruence|].
  destruct (data_real (turned o) L k cp st' junk f nr dims d_re m E' E1 D) as (R' & cart' & Q' & a' & H' & A' & G'); [auto|].
  cbn [turned o_rect o_ve o_res o_mult o_near o_trans o_same] in *.
  assert (R' = R) as ->. { destruct (o_rect o); [rewrite Q in Q'; apply val_inj in Q'; exact (eq_sym (f_equal fst Q'))|congruence]. }
  rewrite T in *. set (od := out_dims (o_res o) (o_mult o) (times (o_mult o) R) dims) in *.
  assert (Lo : (2 <= length od)%nat). { destruct (prepare_ok _ _ _ _ _ E) as (_ & _ & _ & A1 & _ & A3 & _ & _ & _ & R0 & c0 & Q0 & B1 & _).
    destruct (out_sizes_ok st dims (proj1 D)) as (_ & _ & L1). rewrite A1, A3, B1 in L1. assert (R0 = R) as ->. { destruct (o_rect o); [rewrite Q in Q0; apply val_inj in Q0; exact (eq_sym (f_equal fst Q0))|destruct Q0; congruence]. }
    fold od in L1. rewrite L1. cbn [fst]. exact Ln. }
  exists (written_name (o_same o) nr), od, a, a'. split; [exact H|]. split; [exact H'|]. split; [exact A|]. split; [exact A'|].
  intros i j l Ic. destruct (G _ Ic) as ((r & Hr) & G1). destruct (G' _ Ic) as (_ & G2). rewrite (flip_dims_pad true od (fun _ => Lo)). change (j, i, l) with (flip true (i, j, l)).
  rewrite (G2 r Hr), <- (G1 r Hr). reflexivity.
Qed.

Lemma data_file_safe o L k cp st junk f dn m : prepare o (lattice_attr L) (vec_attr k) (vec_attr cp) = Val st -> (forall nam d, f nam = Some d -> dset_ok d) -> memo_ok m ->
  (exists w m', handle_file o junk (lattice_attr L) (vec_attr k) (vec_attr cp) f dn m = Val (w, m') /\ memo_ok m') \/ handle_file o junk (lattice_attr L) (vec_attr k) (vec_attr cp) f dn m = Abort.
Proof.
  intros E H Hm. pose proof (file_ends o junk _ _ _ f dn m st E H Hm) as X. destruct (handle_file _ _ _ _ _ _ _ _) as [[w m']| | |]; cbn in X; try contradiction; [left; exists w, m'; auto|right; reflexivity].
Qed.

Lemma data_file_same L k cp junk f dn m : triple (times (or_one cp) L) <> 0%R -> (forall nam d, f nam = Some d -> dset_ok d) ->
  (forall d, In d (chosen dn ++ ["x"; "y"; "z"]%string) -> matched f d) -> memo_ok m ->
  exists w m', handle_file default_options junk (lattice_attr L) (vec_attr k) (vec_attr cp) f dn m = Val (w, m') /\ memo_ok m' /\
    (forall nam d, In (nam, d) w -> f nam = Some d) /\
    (forall b d, In b (chosen dn) -> f b = Some d -> In (b, d) w) /\
    (forall b d d', In b (chosen dn ++ ["x"; "y"; "z"]%string) -> f (append b ".r") = Some d -> f (append b ".i") = Some d' -> In (append b ".r"%string, d) w /\ In (append b ".i"%string, d') w).
Proof.
  intros T Ok Mt Hm. destruct (file_plain L k cp junk f dn m T Ok Mt Hm) as (w & m' & E & Hm' & S & P1 & P2). exists w, m'. split; [exact E|]. split; [exact Hm'|]. split; [exact S|]. split.
  - intros b d Hb Ed. apply (P1 b Hb). exact Ed.
  - intros b d d' Hb E1 E2. apply in_app_iff in Hb. destruct Hb as [Hb|Hb]; [apply (P1 b Hb)|apply (P2 b Hb)]; assumption.
Qed.

Lemma slant_is L v : v_dot (edge_normal L) v = slant L v.
Proof. destruct L as [[[[? ?] ?] [[? ?] ?]] [[? ?] ?]], v as [[? ?] ?]. unfold slant, edge_normal, sub3, v_minus, v_dot, v_cross, triple. ring. Qed.
Lemma rect_spec Rin ve : let v := direction Rin ve in
  triple Rin <> 0%R -> slant Rin v <> 0%R ->
  exists r0 r1 r2 u0 u1 u2 cart, rectify Rin ve = Val ((r0, r1, r2), cart) /\ dot3 r0 r1 = 0%R /\ dot3 r0 r2 = 0%R /\ dot3 r1 r2 = 0%R /\ r0 = sc3 (triple Rin / slant Rin v) v /\ triple (r0, r1, r2) = triple Rin /\ (exists l0 l1 l2, (0 < l0)%R /\ (0 < l1)%R /\ (0 < l2)%R /\ r0 = sc3 l0 u0 /\ r1 = sc3 l1 u1 /\ r2 = sc3 l2 u2) /\ dot3 u0 u0 = 1%R /\ dot3 u1 u1 = 1%R /\ dot3 u2 u2 = 1%R /\ (forall w, combo cart w = (dot3 u0 w, dot3 u1 w, dot3 u2 w)) /\ forall w w', dot3 (combo cart w) (combo cart w') = dot3 w w'.
Proof.
  intros v. pose proof (rect_ok Rin ve) as P. cbv zeta in P.
  replace (match ve with Some v => v | None => fst (fst Rin) end) with v in P. 2:{ unfold v, direction. destruct ve; [reflexivity|]. destruct Rin as [[? ?] ?]. reflexivity. }
  rewrite slant_is in P. exact P.
Qed.
Lemma rect_plain Rin : triple Rin <> 0%R -> exists r1 r2 cart, let '(c0, _, _) := Rin in rectify Rin None = Val ((c0, r1, r2), cart) /\ dot3 c0 r1 = 0%R /\ dot3 c0 r2 = 0%R /\ dot3 r1 r2 = 0%R /\ triple (c0, r1, r2) = triple Rin.
Proof.
  intros T. pose proof (rect_spec Rin None) as P. cbv zeta in P. pose proof (rect_default Rin T) as Df. rewrite slant_is in Df. destruct Rin as [[c0 c1] c2]. cbn [fst direction] in *.
  destruct (P T) as (r0 & r1 & r2 & _ & _ & _ & cart & E & O1 & O2 & O3 & R0 & V & _); [rewrite Df; exact T|].
  rewrite Df in R0. assert (r0 = c0) as ->. { rewrite R0. destruct c0 as [[? ?] ?]. unfold sc3. f_equal; [f_equal|]; field; exact T. }
  exists r1, r2, cart. auto.
Qed.
