(** Proofs about mpb-data: what it does not do. *)
From Coq Require Import String List ZArith Reals Lra Lia Bool Psatz.
From Verif Require Import Base RC Loops M_Tensor M_Interp L_Interp L_Interp3 M_Evect L_Out L_Out3 M_Data S_Data L_Data L_Data2 L_Data3 L_Data4 L_Data5 L_Data6 L_Data7 L_Data8 L_Data9 L_Data10.
Import ListNotations.
Local Open Scope Z_scope.

Lemma half_neighbours i : neighbours false (IZR i - 1 / 2) = [(i - 1, (1 / 2)%R); (i, (1 / 2)%R)].
Proof.
  unfold neighbours. assert (E : Int_part (IZR i - 1 / 2) = i - 1). { apply int_part_is; rewrite minus_IZR; lra. }
  rewrite E. replace (i - 1 + 1) with i by lia. rewrite minus_IZR. replace (IZR i - 1 / 2 - (IZR i - 1))%R with (1 / 2)%R by lra. replace (1 - 1 / 2)%R with (1 / 2)%R by lra. reflexivity.
Qed.
Lemma blend_half0 f i j k : blend false f (IZR i - 1 / 2, IZR j, IZR k)%R = ((f (i - 1, j, k)%Z + f (i, j, k)) / 2)%R.
Proof. unfold blend. rewrite half_neighbours, !neighbours_int. cbn [map rsum_l fold_right fst snd]. lra. Qed.
Lemma blend_half2 f i j k : blend false f (IZR i, IZR j, IZR k - 1 / 2)%R = ((f (i, j, k - 1)%Z + f (i, j, k)) / 2)%R.
Proof. unfold blend. rewrite half_neighbours, !neighbours_int. cbn [map rsum_l fold_right fst snd]. lra. Qed.

Lemma id_triple cp : cp = None -> triple (times (or_one cp) id3) <> 0%R.
Proof. intros ->. unfold triple, times, or_one, id3, sc3. lra. Qed.
Lemma anti k s c : (bloch k s = (-1, 0)%R)%C -> ((bloch k s * c)%C = (- c)%C).
Proof. intros ->. cring. Qed.

(** One point, two copies, the phase -1 between cells: nothing is left of the data. *)
Lemma odd_copies : exists st, prepare (with_mult (2, 1, 1)%R) (lattice_attr id3) (vec_attr (Some (1 / 2, 0, 0)%R)) (vec_attr None) = Val st /\
  forall junk f d e m, f "data.r"%string = Some ([1], [d]) -> f "data.i"%string = Some ([1], [e]) -> memo_ok m ->
  exists a b m', handle_dataset st junk f "data.r" (Some "data.i"%string) m = Val ([("data.r"%string, ([2], a)); ("data.i"%string, ([2], b))], m') /\
    forall c, inside (2, 1, 1) c -> value_at false (2, 1, 1) a b c = (0, 0)%R.
Proof.
  destruct (prepare_total (with_mult (2, 1, 1)%R) id3 (Some (1 / 2, 0, 0)%R) None (id_triple None eq_refl)) as (st & E); [discriminate|].
  exists st. split; [exact E|]. intros junk f d e m E1 E2 Hm.
  assert (D : forall x : R, dset_ok ([1], [x])) by (intros x; split; [split; [cbn; lia|repeat constructor; lia]|reflexivity]).
  destruct (data_complex _ _ _ _ st junk f "data.r" "data.i" [1] [d] [e] m E E1 E2 (D d) (D e) Hm) as (R & cart & Q & a & b & m' & E' & _ & A & B & G); [discriminate|].
  cbn [o_rect with_mult] in Q. subst R. exists a, b, m'.
  assert (Od : out_dims (o_res (with_mult (2, 1, 1)%R)) (o_mult (with_mult (2, 1, 1)%R)) (times (o_mult (with_mult (2, 1, 1)%R)) (times (or_one None) id3)) [1] = [2]).
  { cbn [o_res o_mult with_mult]. unfold out_dims, id3, times, or_one, sc3. cbn [combine map]. f_equal. rewrite out_count_mult; lia || lra. }
  rewrite Od in *. change (pad [2]) with (2, 1, 1) in *. change (pad [1]) with (1, 1, 1) in *. cbn [nth o_trans with_mult flip_dims o_same written_name] in *. split; [exact E'|]. intros c Ic.
  destruct (G c Ic) as (_ & G1). rewrite (G1 (mul3 (2, 1, 1)%R (frac (2, 1, 1) c))) by (unfold with_mult; cbn [o_mult]; unfold or_one; rewrite (ltac:(unfold times, id3, sc3; f_equal; [f_equal|]; f_equal; [f_equal| |f_equal| |f_equal|]; ring) : times (1, 1, 1)%R id3 = id3); apply times_place).
  assert (P : gridpos (1, 1, 1) (mul3 (2, 1, 1)%R (frac (2, 1, 1) c)) = let '(i, j, l) := c in (IZR i - 1 / 2, IZR j, IZR l)%R).
  { destruct c as [[i j] l]. unfold gridpos, mul3, frac. f_equal; [f_equal|]; field. }
  rewrite P. destruct c as [[i j] l]. cbn [inside] in Ic. assert (j = 0 /\ l = 0) as [-> ->] by lia.
  unfold cblend. cbn [o_near with_mult]. rewrite !blend_half0.
  assert (S : cont (1, 1, 1) (kcell None (Some (1 / 2, 0, 0)%R)) [d] [e] (i - 1, 0, 0) = (- cont (1, 1, 1) (kcell None (Some (1 / 2, 0, 0)%R)) [d] [e] (i, 0, 0))%C).
  { pose proof (cont_shift (1, 1, 1) (kcell None (Some (1 / 2, 0, 0)%R)) [d] [e] (-1) 0 0 (i, 0, 0)) as X. cbv beta iota in X. cbn [shifted Z.mul Z.add Z.opp Pos.mul] in X.
    replace (i + -1) with (i - 1) in X by lia. rewrite X by (cbn; lia). apply anti. cbn [kcell or_one bloch]. f_equal.
    - replace (2 * PI * (1 / 2 * 1 * -1 + 0 * 1 * 0 + 0 * 1 * 0))%R with (- PI)%R by lra. rewrite cos_neg, cos_PI. reflexivity.
    - replace (2 * PI * (1 / 2 * 1 * -1 + 0 * 1 * 0 + 0 * 1 * 0))%R with (- PI)%R by lra. rewrite sin_neg, sin_PI. lra. }
  rewrite S. generalize (cont (1, 1, 1) (kcell None (Some (1 / 2, 0, 0)%R)) [d] [e] (i, 0, 0)). intros [u v]. apply C_eq; csimp; field.
Qed.
(** Two-dimensional data, -m 2, wave vector (0, 0, 1/2): likewise. *)
Lemma flat_copies : exists st, prepare (with_mult (2, 2, 2)%R) (lattice_attr id3) (vec_attr (Some (0, 0, 1 / 2)%R)) (vec_attr None) = Val st /\
  forall junk f d e m, f "data.r"%string = Some ([2; 2], d) -> f "data.i"%string = Some ([2; 2], e) -> length d = 4%nat -> length e = 4%nat -> memo_ok m ->
  exists a b m', handle_dataset st junk f "data.r" (Some "data.i"%string) m = Val ([("data.r"%string, ([4; 4], a)); ("data.i"%string, ([4; 4], b))], m') /\
    forall c, inside (4, 4, 1) c -> value_at false (4, 4, 1) a b c = (0, 0)%R.
Proof.
  destruct (prepare_total (with_mult (2, 2, 2)%R) id3 (Some (0, 0, 1 / 2)%R) None (id_triple None eq_refl)) as (st & E); [discriminate|].
  exists st. split; [exact E|]. intros junk f d e m E1 E2 L1 L2 Hm.
  assert (D : forall x : list R, length x = 4%nat -> dset_ok ([2; 2], x)) by (intros x Lx; split; [split; [cbn; lia|repeat constructor; lia]|unfold array; cbn [snd]; rewrite Lx; reflexivity]).
  destruct (data_complex _ _ _ _ st junk f "data.r" "data.i" [2; 2] d e m E E1 E2 (D d L1) (D e L2) Hm) as (R & cart & Q & a & b & m' & E' & _ & A & B & G); [discriminate|].
  cbn [o_rect with_mult] in Q. subst R. exists a, b, m'.
  assert (Od : out_dims (o_res (with_mult (2, 2, 2)%R)) (o_mult (with_mult (2, 2, 2)%R)) (times (o_mult (with_mult (2, 2, 2)%R)) (times (or_one None) id3)) [2; 2] = [4; 4]).
  { cbn [o_res o_mult with_mult]. unfold out_dims, id3, times, or_one, sc3. cbn [combine map]. rewrite !out_count_mult; lia || lra || reflexivity. }
  rewrite Od in *. change (pad [4; 4]) with (4, 4, 1) in *. change (pad [2; 2]) with (2, 2, 1) in *. cbn [nth o_trans with_mult flip_dims o_same written_name] in *. split; [exact E'|]. intros c Ic.
  destruct (G c Ic) as (_ & G1). rewrite (G1 (mul3 (2, 2, 2)%R (frac (4, 4, 1) c))) by (unfold with_mult; cbn [o_mult]; unfold or_one; rewrite (ltac:(unfold times, id3, sc3; f_equal; [f_equal|]; f_equal; [f_equal| |f_equal| |f_equal|]; ring) : times (1, 1, 1)%R id3 = id3); apply times_place).
  assert (P : gridpos (2, 2, 1) (mul3 (2, 2, 2)%R (frac (4, 4, 1) c)) = let '(i, j, l) := c in (IZR (i - 1), IZR (j - 1), IZR (2 * l) - 1 / 2)%R).
  { destruct c as [[i j] l]. unfold gridpos, mul3, frac. rewrite !minus_IZR, mult_IZR. f_equal; [f_equal|]; field. }
  rewrite P. destruct c as [[i j] l]. cbn [inside] in Ic. assert (l = 0) as -> by lia.
  unfold cblend. cbn [o_near with_mult]. rewrite !blend_half2. cbn [Z.mul].
  set (k := kcell None (Some (0, 0, 1 / 2)%R)).
  assert (S : cont (2, 2, 1) k d e (i - 1, j - 1, 0 - 1) = (- cont (2, 2, 1) k d e (i - 1, j - 1, 0)%Z)%C).
  { pose proof (cont_shift (2, 2, 1) k d e 0 0 (-1) (i - 1, j - 1, 0)) as X. cbv beta iota in X. cbn [shifted Z.mul Pos.mul] in X. rewrite !Z.add_0_r in X.
    change (0 + -1) with (0 - 1) in X. rewrite X by (cbn; lia). apply anti. unfold k. cbn [kcell or_one bloch]. f_equal.
    - replace (2 * PI * (0 * 1 * 0 + 0 * 1 * 0 + 1 / 2 * 1 * -1))%R with (- PI)%R by lra. rewrite cos_neg, cos_PI. reflexivity.
    - replace (2 * PI * (0 * 1 * 0 + 0 * 1 * 0 + 1 / 2 * 1 * -1))%R with (- PI)%R by lra. rewrite sin_neg, sin_PI. lra. }
  rewrite S. generalize (cont (2, 2, 1) k d e (i - 1, j - 1, 0)). intros [u v]. apply C_eq; csimp; field.
Qed.
(** -T on one-dimensional data: one number is written. *)
Lemma flat_transpose o L k cp st junk f nam n d m : prepare o (lattice_attr L) (vec_attr k) (vec_attr cp) = Val st -> o_trans o = true ->
  f nam = Some ([n], d) -> dset_ok ([n], d) -> memo_ok m -> exists x, handle_dataset st junk f nam None m = Val ([(written_name (o_same o) nam, ([1], [x]))], m).
Proof.
  intros E T E1 [D A] Hm. destruct (prepare_ok _ _ _ _ _ E) as (F & _ & K & A1 & A2 & A3 & A4 & A5 & A6 & _). cbn [fst snd] in *.
  rewrite (handle_real st junk f nam [n] d m E1 D). unfold convert. destruct (out_sizes_ok st [n] D) as (Es & Do & Ln). cbn [length] in Ln.
  change (Z.of_nat (length [n])) with 1 in *. rewrite Es. destruct (dims_cases _ Do) as (o0 & o1 & o2 & Po & So & Cs). rewrite Po. 
  assert (o1 = 1 /\ o2 = 1) as [-> ->]. { destruct Cs as [(_ & -> & ->)|[(Q & _)|Q]]; [auto| |]; rewrite Q in Ln; discriminate. }
  rewrite Po in So. pose proof (fresh_array junk (o0, 1, 1) So) as Fr. destruct (dims_cases _ D) as (_ & _ & _ & _ & Si & _).
  cbn [option_map].
  destruct (map_real (s_near st) (s_trans st) (pad [n]) (o0, 1, 1) (s_cm st) (s_k st) d _ m Si So A Fr) as (out & -> & X & _).
  cbn [option_map bind]. rewrite A5, T. cbn [out_sizes2]. unfold write_dataset. cbn [firstn Z.to_nat Pos.to_nat Pos.iter_op fold_left Z.mul Pos.mul].
  destruct out as [|x out]. { unfold array in X. cbn [length volume] in X. unfold sizes_ok in So. lia. }
  exists x. cbn. rewrite (new_is _ _ nam A6). reflexivity.
Qed.
Lemma no_attributes o : prepare o None None None = UB.
Proof. reflexivity. Qed.
Lemma parallel_plane : rectify id3 (Some (1, -1, 0)%R) = NonFin.
Proof.
  destruct (unit_ok (1, -1, 0)%R) as (q & _ & _ & _ & U & _). { intros E. injection E. lra. }
  unfold rectify, id3. rewrite U. cbv zeta.
  match goal with |- context [fdiv ?a ?x] => replace x with 0%R end.
  - unfold fdiv at 1. destruct (Req_EM_T 0 0); [reflexivity|contradiction].
  - unfold v_dot, v_cross, v_minus, v_scale. ring.
Qed.
Lemma reversed : exists r1 r2 cart, rectify id3 (Some (-1, 0, 0)%R) = Val (((1, 0, 0)%R, r1, r2), cart).
Proof.
  destruct (rect_ok id3 (Some (-1, 0, 0)%R)) as (r0 & r1 & r2 & u0 & u1 & u2 & cart & E & _ & _ & _ & R0 & _).
  - unfold triple, id3. lra.
  - unfold v_dot, edge_normal, id3, v_cross, v_minus. lra.
  - exists r1, r2, cart. rewrite E. f_equal. f_equal. f_equal. f_equal. rewrite R0. unfold triple, v_dot, edge_normal, id3, v_cross, v_minus, sc3. f_equal; [f_equal|]; field.
Qed.
