(** Proofs about mpb-data: datasets. *)
From Coq Require Import String List ZArith Reals Lra Lia Bool Psatz.
From Verif Require Import Base RC Loops M_Tensor M_Interp L_Interp L_Interp3 M_Evect L_Out L_Out3 M_Data S_Data L_Data L_Data2 L_Data3.
Import ListNotations.
Local Open Scope Z_scope.

(** ** The setting *)
Lemma combo_vec L v : combo L v = m_vec L v.
Proof. reflexivity. Qed.
Lemma times_is m0 m1 m2 c0 c1 c2 : (v_scale m0 c0, v_scale m1 c1, v_scale m2 c2) = times (m0, m1, m2) (c0, c1, c2).
Proof. reflexivity. Qed.
Lemma inverse_ok L I : m_inverse L = Val I -> triple L <> 0%R /\ (forall v, combo L (combo I v) = v) /\ (forall v, combo I (combo L v) = v).
Proof.
  destruct L as [[[[a0 a1] a2] [[b0 b1] b2]] [[c0 c1] c2]]. unfold m_inverse.
  destruct (Reqb_spec (v_dot (a0, a1, a2) (v_cross (b0, b1, b2) (c0, c1, c2))) 0) as [E|E]; [discriminate|]. intros H. injection H as <-.
  assert (T : triple ((a0, a1, a2), (b0, b1, b2), (c0, c1, c2)) <> 0%R). { intros F. apply E. unfold v_dot, v_cross. unfold triple in F. lra. }
  split; [exact T|]. unfold triple in T. unfold v_dot, v_cross in E.
  split; intros [[x y] z]; unfold combo, m_transpose, v_scale, v_cross, v_dot; f_equal; try f_equal; field; exact E.
Qed.
Lemma combo_mult M N v : combo (m_mult M N) v = combo M (combo N v).
Proof.
  destruct M as [[[[a0 a1] a2] [[b0 b1] b2]] [[c0 c1] c2]], N as [[[[d0 d1] d2] [[e0 e1] e2]] [[f0 f1] f2]], v as [[x y] z].
  unfold combo, m_mult, m_vec. f_equal; [f_equal|]; ring.
Qed.

Definition fits (Rin : m33) (st : setting) : Prop := forall n c r, same_place Rin (s_Rout st) n c r <-> r = combo (s_cm st) (frac n c).

Lemma prepare_ok o L k cp st : prepare o (lattice_attr L) (vec_attr k) (vec_attr cp) = Val st ->
  let Rin := times (or_one cp) L in
  fits Rin st /\ triple Rin <> 0%R /\ s_k st = kcell cp k /\ s_res st = o_res o /\ s_scale st = o_scale o /\ s_mult st = o_mult o /\
  s_near st = o_near o /\ s_trans st = o_trans o /\ s_same st = o_same o /\
  exists R cart, (if o_rect o then rectify Rin (o_ve o) = Val (R, cart) else R = Rin /\ cart = ((1, 0, 0), (0, 1, 0), (0, 0, 1))%R) /\
    s_Rout st = times (o_mult o) R /\ s_cart st = if o_trans o then swap_rows cart else cart.
Proof.
  intros H Rin. unfold prepare in H.
  assert (H1 : exists v, read_lattice (lattice_attr L) = Val (L, v) /\
    exists v', read_kvector (vec_attr k) v = Val (match k with None => None | Some (a, b, c) => Some [a; b; c] end, v') /\
    read_copies (vec_attr cp) v' L (match k with None => None | Some (a, b, c) => Some [a; b; c] end) = Val (Rin, kcell cp k)).
  { destruct L as [[[[a0 a1] a2] [[b0 b1] b2]] [[c0 c1] c2]]. eexists. split; [reflexivity|].
    destruct k as [[[k0 k1] k2]|]; eexists; (split; [reflexivity|]); destruct cp as [[[p0 p1] p2]|]; cbn; unfold Rin, times, or_one, sc3; rewrite ?Rmult_1_l, ?Rmult_1_r; reflexivity. }
  destruct H1 as (v & E1 & v' & E2 & E3). rewrite E1 in H. cbn [bind] in H. rewrite E2 in H. cbn [bind] in H. rewrite E3 in H. cbn [bind] in H.
  destruct (if o_rect o then rectify Rin (o_ve o) else Val (Rin, ((1, 0, 0), (0, 1, 0), (0, 0, 1))%R)) as [[R cart]| | |] eqn:ER; cbn [bind] in H; try discriminate.
  destruct R as [[r0 r1] r2]. destruct (o_mult o) as [[m0 m1] m2] eqn:Em.
  destruct (m_inverse Rin) as [I| | |] eqn:EI; cbn [bind] in H; try discriminate. apply val_inj in H.
  destruct (inverse_ok _ _ EI) as (T & I1 & I2). rewrite times_is in H.
  split. { intros n c r. unfold same_place. subst st. cbn [s_cm s_Rout]. rewrite combo_mult. split; [intros <-; symmetry; apply I2|intros ->; apply I1]. }
  split; [exact T|]. subst st. cbn [s_k s_res s_scale s_mult s_near s_trans s_same s_Rout s_cart]. repeat split; auto.
  exists (r0, r1, r2), cart. split; [|split; reflexivity]. destruct (o_rect o); [exact ER|]. apply val_inj in ER. split; [exact (eq_sym (f_equal fst ER))|exact (eq_sym (f_equal snd ER))].
Qed.

(** ** Writing *)
Lemma rd_all (d : list R) : mapM (rd d) (zrange (Z.of_nat (length d))) = Val d.
Proof.
  rewrite (mapM_total (rd d) (fun i => nth (Z.to_nat i) d 0%R)).
  - f_equal. unfold zrange. rewrite Nat2Z.id, map_map. rewrite (map_ext _ (fun i => nth i d 0%R)) by (intros; rewrite Nat2Z.id; reflexivity).
    clear. induction d as [|x d IH]; [reflexivity|]. cbn [length seq map nth]. f_equal. rewrite <- seq_shift, map_map. exact IH.
  - intros i Hi. unfold zrange in Hi. apply in_map_iff in Hi. destruct Hi as (t & <- & Ht). apply in_seq in Ht.
    unfold rd. destruct (Z.ltb_spec (Z.of_nat t) 0); [lia|]. rewrite Nat2Z.id in *. rewrite (nth_error_nth' d 0%R) by lia. reflexivity.
Qed.
Lemma rd_first (d : list R) N : 0 <= N <= Z.of_nat (length d) -> exists l, mapM (rd d) (zrange N) = Val l.
Proof.
  intros H. eexists. apply (mapM_total (rd d) (fun i => nth (Z.to_nat i) d 0%R)).
  intros i Hi. unfold zrange in Hi. apply in_map_iff in Hi. destruct Hi as (t & <- & Ht). apply in_seq in Ht.
  unfold rd. destruct (Z.ltb_spec (Z.of_nat t) 0); [lia|]. rewrite Nat2Z.id in *. rewrite (nth_error_nth' d 0%R) by lia. reflexivity.
Qed.

Lemma dims_cases dims : dims_ok dims -> exists n0 n1 n2, pad dims = (n0, n1, n2) /\ sizes_ok (pad dims) /\
  (dims = [n0] /\ n1 = 1 /\ n2 = 1 \/ dims = [n0; n1] /\ n2 = 1 \/ dims = [n0; n1; n2]).
Proof.
  intros ([L1 L3] & F). destruct dims as [|n0 [|n1 [|n2 [|]]]]; cbn [length] in *; try lia; inversion F as [|? ? P0 F0]; subst.
  - exists n0, 1, 1. split; [reflexivity|]. split; [unfold sizes_ok, pad; cbn [nth]; lia|left; auto].
  - inversion F0 as [|? ? P1 F1]; subst. exists n0, n1, 1. split; [reflexivity|]. split; [unfold sizes_ok, pad; cbn [nth]; lia|right; left; auto].
  - inversion F0 as [|? ? P1 F1]; subst. inversion F1 as [|? ? P2 F2]; subst. exists n0, n1, n2. split; [reflexivity|]. split; [unfold sizes_ok, pad; cbn [nth]; lia|right; right; reflexivity].
Qed.

Lemma out_count_max x : Z.max (rtrunc x) 1 = Z.max 1 (Int_part x).
Proof.
  destruct (Rlt_le_dec x 0) as [N|P].
  - destruct (rtrunc_neg x N) as [_ H]. pose proof (Int_part_bounds x) as B. assert (IZR (Int_part x) < IZR 0)%R as L by lra. apply lt_IZR in L. lia.
  - destruct (rtrunc_nonneg x P) as [H _]. rewrite (int_part_is x (rtrunc x)) by lra. lia.
Qed.
Lemma v_norm_dot c : v_norm c = sqrt (dot3 c c).
Proof. reflexivity. Qed.
Lemma one_count res n m c : Z.max (if Rltb 0 res then rtrunc (v_norm c * res + / 2) else rtrunc (IZR n * m)) 1 = out_count res m (sqrt (dot3 c c)) n.
Proof.
  unfold out_count. rewrite v_norm_dot. destruct (Rltb_spec 0 res); destruct (Rlt_dec 0 res); try lra; rewrite out_count_max; [|reflexivity].
  replace (/ 2)%R with (1 / 2)%R by lra. reflexivity.
Qed.
Lemma out_count_pos res m l n : 1 <= out_count res m l n.
Proof. unfold out_count. lia. Qed.
Lemma out_sizes_ok st dims : dims_ok dims ->
  out_sizes st (Z.of_nat (length dims)) (pad dims) = pad (out_dims (s_res st) (s_mult st) (s_Rout st) dims) /\
  dims_ok (out_dims (s_res st) (s_mult st) (s_Rout st) dims) /\ length (out_dims (s_res st) (s_mult st) (s_Rout st) dims) = length dims.
Proof.
  intros D. destruct (dims_cases dims D) as (n0 & n1 & n2 & P & S & C). rewrite P. unfold out_sizes, out_dims.
  destruct (s_mult st) as [[m0 m1] m2], (s_Rout st) as [[c0 c1] c2]. cbv zeta.
  pose proof (out_count_pos (s_res st) m0 (sqrt (dot3 c0 c0)) n0). pose proof (out_count_pos (s_res st) m1 (sqrt (dot3 c1 c1)) n1). pose proof (out_count_pos (s_res st) m2 (sqrt (dot3 c2 c2)) n2).
  assert (Q : forall n m c, Z.max (if Rltb 0 (s_res st) then rtrunc (v_norm c * s_res st + / 2) else rtrunc (IZR n * m)) 1 = out_count (s_res st) m (sqrt (dot3 c c)) n) by (intros; apply one_count).
  destruct C as [(-> & -> & ->)|[(-> & ->)| ->]]; cbn [length Z.of_nat Z.geb Z.compare Pos.compare Pos.compare_cont Pos.of_succ_nat Pos.succ combine map pad nth]; rewrite ?Q;
    (split; [reflexivity|split; [split; [cbn; lia|repeat constructor; assumption]|reflexivity]]).
Qed.

Lemma flip_dims_pad t l : (t = true -> (2 <= length l)%nat) -> pad (flip_dims t l) = flip t (pad l).
Proof. destruct t; [|reflexivity]. intros H. specialize (H eq_refl). destruct l as [|a [|b l]]; cbn in H; try lia. reflexivity. Qed.

Lemma write_ok t dims d : dims_ok dims -> (t = true -> (2 <= length dims)%nat) -> array (pad dims) d ->
  write_dataset (Z.of_nat (length dims)) (out_sizes2 t (pad dims)) d = Val (flip_dims t dims, d).
Proof.
  intros D T A. destruct (dims_cases dims D) as (n0 & n1 & n2 & P & S & C). unfold array in A. rewrite P in *.
  unfold write_dataset, out_sizes2. rewrite Nat2Z.id.
  assert (E : firstn (length dims) (if t then [n1; n0; n2] else [n0; n1; n2]) = flip_dims t dims).
  { destruct C as [(-> & -> & ->)|[(-> & ->)| ->]]; destruct t; try reflexivity. specialize (T eq_refl). cbn in T. lia. }
  rewrite E. assert (V : fold_left Z.mul (flip_dims t dims) 1 = Z.of_nat (length d)).
  { rewrite A. unfold volume. destruct C as [(-> & -> & ->)|[(-> & ->)| ->]]; destruct t; cbn [flip_dims fold_left]; try ring. }
  rewrite V, rd_all. reflexivity.
Qed.
Lemma write_any t dims d : dims_ok dims -> array (pad dims) d -> exists w, write_dataset (Z.of_nat (length dims)) (out_sizes2 t (pad dims)) d = Val w.
Proof.
  intros D A. destruct (dims_cases dims D) as (n0 & n1 & n2 & P & S & C). unfold array in A. rewrite P in *.
  unfold write_dataset, out_sizes2. rewrite Nat2Z.id. unfold sizes_ok in S. unfold volume in A.
  destruct (rd_first d (fold_left Z.mul (firstn (length dims) (if t then [n1; n0; n2] else [n0; n1; n2])) 1)) as [l E].
  { rewrite A. destruct C as [(-> & -> & ->)|[(-> & ->)| ->]]; destruct t; cbn [length firstn fold_left]; nia. }
  rewrite E. eexists. reflexivity.
Qed.

Lemma nth_map_combine (f : R * R -> R) a b i : (i < length a)%nat -> length a = length b -> nth i (map f (combine a b)) 0%R = f (nth i a 0%R, nth i b 0%R).
Proof.
  intros L E. rewrite (nth_indep _ 0%R (f (0%R, 0%R))) by (rewrite map_length, combine_length; lia).
  rewrite map_nth. rewrite combine_nth by exact E. reflexivity.
Qed.
Lemma scale_ok n sc a b c : sizes_ok n -> array n a -> array n b -> inside n c -> let '(a', b') := scale_data sc a b in
  array n a' /\ array n b' /\ (get n a' c, get n b' c) = (sc * (get n a c, get n b c))%C.
Proof.
  intros S A B I. unfold scale_data. pose proof (place_in n c S I) as P. unfold array in *. rewrite !map_length, combine_length.
  split; [lia|]. split; [lia|]. unfold get. rewrite !map_map. rewrite !nth_map_combine by lia. cbn [fst snd]. reflexivity.
Qed.
Lemma scale_array n sc a b : array n a -> array n b -> array n (fst (scale_data sc a b)) /\ array n (snd (scale_data sc a b)).
Proof. intros A B. unfold scale_data, array in *. cbn [fst snd]. rewrite !map_length, combine_length. lia. Qed.
