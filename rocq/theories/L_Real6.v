(** The structure the half that is stored stands for. *)
From Coq Require Import List ZArith Reals Bool Lia Lra.
From Verif Require Import Base RC Loops M_Tensor S_Tensor M_Evect S_Evect L_Evect L_Evect3 M_Grid S_Grid L_Grid M_Op S_Op L_Op L_Op2 M_Real S_Real L_Real1 L_Real2 L_Real3 L_Real4 L_Real5.
Import ListNotations.
Local Open Scope Z_scope.

Definition conj_sym (m : sym) : sym := mkSym (m00 m) (m11 m) (m22 m) (Cconj (m01 m)) (Cconj (m02 m)) (Cconj (m12 m)).
Lemma conj_entry m i j : entry (conj_sym m) i j = Cconj (entry m i j).
Proof. destruct i as [|[|[|]]], j as [|[|[|]]]; cbn [entry conj_sym m00 m11 m22 m01 m02 m12]; apply C_eq; csimp; ring. Qed.
Lemma conj_entry2 m i j : Cconj (entry (conj_sym m) i j) = entry m i j.
Proof. rewrite conj_entry. apply Cconj_conj. Qed.

Section D.
Variable d : mdata.
Hypothesis Wr : wfr d.
Notation N := (npts d).
Notation S := (stored d).

Lemma visited x y z h : In (x, y, z, h) (loop_real (d_nx d) (d_ny d) (d_nz d)) -> 0 <= h < d_other d * S /\ unstored d h = pt d x y z /\ h = place d (pt d x y z) /\ pt d x y z mod d_last d < S.
Proof.
  intros I. pose proof (r_S_bounds d Wr) as Sb. pose proof (r_O d Wr) as Ob. destruct (r_sizes d Wr) as (P1 & P2 & P3).
  assert (EL : d_last d = last_dim (d_nx d) (d_ny d) (d_nz d)) by apply Wr. assert (EO : d_other d * d_last d = npts d) by apply Wr. pose proof (r_L d Wr) as Lp.
  unfold loop_real in I. assert (Eo : other_dims (d_nx d) (d_nx d) (d_ny d) (d_nz d) = d_other d).
  { unfold other_dims, local_N. rewrite <- EL. change (d_nx d * d_ny d * d_nz d) with (npts d). rewrite <- EO. apply Z.quot_mul. lia. }
  assert (Es : Z.quot (last_dim_size (d_nx d) (d_ny d) (d_nz d)) 2 = S). { unfold last_dim_size, stored. rewrite <- EL. rewrite Z.mul_comm. apply Z.quot_mul. lia. }
  rewrite Eo, Es in I. apply in_flat_map in I. destruct I as (i & Ii & I). apply in_map_iff in I. destruct I as (j & E & Ij).
  assert (Zr : forall n i, In i (zrange n) -> 0 <= i < n) by (intros m k Hk; unfold zrange in Hk; apply in_map_iff in Hk; destruct Hk as (q & <- & Hq); apply in_seq in Hq; lia).
  apply Zr in Ii. apply Zr in Ij. cbv zeta in E.
  assert (Eh : h = i * S + j) by (destruct (fft_rank (d_ny d) (d_nz d) =? 2); [|destruct (fft_rank (d_ny d) (d_nz d) =? 3)]; injection E; intros; congruence).
  assert (Hh : 0 <= h < d_other d * S) by (rewrite Eh; apply (rowin (d_other d) S S); lia). split; [exact Hh|].
  assert (Ep : pt d x y z = i * d_last d + j).
  { unfold pt. unfold last_dim, fft_rank in *. assert (EN : npts d = d_nx d * d_ny d * d_nz d) by reflexivity.
    destruct (Z.eqb_spec (d_nz d) 1) as [E3|E3]; [destruct (Z.eqb_spec (d_ny d) 1) as [E2|E2]|].
    - change (1 =? 2) with false in E. change (1 =? 3) with false in E. cbv iota in E. change (1 =? 1) with true in EL. cbv iota in EL. injection E as <- <- <- _.
      assert (d_other d = 1) by nia. assert (i = 0) by lia. rewrite E2, E3. lia.
    - change (2 =? 2) with true in E. cbv iota in E. change (2 =? 1) with false in EL. change (2 =? 2) with true in EL. cbv iota in EL. injection E as <- <- <- _. rewrite E3, EL. ring.
    - change (3 =? 2) with false in E. change (3 =? 3) with true in E. cbv iota in E. change (3 =? 1) with false in EL. change (3 =? 2) with false in EL. cbv iota in EL. injection E as <- <- <- _.
      rewrite EL. f_equal. f_equal. rewrite Z.mul_comm. symmetry. apply Z.quot_rem'. }
  destruct (divmod' i j S Ij) as (D1 & D2). destruct (divmod' i j (d_last d) ltac:(lia)) as (D3 & D4).
  unfold unstored, place. rewrite Ep, Eh, D1, D2, D3, D4. lia.
Qed.
Lemma visits r : 0 <= r < N -> r mod d_last d < S -> exists x y z, 0 <= x < d_nx d /\ 0 <= y < d_ny d /\ 0 <= z < d_nz d /\ r = pt d x y z /\ In (x, y, z, place d r) (loop_real (d_nx d) (d_ny d) (d_nz d)).
Proof.
  intros Hr Hs. pose proof (place_in d Wr r Hr Hs) as Hp. pose proof (place_un d Wr r Hr Hs) as Hu. pose proof (r_S_bounds d Wr) as Sb. destruct (r_sizes d Wr) as (P1 & P2 & P3).
  destruct (real_visit d Wr (place d r) Hp) as (x & y & z & I & E). rewrite Hu in E.
  exists x, y, z. assert (B : 0 <= x < d_nx d /\ 0 <= y < d_ny d /\ 0 <= z < d_nz d).
  { unfold loop_real in I. apply in_flat_map in I. destruct I as (i & Ii & I). apply in_map_iff in I. destruct I as (j & Ej & Ij).
    assert (Zr : forall n i, In i (zrange n) -> 0 <= i < n) by (intros m k Hk; unfold zrange in Hk; apply in_map_iff in Hk; destruct Hk as (q & <- & Hq); apply in_seq in Hq; lia).
    apply Zr in Ii. apply Zr in Ij. cbv zeta in Ej. assert (EL : d_last d = last_dim (d_nx d) (d_ny d) (d_nz d)) by apply Wr. assert (EO : d_other d * d_last d = npts d) by apply Wr. pose proof (r_L d Wr) as Lp.
    assert (Eo : other_dims (d_nx d) (d_nx d) (d_ny d) (d_nz d) = d_other d).
    { unfold other_dims, local_N. rewrite <- EL. change (d_nx d * d_ny d * d_nz d) with (npts d). rewrite <- EO. apply Z.quot_mul. lia. }
    assert (Es : Z.quot (last_dim_size (d_nx d) (d_ny d) (d_nz d)) 2 = S). { unfold last_dim_size, stored. rewrite <- EL. rewrite Z.mul_comm. apply Z.quot_mul. lia. }
    rewrite Eo in Ii. rewrite Es in Ij. unfold last_dim, fft_rank in *. assert (EN : npts d = d_nx d * d_ny d * d_nz d) by reflexivity.
    destruct (Z.eqb_spec (d_nz d) 1) as [E3|E3]; [destruct (Z.eqb_spec (d_ny d) 1) as [E2|E2]|].
    - change (1 =? 2) with false in Ej. change (1 =? 3) with false in Ej. cbv iota in Ej. change (1 =? 1) with true in EL. cbv iota in EL. injection Ej as <- <- <- _. lia.
    - change (2 =? 2) with true in Ej. cbv iota in Ej. change (2 =? 1) with false in EL. change (2 =? 2) with true in EL. cbv iota in EL. injection Ej as <- <- <- _. nia.
    - change (3 =? 2) with false in Ej. change (3 =? 3) with true in Ej. cbv iota in Ej. change (3 =? 1) with false in EL. change (3 =? 2) with false in EL. cbv iota in EL. injection Ej as <- <- <- _.
      assert (Ii2 : 0 <= i < d_nx d * d_ny d) by nia. rewrite Z.quot_div_nonneg, Z.rem_mod_nonneg by lia. pose proof (Z.mod_pos_bound i (d_ny d) ltac:(lia)).
      split; [split; [apply Z.div_pos; lia|apply Z.div_lt_upper_bound; nia]|]. lia. }
  split; [apply B|]. split; [apply B|]. split; [apply B|]. split; [symmetry; exact E|exact I].
Qed.

(** The whole structure from the stored half. *)
Definition whole_at (th : list sym) (r : Z) : sym :=
  if r mod d_last d <? S then sym_at th (Z.to_nat (place d r)) else conj_sym (sym_at th (Z.to_nat (place d (opposite d r)))).
Definition whole_list (th : list sym) : list sym := map (whole_at th) (zrange N).
Lemma whole_list_at th r : 0 <= r < N -> sym_at (whole_list th) (Z.to_nat r) = whole_at th r.
Proof.
  intros H. unfold whole_list. unfold sym_at at 1. rewrite (nth_indep _ sym0 (whole_at th 0)) by (rewrite map_length; unfold zrange; rewrite map_length, seq_length; lia).
  rewrite (map_nth (whole_at th)). f_equal. unfold zrange. change 0 with (Z.of_nat 0). rewrite map_nth, seq_nth by lia. lia.
Qed.
Lemma whole_half th : half_of d th (whole_list th).
Proof.
  intros x y z h I. destruct (visited x y z h I) as (Hh & Eu & Ep & Es). pose proof (unstored_in d Wr h Hh) as Hr. rewrite Eu in Hr. rewrite whole_list_at by exact Hr. unfold whole_at.
  destruct (Z.ltb_spec (pt d x y z mod d_last d) S); [|lia]. rewrite <- Ep. reflexivity.
Qed.
Lemma whole_inversion th : planes_symmetric d th -> inversion d (whole_list th).
Proof.
  intros Pl x y z i j Hx Hy Hz Hi Hj. pose proof (pt_in d x y z Hx Hy Hz) as Hr. rewrite <- (opposite_pt d x y z Hx Hy Hz). pose proof (opposite_in d Wr _ Hr) as Hr'.
  set (r := pt d x y z) in *. rewrite !whole_list_at by assumption. unfold whole_at.
  destruct (Z.ltb_spec (r mod d_last d) S) as [A|A]; destruct (Z.ltb_spec (opposite d r mod d_last d) S) as [B|B].
  - destruct (visits r Hr A) as (x1 & y1 & z1 & Hx1 & Hy1 & Hz1 & E1 & I1). destruct (visits (opposite d r) Hr' B) as (x2 & y2 & z2 & Hx2 & Hy2 & Hz2 & E2 & I2).
    assert (Q : forall a b c a' b' c', 0 <= b < d_ny d -> 0 <= c < d_nz d -> 0 <= b' < d_ny d -> 0 <= c' < d_nz d -> pt d a b c = pt d a' b' c' -> (a, b, c) = (a', b', c')) by (intros a b c a' b' c' Hb Hc Hb' Hc' E; rewrite <- (pt_point d a b c Hb Hc), <- (pt_point d a' b' c' Hb' Hc'), E; reflexivity).
    assert (Q1 : (x2, y2, z2) = (opp (d_nx d) x1, opp (d_ny d) y1, opp (d_nz d) z1)).
    { apply Q; try assumption; try (apply opp_range; lia). rewrite <- E2, E1. apply opposite_pt; assumption. }
    injection Q1 as -> -> ->. exact (Pl x1 y1 z1 _ _ i j I1 I2 Hi Hj).
  - rewrite opposite_inv by assumption. apply conj_entry.
  - symmetry. apply conj_entry2.
  - exfalso. pose proof (other_half d Wr r Hr A). lia.
Qed.
Theorem completes nfb : planes_symmetric d (d_eps_inv d) -> (forall mu, d_mu_inv d = Some mu -> planes_symmetric d mu) ->
  exists dc, wfd dc /\ same_problem d dc /\ symmetric_structure dc /\ d_nfb dc = nfb.
Proof.
  intros He Hm. pose proof (r_N d Wr) as Np. destruct (r_sizes d Wr) as (P1 & P2 & P3).
  set (dc := create_shape (d_nx d) (d_ny d) (d_nz d) nfb (d_kG d) (whole_list (d_eps_inv d)) (option_map whole_list (d_mu_inv d)) [] 0%R).
  assert (Lw : forall t, Z.of_nat (length (whole_list t)) = N) by (intros t; unfold whole_list; rewrite map_length; apply zrange_len; lia).
  assert (Lk : Z.of_nat (length (d_kG d)) = N) by apply Wr.
  exists dc. split; [|split; [|split; [|reflexivity]]].
  - pose proof (r_L d Wr) as Lp. assert (EL : d_last d = last_dim (d_nx d) (d_ny d) (d_nz d)) by apply Wr. assert (EO : d_other d * d_last d = npts d) by apply Wr. pose proof (r_O d Wr).
    assert (Eq : d_other dc = d_other d) by (unfold dc, create_shape; cbn [d_other]; cbv zeta; rewrite <- EL; change (d_nx d * d_ny d * d_nz d) with N; rewrite <- EO; apply Z.quot_mul; lia).
    unfold wfd. rewrite Eq. change (npts dc) with N. change (d_last dc) with (last_dim (d_nx d) (d_ny d) (d_nz d)). rewrite <- EL.
    repeat split; try assumption; try reflexivity; try lia; try (apply Lw).
    + symmetry. exact EL.
    + intros mu Em. change (d_mu_inv dc) with (option_map whole_list (d_mu_inv d)) in Em. destruct (d_mu_inv d); [|discriminate]. injection Em as <-. apply Lw.
  - repeat (split; [reflexivity|]). split; [exact (whole_half (d_eps_inv d))|]. change (d_mu_inv dc) with (option_map whole_list (d_mu_inv d)). destruct (d_mu_inv d) as [m|]; [|exact I]. exact (whole_half m).
  - split; [exact (whole_inversion (d_eps_inv d) He)|]. change (d_mu_inv dc) with (option_map whole_list (d_mu_inv d)). destruct (d_mu_inv d) as [m|] eqn:Em; [|exact I]. exact (whole_inversion m (Hm m eq_refl)).
Qed.
End D.
