(** The solution with the Maxwell operator on several processes. *)
From Coq Require Import List ZArith Reals Bool Arith Lia Lra.
From Verif Require Import Base RC M_Tensor S_Tensor M_Evect S_Evect L_Evect L_Evect3 M_Grid S_Grid L_Grid L_Grid5 M_Op S_Op M_Eig S_Eig L_Mat L_Eig2 M_Kpt L_Kpt2 M_Real S_Real M_Mx S_Mx M_Mpi S_Mpi L_Mpi1 L_Mpi4 M_Pcg S_Pcg L_Pcg1 L_Pcg2 M_Pmx S_Pmx L_Pmx1 L_Pmx2.
Import ListNotations.
Local Open Scope Z_scope.

Lemma solver_result p ns potr heev opA opB opK cons opA' opB' opK' cons' cg pr project reorth reset tol k fuel Y l : (1 <= p)%nat -> ns <> [] -> in_place_potr potr -> in_place_heev heev ->
  same_op p ns opA opA' -> same_opt p ns opB opB' -> same_K p ns opK opK' -> same_opt p ns cons cons' -> same_block p ns Y l ->
  same_run (same_result p ns) (eigensolver potr heev opA opB opK cons cg pr project reorth reset tol k fuel Y) (eigensolver_mpi potr heev opA' opB' opK' cons' cg pr project reorth reset tol k fuel l).
Proof.
  intros Hp Hn H1 H2 H3 H4 H5 H6 H7.
  assert (Q := solver_so p ns Hp Hn potr heev H1 H2 opA opA' opB opB' opK opK' cons cons' cg pr project reorth reset tol H3 H4 H5 H6 k fuel Y l H7).
  revert Q. destruct (eigensolver _ _ _ _ _ _ _ _ _ _ _ _ _ _ _) as [[a| | |]|], (eigensolver_mpi _ _ _ _ _ _ _ _ _ _ _ _ _ _ _) as [[b| | |]|]; cbn; auto.
  destruct a as [((Es & Z) & e)|], b as [((Es' & m) & e')|]; cbn; auto. intros (Q1 & Q2 & Q3). auto.
Qed.
Lemma both_results p ns ns' (s : option (outcome (option (list R * emat C * list R)))) a b : same_run (same_result p ns) s a -> same_run (same_result p ns') s b -> same_run (same_results p ns ns') a b.
Proof.
  destruct s as [[x| | |]|], a as [[y| | |]|], b as [[z| | |]|]; cbn; auto; try contradiction.
  destruct x as [((Es & Z) & e)|], y as [((Es' & m) & e')|], z as [((Es'' & m') & e'')|]; cbn; auto; try contradiction. intros (<- & <- & H) (<- & <- & H'). eauto.
Qed.

Section D.
Variable d : mdata.
Variable ps : list proc.
Hypothesis Tm : team d ps.
Hypothesis Rk : 1 < fft_rank (d_ny d) (d_nz d).
Notation ns := (sizes_of d ps).
Lemma flat_no : d_ny d = 1 -> d_nz d = 1 -> False.
Proof. intros E1 E2. rewrite E1, E2 in Rk. cbn in Rk. lia. Qed.
Lemma ns_nonempty : ns <> [].
Proof. pose proof (ps_nonempty d (proj1 Tm) ps (proj2 (proj2 (proj2 Tm)))) as Ne. clear Tm. destruct ps; [contradiction|discriminate]. Qed.
Lemma chain_so q parity zero_k : (zero_k = true -> first_plane ps) -> same_op q ns (chain_func (base_chain (mx_parity d parity) zero_k)) (mxp_chain ps parity zero_k).
Proof.
  intros Fp X l H. unfold base_chain, add_constraint, mxp_chain. assert (P : forall X l, same_block q ns X l -> same_outcome (same_block q ns) (let! X := mx_parity d parity X in Val X) (mxp_parity ps parity l)).
  { intros X' l' H'. pose proof (parity_so d ps Tm q parity ltac:(intros E1 E2; reflexivity) ltac:(intros E1 E2; destruct (flat_no E1 E2)) X' l' H') as Q. destruct (mx_parity d parity X'); exact Q. }
  destruct zero_k; cbn [chain_func].
  - apply (so_bind (same_block q ns)); [apply (zero_k_so d ps Tm q (Fp eq_refl)); exact H|]. intros X' l' H'. apply P, H'.
  - cbn [bind]. apply P, H.
Qed.
Lemma maxwell_result q potr heev parity zero_k cg pr project reorth reset tol k fuel Y l : (1 <= q)%nat -> in_place_potr potr -> in_place_heev heev -> pre_fits false d -> (zero_k = true -> first_plane ps) -> same_block q ns Y l ->
  same_run (same_result q ns)
    (eigensolver potr heev (mx_A d) (mx_B d) (Some (mx_K false d)) (Some (chain_func (base_chain (mx_parity d parity) zero_k))) cg pr project reorth reset tol k fuel Y)
    (eigensolver_mpi potr heev (mxp_A ps) (mxp_B ps) (Some (mxp_K ps)) (Some (mxp_chain ps parity zero_k)) cg pr project reorth reset tol k fuel l).
Proof.
  intros Hq H1 H2 Pf Fp H. apply solver_result; auto; [apply ns_nonempty|apply (A_so d ps Tm)|apply (B_so d ps Tm)|apply (K_so d ps Tm q Hq Pf)|apply (chain_so q parity zero_k Fp)].
Qed.
End D.

(** FFTW's division. *)
Section W.
Variable d : mdata.
Hypothesis Wd : wfd d.
Hypothesis Hn : 0 < d_nfb d.
Hypothesis Rk : 1 < fft_rank (d_ny d) (d_nz d).
Variable P : Z.
Hypothesis HP : 1 <= P.
Definition fftw_team : list proc := map (the_share d P) (zrange P).
Lemma blocks_order m a : 0 <= a -> in_order (Z.min (a * block (d_nx d) P) (d_nx d)) (Z.min ((a + Z.of_nat m) * block (d_nx d) P) (d_nx d)) (map (fun i => the_share d P (a + Z.of_nat i)) (seq 0 m)).
Proof.
  assert (HB : 0 <= block (d_nx d) P) by (unfold block; destruct (pos_3 d Wd) as (Q & _); apply Z.div_pos; lia). destruct (pos_3 d Wd) as (P1 & _).
  revert a. induction m as [|m IH]; intros a Ha; [cbn [seq map in_order]; f_equal; f_equal; lia|]. cbn [seq map in_order]. rewrite <- seq_shift, map_map.
  set (B := block (d_nx d) P) in *. cbn [the_share create_shape_mpi px0 pnx]. unfold block_start, block_size. fold B. replace (a + Z.of_nat 0) with a by lia. split.
  - destruct (Z_le_gt_dec (d_nx d) (a * B)); [left; lia|right]. rewrite Z.min_l by lia. reflexivity.
  - replace (Z.min (a * B) (d_nx d) + Z.max 0 (Z.min B (d_nx d - a * B))) with (Z.min ((a + 1) * B) (d_nx d)) by nia.
    replace (a + Z.of_nat (S m)) with (a + 1 + Z.of_nat m) by lia. specialize (IH (a + 1) ltac:(lia)). erewrite map_ext; [exact IH|]. intros i. cbn beta. f_equal. lia.
Qed.
Lemma fftw_is_team : team d fftw_team.
Proof.
  destruct (pos_3 d Wd) as (P1 & P2 & P3). split; [exact Wd|]. split; [exact Hn|]. split; [split; [|split]|].
  - intros p I. unfold fftw_team in I. apply in_map_iff in I. destruct I as (r & <- & I). apply zrange_in in I. apply (the_share_ok d Wd Rk P HP r). lia.
  - intros x Hx. destruct (block_covers d Rk P HP (d_nx d) x ltac:(lia) Hx) as (r & Hr & Q). exists (the_share d P r). split; [|exact Q]. apply in_map, zrange_in. exact Hr.
  - intros y Hy. destruct (block_covers d Rk P HP (d_ny d) y ltac:(lia) Hy) as (r & Hr & Q). exists (the_share d P r). split; [|exact Q]. apply in_map, zrange_in. exact Hr.
  - pose proof (blocks_order (Z.to_nat P) 0 ltac:(lia)) as Q. unfold fftw_team, zrange. rewrite map_map. rewrite Z.mul_0_l, Z.min_l in Q by lia.
    replace (Z.min ((0 + Z.of_nat (Z.to_nat P)) * block (d_nx d) P) (d_nx d)) with (d_nx d) in Q; [exact Q|]. rewrite Z.add_0_l, Z2Nat.id by lia. symmetry. apply Z.min_r.
    unfold block. pose proof (Z.div_mod (d_nx d + P - 1) P ltac:(lia)). pose proof (Z.mod_pos_bound (d_nx d + P - 1) P ltac:(lia)). lia.
Qed.
Lemma fftw_first : first_plane fftw_team.
Proof.
  destruct (pos_3 d Wd) as (P1 & P2 & P3). intros p I. unfold fftw_team in I. apply in_map_iff in I. destruct I as (r & <- & I). apply zrange_in in I. cbn [the_share create_shape_mpi px0 pnx]. unfold block_start, block_size.
  assert (HB : 1 <= block (d_nx d) P) by (unfold block; apply Z.div_le_lower_bound; lia). intros Q. assert (r = 0) by nia. subst r. lia.
Qed.
Lemma fftw_block X q : S_Op.fields d X -> ep X = Z.of_nat q -> exists l, same_block q (sizes_of d fftw_team) X l.
Proof.
  intros F E. destruct fftw_is_team as (_ & _ & Dv & Or). exists (map (fun r => sh_fields d (block_start (d_nx d) P r) (block_size (d_nx d) P r) X) (zrange P)). apply (sb_parts d Wd _ Dv Or). split; [exact F|]. split; [exact E|].
  unfold fftw_team. assert (H : forall r, In r (zrange P) -> 0 <= r) by (intros r I; apply zrange_in in I; lia). induction (zrange P) as [|r l IH]; [constructor|]. cbn [map]. constructor; [|apply IH; intros s I; apply H; right; exact I].
  apply fields_part; auto. apply H. left. reflexivity.
Qed.
End W.
