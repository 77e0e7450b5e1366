(** The shares the code sets up; every problem can be divided. *)
From Coq Require Import List ZArith Reals Bool Lia.
From Verif Require Import Base RC Loops M_Tensor S_Tensor M_Evect S_Evect L_Evect L_Evect3 M_Grid S_Grid L_Grid5 M_Op S_Op L_Op L_Op2 M_Real S_Real M_Mpi S_Mpi L_Mpi1 L_Mpi2 L_Mpi3.
Import ListNotations.
Local Open Scope Z_scope.

Lemma planewaves_map nx ny nz x0 lnx : 0 <= lnx -> 0 <= ny -> 0 <= nz -> planewaves nx ny nz x0 lnx =
  map (fun i => let '(x, y, z) := point ny nz i in (kidx nx (x0 + x), kidx ny y, kidx nz z)) (zrange (lnx * ny * nz)).
Proof.
  intros Hl Hy Hz. rewrite <- idx3 by assumption. unfold planewaves. rewrite flat_map_map, map_flat_map. apply flat_ext. intros x _. rewrite map_flat_map. apply flat_ext. intros y Iy. rewrite map_map. apply map_ext_in. intros z Iz.
  apply zrange_in in Iy. apply zrange_in in Iz. rewrite point_back by assumption. reflexivity.
Qed.
Lemma mapM_len {X Y} (f : X -> outcome Y) l r : mapM f l = Val r -> length r = length l.
Proof. revert r; induction l as [|a l IH]; intros r E; cbn [mapM] in E; [injection E as <-; reflexivity|]. destruct (f a); try discriminate. cbn [bind] in E. destruct (mapM f l) as [r'| | |]; try discriminate. injection E as <-. cbn. rewrite (IH r' eq_refl). reflexivity. Qed.
Lemma mapM_nth {X Y} (f : X -> outcome Y) l r : mapM f l = Val r -> forall i a dY, nth_error l i = Some a -> f a = Val (nth i r dY).
Proof.
  revert r; induction l as [|a l IH]; intros r E i x dY; cbn [mapM] in E; [destruct i; discriminate|]. destruct (f a) as [b| | |] eqn:Ea; try discriminate. cbn [bind] in E. destruct (mapM f l) as [r'| | |]; try discriminate. injection E as <-.
  destruct i as [|i]; cbn [nth_error nth]; [intros Q; injection Q as <-; exact Ea|]. intros Q. apply (IH r' eq_refl _ _ dY Q).
Qed.
Lemma nth_zrange n i : 0 <= i < n -> nth_error (zrange n) (Z.to_nat i) = Some i.
Proof. intros H. unfold zrange. rewrite nth_error_map. rewrite (nth_error_nth' _ 0%nat) by (rewrite seq_length; lia). cbn [option_map]. rewrite seq_nth by lia. f_equal. lia. Qed.

Lemma table_share nx ny nz x0 lnx k G1 G2 G3 kp kg dk : 1 <= ny -> 1 <= nz -> 0 <= x0 -> 0 <= lnx -> x0 + lnx <= nx ->
  k_plus_G nx ny nz x0 lnx k G1 G2 G3 = Val kp -> k_plus_G nx ny nz 0 nx k G1 G2 G3 = Val kg ->
  Z.of_nat (length kp) = lnx * ny * nz /\
  forall x y z, x0 <= x < x0 + lnx -> 0 <= y < ny -> 0 <= z < nz -> nth (Z.to_nat (((x - x0) * ny + y) * nz + z)) kp dk = nth (Z.to_nat ((x * ny + y) * nz + z)) kg dk.
Proof.
  intros Hy Hz H0 Hl Hx Ep Eg. unfold k_plus_G in *. rewrite planewaves_map in Ep, Eg by lia. split.
  - apply mapM_len in Ep. rewrite Ep, map_length, zrange_len. nia.
  - intros x y z Ix Iy Iz.
    assert (R1 : 0 <= ((x - x0) * ny + y) * nz + z < lnx * ny * nz) by (assert (0 <= (x - x0) * ny + y < lnx * ny) by nia; nia).
    assert (R2 : 0 <= (x * ny + y) * nz + z < nx * ny * nz) by (assert (0 <= x * ny + y < nx * ny) by nia; nia).
    pose proof (mapM_nth _ _ _ Ep (Z.to_nat (((x - x0) * ny + y) * nz + z)) (kidx nx x, kidx ny y, kidx nz z) dk) as Q1.
    pose proof (mapM_nth _ _ _ Eg (Z.to_nat ((x * ny + y) * nz + z)) (kidx nx x, kidx ny y, kidx nz z) dk) as Q2.
    rewrite nth_error_map, nth_zrange in Q1 by exact R1. rewrite nth_error_map, nth_zrange in Q2 by exact R2. cbn [option_map] in Q1, Q2. rewrite point_back in Q1, Q2 by assumption.
    replace (x0 + (x - x0)) with x in Q1 by lia. rewrite Z.add_0_l in Q2. specialize (Q1 eq_refl). specialize (Q2 eq_refl). rewrite Q1 in Q2. injection Q2 as Q2. exact Q2.
Qed.

(** With a transform of at least two dimensions, the last one is not divided. *)
Lemma last_divides nx ny nz lnx : 1 <= ny -> 1 <= nz -> 0 <= lnx -> 1 < fft_rank ny nz -> 1 <= last_dim nx ny nz /\ 0 <= Z.quot (lnx * ny * nz) (last_dim nx ny nz) /\ Z.quot (lnx * ny * nz) (last_dim nx ny nz) * last_dim nx ny nz = lnx * ny * nz.
Proof.
  intros Hy Hz Hl. unfold last_dim, fft_rank. destruct (Z.eqb_spec nz 1) as [E|E]; [destruct (Z.eqb_spec ny 1) as [E'|E']|]; intros Hr; [lia|..].
  - change (2 =? 1) with false. change (2 =? 2) with true. cbv iota. rewrite E, Z.mul_1_r. rewrite Z.quot_mul by lia. lia.
  - change (3 =? 1) with false. change (3 =? 2) with false. cbv iota. rewrite Z.quot_mul by lia. split; [lia|]. split; [nia|reflexivity].
Qed.
Lemma shape_share d nfb x0 lnx y0 lny kp ep' mup kn2 em k G1 G2 G3 : wfd d -> 1 < fft_rank (d_ny d) (d_nz d) -> nfb = d_nfb d ->
  slab x0 lnx (d_nx d) -> slab y0 lny (d_ny d) ->
  k_plus_G (d_nx d) (d_ny d) (d_nz d) 0 (d_nx d) k G1 G2 G3 = Val (d_kG d) -> k_plus_G (d_nx d) (d_ny d) (d_nz d) x0 lnx k G1 G2 G3 = Val kp ->
  let p := create_shape_mpi (d_nx d) (d_ny d) (d_nz d) nfb x0 lnx y0 lny kp ep' mup kn2 em in
  slab_of d p ep' (d_eps_inv d) -> match mup, d_mu_inv d with None, None => True | Some mp, Some m => slab_of d p mp m | _, _ => False end -> share d p.
Proof.
  intros Wd Rk En Sx Sy Eg Ek p He Hm. destruct (pos3 d Wd) as (H1 & H2 & H3).
  assert (Hl : 0 <= lnx) by (destruct Sx; lia). destruct (last_divides (d_nx d) (d_ny d) (d_nz d) lnx H2 H3 Hl Rk) as (L1 & L2 & L3).
  assert (T : Z.of_nat (length kp) = lnx * d_ny d * d_nz d /\ forall x y z, x0 <= x < x0 + lnx -> 0 <= y < d_ny d -> 0 <= z < d_nz d ->
    kat (pd p) (Z.to_nat (((x - x0) * d_ny d + y) * d_nz d + z)) = kat d (Z.to_nat (pt d x y z))).
  { destruct Sx as [Sx|Sx].
    - subst lnx. split; [|intros; lia]. assert (E : planewaves (d_nx d) (d_ny d) (d_nz d) x0 0 = []) by reflexivity. unfold k_plus_G in Ek. rewrite E in Ek. injection Ek as <-. reflexivity.
    - destruct (table_share (d_nx d) (d_ny d) (d_nz d) x0 lnx k G1 G2 G3 kp (d_kG d) {| kmag := 0; km := (0, 0, 0)%R; kn := (0, 0, 0)%R |} H2 H3 ltac:(lia) Hl ltac:(lia) Ek Eg) as (A & B). split; [exact A|exact B]. }
  destruct T as (T1 & T2). unfold share.
  split; [reflexivity|]. split; [reflexivity|]. split; [reflexivity|]. split; [exact En|]. split; [exact Sx|]. split; [exact Sy|]. split; [exact L2|]. split; [exact L1|]. split; [exact L3|]. split; [reflexivity|]. split; [reflexivity|].
  split; [exact T1|]. split; [exact T2|]. split; [exact He|exact Hm].
Qed.

(** Every problem can be divided among any number of processes. *)
Section X.
Variable d : mdata.
Hypothesis Wd : wfd d.
Hypothesis Rk : 1 < fft_rank (d_ny d) (d_nz d).
Variable P : Z.
Hypothesis HP : 1 <= P.
Notation nx := (d_nx d).
Notation ny := (d_ny d).
Notation nz := (d_nz d).

Lemma block_covers n x : 1 <= n -> 0 <= x < n -> exists r, 0 <= r < P /\ block_start n P r <= x < block_start n P r + block_size n P r.
Proof.
  intros Hn Hx. unfold block_start, block_size, block. set (B := (n + P - 1) / P).
  assert (HB : n <= P * B). { unfold B. pose proof (Z.div_mod (n + P - 1) P ltac:(lia)). pose proof (Z.mod_pos_bound (n + P - 1) P ltac:(lia)). lia. }
  assert (B1 : 1 <= B) by nia. exists (x / B). pose proof (Z.div_mod x B ltac:(lia)). pose proof (Z.mod_pos_bound x B ltac:(lia)).
  split; [split; [apply Z.div_pos; lia|apply Z.div_lt_upper_bound; nia]|]. nia.
Qed.
Lemma block_slab n r : 1 <= n -> 0 <= r -> slab (block_start n P r) (block_size n P r) n.
Proof.
  intros Hn Hr. unfold slab, block_start, block_size, block. set (B := (n + P - 1) / P).
  assert (B1 : 0 <= B) by (apply Z.div_pos; lia). destruct (Z_le_gt_dec (Z.min B (n - r * B)) 0); [left; lia|right]. split; [nia|lia].
Qed.
Definition sh_tensors (p0 : proc) (t : list sym) : list sym := map (fun i => sym_at t (Z.to_nat (y_pt p0 i))) (zrange (y_count p0)).
Definition sh_fields (x0 lnx : Z) (X : emat C) : emat C :=
  {| en := 2 * (lnx * ny * nz); ep := ep X; ealloc := ep X; edata := map (fun q => gets (edata X) (2 * (x0 * ny * nz) * ep X + q)) (zrange (2 * (lnx * ny * nz) * ep X)) |}.
Definition the_share (r : Z) : proc :=
  let x0 := block_start nx P r in let lnx := block_size nx P r in let y0 := block_start ny P r in let lny := block_size ny P r in
  let p0 := create_shape_mpi nx ny nz (d_nfb d) x0 lnx y0 lny [] [] None [] 0%R in
  create_shape_mpi nx ny nz (d_nfb d) x0 lnx y0 lny (map (fun i => kat d (Z.to_nat (x_pt p0 i))) (zrange (lnx * ny * nz)))
    (sh_tensors p0 (d_eps_inv d)) (option_map (sh_tensors p0) (d_mu_inv d)) [] 0%R.
Lemma nth_map_zrange {T} (f : Z -> T) n i dT : 0 <= i < n -> nth (Z.to_nat i) (map f (zrange n)) dT = f i.
Proof. intros H. apply nth_error_nth. rewrite nth_error_map, nth_zrange by exact H. reflexivity. Qed.
Lemma tensors_slab r (p : proc) t : d_nx (pd p) = nx -> d_ny (pd p) = ny -> d_nz (pd p) = nz -> 0 <= r -> py0 p = block_start ny P r -> pny p = block_size ny P r ->
  slab_of d p (sh_tensors p t) t.
Proof.
  intros E1 E2 E3 Hr E4 E5. destruct (pos3 d Wd) as (H1 & H2 & H3). assert (0 <= pny p) by (rewrite E5; unfold block_size; lia).
  unfold slab_of, sh_tensors, y_count. rewrite E1, E3. split; [rewrite map_length, zrange_len; nia|].
  intros x y z i I. unfold loop_complex_mpi in I. apply in_flat_map in I. destruct I as (y_ & Iy & I). apply in_flat_map in I. destruct I as (x' & Ix & I). apply in_map_iff in I. destruct I as (z' & E & Iz).
  injection E as E6 E7 E8 E9. subst x' z' y i. apply zrange_in in Ix. apply zrange_in in Iy. apply zrange_in in Iz.
  assert (R : 0 <= (y_ * nx + x) * nz + z < nx * pny p * nz) by (assert (0 <= y_ * nx + x < pny p * nx) by nia; nia).
  unfold sym_at at 1. rewrite nth_map_zrange by exact R. f_equal. f_equal. unfold y_pt. rewrite E1, E3, point_back by assumption. rewrite E2. unfold pt. f_equal. f_equal. lia.
Qed.
Lemma the_share_ok r : 0 <= r -> share d (the_share r).
Proof.
  intros Hr. destruct (pos3 d Wd) as (H1 & H2 & H3). pose proof (block_slab nx r H1 Hr) as Sx. pose proof (block_slab ny r H2 Hr) as Sy.
  assert (Hl : 0 <= block_size nx P r) by (unfold block_size; lia). destruct (last_divides nx ny nz (block_size nx P r) H2 H3 Hl Rk) as (L1 & L2 & L3).
  assert (Ln : 0 <= block_size nx P r * ny * nz) by (apply Z.mul_nonneg_nonneg; [apply Z.mul_nonneg_nonneg|]; lia).
  unfold share. split; [reflexivity|]. split; [reflexivity|]. split; [reflexivity|]. split; [reflexivity|]. split; [exact Sx|]. split; [exact Sy|]. split; [exact L2|]. split; [exact L1|]. split; [exact L3|]. split; [reflexivity|]. split; [reflexivity|].
  split; [|split; [|split]].
  - cbn [the_share create_shape_mpi pd d_kG pnx]. rewrite map_length, zrange_len. lia.
  - cbn [the_share create_shape_mpi pd px0 pnx]. intros x y z Hx Hy Hz. unfold kat at 1. cbn [d_kG].
    assert (R : 0 <= ((x - block_start nx P r) * ny + y) * nz + z < block_size nx P r * ny * nz) by (assert (0 <= (x - block_start nx P r) * ny + y < block_size nx P r * ny) by nia; nia).
    rewrite nth_map_zrange by exact R. f_equal. f_equal. unfold x_pt, pt. cbn [create_shape_mpi pd px0 d_ny d_nz]. ring.
  - apply (tensors_slab r (create_shape_mpi nx ny nz (d_nfb d) (block_start nx P r) (block_size nx P r) (block_start ny P r) (block_size ny P r) [] [] None [] 0%R) (d_eps_inv d) eq_refl eq_refl eq_refl Hr eq_refl eq_refl).
  - cbn [the_share create_shape_mpi pd d_mu_inv]. destruct (d_mu_inv d) as [mu|]; cbn [option_map]; [|exact I].
    apply (tensors_slab r (create_shape_mpi nx ny nz (d_nfb d) (block_start nx P r) (block_size nx P r) (block_start ny P r) (block_size ny P r) [] [] None [] 0%R) mu eq_refl eq_refl eq_refl Hr eq_refl eq_refl).
Qed.
Lemma fields_part r X : 0 <= r -> S_Op.fields d X -> part d (the_share r) (sh_fields (block_start nx P r) (block_size nx P r) X) X.
Proof.
  intros Hr ((Wn & Wp & Wl) & En). destruct (pos3 d Wd) as (H1 & H2 & H3). pose proof (block_slab nx r H1 Hr) as Sx.
  set (x0 := block_start nx P r) in *. set (lnx := block_size nx P r) in *. assert (Hl : 0 <= lnx) by (unfold lnx, block_size; lia).
  assert (Ln : 0 <= lnx * ny * nz) by (apply Z.mul_nonneg_nonneg; [apply Z.mul_nonneg_nonneg|]; lia).
  split; [|split; [reflexivity|split; [reflexivity|]]].
  - unfold sh_fields. split; [cbn [en]; lia|]. split; [cbn [ep ealloc]; lia|]. cbn [edata en ep ealloc]. rewrite map_length, zrange_len. rewrite Z2Nat.id; [reflexivity|]. apply Z.mul_nonneg_nonneg; lia.
  - change (px0 (the_share r)) with x0. change (pnx (the_share r)) with lnx. intros x y z c b Hx Hy Hz Hc Hb. unfold entC at 1. cbn [sh_fields edata ep].
    set (i := ((x - x0) * ny + y) * nz + z). assert (R : 0 <= i < lnx * ny * nz) by (unfold i; assert (0 <= (x - x0) * ny + y < lnx * ny) by nia; nia).
    unfold gets at 1. unfold rd. assert (R2 : 0 <= (2 * i + c) * ep X + b < 2 * (lnx * ny * nz) * ep X) by (apply rowin; lia). destruct (Z.ltb_spec ((2 * i + c) * ep X + b) 0); [lia|].
    rewrite nth_error_map, nth_zrange by exact R2. cbn [option_map]. unfold entC. f_equal. unfold i, pt. ring.
Qed.
Definition the_state (X out : emat C) (cap : Z) (r : Z) : pst :=
  {| s_p := the_share r; s_in := sh_fields (block_start nx P r) (block_size nx P r) X; s_out := sh_fields (block_start nx P r) (block_size nx P r) out;
     s_fft := repeat C0 (Z.to_nat (Z.max (3 * x_count (the_share r) * cap) (3 * y_count (the_share r) * cap))) |}.
Lemma division X out cap : S_Op.fields d X -> S_Op.fields d out -> let l := map (the_state X out cap) (zrange P) in
  length l = Z.to_nat P /\ parts d l X out /\ room l cap /\ map (fun s => (px0 (s_p s), pnx (s_p s), py0 (s_p s), pny (s_p s))) l =
    map (fun r => (block_start nx P r, block_size nx P r, block_start ny P r, block_size ny P r)) (zrange P).
Proof.
  intros HX HO l. destruct (pos3 d Wd) as (H1 & H2 & H3). split; [unfold l; rewrite map_length; apply zrange_len|]. split; [split|split].
  - split; [|split].
    + intros p I. unfold l in I. rewrite map_map in I. apply in_map_iff in I. destruct I as (r & <- & I). apply zrange_in in I. apply the_share_ok. lia.
    + intros x Hx. destruct (block_covers nx x H1 Hx) as (r & Hr & Q). exists (the_share r). split; [|exact Q]. unfold l. rewrite map_map. apply in_map_iff. exists r. split; [reflexivity|apply zrange_in; exact Hr].
    + intros y Hy. destruct (block_covers ny y H2 Hy) as (r & Hr & Q). exists (the_share r). split; [|exact Q]. unfold l. rewrite map_map. apply in_map_iff. exists r. split; [reflexivity|apply zrange_in; exact Hr].
  - intros s I. unfold l in I. apply in_map_iff in I. destruct I as (r & <- & I). apply zrange_in in I. split; apply fields_part; (lia || assumption).
  - intros s I. unfold l in I. apply in_map_iff in I. destruct I as (r & <- & I). cbn [the_state s_fft s_p]. rewrite repeat_length. lia.
  - unfold l. rewrite map_map. apply map_ext. intros r. reflexivity.
Qed.
End X.
