(** The loops of the operator over the share of one process. *)
From Coq Require Import List ZArith Reals Bool Lia.
From Verif Require Import Base RC Loops M_Tensor S_Tensor M_Evect S_Evect L_Evect L_Evect3 M_Grid S_Grid M_Op S_Op L_Op L_Op2.
Import ListNotations.
Local Open Scope Z_scope.

(** Data with the same loops over n plane waves or n points, taken as a grid of one dimension. *)
Definition as_waves (e : mdata) (n : Z) : mdata :=
  {| d_nx := n; d_ny := 1; d_nz := 1; d_other := d_other e; d_last := d_last e; d_last_size := d_last_size e; d_out := n; d_nfb := d_nfb e;
     d_kG := d_kG e; d_eps_inv := repeat sym0 (Z.to_nat n); d_mu_inv := None; d_kn2 := []; d_eps_inv_mean := 0%R |}.
Definition as_points (e : mdata) (n : Z) (t : list sym) : mdata :=
  {| d_nx := n; d_ny := 1; d_nz := 1; d_other := n; d_last := 1; d_last_size := 1; d_out := d_out e; d_nfb := d_nfb e;
     d_kG := repeat {| kmag := 0; km := (0, 0, 0)%R; kn := (0, 0, 0)%R |} (Z.to_nat n); d_eps_inv := t; d_mu_inv := None; d_kn2 := []; d_eps_inv_mean := 0%R |}.
Lemma as_waves_wf e n : 1 <= n -> 0 <= d_other e -> 1 <= d_last e -> d_other e * d_last e = n -> d_last_size e = d_last e -> Z.of_nat (length (d_kG e)) = n -> wfd (as_waves e n).
Proof. intros H1 H2 H3 H4 H5 H6. unfold wfd, npts, as_waves. cbn [d_nx d_ny d_nz d_other d_last d_last_size d_out d_kG d_eps_inv d_mu_inv]. rewrite repeat_length. repeat split; try lia. discriminate. Qed.
Lemma as_points_wf e n t : 1 <= n -> d_out e = n -> Z.of_nat (length t) = n -> wfd (as_points e n t).
Proof. intros H1 H2 H3. unfold wfd, npts, as_points. cbn [d_nx d_ny d_nz d_other d_last d_last_size d_out d_kG d_eps_inv d_mu_inv]. rewrite repeat_length. repeat split; try lia. discriminate. Qed.
Lemma npts_waves e n : npts (as_waves e n) = n.
Proof. unfold npts, as_waves; cbn [d_nx d_ny d_nz]. lia. Qed.
Lemma npts_points e n t : npts (as_points e n t) = n.
Proof. unfold npts, as_points; cbn [d_nx d_ny d_nz]. lia. Qed.

Section W.
Variables (e : mdata) (n : Z).
Hypotheses (Hn : 0 <= n) (Ho : 0 <= d_other e) (Hl : 1 <= d_last e) (Hol : d_other e * d_last e = n) (Hls : d_last_size e = d_last e)
  (Hk : Z.of_nat (length (d_kG e)) = n).

Lemma to_cartesian_loc asg X start nb fft : wf X -> en X = 2 * n -> 0 <= start -> 0 < nb -> start + nb <= ep X -> 3 * n * nb <= Z.of_nat (length fft) ->
  exists f', to_cartesian asg e X start nb fft = Val f' /\ length f' = length fft /\
    (forall g b, 0 <= g < n -> 0 <= b < nb -> arr f' (g * nb + b) = asg (kz e g) (fld X (start + b) g 0) (fld X (start + b) g 1)).
Proof.
  intros W En Hs Hb Hp Hf. destruct (Z.eq_dec n 0) as [E0|N0].
  - assert (d_other e = 0) by nia. exists fft. split; [|split; [reflexivity|intros; lia]]. unfold to_cartesian. rewrite H. reflexivity.
  - destruct (to_cartesian_ok (as_waves e n) (as_waves_wf e n ltac:(lia) Ho Hl Hol Hls Hk) asg X start nb fft) as (f' & E & L & A).
    + split; [exact W|]. rewrite npts_waves. exact En.
    + exact Hs. + exact Hb. + exact Hp. + rewrite npts_waves. exact Hf.
    + exists f'. split; [exact E|]. split; [exact L|]. rewrite npts_waves in A. exact A.
Qed.
Lemma to_transverse_loc prj X start nb fft : wf X -> en X = 2 * n -> 0 <= start -> 0 < nb -> start + nb <= ep X -> 3 * n * nb <= Z.of_nat (length fft) ->
  exists X', to_transverse prj e X start nb fft = Val X' /\ wf X' /\ en X' = 2 * n /\ ep X' = ep X /\
    (forall g b, 0 <= g < n -> 0 <= b < nb ->
       fld X' (start + b) g 0 = fst (prj (kz e g) (arr fft (g * nb + b))) /\ fld X' (start + b) g 1 = snd (prj (kz e g) (arr fft (g * nb + b)))) /\
    (forall g b c, 0 <= g < n -> 0 <= c < 2 -> 0 <= b < ep X -> ~ (start <= b < start + nb) -> fld X' b g c = fld X b g c).
Proof.
  intros W En Hs Hb Hp Hf. destruct (Z.eq_dec n 0) as [E0|N0].
  - assert (Z0 : d_other e = 0) by nia. exists (set_data X (edata X)). split; [unfold to_transverse; rewrite Z0; reflexivity|].
    split; [apply wf_set; [exact W|reflexivity]|]. split; [exact En|]. split; [reflexivity|]. split; intros; lia.
  - destruct (to_transverse_ok (as_waves e n) (as_waves_wf e n ltac:(lia) Ho Hl Hol Hls Hk) prj X start nb fft) as (X' & E & (W' & En') & P & _ & A & B).
    + split; [exact W|]. rewrite npts_waves. exact En.
    + exact Hs. + exact Hb. + exact Hp. + rewrite npts_waves. exact Hf.
    + rewrite npts_waves in *. exists X'. split; [exact E|]. split; [exact W'|]. split; [exact En'|]. split; [exact P|]. split; [exact A|exact B].
Qed.
End W.

Lemma grid_loc {T} e n (t : list sym) (rdT : Z -> outcome T) (tz : Z -> T) (F : T -> cvec -> cvec) nb (fft : list C) : 0 <= n -> d_out e = n -> Z.of_nat (length t) = n -> 0 < nb -> 3 * n * nb <= Z.of_nat (length fft) ->
  (forall i, 0 <= i < n -> rdT i = Val (tz i)) ->
  exists f', forZ 0 n (fun i f => let! t := rdT i in forZ 0 nb (fun b f =>
      let! v := rd3 f (3 * (i * nb + b)) in wr3 f (3 * (i * nb + b)) (F t v)) f) fft = Val f' /\ length f' = length fft /\
    (forall i b, 0 <= i < n -> 0 <= b < nb -> arr f' (i * nb + b) = F (tz i) (arr fft (i * nb + b))).
Proof.
  intros Hn Ho Lt Hb Hf Ht. destruct (Z.eq_dec n 0) as [E0|N0].
  - rewrite E0. exists fft. split; [reflexivity|]. split; [reflexivity|]. intros; lia.
  - destruct (grid_loop (as_points e n t) (as_points_wf e n t ltac:(lia) Ho Lt) rdT tz F nb fft) as (f' & E & L & A); rewrite ?npts_points in *; try assumption.
    exists f'. auto.
Qed.
Lemma e_from_d_loc e n (t : list sym) nb (fft : list C) : 0 <= n -> d_out e = n -> Z.of_nat (length t) = n -> 0 < nb -> 3 * n * nb <= Z.of_nat (length fft) ->
  exists f', e_from_d e nb t fft = Val f' /\ length f' = length fft /\
    (forall i b, 0 <= i < n -> 0 <= b < nb -> arr f' (i * nb + b) = assign_symmatrix_vector (sym_at t (Z.to_nat i)) (arr fft (i * nb + b))).
Proof.
  intros Hn Ho Lt Hb Hf. unfold e_from_d. rewrite Ho. apply (grid_loc e n t (rd t) (fun i => sym_at t (Z.to_nat i)) assign_symmatrix_vector nb fft Hn Ho Lt Hb Hf).
  intros i Hi. unfold rd. destruct (Z.ltb_spec i 0); [lia|]. unfold sym_at. rewrite (nth_error_nth' _ sym0) by lia. reflexivity.
Qed.
Lemma times_eps_loc e n nb (fft : list C) : 0 <= n -> d_out e = n -> Z.of_nat (length (d_eps_inv e)) = n -> (forall i, 0 <= i < n -> trace_at e i <> 0%R) -> 0 < nb -> 3 * n * nb <= Z.of_nat (length fft) ->
  exists f', times_eps e nb fft = Val f' /\ length f' = length fft /\
    (forall i b, 0 <= i < n -> 0 <= b < nb -> arr f' (i * nb + b) = epsmul e i (arr fft (i * nb + b))).
Proof.
  intros Hn Ho Lt Ht Hb Hf. unfold times_eps. rewrite Ho.
  assert (R : forall i, 0 <= i < n -> rd (d_eps_inv e) i = Val (sym_at (d_eps_inv e) (Z.to_nat i))).
  { intros i Hi. unfold rd. destruct (Z.ltb_spec i 0); [lia|]. unfold sym_at. rewrite (nth_error_nth' _ sym0) by lia. reflexivity. }
  destruct (grid_loc e n (d_eps_inv e) (fun i => let! t := rd (d_eps_inv e) i in fdiv 3 (m00 t + m11 t + m22 t)) (fun i => (3 / trace_at e i)%R)
    (fun q v => let '(x, y, z) := v in (Cscal q x, Cscal q y, Cscal q z)) nb fft Hn Ho Lt Hb Hf) as (f' & E & L & A).
  - intros i Hi. rewrite R by exact Hi. cbn [bind]. apply fdiv_nz. apply Ht. exact Hi.
  - exists f'. split; [|split; [exact L|]].
    + rewrite <- E. apply forZ_ext. intros i s Hi. rewrite (R i Hi). cbn [bind].
      match goal with |- bind ?a _ = _ => destruct a as [q| | |] end; cbn [bind]; try reflexivity. apply forZ_ext. intros b s' _.
      destruct (rd3 s' (3 * (i * nb + b))) as [[[x y] z]| | |]; reflexivity.
    + intros i b Hi Hbb. rewrite A by assumption. unfold epsmul. destruct (arr fft (i * nb + b)) as [[x y] z]. reflexivity.
Qed.

(** An array filled point by point, howmany numbers a point. *)
Lemma fill_loop n h (val : Z -> Z -> C) (body : Z -> Z -> outcome C) a : 0 <= n -> 0 < h -> n * h <= Z.of_nat (length a) ->
  (forall i q, 0 <= i < n -> 0 <= q < h -> body i q = Val (val i q)) ->
  exists a', forZ 0 n (fun i o => forZ 0 h (fun q o => let! v := body i q in wr o (i * h + q) v) o) a = Val a' /\ length a' = length a /\
    (forall i q, 0 <= i < n -> 0 <= q < h -> gets a' (i * h + q) = val i q).
Proof.
  intros Hn Hh Hl Hb.
  rewrite (forZ_ext 0 n _ (fun i o => forZ 0 h (fun q o => wr o (i * h + q) (val ((i * h + q) / h) ((i * h + q) mod h))) o)).
  2:{ intros i o Hi. apply forZ_ext. intros q o' Hq. rewrite Hb by assumption. cbn [bind]. destruct (divmod' i q h Hq) as (-> & ->). reflexivity. }
  rewrite (forZ_flat n h (fun x o => wr o x (val (x / h) (x mod h)))) by lia.
  destruct (forZ_inv (fun i s => length s = length a /\ (forall x, 0 <= x < i -> gets s x = val (x / h) (x mod h))) (fun x o => wr o x (val (x / h) (x mod h))) 0 (n * h) a) as (f' & E & L & H).
  - nia.
  - split; [reflexivity|]. intros; lia.
  - intros i s Hi (L & H). assert (Hin : 0 <= i < Z.of_nat (length s)) by (rewrite L; lia).
    exists (upd_nat s (Z.to_nat i) (val (i / h) (i mod h))). pose proof (wr_in s i (val (i / h) (i mod h)) Hin) as W. split; [exact W|]. split; [rewrite upd_length; exact L|].
    intros x Hx. unfold gets. rewrite (rd_wr _ _ _ _ _ W). destruct (Z.eqb_spec x i) as [->|]; [reflexivity|]. apply H. lia.
  - exists f'. split; [exact E|]. split; [exact L|]. intros i q Hi Hq. rewrite H by (pose proof (rowin n h h i q Hi Hq ltac:(lia)); lia).
    destruct (divmod' i q h Hq) as (-> & ->). reflexivity.
Qed.
