(** Proofs about files: all processes of a run together. *)
From Coq Require Import List ZArith Reals Bool Lia Lra Permutation.
From Verif Require Import Base RC Loops M_Tensor M_Evect M_Grid S_Grid L_Grid L_Grid5 M_Half S_Half L_Half L_Half2 M_Out S_Out L_Out L_Out2 L_Out3 L_Out4 L_Out5 L_Out6.
Import ListNotations.
Local Open Scope Z_scope.

Lemma collect {X Y} (P : X -> Y -> Prop) l : (forall x, In x l -> exists y, P x y) -> exists ys, Forall2 P l ys.
Proof.
  induction l as [|x l IH]; intros H; [exists []; constructor|]. destruct (H x (or_introl eq_refl)) as (y & Hy). destruct IH as (ys & Hys); [intros z Hz; apply H; right; exact Hz|]. exists (y :: ys). constructor; assumption.
Qed.
Lemma forall2_combine {X Y} (P : X -> Y -> Prop) l m : Forall2 P l m -> forall x y, In (x, y) (combine l m) -> P x y.
Proof. induction 1 as [|a b l m H _ IH]; intros x y; [intros []|]. cbn [combine]. intros [E|E]; [inversion E; subst; exact H|exact (IH x y E)]. Qed.
Lemma forall2_fst {X Y} (P : X -> Y -> Prop) l m : Forall2 P l m -> map fst (combine l m) = l.
Proof. induction 1 as [|a b l m H _ IH]; cbn; [reflexivity|]. rewrite IH. reflexivity. Qed.
Lemma forall2_impl {X Y} (P Q : X -> Y -> Prop) l m : (forall x y, In x l -> P x y -> Q x y) -> Forall2 P l m -> Forall2 Q l m.
Proof. intros H F. induction F as [|a b l m Hab _ IH]; constructor; [apply H; [left; reflexivity|exact Hab]|]. apply IH. intros x y Hx. apply H. right. exact Hx. Qed.
Lemma flat_map_forall2 {X Y D} (P : X -> Y -> Prop) (g : X -> list D) (h : Y -> list D) l m : (forall x y, P x y -> h y = g x) -> Forall2 P l m -> flat_map h m = flat_map g l.
Proof. intros H F. induction F as [|a b l m Hab _ IH]; cbn; [reflexivity|]. rewrite IH, (H a b Hab). reflexivity. Qed.
Lemma forall2_self {X Y} (P : X -> Y -> Prop) (g : X -> Y) l : (forall x, In x l -> P x (g x)) -> Forall2 P l (map g l).
Proof. induction l as [|x l IH]; intros H; cbn; constructor; [apply H; left; reflexivity|]. apply IH. intros y Hy. apply H. right. exact Hy. Qed.
Lemma flat_map_fst {X Y D} (g : X -> list D) (l : list (X * Y)) : flat_map (fun q => g (fst q)) l = flat_map g (map fst l).
Proof. rewrite flat_map_map. reflexivity. Qed.
Lemma flat_nil {X D} (l : list X) : flat_map (fun _ => @nil D) l = [].
Proof. induction l; cbn; auto. Qed.

Section Run.
Variables n1 n2 n3 : Z.
Hypotheses (P1 : 0 < n1) (P2 : 0 < n2) (P3 : 0 < n3).

Lemma entries_all real prs f : procs n1 n2 n3 real prs ->
  Permutation (flat_map (fun pr => entries n1 n2 n3 pr f (pts n1 n2 n3 real pr)) prs) (expected (parallel prs) n1 n2 n3 f).
Proof.
  intros Hp. destruct (procs_ok n1 n2 n3 P1 P2 P3 real prs Hp) as (Ho & Hperm). unfold entries, expected.
  rewrite (flat_ext _ (fun pr => map (fun c => (at_file (parallel prs) n1 n2 n3 c, f c)) (pts n1 n2 n3 real pr))) by (intros pr Hpr; destruct (Ho pr Hpr) as (_ & ->); reflexivity).
  rewrite <- map_flat_map. apply Permutation_map. exact Hperm.
Qed.

Lemma run_complex real prs k which nc fields F : 0 < nc -> procs n1 n2 n3 real prs ->
  Forall2 (fun pr field => exists d', times_phases (bl (fdims n1 n2 n3 pr)) (bl (blk n1 n2 n3 real pr)) (bl (fstart pr)) (out_k pr k) field = Val d' /\ stored n1 n2 n3 nc real pr d' F) prs fields ->
  (real = true -> forall pr, In pr prs -> folds n1 n2 n3 Cmul Cconj nc (out_k pr k) pr F) ->
  exists ws, Forall2 (fun q w => output_complex real (fst q) n1 n2 n3 k which nc (snd q) = Val w) (combine prs fields) ws /\
    forall a ri, 0 <= a < nc -> Permutation (flat_map (written a ri) ws) (if (a =? which) || (which <? 0) then expected (parallel prs) n1 n2 n3 (fun c => part_of ri (F a c)) else []).
Proof.
  intros Hnc Hp Hf Hfo. destruct (procs_ok n1 n2 n3 P1 P2 P3 real prs Hp) as (Ho & _).
  destruct (collect (fun q w => output_complex real (fst q) n1 n2 n3 k which nc (snd q) = Val w /\
    forall a ri, 0 <= a < nc -> written a ri w = if sel which a then entries n1 n2 n3 (fst q) (fun c => part ri (F a c)) (pts n1 n2 n3 real (fst q)) else []) (combine prs fields)) as (ws & Hws).
  { intros (pr & field) Hin. cbn [fst snd]. pose proof (forall2_combine _ _ _ Hf pr field Hin) as (d' & Ed & Hst). pose proof (in_combine_l _ _ _ _ Hin) as Hpr. destruct (Ho pr Hpr) as (Hsh & _).
    destruct (write_out_ok n1 n2 n3 P1 P2 P3 real pr k which nc d' F Hnc Hsh Hst (fun E => Hfo E pr Hpr)) as (w & Ew & Hw). exists w. split; [|exact Hw].
    unfold output_complex. pose proof (lay_main n1 n2 n3 P1 P2 P3 real pr Hsh) as (LD & LL & LS). rewrite LD, LL, LS, Ed. cbn [bind]. rewrite <- LD, <- LL, <- LS. exact Ew. }
  exists ws. split; [exact (forall2_impl _ _ _ _ (fun x y _ H => proj1 H) Hws)|]. intros a ri Ha.
  rewrite (flat_map_forall2 _ (fun q => if sel which a then entries n1 n2 n3 (fst q) (fun c => part ri (F a c)) (pts n1 n2 n3 real (fst q)) else []) _ _ _ (fun x y H => proj2 H a ri Ha) Hws).
  fold (sel which a). destruct (sel which a); [|rewrite flat_nil; apply Permutation_refl].
  rewrite (flat_map_fst (fun pr => entries n1 n2 n3 pr (fun c => part ri (F a c)) (pts n1 n2 n3 real pr))), (forall2_fst _ _ _ Hf).
  rewrite (entries_all real prs (fun c => part ri (F a c)) Hp). apply Permutation_refl.
Qed.

Lemma run_vector real prs k which fields A : procs n1 n2 n3 real prs -> Forall2 (fun pr field => stores (loop_of n1 n2 n3 real pr) 3 field A) prs fields ->
  (real = true -> hermitian n1 n2 n3 3 A) ->
  exists ws, Forall2 (fun q w => output_complex real (fst q) n1 n2 n3 k which 3 (snd q) = Val w) (combine prs fields) ws /\
    forall a ri, 0 <= a < 3 -> Permutation (flat_map (written a ri) ws)
      (if (a =? which) || (which <? 0) then expected (parallel prs) n1 n2 n3 (fun c => part_of ri (A a c * bloch_at k n1 n2 n3 c)%C) else []).
Proof.
  intros Hp Hf HA. destruct (procs_ok n1 n2 n3 P1 P2 P3 real prs Hp) as (Ho & _).
  apply (run_complex real prs k which 3 fields (fun a c => A a c * bloch_at k n1 n2 n3 c)%C ltac:(lia) Hp).
  - refine (forall2_impl _ _ _ _ _ Hf). intros pr field Hpr Hs. destruct (Ho pr Hpr) as (Hsh & _). apply (phases_stored n1 n2 n3 P1 P2 P3 real pr k field A Hsh).
    exact (stored_at n1 n2 n3 P1 P2 P3 3 real pr field A Hsh Hs).
  - intros Er pr Hpr. destruct (Ho pr Hpr) as (Hsh & _). subst real. apply folds_bloch; try assumption. apply HA. reflexivity.
Qed.

(** Blocks: number of points. *)
Lemma blk_len real pr : share_ok n1 n2 n3 real pr -> let '(b0, b1, b2) := blk n1 n2 n3 real pr in Z.of_nat (length (loop_of n1 n2 n3 real pr)) = b0 * b1 * b2.
Proof.
  intros Ho. pose proof (half_arith n1 n2 n3 P1 P2 P3) as HA. pose proof (ldim_cases n1 n2 n3) as LC.
  assert (Hflat : forall (A : Type) m (f : Z -> list A) n, 0 <= n -> (forall i, Z.of_nat (length (f i)) = m) -> Z.of_nat (length (flat_map f (zrange n))) = n * m).
  { intros A m f n Hn H. assert (G : forall l, Z.of_nat (length (flat_map f l)) = Z.of_nat (length l) * m) by (induction l as [|i l IH]; [reflexivity|]; cbn [flat_map]; rewrite app_length, Nat2Z.inj_add, H, IH; cbn [length]; lia).
    rewrite G, zrange_len. rewrite Z2Nat.id by exact Hn. reflexivity. }
  assert (Hmap : forall (A : Type) (f : Z -> A) n, 0 <= n -> Z.of_nat (length (map f (zrange n))) = n) by (intros; rewrite map_length, zrange_len; lia).
  destruct pr as [|l s], real; cbn [blk loop_of]; unfold share_ok in Ho.
  - unfold loop_real. rewrite (nlast n1 n2 n3 P1 P2 P3). change (last_dim n1 n2 n3) with (ldim n1 n2 n3). fold (kp n1 n2 n3). unfold other_dims, local_N. change (last_dim n1 n2 n3) with (ldim n1 n2 n3). rewrite LC in *.
    destruct (Z.eqb_spec n3 1) as [E3|E3]; [destruct (Z.eqb_spec n2 1) as [E2|E2]|].
    + rewrite E2, E3, !Z.mul_1_r, Z.quot_same by lia. rewrite (Hflat _ (kp n1 1 1)); [rewrite <- E2, <- E3 at 1; rewrite E2, E3; lia|lia|]. intros; apply Hmap. rewrite E2, E3 in HA. lia.
    + rewrite E3, Z.mul_1_r, Z.quot_mul by lia. rewrite (Hflat _ (kp n1 n2 1)); [ring|lia|]. intros; apply Hmap. rewrite E3 in HA. lia.
    + rewrite Z.quot_mul by lia. apply Hflat; [nia|]. intros; apply Hmap. lia.
  - unfold loop_complex. rewrite (Hflat _ (n2 * n3)); [ring|lia|]. intros i. apply Hflat; [lia|]. intros; apply Hmap. lia.
  - destruct Ho as (Hl & Hs & Hr & Hle). unfold loop_real_mpi. rewrite (nlast n1 n2 n3 P1 P2 P3). change (last_dim n1 n2 n3) with (ldim n1 n2 n3). fold (kp n1 n2 n3).
    assert (E : (if n3 >? 1 then kp n1 n2 n3 else 1) = if n3 =? 1 then 1 else kp n1 n2 n3) by (destruct (Z.eqb_spec n3 1) as [->|]; [reflexivity|]; rewrite Z.gtb_ltb; destruct (Z.ltb_spec 1 n3); [reflexivity|lia]).
    rewrite E. set (m := if n3 =? 1 then 1 else kp n1 n2 n3). assert (0 < m) by (unfold m; destruct (n3 =? 1); lia). rewrite (Hflat _ (n1 * m)); [ring|lia|]. intros i. apply Hflat; [lia|]. intros; apply Hmap. lia.
  - unfold loop_complex_mpi. rewrite (Hflat _ (n1 * n3)); [ring|lia|]. intros i. apply Hflat; [lia|]. intros; apply Hmap. lia.
Qed.

Lemma run_cscalar real prs which fields A : procs n1 n2 n3 real prs ->
  Forall2 (fun pr field => stores (loop_of n1 n2 n3 real pr) 1 field A /\ 3 * Z.of_nat (length (loop_of n1 n2 n3 real pr)) <= Z.of_nat (length field)) prs fields ->
  (real = true -> hermitian n1 n2 n3 1 A) ->
  exists ws, Forall2 (fun q w => output_complex real (fst q) n1 n2 n3 (0, 0, 0)%R which 1 (snd q) = Val w) (combine prs fields) ws /\
    forall ri, Permutation (flat_map (written 0 ri) ws) (if (0 =? which) || (which <? 0) then expected (parallel prs) n1 n2 n3 (fun c => part_of ri (A 0 c)) else []).
Proof.
  intros Hp Hf HA. destruct (procs_ok n1 n2 n3 P1 P2 P3 real prs Hp) as (Ho & _).
  destruct (run_complex real prs (0, 0, 0)%R which 1 fields (fun a c => A a c * bloch_at (0, 0, 0)%R n1 n2 n3 c)%C ltac:(lia) Hp) as (ws & W1 & W2).
  - refine (forall2_impl _ _ _ _ _ Hf). intros pr field Hpr (Hs & Len). destruct (Ho pr Hpr) as (Hsh & _). apply (phases_zero n1 n2 n3 P1 P2 P3 real pr field A Hsh).
    + exact (stored_at n1 n2 n3 P1 P2 P3 1 real pr field A Hsh Hs).
    + pose proof (blk_len real pr Hsh) as BL. destruct (blk n1 n2 n3 real pr) as ((b0 & b1) & b2). rewrite <- BL. exact Len.
  - intros Er pr Hpr. destruct (Ho pr Hpr) as (Hsh & _). subst real. apply folds_bloch; try assumption. apply HA. reflexivity.
  - exists ws. split; [exact W1|]. intros ri. rewrite (W2 0 ri ltac:(lia)). destruct ((0 =? which) || (which <? 0)); [|apply Permutation_refl].
    unfold expected. rewrite (map_ext _ (fun c => (at_file (parallel prs) n1 n2 n3 c, part_of ri (A 0 c)))); [apply Permutation_refl|].
    intros ((i & j) & k). f_equal. f_equal. rewrite bloch_phi. cbn [phi]. replace (2 * PI * (0 * (IZR i / IZR n1) + 0 * (IZR j / IZR n2) + 0 * (IZR k / IZR n3)))%R with 0%R by ring. rewrite expi_0. destruct (A 0 (i, j, k)). unfold Cmul. cbn. f_equal; ring.
Qed.

Lemma run_scalar real prs valss f : procs n1 n2 n3 real prs -> Forall2 (fun pr vals => stores (loop_of n1 n2 n3 real pr) 1 vals (fun _ => f)) prs valss ->
  (real = true -> even n1 n2 n3 f) ->
  exists ws, Forall2 (fun q w => output_scalarfield real (fst q) n1 n2 n3 (snd q) = Val w) (combine prs valss) ws /\
    Permutation (concat ws) (expected (parallel prs) n1 n2 n3 f).
Proof.
  intros Hp Hf Hev. destruct (procs_ok n1 n2 n3 P1 P2 P3 real prs Hp) as (Ho & _).
  exists (map (fun q => entries n1 n2 n3 (fst q) f (pts n1 n2 n3 real (fst q))) (combine prs valss)). split.
  - apply forall2_self. intros (pr & vals) Hin. cbn [fst snd]. pose proof (forall2_combine _ _ _ Hf pr vals Hin) as Hs. pose proof (in_combine_l _ _ _ _ Hin) as Hpr. destruct (Ho pr Hpr) as (Hsh & _).
    apply (scalar_out_ok n1 n2 n3 P1 P2 P3 real pr vals f Hsh); [|exact Hev]. exact (stored_at n1 n2 n3 P1 P2 P3 1 real pr vals (fun _ => f) Hsh Hs).
  - rewrite <- flat_map_concat_map. rewrite (flat_map_fst (fun pr => entries n1 n2 n3 pr f (pts n1 n2 n3 real pr))), (forall2_fst _ _ _ Hf). exact (entries_all real prs f Hp).
Qed.
End Run.

(** ** Eigenvectors *)
Lemma cons_bound from shares to : 0 <= from -> consecutive from shares to -> from <= to /\ forall sh, In sh shares -> from <= fst sh /\ 0 <= snd sh /\ fst sh + snd sh <= to.
Proof.
  revert from. induction shares as [|(s & l) t IH]; intros from Hf H; cbn [consecutive] in H.
  - split; [lia|intros _ []].
  - destruct H as (-> & Hl & H). destruct (IH (from + l) ltac:(lia) H) as (H1 & H2). split; [lia|]. intros sh [<-|Hin]; [cbn; lia|]. specialize (H2 sh Hin). lia.
Qed.
Lemma cons_cover from shares to i : consecutive from shares to -> from <= i < to -> exists sh, In sh shares /\ fst sh <= i < fst sh + snd sh.
Proof.
  revert from. induction shares as [|(s & l) t IH]; intros from H Hi; cbn [consecutive] in H; [lia|]. destruct H as (-> & Hl & H). destruct (Z_lt_le_dec i (from + l)).
  - exists (from, l). split; [left; reflexivity|cbn; lia].
  - destruct (IH (from + l) H ltac:(lia)) as (sh & H1 & H2). exists sh. split; [right; exact H1|exact H2].
Qed.

Lemma evect_roundtrip {A} (G : list A) N c p nv shares shares' (f0 : dataset A) : 0 <= c -> 0 <= p -> 0 <= nv ->
  Z.of_nat (length G) = N * (c * p * nv) -> consecutive 0 shares N -> consecutive 0 shares' N ->
  exists logs, Forall2 (fun sh log => evect_writeall N c p nv (snd sh) (fst sh) (rows G (c * p * nv) (fst sh) (snd sh)) = Val log) shares logs /\
    forall w, Permutation w (concat logs) -> forall sh, In sh shares' ->
      evect_readall N c p nv (snd sh) (fst sh) (put f0 w) = combine (zrange (snd sh * (c * p * nv))) (map Some (rows G (c * p * nv) (fst sh) (snd sh))).
Proof.
  intros Hc Hp Hn HG Hs Hs'. set (w0 := c * p * nv) in *. assert (Hw0 : 0 <= w0) by (unfold w0; assert (0 <= c * p) by nia; nia).
  assert (Ep : lprod [c; p; nv] = w0) by (cbn; unfold w0; ring).
  destruct G as [|g G'] eqn:EG.
  { (* an empty matrix *)
    assert (Hz : N * w0 = 0) by (cbn in HG; lia).
    assert (Hrows : forall s l, rows (@nil A) w0 s l = []) by (intros; unfold rows; rewrite skipn_nil; apply firstn_nil).
    exists (map (fun _ => []) shares). split.
    - apply forall2_self. intros (s & l) Hin. cbn [fst snd]. destruct (cons_bound 0 shares N ltac:(lia) Hs) as (_ & B). specialize (B (s, l) Hin). cbn [fst snd] in B. rewrite Hrows.
      unfold evect_writeall. assert (Hl : l * w0 = 0) by nia.
      unfold write_real_data. cbn [length firstn]. change (1 >? 1) with false. cbv iota. change (lprod [l; c; p; nv]) with (l * lprod [c; p; nv]). rewrite Ep, Hl. change (zrange 0) with (@nil Z). cbn [mapM bind]. destruct (in_extent _ _ _); [|reflexivity]. f_equal. destruct (hyperslab _ _); reflexivity.
    - intros w Hw (s & l) Hin. cbn [fst snd]. destruct (cons_bound 0 shares' N ltac:(lia) Hs') as (_ & B). specialize (B (s, l) Hin). cbn [fst snd] in B. assert (Hl : l * w0 = 0) by nia. unfold evect_readall, read_real_data. rewrite Ep, Hl. reflexivity. }
  rewrite <- EG in *. set (h := fun x => nth (Z.to_nat (flat [N; c; p; nv] x)) G g).
  destruct (cons_bound 0 shares N ltac:(lia) Hs) as (_ & B). destruct (cons_bound 0 shares' N ltac:(lia) Hs') as (_ & B').
  set (log := fun sh : Z * Z => map (fun x => (x, h x)) (hyperslab [fst sh; 0; 0; 0] [snd sh; c; p; nv])).
  exists (map log shares). split.
  - apply forall2_self. intros sh Hin. specialize (B sh Hin). unfold log, w0, h. apply evect_log; try assumption; lia.
  - intros w Hw (s & l) Hin. cbn [fst snd]. specialize (B' (s, l) Hin). cbn [fst snd] in B'. unfold evect_readall, read_real_data. rewrite Ep. f_equal.
    + rewrite <- (map_id (zrange (l * w0))) at 2. apply map_ext. intros; lia.
    + transitivity (map (fun x => Some (h x)) (hyperslab (s :: map (fun _ => 0) [c; p; nv]) (l :: [c; p; nv]))).
      * apply map_ext_in. intros x Hx. rewrite (put_map h w f0 x).
        -- destruct (in_dec (list_eq_dec Z.eq_dec) x (map fst w)) as [I|I]; [reflexivity|]. exfalso. apply I. apply hs_in in Hx as (i & y & -> & Hi & Hy).
           destruct (cons_cover 0 shares N (s + i) Hs ltac:(lia)) as (sh & Hsh & Hr). apply in_map_iff. exists ((s + i) :: y, h ((s + i) :: y)). split; [reflexivity|].
           apply (Permutation_in _ (Permutation_sym Hw)). apply in_concat. exists (log sh). split; [apply in_map; exact Hsh|]. unfold log. apply in_map_iff. exists ((s + i) :: y). split; [reflexivity|].
           apply (hs_in (fst sh) (snd sh) [c; p; nv]). exists (s + i - fst sh), y. split; [f_equal; lia|]. split; [lia|exact Hy].
        -- intros y v Hyv. apply (Permutation_in _ Hw) in Hyv. apply in_concat in Hyv as (lg & Hlg & Hyv). apply in_map_iff in Hlg as (sh & <- & _). unfold log in Hyv. apply in_map_iff in Hyv as (x' & E & _). inversion E. reflexivity.
      * rewrite <- (map_map h Some). f_equal. unfold h. rewrite <- (map_map (flat [N; c; p; nv]) (fun i => nth (Z.to_nat i) G g)), (hs_rows N s l [c; p; nv]) by (try lia; repeat constructor; assumption). rewrite Ep, map_map.
        unfold rows. assert (Len : Z.of_nat (length (firstn (Z.to_nat (l * w0)) (skipn (Z.to_nat (s * w0)) G))) = l * w0) by (rewrite firstn_length, skipn_length; nia).
        apply (nth_ext _ _ g g).
        -- rewrite map_length, zrange_len. lia.
        -- intros n Hn'. rewrite map_length, zrange_len in Hn'. rewrite nth_firstn, nth_skipn by lia.
           rewrite (nth_indep _ g (nth (Z.to_nat (s * w0 + 0)) G g)) by (rewrite map_length, zrange_len; lia). rewrite (map_nth (fun i => nth (Z.to_nat (s * w0 + i)) G g)).
           unfold zrange. rewrite (nth_indep _ 0 (Z.of_nat 0)) by (rewrite map_length, seq_length; lia). rewrite map_nth, seq_nth by lia. f_equal. nia.
Qed.

(** ** Blocks of any rank *)
Lemma block_lens dims start count : block_in dims start count -> in_extent dims start count = true /\ length start = length dims /\ length count = length dims /\ Forall (fun c => 0 <= c) count.
Proof.
  revert start count. induction dims as [|d dims IH]; intros [|s start] [|c count] H; cbn in H; try contradiction; [repeat split; constructor|]. destruct H as (H1 & H2 & H3 & H). destruct (IH start count H) as (I1 & I2 & I3 & I4).
  cbn. rewrite I1, I2, I3, (proj2 (Z.leb_le 0 s) H1), (proj2 (Z.leb_le 0 c) H2), (proj2 (Z.leb_le _ _) H3). repeat split. constructor; assumption.
Qed.
Lemma hs_offset start count : length start = length count -> Forall (fun c => 0 <= c) count -> map (offset start count) (hyperslab start count) = zrange (lprod count).
Proof.
  revert count. induction start as [|s start IH]; intros [|c count] HL HF; try discriminate; [reflexivity|]. inversion HF as [|? ? Hc HF']; subst. cbn [hyperslab]. rewrite map_flat_map. change (lprod (c :: count)) with (c * lprod count).
  rewrite <- idx2 by (try apply lprod_nonneg; assumption). apply flat_ext. intros i _. rewrite map_map, <- (IH count ltac:(cbn in HL; lia) HF'), map_map. apply map_ext. intros x. cbn [offset]. change (fold_right Z.mul 1 count) with (lprod count). lia.
Qed.
Lemma hs_block start count x : length start = length count -> In x (hyperslab start count) <-> in_block start count x.
Proof.
  revert count x. induction start as [|s start IH]; intros [|c count] x HL; try discriminate.
  - cbn. split; [intros [<-|[]]; exact I|]. destruct x; [left; reflexivity|intros []].
  - cbn [hyperslab]. rewrite in_flat_map. split.
    + intros (i & Hi & H). apply in_map_iff in H as (y & <- & Hy). apply zrange_in in Hi. cbn [in_block]. split; [lia|]. apply (IH count y); [cbn in HL; lia|exact Hy].
    + destruct x as [|x xs]; [intros []|]. cbn [in_block]. intros (Hx & H). exists (x - s). rewrite zrange_in. split; [lia|]. apply in_map_iff. exists xs. split; [f_equal; lia|]. apply IH; [cbn in HL; lia|exact H].
Qed.
Lemma combine_fst {A B} (l : list A) (m : list B) : length l = length m -> map fst (combine l m) = l.
Proof. revert m. induction l as [|a l IH]; intros [|b m] H; cbn in *; try discriminate; [reflexivity|]. rewrite IH by lia. reflexivity. Qed.
Lemma combine_snd {A B} (l : list A) (m : list B) : length l = length m -> map snd (combine l m) = m.
Proof. revert m. induction l as [|a l IH]; intros [|b m] H; cbn in *; try discriminate; [reflexivity|]. rewrite IH by lia. reflexivity. Qed.

Lemma write_block {A} dims start count stride (data : Z -> outcome A) v : block_in dims start count -> 0 < stride ->
  (forall i, 0 <= i < fold_right Z.mul 1 count -> data (i * stride) = Val (v i)) ->
  exists log, write_real_data dims count start stride data = Val log /\ map snd log = map v (upto (fold_right Z.mul 1 count)) /\
    map (fun e => offset start count (fst e)) log = upto (fold_right Z.mul 1 count) /\ forall x, In x (map fst log) <-> in_block start count x.
Proof.
  intros Hb Hs Hd. destruct (block_lens dims start count Hb) as (He & L1 & L2 & HF). change (fold_right Z.mul 1 count) with (lprod count) in *. change upto with zrange.
  pose proof (hs_offset start count ltac:(lia) HF) as HO.
  assert (Len : length (hyperslab start count) = length (map v (zrange (lprod count)))) by (rewrite map_length, <- HO, map_length; reflexivity).
  rewrite (write_ok dims count start stride data v Hs); rewrite <- ?L2, ?firstn_all; rewrite ?L2, <- ?L1, ?firstn_all; try assumption; [|apply lprod_nonneg; exact HF].
  exists (combine (hyperslab start count) (map v (zrange (lprod count)))). split; [reflexivity|]. split; [apply combine_snd; exact Len|]. split.
  - rewrite <- (map_map fst (offset start count)), combine_fst by exact Len. exact HO.
  - intros x. rewrite combine_fst by exact Len. apply hs_block. lia.
Qed.

Lemma write_part field nc c ri dims start count : 0 < nc -> 0 <= c < nc -> block_in dims start count -> nc * fold_right Z.mul 1 count <= Z.of_nat (length field) ->
  exists log, write_real_data dims count start (2 * nc) (numbers field c ri) = Val log /\
    map snd log = map (fun i => part_of ri (nth (Z.to_nat (nc * i + c)) field (0, 0)%R)) (upto (fold_right Z.mul 1 count)) /\
    map (fun e => offset start count (fst e)) log = upto (fold_right Z.mul 1 count) /\ forall x, In x (map fst log) <-> in_block start count x.
Proof.
  intros Hnc Hc Hb HL. apply write_block; [exact Hb|lia|]. intros i Hi. unfold numbers. set (b := if ri then 1 else 0). assert (Hb' : 0 <= b < 2) by (unfold b; destruct ri; lia).
  replace (2 * c + b + i * (2 * nc)) with ((nc * i + c) * 2 + b) by ring. rewrite dm_div by exact Hb'.
  assert (B : 0 <= nc * i + c < Z.of_nat (length field)) by nia. rewrite (rd_get_s field _ (0, 0)%R B). cbn [bind].
  assert (Eo : Z.odd ((nc * i + c) * 2 + b) = ri) by (rewrite Z.odd_add, Z.odd_mul; cbn [Z.odd]; rewrite andb_false_r; unfold b; destruct ri; reflexivity). rewrite Eo. reflexivity.
Qed.

(** ** The other half by itself *)
Lemma nodup_left {A} (l m : list A) : NoDup (l ++ m) -> NoDup l.
Proof. induction l as [|a l IH]; intros H; [constructor|]. inversion H as [|? ? Ha Hl]; subst. constructor; [|exact (IH Hl)]. intros Q. apply Ha. apply in_or_app. left. exact Q. Qed.
Lemma otherhalf_all n1 n2 n3 pr k nc field A : 0 < n1 -> 0 < n2 -> 0 < n3 -> 0 < nc -> procs n1 n2 n3 true [pr] -> hermitian n1 n2 n3 nc A ->
  stores (loop_of n1 n2 n3 true pr) nc field (fun a c => A a c * bloch_at k n1 n2 n3 c)%C ->
  exists field' L, otherhalf Cmul Cconj nc pr n1 n2 n3 (out_k pr k) field = Val field' /\ Permutation (map fst (loop_of n1 n2 n3 true pr) ++ map fst L) (whole n1 n2 n3) /\
    stores L nc field' (fun a c => A a c * bloch_at k n1 n2 n3 c)%C.
Proof.
  intros P1 P2 P3 Hnc Hp HA Hs. destruct (procs_ok n1 n2 n3 P1 P2 P3 true [pr] Hp) as (Ho & Hperm). destruct (Ho pr (or_introl eq_refl)) as (Hsh & _). cbn [flat_map] in Hperm. rewrite app_nil_r in Hperm.
  set (F := fun a c => (A a c * bloch_at k n1 n2 n3 c)%C) in *.
  destruct (other_ok n1 n2 n3 P1 P2 P3 Cmul Cconj nc (0, 0)%R (out_k pr k) Hnc pr field F Hsh (stored_at n1 n2 n3 P1 P2 P3 nc true pr field F Hsh Hs)) as (d' & Ed & Hd').
  { apply folds_bloch; assumption. }
  exists d', (map (fun t => (oplace n1 n2 n3 pr t, size3 (oblk n1 n2 n3 pr) t)) (whole3 (oblk n1 n2 n3 pr))). split; [exact Ed|]. split.
  - rewrite map_map. cbn [fst]. rewrite <- Hperm. unfold pts. apply Permutation_app; [|symmetry; apply opts_perm; assumption]. symmetry. apply NoDup_Permutation_bis.
    + pose proof (pts_nodup n1 n2 n3 P1 P2 P3 true pr Hsh) as Nd. unfold pts in Nd. exact (nodup_left _ _ Nd).
    + rewrite !map_length. pose proof (blk_len n1 n2 n3 P1 P2 P3 true pr Hsh) as BL. pose proof (fits_main n1 n2 n3 P1 P2 P3 true pr Hsh) as Ft. destruct (fdims n1 n2 n3 pr) as ((? & ?) & ?), (fstart pr) as ((? & ?) & ?), (blk n1 n2 n3 true pr) as ((b0 & b1) & b2). cbn [whole3] in *. destruct Ft as (B0 & B1 & B2 & _).
      pose proof (f_equal (@length Z) (whole_index b0 b1 b2 B0 B1 B2)) as WL. rewrite map_length, zrange_len in WL. rewrite WL. lia.
    + intros c Hc. apply in_map_iff in Hc as (t & <- & Ht). apply in_map_iff. exists (place_in pr t, size3 (blk n1 n2 n3 true pr) t). split; [reflexivity|]. apply loop_blk; assumption.
  - intros c idx a Hin Ha. apply in_map_iff in Hin as (t & E & Ht). inversion E; subst. apply Hd'; assumption.
Qed.
