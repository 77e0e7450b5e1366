(** Properties C31, C32, C44 and C53: what is written to files. *)
From Coq Require Import List ZArith Reals Bool Lia Lra Permutation.
From Verif Require Import Base RC M_Tensor M_Evect M_Grid S_Grid M_Half S_Half L_Half M_Out S_Out L_Out3 L_Out4 L_Out5 L_Out6 L_Out7.
Import ListNotations.
Local Open Scope Z_scope.

(** ** C32 *)
(** Any block of a file of any rank, any stride: the numbers written are data[0], data[stride],
    data[2 stride], ... in this order, in row-major order to exactly the positions of the block. *)
Theorem C32_strided : forall (A : Type) dims start count stride (data : Z -> outcome A) v, block_in dims start count -> 0 < stride ->
  (forall i, 0 <= i < fold_right Z.mul 1 count -> data (i * stride) = Val (v i)) ->
  exists log, write_real_data dims count start stride data = Val log /\ map snd log = map v (upto (fold_right Z.mul 1 count)) /\
    map (fun e => offset start count (fst e)) log = upto (fold_right Z.mul 1 count) /\ forall x, In x (map fst log) <-> in_block start count x.
Proof. exact @write_block. Qed.
Print Assumptions C32_strided.

(** The real or imaginary part of one of [nc] interleaved components. *)
Theorem C32_component : forall field nc c ri dims start count, 0 < nc -> 0 <= c < nc -> block_in dims start count -> nc * fold_right Z.mul 1 count <= Z.of_nat (length field) ->
  exists log, write_real_data dims count start (2 * nc) (numbers field c ri) = Val log /\
    map snd log = map (fun i => part_of ri (nth (Z.to_nat (nc * i + c)) field (0, 0)%R)) (upto (fold_right Z.mul 1 count)) /\
    map (fun e => offset start count (fst e)) log = upto (fold_right Z.mul 1 count) /\ forall x, In x (map fst log) <-> in_block start count x.
Proof. exact write_part. Qed.
Print Assumptions C32_component.

(** Six numbers with stride 3 to a 2 x 3 block at (1, 2) of a 3 x 5 file. *)
Example C32_example : write_real_data [3; 5] [2; 3] [1; 2] 3 (fun t => Val t) =
  Val [([1; 2], 0); ([1; 3], 3); ([1; 4], 6); ([2; 2], 9); ([2; 3], 12); ([2; 4], 15)] /\ block_in [3; 5] [1; 2] [2; 3].
Proof. split; [vm_compute; reflexivity|cbn; lia]. Qed.

(** ** C31 *)
(** The rows of a matrix with N rows of c x p scalars of nv numbers, written by processes with
    consecutive shares in any order over a file with any content, and read by processes with any
    other consecutive shares. *)
Theorem C31_roundtrip : forall (A : Type) (G : list A) N c p nv shares shares' f0, 0 <= c -> 0 <= p -> 0 <= nv ->
  Z.of_nat (length G) = N * (c * p * nv) -> consecutive 0 shares N -> consecutive 0 shares' N ->
  exists logs, Forall2 (fun sh log => evect_writeall N c p nv (snd sh) (fst sh) (rows G (c * p * nv) (fst sh) (snd sh)) = Val log) shares logs /\
    forall w, Permutation w (concat logs) -> forall sh, In sh shares' ->
      evect_readall N c p nv (snd sh) (fst sh) (put f0 w) = combine (upto (snd sh * (c * p * nv))) (map Some (rows G (c * p * nv) (fst sh) (snd sh))).
Proof. intros A G N c p nv shares shares' f0. exact (evect_roundtrip G N c p nv shares shares' f0). Qed.
Print Assumptions C31_roundtrip.

(** Three rows of two numbers written by two processes and read by three, one of them idle. *)
Example C31_example : let G := [10; 11; 20; 21; 30; 31] in
  evect_writeall 3 1 1 2 2 0 (rows G 2 0 2) = Val [([0; 0; 0; 0], 10); ([0; 0; 0; 1], 11); ([1; 0; 0; 0], 20); ([1; 0; 0; 1], 21)] /\
  evect_writeall 3 1 1 2 1 2 (rows G 2 2 1) = Val [([2; 0; 0; 0], 30); ([2; 0; 0; 1], 31)] /\
  consecutive 0 [(0, 2); (2, 1)] 3 /\ consecutive 0 [(0, 1); (1, 0); (1, 2)] 3 /\ rows G 2 1 2 = [20; 21; 30; 31].
Proof. split; [vm_compute; reflexivity|]. split; [vm_compute; reflexivity|]. split; [cbn; lia|]. split; [cbn; lia|]. vm_compute. reflexivity. Qed.

(** ** C44 *)
(** Vector fields on grids held completely: over all processes, every grid point is written once
    with the stored field times exp(i k.r), real and imaginary parts of the chosen component (all
    three if it is negative). *)
Theorem C44_vector : forall n1 n2 n3 prs k which fields A, 0 < n1 -> 0 < n2 -> 0 < n3 -> procs n1 n2 n3 false prs ->
  Forall2 (fun pr field => stores (loop_of n1 n2 n3 false pr) 3 field A) prs fields ->
  exists ws, Forall2 (fun q w => output_complex false (fst q) n1 n2 n3 k which 3 (snd q) = Val w) (combine prs fields) ws /\
    forall a ri, 0 <= a < 3 -> Permutation (flat_map (written a ri) ws)
      (if (a =? which) || (which <? 0) then expected (parallel prs) n1 n2 n3 (fun c => part_of ri (A a c * bloch_at k n1 n2 n3 c)%C) else []).
Proof. intros n1 n2 n3 prs k which fields A P1 P2 P3 Hp Hf. apply (run_vector n1 n2 n3 P1 P2 P3 false prs k which fields A Hp Hf). discriminate. Qed.
Print Assumptions C44_vector.

(** Complex scalar fields come out right only if k is zero (the array has room for three numbers
    per point: it is the array of vector fields). *)
Theorem C44_cscalar_partial : forall n1 n2 n3 real prs which fields A, 0 < n1 -> 0 < n2 -> 0 < n3 -> procs n1 n2 n3 real prs ->
  Forall2 (fun pr field => stores (loop_of n1 n2 n3 real pr) 1 field A /\ 3 * Z.of_nat (length (loop_of n1 n2 n3 real pr)) <= Z.of_nat (length field)) prs fields ->
  (real = true -> hermitian n1 n2 n3 1 A) ->
  exists ws, Forall2 (fun q w => output_complex real (fst q) n1 n2 n3 (0, 0, 0)%R which 1 (snd q) = Val w) (combine prs fields) ws /\
    forall ri, Permutation (flat_map (written 0 ri) ws) (if (0 =? which) || (which <? 0) then expected (parallel prs) n1 n2 n3 (fun c => part_of ri (A 0 c)) else []).
Proof. intros n1 n2 n3 real prs which fields A P1 P2 P3. exact (run_cscalar n1 n2 n3 P1 P2 P3 real prs which fields A). Qed.
Print Assumptions C44_cscalar_partial.

(** With another k the phases are those of other points: two points, k = 1/2, a constant field. *)
Theorem C44_cscalar_refuted : exists n1 n2 n3 k field A w, stores (loop_of n1 n2 n3 false Alone) 1 field A /\ 3 * Z.of_nat (length (loop_of n1 n2 n3 false Alone)) <= Z.of_nat (length field) /\
  output_complex false Alone n1 n2 n3 k 0 1 field = Val w /\ ~ Permutation (written 0 false w) (expected false n1 n2 n3 (fun c => part_of false (A 0 c * bloch_at k n1 n2 n3 c)%C)).
Proof.
  exists 2, 1, 1, (1 / 2, 0, 0)%R, (repeat (1, 0)%R 6), (fun _ _ => (1, 0)%R).
  destruct (phases_ok 2 1 1 2 1 1 0 0 0 (1 / 2, 0, 0)%R (repeat (1, 0)%R 6) ltac:(lia) ltac:(lia) ltac:(lia) ltac:(lia) ltac:(lia) ltac:(lia) ltac:(cbn; lia)) as (d' & Ed & Ld & Hd).
  assert (One : fphase (2, 1, 1) (0, 0, 0) (1 / 2, 0, 0)%R (0, 0, 0) = (1, 0)%R) by (unfold fphase; rewrite <- expi_0; apply (f_equal expi); cbn [Z.add]; field).
  assert (OneM : ((1, 0)%R * (1, 0)%R)%C = (1, 0)%R) by (unfold Cmul, re, im; cbn [fst snd]; f_equal; lra).
  assert (H0 : rd d' 0 = Val (1, 0)%R) by (pose proof (Hd (0, 0, 0) 0 ltac:(apply whole_in; lia) ltac:(lia)) as Q; rewrite One in Q; exact (eq_trans Q (f_equal (@Val C) OneM))).
  assert (H1 : rd d' 1 = Val (1, 0)%R) by (pose proof (Hd (0, 0, 0) 1 ltac:(apply whole_in; lia) ltac:(lia)) as Q; rewrite One in Q; exact (eq_trans Q (f_equal (@Val C) OneM))).
  destruct (write_out_ok 2 1 1 ltac:(lia) ltac:(lia) ltac:(lia) false Alone (1 / 2, 0, 0)%R 0 1 d' (fun _ _ => (1, 0)%R) ltac:(lia) I) as (w & Ew & Hw).
  { intros r ((a & b) & c) Hr Ht. cbn [blk whole3] in Ht. apply whole_in in Ht. cbn [blk size3]. assert (r = 0) by lia. assert (b = 0) by lia. assert (c = 0) by lia. subst. assert (a = 0 \/ a = 1) as [->| ->] by lia; [exact H0|exact H1]. }
  { discriminate. }
  exists w. split; [|split; [rewrite repeat_length; vm_compute; discriminate|split]].
  - intros ((i & j) & k) idx a Hin Ha. cbn in Hin. assert (a = 0) by lia. subst a. destruct Hin as [E|[E|[]]]; inversion E; subst; reflexivity.
  - unfold output_complex. change (times_phases _ _ _ _ _) with (times_phases [2; 1; 1] [2; 1; 1] [0; 0; 0] (1 / 2, 0, 0)%R (repeat (1, 0)%R 6)). rewrite Ed. cbn [bind]. exact Ew.
  - rewrite (Hw 0 false ltac:(lia)). intros Pm. assert (Hin : In ([1], 1%R) (expected false 2 1 1 (fun c => part_of false ((1, 0)%R * bloch_at (1 / 2, 0, 0)%R 2 1 1 c)%C))).
    { apply (Permutation_in _ Pm). right. left. reflexivity. }
    apply in_map_iff in Hin as (((i & j) & k) & E & Hc). apply whole_in in Hc. assert (j = 0) by lia. assert (k = 0) by lia. subst j k. pose proof (f_equal fst E) as E1. pose proof (f_equal snd E) as E2. cbn [fst snd] in E1, E2. change (at_file false 2 1 1 (i, 0, 0)) with [i] in E1. injection E1 as ->. clear - E2. rewrite bloch_phi in E2. unfold phi in E2.
    replace (2 * PI * (1 / 2 * (1 / 2) + 0 * (0 / 1) + 0 * (0 / 1)))%R with (PI / 2)%R in E2 by field. unfold expi in E2. rewrite cos_PI2, sin_PI2 in E2. unfold Cmul, part_of, re, im in E2. cbn [fst snd] in E2. lra.
Qed.
Print Assumptions C44_cscalar_refuted.

(** ** C53 *)
(** Vector fields with A(-r) = A(r)* on half-stored grids: the stored points and the other half
    together are every grid point once, with the field times exp(i k.r) there. *)
Theorem C53_vector : forall n1 n2 n3 prs k which fields A, 0 < n1 -> 0 < n2 -> 0 < n3 -> procs n1 n2 n3 true prs ->
  Forall2 (fun pr field => stores (loop_of n1 n2 n3 true pr) 3 field A) prs fields -> hermitian n1 n2 n3 3 A ->
  exists ws, Forall2 (fun q w => output_complex true (fst q) n1 n2 n3 k which 3 (snd q) = Val w) (combine prs fields) ws /\
    forall a ri, 0 <= a < 3 -> Permutation (flat_map (written a ri) ws)
      (if (a =? which) || (which <? 0) then expected (parallel prs) n1 n2 n3 (fun c => part_of ri (A a c * bloch_at k n1 n2 n3 c)%C) else []).
Proof. intros n1 n2 n3 prs k which fields A P1 P2 P3 Hp Hf HA. apply (run_vector n1 n2 n3 P1 P2 P3 true prs k which fields A Hp Hf). intros _. exact HA. Qed.
Print Assumptions C53_vector.

(** Real quantities: epsilon, energy densities. *)
Theorem C53_scalar : forall n1 n2 n3 real prs valss f, 0 < n1 -> 0 < n2 -> 0 < n3 -> procs n1 n2 n3 real prs ->
  Forall2 (fun pr vals => stores (loop_of n1 n2 n3 real pr) 1 vals (fun _ => f)) prs valss -> (real = true -> even n1 n2 n3 f) ->
  exists ws, Forall2 (fun q w => output_scalarfield real (fst q) n1 n2 n3 (snd q) = Val w) (combine prs valss) ws /\
    Permutation (concat ws) (expected (parallel prs) n1 n2 n3 f).
Proof. intros n1 n2 n3 real prs valss f P1 P2 P3. exact (run_scalar n1 n2 n3 P1 P2 P3 real prs valss f). Qed.
Print Assumptions C53_scalar.

(** The other half itself: entries of the array afterwards. *)
Theorem C53_otherhalf : forall n1 n2 n3 pr k nc field A, 0 < n1 -> 0 < n2 -> 0 < n3 -> 0 < nc -> procs n1 n2 n3 true [pr] -> hermitian n1 n2 n3 nc A ->
  stores (loop_of n1 n2 n3 true pr) nc field (fun a c => A a c * bloch_at k n1 n2 n3 c)%C ->
  exists field' L, otherhalf Cmul Cconj nc pr n1 n2 n3 (out_k pr k) field = Val field' /\ Permutation (map fst (loop_of n1 n2 n3 true pr) ++ map fst L) (whole n1 n2 n3) /\
    stores L nc field' (fun a c => A a c * bloch_at k n1 n2 n3 c)%C.
Proof. exact otherhalf_all. Qed.
Print Assumptions C53_otherhalf.

(** A process without a share of a half-stored grid of two dimensions with an even number of
    points asks for a negative number of points. *)
Theorem C53_idle2_refuted : exists n1 n2 shares, 0 < n1 /\ 1 < n2 /\ divided n2 1 shares /\ exists start, In (start, 0) shares /\
  forall k, output_complex true (Among 0 start) n1 n2 1 k (-1) 3 [] = Abort.
Proof.
  exists 1, 2, [(0, 2); (2, 0)]. split; [lia|]. split; [lia|]. split; [cbn; lia|]. exists 2. split; [right; left; reflexivity|]. intros ((k1 & k2) & k3).
  unfold output_complex, times_phases. cbn [out_k]. change (l_dims (out_layout true (Among 0 2) 1 2 1)) with [2; 1; 1]. change (get3 [2; 1; 1] 0) with 2. change (get3 [2; 1; 1] 1) with 1. change (get3 [2; 1; 1] 2) with 1.
  rewrite !fdiv_nz by lra. reflexivity.
Qed.
Print Assumptions C53_idle2_refuted.

(** In three dimensions a process without a share that starts at 0 divides by zero. *)
Theorem C53_idle3_refuted : exists n1 n2 n3 shares, 0 < n1 /\ 0 < n2 /\ 1 < n3 /\ divided n2 n3 shares /\ In (0, 0) shares /\
  forall k, output_complex true (Among 0 0) n1 n2 n3 k (-1) 3 [] = UB.
Proof.
  exists 1, 1, 2, [(0, 0); (0, 1)]. split; [lia|]. split; [lia|]. split; [lia|]. split; [cbn; lia|]. split; [left; reflexivity|]. intros ((k1 & k2) & k3).
  unfold output_complex, times_phases. cbn [out_k]. change (l_dims (out_layout true (Among 0 0) 1 1 2)) with [1; 1; 2]. change (get3 [1; 1; 2] 0) with 1. change (get3 [1; 1; 2] 1) with 1. change (get3 [1; 1; 2] 2) with 2.
  rewrite !fdiv_nz by lra. reflexivity.
Qed.
Print Assumptions C53_idle3_refuted.

(** Three by four points on two processes, one of which also holds the edge of the half; the field
    is not real and not constant. *)
Definition ex_A (a : Z) (c : Z * Z * Z) : C := let '(i, j, _) := c in (IZR a + (if j =? 2 then 5 else 0), if i =? 1 then 2 else if i =? 2 then -2 else 0)%R.
Definition ex_field (L : list (Z * Z * Z * Z)) : list C := flat_map (fun e => [ex_A 0 (fst e); ex_A 1 (fst e); ex_A 2 (fst e)]) L.
Definition ex_prs : list proc := [Among 2 0; Among 1 2].
Example C53_example : procs 3 4 1 true ex_prs /\ hermitian 3 4 1 3 ex_A /\
  Forall2 (fun pr field => stores (loop_of 3 4 1 true pr) 3 field ex_A) ex_prs (map (fun pr => ex_field (loop_of 3 4 1 true pr)) ex_prs).
Proof.
  split; [|split].
  - right. exists [(0, 2); (2, 1)]. split; [reflexivity|]. split; [left; lia|]. split; [repeat constructor|]. cbn. lia.
  - intros a ((i & j) & k) _ Hc. apply whole_in in Hc as (Hi & Hj & _). unfold mirror, ex_A, Cconj. assert (Ej : (opp 4 j =? 2) = (j =? 2)) by (assert (j = 0 \/ j = 1 \/ j = 2 \/ j = 3) as [->|[->|[->| ->]]] by lia; reflexivity). rewrite Ej. cbn [fst snd].
    assert (i = 0 \/ i = 1 \/ i = 2) as [->|[->| ->]] by lia; cbn; f_equal; ring.
  - assert (G : forall L, map snd L = upto (Z.of_nat (length L)) -> stores L 3 (ex_field L) ex_A).
    { intros L HL c idx a Hin Ha. destruct (In_nth _ _ (0, 0, 0, 0) Hin) as (n & Hn & En).
      assert (Ei : idx = Z.of_nat n).
      { assert (E : nth n (map snd L) 0 = idx) by (change 0 with (snd (0, 0, 0, 0)); rewrite map_nth, En; reflexivity). rewrite HL in E. unfold upto in E. change 0 with (Z.of_nat 0) in E. rewrite map_nth, seq_nth in E by lia. lia. }
      assert (Nth : forall l m d, (m < length l)%nat -> 0 <= a < 3 -> nth_error (ex_field l) (3 * m + Z.to_nat a) = Some (ex_A a (fst (nth m l d)))).
      { clear. induction l as [|e l IH]; intros m d Hm Ha; [cbn in Hm; lia|]. destruct m as [|m].
        - assert (a = 0 \/ a = 1 \/ a = 2) as [->|[->| ->]] by lia; reflexivity.
        - replace (3 * S m + Z.to_nat a)%nat with (S (S (S (3 * m + Z.to_nat a)))) by lia. cbn [ex_field flat_map app nth_error nth]. apply IH; [cbn in Hm; lia|exact Ha]. }
      unfold rd. destruct (Z.ltb_spec (3 * idx + a) 0); [lia|]. replace (Z.to_nat (3 * idx + a)) with (3 * n + Z.to_nat a)%nat by lia. rewrite (Nth L n (0, 0, 0, 0) Hn Ha), En. reflexivity. }
    repeat constructor; apply G; vm_compute; reflexivity.
Qed.
