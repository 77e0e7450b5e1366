(** Properties C33-C36: processor groups, critical sections, communicators, allocator. *)
From Coq Require Import List ZArith Bool Lia Permutation.
From Verif Require Import Base M_Util S_Util L_Util L_Malloc.
Import ListNotations.
Local Open Scope Z_scope.

(* ------------------------------------------------------------------ *)
(** * C33 *)

(** Every process gets a group number in range; higher ranks get no lower numbers. *)
Theorem C33_group_numbers : forall P G s, 0 < G <= P ->
  (forall r, 0 <= r < P -> exists g s', divide_parallel_processes P r G s = Val (g, s') /\ 0 <= g < G) /\
  (forall r r' g g' t t', 0 <= r <= r' -> r' < P ->
     divide_parallel_processes P r G s = Val (g, t) -> divide_parallel_processes P r' G s = Val (g', t') -> g <= g').
Proof.
  intros P G s H. split.
  - intros r Hr. destruct (divide_val P r G s H) as (s' & E). rewrite E, group_div by lia. eexists. exists s'. split; [reflexivity|]. apply group_range; assumption.
  - intros r r' g g' t t' Hr Hr' E E'. destruct (divide_val P r G s H) as (u & E1). destruct (divide_val P r' G s H) as (u' & E1').
    rewrite E1 in E. rewrite E1' in E'. injection E as <- _. injection E' as <- _. rewrite !group_div by lia. apply group_mono; lia.
Qed.
Print Assumptions C33_group_numbers.

(** No group is empty. *)
Theorem C33_no_empty_group : forall P G s g, 0 < G <= P -> 0 <= g < G ->
  exists r t, 0 <= r < P /\ divide_parallel_processes P r G s = Val (g, t).
Proof.
  intros P G s g H Hg. destruct (group_onto P G g H Hg) as (r & Hr & E). exists r. destruct (divide_val P r G s H) as (t & E1).
  exists t. split; [exact Hr|]. rewrite E1, group_div by lia. rewrite E. reflexivity.
Qed.
Print Assumptions C33_no_empty_group.

(** Group sizes: the quotient P / G rounded down or up. *)
Theorem C33_balanced : forall P G s g, 0 < G <= P -> 0 <= g < G ->
  let size := Z.of_nat (length (filter (fun r => match divide_parallel_processes P r G s with
                                                 | Val (g', _) => g' =? g | _ => false end) (ranks P))) in
  P / G <= size <= (P + G - 1) / G.
Proof.
  intros P G s g H Hg size. unfold size. clear size.
  rewrite (filter_ext_in _ (fun r => (r * G / P) =? g)); [exact (group_size P G g H Hg)|].
  intros r Hr. unfold ranks in Hr. apply in_map_iff in Hr. destruct Hr as (x & <- & Hx).
  destruct (divide_val P (Z.of_nat x) G s H) as (t & E). rewrite E, group_div by lia. reflexivity.
Qed.
Print Assumptions C33_balanced.

Theorem C33_invalid_refused : forall P G r s, ~ (0 < G <= P) -> divide_parallel_processes P r G s = Abort.
Proof. intros. apply divide_bad. assumption. Qed.
Print Assumptions C33_invalid_refused.

(** The build without MPI refuses exactly the one valid number of groups. *)
Theorem C33_serial_refuted : divide_parallel_processes_serial 1 = Abort /\
  forall G, G <> 1 -> divide_parallel_processes_serial G = Val 0.
Proof. split; [reflexivity|]. intros G H. unfold divide_parallel_processes_serial, check. destruct (Z.eqb_spec G 1); [contradiction|reflexivity]. Qed.
Print Assumptions C33_serial_refuted.

Example C33_example : map (fun r => match divide_parallel_processes 7 r 3 cinit with Val (g, _) => g | _ => -1 end) (ranks 7)
  = [0; 0; 0; 1; 1; 2; 2].
Proof. reflexivity. Qed.

(* ------------------------------------------------------------------ *)
(** * C34 *)

(** For any number of processes and sections, any tags and any schedule: while a process
    is inside section j no other process is inside the same section, and a process has
    entered section j only if all lower ranks have left it.  No process receives a wrong
    tag. *)
Theorem C34_one_at_a_time_partial : forall N M tag eager sched s, (1 <= N)%nat ->
  mrun N M tag eager sched minit = Some s ->
  died s = false /\
  (forall p q j, (p < q < N)%nat -> (3 * j + 1 <= pc s q)%nat -> (3 * j + 2 <= pc s p)%nat) /\
  (forall p q j, (p < N)%nat -> (q < N)%nat -> pc s p = (3 * j + 1)%nat -> pc s q = (3 * j + 1)%nat -> p = q).
Proof.
  intros N M tag eager sched s HN R. pose proof (mrun_inv N M tag eager HN sched minit s (minit_inv N M tag HN) R) as I.
  assert (O : forall p q j, (p < q < N)%nat -> (3 * j + 1 <= pc s q)%nat -> (3 * j + 2 <= pc s p)%nat).
  { intros p q j Hpq H. apply (rank_order N M tag HN s p q j I); tauto. }
  split; [apply I|]. split; [exact O|].
  intros p q j Hp Hq E E'. destruct (Nat.lt_trichotomy p q) as [H|[H|H]]; [|exact H|].
  - specialize (O p q j ltac:(lia)). lia.
  - specialize (O q p j ltac:(lia)). lia.
Qed.
Print Assumptions C34_one_at_a_time_partial.

(** No deadlock, whether sends are buffered or wait for the receiver: while some process
    has not finished, some process can step. *)
Theorem C34_no_deadlock : forall N M tag eager sched s, (1 <= N)%nat ->
  mrun N M tag eager sched minit = Some s -> (exists p, (p < N)%nat /\ (pc s p < 3 * M)%nat) ->
  exists p, (p < N)%nat /\ exists s', mstep N M tag eager p s = Some s'.
Proof.
  intros N M tag eager sched s HN R E. apply (progress N M tag eager HN s); [|exact E].
  exact (mrun_inv N M tag eager HN sched minit s (minit_inv N M tag HN) R).
Qed.
Print Assumptions C34_no_deadlock.

(** Every schedule is finite, and every partial run can be completed so that all
    processes have passed all sections; so under any schedule that only stops when
    nothing can step, every process gets through every section. *)
Theorem C34_all_get_through : forall N M tag eager sched s, (1 <= N)%nat ->
  mrun N M tag eager sched minit = Some s ->
  (length sched <= N * (3 * M))%nat /\
  exists more s', mrun N M tag eager more s = Some s' /\ forall p, (p < N)%nat -> pc s' p = (3 * M)%nat.
Proof.
  intros N M tag eager sched s HN R. pose proof (mrun_inv N M tag eager HN sched minit s (minit_inv N M tag HN) R) as I. split.
  - pose proof (run_length N M tag eager HN sched minit s (minit_inv N M tag HN) R). pose proof (work_bound N M HN s N (proj1 (proj2 I))). lia.
  - exact (can_finish N M tag eager HN s I).
Qed.
Print Assumptions C34_all_get_through.

(** Two processes can be inside (different) critical sections at the same time: process 0
    enters the second section as soon as it has handed over the first. *)
Theorem C34_exclusion_across_sections_refuted : exists N M sched s, forall eager,
  mrun N M Z.of_nat eager sched minit = Some s /\ pc s 0 = 4%nat /\ pc s 1 = 1%nat.
Proof.
  exists 2%nat, 2%nat, [0; 0; 1; 0; 0]%nat. eexists. intros eager. split; [destruct eager; vm_compute; reflexivity|].
  split; vm_compute; reflexivity.
Qed.
Print Assumptions C34_exclusion_across_sections_refuted.

Example C34_example : exists s, mrun 3 1 Z.of_nat false [0; 0; 1; 0; 1; 2; 1; 2]%nat minit = Some s /\
  pc s 0 = 3%nat /\ pc s 1 = 3%nat /\ pc s 2 = 3%nat.
Proof. eexists. split; [vm_compute; reflexivity|]. repeat split. Qed.

(* ------------------------------------------------------------------ *)
(** * C35 *)

(** Whatever sequence of calls is made: no communicator is freed twice, the world
    communicator is never freed, and the current communicator has not been freed. *)
Theorem C35_no_double_free : forall sz rank l s, crun sz rank l cinit = Val s ->
  NoDup (freed s) /\ ~ In World (freed s) /\ ~ In (mpb_comm s) (freed s) /\ ~ In (mpb_comm_save s) (freed s).
Proof.
  intros sz rank l s R. destruct (crun_inv sz rank l cinit s cinit_inv R) as (A & B & _ & C & D & _).
  repeat split; auto.
  - destruct (mpb_comm s); [exact B|apply C].
  - destruct (mpb_comm_save s); [exact B|apply D].
Qed.
Print Assumptions C35_no_double_free.

(** After any sequence of divisions, ends of divisions and (unnested) global phases the
    current communicator is that of the division in force, and every other communicator
    ever created has been freed exactly once. *)
Theorem C35_group_restored_partial : forall sz rank l, flat sz l ->
  exists s, crun sz rank l cinit = Val s /\ mpb_comm s = group_after World 0 l /\ mpb_comm_save s = World /\
    created s = divides l /\
    Permutation (map Grp (seq 0 (divides l))) ((match group_after World 0 l with World => [] | c => [c] end) ++ freed s).
Proof.
  intros sz rank l F. destruct (flat_run sz rank l World 0 cinit F) as (s & R & E1 & E2 & E3 & _ & E4).
  { split; [reflexivity|]. split; [reflexivity|]. split; [reflexivity|]. split; [apply cinit_inv|]. reflexivity. }
  exists s. split; [exact R|]. split; [exact E1|]. split; [exact E2|]. split; [exact E3|].
  cbn [plus] in E4. destruct (group_after World 0 l); exact E4.
Qed.
Print Assumptions C35_group_restored_partial.

(** Inside a global phase the world communicator is current. *)
Theorem C35_global_is_world : forall sz rank l s, crun sz rank l cinit = Val s ->
  exists s', crun sz rank [BeginGlobal] s = Val s' /\ mpb_comm s' = World /\
    exists s'', crun sz rank [EndGlobal] s' = Val s'' /\ mpb_comm s'' = mpb_comm s.
Proof. intros. eexists. split; [reflexivity|]. split; [reflexivity|]. eexists. split; reflexivity. Qed.
Print Assumptions C35_global_is_world.

(** Nested global phases lose the group's communicator: it is neither current nor freed. *)
Theorem C35_nested_refuted : exists s, crun 4 0 [Divide 2; BeginGlobal; BeginGlobal; EndGlobal; EndGlobal] cinit = Val s /\
  mpb_comm s = World /\ freed s = [] /\ created s = 1%nat.
Proof. eexists. split; [reflexivity|]. repeat split. Qed.
Print Assumptions C35_nested_refuted.

(** Dividing inside a global phase: the new group is lost when the phase ends. *)
Theorem C35_divide_in_global_refuted : exists s, crun 4 0 [BeginGlobal; Divide 2; EndGlobal] cinit = Val s /\
  mpb_comm s = World /\ freed s = [] /\ created s = 1%nat.
Proof. eexists. split; [reflexivity|]. repeat split. Qed.
Print Assumptions C35_divide_in_global_refuted.

Example C35_example : flat 4 [Divide 2; BeginGlobal; EndGlobal; Divide 3; EndDivide; Divide 4] /\
  exists s, crun 4 1 [Divide 2; BeginGlobal; EndGlobal; Divide 3; EndDivide; Divide 4] cinit = Val s /\
    mpb_comm s = Grp 2 /\ freed s = [Grp 0; Grp 1].
Proof. split; [repeat (constructor; try lia)|]. eexists. split; [reflexivity|]. split; reflexivity. Qed.

(* ------------------------------------------------------------------ *)
(** * C36 *)

(** Counters of live blocks and bytes, whatever happened before. *)
Theorem C36_counters : forall g l m, memrun l (meminit g) = Val m ->
  cnt m = Z.of_nat (length (history fill l)) /\ total m = total_size (history fill l).
Proof. intros g l m R. destruct (history_inv g l m R) as (_ & _ & _ & A & B & _). auto. Qed.
Print Assumptions C36_counters.

(** Freeing a live block succeeds if every byte of the padding holds its original value,
    and is reported if any byte of it does not.  In particular a block written only
    within its bounds is never reported. *)
Theorem C36_free_live : forall g l m a n f, memrun l (meminit g) = Val m -> In (a, (n, f)) (history fill l) ->
  ((exists m', debug_free a m = Val m') <-> (forall i, n <= i < 2 * n -> f i = fill i)) /\
  (debug_free a m = Abort <-> exists i, n <= i < 2 * n /\ f i <> fill i).
Proof. exact free_iff. Qed.
Print Assumptions C36_free_live.

(** Freeing twice is reported, as long as the address has not been handed out again or
    overwritten by the system. *)
Theorem C36_double_free_partial : forall g l1 l2 m1 m2 m3 a,
  memrun l1 (meminit g) = Val m1 -> debug_free a m1 = Val m2 -> memrun l2 m2 = Val m3 ->
  (forall o, In o l2 -> match o with OMalloc _ a' => a' <> a | OGarbage a' _ => a' <> a | _ => True end) ->
  debug_free a m3 = Abort.
Proof.
  intros g l1 l2 m1 m2 m3 a R1 F R2 H. apply (double_free g l1 l2 m1 m2 m3 a R1 F R2).
  intros o Ho T. specialize (H o Ho). destruct o; cbn in T; try contradiction; auto.
Qed.
Print Assumptions C36_double_free_partial.

(** Freeing an address that is not live never succeeds; it is reported unless the memory
    there happens to hold the magic number. *)
Theorem C36_bad_pointer_partial : forall g l m a, memrun l (meminit g) = Val m ->
  (forall n f, ~ In (a, (n, f)) (history fill l)) ->
  (b_magic (blk m a) <> MAGIC -> debug_free a m = Abort) /\ forall m', debug_free a m <> Val m'.
Proof.
  intros g l m a R H. assert (Ha : ~ In a (map fst (history fill l))).
  { intros X. apply in_map_iff in X. destruct X as ([a' [n f]] & E & X). cbn in E. subst. exact (H n f X). }
  destruct (free_dead _ m a (history_inv g l m R) Ha) as [E|(E & E1 & E2)]; rewrite E; split; congruence.
Qed.
Print Assumptions C36_bad_pointer_partial.

(** The exceptions are real: a stale pointer to an address that was handed out again is
    freed without a report, and so is memory that happens to look like a block. *)
Theorem C36_undetected_refuted :
  (forall g, exists m, memrun [OMalloc 4 16; OFree 16; OMalloc 4 16; OFree 16] (meminit g) = Val m) /\
  (exists g a, a <> 0 /\ memrun [OFree a] (meminit g) = UB).
Proof.
  split.
  - intros g. eexists. vm_compute. reflexivity.
  - exists (fun _ => {| b_size := 0; b_magic := MAGIC; b_data := [] |}), 16. split; [lia|]. vm_compute. reflexivity.
Qed.
Print Assumptions C36_undetected_refuted.

(** The leak check at the end reports exactly when blocks are left. *)
Theorem C36_leaks : forall g l m, memrun l (meminit g) = Val m ->
  (debug_check_memory_leaks m = Val tt <-> history fill l = []) /\
  (debug_check_memory_leaks m = Abort <-> history fill l <> []).
Proof. exact leak_iff. Qed.
Print Assumptions C36_leaks.

Example C36_example : forall g, exists m, memrun [OMalloc 3 16; OStore 16 2 7; OMalloc 2 40; OStore 40 2 0] (meminit g) = Val m /\
  (exists m', debug_free 16 m = Val m') /\ debug_free 40 m = Abort /\ cnt m = 2 /\ total m = 5.
Proof. intros g. eexists. split; [vm_compute; reflexivity|]. split; [eexists; vm_compute; reflexivity|]. repeat split. Qed.
