(** Properties C26-C29: functions of the Scheme front end. *)
From Coq Require Import Reals Lra Lia List Bool ZArith Znumtheory Sorted.
From Verif Require Import Base RC M_Scheme S_Scheme L_Scheme L_Scheme2 L_Scheme3.
Import ListNotations.
Local Open Scope R_scope.

(* ------------------------------------------------------------------ C26 *)

(** After a run, the entry of band b holds the minimum and maximum of the frequencies
    computed for band b, with k points at which they are attained.  Frequencies are
    below the front end's "infinity", 1e20. *)
Theorem C26_run_ranges : forall K (solve : K -> list R) kps num idx nb st st',
  (0 < nb)%Z -> run_parity solve kps num idx nb st = Val st' ->
  let ks := snd (list_split kps num idx) in
  (forall k f, In k ks -> In f (solve k) -> Rabs f < infinity) ->
  forall b, match nth_error (st_brd st') b with
            | Some br => is_range (band_vals b (map (fun k => (k, solve k)) ks)) br
            | None => band_vals b (map (fun k => (k, solve k)) ks) = []
            end.
Proof. intros K solve kps num idx nb st st'. exact (run_ranges solve kps num idx nb st st'). Qed.
Print Assumptions C26_run_ranges.

(** The gaps reported after a run over at least two k points are exactly the gaps
    between consecutive bands, in band order and once each. *)
Theorem C26_run_gaps : forall K (solve : K -> list R) kps num idx nb st st',
  (0 < nb)%Z -> run_parity solve kps num idx nb st = Val st' ->
  (1 < length (snd (list_split kps num idx)))%nat ->
  (exists is, StronglySorted lt is /\ Forall2 (gap_between (st_brd st')) is (st_gaps st')) /\
  forall g, In g (st_gaps st') <-> exists i, gap_between (st_brd st') i g.
Proof. intros K solve kps num idx nb st st'. exact (run_gaps solve kps num idx nb st st'). Qed.
Print Assumptions C26_run_gaps.

(** all-freqs lists the frequencies of the k points of this chunk, in their order; a
    run over at most one k point reports no gaps. *)
Theorem C26_all_freqs : forall K (solve : K -> list R) kps num idx nb st st',
  (0 < nb)%Z -> run_parity solve kps num idx nb st = Val st' ->
  st_freqs st' = map solve (snd (list_split kps num idx)) /\
  ((length (snd (list_split kps num idx)) <= 1)%nat -> st_gaps st' = []).
Proof. exact run_freqs. Qed.
Print Assumptions C26_all_freqs.

(** With nonnegative frequencies a run always completes. *)
Theorem C26_run_total : forall K (solve : K -> list R) kps num idx nb st,
  (forall k f, In k (snd (list_split kps num idx)) -> In f (solve k) -> 0 <= f < infinity) ->
  exists st', run_parity solve kps num idx nb st = Val st'.
Proof. intros K solve kps num idx nb st. exact (run_total solve kps num idx nb st). Qed.
Print Assumptions C26_run_total.

(** retrieve-gap returns the gap size above band lb, and refuses other arguments. *)
Theorem C26_retrieve_gap : forall K (brd : list (@brange K)) lb b1 b2, (1 <= lb)%Z ->
  nth_error brd (Z.to_nat (lb - 1)) = Some b1 -> nth_error brd (Z.to_nat lb) = Some b2 ->
  fst (snd b1) + fst (fst b2) <> 0 ->
  retrieve_gap brd lb = Val (100 * ((fst (fst b2) - fst (snd b1)) / ((fst (fst b2) + fst (snd b1)) / 2))).
Proof. intros K. exact (@retrieve_gap_spec K). Qed.
Print Assumptions C26_retrieve_gap.
Theorem C26_retrieve_gap_refuses : forall K (brd : list (@brange K)) lb,
  (lb < 1 \/ Z.of_nat (length brd) < lb + 1)%Z -> retrieve_gap brd lb = Abort.
Proof. intros K. exact (@retrieve_gap_refuses K). Qed.
Print Assumptions C26_retrieve_gap_refuses.

(** "After any run" fails for num-bands = 0: gap-list keeps the gaps of an earlier run
    although band-range-data was emptied. *)
Theorem C26_stale_gaps_refuted :
  exists (solve : nat -> list R) kps st st', run_parity solve kps 1 0 0 st = Val st' /\
    exists g, In g (st_gaps st') /\ ~ exists i, gap_between (st_brd st') i g.
Proof.
  exists (fun _ => []), [0%nat; 1%nat], (mkRun [] [(40, 2, 3)] []), (mkRun [] [(40, 2, 3)] []).
  split; [reflexivity|]. exists (40, 2, 3). split; [left; reflexivity|].
  intros (i & b1 & b2 & H & _). destruct i; discriminate.
Qed.
Print Assumptions C26_stale_gaps_refuted.

(** A run of two k points with a gap. *)
Definition ex_solve (k : nat) : list R := if Nat.eqb k 0 then [1; 3] else [2; 4].
Example C26_example : exists st', run_parity ex_solve [0%nat; 1%nat] 1 0 2 (mkRun [] [] []) = Val st'.
Proof.
  apply C26_run_total. intros k f Hk Hf. unfold ex_solve in Hf. unfold infinity.
  destruct (Nat.eqb k 0); cbn in Hf; destruct Hf as [<-|[<-|[]]]; lra.
Qed.
Example C26_example_gap : 
  gap_between [((1, Some 0%nat), (2, Some 1%nat)); ((3, Some 0%nat), (4, Some 1%nat))] 0 (40, 2, 3).
Proof. eexists _, _. split; [reflexivity|]. split; [reflexivity|]. cbn. split; [lra|]. f_equal. f_equal. lra. Qed.
Example C26_example_retrieve :
  retrieve_gap [((1, Some 0%nat), (2, Some 1%nat)); ((3, Some 0%nat), (4, Some 1%nat))] 1 = Val 40.
Proof. erewrite C26_retrieve_gap; [|lia|reflexivity|reflexivity|cbn; lra]. cbn. f_equal. lra. Qed.

(* ------------------------------------------------------------------ C27 *)

(** The chunks in index order concatenate to the whole list. *)
Theorem C27_chunks_concat : forall A (L : list A) num, (0 < num)%Z ->
  concat (map (fun i => snd (list_split L num (Z.of_nat i))) (seq 0 (Z.to_nat num))) = L.
Proof. intros A. exact (@list_split_concat A). Qed.
Print Assumptions C27_chunks_concat.

(** The reported start of a nonempty chunk is the number of items in earlier chunks. *)
Theorem C27_chunk_start : forall A (L : list A) num i, (0 <= i < num)%Z -> snd (list_split L num i) <> [] ->
  fst (list_split L num i) =
  Z.of_nat (length (concat (map (fun j => snd (list_split L num (Z.of_nat j))) (seq 0 (Z.to_nat i))))).
Proof. intros A. exact (@list_split_start A). Qed.
Print Assumptions C27_chunk_start.

(** Every chunk has ceil(n/num) items until the list is used up. *)
Theorem C27_chunk_sizes : forall A (L : list A) num i, (0 <= i < num)%Z ->
  let n := Z.of_nat (length L) in let bs := ((n + num - 1) / num)%Z in
  Z.of_nat (length (snd (list_split L num i))) = Z.max 0 (Z.min bs (n - i * bs)).
Proof. intros A. exact (@list_split_sizes A). Qed.
Print Assumptions C27_chunk_sizes.

(** An index outside 0..num-1 yields the empty chunk at the end of the list. *)
Theorem C27_chunk_out_of_range : forall A (L : list A) num i, (i < 0 \/ num <= i)%Z ->
  list_split L num i = (Z.of_nat (length L), []).
Proof. intros A. exact (@list_split_out A). Qed.
Print Assumptions C27_chunk_out_of_range.

Example C27_example : map (fun i => list_split [10;20;30;40;50;60;70]%Z 3 i) [0;1;2;3]%Z =
  [(0%Z, [10;20;30]%Z); (3%Z, [40;50;60]%Z); (6%Z, [70]%Z); (7%Z, [])].
Proof. reflexivity. Qed.

(* ------------------------------------------------------------------ C28 *)

(** For a positive size the search ends, with the least 7-smooth number not below it;
    more fuel does not change the answer. *)
Theorem C28_next_factor : forall N, (0 < N)%Z -> exists r fuel0,
  (forall fuel, (fuel0 <= fuel)%nat -> next_factor2357 fuel N = Some r) /\
  (N <= r)%Z /\ smooth7 r /\ forall m, (N <= m < r)%Z -> ~ smooth7 m.
Proof. exact next_factor_correct. Qed.
Print Assumptions C28_next_factor.

(** For a size of zero or below it never returns. *)
Theorem C28_nonpositive_diverges : forall N fuel, (N <= 0)%Z -> next_factor2357 fuel N = None.
Proof. exact next_factor_diverges. Qed.
Print Assumptions C28_nonpositive_diverges.

Example C28_example : next_factor2357 50 11 = Some 12%Z.
Proof. reflexivity. Qed.
Example C28_example' : next_factor2357 50 121 = Some 125%Z.
Proof. reflexivity. Qed.

(* ------------------------------------------------------------------ C29 *)

(** For every nondegenerate reciprocal lattice, every k and every rounding, the
    reduction ends with an equivalent vector, no longer than k and not improvable by
    any trial translation. *)
Theorem C29_reduction : forall B rnd k, independent B ->
  exists fuel0, forall fuel, (fuel0 <= fuel)%nat ->
    exists k', first_brillouin_zone B rnd fuel k = Some k' /\
      equivalent k k' /\ bz_n B k' <= bz_n B k /\ unimprovable B trylist k'.
Proof. exact fbz_ok. Qed.
Print Assumptions C29_reduction.

(** The result need not be in the first Brillouin zone: for the skewed lattice
    b1=(1,0,0), b2=(2.2,0.1,0), b3=(0,0,1) the vector k=(-1.16,0.6,0) is returned
    unchanged, but adding (2,-1,0) shortens it. *)
Theorem C29_first_bz_refuted : exists B rnd k, independent B /\
  (forall fuel, first_brillouin_zone B rnd (S fuel) k = Some k) /\ ~ in_first_bz B k.
Proof.
  (* rounding to nearest on the three coordinates *)
  exists skew, (fun x => if Rltb x 0 then (-1)%Z else if Rltb x (1/2) then 0%Z else 1%Z), kskew.
  split; [|split; [|exact skew_not_bz]].
  - unfold independent, volume, skew. lra.
  - intros f. apply fbz_stay; [exact skew_unimprovable|]. unfold kskew.
    destruct (Rltb_spec (-116/100) 0); [|lra]. destruct (Rltb_spec (6/10) 0); [lra|].
    destruct (Rltb_spec (6/10) (1/2)); [lra|]. destruct (Rltb_spec 0 0); [lra|].
    destruct (Rltb_spec 0 (1/2)); [|lra].
    apply norm_le. unfold skew, recip2cart, v3sub. lra.
Qed.
Print Assumptions C29_first_bz_refuted.

Example C29_example : independent ((1,0,0), (1/2, 866/1000, 0), (0,0,1)).
Proof. unfold independent, volume. lra. Qed.
