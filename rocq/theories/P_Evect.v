(** Properties C15, C16, C17, C18, C20, C50, C57: band matrices, solver blocks, deflation. *)
From Coq Require Import List ZArith Reals Bool Lia Lra.
From Verif Require Import Base RC M_Evect S_Evect L_Evect L_Evect2 L_Evect3.
Import ListNotations.
Local Open Scope Z_scope.

(* ------------------------------------------------------------------ *)
(** * C15: resizing *)

(** Every band kept by the resize has its values kept, in every row, and the new shape is
    right; the allocation is unchanged. *)
Theorem C15_resize : forall A (X : emat A) p, wf X -> 0 <= p <= ealloc X ->
  exists X', evectmatrix_resize X p true = Val X' /\ wf X' /\ en X' = en X /\ ep X' = p /\ ealloc X' = ealloc X /\
    (forall i j, 0 <= i < en X -> 0 <= j < p -> j < ep X -> ent X' i j = ent X i j).
Proof. exact (fun A => @resize_ok A). Qed.
Print Assumptions C15_resize.

Theorem C15_resize_square : forall A (X : smat A) p, wfs X -> 0 <= p <= salloc X ->
  exists X', sqmatrix_resize X p true = Val X' /\ wfs X' /\ sp X' = p /\ salloc X' = salloc X /\
    (forall i j, 0 <= i < p -> i < sp X -> 0 <= j < p -> j < sp X -> sent X' i j = sent X i j).
Proof. exact (fun A => @sresize_ok A). Qed.
Print Assumptions C15_resize_square.

(** Growing beyond the allocation is refused. *)
Theorem C15_refused : forall A (X : emat A) (Y : smat A) p b,
  (ealloc X < p -> evectmatrix_resize X p b = Abort) /\ (salloc Y < p -> sqmatrix_resize Y p b = Abort).
Proof. intros A X Y p b. exact (conj (resize_refused X p b) (sresize_refused Y p b)). Qed.
Print Assumptions C15_refused.

Definition ex_mat : emat Z := {| en := 3; ep := 2; ealloc := 4; edata := [10; 11; 20; 21; 30; 31; 0; 0; 0; 0; 0; 0] |}.
Example C15_example : wf ex_mat /\
  match evectmatrix_resize ex_mat 4 true with Val X => ent X 2 1 = Val 31 /\ ent X 1 0 = Val 20 | _ => False end /\
  match evectmatrix_resize ex_mat 1 true with Val X => ent X 2 0 = Val 30 | _ => False end /\
  evectmatrix_resize ex_mat 5 true = Abort.
Proof. split; [split; [|split]; cbn; lia|]. repeat split. Qed.

(* ------------------------------------------------------------------ *)
(** * C16: slices *)

Theorem C16_copy_slice : forall A (X Y : emat A) ix iy p, wf X -> wf Y -> en X = en Y ->
  0 <= ix -> 0 <= iy -> ix + p <= ep X -> iy + p <= ep Y ->
  exists X', evectmatrix_copy_slice X Y ix iy p = Val X' /\ wf X' /\
    en X' = en X /\ ep X' = ep X /\ ealloc X' = ealloc X /\
    (forall i j, 0 <= i < en X -> 0 <= j < p -> ent X' i (ix + j) = ent Y i (iy + j)) /\
    (forall i j, 0 <= i < en X -> 0 <= j < ep X -> ~ (ix <= j < ix + p) -> ent X' i j = ent X i j).
Proof. exact (fun A => @copy_slice_ok A). Qed.
Print Assumptions C16_copy_slice.

Theorem C16_refused : forall A (X Y : emat A) ix iy p,
  ~ (0 <= ix /\ 0 <= iy /\ ix + p <= ep X /\ iy + p <= ep Y /\ en X = en Y) -> evectmatrix_copy_slice X Y ix iy p = Abort.
Proof. exact (fun A => @copy_slice_refused A). Qed.
Print Assumptions C16_refused.

Definition ex_mat2 : emat Z := {| en := 3; ep := 3; ealloc := 3; edata := [1; 2; 3; 4; 5; 6; 7; 8; 9] |}.
Example C16_example : wf ex_mat2 /\
  match evectmatrix_copy_slice ex_mat2 ex_mat 1 0 2 with Val X => edata X = [1; 10; 11; 4; 20; 21; 7; 30; 31] | _ => False end /\
  match evectmatrix_copy_slice ex_mat2 ex_mat 2 1 1 with Val X => edata X = [1; 2; 11; 4; 5; 21; 7; 8; 31] | _ => False end /\
  evectmatrix_copy_slice ex_mat2 ex_mat 2 0 2 = Abort.
Proof. split; [split; [|split]; cbn; lia|]. repeat split. Qed.

(* ------------------------------------------------------------------ *)
(** * C17: blocks *)

(** The block size is between 1 and the number of bands; a positive setting below the
    number of bands is taken as it is, a negative one is an upper bound on its size. *)
Theorem C17_block_size : forall num_bands setting, 0 < num_bands ->
  exists B, block_size num_bands setting = Val B /\ 1 <= B <= num_bands /\
    (setting < 0 -> B <= - setting) /\ (0 < setting < num_bands -> B = setting) /\ (setting = 0 \/ num_bands <= setting -> B = num_bands).
Proof. exact block_size_ok. Qed.
Print Assumptions C17_block_size.

(** With that block size, the solver's loop finishes, and listing the bands of its blocks
    in turn gives exactly the bands ib0, ..., num_bands - 1, each once and in order; every
    block is nonempty and fits in the allocated block. *)
Theorem C17_blocks_cover : forall num_bands setting ib0, 0 < num_bands -> 0 <= ib0 <= num_bands ->
  exists B l, block_size num_bands setting = Val B /\
    solver_blocks (Z.to_nat num_bands) ib0 B num_bands B = Some l /\
    flat_map (fun b => bands (fst b) (snd b)) l = bands ib0 (num_bands - ib0) /\
    Forall (fun b => 1 <= snd b <= B) l.
Proof.
  intros nb s ib0 Hnb Hib. destruct (block_size_ok nb s Hnb) as (B & EB & HB & _).
  destruct (solver_blocks_ok (Z.to_nat nb) ib0 nb B ltac:(lia) ltac:(lia) ltac:(lia)) as (l & El & Fl & Al).
  exists B, l. split; [exact EB|]. split; [exact El|]. split; [exact Fl|]. eapply Forall_impl; [|exact Al]. cbn. tauto.
Qed.
Print Assumptions C17_blocks_cover.

Example C17_example : block_size 10 (-4) = Val 4 /\ solver_blocks 10 2 4 10 4 = Some [(2, 4); (6, 4)] /\
  solver_blocks 10 0 4 10 4 = Some [(0, 4); (4, 4); (8, 2)] /\ bands 2 8 = [2; 3; 4; 5; 6; 7; 8; 9].
Proof. repeat split. Qed.

(** With no bands at all and a negative setting (the default is -11) the block size is
    computed by dividing by zero. *)
Theorem C17_no_bands_refuted : exists num_bands setting, 0 <= num_bands /\ setting = -11 /\ block_size num_bands setting = UB.
Proof. exists 0, (-11). split; [lia|]. split; [reflexivity|]. apply block_size_zero. lia. Qed.
Print Assumptions C17_no_bands_refuted.

(* ------------------------------------------------------------------ *)
(** * C18: k = 0 *)

(** For every solver, shape, band count, block size and parity: the blocks solved are
    bands ib0, ..., num-1 in order (ib0 = 0 unless at k = 0); each block's starting fields
    are the previous values of its own bands; afterwards each of its bands holds the
    solver's result; the first ib0 bands are the constant states (a single 1, on the
    process holding plane wave 0) and the shape is restored. *)
Theorem C18_zero_k : forall A (solver : Z -> Z -> list A -> emat A -> list A),
  (forall ib q inp H, length (solver ib q inp H) = length inp) ->
  forall (zero one : A) fuel (zero_k : bool) parity Nstart num same H Hblock,
  wf H -> ep H = num -> ealloc H = num -> wf Hblock -> en Hblock = en H -> 1 <= ealloc Hblock <= num -> (same = true -> ealloc Hblock = num) ->
  (zero_k = true -> Nstart <= 0 -> 2 <= en H) -> num < Z.of_nat fuel ->
  let ib0 := if zero_k then const_count parity num else 0 in
  exists H' log, solve_fields solver zero one fuel zero_k parity Nstart num same H Hblock = Val (H', log) /\
    wf H' /\ en H' = en H /\ ep H' = num /\ ealloc H' = num /\
    flat_map (fun r => bands (s_ib r) (s_p r)) log = bands ib0 (num - ib0) /\
    (forall r, In r log -> forall i j, 0 <= i < en H -> 0 <= j < s_p r ->
       rd (s_in r) (i * s_p r + j) = ent H i (s_ib r + j) /\
       ent H' i (s_ib r + j) = rd (s_out r) (i * s_p r + j)) /\
    (forall i j, 0 <= i < en H -> 0 <= j < ib0 ->
       ent H' i j = Val (if (Nstart <=? 0) && (i =? const_row parity j) then one else zero)).
Proof. exact (fun A => @solve_fields_ok A). Qed.
Print Assumptions C18_zero_k.

(** Four bands, two plane waves, blocks of at most 1 band, no parity: bands 1 and 2 become
    the constant states, bands 3 and 4 are solved one by one (here the solver negates). *)
Example C18_example :
  match solve_fields (fun _ _ inp _ => map Z.opp inp) 0 1 10 true 0 0 4 false
     {| en := 4; ep := 4; ealloc := 4; edata := [1;2;3;4; 5;6;7;8; 9;10;11;12; 13;14;15;16] |}
     {| en := 4; ep := 1; ealloc := 1; edata := [0; 0; 0; 0] |} with
  | Val (H, log) => edata H = [1;0;-3;-4; 0;1;-7;-8; 0;0;-11;-12; 0;0;-15;-16] /\ map s_ib log = [2; 3]
  | _ => False
  end.
Proof. vm_compute. split; reflexivity. Qed.

(* ------------------------------------------------------------------ *)
(** * C20: deflation *)

(** After the constraint every column is B-orthogonal to every computed band. *)
Theorem C20_orthogonal : forall p px parts S2, 1 <= p -> 0 <= px -> Forall (share_ok p px) parts -> px * p <= Z.of_nat (length S2) ->
  orthonormal p parts ->
  exists Xs, deflation_constraint p parts S2 = Val Xs /\
    forall l j, 0 <= l < p -> 0 <= j < px -> dot (map (fun q => (snd (fst q), snd q)) (combine parts Xs)) l j = C0.
Proof. exact deflation_orthogonal. Qed.
Print Assumptions C20_orthogonal.

(** Fields already B-orthogonal to the computed bands are unchanged. *)
Theorem C20_unchanged : forall p px parts S2, 1 <= p -> 0 <= px -> Forall (share_ok p px) parts -> px * p <= Z.of_nat (length S2) ->
  (forall l j, 0 <= l < p -> 0 <= j < px -> dot (byx parts) l j = C0) ->
  exists Xs, deflation_constraint p parts S2 = Val Xs /\
    Forall2 (fun t X' => en X' = en (fst (fst t)) /\ ep X' = px /\
      forall i j, 0 <= i < en X' -> 0 <= j < px -> entC X' i j = entC (fst (fst t)) i j) parts Xs.
Proof. exact deflation_unchanged. Qed.
Print Assumptions C20_unchanged.

(** Applying it again changes nothing. *)
Theorem C20_idempotent : forall p px parts S2, 1 <= p -> 0 <= px -> Forall (share_ok p px) parts -> px * p <= Z.of_nat (length S2) ->
  orthonormal p parts ->
  exists Xs Xs', deflation_constraint p parts S2 = Val Xs /\
    deflation_constraint p (map (fun q => (snd q, snd (fst (fst q)), snd (fst q))) (combine parts Xs)) S2 = Val Xs' /\
    Forall2 (fun X X' => en X' = en X /\ ep X' = ep X /\ forall i j, 0 <= i < en X -> 0 <= j < px -> entC X' i j = entC X i j) Xs Xs'.
Proof. exact deflation_idempotent. Qed.
Print Assumptions C20_idempotent.

(** Two processes with one row each; the computed band is (1, 0), the field (3, 4). *)
Definition ex_col (z : C) : emat C := {| en := 1; ep := 1; ealloc := 1; edata := [z] |}.
Definition ex_parts : list (emat C * emat C * emat C) :=
  [(ex_col (RtoC 3), ex_col C1, ex_col C1); (ex_col (RtoC 4), ex_col C0, ex_col C0)].
Example C20_example : Forall (share_ok 1 1) ex_parts /\ orthonormal 1 ex_parts /\ 1 * 1 <= Z.of_nat (length [C0]) /\ dot (byx ex_parts) 0 0 = RtoC 3.
Proof.
  split.
  - assert (W : forall z, wf (ex_col z)) by (intros; split; [|split]; cbn; lia).
    repeat constructor; cbn; auto; lia.
  - split; [|split; [cbn; lia|]].
    + intros l l' Hl Hl'. replace l with 0 by lia. replace l' with 0 by lia. unfold dot, dotl, entC, gets. cbn. change (Pos.to_nat 1) with 1%nat. cbn. clear. cring.
    + unfold dot, dotl, entC, gets. cbn. change (Pos.to_nat 1) with 1%nat. cbn. clear. cring.
Qed.

(** Why mpb.c only installs the constraint when there are computed bands (line 697): with
    none it would erase the fields, because gemm with inner dimension 0 zeroes its output
    whatever the multiplier of the output. *)
Theorem C20_guard_needed : forall X Y S, wf X -> 0 <= ep Y ->
  exists X', deflate_local 0 X Y S = Val X' /\ forall i j, 0 <= i < en X -> 0 <= j < ep X -> entC X' i j = C0.
Proof.
  intros X Y S W HY. pose proof W as (W1 & W2 & W3). unfold deflate_local, check. destruct (Z.leb_spec 0 (ep Y)); [|lia]. cbn [bind].
  destruct (gemm_ok false true (en X) (ep X) 0 (-1) (edata Y) 0 (ep Y) S 0 0 1 (edata X) 0 (ep X)) as (d & Ed & L & Q & _); try lia.
  - intros i j Hi Hj. rewrite W3. pose proof (rowin (en X) (ealloc X) (ep X) i j). lia.
  - rewrite Ed. cbn [bind]. eexists. split; [reflexivity|]. intros i j Hi Hj. unfold entC. cbn [set_data edata ep].
    replace (i * ep X + j) with (0 + i * ep X + j) by lia. rewrite Q by auto. reflexivity.
Qed.
Print Assumptions C20_guard_needed.

(* ------------------------------------------------------------------ *)
(** * C50: linear combinations *)

(** For two different matrices the update is the linear combination.  Missing from the
    full statement: X and Y the same matrix, where it is false (below). *)
Theorem C50_linear_partial : forall a X b Y, wf X -> wf Y -> en X = en Y -> ep X = ep Y ->
  exists X', evectmatrix_aXpbY a X b Y = Val X' /\ wf X' /\ en X' = en X /\ ep X' = ep X /\ ealloc X' = ealloc X /\
    forall i j, 0 <= i < en X -> 0 <= j < ep X -> entC X' i j = (Cscal a (entC X i j) + Cscal b (entC Y i j))%C.
Proof. exact aXpbY_ok. Qed.
Print Assumptions C50_linear_partial.

(** What the code computes when both are the same matrix. *)
Theorem C50_aliased : forall a X b, wf X ->
  exists X', evectmatrix_aXpbX a X b = Val X' /\ wf X' /\ en X' = en X /\ ep X' = ep X /\ ealloc X' = ealloc X /\
    forall i j, 0 <= i < en X -> 0 <= j < ep X -> entC X' i j = Cscal (a * (1 + b)) (entC X i j).
Proof. exact aXpbX_ok. Qed.
Print Assumptions C50_aliased.

(** The comment says X and Y may be equal; 2 X + 1 X then gives 4 X. *)
Theorem C50_aliased_refuted : exists a b X X', wf X /\ evectmatrix_aXpbX a X b = Val X' /\
  entC X' 0 0 <> (Cscal a (entC X 0 0) + Cscal b (entC X 0 0))%C.
Proof.
  exists 2%R, 1%R, (ex_col C1). assert (W : wf (ex_col C1)) by (split; [|split]; cbn; lia).
  destruct (aXpbX_ok 2 (ex_col C1) 1 W) as (X' & E & _ & _ & _ & _ & Q). exists X'. split; [exact W|]. split; [exact E|].
  rewrite Q by (cbn; lia). unfold entC, gets. cbn. unfold C1, Cscal, Cadd, re, im. cbn. intros H. apply (f_equal fst) in H. cbn in H. lra.
Qed.
Print Assumptions C50_aliased_refuted.

Example C50_example : wf (ex_col C1) /\ wf (ex_col Ci) /\ en (ex_col C1) = en (ex_col Ci).
Proof. repeat split; cbn; lia. Qed.

(* ------------------------------------------------------------------ *)
(** * C57: slice products *)

(** On one process, if the destination columns fit (iu + q <= p) the products of the
    selected columns land exactly in columns iu, ..., iu+q-1 of U.  Missing from the full
    statement: requests that do not fit are refused, which is false (below). *)
Theorem C57_slice_product_partial : forall U X Y ix iy p q iu S1 S2, wfs U -> wf X -> wf Y -> wfs S1 -> wfs S2 ->
  en X = en Y -> 0 <= ix -> 0 <= iy -> 0 <= q <= p -> ix + p <= ep X -> iy + q <= ep Y -> p = sp U -> p <= salloc S1 -> p <= salloc S2 ->
  0 <= iu -> iu + q <= p ->
  exists U', XtY_slice2 U X Y ix iy p q iu S1 S2 = Val U' /\ wfs U' /\ sp U' = sp U /\
    (forall i j, 0 <= i < p -> 0 <= j < q -> sent U' i (iu + j) = Val (dotl X Y (ix + i) (iy + j))) /\
    (forall i j, 0 <= i < p -> 0 <= j < p -> ~ (iu <= j < iu + q) -> sent U' i j = sent U i j).
Proof. exact slice2_ok. Qed.
Print Assumptions C57_slice_product_partial.

(** The checks do not involve iu: a 1 x 1 result at column 1 is written past the end. *)
Theorem C57_offset_unchecked_refuted : exists U X Y iu S1 S2, wfs U /\ wf X /\ wf Y /\ wfs S1 /\ wfs S2 /\
  XtY_slice2 U X Y 0 0 1 1 iu S1 S2 = UB.
Proof.
  exists {| sp := 1; salloc := 1; sdata := [C0] |}, (ex_col C1), (ex_col C1), 1, {| sp := 1; salloc := 1; sdata := [C0] |}, {| sp := 1; salloc := 1; sdata := [C0] |}.
  repeat split; try (cbn; lia).
Qed.
Print Assumptions C57_offset_unchecked_refuted.

Example C57_example : wfs {| sp := 1; salloc := 1; sdata := [C0] |} /\ wf (ex_col C1) /\ 0 + 1 <= 1.
Proof. repeat split; cbn; lia. Qed.
