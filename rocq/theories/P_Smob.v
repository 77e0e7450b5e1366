(** Property C99: matrix and eigenvector objects in scripts. *)
From Coq Require Import List ZArith Reals Bool Arith Lia Lra.
From Verif Require Import Base RC M_Tensor M_Evect M_Grid M_Op M_Gv M_Pha M_Lin M_Eig M_Ovl M_Smob S_Evect S_Eig L_Evect L_Mat L_Smob P_Evect.
Import ListNotations.
Local Open Scope Z_scope.
Add Ring Cring_psmob : C_ring_theory.

(** sqmatrix-ref gives the entries, numbered from zero, and refuses other numbers; sqmatrix-set
    changes one entry and leaves the others. *)
Theorem C99_ref_set : forall p A M c, square p A M ->
  (forall i j, (i < p)%nat -> (j < p)%nat -> sqmatrix_ref A (Z.of_nat i) (Z.of_nat j) = Val (M i j) /\
    exists A', sqmatrix_set A (Z.of_nat i) (Z.of_nat j) c = Val A' /\ sqmatrix_ref A' (Z.of_nat i) (Z.of_nat j) = Val c /\
    forall k l, (k < p)%nat -> (l < p)%nat -> (k <> i \/ l <> j) -> sqmatrix_ref A' (Z.of_nat k) (Z.of_nat l) = Val (M k l)) /\
  forall i j, ~ (0 <= i < Z.of_nat p /\ 0 <= j < Z.of_nat p) -> sqmatrix_ref A i j = Abort /\ sqmatrix_set A i j c = Abort.
Proof.
  intros p A M c H. split.
  - intros i j Hi Hj. split; [apply (ref_ok p A M); assumption|]. destruct (set_ok p A M i j c H Hi Hj) as (A' & E & H'). exists A'. split; [exact E|]. split.
    + rewrite (ref_ok p A' _ i j H' Hi Hj), !Nat.eqb_refl. reflexivity.
    + intros k l Hk Hl N. rewrite (ref_ok p A' _ k l H' Hk Hl). destruct (Nat.eqb_spec k i), (Nat.eqb_spec l j); try reflexivity. exfalso. destruct N; auto.
  - intros i j N. unfold sqmatrix_ref, sqmatrix_set. rewrite (proj1 H). replace ((0 <=? i) && (0 <=? j) && (i <? Z.of_nat p) && (j <? Z.of_nat p)) with false by lia. split; reflexivity.
Qed.
Print Assumptions C99_ref_set.

(** sqmatrix-mult is the product of the matrices in the order given, whatever the new memory had;
    matrices of different sizes are refused. *)
Theorem C99_mult : forall junk p A B MA MB, square p A MA -> square p B MB ->
  (exists D, sqmatrix_mult junk A B = Val D /\ square p D (mmul p MA MB)) /\ forall q B' M', square q B' M' -> q <> p -> sqmatrix_mult junk A B' = Abort.
Proof.
  intros junk p A B MA MB HA HB. split; [apply mult_ok; assumption|]. intros q B' M' HB' N. unfold sqmatrix_mult, check. rewrite (proj1 HA), (proj1 HB').
  destruct (Z.eqb_spec (Z.of_nat p) (Z.of_nat q)); [lia|reflexivity].
Qed.
Print Assumptions C99_mult.

(** Products may be grouped as one likes. *)
Theorem C99_assoc : forall junk p A B D MA MB MD, square p A MA -> square p B MB -> square p D MD ->
  exists AB BD X Y, sqmatrix_mult junk A B = Val AB /\ sqmatrix_mult junk B D = Val BD /\ sqmatrix_mult junk AB D = Val X /\ sqmatrix_mult junk A BD = Val Y /\
  forall i j, (i < p)%nat -> (j < p)%nat -> exists c, sqmatrix_ref X (Z.of_nat i) (Z.of_nat j) = Val c /\ sqmatrix_ref Y (Z.of_nat i) (Z.of_nat j) = Val c.
Proof.
  intros junk p A B D MA MB MD HA HB HD. destruct (mult_ok junk p A B MA MB HA HB) as (AB & E1 & H1). destruct (mult_ok junk p B D MB MD HB HD) as (BD & E2 & H2).
  destruct (mult_ok junk p AB D _ _ H1 HD) as (X & E3 & H3). destruct (mult_ok junk p A BD _ _ HA H2) as (Y & E4 & H4). rewrite mmul_assoc in H3.
  exists AB, BD, X, Y. do 4 (split; [assumption|]). intros i j Hi Hj. exists (mmul p MA (mmul p MB MD) i j). split; eapply ref_ok; eassumption.
Qed.
Print Assumptions C99_assoc.

(** sqmatrix-diagm has the numbers on its diagonal and zero elsewhere; multiplying with it from the
    left scales the rows, from the right the columns. *)
Theorem C99_diagm : forall junk d, exists D, sqmatrix_diagm junk d = Val D /\ sp D = Z.of_nat (length d) /\
  (forall i j, (i < length d)%nat -> (j < length d)%nat -> sqmatrix_ref D (Z.of_nat i) (Z.of_nat j) = Val (if (i =? j)%nat then nth i d C0 else C0)) /\
  forall A M, square (length d) A M -> exists X Y, sqmatrix_mult junk D A = Val X /\ sqmatrix_mult junk A D = Val Y /\
  forall i j, (i < length d)%nat -> (j < length d)%nat ->
    sqmatrix_ref X (Z.of_nat i) (Z.of_nat j) = Val (nth i d C0 * M i j)%C /\ sqmatrix_ref Y (Z.of_nat i) (Z.of_nat j) = Val (M i j * nth j d C0)%C.
Proof.
  intros junk d. destruct (diagm_ok junk d) as (D & E & H). exists D. split; [exact E|]. split; [apply H|]. split; [intros i j Hi Hj; apply (ref_ok _ D _ i j H Hi Hj)|].
  intros A M HA. destruct (mult_ok junk _ D A _ _ H HA) as (X & EX & HX). destruct (mult_ok junk _ A D _ _ HA H) as (Y & EY & HY). exists X, Y. split; [exact EX|]. split; [exact EY|].
  intros i j Hi Hj. rewrite (ref_ok _ X _ i j HX Hi Hj), (ref_ok _ Y _ i j HY Hi Hj). unfold mmul, diag_of. split; f_equal.
  - rewrite (csum_single (length d) i); [rewrite Nat.eqb_refl; reflexivity|exact Hi|]. intros k Hk Nk. destruct (Nat.eqb_spec i k); [congruence|]. ring.
  - rewrite (csum_single (length d) j); [rewrite Nat.eqb_refl; reflexivity|exact Hj|]. intros k Hk Nk. destruct (Nat.eqb_spec k j); [congruence|]. ring.
Qed.
Print Assumptions C99_diagm.

(** get-eigenvectors copies the bands asked for (numbered from one), and refuses bands that do not
    exist, or any before init-params. *)
Theorem C99_get : forall junk H b n, wf H ->
  (1 <= b -> 0 <= n -> b - 1 + n <= ep H -> exists m, get_eigenvectors junk (Some H) b n = Val m /\ wf m /\ en m = en H /\ ep m = n /\
    forall i j, 0 <= i < en H -> 0 <= j < n -> ent m i j = ent H i (b - 1 + j)) /\
  (~ (1 <= b /\ 0 <= n /\ b - 1 + n <= ep H) -> get_eigenvectors junk (Some H) b n = Abort) /\ get_eigenvectors junk None b n = Abort.
Proof.
  intros junk H b n W. split; [|split].
  - intros Hb Hn L. unfold get_eigenvectors, evectmatrix_slice2scm. replace ((0 <=? b - 1) && (b - 1 + n <=? ep H) && (0 <=? n)) with true by lia. cbn [check bind].
    destruct (C16_copy_slice C (new_ev junk (en H) n) H 0 (b - 1) n) as (m & E & Wm & En & Ep & _ & V & _); [apply new_ev_wf; [apply W|exact Hn]|exact W|reflexivity|lia|lia|cbn; lia|exact L|].
    exists m. split; [exact E|]. split; [exact Wm|]. split; [exact En|]. split; [exact Ep|]. intros i j Hi Hj. exact (V i j Hi Hj).
  - intros N. unfold get_eigenvectors, evectmatrix_slice2scm. replace ((0 <=? b - 1) && (b - 1 + n <=? ep H) && (0 <=? n)) with false by lia. reflexivity.
  - reflexivity.
Qed.
Print Assumptions C99_get.

(** set-eigenvectors puts the bands of the object at the bands from [b] on and leaves the others; it
    refuses objects that do not fit and those with another number of plane waves. *)
Theorem C99_set_eigenvectors : forall H m b, wf H -> wf m ->
  (en m = en H -> 1 <= b -> b - 1 + ep m <= ep H -> exists H', set_eigenvectors (Some H) m b = Val H' /\ wf H' /\ en H' = en H /\ ep H' = ep H /\
    (forall i j, 0 <= i < en H -> 0 <= j < ep m -> ent H' i (b - 1 + j) = ent m i j) /\
    forall i j, 0 <= i < en H -> 0 <= j < ep H -> ~ (b - 1 <= j < b - 1 + ep m) -> ent H' i j = ent H i j) /\
  (~ (en m = en H /\ 1 <= b /\ b - 1 + ep m <= ep H) -> set_eigenvectors (Some H) m b = Abort) /\ set_eigenvectors None m b = Abort.
Proof.
  intros H m b WH Wm. split; [|split].
  - intros En Hb L. destruct (C16_copy_slice C H m (b - 1) 0 (ep m)) as (H' & E & W' & E1 & E2 & _ & V1 & V2); try assumption; try lia.
    exists H'. split; [exact E|]. split; [exact W'|]. split; [exact E1|]. split; [exact E2|]. split; [|exact V2]. intros i j Hi Hj. exact (V1 i j Hi Hj).
  - intros N. unfold set_eigenvectors. apply C16_refused. intros (A1 & A2 & A3 & A4 & A5). apply N. split; [congruence|]. lia.
  - reflexivity.
Qed.
Print Assumptions C99_set_eigenvectors.

(** Fields that were got and are set again come back, whatever happened to H in between. *)
Theorem C99_restore : forall junk H b n K, wf H -> 1 <= b -> 0 <= n -> b - 1 + n <= ep H -> wf K -> en K = en H -> ep K = ep H ->
  exists m K', get_eigenvectors junk (Some H) b n = Val m /\ set_eigenvectors (Some K) m b = Val K' /\ wf K' /\
  forall i j, 0 <= i < en H -> 0 <= j < ep H -> ent K' i j = if (b - 1 <=? j) && (j <? b - 1 + n) then ent H i j else ent K i j.
Proof.
  intros junk H b n K WH Hb Hn L WK En Ep. destruct (proj1 (C99_get junk H b n WH) Hb Hn L) as (m & E & Wm & Em & Pm & Vm).
  destruct (proj1 (C99_set_eigenvectors K m b WK Wm)) as (K' & E' & W' & _ & _ & V1 & V2); [congruence|exact Hb|lia|].
  exists m, K'. split; [exact E|]. split; [exact E'|]. split; [exact W'|]. intros i j Hi Hj.
  destruct (Z.leb_spec (b - 1) j); cbn [andb]; [destruct (Z.ltb_spec j (b - 1 + n)) as [J|J]|].
  - replace j with (b - 1 + (j - (b - 1))) at 1 by lia. rewrite V1 by lia. rewrite Vm by lia. f_equal. lia.
  - apply V2; lia.
  - apply V2; lia.
Qed.
Print Assumptions C99_restore.

(** Eigenvectors of another grid with as many points are taken as they are: of a 4 x 2 grid they
    go to a 2 x 4 grid, where the amplitudes of plane wave (1,0) are those of plane wave (0,2). *)
Definition wave (ny nz x y z : Z) (s : Z) : Z := ((x * ny + y) * nz + z) * 2 + s.
Theorem C99_other_grid_refuted : exists F m H', wf F /\ en F = en (new_fields C0 4 2 1 1) /\ ep F = 1 /\
  get_eigenvectors C0 (Some F) 1 1 = Val m /\ set_eigenvectors (Some (new_fields C0 2 4 1 1)) m 1 = Val H' /\
  (forall x y s, 0 <= x < 4 -> 0 <= y < 2 -> 0 <= s < 2 -> ent F (wave 2 1 x y 0 s) 0 = Val (if (x =? 1) && (y =? 0) && (s =? 0) then C1 else C0)) /\
  ent H' (wave 4 1 0 2 0 0) 0 = Val C1 /\ ent H' (wave 4 1 1 0 0 0) 0 = Val C0.
Proof.
  exists {| en := 16; ep := 1; ealloc := 1; edata := [C0; C0; C0; C0; C1; C0; C0; C0; C0; C0; C0; C0; C0; C0; C0; C0] |}. eexists. eexists.
  split; [split; cbn; lia|]. do 4 (split; [reflexivity|]). split; [|split; reflexivity].
  intros x y s Hx Hy Hs. assert (x = 0 \/ x = 1 \/ x = 2 \/ x = 3) as [-> | [-> | [-> | ->]]] by lia; assert (y = 0 \/ y = 1) as [-> | ->] by lia; assert (s = 0 \/ s = 1) as [-> | ->] by lia; reflexivity.
Qed.
Print Assumptions C99_other_grid_refuted.

(** Cases: a matrix of two rows; a product; two bands of three, set back; the field of a grid. *)
Definition sx_A : smat C := {| sp := 2; salloc := 2; sdata := [C1; Ci; C0; RtoC 2] |}.
Definition sx_M : mat := fun i j => nth j (nth i [[C1; Ci]; [C0; RtoC 2]] []) C0.
Definition sx_H : emat C := {| en := 2; ep := 3; ealloc := 3; edata := [C1; Ci; C0; C0; C1; Ci] |}.
Example C99_ex : square 2 sx_A sx_M /\ wf sx_H /\ 1 <= 2 /\ 2 - 1 + 2 <= ep sx_H /\ wf (new_fields Ci 4 2 1 1) /\
  exists m, get_eigenvectors C0 (Some sx_H) 2 2 = Val m /\ edata m = [Ci; C0; C1; Ci].
Proof.
  split; [split; [reflexivity|split; [split; cbn; lia|]]|].
  - split; [cbn; lia|]. split.
    + intros i j H. unfold sx_M. destruct i as [|[|i]]; destruct j as [|[|j]]; try lia; cbn; repeat match goal with |- context [match ?x with _ => _ end] => destruct x end; reflexivity.
    + intros i j Hi Hj. destruct i as [|[|i]]; destruct j as [|[|j]]; try lia; reflexivity.
  - split; [split; cbn; lia|]. split; [lia|]. split; [cbn; lia|]. split; [apply new_ev_wf; lia|]. eexists. split; [reflexivity|]. reflexivity.
Qed.
