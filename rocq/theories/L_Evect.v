(** Proofs about resizing, slices, blocks and the k = 0 shifts. *)
From Coq Require Import List ZArith Reals Bool Lia.
From Verif Require Import Base RC Loops M_Evect S_Evect.
Import ListNotations.
Local Open Scope Z_scope.

Lemma rowlt p i j i' j' : 0 <= j < p -> 0 <= j' -> i < i' -> i * p + j < i' * p + j'.
Proof. nia. Qed.
Lemma rowinj p i j i' j' : 0 <= j < p -> 0 <= j' < p -> i * p + j = i' * p + j' -> i = i' /\ j = j'.
Proof. intros. assert (i = i') by nia. split; [assumption|nia]. Qed.
Lemma rowin n p q i j : 0 <= i < n -> 0 <= j < q -> q <= p -> 0 <= i * q + j < n * p.
Proof. nia. Qed.

Lemma forZ_nil {S} lo hi f (s : S) : hi <= lo -> forZ lo hi f s = Val s.
Proof. intros. unfold forZ. replace (Z.to_nat (hi - lo)) with O by lia. reflexivity. Qed.
Lemma forZ_down_nil {S} lo hi f (s : S) : hi <= lo -> forZ_down lo hi f s = Val s.
Proof. intros. unfold forZ_down. replace (Z.to_nat (hi - lo)) with O by lia. reflexivity. Qed.

Section Gen.
Context {A : Type}.

Lemma set_data_same (X : emat A) : set_data X (edata X) = X.
Proof. destruct X; reflexivity. Qed.
Lemma wf_set (X : emat A) d : wf X -> length d = length (edata X) -> wf (set_data X d).
Proof. intros (H1 & H2 & H3) E. split; [exact H1|]. split; [exact H2|]. cbn. rewrite E. exact H3. Qed.

Lemma resize_ok (X : emat A) p : wf X -> 0 <= p <= ealloc X ->
  exists X', evectmatrix_resize X p true = Val X' /\ wf X' /\ en X' = en X /\ ep X' = p /\ ealloc X' = ealloc X /\
    (forall i j, 0 <= i < en X -> 0 <= j < p -> j < ep X -> ent X' i j = ent X i j).
Proof.
  intros (Hn & Hp & Hl) Hq. unfold evectmatrix_resize, check.
  destruct (Z.leb_spec p (ealloc X)); [|lia]. cbn [bind].
  destruct (Z.ltb_spec p (ep X)).
  - destruct (move_up_up (fun i j => i * p + j) (fun i j => i * ep X + j) (en X) p Hn ltac:(lia) (edata X)) as (d' & E & L & M & _).
    + intros i j Hi Hj. rewrite Hl. split; [pose proof (rowin (en X) (ealloc X) (ep X) i j)|pose proof (rowin (en X) (ealloc X) p i j)]; lia.
    + intros i j i' j' Hi Hj Hi' Hj' [Hlt|(-> & Hlt)].
      * pose proof (rowlt p i j i' j'). pose proof (rowlt p i j i' j'). nia.
      * split; nia.
    + unfold body in E. rewrite E. cbn [bind]. eexists. split; [reflexivity|]. split; [|repeat split; cbn; auto].
      * split; [exact Hn|]. split; [cbn; lia|]. cbn. rewrite L. exact Hl.
      * intros i j Hi Hj Hj'. unfold ent. cbn. apply M; lia.
  - destruct (move_down_down (fun i j => i * p + j) (fun i j => i * ep X + j) (en X) (ep X) Hn ltac:(lia) (edata X)) as (d' & E & L & M & _).
    + intros i j Hi Hj. rewrite Hl. split; [pose proof (rowin (en X) (ealloc X) (ep X) i j)|pose proof (rowin (en X) (ealloc X) p i j)]; lia.
    + intros i j i' j' Hi Hj Hi' Hj' [Hlt|(-> & Hlt)].
      * pose proof (rowlt p i' j' i j). nia.
      * split; nia.
    + unfold body in E. rewrite E. cbn [bind]. eexists. split; [reflexivity|]. split; [|repeat split; cbn; auto].
      * split; [exact Hn|]. split; [cbn; lia|]. cbn. rewrite L. exact Hl.
      * intros i j Hi Hj Hj'. unfold ent. cbn. apply M; lia.
Qed.

Lemma resize_nopres (X : emat A) p : p <= ealloc X ->
  evectmatrix_resize X p false = Val {| en := en X; ep := p; ealloc := ealloc X; edata := edata X |}.
Proof. intros. unfold evectmatrix_resize, check. destruct (Z.leb_spec p (ealloc X)); [reflexivity|lia]. Qed.

Lemma resize_refused (X : emat A) p b : ealloc X < p -> evectmatrix_resize X p b = Abort.
Proof. intros. unfold evectmatrix_resize, check. destruct (Z.leb_spec p (ealloc X)); [lia|reflexivity]. Qed.

Lemma sresize_ok (X : smat A) p : wfs X -> 0 <= p <= salloc X ->
  exists X', sqmatrix_resize X p true = Val X' /\ wfs X' /\ sp X' = p /\ salloc X' = salloc X /\
    (forall i j, 0 <= i < p -> i < sp X -> 0 <= j < p -> j < sp X -> sent X' i j = sent X i j).
Proof.
  intros (Hp & Hl) Hq. unfold sqmatrix_resize, check.
  destruct (Z.leb_spec p (salloc X)); [|lia]. cbn [bind].
  destruct (Z.ltb_spec p (sp X)).
  - destruct (move_up_up (fun i j => i * p + j) (fun i j => i * sp X + j) p p ltac:(lia) ltac:(lia) (sdata X)) as (d' & E & L & M & _).
    + intros i j Hi Hj. rewrite Hl. split; [pose proof (rowin (salloc X) (salloc X) (sp X) i j)|pose proof (rowin (salloc X) (salloc X) p i j)]; lia.
    + intros i j i' j' Hi Hj Hi' Hj' [Hlt|(-> & Hlt)].
      * pose proof (rowlt p i j i' j'). nia.
      * split; nia.
    + unfold body in E. rewrite E. cbn [bind]. eexists. split; [reflexivity|]. split; [|repeat split; cbn; auto].
      * split; [cbn; lia|]. cbn. rewrite L. exact Hl.
      * intros i j Hi Hi' Hj Hj'. unfold sent. cbn. apply M; lia.
  - destruct (move_down_down (fun i j => i * p + j) (fun i j => i * sp X + j) (sp X) (sp X) ltac:(lia) ltac:(lia) (sdata X)) as (d' & E & L & M & _).
    + intros i j Hi Hj. rewrite Hl. split; [pose proof (rowin (salloc X) (salloc X) (sp X) i j)|pose proof (rowin (salloc X) (salloc X) p i j)]; lia.
    + intros i j i' j' Hi Hj Hi' Hj' [Hlt|(-> & Hlt)].
      * pose proof (rowlt p i' j' i j). nia.
      * split; nia.
    + unfold body in E. rewrite E. cbn [bind]. eexists. split; [reflexivity|]. split; [|repeat split; cbn; auto].
      * split; [cbn; lia|]. cbn. rewrite L. exact Hl.
      * intros i j Hi Hi' Hj Hj'. unfold sent. cbn. apply M; lia.
Qed.

Lemma sresize_refused (X : smat A) p b : salloc X < p -> sqmatrix_resize X p b = Abort.
Proof. intros. unfold sqmatrix_resize, check. destruct (Z.leb_spec p (salloc X)); [lia|reflexivity]. Qed.

(* ------------------------------------------------------------------ *)
(** * Copies *)

Lemma blas_copy_ok n (x y : list A) ox incx oy incy : 0 <= n ->
  (forall i, 0 <= i < n -> 0 <= ox + i * incx < Z.of_nat (length x)) ->
  (forall i, 0 <= i < n -> 0 <= oy + i * incy < Z.of_nat (length y)) -> (incy <> 0 \/ n <= 1) ->
  exists y', blas_copy n x ox incx y oy incy = Val y' /\ length y' = length y /\
    (forall i, 0 <= i < n -> rd y' (oy + i * incy) = rd x (ox + i * incx)) /\
    (forall k, (forall i, 0 <= i < n -> oy + i * incy <> k) -> rd y' k = rd y k).
Proof.
  intros Hn Hx Hy Hinc. unfold blas_copy.
  destruct (forZ_inv (fun i y' => length y' = length y /\
      (forall i1, 0 <= i1 < i -> rd y' (oy + i1 * incy) = rd x (ox + i1 * incx)) /\
      (forall k, (forall i1, 0 <= i1 < i -> oy + i1 * incy <> k) -> rd y' k = rd y k))
    (fun i y => let! v := rd x (ox + i * incx) in wr y (oy + i * incy) v) 0 n y) as (y' & E & H); auto.
  - split; [reflexivity|]. split; [intros; lia|reflexivity].
  - intros i y1 Hi (L & Q1 & Q2).
    destruct (rd_in x (ox + i * incx) (Hx i Hi)) as (v & Hv). rewrite Hv. cbn [bind].
    assert (W : wr y1 (oy + i * incy) v = Val (upd_nat y1 (Z.to_nat (oy + i * incy)) v)) by (apply wr_in; rewrite L; auto).
    rewrite W. eexists. split; [reflexivity|]. split; [rewrite upd_length; exact L|]. split.
    + intros i1 Hi1. rewrite (rd_wr _ _ _ _ _ W). destruct (Z.eqb_spec (oy + i1 * incy) (oy + i * incy)).
      * assert (i1 = i) by nia. subst. congruence.
      * apply Q1. assert (i1 <> i) by congruence. lia.
    + intros k Hk. rewrite (rd_wr _ _ _ _ _ W). destruct (Z.eqb_spec k (oy + i * incy)) as [->|]; [exfalso; apply (Hk i); lia|].
      apply Q2. intros i1 Hi1. apply Hk. lia.
  - exists y'. split; [exact E|exact H].
Qed.

Lemma copy_slice_ok (X Y : emat A) ix iy p : wf X -> wf Y -> en X = en Y ->
  0 <= ix -> 0 <= iy -> ix + p <= ep X -> iy + p <= ep Y ->
  exists X', evectmatrix_copy_slice X Y ix iy p = Val X' /\ wf X' /\
    en X' = en X /\ ep X' = ep X /\ ealloc X' = ealloc X /\
    (forall i j, 0 <= i < en X -> 0 <= j < p -> ent X' i (ix + j) = ent Y i (iy + j)) /\
    (forall i j, 0 <= i < en X -> 0 <= j < ep X -> ~ (ix <= j < ix + p) -> ent X' i j = ent X i j).
Proof.
  intros WX WY En Hix Hiy HX HY. pose proof WX as (HXn & HXp & HXl). pose proof WY as (HYn & HYp & HYl). unfold evectmatrix_copy_slice, check.
  destruct (Z.leb_spec (ix + p) (ep X)); [|lia]. destruct (Z.leb_spec (iy + p) (ep Y)); [|lia].
  destruct (Z.leb_spec 0 ix); [|lia]. destruct (Z.leb_spec 0 iy); [|lia]. destruct (Z.eqb_spec (en X) (en Y)); [|lia]. cbn [andb bind].
  destruct ((ix =? 0) && (iy =? 0) && (p =? ep X) && (p =? ep Y)) eqn:B.
  - apply andb_true_iff in B as (B & B4). apply andb_true_iff in B as (B & B3). apply andb_true_iff in B as (B1 & B2).
    apply Z.eqb_eq in B1, B2, B3, B4. subst ix iy.
    unfold evectmatrix_copy, check. replace (en X =? en Y) with true by (symmetry; apply Z.eqb_eq; lia). replace (ep X =? ep Y) with true by (symmetry; apply Z.eqb_eq; lia). cbn [andb bind].
    destruct (blas_copy_ok (en X * ep X) (edata Y) (edata X) 0 1 0 1) as (y' & E & L & Q1 & Q2).
    + nia.
    + intros i Hi. rewrite HYl. nia.
    + intros i Hi. rewrite HXl. nia.
    + lia.
    + rewrite E. cbn [bind]. eexists. split; [reflexivity|]. split; [apply wf_set; auto|]. repeat split.
      * intros i j Hi Hj. unfold ent. cbn [set_data edata ep]. replace (i * ep X + (0 + j)) with (0 + (i * ep X + j) * 1) by lia.
        rewrite Q1; [f_equal; rewrite <- B4, <- B3; lia|]. pose proof (rowin (en X) (ep X) (ep X) i j). lia.
      * intros. lia.
  - destruct (Z.eqb_spec p 1).
    + subst p. destruct (blas_copy_ok (en X) (edata Y) (edata X) iy (ep Y) ix (ep X)) as (y' & E & L & Q1 & Q2); [lia| | |lia|].
      * intros i Hi. rewrite HYl. nia.
      * intros i Hi. rewrite HXl. nia.
      * rewrite E. cbn [bind]. eexists. split; [reflexivity|]. split; [apply wf_set; auto|]. repeat split.
        -- intros i j Hi Hj. unfold ent. cbn [set_data edata ep]. replace (i * ep X + (ix + j)) with (ix + i * ep X) by lia.
           rewrite Q1; auto. f_equal. lia.
        -- intros i j Hi Hj Hne. unfold ent. cbn [set_data edata ep]. apply Q2. intros i1 Hi1 Heq. apply Hne.
           destruct (rowinj (ep X) i1 ix i j); lia.
    + assert (Hneg : p < 0 \/ 0 <= p) by lia. destruct Hneg as [Hneg|Hp].
      { destruct (forZ_inv (fun _ d => d = edata X) (fun i d => blas_copy p (edata Y) (iy + i * ep Y) 1 d (ix + i * ep X) 1) 0 (en X) (edata X)) as (d & E & ->); auto.
        - intros i d Hi ->. exists (edata X). split; auto. unfold blas_copy. apply forZ_nil. lia.
        - rewrite E. cbn [bind]. eexists. split; [reflexivity|]. rewrite set_data_same. split; [exact WX|]. repeat split. intros; lia. }
      destruct (forZ_inv (fun i d => length d = length (edata X) /\
           (forall i1 j, 0 <= i1 < i -> 0 <= j < p -> rd d (i1 * ep X + (ix + j)) = ent Y i1 (iy + j)) /\
           (forall k, (forall i1 j, 0 <= i1 < i -> 0 <= j < p -> i1 * ep X + (ix + j) <> k) -> rd d k = rd (edata X) k))
         (fun i d => blas_copy p (edata Y) (iy + i * ep Y) 1 d (ix + i * ep X) 1) 0 (en X) (edata X)) as (d & E & L & Q1 & Q2); auto.
      * split; [reflexivity|]. split; [intros; lia|reflexivity].
      * intros i d Hi (L & Q1 & Q2).
        destruct (blas_copy_ok p (edata Y) d (iy + i * ep Y) 1 (ix + i * ep X) 1) as (d1 & E1 & L1 & R1 & R2); [lia| | |lia|].
        -- intros j Hj. rewrite HYl. nia.
        -- intros j Hj. rewrite L, HXl. nia.
        -- exists d1. split; [exact E1|]. split; [congruence|]. split.
           ++ intros i1 j Hi1 Hj. destruct (Z.eq_dec i1 i) as [->|Hne].
              ** replace (i * ep X + (ix + j)) with (ix + i * ep X + j * 1) by lia. rewrite R1; auto. unfold ent. f_equal. lia.
              ** rewrite R2; [apply Q1; lia|]. intros j1 Hj1. pose proof (rowlt (ep X) i1 (ix + j) i (ix + j1)). lia.
           ++ intros k Hk. rewrite R2; [apply Q2; intros; apply Hk; lia|]. intros j Hj Heq. apply (Hk i j); lia.
      * rewrite E. cbn [bind]. eexists. split; [reflexivity|]. split; [apply wf_set; auto|]. repeat split.
        -- intros i j Hi Hj. unfold ent at 1. cbn [set_data edata ep]. apply Q1; auto.
        -- intros i j Hi Hj Hne. unfold ent. cbn [set_data edata ep]. apply Q2. intros i1 j1 Hi1 Hj1 Heq. apply Hne.
           destruct (rowinj (ep X) i1 (ix + j1) i j); lia.
Qed.

Lemma copy_slice_refused (X Y : emat A) ix iy p :
  ~ (0 <= ix /\ 0 <= iy /\ ix + p <= ep X /\ iy + p <= ep Y /\ en X = en Y) ->
  evectmatrix_copy_slice X Y ix iy p = Abort.
Proof.
  intros H. unfold evectmatrix_copy_slice, check.
  destruct (Z.leb_spec (ix + p) (ep X)); [|reflexivity]. destruct (Z.leb_spec (iy + p) (ep Y)); [|reflexivity].
  destruct (Z.leb_spec 0 ix); [|reflexivity]. destruct (Z.leb_spec 0 iy); [|reflexivity].
  destruct (Z.eqb_spec (en X) (en Y)); [|reflexivity]. lia.
Qed.

(* ------------------------------------------------------------------ *)
(** * Shifts *)

Lemma begin_ok (H : emat A) ib0 : wf H -> 0 <= ib0 <= ep H ->
  exists H', zero_k_begin H ib0 = Val H' /\ wf H' /\ en H' = en H /\ ep H' = ep H - ib0 /\ ealloc H' = ealloc H /\
    (forall i j, 0 <= i < en H -> 0 <= j < ep H - ib0 -> ent H' i j = ent H i (j + ib0)).
Proof.
  intros W Hib. pose proof W as (Hn & Hp & Hl). unfold zero_k_begin.
  destruct (move_up_up (fun i j => i * ep H + j) (fun i j => i * ep H + j + ib0) (en H) (ep H - ib0) Hn ltac:(lia) (edata H)) as (d & E & L & M & _).
  - intros i j Hi Hj. rewrite Hl. pose proof (rowin (en H) (ealloc H) (ep H) i j). pose proof (rowin (en H) (ealloc H) (ep H) i (j + ib0)). lia.
  - intros i j i' j' Hi Hj Hi' Hj' [Hlt|(-> & Hlt)]; [|lia].
    pose proof (rowlt (ep H) i j i' j'). lia.
  - unfold body in E. rewrite E. cbn [bind].
    destruct (resize_ok (set_data H d) (ep H - ib0)) as (H' & E' & W' & N' & P' & A' & Q'); [apply wf_set; auto|cbn; lia|].
    exists H'. split; [exact E'|]. split; [exact W'|]. split; [exact N'|]. split; [exact P'|]. split; [exact A'|].
    intros i j Hi Hj. rewrite Q'; [|auto|auto|cbn; lia]. unfold ent at 1. cbn [set_data edata ep]. rewrite M by auto. unfold ent. f_equal. lia.
Qed.

Lemma end_ok (H : emat A) ib0 : wf H -> 0 <= ib0 -> ep H + ib0 = ealloc H ->
  exists H', zero_k_end H ib0 = Val H' /\ wf H' /\ en H' = en H /\ ep H' = ealloc H /\ ealloc H' = ealloc H /\
    (forall i j, 0 <= i < en H -> 0 <= j < ep H -> ent H' i (j + ib0) = ent H i j).
Proof.
  intros W Hib Ha. pose proof W as (Hn & Hp & Hl). unfold zero_k_end.
  destruct (resize_ok H (ealloc H) W ltac:(lia)) as (H1 & E1 & W1 & N1 & P1 & A1 & Q1). rewrite E1. cbn [bind].
  pose proof W1 as (Hn1 & Hp1 & Hl1).
  destruct (move_up_down (fun i j => i * ep H1 + j + ib0) (fun i j => i * ep H1 + j) (en H1) (ep H1 - ib0) Hn1 ltac:(lia) (edata H1)) as (d & E & L & M & _).
  - intros i j Hi Hj. rewrite Hl1. pose proof (rowin (en H1) (ealloc H1) (ep H1) i j). pose proof (rowin (en H1) (ealloc H1) (ep H1) i (j + ib0)). lia.
  - intros i j i' j' Hi Hj Hi' Hj' [Hlt|(-> & Hlt)]; [|lia].
    pose proof (rowlt (ep H1) i (j + ib0) i' j'). lia.
  - unfold body in E. rewrite E. cbn [bind]. eexists. split; [reflexivity|].
    split; [apply wf_set; auto|]. cbn [set_data en ep ealloc]. split; [exact N1|]. split; [exact P1|]. split; [exact A1|].
    intros i j Hi Hj. unfold ent at 1. cbn [set_data edata ep]. rewrite Z.add_assoc. rewrite M by lia.
    rewrite <- (Q1 i j) by lia. reflexivity.
Qed.

Lemma load_ok (Hb H : emat A) off : wf Hb -> wf H -> en Hb = en H -> 0 <= off -> off + ep Hb <= ep H ->
  exists Hb', block_load Hb H off = Val Hb' /\ wf Hb' /\ en Hb' = en Hb /\ ep Hb' = ep Hb /\ ealloc Hb' = ealloc Hb /\
    (forall i j, 0 <= i < en H -> 0 <= j < ep Hb -> ent Hb' i j = ent H i (j + off)).
Proof.
  intros Wb W En Ho Hle. pose proof Wb as (Hbn & Hbp & Hbl). pose proof W as (Hn & Hp & Hl).
  unfold block_load.
  destruct (forZ_inv (fun i d => length d = length (edata Hb) /\ forall i1 j, 0 <= i1 < i -> 0 <= j < ep Hb -> rd d (i1 * ep Hb + j) = ent H i1 (j + off))
     (fun i d => forZ 0 (ep Hb) (fun j d => let! v := rd (edata H) (i * ep H + j + off) in wr d (i * ep Hb + j) v) d) 0 (en Hb) (edata Hb))
    as (d & E & L & Q); auto.
  - split; [reflexivity|]. intros; lia.
  - intros i d Hi (L & Q).
    destruct (forZ_inv (fun jj d' => length d' = length (edata Hb) /\
        (forall i1 j, 0 <= i1 < i -> 0 <= j < ep Hb -> rd d' (i1 * ep Hb + j) = ent H i1 (j + off)) /\
        (forall j, 0 <= j < jj -> rd d' (i * ep Hb + j) = ent H i (j + off)))
       (fun j d => let! v := rd (edata H) (i * ep H + j + off) in wr d (i * ep Hb + j) v) 0 (ep Hb) d) as (d2 & E2 & L2 & Q2 & R2).
    + lia.
    + split; [exact L|]. split; [exact Q|]. intros; lia.
    + intros j d1 Hj (L1 & Q1 & R1).
      assert (Hin : 0 <= i * ep H + j + off < Z.of_nat (length (edata H))) by (rewrite Hl; pose proof (rowin (en H) (ealloc H) (ep H) i (j + off)); lia).
      destruct (rd_in _ _ Hin) as (v & Hv). rewrite Hv. cbn [bind].
      assert (W1 : wr d1 (i * ep Hb + j) v = Val (upd_nat d1 (Z.to_nat (i * ep Hb + j)) v)).
      { apply wr_in. rewrite L1, Hbl. pose proof (rowin (en Hb) (ealloc Hb) (ep Hb) i j). lia. }
      rewrite W1. eexists. split; [reflexivity|]. split; [rewrite upd_length; exact L1|]. split.
      * intros i1 j1 Hi1 Hj1. rewrite (rd_wr _ _ _ _ _ W1). destruct (Z.eqb_spec (i1 * ep Hb + j1) (i * ep Hb + j)); [|apply Q1; auto].
        destruct (rowinj (ep Hb) i1 j1 i j); lia.
      * intros j1 Hj1. rewrite (rd_wr _ _ _ _ _ W1). destruct (Z.eqb_spec (i * ep Hb + j1) (i * ep Hb + j)).
        { replace j1 with j by lia. unfold ent. rewrite <- Hv. f_equal. lia. }
        apply R1. lia.
    + exists d2. split; [exact E2|]. split; [exact L2|]. intros i1 j Hi1 Hj. destruct (Z.eq_dec i1 i) as [->|]; [apply R2; lia|apply Q2; lia].
  - rewrite E. cbn [bind]. eexists. split; [reflexivity|]. split; [apply wf_set; auto|].
    cbn [set_data en ep ealloc]. repeat split. intros i j Hi Hj. unfold ent at 1. cbn [set_data edata ep]. apply Q; lia.
Qed.

Lemma save_ok (Hb H : emat A) off : wf Hb -> wf H -> en Hb = en H -> 0 <= off -> off + ep Hb <= ep H ->
  exists H', block_save Hb H off = Val H' /\ wf H' /\ en H' = en H /\ ep H' = ep H /\ ealloc H' = ealloc H /\
    (forall i j, 0 <= i < en H -> 0 <= j < ep Hb -> ent H' i (j + off) = ent Hb i j) /\
    (forall i j, 0 <= i < en H -> 0 <= j < ep H -> ~ (off <= j < off + ep Hb) -> ent H' i j = ent H i j).
Proof.
  intros Wb W En Ho Hle. pose proof Wb as (Hbn & Hbp & Hbl). pose proof W as (Hn & Hp & Hl).
  unfold block_save.
  assert (Hsrc : forall i j, 0 <= i < en Hb -> 0 <= j < ep Hb -> exists v, rd (edata Hb) (i * ep Hb + j) = Val v).
  { intros i j Hi Hj. apply rd_in. rewrite Hbl. pose proof (rowin (en Hb) (ealloc Hb) (ep Hb) i j). lia. }
  destruct (forZ_inv (fun i d => length d = length (edata H) /\
       (forall i1 j, 0 <= i1 < i -> 0 <= j < ep Hb -> rd d (i1 * ep H + j + off) = ent Hb i1 j) /\
       (forall k, (forall i1 j, 0 <= i1 < i -> 0 <= j < ep Hb -> i1 * ep H + j + off <> k) -> rd d k = rd (edata H) k))
     (fun i d => forZ 0 (ep Hb) (fun j d => let! v := rd (edata Hb) (i * ep Hb + j) in wr d (i * ep H + j + off) v) d) 0 (en Hb) (edata H))
    as (d & E & L & Q & R); auto.
  - split; [reflexivity|]. split; [intros; lia|reflexivity].
  - intros i d Hi (L & Q & R).
    destruct (forZ_inv (fun jj d' => length d' = length (edata H) /\
        (forall i1 j, 0 <= i1 < en Hb -> 0 <= j < ep Hb -> (i1 < i \/ (i1 = i /\ j < jj)) -> rd d' (i1 * ep H + j + off) = ent Hb i1 j) /\
        (forall k, (forall i1 j, 0 <= i1 < en Hb -> 0 <= j < ep Hb -> (i1 < i \/ (i1 = i /\ j < jj)) -> i1 * ep H + j + off <> k) -> rd d' k = rd (edata H) k))
       (fun j d => let! v := rd (edata Hb) (i * ep Hb + j) in wr d (i * ep H + j + off) v) 0 (ep Hb) d) as (d2 & E2 & L2 & Q2 & R2).
    + lia.
    + split; [exact L|]. split; [intros; apply Q; lia|]. intros k Hk. apply R. intros; apply Hk; lia.
    + intros j d1 Hj (L1 & Q1 & R1).
      destruct (Hsrc i j Hi Hj) as (v & Hv). rewrite Hv. cbn [bind].
      assert (W1 : wr d1 (i * ep H + j + off) v = Val (upd_nat d1 (Z.to_nat (i * ep H + j + off)) v)).
      { apply wr_in. rewrite L1, Hl. pose proof (rowin (en H) (ealloc H) (ep H) i (j + off)). lia. }
      rewrite W1. eexists. split; [reflexivity|]. split; [rewrite upd_length; exact L1|]. split.
      * intros i1 j1 Hi1 Hj1 Hlt. rewrite (rd_wr _ _ _ _ _ W1). destruct (Z.eqb_spec (i1 * ep H + j1 + off) (i * ep H + j + off)).
        { destruct (rowinj (ep H) i1 (j1 + off) i (j + off)); [lia|lia|lia|]. replace i1 with i by lia. replace j1 with j by lia. unfold ent. congruence. }
        assert (~ (i1 = i /\ j1 = j)) by (intros (-> & ->); congruence). apply Q1; auto. lia.
      * intros k Hk. rewrite (rd_wr _ _ _ _ _ W1). destruct (Z.eqb_spec k (i * ep H + j + off)) as [->|]; [exfalso; apply (Hk i j); lia|].
        apply R1. intros; apply Hk; auto. lia.
    + exists d2. split; [exact E2|]. split; [exact L2|]. split.
      * intros i1 j Hi1 Hj. apply Q2; auto; lia.
      * intros k Hk. apply R2. intros; apply Hk; auto; lia.
  - rewrite E. cbn [bind]. eexists. split; [reflexivity|]. split; [apply wf_set; auto|].
    cbn [set_data en ep ealloc]. repeat split.
    + intros i j Hi Hj. unfold ent at 1. cbn [set_data edata ep]. rewrite Z.add_assoc. apply Q; lia.
    + intros i j Hi Hj Hne. unfold ent. cbn [set_data edata ep]. apply R. intros i1 j1 Hi1 Hj1 Heq.
      apply Hne. destruct (rowinj (ep H) i1 (j1 + off) i j); lia.
Qed.
End Gen.
