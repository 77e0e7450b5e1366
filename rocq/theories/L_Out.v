(** Proofs about matrixio.c. *)
From Coq Require Import List ZArith Reals Bool Lia Lra Permutation.
From Verif Require Import Base RC Loops M_Tensor M_Evect M_Grid S_Grid L_Grid L_Grid5 S_Half L_Half L_Half2 M_Out S_Out.
Import ListNotations.
Local Open Scope Z_scope.

Lemma combine_map {A B D} (f : A -> B) (g : A -> D) l : combine (map f l) (map g l) = map (fun x => (f x, g x)) l.
Proof. induction l as [|a l IH]; cbn; [reflexivity|]. rewrite IH. reflexivity. Qed.
Lemma combine_cat {A B} (l1 l2 : list A) (m1 m2 : list B) : length l1 = length m1 -> combine (l1 ++ l2) (m1 ++ m2) = combine l1 m1 ++ combine l2 m2.
Proof. revert m1. induction l1 as [|a l1 IH]; intros [|b m1] H; cbn in *; try discriminate; [reflexivity|]. rewrite IH by lia. reflexivity. Qed.
Lemma mapM_total {X Y} (f : X -> outcome Y) (g : X -> Y) l : (forall x, In x l -> f x = Val (g x)) -> mapM f l = Val (map g l).
Proof. induction l as [|a l IH]; intros H; cbn; [reflexivity|]. rewrite H by (left; reflexivity). cbn. rewrite IH; [reflexivity|]. intros; apply H; right; assumption. Qed.

(** The hand-unrolled copy. *)
Lemma gather_ok {A} (data : Z -> outcome A) (stride N : Z) (v : Z -> A) : 0 <= N -> (forall i, 0 <= i < N -> data (i * stride) = Val (v i)) ->
  gather data stride N = Val (map v (zrange N)).
Proof.
  intros HN Hd. unfold gather. rewrite (proj2 (Z.leb_le 0 N) HN). cbn [check bind].
  set (r := Z.land N 3). assert (Er : r = N mod 4) by (unfold r; change 3 with (Z.ones 2); rewrite Z.land_ones by lia; reflexivity).
  pose proof (Z.mod_pos_bound N 4 ltac:(lia)) as Rr. pose proof (Z.div_mod N 4 ltac:(lia)) as Dm. rewrite <- Er in *.
  assert (Et : (N - r + 3) / 4 = N / 4) by (replace (N - r + 3) with (3 + (N / 4) * 4) by lia; rewrite Z.div_add by lia; reflexivity).
  rewrite Et. set (q := N / 4) in *.
  set (good := fun m (l : list (option A)) => l = map (fun i => Some (v i)) (zrange m) ++ repeat None (Z.to_nat (N - m))).
  assert (St : forall m l d, 0 <= m < N -> d = v m -> good m l -> exists l', wr l m (Some d) = Val l' /\ good (m + 1) l').
  { intros m l d Hm -> ->. assert (Lz : length (map (fun i => Some (v i)) (zrange m)) = Z.to_nat m) by (rewrite map_length; unfold zrange; rewrite map_length, seq_length; reflexivity).
    unfold wr. rewrite app_length, Lz, repeat_length. destruct (Z.leb_spec 0 m); [|lia]. destruct (Z.ltb_spec m (Z.of_nat (Z.to_nat m + Z.to_nat (N - m)))); [|lia]. cbn [andb].
    eexists. split; [reflexivity|]. unfold good. replace (Z.to_nat (N - m)) with (S (Z.to_nat (N - (m + 1)))) by lia. cbn [repeat].
    assert (U : forall (l1 l2 : list (option A)) x y, upd_nat (l1 ++ x :: l2) (length l1) y = l1 ++ y :: l2).
    { clear. induction l1 as [|a l1 IH]; intros; cbn; [reflexivity|]. rewrite IH. reflexivity. }
    rewrite <- Lz, U. unfold zrange. replace (Z.to_nat (m + 1)) with (S (Z.to_nat m)) by lia. rewrite seq_S, !map_app, <- app_assoc. cbn [map app]. rewrite Nat.add_0_l, Z2Nat.id by lia. reflexivity. }
  assert (G0 : good 0 (repeat None (Z.to_nat N))) by (unfold good; rewrite Z.sub_0_r; reflexivity).
  match goal with |- context [bind (forZ 0 r ?f ?s) _] => destruct (forZ_inv (fun i l => good i l) f 0 r s ltac:(lia) G0) as (l1 & E1 & G1) end.
  { intros i l Hi Gl. rewrite Hd by lia. cbn [bind]. exact (St i l (v i) ltac:(lia) eq_refl Gl). }
  rewrite E1. cbn [bind].
  match goal with |- context [bind (forZ 0 q ?f ?s) _] => destruct (forZ_inv (fun t l => good (r + 4 * t) l) f 0 q s ltac:(lia)) as (l2 & E2 & G2) end.
  { rewrite Z.mul_0_r, Z.add_0_r. exact G1. }
  { intros t l Ht Gl. cbv zeta. rewrite (Hd (r + 4 * t)), (Hd (r + 4 * t + 1)), (Hd (r + 4 * t + 2)), (Hd (r + 4 * t + 3)) by lia. cbn [bind].
    destruct (St (r + 4 * t) l _ ltac:(lia) eq_refl Gl) as (a & Ea & Ga). rewrite Ea. cbn [bind].
    destruct (St (r + 4 * t + 1) a _ ltac:(lia) eq_refl Ga) as (b & Eb & Gb). rewrite Eb. cbn [bind].
    replace (r + 4 * t + 2) with (r + 4 * t + 1 + 1) by lia. destruct (St (r + 4 * t + 1 + 1) b _ ltac:(lia) eq_refl Gb) as (c & Ec & Gc). rewrite Ec. cbn [bind].
    replace (r + 4 * t + 3) with (r + 4 * t + 1 + 1 + 1) by lia. destruct (St (r + 4 * t + 1 + 1 + 1) c _ ltac:(lia) eq_refl Gc) as (e & Ee & Ge). exists e. split; [exact Ee|]. replace (r + 4 * (t + 1)) with (r + 4 * t + 1 + 1 + 1 + 1) by lia. exact Ge. }
  rewrite E2. cbn [bind]. replace (r + 4 * q) with N in G2 |- * by lia. rewrite Z.eqb_refl. cbn [check bind].
  unfold good in G2. rewrite Z.sub_diag in G2. cbn [Z.to_nat repeat] in G2. rewrite app_nil_r in G2. subst l2.
  generalize (zrange N). clear. induction l as [|a l IH]; cbn; [reflexivity|]. rewrite IH. reflexivity.
Qed.

Lemma write_ok {A} (dims local start : list Z) (stride : Z) (data : Z -> outcome A) (v : Z -> A) : 0 < stride ->
  let count := firstn (length dims) local in let st := firstn (length dims) start in
  in_extent dims st count = true -> 0 <= lprod count -> (forall i, 0 <= i < lprod count -> data (i * stride) = Val (v i)) ->
  write_real_data dims local start stride data = Val (combine (hyperslab st count) (map v (zrange (lprod count)))).
Proof.
  intros Hs count st He HN Hd. unfold write_real_data. fold count st. rewrite He. destruct (Z.gtb_spec stride 1) as [G|G].
  - rewrite (gather_ok data stride _ v HN Hd). reflexivity.
  - rewrite (mapM_total data v); [reflexivity|]. intros i Hi. apply zrange_in in Hi. rewrite <- (Hd i Hi). f_equal. nia.
Qed.

(** Blocks of three dimensions. *)
Lemma whole_flat a b c : whole a b c = flat_map (fun i => flat_map (fun j => map (fun k => (i, j, k)) (zrange c)) (zrange b)) (zrange a).
Proof.
  unfold whole. change upto with zrange.
  assert (P : forall (A B : Type) (l : list A) (l' : list B), list_prod l l' = flat_map (fun x => map (pair x) l') l) by (intros A B l l'; induction l as [|x l IH]; cbn; [reflexivity|rewrite IH; reflexivity]).
  rewrite !P, <- flat_flat. apply flat_ext. intros i _. rewrite flat_map_map. reflexivity.
Qed.
Lemma whole_index a b c : 0 <= a -> 0 <= b -> 0 <= c -> map (fun t => let '(i, j, k) := t in (i * b + j) * c + k) (whole a b c) = zrange (a * b * c).
Proof.
  intros. rewrite <- idx3 by assumption. rewrite whole_flat, map_flat_map. apply flat_ext. intros i _. rewrite map_flat_map. apply flat_ext. intros j _. rewrite map_map. reflexivity.
Qed.
Lemma hyper1 s0 a : hyperslab [s0] [a] = map (fun i => [s0 + i]) (zrange a).
Proof. cbn [hyperslab map]. rewrite map_as_flat. reflexivity. Qed.
Lemma hyper2 s0 s1 a b : hyperslab [s0; s1] [a; b] = flat_map (fun i => map (fun j => [s0 + i; s1 + j]) (zrange b)) (zrange a).
Proof. change (hyperslab [s0; s1] [a; b]) with (flat_map (fun i => map (cons (s0 + i)) (hyperslab [s1] [b])) (zrange a)). apply flat_ext. intros i _. rewrite hyper1, map_map. reflexivity. Qed.
Lemma hyper3 s0 s1 s2 a b c : hyperslab [s0; s1; s2] [a; b; c] = map (fun t => let '(i, j, k) := t in [s0 + i; s1 + j; s2 + k]) (whole a b c).
Proof.
  rewrite whole_flat, map_flat_map. change (hyperslab [s0; s1; s2] [a; b; c]) with (flat_map (fun i => map (cons (s0 + i)) (hyperslab [s1; s2] [b; c])) (zrange a)).
  apply flat_ext. intros i _. rewrite hyper2, !map_flat_map. apply flat_ext. intros j _. rewrite !map_map. reflexivity.
Qed.

(** Writing a block of a file whose trailing dimensions of one point are left out. *)
Definition cut (d1 d2 : Z) (l : list Z) : list Z := if d2 =? 1 then (if d1 =? 1 then firstn 1 l else firstn 2 l) else l.
Lemma block_ok {A} d0 d1 d2 l0 l1 l2 s0 s1 s2 stride (data : Z -> outcome A) (v : Z -> A) :
  0 < stride -> 0 <= l0 -> 0 <= l1 -> 0 <= l2 -> 0 <= s0 -> 0 <= s1 -> 0 <= s2 -> s0 + l0 <= d0 -> s1 + l1 <= d1 -> s2 + l2 <= d2 ->
  (d2 = 1 -> l2 = 1 /\ (d1 = 1 -> l1 = 1)) ->
  (forall i, 0 <= i < l0 * l1 * l2 -> data (i * stride) = Val (v i)) ->
  write_real_data (firstn (Z.to_nat (file_rank [d0; d1; d2])) [d0; d1; d2]) [l0; l1; l2] [s0; s1; s2] stride data =
  Val (map (fun t => let '(i, j, k) := t in (cut d1 d2 [s0 + i; s1 + j; s2 + k], v ((i * l1 + j) * l2 + k))) (whole l0 l1 l2)).
Proof.
  intros Hs L0 L1 L2 S0 S1 S2 B0 B1 B2 Hd Hv. change (file_rank [d0; d1; d2]) with (if d2 =? 1 then (if d1 =? 1 then 1 else 2) else 3). unfold cut.
  destruct (Z.eqb_spec d2 1) as [E2|E2]; [destruct (Hd E2) as (-> & Hd1); destruct (Z.eqb_spec d1 1) as [E1|E1]; [rewrite (Hd1 E1) in *|]|].
  - change (firstn (Z.to_nat 1) [d0; d1; d2]) with [d0]. rewrite (write_ok [d0] _ _ stride data v Hs); cbn [length firstn lprod fold_right in_extent] in *.
    + rewrite hyper1, Z.mul_1_r, combine_map. f_equal. rewrite whole_flat, map_flat_map, map_as_flat. apply flat_ext. intros i _. change (zrange 1) with [0]. cbn [map flat_map app firstn]. do 3 f_equal. lia.
    + rewrite !andb_true_iff, !Z.leb_le. lia.
    + lia.
    + intros i Hi. apply Hv. lia.
  - change (firstn (Z.to_nat 2) [d0; d1; d2]) with [d0; d1]. rewrite (write_ok [d0; d1] _ _ stride data v Hs); cbn [length firstn lprod fold_right in_extent] in *.
    + rewrite hyper2. rewrite Z.mul_1_r, <- (idx2 l0 l1) by assumption. f_equal. rewrite whole_flat, !map_flat_map.
      assert (G : forall l, combine (flat_map (fun i => map (fun j => [s0 + i; s1 + j]) (zrange l1)) l) (flat_map (fun i => map v (map (fun j => i * l1 + j) (zrange l1))) l) =
        flat_map (fun a => map (fun t => let '(i, j, k) := t in (firstn 2 [s0 + i; s1 + j; s2 + k], v ((i * l1 + j) * 1 + k))) (flat_map (fun j => map (fun k => (a, j, k)) (zrange 1)) (zrange l1))) l).
      { induction l as [|i l IH]; [reflexivity|]. cbn [flat_map]. rewrite combine_cat by (rewrite !map_length; reflexivity). rewrite IH. f_equal. rewrite map_map, combine_map, map_flat_map, map_as_flat. apply flat_ext. intros j _. change (zrange 1) with [0]. cbn [map flat_map app firstn]. do 3 f_equal. lia. }
      apply G.
    + rewrite !andb_true_iff, !Z.leb_le. lia.
    + nia.
    + intros i Hi. apply Hv. lia.
  - change (firstn (Z.to_nat 3) [d0; d1; d2]) with [d0; d1; d2]. rewrite (write_ok [d0; d1; d2] _ _ stride data v Hs); cbn [length firstn lprod fold_right in_extent] in *.
    + rewrite hyper3. replace (l0 * (l1 * (l2 * 1))) with (l0 * l1 * l2) by ring. rewrite <- whole_index by assumption. rewrite map_map, combine_map. f_equal. apply map_ext. intros ((i & j) & k). reflexivity.
    + rewrite !andb_true_iff, !Z.leb_le. lia.
    + assert (0 <= l0 * l1) by nia. nia.
    + intros i Hi. apply Hv. lia.
Qed.

(** ** Eigenvector files *)
Fixpoint flat (t x : list Z) : Z := match t, x with _ :: t, x :: xs => x * lprod t + flat t xs | _, _ => 0 end.
Lemma lprod_nonneg t : Forall (fun d => 0 <= d) t -> 0 <= lprod t.
Proof. induction 1 as [|d t Hd Ht IH]; cbn; [lia|]. change (fold_right Z.mul 1 t) with (lprod t). nia. Qed.
Lemma hs_flat t : Forall (fun d => 0 <= d) t -> map (flat t) (hyperslab (map (fun _ => 0) t) t) = zrange (lprod t).
Proof.
  induction 1 as [|d t Hd Ht IH]; [reflexivity|]. cbn [map hyperslab]. rewrite map_flat_map. change (lprod (d :: t)) with (d * lprod t). rewrite <- idx2 by (try apply lprod_nonneg; assumption).
  apply flat_ext. intros i _. rewrite map_map. cbn [flat]. rewrite <- IH, map_map. apply map_ext. intros x. lia.
Qed.
Lemma hs_rows N s l t : 0 <= l -> Forall (fun d => 0 <= d) t ->
  map (flat (N :: t)) (hyperslab (s :: map (fun _ => 0) t) (l :: t)) = map (fun i => s * lprod t + i) (zrange (l * lprod t)).
Proof.
  intros Hl Ht. cbn [hyperslab]. rewrite map_flat_map. rewrite <- idx2 by (try apply lprod_nonneg; assumption). rewrite map_flat_map.
  apply flat_ext. intros i _. rewrite !map_map. cbn [flat]. rewrite <- (hs_flat t Ht), map_map. apply map_ext. intros x. lia.
Qed.
Lemma hs_in s l t x : In x (hyperslab (s :: map (fun _ => 0) t) (l :: t)) <-> exists i y, x = (s + i) :: y /\ 0 <= i < l /\ In y (hyperslab (map (fun _ => 0) t) t).
Proof.
  cbn [hyperslab]. rewrite in_flat_map. split.
  - intros (i & Hi & H). apply in_map_iff in H as (y & <- & Hy). apply zrange_in in Hi. eauto.
  - intros (i & y & -> & Hi & Hy). exists i. rewrite zrange_in. split; [exact Hi|]. apply in_map. exact Hy.
Qed.

Lemma put_map {A} (h : list Z -> A) (w : list (list Z * A)) (f : dataset A) x : (forall y v, In (y, v) w -> v = h y) ->
  put f w x = if in_dec (list_eq_dec Z.eq_dec) x (map fst w) then Some (h x) else f x.
Proof.
  revert f. induction w as [|(y & v) w IH]; intros f H; cbn [put fold_left map]; [reflexivity|]. change (fold_left _ w ?g x) with (put g w x). rewrite IH by (intros; apply H; right; assumption).
  cbn [fst snd]. rewrite (H y v (or_introl eq_refl)). destruct (in_dec _ x (map fst w)) as [I|I], (in_dec _ x (y :: map fst w)) as [J|J], (list_eq_dec Z.eq_dec x y) as [E|E]; cbn in J; subst; auto; exfalso; intuition congruence.
Qed.

Lemma nth_firstn {A} (l : list A) n m d : (m < n)%nat -> nth m (firstn n l) d = nth m l d.
Proof. revert n l. induction m as [|m IH]; intros [|n] [|a l] H; cbn; try lia; try reflexivity. apply IH. lia. Qed.
Lemma nth_skipn {A} (l : list A) n m d : nth m (skipn n l) d = nth (n + m) l d.
Proof. revert l. induction n as [|n IH]; intros [|a l]; cbn; try reflexivity; [destruct m; reflexivity|]. apply IH. Qed.
Lemma evect_log {A} (G : list A) (d : A) N c p nv s l : 0 <= c -> 0 <= p -> 0 <= nv -> 0 <= s -> 0 <= l -> s + l <= N -> Z.of_nat (length G) = N * (c * p * nv) ->
  evect_writeall N c p nv l s (rows G (c * p * nv) s l) = Val (map (fun x => (x, nth (Z.to_nat (flat [N; c; p; nv] x)) G d)) (hyperslab [s; 0; 0; 0] [l; c; p; nv])).
Proof.
  intros Hc Hp Hn Hs Hl HN HG. unfold evect_writeall. set (w := c * p * nv) in *. assert (Hw : 0 <= w) by (unfold w; assert (0 <= c * p) by nia; nia).
  assert (Ep : lprod [c; p; nv] = w) by (cbn; unfold w; ring).
  rewrite (write_ok [N; c; p; nv] _ _ 1 _ (fun i => nth (Z.to_nat (s * w + i)) G d) ltac:(lia)); cbn [length firstn].
  - f_equal. change (lprod [l; c; p; nv]) with (l * lprod [c; p; nv]). pose proof (hs_rows N s l [c; p; nv] Hl ltac:(repeat constructor; assumption)) as E. rewrite Ep in *. cbn [map] in E.
    rewrite <- (map_map (fun i => s * w + i) (fun i => nth (Z.to_nat i) G d)), <- E, map_map, <- combine_map, map_id. reflexivity.
  - cbn [in_extent]. rewrite !andb_true_iff, !Z.leb_le. lia.
  - change (lprod [l; c; p; nv]) with (l * lprod [c; p; nv]). rewrite Ep. nia.
  - intros i Hi. change (lprod [l; c; p; nv]) with (l * lprod [c; p; nv]) in Hi. rewrite Ep in Hi. rewrite Z.mul_1_r.
    assert (0 <= s * w) by nia. assert ((s + l) * w <= N * w) by nia.
    unfold rows. rewrite (rd_get_s _ i d) by (rewrite firstn_length, skipn_length; lia). f_equal.
    rewrite nth_firstn by lia. rewrite nth_skipn. f_equal. lia.
Qed.
