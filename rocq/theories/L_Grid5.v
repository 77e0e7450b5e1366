(** Plane-wave table, grid loops, parity bits. *)
From Coq Require Import List ZArith Reals Lia Lra Bool FinFun.
From Verif Require Import Base RC Loops M_Tensor M_Evect S_Evect L_Evect L_Evect2 L_Evect3 M_Grid S_Grid L_Grid L_Grid2.
Import ListNotations.
Local Open Scope Z_scope.

(** ** Transverse basis *)

Lemma basis_alg (q n : vec) : (0 < rdot q q)%R -> rdot n n = 1%R -> rdot n q = 0%R ->
  let l := sqrt (rdot q q) in let m := vscale (1 / l) (vcross n q) in
  rdot (vcross n q) (vcross n q) = rdot q q /\ triple q m n l.
Proof.
  destruct q as ((x, y), z), n as ((a, b), c). cbn [rdot vcross]. intros Hq Hn Ho.
  assert (Hl : (0 < sqrt (x * x + y * y + z * z))%R) by (apply sqrt_lt_R0; exact Hq).
  assert (Hs : (sqrt (x * x + y * y + z * z) * sqrt (x * x + y * y + z * z) = x * x + y * y + z * z)%R) by (apply sqrt_sqrt; lra).
  cbv zeta. set (l := sqrt (x * x + y * y + z * z)) in *.
  assert (Hc : ((b * z - c * y) * (b * z - c * y) + (c * x - a * z) * (c * x - a * z) + (a * y - b * x) * (a * y - b * x) = x * x + y * y + z * z)%R).
  { transitivity ((a * a + b * b + c * c) * (x * x + y * y + z * z) - (a * x + b * y + c * z) * (a * x + b * y + c * z))%R; [ring|]. rewrite Hn, Ho. ring. }
  split; [exact Hc|]. unfold triple. cbn [rdot vscale rcross rsc].
  assert (Hi : (1 / l * l = 1)%R) by (field; lra). set (i := (1 / l)%R) in *.
  assert (Hii : (i * i * (x * x + y * y + z * z) = 1)%R) by (rewrite <- Hs; transitivity ((i * l) * (i * l))%R; [ring|rewrite Hi; ring]).
  repeat split.
  - transitivity (i * i * ((b * z - c * y) * (b * z - c * y) + (c * x - a * z) * (c * x - a * z) + (a * y - b * x) * (a * y - b * x)))%R; [ring|]. rewrite Hc. exact Hii.
  - exact Hn.
  - ring.
  - ring.
  - exact Ho.
  - f_equal; [f_equal|].
    + transitivity ((i * l) * (x * (a * a + b * b + c * c) - a * (a * x + b * y + c * z)))%R; [ring|]. rewrite Hi, Hn, Ho. ring.
    + transitivity ((i * l) * (y * (a * a + b * b + c * c) - b * (a * x + b * y + c * z)))%R; [ring|]. rewrite Hi, Hn, Ho. ring.
    + transitivity ((i * l) * (z * (a * a + b * b + c * c) - c * (a * x + b * y + c * z)))%R; [ring|]. rewrite Hi, Hn, Ho. ring.
Qed.

Lemma transverse_ok (q : vec) :
  exists k, transverse q = Val k /\
    (q = (0, 0, 0)%R -> kmag k = 0%R /\ km k = (0, 0, 1)%R /\ kn k = (0, 1, 0)%R) /\
    (q <> (0, 0, 0)%R -> triple q (km k) (kn k) (kmag k)).
Proof.
  destruct q as ((x, y), z). unfold transverse.
  assert (Hpos : forall a b c : R, (0 <= a * a + b * b + c * c)%R) by (intros; pose proof (Rle_0_sqr a); pose proof (Rle_0_sqr b); pose proof (Rle_0_sqr c); unfold Rsqr in *; lra).
  destruct (Reqb_spec (x * x + y * y + z * z) 0) as [E0|E0].
  - eexists. split; [reflexivity|]. cbn [kmag km kn].
    assert (x = 0%R /\ y = 0%R /\ z = 0%R).
    { pose proof (Rle_0_sqr x); pose proof (Rle_0_sqr y); pose proof (Rle_0_sqr z). unfold Rsqr in *. repeat split; apply Rsqr_0_uniq; unfold Rsqr; lra. }
    split; [intros _; rewrite E0; split; [apply sqrt_0|split; reflexivity]|]. intros H1. exfalso. apply H1. destruct H as (-> & -> & ->). reflexivity.
  - assert (Hq : (0 < rdot (x, y, z) (x, y, z))%R) by (cbn [rdot]; pose proof (Hpos x y z); lra).
    assert (G : forall n : vec, rdot n n = 1%R -> rdot n (x, y, z) = 0%R ->
      exists k, (let '(a1, b1, c1) := vcross n (x, y, z) in let! leninv := fdiv 1 (sqrt (a1 * a1 + b1 * b1 + c1 * c1)) in
                 Val {| kmag := sqrt (x * x + y * y + z * z); km := vscale leninv (a1, b1, c1); kn := n |}) = Val k /\
        ((x, y, z) = (0, 0, 0)%R -> kmag k = 0%R /\ km k = (0, 0, 1)%R /\ kn k = (0, 1, 0)%R) /\
        ((x, y, z) <> (0, 0, 0)%R -> triple (x, y, z) (km k) (kn k) (kmag k))).
    { intros n Hn Ho. destruct (basis_alg (x, y, z) n Hq Hn Ho) as (Hc & T). cbv zeta in T. destruct (vcross n (x, y, z)) as ((a1, b1), c1) eqn:Ec.
      cbn [rdot] in Hc. rewrite Hc. rewrite fdiv_nz by (apply Rgt_not_eq; apply sqrt_lt_R0; exact Hq). cbn [bind].
      eexists. split; [reflexivity|]. cbn [kmag km kn]. split; [intros X; injection X as -> -> ->; exfalso; cbn [rdot] in Hq; lra|]. intros _. exact T. }
    destruct (Reqb_spec x 0) as [X0|X0], (Reqb_spec y 0) as [Y0|Y0]; cbn [andb bind].
    1: { apply (G (0, 1, 0)%R); cbn [rdot]; [ring|rewrite Y0; ring]. }
    all: cbn [vcross]; assert (Hr : (0 < (0 * z - 1 * y) * (0 * z - 1 * y) + (1 * x - 0 * z) * (1 * x - 0 * z) + (0 * y - 0 * x) * (0 * y - 0 * x))%R)
      by (replace ((0 * z - 1 * y) * (0 * z - 1 * y) + (1 * x - 0 * z) * (1 * x - 0 * z) + (0 * y - 0 * x) * (0 * y - 0 * x))%R with (y * y + x * x)%R by ring;
          pose proof (Rle_0_sqr x); pose proof (Rle_0_sqr y); try (pose proof (Rsqr_pos_lt x X0)); try (pose proof (Rsqr_pos_lt y Y0)); unfold Rsqr in *; lra);
      pose proof (sqrt_lt_R0 _ Hr) as Hs; pose proof (sqrt_sqrt _ (Rlt_le _ _ Hr)) as Hss; rewrite fdiv_nz by lra; cbn [bind];
      match type of Hs with (0 < ?t)%R => set (l := t) in * end; apply G; cbn [vscale rdot].
    all: assert (Hi : (1 / l * l = 1)%R) by (field; lra); set (i := (1 / l)%R) in *.
    all: try ring.
    all: transitivity (i * i * ((0 * z - 1 * y) * (0 * z - 1 * y) + (1 * x - 0 * z) * (1 * x - 0 * z) + (0 * y - 0 * x) * (0 * y - 0 * x)))%R; [ring|]; rewrite <- Hss;
      transitivity ((i * l) * (i * l))%R; [ring|rewrite Hi; ring].
Qed.

(** ** Frequencies *)

Lemma zrange_in n x : In x (zrange n) <-> 0 <= x < n.
Proof.
  unfold zrange. rewrite in_map_iff. split.
  - intros (i & <- & Hi). apply in_seq in Hi. lia.
  - intros H. exists (Z.to_nat x). rewrite in_seq. lia.
Qed.
Lemma zrange_nodup n : NoDup (zrange n).
Proof. unfold zrange. apply FinFun.Injective_map_NoDup; [intros a b; lia|apply seq_NoDup]. Qed.
Lemma zrange_len n : length (zrange n) = Z.to_nat n.
Proof. unfold zrange. rewrite map_length, seq_length. reflexivity. Qed.

Lemma kidx_freq n x : 0 <= x < n -> freq n (kidx n x).
Proof.
  intros H. unfold freq, kidx. rewrite Z.quot_div_nonneg by lia. destruct (Z.eqb_spec n 1) as [->|].
  - replace x with 0 by lia. reflexivity.
  - pose proof (Z.div_mod n 2 ltac:(lia)). pose proof (Z.mod_pos_bound n 2 ltac:(lia)). rewrite Z.geb_leb. destruct (Z.leb_spec (Z.max 1 (n / 2)) x); lia.
Qed.
Lemma order_kidx n x : 0 <= x < n -> order_pos n (- kidx n x) = Val x.
Proof.
  intros H. unfold order_pos, kidx. rewrite Z.quot_div_nonneg by lia. pose proof (Z.div_mod n 2 ltac:(lia)). pose proof (Z.mod_pos_bound n 2 ltac:(lia)).
  rewrite Z.geb_leb, Z.gtb_ltb. destruct (Z.leb_spec (Z.max 1 (n / 2)) x).
  - destruct (Z.ltb_spec 0 (- (x - n))); [|lia]. replace (n - - (x - n)) with x by lia. destruct (Z.leb_spec 0 x), (Z.ltb_spec x n); try lia. reflexivity.
  - destruct (Z.ltb_spec 0 (- x)); [lia|]. replace (- - x) with x by lia. destruct (Z.leb_spec 0 x), (Z.ltb_spec x n); try lia. reflexivity.
Qed.
Lemma kidx_onto n g : 0 < n -> freq n g -> exists x, 0 <= x < n /\ kidx n x = g.
Proof.
  intros Hn. unfold freq, kidx. rewrite Z.quot_div_nonneg by lia. pose proof (Z.div_mod n 2 ltac:(lia)). pose proof (Z.mod_pos_bound n 2 ltac:(lia)).
  destruct (Z.eqb_spec n 1) as [->|].
  - intros ->. exists 0. split; [lia|reflexivity].
  - intros Hg. exists (if g <? 0 then g + n else g). rewrite Z.geb_leb. destruct (Z.ltb_spec g 0); split; try lia.
    + destruct (Z.leb_spec (Z.max 1 (n / 2)) (g + n)); lia.
    + destruct (Z.leb_spec (Z.max 1 (n / 2)) g); lia.
Qed.
Lemma kidx_inj n x x' : 0 <= x < n -> 0 <= x' < n -> kidx n x = kidx n x' -> x = x'.
Proof. intros H H' E. pose proof (order_kidx n x H) as A. pose proof (order_kidx n x' H') as B. rewrite E, B in A. congruence. Qed.
Lemma order_freq n g : 0 < n -> freq n (- g) -> exists x, order_pos n g = Val x /\ 0 <= x < n /\ kidx n x = - g.
Proof.
  intros Hn H. destruct (kidx_onto n (- g) Hn H) as (x & Hx & E). exists x. split; [|auto]. rewrite <- (order_kidx n x Hx), E. f_equal. lia.
Qed.

(** ** Nested enumerations *)

Lemma map_flat_map {A B D} (f : B -> D) (g : A -> list B) l : map f (flat_map g l) = flat_map (fun a => map f (g a)) l.
Proof. induction l as [|a l IH]; cbn; [reflexivity|]. rewrite map_app, IH. reflexivity. Qed.
Lemma zrange_S n : zrange (Z.of_nat (S n)) = zrange (Z.of_nat n) ++ [Z.of_nat n].
Proof. unfold zrange. rewrite !Nat2Z.id. rewrite seq_S, map_app. reflexivity. Qed.
Lemma zrange_add n m : 0 <= n -> 0 <= m -> zrange (n + m) = zrange n ++ map (fun i => n + i) (zrange m).
Proof.
  intros Hn Hm. unfold zrange. rewrite Z2Nat.inj_add, seq_app, map_app by lia. f_equal. rewrite map_map.
  replace (seq (0 + Z.to_nat n) (Z.to_nat m)) with (map (fun i => Z.to_nat n + i)%nat (seq 0 (Z.to_nat m))).
  - rewrite map_map. apply map_ext. intros. lia.
  - generalize (Z.to_nat n) as a, (Z.to_nat m) as b. intros a b. cbn [Nat.add]. revert a. induction b as [|b IH]; intros a; [reflexivity|].
    rewrite !seq_S, map_app, IH. cbn. reflexivity.
Qed.
Lemma flat_ext {A B} (f g : A -> list B) l : (forall a, In a l -> f a = g a) -> flat_map f l = flat_map g l.
Proof. intros H. induction l as [|a l IH]; cbn; [reflexivity|]. rewrite H by (left; reflexivity). rewrite IH; [reflexivity|]. intros; apply H; right; assumption. Qed.
Lemma flat_map_map {A B D} (f : A -> B) (g : B -> list D) l : flat_map g (map f l) = flat_map (fun a => g (f a)) l.
Proof. induction l as [|a l IH]; cbn; [reflexivity|]. rewrite IH. reflexivity. Qed.
(** Two nested loops are one over the product. *)
Lemma zrange_mul {B} (h : Z -> list B) a b : 0 <= a -> 0 <= b ->
  flat_map (fun i => flat_map (fun j => h (i * b + j)) (zrange b)) (zrange a) = flat_map h (zrange (a * b)).
Proof.
  intros Ha Hb. rewrite <- (Z2Nat.id a) by exact Ha. generalize (Z.to_nat a) as n. induction n as [|n IH]; [reflexivity|].
  rewrite zrange_S, flat_map_app, IH. cbn [flat_map]. rewrite app_nil_r. replace (Z.of_nat (S n) * b) with (Z.of_nat n * b + b) by lia.
  rewrite zrange_add by lia. rewrite flat_map_app. f_equal. rewrite flat_map_map. reflexivity.
Qed.
Lemma flat_single {A} (l : list A) : flat_map (fun x => [x]) l = l.
Proof. induction l; cbn; congruence. Qed.
Lemma map_as_flat {A B} (f : A -> B) l : map f l = flat_map (fun x => [f x]) l.
Proof. induction l; cbn; congruence. Qed.

Lemma idx2 a b : 0 <= a -> 0 <= b -> flat_map (fun i => map (fun j => i * b + j) (zrange b)) (zrange a) = zrange (a * b).
Proof.
  intros Ha Hb. rewrite <- (flat_single (zrange (a * b))), <- (zrange_mul (fun x => [x])) by lia. apply flat_ext. intros i _. rewrite map_as_flat. reflexivity.
Qed.
Lemma idx3 a b c : 0 <= a -> 0 <= b -> 0 <= c ->
  flat_map (fun i => flat_map (fun j => map (fun k => (i * b + j) * c + k) (zrange c)) (zrange b)) (zrange a) = zrange (a * b * c).
Proof. intros Ha Hb Hc. rewrite (zrange_mul (fun q => map (fun k => q * c + k) (zrange c))) by lia. apply idx2; nia. Qed.

Lemma nodup_fst (L : list (Z * Z * Z * Z)) (phi : Z * Z * Z -> Z) : NoDup (map snd L) -> (forall t, In t L -> snd t = phi (fst t)) -> NoDup (map fst L).
Proof.
  induction L as [|t L IH]; intros Nd H; [constructor|]. cbn in *. inversion Nd as [|? ? Hni Nd']; subst. constructor.
  - intros Hin. apply Hni. apply in_map_iff in Hin as (u & E & Hu). apply in_map_iff. exists u. split; [|exact Hu].
    rewrite (H u) by auto. rewrite (H t) by auto. congruence.
  - apply IH; auto.
Qed.

Lemma loop_complex_ok n1 n2 n3 : 0 <= n1 -> 0 <= n2 -> 0 <= n3 -> visits (loop_complex n1 n2 n3) (n1 * n2 * n3) (box 0 n1 0 n2 0 n3).
Proof.
  intros H1 H2 H3.
  assert (M : map snd (loop_complex n1 n2 n3) = zrange (n1 * n2 * n3)).
  { unfold loop_complex. rewrite map_flat_map. rewrite <- idx3 by auto. apply flat_ext. intros i1 _. rewrite map_flat_map. apply flat_ext. intros i2 _. rewrite map_map. reflexivity. }
  assert (I : forall i1 i2 i3 x, In (i1, i2, i3, x) (loop_complex n1 n2 n3) <-> box 0 n1 0 n2 0 n3 (i1, i2, i3) /\ x = (i1 * n2 + i2) * n3 + i3).
  { intros i1 i2 i3 x. unfold loop_complex, box. rewrite in_flat_map. split.
    - intros (a & Ha & Hin). apply in_flat_map in Hin as (b & Hb & Hin). apply in_map_iff in Hin as (c & E & Hc). rewrite zrange_in in *. injection E as <- <- <- <-. auto.
    - intros ((A & B & C) & ->). exists i1. rewrite zrange_in. split; [exact A|]. apply in_flat_map. exists i2. rewrite zrange_in. split; [exact B|].
      apply in_map_iff. exists i3. rewrite zrange_in. auto. }
  split; [exact M|]. split.
  - apply (nodup_fst _ (fun c => (fst (fst c) * n2 + snd (fst c)) * n3 + snd c)); [rewrite M; apply zrange_nodup|]. intros (((i1, i2), i3), x) Hin. apply I in Hin. apply Hin.
  - intros ((i1, i2), i3). rewrite in_map_iff. split.
    + intros ((c & x) & E & Hin). cbn [fst] in E. subst c. apply I in Hin. apply Hin.
    + intros Hb. exists (i1, i2, i3, (i1 * n2 + i2) * n3 + i3). split; [reflexivity|]. apply I. auto.
Qed.

(** Both parallel loops have this shape. *)
Lemma loop_mpi_gen n1 l3 local_n2 start : 0 <= n1 -> 0 <= local_n2 -> 0 <= l3 ->
  visits (flat_map (fun i2_ => flat_map (fun i1 => map (fun i3 => (i1, i2_ + start, i3, (i2_ * n1 + i1) * l3 + i3)) (zrange l3)) (zrange n1)) (zrange local_n2))
    (local_n2 * n1 * l3) (box 0 n1 start (start + local_n2) 0 l3).
Proof.
  intros H1 H2 H3. set (L := flat_map _ _).
  assert (M : map snd L = zrange (local_n2 * n1 * l3)).
  { unfold L. rewrite map_flat_map. rewrite <- idx3 by auto. apply flat_ext. intros i1 _. rewrite map_flat_map. apply flat_ext. intros i2 _. rewrite map_map. reflexivity. }
  assert (I : forall i1 i2 i3 x, In (i1, i2, i3, x) L <-> box 0 n1 start (start + local_n2) 0 l3 (i1, i2, i3) /\ x = ((i2 - start) * n1 + i1) * l3 + i3).
  { intros i1 i2 i3 x. unfold L, box. rewrite in_flat_map. split.
    - intros (a & Ha & Hin). apply in_flat_map in Hin as (b & Hb & Hin). apply in_map_iff in Hin as (c & E & Hc). rewrite zrange_in in *. injection E as <- <- <- <-.
      replace (a + start - start) with a by lia. repeat split; lia.
    - intros ((A & B & C) & ->). exists (i2 - start). rewrite zrange_in. split; [lia|]. apply in_flat_map. exists i1. rewrite zrange_in. split; [exact A|].
      apply in_map_iff. exists i3. rewrite zrange_in. replace (i2 - start + start) with i2 by lia. auto. }
  split; [exact M|]. split.
  - apply (nodup_fst _ (fun c => ((snd (fst c) - start) * n1 + fst (fst c)) * l3 + snd c)); [rewrite M; apply zrange_nodup|]. intros (((i1, i2), i3), x) Hin. apply I in Hin. apply Hin.
  - intros ((i1, i2), i3). rewrite in_map_iff. split.
    + intros ((c & x) & E & Hin). cbn [fst] in E. subst c. apply I in Hin. apply Hin.
    + intros Hb. exists (i1, i2, i3, ((i2 - start) * n1 + i1) * l3 + i3). split; [reflexivity|]. apply I. auto.
Qed.

(** Half grids, serial. *)
Lemma quot_half n : 0 <= n -> Z.quot (2 * (Z.quot n 2 + 1)) 2 = n / 2 + 1.
Proof. intros. rewrite (Z.mul_comm 2), Z.quot_mul by lia. rewrite Z.quot_div_nonneg by lia. reflexivity. Qed.

Lemma loop_real_ok n1 n2 n3 : 0 < n1 -> 0 < n2 -> 0 < n3 ->
  let size := if n3 =? 1 then (if n2 =? 1 then n1 / 2 + 1 else n1 * (n2 / 2 + 1)) else n1 * n2 * (n3 / 2 + 1) in
  visits (loop_real n1 n2 n3) size
    (if n3 =? 1 then (if n2 =? 1 then box 0 (n1 / 2 + 1) 0 1 0 1 else box 0 n1 0 (n2 / 2 + 1) 0 1) else box 0 n1 0 n2 0 (n3 / 2 + 1)).
Proof.
  intros H1 H2 H3. cbv zeta. unfold loop_real, last_dim_size, other_dims, last_dim, fft_rank, local_N.
  assert (P1 := Z.div_pos n1 2 ltac:(lia) ltac:(lia)). assert (P2 := Z.div_pos n2 2 ltac:(lia) ltac:(lia)). assert (P3 := Z.div_pos n3 2 ltac:(lia) ltac:(lia)).
  assert (Gen : forall a b (f : Z -> Z -> Z * Z * Z) (phi : Z * Z * Z -> Z) (P : Z * Z * Z -> Prop), 0 <= a -> 0 <= b ->
     (forall i j, 0 <= i < a -> 0 <= j < b -> P (f i j) /\ phi (f i j) = i * b + j) ->
     (forall c, P c -> exists i j, 0 <= i < a /\ 0 <= j < b /\ f i j = c) ->
     visits (flat_map (fun i => map (fun j => (f i j, i * b + j)) (zrange b)) (zrange a)) (a * b) P).
  { intros a b f phi P Ha Hb Hf Ho. set (L := flat_map _ _).
    assert (M : map snd L = zrange (a * b)).
    { unfold L. rewrite map_flat_map, <- idx2 by lia. apply flat_ext. intros i _. rewrite map_map. reflexivity. }
    assert (I : forall t, In t L -> exists i j, 0 <= i < a /\ 0 <= j < b /\ t = (f i j, i * b + j)).
    { intros t Ht. apply in_flat_map in Ht as (i & Hi & Ht). apply in_map_iff in Ht as (j & <- & Hj). rewrite zrange_in in *. exists i, j. auto. }
    split; [exact M|]. split.
    - apply (nodup_fst _ phi); [rewrite M; apply zrange_nodup|]. intros t Ht. destruct (I t Ht) as (i & j & Hi & Hj & ->). symmetry. apply Hf; auto.
    - intros c. rewrite in_map_iff. split.
      + intros (t & <- & Ht). destruct (I t Ht) as (i & j & Hi & Hj & ->). apply Hf; auto.
      + intros Hc. destruct (Ho c Hc) as (i & j & Hi & Hj & <-). exists (f i j, i * b + j). split; [reflexivity|]. apply in_flat_map. exists i. rewrite zrange_in. split; [exact Hi|].
        apply in_map_iff. exists j. rewrite zrange_in. auto. }
  destruct (Z.eqb_spec n3 1) as [->|N3]; [destruct (Z.eqb_spec n2 1) as [->|N2]|]; cbn [Z.eqb Pos.eqb].
  - rewrite quot_half by lia. rewrite !Z.mul_1_r. rewrite Z.quot_same by lia. match goal with |- visits ?L _ ?P => cut (visits L (1 * (n1 / 2 + 1)) P); [rewrite Z.mul_1_l; intros X; exact X|] end.
    apply (Gen 1 (n1 / 2 + 1) (fun _ j => (j, 0, 0)) (fun c => fst (fst c))); try lia; unfold box; cbn [fst snd].
    + intros i j Hi Hj. lia.
    + intros ((c1, c2), c3) Hc. exists 0, c1. replace c2 with 0 by lia. replace c3 with 0 by lia. repeat split; lia.
  - rewrite quot_half by lia. rewrite Z.mul_1_r, Z.quot_mul by lia.
    apply (Gen n1 (n2 / 2 + 1) (fun i j => (i, j, 0)) (fun c => fst (fst c) * (n2 / 2 + 1) + snd (fst c))); try lia; unfold box; cbn [fst snd].
    + intros i j Hi Hj. lia.
    + intros ((c1, c2), c3) Hc. exists c1, c2. replace c3 with 0 by lia. repeat split; lia.
  - rewrite quot_half by lia. rewrite Z.quot_mul by lia.
    apply (Gen (n1 * n2) (n3 / 2 + 1) (fun i j => (Z.quot i n2, Z.rem i n2, j)) (fun c => (fst (fst c) * n2 + snd (fst c)) * (n3 / 2 + 1) + snd c)); try lia; unfold box; cbn [fst snd].
    + intros i j Hi Hj. rewrite Z.quot_div_nonneg, Z.rem_mod_nonneg by lia. pose proof (Z.div_mod i n2 ltac:(lia)). pose proof (Z.mod_pos_bound i n2 ltac:(lia)).
      assert (0 <= i / n2 < n1) by (split; [apply Z.div_pos; lia|apply Z.div_lt_upper_bound; lia]).
      split; [lia|]. replace (i / n2 * n2 + i mod n2) with i by lia. reflexivity.
    + intros ((c1, c2), c3) Hc. exists (c1 * n2 + c2), c3. assert (0 <= c1 * n2 + c2 < n1 * n2) by (apply (rowin n1 n2 n2); lia).
      rewrite Z.quot_div_nonneg, Z.rem_mod_nonneg, dm_div, dm_mod by lia. repeat split; lia.
Qed.
