(** Proofs about the subpixel averaging mesh. *)
From Coq Require Import Reals Lra Lia List Bool ZArith.
From Verif Require Import Base RC M_Tensor S_Tensor L_Sphere L_Sphere2.
Import ListNotations.
Local Open Scope R_scope.

Lemma zrange_in n i : In i (zrange n) <-> (0 <= i < n)%Z.
Proof.
  unfold zrange. rewrite in_map_iff. split.
  - intros (k & <- & Hk). apply in_seq in Hk. lia.
  - intros H. exists (Z.to_nat i). split; [lia|]. apply in_seq. lia.
Qed.
Lemma zrange_length n : length (zrange n) = Z.to_nat n.
Proof. unfold zrange. rewrite map_length, seq_length. reflexivity. Qed.

Lemma flat_map_length_const {A B} (f : A -> list B) l k : (forall a, length (f a) = k) -> length (flat_map f l) = (length l * k)%nat.
Proof. intros H. induction l as [|a l IH]; [reflexivity|]. cbn. rewrite app_length, H, IH. reflexivity. Qed.

Lemma mesh_length ms s r : (let '(a, b, c) := ms in (1 <= a /\ 1 <= b /\ 1 <= c)%Z) ->
  Z.of_nat (length (mesh_points ms s r)) = mesh_prod ms.
Proof.
  destruct ms as [[a b] c]. intros (Ha & Hb & Hc). unfold mesh_points, mesh_prod. destruct s as [[s1 s2] s3], r as [[x y] z].
  erewrite flat_map_length_const.
  2:{ intros i. erewrite flat_map_length_const; [reflexivity|]. intros j. rewrite map_length. reflexivity. }
  rewrite !zrange_length. rewrite !Z.max_l by lia. nia.
Qed.

Lemma mesh_in ms s r q : In q (mesh_points ms s r) <->
  let '(a, b, c) := ms in let '(s1, s2, s3) := s in let '(x, y, z) := r in
  exists i j k, (0 <= i < a)%Z /\ (0 <= j < b)%Z /\ (0 <= k < c)%Z /\
    q = (x + (IZR i - mesh_center a) * (s1 / IZR (Z.max 1 a)),
         y + (IZR j - mesh_center b) * (s2 / IZR (Z.max 1 b)),
         z + (IZR k - mesh_center c) * (s3 / IZR (Z.max 1 c))).
Proof.
  destruct ms as [[a b] c], s as [[s1 s2] s3], r as [[x y] z]. unfold mesh_points. rewrite in_flat_map. split.
  - intros (i & Hi & H). apply in_flat_map in H. destruct H as (j & Hj & H). apply in_map_iff in H. destruct H as (k & <- & Hk).
    apply zrange_in in Hi, Hj, Hk. exists i, j, k. auto.
  - intros (i & j & k & Hi & Hj & Hk & ->). exists i. split; [apply zrange_in; exact Hi|]. apply in_flat_map. exists j.
    split; [apply zrange_in; exact Hj|]. apply in_map_iff. exists k. split; [reflexivity|apply zrange_in; exact Hk].
Qed.

Lemma offset_bound a i s : (1 <= a)%Z -> (0 <= i < a)%Z -> 0 < s ->
  Rabs ((IZR i - mesh_center a) * (s / IZR (Z.max 1 a))) < s / 2.
Proof.
  intros Ha Hi Hs. unfold mesh_center. rewrite Z.max_l, Z.max_r by lia.
  assert (H1 : 1 <= IZR a) by (apply IZR_le; lia). assert (H2 : 0 <= IZR i) by (apply IZR_le; lia).
  assert (H3 : IZR i <= IZR a - 1) by (rewrite <- minus_IZR; apply IZR_le; lia).
  rewrite minus_IZR. set (A := IZR a) in *. set (I := IZR i) in *. clearbody A I.
  assert (E : (I - (A - 1) * (1/2)) * (s / A) = s * ((I - (A-1)*(1/2)) / A)) by (field; lra).
  rewrite E. assert (Hb : -1/2 < (I - (A-1)*(1/2)) / A < 1/2).
  { assert (Q : (I - (A - 1) * (1 / 2)) / A * A = I - (A - 1) * (1 / 2)) by (field; lra).
    split; apply (Rmult_lt_reg_r A); try rewrite Q; lra. }
  apply Rabs_def1; nra.
Qed.

Lemma mesh_in_voxel ms s r q : (let '(a, b, c) := ms in (1 <= a /\ 1 <= b /\ 1 <= c)%Z) ->
  (let '(s1, s2, s3) := s in 0 < s1 /\ 0 < s2 /\ 0 < s3) -> In q (mesh_points ms s r) ->
  let '(s1, s2, s3) := s in let '(x, y, z) := r in let '(qx, qy, qz) := q in
  Rabs (qx - x) < s1 / 2 /\ Rabs (qy - y) < s2 / 2 /\ Rabs (qz - z) < s3 / 2.
Proof.
  intros Hm Hs Hq. apply mesh_in in Hq. destruct ms as [[a b] c], s as [[s1 s2] s3], r as [[x y] z].
  destruct Hq as (i & j & k & Hi & Hj & Hk & ->).
  replace (x + (IZR i - mesh_center a) * (s1 / IZR (Z.max 1 a)) - x) with ((IZR i - mesh_center a) * (s1 / IZR (Z.max 1 a))) by ring.
  replace (y + (IZR j - mesh_center b) * (s2 / IZR (Z.max 1 b)) - y) with ((IZR j - mesh_center b) * (s2 / IZR (Z.max 1 b))) by ring.
  replace (z + (IZR k - mesh_center c) * (s3 / IZR (Z.max 1 c)) - z) with ((IZR k - mesh_center c) * (s3 / IZR (Z.max 1 c))) by ring.
  repeat split; apply offset_bound; lia || apply Hs.
Qed.

(** Sum of a function of the mesh points *)
Lemma sumR_app l l' : sumR (l ++ l') = sumR l + sumR l'.
Proof. unfold sumR. induction l as [|a l IH]; cbn; [ring|]. rewrite IH. ring. Qed.
Lemma sumR_flat {A B} (f : A -> list B) (g : B -> R) l :
  sumR (map g (flat_map f l)) = sumR (map (fun a => sumR (map g (f a))) l).
Proof. induction l as [|a l IH]; [reflexivity|]. cbn [flat_map map]. rewrite map_app, sumR_app, IH. reflexivity. Qed.
Lemma sumR_const {A} c (l : list A) : sumR (map (fun _ => c) l) = INR (length l) * c.
Proof.
  unfold sumR. induction l as [|a l IH]; [cbn; ring|]. cbn [map fold_right length]. rewrite IH, S_INR. ring.
Qed.

Lemma sum_zrange n : (0 <= n)%Z -> sumR (map IZR (zrange n)) = IZR n * (IZR n - 1) / 2.
Proof.
  intros Hn. unfold zrange. rewrite map_map. rewrite <- (Z2Nat.id n) at 2 3 by exact Hn.
  induction (Z.to_nat n) as [|m IH]; [cbn; lra|].
  rewrite seq_S, map_app, sumR_app, IH. cbn [map plus]. unfold sumR at 1. cbn [fold_right].
  rewrite Nat2Z.inj_succ, succ_IZR. field.
Qed.

Lemma centred_sum a c : (1 <= a)%Z -> sumR (map (fun i => (IZR i - mesh_center a) * c) (zrange a)) = 0.
Proof.
  intros Ha. transitivity (c * sumR (map IZR (zrange a)) - c * mesh_center a * INR (length (zrange a))).
  - rewrite <- sumR_scal. rewrite (Rmult_comm (c * mesh_center a)). rewrite <- (sumR_const (c * mesh_center a)).
    unfold Rminus. rewrite <- (Rmult_1_l (sumR (map (fun _ : Z => c * mesh_center a) (zrange a)))).
    rewrite <- Ropp_mult_distr_l_reverse, <- sumR_scal, <- sumR_add. apply sumR_ext. intros i _. ring.
  - rewrite sum_zrange by lia. rewrite zrange_length, INR_IZR_INZ, Z2Nat.id by lia.
    unfold mesh_center. rewrite Z.max_l by lia. rewrite minus_IZR. field.
Qed.

Lemma mesh_centred ms s r : (let '(a, b, c) := ms in (1 <= a /\ 1 <= b /\ 1 <= c)%Z) ->
  let '(x, y, z) := r in
  sumR (map (fun q => fst (fst q) - x) (mesh_points ms s r)) = 0 /\
  sumR (map (fun q => snd (fst q) - y) (mesh_points ms s r)) = 0 /\
  sumR (map (fun q => snd q - z) (mesh_points ms s r)) = 0.
Proof.
  destruct ms as [[a b] c], s as [[s1 s2] s3], r as [[x y] z]. intros (Ha & Hb & Hc).
  unfold mesh_points. rewrite !sumR_flat.
  repeat split.
  - erewrite sumR_ext.
    2:{ intros i _. rewrite sumR_flat. erewrite sumR_ext.
        2:{ intros j _. rewrite map_map. cbn [fst snd]. rewrite sumR_const. reflexivity. }
        rewrite sumR_const. reflexivity. }
    erewrite sumR_ext.
    2:{ intros i _. instantiate (1 := fun i => INR (length (zrange b)) * INR (length (zrange c)) * ((IZR i - mesh_center a) * (s1 / IZR (Z.max 1 a)))).
        cbn beta. ring. }
    rewrite sumR_scal, centred_sum by exact Ha. ring.
  - erewrite sumR_ext.
    2:{ intros i _. rewrite sumR_flat. erewrite sumR_ext.
        2:{ intros j _. rewrite map_map. cbn [fst snd]. rewrite sumR_const. 
            instantiate (1 := fun j => INR (length (zrange c)) * ((IZR j - mesh_center b) * (s2 / IZR (Z.max 1 b)))). cbn beta. ring. }
        rewrite sumR_scal, centred_sum by exact Hb. reflexivity. }
    rewrite sumR_const. ring.
  - erewrite sumR_ext.
    2:{ intros i _. rewrite sumR_flat. erewrite sumR_ext.
        2:{ intros j _. rewrite map_map. cbn [fst snd]. erewrite sumR_ext.
            2:{ intros k _. instantiate (1 := fun k => (IZR k - mesh_center c) * (s3 / IZR (Z.max 1 c))). cbn beta. ring. }
            rewrite centred_sum by exact Hc. reflexivity. }
        rewrite sumR_const. reflexivity. }
    rewrite sumR_const. ring.
Qed.

(** The samples of all voxels along one direction form one uniform grid. *)
Lemma mesh_uniform_coord n a i1 i : (1 <= n)%Z -> (1 <= a)%Z ->
  IZR i1 * (1 / IZR n) + (IZR i - mesh_center a) * (1 / IZR n / IZR (Z.max 1 a)) =
  (IZR (i1 * a + i) - (IZR a - 1) / 2) / IZR (n * a).
Proof.
  intros Hn Ha. unfold mesh_center. rewrite Z.max_l, Z.max_r by lia. rewrite minus_IZR, plus_IZR, !mult_IZR.
  assert (0 < IZR n) by (apply IZR_lt; lia). assert (0 < IZR a) by (apply IZR_lt; lia). field. lra.
Qed.

Lemma mesh_uniform (n ms i : Z * Z * Z) q :
  (let '(n1, n2, n3) := n in (1 <= n1 /\ 1 <= n2 /\ 1 <= n3)%Z) ->
  (let '(a, b, c) := ms in (1 <= a /\ 1 <= b /\ 1 <= c)%Z) ->
  let '(n1, n2, n3) := n in let '(a, b, c) := ms in let '(i1, i2, i3) := i in
  In q (mesh_points ms (1 / IZR n1, 1 / IZR n2, 1 / IZR n3) (IZR i1 * (1 / IZR n1), IZR i2 * (1 / IZR n2), IZR i3 * (1 / IZR n3))) <->
  exists m1 m2 m3, (i1 * a <= m1 < (i1 + 1) * a)%Z /\ (i2 * b <= m2 < (i2 + 1) * b)%Z /\ (i3 * c <= m3 < (i3 + 1) * c)%Z /\
    q = ((IZR m1 - (IZR a - 1) / 2) / IZR (n1 * a), (IZR m2 - (IZR b - 1) / 2) / IZR (n2 * b), (IZR m3 - (IZR c - 1) / 2) / IZR (n3 * c)).
Proof.
  destruct n as [[n1 n2] n3], ms as [[a b] c], i as [[i1 i2] i3]. intros (N1 & N2 & N3) (A1 & A2 & A3).
  rewrite mesh_in. split.
  - intros (i & j & k & Hi & Hj & Hk & ->). exists (i1 * a + i)%Z, (i2 * b + j)%Z, (i3 * c + k)%Z.
    split; [lia|]. split; [lia|]. split; [lia|]. rewrite !mesh_uniform_coord by assumption. reflexivity.
  - intros (m1 & m2 & m3 & H1 & H2 & H3 & ->). exists (m1 - i1 * a)%Z, (m2 - i2 * b)%Z, (m3 - i3 * c)%Z.
    split; [lia|]. split; [lia|]. split; [lia|]. rewrite !mesh_uniform_coord by assumption.
    repeat (f_equal; [f_equal|]); (do 3 f_equal); lia || (f_equal; lia).
Qed.
