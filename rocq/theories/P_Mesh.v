(** Property C56: the subpixel averaging mesh. *)
From Coq Require Import Reals Lra Lia List Bool ZArith.
From Verif Require Import Base RC M_Tensor S_Tensor S_Sphere L_Sphere L_Sphere2 L_Mesh.
Import ListNotations.
Local Open Scope R_scope.

(** As many samples as the product of the mesh sizes. *)
Theorem C56_mesh_count : forall ms s r, (let '(a, b, c) := ms in (1 <= a /\ 1 <= b /\ 1 <= c)%Z) ->
  Z.of_nat (length (mesh_points ms s r)) = (let '(a, b, c) := ms in a * b * c)%Z.
Proof. intros [[a b] c] s r H. rewrite (mesh_length (a, b, c) s r H). destruct H as (? & ? & ?). unfold mesh_prod. rewrite !Z.max_l by lia. reflexivity. Qed.
Print Assumptions C56_mesh_count.

(** Every sample lies strictly inside the voxel of the grid point. *)
Theorem C56_mesh_in_voxel : forall ms s r q, (let '(a, b, c) := ms in (1 <= a /\ 1 <= b /\ 1 <= c)%Z) ->
  (let '(s1, s2, s3) := s in 0 < s1 /\ 0 < s2 /\ 0 < s3) -> In q (mesh_points ms s r) ->
  let '(s1, s2, s3) := s in let '(x, y, z) := r in let '(qx, qy, qz) := q in
  Rabs (qx - x) < s1 / 2 /\ Rabs (qy - y) < s2 / 2 /\ Rabs (qz - z) < s3 / 2.
Proof. exact mesh_in_voxel. Qed.
Print Assumptions C56_mesh_in_voxel.

(** The samples are centred on the grid point. *)
Theorem C56_mesh_centred : forall ms s r, (let '(a, b, c) := ms in (1 <= a /\ 1 <= b /\ 1 <= c)%Z) ->
  let '(x, y, z) := r in
  fold_right Rplus 0 (map (fun q => fst (fst q) - x) (mesh_points ms s r)) = 0 /\
  fold_right Rplus 0 (map (fun q => snd (fst q) - y) (mesh_points ms s r)) = 0 /\
  fold_right Rplus 0 (map (fun q => snd q - z) (mesh_points ms s r)) = 0.
Proof. exact mesh_centred. Qed.
Print Assumptions C56_mesh_centred.

(** The samples of all voxels together are the points of one uniform grid, [a * n1]
    points per lattice vector, each belonging to exactly the voxel of its block. *)
Theorem C56_mesh_uniform : forall (n ms i : Z * Z * Z) q,
  (let '(n1, n2, n3) := n in (1 <= n1 /\ 1 <= n2 /\ 1 <= n3)%Z) ->
  (let '(a, b, c) := ms in (1 <= a /\ 1 <= b /\ 1 <= c)%Z) ->
  let '(n1, n2, n3) := n in let '(a, b, c) := ms in let '(i1, i2, i3) := i in
  In q (mesh_points ms (1 / IZR n1, 1 / IZR n2, 1 / IZR n3)
                       (IZR i1 * (1 / IZR n1), IZR i2 * (1 / IZR n2), IZR i3 * (1 / IZR n3))) <->
  exists m1 m2 m3,
    (i1 * a <= m1 < (i1 + 1) * a)%Z /\ (i2 * b <= m2 < (i2 + 1) * b)%Z /\ (i3 * c <= m3 < (i3 + 1) * c)%Z /\
    q = ((IZR m1 - (IZR a - 1) / 2) / IZR (n1 * a),
         (IZR m2 - (IZR b - 1) / 2) / IZR (n2 * b),
         (IZR m3 - (IZR c - 1) / 2) / IZR (n3 * c)).
Proof. exact mesh_uniform. Qed.
Print Assumptions C56_mesh_uniform.

(** Non-vacuity: a 2 x 1 x 1 mesh in a voxel of size one half. *)
Example C56_example : mesh_points (2, 1, 1)%Z (1/2, 1, 1) (0, 0, 0) =
  [ (0 + (0 - mesh_center 2) * (1/2/2), 0 + (0 - mesh_center 1) * (1/1), 0 + (0 - mesh_center 1) * (1/1));
    (0 + (1 - mesh_center 2) * (1/2/2), 0 + (0 - mesh_center 1) * (1/1), 0 + (0 - mesh_center 1) * (1/1)) ].
Proof. reflexivity. Qed.
