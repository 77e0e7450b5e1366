(** Proofs about fields and energies. *)
From Coq Require Import List ZArith Reals Bool Lia Lra.
From Verif Require Import Base RC Loops M_Tensor S_Tensor M_Evect S_Evect L_Evect L_Evect3 M_Grid S_Grid M_Op S_Op L_Op L_Op2 L_Op3 L_Op4 L_Op5 M_Fld S_Fld.
Import ListNotations.
Local Open Scope Z_scope.

Lemma flat_nth f : forall j z, nth_error f j = Some z -> nth_error (flat f) (2 * j) = Some (re z) /\ nth_error (flat f) (2 * j + 1) = Some (im z).
Proof.
  induction f as [|a f IH]; intros j z H; [destruct j; discriminate|].
  destruct j as [|j].
  - injection H as ->. split; reflexivity.
  - cbn [nth_error] in H. destruct (IH j z H) as (H1 & H2). replace (2 * S j)%nat with (S (S (2 * j))) by lia.
    change (S (S (2 * j)) + 1)%nat with (S (S (2 * j + 1))). split; assumption.
Qed.
Lemma flat_length f : length (flat f) = (2 * length f)%nat.
Proof. induction f as [|a f IH]; [reflexivity|]. cbn [flat flat_map app length]. fold (flat f). rewrite IH. lia. Qed.

Lemma rd_nth_error {A} (l : list A) j v : nth_error l j = Some v -> rd l (Z.of_nat j) = Val v.
Proof. intros H. unfold rd. destruct (Z.ltb_spec (Z.of_nat j) 0); [lia|]. rewrite Nat2Z.id, H. reflexivity. Qed.

Lemma cget_flat f j : 0 <= j < Z.of_nat (length f) -> cget (flat f) j = Val (gets f j).
Proof.
  intros H. pose proof (gets_in f j H) as G. assert (E : nth_error f (Z.to_nat j) = Some (gets f j)).
  { unfold rd in G. destruct (Z.ltb_spec j 0); [lia|]. destruct (nth_error f (Z.to_nat j)) as [z|]; [|discriminate]. injection G as G. f_equal. exact G. }
  destruct (flat_nth f _ _ E) as (E1 & E2). apply rd_nth_error in E1, E2. unfold cget.
  replace (Z.of_nat (2 * Z.to_nat j)) with (2 * j) in E1 by lia. replace (Z.of_nat (2 * Z.to_nat j + 1)) with (2 * j + 1) in E2 by lia.
  rewrite E1. cbn [bind]. rewrite E2. cbn [bind]. destruct (gets f j); reflexivity.
Qed.
Lemma cget_same m m' j : rd m (2 * j) = rd m' (2 * j) -> rd m (2 * j + 1) = rd m' (2 * j + 1) -> cget m j = cget m' j.
Proof. intros H1 H2. unfold cget. rewrite H1, H2. reflexivity. Qed.

Lemma scale_field_ok n s f : 0 <= n <= Z.of_nat (length f) -> exists f', scale_field n s f = Val f' /\ length f' = length f /\
  (forall i, 0 <= i < n -> gets f' i = Cscal s (gets f i)) /\ (forall i, n <= i -> gets f' i = gets f i).
Proof.
  intros Hn. unfold scale_field.
  destruct (forZ_inv (fun i g => length g = length f /\ (forall x, 0 <= x < i -> gets g x = Cscal s (gets f x)) /\ (forall x, i <= x -> gets g x = gets f x))
    (fun i f => let! v := rd f i in wr f i (re v * s, im v * s)%R) 0 n f) as (f' & E & L & H1 & H2).
  - lia.
  - split; [reflexivity|]. split; [intros; lia|reflexivity].
  - intros i g Hi (L & H1 & H2). assert (Hin : 0 <= i < Z.of_nat (length g)) by lia.
    rewrite gets_in by exact Hin. cbn [bind]. set (v := (re (gets g i) * s, im (gets g i) * s)%R). pose proof (wr_in g i v Hin) as W.
    eexists. split; [exact W|]. split; [rewrite upd_length; exact L|]. split.
    + intros x Hx. unfold gets at 1. rewrite (rd_wr _ _ _ _ _ W). destruct (Z.eqb_spec x i) as [->|].
      * unfold v. rewrite H2 by lia. unfold Cscal. f_equal; ring.
      * apply H1. lia.
    + intros x Hx. unfold gets at 1. rewrite (rd_wr _ _ _ _ _ W). destruct (Z.eqb_spec x i); [lia|]. apply H2. lia.
  - exists f'. auto.
Qed.

(* ------------------------------------------------------------------ *)

Lemma sym_vec V x0 x1 x2 : let x i := match i with 0%nat => x0 | 1%nat => x1 | _ => x2 end in
  assign_symmatrix_vector V (x0, x1, x2) = (conjugate V x 0, conjugate V x 1, conjugate V x 2).
Proof.
  intros x. unfold assign_symmatrix_vector, conjugate, x. rewrite !csum3. cbn [entry]. apply (f_equal2 pair); [apply (f_equal2 pair)|]; rewrite ?Cscal_mul; ring.
Qed.
Lemma iso_vec x0 x1 x2 : assign_symmatrix_vector (iso 1) (x0, x1, x2) = (x0, x1, x2).
Proof. unfold assign_symmatrix_vector, iso. cbn [m00 m11 m22 m01 m02 m12]. apply (f_equal2 pair); [apply (f_equal2 pair)|]; cring. Qed.

Lemma conjugate_ext V x y c : (forall i, (i < 3)%nat -> x i = y i) -> conjugate V x c = conjugate V y c.
Proof. intros H. apply csum_ext. intros i Hi. rewrite H by exact Hi. reflexivity. Qed.

Lemma quad_parts V x : re (quad V x) = rsum 6 (fun k => let u := conjugate V x (Nat.div k 2) in let v := x (Nat.div k 2) in if Nat.even k then (re u * re v)%R else (im u * im v)%R).
Proof.
  unfold quad, conjugate. cbn [rsum Nat.div Nat.divmod fst snd Nat.even]. rewrite !csum3. 
  generalize (entry V 0 0) (entry V 0 1) (entry V 0 2) (entry V 1 0) (entry V 1 1) (entry V 1 2) (entry V 2 0) (entry V 2 1) (entry V 2 2) (x 0%nat) (x 1%nat) (x 2%nat).
  intros. csimp. ring.
Qed.

Definition sixsums (twice : Z -> bool) t d f (n : nat) : list R := map (fun k => wsum twice n (part t d f k)) (seq 0 6).

Lemma energy_internal_ok t d twice f : stored d f ->
  exists mem, energy_internal t d twice (flat f) = Val (mem, sixsums twice t d f (Z.to_nat (d_out d)), wsum twice (Z.to_nat (d_out d)) (density t d f)) /\
    length mem = length (flat f) /\ forall i, 0 <= i < d_out d -> rd mem i = Val (density t d f (Z.to_nat i)).
Proof.
  intros (Hn & Hf & He & Hm). unfold energy_internal.
  match goal with |- context [forZ 0 (d_out d) ?b _] => set (body := b) end.
  destruct (forZ_inv (fun i (s : list R * list R * R) => let '(mem, comps, sum) := s in length mem = length (flat f) /\
      (forall x, 0 <= x < i -> rd mem x = Val (density t d f (Z.to_nat x))) /\ (forall x, i <= x -> rd mem x = rd (flat f) x) /\
      comps = sixsums twice t d f (Z.to_nat i) /\ sum = wsum twice (Z.to_nat i) (density t d f))
    body 0 (d_out d) (flat f, [0; 0; 0; 0; 0; 0]%R, 0%R)) as (((mem & comps) & sum) & E & L & H1 & _ & -> & ->).
  - exact Hn.
  - split; [reflexivity|]. split; [intros; lia|]. split; [reflexivity|]. split; reflexivity.
  - intros i ((mem & comps) & sum) Hi (L & H1 & H2 & -> & ->). unfold body.
    assert (G : forall c, 0 <= c < 3 -> cget mem (3 * i + c) = Val (gets f (3 * i + c))).
    { intros c Hc. rewrite (cget_same mem (flat f)) by (apply H2; lia). apply cget_flat. lia. }
    pose proof (G 0 ltac:(lia)) as G0. rewrite Z.add_0_r in G0. rewrite G0, (G 1), (G 2) by lia. cbn [bind]. clear G0 G.
    set (x := at_point f (Z.to_nat i)). 
    assert (X0 : gets f (3 * i) = x 0%nat) by (unfold x, at_point; f_equal; lia).
    assert (X1 : gets f (3 * i + 1) = x 1%nat) by (unfold x, at_point; f_equal; lia).
    assert (X2 : gets f (3 * i + 2) = x 2%nat) by (unfold x, at_point; f_equal; lia).
    rewrite X0, X1, X2.
    set (V := medium t d (Z.to_nat i)).
    assert (F : (match t, d_mu_inv d with
      | FD, _ => let! e := rd (d_eps_inv d) i in Val (assign_symmatrix_vector e (x 0%nat, x 1%nat, x 2%nat))
      | FB, Some mu => let! m := rd mu i in Val (assign_symmatrix_vector m (x 0%nat, x 1%nat, x 2%nat))
      | _, _ => Val (x 0%nat, x 1%nat, x 2%nat) end) = Val (conjugate V x 0, conjugate V x 1, conjugate V x 2)).
    { assert (S1 : forall W, assign_symmatrix_vector W (x 0%nat, x 1%nat, x 2%nat) = (conjugate W x 0, conjugate W x 1, conjugate W x 2)).
      { intros W. rewrite sym_vec. cbv zeta. apply (f_equal2 pair); [apply (f_equal2 pair)|]; apply conjugate_ext; intros [|[|[|j]]] Hj; try reflexivity; lia. }
      assert (S2 : (x 0%nat, x 1%nat, x 2%nat) = (conjugate (iso 1) x 0, conjugate (iso 1) x 1, conjugate (iso 1) x 2)) by (rewrite <- S1, iso_vec; reflexivity).
      assert (S3 : forall l, Z.of_nat (length l) = d_out d -> rd l i = Val (sym_at l (Z.to_nat i))).
      { intros l Hl. unfold sym_at. unfold rd. destruct (Z.ltb_spec i 0); [lia|]. rewrite (nth_error_nth' l sym0) by lia. reflexivity. }
      unfold V, medium. destruct t; [|destruct (d_mu_inv d) as [mu|]|].
      - rewrite S3 by exact He. cbn [bind]. rewrite S1. reflexivity.
      - rewrite S3 by (apply Hm; reflexivity). cbn [bind]. rewrite S1. reflexivity.
      - rewrite S2 at 1. reflexivity.
      - destruct (d_mu_inv d); rewrite S2 at 1; reflexivity. }
    rewrite F. cbn [bind]. clear F.
    assert (D : (re (conjugate V x 0) * re (x 0%nat) + im (conjugate V x 0) * im (x 0%nat) + re (conjugate V x 1) * re (x 1%nat) +
       im (conjugate V x 1) * im (x 1%nat) + re (conjugate V x 2) * re (x 2%nat) + im (conjugate V x 2) * im (x 2%nat))%R = density t d f (Z.to_nat i)).
    { unfold density. fold V x. rewrite quad_parts. cbn [rsum Nat.div Nat.divmod fst snd Nat.even]. ring. }
    rewrite D. clear D.
    assert (Hin : 0 <= i < Z.of_nat (length mem)) by (rewrite L, flat_length; lia).
    pose proof (wr_in mem i (density t d f (Z.to_nat i)) Hin) as W. rewrite W. cbn [bind]. set (mem' := upd_nat mem _ _) in *.
    assert (Q1 : length mem' = length (flat f)) by (unfold mem'; rewrite upd_length; exact L).
    assert (Q2 : forall y, 0 <= y < i + 1 -> rd mem' y = Val (density t d f (Z.to_nat y))).
    { intros y Hy. rewrite (rd_wr _ _ _ _ _ W). destruct (Z.eqb_spec y i) as [->|]; [reflexivity|]. apply H1. lia. }
    assert (Q3 : forall y, i + 1 <= y -> rd mem' y = rd (flat f) y).
    { intros y Hy. rewrite (rd_wr _ _ _ _ _ W). destruct (Z.eqb_spec y i); [lia|]. apply H2. lia. }
    assert (Wn : forall g, wsum twice (Z.to_nat (i + 1)) g = (wsum twice (Z.to_nat i) g + (if twice i then 2 else 1) * g (Z.to_nat i))%R).
    { intros g. unfold wsum. replace (Z.to_nat (i + 1)) with (S (Z.to_nat i)) by lia. cbn [rsum]. rewrite Z2Nat.id by lia. reflexivity. }
    destruct (twice i) eqn:T; eexists; (split; [reflexivity|]); (split; [exact Q1|]); (split; [exact Q2|]); (split; [exact Q3|]); (split; [|rewrite Wn; ring]).
    + unfold sixsums, add6. cbn [map seq combine fst snd]. rewrite !Wn. unfold part. fold V x. cbn [Nat.div Nat.divmod fst snd Nat.even].
      repeat (apply (f_equal2 cons); [ring|]). reflexivity.
    + unfold sixsums, add6. cbn [map seq combine fst snd]. rewrite !Wn. unfold part. fold V x. cbn [Nat.div Nat.divmod fst snd Nat.even].
      repeat (apply (f_equal2 cons); [ring|]). reflexivity.
  - exists mem. auto.
Qed.

Lemma wsum_add tw n f g : wsum tw n (fun i => f i + g i)%R = (wsum tw n f + wsum tw n g)%R.
Proof. unfold wsum. rewrite <- rsum_add. apply rsum_ext. intros i _. ring. Qed.
Lemma wsum_ext tw n f g : (forall i, (i < n)%nat -> f i = g i) -> wsum tw n f = wsum tw n g.
Proof. intros H. apply rsum_ext. intros i Hi. rewrite H by exact Hi. reflexivity. Qed.
Lemma six_total tw t d f n : fold_right Rplus 0%R (sixsums tw t d f n) = wsum tw n (density t d f).
Proof.
  rewrite (wsum_ext tw n (density t d f) (fun i => part t d f 0 i + part t d f 1 i + part t d f 2 i + part t d f 3 i + part t d f 4 i + part t d f 5 i)%R).
  - rewrite !wsum_add. unfold sixsums. cbn [map seq fold_right]. ring.
  - intros i _. unfold density. rewrite quad_parts. cbn [rsum Nat.div Nat.divmod fst snd Nat.even]. unfold part. cbn [Nat.div Nat.divmod fst snd Nat.even]. ring.
Qed.
