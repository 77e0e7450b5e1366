(** A one-dimensional geometry of slabs, for the examples: it meets the assumptions made about libctl. *)
From Coq Require Import List ZArith Reals Bool Lia Lra.
From Verif Require Import Base RC M_Tensor S_Tensor L_Tensor2 M_Med S_Med L_Med1 L_Interp L_Data.
Import ListNotations.
Local Open Scope R_scope.

(** A slab: material and its two faces. *)
Definition slab := (material * R * R)%type.
Definition inside (s : slab) (x : R) : bool := let '(_, a, b) := s in Rleb a x && Rleb x b.
Fixpoint slab_find (l : list slab) (i : nat) (x : R) : option found :=
  match l with
  | [] => None
  | s :: l => match slab_find l (S i) x with
              | Some o => Some o
              | None => if inside s x then Some {| f_obj := Z.of_nat i; f_mat := fst (fst s); f_by := (0, 0, 0); f_id := Z.of_nat i + 1 |} else None
              end
  end.
Definition slab_contains (l : list slab) (i : nat) (p : vec) : Prop :=
  exists s, nth_error l i = Some s /\ inside s (fst (fst p)) = true.
(** The cell [-1, 1). *)
Definition slab_wrap (p : vec) : vec := let '(x, y, z) := p in (x - 2 * IZR (Int_part (x / 2 + 1 / 2)), y, z).
Definition slab_overlap (l : list slab) (lo hi : vec) (o : Z) : R :=
  match nth_error l (Z.to_nat o) with
  | Some (_, a, b) => let x := fst (fst lo) in let y := fst (fst hi) in Rmax 0 ((Rmin b y - Rmax a x) / (y - x))
  | None => 0
  end.
Definition medium_eqb (a b : material) : bool :=
  match a, b with Medium e m, Medium e' m' => Reqb e e' && Reqb m m' | _, _ => false end.
Definition slab_env (l : list slab) (dflt : material) (file : option (vec -> outcome (sym * sym))) (call : Z -> vec -> material) : env :=
  {| q_size := (2, 1, 1); q_none := (false, true, true); q_shift := slab_wrap; q_find := fun p => slab_find l 0 (fst (fst p));
     q_veq := fun a b => let '(x, _, _) := a in let '(y, _, _) := b in Reqb x y; q_eqm := medium_eqb; q_default := dflt;
     q_file := fun mu => if mu then None else file; q_call := call; q_grid := fun _ _ _ => 1 / 2; q_normal := fun _ _ => (1, 0, 0);
     q_overlap := slab_overlap l; q_R := fun i j => if Nat.eqb i j then (if Nat.eqb i 0 then 2 else 1) else 0; q_dim := 1%nat |}.

Lemma slab_find_spec l : forall i x, match slab_find l i x with
  | Some o => exists j s, nth_error l j = Some s /\ inside s x = true /\ (forall k s', (j < k)%nat -> nth_error l k = Some s' -> inside s' x = false) /\
      f_mat o = fst (fst s) /\ f_id o = (Z.of_nat (i + j) + 1)%Z
  | None => forall k s', nth_error l k = Some s' -> inside s' x = false
  end.
Proof.
  induction l as [|s l IH]; intros i x; cbn [slab_find].
  - intros k s' E. destruct k; discriminate.
  - specialize (IH (S i) x). destruct (slab_find l (S i) x) as [o|].
    + destruct IH as (j & s0 & Hn & Hi & Hk & Hm & Hid). exists (S j), s0. split; [exact Hn|]. split; [exact Hi|].
      split; [|split; [exact Hm|rewrite Hid; do 2 f_equal; lia]].
      intros k s' Hlt E. destruct k as [|k]; [lia|]. exact (Hk k s' ltac:(lia) E).
    + destruct (inside s x) eqn:Ei.
      * exists 0%nat, s. split; [reflexivity|]. split; [exact Ei|]. split; [|split; [reflexivity|cbn; do 2 f_equal; lia]].
        intros k s' Hlt E. destruct k as [|k]; [lia|]. exact (IH k s' E).
      * intros k s' E. destruct k as [|k]; [injection E as <-; exact Ei|exact (IH k s' E)].
Qed.
Lemma slab_searches l dflt file call :
  searches (slab_env l dflt file call) (map (fun s => fst (fst s)) l) (slab_contains l).
Proof.
  exists (fun i => (Z.of_nat i + 1)%Z). split; [intros; lia|]. split; [intros; lia|]. intros p. cbn [slab_env q_find].
  pose proof (slab_find_spec l 0 (fst (fst p))) as H. destruct (slab_find l 0 (fst (fst p))) as [o|].
  - destruct H as (j & s & Hn & Hi & Hk & Hm & Hid). exists j. split; [|split].
    + split; [rewrite map_length; apply nth_error_Some; unfold slab in *; rewrite Hn; discriminate|]. split; [exists s; split; assumption|].
      intros k Hk' (s' & E & Ei). rewrite (Hk k s' (proj1 Hk') E) in Ei. discriminate.
    + unfold slab in *. rewrite nth_error_map. rewrite Hn. rewrite Hm. reflexivity.
    + exact Hid.
  - intros j _ (s & E & Ei). rewrite (H j s E) in Ei. discriminate.
Qed.
Lemma medium_eqb_eq a b : medium_eqb a b = true -> a = b.
Proof.
  destruct a, b; cbn; try discriminate. intros H. apply andb_true_iff in H. destruct H as [H1 H2].
  revert H1 H2. destruct (Reqb_spec eps eps0), (Reqb_spec mu mu0); try discriminate. intros _ _. congruence.
Qed.
Lemma slab_wraps l dflt file call : wraps (slab_env l dflt file call).
Proof.
  intros [[x y] z] a b c. cbn [slab_env q_shift q_size q_none vadd slab_wrap].
  assert (E : Int_part ((x + IZR a * 2) / 2 + 1 / 2) = (Int_part (x / 2 + 1 / 2) + a)%Z).
  { apply int_part_is. rewrite plus_IZR. destruct (base_Int_part (x / 2 + 1 / 2)) as [B1 B2].
    pose proof (Int_part_bounds (x / 2 + 1 / 2)). lra. }
  rewrite E, plus_IZR. f_equal; [f_equal|]; ring.
Qed.
Lemma wrap_cell x y z : -1 <= x < 1 -> slab_wrap (x, y, z) = (x, y, z).
Proof.
  intros H. unfold slab_wrap. replace (Int_part (x / 2 + 1 / 2)) with 0%Z; [f_equal; f_equal; ring|].
  symmetry. apply int_part_is. lra.
Qed.
Lemma inside_in m a b x : a <= x <= b -> inside (m, a, b) x = true.
Proof. intros H. unfold inside. destruct (Rleb_spec a x), (Rleb_spec x b); try lra; reflexivity. Qed.
Lemma inside_out m a b x : x < a \/ b < x -> inside (m, a, b) x = false.
Proof. intros H. unfold inside. destruct (Rleb_spec a x), (Rleb_spec x b); try lra; reflexivity. Qed.
(** The middle pixel, from -1/2 to 1/2. *)
Lemma slab_points l dflt file call :
  look_points (slab_env l dflt file call) (1/2, 1, 1) (1/2, 1/2, 1/2) = [(0, 0, 0); (-1/2, 0, 0); (1/2, 0, 0)].
Proof.
  unfold look_points, unit_pos, half_pixel, slab_env, neighbors. cbn [q_size q_none q_dim map].
  repeat (f_equal; try lra).
Qed.

(** Single steps of the loop, for points in different objects. *)
Lemma step_first e s : (0 <= s_id s)%Z -> look_step e (None, None) s = Val (Some (Some s, None)).
Proof.
  intros H. unfold look_step, same_seen. cbn [id_of]. replace (s_id s =? -1)%Z with false by (symmetry; apply Z.eqb_neq; lia). reflexivity.
Qed.
Lemma same_other e s t : s_id s <> s_id t -> same_seen e s (Some t) = Val false.
Proof. intros H. unfold same_seen. cbn [id_of]. apply Z.eqb_neq in H. rewrite H. reflexivity. Qed.
Lemma step_second e a s : (0 <= s_id a)%Z -> (0 <= s_id s)%Z -> s_id s <> s_id a -> look_step e (Some a, None) s = Val (Some (Some a, Some s)).
Proof.
  intros Ha H Hn. unfold look_step. rewrite same_other by exact Hn. cbn [bind]. unfold same_seen. cbn [id_of].
  replace (s_id s =? -1)%Z with false by (symmetry; apply Z.eqb_neq; lia). cbn [bind].
  replace (s_id a =? -1)%Z with false by (symmetry; apply Z.eqb_neq; lia). reflexivity.
Qed.
Lemma step_third e a b s : (0 <= s_id a)%Z -> (0 <= s_id b)%Z -> s_id s <> s_id a -> s_id s <> s_id b ->
  look_step e (Some a, Some b) s =
    let id := s_id s in
    if (s_id a <=? id)%Z && (s_id b <=? id)%Z && ((s_id a =? s_id b)%Z || q_eqm e (s_mat a) (s_mat b)) then Val (Some (Some a, Some s))
    else if negb ((s_id a <? s_id b)%Z && ((s_id a =? id)%Z || q_eqm e (s_mat a) (s_mat s))) &&
            negb ((s_id b <? s_id a)%Z && ((s_id b =? id)%Z || q_eqm e (s_mat b) (s_mat s)))
    then Val None else Val (Some (Some a, Some b)).
Proof.
  intros Ha Hb Hna Hnb. unfold look_step. rewrite same_other by exact Hna. cbn [bind]. rewrite same_other by exact Hnb. cbn [bind id_of].
  replace (s_id a =? -1)%Z with false by (symmetry; apply Z.eqb_neq; lia).
  replace (s_id b =? -1)%Z with false by (symmetry; apply Z.eqb_neq; lia). reflexivity.
Qed.
Lemma eqb_same x y : medium_eqb (Medium x y) (Medium x y) = true.
Proof. cbn. destruct (Reqb_spec x x), (Reqb_spec y y); try contradiction; reflexivity. Qed.
Lemma eqb_diff x y x' y' : x <> x' -> medium_eqb (Medium x y) (Medium x' y') = false.
Proof. intros H. cbn. destruct (Reqb_spec x x'); [contradiction|reflexivity]. Qed.

(** The average of the middle pixel for a geometry where the first point is in [a] and the other two lead to [b]. *)
Lemma slab_mean l dflt file call (a b : seen) va vb o f T :
  let e := slab_env l dflt file call in
  look_all e (None, None) (map (look e) [(0, 0, 0); (-1/2, 0, 0); (1/2, 0, 0)]) = Val (Some (Some a, Some b)) ->
  (0 <= s_id a)%Z -> (0 <= s_id b)%Z -> s_id a <> s_id b -> s_mat a = Medium va 1 -> s_mat b = Medium vb 1 -> va <> vb -> 0 < va -> 0 < vb ->
  var_obj (s_obj a) = false -> var_obj (s_obj b) = false -> variable_material dflt = false ->
  (file = None \/ hole (s_obj a) = false /\ hole (s_obj b) = false) ->
  (s_obj (if (s_id b <? s_id a)%Z then a else b) = Some o) -> s_by (if (s_id b <? s_id a)%Z then a else b) = (0, 0, 0) ->
  slab_overlap l (-1/2, 0, 0) (1/2, 0, 0) (f_obj o) = f ->
  mean_eps_two (iso va) (iso vb) (if (s_id b <? s_id a)%Z then f else 1 - f) 1 0 0 = Val (Some T) ->
  mean_func true false e (1/2, 1, 1) (1/2, 1/2, 1/2) = Val (Some (T, (1/2, 0, 0))).
Proof.
  intros e HL Ha Hb Hab Ma Mb Hv Pa Pb V1 V2 Vd Hf Ho Hby Hov HT.
  unfold mean_func. assert (HP : look_points e (1/2, 1, 1) (1/2, 1/2, 1/2) = [(0, 0, 0); (-1/2, 0, 0); (1/2, 0, 0)]) by apply slab_points.
  rewrite HP, HL. cbn [bind id_of].
  replace (-1 <? s_id a)%Z with true by (symmetry; apply Z.ltb_lt; lia). cbn [check bind].
  replace (s_id b =? -1)%Z with false by (symmetry; apply Z.eqb_neq; lia).
  assert (Hc : (var_obj (s_obj a) || var_obj (s_obj b) ||
     ((variable_material (q_default e) || match q_file e false with Some _ => true | None => false end) && (hole (s_obj a) || hole (s_obj b))))%bool = false).
  { rewrite V1, V2. cbn [orb]. change (q_default e) with dflt. change (q_file e false) with file. rewrite Vd. cbn [orb].
    destruct Hf as [->|[-> ->]]; [reflexivity|]. rewrite andb_false_r. reflexivity. }
  rewrite Hc, Ma, Mb. cbn [material_tensor]. rewrite fdiv_nz by lra. cbn [bind fst].
  replace (s_id a =? s_id b)%Z with false by (symmetry; apply Z.eqb_neq; exact Hab). cbn [orb].
  change (q_eqm e) with medium_eqb. rewrite (eqb_diff va 1 vb 1 Hv). unfold interface. cbv zeta. rewrite Ho, Hby, Mb.
  change (q_normal e _ _) with (1, 0, 0). change (q_size e) with (2, 1, 1). change (q_none e) with (false, true, true). cbv iota beta.
  rewrite (fdiv_nz 1 2) by lra. cbn [bind material_tensor]. rewrite fdiv_nz by lra. cbn [bind fst].
  assert (E1 : vsub (vsub (unit_pos e (1/2, 1/2, 1/2)) (half_pixel e (1/2, 1, 1))) (0, 0, 0) = (-1/2, 0, 0)).
  { unfold e, unit_pos, half_pixel, slab_env. cbn [q_size q_none vsub]. f_equal; [f_equal|]; lra. }
  assert (E2 : vsub (vadd (unit_pos e (1/2, 1/2, 1/2)) (half_pixel e (1/2, 1, 1))) (0, 0, 0) = (1/2, 0, 0)).
  { unfold e, unit_pos, half_pixel, slab_env. cbn [q_size q_none vsub vadd]. f_equal; [f_equal|]; lra. }
  rewrite E1, E2. change (q_overlap e) with (slab_overlap l). rewrite Hov.
  unfold e at 1 2 3 4 5 6 7 8 9. cbn [q_R slab_env Nat.eqb].
  replace (2 * (1/2) + 0 * 0 + 0 * 0) with 1 by lra. replace (0 * (1/2) + 1 * 0 + 0 * 0) with 0 by lra. replace (0 * (1/2) + 0 * 0 + 1 * 0) with 0 by lra.
  fold (iso va). fold (iso vb). rewrite HT. reflexivity.
Qed.

Lemma slab_look l dflt file call x : -1 <= x < 1 -> look (slab_env l dflt file call) (x, 0, 0) =
  match slab_find l 0 x with
  | Some o => {| s_obj := Some o; s_by := vadd (f_by o) (0, 0, 0); s_id := f_id o; s_mat := match f_mat o with Nothing => dflt | m => m end |}
  | None => {| s_obj := None; s_by := (0, 0, 0); s_id := 0%Z; s_mat := dflt |}
  end.
Proof.
  intros H. unfold look, slab_env. cbn [q_shift q_find q_default]. rewrite wrap_cell by exact H. cbn [fst].
  assert (E : vsub (x, 0, 0) (x, 0, 0) = (0, 0, 0)) by (cbn [vsub]; f_equal; [f_equal|]; ring). rewrite E.
  assert (E0 : vadd (0, 0, 0) (0, 0, 0) = (0, 0, 0)) by (cbn [vadd]; f_equal; [f_equal|]; ring). rewrite E0. reflexivity.
Qed.
Lemma vadd_00 : vadd (0, 0, 0) (0, 0, 0) = (0, 0, 0).
Proof. cbn [vadd]. f_equal; [f_equal|]; ring. Qed.

(** Components of a tensor. *)
Lemma component_entry Ti c1 c2 (imag inv : bool) : PD Ti -> (0 <= c1 < 3)%Z -> (0 <= c2 < 3)%Z -> (imag = true -> c1 <> c2) ->
  exists T, is_inverse Ti T /\
    let M := if inv then Ti else T in
    tensor_component c1 c2 imag inv Ti = Val (if imag then im (entry M (Z.to_nat c1) (Z.to_nat c2)) else re (entry M (Z.to_nat c1) (Z.to_nat c2))).
Proof.
  intros HP H1 H2 Hi. destruct (invert_PD Ti HP) as (T & E & _ & Hinv). exists T. split; [exact Hinv|]. cbv zeta.
  unfold tensor_component. rewrite E.
  assert (K : forall M, match (c1 * 3 + c2)%Z with
      | 0%Z => Val (m00 M) | 1%Z => Val (if imag then im (m01 M) else re (m01 M)) | 2%Z => Val (if imag then im (m02 M) else re (m02 M))
      | 3%Z => Val (if imag then - (if imag then im (m01 M) else re (m01 M)) else (if imag then im (m01 M) else re (m01 M)))
      | 4%Z => Val (m11 M) | 5%Z => Val (if imag then im (m12 M) else re (m12 M))
      | 6%Z => Val (if imag then - (if imag then im (m02 M) else re (m02 M)) else (if imag then im (m02 M) else re (m02 M)))
      | 7%Z => Val (if imag then - (if imag then im (m12 M) else re (m12 M)) else (if imag then im (m12 M) else re (m12 M)))
      | 8%Z => Val (m22 M) | _ => Val (m00 M) end =
      Val (if imag then im (entry M (Z.to_nat c1) (Z.to_nat c2)) else re (entry M (Z.to_nat c1) (Z.to_nat c2)))).
  { intros M. assert (D1 : c1 = 0%Z \/ c1 = 1%Z \/ c1 = 2%Z) by lia. assert (D2 : c2 = 0%Z \/ c2 = 1%Z \/ c2 = 2%Z) by lia.
    destruct D1 as [->|[->| ->]], D2 as [->|[->| ->]]; destruct imag; try (exfalso; exact (Hi eq_refl eq_refl)); reflexivity. }
  destruct inv; cbn [bind]; apply K.
Qed.
