(** Property C25: half-stored grids stand for every point of the grid once. *)
From Coq Require Import List ZArith Reals Bool Lia Lra Permutation.
From Verif Require Import Base RC M_Tensor S_Tensor M_Evect S_Evect M_Grid S_Grid M_Op S_Op M_Fld S_Fld M_Half S_Half L_Half L_Half2.
Import ListNotations.
Local Open Scope Z_scope.

(** The stored points and the mirror images of those counted twice are all points of the grid,
    each once: whole or half, one process or many, one, two or three dimensions. *)
Theorem C25_cover : forall n1 n2 n3 real parts, 0 < n1 -> 0 < n2 -> 0 < n3 -> held n1 n2 n3 real parts -> Permutation (flat_map (points n1 n2 n3) parts) (whole n1 n2 n3).
Proof. intros n1 n2 n3 real parts P1 P2 P3 H. exact (held_perm n1 n2 n3 P1 P2 P3 real parts H). Qed.
Print Assumptions C25_cover.

(** So the weighted sums of the processes over their stored values add up to the sum over the
    whole grid, for a quantity with inversion symmetry. *)
Theorem C25_sum : forall n1 n2 n3 real parts vs f, 0 < n1 -> 0 < n2 -> 0 < n3 -> held n1 n2 n3 real parts -> even n1 n2 n3 f -> Forall2 (fun p v => shows (fst p) v f) parts vs ->
  fold_right (fun q a => (wsum (snd (fst q)) (length (fst (fst q))) (snd q) + a)%R) 0%R (combine parts vs) = sumR f (whole n1 n2 n3).
Proof. intros n1 n2 n3 real parts vs f P1 P2 P3 H Ev Hv. exact (held_sum n1 n2 n3 P1 P2 P3 real parts vs f H Ev Hv). Qed.
Print Assumptions C25_sum.

(** get_epsilon: each process's array is the dielectric constant at its points, and the numbers
    printed are the extremes, mean, harmonic mean, and share above 1.0001 of the whole grid. *)
Theorem C25_epsilon : forall n1 n2 n3 real parts eigs ds E, 0 < n1 -> 0 < n2 -> 0 < n3 -> held n1 n2 n3 real parts -> even n1 n2 n3 E ->
  (forall c, In c (whole n1 n2 n3) -> 0 < E c < 10 ^ 20)%R ->
  Forall2 (fun p d => Z.of_nat (length (fst p)) = d_out d /\ exists eps, epsilons eigs d eps /\ shows (fst p) eps E) parts ds ->
  exists rs s, Forall2 (fun q r => let '(p, d) := q in epsilon_sums eigs d (snd p) = Val r /\ forall c idx, In (c, idx) (fst p) -> nth (Z.to_nat idx) (fst r) 0%R = E c) (combine parts ds) rs /\
    epsilon_report n1 n2 n3 (map snd rs) = Val s /\ least E (whole n1 n2 n3) (s_low s) /\ largest E (whole n1 n2 n3) (s_high s) /\
    (s_mean s = sumR E (whole n1 n2 n3) / IZR (n1 * n2 * n3) /\ s_harm s = IZR (n1 * n2 * n3) / sumR (fun c => / E c) (whole n1 n2 n3) /\
     s_above s = 100 * sumR (fun c => above (E c) (10001 / 10000)) (whole n1 n2 n3) / IZR (n1 * n2 * n3) /\
     (s_high s = s_low s -> s_fill s = 100) /\ (s_high s <> s_low s -> s_fill s = 100 * (s_mean s - s_low s) / (s_high s - s_low s)))%R.
Proof.
  intros n1 n2 n3 real parts eigs ds E P1 P2 P3 H Ev HE Hd. destruct (epsilon_ok n1 n2 n3 real parts eigs ds E P1 P2 P3 H Ev HE Hd) as (rs & A & B).
  destruct (report_ok n1 n2 n3 E (map snd rs) (map (points n1 n2 n3) parts) P1 P2 P3 HE B) as (s & S1 & S2).
  { rewrite <- flat_map_concat_map. exact (held_perm n1 n2 n3 P1 P2 P3 real parts H). }
  exists rs, s. split; [exact A|]. split; [exact S1|exact S2].
Qed.
Print Assumptions C25_epsilon.

(** integrate_fieldL: the processes' results add up to the integral over the whole grid; in
    half-stored grids, of fields with A(-r) = A(r)* that are not complex scalars. *)
Theorem C25_integral_partial : forall n1 n2 n3 real parts sx sy sz Vol f fss Fs, 0 < n1 -> 0 < n2 -> 0 < n3 -> held n1 n2 n3 real parts ->
  Forall2 (fun p fields => Forall2 (fun fs F => shows_items (fst p) fs F) fields Fs /\ (real = true -> Forall no_cscalar fields)) parts fss ->
  (real = true -> Forall (fun F => forall c, In c (whole n1 n2 n3) -> F (mirror n1 n2 n3 c) = conj_item (F c)) Fs) ->
  exists vs, Forall2 (fun q v => integrate_fieldL (fst (fst q)) (fun c => real && twice_at n1 n2 n3 c) n1 n2 n3 sx sy sz Vol f (snd q) = Val v) (combine parts fss) vs /\
    fold_right Cadd (0, 0)%R vs = Cscal (Vol / IZR (n1 * n2 * n3)) (sumC (fun c => f (site sx sy sz n1 n2 n3 c) (map (fun F => F c) Fs)) (whole n1 n2 n3)).
Proof. exact shares_integral. Qed.
Print Assumptions C25_integral_partial.

(** Of a complex scalar field, the mirror point gets the value without conjugation. *)
Definition ex_cs : list C := [(1, 0); (0, 1)]%R.
Definition ex_F (c : Z * Z * Z) : item := let '(i, _, _) := c in IC (if i =? 0 then (1, 0) else if i =? 1 then (0, 1) else (0, -1))%R.
Definition ex_f (p : vec) (l : list item) : C := match l with [IC z] => z | _ => (0, 0)%R end.
Lemma ex_loop3 : loop_real 3 1 1 = [(0, 0, 0, 0); (1, 0, 0, 1)].
Proof. reflexivity. Qed.
Lemma ex_whole3 : whole 3 1 1 = [(0, 0, 0); (1, 0, 0); (2, 0, 0)].
Proof. reflexivity. Qed.
Theorem C25_integral_refuted : exists fs F f v, shows_items (loop_real 3 1 1) fs F /\ (forall c, In c (whole 3 1 1) -> F (mirror 3 1 1 c) = conj_item (F c)) /\
  integrate_fieldL (loop_real 3 1 1) (twice_at 3 1 1) 3 1 1 1 1 1 3 f [fs] = Val v /\
  v <> Cscal (3 / IZR (3 * 1 * 1)) (sumC (fun c => f (site 1 1 1 3 1 1 c) [F c]) (whole 3 1 1)).
Proof.
  exists (CS ex_cs), ex_F, ex_f, (1, 2)%R. split; [|split; [|split]].
  - rewrite ex_loop3. intros c idx [E|[E|[]]]; injection E as <- <-; reflexivity.
  - intros c Hc. cbn in Hc. destruct Hc as [<-|[<-|[<-|[]]]]; cbn; unfold Cconj; cbn; f_equal; f_equal; lra.
  - rewrite ex_loop3. unfold integrate_fieldL. cbn [run twice_at last_coord]. unfold grid_point. rewrite !fdiv_nz by lra. cbn [bind]. unfold item_back, item_at, ex_cs. cbn [mapM rd bind Z.ltb Z.compare Z.to_nat nth_error]. cbn -[Rplus Rmult Rdiv]. rewrite fdiv_nz by lra. cbn [bind]. apply (f_equal (@Val C)). unfold ex_f, Cscal, Cadd. cbn [fst snd re im]. f_equal; field.
  - rewrite ex_whole3. intros E. apply (f_equal snd) in E. unfold sumC, ex_f, ex_F, Cscal, Cadd in E. cbn [fold_right fst snd re im Z.eqb Pos.eqb] in E. lra.
Qed.
Print Assumptions C25_integral_refuted.

(** compute_field_integral is the integral over the whole grid in builds that store all of it. *)
Theorem C25_field_integral_partial : forall n1 n2 n3 parts sx sy sz Vol HN k f ds F E, 0 < n1 -> 0 < n2 -> 0 < n3 -> held n1 n2 n3 false parts -> sx <> 0%R -> sy <> 0%R -> sz <> 0%R -> HN <> 0%R ->
  Forall2 (fun p d => shows3 (fst p) (fst d) F /\ forall c idx, In (c, idx) (fst p) -> rd (snd d) idx = Val (E c)) parts ds ->
  exists vs, Forall2 (fun q v => field_integral (fst (fst q)) once4 n1 n2 n3 sx sy sz Vol HN k f (fst (snd q)) (snd (snd q)) = Val v) (combine parts ds) vs /\
    fold_right Cadd (0, 0)%R vs = Cscal (Vol / HN) (sumC (fun c => let p := site sx sy sz n1 n2 n3 c in f (with_phase (bloch k sx sy sz p) (F c)) (E c) p) (whole n1 n2 n3)).
Proof. exact field_integral_ok. Qed.
Print Assumptions C25_field_integral_partial.

(** In half-stored grids its test looks at a variable nothing assigns: on three points the
    integral of 1 is wrong whatever that variable holds. *)
Theorem C25_field_integral_refuted : forall junk, exists v, field_integral (loop_real 3 1 1) (twice_junk junk 3) 3 1 1 1 1 1 3 3 (0, 0, 0)%R (fun _ _ _ => (1, 0)%R)
    (repeat (0, 0)%R 6) [1; 1]%R = Val v /\ v <> Cscal (3 / 3) (sumC (fun _ => (1, 0)%R) (whole 3 1 1)).
Proof.
  intros junk. rewrite ex_loop3. unfold field_integral. cbn [run]. unfold twice_junk. destruct (negb (junk =? 0) && negb (2 * junk =? 3)).
  - exists (4, 0)%R. split.
    + unfold grid_point, phase_at. rewrite !fdiv_nz by lra. cbn [bind rd Z.ltb Z.compare Z.to_nat nth_error repeat Z.mul Z.add]. cbn -[Rplus Rmult Rdiv cos sin PI fdiv]. rewrite !fdiv_nz by lra. cbn [bind]. apply (f_equal (@Val C)). unfold Cscal, Cadd. cbn [fst snd re im]. f_equal; lra.
    + rewrite ex_whole3. intros E. apply (f_equal fst) in E. unfold sumC, Cscal, Cadd in E. cbn [fold_right fst snd re im] in E. lra.
  - exists (2, 0)%R. split.
    + unfold grid_point, phase_at. rewrite !fdiv_nz by lra. cbn [bind rd Z.ltb Z.compare Z.to_nat nth_error repeat Z.mul Z.add]. cbn -[Rplus Rmult Rdiv cos sin PI fdiv]. rewrite !fdiv_nz by lra. cbn [bind]. apply (f_equal (@Val C)). unfold Cscal, Cadd. cbn [fst snd re im]. f_equal; lra.
    + rewrite ex_whole3. intros E. apply (f_equal fst) in E. unfold sumC, Cscal, Cadd in E. cbn [fold_right fst snd re im] in E. lra.
Qed.
Print Assumptions C25_field_integral_refuted.
(** The same test in material_grids_addgradient: the total weight is 2 or 4, not 3. *)
Theorem C25_addgradient_refuted : forall junk, exists v, addgradient (loop_real 3 1 1) (twice_junk junk 3) 3 1 1 1 1 1 (fun _ e v => Val (v + e)%R) [1; 1]%R 1 0%R = Val v /\ v <> sumR (fun _ => 1%R) (whole 3 1 1).
Proof.
  intros junk. rewrite ex_loop3. unfold addgradient. cbn [run]. unfold twice_junk. destruct (negb (junk =? 0) && negb (2 * junk =? 3)).
  - exists 4%R. split.
    + unfold grid_point. rewrite !fdiv_nz by lra. cbn [bind rd Z.ltb Z.compare Z.to_nat nth_error]. cbn -[Rplus Rmult Rdiv fdiv]. change (Pos.to_nat 1) with 1%nat. cbn [nth_error bind]. f_equal. lra.
    + rewrite ex_whole3. cbn [sumR fold_right]. lra.
  - exists 2%R. split.
    + unfold grid_point. rewrite !fdiv_nz by lra. cbn [bind rd Z.ltb Z.compare Z.to_nat nth_error]. cbn -[Rplus Rmult Rdiv fdiv]. change (Pos.to_nat 1) with 1%nat. cbn [nth_error bind]. f_equal. lra.
    + rewrite ex_whole3. cbn [sumR fold_right]. lra.
Qed.
Print Assumptions C25_addgradient_refuted.

(** Two processes sharing a 4 x 5 grid, of which 4 x 3 is stored; a process may be idle. *)
Example C25_example : held 4 5 1 true (map (fun sh => (loop_real_mpi 4 5 1 (snd sh) (fst sh), twice_mpi2 4 (fst sh) 5)) [(0, 2); (2, 1); (3, 0)]) /\
  length (flat_map (points 4 5 1) (map (fun sh => (loop_real_mpi 4 5 1 (snd sh) (fst sh), twice_mpi2 4 (fst sh) 5)) [(0, 2); (2, 1); (3, 0)])) = 20%nat.
Proof. split; [|reflexivity]. apply half_parallel2; [lia|reflexivity|]. cbn. lia. Qed.
(** A quantity with inversion symmetry and its stored half on three points, as an array. *)
Example C25_example_sum : even 3 1 1 (fun c => let '(i, _, _) := c in if i =? 0 then 5 else 7)%R /\
  shows (loop_real 3 1 1) (fun i => nth i [5; 7] 0)%R (fun c => let '(i, _, _) := c in if i =? 0 then 5 else 7)%R /\ wsum (twice_real 2 3) 2 (fun i => nth i [5; 7] 0)%R = 19%R.
Proof.
  split; [|split].
  - intros c Hc. cbn in Hc. destruct Hc as [<-|[<-|[<-|[]]]]; reflexivity.
  - rewrite ex_loop3. intros c idx [E|[E|[]]]; injection E as <- <-; reflexivity.
  - unfold wsum. cbn. lra.
Qed.
(** Fields for the integrals: a real scalar and a vector field. *)
Example C25_example_integral : let F c := let '(i, _, _) := c in if i =? 0 then IR 5 else IR 7 in
  shows_items (loop_real 3 1 1) (RS [5; 7]%R) F /\ no_cscalar (RS [5; 7]%R) /\ (forall c, In c (whole 3 1 1) -> F (mirror 3 1 1 c) = conj_item (F c)).
Proof.
  cbv zeta. split; [|split].
  - rewrite ex_loop3. intros c idx [E|[E|[]]]; injection E as <- <-; reflexivity.
  - exact I.
  - intros c Hc. cbn in Hc. destruct Hc as [<-|[<-|[<-|[]]]]; reflexivity.
Qed.
Example C25_example_field : held 2 1 1 false [(loop_complex 2 1 1, once)] /\
  shows3 (loop_complex 2 1 1) [(1, 0); (2, 0); (3, 0); (0, 1); (0, 2); (0, 3)]%R (fun c => let '(i, _, _) := c in if i =? 0 then ((1, 0), (2, 0), (3, 0))%R else ((0, 1), (0, 2), (0, 3))%R).
Proof.
  split; [apply whole_serial|]. intros c idx H. cbn in H. destruct H as [E|[E|[]]]; injection E as <- <-; repeat split; reflexivity.
Qed.

(** A medium for the statistics. *)
Definition ex_eigs3 (m : sym) : R * R * R := (m00 m, m11 m, m22 m).
Definition ex_d3 : mdata := create_shape 2 1 1 1 [] [iso (/ 2); iso (/ 3)] None [] (/ 2).
Example C25_example_epsilon : let E c := let '(i, _, _) := c in if i =? 0 then 2%R else 3%R in let eps i := match i with O => 2%R | _ => 3%R end in
  held 3 1 1 true [(loop_real 3 1 1, twice_real 2 3)] /\ even 3 1 1 E /\ (forall c, In c (whole 3 1 1) -> 0 < E c < 10 ^ 20)%R /\
  Z.of_nat (length (loop_real 3 1 1)) = d_out ex_d3 /\ epsilons ex_eigs3 ex_d3 eps /\ shows (loop_real 3 1 1) eps E.
Proof.
  cbv zeta. split; [apply half_serial|]. split; [|split; [|split; [|split]]].
  - intros c Hc. cbn in Hc. destruct Hc as [<-|[<-|[<-|[]]]]; reflexivity.
  - intros ((i & j) & k) Hc. destruct (i =? 0); lra.
  - reflexivity.
  - split; [reflexivity|]. intros i Hi. destruct i as [|[|i]]; [| |cbn in Hi; lia]; unfold mean_medium, ex_eigs3, sym_at, ex_d3; cbn [create_shape d_eps_inv nth iso m00 m11 m22]; rewrite fdiv_nz by lra; f_equal; lra.
  - rewrite ex_loop3. intros c idx [E|[E|[]]]; injection E as <- <-; reflexivity.
Qed.
