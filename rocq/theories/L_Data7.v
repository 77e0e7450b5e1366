(** Proofs about mpb-data: vector fields and whole files. *)
From Coq Require Import String List ZArith Reals Lra Lia Bool Psatz.
From Verif Require Import Base RC Loops M_Tensor M_Interp L_Interp L_Interp3 M_Evect L_Out L_Out3 M_Data S_Data L_Data L_Data2 L_Data3 L_Data4 L_Data5 L_Data6.
Import ListNotations.
Local Open Scope Z_scope.

Lemma rotate_ok cart n x y z : sizes_ok n -> array n x -> array n y -> array n z ->
  exists x' y' z', rotate cart (volume n) x y z = Val (x', y', z') /\ array n x' /\ array n y' /\ array n z' /\
    forall c, inside n c -> (get n x' c, get n y' c, get n z' c) = combo cart (get n x c, get n y c, get n z c).
Proof.
  intros S X Y Z0. unfold rotate.
  set (at_ := fun (d : list R) (i : Z) => nth (Z.to_nat i) d 0%R).
  destruct (forZ_inv (fun (i : Z) (st : list R * list R * list R) => let '(a, b, d) := st in array n a /\ array n b /\ array n d /\
      forall t, 0 <= t < volume n -> (at_ a t, at_ b t, at_ d t) = if t <? i then combo cart (at_ x t, at_ y t, at_ z t) else (at_ x t, at_ y t, at_ z t))
    (fun i st => let '(x, y, z) := st in
      let! vx := rd x i in let! vy := rd y i in let! vz := rd z i in
      let '(vx, vy, vz) := m_vec cart (vx, vy, vz) in
      let! x := wr x i vx in let! y := wr y i vy in let! z := wr z i vz in Val (x, y, z)) 0 (volume n) (x, y, z)) as ([[a b] d] & E & A & B & D & G).
  - unfold array in X. lia.
  - repeat split; auto. intros t Ht. destruct (Z.ltb_spec t 0); [lia|reflexivity].
  - intros i [[a b] d] Hi (A & B & D & G).
    assert (RD : forall l, array n l -> rd l i = Val (at_ l i)).
    { intros l L. unfold array in L. unfold rd, at_. destruct (Z.ltb_spec i 0); [lia|]. rewrite (nth_error_nth' l 0%R) by lia. reflexivity. }
    rewrite (RD a A), (RD b B), (RD d D). cbn [bind].
    pose proof (G i Hi) as Gi. destruct (Z.ltb_spec i i); [lia|].
    assert (E1 : at_ a i = at_ x i) by exact (f_equal (fun p => fst (fst p)) Gi). assert (E2 : at_ b i = at_ y i) by exact (f_equal (fun p => snd (fst p)) Gi). assert (E3 : at_ d i = at_ z i) by exact (f_equal snd Gi).
    rewrite E1, E2, E3. destruct (m_vec cart (at_ x i, at_ y i, at_ z i)) as [[vx vy] vz] eqn:Ev.
    assert (WR : forall l v, array n l -> exists l', wr l i v = Val l' /\ array n l' /\ forall t, 0 <= t < volume n -> at_ l' t = if t =? i then v else at_ l t).
    { intros l v L. unfold array in *. pose proof (wr_in l i v ltac:(lia)) as W. eexists. split; [exact W|]. pose proof (wr_length _ _ _ _ W) as LL. split; [rewrite LL; exact L|].
      intros t Ht. pose proof (rd_wr _ _ _ t _ W) as Rw. unfold rd in Rw. destruct (Z.ltb_spec t 0); [lia|].
      rewrite (nth_error_nth' _ 0%R) in Rw by lia. rewrite (nth_error_nth' l 0%R) in Rw by lia. unfold at_. destruct (t =? i); injection Rw as Rw; exact Rw. }
    destruct (WR a vx A) as (a' & -> & A' & Ga). destruct (WR b vy B) as (b' & -> & B' & Gb). destruct (WR d vz D) as (d' & -> & D' & Gd). cbn [bind].
    eexists. split; [reflexivity|]. repeat split; auto. intros t Ht. rewrite (Ga t Ht), (Gb t Ht), (Gd t Ht).
    destruct (Z.eqb_spec t i) as [->|Hne].
    + destruct (Z.ltb_spec i (i + 1)); [|lia]. rewrite combo_vec, Ev. reflexivity.
    + rewrite (G t Ht). destruct (Z.ltb_spec t i), (Z.ltb_spec t (i + 1)); try lia; reflexivity.
  - rewrite E. exists a, b, d. repeat split; auto. intros c Ic. pose proof (place_in n c S Ic) as P. unfold get. pose proof (G (place n c) P) as Gc. unfold at_ in Gc.
    rewrite Gc. destruct (Z.ltb_spec (place n c) (volume n)); [reflexivity|lia].
Qed.
Lemma rotate_one n x y z : sizes_ok n -> array n x -> array n y -> array n z -> rotate ((1, 0, 0), (0, 1, 0), (0, 0, 1))%R (volume n) x y z = Val (x, y, z).
Proof.
  intros S X Y Z0. destruct (rotate_ok ((1, 0, 0), (0, 1, 0), (0, 0, 1))%R n x y z S X Y Z0) as (x' & y' & z' & E & X' & Y' & Z' & G). rewrite E.
  assert (Q : forall c, inside n c -> get n x' c = get n x c /\ get n y' c = get n y c /\ get n z' c = get n z c).
  { intros c Ic. pose proof (G c Ic) as H. unfold combo in H.
    pose proof (f_equal (fun p => fst (fst p)) H) as H1. pose proof (f_equal (fun p => snd (fst p)) H) as H2. pose proof (f_equal snd H) as H3. cbn [fst snd] in *. rewrite H1, H2, H3. repeat split; ring. }
  rewrite (array_ext n x' x S X' X), (array_ext n y' y S Y' Y), (array_ext n z' z S Z' Z0); [reflexivity| | |]; intros c Ic; apply Q; exact Ic.
Qed.

(** ** The six arrays *)
Definition entry (d : dset) : Z * (Z * Z * Z) * list R := (Z.of_nat (length (fst d)), pad (fst d), snd d).
Definition six_step (f : datasets) (nam : string) (st : option (list (Z * (Z * Z * Z) * list R))) : outcome (option (list (Z * (Z * Z * Z) * list R))) :=
  match st, f nam with
  | Some l, Some d => let! e := read_dataset 3 d in
      Val (if match l with [] => true | e0 :: _ => alike (fst e0) (fst e) end then Some (l ++ [e]) else None)
  | _, _ => Val None
  end.
Lemma six_is f : six f = foldM (six_step f) six_names (Some []).
Proof. reflexivity. Qed.
Lemma six_none f l : foldM (six_step f) l None = Val None.
Proof. induction l; cbn; auto. Qed.
Lemma alike_eq a b : alike a b = true -> a = b.
Proof.
  destruct a as [r [[n0 n1] n2]], b as [q [[l0 l1] l2]]. unfold alike. rewrite !andb_true_iff, !Z.eqb_eq. intros (((-> & ->) & ->) & ->). reflexivity.
Qed.
Lemma alike_refl a : alike a a = true.
Proof. destruct a as [r [[n0 n1] n2]]. unfold alike. rewrite !Z.eqb_refl. reflexivity. Qed.
Lemma same_dims a b : dims_ok a -> dims_ok b -> Z.of_nat (length a) = Z.of_nat (length b) -> pad a = pad b -> a = b.
Proof.
  intros Da Db L P. destruct (dims_cases a Da) as (n0 & n1 & n2 & Pa & _ & Ca). destruct (dims_cases b Db) as (l0 & l1 & l2 & Pb & _ & Cb).
  rewrite Pa, Pb in P. injection P as -> -> ->.
  destruct Ca as [(-> & -> & ->)|[(-> & ->)| ->]], Cb as [(-> & E1 & E2)|[(-> & E1)| ->]]; cbn [length] in L; try lia; reflexivity.
Qed.
Lemma six_miss f nam l : f nam = None -> six_step f nam (Some l) = Val None.
Proof. intros E. unfold six_step. rewrite E. reflexivity. Qed.
Lemma six_hit f nam l d : f nam = Some d -> dims_ok (fst d) ->
  six_step f nam (Some l) = Val (if match l with [] => true | e0 :: _ => alike (fst e0) (Z.of_nat (length (fst d)), pad (fst d)) end then Some (l ++ [(Z.of_nat (length (fst d)), pad (fst d), snd d)]) else None).
Proof. intros E D. unfold six_step. rewrite E. rewrite (read_ok 3 d D) by (destruct D as [[_ L] _]; lia). reflexivity. Qed.
(** Either all six are there with the same sizes, or not. *)
Lemma six_cases f : (forall nam d, In nam six_names -> f nam = Some d -> dset_ok d) ->
  six f = Val None \/ exists dims l, six f = Val (Some (map (fun v => (Z.of_nat (length dims), pad dims, v)) l)) /\ dims_ok dims /\
    Forall2 (fun nam v => f nam = Some (dims, v) /\ array (pad dims) v) six_names l.
Proof.
  intros H. rewrite six_is.
  assert (G : forall todo dims (l : list (list R)) done, (forall nam, In nam todo -> In nam six_names) -> done <> [] -> dims_ok dims ->
     Forall2 (fun nam v => f nam = Some (dims, v) /\ array (pad dims) v) done l ->
     foldM (six_step f) todo (Some (map (fun v => (Z.of_nat (length dims), pad dims, v)) l)) = Val None \/
     exists l', foldM (six_step f) todo (Some (map (fun v => (Z.of_nat (length dims), pad dims, v)) l)) = Val (Some (map (fun v => (Z.of_nat (length dims), pad dims, v)) l')) /\
       Forall2 (fun nam v => f nam = Some (dims, v) /\ array (pad dims) v) (done ++ todo) l').
  { induction todo as [|nam todo IH]; intros dims l done Sub Nd D Fa.
    - right. exists l. rewrite app_nil_r. split; [reflexivity|exact Fa].
    - cbn [foldM]. destruct (f nam) as [d|] eqn:Ef; [|left; rewrite (six_miss f nam _ Ef); apply six_none].
      destruct (H nam d (Sub nam (or_introl eq_refl)) Ef) as [Dd Ad]. rewrite (six_hit f nam _ d Ef Dd). cbn [bind].
      destruct l as [|v0 l]; [inversion Fa; subst; congruence|]. cbn [map fst].
      destruct (alike (Z.of_nat (length dims), pad dims) (Z.of_nat (length (fst d)), pad (fst d))) eqn:Al; [|left; apply six_none].
      apply alike_eq in Al. assert (Ed : fst d = dims). { symmetry. apply same_dims; auto. - exact (f_equal fst Al). - exact (f_equal snd Al). }
      destruct (IH dims ((v0 :: l) ++ [snd d]) (done ++ [nam])) as [N|(l' & E & Fl)].
      + intros; apply Sub; right; assumption.
      + destruct done; discriminate.
      + exact D.
      + apply Forall2_app; [exact Fa|]. constructor; [|constructor]. rewrite <- Ed. destruct d; split; [exact Ef|exact Ad].
      + left. rewrite map_app in N. cbn [map app] in N |- *. rewrite Ed. exact N.
      + right. exists l'. split; [|rewrite <- app_assoc in Fl; exact Fl]. rewrite map_app in E. cbn [map app] in E |- *. rewrite Ed. exact E. }
  unfold six_names at 1 2. cbn [foldM]. destruct (f "x.r"%string) as [d|] eqn:Ef; [|left; rewrite (six_miss f _ _ Ef); reflexivity].
  destruct (H "x.r"%string d (or_introl eq_refl) Ef) as [Dd Ad]. rewrite (six_hit f _ _ d Ef Dd). cbn [bind app].
  destruct (G ["x.i"; "y.r"; "y.i"; "z.r"; "z.i"]%string (fst d) [snd d] ["x.r"%string]) as [N|(l' & E & Fl)].
  - intros nam In0. right. exact In0.
  - discriminate.
  - exact Dd.
  - constructor; [|constructor]. destruct d; split; [exact Ef|exact Ad].
  - left. exact N.
  - right. exists (fst d), l'. split; [exact E|]. split; [exact Dd|exact Fl].
Qed.
