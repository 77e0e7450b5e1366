(** Proofs about mpb-data: the whole array. *)
From Coq Require Import String List ZArith Reals Lra Lia Bool Psatz.
From Verif Require Import Base RC Loops M_Tensor M_Interp L_Interp L_Interp3 M_Evect M_Data S_Data L_Data.
Import ListNotations.
Local Open Scope Z_scope.

Lemma foldM_done {T X} (step : T -> X -> outcome X) (P : list T -> X -> Prop) L s :
  P [] s -> (forall done t s, In t L -> P done s -> exists s', step t s = Val s' /\ P (done ++ [t]) s') -> exists s', foldM step L s = Val s' /\ P L s'.
Proof.
  intros H0 St. assert (G : forall todo done s, (forall t, In t todo -> In t L) -> P done s -> exists s', foldM step todo s = Val s' /\ P (done ++ todo) s').
  { induction todo as [|t todo IH]; intros done s1 Sub H1; cbn [foldM].
    - exists s1. rewrite app_nil_r. auto.
    - destruct (St done t s1 (Sub t (or_introl eq_refl)) H1) as (s2 & E & H2). rewrite E. cbn [bind].
      destruct (IH (done ++ [t]) s2) as (s3 & E3 & H3); [intros; apply Sub; right; assumption|exact H2|].
      exists s3. split; [exact E3|]. rewrite <- app_assoc in H3. exact H3. }
  exact (G L [] s (fun t H => H) H0).
Qed.

Definition tri (o : Z * Z * Z) : list (Z * Z * Z) :=
  let '(o0, o1, o2) := o in map (fun p => (fst p, fst (snd p), snd (snd p))) (prod_list (zran 0 o0) (fun _ => prod_list (zran 0 o1) (fun _ => zran 0 o2))).
Lemma tri_in o c : In c (tri o) <-> inside o c.
Proof.
  destruct o as [[o0 o1] o2], c as [[i j] k]. unfold tri, inside. rewrite in_map_iff. split.
  - intros ([a [b d]] & E & I). cbn [fst snd] in E. injection E as -> -> ->. rewrite !prod_list_in, !zran_in in I. lia.
  - intros I. exists (i, (j, k)). split; [reflexivity|]. rewrite !prod_list_in, !zran_in. lia.
Qed.
Lemma foldM_map {S X Y} (f : Y -> S -> outcome S) (g : X -> Y) l s : foldM f (map g l) s = foldM (fun x => f (g x)) l s.
Proof. revert s; induction l as [|a l IH]; intros s; cbn; [reflexivity|]. destruct (f (g a) s); cbn; auto. Qed.
Lemma loop3 {S} (f : Z -> Z -> Z -> S -> outcome S) o0 o1 o2 s :
  forZ 0 o0 (fun i s => forZ 0 o1 (fun j s => forZ 0 o2 (f i j) s) s) s = foldM (fun c s => let '(i, j, k) := c in f i j k s) (tri (o0, o1, o2)) s.
Proof.
  unfold tri. rewrite foldM_map. cbn [fst snd].
  rewrite <- (foldM_nest (fun i q => f i (fst q) (snd q)) (fun _ => prod_list (zran 0 o1) (fun _ => zran 0 o2))).
  rewrite forZ_foldM. apply foldM_ext. intros i s1 _. rewrite forZ_foldM.
  rewrite <- (foldM_nest (fun j k => f i j k) (fun _ => zran 0 o2)). apply foldM_ext. intros j s2 _. apply forZ_foldM.
Qed.

Lemma place_inj n c c' : sizes_ok n -> inside n c -> inside n c' -> place n c = place n c' -> c = c'.
Proof.
  destruct n as [[n0 n1] n2], c as [[i j] k], c' as [[i' j'] k']. unfold sizes_ok, inside, place. intros H I I' E.
  assert (K : k = k' /\ i * n1 + j = i' * n1 + j').
  { assert (Z.modulo ((i * n1 + j) * n2 + k) n2 = Z.modulo ((i' * n1 + j') * n2 + k') n2) as M by (rewrite E; reflexivity).
    rewrite !(Z.add_comm ((_ * n1 + _) * n2)), !Z.mod_add in M by lia. rewrite !Z.mod_small in M by lia. split; [exact M|]. subst k'. nia. }
  destruct K as [-> K].
  assert (J : j = j').
  { assert (Z.modulo (i * n1 + j) n1 = Z.modulo (i' * n1 + j') n1) as M by (rewrite K; reflexivity).
    rewrite !(Z.add_comm (_ * n1)), !Z.mod_add in M by lia. rewrite !Z.mod_small in M by lia. exact M. }
  subst j'. assert (i = i') by nia. subst. reflexivity.
Qed.
Lemma out_index_place t o i j k : out_index t o i j k = place (flip t o) (flip t (i, j, k)).
Proof. destruct o as [[o0 o1] o2]. destruct t; reflexivity. Qed.
Lemma flip_inside t o c : inside o c -> inside (flip t o) (flip t c).
Proof. destruct o as [[o0 o1] o2], c as [[i j] k]. destruct t; unfold inside, flip; lia. Qed.
Lemma flip_sizes t o : sizes_ok o -> sizes_ok (flip t o).
Proof. destruct o as [[o0 o1] o2]. destruct t; unfold sizes_ok, flip; lia. Qed.
Lemma flip_volume t o : volume (flip t o) = volume o.
Proof. destruct o as [[o0 o1] o2]. destruct t; unfold volume, flip; lia. Qed.
Lemma flip_flip {A} t (c : A * A * A) : flip t (flip t c) = c.
Proof. destruct c as [[i j] k]. destruct t; reflexivity. Qed.
Lemma flip_inj {A} t (c c' : A * A * A) : flip t c = flip t c' -> c = c'.
Proof. intros E. rewrite <- (flip_flip t c), E. apply flip_flip. Qed.

Lemma scale_map_ok o cm : sizes_ok o -> let '(o0, o1, o2) := o in let '(c0, c1, c2) := cm in
  scale_map o cm = Val (v_scale (1 / IZR o0) c0, v_scale (1 / IZR o1) c1, v_scale (1 / IZR o2) c2).
Proof.
  destruct o as [[o0 o1] o2], cm as [[c0 c1] c2]. intros (H0 & H1 & H2). unfold scale_map.
  rewrite !fdiv_nz by (apply IZR_neq; lia). reflexivity.
Qed.
(** Where an output point is, in units of the input cell. *)
Definition where_ (cm : m33) (o c : Z * Z * Z) : vec := let '(x, y, z) := combo cm (frac o c) in (x + 1 / 2, y + 1 / 2, z + 1 / 2)%R.
Lemma coord_ok o cm i j k : sizes_ok o -> let '(o0, o1, o2) := o in let '(c0, c1, c2) := cm in
  let cm' := (v_scale (1 / IZR o0) c0, v_scale (1 / IZR o1) c1, v_scale (1 / IZR o2) c2) in
  coord cm' (shift o cm') i j k = where_ cm o (i, j, k).
Proof.
  destruct o as [[o0 o1] o2], cm as [[[[a0 a1] a2] [[b0 b1] b2]] [[c0 c1] c2]]. intros (H0 & H1 & H2).
  assert (IZR o0 <> 0 /\ IZR o1 <> 0 /\ IZR o2 <> 0)%R as (N0 & N1 & N2) by (repeat split; apply IZR_neq; lia).
  unfold coord, shift, v_scale, where_, combo, frac. f_equal; [f_equal|]; field; repeat split; assumption.
Qed.

Lemma map_complex near trans n o cm k d_re d_im out_re out_im m :
  sizes_ok n -> sizes_ok o -> array n d_re -> array n d_im -> array o out_re -> array o out_im -> memo_ok m ->
  exists r_re r_im m', map_data d_re (Some d_im) n out_re (Some out_im) o cm k near trans m = Val (r_re, Some r_im, m') /\
    memo_ok m' /\ array o r_re /\ array o r_im /\
    forall c, inside o c -> (get (flip trans o) r_re (flip trans c), get (flip trans o) r_im (flip trans c)) =
      cblend near (cont n k d_re d_im) (let '(x, y, z) := where_ cm o c in let '(n0, n1, n2) := n in (x * IZR n0, y * IZR n1, z * IZR n2)%R).
Proof.
  intros Hn Ho A B Ao Bo Hm. unfold map_data. cbn [check Bool.eqb bind].
  pose proof (scale_map_ok o cm Ho) as SM. pose proof (fun i j k => coord_ok o cm i j k Ho) as CO.
  destruct n as [[n0 n1] n2] eqn:En, o as [[o0 o1] o2] eqn:Eo, cm as [[c0 c1] c2] eqn:Ec. rewrite SM. cbn [bind]. cbv zeta in CO.
  rewrite <- En, <- Eo, <- Ec in *.
  set (cm' := (v_scale (1 / IZR o0) c0, v_scale (1 / IZR o1) c1, v_scale (1 / IZR o2) c2)) in *.
  change (match k with Some (k0, k1, k2) => (k0 * (2 * PI), k1 * (2 * PI), k2 * (2 * PI))%R | None => (0, 0, 0)%R end) with (sv k).
  set (g := fun c => cblend near (cont n k d_re d_im) (let '(x, y, z) := where_ cm o c in (x * IZR n0, y * IZR n1, z * IZR n2)%R)).
  rewrite loop3. rewrite <- Eo.
  set (P := fun (done : list (Z * Z * Z)) (st : list R * option (list R) * memo) => exists a b m', st = (a, Some b, m') /\ memo_ok m' /\ array o a /\ array o b /\
        forall c, In c done -> inside o c -> rd a (place (flip trans o) (flip trans c)) = Val (re (g c)) /\ rd b (place (flip trans o) (flip trans c)) = Val (im (g c))).
  match goal with |- context [foldM ?step (tri o) ?s0] => destruct (foldM_done step P (tri o) s0) as (st' & E & a & b & m' & -> & Hm' & Aa & Ab & G) end; cycle 2.
  - rewrite E. exists a, b, m'. split; [reflexivity|]. split; [exact Hm'|]. split; [exact Aa|]. split; [exact Ab|].
    intros c I. destruct (G c (proj2 (tri_in o c) I) I) as [G1 G2].
    pose proof (rd_get (flip trans o) a (flip trans c) (flip_sizes trans o Ho)) as R1. pose proof (rd_get (flip trans o) b (flip trans c) (flip_sizes trans o Ho)) as R2.
    unfold array in R1, R2. rewrite flip_volume in R1, R2. rewrite R1 in G1 by (auto using flip_inside). rewrite R2 in G2 by (auto using flip_inside).
    injection G1 as G1. injection G2 as G2. rewrite G1, G2. unfold g. rewrite En. destruct (where_ cm o c) as [[x y] z]. reflexivity.
  - exists out_re, out_im, m. split; [reflexivity|]. split; [exact Hm|]. split; [exact Ao|]. split; [exact Bo|]. intros c [].
  - intros done c st In0 (a & b & m1 & -> & Hm1 & Aa & Ab & G). apply tri_in in In0. destruct c as [[i j] l].
    rewrite out_index_place. rewrite CO.
    destruct (where_ cm o (i, j, l)) as [[x y] z] eqn:W.
    pose proof (point_complex_ok near n k d_re d_im x y z m1 Hn A B Hm1) as PC. rewrite En in PC. rewrite <- En in PC. destruct PC as (m2 & Hm2 & ->). cbn [bind].
    pose proof (place_in _ _ (flip_sizes trans o Ho) (flip_inside trans o _ In0)) as PI0. rewrite flip_volume in PI0.
    rewrite (wr_in a) by (unfold array in Aa; lia). cbn [bind]. rewrite (wr_in b) by (unfold array in Ab; lia). cbn [bind].
    eexists. split; [reflexivity|]. eexists _, _, m2. split; [reflexivity|]. split; [exact Hm2|].
    pose proof (wr_in a (place (flip trans o) (flip trans (i, j, l))) (re (cblend near (cont n k d_re d_im) (x * IZR n0, y * IZR n1, z * IZR n2)%R)) ltac:(unfold array in Aa; lia)) as Wa.
    pose proof (wr_in b (place (flip trans o) (flip trans (i, j, l))) (im (cblend near (cont n k d_re d_im) (x * IZR n0, y * IZR n1, z * IZR n2)%R)) ltac:(unfold array in Ab; lia)) as Wb.
    pose proof (wr_length _ _ _ _ Wa) as La. pose proof (wr_length _ _ _ _ Wb) as Lb.
    split; [unfold array in *; rewrite La; exact Aa|]. split; [unfold array in *; rewrite Lb; exact Ab|].
    intros c Ic Hc. rewrite (rd_wr _ _ _ _ _ Wa), (rd_wr _ _ _ _ _ Wb).
    destruct (Z.eqb_spec (place (flip trans o) (flip trans c)) (place (flip trans o) (flip trans (i, j, l)))) as [e|e].
    + apply place_inj in e; auto using flip_sizes, flip_inside. apply flip_inj in e. subst c. unfold g. rewrite W. split; reflexivity.
    + apply in_app_iff in Ic. destruct Ic as [Ic|[<-|[]]]; [|congruence]. apply G; assumption.
Qed.

Lemma map_real near trans n o cm k d_re out_re m :
  sizes_ok n -> sizes_ok o -> array n d_re -> array o out_re ->
  exists r_re, map_data d_re None n out_re None o cm k near trans m = Val (r_re, None, m) /\ array o r_re /\
    forall c, inside o c -> get (flip trans o) r_re (flip trans c) =
      blend near (rcont n d_re) (let '(x, y, z) := where_ cm o c in let '(n0, n1, n2) := n in (x * IZR n0, y * IZR n1, z * IZR n2)%R).
Proof.
  intros Hn Ho A Ao. unfold map_data. cbn [check Bool.eqb bind].
  pose proof (scale_map_ok o cm Ho) as SM. pose proof (fun i j k => coord_ok o cm i j k Ho) as CO.
  destruct n as [[n0 n1] n2] eqn:En, o as [[o0 o1] o2] eqn:Eo, cm as [[c0 c1] c2] eqn:Ec. rewrite SM. cbn [bind]. cbv zeta in CO.
  rewrite <- En, <- Eo, <- Ec in *.
  set (cm' := (v_scale (1 / IZR o0) c0, v_scale (1 / IZR o1) c1, v_scale (1 / IZR o2) c2)) in *.
  set (g := fun c => blend near (rcont n d_re) (let '(x, y, z) := where_ cm o c in (x * IZR n0, y * IZR n1, z * IZR n2)%R)).
  rewrite loop3. rewrite <- Eo.
  set (P := fun (done : list (Z * Z * Z)) (st : list R * option (list R) * memo) => exists a, st = (a, None, m) /\ array o a /\
        forall c, In c done -> inside o c -> rd a (place (flip trans o) (flip trans c)) = Val (g c)).
  match goal with |- context [foldM ?step (tri o) ?s0] => destruct (foldM_done step P (tri o) s0) as (st' & E & a & -> & Aa & G) end; cycle 2.
  - rewrite E. exists a. split; [reflexivity|]. split; [exact Aa|].
    intros c I. pose proof (G c (proj2 (tri_in o c) I) I) as G1.
    pose proof (rd_get (flip trans o) a (flip trans c) (flip_sizes trans o Ho)) as R1.
    unfold array in R1. rewrite flip_volume in R1. rewrite R1 in G1 by (auto using flip_inside).
    injection G1 as G1. rewrite G1. unfold g. rewrite En. destruct (where_ cm o c) as [[x y] z]. reflexivity.
  - exists out_re. split; [reflexivity|]. split; [exact Ao|]. intros c [].
  - intros done c st In0 (a & -> & Aa & G). apply tri_in in In0. destruct c as [[i j] l].
    rewrite out_index_place. rewrite CO.
    destruct (where_ cm o (i, j, l)) as [[x y] z] eqn:W.
    pose proof (point_real_ok near n d_re x y z Hn A) as PC. rewrite En in PC. rewrite <- En in PC. rewrite PC. cbn [bind].
    pose proof (place_in _ _ (flip_sizes trans o Ho) (flip_inside trans o _ In0)) as PI0. rewrite flip_volume in PI0.
    pose proof (wr_in a (place (flip trans o) (flip trans (i, j, l))) (blend near (rcont n d_re) (x * IZR n0, y * IZR n1, z * IZR n2)%R) ltac:(unfold array in Aa; lia)) as Wa.
    rewrite Wa. cbn [bind].
    eexists. split; [reflexivity|]. eexists. split; [reflexivity|].
    pose proof (wr_length _ _ _ _ Wa) as La.
    split; [unfold array in *; rewrite La; exact Aa|].
    intros c Ic Hc. rewrite (rd_wr _ _ _ _ _ Wa).
    destruct (Z.eqb_spec (place (flip trans o) (flip trans c)) (place (flip trans o) (flip trans (i, j, l)))) as [e|e].
    + apply place_inj in e; auto using flip_sizes, flip_inside. apply flip_inj in e. subst c. unfold g. rewrite W. reflexivity.
    + apply in_app_iff in Ic. destruct Ic as [Ic|[<-|[]]]; [|congruence]. apply G; assumption.
Qed.
