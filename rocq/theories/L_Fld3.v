(** Energies in parts of the cell. *)
From Coq Require Import List ZArith Reals Bool Lia Lra.
From Verif Require Import Base RC Loops M_Tensor S_Tensor M_Evect S_Evect L_Evect L_Evect3 M_Grid S_Grid M_Op S_Op L_Op L_Op2 L_Op3 M_Fld S_Fld L_Fld.
Import ListNotations.
Local Open Scope Z_scope.

Definition pick (lo hi x e : R) : R := if Rleb lo x && Rleb x hi then e else 0%R.

Lemma rd_nth0 {A} (l : list A) i (z : A) : 0 <= i < Z.of_nat (length l) -> rd l i = Val (nth (Z.to_nat i) l z).
Proof. intros H. unfold rd. destruct (Z.ltb_spec i 0); [lia|]. rewrite (nth_error_nth' l z) by lia. reflexivity. Qed.

Lemma dielectric_ok eigs d twice Vol HN lo hi energy eps : epsilons eigs d eps -> 0 <= d_out d <= Z.of_nat (length energy) -> HN <> 0%R ->
  energy_in_dielectric eigs d twice Vol HN lo hi energy =
  Val (wsum twice (Z.to_nat (d_out d)) (fun i => pick lo hi (eps i) (nth i energy 0%R)) * (Vol / HN))%R.
Proof.
  intros (Le & He) Hn HH. unfold energy_in_dielectric. rewrite fdiv_nz by exact HH.
  match goal with |- context [forZ 0 (d_out d) ?b _] => set (body := b) end.
  destruct (forZ_inv (fun i s => s = wsum twice (Z.to_nat i) (fun i => pick lo hi (eps i) (nth i energy 0%R))) body 0 (d_out d) 0%R) as (s & E & ->).
  - lia.
  - reflexivity.
  - intros i s Hi ->. unfold body. rewrite (rd_nth0 _ i sym0) by lia. cbn [bind]. fold (sym_at (d_eps_inv d) (Z.to_nat i)). rewrite He by lia. cbn [bind].
    unfold wsum. replace (Z.to_nat (i + 1)) with (S (Z.to_nat i)) by lia. cbn [rsum]. rewrite Z2Nat.id by lia.
    destruct (Rleb lo (eps (Z.to_nat i)) && Rleb (eps (Z.to_nat i)) hi) eqn:B.
    + replace (pick lo hi (eps (Z.to_nat i)) (nth (Z.to_nat i) energy 0%R)) with (nth (Z.to_nat i) energy 0%R) by (unfold pick; rewrite B; reflexivity).
      rewrite (rd_nth0 energy i 0%R) by lia. cbn [bind]. eexists. split; [reflexivity|]. destruct (twice i); ring.
    + replace (pick lo hi (eps (Z.to_nat i)) (nth (Z.to_nat i) energy 0%R)) with 0%R by (unfold pick; rewrite B; reflexivity).
      eexists. split; [reflexivity|]. destruct (twice i); ring.
  - rewrite E. reflexivity.
Qed.

Lemma wsum_le tw n f g : (forall i, (i < n)%nat -> (f i <= g i)%R) -> (wsum tw n f <= wsum tw n g)%R.
Proof. intros H. apply rsum_le. intros i Hi. specialize (H i Hi). destruct (tw (Z.of_nat i)); lra. Qed.
Lemma wsum_nonneg tw n f : (forall i, (i < n)%nat -> (0 <= f i)%R) -> (0 <= wsum tw n f)%R.
Proof. intros H. apply rsum_nonneg. intros i Hi. specialize (H i Hi). destruct (tw (Z.of_nat i)); lra. Qed.

Lemma fraction tw n Vol HN energy g : normalized tw n Vol HN energy -> (forall i, (i < Z.to_nat n)%nat -> (0 <= g i <= nth i energy 0)%R) ->
  (0 <= wsum tw (Z.to_nat n) g * (Vol / HN) <= 1)%R.
Proof.
  intros (_ & H1 & H2 & Hp & Ht) Hg. assert (Q : (0 < Vol / HN)%R) by (apply Rdiv_lt_0_compat; assumption).
  assert (A : (0 <= wsum tw (Z.to_nat n) g)%R) by (apply wsum_nonneg; intros i Hi; apply Hg; exact Hi).
  assert (B : (wsum tw (Z.to_nat n) g <= wsum tw (Z.to_nat n) (fun i => nth i energy 0))%R) by (apply wsum_le; intros i Hi; apply Hg; exact Hi).
  split; [apply Rmult_le_pos; lra|]. rewrite <- Ht. apply Rmult_le_compat_r; lra.
Qed.

Lemma pick_range lo hi x e : (0 <= e)%R -> (0 <= pick lo hi x e <= e)%R.
Proof. intros H. unfold pick. destruct (Rleb lo x && Rleb x hi); lra. Qed.
Lemma pick_split a b c x e : (a <= b)%R -> (b <= c)%R -> x <> b -> (pick a b x e + pick b c x e = pick a c x e)%R.
Proof.
  intros H1 H2 H3. unfold pick. destruct (Rleb_spec a x), (Rleb_spec x b), (Rleb_spec b x), (Rleb_spec x c); cbn [andb]; try lra; exfalso; lra.
Qed.
Lemma ascending_last a l : ascending a l -> (a <= last l a)%R.
Proof.
  revert a; induction l as [|b l IH]; intros a H; [cbn; lra|]. destruct H as (H1 & H2). specialize (IH b H2).
  destruct l as [|c l]; [cbn in *; lra|]. change (last (b :: c :: l) a) with (last (c :: l) a). replace (last (c :: l) a) with (last (c :: l) b); [lra|].
  clear. revert c; induction l as [|x l IH]; intros c; [reflexivity|]. exact (IH x).
Qed.
Lemma last_def {A} (l : list A) x y : l <> [] -> last l x = last l y.
Proof. induction l as [|a l IH]; intros H; [contradiction|]. destruct l as [|b l]; [reflexivity|]. apply IH. discriminate. Qed.

Lemma parts_sum eps x e : forall l a, ascending a l -> (forall b, In b (removelast l) -> x <> b) -> l <> [] -> x = eps ->
  total (map (fun ab => pick (fst ab) (snd ab) x e) (ranges a l)) = pick a (last l a) x e.
Proof.
  intros l a Ha Hb Hl _. revert a Ha Hb Hl. induction l as [|b l IH]; intros a Ha Hb Hl; [contradiction|]. destruct Ha as (H1 & H2).
  cbn [ranges map total fst snd]. destruct l as [|c l].
  - cbn [ranges map total last]. ring.
  - rewrite IH; [| exact H2 | | discriminate].
    + change (last (b :: c :: l) a) with (last (c :: l) a). rewrite (last_def (c :: l) a b) by discriminate.
      apply pick_split; [exact H1|apply ascending_last; exact H2|]. apply Hb. left. reflexivity.
    + intros y Hy. apply Hb. right. exact Hy.
Qed.

Lemma total_wsum tw n {T} (l : list T) (g : T -> nat -> R) (q : R) :
  total (map (fun t => wsum tw n (g t) * q)%R l) = (wsum tw n (fun i => total (map (fun t => g t i) l)) * q)%R.
Proof.
  induction l as [|t l IH]; cbn [map total].
  - unfold wsum. rewrite (rsum_ext n _ (fun _ => 0%R)) by (intros i _; ring). rewrite rsum_0. ring.
  - rewrite IH, wsum_add. ring.
Qed.

(* ------------------------------------------------------------------ *)
Lemma grid_point_ok sx sy sz n1 n2 n3 i1 i2 i3 : 1 <= n1 -> 1 <= n2 -> 1 <= n3 -> 0 <= i1 < n1 -> 0 <= i2 < n2 -> 0 <= i3 < n3 ->
  grid_point sx sy sz n1 n2 n3 i1 i2 i3 = Val (place sx sy sz n1 n2 n3 i1 i2 i3).
Proof.
  intros H1 H2 H3 K1 K2 K3. unfold grid_point. rewrite !fdiv_nz by (apply not_0_IZR; lia). cbn [bind]. unfold place. f_equal.
  assert (Q : forall s n i, 1 <= n -> 0 <= i < n -> (IZR i * (s / IZR n) - (if n <=? 1 then 0 else s * (1 / 2)))%R = position_of s n i).
  { intros s n i Hn Hi. unfold position_of. assert (IZR n <> 0%R) by (apply not_0_IZR; lia). destruct (Z.leb_spec n 1), (Z.eqb_spec n 1); try lia.
    - assert (i = 0) as -> by lia. ring.
    - field. assumption. }
  rewrite !Q by lia. reflexivity.
Qed.

Fixpoint lsum {T} (f : T -> R) (l : list T) : R := match l with [] => 0%R | x :: l => (f x + lsum f l)%R end.
Lemma lsum_ext {T} (f g : T -> R) l : (forall x, In x l -> f x = g x) -> lsum f l = lsum g l.
Proof. induction l as [|a l IH]; intros H; cbn; [reflexivity|]. rewrite H by (left; reflexivity). rewrite IH; [reflexivity|]. intros x Hx. apply H. right. exact Hx. Qed.
Lemma lsum_add {T} (f g : T -> R) l : lsum (fun x => f x + g x)%R l = (lsum f l + lsum g l)%R.
Proof. induction l as [|a l IH]; cbn; [ring|]. rewrite IH. ring. Qed.
Lemma lsum_le {T} (f g : T -> R) l : (forall x, In x l -> (f x <= g x)%R) -> (lsum f l <= lsum g l)%R.
Proof.
  induction l as [|a l IH]; intros H; cbn; [lra|]. pose proof (H a (or_introl eq_refl)). assert (lsum f l <= lsum g l)%R; [|lra]. apply IH. intros x Hx. apply H. right. exact Hx.
Qed.
Lemma lsum_nonneg {T} (f : T -> R) l : (forall x, In x l -> (0 <= f x)%R) -> (0 <= lsum f l)%R.
Proof.
  induction l as [|a l IH]; intros H; cbn; [lra|]. pose proof (H a (or_introl eq_refl)). assert (0 <= lsum f l)%R; [|lra]. apply IH. intros x Hx. apply H. right. exact Hx.
Qed.
Lemma lsum_index {T} (ix : T -> Z) (tw : Z -> bool) (g : nat -> R) l n : map ix l = map Z.of_nat (seq 0 n) ->
  lsum (fun x => (if tw (ix x) then 2 else 1) * g (Z.to_nat (ix x)))%R l = wsum tw n g.
Proof.
  intros H.
  assert (A : lsum (fun x => (if tw (ix x) then 2 else 1) * g (Z.to_nat (ix x)))%R l = lsum (fun x => (if tw x then 2 else 1) * g (Z.to_nat x))%R (map ix l)).
  { clear H. induction l as [|a l IH]; cbn; [reflexivity|]. rewrite IH. reflexivity. }
  rewrite A, H. clear A H l. unfold wsum.
  induction n as [|n IH]; [reflexivity|]. rewrite seq_S, map_app. cbn [rsum]. rewrite <- IH. clear IH. cbn [map Nat.add].
  assert (B : forall (l1 l2 : list Z) (f : Z -> R), lsum f (l1 ++ l2) = (lsum f l1 + lsum f l2)%R :> R).
  { intros l1 l2 f. induction l1 as [|a l1 IH]; cbn [app lsum]; [ring|]. rewrite IH. ring. }
  rewrite (B _ _ (fun x : Z => (if tw x then 2 else 1) * g (Z.to_nat x))%R). cbn [lsum]. rewrite Nat2Z.id. ring.
Qed.

Definition share (objects : list object) (p : vec) (e : R) : R := if counted (rev objects) p then e else 0%R.

(** A loop over grid points, in any order. *)
Definition good_loop (loop : list (Z * Z * Z * Z)) (n1 n2 n3 : Z) (energy : list R) : Prop :=
  forall i1 i2 i3 idx, In (i1, i2, i3, idx) loop -> 0 <= i1 < n1 /\ 0 <= i2 < n2 /\ 0 <= i3 < n3 /\ 0 <= idx < Z.of_nat (length energy).

Lemma objects_ok loop twice n1 n2 n3 sx sy sz Vol HN objects energy : 1 <= n1 -> 1 <= n2 -> 1 <= n3 -> HN <> 0%R -> good_loop loop n1 n2 n3 energy ->
  energy_in_objects loop twice n1 n2 n3 sx sy sz Vol HN objects energy =
  Val (lsum (fun pt => let '(i1, i2, i3, idx) := pt in (if twice pt then 2 else 1) * share objects (place sx sy sz n1 n2 n3 i1 i2 i3) (nth (Z.to_nat idx) energy 0)) loop * (Vol / HN))%R.
Proof.
  intros H1 H2 H3 HH G. unfold energy_in_objects. rewrite fdiv_nz by exact HH.
  match goal with |- context [run ?b loop _] => set (body := b) end.
  assert (K : forall acc, run body loop acc = Val (acc + lsum (fun pt => let '(i1, i2, i3, idx) := pt in (if twice pt then 2 else 1) * share objects (place sx sy sz n1 n2 n3 i1 i2 i3) (nth (Z.to_nat idx) energy 0)) loop)%R).
  { induction loop as [|(((i1 & i2) & i3) & idx) l IH]; intros acc; [cbn; f_equal; ring|].
    destruct (G i1 i2 i3 idx (or_introl eq_refl)) as (A1 & A2 & A3 & A4).
    assert (G' : good_loop l n1 n2 n3 energy) by (intros a b c x Hx; apply G; right; exact Hx).
    cbn [run]. unfold body at 1. rewrite grid_point_ok by assumption. cbn [bind lsum]. unfold share at 1. set (p := place sx sy sz n1 n2 n3 i1 i2 i3).
    destruct (counted (rev objects) p).
    - rewrite (rd_nth0 energy idx 0%R) by lia. cbn [bind]. rewrite (IH G'). f_equal. destruct (twice (i1, i2, i3, idx)); ring.
    - cbn [bind]. rewrite (IH G'). f_equal. destruct (twice (i1, i2, i3, idx)); ring. }
  rewrite K. cbn [bind]. f_equal. ring.
Qed.

Lemma counted_app l1 l2 p : counted (l1 ++ l2) p = if existsb (fun o => o_in o p) l1 then counted l1 p else counted l2 p.
Proof.
  induction l1 as [|o l1 IH]; [reflexivity|]. cbn [app counted existsb]. destruct (o_in o p); [reflexivity|]. exact IH.
Qed.
Lemma counted_none l p : existsb (fun o => o_in o p) l = false -> counted l p = false.
Proof. induction l as [|o l IH]; [reflexivity|]. cbn [existsb counted]. destruct (o_in o p); [discriminate|]. exact IH. Qed.
Lemma existsb_rev {A} (f : A -> bool) l : existsb f (rev l) = existsb f l.
Proof.
  destruct (existsb f l) eqn:E.
  - apply existsb_exists in E as (x & Hx & Hf). apply existsb_exists. exists x. split; [apply -> in_rev; exact Hx|exact Hf].
  - destruct (existsb f (rev l)) eqn:F; [|reflexivity]. apply existsb_exists in F as (x & Hx & Hf). apply in_rev in Hx. rewrite <- E. symmetry. apply existsb_exists. exists x. auto.
Qed.

Lemma counted_owned objects p : counted (rev objects) p = true <-> owned objects p.
Proof.
  induction objects as [|x l IH] using rev_ind.
  - cbn. split; [discriminate|]. intros (o & (l1 & l2 & E & _) & _). destruct l1; discriminate.
  - rewrite rev_app_distr. cbn [rev app counted]. destruct (o_in x p) eqn:X.
    + split.
      * intros H. exists x. split; [exists l, []; split; [reflexivity|]; split; [exact X|intros o' []]|]. destruct (o_nothing x); [discriminate|reflexivity].
      * intros (o & (l1 & l2 & E & Ho & Hl) & Hn). destruct l2 as [|y l2 _] using rev_ind.
        -- apply app_inj_tail in E as (_ & ->). rewrite Hn. reflexivity.
        -- rewrite app_comm_cons, app_assoc in E. apply app_inj_tail in E as (_ & <-). rewrite (Hl x) in X; [discriminate|]. apply in_or_app. right. left. reflexivity.
    + rewrite IH. split; intros (o & (l1 & l2 & E & Ho & Hl) & Hn); exists o; (split; [|exact Hn]).
      * exists l1, (l2 ++ [x]). split; [rewrite E, <- app_assoc; reflexivity|]. split; [exact Ho|]. intros o' Hin. apply in_app_or in Hin as [Hin|[<-|[]]]; [apply Hl; exact Hin|exact X].
      * destruct l2 as [|y l2 _] using rev_ind.
        -- apply app_inj_tail in E as (_ & ->). congruence.
        -- rewrite app_comm_cons, app_assoc in E. apply app_inj_tail in E as (E & <-). exists l1, l2. split; [exact E|]. split; [exact Ho|]. intros o' Hin. apply Hl. apply in_or_app. left. exact Hin.
Qed.

Lemma lsum_app {T} (f : T -> R) l1 l2 : lsum f (l1 ++ l2) = (lsum f l1 + lsum f l2)%R.
Proof. induction l1 as [|a l1 IH]; cbn [app lsum]; [ring|]. rewrite IH. ring. Qed.
Lemma lsum_flat {S T} (f : T -> R) (g : S -> list T) l : lsum f (flat_map g l) = lsum (fun x => lsum f (g x)) l.
Proof. induction l as [|a l IH]; cbn [flat_map lsum]; [reflexivity|]. rewrite lsum_app, IH. reflexivity. Qed.
Lemma lsum_map {S T} (f : T -> R) (g : S -> T) l : lsum f (map g l) = lsum (fun x => f (g x)) l.
Proof. induction l as [|a l IH]; cbn [map lsum]; [reflexivity|]. rewrite IH. reflexivity. Qed.
Lemma lsum_range (f : Z -> R) n : lsum f (zrange n) = rsum (Z.to_nat n) (fun i => f (Z.of_nat i)).
Proof.
  unfold zrange. rewrite lsum_map. induction (Z.to_nat n) as [|m IH]; [reflexivity|]. rewrite seq_S, lsum_app. cbn [rsum lsum]. rewrite IH. cbn [Nat.add]. ring.
Qed.
Lemma lsum_cell (f : Z * Z * Z * Z -> R) n1 n2 n3 : lsum f (loop_complex n1 n2 n3) =
  rsum (Z.to_nat n1) (fun i => rsum (Z.to_nat n2) (fun j => rsum (Z.to_nat n3) (fun k => f (Z.of_nat i, Z.of_nat j, Z.of_nat k, (Z.of_nat i * n2 + Z.of_nat j) * n3 + Z.of_nat k)))).
Proof.
  unfold loop_complex. rewrite lsum_flat, lsum_range. apply rsum_ext. intros i _. rewrite lsum_flat, lsum_range. apply rsum_ext. intros j _. rewrite lsum_map, lsum_range. reflexivity.
Qed.
