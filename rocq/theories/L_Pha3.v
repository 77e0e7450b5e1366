(** Phases of fields divided over processes. *)
From Coq Require Import List ZArith Reals Bool Lia Lra.
From Verif Require Import Base RC Loops M_Tensor M_Evect S_Evect M_Grid M_Op S_Op L_Op L_Op3 M_Pha S_Pha L_Evect3 L_Pha.
Import ListNotations.
Local Open Scope Z_scope.

Lemma num_app_l f g i : (i < length f)%nat -> num (f ++ g) i = num f i.
Proof.
  intros H. unfold num, gets, rd. destruct (Z.ltb_spec (Z.of_nat i) 0); [lia|]. rewrite Nat2Z.id, nth_error_app1 by exact H. reflexivity.
Qed.
Lemma num_app_r f g i : num (f ++ g) (length f + i) = num g i.
Proof.
  unfold num, gets, rd. destruct (Z.ltb_spec (Z.of_nat (length f + i)) 0); [lia|]. destruct (Z.ltb_spec (Z.of_nat i) 0); [lia|].
  rewrite !Nat2Z.id, nth_error_app2 by lia. replace (length f + i - length f)%nat with i by lia. reflexivity.
Qed.

(** Sums *)
Definition plus2 (a b : R * R) : R * R := (fst a + fst b, snd a + snd b)%R.
Lemma squares_app f g : squares (length (f ++ g)) (num (f ++ g)) = plus2 (squares (length f) (num f)) (squares (length g) (num g)).
Proof.
  rewrite app_length. unfold squares. induction (length g) as [|m IH].
  - rewrite Nat.add_0_r. cbn [csum]. rewrite (csum_ext _ _ (fun i => num f i * num f i)%C) by (intros i Hi; rewrite num_app_l by exact Hi; reflexivity).
    unfold plus2. destruct (csum _ _) as [a b]. cbn. f_equal; ring.
  - rewrite Nat.add_succ_r. cbn [csum]. rewrite IH, num_app_r. destruct (csum (length f) _) as [a b], (csum m _) as [c d], (num g m) as [x y]. unfold plus2. apply C_eq; csimp; ring.
Qed.
Lemma sum_parts parts : forall o, exists l, mapM (fun p => let '(_, n, f) := p in square_sum n f) (divided o parts) = Val l /\
  fold_right (fun a b => (fst a + fst b, snd a + snd b)%R) (0%R, 0%R) l = squares (length (concat parts)) (num (concat parts)).
Proof.
  induction parts as [|f t IH]; intros o.
  - exists []. split; reflexivity.
  - cbn [divided mapM concat]. rewrite square_sum_ok by lia. rewrite Nat2Z.id. cbn [bind]. destruct (IH (o + Z.of_nat (length f))) as (l & E & F). rewrite E. cbn [bind].
    eexists. split; [reflexivity|]. cbn [fold_right]. rewrite F, squares_app. reflexivity.
Qed.

(** Maxima *)
Fixpoint top (key : C -> R) (f : list C) : R := match f with [] => 0%R | v :: t => Rmax (Rabs (key v)) (top key t) end.
Lemma top_app key f g : top key (f ++ g) = Rmax (top key f) (top key g).
Proof.
  induction f as [|v f IH]; cbn [app top].
  - symmetry. apply Rmax_right. induction g as [|w g IH]; cbn [top]; [lra|]. apply Rle_trans with (1 := IH). apply Rmax_r.
  - rewrite IH. apply Rmax_assoc.
Qed.
Lemma max_abs_top key f : max_abs key (Z.of_nat (length f)) f = Val (top key f).
Proof.
  unfold max_abs. destruct (forZ_inv (fun i m => m = top key (firstn (Z.to_nat i) f)) (fun i m => let! v := rd f i in let r := Rabs (key v) in Val (if Rltb m r then r else m)) 0 (Z.of_nat (length f)) 0%R) as (m & E & H).
  - lia.
  - reflexivity.
  - intros i m Hi ->. rewrite gets_in by lia. cbn [bind]. cbv zeta. eexists. split; [reflexivity|]. replace (Z.to_nat (i + 1)) with (S (Z.to_nat i)) by lia.
    assert (F : firstn (S (Z.to_nat i)) f = firstn (Z.to_nat i) f ++ [gets f i]).
    { assert (N : nth_error f (Z.to_nat i) = Some (gets f i)).
      { unfold gets, rd. destruct (Z.ltb_spec i 0); [lia|]. destruct (nth_error f (Z.to_nat i)) eqn:Q; [reflexivity|]. apply nth_error_None in Q. lia. }
      clear Hi. revert N. generalize (gets f i). generalize (Z.to_nat i). clear. intros n. revert f. induction n as [|n IH]; intros [|a f] v N; cbn in N; try discriminate.
      - injection N as ->. reflexivity.
      - cbn [firstn app]. f_equal. apply IH. exact N. }
    rewrite F, top_app. cbn [top]. unfold Rmax at 2. destruct (Rle_dec (Rabs (key (gets f i))) 0) as [L|L].
    + pose proof (Rabs_pos (key (gets f i))). assert (P : (0 <= top key (firstn (Z.to_nat i) f))%R).
      { clear. generalize (firstn (Z.to_nat i) f). intros l. induction l as [|w l IH]; cbn [top]; [lra|]. apply Rle_trans with (1 := IH). apply Rmax_r. }
      destruct (Rltb_spec (top key (firstn (Z.to_nat i) f)) (Rabs (key (gets f i)))); [lra|]. symmetry. apply Rmax_left. exact P.
    + unfold Rmax. destruct (Rltb_spec (top key (firstn (Z.to_nat i) f)) (Rabs (key (gets f i)))), (Rle_dec (top key (firstn (Z.to_nat i) f)) (Rabs (key (gets f i)))); lra.
  - rewrite H, Nat2Z.id, firstn_all in E. exact E.
Qed.
Lemma max_parts key parts : forall o, exists l, mapM (fun p => let '(_, n, f) := p in max_abs key n f) (divided o parts) = Val l /\ fold_right Rmax 0%R l = top key (concat parts).
Proof.
  induction parts as [|f t IH]; intros o.
  - exists []. split; reflexivity.
  - cbn [divided mapM concat]. rewrite max_abs_top. cbn [bind]. destruct (IH (o + Z.of_nat (length f))) as (l & E & F). rewrite E. cbn [bind].
    eexists. split; [reflexivity|]. cbn [fold_right]. rewrite F, top_app. reflexivity.
Qed.

(** The deciding number *)
Definition sgn (x : R) : Z := if Rltb x 0 then -1 else 1.
Fixpoint big (key : C -> R) (m : R) (o : Z) (f : list C) : option (Z * Z) :=
  match f with
  | [] => None
  | v :: t => match big key m (o + 1) t with Some r => Some r | None => if Rleb (1 / 2 * m) (Rabs (key v)) then Some (o, sgn (key v)) else None end
  end.
Lemma big_app key m f g : forall o, big key m o (f ++ g) = match big key m (o + Z.of_nat (length f)) g with Some r => Some r | None => big key m o f end.
Proof.
  induction f as [|v f IH]; intros o.
  - cbn [app length big]. rewrite Z.add_0_r. destruct (big key m o g); reflexivity.
  - cbn [app length big]. rewrite IH. replace (o + 1 + Z.of_nat (length f)) with (o + Z.of_nat (S (length f))) by lia. destruct (big key m (o + Z.of_nat (S (length f))) g); reflexivity.
Qed.
Lemma big_shift key m f : forall o, big key m o f = match big key m 0 f with Some (i, s) => Some (i + o, s) | None => None end.
Proof.
  induction f as [|v f IH]; intros o; [reflexivity|]. cbn [big]. rewrite (IH (o + 1)), (IH (0 + 1)). destruct (big key m 0 f) as [(i & s)|].
  - do 2 f_equal. lia.
  - destruct (Rleb _ _); reflexivity.
Qed.
Lemma last_big_app key m f g : forall p, (p <= length f)%nat -> last_big key m (f ++ g) p = last_big key m f p.
Proof.
  induction p as [|p IH]; intros Hp; [reflexivity|]. cbn [last_big]. replace (rd (f ++ g) (Z.of_nat p)) with (rd f (Z.of_nat p)).
  - destruct (rd f (Z.of_nat p)); cbn [bind]; try reflexivity. rewrite IH by lia. reflexivity.
  - unfold rd. destruct (Z.ltb_spec (Z.of_nat p) 0); [reflexivity|]. rewrite nth_error_app1 by lia. reflexivity.
Qed.
Lemma last_big_big key m f : last_big key m f (length f) = Val (big key m 0 f).
Proof.
  induction f as [|v f IH] using rev_ind; [reflexivity|]. rewrite app_length. cbn [length]. rewrite Nat.add_1_r. cbn [last_big].
  assert (E : rd (f ++ [v]) (Z.of_nat (length f)) = Val v).
  { unfold rd. destruct (Z.ltb_spec (Z.of_nat (length f)) 0); [lia|]. rewrite Nat2Z.id, nth_error_app2 by lia. rewrite Nat.sub_diag. reflexivity. }
  rewrite E. cbn [bind]. cbv zeta. rewrite big_app. cbn [big]. destruct (Rleb _ _).
  - reflexivity.
  - rewrite last_big_app by lia. exact IH.
Qed.
Lemma big_range key m f : forall o i s, big key m o f = Some (i, s) -> o <= i < o + Z.of_nat (length f) /\ (s = 1 \/ s = -1).
Proof.
  induction f as [|v f IH]; intros o i s H; [discriminate|]. cbn [big length] in *. destruct (big key m (o + 1) f) as [(i' & s')|] eqn:E.
  - injection H as -> ->. destruct (IH _ _ _ E). split; [lia|assumption].
  - destruct (Rleb _ _); [|discriminate]. injection H as <- <-. split; [lia|]. unfold sgn. destruct (Rltb _ _); auto.
Qed.

Definition better (best c : Z * Z) : Z * Z := if fst best <? fst c then c else if (fst best =? fst c) && (snd c <? snd best) then c else best.
Definition some_or (b : Z * Z) (r : option (Z * Z)) : Z * Z := match r with Some c => c | None => b end.
Lemma cand key m o f : candidate key m (o, Z.of_nat (length f), f) = Val (some_or (0, 1) (big key m o f)).
Proof. unfold candidate. rewrite Nat2Z.id, last_big_big. cbn [bind]. rewrite (big_shift key m f o). destruct (big key m 0 f) as [(i & s)|]; reflexivity. Qed.
Lemma best_parts key m parts : forall o best, 0 <= o -> 0 <= fst best -> snd best <= 1 -> (fst best < o \/ best = (0, 1)) ->
  exists cs, mapM (candidate key m) (divided o parts) = Val cs /\ fold_left better cs best = some_or best (big key m o (concat parts)).
Proof.
  induction parts as [|f t IH]; intros o best Ho Hb Hs Hc.
  - exists []. split; reflexivity.
  - cbn [divided mapM concat]. rewrite cand. cbn [bind].
    set (c := some_or (0, 1) (big key m o f)).
    assert (B : better best c = some_or best (big key m o f)).
    { unfold c. destruct (big key m o f) as [(i & s)|] eqn:E; cbn [some_or].
      - destruct (big_range _ _ _ _ _ _ E) as (Hi & Hs'). unfold better. cbn [fst snd]. destruct Hc as [Hc| ->].
        + destruct (Z.ltb_spec (fst best) i); [reflexivity|lia].
        + cbn [fst snd]. destruct (Z.ltb_spec 0 i); [reflexivity|]. destruct (Z.eqb_spec 0 i); [|lia]. subst i. destruct Hs' as [-> | ->]; reflexivity.
      - unfold better. cbn [fst snd]. destruct (Z.ltb_spec (fst best) 0); [lia|]. destruct (Z.ltb_spec 1 (snd best)); [lia|]. rewrite andb_false_r. reflexivity. }
    destruct (IH (o + Z.of_nat (length f)) (better best c)) as (cs & E & F).
    + lia.
    + rewrite B. destruct (big key m o f) as [(i & s)|] eqn:Q; cbn [some_or]; [|exact Hb]. destruct (big_range _ _ _ _ _ _ Q). cbn [fst]. lia.
    + rewrite B. destruct (big key m o f) as [(i & s)|] eqn:Q; cbn [some_or]; [|exact Hs]. destruct (big_range _ _ _ _ _ _ Q) as (_ & [-> | ->]); cbn [snd]; lia.
    + rewrite B. destruct (big key m o f) as [(i & s)|] eqn:Q; cbn [some_or].
      * destruct (big_range _ _ _ _ _ _ Q). left. cbn [fst]. lia.
      * destruct Hc as [Hc|Hc]; [left; lia|right; exact Hc].
    + rewrite E. cbn [bind]. eexists. split; [reflexivity|]. cbn [fold_left]. rewrite F, B, big_app. destruct (big key m (o + Z.of_nat (length f)) (concat t)); reflexivity.
Qed.
Lemma maxloc2_ok key m parts : exists cs, mapM (candidate key m) (divided 0 parts) = Val cs /\ maxloc2 cs = some_or (0, 1) (big key m 0 (concat parts)).
Proof.
  destruct parts as [|f t]; [exists []; split; reflexivity|].
  destruct (best_parts key m (f :: t) 0 (0, 1) ltac:(lia) ltac:(cbn; lia) ltac:(cbn; lia) ltac:(auto)) as (cs & E & F). exists cs. split; [exact E|]. rewrite <- F.
  cbn [divided mapM] in E. rewrite cand in E. cbn [bind] in E. destruct (mapM (candidate key m) (divided (0 + Z.of_nat (length f)) t)) as [r| | |]; try discriminate. cbn [bind] in E. injection E as <-.
  cbn [maxloc2 fold_left]. change (fun best c : Z * Z => _) with better. f_equal. destruct (big key m 0 f) as [(i & s)|] eqn:Q; cbn [some_or]; [|reflexivity].
  destruct (big_range _ _ _ _ _ _ Q) as (Hi & Hs). unfold better. cbn [fst snd]. destruct (Z.ltb_spec 0 i); [reflexivity|]. assert (i = 0) as -> by lia. destruct Hs as [-> | ->]; reflexivity.
Qed.

Lemma decide_parts key parts : exists s, decide_sign key (divided 0 parts) = Val s /\ s = snd (some_or (0, 1) (big key (top key (concat parts)) 0 (concat parts))).
Proof.
  unfold decide_sign. destruct (max_parts key parts 0) as (l & E & F). rewrite E. cbn [bind]. rewrite F. destruct (maxloc2_ok key (top key (concat parts)) parts) as (cs & G & H). rewrite G. cbn [bind]. rewrite H.
  eexists. split; reflexivity.
Qed.
Lemma choose_parts parts : choose_phase (divided 0 parts) = choose_phase (divided 0 [concat parts]).
Proof.
  unfold choose_phase. destruct (sum_parts parts 0) as (l & E & F). destruct (sum_parts [concat parts] 0) as (l' & E' & F'). rewrite E, E'. cbn [bind]. rewrite F, F'.
  cbn [concat]. rewrite app_nil_r. set (k := key_complex _).
  destruct (decide_parts k parts) as (s & G & ->). destruct (decide_parts k [concat parts]) as (s & G' & ->). rewrite G, G'. cbn [concat]. rewrite app_nil_r. reflexivity.
Qed.
Lemma decide_parts_same key parts : decide_sign key (divided 0 parts) = decide_sign key (divided 0 [concat parts]).
Proof.
  destruct (decide_parts key parts) as (s & G & ->). destruct (decide_parts key [concat parts]) as (s & G' & ->). rewrite G, G'. cbn [concat]. rewrite app_nil_r. reflexivity.
Qed.

(** Any offsets: one process holds all large numbers *)
Definition proc (p : Z * list C) : Z * Z * list C := (fst p, Z.of_nat (length (snd p)), snd p).
Lemma big_none key m f : (forall v, In v f -> (Rabs (key v) < 1 / 2 * m)%R) -> forall o, big key m o f = None.
Proof.
  intros H. induction f as [|v f IH]; intros o; [reflexivity|]. cbn [big]. rewrite IH by (intros w Hw; apply H; right; exact Hw).
  pose proof (H v (or_introl eq_refl)). destruct (Rleb_spec (1 / 2 * m) (Rabs (key v))); [lra|reflexivity].
Qed.
Lemma sums_any l : exists r, mapM (fun p => let '(_, n, f) := p in square_sum n f) (map proc l) = Val r /\
  fold_right (fun a b => (fst a + fst b, snd a + snd b)%R) (0%R, 0%R) r = squares (length (concat (map snd l))) (num (concat (map snd l))).
Proof.
  induction l as [|(o & f) t IH].
  - exists []. split; reflexivity.
  - cbn [map mapM concat snd]. unfold proc at 1. cbn [fst snd]. rewrite square_sum_ok by lia. rewrite Nat2Z.id. cbn [bind]. destruct IH as (r & E & F). rewrite E. cbn [bind].
    eexists. split; [reflexivity|]. cbn [fold_right]. rewrite F, squares_app. reflexivity.
Qed.
Lemma max_any key l : exists r, mapM (fun p => let '(_, n, f) := p in max_abs key n f) (map proc l) = Val r /\ fold_right Rmax 0%R r = top key (concat (map snd l)).
Proof.
  induction l as [|(o & f) t IH].
  - exists []. split; reflexivity.
  - cbn [map mapM concat snd]. unfold proc at 1. cbn [fst snd]. rewrite max_abs_top. cbn [bind]. destruct IH as (r & E & F). rewrite E. cbn [bind].
    eexists. split; [reflexivity|]. cbn [fold_right]. rewrite F, top_app. reflexivity.
Qed.
Lemma cands key m l : mapM (candidate key m) (map proc l) = Val (map (fun p => some_or (0, 1) (big key m (fst p) (snd p))) l).
Proof.
  induction l as [|(o & f) t IH]; [reflexivity|]. cbn [map mapM]. unfold proc at 1. cbn [fst snd]. rewrite cand. cbn [bind]. rewrite IH. reflexivity.
Qed.
Lemma stay l b : 0 <= fst b -> snd b <= 1 -> (forall c, In c l -> c = (0, 1)) -> fold_left better l b = b.
Proof.
  intros H1 H2. induction l as [|c t IH]; intros H; [reflexivity|]. cbn [fold_left]. rewrite (H c (or_introl eq_refl)). unfold better at 2. cbn [fst snd].
  destruct (Z.ltb_spec (fst b) 0); [lia|]. destruct (Z.ltb_spec 1 (snd b)); [lia|]. rewrite andb_false_r. apply IH. intros d Hd. apply H. right. exact Hd.
Qed.
Lemma better_default c : 0 <= fst c -> (snd c = 1 \/ snd c = -1) -> better (0, 1) c = c.
Proof.
  destruct c as [i s]. cbn [fst snd]. intros Hi Hs. unfold better. cbn [fst snd]. destruct (Z.ltb_spec 0 i); [reflexivity|]. assert (i = 0) as -> by lia. destruct Hs as [-> | ->]; reflexivity.
Qed.
Lemma maxloc2_fold l : (forall c, In c l -> 0 <= fst c /\ (snd c = 1 \/ snd c = -1)) -> maxloc2 l = fold_left better l (0, 1).
Proof.
  destruct l as [|c t]; intros H; [reflexivity|]. cbn [maxloc2 fold_left]. rewrite better_default; [reflexivity| |]; apply (H c (or_introl eq_refl)).
Qed.
Lemma best_one key m l1 o f l2 : (forall p, In p (l1 ++ (o, f) :: l2) -> 0 <= fst p) -> (forall p v, In p (l1 ++ l2) -> In v (snd p) -> (Rabs (key v) < 1 / 2 * m)%R) ->
  maxloc2 (map (fun p => some_or (0, 1) (big key m (fst p) (snd p))) (l1 ++ (o, f) :: l2)) = some_or (0, 1) (big key m o f).
Proof.
  intros Ho Hs. rewrite maxloc2_fold.
  - rewrite map_app, fold_left_app. cbn [map fold_left fst snd].
    rewrite (stay (map _ l1) (0, 1)); [rewrite better_default|cbn; lia|cbn; lia|].
    + apply stay.
      * destruct (big key m o f) as [(i & s)|] eqn:E; cbn [some_or fst]; [|lia]. destruct (big_range _ _ _ _ _ _ E). specialize (Ho (o, f) ltac:(apply in_or_app; right; left; reflexivity)). cbn in Ho. lia.
      * destruct (big key m o f) as [(i & s)|] eqn:E; cbn [some_or snd]; [|lia]. destruct (big_range _ _ _ _ _ _ E). lia.
      * intros c Hc. apply in_map_iff in Hc as (p & <- & Hp). rewrite big_none; [reflexivity|]. intros v Hv. apply (Hs p); [apply in_or_app; right; exact Hp|exact Hv].
    + destruct (big key m o f) as [(i & s)|] eqn:E; cbn [some_or fst]; [|lia]. destruct (big_range _ _ _ _ _ _ E). specialize (Ho (o, f) ltac:(apply in_or_app; right; left; reflexivity)). cbn in Ho. lia.
    + destruct (big key m o f) as [(i & s)|] eqn:E; cbn [some_or snd]; [|lia]. destruct (big_range _ _ _ _ _ _ E). lia.
    + intros c Hc. apply in_map_iff in Hc as (p & <- & Hp). rewrite big_none; [reflexivity|]. intros v Hv. apply (Hs p); [apply in_or_app; left; exact Hp|exact Hv].
  - intros c Hc. apply in_map_iff in Hc as (p & <- & Hp). destruct (big key m (fst p) (snd p)) as [(i & s)|] eqn:E; cbn [some_or fst snd]; [|lia].
    destruct (big_range _ _ _ _ _ _ E). specialize (Ho p Hp). lia.
Qed.
Lemma big_small key m o f g h : (forall v, In v f \/ In v h -> (Rabs (key v) < 1 / 2 * m)%R) -> big key m o (f ++ g ++ h) = big key m (o + Z.of_nat (length f)) g.
Proof.
  intros H. rewrite big_app, big_app. rewrite (big_none key m h) by (intros v Hv; apply H; right; exact Hv). rewrite (big_none key m f) by (intros v Hv; apply H; left; exact Hv).
  destruct (big key m (o + Z.of_nat (length f)) g); reflexivity.
Qed.
Lemma top_in key f v : In v f -> (Rabs (key v) <= top key f)%R.
Proof.
  induction f as [|w f IH]; intros [].
  - subst w. cbn [top]. apply Rmax_l.
  - cbn [top]. apply Rle_trans with (1 := IH H). apply Rmax_r.
Qed.
Lemma big_sign key m o o' f : snd (some_or (0, 1) (big key m o f)) = snd (some_or (0, 1) (big key m o' f)).
Proof. rewrite (big_shift key m f o), (big_shift key m f o'). destruct (big key m 0 f) as [(i & s)|]; reflexivity. Qed.
Lemma choose_one l1 o f l2 : (forall p, In p (l1 ++ (o, f) :: l2) -> 0 <= fst p) ->
  (let whole := concat (map snd (l1 ++ (o, f) :: l2)) in let key := key_complex (best_phase (squares (length whole) (num whole))) in
   forall p v, In p (l1 ++ l2) -> In v (snd p) -> exists w, In w f /\ (Rabs (key v) < 1 / 2 * Rabs (key w))%R) ->
  choose_phase (map proc (l1 ++ (o, f) :: l2)) = choose_phase [(0, Z.of_nat (length (concat (map snd (l1 ++ (o, f) :: l2)))), concat (map snd (l1 ++ (o, f) :: l2)))].
Proof.
  intros Ho. set (whole := concat (map snd (l1 ++ (o, f) :: l2))). cbv zeta. set (key := key_complex _). intros Hs.
  assert (Hs' : forall p v, In p (l1 ++ l2) -> In v (snd p) -> (Rabs (key v) < 1 / 2 * top key whole)%R).
  { intros p v Hp Hv. destruct (Hs p v Hp Hv) as (w & Hw & L). apply Rlt_le_trans with (1 := L). apply Rmult_le_compat_l; [lra|]. apply top_in. unfold whole. rewrite map_app, concat_app. apply in_or_app. right. cbn [map concat]. apply in_or_app. left. exact Hw. }
  unfold choose_phase. destruct (sums_any (l1 ++ (o, f) :: l2)) as (r & E & F). rewrite E. cbn [bind]. rewrite F. fold whole.
  destruct (sum_parts [whole] 0) as (r' & E' & F'). cbn [divided] in E'. rewrite E'. cbn [bind]. rewrite F'. cbn [concat]. rewrite app_nil_r. fold key.
  replace (decide_sign key (map proc (l1 ++ (o, f) :: l2))) with (Val (snd (some_or (0, 1) (big key (top key whole) o f)))).
  - destruct (decide_parts key [whole]) as (s & G & ->). cbn [divided] in G. rewrite G. cbn [concat bind]. rewrite app_nil_r.
    assert (K : snd (some_or (0, 1) (big key (top key whole) 0 whole)) = snd (some_or (0, 1) (big key (top key whole) o f))).
    { unfold whole at 2. rewrite map_app, concat_app. cbn [map concat snd]. rewrite big_small.
      - apply big_sign.
      - intros v [Hv|Hv]; apply in_concat in Hv as (g & Hg & Hv); apply in_map_iff in Hg as (p & <- & Hp); apply (Hs' p v); try exact Hv; apply in_or_app; [left|right]; exact Hp. }
    rewrite K. reflexivity.
  - unfold decide_sign. destruct (max_any key (l1 ++ (o, f) :: l2)) as (q & G & H). rewrite G. cbn [bind]. rewrite H. fold whole. rewrite cands. cbn [bind]. rewrite best_one by assumption. reflexivity.
Qed.
