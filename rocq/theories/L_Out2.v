(** Proofs about the other half: swaps and compaction. *)
From Coq Require Import List ZArith Reals Bool Lia Lra Permutation Sorting.
From Verif Require Import Base RC Loops M_Tensor M_Evect M_Grid S_Grid L_Grid L_Grid5 S_Half L_Half L_Half2 M_Out S_Out L_Out.
Import ListNotations.
Local Open Scope Z_scope.

Lemma entry_eq n q r a c : 0 <= r < n -> 0 <= c < n -> (n * q + r =? n * a + c) = (q =? a) && (r =? c).
Proof.
  intros Hr Hc. destruct (Z.eqb_spec (n * q + r) (n * a + c)) as [E|E].
  - assert (q = a) by nia. assert (r = c) by nia. subst. rewrite !Z.eqb_refl. reflexivity.
  - destruct (Z.eqb_spec q a) as [->|]; [|reflexivity]. destruct (Z.eqb_spec r c) as [->|]; [lia|reflexivity].
Qed.
Lemma opp_wrap n i : 0 <= i < n -> wrap n i = Val (opp n i).
Proof.
  intros H. unfold wrap. destruct (Z.eqb_spec n 0); [lia|]. f_equal. rewrite Z.rem_mod_nonneg by lia. unfold opp. replace (n - i) with (- i + 1 * n) by lia. apply Z.mod_add. lia.
Qed.
Lemma opp_cases n i : 0 <= i < n -> (i = 0 /\ opp n i = 0) \/ (0 < i /\ opp n i = n - i).
Proof. intros H. destruct (Z.eq_dec i 0) as [->|]; [left|right; split; [lia|apply opp_pos; lia]]. split; [reflexivity|]. unfold opp. apply Z.mod_0_l. lia. Qed.

Section Arr.
Context {T : Type} (times : C -> T -> T) (cj : T -> T) (nc : Z) (dflt : T).
Hypothesis (Hnc : 0 < nc).
Let get (f : list T) x := nth (Z.to_nat x) f dflt.

Lemma rd_get (f : list T) x : 0 <= x < Z.of_nat (length f) -> rd f x = Val (get f x).
Proof. apply rd_get_s. Qed.

Lemma swap_points_ok p a b M (d : list T) : 0 <= a < M -> 0 <= b < M -> nc * M <= Z.of_nat (length d) ->
  exists d', swap_points times nc p a b d = Val d' /\ length d' = length d /\
    forall q r, 0 <= r < nc -> rd d' (nc * q + r) = if q =? a then Val (times p (get d (nc * b + r))) else if q =? b then Val (times p (get d (nc * a + r))) else rd d (nc * q + r).
Proof.
  intros Ha Hb HM. unfold swap_points.
  match goal with |- context [forZ 0 nc ?f d] => destruct (forZ_inv (fun c d' => length d' = length d /\ forall q r, 0 <= r < nc -> rd d' (nc * q + r) =
    if r <? c then (if q =? a then Val (times p (get d (nc * b + r))) else if q =? b then Val (times p (get d (nc * a + r))) else rd d (nc * q + r)) else rd d (nc * q + r)) f 0 nc d ltac:(lia)) as (d' & E & Len & H) end.
  - split; [reflexivity|]. intros q r Hr. destruct (Z.ltb_spec r 0); [lia|reflexivity].
  - intros c d1 Hc (Len & H).
    assert (Ia : 0 <= nc * a + c < Z.of_nat (length d)) by nia. assert (Ib : 0 <= nc * b + c < Z.of_nat (length d)) by nia.
    rewrite (H b c Hc), (H a c Hc). destruct (Z.ltb_spec c c); [lia|]. rewrite !rd_get by assumption. cbn [bind].
    destruct (wr d1 (nc * b + c) (times p (get d (nc * a + c)))) as [d2| | |] eqn:W; try (rewrite wr_in in W by (rewrite Len; assumption); discriminate). cbn [bind].
    pose proof (wr_length _ _ _ _ W) as L2.
    destruct (wr d2 (nc * a + c) (times p (get d (nc * b + c)))) as [d3| | |] eqn:W'; try (rewrite wr_in in W' by (rewrite L2, Len; assumption); discriminate).
    exists d3. split; [reflexivity|]. split; [rewrite (wr_length _ _ _ _ W'); congruence|]. intros q r Hr. rewrite (rd_wr _ _ _ _ _ W'), (rd_wr _ _ _ _ _ W), (H q r Hr), !entry_eq by assumption.
    destruct (Z.eqb_spec r c) as [->|Nr].
    + destruct (Z.ltb_spec c (c + 1)); [|lia]. destruct (Z.ltb_spec c c); [lia|]. rewrite !andb_true_r. reflexivity.
    + rewrite !andb_false_r. destruct (Z.ltb_spec r c), (Z.ltb_spec r (c + 1)); try lia; reflexivity.
  - exists d'. split; [exact E|]. split; [exact Len|]. intros q r Hr. rewrite (H q r Hr). destruct (Z.ltb_spec r nc); [reflexivity|lia].
Qed.

Lemma conj_point_ok a b M (d : list T) : 0 <= a < M -> 0 <= b < M -> nc * M <= Z.of_nat (length d) ->
  exists d', conj_point cj nc a b d = Val d' /\ length d' = length d /\
    forall q r, 0 <= r < nc -> rd d' (nc * q + r) = if q =? a then Val (cj (get d (nc * b + r))) else rd d (nc * q + r).
Proof.
  intros Ha Hb HM. unfold conj_point.
  match goal with |- context [forZ 0 nc ?f d] => destruct (forZ_inv (fun c d' => length d' = length d /\ forall q r, 0 <= r < nc -> rd d' (nc * q + r) =
    if r <? c then (if q =? a then Val (cj (get d (nc * b + r))) else rd d (nc * q + r)) else rd d (nc * q + r)) f 0 nc d ltac:(lia)) as (d' & E & Len & H) end.
  - split; [reflexivity|]. intros q r Hr. destruct (Z.ltb_spec r 0); [lia|reflexivity].
  - intros c d1 Hc (Len & H).
    assert (Ia : 0 <= nc * a + c < Z.of_nat (length d)) by nia. assert (Ib : 0 <= nc * b + c < Z.of_nat (length d)) by nia.
    rewrite (H b c Hc). destruct (Z.ltb_spec c c); [lia|]. rewrite !rd_get by assumption. cbn [bind].
    destruct (wr d1 (nc * a + c) (cj (get d (nc * b + c)))) as [d2| | |] eqn:W; try (rewrite wr_in in W by (rewrite Len; assumption); discriminate).
    exists d2. split; [reflexivity|]. split; [rewrite (wr_length _ _ _ _ W); congruence|]. intros q r Hr. rewrite (rd_wr _ _ _ _ _ W), (H q r Hr), !entry_eq by assumption.
    destruct (Z.eqb_spec r c) as [->|Nr].
    + destruct (Z.ltb_spec c (c + 1)); [|lia]. destruct (Z.ltb_spec c c); [lia|]. rewrite !andb_true_r. reflexivity.
    + rewrite !andb_false_r. destruct (Z.ltb_spec r c), (Z.ltb_spec r (c + 1)); try lia; reflexivity.
  - exists d'. split; [exact E|]. split; [exact Len|]. intros q r Hr. rewrite (H q r Hr). destruct (Z.ltb_spec r nc); [reflexivity|lia].
Qed.

(** Disjoint swaps of points with their partners. *)
Lemma swaps_ok {I} (a b : I -> Z) (p : I -> C) (pt : Z -> Z) (pp : Z -> C) (L : list I) M (d : list T) :
  NoDup L -> (forall t t', In t L -> In t' L -> a t = a t' -> t = t') ->
  (forall t, In t L -> 0 <= a t /\ a t <= b t < M /\ b t = pt (a t) /\ a t = pt (b t) /\ p t = pp (a t) /\ p t = pp (b t)) -> nc * M <= Z.of_nat (length d) ->
  exists d', foldM (fun t => swap_points times nc (p t) (a t) (b t)) L d = Val d' /\ length d' = length d /\
    forall q r, 0 <= q < M -> 0 <= r < nc -> (exists t, In t L /\ (q = a t \/ q = b t)) -> rd d' (nc * q + r) = Val (times (pp q) (get d (nc * pt q + r))).
Proof.
  intros Nd Inj HL HM.
  assert (DM : forall x, 0 <= x -> x = nc * (x / nc) + x mod nc /\ 0 <= x mod nc < nc) by (intros x Hx; split; [apply Z.div_mod; lia|apply Z.mod_pos_bound; lia]).
  assert (QR : forall q r, 0 <= r < nc -> (nc * q + r) / nc = q /\ (nc * q + r) mod nc = r) by (intros q r Hr; rewrite (Z.mul_comm nc q); split; [apply dm_div|apply dm_mod]; exact Hr).
  destruct (owner_ok (fun t => swap_points times nc (p t) (a t) (b t)) (fun t x => x / nc = a t \/ x / nc = b t)
    (fun x => times (pp (x / nc)) (get d (nc * pt (x / nc) + x mod nc))) d L Nd) as (d' & E & Len & H).
  - intros t t' x Ht Ht' Hx Ho Ho'. destruct (HL t Ht) as (A1 & A2 & A3 & A4 & _), (HL t' Ht') as (B1 & B2 & B3 & B4 & _). apply Inj; auto.
    destruct Ho as [Ho|Ho], Ho' as [Ho'|Ho']; rewrite Ho in Ho'; try congruence.
    + assert (b t = a t') by (rewrite A3, Ho'; congruence). lia.
    + assert (a t = b t') by (rewrite A4, Ho'; congruence). lia.
  - intros t d1 Ht L1 Hd1. destruct (HL t Ht) as (A1 & A2 & A3 & A4 & A5 & A6).
    destruct (swap_points_ok (p t) (a t) (b t) M d1 ltac:(lia) ltac:(lia) ltac:(lia)) as (d2 & E2 & L2 & H2).
    assert (Same : forall q r, 0 <= r < nc -> q = a t \/ q = b t -> get d1 (nc * q + r) = get d (nc * q + r)).
    { intros q r Hr Hq. assert (B : 0 <= nc * q + r < Z.of_nat (length d)) by (destruct Hq; subst; nia). pose proof (Hd1 _ B ltac:(rewrite (proj1 (QR q r Hr)); exact Hq)) as X. rewrite !rd_get in X by lia. congruence. }
    exists d2. split; [exact E2|]. split; [congruence|]. intros x Hx. destruct (DM x ltac:(lia)) as (Ex & Rx). set (q := x / nc) in *. set (r := x mod nc) in *.
    replace (rd d2 x) with (rd d2 (nc * q + r)) by (rewrite <- Ex; reflexivity). replace (rd d1 x) with (rd d1 (nc * q + r)) by (rewrite <- Ex; reflexivity). rewrite (H2 q r Rx). split.
    + intros Ho. destruct (Z.eqb_spec q (a t)) as [Qa|Qa]; [|destruct (Z.eqb_spec q (b t)) as [Qb|Qb]; [|tauto]].
      * rewrite Same by auto. rewrite Qa, <- A3, <- A5. reflexivity.
      * rewrite Same by auto. rewrite Qb, <- A4, <- A6. reflexivity.
    + intros Ho. destruct (Z.eqb_spec q (a t)); [tauto|]. destruct (Z.eqb_spec q (b t)); [tauto|]. reflexivity.
  - exists d'. split; [exact E|]. split; [exact Len|]. intros q r Hq Hr (t & Ht & Ho). destruct (H (nc * q + r)) as (H1 & _); [nia|].
    destruct (QR q r Hr) as (Q1 & Q2). rewrite Q1, Q2 in H1. exact (H1 t Ht Ho).
Qed.

(** Conjugating copies in an order in which no point is overwritten before it is read. *)
Lemma pmoves_ok (dst src : Z * Z -> Z) (R : Z * Z -> Z * Z -> Prop) (L : list (Z * Z)) M (d : list T) :
  StronglySorted R L ->
  (forall p, In p L -> 0 <= src p < M /\ 0 <= dst p < M) ->
  (forall p q, In p L -> In q L -> R p q -> dst p <> src q /\ dst p <> dst q) -> nc * M <= Z.of_nat (length d) ->
  exists d', foldM (fun p => conj_point cj nc (dst p) (src p)) L d = Val d' /\ length d' = length d /\
    (forall p r, In p L -> 0 <= r < nc -> rd d' (nc * dst p + r) = Val (cj (get d (nc * src p + r)))) /\
    (forall x r, 0 <= r < nc -> (forall p, In p L -> dst p <> x) -> rd d' (nc * x + r) = rd d (nc * x + r)).
Proof.
  intros HS. revert d. induction HS as [|p L HS IH HF]; intros d Hin HR HM.
  - exists d. cbn. repeat split; auto. intros p r [].
  - destruct (Hin p (or_introl eq_refl)) as (H1 & H2). destruct (conj_point_ok (dst p) (src p) M d H2 H1 HM) as (d1 & E1 & L1 & W).
    cbn [foldM]. rewrite E1. cbn [bind]. rewrite Forall_forall in HF.
    destruct (IH d1) as (d' & E & Len & Hd & Ho).
    + intros q Hq. apply Hin. right. exact Hq.
    + intros q r Hq Hr. apply HR; right; assumption.
    + rewrite L1. exact HM.
    + exists d'. split; [exact E|]. split; [congruence|]. split.
      * intros q r [<-|Hq] Hr.
        { rewrite (Ho (dst p) r Hr).
          - rewrite (W _ _ Hr), Z.eqb_refl. reflexivity.
          - intros q Hq X. destruct (HR p q (or_introl eq_refl) (or_intror Hq) (HF q Hq)) as (_ & N). congruence. }
        rewrite (Hd q r Hq Hr). do 2 f_equal. pose proof (W (src q) r Hr) as X. destruct (Hin q (or_intror Hq)) as (S1 & _).
        destruct (Z.eqb_spec (src q) (dst p)) as [Y|Y]; [exfalso; destruct (HR p q (or_introl eq_refl) (or_intror Hq) (HF q Hq)) as (N & _); congruence|].
        rewrite !rd_get in X by nia. congruence.
      * intros x r Hr Hx. rewrite (Ho x r Hr) by (intros q Hq; apply Hx; right; exact Hq).
        rewrite (W _ _ Hr). destruct (Z.eqb_spec x (dst p)) as [X|X]; [|reflexivity].
        exfalso. apply (Hx p (or_introl eq_refl)). congruence.
Qed.

(** ** Three dimensions, and the halved dimension along the rows *)
Definition flip (shifted : bool) (nx ix : Z) : Z := if shifted then nx - 1 - ix else opp nx ix.

Lemma flip_range s nx ix : 0 <= ix < nx -> 0 <= flip s nx ix < nx.
Proof. intros H. unfold flip. destruct s; [lia|]. apply opp_range. lia. Qed.
Lemma flip_flip s nx ix : 0 <= ix < nx -> flip s nx (flip s nx ix) = ix.
Proof. intros H. unfold flip. destruct s; [lia|]. apply opp_opp. exact H. Qed.

Lemma swaps3_ok nx ny (shifted : bool) nst nnew (ph : bool -> bool -> C) (d : list T) : 0 < nx -> 0 < ny -> 0 <= nnew < nst -> nc * (nx * ny * nst) <= Z.of_nat (length d) ->
  exists d', swaps3 times nc nx ny (if shifted then nx - 1 else nx) shifted nst nnew ph d = Val d' /\ length d' = length d /\
    forall ix iy j r, 0 <= ix < nx -> 0 <= iy < ny -> 1 <= j <= nnew -> 0 <= r < nc ->
      rd d' (nc * ((ix * ny + iy) * nst + j) + r) = Val (times (ph (shifted || negb (ix =? 0)) (negb (iy =? 0))) (get d (nc * ((flip shifted nx ix * ny + opp ny iy) * nst + (nnew + 1 - j)) + r))).
Proof.
  intros Hx Hy Hn HM. set (nxmax := if shifted then nx - 1 else nx).
  assert (Hm : 0 <= nxmax / 2 /\ 2 * (nxmax / 2) <= nxmax < 2 * (nxmax / 2) + 2).
  { assert (0 <= nxmax) by (unfold nxmax; destruct shifted; lia). pose proof (Z.div_mod nxmax 2 ltac:(lia)). pose proof (Z.mod_pos_bound nxmax 2 ltac:(lia)). pose proof (Z.div_pos nxmax 2). lia. }
  assert (Hmx : nxmax / 2 < nx) by (unfold nxmax in *; destruct shifted; lia).
  set (cond := fun p : Z * Z => let '(ix, iy) := p in
    let i := ix * ny + iy in let ic := flip shifted nx ix * ny + opp ny iy in
    if ic <? i then [] else zran 1 ((if ic =? i then Z.quot (nnew + 1) 2 else nnew) + 1)).
  set (L := prod_list (prod_list (zran 0 (nxmax / 2 + 1)) (fun _ => zran 0 ny)) cond).
  set (pA := fun t : Z * Z * Z => let '(ix, iy, j) := t in (ix * ny + iy) * nst + j).
  set (pB := fun t : Z * Z * Z => let '(ix, iy, j) := t in (flip shifted nx ix * ny + opp ny iy) * nst + (nnew + 1 - j)).
  set (pP := fun t : Z * Z * Z => let '(ix, iy, j) := t in ph (shifted || negb (ix =? 0)) (negb (iy =? 0))).
  set (dec := fun q => (q / nst / ny, (q / nst) mod ny, q mod nst)).
  assert (Dec : forall ix iy j, 0 <= iy < ny -> 0 <= j < nst -> dec ((ix * ny + iy) * nst + j) = (ix, iy, j)).
  { intros ix iy j A B. unfold dec. rewrite (dm_div nst (ix * ny + iy) j B), (dm_mod nst _ j B), dm_div, dm_mod by exact A. reflexivity. }
  assert (E : swaps3 times nc nx ny nxmax shifted nst nnew ph d = foldM (fun t => swap_points times nc (pP t) (pA t) (pB t)) L d).
  { unfold swaps3. rewrite forZ_foldM. unfold L. 
    rewrite (foldM_ext (fun t => swap_points times nc (pP t) (pA t) (pB t)) (fun p f => (fun p j => swap_points times nc (pP (p, j)) (pA (p, j)) (pB (p, j))) (fst p) (snd p) f)) by (intros ((a & b) & c) s _; reflexivity).
    rewrite <- (foldM_nest (fun p j => swap_points times nc (pP (p, j)) (pA (p, j)) (pB (p, j))) cond).
    rewrite (foldM_ext _ (fun p f => (fun ix iy f => foldM (fun j => swap_points times nc (pP (ix, iy, j)) (pA (ix, iy, j)) (pB (ix, iy, j))) (cond (ix, iy)) f) (fst p) (snd p) f) (prod_list (zran 0 (nxmax / 2 + 1)) (fun _ => zran 0 ny))) by (intros (a & b) s _; reflexivity).
    rewrite <- (foldM_nest (fun ix iy f => foldM (fun j => swap_points times nc (pP (ix, iy, j)) (pA (ix, iy, j)) (pB (ix, iy, j))) (cond (ix, iy)) f) (fun _ => zran 0 ny)).
    apply foldM_ext. intros ix f Hix. apply zran_in in Hix.
    assert (W : (if shifted then Val (nx - 1 - ix) else wrap nx ix) = Val (flip shifted nx ix)) by (unfold flip; destruct shifted; [reflexivity|apply opp_wrap; lia]).
    rewrite W. cbn [bind]. rewrite forZ_foldM. apply foldM_ext. intros iy g Hiy. apply zran_in in Hiy. rewrite opp_wrap by lia. cbn [bind]. unfold cond.
    destruct (_ <? _); [reflexivity|]. rewrite forZ_foldM. reflexivity. }
  assert (Jm : 2 * Z.quot (nnew + 1) 2 <= nnew + 1 < 2 * Z.quot (nnew + 1) 2 + 2) by (rewrite Z.quot_div_nonneg by lia; pose proof (Z.div_mod (nnew + 1) 2 ltac:(lia)); pose proof (Z.mod_pos_bound (nnew + 1) 2 ltac:(lia)); lia).
  assert (Lin : forall ix iy j, In (ix, iy, j) L <-> 0 <= ix <= nxmax / 2 /\ 0 <= iy < ny /\ (let i := ix * ny + iy in let ic := flip shifted nx ix * ny + opp ny iy in i <= ic /\ 1 <= j <= (if ic =? i then Z.quot (nnew + 1) 2 else nnew))).
  { intros ix iy j. unfold L. rewrite prod_list_in, prod_list_in, !zran_in. unfold cond. cbv zeta. destruct (Z.ltb_spec (flip shifted nx ix * ny + opp ny iy) (ix * ny + iy)); [split; [intros (_ & [])|lia]|]. rewrite zran_in. lia. }
  rewrite E.
  destruct (swaps_ok pA pB pP (fun q => pB (dec q)) (fun q => pP (dec q)) L (nx * ny * nst) d) as (d' & E' & Len & H).
  - unfold L. apply prod_list_nodup; [apply prod_list_nodup; intros; apply zran_nodup|]. intros (ix & iy) _. unfold cond. destruct (_ <? _); [constructor|apply zran_nodup].
  - intros ((ix & iy) & j) ((ix' & iy') & j') Ht Ht' EA. apply Lin in Ht, Ht'. cbv zeta in Ht, Ht'. unfold pA in EA.
    assert (0 <= j < nst) by (destruct (_ =? _) in Ht; lia). assert (0 <= j' < nst) by (destruct (_ =? _) in Ht'; lia).
    rewrite <- (Dec ix iy j), <- (Dec ix' iy' j') by lia. rewrite EA. reflexivity.
  - intros ((ix & iy) & j) Ht. apply Lin in Ht. cbv zeta in Ht. destruct Ht as (A & B & D & J).
    pose proof (flip_range shifted nx ix ltac:(lia)) as F. pose proof (opp_range ny iy Hy) as O. pose proof (flip_flip shifted nx ix ltac:(lia)) as FF. pose proof (opp_opp ny iy B) as OO.
    assert (Jr : 1 <= j <= nnew) by (destruct (_ =? _) in J; lia).
    assert (Ba : pA (ix, iy, j) <= pB (ix, iy, j)). { unfold pA, pB. destruct (Z.eqb_spec (flip shifted nx ix * ny + opp ny iy) (ix * ny + iy)) as [Q|Q]; [rewrite Q; lia|nia]. }
    assert (Bb : pB (ix, iy, j) < nx * ny * nst). { unfold pB. assert (flip shifted nx ix * ny + opp ny iy + 1 <= nx * ny) by nia. nia. }
    unfold pA, pB, pP in *. rewrite !Dec by lia. rewrite FF, OO. split; [nia|]. split; [lia|]. split; [reflexivity|]. split; [f_equal; lia|]. split; [reflexivity|].
    f_equal.
    + unfold flip. destruct shifted; [reflexivity|]. cbn [orb]. destruct (opp_cases nx ix ltac:(lia)) as [(-> & ->)|(X & ->)]; [reflexivity|]. destruct (Z.eqb_spec ix 0), (Z.eqb_spec (nx - ix) 0); try lia; reflexivity.
    + destruct (opp_cases ny iy B) as [(-> & ->)|(X & ->)]; [reflexivity|]. destruct (Z.eqb_spec iy 0), (Z.eqb_spec (ny - iy) 0); try lia; reflexivity.
  - exact HM.
  - exists d'. split; [exact E'|]. split; [exact Len|]. intros ix iy j r Hix Hiy Hj Hr.
    pose proof (flip_range shifted nx ix Hix) as F. pose proof (opp_range ny iy Hy) as O. pose proof (flip_flip shifted nx ix Hix) as FF. pose proof (opp_opp ny iy Hiy) as OO.
    rewrite (H ((ix * ny + iy) * nst + j) r); [rewrite Dec by lia; reflexivity| |exact Hr|].
    { assert (ix * ny + iy + 1 <= nx * ny) by nia. assert (0 <= ix * ny + iy) by nia. nia. }
    assert (Sx : forall x, 0 <= x < nx -> x <= flip shifted nx x -> x <= nxmax / 2).
    { intros x X Y. unfold flip in Y. unfold nxmax in *. destruct shifted; [lia|]. destruct (opp_cases nx x X) as [(-> & _)|(_ & Q)]; lia. }
    assert (Le : forall x y x' y', 0 <= y < ny -> 0 <= y' < ny -> x * ny + y <= x' * ny + y' -> x <= x') by (intros; nia).
    set (i := ix * ny + iy) in *. set (ic := flip shifted nx ix * ny + opp ny iy) in *. destruct (Z.lt_trichotomy ic i) as [Q|[Q|Q]].
    + exists (flip shifted nx ix, opp ny iy, nnew + 1 - j). split.
      * apply Lin. cbv zeta. rewrite FF, OO. fold i ic. assert (X : flip shifted nx ix <= ix) by (apply (Le _ (opp ny iy) _ iy); unfold i, ic in *; lia).
        split; [split; [lia|apply Sx; [exact F|lia]]|]. split; [exact O|]. split; [lia|]. destruct (Z.eqb_spec i ic); lia.
      * right. unfold pB. rewrite FF, OO. fold i. f_equal. lia.
    + destruct (Z_le_gt_dec j (Z.quot (nnew + 1) 2)) as [J|J].
      * exists (ix, iy, j). split; [|left; reflexivity]. apply Lin. cbv zeta. fold i ic. rewrite Q, Z.eqb_refl. split; [split; [lia|apply Sx; [exact Hix|]]|lia]. apply (Le _ iy _ (opp ny iy)); unfold i, ic in *; lia.
      * exists (ix, iy, nnew + 1 - j). split; [|right; unfold pB; fold ic; rewrite Q; f_equal; lia]. apply Lin. cbv zeta. fold i ic. rewrite Q, Z.eqb_refl. split; [split; [lia|apply Sx; [exact Hix|]]|lia]. apply (Le _ iy _ (opp ny iy)); unfold i, ic in *; lia.
    + exists (ix, iy, j). split; [|left; reflexivity]. apply Lin. cbv zeta. fold i ic. destruct (Z.eqb_spec ic i); [lia|]. split; [split; [lia|apply Sx; [exact Hix|]]|lia]. apply (Le _ iy _ (opp ny iy)); unfold i, ic in *; lia.
Qed.

Lemma swaps2_swaps3 nx nst nnew ph (d : list T) : 0 < nx -> swaps2 times nc nx nst nnew ph d = swaps3 times nc nx 1 nx false nst nnew ph d.
Proof.
  intros Hx. unfold swaps2, swaps3. rewrite !forZ_foldM. apply foldM_ext. intros i f Hi. apply zran_in in Hi. cbn [orb].
  assert (Hi' : i < nx) by (pose proof (Z.div_mod nx 2 ltac:(lia)); pose proof (Z.mod_pos_bound nx 2 ltac:(lia)); destruct (Z.eq_dec nx 1) as [->|]; [change (1 / 2) with 0 in Hi|]; lia).
  rewrite opp_wrap by lia. cbn [bind]. rewrite (forZ_foldM 0 1). change (zran 0 1) with [0]. cbn [foldM]. change (wrap 1 0) with (@Val Z 0). cbn [bind]. rewrite !Z.mul_1_r, !Z.add_0_r.
  destruct (Z.ltb_spec (opp nx i) i) as [Q|Q].
  - exfalso. destruct (opp_cases nx i ltac:(lia)) as [(-> & E)|(_ & E)]; rewrite E in Q; [lia|]. pose proof (Z.div_mod nx 2 ltac:(lia)); pose proof (Z.mod_pos_bound nx 2 ltac:(lia)). lia.
  - change (negb (0 =? 0)) with false. match goal with |- ?x = bind ?y _ => change y with x; destruct x; reflexivity end.
Qed.

Lemma compact_ok n_other nst nnew (d : list T) : 0 <= n_other -> 0 <= nnew < nst -> nc * (n_other * nst) <= Z.of_nat (length d) ->
  exists d', compact cj nc n_other nst nnew d = Val d' /\ length d' = length d /\
    forall i j r, 0 <= i < n_other -> 1 <= j <= nnew -> 0 <= r < nc -> rd d' (nc * (i * nnew + (j - 1)) + r) = Val (cj (get d (nc * (i * nst + j) + r))).
Proof.
  intros Ho Hn HM.
  destruct (pmoves_ok (fun p => fst p * nnew + (snd p - 1)) (fun p => fst p * nst + snd p) (lex Z.lt Z.lt) (prod_list (zran 0 n_other) (fun _ => zran 1 (nnew + 1))) (n_other * nst) d) as (d' & E & Len & H & _).
  - apply sorted_pairs; [apply zseq_sorted|intros; apply zseq_sorted].
  - intros (i & j) Hp. apply prod_list_in in Hp as (Hi & Hj). apply zran_in in Hi, Hj. cbn [fst snd]. assert (i + 1 <= n_other) by lia. split; nia.
  - intros (i & j) (i' & j') Hp Hq R. apply prod_list_in in Hp as (Hi & Hj), Hq as (Hi' & Hj'). apply zran_in in Hi, Hj, Hi', Hj'. unfold lex in R. cbn [fst snd] in *.
    destruct R as [R|(<- & R)]; [assert (i * nnew + nnew <= i' * nnew) by nia; split; nia|split; nia].
  - exact HM.
  - exists d'. split.
    + unfold compact. rewrite forZ_foldM. rewrite <- E, <- (foldM_nest (fun i j => conj_point cj nc (i * nnew + (j - 1)) (i * nst + j)) (fun _ => zran 1 (nnew + 1))). apply foldM_ext. intros i f _. rewrite forZ_foldM. apply foldM_ext. intros j g _. f_equal. lia.
    + split; [exact Len|]. intros i j r Hi Hj Hr. apply (H (i, j) r); [|exact Hr]. apply prod_list_in. rewrite !zran_in. lia.
Qed.

(** ** Two dimensions, the halved one divided among processes *)
Lemma stop_filter {S} (f : Z -> S -> outcome S) (c : Z -> bool) L s : StronglySorted Z.lt L -> (forall i j, In i L -> In j L -> i <= j -> c i = true -> c j = true) ->
  (let! (s, _) := foldM (fun j s => let '(s, stop) := s in if (stop : bool) then Val (s, stop) else if c j then Val (s, true) else let! s := f j s in Val (s, false)) L (s, false) in Val s) = foldM f (filter (fun j => negb (c j)) L) s.
Proof.
  intros HS. revert s. induction HS as [|i L HS IH HF]; intros s Mono; cbn [foldM filter]; [reflexivity|]. destruct (c i) eqn:Ec; cbn [negb bind foldM].
  - rewrite Forall_forall in HF.
    assert (Z0 : filter (fun j => negb (c j)) L = []).
    { assert (G : forall l, (forall j, In j l -> In j L) -> filter (fun j => negb (c j)) l = []).
      { induction l as [|j l IHl]; intros Hl; [reflexivity|]. cbn. rewrite (Mono i j); [cbn; apply IHl; intros; apply Hl; right; assumption|left; reflexivity|right; apply Hl; left; reflexivity| |exact Ec]. specialize (HF j (Hl j (or_introl eq_refl))). lia. }
      apply G. auto. }
    rewrite Z0. cbn [foldM].
    assert (G : forall l, foldM (fun j (s : S * bool) => let '(s, stop) := s in if (stop : bool) then Val (s, stop) else if c j then Val (s, true) else let! s := f j s in Val (s, false)) l (s, true) = Val (s, true)) by (induction l as [|j l IHl]; cbn; [reflexivity|exact IHl]).
    rewrite G. reflexivity.
  - destruct (f i s) as [s'| | |]; cbn [bind]; try reflexivity. apply IH. intros; apply (Mono i0 j); auto; right; assumption.
Qed.

Lemma swaps2_mpi_ok nx jmin nnew (ph : bool -> bool -> C) M (d : list T) : 0 < nx -> 0 <= jmin -> 0 <= nnew -> (nnew + jmin) * nx <= M -> nc * M <= Z.of_nat (length d) ->
  exists d', swaps2_mpi times nc nx jmin nnew ph d = Val d' /\ length d' = length d /\
    forall i j r, 0 <= i < nx -> jmin <= j < nnew + jmin -> 0 <= r < nc ->
      rd d' (nc * (j * nx + i) + r) = Val (times (ph (negb (i =? 0)) false) (get d (nc * ((nnew + 2 * jmin - 1 - j) * nx + opp nx i) + r))).
Proof.
  intros Hx Hj Hn HM HL. set (jmax := nnew + (jmin - 1)).
  set (cond := fun i => filter (fun j => negb ((jmax + jmin - j) * nx + opp nx i <? j * nx + i)) (zran jmin (jmax + 1))).
  set (L := prod_list (zran 0 nx) cond).
  set (pA := fun t : Z * Z => let '(i, j) := t in j * nx + i).
  set (pB := fun t : Z * Z => let '(i, j) := t in (jmax + jmin - j) * nx + opp nx i).
  set (pP := fun t : Z * Z => let '(i, j) := t in ph (negb (i =? 0)) false).
  set (dec := fun q => (q mod nx, q / nx)).
  assert (Dec : forall i j, 0 <= i < nx -> dec (j * nx + i) = (i, j)) by (intros i j A; unfold dec; rewrite dm_div, dm_mod by exact A; reflexivity).
  assert (E : swaps2_mpi times nc nx jmin nnew ph d = foldM (fun t => swap_points times nc (pP t) (pA t) (pB t)) L d).
  { unfold swaps2_mpi. rewrite forZ_foldM. unfold L.
    rewrite (foldM_ext (fun t => swap_points times nc (pP t) (pA t) (pB t)) (fun p f => (fun i j => swap_points times nc (pP (i, j)) (pA (i, j)) (pB (i, j))) (fst p) (snd p) f)) by (intros (a & b) s _; reflexivity).
    rewrite <- (foldM_nest (fun i j => swap_points times nc (pP (i, j)) (pA (i, j)) (pB (i, j))) cond).
    apply foldM_ext. intros i f Hi. apply zran_in in Hi. rewrite opp_wrap by lia. cbn [bind]. rewrite forZ_foldM. fold jmax. unfold cond.
    rewrite <- (stop_filter (fun j => swap_points times nc (pP (i, j)) (pA (i, j)) (pB (i, j))) (fun j => (jmax + jmin - j) * nx + opp nx i <? j * nx + i) (zran jmin (jmax + 1)) f).
    - unfold pP, pA, pB. match goal with |- bind (foldM ?a _ _) _ = bind (foldM ?b _ _) _ => rewrite (foldM_ext a b); [reflexivity|] end. intros j (s & stop) _. destruct stop; reflexivity.
    - apply zseq_sorted.
    - intros j j' _ _ Le. rewrite !Z.ltb_lt. nia. }
  assert (Lin : forall i j, In (i, j) L <-> 0 <= i < nx /\ jmin <= j <= jmax /\ j * nx + i <= (jmax + jmin - j) * nx + opp nx i).
  { intros i j. unfold L. rewrite prod_list_in, zran_in. unfold cond. rewrite filter_In, zran_in, negb_true_iff, Z.ltb_ge. lia. }
  rewrite E.
  destruct (swaps_ok pA pB pP (fun q => pB (dec q)) (fun q => pP (dec q)) L M d) as (d' & E' & Len & H).
  - unfold L. apply prod_list_nodup; [apply zran_nodup|]. intros i _. unfold cond. apply NoDup_filter, zran_nodup.
  - intros (i & j) (i' & j') Ht Ht' EA. apply Lin in Ht, Ht'. unfold pA in EA. rewrite <- (Dec i j), <- (Dec i' j') by lia. rewrite EA. reflexivity.
  - intros (i & j) Ht. apply Lin in Ht. destruct Ht as (A & B & D). pose proof (opp_range nx i Hx) as O. pose proof (opp_opp nx i A) as OO.
    unfold pA, pB, pP in *. rewrite !Dec by lia. rewrite OO. assert (jmax + jmin - j + 1 <= nnew + jmin) by (unfold jmax in *; lia).
    split; [nia|]. split; [nia|]. split; [reflexivity|]. split; [f_equal; f_equal; lia|]. split; [reflexivity|].
    f_equal. destruct (opp_cases nx i A) as [(-> & ->)|(X & ->)]; [reflexivity|]. destruct (Z.eqb_spec i 0), (Z.eqb_spec (nx - i) 0); try lia; reflexivity.
  - exact HL.
  - exists d'. split; [exact E'|]. split; [exact Len|]. intros i j r Hi Hjr Hr. pose proof (opp_range nx i Hx) as O. pose proof (opp_opp nx i Hi) as OO.
    rewrite (H (j * nx + i) r); [rewrite Dec by lia; unfold pP, pB; do 5 f_equal; unfold jmax; lia| |exact Hr|].
    { assert (j + 1 <= nnew + jmin) by lia. nia. }
    destruct (Z_le_gt_dec (j * nx + i) ((jmax + jmin - j) * nx + opp nx i)) as [Q|Q].
    + exists (i, j). split; [apply Lin; unfold jmax; lia|left; reflexivity].
    + exists (opp nx i, jmax + jmin - j). split; [|right; unfold pB; rewrite OO; f_equal; f_equal; lia]. apply Lin. rewrite OO. unfold jmax in *. split; [exact O|]. split; [lia|]. replace (nnew + (jmin - 1) + jmin - (nnew + (jmin - 1) + jmin - j)) with j by lia. lia.
Qed.

Lemma compact2_mpi_ok nx jmin nnew M (d : list T) : 0 < nx -> 0 <= jmin -> 0 <= nnew -> (nnew + jmin) * nx <= M -> nc * M <= Z.of_nat (length d) ->
  exists d', compact2_mpi cj nc nx jmin nnew d = Val d' /\ length d' = length d /\
    forall i j r, 0 <= i < nx -> jmin <= j < nnew + jmin -> 0 <= r < nc -> rd d' (nc * ((j - jmin) * nx + i) + r) = Val (cj (get d (nc * (j * nx + i) + r))).
Proof.
  intros Hx Hj Hn HM HL.
  destruct (pmoves_ok (fun p => (snd p - jmin) * nx + fst p) (fun p => snd p * nx + fst p) (lex Z.lt Z.lt) (prod_list (zran 0 nx) (fun _ => zran jmin (nnew + jmin))) M d) as (d' & E & Len & H & _).
  - apply sorted_pairs; [apply zseq_sorted|intros; apply zseq_sorted].
  - intros (i & j) Hp. apply prod_list_in in Hp as (Hi & Hjr). apply zran_in in Hi, Hjr. cbn [fst snd]. assert (j + 1 <= nnew + jmin) by lia. split; nia.
  - intros (i & j) (i' & j') Hp Hq R. apply prod_list_in in Hp as (Hi & Hj1), Hq as (Hi' & Hj'). apply zran_in in Hi, Hj1, Hi', Hj'. unfold lex in R. cbn [fst snd] in *.
    assert (G : forall a b x y, 0 <= x < nx -> 0 <= y < nx -> a * nx + x = b * nx + y -> a = b /\ x = y) by (intros a b x y X Y Q; assert (a = b) by nia; subst; lia).
    split; intros Q; apply G in Q; lia.
  - exact HL.
  - exists d'. split.
    + unfold compact2_mpi. rewrite forZ_foldM. rewrite <- E, <- (foldM_nest (fun i j => conj_point cj nc ((j - jmin) * nx + i) (j * nx + i)) (fun _ => zran jmin (nnew + jmin))). apply foldM_ext. intros i f _. rewrite forZ_foldM. reflexivity.
    + split; [exact Len|]. intros i j r Hi Hjr Hr. apply (H (i, j) r); [|exact Hr]. apply prod_list_in. rewrite !zran_in. lia.
Qed.
End Arr.
