(** Proofs about the other half: what each process ends up with. *)
From Coq Require Import List ZArith Reals Bool Lia Lra Permutation.
From Verif Require Import Base RC Loops M_Tensor M_Evect M_Grid S_Grid L_Grid L_Grid5 M_Half S_Half L_Half L_Half2 M_Out S_Out L_Out L_Out2.
Import ListNotations.
Local Open Scope Z_scope.

Lemma rd_bound {A} (l : list A) i v : rd l i = Val v -> 0 <= i < Z.of_nat (length l).
Proof.
  unfold rd. destruct (Z.ltb_spec i 0); [discriminate|]. destruct (nth_error l (Z.to_nat i)) eqn:E; [|discriminate]. intros _.
  assert (Z.to_nat i < length l)%nat by (apply nth_error_Some; congruence). lia.
Qed.

Lemma val_inj {A} (a b : A) : Val a = Val b -> a = b.
Proof. congruence. Qed.

Section Arr.
Context {T : Type} (times : C -> T -> T) (cj : T -> T) (nc : Z) (dflt : T).
Hypothesis (Hnc : 0 < nc).

(** Rows along the halved dimension. *)
Lemma rows_ok X Y (shifted : bool) kp nn (ph : bool -> bool -> C) (d : list T) (G : Z -> Z -> Z -> Z -> T) : 0 < X -> 0 < Y -> 0 <= nn < kp ->
  (forall r ix iy j, 0 <= r < nc -> 0 <= ix < X -> 0 <= iy < Y -> 0 <= j < kp -> rd d (nc * ((ix * Y + iy) * kp + j) + r) = Val (G r ix iy j)) ->
  exists d', (let! d := swaps3 times nc X Y (if shifted then X - 1 else X) shifted kp nn ph d in compact cj nc (X * Y) kp nn d) = Val d' /\
    forall r ix iy j, 0 <= r < nc -> 0 <= ix < X -> 0 <= iy < Y -> 0 <= j < nn ->
      rd d' (nc * ((ix * Y + iy) * nn + j) + r) = Val (cj (times (ph (shifted || negb (ix =? 0)) (negb (iy =? 0))) (G r (flip shifted X ix) (opp Y iy) (nn - j)))).
Proof.
  intros HX HY Hn Hd.
  assert (Len : nc * (X * Y * kp) <= Z.of_nat (length d)).
  { pose proof (rd_bound _ _ _ (Hd (nc - 1) (X - 1) (Y - 1) (kp - 1) ltac:(lia) ltac:(lia) ltac:(lia) ltac:(lia))) as B. replace (((X - 1) * Y + (Y - 1)) * kp + (kp - 1)) with (X * Y * kp - 1) in B by ring. lia. }
  destruct (swaps3_ok times cj nc dflt Hnc X Y shifted kp nn ph d HX HY Hn Len) as (d1 & E1 & L1 & H1). rewrite E1. cbn [bind].
  destruct (compact_ok cj nc dflt Hnc (X * Y) kp nn d1 ltac:(nia) Hn ltac:(rewrite L1; exact Len)) as (d2 & E2 & L2 & H2). exists d2. split; [exact E2|].
  intros r ix iy j Hr Hix Hiy Hj. assert (B : 0 <= ix * Y + iy < X * Y) by nia.
  replace j with (j + 1 - 1) at 1 by lia. rewrite (H2 (ix * Y + iy) (j + 1) r B ltac:(lia) Hr). do 2 f_equal.
  pose proof (H1 ix iy (j + 1) r Hix Hiy ltac:(lia) Hr) as E. pose proof (rd_bound _ _ _ E) as B1. rewrite (rd_get_s _ _ dflt B1) in E. apply val_inj in E. rewrite E. f_equal.
  pose proof (flip_range shifted X ix Hix) as F. pose proof (opp_range Y iy HY) as O. replace (nn + 1 - (j + 1)) with (nn - j) by lia.
  pose proof (Hd r (flip shifted X ix) (opp Y iy) (nn - j) Hr F O ltac:(lia)) as Q. pose proof (rd_bound _ _ _ Q) as B2. rewrite (rd_get_s _ _ dflt B2) in Q. apply val_inj in Q. exact Q.
Qed.

(** The halved dimension divided among processes. *)
Lemma cols_ok X jmin nn l (ph : bool -> bool -> C) (d : list T) (G : Z -> Z -> Z -> T) : 0 < X -> 0 <= jmin -> 0 <= nn -> nn + jmin <= l -> 0 < l ->
  (forall r i j, 0 <= r < nc -> 0 <= i < X -> 0 <= j < l -> rd d (nc * (j * X + i) + r) = Val (G r i j)) ->
  exists d', (let! d := swaps2_mpi times nc X jmin nn ph d in compact2_mpi cj nc X jmin nn d) = Val d' /\
    forall r i j, 0 <= r < nc -> 0 <= i < X -> 0 <= j < nn ->
      rd d' (nc * (j * X + i) + r) = Val (cj (times (ph (negb (i =? 0)) false) (G r (opp X i) (nn + jmin - 1 - j)))).
Proof.
  intros HX Hj Hn Hl Hl0 Hd.
  assert (Len : nc * (l * X) <= Z.of_nat (length d)).
  { pose proof (rd_bound _ _ _ (Hd (nc - 1) (X - 1) (l - 1) ltac:(lia) ltac:(lia) ltac:(lia))) as B. replace ((l - 1) * X + (X - 1)) with (l * X - 1) in B by ring. lia. }
  destruct (swaps2_mpi_ok times cj nc dflt Hnc X jmin nn ph (l * X) d HX Hj Hn ltac:(nia) Len) as (d1 & E1 & L1 & H1). rewrite E1. cbn [bind].
  destruct (compact2_mpi_ok cj nc dflt Hnc X jmin nn (l * X) d1 HX Hj Hn ltac:(nia) ltac:(rewrite L1; exact Len)) as (d2 & E2 & L2 & H2). exists d2. split; [exact E2|].
  intros r i j Hr Hi Hjr. replace j with (j + jmin - jmin) at 1 by lia. rewrite (H2 i (j + jmin) r Hi ltac:(lia) Hr). do 2 f_equal.
  pose proof (H1 i (j + jmin) r Hi ltac:(lia) Hr) as E. pose proof (rd_bound _ _ _ E) as B1. rewrite (rd_get_s _ _ dflt B1) in E. apply val_inj in E. rewrite E. f_equal.
  pose proof (opp_range X i HX) as O. replace (nn + 2 * jmin - 1 - (j + jmin)) with (nn + jmin - 1 - j) by lia.
  pose proof (Hd r (opp X i) (nn + jmin - 1 - j) Hr O ltac:(lia)) as Q. pose proof (rd_bound _ _ _ Q) as B2. rewrite (rd_get_s _ _ dflt B2) in Q. apply val_inj in Q. exact Q.
Qed.
End Arr.

(** ** Blocks *)
Section Grid.
Variables n1 n2 n3 : Z.
Hypotheses (P1 : 0 < n1) (P2 : 0 < n2) (P3 : 0 < n3).
Definition ldim : Z := last_dim n1 n2 n3.
Definition kp : Z := kept ldim.
Definition nn : Z := ldim - kp.
Lemma ldim_cases : ldim = if n3 =? 1 then (if n2 =? 1 then n1 else n2) else n3.
Proof. exact (ld_cases n1 n2 n3). Qed.
Lemma half_arith : 0 < ldim /\ 0 <= nn < kp /\ kp <= ldim /\ 2 * kp - 2 <= ldim <= 2 * kp - 1 /\ ldim mod 2 = ldim - 2 * (kp - 1).
Proof.
  assert (0 < ldim) by (rewrite ldim_cases; destruct (n3 =? 1); [destruct (n2 =? 1)|]; assumption). unfold nn, kp, kept. pose proof (Z.div_mod ldim 2 ltac:(lia)). pose proof (Z.mod_pos_bound ldim 2 ltac:(lia)). lia.
Qed.

Definition place_in (pr : proc) (t : Z * Z * Z) : Z * Z * Z := let '(a, b, c) := t in match pr with Alone => (a, b, c) | Among _ s => (b, a + s, c) end.
Definition blk (real : bool) (pr : proc) : Z * Z * Z :=
  match pr with
  | Alone => if real then (if n3 =? 1 then (if n2 =? 1 then (kp, 1, 1) else (n1, kp, 1)) else (n1, n2, kp)) else (n1, n2, n3)
  | Among l _ => if real then (l, n1, if n3 =? 1 then 1 else kp) else (l, n1, n3)
  end.
Definition oblk (pr : proc) : Z * Z * Z :=
  match pr with
  | Alone => if n3 =? 1 then (if n2 =? 1 then (nn, 1, 1) else (n1, nn, 1)) else (n1, n2, nn)
  | Among l s => if n3 =? 1 then (l - (if s =? 0 then 1 else 0) - (if (s + l =? kp) && (n2 mod 2 =? 0) then 1 else 0), n1, 1) else (l, n1, nn)
  end.
Definition oplace (pr : proc) (t : Z * Z * Z) : Z * Z * Z :=
  let '(a, b, c) := t in
  match pr with
  | Alone => if n3 =? 1 then (if n2 =? 1 then (a + kp, b, c) else (a, b + kp, c)) else (a, b, c + kp)
  | Among l s => if n3 =? 1 then (b, n2 - (s + l - 1) + (if (s + l =? kp) && (n2 mod 2 =? 0) then 1 else 0) + a, c)
      else (b, (if s =? 0 then (if a =? 0 then 0 else n2 - l + a) else n2 - (s + l - 1) + a), c + kp)
  end.
Definition share_ok (real : bool) (pr : proc) : Prop :=
  match pr with Alone => True | Among l s => (if real then 0 < l else 0 <= l) /\ 0 <= s /\ if real then (n2 <> 1 \/ n3 <> 1) /\ s + l <= (if n3 =? 1 then kp else n2) else s + l <= n2 end.

Definition size3 (b : Z * Z * Z) (t : Z * Z * Z) : Z := let '(_, b1, b2) := b in let '(i, j, k) := t in (i * b1 + j) * b2 + k.
Definition whole3 (b : Z * Z * Z) : list (Z * Z * Z) := let '(b0, b1, b2) := b in whole b0 b1 b2.

Lemma loop_blk real pr t : share_ok real pr -> In t (whole3 (blk real pr)) -> In (place_in pr t, size3 (blk real pr) t) (loop_of n1 n2 n3 real pr).
Proof.
  pose proof half_arith as HA. destruct t as ((a & b) & c). destruct pr as [|l s], real; cbn [blk place_in loop_of whole3 share_ok].
  - intros _ H. unfold loop_real. rewrite (nlast n1 n2 n3 P1 P2 P3). change (last_dim n1 n2 n3) with ldim. fold kp. unfold other_dims, local_N. change (last_dim n1 n2 n3) with ldim. pose proof ldim_cases as LC.
    unfold fft_rank. destruct (Z.eqb_spec n3 1) as [E3|E3]; [destruct (Z.eqb_spec n2 1) as [E2|E2]|]; cbn [whole3] in H; apply whole_in in H; cbn [size3]; apply in_flat_map.
    + exists 0. rewrite LC, E2, E3, !Z.mul_1_r, Z.quot_same by lia. split; [left; reflexivity|]. apply in_map_iff. exists a. rewrite zrange_in. split; [|lia]. cbn. replace b with 0 by lia. replace c with 0 by lia. f_equal. lia.
    + exists a. rewrite LC, E3, Z.mul_1_r, Z.quot_mul by lia. rewrite zrange_in. split; [lia|]. apply in_map_iff. exists b. rewrite zrange_in. split; [|lia]. cbn. replace c with 0 by lia. f_equal. lia.
    + exists (a * n2 + b). rewrite LC, Z.quot_mul by lia. rewrite zrange_in. split; [nia|]. apply in_map_iff. exists c. rewrite zrange_in. split; [|lia]. cbn. rewrite Z.quot_div_nonneg, Z.rem_mod_nonneg by nia. rewrite dm_div, dm_mod by lia. reflexivity.
  - intros _ H. apply whole_in in H. unfold loop_complex. cbn [size3]. apply in_flat_map. exists a. rewrite zrange_in. split; [lia|]. apply in_flat_map. exists b. rewrite zrange_in. split; [lia|]. apply in_map_iff. exists c. rewrite zrange_in. split; [reflexivity|lia].
  - intros (Hl & Hs & Hc & Hle) H. apply whole_in in H. unfold loop_real_mpi. rewrite (nlast n1 n2 n3 P1 P2 P3). change (last_dim n1 n2 n3) with ldim. fold kp.
    assert (E : (if n3 >? 1 then kp else 1) = if n3 =? 1 then 1 else kp) by (destruct (Z.eqb_spec n3 1) as [->|]; [reflexivity|]; rewrite Z.gtb_ltb; destruct (Z.ltb_spec 1 n3); [reflexivity|lia]).
    rewrite E. cbn [size3]. apply in_flat_map. exists a. rewrite zrange_in. split; [lia|]. apply in_flat_map. exists b. rewrite zrange_in. split; [lia|]. apply in_map_iff. exists c. rewrite zrange_in. split; [reflexivity|lia].
  - intros _ H. apply whole_in in H. unfold loop_complex_mpi. cbn [size3]. apply in_flat_map. exists a. rewrite zrange_in. split; [lia|]. apply in_flat_map. exists b. rewrite zrange_in. split; [lia|]. apply in_map_iff. exists c. rewrite zrange_in. split; [reflexivity|lia].
Qed.

(** The wrapped directions of a point of the other half. *)
Definition wrapped (pr : proc) (c : Z * Z * Z) : bool * bool :=
  let '(i1, i2, i3) := c in
  match pr with
  | Alone => if n3 =? 1 then (if n2 =? 1 then (false, false) else (negb (i1 =? 0), false)) else (negb (i1 =? 0), negb (i2 =? 0))
  | Among _ _ => if n3 =? 1 then (negb (i1 =? 0), false) else (negb (i2 =? 0), negb (i1 =? 0))
  end.
Definition among (pr : proc) : bool := match pr with Alone => false | Among _ _ => true end.

Section Other.
Context {T : Type} (times : C -> T -> T) (cj : T -> T) (nc : Z) (dflt : T) (k : R * R * R).
Hypothesis (Hnc : 0 < nc).
Definition folds (pr : proc) (F : Z -> Z * Z * Z -> T) : Prop :=
  forall r c, 0 <= r < nc -> In c (whole n1 n2 n3) -> kp <= last_coord n2 n3 c ->
    F r c = cj (times (let '(x, y) := wrapped pr c in half_phases (among pr) (fft_rank n2 n3) k x y) (F r (mirror n1 n2 n3 c))).

Lemma stored_at real pr (d : list T) F : share_ok real pr -> stores (loop_of n1 n2 n3 real pr) nc d F -> forall r t, 0 <= r < nc -> In t (whole3 (blk real pr)) ->
  rd d (nc * size3 (blk real pr) t + r) = Val (F r (place_in pr t)).
Proof. intros Ho H r t Hr Ht. apply H; [|exact Hr]. apply loop_blk; assumption. Qed.

Ltac ones := repeat match goal with |- context [if ?x =? 1 then _ else _] => destruct (Z.eqb_spec x 1); try lia end.
Definition stored (real : bool) (pr : proc) (d : list T) (F : Z -> Z * Z * Z -> T) : Prop :=
  forall r t, 0 <= r < nc -> In t (whole3 (blk real pr)) -> rd d (nc * size3 (blk real pr) t + r) = Val (F r (place_in pr t)).
Lemma other_ok pr (d : list T) F : share_ok true pr -> stored true pr d F -> folds pr F ->
  exists d', otherhalf times cj nc pr n1 n2 n3 k d = Val d' /\ forall r t, 0 <= r < nc -> In t (whole3 (oblk pr)) -> rd d' (nc * size3 (oblk pr) t + r) = Val (F r (oplace pr t)).
Proof.
  intros Ho Hd Hf. pose proof half_arith as (HA0 & HA1 & HA2 & HA3 & HA4). unfold stored in Hd.
  pose proof ldim_cases as LC. unfold otherhalf. rewrite (nlast n1 n2 n3 P1 P2 P3). change (last_dim n1 n2 n3) with ldim. change (kept ldim) with kp. fold nn.
  unfold folds in Hf. unfold fft_rank in *. destruct pr as [|l s].
  - cbn [share_ok blk oblk oplace place_in wrapped among] in *. destruct (Z.eqb_spec n3 1) as [E3|E3]; [destruct (Z.eqb_spec n2 1) as [E2|E2]|]; cbn [Z.eqb Pos.eqb whole3 size3] in *.
    + change (swaps2 times nc 1 kp nn ?ph d) with (swaps2 times nc 1 kp nn ph d). rewrite swaps2_swaps3 by lia.
      destruct (rows_ok times cj nc dflt Hnc 1 1 false kp nn (half_phases false 1 k) d (fun r _ _ j => F r (j, 0, 0)) ltac:(lia) ltac:(lia) HA1) as (d' & E & H).
      { intros r ix iy j Hr Hix Hiy Hj. pose proof (Hd r (j, 0, 0) Hr ltac:(apply whole_in; lia)) as Q. cbn [place_in] in Q. rewrite <- Q. clear Q. do 2 f_equal. f_equal. assert (ix = 0) by lia. assert (iy = 0) by lia. subst ix iy. lia. }
      exists d'. split; [exact E|]. intros r ((a & b) & c) Hr Ht. apply whole_in in Ht. assert (b = 0) by lia. assert (c = 0) by lia. subst b c.
      replace ((a * 1 + 0) * 1 + 0) with ((0 * 1 + 0) * nn + a) by lia. rewrite (H r 0 0 a Hr ltac:(lia) ltac:(lia) ltac:(lia)). f_equal.
      unfold oplace; ones. rewrite (Hf r (a + kp, 0, 0) Hr).
      * unfold wrapped; ones; cbn [orb negb Z.eqb mirror]. do 3 f_equal. rewrite opp_pos by (unfold nn in *; lia). replace (nn - a) with (n1 - (a + kp)) by (unfold nn; lia). reflexivity.
      * apply whole_in. unfold nn in *. lia.
      * unfold last_coord. rewrite E3, E2. cbn. lia.
    + rewrite swaps2_swaps3 by lia.
      destruct (rows_ok times cj nc dflt Hnc n1 1 false kp nn (half_phases false 2 k) d (fun r i _ j => F r (i, j, 0)) ltac:(lia) ltac:(lia) HA1) as (d' & E & H).
      { intros r ix iy j Hr Hix Hiy Hj. pose proof (Hd r (ix, j, 0) Hr ltac:(apply whole_in; lia)) as Q. cbn [place_in] in Q. rewrite <- Q. clear Q. do 2 f_equal. f_equal. assert (iy = 0) by lia. subst iy. lia. }
      exists d'. split; [rewrite <- E, Z.mul_1_r; reflexivity|]. intros r ((a & b) & c) Hr Ht. apply whole_in in Ht. assert (c = 0) by lia. subst c.
      replace ((a * nn + b) * 1 + 0) with ((a * 1 + 0) * nn + b) by lia. rewrite (H r a 0 b Hr ltac:(lia) ltac:(lia) ltac:(lia)). f_equal.
      unfold oplace; ones. rewrite (Hf r (a, b + kp, 0) Hr).
      * unfold wrapped; ones; cbn [orb negb Z.eqb mirror flip]. do 3 f_equal. rewrite (opp_pos n2) by (unfold nn in *; lia). replace (nn - b) with (n2 - (b + kp)) by (unfold nn; lia). reflexivity.
      * apply whole_in. unfold nn in *. lia.
      * unfold last_coord. rewrite E3. destruct (Z.eqb_spec n2 1); [lia|]. cbn. lia.
    + destruct (rows_ok times cj nc dflt Hnc n1 n2 false kp nn (half_phases false 3 k) d (fun r i j k => F r (i, j, k)) ltac:(lia) ltac:(lia) HA1) as (d' & E & H).
      { intros r ix iy j Hr Hix Hiy Hj. pose proof (Hd r (ix, iy, j) Hr ltac:(apply whole_in; lia)) as Q. cbn [place_in] in Q. rewrite <- Q. clear Q. reflexivity. }
      exists d'. split. { rewrite <- E. unfold other_dims, local_N. change (last_dim n1 n2 n3) with ldim. rewrite LC, Z.quot_mul by lia. reflexivity. }
      intros r ((a & b) & c) Hr Ht. apply whole_in in Ht. rewrite (H r a b c Hr ltac:(lia) ltac:(lia) ltac:(lia)). f_equal.
      unfold oplace; ones. rewrite (Hf r (a, b, c + kp) Hr).
      * unfold wrapped; ones; cbn [orb mirror flip]. do 3 f_equal. rewrite (opp_pos n3) by (unfold nn in *; lia). replace (nn - c) with (n3 - (c + kp)) by (unfold nn; lia). reflexivity.
      * apply whole_in. unfold nn in *. lia.
      * unfold last_coord. destruct (Z.eqb_spec n3 1); [lia|]. lia.
  - cbn [share_ok blk oblk oplace place_in wrapped among] in *. destruct Ho as (Hl & Hs0 & Hr2 & Hle). destruct (Z.eqb_spec n3 1) as [E3|E3]; [destruct (Z.eqb_spec n2 1) as [E2|E2]; [lia|]|]; cbn [Z.eqb Pos.eqb whole3 size3 orb check bind] in *.
    + set (jmin := if s =? 0 then 1 else 0). rewrite (Z.rem_mod_nonneg ldim 2) by lia. rewrite LC in HA4 |- *.
      set (ny := if (s + l =? kp) && (n2 mod 2 =? 0) then 1 else 0) in *.
      assert (Ny : (ny = 1 /\ s + l = kp /\ n2 mod 2 = 0) \/ (ny = 0 /\ (s + l <> kp \/ n2 mod 2 <> 0))).
      { unfold ny. destruct (Z.eqb_spec (s + l) kp), (Z.eqb_spec (n2 mod 2) 0); cbn; lia. }
      assert (Jm : (jmin = 1 /\ s = 0) \/ (jmin = 0 /\ 0 < s)) by (unfold jmin; destruct (Z.eqb_spec s 0); lia).
      destruct (cols_ok times cj nc dflt Hnc n1 jmin (l - jmin - ny) l (half_phases true 2 k) d (fun r i j => F r (i, j + s, 0)) P1 ltac:(lia) ltac:(lia) ltac:(lia) Hl) as (d' & E & H).
      { intros r i j Hr Hi Hj. pose proof (Hd r (j, i, 0) Hr ltac:(apply whole_in; lia)) as Q. cbn [place_in] in Q. rewrite <- Q. clear Q. do 2 f_equal. f_equal. lia. }
      exists d'. split; [exact E|]. intros r ((a & b) & c) Hr Ht. apply whole_in in Ht. assert (c = 0) by lia. subst c.
      replace ((a * n1 + b) * 1 + 0) with (a * n1 + b) by lia. rewrite (H r b a Hr ltac:(lia) ltac:(lia)). f_equal.
      set (y := n2 - (s + l - 1) + ny + a).
      assert (Hy : kp <= y < n2) by (unfold y; lia).
      unfold oplace; ones. try fold ny; fold y; rewrite (Hf r (b, y, 0) Hr).
      * unfold wrapped; ones; cbn [mirror]. do 3 f_equal. rewrite (opp_pos n2) by lia. replace (l - jmin - ny + jmin - 1 - a + s) with (n2 - y) by (unfold y; lia). reflexivity.
      * apply whole_in. lia.
      * unfold last_coord. rewrite E3. destruct (Z.eqb_spec n2 1); [lia|]. cbn. lia.
    + set (shifted := negb (s =? 0)).
      destruct (rows_ok times cj nc dflt Hnc l n1 shifted kp nn (half_phases true 3 k) d (fun r i j k => F r (j, i + s, k)) Hl ltac:(lia) HA1) as (d' & E & H).
      { intros r ix iy j Hr Hix Hiy Hj. pose proof (Hd r (ix, iy, j) Hr ltac:(apply whole_in; lia)) as Q. cbn [place_in] in Q. rewrite <- Q. clear Q. reflexivity. }
      exists d'. split; [exact E|].
      intros r ((a & b) & c) Hr Ht. apply whole_in in Ht. rewrite (H r a b c Hr ltac:(lia) ltac:(lia) ltac:(lia)). f_equal.
      set (y := if s =? 0 then (if a =? 0 then 0 else n2 - l + a) else n2 - (s + l - 1) + a).
      assert (Hy : 0 <= y < n2) by (unfold y; destruct (Z.eqb_spec s 0); [destruct (Z.eqb_spec a 0)|]; lia).
      unfold oplace; ones. fold y; rewrite (Hf r (b, y, c + kp) Hr).
      * unfold wrapped; ones; cbn [mirror]. rewrite (opp_pos n3) by (unfold nn in *; lia). replace (nn - c) with (n3 - (c + kp)) by (unfold nn; lia).
        assert (Y1 : shifted || negb (a =? 0) = negb (y =? 0)).
        { unfold shifted, y. destruct (Z.eqb_spec s 0) as [Es|Es]; cbn [negb orb]; [destruct (Z.eqb_spec a 0) as [Ea|Ea]; [reflexivity|]|]; [destruct (Z.eqb_spec (n2 - l + a) 0); [lia|reflexivity]|destruct (Z.eqb_spec (n2 - (s + l - 1) + a) 0); [lia|reflexivity]]. }
        assert (Y2 : flip shifted l a + s = opp n2 y).
        { unfold flip, shifted, y. destruct (Z.eqb_spec s 0) as [Es|Es]; cbn [negb].
          - destruct (opp_cases l a ltac:(lia)) as [(-> & ->)|(Pa & ->)]; [rewrite Es; reflexivity|]. destruct (Z.eqb_spec a 0); [lia|]. rewrite opp_pos by lia. lia.
          - rewrite opp_pos by lia. lia. }
        rewrite Y1, Y2. reflexivity.
      * apply whole_in. unfold nn in *. lia.
      * unfold last_coord. destruct (Z.eqb_spec n3 1); [lia|]. lia.
Qed.
End Other.
End Grid.
