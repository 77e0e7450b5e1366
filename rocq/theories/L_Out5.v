(** Proofs about files: the blocks of the processes put together. *)
From Coq Require Import List ZArith Reals Bool Lia Lra Permutation.
From Verif Require Import Base RC Loops M_Tensor M_Evect M_Grid S_Grid L_Grid L_Grid5 M_Half S_Half L_Half L_Half2 M_Out S_Out L_Out L_Out2 L_Out3 L_Out4.
Import ListNotations.
Local Open Scope Z_scope.

Ltac ones := repeat match goal with |- context [if ?x =? 1 then _ else _] => destruct (Z.eqb_spec x 1); try lia end.

Section Grid.
Variables n1 n2 n3 : Z.
Hypotheses (P1 : 0 < n1) (P2 : 0 < n2) (P3 : 0 < n3).
Notation kp := (kp n1 n2 n3). Notation nn := (nn n1 n2 n3). Notation blk := (blk n1 n2 n3). Notation oblk := (oblk n1 n2 n3).
Notation oplace := (oplace n1 n2 n3). Notation share_ok := (share_ok n1 n2 n3).

Definition bl (t : Z * Z * Z) : list Z := let '(a, b, c) := t in [a; b; c].
Definition fdims (pr : proc) : Z * Z * Z := if among pr then (n2, n1, n3) else (n1, n2, n3).
Definition fstart (pr : proc) : Z * Z * Z := match pr with Alone => (0, 0, 0) | Among _ s => (s, 0, 0) end.

Lemma kpq : Z.quot (last_dim_size n1 n2 n3) 2 = kp.
Proof. rewrite (nlast n1 n2 n3 P1 P2 P3). reflexivity. Qed.

Lemma lay_main real pr : share_ok real pr -> let l := out_layout real pr n1 n2 n3 in l_dims l = bl (fdims pr) /\ l_local l = bl (blk real pr) /\ l_start l = bl (fstart pr).
Proof.
  intros Ho. unfold out_layout. rewrite kpq. destruct pr as [|ln s], real; cbn [negb].
  - unfold blk, fdims, fstart, bl. cbn [among]. destruct (Z.eqb_spec n3 1) as [E3|E3]; [destruct (Z.eqb_spec n2 1) as [E2|E2]|]; cbn [l_dims l_local l_start]; rewrite ?E2, ?E3; repeat split.
  - repeat split.
  - unfold blk, fdims, fstart, bl. cbn [among]. destruct (Z.eqb_spec n3 1) as [E3|E3]; [|destruct (Z.eqb_spec s 0)]; cbn [l_dims l_local l_start]; rewrite ?E3; repeat split.
  - repeat split.
Qed.

(** Where the other half goes. *)
Definition special (pr : proc) : bool := match pr with Alone => false | Among _ s => negb (n3 =? 1) && (s =? 0) end.
Definition ostart (pr : proc) : Z * Z * Z :=
  match pr with
  | Alone => if n3 =? 1 then (if n2 =? 1 then (kp, 0, 0) else (0, kp, 0)) else (0, 0, kp)
  | Among l s => if n3 =? 1 then (n2 - (s + l - 1) + (if (s + l =? kp) && (n2 mod 2 =? 0) then 1 else 0), 0, 0)
      else (n2 - (s + l - 1), 0, kp)
  end.
Definition oblk' (pr : proc) : Z * Z * Z := let '(a, b, c) := oblk pr in (if special pr then a - 1 else a, b, c).

Lemma lay_other pr : share_ok true pr -> let l := out_layout true pr n1 n2 n3 in
  set3 (set3 (l_start l) (l_index l) (l_last_start l)) 0 (l_first_start l) = bl (ostart pr) /\
  set3 (set3 (l_local l) (l_index l) (l_last_size l)) 0 (l_first_size l) = bl (oblk' pr) /\ l_special l = special pr.
Proof.
  intros Ho. unfold out_layout. rewrite kpq. pose proof (ldim_cases n1 n2 n3) as LC. destruct pr as [|ln s]; cbn [negb].
  - unfold oblk', oblk, special, ostart, bl, nn. rewrite LC. destruct (Z.eqb_spec n3 1) as [E3|E3]; [destruct (Z.eqb_spec n2 1) as [E2|E2]|]; cbn [l_start l_local l_index l_last_start l_first_start l_last_size l_first_size l_special]; rewrite ?E2, ?E3; repeat split.
  - cbn [share_ok] in Ho. destruct Ho as (Hl & Hs & Hc & Hle). unfold oblk', oblk, special, ostart, bl, nn. rewrite LC. rewrite (Z.rem_mod_nonneg n2 2) by lia. destruct (Z.eqb_spec n3 1) as [E3|E3]; cbn [negb andb].
    + cbn [l_start l_local l_index l_last_start l_first_start l_last_size l_first_size l_special]. rewrite E3. repeat split.
    + destruct (Z.eqb_spec s 0) as [Es|Es]; cbn [l_start l_local l_index l_last_start l_first_start l_last_size l_first_size l_special]; rewrite ?Es; repeat split.
Qed.

(** The points a process writes, in order. *)
Definition opts (pr : proc) : list (Z * Z * Z) :=
  if special pr then map (fun t => let '(a, b, c) := t in oplace pr (a + 1, b, c)) (whole3 (oblk' pr)) ++ map (oplace pr) (whole 1 n1 nn)
  else map (oplace pr) (whole3 (oblk pr)).
Definition pts (real : bool) (pr : proc) : list (Z * Z * Z) := map (place_in pr) (whole3 (blk real pr)) ++ (if real then opts pr else []).
Definition entries (pr : proc) (f : Z * Z * Z -> R) (l : list (Z * Z * Z)) : list (list Z * R) := map (fun c => (at_file (among pr) n1 n2 n3 c, f c)) l.

Lemma cut_file (par : bool) a b c : cut (if par then n1 else n2) n3 [a; b; c] = at_file par n1 n2 n3 (if par then (b, a, c) else (a, b, c)).
Proof. destruct par; cbn; unfold cut; destruct (n3 =? 1); [destruct (n1 =? 1)| |destruct (n2 =? 1)|]; reflexivity. Qed.

Lemma at_eq par a b c a' b' c' : a = a' -> b = b' -> c = c' -> at_file par n1 n2 n3 (a, b, c) = at_file par n1 n2 n3 (a', b', c').
Proof. intros -> -> ->. reflexivity. Qed.

Lemma log_main real pr f : log_of (snd (fst (fdims pr))) (snd (fdims pr)) (fstart pr) (blk real pr) (fun t => f (place_in pr t)) = entries pr f (map (place_in pr) (whole3 (blk real pr))).
Proof.
  unfold entries. rewrite map_map. unfold log_of. destruct pr as [|l s]; cbn [fstart fdims among fst snd]; apply map_ext; intros ((a & b) & c); cbn [place_in]; f_equal.
  rewrite (cut_file true). cbn. rewrite (Z.add_comm s a). reflexivity.
Qed.

Lemma log_other pr f : share_ok true pr -> special pr = false -> log_of (snd (fst (fdims pr))) (snd (fdims pr)) (ostart pr) (oblk pr) (fun t => f (oplace pr t)) = entries pr f (map (oplace pr) (whole3 (oblk pr))).
Proof.
  intros Ho Hsp. unfold entries. rewrite map_map. unfold log_of. destruct pr as [|l s]; cbn [ostart fdims among fst snd].
  - unfold oplace. destruct (Z.eqb_spec n3 1) as [E3|E3]; [destruct (Z.eqb_spec n2 1) as [E2|E2]|]; apply map_ext; intros ((a & b) & c); f_equal; rewrite (cut_file false); apply at_eq; lia.
  - unfold special in Hsp. unfold oplace. destruct (Z.eqb_spec n3 1) as [E3|E3]; cbn [negb andb] in Hsp; [|rewrite Hsp]; apply map_ext; intros ((a & b) & c); f_equal; rewrite (cut_file true); apply at_eq; lia.
Qed.

Lemma log_sp1 l s f : share_ok true (Among l s) -> special (Among l s) = true ->
  log_of n1 n3 (ostart (Among l s)) (oblk' (Among l s)) (fun t => let '(a, b, c) := t in f (oplace (Among l s) (a + 1, b, c)))
    = entries (Among l s) f (map (fun t => let '(a, b, c) := t in oplace (Among l s) (a + 1, b, c)) (whole3 (oblk' (Among l s)))) /\
  log_of n1 n3 (0, 0, kp) (1, n1, nn) (fun t => f (oplace (Among l s) t)) = entries (Among l s) f (map (oplace (Among l s)) (whole 1 n1 nn)).
Proof.
  intros Ho Hsp. unfold special in Hsp. apply andb_prop in Hsp as (Hn3 & Hs). apply negb_true_iff in Hn3. apply Z.eqb_eq in Hs. unfold entries. rewrite !map_map. unfold log_of, oplace. cbn [ostart among]. rewrite Hn3, Hs, Z.eqb_refl. split.
  - unfold oblk', oblk, special. rewrite Hn3, Z.eqb_refl. cbn [negb andb whole3]. apply map_ext_in. intros ((a & b) & c) Ht. apply whole_in in Ht. f_equal. rewrite (cut_file true). destruct (Z.eqb_spec (a + 1) 0); [lia|]. apply at_eq; lia.
  - cbn [whole3]. apply map_ext_in. intros ((a & b) & c) Ht. apply whole_in in Ht. f_equal. rewrite (cut_file true). destruct (Z.eqb_spec a 0); [|lia]. apply at_eq; lia.
Qed.

Lemma fits_main real pr : share_ok real pr -> let '(d0, d1, d2) := fdims pr in fits d0 d1 d2 (fstart pr) (blk real pr).
Proof.
  intros Ho. pose proof (half_arith n1 n2 n3 P1 P2 P3) as HA. pose proof (ldim_cases n1 n2 n3) as LC. destruct pr as [|l s]; cbn [fdims among].
  - unfold fits, fstart, blk. destruct real; [|lia]. destruct (Z.eqb_spec n3 1) as [E3|E3]; [destruct (Z.eqb_spec n2 1) as [E2|E2]|]; lia.
  - cbn [share_ok] in Ho. unfold fits, fstart, blk. destruct real; [|lia]. destruct Ho as (Hl & Hs & Hc & Hle). destruct (Z.eqb_spec n3 1) as [E3|E3]; [|lia]. destruct (Z.eqb_spec n2 1) as [E2|E2]; lia.
Qed.
Lemma fits_other pr : share_ok true pr -> let '(d0, d1, d2) := fdims pr in fits d0 d1 d2 (ostart pr) (oblk' pr) /\ (special pr = true -> fits d0 d1 d2 (0, 0, kp) (1, n1, nn)).
Proof.
  intros Ho. pose proof (half_arith n1 n2 n3 P1 P2 P3) as HA. pose proof (ldim_cases n1 n2 n3) as LC. destruct pr as [|l s]; cbn [fdims among].
  - split; [|discriminate]. unfold fits, ostart, oblk', oblk, special. unfold nn in *. destruct (Z.eqb_spec n3 1) as [E3|E3]; [destruct (Z.eqb_spec n2 1) as [E2|E2]|]; lia.
  - cbn [share_ok] in Ho. destruct Ho as (Hl & Hs & Hc & Hle). unfold special, fits, ostart, oblk', oblk, special. unfold nn in *. destruct (Z.eqb_spec n3 1) as [E3|E3]; cbn [negb andb].
    + split; [|discriminate]. destruct (Z.eqb_spec n2 1) as [E2|E2]; [lia|]. destruct (Z.eqb_spec s 0), (Z.eqb_spec (s + l) kp), (Z.eqb_spec (n2 mod 2) 0); cbn [andb]; lia.
    + destruct (Z.eqb_spec s 0); split; try discriminate; intros; lia.
Qed.

(** ** What a process writes *)
Definition sel (which a : Z) : bool := (a =? which) || (which <? 0).
Lemma written_app a ri w w' : written a ri (w ++ w') = written a ri w ++ written a ri w'.
Proof. unfold written. apply flat_map_app. Qed.
Lemma entries_app pr f l l' : entries pr f (l ++ l') = entries pr f l ++ entries pr f l'.
Proof. apply map_app. Qed.

Definition write_out (real : bool) (pr : proc) (k : R * R * R) (which nc : Z) (field : list C) : outcome (list (Z * bool * list (list Z * R))) :=
  let l := out_layout real pr n1 n2 n3 in
  let! w := write_components field 0 (l_dims l) (l_local l) (l_start l) which nc in
  if negb real then Val w else
  let! field := otherhalf Cmul Cconj nc pr n1 n2 n3 (out_k pr k) field in
  let start := set3 (set3 (l_start l) (l_index l) (l_last_start l)) 0 (l_first_start l) in
  let local := set3 (set3 (l_local l) (l_index l) (l_last_size l)) 0 (l_first_size l) in
  if l_special l then
    let! w1 := write_components field (nc * get3 local 1 * get3 local 2) (l_dims l) local start which nc in
    let! w2 := write_components field 0 (l_dims l) (set3 local 0 1) (set3 start 0 0) which nc in
    Val (w ++ w1 ++ w2)
  else
    let! w1 := write_components field 0 (l_dims l) local start which nc in
    Val (w ++ w1).

Lemma wc_bl field base dims start blkd which nc (v : Z -> Z * Z * Z -> C) : 0 < nc -> (let '(d0, d1, d2) := dims in fits d0 d1 d2 start blkd) ->
  (forall r t, 0 <= r < nc -> In t (whole3 blkd) -> rd field (base + nc * size3 blkd t + r) = Val (v r t)) ->
  exists w, write_components field base (bl dims) (bl blkd) (bl start) which nc = Val w /\
    forall a ri, 0 <= a < nc -> written a ri w = if sel which a then log_of (snd (fst dims)) (snd dims) start blkd (fun t => part ri (v a t)) else [].
Proof.
  destruct dims as ((d0 & d1) & d2). intros Hnc Hf Hv. pose proof (wc_ok field base d0 d1 d2 start blkd which nc v Hnc Hf Hv) as W.
  destruct start as ((s0 & s1) & s2), blkd as ((l0 & l1) & l2). exact W.
Qed.

Lemma wv_bl vals base dims start blkd (v : Z * Z * Z -> R) : (let '(d0, d1, d2) := dims in fits d0 d1 d2 start blkd) ->
  (forall t, In t (whole3 blkd) -> rd vals (base + size3 blkd t) = Val (v t)) ->
  write_vals vals base (bl dims) (bl blkd) (bl start) = Val (log_of (snd (fst dims)) (snd dims) start blkd v).
Proof.
  destruct dims as ((d0 & d1) & d2). intros Hf Hv. pose proof (wv_ok vals base d0 d1 d2 start blkd v Hf Hv) as W.
  destruct start as ((s0 & s1) & s2), blkd as ((l0 & l1) & l2). exact W.
Qed.

Lemma special_parts pr : special pr = true -> exists l, pr = Among l 0 /\ (n3 =? 1) = false /\ oblk pr = (l, n1, nn) /\ oblk' pr = (l - 1, n1, nn).
Proof.
  destruct pr as [|l s]; [discriminate|]. intros H. pose proof H as H0. unfold special in H. apply andb_prop in H as (Hn3 & Hs). apply negb_true_iff in Hn3. apply Z.eqb_eq in Hs. subst s. exists l.
  unfold oblk', oblk. rewrite H0, Hn3. repeat split.
Qed.

Lemma write_out_ok real pr k which nc field F : 0 < nc -> share_ok real pr -> stored n1 n2 n3 nc real pr field F ->
  (real = true -> folds n1 n2 n3 Cmul Cconj nc (out_k pr k) pr F) ->
  exists w, write_out real pr k which nc field = Val w /\
    forall a ri, 0 <= a < nc -> written a ri w = if sel which a then entries pr (fun c => part ri (F a c)) (pts real pr) else [].
Proof.
  intros Hnc Ho Hst Hfo. unfold write_out. pose proof (lay_main real pr Ho) as (LD & LL & LS). rewrite LD, LL, LS.
  destruct (wc_bl field 0 (fdims pr) (fstart pr) (blk real pr) which nc (fun r t => F r (place_in pr t)) Hnc (fits_main real pr Ho)) as (w & Ew & Hw).
  { intros r t Hr Ht. rewrite Z.add_0_l. apply Hst; assumption. }
  rewrite Ew. cbn [bind]. destruct real; cbn [negb].
  2:{ exists w. split; [reflexivity|]. intros a ri Ha. rewrite (Hw a ri Ha). unfold pts. rewrite app_nil_r. rewrite (log_main false pr (fun c => part ri (F a c))). reflexivity. }
  rewrite <- LL, <- LS. pose proof (lay_other pr Ho) as (LS' & LB & LP). cbv zeta. rewrite LS', LB, LP.
  destruct (other_ok n1 n2 n3 P1 P2 P3 Cmul Cconj nc (0, 0)%R (out_k pr k) Hnc pr field F Ho Hst (Hfo eq_refl)) as (d' & Ed & Hd'). rewrite Ed. cbn [bind].
  pose proof (fits_other pr Ho) as FO. destruct (special pr) eqn:Esp.
  - destruct (special_parts pr Esp) as (l & -> & Hn3 & Eo & Eo'). rewrite Eo', Eo in *.
    change (get3 (bl (l - 1, n1, nn)) 1) with n1. change (get3 (bl (l - 1, n1, nn)) 2) with nn. cbn [fdims among] in *. destruct FO as (F1 & F2). specialize (F2 eq_refl).
    assert (Hl : 0 < l) by (cbn [share_ok] in Ho; lia).
    destruct (wc_bl d' (nc * n1 * nn) (n2, n1, n3) (ostart (Among l 0)) (l - 1, n1, nn) which nc (fun r t => let '(a, b, c) := t in F r (oplace (Among l 0) (a + 1, b, c))) Hnc F1) as (w1 & Ew1 & Hw1).
    { intros r ((a & b) & c) Hr Ht. cbn [whole3] in Ht. apply whole_in in Ht. rewrite <- (Hd' r (a + 1, b, c) Hr) by (cbn [whole3]; apply whole_in; lia). f_equal. cbn [size3]. ring. }
    destruct (wc_bl d' 0 (n2, n1, n3) (0, 0, kp) (1, n1, nn) which nc (fun r t => F r (oplace (Among l 0) t)) Hnc F2) as (w2 & Ew2 & Hw2).
    { intros r ((a & b) & c) Hr Ht. cbn [whole3] in Ht. apply whole_in in Ht. rewrite Z.add_0_l. apply (Hd' r (a, b, c) Hr). cbn [whole3]. apply whole_in. lia. }
    rewrite Ew1. cbn [bind].
    assert (Es : set3 (bl (ostart (Among l 0))) 0 0 = bl (0, 0, kp)) by (unfold ostart; rewrite Hn3; reflexivity). rewrite Es.
    change (set3 (bl (l - 1, n1, nn)) 0 1) with (bl (1, n1, nn)). rewrite Ew2. cbn [bind].
    exists (w ++ w1 ++ w2). split; [reflexivity|]. intros a ri Ha. rewrite !written_app, (Hw a ri Ha), (Hw1 a ri Ha), (Hw2 a ri Ha). destruct (sel which a); [|reflexivity].
    unfold pts, opts. rewrite Esp, !entries_app. destruct (log_sp1 l 0 (fun c => part ri (F a c)) Ho Esp) as (G1 & G2). rewrite Eo' in G1. cbn [fst snd]. rewrite <- G2, Eo', <- G1. f_equal; [exact (log_main true (Among l 0) (fun c => part ri (F a c)))|]. f_equal.
    unfold log_of. destruct (ostart (Among l 0)) as ((? & ?) & ?). apply map_ext. intros ((? & ?) & ?). reflexivity.
  - assert (Eo : oblk' pr = oblk pr) by (unfold oblk'; rewrite Esp; destruct (oblk pr) as ((? & ?) & ?); reflexivity). rewrite Eo in *.
    destruct (wc_bl d' 0 (fdims pr) (ostart pr) (oblk pr) which nc (fun r t => F r (oplace pr t)) Hnc) as (w1 & Ew1 & Hw1).
    { destruct (fdims pr) as ((? & ?) & ?). apply FO. }
    { intros r t Hr Ht. rewrite Z.add_0_l. apply Hd'; assumption. }
    rewrite Ew1. cbn [bind]. exists (w ++ w1). split; [reflexivity|]. intros a ri Ha. rewrite written_app, (Hw a ri Ha), (Hw1 a ri Ha). destruct (sel which a); [|reflexivity].
    unfold pts, opts. rewrite Esp, entries_app. rewrite <- (log_other pr (fun c => part ri (F a c)) Ho Esp), <- (log_main true pr (fun c => part ri (F a c))). reflexivity.
Qed.

Lemma scalar_out_ok real pr vals f : share_ok real pr -> stored n1 n2 n3 1 real pr vals (fun _ => f) ->
  (real = true -> even n1 n2 n3 f) -> output_scalarfield real pr n1 n2 n3 vals = Val (entries pr f (pts real pr)).
Proof.
  intros Ho Hst Hev. unfold output_scalarfield. pose proof (lay_main real pr Ho) as (LD & LL & LS). rewrite LD, LL, LS.
  assert (Hst' : forall t, In t (whole3 (blk real pr)) -> rd vals (0 + size3 (blk real pr) t) = Val (f (place_in pr t))).
  { intros t Ht. rewrite <- (Hst 0 t ltac:(lia) Ht). f_equal. ring. }
  rewrite (wv_bl vals 0 (fdims pr) (fstart pr) (blk real pr) (fun t => f (place_in pr t)) (fits_main real pr Ho) Hst'). cbn [bind].
  rewrite (log_main real pr f). destruct real; cbn [negb].
  2:{ unfold pts. rewrite app_nil_r. reflexivity. }
  rewrite <- LL, <- LS. pose proof (lay_other pr Ho) as (LS' & LB & LP). cbv zeta. rewrite LS', LB, LP.
  destruct (other_ok n1 n2 n3 P1 P2 P3 (fun _ x => x) (fun x => x) 1 0%R (0, 0, 0)%R ltac:(lia) pr vals (fun _ => f) Ho Hst) as (d' & Ed & Hd0).
  { intros r c _ Hc _. destruct (wrapped n2 n3 pr c). symmetry. apply (Hev eq_refl). exact Hc. }
  assert (Hd' : forall t, In t (whole3 (oblk pr)) -> rd d' (size3 (oblk pr) t) = Val (f (oplace pr t))).
  { intros t Ht. rewrite <- (Hd0 0 t ltac:(lia) Ht). f_equal. ring. }
  rewrite Ed. cbn [bind]. pose proof (fits_other pr Ho) as FO. destruct (special pr) eqn:Esp.
  - destruct (special_parts pr Esp) as (l & -> & Hn3 & Eo & Eo'). rewrite Eo', Eo in *.
    change (get3 (bl (l - 1, n1, nn)) 1) with n1. change (get3 (bl (l - 1, n1, nn)) 2) with nn. cbn [fdims among] in *. destruct FO as (F1 & F2). specialize (F2 eq_refl).
    assert (Hl : 0 < l) by (cbn [share_ok] in Ho; lia).
    pose proof (wv_bl d' (n1 * nn) (n2, n1, n3) (ostart (Among l 0)) (l - 1, n1, nn) (fun t => let '(a, b, c) := t in f (oplace (Among l 0) (a + 1, b, c))) F1) as Ew1.
    pose proof (wv_bl d' 0 (n2, n1, n3) (0, 0, kp) (1, n1, nn) (fun t => f (oplace (Among l 0) t)) F2) as Ew2.
    rewrite Ew1.
    2:{ intros ((a & b) & c) Ht. cbn [whole3] in Ht. apply whole_in in Ht. rewrite <- (Hd' (a + 1, b, c)) by (cbn [whole3]; apply whole_in; lia). f_equal. cbn [size3]. ring. }
    cbn [bind].
    assert (Es : set3 (bl (ostart (Among l 0))) 0 0 = bl (0, 0, kp)) by (unfold ostart; rewrite Hn3; reflexivity). rewrite Es.
    change (set3 (bl (l - 1, n1, nn)) 0 1) with (bl (1, n1, nn)). rewrite Ew2.
    2:{ intros ((a & b) & c) Ht. cbn [whole3] in Ht. apply whole_in in Ht. rewrite Z.add_0_l. apply (Hd' (a, b, c)). cbn [whole3]. apply whole_in. lia. }
    cbn [bind]. f_equal.
    unfold pts, opts. rewrite Esp, !entries_app. destruct (log_sp1 l 0 f Ho Esp) as (G1 & G2). rewrite Eo' in G1. cbn [fst snd]. rewrite <- G2, Eo', <- G1. reflexivity.
  - assert (Eo : oblk' pr = oblk pr) by (unfold oblk'; rewrite Esp; destruct (oblk pr) as ((? & ?) & ?); reflexivity). rewrite Eo in *.
    rewrite (wv_bl d' 0 (fdims pr) (ostart pr) (oblk pr) (fun t => f (oplace pr t))).
    + cbn [bind]. unfold pts, opts. rewrite Esp, entries_app. rewrite (log_other pr f Ho Esp). reflexivity.
    + destruct (fdims pr) as ((? & ?) & ?). apply FO.
    + intros t Ht. rewrite Z.add_0_l. apply Hd'; assumption.
Qed.
End Grid.
