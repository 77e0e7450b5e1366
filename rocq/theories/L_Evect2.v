(** Proofs about the division into blocks and the solution at k = 0. *)
From Coq Require Import List ZArith Reals Bool Lia.
From Verif Require Import Base RC Loops M_Evect S_Evect L_Evect.
Import ListNotations.
Local Open Scope Z_scope.

Lemma bands_in b n x : In x (bands b n) <-> b <= x < b + n.
Proof.
  unfold bands. rewrite in_map_iff. split.
  - intros (k & <- & Hk). apply in_seq in Hk. lia.
  - intros H. exists (Z.to_nat (x - b)). split; [lia|]. apply in_seq. lia.
Qed.
Lemma bands_nodup b n : NoDup (bands b n).
Proof.
  unfold bands. generalize (seq_NoDup (Z.to_nat n) 0). generalize (seq 0 (Z.to_nat n)).
  intros l Hl. induction Hl; cbn; constructor; auto.
  rewrite in_map_iff. intros (y & E & Hy). apply H. replace x with y by lia. exact Hy.
Qed.
Lemma bands_app b n m : 0 <= n -> 0 <= m -> bands b (n + m) = bands b n ++ bands (b + n) m.
Proof.
  intros. unfold bands. rewrite Z2Nat.inj_add by lia. rewrite seq_app, map_app. f_equal.
  rewrite Nat.add_0_l. rewrite <- (Nat.add_0_r (Z.to_nat n)) at 1.
  clear H0. generalize (Z.to_nat m) as k. generalize 0%nat as s. intros s k. revert s.
  induction k as [|k IH]; intros s; cbn [seq map]; [reflexivity|]. f_equal; [lia|].
  rewrite <- Nat.add_succ_r. apply IH.
Qed.

Lemma block_size_ok nb bs : 0 < nb -> exists B, block_size nb bs = Val B /\ 1 <= B <= nb /\
  (bs < 0 -> B <= - bs) /\ (0 < bs < nb -> B = bs) /\ (bs = 0 \/ nb <= bs -> B = nb).
Proof.
  intros H. unfold block_size. destruct (Z.eqb_spec bs 0) as [->|]; cbn [negb andb].
  { exists nb. split; [reflexivity|]. lia. }
  destruct (Z.ltb_spec bs nb); [|exists nb; split; [reflexivity|lia]].
  destruct (Z.ltb_spec bs 0); [|exists bs; split; [reflexivity|lia]].
  unfold idiv at 1. destruct (Z.eqb_spec (- bs) 0); [lia|]. cbn [bind].
  rewrite Z.quot_div_nonneg by lia. set (b1 := (nb - bs - 1) / - bs).
  assert (D1 : - bs * b1 <= nb - bs - 1 < - bs * b1 + - bs).
  { pose proof (Z.div_mod (nb - bs - 1) (- bs) ltac:(lia)). pose proof (Z.mod_pos_bound (nb - bs - 1) (- bs) ltac:(lia)). fold b1 in H2. lia. }
  assert (1 <= b1) by nia.
  unfold idiv. destruct (Z.eqb_spec b1 0); [lia|]. rewrite Z.quot_div_nonneg by lia.
  set (B := (nb + b1 - 1) / b1).
  assert (D2 : b1 * B <= nb + b1 - 1 < b1 * B + b1).
  { pose proof (Z.div_mod (nb + b1 - 1) b1 ltac:(lia)). pose proof (Z.mod_pos_bound (nb + b1 - 1) b1 ltac:(lia)). fold B in H3. lia. }
  exists B. split; [reflexivity|]. split; [nia|]. split; [intros; nia|]. lia.
Qed.

Lemma block_size_zero bs : bs < 0 -> block_size 0 bs = UB.
Proof.
  intros H. unfold block_size. destruct (Z.eqb_spec bs 0); [lia|]. destruct (Z.ltb_spec bs 0); [|lia]. cbn [negb andb].
  unfold idiv at 1. destruct (Z.eqb_spec (- bs) 0); [lia|]. cbn [bind].
  rewrite Z.quot_small by lia. reflexivity.
Qed.

Definition blockbands (b : Z * Z) : list Z := bands (fst b) (snd b).

Lemma solver_blocks_ok fuel ib num B : 1 <= B -> ib <= num -> num - ib <= Z.of_nat fuel ->
  exists l, solver_blocks fuel ib B num B = Some l /\
    flat_map blockbands l = bands ib (num - ib) /\
    Forall (fun b => 1 <= snd b <= B /\ ib <= fst b /\ fst b + snd b <= num) l.
Proof.
  intros HB. revert ib. induction fuel as [|fuel IH]; intros ib Hib Hf; cbn [solver_blocks].
  - destruct (Z.ltb_spec ib num); [lia|]. exists []. split; [reflexivity|]. split; [|constructor].
    replace (num - ib) with 0 by lia. reflexivity.
  - destruct (Z.ltb_spec ib num).
    2: { exists []. split; [reflexivity|]. split; [|constructor]. replace (num - ib) with 0 by lia. reflexivity. }
    rewrite Z.gtb_ltb. destruct (Z.ltb_spec num (ib + B)).
    + assert (E : solver_blocks fuel (ib + B) (num - ib) num B = Some []).
      { destruct fuel; cbn; destruct (Z.ltb_spec (ib + B) num); [lia|reflexivity|lia|reflexivity]. }
      rewrite E. eexists. split; [reflexivity|]. split.
      * cbn. rewrite app_nil_r. reflexivity.
      * constructor; [cbn; lia|constructor].
    + destruct (IH (ib + B)) as (l & El & Fl & Al); [lia|lia|]. rewrite El. eexists. split; [reflexivity|]. split.
      * cbn [flat_map]. rewrite Fl. unfold blockbands. cbn [fst snd]. replace (num - ib) with (B + (num - (ib + B))) by lia.
        rewrite bands_app by lia. reflexivity.
      * constructor; [cbn; lia|]. eapply Forall_impl; [|exact Al]. cbn. intros. lia.
Qed.

Lemma solver_blocks_one fuel ib num : 0 <= ib <= num -> 1 <= num -> (1 <= fuel)%nat ->
  solver_blocks fuel ib num num num = Some (if ib <? num then [(ib, num - ib)] else []).
Proof.
  intros. destruct fuel as [|fuel]; [lia|]. cbn [solver_blocks]. destruct (Z.ltb_spec ib num); [|reflexivity].
  replace (if ib + num >? num then num - ib else num) with (num - ib).
  - destruct fuel; cbn; destruct (Z.ltb_spec (ib + num) num); try lia; reflexivity.
  - rewrite Z.gtb_ltb. destruct (Z.ltb_spec num (ib + num)); lia.
Qed.

(* ------------------------------------------------------------------ *)
(** * Constant bands *)

Lemma mask_zero p a b : a <> b -> 0 <= a -> 0 <= b ->
  (Z.land p (Z.lor (2 ^ a) (2 ^ b)) =? 0) = negb (Z.testbit p a) && negb (Z.testbit p b).
Proof.
  intros Hab Ha Hb. destruct (Z.testbit p a) eqn:Ta, (Z.testbit p b) eqn:Tb; cbn [negb andb].
  4: { apply Z.eqb_eq. apply Z.bits_inj'. intros n Hn. rewrite Z.land_spec, Z.lor_spec, !Z.pow2_bits_eqb, Z.bits_0 by auto.
       destruct (Z.eqb_spec a n) as [->|]; [rewrite Ta; reflexivity|]. destruct (Z.eqb_spec b n) as [->|]; [rewrite Tb; reflexivity|].
       apply andb_false_r. }
  all: apply Z.eqb_neq; intros E.
  - assert (X : Z.testbit (Z.land p (Z.lor (2 ^ a) (2 ^ b))) a = true) by (rewrite Z.land_spec, Z.lor_spec, !Z.pow2_bits_eqb, Ta, Z.eqb_refl by auto; reflexivity).
    rewrite E, Z.bits_0 in X. discriminate.
  - assert (X : Z.testbit (Z.land p (Z.lor (2 ^ a) (2 ^ b))) a = true) by (rewrite Z.land_spec, Z.lor_spec, !Z.pow2_bits_eqb, Ta, Z.eqb_refl by auto; reflexivity).
    rewrite E, Z.bits_0 in X. discriminate.
  - assert (X : Z.testbit (Z.land p (Z.lor (2 ^ a) (2 ^ b))) b = true) by (rewrite Z.land_spec, Z.lor_spec, !Z.pow2_bits_eqb, Tb, Z.eqb_refl by auto; apply orb_true_r).
    rewrite E, Z.bits_0 in X. discriminate.
Qed.

Lemma m_band_spec parity : m_band parity = Z.b2z (m_allowed parity).
Proof.
  unfold m_band, m_allowed. change ODD_Z with (2 ^ 1). change EVEN_Y with (2 ^ 2). rewrite mask_zero by lia.
  destruct (negb (Z.testbit parity 1) && negb (Z.testbit parity 2)); reflexivity.
Qed.
Lemma n_band_spec parity : n_band parity = Z.b2z (n_allowed parity).
Proof.
  unfold n_band, n_allowed. change ODD_Y with (2 ^ 3). change EVEN_Z with (2 ^ 0). rewrite mask_zero by lia. rewrite andb_comm.
  destruct (negb (Z.testbit parity 0) && negb (Z.testbit parity 3)); reflexivity.
Qed.
Lemma num_const_spec p parity : num_const_bands p parity = const_count parity p.
Proof.
  unfold num_const_bands, const_count. rewrite m_band_spec, n_band_spec. rewrite Z.gtb_ltb.
  destruct (Z.ltb_spec p (Z.b2z (m_allowed parity) + Z.b2z (n_allowed parity))); lia.
Qed.
Lemma const_count_range parity p : 0 <= p -> 0 <= const_count parity p <= p.
Proof. unfold const_count. destruct (m_allowed parity), (n_allowed parity); cbn; lia. Qed.

Ltac fin3 i := let Q := fresh in assert (Q : i = 0 \/ i = 1 \/ 2 <= i) by lia; destruct Q as [->|[->|Q]];
  cbn [andb Z.eqb Pos.eqb]; try reflexivity; destruct (Z.eqb_spec i 0), (Z.eqb_spec i 1); try lia; cbn [andb]; reflexivity.

Lemma set_const_ok {A} (zero one : A) X parity Nstart : wf X -> (Nstart <= 0 -> 2 <= en X) ->
  exists X', set_const_bands zero one X parity Nstart = Val X' /\ wf X' /\ en X' = en X /\ ep X' = ep X /\ ealloc X' = ealloc X /\
    (forall i j, 0 <= i < en X -> 0 <= j < const_count parity (ep X) ->
       ent X' i j = Val (if (Nstart <=? 0) && (i =? const_row parity j) then one else zero)) /\
    (forall i j, 0 <= i < en X -> const_count parity (ep X) <= j < ep X -> ent X' i j = ent X i j).
Proof.
  intros W Hn2. pose proof W as (Hn & Hp & Hl). unfold set_const_bands. destruct (Z.ltb_spec (ep X) 1).
  { exists X. split; [reflexivity|]. pose proof (const_count_range parity (ep X)). split; [exact W|]. repeat split; intros; lia. }
  rewrite num_const_spec. pose proof (const_count_range parity (ep X) ltac:(lia)) as Hc.
  assert (Hlen : forall i j, 0 <= i < en X -> 0 <= j < ep X -> 0 <= i * ep X + j < Z.of_nat (length (edata X))).
  { intros i j Hi Hj. rewrite Hl. pose proof (rowin (en X) (ealloc X) (ep X) i j). lia. }
  destruct (write2_ok (fun i j => i * ep X + j) (fun _ _ _ => Val zero) (fun _ _ => zero) (en X) (const_count parity (ep X)) ltac:(lia) ltac:(lia) (edata X))
    as (d & E & L & Q & R).
  - intros i j Hi Hj. apply Hlen; lia.
  - intros i j i' j' Hi Hj Hi' Hj' Heq. apply (rowinj (ep X)); lia.
  - reflexivity.
  - rewrite E. cbn [bind]. clear E.
    assert (Rest : forall i j, 0 <= i < en X -> const_count parity (ep X) <= j < ep X -> rd d (i * ep X + j) = ent X i j).
    { intros i j Hi Hj. apply R. intros i1 j1 Hi1 Hj1 Heq. destruct (rowinj (ep X) i1 j1 i j); lia. }
    rewrite Z.gtb_ltb. destruct (Z.ltb_spec 0 Nstart).
    + eexists. split; [reflexivity|]. split; [apply wf_set; auto|]. repeat split.
      * intros i j Hi Hj. destruct (Z.leb_spec Nstart 0); [lia|]. cbn [andb]. unfold ent. cbn [set_data edata ep]. apply Q; auto.
      * intros i j Hi Hj. unfold ent at 1. cbn [set_data edata ep]. apply Rest; auto.
    + specialize (Hn2 H0).
      (* any writes to rows 0 and 1 of the first columns *)
      assert (Wr : forall (d0 : list A) i j (v : A), length d0 = length (edata X) -> 0 <= i < en X -> 0 <= j < ep X ->
         exists d1, wr d0 (i * ep X + j) v = Val d1 /\ length d1 = length (edata X) /\
           (forall i' j', 0 <= i' < en X -> 0 <= j' < ep X -> rd d1 (i' * ep X + j') = if (i' =? i) && (j' =? j) then Val v else rd d0 (i' * ep X + j'))).
      { intros d0 i j v L0 Hi Hj. assert (W1 : wr d0 (i * ep X + j) v = Val (upd_nat d0 (Z.to_nat (i * ep X + j)) v)) by (apply wr_in; rewrite L0; auto).
        eexists. split; [exact W1|]. split; [rewrite upd_length; exact L0|]. intros i' j' Hi' Hj'. rewrite (rd_wr _ _ _ _ _ W1).
        destruct (Z.eqb_spec (i' * ep X + j') (i * ep X + j)) as [Heq|Hneq].
        - destruct (rowinj (ep X) i' j' i j) as (-> & ->); auto; try lia. rewrite !Z.eqb_refl. reflexivity.
        - destruct (Z.eqb_spec i' i) as [->|]; [|reflexivity]. destruct (Z.eqb_spec j' j) as [->|]; [congruence|reflexivity]. }
      rewrite m_band_spec, n_band_spec.
      assert (Fin : forall d' : list A, length d' = length (edata X) ->
         (forall i j, 0 <= i < en X -> 0 <= j < ep X -> rd d' (i * ep X + j) =
            if (j <? const_count parity (ep X)) then Val (if i =? const_row parity j then one else zero) else rd d (i * ep X + j)) ->
         exists X' : emat A, Val (set_data X d') = Val X' /\ wf X' /\ en X' = en X /\ ep X' = ep X /\ ealloc X' = ealloc X /\
          (forall i j : Z, 0 <= i < en X -> 0 <= j < const_count parity (ep X) ->
             ent X' i j = Val (if (Nstart <=? 0) && (i =? const_row parity j) then one else zero)) /\
          (forall i j : Z, 0 <= i < en X -> const_count parity (ep X) <= j < ep X -> ent X' i j = ent X i j)).
      { intros d' L' Q'. eexists. split; [reflexivity|]. split; [apply wf_set; auto|]. repeat split.
        - intros i j Hi Hj. destruct (Z.leb_spec Nstart 0); [|lia]. cbn [andb]. unfold ent. cbn [set_data edata ep]. rewrite Q' by lia.
          destruct (Z.ltb_spec j (const_count parity (ep X))); [reflexivity|lia].
        - intros i j Hi Hj. unfold ent at 1. cbn [set_data edata ep]. rewrite Q' by lia.
          destruct (Z.ltb_spec j (const_count parity (ep X))); [lia|]. apply Rest; auto. }
      unfold const_count, const_row in *.
      destruct (m_allowed parity) eqn:Em, (n_allowed parity) eqn:Enb; cbn [Z.b2z Z.eqb Pos.eqb andb orb] in *.
      * (* both *)
        destruct (Wr d 0 0 one L ltac:(lia) ltac:(lia)) as (d1 & W1 & L1 & Q1). replace (0 * ep X + 0) with 0 in W1 by lia. rewrite W1. cbn [bind].
        destruct (Wr d1 1 0 zero L1 ltac:(lia) ltac:(lia)) as (d2 & W2 & L2 & Q2). replace (1 * ep X + 0) with (ep X) in W2 by lia. rewrite W2. cbn [bind].
        destruct (Z.leb_spec 2 (ep X)) as [Hp2|Hp2]; cbn [bind].
        -- destruct (Wr d2 0 1 zero L2 ltac:(lia) ltac:(lia)) as (d3 & W3 & L3 & Q3). replace (0 * ep X + 1) with 1 in W3 by lia. rewrite W3. cbn [bind].
           destruct (Wr d3 1 1 one L3 ltac:(lia) ltac:(lia)) as (d4 & W4 & L4 & Q4). replace (1 * ep X + 1) with (ep X + 1) in W4 by lia. rewrite W4. cbn [bind].
           apply Fin; auto. intros i j Hi Hj. rewrite Q4, Q3, Q2, Q1 by lia.
           destruct (Z.ltb_spec j (Z.min (ep X) (1 + 1))).
           ++ assert (Hj2 : j = 0 \/ j = 1) by lia. rewrite Q by lia.
              destruct Hj2 as [-> | ->]; fin3 i.
           ++ destruct (Z.eqb_spec j 0); [lia|]. destruct (Z.eqb_spec j 1); [lia|]. rewrite !andb_false_r. reflexivity.
        -- apply Fin; auto. intros i j Hi Hj. rewrite Q2, Q1 by lia. destruct (Z.ltb_spec j (Z.min (ep X) (1 + 1))); [|lia].
           replace j with 0 by lia. rewrite Q by lia.
           fin3 i.
      * (* m only *)
        destruct (Wr d 0 0 one L ltac:(lia) ltac:(lia)) as (d1 & W1 & L1 & Q1). replace (0 * ep X + 0) with 0 in W1 by lia. rewrite W1. cbn [bind].
        destruct (Wr d1 1 0 zero L1 ltac:(lia) ltac:(lia)) as (d2 & W2 & L2 & Q2). replace (1 * ep X + 0) with (ep X) in W2 by lia. rewrite W2. cbn [bind].
        apply Fin; auto. intros i j Hi Hj. rewrite Q2, Q1 by lia. destruct (Z.ltb_spec j (Z.min (ep X) (1 + 0))).
        -- replace j with 0 by lia. rewrite Q by lia.
           fin3 i.
        -- destruct (Z.eqb_spec j 0); [lia|]. rewrite !andb_false_r. reflexivity.
      * (* n only *)
        cbn [bind].
        destruct (Wr d 0 0 zero L ltac:(lia) ltac:(lia)) as (d1 & W1 & L1 & Q1). replace (0 * ep X + 0) with 0 in W1 by lia. rewrite W1. cbn [bind].
        destruct (Wr d1 1 0 one L1 ltac:(lia) ltac:(lia)) as (d2 & W2 & L2 & Q2). replace (1 * ep X + 0) with (ep X + 0) in W2 by lia. rewrite W2. cbn [bind].
        apply Fin; auto. intros i j Hi Hj. rewrite Q2, Q1 by lia. destruct (Z.ltb_spec j (Z.min (ep X) (0 + 1))).
        -- replace j with 0 by lia. rewrite Q by lia.
           fin3 i.
        -- destruct (Z.eqb_spec j 0); [lia|]. rewrite !andb_false_r. reflexivity.
      * (* neither *)
        cbn [bind]. apply Fin; auto. intros i j Hi Hj. destruct (Z.ltb_spec j (Z.min (ep X) (0 + 0))); [lia|reflexivity].
Qed.

(* ------------------------------------------------------------------ *)
(** * The loop over blocks *)

Section Loop.
Context {A : Type} (solver : Z -> Z -> list A -> emat A -> list A).
Hypothesis Hsolver : forall ib q inp H, length (solver ib q inp H) = length inp.

Definition recblock (r : solved A) : Z * Z := (s_ib r, s_p r).

Lemma nodup_app_disj {X} (l1 l2 : list X) : NoDup (l1 ++ l2) -> NoDup l2 /\ forall x, In x l1 -> ~ In x l2.
Proof.
  induction l1 as [|a l1 IH]; cbn; intros H; [split; [exact H|intros x []]|].
  inversion H; subst. destruct (IH H3) as (N & D). split; [exact N|].
  intros x [->|Hx]; [intros Hx; apply H2; apply in_or_app; auto|apply D; exact Hx].
Qed.

Lemma blocks_ok ib0 num B (blocks : list (Z * Z)) : forall H Hb, wf H -> wf Hb -> en Hb = en H -> ealloc Hb = B ->
  ep H = num - ib0 -> NoDup (flat_map blockbands blocks) ->
  Forall (fun b => 1 <= snd b <= B /\ ib0 <= fst b /\ fst b + snd b <= num) blocks ->
  exists H' log, solve_blocks solver false ib0 H Hb blocks = Val (H', log) /\
    wf H' /\ en H' = en H /\ ep H' = ep H /\ ealloc H' = ealloc H /\ map recblock log = blocks /\
    (forall i j, 0 <= i < en H -> 0 <= j < ep H -> ~ In (j + ib0) (flat_map blockbands blocks) -> ent H' i j = ent H i j) /\
    (forall r, In r log -> forall i j, 0 <= i < en H -> 0 <= j < s_p r ->
       rd (s_in r) (i * s_p r + j) = ent H i (s_ib r - ib0 + j) /\
       ent H' i (s_ib r - ib0 + j) = rd (s_out r) (i * s_p r + j)).
Proof.
  induction blocks as [|(ib & q) rest IH]; intros H Hb W Wb En Al Hp Nd Fa.
  - exists H, []. cbn. split; [reflexivity|]. split; [exact W|]. repeat split; intros; contradiction.
  - inversion Fa as [|? ? (Hq & Hib & Hle) Fa']; subst. cbn [fst snd] in *. cbn [solve_blocks].
    cbn [flat_map] in Nd. destruct (nodup_app_disj _ _ Nd) as (Nd' & Dj).
    rewrite resize_nopres by lia. cbn [bind].
    set (Hb1 := {| en := en Hb; ep := q; ealloc := ealloc Hb; edata := edata Hb |}).
    assert (Wb1 : wf Hb1) by (destruct Wb as (? & ? & ?); split; [assumption|split; [cbn; lia|assumption]]).
    destruct (load_ok Hb1 H (ib - ib0) Wb1 W En ltac:(lia) ltac:(cbn; lia)) as (Hb2 & E2 & Wb2 & N2 & P2 & A2 & Q2). rewrite E2. cbn [bind].
    cbn [en ep ealloc Hb1] in N2, P2, A2, Q2.
    set (out := solver ib q (edata Hb2) H).
    assert (Wb3 : wf (set_data Hb2 out)) by (apply wf_set; [exact Wb2|apply Hsolver]).
    destruct (save_ok (set_data Hb2 out) H (ib - ib0) Wb3 W ltac:(cbn; lia) ltac:(lia) ltac:(cbn; lia)) as (H1 & E1 & W1 & N1 & P1 & A1 & Q1 & R1). rewrite E1. cbn [bind].
    cbn [set_data ep] in Q1, R1.
    destruct (IH H1 (set_data Hb2 out)) as (H' & log & E & W' & N' & P' & A' & M' & R' & Q'); auto.
    { cbn. lia. } { lia. }
    rewrite E. cbn [bind fst snd]. eexists _, _. split; [reflexivity|]. split; [exact W'|]. split; [lia|]. split; [lia|]. split; [lia|].
    split; [cbn [map]; rewrite M'; reflexivity|]. rewrite N1, P1 in *. split.
    + intros i j Hi Hj Hni. cbn [flat_map] in Hni. rewrite in_app_iff in Hni. rewrite R' by tauto. apply R1; auto.
      intros Hin. apply Hni. left. apply bands_in. cbn. lia.
    + intros r [<-|Hr] i j Hi Hj; cbn [s_in s_out s_ib s_p] in *.
      * split.
        -- pose proof (Q2 i j Hi Hj) as X. unfold ent at 1 in X. rewrite P2 in X. rewrite X. f_equal. lia.
        -- rewrite R'; [|lia|lia|].
           ++ replace (ib - ib0 + j) with (j + (ib - ib0)) by lia. rewrite Q1 by lia. unfold ent. cbn [set_data edata ep]. rewrite P2. reflexivity.
           ++ apply Dj. apply bands_in. cbn. lia.
      * destruct (Q' r Hr i j Hi Hj) as (X1 & X2). split; [|exact X2]. rewrite X1.
        assert (Hb' : In (recblock r) rest) by (rewrite <- M'; apply in_map; exact Hr).
        rewrite Forall_forall in Fa'. pose proof (Fa' _ Hb') as (F1 & F2 & F3). cbn in F1, F2, F3.
        apply R1; [auto|lia|]. intros Hin.
        apply (Dj (s_ib r + j)); [apply bands_in; cbn; lia|]. apply in_flat_map. exists (recblock r). split; [exact Hb'|]. apply bands_in. cbn. lia.
Qed.

Lemma map_flat {X Y Z0} (f : X -> Y) (g : Y -> list Z0) l : flat_map g (map f l) = flat_map (fun x => g (f x)) l.
Proof. induction l; cbn; [reflexivity|]. rewrite IHl. reflexivity. Qed.

Definition loop_result (ib0 num : Z) (H H' : emat A) (log : list (solved A)) : Prop :=
  wf H' /\ en H' = en H /\ ep H' = ep H /\ ealloc H' = ealloc H /\
  flat_map (fun r => bands (s_ib r) (s_p r)) log = bands ib0 (num - ib0) /\
  (forall r, In r log -> ib0 <= s_ib r /\ 1 <= s_p r /\ s_ib r + s_p r <= num /\ forall i j, 0 <= i < en H -> 0 <= j < s_p r ->
       rd (s_in r) (i * s_p r + j) = ent H i (s_ib r - ib0 + j) /\
       ent H' i (s_ib r - ib0 + j) = rd (s_out r) (i * s_p r + j)).

Lemma loop_ok (same : bool) fuel ib0 num B H Hb blocks : wf H -> wf Hb -> en Hb = en H -> ealloc Hb = B ->
  ep H = num - ib0 -> 0 <= ib0 <= num -> 1 <= B <= num -> (same = true -> B = num) -> num < Z.of_nat fuel ->
  solver_blocks fuel ib0 B num B = Some blocks ->
  exists H' log, solve_blocks solver same ib0 H Hb blocks = Val (H', log) /\ loop_result ib0 num H H' log.
Proof.
  intros W Wb En Al Hp Hib HB Hs Hf Eb. destruct same.
  - rewrite (Hs eq_refl) in Eb. rewrite solver_blocks_one in Eb by lia. injection Eb as <-. destruct (Z.ltb_spec ib0 num).
    + cbn [solve_blocks bind fst snd]. eexists _, _. split; [reflexivity|].
      set (out := solver ib0 (num - ib0) (edata H) H).
      assert (Wd : wf (set_data H out)) by (apply wf_set; [exact W|apply Hsolver]).
      split; [exact Wd|]. cbn [set_data en ep ealloc]. split; [reflexivity|]. split; [reflexivity|]. split; [reflexivity|]. split; [cbn; rewrite app_nil_r; reflexivity|].
      intros r [<-|[]]. cbn [s_ib s_p s_in s_out]. split; [lia|]. split; [lia|]. split; [lia|]. intros i j Hi Hj. unfold ent. cbn [set_data edata ep]. rewrite Hp. split; f_equal; lia.
    + cbn [solve_blocks bind fst snd]. exists H, []. split; [reflexivity|]. split; [exact W|]. repeat split; try (intros; contradiction).
      replace (num - ib0) with 0 by lia. reflexivity.
  - destruct (solver_blocks_ok fuel ib0 num B ltac:(lia) ltac:(lia) ltac:(lia)) as (l & El & Fl & Al'). rewrite El in Eb. injection Eb as <-.
    destruct (blocks_ok ib0 num B l H Hb W Wb En Al Hp) as (H' & log & E & W' & N' & P' & A' & M' & R' & Q').
    { rewrite Fl. apply bands_nodup. }
    { exact Al'. }
    exists H', log. split; [exact E|]. split; [exact W'|]. split; [exact N'|]. split; [exact P'|]. split; [exact A'|]. split.
    + rewrite <- Fl, <- M', map_flat. reflexivity.
    + intros r Hr. assert (Hb' : In (recblock r) l) by (rewrite <- M'; apply in_map; exact Hr).
      rewrite Forall_forall in Al'. pose proof (Al' _ Hb') as (F1 & F2 & F3). cbn in F1, F2, F3.
      split; [lia|]. split; [lia|]. split; [lia|]. apply Q'. exact Hr.
Qed.

Lemma solve_fields_ok (zero one : A) fuel (zero_k : bool) parity Nstart num same H Hb :
  wf H -> ep H = num -> ealloc H = num -> wf Hb -> en Hb = en H -> 1 <= ealloc Hb <= num -> (same = true -> ealloc Hb = num) ->
  (zero_k = true -> Nstart <= 0 -> 2 <= en H) -> num < Z.of_nat fuel ->
  let ib0 := if zero_k then const_count parity num else 0 in
  exists H' log, solve_fields solver zero one fuel zero_k parity Nstart num same H Hb = Val (H', log) /\
    wf H' /\ en H' = en H /\ ep H' = num /\ ealloc H' = num /\
    flat_map (fun r => bands (s_ib r) (s_p r)) log = bands ib0 (num - ib0) /\
    (forall r, In r log -> forall i j, 0 <= i < en H -> 0 <= j < s_p r ->
       rd (s_in r) (i * s_p r + j) = ent H i (s_ib r + j) /\
       ent H' i (s_ib r + j) = rd (s_out r) (i * s_p r + j)) /\
    (forall i j, 0 <= i < en H -> 0 <= j < ib0 ->
       ent H' i j = Val (if (Nstart <=? 0) && (i =? const_row parity j) then one else zero)).
Proof.
  intros W Hp Ha Wb En HB Hs Hn2 Hf ib0. unfold solve_fields.
  assert (Hib : 0 <= ib0 <= num) by (unfold ib0; destruct zero_k; [apply const_count_range; destruct W; lia|lia]).
  replace (if zero_k then num_const_bands (ep H) parity else 0) with ib0 by (unfold ib0; destruct zero_k; [rewrite num_const_spec, Hp; reflexivity|reflexivity]).
  destruct (solver_blocks_ok fuel ib0 num (ealloc Hb) ltac:(lia) ltac:(lia) ltac:(lia)) as (l & El & _).
  destruct zero_k.
  - destruct (begin_ok H ib0 W ltac:(lia)) as (H1 & E1 & W1 & N1 & P1 & A1 & Q1). rewrite E1. cbn [bind]. rewrite El.
    destruct (loop_ok same fuel ib0 num (ealloc Hb) H1 Hb l) as (H2 & log & E2 & W2 & N2 & P2 & A2 & F2 & Q2); auto; try lia.
    rewrite E2. cbn [bind fst snd].
    destruct (end_ok H2 ib0 W2 ltac:(lia) ltac:(lia)) as (H3 & E3 & W3 & N3 & P3 & A3 & Q3). rewrite E3. cbn [bind].
    destruct (set_const_ok zero one H3 parity Nstart W3) as (H4 & E4 & W4 & N4 & P4 & A4 & Q4 & R4); [intros; specialize (Hn2 eq_refl); lia|]. rewrite E4. cbn [bind].
    assert (Ep3 : ep H3 = num) by lia. rewrite Ep3 in *. fold ib0 in Q4, R4.
    exists H4, log. split; [reflexivity|]. split; [exact W4|]. split; [lia|]. split; [lia|]. split; [lia|]. split; [exact F2|]. split.
    + intros r Hr i j Hi Hj. destruct (Q2 r Hr) as (B1 & B2 & B3 & X). destruct (X i j ltac:(lia) Hj) as (X1 & X2). split.
      * rewrite X1, Q1 by lia. unfold ent. f_equal. lia.
      * rewrite <- X2. rewrite R4 by lia. replace (s_ib r + j) with (s_ib r - ib0 + j + ib0) by lia. apply Q3; lia.
    + intros i j Hi Hj. apply Q4; lia.
  - cbn [bind]. rewrite El.
    destruct (loop_ok same fuel ib0 num (ealloc Hb) H Hb l) as (H2 & log & E2 & W2 & N2 & P2 & A2 & F2 & Q2); auto; try (unfold ib0; lia).
    rewrite E2. cbn [bind]. exists H2, log. split; [reflexivity|]. split; [exact W2|]. split; [lia|]. split; [lia|]. split; [lia|]. split; [exact F2|]. split.
    + intros r Hr i j Hi Hj. destruct (Q2 r Hr) as (B1 & B2 & B3 & X). destruct (X i j ltac:(lia) Hj) as (X1 & X2).
      unfold ib0 in *. replace (s_ib r - 0 + j) with (s_ib r + j) in * by lia. auto.
    + intros i j Hi Hj. unfold ib0 in Hj. lia.
Qed.
End Loop.
