(** Proofs about processor groups, communicators and critical sections. *)
From Coq Require Import List ZArith Bool Lia Permutation.
From Verif Require Import Base M_Util S_Util.
Import ListNotations.
Local Open Scope Z_scope.

(* ------------------------------------------------------------------ *)
(** * Groups *)

Lemma divide_val sz rank g s : 0 < g <= sz ->
  exists s', divide_parallel_processes sz rank g s = Val (Z.quot (rank * g) sz, s').
Proof.
  intros H. unfold divide_parallel_processes, check. destruct (Z.gtb_spec g 0); [|lia]. destruct (Z.leb_spec g sz); [|lia].
  cbn [bind]. eexists. reflexivity.
Qed.

Lemma divide_bad sz rank g s : ~ (0 < g <= sz) -> divide_parallel_processes sz rank g s = Abort.
Proof.
  intros H. unfold divide_parallel_processes, check. destruct (Z.gtb_spec g 0); [|reflexivity].
  destruct (Z.leb_spec g sz); [lia|reflexivity].
Qed.

Lemma group_div sz rank g : 0 < g <= sz -> 0 <= rank -> Z.quot (rank * g) sz = rank * g / sz.
Proof. intros. apply Z.quot_div_nonneg; nia. Qed.

Lemma group_range sz rank g : 0 < g <= sz -> 0 <= rank < sz -> 0 <= rank * g / sz < g.
Proof.
  intros Hg Hr. split; [apply Z.div_pos; nia|]. apply Z.div_lt_upper_bound; nia.
Qed.

Lemma group_mono sz r r' g : 0 < g <= sz -> r <= r' -> r * g / sz <= r' * g / sz.
Proof. intros. apply Z.div_le_mono; nia. Qed.

(** First rank of group [k]: the least r with r g >= k sz. *)
Definition first_rank (sz g k : Z) := (k * sz + g - 1) / g.

Lemma first_rank_spec sz g k r : 0 < g -> (first_rank sz g k <= r <-> k * sz <= r * g).
Proof.
  intros Hg. unfold first_rank. pose proof (Z.div_mod (k * sz + g - 1) g ltac:(lia)) as E.
  pose proof (Z.mod_pos_bound (k * sz + g - 1) g Hg) as B. split; intros H; nia.
Qed.

Lemma group_iff sz g k r : 0 < g <= sz -> 0 <= r -> (r * g / sz = k <-> first_rank sz g k <= r < first_rank sz g (k + 1)).
Proof.
  intros Hg Hr. rewrite first_rank_spec by lia.
  assert (r < first_rank sz g (k+1) <-> ~ first_rank sz g (k+1) <= r) as -> by lia. rewrite first_rank_spec by lia.
  pose proof (Z.div_mod (r * g) sz ltac:(lia)) as E. pose proof (Z.mod_pos_bound (r * g) sz ltac:(lia)) as B. split; intros H; nia.
Qed.

Lemma count_range (f : Z -> bool) lo hi n : 0 <= lo <= hi -> hi <= n ->
  (forall r, 0 <= r < n -> (f r = true <-> lo <= r < hi)) ->
  Z.of_nat (length (filter f (ranks n))) = hi - lo.
Proof.
  intros H1 H2 H. unfold ranks.
  assert (K : forall m, Z.of_nat m <= n ->
    Z.of_nat (length (filter f (map Z.of_nat (seq 0 m)))) = Z.max 0 (Z.min (Z.of_nat m) hi - lo)).
  { induction m as [|m IH]; intros Hm; [cbn; lia|].
    rewrite seq_S, map_app, filter_app, app_length, Nat2Z.inj_add, IH by lia. cbn [map filter plus].
    specialize (H (Z.of_nat m) ltac:(lia)). destruct (f (Z.of_nat m)); cbn [length].
    - assert (lo <= Z.of_nat m < hi) by (apply H; reflexivity). lia.
    - assert (~ (lo <= Z.of_nat m < hi)) by (intros X; apply H in X; discriminate). lia. }
  rewrite K by lia. lia.
Qed.

Lemma group_size sz g k : 0 < g <= sz -> 0 <= k < g ->
  let size := Z.of_nat (length (filter (fun r => (r * g / sz) =? k) (ranks sz))) in
  sz / g <= size <= (sz + g - 1) / g.
Proof.
  intros Hg Hk size.
  assert (E : size = first_rank sz g (k + 1) - first_rank sz g k).
  { apply count_range.
    - pose proof (first_rank_spec sz g k (first_rank sz g (k+1)) ltac:(lia)).
      pose proof (first_rank_spec sz g (k+1) (first_rank sz g (k+1)) ltac:(lia)).
      split; [unfold first_rank; apply Z.div_pos; nia|]. nia.
    - apply first_rank_spec; nia.
    - intros r Hr. rewrite Z.eqb_eq. apply group_iff; lia. }
  rewrite E. clear E size. unfold first_rank.
  pose proof (Z.div_mod (k * sz + g - 1) g ltac:(lia)) as E1. pose proof (Z.mod_pos_bound (k * sz + g - 1) g ltac:(lia)) as B1.
  pose proof (Z.div_mod ((k + 1) * sz + g - 1) g ltac:(lia)) as E2. pose proof (Z.mod_pos_bound ((k + 1) * sz + g - 1) g ltac:(lia)) as B2.
  pose proof (Z.div_mod sz g ltac:(lia)) as E3. pose proof (Z.mod_pos_bound sz g ltac:(lia)) as B3.
  pose proof (Z.div_mod (sz + g - 1) g ltac:(lia)) as E4. pose proof (Z.mod_pos_bound (sz + g - 1) g ltac:(lia)) as B4.
  nia.
Qed.

Lemma group_onto sz g k : 0 < g <= sz -> 0 <= k < g -> exists r, 0 <= r < sz /\ r * g / sz = k.
Proof.
  intros Hg Hk. exists (first_rank sz g k).
  pose proof (first_rank_spec sz g k (first_rank sz g k) ltac:(lia)).
  pose proof (first_rank_spec sz g (k+1) (first_rank sz g k) ltac:(lia)).
  assert (0 <= first_rank sz g k) by (unfold first_rank; apply Z.div_pos; nia).
  assert (first_rank sz g k * g <= k * sz + g - 1) by (unfold first_rank; rewrite Z.mul_comm; apply Z.mul_div_le; lia).
  split; [nia|]. apply group_iff; [lia|lia|]. split; [lia|]. nia.
Qed.

(* ------------------------------------------------------------------ *)
(** * Communicators *)

Definition valid (s : cstate) (c : comm) : Prop :=
  match c with World => True | Grp i => (i < created s)%nat /\ ~ In (Grp i) (freed s) end.

Definition cinv (s : cstate) : Prop :=
  NoDup (freed s) /\ ~ In World (freed s) /\ (forall i, In (Grp i) (freed s) -> (i < created s)%nat) /\
  valid s (mpb_comm s) /\ valid s (mpb_comm_save s) /\ (mpb_comm s = mpb_comm_save s -> mpb_comm s = World).

Lemma nodup_snoc {A} (l : list A) a : NoDup l -> ~ In a l -> NoDup (l ++ [a]).
Proof.
  intros H1 H2. induction l as [|b l IH]; cbn; [constructor; [auto|constructor]|].
  inversion H1; subst. constructor.
  - rewrite in_app_iff. intros [X|[X|[]]]; [auto|]. subst. apply H2. left. reflexivity.
  - apply IH; [assumption|]. intros X. apply H2. right. exact X.
Qed.

Lemma end_divide_inv s : cinv s -> cinv (end_divide_parallel s) /\
  mpb_comm (end_divide_parallel s) = World /\ mpb_comm_save (end_divide_parallel s) = World /\
  created (end_divide_parallel s) = created s /\
  freed (end_divide_parallel s) = freed s ++ (if is_world (mpb_comm s) then [] else [mpb_comm s])
                                          ++ (if is_world (mpb_comm_save s) then [] else [mpb_comm_save s]).
Proof.
  destruct s as [c sv cr fr]. intros (Hn & Hw & Hi & Hc & Hs & Hd).
  unfold cinv in *. cbn [mpb_comm mpb_comm_save created freed] in *.
  destruct c as [|c], sv as [|sv]; unfold end_divide_parallel; cbn [mpb_comm mpb_comm_save is_world negb comm_free set_comms created freed valid] in *;
    rewrite ?app_nil_r, ?app_nil_l.
  - repeat split; auto.
  - split; [|auto]. repeat split; auto.
    + apply nodup_snoc; tauto.
    + rewrite in_app_iff. intros [X|[X|[]]]; [auto|discriminate].
    + intros i. rewrite in_app_iff. intros [X|[X|[]]]; [auto|]. injection X as <-. tauto.
  - split; [|auto]. repeat split; auto.
    + apply nodup_snoc; tauto.
    + rewrite in_app_iff. intros [X|[X|[]]]; [auto|discriminate].
    + intros i. rewrite in_app_iff. intros [X|[X|[]]]; [auto|]. injection X as <-. tauto.
  - rewrite <- !app_assoc. split; [|auto]. repeat split; auto.
    + rewrite app_assoc. apply nodup_snoc; [apply nodup_snoc; tauto|]. rewrite in_app_iff. intros [X|[X|[]]]; [tauto|].
      injection X as ->. discriminate (Hd eq_refl).
    + rewrite in_app_iff. intros [X|[X|[X|[]]]]; [auto|discriminate|discriminate].
    + intros i. rewrite in_app_iff. intros [X|[X|[X|[]]]]; [auto| |]; injection X as <-; tauto.
Qed.

Lemma cstep_inv sz rank o s s' : cinv s -> cstep sz rank o s = Val s' -> cinv s'.
Proof.
  intros H. destruct o; cbn [cstep].
  - unfold divide_parallel_processes. destruct (end_divide_inv s H) as (I & Ec & Es & _). revert I Ec Es.
    generalize (end_divide_parallel s). intros s0 I Ec Es.
    unfold check. destruct (numgroups >? 0); [|discriminate]. destruct (numgroups <=? sz); [|discriminate]. cbn [bind snd]. intros E. injection E as <-.
    destruct I as (Hn & Hw & Hi & Hc & Hs & Hd). unfold cinv. cbn [mpb_comm mpb_comm_save created freed]. rewrite Es.
    split; [exact Hn|]. split; [exact Hw|]. split; [intros i X; apply Hi in X; lia|]. split; [|split; [exact I|discriminate]].
    split; [cbn [created]; lia|]. cbn [freed]. intros X. apply Hi in X. lia.
  - intros E. injection E as <-. apply end_divide_inv. exact H.
  - intros E. injection E as <-. destruct s as [c sv cr fr], H as (Hn & Hw & Hi & Hc & Hs & Hd).
    unfold begin_global_communications, set_comms, cinv in *. cbn [mpb_comm mpb_comm_save created freed] in *.
    repeat split; auto.
  - intros E. injection E as <-. destruct s as [c sv cr fr], H as (Hn & Hw & Hi & Hc & Hs & Hd).
    unfold end_global_communications, set_comms, cinv in *. cbn [mpb_comm mpb_comm_save created freed] in *.
    repeat split; auto.
Qed.

Lemma cinit_inv : cinv cinit.
Proof. unfold cinv, cinit; cbn. repeat split; auto; try constructor; intuition. Qed.

Lemma crun_inv sz rank l s s' : cinv s -> crun sz rank l s = Val s' -> cinv s'.
Proof.
  revert s; induction l as [|o l IH]; intros s H; cbn [crun]; [intros E; injection E as <-; exact H|].
  destruct (cstep sz rank o s) as [s1| | |] eqn:E; try discriminate. cbn [bind]. intros E'. eapply IH; [|exact E'].
  eapply cstep_inv; eassumption.
Qed.

(** Flat sequences *)
Definition finv (c : comm) (n : nat) (s : cstate) : Prop :=
  mpb_comm s = c /\ mpb_comm_save s = World /\ created s = n /\ cinv s /\
  Permutation (map Grp (seq 0 n)) ((if is_world c then [] else [c]) ++ freed s).

Lemma flat_run sz rank l c n s : flat sz l -> finv c n s ->
  exists s', crun sz rank l s = Val s' /\ finv (group_after c n l) (n + divides l) s'.
Proof.
  intros F. revert c n s. induction F as [|g l Hg F IH|l F IH|l F IH]; intros c n s I.
  - exists s. split; [reflexivity|]. cbn. rewrite Nat.add_0_r. exact I.
  - cbn [crun cstep group_after divides].
    destruct I as (Ec & Es & En & I & P). destruct (end_divide_inv s I) as (I1 & C1 & S1 & N1 & F1).
    assert (K : cstep sz rank (Divide g) s = Val {| mpb_comm := Grp n; mpb_comm_save := World; created := S n; freed := freed (end_divide_parallel s) |}).
    { cbn [cstep]. unfold divide_parallel_processes, check. destruct (Z.gtb_spec g 0); [|lia]. destruct (Z.leb_spec g sz); [|lia]. cbn [bind snd].
      rewrite S1, N1, En. reflexivity. }
    pose proof (cstep_inv _ _ _ _ _ I K) as I2. cbn [cstep] in K. rewrite K. cbn [bind].
    destruct (IH (Grp n) (S n) {| mpb_comm := Grp n; mpb_comm_save := World; created := S n; freed := freed (end_divide_parallel s) |}) as (s' & R & V).
    { split; [reflexivity|]. split; [reflexivity|]. split; [reflexivity|]. split; [exact I2|]. cbn [is_world freed app].
      rewrite F1, Ec, Es. cbn [is_world]. rewrite app_nil_r. rewrite seq_S, map_app. cbn [map plus].
      rewrite Permutation_app_comm. cbn [app]. constructor. rewrite P. apply Permutation_app_comm. }
    exists s'. split; [exact R|]. rewrite Nat.add_succ_r. exact V.
  - cbn [crun cstep bind group_after divides]. destruct I as (Ec & Es & En & I & P). destruct (end_divide_inv s I) as (I1 & C1 & S1 & N1 & F1).
    apply IH. split; [exact C1|]. split; [exact S1|]. split; [congruence|]. split; [exact I1|].
    cbn [is_world app]. rewrite F1, Ec, Es. cbn [is_world]. rewrite app_nil_r, P. apply Permutation_app_comm.
  - cbn [crun cstep bind group_after divides]. apply IH. destruct s as [c0 sv cr fr]. destruct I as (Ec & Es & En & I & P).
    cbn in *. subst. unfold finv, end_global_communications, begin_global_communications, set_comms. cbn [mpb_comm mpb_comm_save created freed].
    split; [reflexivity|]. split; [reflexivity|]. split; [reflexivity|]. split; [exact I|exact P].
Qed.

(* ------------------------------------------------------------------ *)
(** * Critical sections *)

Local Open Scope nat_scope.

Definition entered (x : nat) : nat := (x + 2) / 3.
Definition sent (x : nat) : nat := (x + 1) / 3.

Section Critical.
Variable N M : nat.
Variable tag : nat -> Z.
Variable eager : bool.
Hypothesis HN : 1 <= N.

Definition tags (a b : nat) : list (Z * Z) := map (fun j => (tag j, tag j)) (seq a (b - a)).

Definition minv (s : mstate) : Prop :=
  died s = false /\
  (forall p, p < N -> pc s p <= 3 * M) /\
  (forall p, S p < N -> entered (pc s (S p)) <= sent (pc s p) /\ chan s p = tags (entered (pc s (S p))) (sent (pc s p))) /\
  (Nat.modulo (pc s (N - 1)) 3 <> 2).

Ltac divs := unfold entered, sent in *;
  repeat match goal with
  | |- context [?x / 3] => pose proof (Nat.div_mod x 3 ltac:(lia)); pose proof (Nat.mod_upper_bound x 3 ltac:(lia)); generalize dependent (x / 3); intros
  | H : context [?x / 3] |- _ => pose proof (Nat.div_mod x 3 ltac:(lia)); pose proof (Nat.mod_upper_bound x 3 ltac:(lia)); generalize dependent (x / 3); intros
  end.

Lemma upd_same {A} (f : nat -> A) i a : upd f i a i = a.
Proof. unfold upd. rewrite Nat.eqb_refl. reflexivity. Qed.
Lemma upd_other {A} (f : nat -> A) i j a : j <> i -> upd f i a j = f j.
Proof. intros H. unfold upd. destruct (Nat.eqb_spec j i); [contradiction|reflexivity]. Qed.

Lemma phases x : (x mod 3 = 0 /\ exists j, x = 3 * j /\ entered x = j /\ sent x = j /\ x / 3 = j /\ entered (S x) = S j /\ sent (S x) = j) \/
  (x mod 3 = 1 /\ exists j, x = 3 * j + 1 /\ entered x = S j /\ sent x = j /\ x / 3 = j /\ entered (S x) = S j /\ sent (S x) = S j
      /\ entered (S (S x)) = S j /\ sent (S (S x)) = S j) \/
  (x mod 3 = 2 /\ exists j, x = 3 * j + 2 /\ entered x = S j /\ sent x = S j /\ x / 3 = j /\ entered (S x) = S j /\ sent (S x) = S j).
Proof.
  pose proof (Nat.div_mod x 3 ltac:(lia)) as E. pose proof (Nat.mod_upper_bound x 3 ltac:(lia)) as B.
  assert (D : forall a b r, r < 3 -> a = 3 * b + r -> a / 3 = b) by (intros a b r Hr ->; symmetry; apply Nat.div_unique with r; lia).
  set (j := x / 3) in *. destruct (x mod 3) as [|[|[|r]]] eqn:Em; [left|right; left|right; right|lia];
    (split; [reflexivity|]); exists j; unfold entered, sent; repeat split; try lia;
    solve [apply (D _ _ 0); lia | apply (D _ _ 1); lia | apply (D _ _ 2); lia].
Qed.

Lemma tags_nil a : tags a a = [].
Proof. unfold tags. rewrite Nat.sub_diag. reflexivity. Qed.
Lemma tags_cons a b : a < b -> tags a b = (tag a, tag a) :: tags (S a) b.
Proof. intros H. unfold tags. replace (b - a) with (S (b - S a)) by lia. reflexivity. Qed.
Lemma tags_snoc a b : a <= b -> tags a (S b) = tags a b ++ [(tag b, tag b)].
Proof. intros H. unfold tags. rewrite Nat.sub_succ_l by exact H. rewrite seq_S, map_app. cbn. do 4 f_equal; lia. Qed.

Lemma mstep_inv p s s' : p < N -> minv s -> mstep N M tag eager p s = Some s' -> minv s' /\ pc s p < pc s' p /\ (forall q, q <> p -> pc s' q = pc s q).
Proof.
  intros Hp (Hd & Hb & Hc & Hl). unfold mstep. rewrite Hd. destruct (Nat.leb_spec (3 * M) (pc s p)) as [|Hlt]; [discriminate|].
  destruct (phases (pc s p)) as [(Em & j & Ex & He & Hs & Hj & He' & Hs')|[(Em & j & Ex & He & Hs & Hj & He' & Hs' & He'' & Hs'')|(Em & j & Ex & He & Hs & Hj & He' & Hs')]]; rewrite Em.
  - (* begin *)
    unfold begin_critical_section. rewrite Hj.
    assert (Next : forall (pc' : nat -> nat), pc' = upd (pc s) p (S (pc s p)) -> (forall q, q < N -> pc' q <= 3 * M) /\ Nat.modulo (pc' (N-1)) 3 <> 2).
    { intros pc' ->. split.
      - intros q Hq. destruct (Nat.eq_dec q p) as [->|Hne]; [rewrite upd_same; lia|rewrite upd_other by exact Hne; auto].
      - destruct (Nat.eq_dec (N - 1) p) as [E|Hne]; [|rewrite upd_other by exact Hne; exact Hl].
        rewrite E, upd_same. rewrite Ex. replace (S (3 * j)) with (1 + j * 3) by lia. rewrite Nat.mod_add by lia. discriminate. }
    destruct p as [|p'].
    + intros E. injection E as <-. destruct (Next _ eq_refl) as (NB & NL). split; [|cbn [pc]; rewrite upd_same; split; [lia|intros; apply upd_other; assumption]].
      split; [exact Hd|]. cbn [pc chan died]. split; [exact NB|]. split; [|exact NL].
      intros q Hq. destruct (Hc q Hq) as (A & B). rewrite (upd_other _ _ (S q)) by lia.
      destruct (Nat.eq_dec q 0) as [->|Hne]; [|rewrite upd_other by exact Hne; auto]. rewrite upd_same. rewrite Hs' . rewrite Hs in A, B. auto.
    + destruct (Hc p' Hp) as (A & B). rewrite B. rewrite He in A |- *.
      destruct (Nat.eq_dec j (sent (pc s p'))) as [E0|Hne0].
      { rewrite <- E0, tags_nil. discriminate. }
      rewrite tags_cons by lia. cbn [recv]. rewrite !Z.eqb_refl. intros E. injection E as <-. destruct (Next _ eq_refl) as (NB & NL).
      split; [|cbn [pc]; rewrite upd_same; split; [lia|intros; apply upd_other; assumption]].
      split; [exact Hd|]. cbn [pc chan died]. split; [exact NB|]. split; [|exact NL].
      intros q Hq. destruct (Nat.eq_dec q p') as [->|Hne].
      * rewrite upd_same. rewrite (upd_other (pc s)) by lia. rewrite upd_same. rewrite He'. split; [lia|reflexivity].
      * rewrite (upd_other (chan s)) by exact Hne. rewrite (upd_other (pc s) _ (S q)) by lia.
        destruct (Nat.eq_dec q (S p')) as [->|Hne2]; [|rewrite (upd_other (pc s)) by exact Hne2; auto].
        rewrite upd_same. rewrite Hs'. destruct (Hc _ Hq) as (A' & B'). rewrite Hs in A', B'. auto.
  - (* end *)
    unfold end_critical_section. rewrite Hj. destruct (Nat.eqb_spec p (N - 1)) as [El|Hnl]; intros E; injection E as <-.
    + split; [|cbn [pc]; rewrite upd_same; split; [lia|intros; apply upd_other; assumption]].
      split; [exact Hd|]. cbn [pc chan died]. split; [|split].
      * intros q Hq. destruct (Nat.eq_dec q p) as [->|Hne]; [rewrite upd_same; lia|rewrite upd_other by exact Hne; auto].
      * intros q Hq. destruct (Hc q Hq) as (A & B). rewrite (upd_other _ _ q) by lia.
        destruct (Nat.eq_dec (S q) p) as [E|Hne]; [|rewrite upd_other by exact Hne; auto].
        rewrite <- E in *. rewrite upd_same. rewrite He''. rewrite He in A, B. auto.
      * rewrite El, upd_same, <- El, Ex. replace (S (S (3 * j + 1))) with (0 + (S j) * 3) by lia. rewrite Nat.mod_add by lia. discriminate.
    + split; [|cbn [pc]; rewrite upd_same; split; [lia|intros; apply upd_other; assumption]].
      split; [exact Hd|]. cbn [pc chan died]. split; [|split].
      * intros q Hq. destruct (Nat.eq_dec q p) as [->|Hne]; [rewrite upd_same; lia|rewrite upd_other by exact Hne; auto].
      * intros q Hq. destruct (Hc q Hq) as (A & B). destruct (Nat.eq_dec q p) as [->|Hne].
        { rewrite !upd_same. rewrite (upd_other (pc s)) by lia. rewrite B, Hs, Hs'. rewrite Hs in A. split; [lia|]. rewrite tags_snoc by exact A. reflexivity. }
        rewrite (upd_other (chan s)) by exact Hne. rewrite (upd_other (pc s) _ q) by exact Hne.
        destruct (Nat.eq_dec (S q) p) as [E|Hne2]; [|rewrite upd_other by exact Hne2; auto].
        rewrite <- E in *. rewrite upd_same. rewrite He'. rewrite He in A, B. auto.
      * rewrite upd_other by (intros X; apply Hnl; symmetry; exact X). exact Hl.
  - (* sending *)
    unfold send_done. intros E0.
    assert (E : s' = {| pc := upd (pc s) p (S (pc s p)); chan := chan s; died := died s |}).
    { destruct eager; [|destruct (chan s p); [|discriminate]]; injection E0 as <-; reflexivity. }
    subst s'. clear E0.
    split; [|cbn [pc]; rewrite upd_same; split; [lia|intros; apply upd_other; assumption]].
    split; [exact Hd|]. cbn [pc chan died]. split; [|split].
    + intros q Hq. destruct (Nat.eq_dec q p) as [->|Hne]; [rewrite upd_same; lia|rewrite upd_other by exact Hne; auto].
    + intros q Hq. destruct (Hc q Hq) as (A & B). destruct (Nat.eq_dec q p) as [->|Hne].
      * rewrite upd_same, (upd_other _ _ (S p)) by lia. rewrite Hs'. rewrite Hs in A, B. auto.
      * rewrite (upd_other _ _ q) by exact Hne. destruct (Nat.eq_dec (S q) p) as [E|Hne2]; [|rewrite upd_other by exact Hne2; auto].
        rewrite <- E in *. rewrite upd_same. rewrite He'. rewrite He in A, B. auto.
    + destruct (Nat.eq_dec (N - 1) p) as [E|Hne]; [|rewrite upd_other by exact Hne; exact Hl].
      rewrite E, upd_same, Ex. replace (S (3 * j + 2)) with (0 + (S j) * 3) by lia. rewrite Nat.mod_add by lia. discriminate.
Qed.

Lemma minit_inv : minv minit.
Proof.
  split; [reflexivity|]. cbn. split; [intros; lia|]. split; [|discriminate].
  intros p _. split; [apply le_n|]. reflexivity.
Qed.

Lemma mrun_inv sched s s' : minv s -> mrun N M tag eager sched s = Some s' -> minv s'.
Proof.
  revert s; induction sched as [|p t IH]; intros s I; cbn [mrun]; [intros E; injection E as <-; exact I|].
  destruct (Nat.ltb_spec p N) as [Hp|]; [|discriminate]. destruct (mstep N M tag eager p s) as [s1|] eqn:E; [|discriminate].
  apply IH. eapply mstep_inv; eassumption.
Qed.

(** Progress *)
Lemma min_exists (P : nat -> bool) (f : nat -> nat) k : (exists p, p < k /\ P p = true) ->
  exists p, p < k /\ P p = true /\ forall q, q < k -> P q = true -> f p <= f q.
Proof.
  induction k as [|k IH]; [intros (p & H & _); lia|]. intros (p & Hp & HP).
  destruct (existsb P (seq 0 k)) eqn:E.
  - apply existsb_exists in E. destruct E as (x & Hx & HPx). apply in_seq in Hx.
    destruct (IH (ex_intro _ x (conj (proj2 Hx) HPx))) as (p0 & P1 & P2 & P3).
    destruct (P k) eqn:Ek.
    + destruct (Nat.le_gt_cases (f p0) (f k)) as [C|C].
      * exists p0. repeat split; auto. intros q Hq HQ. destruct (Nat.eq_dec q k) as [->|]; [exact C|]. apply P3; [lia|exact HQ].
      * exists k. repeat split; auto. intros q Hq HQ. destruct (Nat.eq_dec q k) as [->|]; [lia|]. specialize (P3 q ltac:(lia) HQ). lia.
    + exists p0. repeat split; auto. intros q Hq HQ. destruct (Nat.eq_dec q k) as [->|]; [congruence|]. apply P3; [lia|exact HQ].
  - assert (F : forall q, q < k -> P q = false).
    { intros q Hq. destruct (P q) eqn:EP; [|reflexivity]. exfalso. assert (existsb P (seq 0 k) = true); [|congruence].
      apply existsb_exists. exists q. split; [apply in_seq; lia|exact EP]. }
    destruct (Nat.eq_dec p k) as [->|Hne]; [|rewrite F in HP by lia; discriminate].
    exists k. repeat split; auto. intros q Hq HQ. destruct (Nat.eq_dec q k) as [->|]; [lia|]. rewrite F in HQ by lia. discriminate.
Qed.

Lemma progress s : minv s -> (exists p, p < N /\ pc s p < 3 * M) -> exists p, p < N /\ exists s', mstep N M tag eager p s = Some s'.
Proof.
  intros (Hd & Hb & Hc & Hl) (p0 & Hp0 & Hlt0).
  destruct (min_exists (fun p => Nat.ltb (pc s p) (3 * M)) (fun p => (pc s p / 3) * N + p) N) as (p & Hp & HP & Hmin).
  { exists p0. split; [exact Hp0|]. apply Nat.ltb_lt. exact Hlt0. }
  apply Nat.ltb_lt in HP.
  assert (Q : forall q, q < N -> pc s p / 3 < pc s q / 3 \/ (pc s p / 3 = pc s q / 3 /\ p <= q)).
  { intros q Hq. destruct (Nat.lt_ge_cases (pc s q) (3 * M)) as [Hlt|Hge].
    - specialize (Hmin q Hq (proj2 (Nat.ltb_lt _ _) Hlt)). cbv beta in Hmin.
      destruct (Nat.lt_trichotomy (pc s p / 3) (pc s q / 3)) as [C|[C|C]]; [auto|right; split; [exact C|]|exfalso].
      + rewrite C in Hmin. lia.
      + nia.
    - left. apply Nat.lt_le_trans with M; [apply Nat.div_lt_upper_bound; lia|apply Nat.div_le_lower_bound; lia]. }
  clear Hmin.
  assert (St : forall r s', r < N -> pc s r < 3 * M -> died s = false ->
     match Nat.modulo (pc s r) 3 with O => begin_critical_section tag r s | S O => Some (end_critical_section N tag r s) | _ => send_done eager r s end = Some s' ->
     exists p, p < N /\ exists s', mstep N M tag eager p s = Some s').
  { intros r s' Hr Hlt _ E. exists r. split; [exact Hr|]. exists s'. unfold mstep. rewrite Hd. destruct (Nat.leb_spec (3 * M) (pc s r)); [lia|]. exact E. }
  (* process r waiting for a message that has been sent can go on *)
  assert (Rcv : forall p', S p' < N -> pc s (S p') mod 3 = 0 -> pc s (S p') < 3 * M -> entered (pc s (S p')) < sent (pc s p') -> pc s (S p') / 3 = entered (pc s (S p')) ->
     exists p, p < N /\ exists s', mstep N M tag eager p s = Some s').
  { intros p' Hp' Em Hlt Hs Hj. destruct (Hc p' Hp') as (_ & B). eapply (St (S p')); auto. rewrite Em. unfold begin_critical_section. rewrite B.
    rewrite Hj. rewrite tags_cons by exact Hs. cbn [recv]. rewrite !Z.eqb_refl. reflexivity. }
  destruct (phases (pc s p)) as [(Em & j & Ex & He & Hs & Hj & _)|[(Em & j & Ex & He & Hs & Hj & _)|(Em & j & Ex & He & Hs & Hj & _)]].
  - destruct p as [|p'].
    + eapply (St 0); auto. rewrite Em. unfold begin_critical_section. reflexivity.
    + apply (Rcv p' Hp Em HP); [|congruence]. rewrite He.
      destruct (Q p' ltac:(lia)) as [C|C]; [|lia]. rewrite Hj in C.
      destruct (phases (pc s p')) as [(_ & j' & _ & _ & -> & Hj' & _)|[(_ & j' & _ & _ & -> & Hj' & _)|(_ & j' & _ & _ & -> & Hj' & _)]]; lia.
  - eapply (St p); auto. rewrite Em. reflexivity.
  - destruct eager eqn:Ee.
    + eapply (St p); auto. rewrite Em. unfold send_done. rewrite ?Ee. reflexivity.
    + assert (p <> N - 1) by (intros ->; contradiction).
      destruct (Hc p ltac:(lia)) as (A & B). rewrite Hs in A, B.
      destruct (Nat.eq_dec (entered (pc s (S p))) (S j)) as [E|Hne].
      * eapply (St p); auto. rewrite Em. unfold send_done. rewrite ?Ee, B, E, tags_nil. reflexivity.
      * destruct (Q (S p) ltac:(lia)) as [C|(C & _)]; rewrite Hj in C.
        { exfalso. destruct (phases (pc s (S p))) as [(_ & j' & _ & E1 & _ & Hj' & _)|[(_ & j' & _ & E1 & _ & Hj' & _)|(_ & j' & _ & E1 & _ & Hj' & _)]]; lia. }
        destruct (phases (pc s (S p))) as [(Em' & j' & Ex' & E1 & _ & Hj' & _)|[(_ & j' & _ & E1 & _ & Hj' & _)|(_ & j' & _ & E1 & _ & Hj' & _)]]; try lia.
        apply (Rcv p ltac:(lia) Em'); lia.
Qed.

(** Total work *)
Fixpoint work (s : mstate) (k : nat) : nat := match k with O => O | S k' => pc s k' + work s k' end.
Lemma work_bound s k : (forall p, p < k -> pc s p <= 3 * M) -> work s k <= k * (3 * M).
Proof. intros H. induction k as [|k IH]; [apply le_n|]. cbn [work]. specialize (H k ltac:(lia)) as H1. specialize (IH ltac:(intros; apply H; lia)). lia. Qed.
Lemma work_step s s' p k : p < k -> pc s p < pc s' p -> (forall q, q <> p -> pc s' q = pc s q) -> work s k < work s' k.
Proof.
  intros Hp Hlt Ho. assert (G : forall k, k <= p -> work s k = work s' k).
  { induction k0 as [|k0 IH]; intros H; [reflexivity|]. cbn [work]. rewrite IH by lia. rewrite Ho by lia. reflexivity. }
  induction k as [|k IH]; [lia|]. cbn [work]. destruct (Nat.eq_dec k p) as [->|Hne]; [rewrite (G p) by lia; lia|]. rewrite Ho by auto. specialize (IH ltac:(lia)). lia.
Qed.

Lemma run_length sched s s' : minv s -> mrun N M tag eager sched s = Some s' -> length sched + work s N <= work s' N.
Proof.
  revert s; induction sched as [|p t IH]; intros s I; cbn [mrun]; [intros E; injection E as <-; cbn [length]; apply le_n|].
  destruct (Nat.ltb_spec p N) as [Hp|]; [|discriminate]. destruct (mstep N M tag eager p s) as [s1|] eqn:E; [|discriminate].
  intros R. destruct (mstep_inv p s s1 Hp I E) as (I1 & L & O). specialize (IH s1 I1 R).
  pose proof (work_step s s1 p N Hp L O). cbn [length]. lia.
Qed.

Lemma can_finish s : minv s -> exists sched s', mrun N M tag eager sched s = Some s' /\ forall p, p < N -> pc s' p = 3 * M.
Proof.
  remember (N * (3 * M) - work s N) as k eqn:Ek. revert s Ek. induction k as [k IH] using lt_wf_ind. intros s Ek I.
  destruct (existsb (fun p => Nat.ltb (pc s p) (3 * M)) (seq 0 N)) eqn:E.
  - apply existsb_exists in E. destruct E as (x & Hx & Hlt). apply in_seq in Hx. apply Nat.ltb_lt in Hlt.
    destruct (progress s I (ex_intro _ x (conj (proj2 Hx) Hlt))) as (p & Hp & s1 & St).
    destruct (mstep_inv p s s1 Hp I St) as (I1 & L & O). pose proof (work_step s s1 p N Hp L O) as W.
    pose proof (work_bound s1 N (proj1 (proj2 I1))) as WB.
    destruct (IH (N * (3 * M) - work s1 N) ltac:(lia) s1 eq_refl I1) as (sched & s' & R & F).
    exists (p :: sched), s'. split; [|exact F]. cbn [mrun]. destruct (Nat.ltb_spec p N); [|lia]. rewrite St. exact R.
  - exists [], s. split; [reflexivity|]. intros p Hp. apply Nat.le_antisymm; [apply I; exact Hp|].
    apply Nat.nlt_ge. intros C. assert (existsb (fun p => Nat.ltb (pc s p) (3 * M)) (seq 0 N) = true); [|congruence].
    apply existsb_exists. exists p. split; [apply in_seq; lia|apply Nat.ltb_lt; exact C].
Qed.

(** Rank order: process p + 1 has entered section j only after p has left it. *)
Lemma rank_order s p q j : minv s -> p < q -> q < N -> 3 * j + 1 <= pc s q -> 3 * j + 2 <= pc s p.
Proof.
  intros I Hpq. induction Hpq as [|q Hpq IH]; intros Hq H.
  - destruct I as (_ & _ & Hc & _). destruct (Hc p Hq) as (A & _).
    destruct (phases (pc s (S p))) as [(_ & j' & E & E1 & _)|[(_ & j' & E & E1 & _)|(_ & j' & E & E1 & _)]];
    destruct (phases (pc s p)) as [(_ & j2 & E2 & _ & E3 & _)|[(_ & j2 & E2 & _ & E3 & _)|(_ & j2 & E2 & _ & E3 & _)]]; lia.
  - apply IH; [lia|]. destruct I as (_ & _ & Hc & _). destruct (Hc q Hq) as (A & _).
    destruct (phases (pc s (S q))) as [(_ & j' & E & E1 & _)|[(_ & j' & E & E1 & _)|(_ & j' & E & E1 & _)]];
    destruct (phases (pc s q)) as [(_ & j2 & E2 & _ & E3 & _)|[(_ & j2 & E2 & _ & E3 & _)|(_ & j2 & E2 & _ & E3 & _)]]; lia.
Qed.
End Critical.
