(** Loops as folds over lists of indices, and in-place moves within an array. *)
From Coq Require Import List ZArith Lia Bool Sorted.
From Verif Require Import Base.
Import ListNotations.
Local Open Scope Z_scope.

Fixpoint foldM {S X} (f : X -> S -> outcome S) (l : list X) (s : S) : outcome S :=
  match l with [] => Val s | x :: t => let! s' := f x s in foldM f t s' end.

Fixpoint zseq (lo : Z) (n : nat) : list Z := match n with O => [] | S n' => lo :: zseq (lo + 1) n' end.

Lemma zseq_in lo n x : In x (zseq lo n) <-> lo <= x < lo + Z.of_nat n.
Proof.
  revert lo; induction n as [|n IH]; intros lo; cbn [zseq In]; [lia|]. rewrite IH. lia.
Qed.
Lemma zseq_snoc lo n : zseq lo (S n) = zseq lo n ++ [lo + Z.of_nat n].
Proof.
  revert lo; induction n as [|n IH]; intros lo; [cbn; f_equal; lia|].
  change (zseq lo (S (S n))) with (lo :: zseq (lo + 1) (S n)). rewrite IH.
  replace (lo + Z.of_nat (S n)) with (lo + 1 + Z.of_nat n) by lia. reflexivity.
Qed.
Lemma zseq_length lo n : length (zseq lo n) = n.
Proof. revert lo; induction n; intros; cbn; auto. Qed.

Lemma foldM_app {S X} (f : X -> S -> outcome S) l1 l2 s : foldM f (l1 ++ l2) s = bind (foldM f l1 s) (foldM f l2).
Proof. revert s; induction l1 as [|a l IH]; intros s; cbn; [reflexivity|]. destruct (f a s); cbn; auto. Qed.

Lemma foldM_ext {S X} (f g : X -> S -> outcome S) l s : (forall x s, In x l -> f x s = g x s) -> foldM f l s = foldM g l s.
Proof.
  revert s; induction l as [|a l IH]; intros s H; cbn; [reflexivity|]. rewrite H by (left; reflexivity).
  destruct (g a s); cbn; auto. apply IH. intros; apply H; right; assumption.
Qed.

Lemma for_foldM {S} n lo (f : Z -> S -> outcome S) s : for_ n lo f s = foldM f (zseq lo n) s.
Proof. revert lo s; induction n as [|n IH]; intros lo s; cbn; [reflexivity|]. destruct (f lo s); cbn; auto. Qed.
Lemma ford_foldM {S} n lo (f : Z -> S -> outcome S) s : ford_ n lo f s = foldM f (rev (zseq lo n)) s.
Proof.
  revert s; induction n as [|n IH]; intros s; [reflexivity|]. rewrite zseq_snoc, rev_app_distr. cbn [rev app foldM ford_].
  destruct (f (lo + Z.of_nat n) s); cbn; auto.
Qed.

Lemma foldM_nested {S} (f : Z -> Z -> S -> outcome S) (g : Z -> list Z) l s :
  foldM (fun i s => foldM (f i) (g i) s) l s = foldM (fun p s => f (fst p) (snd p) s) (flat_map (fun i => map (pair i) (g i)) l) s.
Proof.
  revert s; induction l as [|i l IH]; intros s; [reflexivity|]. cbn [foldM flat_map]. rewrite foldM_app.
  assert (E : forall m s, foldM (f i) m s = foldM (fun p s => f (fst p) (snd p) s) (map (pair i) m) s).
  { induction m as [|j m IHm]; intros s1; cbn; [reflexivity|]. destruct (f i j s1); cbn; auto. }
  rewrite E. destruct (foldM _ (map (pair i) (g i)) s); cbn; auto.
Qed.

(** ** Orders in which index pairs are visited *)

Lemma zseq_sorted lo n : StronglySorted Z.lt (zseq lo n).
Proof.
  revert lo; induction n as [|n IH]; intros lo; cbn; constructor; [apply IH|].
  apply Forall_forall. intros x Hx. apply zseq_in in Hx. lia.
Qed.
Lemma sorted_rev {A} (R : A -> A -> Prop) l : StronglySorted R l -> StronglySorted (fun a b => R b a) (rev l).
Proof.
  induction 1 as [|a l H IH HF]; cbn; [constructor|].
  assert (K : forall m, StronglySorted (fun a b => R b a) m -> Forall (fun x => R a x) m -> StronglySorted (fun a b => R b a) (m ++ [a])).
  { induction m as [|b m IHm]; intros S F; cbn; [repeat constructor|]. inversion S; subst. inversion F; subst. constructor; [auto|].
    apply Forall_app. split; [assumption|]. repeat constructor. assumption. }
  apply K; [exact IH|]. apply Forall_forall. intros x Hx. rewrite <- in_rev in Hx. rewrite Forall_forall in HF. auto.
Qed.

Definition lex (Ri Rj : Z -> Z -> Prop) (p q : Z * Z) : Prop := Ri (fst p) (fst q) \/ (fst p = fst q /\ Rj (snd p) (snd q)).

Lemma sorted_app {A} (R : A -> A -> Prop) l l' : StronglySorted R l -> StronglySorted R l' ->
  (forall a b, In a l -> In b l' -> R a b) -> StronglySorted R (l ++ l').
Proof.
  induction 1 as [|a l H IH HF]; intros H' Hx; cbn; [exact H'|]. constructor.
  - apply IH; [exact H'|]. intros; apply Hx; [right|]; assumption.
  - apply Forall_app. split; [exact HF|]. apply Forall_forall. intros b Hb. apply Hx; [left; reflexivity|exact Hb].
Qed.

Lemma pairs_in (g : Z -> list Z) l i j : In (i, j) (flat_map (fun i => map (pair i) (g i)) l) <-> In i l /\ In j (g i).
Proof.
  rewrite in_flat_map. split.
  - intros (i' & Hi & H). apply in_map_iff in H. destruct H as (j' & E & Hj). injection E as -> ->. auto.
  - intros (Hi & Hj). exists i. split; [exact Hi|]. apply in_map_iff. exists j. auto.
Qed.

Lemma sorted_pairs (Ri Rj : Z -> Z -> Prop) (g : Z -> list Z) l :
  StronglySorted Ri l -> (forall i, StronglySorted Rj (g i)) -> StronglySorted (lex Ri Rj) (flat_map (fun i => map (pair i) (g i)) l).
Proof.
  intros H Hg. induction H as [|i l H IH HF]; cbn; [constructor|]. apply sorted_app; [|exact IH|].
  - specialize (Hg i). induction Hg as [|j m Hm IHm HFm]; cbn; constructor; [exact IHm|].
    apply Forall_forall. intros p Hp. apply in_map_iff in Hp. destruct Hp as (j' & <- & Hj'). right. split; [reflexivity|].
    cbn. rewrite Forall_forall in HFm. auto.
  - intros [i1 j1] [i2 j2] H1 H2. apply in_map_iff in H1. destruct H1 as (j & E & _). injection E as <- <-.
    apply pairs_in in H2. left. cbn. rewrite Forall_forall in HF. apply HF. tauto.
Qed.

(** ** In-place moves *)

Section Moves.
Context {A : Type} (dst src : Z * Z -> Z).

Definition move (p : Z * Z) (d : list A) : outcome (list A) := let! v := rd d (src p) in wr d (dst p) v.

(** Moves in an order in which no entry is overwritten before it is read. *)
Lemma moves_ok (R : Z * Z -> Z * Z -> Prop) (L : list (Z * Z)) (d : list A) :
  StronglySorted R L ->
  (forall p, In p L -> 0 <= src p < Z.of_nat (length d) /\ 0 <= dst p < Z.of_nat (length d)) ->
  (forall p q, In p L -> In q L -> R p q -> dst p <> src q /\ dst p <> dst q) ->
  exists d', foldM move L d = Val d' /\ length d' = length d /\
    (forall p, In p L -> rd d' (dst p) = rd d (src p)) /\
    (forall x, (forall p, In p L -> dst p <> x) -> rd d' x = rd d x).
Proof.
  intros HS. revert d. induction HS as [|p L HS IH HF]; intros d Hin HR.
  - exists d. cbn. repeat split; auto. intros p [].
  - destruct (Hin p (or_introl eq_refl)) as (H1 & H2). destruct (rd_in d (src p) H1) as (v & Ev).
    cbn [foldM]. unfold move at 1. rewrite Ev. cbn [bind]. rewrite wr_in by exact H2.
    set (d1 := upd_nat d (Z.to_nat (dst p)) v).
    assert (W : wr d (dst p) v = Val d1) by (apply wr_in; exact H2).
    assert (L1 : length d1 = length d) by (apply upd_length).
    rewrite Forall_forall in HF.
    destruct (IH d1) as (d' & E & Len & Hd & Ho).
    + intros q Hq. rewrite L1. apply Hin. right. exact Hq.
    + intros q r Hq Hr. apply HR; right; assumption.
    + exists d'. split; [exact E|]. split; [congruence|]. split.
      * intros q [<-|Hq].
        { rewrite (Ho (dst p)).
          - rewrite (rd_wr _ _ _ _ _ W), Z.eqb_refl. symmetry. exact Ev.
          - intros q Hq. intros X. destruct (HR p q (or_introl eq_refl) (or_intror Hq) (HF q Hq)) as (_ & N). congruence. }
        rewrite (Hd q Hq). rewrite (rd_wr _ _ _ _ _ W). destruct (Z.eqb_spec (src q) (dst p)) as [X|X]; [|reflexivity].
        exfalso. destruct (HR p q (or_introl eq_refl) (or_intror Hq) (HF q Hq)) as (N & _). congruence.
      * intros x Hx. rewrite (Ho x) by (intros q Hq; apply Hx; right; exact Hq).
        rewrite (rd_wr _ _ _ _ _ W). destruct (Z.eqb_spec x (dst p)) as [X|X]; [|reflexivity].
        exfalso. apply (Hx p (or_introl eq_refl)). congruence.
Qed.
End Moves.

(** The three nestings that occur. *)
Section Move2.
Context {A : Type} (dst src : Z -> Z -> Z) (n m : Z).
Hypothesis (Hn : 0 <= n) (Hm : 0 <= m).

Definition body (i j : Z) (d : list A) : outcome (list A) := let! v := rd d (src i j) in wr d (dst i j) v.

Definition moved (d d' : list A) : Prop :=
  length d' = length d /\
  (forall i j, 0 <= i < n -> 0 <= j < m -> rd d' (dst i j) = rd d (src i j)) /\
  (forall x, (forall i j, 0 <= i < n -> 0 <= j < m -> dst i j <> x) -> rd d' x = rd d x).

Definition inrange (d : list A) : Prop := forall i j, 0 <= i < n -> 0 <= j < m ->
  0 <= src i j < Z.of_nat (length d) /\ 0 <= dst i j < Z.of_nat (length d).

Lemma move2_gen (Ri Rj : Z -> Z -> Prop) (li lj : list Z) (d : list A) :
  StronglySorted Ri li -> StronglySorted Rj lj ->
  (forall x, In x li <-> 0 <= x < n) -> (forall x, In x lj <-> 0 <= x < m) -> inrange d ->
  (forall i j i' j', 0 <= i < n -> 0 <= j < m -> 0 <= i' < n -> 0 <= j' < m -> lex Ri Rj (i, j) (i', j') -> dst i j <> src i' j' /\ dst i j <> dst i' j') ->
  exists d', foldM (fun i d => foldM (body i) lj d) li d = Val d' /\ moved d d'.
Proof.
  intros Si Sj Hi Hj Hr Hne.
  rewrite (foldM_nested body (fun _ => lj) li d).
  destruct (moves_ok (fun p => dst (fst p) (snd p)) (fun p => src (fst p) (snd p)) (lex Ri Rj)
      (flat_map (fun i => map (pair i) lj) li) d) as (d' & E & L & H1 & H2).
  - apply (sorted_pairs Ri Rj (fun _ => lj)); [exact Si|intros _; exact Sj].
  - intros [i j] Hp. apply (pairs_in (fun _ => lj)) in Hp. cbn. apply Hr; [apply Hi|apply Hj]; tauto.
  - intros [i j] [i' j'] Hp Hq HR. apply (pairs_in (fun _ => lj)) in Hp. apply (pairs_in (fun _ => lj)) in Hq. cbn.
    apply Hne; try (apply Hi; tauto); try (apply Hj; tauto). exact HR.
  - exists d'. split; [exact E|]. split; [exact L|]. split.
    + intros i j Hi' Hj'. apply (H1 (i, j)). apply (pairs_in (fun _ => lj)). split; [apply Hi; lia|apply Hj; lia].
    + intros x Hx. apply H2. intros [i j] Hp. apply (pairs_in (fun _ => lj)) in Hp. apply Hx; [apply Hi|apply Hj]; tauto.
Qed.

Lemma zin k x : 0 <= k -> In x (zseq 0 (Z.to_nat (k - 0))) <-> 0 <= x < k.
Proof. intros. rewrite zseq_in. lia. Qed.
Lemma zin_rev k x : 0 <= k -> In x (rev (zseq 0 (Z.to_nat (k - 0)))) <-> 0 <= x < k.
Proof. intros. rewrite <- in_rev. apply zin. assumption. Qed.

Lemma move_up_up (d : list A) : inrange d ->
  (forall i j i' j', 0 <= i < n -> 0 <= j < m -> 0 <= i' < n -> 0 <= j' < m -> (i < i' \/ (i = i' /\ j < j')) -> dst i j <> src i' j' /\ dst i j <> dst i' j') ->
  exists d', forZ 0 n (fun i d => forZ 0 m (body i) d) d = Val d' /\ moved d d'.
Proof.
  intros Hr Hne. destruct (move2_gen Z.lt Z.lt (zseq 0 (Z.to_nat (n - 0))) (zseq 0 (Z.to_nat (m - 0))) d) as (d' & E & H);
    auto using zseq_sorted, zin.
  exists d'. split; [|exact H]. unfold forZ. rewrite for_foldM. rewrite <- E. apply foldM_ext. intros. apply for_foldM.
Qed.
Lemma move_down_down (d : list A) : inrange d ->
  (forall i j i' j', 0 <= i < n -> 0 <= j < m -> 0 <= i' < n -> 0 <= j' < m -> (i' < i \/ (i = i' /\ j' < j)) -> dst i j <> src i' j' /\ dst i j <> dst i' j') ->
  exists d', forZ_down 0 n (fun i d => forZ_down 0 m (body i) d) d = Val d' /\ moved d d'.
Proof.
  intros Hr Hne. destruct (move2_gen (fun a b => b < a) (fun a b => b < a) (rev (zseq 0 (Z.to_nat (n - 0)))) (rev (zseq 0 (Z.to_nat (m - 0)))) d) as (d' & E & H);
    auto using zseq_sorted, zin_rev, sorted_rev.
  exists d'. split; [|exact H]. unfold forZ_down. rewrite ford_foldM. rewrite <- E. apply foldM_ext. intros. apply ford_foldM.
Qed.
Lemma move_up_down (d : list A) : inrange d ->
  (forall i j i' j', 0 <= i < n -> 0 <= j < m -> 0 <= i' < n -> 0 <= j' < m -> (i < i' \/ (i = i' /\ j' < j)) -> dst i j <> src i' j' /\ dst i j <> dst i' j') ->
  exists d', forZ 0 n (fun i d => forZ_down 0 m (body i) d) d = Val d' /\ moved d d'.
Proof.
  intros Hr Hne. destruct (move2_gen Z.lt (fun a b => b < a) (zseq 0 (Z.to_nat (n - 0))) (rev (zseq 0 (Z.to_nat (m - 0)))) d) as (d' & E & H);
    auto using zseq_sorted, zin_rev, sorted_rev, zin.
  exists d'. split; [|exact H]. unfold forZ. rewrite for_foldM. rewrite <- E. apply foldM_ext. intros. apply ford_foldM.
Qed.
End Move2.

(** Pointwise updates: entry [dst i j] is computed from its own old value (and other
    arrays) and written back. *)
Section Write2.
Context {A : Type} (dst : Z -> Z -> Z) (val : Z -> Z -> list A -> outcome A) (f : Z -> Z -> A) (n m : Z).
Hypothesis (Hn : 0 <= n) (Hm : 0 <= m).

Lemma write2_ok (d : list A) :
  (forall i j, 0 <= i < n -> 0 <= j < m -> 0 <= dst i j < Z.of_nat (length d)) ->
  (forall i j i' j', 0 <= i < n -> 0 <= j < m -> 0 <= i' < n -> 0 <= j' < m -> dst i j = dst i' j' -> i = i' /\ j = j') ->
  (forall i j d1, 0 <= i < n -> 0 <= j < m -> length d1 = length d -> rd d1 (dst i j) = rd d (dst i j) -> val i j d1 = Val (f i j)) ->
  exists d', forZ 0 n (fun i d => forZ 0 m (fun j d => let! v := val i j d in wr d (dst i j) v) d) d = Val d' /\
    length d' = length d /\
    (forall i j, 0 <= i < n -> 0 <= j < m -> rd d' (dst i j) = Val (f i j)) /\
    (forall x, (forall i j, 0 <= i < n -> 0 <= j < m -> dst i j <> x) -> rd d' x = rd d x).
Proof.
  intros Hr Hinj Hv.
  set (P := fun (i j : Z) (d' : list A) => length d' = length d /\
     (forall i1 j1, 0 <= i1 < n -> 0 <= j1 < m -> (i1 < i \/ (i1 = i /\ j1 < j)) -> rd d' (dst i1 j1) = Val (f i1 j1)) /\
     (forall x, (forall i1 j1, 0 <= i1 < n -> 0 <= j1 < m -> (i1 < i \/ (i1 = i /\ j1 < j)) -> dst i1 j1 <> x) -> rd d' x = rd d x)).
  destruct (forZ_inv (fun i d' => P i 0 d') (fun i d => forZ 0 m (fun j d => let! v := val i j d in wr d (dst i j) v) d) 0 n d) as (d' & E & H); auto.
  - split; [reflexivity|]. split; [intros; lia|]. intros; reflexivity.
  - intros i d1 Hi H1.
    destruct (forZ_inv (fun j d' => P i j d') (fun j d => let! v := val i j d in wr d (dst i j) v) 0 m d1) as (d2 & E2 & H2); auto.
    + intros j d2 Hj (L & Q1 & Q2).
      assert (V : val i j d2 = Val (f i j)).
      { apply Hv; auto. apply Q2. intros i1 j1 Hi1 Hj1 Hlt X. destruct (Hinj i1 j1 i j) as (-> & ->); auto. lia. }
      rewrite V. cbn [bind]. assert (W : wr d2 (dst i j) (f i j) = Val (upd_nat d2 (Z.to_nat (dst i j)) (f i j))).
      { apply wr_in. rewrite L. apply Hr; assumption. }
      rewrite W. eexists. split; [reflexivity|]. split; [rewrite upd_length; exact L|]. split.
      * intros i1 j1 Hi1 Hj1 Hlt. rewrite (rd_wr _ _ _ _ _ W). destruct (Z.eqb_spec (dst i1 j1) (dst i j)) as [X|X].
        { destruct (Hinj i1 j1 i j) as (-> & ->); auto. }
        apply Q1; auto. assert (~ (i1 = i /\ j1 = j)) by (intros (-> & ->); congruence). lia.
      * intros x Hx. rewrite (rd_wr _ _ _ _ _ W). destruct (Z.eqb_spec x (dst i j)) as [->|X].
        { exfalso. apply (Hx i j Hi Hj); [lia|reflexivity]. }
        apply Q2. intros i1 j1 Hi1 Hj1 Hlt. apply Hx; auto. lia.
    + exists d2. split; [exact E2|]. destruct H2 as (L & Q1 & Q2). split; [exact L|]. split.
      * intros i1 j1 Hi1 Hj1 Hlt. apply Q1; auto. lia.
      * intros x Hx. apply Q2. intros i1 j1 Hi1 Hj1 Hlt. apply Hx; auto. lia.
  - exists d'. split; [exact E|]. destruct H as (L & Q1 & Q2). split; [exact L|]. split.
    + intros i j Hi Hj. apply Q1; auto. lia.
    + intros x Hx. apply Q2. intros; apply Hx; auto.
Qed.
End Write2.

(** ** Nested loops flattened, and updates of disjoint groups of entries *)

Definition zran (lo hi : Z) : list Z := zseq lo (Z.to_nat (hi - lo)).
Lemma zran_in lo hi x : In x (zran lo hi) <-> lo <= x < hi.
Proof. unfold zran. rewrite zseq_in. lia. Qed.
Lemma sorted_nodup {A} (R : A -> A -> Prop) l : (forall a, ~ R a a) -> StronglySorted R l -> NoDup l.
Proof.
  intros Hi. induction 1 as [|a l S IH F]; constructor; [|exact IH].
  intros Hin. rewrite Forall_forall in F. apply (Hi a). apply F. exact Hin.
Qed.
Lemma zran_nodup lo hi : NoDup (zran lo hi).
Proof. apply (sorted_nodup Z.lt); [intros a; apply Z.lt_irrefl|apply zseq_sorted]. Qed.
Lemma forZ_foldM {S} lo hi (f : Z -> S -> outcome S) s : forZ lo hi f s = foldM f (zran lo hi) s.
Proof. unfold forZ, zran. apply for_foldM. Qed.

Definition prod_list {X Y} (l : list X) (g : X -> list Y) : list (X * Y) := flat_map (fun i => map (pair i) (g i)) l.
Lemma foldM_nest {S X Y} (f : X -> Y -> S -> outcome S) (g : X -> list Y) l s :
  foldM (fun i s => foldM (f i) (g i) s) l s = foldM (fun p s => f (fst p) (snd p) s) (prod_list l g) s.
Proof.
  unfold prod_list. revert s; induction l as [|i l IH]; intros s; [reflexivity|]. cbn [foldM flat_map]. rewrite foldM_app.
  assert (E : forall m s, foldM (f i) m s = foldM (fun p s => f (fst p) (snd p) s) (map (pair i) m) s).
  { induction m as [|j m IHm]; intros s1; cbn; [reflexivity|]. destruct (f i j s1); cbn; auto. }
  rewrite E. destruct (foldM _ (map (pair i) (g i)) s); cbn; auto.
Qed.
Lemma prod_list_in {X Y} (l : list X) (g : X -> list Y) x y : In (x, y) (prod_list l g) <-> In x l /\ In y (g x).
Proof.
  unfold prod_list. rewrite in_flat_map. split.
  - intros (i & Hi & H). apply in_map_iff in H as (z & E & Hz). injection E as <- <-. auto.
  - intros (Hx & Hy). exists x. split; [exact Hx|]. apply in_map. exact Hy.
Qed.
Lemma nodup_app {A} (l1 l2 : list A) : NoDup l1 -> NoDup l2 -> (forall x, In x l1 -> ~ In x l2) -> NoDup (l1 ++ l2).
Proof.
  induction 1 as [|a l1 Ha H1 IH]; intros H2 Hd; cbn; [exact H2|]. constructor.
  - rewrite in_app_iff. intros [H|H]; [contradiction|]. apply (Hd a (or_introl eq_refl) H).
  - apply IH; [exact H2|]. intros x Hx. apply Hd. right. exact Hx.
Qed.
Lemma prod_list_nodup {X Y} (l : list X) (g : X -> list Y) : NoDup l -> (forall x, In x l -> NoDup (g x)) -> NoDup (prod_list l g).
Proof.
  intros Hl Hg. induction Hl as [|x l Hx Hl IH]; [constructor|]. change (prod_list (x :: l) g) with (map (pair x) (g x) ++ prod_list l g).
  apply nodup_app.
  - specialize (Hg x (or_introl eq_refl)). clear -Hg. induction Hg as [|a m Ha Hm IH]; cbn; constructor; [|exact IH].
    rewrite in_map_iff. intros (b & E & Hb). injection E as ->. contradiction.
  - apply IH. intros; apply Hg; right; assumption.
  - intros (a & b) H1 H2. apply in_map_iff in H1 as (z & E & _). injection E as <- <-. apply prod_list_in in H2 as (H2 & _). contradiction.
Qed.

(** Every entry belongs to one step; each step replaces its own entries, given that they
    still have their original values. *)
Lemma owner_ok {A T} (step : T -> list A -> outcome (list A)) (own : T -> Z -> Prop) (new : Z -> A) (d0 : list A) (L : list T) :
  NoDup L ->
  (forall t t' x, In t L -> In t' L -> 0 <= x < Z.of_nat (length d0) -> own t x -> own t' x -> t = t') ->
  (forall t d, In t L -> length d = length d0 -> (forall x, 0 <= x < Z.of_nat (length d0) -> own t x -> rd d x = rd d0 x) ->
     exists d', step t d = Val d' /\ length d' = length d0 /\
       forall x, 0 <= x < Z.of_nat (length d0) -> (own t x -> rd d' x = Val (new x)) /\ (~ own t x -> rd d' x = rd d x)) ->
  exists d', foldM step L d0 = Val d' /\ length d' = length d0 /\
    forall x, 0 <= x < Z.of_nat (length d0) -> (forall t, In t L -> own t x -> rd d' x = Val (new x)) /\ ((forall t, In t L -> ~ own t x) -> rd d' x = rd d0 x).
Proof.
  intros Nd Uniq St.
  assert (G : forall todo done d, NoDup (done ++ todo) -> (forall t, In t (done ++ todo) <-> In t L) -> length d = length d0 ->
    (forall x, 0 <= x < Z.of_nat (length d0) -> (forall t, In t done -> own t x -> rd d x = Val (new x)) /\ ((forall t, In t done -> ~ own t x) -> rd d x = rd d0 x)) ->
    exists d', foldM step todo d = Val d' /\ length d' = length d0 /\
    forall x, 0 <= x < Z.of_nat (length d0) -> (forall t, In t L -> own t x -> rd d' x = Val (new x)) /\ ((forall t, In t L -> ~ own t x) -> rd d' x = rd d0 x)).
  { induction todo as [|t todo IH]; intros done d Nd' Hin Len H.
    - exists d. split; [reflexivity|]. split; [exact Len|]. intros x Hx. destruct (H x Hx) as (H1 & H2). rewrite app_nil_r in Hin. split.
      + intros t Ht. apply H1. apply Hin. exact Ht.
      + intros Hn. apply H2. intros t Ht. apply Hn. apply Hin. exact Ht.
    - cbn [foldM]. assert (Ht : In t L) by (apply Hin; apply in_or_app; right; left; reflexivity).
      assert (Hnd : ~ In t done).
      { intros X. apply NoDup_remove_2 in Nd'. apply Nd'. apply in_or_app. left. exact X. }
      destruct (St t d Ht Len) as (d1 & E & L1 & H1).
      { intros x Hx Ho. destruct (H x Hx) as (_ & H2). apply H2. intros t' Ht' Ho'.
        assert (t = t') by (apply (Uniq t t' x); auto; apply Hin; apply in_or_app; left; exact Ht'). subst. contradiction. }
      rewrite E. cbn [bind]. apply (IH (done ++ [t])); auto.
      + rewrite <- app_assoc. exact Nd'.
      + intros t'. rewrite <- app_assoc. apply Hin.
      + intros x Hx. destruct (H1 x Hx) as (Q1 & Q2). destruct (H x Hx) as (R1 & R2). split.
        * intros t' Ht' Ho. apply in_app_iff in Ht' as [Ht'|[<-|[]]]; [|auto].
          rewrite Q2; [apply (R1 t'); auto|]. intros Ho'. assert (t = t') by (apply (Uniq t t' x); auto; apply Hin; apply in_or_app; left; exact Ht').
          subst. contradiction.
        * intros Hn. rewrite Q2; [apply R2|].
          -- intros t' Ht'. apply Hn. apply in_or_app. left. exact Ht'.
          -- apply Hn. apply in_or_app. right. left. reflexivity. }
  apply (G L [] d0); auto.
  - intros t. reflexivity.
  - intros x Hx. split; [intros t []|reflexivity].
Qed.
