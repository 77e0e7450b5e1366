(** Proofs about the debugging allocator. *)
From Coq Require Import List ZArith Bool Lia.
From Verif Require Import Base M_Util S_Util.
Import ListNotations.
Local Open Scope Z_scope.

Definition okblk (b : block) (n : Z) (f : Z -> Z) : Prop :=
  0 <= n /\ b_size b = n /\ b_magic b = MAGIC /\ Z.of_nat (length (b_data b)) = 2 * n /\
  forall i, 0 <= i < 2 * n -> nth_error (b_data b) (Z.to_nat i) = Some (f i).

Definition mminv (h : blocks) (m : mem) : Prop :=
  live m = map fst h /\ NoDup (map fst h) /\ ~ In 0 (map fst h) /\
  cnt m = Z.of_nat (length h) /\ total m = total_size h /\
  forall a n f, In (a, (n, f)) h -> okblk (blk m a) n f.

Lemma live_mem a m : existsb (Z.eqb a) (live m) = true <-> In a (live m).
Proof.
  rewrite existsb_exists. split; [intros (x & H & E); apply Z.eqb_eq in E; subst; exact H|].
  intros H. exists a. split; [exact H|apply Z.eqb_refl].
Qed.

Lemma set_same m a b : set_blk m a b a = b.
Proof. unfold set_blk. rewrite Z.eqb_refl. reflexivity. Qed.
Lemma set_other m a b x : x <> a -> set_blk m a b x = m x.
Proof. intros H. unfold set_blk. destruct (Z.eqb_spec x a); [contradiction|reflexivity]. Qed.

Lemma size_nonneg h : (forall a n f, In (a, (n, f)) h -> 0 <= n) -> 0 <= total_size h.
Proof.
  unfold total_size. induction h as [|[a [n f]] h IH]; intros H; cbn; [lia|].
  assert (0 <= n) by (eapply H; left; reflexivity). specialize (IH ltac:(intros; eapply H; right; eassumption)). cbn in IH. lia.
Qed.

Lemma filter_notin (a : Z) (h : blocks) : ~ In a (map fst h) -> filter (fun e => negb (Z.eqb (fst e) a)) h = h.
Proof.
  induction h as [|e h IH]; intros H; [reflexivity|]. cbn [filter]. destruct (Z.eqb_spec (fst e) a) as [E|E].
  - exfalso. apply H. left. exact E.
  - cbn [negb]. rewrite IH; [reflexivity|]. intros X. apply H. right. exact X.
Qed.

Lemma remove_filter a (h : blocks) : NoDup (map fst h) -> remove1 a (map fst h) = map fst (filter (fun e => negb (Z.eqb (fst e) a)) h).
Proof.
  induction h as [|e h IH]; intros H; [reflexivity|]. cbn in H. inversion H as [|x y H1 H2]; subst. cbn [map remove1 filter].
  destruct (Z.eqb_spec (fst e) a) as [E|E]; cbn [negb].
  - subst a. rewrite filter_notin by exact H1. reflexivity.
  - cbn [map]. rewrite IH by exact H2. reflexivity.
Qed.

Lemma filter_total a n f (h : blocks) : NoDup (map fst h) -> In (a, (n, f)) h ->
  total_size h = n + total_size (filter (fun e => negb (Z.eqb (fst e) a)) h) /\
  length h = S (length (filter (fun e => negb (Z.eqb (fst e) a)) h)).
Proof.
  induction h as [|e h IH]; intros H HI; [destruct HI|]. cbn in H. inversion H as [|x y H1 H2]; subst. cbn [filter].
  destruct HI as [->|HI].
  - cbn [fst]. rewrite Z.eqb_refl. cbn [negb]. rewrite filter_notin by exact H1. split; [|reflexivity]. unfold total_size. cbn. reflexivity.
  - destruct (Z.eqb_spec (fst e) a) as [E|E].
    { exfalso. apply H1. rewrite E. apply in_map_iff. exists (a, (n, f)). auto. }
    cbn [negb]. destruct (IH H2 HI) as (A & B). split.
    + unfold total_size in *. cbn [map fold_right]. lia.
    + cbn [length]. rewrite <- B. reflexivity.
Qed.

Lemma filter_in a e (h : blocks) : In e (filter (fun e => negb (Z.eqb (fst e) a)) h) -> In e h /\ fst e <> a.
Proof. rewrite filter_In. intros (H & E). split; [exact H|]. destruct (Z.eqb_spec (fst e) a); [discriminate|assumption]. Qed.

Lemma map_fst_store a i v (h : blocks) : map fst (bstep fill h (OStore a i v)) = map fst h.
Proof. cbn. rewrite map_map. apply map_ext. intros e. destruct (Z.eqb (fst e) a); reflexivity. Qed.

Lemma nodup_filter (g : Z * (Z * (Z -> Z)) -> bool) (h : blocks) : NoDup (map fst h) -> NoDup (map fst (filter g h)).
Proof.
  induction h as [|e h IH]; intros H; [constructor|]. cbn in H. inversion H as [|x y H1 H2]; subst. cbn [filter]. destruct (g e); [|auto].
  cbn [map]. constructor; [|auto]. intros X. apply H1. apply in_map_iff in X. destruct X as (e' & E & X). apply filter_In in X. apply in_map_iff. exists e'. tauto.
Qed.

Lemma free_live h m a n f : mminv h m -> In (a, (n, f)) h ->
  debug_free a m = (if pad_ok n (b_data (blk m a)) then
     Val {| blk := set_blk (blk m) a {| b_size := MMAGIC; b_magic := NOT_MAGIC;
                 b_data := map (fun i => fill_freed (Z.of_nat i)) (seq 0 (Z.to_nat (PAD_FACTOR * n))) |};
              live := remove1 a (live m); cnt := cnt m - 1; total := total m - n |} else Abort).
Proof.
  intros (Hl & Hn & H0 & Hc & Ht & Hb) HI. destruct (Hb a n f HI) as (B1 & B2 & B3 & B4 & B5).
  assert (Ha : In a (map fst h)) by (apply in_map_iff; exists (a, (n, f)); auto).
  unfold debug_free, check. destruct (Z.eqb_spec a 0) as [->|]; [contradiction|]. cbn [negb bind]. rewrite B2, B3, Z.eqb_refl.
  destruct (Z.eqb_spec n MMAGIC) as [E|]. { exfalso. assert (MMAGIC < 0) by (vm_compute; reflexivity). lia. }
  cbn [negb bind]. destruct (Z.leb_spec 0 n); [|lia]. cbn [bind].
  assert (n <= total m).
  { rewrite Ht. destruct (filter_total a n f h Hn HI) as (E & _). rewrite E.
    assert (0 <= total_size (filter (fun e => negb (Z.eqb (fst e) a)) h)); [|lia]. apply size_nonneg.
    intros a' n' f' HI'. apply filter_in in HI'. apply (Hb a' n' f'). tauto. }
  destruct (Z.leb_spec 0 (total m - n)); [|lia]. cbn [bind]. destruct (pad_ok n (b_data (blk m a))); [|reflexivity]. cbn [bind].
  assert (E : existsb (Z.eqb a) (live m) = true) by (apply live_mem; rewrite Hl; exact Ha). rewrite E. reflexivity.
Qed.

Lemma pad_ok_iff b n f : okblk b n f -> (pad_ok n (b_data b) = true <-> forall i, n <= i < 2 * n -> f i = fill i).
Proof.
  intros (B1 & B2 & B3 & B4 & B5). unfold pad_ok. rewrite forallb_forall. split.
  - intros H i Hi. specialize (H (Z.to_nat i)). rewrite B5 in H by lia. apply Z.eqb_eq. rewrite <- (Z2Nat.id i) at 2 by lia. apply H. apply in_seq. lia.
  - intros H x Hx. apply in_seq in Hx. specialize (B5 (Z.of_nat x) ltac:(lia)). rewrite Nat2Z.id in B5. rewrite B5. apply Z.eqb_eq. apply H. lia.
Qed.

Lemma memstep_inv h m o m' : mminv h m -> memstep o m = Val m' -> mminv (bstep fill h o) m'.
Proof.
  intros I. pose proof I as (Hl & Hn & H0 & Hc & Ht & Hb). destruct o as [n a|a i v|a|a b]; cbn [memstep].
  - destruct (existsb (Z.eqb a) (live m)) eqn:E; [discriminate|]. destruct (Z.eqb_spec a 0) as [|Ha]; [discriminate|].
    destruct (Z.ltb_spec n 0) as [|Hn0]; [discriminate|]. cbn [orb]. intros X. injection X as <-.
    assert (Hnew : ~ In a (map fst h)). { rewrite <- Hl. intros X. apply live_mem in X. congruence. }
    unfold debug_malloc, mminv. cbn [live cnt total blk bstep map fst]. split; [rewrite Hl; reflexivity|]. split; [constructor; assumption|].
    split. { intros [X|X]; [congruence|contradiction]. }
    split. { rewrite Hc. cbn [length]. lia. }
    split. { rewrite Ht. unfold total_size. cbn. lia. }
    intros a' n' f' [X|X].
    + injection X as <- <- <-. rewrite set_same. unfold okblk. cbn [b_size b_magic b_data]. repeat split; auto.
      * rewrite map_length, seq_length. unfold PAD_FACTOR. lia.
      * intros i Hi. rewrite nth_error_map. unfold PAD_FACTOR.
        rewrite nth_error_nth' with (d := O) by (rewrite seq_length; lia). rewrite seq_nth by lia. cbn [option_map plus]. rewrite Z2Nat.id by lia. reflexivity.
    + assert (a' <> a). { intros ->. apply Hnew. apply in_map_iff. exists (a, (n', f')). auto. }
      rewrite set_other by assumption. apply Hb. exact X.
  - unfold store. destruct (existsb (Z.eqb a) (live m)) eqn:E; [|discriminate]. apply live_mem in E. rewrite Hl in E.
    destruct (wr (b_data (blk m a)) i v) as [d| | |] eqn:W; try discriminate. cbn [bind]. intros X. injection X as <-.
    unfold mminv. cbn [live cnt total blk]. rewrite map_fst_store. split; [exact Hl|]. split; [exact Hn|]. split; [exact H0|].
    split. { rewrite Hc. cbn. rewrite map_length. reflexivity. }
    split. { rewrite Ht. unfold total_size. cbn [bstep]. rewrite map_map. f_equal. apply map_ext. intros e. destruct (Z.eqb (fst e) a); reflexivity. }
    intros a' n' f' X. cbn [bstep] in X. apply in_map_iff in X. destruct X as ([a1 [n1 f1]] & X & HI). cbn [fst snd] in X.
    pose proof (Hb a1 n1 f1 HI) as (B1 & B2 & B3 & B4 & B5). destruct (Z.eqb_spec a1 a) as [->|Hne].
    + injection X as <- <- <-. rewrite set_same. unfold okblk. cbn [b_size b_magic b_data]. split; [exact B1|]. split; [exact B2|]. split; [exact B3|].
      pose proof W as W'. unfold wr in W. destruct (Z.leb_spec 0 i) as [Hi0|]; [|discriminate]. destruct (Z.ltb_spec i (Z.of_nat (length (b_data (blk m a))))) as [Hi1|]; [|discriminate].
      cbn [andb] in W. injection W as <-. rewrite upd_length. split; [exact B4|]. intros j Hj. rewrite nth_error_upd.
      destruct (Nat.eqb_spec (Z.to_nat i) (Z.to_nat j)) as [E1|E1]; destruct (Z.eqb_spec j i) as [E2|E2]; try lia.
      * destruct (Nat.ltb_spec (Z.to_nat i) (length (b_data (blk m a)))); [reflexivity|lia].
      * apply B5. exact Hj.
    + injection X as <- <- <-. rewrite set_other by assumption. repeat split; assumption.
  - intros X.
    assert (HI : exists n f, In (a, (n, f)) h).
    { revert X. unfold debug_free, check. repeat (match goal with |- context [if ?c then Val tt else Abort] => destruct c; cbn [bind]; [|discriminate] end).
      destruct (existsb (Z.eqb a) (live m)) eqn:E; [|discriminate]. intros _. apply live_mem in E. rewrite Hl in E.
      apply in_map_iff in E. destruct E as ([a' [n f]] & E & HI). cbn in E. subst. exists n, f. exact HI. }
    destruct HI as (n & f & HI). rewrite (free_live h m a n f I HI) in X. destruct (pad_ok n (b_data (blk m a))); [|discriminate]. injection X as <-.
    destruct (filter_total a n f h Hn HI) as (E1 & E2).
    unfold mminv. cbn [live cnt total blk bstep]. rewrite Hl. split; [apply remove_filter; exact Hn|]. split; [apply nodup_filter; exact Hn|].
    split. { intros X. apply in_map_iff in X. destruct X as (e & X1 & X2). apply filter_In in X2. apply H0. apply in_map_iff. exists e. tauto. }
    split; [lia|]. split; [lia|].
    intros a' n' f' X. apply filter_in in X. destruct X as (X & Hne). cbn in Hne. rewrite set_other by exact Hne. apply Hb. exact X.
  - destruct (existsb (Z.eqb a) (live m)) eqn:E; [discriminate|]. intros X. injection X as <-. unfold mminv. cbn [live cnt total blk bstep].
    repeat (split; [assumption|]). intros a' n' f' X.
    assert (a' <> a). { intros ->. assert (existsb (Z.eqb a) (live m) = true); [|congruence]. apply live_mem. rewrite Hl. apply in_map_iff. exists (a, (n', f')). auto. }
    rewrite set_other by assumption. apply Hb. exact X.
Qed.

Lemma memrun_inv l h m m' : mminv h m -> memrun l m = Val m' -> mminv (fold_left (bstep fill) l h) m'.
Proof.
  revert h m; induction l as [|o l IH]; intros h m I; cbn [memrun fold_left]; [intros E; injection E as <-; exact I|].
  destruct (memstep o m) as [m1| | |] eqn:E; try discriminate. cbn [bind]. apply IH. eapply memstep_inv; eassumption.
Qed.
Lemma meminit_inv g : mminv [] (meminit g).
Proof. unfold mminv, meminit. cbn. repeat split; try constructor; auto; intros; contradiction. Qed.

Lemma history_inv g l m : memrun l (meminit g) = Val m -> mminv (history fill l) m.
Proof. intros H. exact (memrun_inv l [] (meminit g) m (meminit_inv g) H). Qed.

Lemma free_iff g l m a n f : memrun l (meminit g) = Val m -> In (a, (n, f)) (history fill l) ->
  ((exists m', debug_free a m = Val m') <-> (forall i, n <= i < 2 * n -> f i = fill i)) /\
  (debug_free a m = Abort <-> exists i, n <= i < 2 * n /\ f i <> fill i).
Proof.
  intros R HI. pose proof (history_inv g l m R) as I. rewrite (free_live _ m a n f I HI).
  destruct I as (_ & _ & _ & _ & _ & Hb). pose proof (Hb a n f HI) as Hok. pose proof (pad_ok_iff _ _ _ Hok) as P.
  destruct (pad_ok n (b_data (blk m a))) eqn:E.
  - split; split.
    + intros _. apply P. reflexivity.
    + intros _. eexists. reflexivity.
    + discriminate.
    + intros (i & Hi & Hne). exfalso. apply Hne. apply P; [reflexivity|exact Hi].
  - split; split.
    + intros (m' & X). discriminate.
    + intros X. apply P in X. discriminate.
    + intros _. unfold pad_ok in E. destruct Hok as (B1 & B2 & B3 & B4 & B5).
      assert (X : exists x, In x (seq (Z.to_nat n) (Z.to_nat n)) /\
        (match nth_error (b_data (blk m a)) x with Some c => c =? fill (Z.of_nat x) | None => false end) = false).
      { clear - E. induction (seq (Z.to_nat n) (Z.to_nat n)) as [|x t IH]; cbn in E; [discriminate|].
        apply andb_false_iff in E. destruct E as [E|E]; [exists x; split; [left; reflexivity|exact E]|].
        destruct (IH E) as (y & Hy & E'). exists y. split; [right; exact Hy|exact E']. }
      destruct X as (x & Hx & X). apply in_seq in Hx. specialize (B5 (Z.of_nat x) ltac:(lia)). rewrite Nat2Z.id in B5. rewrite B5 in X.
      exists (Z.of_nat x). split; [lia|]. apply Z.eqb_neq. exact X.
    + intros _. reflexivity.
Qed.

(** Pointers that are not live *)
Lemma free_dead h m a : mminv h m -> ~ In a (map fst h) ->
  debug_free a m = Abort \/ (debug_free a m = UB /\ b_magic (blk m a) = MAGIC /\ b_size (blk m a) <> MMAGIC).
Proof.
  intros (Hl & _) Ha. unfold debug_free, check. destruct (a =? 0); [left; reflexivity|]. cbn [negb bind].
  destruct (Z.eqb_spec (b_size (blk m a)) MMAGIC); [left; reflexivity|]. cbn [negb bind].
  destruct (Z.eqb_spec (b_magic (blk m a)) MAGIC); [|left; reflexivity]. cbn [bind].
  destruct (0 <=? b_size (blk m a)); [|left; reflexivity]. cbn [bind]. destruct (0 <=? total m - b_size (blk m a)); [|left; reflexivity]. cbn [bind].
  destruct (pad_ok (b_size (blk m a)) (b_data (blk m a))); [|left; reflexivity]. cbn [bind]. right. split; [|auto].
  assert (E : existsb (Z.eqb a) (live m) = false); [|rewrite E; reflexivity].
  destruct (existsb (Z.eqb a) (live m)) eqn:E; [|reflexivity]. exfalso. apply Ha. rewrite <- Hl. apply live_mem. exact E.
Qed.

Definition touches (a : Z) (o : mop) : Prop :=
  match o with OMalloc _ a' => a' = a | OGarbage a' _ => a' = a | _ => False end.

(** Header left by a free stays until the address is reused. *)
Lemma dead_header l m m' a : memrun l m = Val m' -> ~ In a (live m) -> b_size (blk m a) = MMAGIC -> (forall o, In o l -> ~ touches a o) ->
  ~ In a (live m') /\ b_size (blk m' a) = MMAGIC.
Proof.
  revert m; induction l as [|o l IH]; intros m R Ha Hs Ht; cbn [memrun] in R; [injection R as <-; auto|].
  destruct (memstep o m) as [m1| | |] eqn:E; try discriminate. cbn [bind] in R.
  assert (K : ~ In a (live m1) /\ b_size (blk m1 a) = MMAGIC).
  { specialize (Ht o (or_introl eq_refl)). destruct o as [n a1|a1 i v|a1|a1 b]; cbn [memstep touches] in *.
    - destruct (_ || _); [discriminate|]. injection E as <-. unfold debug_malloc; cbn [live blk]. rewrite set_other by auto. split; [intros [X|X]; auto|exact Hs].
    - unfold store in E. destruct (existsb (Z.eqb a1) (live m)) eqn:E1; [|discriminate]. destruct (wr _ _ _); try discriminate. injection E as <-. cbn [live blk].
      apply live_mem in E1. rewrite set_other by (intros ->; contradiction). auto.
    - revert E. unfold debug_free, check. repeat (match goal with |- context [if ?c then Val tt else Abort] => destruct c; cbn [bind]; [|discriminate] end).
      destruct (existsb (Z.eqb a1) (live m)) eqn:E1; [|discriminate]. intros E. injection E as <-. cbn [live blk]. apply live_mem in E1.
      rewrite set_other by (intros ->; contradiction). split; [|exact Hs]. intros X. apply Ha. clear - X.
      induction (live m) as [|y t IH]; [exact X|]. cbn in X. destruct (y =? a1); [right; exact X|]. destruct X as [X|X]; [left; exact X|right; auto].
    - destruct (existsb _ _); [discriminate|]. injection E as <-. cbn [live blk]. rewrite set_other by auto. auto. }
  apply (IH m1 R (proj1 K) (proj2 K)). intros o' Ho'. apply Ht. right. exact Ho'.
Qed.

Lemma remove1_gone a l : NoDup l -> ~ In a (remove1 a l).
Proof.
  induction l as [|x t IH]; intros H; [auto|]. inversion H; subst. cbn. destruct (Z.eqb_spec x a) as [->|]; [assumption|]. intros [X|X]; [auto|]. exact (IH H3 X).
Qed.

Lemma double_free g l1 l2 m1 m2 m3 a : memrun l1 (meminit g) = Val m1 -> debug_free a m1 = Val m2 ->
  memrun l2 m2 = Val m3 -> (forall o, In o l2 -> ~ touches a o) -> debug_free a m3 = Abort.
Proof.
  intros R1 F R2 Ht. pose proof (history_inv g l1 m1 R1) as I1. pose proof I1 as (Hl & Hn & _).
  assert (K : ~ In a (live m2) /\ b_size (blk m2 a) = MMAGIC).
  { revert F. unfold debug_free, check. repeat (match goal with |- context [if ?c then Val tt else Abort] => destruct c; cbn [bind]; [|discriminate] end).
    destruct (existsb (Z.eqb a) (live m1)); [|discriminate]. intros E. injection E as <-. cbn [live blk]. rewrite set_same. split; [|reflexivity].
    apply remove1_gone. rewrite Hl. exact Hn. }
  destruct (dead_header l2 m2 m3 a R2 (proj1 K) (proj2 K) Ht) as (A & B).
  unfold debug_free, check. destruct (a =? 0); [reflexivity|]. cbn [negb bind]. rewrite B, Z.eqb_refl. reflexivity.
Qed.

Lemma leak_iff g l m : memrun l (meminit g) = Val m ->
  (debug_check_memory_leaks m = Val tt <-> history fill l = []) /\ (debug_check_memory_leaks m = Abort <-> history fill l <> []).
Proof.
  intros R. destruct (history_inv g l m R) as (_ & _ & _ & Hc & Ht & _). unfold debug_check_memory_leaks, check. rewrite Hc, Ht.
  destruct (history fill l) as [|e h].
  - cbn. split; split; congruence.
  - destruct (Z.eqb_spec (Z.of_nat (length (e :: h))) 0) as [E|E]; [cbn [length] in E; lia|]. cbn. split; split; congruence.
Qed.
