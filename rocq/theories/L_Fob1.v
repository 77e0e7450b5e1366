(** Arrays and loops of field objects. *)
From Coq Require Import String Ascii List ZArith Reals Lra Lia Bool.
From Verif Require Import Base RC Loops M_Tensor S_Tensor M_Evect S_Evect M_Grid S_Grid M_Op S_Op M_Fld S_Fld M_Half M_Fob S_Fob L_Fld.
Import ListNotations.
Local Open Scope Z_scope.

Lemma rd_num m i : 0 <= i < Z.of_nat (length m) -> rd m i = Val (num m (Z.to_nat i)).
Proof.
  intros H. unfold rd. destruct (Z.ltb_spec i 0); [lia|]. destruct (nth_error m (Z.to_nat i)) as [x|] eqn:E.
  - f_equal. unfold num. symmetry. apply nth_error_nth. exact E.
  - apply nth_error_None in E. lia.
Qed.
Lemma wr_num m i v : 0 <= i < Z.of_nat (length m) -> exists m', wr m i v = Val m' /\ length m' = length m /\ forall p, num m' p = if (p =? Z.to_nat i)%nat then v else num m p.
Proof.
  intros H. exists (upd_nat m (Z.to_nat i) v). split; [apply wr_in; exact H|]. split; [apply upd_length|]. intros p. unfold num.
  pose proof (nth_error_upd m (Z.to_nat i) p v) as E. rewrite Nat.eqb_sym in E. destruct (Nat.eqb_spec p (Z.to_nat i)) as [e|N].
  - rewrite e in *. destruct (Nat.ltb_spec (Z.to_nat i) (length m)); [|lia]. apply nth_error_nth with (d := 0%R) in E. exact E.
  - destruct (nth_error m p) as [y|] eqn:F.
    + rewrite (nth_error_nth _ _ _ E), (nth_error_nth _ _ _ F). reflexivity.
    + pose proof (proj1 (nth_error_None _ _) F) as F'. rewrite !nth_overflow; [reflexivity|exact F'|rewrite upd_length; exact F'].
Qed.
Lemma cget_num m j : 0 <= j -> 2 * j + 1 < Z.of_nat (length m) -> cget m j = Val (cnum m (Z.to_nat j)).
Proof.
  intros H0 H1. unfold cget. rewrite (rd_num m (2 * j)) by lia. cbn [bind]. rewrite (rd_num m (2 * j + 1)) by lia. cbn [bind]. unfold cnum.
  replace (Z.to_nat (2 * j)) with (2 * Z.to_nat j)%nat by lia. replace (Z.to_nat (2 * j + 1)) with (2 * Z.to_nat j + 1)%nat by lia. reflexivity.
Qed.
Lemma cput_num m j z : 0 <= j -> 2 * j + 1 < Z.of_nat (length m) -> exists m', cput m j z = Val m' /\ length m' = length m /\ cnum m' (Z.to_nat j) = z /\
  forall p, (p < 2 * Z.to_nat j \/ 2 * Z.to_nat j + 1 < p)%nat -> num m' p = num m p.
Proof.
  intros H0 H1. unfold cput. destruct (wr_num m (2 * j) (re z)) as (m1 & -> & L1 & E1); [lia|]. cbn [bind].
  destruct (wr_num m1 (2 * j + 1) (im z)) as (m2 & -> & L2 & E2); [lia|]. exists m2. split; [reflexivity|]. split; [congruence|].
  replace (Z.to_nat (2 * j)) with (2 * Z.to_nat j)%nat in E1 by lia. replace (Z.to_nat (2 * j + 1)) with (2 * Z.to_nat j + 1)%nat in E2 by lia. split.
  - unfold cnum. rewrite !E2, !E1. destruct (Nat.eqb_spec (2 * Z.to_nat j) (2 * Z.to_nat j + 1)); [lia|]. rewrite !Nat.eqb_refl. destruct z. reflexivity.
  - intros p Hp. rewrite E2, E1. destruct (Nat.eqb_spec p (2 * Z.to_nat j + 1)); [lia|]. destruct (Nat.eqb_spec p (2 * Z.to_nat j)); [lia|]. reflexivity.
Qed.

(** Values and their numbers. *)
Definition nwidth (k : kind) : nat := Z.to_nat (width k).
Lemma cnum_ext m m' j : num m (2 * j) = num m' (2 * j) -> num m (2 * j + 1) = num m' (2 * j + 1) -> cnum m j = cnum m' j.
Proof. intros A B. unfold cnum. rewrite A, B. reflexivity. Qed.
Lemma value_ext k m m' i : (forall p, (nwidth k * i <= p < nwidth k * (i + 1))%nat -> num m p = num m' p) -> value k m i = value k m' i.
Proof.
  intros H. destruct k; unfold nwidth, width in H; cbn [value].
  - f_equal. apply H. change (Z.to_nat 1) with 1%nat. lia.
  - change (Z.to_nat 2) with 2%nat in H. f_equal. apply cnum_ext; apply H; lia.
  - change (Z.to_nat 6) with 6%nat in H. f_equal; apply cnum_ext; apply H; lia.
Qed.
Lemma value_at_ok k m i : 0 <= i -> width k * (i + 1) <= Z.of_nat (length m) -> value_at k m i = Val (value k m (Z.to_nat i)).
Proof.
  intros H0 H1. destruct k; unfold value_at, value; cbn [width] in H1.
  - rewrite rd_num by lia. reflexivity.
  - rewrite cget_num by lia. reflexivity.
  - rewrite !cget_num by lia. cbn [bind]. replace (Z.to_nat (3 * i)) with (3 * Z.to_nat i)%nat by lia.
    replace (Z.to_nat (3 * i + 1)) with (3 * Z.to_nat i + 1)%nat by lia. replace (Z.to_nat (3 * i + 2)) with (3 * Z.to_nat i + 2)%nat by lia. reflexivity.
Qed.
Lemma write_at_ok k m i x y : 0 <= i -> width k * (i + 1) <= Z.of_nat (length m) -> stored_as k x = Some y ->
  exists m', write_at k m i x = Val m' /\ length m' = length m /\ value k m' (Z.to_nat i) = y /\
    forall p, (p < nwidth k * Z.to_nat i \/ nwidth k * (Z.to_nat i + 1) <= p)%nat -> num m' p = num m p.
Proof.
  intros H0 H1 S.
  destruct k, x; cbn [stored_as] in S; try discriminate; injection S as <-; cbn [write_at value width] in *; unfold nwidth; cbn [width].
  - destruct (wr_num m i x) as (m' & E & L & P); [lia|]. exists m'. split; [exact E|]. split; [exact L|]. split; [rewrite P, Nat.eqb_refl; reflexivity|].
    intros p Hp. rewrite P. change (Z.to_nat 1) with 1%nat in Hp. destruct (Nat.eqb_spec p (Z.to_nat i)); [lia|reflexivity].
  - destruct (cput_num m i (x, 0%R)) as (m' & E & L & V & P); [lia|lia|]. exists m'. split; [exact E|]. split; [exact L|]. split; [rewrite V; reflexivity|].
    change (Z.to_nat 2) with 2%nat. intros p Hp. apply P. lia.
  - destruct (cput_num m i z) as (m' & E & L & V & P); [lia|lia|]. exists m'. split; [exact E|]. split; [exact L|]. split; [rewrite V; reflexivity|].
    change (Z.to_nat 2) with 2%nat. intros p Hp. apply P. lia.
  - destruct (cput_num m (3 * i) a) as (m1 & -> & L1 & V1 & P1); [lia|lia|]. cbn [bind]. destruct (cput_num m1 (3 * i + 1) b) as (m2 & -> & L2 & V2 & P2); [lia|lia|]. cbn [bind].
    destruct (cput_num m2 (3 * i + 2) c) as (m3 & -> & L3 & V3 & P3); [lia|lia|]. exists m3. split; [reflexivity|]. split; [congruence|].
    replace (Z.to_nat (3 * i)) with (3 * Z.to_nat i)%nat in * by lia. replace (Z.to_nat (3 * i + 1)) with (3 * Z.to_nat i + 1)%nat in * by lia.
    replace (Z.to_nat (3 * i + 2)) with (3 * Z.to_nat i + 2)%nat in * by lia. split.
    + f_equal; [rewrite <- V1|rewrite <- V2|exact V3]; apply cnum_ext; rewrite ?P3, ?P2 by lia; reflexivity.
    + change (Z.to_nat 6) with 6%nat. intros p Hp. rewrite P3, P2, P1 by lia. reflexivity.
Qed.
Lemma write_at_bad k m i x : stored_as k x = None -> write_at k m i x = Abort.
Proof. destruct k, x; cbn; intros H; congruence || reflexivity. Qed.

(** The array behind a pointer. *)
Definition ptr_eqb (p q : fptr) : bool := match p, q with PNull, PNull | PFft, PFft => true | PObj a, PObj b => Nat.eqb a b | _, _ => false end.
Lemma ptr_eqb_spec p q : reflect (p = q) (ptr_eqb p q).
Proof. destruct p, q; cbn; try (constructor; congruence). destruct (Nat.eqb_spec n n0); constructor; congruence. Qed.
(** The state with another array behind p. *)
Definition with_arr (s : fstate) (p : fptr) (m : list R) : fstate :=
  match p with
  | PNull => s
  | PFft => set_field s m (st_has s) (st_ch s) (st_band s)
  | PObj n => match nth_error (st_objs s) n with
      | Some o => put_obj s n {| fo_kind := fo_kind o; fo_ch := fo_ch o; fo_sh := fo_sh o; fo_data := m |} | None => s end
  end.
Lemma poke_ok s p m0 m : peek s p = Val m0 -> poke s p m = Val (with_arr s p m).
Proof. unfold peek, poke, with_arr. destruct p; [discriminate|reflexivity|]. destruct (nth_error (st_objs s) n); [reflexivity|discriminate]. Qed.
Lemma upd_twice {A} (l : list A) n a b : upd_nat (upd_nat l n a) n b = upd_nat l n b.
Proof. revert n; induction l as [|x l IH]; intros [|n]; cbn; try reflexivity. f_equal. apply IH. Qed.
Lemma upd_self {A} (l : list A) n a : nth_error l n = Some a -> upd_nat l n a = l.
Proof. revert n; induction l as [|x l IH]; intros [|n]; cbn; intros H; try congruence. f_equal. apply IH. exact H. Qed.
Lemma nth_upd_same {A} (l : list A) n a x : nth_error l n = Some x -> nth_error (upd_nat l n a) n = Some a.
Proof. intros H. rewrite nth_error_upd, Nat.eqb_refl. assert (n < length l)%nat by (apply nth_error_Some; congruence). destruct (Nat.ltb_spec n (length l)); [reflexivity|lia]. Qed.
Lemma nth_upd_other {A} (l : list A) n k a : n <> k -> nth_error (upd_nat l n a) k = nth_error l k.
Proof. intros H. rewrite nth_error_upd. destruct (Nat.eqb_spec n k); [contradiction|reflexivity]. Qed.

Lemma peek_with s p q m0 m m1 : peek s p = Val m0 -> peek s q = Val m1 -> peek (with_arr s p m) q = Val (if ptr_eqb p q then m else m1).
Proof.
  intros Hp Hq. unfold peek in *. destruct p as [| |n]; [discriminate| |].
  - destruct q as [| |k]; [discriminate|reflexivity|]. exact Hq.
  - cbn [with_arr]. destruct (nth_error (st_objs s) n) as [o|] eqn:E; [|discriminate]. destruct q as [| |k]; [discriminate|exact Hq|]. cbn [ptr_eqb put_obj set_objs st_objs].
    destruct (Nat.eqb_spec n k) as [<-|N]; [rewrite (nth_upd_same _ _ _ _ E); reflexivity|]. rewrite nth_upd_other by exact N. exact Hq.
Qed.
Lemma with_with s p m m' : with_arr (with_arr s p m) p m' = with_arr s p m'.
Proof.
  destruct p as [| |n]; [reflexivity|reflexivity|]. cbn [with_arr]. destruct (nth_error (st_objs s) n) as [o|] eqn:E; [|rewrite E; reflexivity].
  cbn [put_obj set_objs st_objs]. rewrite (nth_upd_same _ _ _ _ E). cbn [fo_kind fo_ch fo_sh]. unfold put_obj, set_objs. cbn [st_env st_mem st_has st_ch st_band st_objs]. rewrite upd_twice. reflexivity.
Qed.
Lemma with_self s p m : peek s p = Val m -> with_arr s p m = s.
Proof.
  destruct p as [| |n]; cbn [peek with_arr]; [discriminate| |].
  - intros H. injection H as <-. destruct s. reflexivity.
  - destruct (nth_error (st_objs s) n) as [o|] eqn:E; [|discriminate]. intros H. injection H as <-. unfold put_obj. rewrite upd_self; [destruct s; reflexivity|]. rewrite E. destruct o. reflexivity.
Qed.

(** Loops that rewrite one array point by point; [w] numbers per round. *)
Lemma copy_loop k s pd ps md ms n w : (w = match k with KR => 1 | _ => 2 end)%nat -> peek s pd = Val md -> peek s ps = Val ms -> 0 <= n ->
  Z.of_nat w * n <= Z.of_nat (length md) -> Z.of_nat w * n <= Z.of_nat (length ms) ->
  exists m, forZ 0 n (copy1 k pd ps) s = Val (with_arr s pd m) /\ length m = length md /\
    (forall p, (p < w * Z.to_nat n)%nat -> num m p = num ms p) /\ (forall p, (w * Z.to_nat n <= p)%nat -> num m p = num md p).
Proof.
  intros Hw Hd Hs Hn Ld Ls.
  destruct (forZ_inv (fun i s' => exists m, s' = with_arr s pd m /\ length m = length md /\
    (forall p, (p < w * Z.to_nat i)%nat -> num m p = num ms p) /\ (forall p, (w * Z.to_nat i <= p)%nat -> num m p = num md p)) (copy1 k pd ps) 0 n s) as (s' & E & m & -> & H).
  - exact Hn.
  - exists md. rewrite (with_self _ _ _ Hd). split; [reflexivity|]. split; [reflexivity|]. split; [intros p Hp; lia|reflexivity].
  - intros i s' Hi (m & -> & L & A & B). unfold copy1. rewrite (peek_with _ _ _ _ _ _ Hd Hs). cbn [bind].
    set (src := if ptr_eqb pd ps then m else ms).
    assert (Hsrc : length src = length ms \/ length src = length md) by (unfold src; destruct (ptr_eqb pd ps); auto).
    assert (Vs : forall p, (w * Z.to_nat i <= p)%nat -> num src p = num ms p).
    { intros p Hp. unfold src. destruct (ptr_eqb_spec pd ps) as [<-|]; [|reflexivity]. rewrite Hd in Hs. injection Hs as <-. apply B. exact Hp. }
    rewrite (peek_with _ _ _ _ m _ Hd Hd). replace (ptr_eqb pd pd) with true by (destruct (ptr_eqb_spec pd pd); congruence).
    assert (Pk : peek (with_arr s pd m) pd = Val m) by (rewrite (peek_with _ _ _ _ m _ Hd Hd); destruct (ptr_eqb_spec pd pd); congruence).
    destruct k; subst w.
    + rewrite rd_num by lia. cbn [bind]. destruct (wr_num m i (num src (Z.to_nat i))) as (m' & -> & L' & W); [lia|]. cbn [bind].
      rewrite (poke_ok _ _ _ _ Pk), with_with. eexists. split; [reflexivity|]. exists m'. split; [reflexivity|]. split; [congruence|]. split.
      * intros p Hp. rewrite W. destruct (Nat.eqb_spec p (Z.to_nat i)) as [->|]; [apply Vs; lia|apply A; lia].
      * intros p Hp. rewrite W. destruct (Nat.eqb_spec p (Z.to_nat i)); [lia|apply B; lia].
    + rewrite cget_num by lia. cbn [bind]. destruct (cput_num m i (cnum src (Z.to_nat i))) as (m' & -> & L' & V & W); [lia|lia|]. cbn [bind].
      rewrite (poke_ok _ _ _ _ Pk), with_with. eexists. split; [reflexivity|]. exists m'. split; [reflexivity|]. split; [congruence|]. split.
      * intros p Hp. destruct (Nat.lt_ge_cases p (2 * Z.to_nat i)) as [Q|Q]; [rewrite W by lia; apply A; lia|].
        pose proof (f_equal fst V : num m' (2 * Z.to_nat i) = num src (2 * Z.to_nat i)) as V1. pose proof (f_equal snd V : num m' (2 * Z.to_nat i + 1) = num src (2 * Z.to_nat i + 1)) as V2. assert (p = 2 * Z.to_nat i \/ p = 2 * Z.to_nat i + 1)%nat as [-> | ->] by lia; [rewrite V1|rewrite V2]; apply Vs; lia.
      * intros p Hp. rewrite W by lia. apply B. lia.
    + rewrite cget_num by lia. cbn [bind]. destruct (cput_num m i (cnum src (Z.to_nat i))) as (m' & -> & L' & V & W); [lia|lia|]. cbn [bind].
      rewrite (poke_ok _ _ _ _ Pk), with_with. eexists. split; [reflexivity|]. exists m'. split; [reflexivity|]. split; [congruence|]. split.
      * intros p Hp. destruct (Nat.lt_ge_cases p (2 * Z.to_nat i)) as [Q|Q]; [rewrite W by lia; apply A; lia|].
        pose proof (f_equal fst V : num m' (2 * Z.to_nat i) = num src (2 * Z.to_nat i)) as V1. pose proof (f_equal snd V : num m' (2 * Z.to_nat i + 1) = num src (2 * Z.to_nat i + 1)) as V2. assert (p = 2 * Z.to_nat i \/ p = 2 * Z.to_nat i + 1)%nat as [-> | ->] by lia; [rewrite V1|rewrite V2]; apply Vs; lia.
      * intros p Hp. rewrite W by lia. apply B. lia.
  - exists m. split; [exact E|]. exact H.
Qed.
