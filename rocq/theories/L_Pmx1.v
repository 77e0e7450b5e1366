(** Blocks of fields divided among processes, as the operators and as the solver see them. *)
From Coq Require Import List ZArith Reals Bool Arith Lia Lra.
From Verif Require Import Base RC M_Tensor S_Tensor M_Evect S_Evect L_Evect M_Grid S_Grid L_Grid M_Op S_Op L_Op L_Op2 L_Op3 L_Op4 M_Eig S_Eig L_Mat L_Eig L_Eig2 L_Kpt2 M_Real S_Real M_Mpi S_Mpi L_Mpi1 L_Mpi2 L_Mpi3 M_Pcg S_Pcg L_Pcg1 M_Pmx S_Pmx.
Import ListNotations.
Local Open Scope Z_scope.

Section D.
Variable d : mdata.
Hypothesis Wd : wfd d.
Notation nx := (d_nx d).
Notation ny := (d_ny d).
Notation nz := (d_nz d).
Notation pn p := (Z.to_nat (2 * (pnx p * d_ny d * d_nz d))).
Notation n := (Z.to_nat (2 * npts d)).

Lemma pos_3 : 0 < nx /\ 0 < ny /\ 0 < nz.
Proof. destruct Wd as (A & B & D & _). lia. Qed.
Lemma share_pnx p : share d p -> 0 <= pnx p.
Proof. intros (_ & _ & _ & _ & [E|E] & _); lia. Qed.

Definition tab (X : emat C) (q : nat) : mat := fun i j => if ((i <? n) && (j <? q))%nat then entC X (Z.of_nat i) (Z.of_nat j) else C0.
Lemma tab_fields X q : S_Op.fields d X -> ep X = Z.of_nat q -> S_Eig.fields n q X (tab X q).
Proof.
  intros (W & En) Ep. destruct pos_3 as (P1 & P2 & P3). assert (0 <= npts d) by (unfold npts; nia). apply fields_of; [exact W|rewrite En; lia|exact Ep| |].
  - intros i j H1. unfold tab. destruct (Nat.ltb_spec i n), (Nat.ltb_spec j q); cbn [andb]; try reflexivity; lia.
  - intros i j Hi Hj. unfold tab. destruct (Nat.ltb_spec i n), (Nat.ltb_spec j q); try lia. reflexivity.
Qed.

(** A row of a slab. *)
Lemma row_point N i : 0 <= i < 2 * (N * ny * nz) -> exists x y z c, 0 <= x < N /\ 0 <= y < ny /\ 0 <= z < nz /\ 0 <= c < 2 /\ i = 2 * ((x * ny + y) * nz + z) + c.
Proof.
  intros H. destruct pos_3 as (P1 & P2 & P3). set (g := i / 2). assert (Hg : 0 <= g < N * ny * nz) by (unfold g; split; [apply Z.div_pos; lia|apply Z.div_lt_upper_bound; lia]).
  exists (g / nz / ny), (g / nz mod ny), (g mod nz), (i mod 2).
  pose proof (Z.mod_pos_bound g nz P3). pose proof (Z.mod_pos_bound (g / nz) ny P2). pose proof (Z.mod_pos_bound i 2 ltac:(lia)).
  assert (Hr : 0 <= g / nz < N * ny) by (split; [apply Z.div_pos; lia|apply Z.div_lt_upper_bound; nia]).
  split; [split; [apply Z.div_pos; lia|apply Z.div_lt_upper_bound; nia]|]. repeat (split; [lia|]).
  pose proof (Z.div_mod i 2 ltac:(lia)). pose proof (Z.div_mod g nz ltac:(lia)). pose proof (Z.div_mod (g / nz) ny ltac:(lia)). fold g in H3. nia.
Qed.

Lemma part_fields p A X M q o : 0 <= pnx p -> 0 <= o -> o + pnx p <= nx -> (pnx p = 0 \/ px0 p = o) -> S_Eig.fields n q X M ->
  (part d p A X <-> S_Eig.fields (pn p) q A (S_Pcg.rows (Z.to_nat (2 * (o * ny * nz))) (pn p) M)).
Proof.
  intros Hp Ho Hle Ho' F. pose proof F as (En & Ep & W & Rp). destruct pos_3 as (P1 & P2 & P3).
  assert (HN : 0 <= npts d) by (unfold npts; nia). assert (Hon : 0 <= o * ny * nz) by nia. assert (Hpn : 0 <= pnx p * ny * nz) by nia.
  assert (Hsum : o * ny * nz + pnx p * ny * nz <= npts d) by (unfold npts; nia).
  split.
  - intros (WA & NA & EA & H). apply fields_of; [exact WA|rewrite NA; lia|rewrite EA; exact Ep| |].
    + intros i j Hij. unfold S_Pcg.rows. destruct (Nat.ltb_spec i (pn p)); [|reflexivity]. destruct Hij as [|Hij]; [lia|]. destruct Rp as (_ & D & _). apply D. right. exact Hij.
    + intros i j Hi Hj. rewrite rows_0 by exact Hi. destruct (row_point (pnx p) (Z.of_nat i)) as (x & y & z & c & Hx & Hy & Hz & Hc & Ei); [lia|].
      destruct Ho' as [|Ho']; [lia|]. specialize (H (px0 p + x) y z c (Z.of_nat j)). rewrite Ei. replace (px0 p + x - px0 p) with x in H by ring. rewrite H by lia.
      rewrite <- (fields_at n q X M (Z.to_nat (2 * (o * ny * nz)) + i) j F) by lia. f_equal. unfold pt. rewrite Ho'. rewrite Nat2Z.inj_add, Ei, Z2Nat.id by lia. ring.
  - intros F'. pose proof F' as (NA & EA & WA & _). split; [exact WA|]. split; [rewrite NA; lia|]. split; [rewrite EA, Ep; reflexivity|].
    intros x y z c b Hx Hy Hz Hc Hb. rewrite Ep in Hb. destruct Ho' as [|Ho']; [lia|].
    set (i := 2 * (((x - px0 p) * ny + y) * nz + z) + c). assert (Hg : 0 <= ((x - px0 p) * ny + y) * nz + z < pnx p * ny * nz) by (apply pos_in; lia).
    assert (Hi : (Z.to_nat i < pn p)%nat) by (unfold i; lia). assert (Hi0 : 0 <= i) by (unfold i; lia).
    pose proof (fields_at _ _ _ _ (Z.to_nat i) (Z.to_nat b) F' Hi ltac:(lia)) as Q. rewrite !Z2Nat.id in Q by lia. rewrite Q. rewrite rows_0 by exact Hi.
    pose proof (fields_at n q X M (Z.to_nat (2 * (o * ny * nz)) + Z.to_nat i) (Z.to_nat b) F ltac:(lia) ltac:(lia)) as Q'. rewrite <- Q'. rewrite Nat2Z.inj_add, !Z2Nat.id by lia. f_equal. unfold i, pt. rewrite <- Ho'. ring.
Qed.

Lemma order_spread q X M l ps o : (forall p, In p ps -> 0 <= pnx p) -> 0 <= o -> in_order o nx ps -> S_Eig.fields n q X M ->
  (spread q (sizes_of d ps) (Z.to_nat (2 * (o * ny * nz))) l M <-> Forall2 (fun p A => part d p A X) ps l).
Proof.
  intros Hp Ho Or F. destruct pos_3 as (P1 & P2 & P3). revert o l Ho Or. induction ps as [|p ps IH]; intros o l Ho Or; destruct l as [|A l].
  { split; [constructor|intros _; exact I]. }
  { split; [intros []|intros H; inversion H]. }
  { split; [intros []|intros H; inversion H]. }
  cbn [sizes_of map spread]. fold (sizes_of d ps).
  destruct Or as (O1 & O2). assert (Hp0 : 0 <= pnx p) by (apply Hp; left; reflexivity).
  assert (Hle : o + pnx p <= nx).
  { assert (G : forall r o', (forall p, In p r -> 0 <= pnx p) -> in_order o' nx r -> o' <= nx).
    { clear. induction r as [|a r IH]; intros o' H' Or'; cbn [in_order] in Or'; [lia|]. destruct Or' as (_ & Or'). specialize (IH (o' + pnx a) (fun p I => H' p (or_intror I)) Or'). specialize (H' a (or_introl eq_refl)). lia. }
    apply (G ps); [intros q' I; apply Hp; right; exact I|exact O2]. }
  rewrite <- (part_fields p A X M q o Hp0 Ho Hle O1 F).
  assert (E : (Z.to_nat (2 * (o * ny * nz)) + pn p)%nat = Z.to_nat (2 * ((o + pnx p) * ny * nz))) by (assert (0 <= o * ny * nz) by nia; assert (0 <= pnx p * ny * nz) by nia; rewrite <- Z2Nat.inj_add by lia; f_equal; ring).
  rewrite E, (IH (fun p I => Hp p (or_intror I)) (o + pnx p) l ltac:(lia) O2).
  split; [intros (H1 & H2); constructor; assumption|intros H; inversion H; subst; auto].
Qed.
Lemma total_order ps o : (forall p, In p ps -> 0 <= pnx p) -> in_order o nx ps -> (Z.to_nat (2 * (o * ny * nz)) + total (sizes_of d ps) = n)%nat \/ o < 0.
Proof.
  intros Hp. destruct pos_3 as (P1 & P2 & P3). revert o. induction ps as [|p ps IH]; intros o Or; cbn [in_order] in Or.
  - left. cbn. subst o. unfold npts. lia.
  - destruct Or as (_ & Or). destruct (Z_lt_le_dec o 0); [right; lia|left]. assert (Hp0 : 0 <= pnx p) by (apply Hp; left; reflexivity).
    destruct (IH (fun p I => Hp p (or_intror I)) _ Or) as [E|]; [|lia]. cbn [sizes_of map total fold_right]. fold (sizes_of d ps). fold (total (sizes_of d ps)). rewrite <- E.
    rewrite Nat.add_assoc. f_equal. rewrite <- Z2Nat.inj_add by nia. f_equal. ring.
Qed.

Variable ps : list proc.
Hypothesis Dv : divided d ps.
Hypothesis Or : in_order 0 nx ps.
Notation ns := (sizes_of d ps).
Lemma total_n : total ns = n.
Proof. destruct (total_order ps 0) as [E|]; [intros p I; apply share_pnx, Dv, I|exact Or|exact E|lia]. Qed.
Lemma sb_parts q X l : same_block q ns X l <-> (S_Op.fields d X /\ ep X = Z.of_nat q /\ Forall2 (fun p A => part d p A X) ps l).
Proof.
  assert (Hp : forall p, In p ps -> 0 <= pnx p) by (intros p I; apply share_pnx, Dv, I). destruct pos_3 as (P1 & P2 & P3). assert (HN : 0 <= npts d) by (unfold npts; nia).
  split.
  - intros (M & F & Sp). rewrite total_n in F. pose proof F as (En & Ep & W & _). split; [split; [exact W|rewrite En; lia]|]. split; [exact Ep|]. apply (order_spread q X M l ps 0 Hp ltac:(lia) Or F). exact Sp.
  - intros (F & Ep & H). exists (tab X q). rewrite total_n. pose proof (tab_fields X q F Ep) as T. split; [exact T|]. apply (order_spread q X _ l ps 0 Hp ltac:(lia) Or T). exact H.
Qed.
Lemma ps_nonempty : ps <> [].
Proof. intros E. destruct pos_3 as (P1 & _). rewrite E in Or. cbn in Or. lia. Qed.
End D.
