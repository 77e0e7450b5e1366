(** The operators, the preconditioner and the constraints on several processes do what they do on one. *)
From Coq Require Import List ZArith Reals Bool Arith Lia Lra.
From Verif Require Import Base RC M_Tensor S_Tensor M_Evect S_Evect L_Evect L_Evect3 M_Grid S_Grid L_Grid L_Grid2 L_Grid6 M_Op S_Op L_Op L_Op2 L_Op3 L_Op4 L_Op5 M_Eig S_Eig L_Mat L_Eig L_Eig2 M_Kpt L_Kpt2 M_Real S_Real M_Mx S_Mx M_Mpi S_Mpi L_Mpi1 L_Mpi2 L_Mpi3 M_Pcg S_Pcg L_Pcg1 M_Pmx S_Pmx L_Pmx1.
Import ListNotations.
Local Open Scope Z_scope.

Section D.
Variable d : mdata.
Variable ps : list proc.
Hypothesis Tm : team d ps.
Notation nx := (d_nx d).
Notation ny := (d_ny d).
Notation nz := (d_nz d).
Notation ns := (sizes_of d ps).
Let Wd : wfd d := proj1 Tm.
Let Hn : 0 < d_nfb d := proj1 (proj2 Tm).
Let Dv : divided d ps := proj1 (proj2 (proj2 Tm)).
Let Or : in_order 0 nx ps := proj2 (proj2 (proj2 Tm)).

Lemma states_p l X : Forall2 (fun p A => part d p A X) ps l -> map M_Mpi.s_p (mxp_states ps l) = ps.
Proof. intros H. unfold mxp_states. rewrite map_map. cbn [M_Mpi.s_p]. clear -H. induction H as [|p A r s _ _ IH]; [reflexivity|]. cbn [combine map fst]. f_equal. exact IH. Qed.
Lemma states_in l X s : Forall2 (fun p A => part d p A X) ps l -> In s (mxp_states ps l) -> In (M_Mpi.s_p s) ps /\ part d (M_Mpi.s_p s) (M_Mpi.s_in s) X /\ M_Mpi.s_out s = M_Mpi.s_in s /\ s_fft s = mxp_scratch (M_Mpi.s_p s).
Proof.
  intros H I. unfold mxp_states in I. apply in_map_iff in I. destruct I as ((p & A) & <- & I). cbn [M_Mpi.s_p M_Mpi.s_in M_Mpi.s_out s_fft fst snd].
  split; [apply (in_combine_l _ _ _ _ I)|]. split; [|auto]. clear -H I. induction H as [|p' A' r s H1 _ IH]; [destruct I|]. destruct I as [E|I]; [injection E as <- <-; exact H1|apply IH, I].
Qed.
Lemma states_parts l X : Forall2 (fun p A => part d p A X) ps l -> parts d (mxp_states ps l) X X.
Proof.
  intros H. split; [rewrite (states_p l X H); exact Dv|]. intros s I. destruct (states_in l X s H I) as (_ & P & E & _). rewrite E. auto.
Qed.
Lemma states_room l X : Forall2 (fun p A => part d p A X) ps l -> room (mxp_states ps l) (Z.min (d_nfb d) (ep X)).
Proof.
  intros H s I. destruct (states_in l X s H I) as (Ip & _ & _ & ->). destruct Dv as (Sh & _). pose proof (Sh _ Ip) as S. set (p := M_Mpi.s_p s) in *. clearbody p.
  destruct S as (E1 & E2 & E3 & E4 & S5 & S6 & _). destruct (pos_3 d Wd) as (P1 & P2 & P3). unfold mxp_scratch. rewrite repeat_length. rewrite E4.
  assert (0 <= x_count p) by (unfold x_count; rewrite E2, E3; assert (0 <= pnx p) by (destruct S5; lia); nia).
  assert (0 <= y_count p) by (unfold y_count; rewrite E1, E3; assert (0 <= pny p) by (destruct S6; lia); nia).
  rewrite Z2Nat.id by nia. nia.
Qed.
Lemma outs_parts l' X Y : map M_Mpi.s_p l' = ps -> (forall s, In s l' -> part d (M_Mpi.s_p s) (M_Mpi.s_in s) X /\ part d (M_Mpi.s_p s) (M_Mpi.s_out s) Y) -> Forall2 (fun p A => part d p A Y) ps (map M_Mpi.s_out l').
Proof.
  intros E H. rewrite <- E. clear E. induction l' as [|s l' IH]; [constructor|]. cbn [map]. constructor; [apply H; left; reflexivity|]. apply IH. intros t I. apply H. right. exact I.
Qed.
Lemma scr p : scratch d p (mx_scratch d).
Proof.
  destruct (pos_3 d Wd) as (P1 & P2 & P3). unfold scratch, mx_scratch. rewrite repeat_length. change (d_nx d * d_ny d * d_nz d) with (npts d). assert (0 <= npts d) by (unfold npts; nia). rewrite Z2Nat.id by nia. apply Z.mul_le_mono_nonneg_l; lia.
Qed.
Lemma ready_X X : S_Op.fields d X -> ready (Z.to_nat (ep X)) d X X (mx_scratch d).
Proof. intros F. split; [exact F|]. split; [exact F|]. split; [reflexivity|]. split; [exact Hn|]. split; [apply scr|lia]. Qed.
Lemma dp_parts l X : Forall2 (fun p A => part d p A X) ps l -> dp l = ep X.
Proof.
  intros H. pose proof (ps_nonempty d Wd ps Or) as Ne. inversion H as [|p A r s (_ & _ & E & _)]; subst; [exfalso; apply Ne; reflexivity|exact E].
Qed.

(** A run of an operator on the processes and on one. *)
Lemma finish_so q X l (r : option (outcome (list pst))) (s : option (outcome (emat C * list C))) l' Y f :
  Forall2 (fun p A => part d p A X) ps l -> ep X = Z.of_nat q -> r = Some (Val l') -> s = Some (Val (Y, f)) -> same_processes (mxp_states ps l) l' -> parts d l' X Y -> S_Op.fields d Y -> ep Y = ep X ->
  same_outcome (same_block q ns) (mx_finish s) (mxp_finish r).
Proof.
  intros H Eq -> -> (S1 & _) (_ & P2) FY EY. cbn [mx_finish mxp_finish bind same_outcome]. apply (sb_parts d Wd ps Dv Or). split; [exact FY|]. split; [congruence|].
  apply (outs_parts l' X Y); [rewrite S1; apply (states_p l X H)|exact P2].
Qed.
Lemma A_so q : same_op q ns (mx_A d) (mxp_A ps).
Proof.
  intros X l SB. apply (sb_parts d Wd ps Dv Or) in SB. destruct SB as (F & Eq & H). unfold mx_A, mxp_A. rewrite (dp_parts l X H).
  destruct (operators_mpi d Wd (Z.to_nat (ep X)) (Z.to_nat (ep X)) (mxp_states ps l) X X (mx_scratch d) (states_parts l X H) (states_room l X H) (le_n _) (ready_X X F)) as (l' & Y & f & E1 & E2 & S & P & _ & FY & EY).
  apply (finish_so q X l _ _ l' Y f H Eq E1 E2 S P FY EY).
Qed.
Lemma mu_agree p : In p ps -> (d_mu_inv (pd p) = None <-> d_mu_inv d = None).
Proof. intros I. destruct Dv as (Sh & _). destruct (Sh p I) as (_ & _ & _ & _ & _ & _ & _ & _ & _ & _ & _ & _ & _ & _ & M). destruct (d_mu_inv (pd p)), (d_mu_inv d); try contradiction; split; congruence. Qed.
Lemma mxp_B_eq : mxp_B ps = match d_mu_inv d with Some _ => Some (fun l => mxp_finish (muinv_operator_mpi (Z.to_nat (dp l)) (mxp_states ps l))) | None => None end.
Proof.
  pose proof (ps_nonempty d Wd ps Or) as Ne. pose proof mu_agree as M. clear Tm Wd Hn Dv Or. destruct ps as [|p0 r]; [contradiction|]. specialize (M p0 (or_introl eq_refl)). unfold mxp_B.
  destruct (d_mu_inv d) as [mu|], (d_mu_inv (pd p0)) as [mp|]; [reflexivity|exfalso; destruct M as (M & _); discriminate (M eq_refl)|exfalso; destruct M as (_ & M); discriminate (M eq_refl)|reflexivity].
Qed.
Lemma B_so q : same_opt q ns (mx_B d) (mxp_B ps).
Proof.
  unfold same_opt, mx_B. rewrite mxp_B_eq. destruct (d_mu_inv d) as [mu|]; [|exact I].
  intros X l SB. apply (sb_parts d Wd ps Dv Or) in SB. destruct SB as (F & Eq & H). rewrite (dp_parts l X H).
  destruct (muinvs_mpi d Wd (Z.to_nat (ep X)) (Z.to_nat (ep X)) (mxp_states ps l) X X (mx_scratch d) (states_parts l X H) (states_room l X H) (le_n _) (ready_X X F)) as (l' & Y & f & E1 & E2 & S & P & _ & FY & EY).
  apply (finish_so q X l _ _ l' Y f H Eq E1 E2 S P FY EY).
Qed.
Lemma K_so q : (1 <= q)%nat -> pre_fits false d -> same_K q ns (Some (mx_K false d)) (Some (mxp_K ps)).
Proof.
  intros Hq Pf X l Y m S SB _ HS. unfold mx_K, mxp_K.
  assert (Ne : ns <> []) by (unfold sizes_of; pose proof (ps_nonempty d Wd ps Or); clear -H; destruct ps; [contradiction|discriminate]).
  apply (so_bind (same_block q ns)); [apply (XeYS_so q ns Hq); [exact SB|exact SB|split; [reflexivity|exact HS]]|]. clear X l SB.
  intros X l SB. apply (sb_parts d Wd ps Dv Or) in SB. destruct SB as (F & Eq & H). rewrite (dp_parts l X H).
  destruct (preconds_mpi d Wd (Z.to_nat (ep X)) (Z.to_nat (ep X)) (mxp_states ps l) X X (mx_scratch d) Pf (states_parts l X H) (states_room l X H) (le_n _) (ready_X X F)) as (l' & Z & f & E1 & E2 & S' & P & _ & FY & EY).
  apply (finish_so q X l _ _ l' Z f H Eq E1 E2 S' P FY EY).
Qed.

(** ** The constraints *)
Lemma local_so q X Y (f : proc * emat C -> outcome (emat C)) l : S_Op.fields d Y -> ep Y = Z.of_nat q -> Forall2 (fun p A => part d p A X) ps l ->
  (forall p A, In p ps -> part d p A X -> exists B, f (p, A) = Val B /\ part d p B Y) ->
  exists l', mapM f (combine ps l) = Val l' /\ same_block q ns Y l'.
Proof.
  intros FY EY H Hf. assert (K : exists l', mapM f (combine ps l) = Val l' /\ Forall2 (fun p A => part d p A Y) ps l').
  { clear -H Hf. revert Hf. induction H as [|p A r s H1 _ IH]; intros Hf; [exists []; split; [reflexivity|constructor]|]. destruct (Hf p A (or_introl eq_refl) H1) as (B & E & PB).
    destruct IH as (l' & E' & F'); [intros p' A' I; apply Hf; right; exact I|]. exists (B :: l'). cbn [combine mapM]. rewrite E. cbn [bind]. rewrite E'. cbn [bind]. split; [reflexivity|constructor; assumption]. }
  destruct K as (l' & E & F'). exists l'. split; [exact E|]. apply (sb_parts d Wd ps Dv Or). auto.
Qed.

Definition agrees (p : proc) (q : Z) (a x : list C) : Prop := forall u y z c b, inside (pnx p) ny nz q u y z c b -> amp ny nz q a u y z c b = amp ny nz q x (px0 p + u) y z c b.
Lemma amp_ent X u y z c b : amp ny nz (ep X) (edata X) u y z c b = entC X (2 * pt d u y z + c) b.
Proof. unfold amp, entC, pt. f_equal. ring. Qed.
Lemma part_agrees p A X : part d p A X -> agrees p (ep X) (edata A) (edata X).
Proof.
  intros (_ & _ & E & H) u y z c b (H1 & H2 & H3 & H4 & H5). rewrite <- E at 1. rewrite !amp_ent. rewrite <- H by lia. f_equal. unfold pt. replace (px0 p + u - px0 p) with u by ring. ring.
Qed.
Lemma agrees_part p A X : wf A -> en A = 2 * (pnx p * ny * nz) -> ep A = ep X -> agrees p (ep X) (edata A) (edata X) -> part d p A X.
Proof.
  intros W N E H. split; [exact W|]. split; [exact N|]. split; [exact E|]. intros x y z c b H1 H2 H3 H4 H5.
  specialize (H (x - px0 p) y z c b ltac:(repeat split; lia)). rewrite <- E in H at 1. rewrite !amp_ent in H. unfold pt in H at 1. rewrite H. f_equal. unfold pt. replace (px0 p + (x - px0 p)) with x by ring. reflexivity.
Qed.
Lemma agrees_proj p q s mx my a a' x x' : slab (px0 p) (pnx p) nx -> (forall y z, 0 <= y < ny -> 0 <= z < nz -> 0 <= mx y z < ny /\ 0 <= my y z < nz) ->
  agrees p q a x -> projected (pnx p) ny nz q s mx my a a' -> projected nx ny nz q s mx my x x' -> agrees p q a' x'.
Proof.
  intros Sl Hm H (_ & Pa & _) (_ & Px & _) u y z c b Hi. pose proof Hi as (H1 & H2 & H3 & H4 & H5). destruct (Hm y z H2 H3) as (M1 & M2).
  rewrite (Pa _ _ _ _ _ Hi). destruct Sl as [|Sl]; [lia|]. rewrite (Px (px0 p + u) y z c b) by (repeat split; lia). rewrite <- !H by (repeat split; lia). reflexivity.
Qed.
Lemma parity_so q parity : sizes nx nx ny nz -> (ny = 1 -> nz = 1 -> forall p, In p ps -> pnx p = nx) -> same_op q ns (mx_parity d parity) (mxp_parity ps parity).
Proof.
  intros _ Sz X l SB. apply (sb_parts d Wd ps Dv Or) in SB. destruct SB as (F & Eq & H). destruct (pos_3 d Wd) as (P1 & P2 & P3).
  assert (HN : 0 <= nx * ny * nz) by nia. pose proof F as (W & En). pose proof W as (_ & Wp & Wl).
  assert (Fd : field nx ny nz (ep X) (edata X)) by (repeat split; try lia; rewrite Wl, En; unfold npts; nia).
  destruct (pc_ok nx nx ny nz parity (ep X) (edata X) Fd ltac:(intros _ _; reflexivity)) as (X1 & X' & E & Hz & Hy & L1 & L2).
  unfold mx_parity. rewrite E. cbn [bind].
  destruct (local_so q X (set_data X X') (fun q => let p := fst q in let X := snd q in
    let! dt := parity_constraint (d_nx (pd p)) (pnx p) (d_ny (pd p)) (d_nz (pd p)) parity (ep X) (edata X) in Val (set_data X dt)) l) as (l' & El & Sl); [split; [apply wf_set; assumption|exact En]|exact Eq|exact H| |assert (El' : mxp_parity ps parity l = Val l') by exact El; rewrite El'; exact Sl].
  intros p A I PA. cbn [fst snd]. destruct Dv as (Sh & _). destruct (Sh p I) as (E1 & E2 & E3 & _ & S5 & _). rewrite E1, E2, E3. pose proof PA as (WA & NA & EA & _). pose proof WA as (_ & WpA & WlA).
  assert (Hp : 0 <= pnx p) by (destruct S5; lia). assert (HNp : 0 <= pnx p * ny * nz) by nia.
  assert (FdA : field (pnx p) ny nz (ep A) (edata A)) by (repeat split; try lia; rewrite WlA, NA; nia).
  destruct (pc_ok nx (pnx p) ny nz parity (ep A) (edata A) FdA) as (A1 & A' & EA' & HzA & HyA & LA1 & LA2); [intros Q1 Q2; apply Sz; assumption|]. rewrite EA'. cbn [bind]. eexists. split; [reflexivity|].
  apply agrees_part; [apply wf_set; assumption|exact NA|exact EA|]. change (ep (set_data X X')) with (ep X). change (edata (set_data A A')) with A'. change (edata (set_data X X')) with X'.
  pose proof (part_agrees p A X PA) as G. rewrite EA in HzA, HyA.
  assert (G1 : agrees p (ep X) A1 X1).
  { destruct Hz as [(Z0 & ->)|(Z0 & Pz)], HzA as [(Z1 & ->)|(Z1 & PzA)]; try contradiction; [exact G|]. refine (agrees_proj p (ep X) _ _ _ (edata A) A1 (edata X) X1 S5 _ G PzA Pz).
    intros y z Hy' Hz'. split; [exact Hy'|apply opp_range; lia]. }
  destruct Hy as [(Z0 & ->)|(Z0 & Py)], HyA as [(Z1 & ->)|(Z1 & PyA)]; try contradiction; [exact G1|]. refine (agrees_proj p (ep X) _ _ _ A1 A' X1 X' S5 _ G1 PyA Py).
  intros y z Hy' Hz'. split; [apply opp_range; lia|exact Hz'].
Qed.

Lemma zero_k_so q : first_plane ps -> same_op q ns (fun X => zero_k_constraint C0 X 0) (mxp_zero_k ps).
Proof.
  intros Fp X l SB. apply (sb_parts d Wd ps Dv Or) in SB. destruct SB as (F & Eq & H). destruct (pos_3 d Wd) as (P1 & P2 & P3).
  assert (HN : 1 <= npts d) by (unfold npts; nia). pose proof F as (W & En).
  destruct (zero_k_ok C0 X 0 W ltac:(lia)) as (X' & E & W' & En' & Ep' & _ & V). rewrite E.
  destruct (local_so q X X' (fun q => let p := fst q in zero_k_constraint C0 (snd q) (px0 p * d_ny (pd p) * d_nz (pd p))) l) as (l' & El & Sl); [split; [exact W'|congruence]|congruence|exact H| |assert (El' : mxp_zero_k ps l = Val l') by exact El; rewrite El'; exact Sl].
  intros p A I PA. cbn [fst snd]. destruct Dv as (Sh & _). destruct (Sh p I) as (E1 & E2 & E3 & _ & S5 & _). rewrite E2, E3. pose proof PA as (WA & NA & EA & HA). assert (Hp : 0 <= pnx p) by (destruct S5; lia).
  assert (Hs : px0 p * ny * nz <= 0 <-> px0 p <= 0) by nia.
  destruct (zero_k_ok C0 A (px0 p * ny * nz) WA) as (B & EB & WB & NB & PB & _ & VB); [intros Q; apply Hs in Q; specialize (Fp p I Q); rewrite NA; nia|].
  exists B. split; [exact EB|]. split; [exact WB|]. split; [congruence|]. split; [congruence|]. rewrite Ep'. intros x y z c b H1 H2 H3 H4 H5. destruct S5 as [|S5]; [lia|].
  set (i := 2 * (((x - px0 p) * ny + y) * nz + z) + c). set (j := 2 * pt d x y z + c).
  assert (Hi : 0 <= ((x - px0 p) * ny + y) * nz + z < pnx p * ny * nz) by (apply pos_in; lia). assert (Hj : 0 <= pt d x y z < npts d) by (unfold pt, npts; apply pos_in; lia).
  specialize (VB i b ltac:(unfold i; rewrite NA; lia) ltac:(rewrite EA; lia)). specialize (V j b ltac:(unfold j; rewrite En; lia) ltac:(lia)). specialize (HA x y z c b H1 H2 H3 H4 H5). fold i j in HA.
  assert (K : ((px0 p * ny * nz <=? 0) && (i <? 2) = (0 <=? 0) && (j <? 2))%bool).
  { change (0 <=? 0) with true. cbn [andb]. destruct (Z.leb_spec (px0 p * ny * nz) 0) as [Q|Q].
    - apply Hs in Q. assert (Ez : px0 p = 0) by lia. cbn [andb]. f_equal. unfold i, j, pt. rewrite Ez. f_equal. f_equal. ring.
    - assert (0 < px0 p) by nia. symmetry. cbn [andb]. apply Z.ltb_ge. unfold j, pt. assert (1 <= x) by lia. assert (1 <= x * ny) by nia. nia. }
  rewrite K in VB. unfold entC, gets. fold (ent B i b). fold (ent X' j b). rewrite VB, V. destruct ((0 <=? 0) && (j <? 2))%bool; [reflexivity|]. exact HA.
Qed.
End D.
