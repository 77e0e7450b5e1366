(** One Rayleigh-Ritz step of the Davidson solver. *)
From Coq Require Import List ZArith Reals Bool Arith Lia Lra FunctionalExtensionality.
From Verif Require Import Base RC Loops L_Op M_Evect M_Lin M_Eig M_Dav S_Evect S_Eig S_Dav L_Evect L_Evect3 L_Mat L_Eig L_Eig2 L_Eig3 L_Eig4 L_Eig5 L_Eig7 L_Dav L_Dav2.
Import ListNotations.
Local Open Scope R_scope.
Add Ring Cring_d3 : C_ring_theory.

Section Step.
Variables (n p nb : nat) (potr : Z -> list C -> option (list C)) (heev : Z -> list C -> list C * list R).
Variables (opA : emat C -> outcome (emat C)) (opK : option (emat C -> emat C -> list R -> outcome (emat C))) (constraint : option (emat C -> outcome (emat C))).
Variables (HA HP : mat) (target tolerance : R).
Hypothesis Ok : davidson_ok n p nb potr heev opA opK constraint HA HP.
Let Hp := dk_p _ _ _ _ _ _ _ _ _ _ Ok. Let Pok := dk_potr _ _ _ _ _ _ _ _ _ _ Ok. Let Eok := dk_heev _ _ _ _ _ _ _ _ _ _ Ok.
Let DA := dk_dimA _ _ _ _ _ _ _ _ _ _ Ok. Let HhA := dk_hermA _ _ _ _ _ _ _ _ _ _ Ok. Let OA := dk_A _ _ _ _ _ _ _ _ _ _ Ok.
Let OK := dk_K _ _ _ _ _ _ _ _ _ _ Ok. Let OP := dk_P _ _ _ _ _ _ _ _ _ _ Ok. Let PP := dk_idem _ _ _ _ _ _ _ _ _ _ Ok.

Lemma combine_ok b it V M Sm MS X MX : (it + p <= p * S b)%nat -> (forall k, (k <= b)%nat -> holds n p V k (M k)) -> square (p * S b) Sm MS -> fields n p X MX ->
  exists X', combine_blocks (Z.of_nat b) (Z.of_nat p) (Z.of_nat (p * S b)) (Z.of_nat it) V Sm X = Val X' /\
    fields n p X' (mmul (p * S b) (blocks p (S b) M) (sel p it (p * S b) MS)).
Proof.
  intros Hit HV HS HX. unfold combine_blocks. set (q := (p * S b)%nat) in *. set (W := blocks p (S b) M). set (T := sel p it q MS).
  destruct (forZ_inv (fun i X => exists k MX, i = Z.of_nat k /\ fields n p X MX /\ ((1 <= k)%nat -> MX = mmul (p * k) W T))
    (fun i X => let! v := rd V i in aXpbYS_sub (if (i =? 0)%Z then 0 else 1) X 1 v Sm (Z.of_nat it * Z.of_nat q + Z.of_nat p * i) true) 0 (Z.of_nat b + 1) X) as (X' & E & (k & MX' & Ek & HX' & Q)).
  - lia.
  - exists 0%nat, MX. split; [reflexivity|]. split; [exact HX|]. lia.
  - intros i X0 Hi (k & MX0 & -> & HX0 & Q). assert (Hk : (k <= b)%nat) by lia. destruct (holds_rd n p V k (M k) (HV k Hk)) as (v & Ev & Hv). rewrite Ev. cbn [bind].
    replace (Z.of_nat it * Z.of_nat q + Z.of_nat p * Z.of_nat k)%Z with (Z.of_nat (it * q + p * k)) by lia.
    destruct (aXpbYS_off n p q (if (Z.of_nat k =? 0)%Z then 0 else 1) X0 MX0 1 v (M k) Sm MS it (p * k) Hp HX0 Hv HS Hit ltac:(unfold q; nia)) as (X1 & E1 & H1).
    exists X1. split; [exact E1|]. exists (S k), (mmul (p * S k) W T). split; [lia|]. split; [|reflexivity].
    replace (mmul (p * S k) W T) with (madd (mscal 1 (mmul p (M k) (madj (subm it (p * k) p MS)))) (mscal (if (Z.of_nat k =? 0)%Z then 0 else 1) MX0)); [exact H1|].
    apply mext; intros i j. unfold madd, mscal, mmul. replace (p * S k)%nat with (p * k + p)%nat by lia. rewrite csum_app.
    assert (S1 : csum p (fun l => (M k i l * madj (subm it (p * k) p MS) l j)%C) = csum p (fun l => (W i (p * k + l)%nat * T (p * k + l)%nat j)%C)).
    { apply csum_ext. intros l Hl. unfold W. rewrite blocks_at by (auto; lia). f_equal. unfold T, sel, madj, subm. destruct (Nat.ltb_spec (p * k + l) q); [|unfold q in *; nia]. cbn [andb].
      destruct (Nat.ltb_spec j p); cbn [andb]; [|apply C_eq; csimp; ring]. destruct (Nat.ltb_spec l p); [|lia]. reflexivity. }
    rewrite S1. destruct (Z.eqb_spec (Z.of_nat k) 0) as [K0|K0].
    + assert (k = 0%nat) by lia. subst k. rewrite Nat.mul_0_r. cbn [csum]. apply C_eq; csimp; ring.
    + rewrite Q by lia. unfold mmul. apply C_eq; csimp; ring.
  - exists X'. split; [exact E|]. replace k with (S b) in * by lia. rewrite Q in HX' by lia. exact HX'.
Qed.

Hypothesis Hnb : (2 <= nb)%nat.
Lemma Eok1 : heev_ok p heev.
Proof. rewrite <- (Nat.mul_1_r p). apply Eok. lia. Qed.

Lemma orthonormalize_ok X MX Z0 MZ : fields n p X MX -> fields n p Z0 MZ ->
  orthonormalize potr heev X Z0 = Abort /\ ~ posdef p (mmul n (madj MX) MX) \/
  exists Z' MZ', orthonormalize potr heev X Z0 = Val Z' /\ posdef p (mmul n (madj MX) MX) /\ fields n p Z' MZ' /\ respan p MX MZ' /\ mmul n (madj MZ') MZ' = mid p.
Proof.
  intros HX HZ. unfold orthonormalize. rewrite (proj1 (proj2 HX)). pose proof (create_square p) as HW. set (W := create_sq (Z.of_nat p)) in *.
  destruct (XtX_ok n p W _ X MX W _ HW HW HX) as (U & E & HU). rewrite E. cbn [bind]. set (G := mmul n (madj MX) MX) in *.
  assert (HG : hermitian G) by (unfold hermitian, G; rewrite madj_mul, madj_adj; reflexivity).
  assert (DX := fields_dim _ _ _ _ HX). assert (DG : mdim p p G) by (apply (mdim_mul p n p); [apply mdim_adj|]; exact DX).
  pose proof (invert_ok p potr U G Pok HU HG) as I. destruct (invert potr U) as [[U'|]| | |]; try contradiction; cbn [bind]; [|left; auto]. right.
  destruct I as (Pd & N & HU' & Inv). destruct (inv_both p G N DG HG Inv) as (HN & NG). pose proof (posdef_inverse p G N DG HG Inv Pd) as PN.
  destruct (sqrt_ok p heev Eok1 W _ U' N W _ HW HU' HW HN PN) as (Q & MQ & EQ & HQ & HhQ & QQ). rewrite EQ. cbn [bind].
  destruct (XeYS_ok n p Z0 MZ X MX Q MQ true Hp HZ HX HQ) as (Z' & EZ & HZ'). cbn [opm] in HZ'. rewrite HhQ in HZ'. exists Z', (mmul p MX MQ).
  split; [exact EZ|]. split; [exact Pd|]. split; [exact HZ'|]. destruct Inv as (DN & GN). assert (DQ := square_dim _ _ _ HQ).
  assert (R1 : mmul p MQ (mmul p MQ G) = mid p) by (rewrite <- mmul_assoc, QQ; exact NG).
  assert (L1 : mmul p (mmul p G MQ) MQ = mid p) by (rewrite mmul_assoc, QQ; exact GN).
  assert (DQG : mdim p p (mmul p MQ G)) by (apply (mdim_mul p p p); auto).
  assert (DGQ : mdim p p (mmul p G MQ)) by (apply (mdim_mul p p p); auto).
  assert (Cm : mmul p MQ G = mmul p G MQ).
  { rewrite <- (mid_l p p (mmul p MQ G) DQG), <- L1, mmul_assoc. rewrite R1. apply (mid_r p p). exact DGQ. }
  split.
  - exists MQ, (mmul p MQ G). split; [exact DQ|]. split; [exact DQG|]. split; [exact R1|]. split; [rewrite Cm; exact L1|reflexivity].
  - rewrite madj_mul, HhQ. rewrite mmul_assoc. rewrite <- (mmul_assoc n p (madj MX) MX MQ). fold G. rewrite <- Cm. exact R1.
Qed.

Record dinv (s : dst) (b : nat) (M : nat -> mat) : Prop := {
  i_b : d_ibasis s = Z.of_nat b; i_lt : (b < nb)%nat; i_lV : length (d_V s) = nb; i_lA : length (d_AV s) = nb;
  i_V : forall k, (k < nb)%nat -> exists X, holds n p (d_V s) k X; i_VM : forall k, (k <= b)%nat -> holds n p (d_V s) k (M k);
  i_A : forall k, (k < nb)%nat -> exists X, holds n p (d_AV s) k X; i_AM : forall k, (k < b)%nat -> holds n p (d_AV s) k (mmul n HA (M k));
  i_sp : sp (d_VAV s) = Z.of_nat (p * b); i_sa : salloc (d_VAV s) = Z.of_nat (p * nb); i_wf : wfs (d_VAV s);
  i_c : forall r c, (r <= c < p * b)%nat -> cell (p * b) (d_VAV s) r c = form n HA (blocks p (S b) M) (blocks p (S b) M) r c;
  i_o : orthoblocks n p (S b) M; i_k : forall k, (k <= b)%nat -> satisfies n HP (M k);
  i_Y : exists X, fields n p (d_Y s) X; i_e : (p <= length (d_e s))%nat }.

Record rinv (s : dst) (b : nat) (M : nat -> mat) (r : ritz) (it : nat) (U : mat) (e : list R) : Prop := {
  j_q : r_q r = Z.of_nat (p * S b); j_it : r_it r = Z.of_nat it; j_in : (it + p <= p * S b)%nat; j_lA : length (r_AV r) = nb;
  j_A : forall k, (k < nb)%nat -> exists X, holds n p (r_AV r) k X; j_AM : forall k, (k <= b)%nat -> holds n p (r_AV r) k (mmul n HA (M k));
  j_sp : sp (r_VAV r) = Z.of_nat (p * S b); j_sa : salloc (r_VAV r) = Z.of_nat (p * nb); j_wf : wfs (r_VAV r);
  j_c : forall i j, (i <= j < p * S b)%nat -> cell (p * S b) (r_VAV r) i j = form n HA (blocks p (S b) M) (blocks p (S b) M) i j;
  j_S : square (p * S b) (r_S r) U; j_U1 : mmul (p * S b) U (madj U) = mid (p * S b); j_U2 : mmul (p * S b) (madj U) U = mid (p * S b);
  j_D : form n HA (blocks p (S b) M) (blocks p (S b) M) = mmul (p * S b) (madj U) (mmul (p * S b) (mdiag (p * S b) (fun i => nth i e 0)) U);
  j_len : length e = (p * S b)%nat; j_asc : forall i j, (i <= j < p * S b)%nat -> nth i e 0 <= nth j e 0;
  j_tgt : itarget (Z.of_nat p) (Z.of_nat (p * S b)) target e = Val (Z.of_nat it);
  j_Y : fields n p (r_Y r) (mmul (p * S b) (blocks p (S b) M) (sel p it (p * S b) U));
  j_le : (p <= length (r_e r))%nat; j_e : forall i, (i < p)%nat -> nth i (r_e r) 0 = nth (it + i) e 0;
  j_E : r_E r = rsum p (fun i => nth (it + i) e 0) }.

Lemma rayleigh_ritz_ok s b M : dinv s b M -> exists r it U e, rayleigh_ritz heev opA target s = Val r /\ rinv s b M r it U e.
Proof.
  intros [Ib Il IlV IlA IV IVM IA IAM Isp Isa Iwf Ic Io Ik (MY0 & IY) Ie]. unfold rayleigh_ritz. rewrite Ib, (proj1 (proj2 IY)).
  destruct (holds_rd n p _ b (M b) (IVM b ltac:(lia))) as (v & -> & Hv). cbn [bind]. destruct (OA v (M b) Hv) as (av & -> & Hav). cbn [bind].
  destruct (holds_wr n p (d_AV s) b av _ ltac:(lia) Hav) as (AV & -> & LA & AVb & AVo). cbn [bind].
  replace (Z.of_nat p * (Z.of_nat b + 1))%Z with (Z.of_nat (p * S b)) by lia.
  destruct (sresize_ok (d_VAV s) (Z.of_nat (p * S b)) Iwf ltac:(rewrite Isa; nia)) as (V1 & -> & W1 & Sp1 & Sa1 & Q1). cbn [bind].
  assert (C1 : forall r c, (r <= c < p * b)%nat -> cell (p * S b) V1 r c = form n HA (blocks p (S b) M) (blocks p (S b) M) r c).
  { intros r c Hrc. rewrite <- Ic by exact Hrc. unfold cell. specialize (Q1 (Z.of_nat r) (Z.of_nat c)). unfold sent in Q1. rewrite Sp1, Isp in Q1. rewrite <- !gets_nth. unfold gets.
    replace (Z.of_nat (r * (p * S b) + c)) with (Z.of_nat r * Z.of_nat (p * S b) + Z.of_nat c)%Z by lia. rewrite Q1 by nia. replace (Z.of_nat (r * (p * b) + c)) with (Z.of_nat r * Z.of_nat (p * b) + Z.of_nat c)%Z by lia. reflexivity. }
  destruct (forZ_inv (fun i Wm => exists k, i = Z.of_nat k /\ sp Wm = Z.of_nat (p * S b) /\ salloc Wm = salloc V1 /\ wfs Wm /\
      forall r c, (r <= c < p * S b)%nat -> (c < p * b \/ r < p * k)%nat -> cell (p * S b) Wm r c = form n HA (blocks p (S b) M) (blocks p (S b) M) r c)
    (fun i Wm => let! v := rd (d_V s) i in XtY_sub Wm (Z.of_nat p * (Z.of_nat (p * S b) * i + Z.of_nat b)) v av (create_sq (Z.of_nat p))) 0 (Z.of_nat b + 1) V1) as (V2 & E2 & (k & Ek & Sp2 & Sa2 & W2 & C2)).
  { lia. }
  { exists 0%nat. split; [reflexivity|]. repeat (split; [auto|]). intros r c Hrc [H|H]; [apply C1; lia|lia]. }
  { intros i Wm Hi (k & -> & Spm & Sam & Wfm & Cm). destruct (holds_rd n p _ k (M k) (IVM k ltac:(lia))) as (vk & -> & Hvk). cbn [bind].
    replace (Z.of_nat p * (Z.of_nat (p * S b) * Z.of_nat k + Z.of_nat b))%Z with (Z.of_nat ((p * k) * (p * S b) + p * b)) by nia.
    destruct (XtY_sub_ok n p (p * S b) Wm vk (M k) av (mmul n HA (M b)) (p * k) (p * b) Hp Spm Wfm ltac:(nia) ltac:(nia) Hvk Hav) as (W' & E & Sp' & Sa' & Wf' & C').
    exists W'. split; [exact E|]. exists (S k). split; [lia|]. split; [exact Sp'|]. split; [congruence|]. split; [exact Wf'|]. intros r c Hrc Hd. rewrite C' by lia.
    destruct (Nat.leb_spec (p * k) r), (Nat.ltb_spec r (p * k + p)), (Nat.leb_spec (p * b) c), (Nat.ltb_spec c (p * b + p)); cbn [andb]; try (apply Cm; lia); try (exfalso; nia).
    replace r with (p * k + (r - p * k))%nat at 2 by lia. replace c with (p * b + (c - p * b))%nat at 2 by lia. rewrite (blocks_form n p Hp (S b) HA M) by lia. reflexivity. }
  rewrite E2. cbn [bind]. replace k with (S b) in * by lia. clear Ek.
  set (W := blocks p (S b) M) in *. assert (DW : mdim n (p * S b) W) by (apply blocks_dim; [exact Hp|apply Io]).
  assert (DF : mdim (p * S b) (p * S b) (form n HA W W)) by (apply mdim_form; auto).
  destruct (upper2full_ok (p * S b) V2 (form n HA W W) Sp2 W2 DF ltac:(apply form_herm; exact HhA)) as (F & -> & HF).
  { intros r c Hrc. apply C2; [lia|]. lia. }
  cbn [bind]. destruct (eigensolve_ok (p * S b) heev ltac:(apply Eok; lia) F _ HF ltac:(apply form_herm; exact HhA)) as (Vs & e & U & -> & Le & HU & U1 & U2 & EU & Asc).
  destruct (itarget_any p (p * S b) target e Hp ltac:(nia) Le) as (it & Eit & Hit & _). rewrite Eit. cbn [bind].
  destruct (take_ok p it e (d_e s) ltac:(lia) Ie) as (e' & -> & Le' & Qe). cbn [bind].
  destruct (combine_ok b it (d_V s) M Vs U (d_Y s) MY0 Hit IVM HU IY) as (Y' & EY & HY'). rewrite EY. cbn [bind].
  eexists _, it, U, e. split; [reflexivity|]. constructor; cbn [r_q r_it r_AV r_VAV r_S r_Y r_e r_E]; auto; try lia.
  - intros k0 Hk0. destruct (Nat.eq_dec k0 b) as [->|Ne]; [eauto|]. destruct (IA k0 Hk0) as (X & HX). exists X. apply AVo; auto.
  - intros k0 Hk0. destruct (Nat.eq_dec k0 b) as [->|Ne]; [exact AVb|]. apply AVo; [exact Ne|]. apply IAM. lia.
  - intros i j Hij. apply C2; [exact Hij|]. right. lia.
Qed.
End Step.
