(** Proofs about the group velocities. *)
From Coq Require Import List ZArith Reals Bool Lia Lra.
From Verif Require Import Base RC Loops M_Tensor S_Tensor M_Evect S_Evect L_Evect L_Evect3 M_Grid S_Grid M_Op S_Op L_Op L_Op2 L_Op3 L_Op4 L_Op5 M_Gv S_Gv.
Import ListNotations.
Local Open Scope Z_scope.

Definition getr (l : list R) (i : Z) : R := nth (Z.to_nat i) l 0%R.
Lemma getr_in l i : 0 <= i < Z.of_nat (length l) -> rd l i = Val (getr l i).
Proof. intros H. unfold rd, getr. destruct (Z.ltb_spec i 0); [lia|]. rewrite (nth_error_nth' l 0%R) by lia. reflexivity. Qed.
Lemma getr_wr l i v : 0 <= i < Z.of_nat (length l) -> exists l', wr l i v = Val l' /\ length l' = length l /\ (forall j, 0 <= j -> getr l' j = if j =? i then v else getr l j).
Proof.
  intros H. pose proof (wr_in l i v H) as E. eexists. split; [exact E|]. split; [apply upd_length|]. intros j Hj.
  pose proof (rd_wr _ _ _ j _ E) as Q. destruct (Z_lt_ge_dec j (Z.of_nat (length l))) as [Hl|Hl].
  - rewrite getr_in in Q by (rewrite upd_length; lia). rewrite getr_in in Q by lia. destruct (j =? i); congruence.
  - destruct (Z.eqb_spec j i); [lia|]. unfold getr. rewrite !nth_overflow; [reflexivity| |rewrite upd_length]; lia.
Qed.

(** Writing entries 0..p-1 from functions of the entry itself. *)
Lemma getr_loop p l (f : Z -> list R -> outcome (list R)) (F : Z -> R -> R) : 0 <= p <= Z.of_nat (length l) ->
  (forall j l', 0 <= j < p -> length l' = length l -> f j l' = wr l' j (F j (getr l' j))) ->
  exists l', forZ 0 p f l = Val l' /\ length l' = length l /\ (forall j, 0 <= j -> getr l' j = if j <? p then F j (getr l j) else getr l j).
Proof.
  intros Hp Hf. destruct (forZ_inv (fun i l' => length l' = length l /\ (forall j, 0 <= j -> getr l' j = if j <? i then F j (getr l j) else getr l j)) f 0 p l) as (l' & E & L & H).
  - lia.
  - split; [reflexivity|]. intros j Hj. destruct (Z.ltb_spec j 0); [lia|reflexivity].
  - intros i l' Hi (L & H). rewrite (Hf i l' Hi L). destruct (getr_wr l' i (F i (getr l' i))) as (l2 & E2 & L2 & H2); [lia|]. exists l2. split; [exact E2|].
    split; [congruence|]. intros j Hj. rewrite H2 by exact Hj. rewrite (H j) by exact Hj. rewrite (H i) by lia. destruct (Z.ltb_spec i i); [lia|].
    destruct (Z.eqb_spec j i) as [->|]; destruct (Z.ltb_spec i (i + 1)); try lia; [reflexivity|]. destruct (Z.ltb_spec j i), (Z.ltb_spec j (i + 1)); lia || reflexivity.
  - exists l'. auto.
Qed.

Lemma entC_rd (X : emat C) i j : wf X -> 0 <= i < en X -> 0 <= j < ep X -> rd (edata X) (i * ep X + j) = Val (entC X i j).
Proof. intros (Wn & Wp & Wl) Hi Hj. unfold entC. apply gets_in. rewrite Wl. pose proof (rowin (en X) (ealloc X) (ep X) i j Hi Hj ltac:(lia)). lia. Qed.

Lemma diag_ok X Y dg : wf X -> wf Y -> en X = en Y -> ep X = ep Y -> ep X <= Z.of_nat (length dg) ->
  exists dg', XtY_diag_real X Y dg = Val dg' /\ length dg' = length dg /\ (forall j, 0 <= j < ep X -> getr dg' j = re (dotl X Y j j)).
Proof.
  intros WX WY En Ep Hl. pose proof WX as (Wn & Wp & _). unfold XtY_diag_real.
  destruct (getr_loop (ep X) dg (fun j dg => wr dg j 0%R) (fun _ _ => 0%R)) as (d0 & E0 & L0 & H0); [lia|reflexivity|]. rewrite E0. cbn [bind].
  destruct (forZ_inv (fun i l => length l = length dg /\ (forall j, 0 <= j < ep X -> getr l j = re (csum (Z.to_nat i) (fun i => (Cconj (entC X (Z.of_nat i) j) * entC Y (Z.of_nat i) j)%C))))
    (fun i dg => forZ 0 (ep X) (fun j dg => let! x := rd (edata X) (i * ep X + j) in let! y := rd (edata Y) (i * ep X + j) in
       let! v := rd dg j in wr dg j (v + (re x * re y + im x * im y))%R) dg) 0 (en X) d0) as (d1 & E1 & L1 & H1).
  - exact Wn.
  - split; [exact L0|]. intros j Hj. rewrite H0 by lia. destruct (Z.ltb_spec j (ep X)); [|lia]. reflexivity.
  - intros i l Hi (L & H).
    destruct (getr_loop (ep X) l (fun j dg => let! x := rd (edata X) (i * ep X + j) in let! y := rd (edata Y) (i * ep X + j) in
       let! v := rd dg j in wr dg j (v + (re x * re y + im x * im y))%R)
       (fun j v => (v + (re (entC X i j) * re (entC Y i j) + im (entC X i j) * im (entC Y i j)))%R)) as (l' & E & L' & H').
    + lia.
    + intros j l' Hj Ll. rewrite (entC_rd X i j WX Hi Hj). rewrite Ep. rewrite (entC_rd Y i j WY) by lia. cbn [bind]. rewrite getr_in by lia. reflexivity.
    + exists l'. split; [exact E|]. split; [congruence|]. intros j Hj. rewrite H' by lia. destruct (Z.ltb_spec j (ep X)); [|lia]. rewrite H by exact Hj.
      replace (Z.to_nat (i + 1)) with (S (Z.to_nat i)) by lia. cbn [csum]. rewrite Z2Nat.id by lia. csimp. ring.
  - rewrite E1. exists d1. split; [reflexivity|]. split; [exact L1|]. intros j Hj. rewrite H1 by exact Hj. reflexivity.
Qed.

(** The operators do not change the space allocated for their output. *)
Lemma run_inv {S X} (f : X -> S -> outcome S) (P : S -> Prop) : (forall x s s', f x s = Val s' -> P s -> P s') -> forall l s s', run f l s = Val s' -> P s -> P s'.
Proof.
  intros Hf. induction l as [|x l IH]; intros s s' E HP; cbn [run] in E; [injection E as <-; exact HP|].
  destruct (f x s) as [s1| | |] eqn:E1; cbn [bind] in E; try discriminate. exact (IH _ _ E (Hf _ _ _ E1 HP)).
Qed.
Lemma transverse_alloc prj d X start nb fft X' : to_transverse prj d X start nb fft = Val X' -> ealloc X' = ealloc X.
Proof. unfold to_transverse. intros E. apply bind_val in E as (dt & _ & E). injection E as <-. reflexivity. Qed.
Lemma ucross_alloc fuel d u X W fft W' f' : ucross_op fuel d u X W fft = Some (Val (W', f')) -> ealloc W' = ealloc W.
Proof.
  unfold ucross_op. destruct (batches fuel 0 (ep X) (d_nfb d)) as [l|]; [|discriminate]. cbn [option_map]. intros E. injection E as E.
  apply bind_val in E as (sc & _ & E). refine (run_inv (ucross_batch d u X sc) (fun s => ealloc (fst s) = ealloc W) _ _ _ _ E eq_refl). clear E.
  intros [start nb] [Xo f] [Xo' f''] E HP. cbn [fst] in *. unfold ucross_batch in E.
  apply bind_val in E as (f1 & _ & E). apply bind_val in E as (f2 & _ & E). apply bind_val in E as (f3 & _ & E). unfold H_from_e in E. apply bind_val in E as (f4 & _ & E).
  apply bind_val in E as (f5 & _ & E). apply bind_val in E as (X2 & E2 & E). injection E as <- <-. rewrite (transverse_alloc _ _ _ _ _ _ _ E2). exact HP.
Qed.

Section D.
Variable d : mdata.
Hypothesis Wd : wfd d.
Notation N := (npts d).

Lemma resize_ok_f X p : fields d X -> 0 <= p <= ealloc X -> exists X', evectmatrix_resize X p false = Val X' /\ fields d X' /\ ep X' = p /\ ealloc X' = ealloc X.
Proof.
  intros ((Wn & Wp & Wl) & En) Hp. unfold evectmatrix_resize, check. destruct (Z.leb_spec p (ealloc X)); [|lia]. cbn [bind].
  eexists. split; [reflexivity|]. split; [|split; reflexivity]. split; [|exact En]. repeat split; cbn; lia.
Qed.

Lemma HfB_ok n B H bs nb fft : fields d B -> fields d H -> 0 <= bs -> 0 < nb -> bs + nb <= ep B -> nb <= ep H ->
  (d_mu_inv d <> None -> 3 * N * nb <= Z.of_nat (length fft)) ->
  exists H' f', H_from_B (with_nfb n d) false B H bs 0 nb fft = Val (H', f') /\ length f' = length fft /\ fields d H' /\ ep H' = ep H /\ ealloc H' = ealloc H /\
    (forall b, 0 <= b < nb -> feq d (fld H' b) (mumaybe d (fld B (bs + b)))).
Proof.
  intros FB FH Hbs Hnb Hb Hh Hf. pose proof (wfd_nfb n d Wd) as Wn. destruct (d_mu_inv d) as [mu|] eqn:Em.
  - destruct (H_from_B_mu (with_nfb n d) Wn mu false B H bs 0 nb fft) as (H' & f' & E & L & F & P & A & Q & _); auto; try lia; [apply Hf; discriminate|].
    exists H', f'. repeat (split; [assumption|]). intros b Hbb. unfold mumaybe. rewrite Em. exact (Q b Hbb).
  - destruct (H_from_B_none (with_nfb n d) Wn B H bs 0 nb fft) as (H' & E & F & P & A & Q & _); auto; try lia.
    exists H', fft. split; [exact E|]. split; [reflexivity|]. repeat (split; [assumption|]). intros b Hbb. unfold mumaybe. rewrite Em. exact (Q b Hbb).
Qed.

Variables (mx num_bands : Z) (u : vec).
Hypothesis Hmx : 0 < mx.
(** The number computed for band b of H. *)
Definition gvv (H : emat C) (b : Z) : R := re (inner d (mumaybe d (fld H b)) (ucol d u (mumaybe d (fld H b)))).

(** What follows H_from_B in one block. *)
Lemma tail_ok n fuel H B W fft scr items ib : fields d B -> fields d W -> ep W = ep B -> 0 < ep B -> 0 <= ib -> ib + ep B <= num_bands -> 0 < n ->
  3 * N * Z.min n (ep B) <= Z.of_nat (length fft) -> num_bands <= Z.of_nat (length scr) -> Z.of_nat (length items) = num_bands -> (Z.to_nat (ep B) <= fuel)%nat ->
  (forall b, 0 <= b < ep B -> feq d (fld B b) (mumaybe d (fld H (ib + b)))) ->
  exists W' f' scr' items', ucross_op fuel (with_nfb n d) u B W fft = Some (Val (W', f')) /\ fields d W' /\ ep W' = ep B /\ length f' = length fft /\
    XtY_diag_real B W' scr = Val scr' /\ length scr' = length scr /\
    forZ 0 (ep B) (fun ip it => let! v := rd scr' ip in wr it (ib + ip) v) items = Val items' /\ length items' = length items /\
    (forall b, 0 <= b -> getr items' b = if (ib <=? b) && (b <? ib + ep B) then gvv H b else getr items b).
Proof.
  intros FB FW EW Hp Hib Hle Hn Hs Hsc Hit Hfu HB. pose proof (wfd_nfb n d Wd) as Wn.
  destruct (ucross_ok (with_nfb n d) Wn fuel u B W fft FB FW (eq_sym EW) Hn Hs Hfu) as (W' & f' & E & FW' & PW & Lf & HW).
  destruct (diag_ok B W' scr) as (scr' & Es & Ls & Hd); [apply FB|apply FW'|destruct FB as (_ & ->), FW' as (_ & ->); reflexivity|lia|lia|].
  exists W', f', scr'.
  destruct (forZ_inv (fun i l => length l = length items /\ (forall b, 0 <= b -> getr l b = if (ib <=? b) && (b <? ib + i) then gvv H b else getr items b))
    (fun ip it => let! v := rd scr' ip in wr it (ib + ip) v) 0 (ep B) items) as (it & Ei & Li & Hi).
  - lia.
  - split; [reflexivity|]. intros b Hb. rewrite Z.add_0_r. destruct (Z.leb_spec ib b), (Z.ltb_spec b ib); cbn [andb]; lia || reflexivity.
  - intros i l Hi (L & Hl). rewrite getr_in by lia. cbn [bind]. destruct (getr_wr l (ib + i) (getr scr' i)) as (l' & El & Ll & Hl'); [lia|].
    exists l'. split; [exact El|]. split; [congruence|]. intros b Hb. rewrite Hl', Hl by exact Hb.
    destruct (Z.eqb_spec b (ib + i)) as [->|Hne].
    + destruct (Z.leb_spec ib (ib + i)), (Z.ltb_spec (ib + i) (ib + (i + 1))); try lia. cbn [andb]. rewrite Hd by exact Hi.
      rewrite (dotl_inner d Wd B W' i i FB). unfold gvv. f_equal. apply inner_ext; [apply HB; exact Hi|].
      apply (feq_trans d _ (ucol d u (fld B i))); [apply (HW i Hi)|]. apply sand_ext. apply HB. exact Hi.
    + destruct (Z.leb_spec ib b), (Z.ltb_spec b (ib + i)), (Z.ltb_spec b (ib + (i + 1))); cbn [andb]; lia || reflexivity.
  - exists it. split; [exact E|]. split; [exact FW'|]. split; [exact PW|]. split; [exact Lf|]. split; [exact Es|]. split; [exact Ls|]. split; [exact Ei|]. split; [exact Li|exact Hi].
Qed.

(** Several blocks. *)
Section Blocks.
Variables (bs : Z) (H : emat C) (F : nat).
Hypothesis Hbs : 1 <= bs.
Hypothesis FH : fields d H.
Hypothesis EH : ep H = num_bands.
Hypothesis HF : 3 * N * Z.min bs mx <= Z.of_nat F.
Hypothesis HFmu : d_mu_inv d <> None -> 3 * N * bs <= Z.of_nat F.
Definition Inv (ib : Z) (s : gstate) : Prop :=
  g_H s = H /\ fields d (g_blk s) /\ ealloc (g_blk s) = bs /\ fields d (g_W s) /\ ealloc (g_W s) = bs /\
  (exists n, g_d s = with_nfb n d /\ 0 < n <= Z.min bs mx) /\ length (g_fft s) = F /\ num_bands <= Z.of_nat (length (g_scr s)) /\
  Z.of_nat (length (g_items s)) = num_bands /\ (ib < num_bands -> g_nb s = bs /\ ep (g_blk s) = bs /\ ep (g_W s) = bs) /\
  (forall b, 0 <= b < ib -> b < num_bands -> getr (g_items s) b = gvv H b).

Lemma block_step ib s : 0 <= ib < num_bands -> Inv ib s -> exists s', gv_block (Z.to_nat num_bands) mx num_bands false u ib s = Some (Val s') /\ Inv (ib + bs) s' /\ ealloc (g_blk s') = bs.
Proof.
  intros Hib (E1 & FB & AB & FW & AW & (n & En & Hn) & LF & LS & LI & Hsz & Hit). destruct (Hsz ltac:(lia)) as (Enb & EB & EW).
  unfold gv_block. rewrite Enb. destruct (Z.gtb_spec (ib + bs) num_bands) as [Hp|Hp].
  - destruct (resize_ok_f (g_W s) (num_bands - ib) FW ltac:(lia)) as (W & -> & FW' & PW & AW'). cbn [bind].
    destruct (resize_ok_f (g_blk s) (num_bands - ib) FB ltac:(lia)) as (B & -> & FB' & PB & AB'). cbn [bind]. rewrite En, E1.
    change (set_num_bands mx (num_bands - ib) (with_nfb n d)) with (with_nfb (Z.min (num_bands - ib) mx) d).
    destruct (HfB_ok (Z.min (num_bands - ib) mx) H B ib (ep B) (g_fft s)) as (B' & f' & E & Lf & FB2 & PB2 & AB2 & Q); auto; try lia.
    { intros Hm. specialize (HFmu Hm). rewrite LF. pose proof (N_pos d Wd). nia. }
    rewrite E. cbn [bind].
    destruct (tail_ok (Z.min (num_bands - ib) mx) (Z.to_nat num_bands) H B' W f' (g_scr s) (g_items s) ib) as (W2 & f2 & scr' & it' & U1 & U2 & U3 & U4 & U5 & U6 & U7 & U8 & U9); auto; try lia.
    { rewrite Lf, LF. pose proof (N_pos d Wd). nia. } { intros b Hb. apply Q. lia. }
    rewrite U1. cbn [option_map bind]. rewrite U5. cbn [bind]. rewrite U7. cbn [bind]. eexists. split; [reflexivity|]. split; [|cbn [g_blk]; lia].
    unfold Inv. cbn [g_H g_blk g_W g_d g_nb g_fft g_scr g_items]. split; [first [exact E1|reflexivity]|]. split; [exact FB2|]. split; [lia|]. split; [exact U2|]. split.
    { rewrite (ucross_alloc _ _ _ _ _ _ _ _ U1). lia. }
    split; [exists (Z.min (num_bands - ib) mx); split; [reflexivity|lia]|]. split; [congruence|]. split; [congruence|]. split; [congruence|]. split; [lia|].
    intros b Hb Hb2. rewrite U9 by lia. destruct (Z.leb_spec ib b); cbn [andb]; [|apply Hit; lia]. destruct (Z.ltb_spec b (ib + ep B')); [reflexivity|lia].
  - cbn [bind]. rewrite En, E1.
    destruct (HfB_ok n H (g_blk s) ib (ep (g_blk s)) (g_fft s)) as (B' & f' & E & Lf & FB2 & PB2 & AB2 & Q); auto; try lia.
    { intros Hm. specialize (HFmu Hm). rewrite LF, EB. exact HFmu. }
    rewrite E. cbn [bind].
    destruct (tail_ok n (Z.to_nat num_bands) H B' (g_W s) f' (g_scr s) (g_items s) ib) as (W2 & f2 & scr' & it' & U1 & U2 & U3 & U4 & U5 & U6 & U7 & U8 & U9); auto; try lia.
    { rewrite Lf, LF. pose proof (N_pos d Wd). nia. } { intros b Hb. apply Q. lia. }
    rewrite U1. cbn [option_map bind]. rewrite U5. cbn [bind]. rewrite U7. cbn [bind]. eexists. split; [reflexivity|]. split; [|cbn [g_blk]; lia].
    unfold Inv. cbn [g_H g_blk g_W g_d g_nb g_fft g_scr g_items]. split; [first [exact E1|reflexivity]|]. split; [exact FB2|]. split; [lia|]. split; [exact U2|]. split.
    { rewrite (ucross_alloc _ _ _ _ _ _ _ _ U1). lia. }
    split; [exists n; split; [reflexivity|lia]|]. split; [congruence|]. split; [congruence|]. split; [congruence|]. split; [lia|].
    intros b Hb Hb2. rewrite U9 by lia. destruct (Z.leb_spec ib b); cbn [andb]; [|apply Hit; lia]. destruct (Z.ltb_spec b (ib + ep B')); [reflexivity|lia].
Qed.
Lemma loop_ok fuel : forall ib s, 0 <= ib -> (Z.to_nat (num_bands - ib) <= fuel)%nat -> Inv ib s ->
  exists s', gv_loop fuel mx num_bands false u ib s = Some (Val s') /\ g_H s' = H /\ Z.of_nat (length (g_items s')) = num_bands /\ (forall b, 0 <= b < num_bands -> getr (g_items s') b = gvv H b).
Proof.
  induction fuel as [|fuel IH]; intros ib s Hib Hf I; cbn [gv_loop]; destruct (Z.ltb_spec ib num_bands) as [Hlt|Hge].
  - lia.
  - exists s. destruct I as (I1 & _ & _ & _ & _ & _ & _ & _ & I9 & _ & I11). repeat (split; [assumption || reflexivity|]). intros b Hb. apply I11; lia.
  - destruct (block_step ib s ltac:(lia) I) as (s' & -> & I' & ->). apply (IH (ib + bs) s'); [lia|lia|exact I'].
  - exists s. destruct I as (I1 & _ & _ & _ & _ & _ & _ & _ & I9 & _ & I11). repeat (split; [assumption || reflexivity|]). intros b Hb. apply I11; lia.
Qed.
End Blocks.

(** A single block sharing the array of the eigenvectors. *)
Lemma same_ok H B0 W n fft scr items : B0 = H -> fields d H -> ep H = num_bands -> ealloc H = num_bands -> 0 < num_bands -> fields d W -> ep W = num_bands ->
  0 < n -> 3 * N * Z.min n num_bands <= Z.of_nat (length fft) -> (d_mu_inv d <> None -> 3 * N * num_bands <= Z.of_nat (length fft)) ->
  num_bands <= Z.of_nat (length scr) -> Z.of_nat (length items) = num_bands ->
  exists s', gv_loop (Z.to_nat num_bands) mx num_bands true u 0 {| g_H := H; g_blk := B0; g_W := W; g_d := with_nfb n d; g_nb := num_bands; g_fft := fft; g_scr := scr; g_items := items |} = Some (Val s') /\
    Z.of_nat (length (g_items s')) = num_bands /\ (forall b, 0 <= b < num_bands -> getr (g_items s') b = gvv H b) /\
    fields d (g_H s') /\ ep (g_H s') = num_bands /\ (d_mu_inv d = None -> g_H s' = H) /\ (forall b, 0 <= b < num_bands -> feq d (fld (g_H s') b) (mumaybe d (fld H b))).
Proof.
  intros -> FH EH AH Hp FW EW Hn Hs Hmu Hsc Hit.
  assert (HB : exists H' f', H_from_B (with_nfb n d) true H H 0 0 (ep H) fft = Val (H', f') /\ length f' = length fft /\ fields d H' /\ ep H' = ep H /\ ealloc H' = ealloc H /\ en H' = en H /\
    (d_mu_inv d = None -> H' = H) /\ (forall b, 0 <= b < ep H -> feq d (fld H' b) (mumaybe d (fld H b)))).
  { pose proof (wfd_nfb n d Wd) as Wn. destruct (d_mu_inv d) as [mu|] eqn:Em.
    - destruct (H_from_B_mu (with_nfb n d) Wn mu true H H 0 0 (ep H) fft) as (H' & f' & E & L & F & P & A & Q & _); auto; try lia; [rewrite EH; apply Hmu; discriminate|].
      exists H', f'. repeat (split; [assumption|]). split; [exact (eq_trans (proj2 F) (eq_sym (proj2 FH)))|]. split; [discriminate|].
      intros b Hbb. unfold mumaybe. rewrite Em. exact (Q b Hbb).
    - exists H, fft. split; [unfold H_from_B; rewrite fdiv_nz by apply (N_nz _ Wn); cbn [bind with_nfb d_mu_inv]; rewrite Em; reflexivity|].
      repeat (split; [reflexivity || assumption|]). intros b _. unfold mumaybe. rewrite Em. apply feq_refl. }
  destruct HB as (H' & f' & E & Lf & FH' & PH & AH' & NH & Hnone & Q).
  destruct (tail_ok n (Z.to_nat num_bands) H H' W f' scr items 0) as (W2 & f2 & scr' & it' & U1 & U2 & U3 & U4 & U5 & U6 & U7 & U8 & U9); auto; try lia.
  { intros b Hb. rewrite Z.add_0_l. apply Q. lia. }
  assert (Ez : exists k, Z.to_nat num_bands = S k) by (exists (Nat.pred (Z.to_nat num_bands)); lia). destruct Ez as (k & Ek).
  rewrite Ek. cbn [gv_loop]. destruct (Z.ltb_spec 0 num_bands); [|lia].
  unfold gv_block. cbn [g_H g_blk g_W g_d g_nb g_fft g_scr g_items]. rewrite Z.add_0_l. destruct (Z.gtb_spec num_bands num_bands); [lia|]. cbn [bind].
  rewrite set_data_same, E. cbn [bind]. rewrite U1. cbn [option_map bind]. rewrite U5. cbn [bind].
  rewrite U7. cbn [bind g_blk]. replace (ealloc H') with num_bands by lia.
  assert (El : forall s, gv_loop k mx num_bands true u num_bands s = Some (Val s)).
  { intros s. destruct k; cbn [gv_loop]; destruct (Z.ltb_spec num_bands num_bands); try lia; reflexivity. }
  rewrite El. eexists. split; [reflexivity|]. cbn [g_H g_items].
  assert (EH' : set_data H (edata H') = H').
  { destruct H as [hn hp ha hd], H' as [hn' hp' ha' hd']. cbn in *. subst. reflexivity. }
  rewrite EH'. split; [congruence|]. split; [|split; [exact FH'|split; [congruence|split; [exact Hnone|]]]].
  - intros b Hb. rewrite U9 by lia. rewrite Z.add_0_l. destruct (Z.leb_spec 0 b), (Z.ltb_spec b (ep H')); try lia. reflexivity.
  - intros b Hb. apply Q. lia.
Qed.

Lemma gv_scale_ok neg f v : exists x, gv_scale neg f v = Val x /\ (f = 0%R -> x = 0%R) /\ (f <> 0%R -> (divisor neg f * x = v)%R).
Proof.
  unfold gv_scale, divisor. destruct (Reqb_spec f 0) as [->|Hf].
  - exists 0%R. split; [reflexivity|]. split; [reflexivity|]. intros Q. contradiction.
  - assert (Hd : (if neg then sqrt (Rabs f) else f) <> 0%R).
    { destruct neg; [|exact Hf]. apply Rgt_not_eq, sqrt_lt_R0, Rabs_pos_lt. exact Hf. }
    rewrite fdiv_nz by exact Hd. eexists. split; [reflexivity|]. split; [contradiction|]. intros _. field. exact Hd.
Qed.
Lemma scale_loop neg freqs items : Z.of_nat (length items) = num_bands -> Z.of_nat (length freqs) = num_bands ->
  exists v, forZ 0 num_bands (fun i it => let! f := rd freqs i in let! x := rd it i in let! y := gv_scale neg f x in wr it i y) items = Val v /\ length v = length items /\
    (forall i, 0 <= i < num_bands -> (getr freqs i = 0%R -> getr v i = 0%R) /\ (getr freqs i <> 0%R -> (divisor neg (getr freqs i) * getr v i = getr items i)%R)).
Proof.
  intros Li Lf. pose (G := fun i x => if Reqb (getr freqs i) 0 then 0%R else (x / divisor neg (getr freqs i))%R).
  destruct (getr_loop num_bands items (fun i it => let! f := rd freqs i in let! x := rd it i in let! y := gv_scale neg f x in wr it i y) G) as (v & E & L & H).
  - lia.
  - intros j l Hj Ll. rewrite getr_in by lia. cbn [bind]. rewrite getr_in by lia. cbn [bind].
    destruct (gv_scale_ok neg (getr freqs j) (getr l j)) as (x & Ex & H0 & H1). rewrite Ex. cbn [bind]. f_equal. unfold G.
    destruct (Reqb_spec (getr freqs j) 0) as [Z0|Z0]; [auto|]. unfold gv_scale in Ex. destruct (Reqb_spec (getr freqs j) 0); [contradiction|].
    fold (divisor neg (getr freqs j)) in Ex. rewrite fdiv_nz in Ex; [injection Ex as <-; reflexivity|].
    unfold divisor. destruct neg; [|exact Z0]. apply Rgt_not_eq, sqrt_lt_R0, Rabs_pos_lt. exact Z0.
  - exists v. split; [exact E|]. split; [exact L|]. intros i Hi. rewrite H by lia. destruct (Z.ltb_spec i num_bands); [|lia]. unfold G.
    destruct (Reqb_spec (getr freqs i) 0) as [Z0|Z0]; split; intros; try contradiction; try reflexivity.
    assert (Hd : divisor neg (getr freqs i) <> 0%R).
    { unfold divisor. destruct neg; [|exact Z0]. apply Rgt_not_eq, sqrt_lt_R0, Rabs_pos_lt. exact Z0. }
    field. exact Hd.
Qed.
Lemma gvv_deriv neg H X i f x : orthonormal_basis d -> feq d (fld X i) (mumaybe d (fld H i)) ->
  (f = 0%R -> x = 0%R) -> (f <> 0%R -> (divisor neg f * x = gvv H i)%R) -> is_velocity d neg u X i f x.
Proof.
  intros Ho Hx H0 H1. split; [exact H0|]. intros Hf. rewrite H1 by exact Hf. unfold gvv.
  rewrite <- (inner_ext d _ _ _ _ Hx (sand_ext d _ _ _ _ _ Hx : feq d (ucol d u (fld X i)) (ucol d u (mumaybe d (fld H i))))).
  rewrite ucol_dot by exact Ho. apply mean_form_deriv.
Qed.
End D.

(** Everything. *)
Lemma gv_total d mx bs nbands same neg u freqs s : wfd d -> gv_ready mx bs nbands same d freqs s -> (d_mu_inv d <> None -> bs <= mx) ->
  exists v H', group_velocity mx nbands same neg u freqs s = Some (Val (v, H')) /\ Z.of_nat (length v) = nbands /\
    (forall i, 0 <= i < nbands -> (getr freqs i = 0%R -> getr v i = 0%R) /\ (getr freqs i <> 0%R -> (divisor neg (getr freqs i) * getr v i = gvv d u (g_H s) i)%R)) /\
    fields d H' /\ ep H' = nbands /\ (d_mu_inv d = None \/ same = false -> H' = g_H s) /\
    (same = true -> forall b, 0 <= b < nbands -> feq d (fld H' b) (mumaybe d (fld (g_H s) b))).
Proof.
  intros Wd (Hmx & Hbs & Hsm & Hblk & FH & EH & AH & FB & EB & AB & FW & EW & AW & Ed & En & Lf & Ls & Li & Lq) Hmu.
  assert (Lmu : d_mu_inv d <> None -> 3 * npts d * bs <= Z.of_nat (length (g_fft s))).
  { intros Q. specialize (Hmu Q). rewrite Lf. rewrite Z.min_l by lia. lia. }
  assert (G : exists s', gv_loop (Z.to_nat nbands) mx nbands same u 0 s = Some (Val s') /\ Z.of_nat (length (g_items s')) = nbands /\
     (forall b, 0 <= b < nbands -> getr (g_items s') b = gvv d u (g_H s) b) /\ fields d (g_H s') /\ ep (g_H s') = nbands /\ (d_mu_inv d = None \/ same = false -> g_H s' = g_H s) /\
     (same = true -> forall b, 0 <= b < nbands -> feq d (fld (g_H s') b) (mumaybe d (fld (g_H s) b)))).
  { destruct same.
    - assert (Eb : bs = nbands) by (apply Hsm; reflexivity). rewrite Eb in *. specialize (Hblk eq_refl).
      destruct s as [H B W dd nb fft scr items]. cbn [g_H g_blk g_W g_d g_nb g_fft g_scr g_items] in *. rewrite Ed, En.
      destruct (same_ok d Wd mx nbands u H B W (Z.min nbands mx) fft scr items) as (s' & E & L & Hv & F & P & Hn & Q); auto; try lia.
      { rewrite Lf. pose proof (N_pos d Wd). apply Zmult_le_compat_l; lia. }
      exists s'. split; [exact E|]. split; [exact L|]. split; [exact Hv|]. split; [exact F|]. split; [exact P|]. split; [|intros _; exact Q]. intros [Hn'|]; [apply Hn; exact Hn'|discriminate].
    - destruct (loop_ok d Wd mx nbands u Hmx bs (g_H s) (length (g_fft s)) ltac:(lia) FH EH ltac:(lia) Lmu (Z.to_nat nbands) 0 s ltac:(lia) ltac:(lia)) as (s' & E & Hh & L & Hv).
      { unfold Inv. split; [reflexivity|]. repeat (split; [assumption|]). split; [exists (Z.min bs mx); split; [exact Ed|lia]|]. split; [reflexivity|]. split; [exact Ls|].
        split; [exact Li|]. split; [auto|]. intros; lia. }
      exists s'. rewrite Hh. repeat (split; [assumption|]). split; [reflexivity|]. discriminate. }
  destruct G as (s' & E & L & Hv & F & P & Hn & Q). unfold group_velocity. rewrite E. cbn [option_map bind].
  destruct (scale_loop nbands neg freqs (g_items s') L Lq) as (v & Ev & Lv & Hs). rewrite Ev. cbn [bind]. exists v, (g_H s').
  split; [reflexivity|]. split; [congruence|]. split; [|auto]. intros i Hi. rewrite <- (Hv i Hi). apply Hs. exact Hi.
Qed.

(** A loop that fails somewhere. *)
Lemma forZ_inv_or {S} (P : Z -> S -> Prop) f a b s : a <= b -> P a s ->
  (forall i s, a <= i < b -> P i s -> f i s = UB \/ exists s', f i s = Val s' /\ P (i + 1) s') -> forZ a b f s = UB \/ exists s', forZ a b f s = Val s' /\ P b s'.
Proof.
  intros Hab HP Hf. unfold forZ. remember (Z.to_nat (b - a)) as n eqn:En. revert a s Hab HP Hf En. induction n as [|n IH]; intros a s Hab HP Hf En; cbn [for_].
  - right. exists s. split; [reflexivity|]. replace b with a by lia. exact HP.
  - destruct (Hf a s ltac:(lia) HP) as [E|(s1 & E & HP1)]; rewrite E; cbn [bind]; [left; reflexivity|].
    apply (IH (a + 1) s1); [lia|exact HP1|intros i s2 Hi; apply Hf; lia|lia].
Qed.
Lemma forZ_stuck {S} (P : Z -> S -> Prop) f a b : forall s, a <= b -> P a s ->
  (forall i s, a <= i < b -> P i s -> f i s = UB \/ exists s', f i s = Val s' /\ P (i + 1) s') -> (forall s, ~ P b s) -> forZ a b f s = UB.
Proof.
  intros s Hab HP Hf Hend. destruct (forZ_inv_or P f a b s Hab HP Hf) as [E|(s' & E & HP')]; [exact E|exfalso; exact (Hend s' HP')].
Qed.
Lemma wr_cases {A} (l : list A) i v : 0 <= i -> (wr l i v = UB) \/ exists l', wr l i v = Val l' /\ length l' = length l /\ i < Z.of_nat (length l).
Proof.
  intros Hi. destruct (Z_lt_ge_dec i (Z.of_nat (length l))) as [H|H].
  - right. eexists. split; [apply wr_in; lia|]. split; [apply upd_length|exact H].
  - left. unfold wr. destruct (Z.leb_spec 0 i), (Z.ltb_spec i (Z.of_nat (length l))); try lia; reflexivity.
Qed.
Lemma wr3_cases l i v : 0 <= i -> (wr3 l i v = UB) \/ exists l', wr3 l i v = Val l' /\ length l' = length l /\ i + 2 < Z.of_nat (length l).
Proof.
  intros Hi. destruct v as [[x y] z]. unfold wr3.
  destruct (wr_cases l i x Hi) as [E|(l1 & E & L1 & _)]; rewrite E; cbn [bind]; [left; reflexivity|].
  destruct (wr_cases l1 (i + 1) y ltac:(lia)) as [E1|(l2 & E1 & L2 & _)]; rewrite E1; cbn [bind]; [left; reflexivity|].
  destruct (wr_cases l2 (i + 2) z ltac:(lia)) as [E2|(l3 & E2 & L3 & H)]; rewrite E2; [left; reflexivity|]. right. exists l3. split; [reflexivity|]. split; [congruence|lia].
Qed.
Lemma to_cartesian_ub d asg X start nb fft : wfd d -> fields d X -> 0 <= start -> 0 < nb -> start + nb <= ep X -> Z.of_nat (length fft) < 3 * npts d * nb ->
  to_cartesian asg d X start nb fft = UB.
Proof.
  intros Wd HX Hs Hb Hp Hf. unfold to_cartesian. assert (Ls : d_last_size d = d_last d) by apply Wd. rewrite Ls. cbv zeta.
  rewrite (wave_loop d Wd (fun g k b f => let! v0 := rd (edata X) (g * 2 * ep X + b + start) in
      let! v1 := rd (edata X) (g * 2 * ep X + b + start + ep X) in wr3 f (3 * (g * nb + b)) (asg k v0 v1)) nb fft Hb).
  pose proof (N_pos d Wd) as Np.
  apply (forZ_stuck (fun q f => length f = length fft /\ 3 * q <= Z.of_nat (length fft))).
  - nia.
  - split; [reflexivity|lia].
  - intros q f Hq (L & Hl). destruct (divmod d q nb Hb Hq) as (Hg & Hm & Eq).
    replace (q / nb * 2 * ep X + q mod nb + start) with ((2 * (q / nb) + 0) * ep X + (start + q mod nb)) by ring.
    rewrite (fld_rd d X) by (auto; lia). cbn [bind].
    replace ((2 * (q / nb) + 0) * ep X + (start + q mod nb) + ep X) with ((2 * (q / nb) + 1) * ep X + (start + q mod nb)) by ring.
    rewrite (fld_rd d X) by (auto; lia). cbn [bind]. rewrite <- Eq.
    destruct (wr3_cases f (3 * q) (asg (kz d (q / nb)) (fld X (start + q mod nb) (q / nb) 0) (fld X (start + q mod nb) (q / nb) 1)) ltac:(lia)) as [E|(f' & E & L' & H)];
      [left; exact E|right]. exists f'. split; [exact E|]. split; [congruence|lia].
  - intros f (_ & H). lia.
Qed.
Lemma gv_overflow d mx bs nbands same neg u freqs s : wfd d -> gv_ready mx bs nbands same d freqs s -> d_mu_inv d <> None -> mx < bs ->
  group_velocity mx nbands same neg u freqs s = Some UB.
Proof.
  intros Wd (Hmx & Hbs & Hsm & Hblk & FH & EH & AH & FB & EB & AB & FW & EW & AW & Ed & En & Lf & Ls & Li & Lq) Hmu Hlt.
  unfold group_velocity. assert (Ez : exists k, Z.to_nat nbands = S k) by (exists (Nat.pred (Z.to_nat nbands)); lia). destruct Ez as (k & Ek). rewrite Ek. cbn [gv_loop].
  destruct (Z.ltb_spec 0 nbands); [|lia]. unfold gv_block. rewrite En, Z.add_0_l. destruct (Z.gtb_spec bs nbands); [lia|]. cbn [bind].
  set (B := if same then set_data (g_blk s) (edata (g_H s)) else g_blk s).
  assert (PB : ep B = bs) by (unfold B; destruct same; exact EB). rewrite PB, Ed. pose proof (wfd_nfb (Z.min bs mx) d Wd) as Wn.
  unfold H_from_B. rewrite fdiv_nz by apply (N_nz _ Wn). cbn [bind with_nfb d_mu_inv]. destruct (d_mu_inv d) as [mu|]; [|contradiction].
  unfold h_from_H. rewrite range_ok by lia. cbn [bind].
  rewrite (to_cartesian_ub (with_nfb (Z.min bs mx) d)); [reflexivity|exact Wn|exact FH|lia|lia|lia|].
  change (npts (with_nfb (Z.min bs mx) d)) with (npts d). rewrite Lf, Z.min_r by lia. pose proof (N_pos d Wd). apply Zmult_lt_compat_l; lia.
Qed.

(** One band. *)
Lemma gv1_ok d neg u freqs b H W0 W1 fft : wfd d -> fields d H -> 1 <= b <= ep H -> Z.of_nat (length freqs) = ep H -> fields d W0 -> 1 <= ealloc W0 -> fields d W1 -> 1 <= ealloc W1 ->
  0 < d_nfb d -> 3 * npts d <= Z.of_nat (length fft) ->
  exists x, group_velocity_1 neg u freqs b d H W0 W1 fft = Some (Val x) /\ (getr freqs (b - 1) = 0%R -> x = 0%R) /\
    (getr freqs (b - 1) <> 0%R -> (divisor neg (getr freqs (b - 1)) * x = gvv d u H (b - 1))%R).
Proof.
  intros Wd FH Hb Lq F0 A0 F1 A1 Hn Hf. unfold group_velocity_1.
  destruct (resize_ok_f d W0 1 F0 ltac:(lia)) as (V0 & -> & FV0 & P0 & _). cbn [bind].
  destruct (resize_ok_f d W1 1 F1 ltac:(lia)) as (V1 & -> & FV1 & P1 & _). cbn [bind].
  assert (Ed : with_nfb (d_nfb d) d = d) by (destruct d; reflexivity).
  destruct (HfB_ok d Wd (d_nfb d) H V1 (b - 1) 1 fft) as (B & f' & E & Lf & FB & PB & AB & Q); auto; try lia. rewrite Ed in E. rewrite E. cbn [bind].
  destruct (ucross_ok d Wd 1 u B V0 f' FB FV0 ltac:(lia) Hn) as (W2 & f2 & E2 & FW2 & P2 & _ & HW); [unfold scratch; rewrite Lf, PB, P1; pose proof (N_pos d Wd); nia|rewrite PB, P1; cbn; lia|].
  rewrite E2. cbn [option_map bind].
  destruct (diag_ok B W2 [0%R]) as (g & Eg & Lg & Hg); [apply FB|apply FW2|destruct FB as (_ & ->), FW2 as (_ & ->); reflexivity|lia|cbn; lia|].
  rewrite Eg. cbn [bind]. rewrite getr_in by (rewrite Lg; cbn; lia). cbn [bind]. rewrite getr_in by lia. cbn [bind].
  destruct (gv_scale_ok neg (getr freqs (b - 1)) (getr g 0)) as (x & Ex & H0 & H1). exists x. split; [rewrite Ex; reflexivity|]. split; [exact H0|].
  intros Hz. rewrite (H1 Hz), Hg by lia. rewrite (dotl_inner d Wd B W2 0 0 FB). unfold gvv. f_equal.
  pose proof (Q 0 ltac:(lia)) as Q0. rewrite Z.add_0_r in Q0. apply inner_ext; [exact Q0|].
  apply (feq_trans d _ (ucol d u (fld B 0))); [apply HW; lia|]. apply sand_ext. exact Q0.
Qed.
Lemma gv1_range d neg u freqs b H W0 W1 fft : wfd d -> fields d H -> ~ (1 <= b <= ep H) -> fields d W0 -> 1 <= ealloc W0 -> fields d W1 -> 1 <= ealloc W1 ->
  group_velocity_1 neg u freqs b d H W0 W1 fft = Some Abort.
Proof.
  intros Wd FH Hb F0 A0 F1 A1. unfold group_velocity_1.
  destruct (resize_ok_f d W0 1 F0 ltac:(lia)) as (V0 & -> & FV0 & P0 & _). cbn [bind].
  destruct (resize_ok_f d W1 1 F1 ltac:(lia)) as (V1 & -> & FV1 & P1 & _). cbn [bind].
  unfold H_from_B. rewrite fdiv_nz by apply (N_nz _ Wd). cbn [bind]. destruct (d_mu_inv d) as [mu|].
  - unfold h_from_H, band_range, check. destruct (Z.leb_spec 0 (b - 1)), (Z.leb_spec (b - 1 + 1) (ep H)); cbn [andb bind]; try reflexivity. lia.
  - rewrite copy_slice_refused by lia. reflexivity.
Qed.
