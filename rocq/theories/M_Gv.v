(** Model of the group velocities (mpb/mpb.c 870-992). *)
From Coq Require Import List ZArith Reals Bool.
From Verif Require Import Base RC M_Tensor M_Evect M_Grid M_Op.
Import ListNotations.
Local Open Scope Z_scope.

(** matrices.c 98-111: diagonal of Re (X adjoint Y); X[i*p+j] and Y[i*p+j] with the p of X. *)
Definition XtY_diag_real (X Y : emat C) (diag : list R) : outcome (list R) :=
  let p := ep X in
  let! diag := forZ 0 p (fun j dg => wr dg j 0%R) diag in
  forZ 0 (en X) (fun i dg => forZ 0 p (fun j dg =>
    let! x := rd (edata X) (i * p + j) in
    let! y := rd (edata Y) (i * p + j) in
    let! v := rd dg j in
    wr dg j (v + (re x * re y + im x * im y))%R) dg) diag.

(** maxwell.c 298-302: maxwell_set_num_bands, with max_fft_bands = mx. *)
Definition set_num_bands (mx n : Z) (d : mdata) : mdata :=
  {| d_nx := d_nx d; d_ny := d_ny d; d_nz := d_nz d; d_other := d_other d; d_last := d_last d; d_last_size := d_last_size d; d_out := d_out d;
     d_nfb := Z.min n mx; d_kG := d_kG d; d_eps_inv := d_eps_inv d; d_mu_inv := d_mu_inv d; d_kn2 := d_kn2 d; d_eps_inv_mean := d_eps_inv_mean d |}.

(** What the loop changes: the eigenvectors, the block (its sizes; its data too unless it
    shares the eigenvectors' array), the work matrix, mdata and its num_bands, the transform
    scratch array and the results. *)
Record gstate := { g_H : emat C; g_blk : emat C; g_W : emat C; g_d : mdata; g_nb : Z; g_fft : list C; g_scr : list R; g_items : list R }.

(** mpb.c 903-921: one block, from band ib.  [same]: Hblock has the data pointer of H (mpb.c
    492-495).  [fuel] bounds the batches of maxwell_ucross_op.  None: the loop over batches
    does not end. *)
Definition gv_block (fuel : nat) (mx num_bands : Z) (same : bool) (u : vec) (ib : Z) (s : gstate) : option (outcome gstate) :=
  let part := ib + g_nb s >? num_bands in
  let d := if part then set_num_bands mx (num_bands - ib) (g_d s) else g_d s in
  let nb := if part then num_bands - ib else g_nb s in
  let pre :=
    let! W := (if part then evectmatrix_resize (g_W s) (num_bands - ib) false else Val (g_W s)) in
    let! B := (if part then evectmatrix_resize (g_blk s) (num_bands - ib) false else Val (g_blk s)) in
    let B := if same then set_data B (edata (g_H s)) else B in
    let! (B, fft) := H_from_B d same (g_H s) B ib 0 (ep B) (g_fft s) in
    Val (W, B, fft) in
  match pre with
  | Val (W, B, fft) =>
      option_map (fun r =>
        let! (W, fft) := r in
        let! scr := XtY_diag_real B W (g_scr s) in
        let! items := forZ 0 (ep B) (fun ip it => let! v := rd scr ip in wr it (ib + ip) v) (g_items s) in
        Val {| g_H := if same then set_data (g_H s) (edata B) else g_H s; g_blk := B; g_W := W; g_d := d; g_nb := nb; g_fft := fft; g_scr := scr; g_items := items |})
      (ucross_op fuel d u B W fft)
  | Abort => Some Abort | UB => Some UB | NonFin => Some NonFin
  end.

(** mpb.c 903: the loop, ib += Hblock.alloc_p. *)
Fixpoint gv_loop (fuel : nat) (mx num_bands : Z) (same : bool) (u : vec) (ib : Z) (s : gstate) : option (outcome gstate) :=
  if ib <? num_bands then
    match fuel with
    | O => None
    | S fuel' =>
        match gv_block (Z.to_nat num_bands) mx num_bands same u ib s with
        | Some (Val s') => gv_loop fuel' mx num_bands same u (ib + ealloc (g_blk s')) s'
        | r => r
        end
    end
  else Some (Val s).

(** mpb.c 938-943 (984-988): division by the frequency. *)
Definition gv_scale (neg : bool) (f v : R) : outcome R :=
  if Reqb f 0 then Val 0%R else fdiv v (if neg then sqrt (Rabs f) else f).

(** mpb.c 870-947, from a unit vector u (891 is done by libctl): results and the
    eigenvectors afterwards.  The error returns for missing initialization and the restored
    sizes (924-927) are left out. *)
Definition group_velocity (mx num_bands : Z) (same neg : bool) (u : vec) (freqs : list R) (s : gstate) : option (outcome (list R * emat C)) :=
  option_map (fun r =>
    let! s := r in
    let! v := forZ 0 num_bands (fun i it => let! f := rd freqs i in let! x := rd it i in let! y := gv_scale neg f x in wr it i y) (g_items s) in
    Val (v, g_H s))
  (gv_loop (Z.to_nat num_bands) mx num_bands same u 0 s).

(** mpb.c 950-992: one band b, in the work matrices W[0] and W[1], each resized to one band
    (their data stay where they are).  The result is the velocity; W[0], W[1] and the scratch
    array are not used afterwards. *)
Definition group_velocity_1 (neg : bool) (u : vec) (freqs : list R) (b : Z) (d : mdata) (H W0 W1 : emat C) (fft : list C) : option (outcome R) :=
  let ib := b - 1 in
  let pre :=
    let! W0 := evectmatrix_resize W0 1 false in
    let! W1 := evectmatrix_resize W1 1 false in
    let! (W1, fft) := H_from_B d false H W1 ib 0 1 fft in
    Val (W0, W1, fft) in
  match pre with
  | Val (W0, W1, fft) =>
      option_map (fun r =>
        let! (W0, fft) := r in
        let! g := XtY_diag_real W1 W0 [0%R] in
        let! v := rd g 0 in
        let! f := rd freqs ib in
        gv_scale neg f v)
      (ucross_op 1 d u W1 W0 fft)
  | Abort => Some Abort | UB => Some UB | NonFin => Some NonFin
  end.
