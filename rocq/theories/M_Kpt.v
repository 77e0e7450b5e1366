(** Model of the solution at one k point: solve_kpoint of mpb/mpb.c with the constraint chain of
    eigensolver_utils.c, for the lowest bands (no target frequency), and of the part of init_params
    that decides which arrays are allocated.  One process; exact arithmetic. *)
From Coq Require Import List ZArith Reals Bool.
From Verif Require Import Base RC M_Evect M_Lin M_Eig M_Apx M_Dav.
Import ListNotations.
Local Open Scope Z_scope.

(** eigensolver_utils.c 74-86 and 97-106: the chain as a list, the constraint added last in front,
    which is also applied first.  The data pointers are part of the functions; no constraint of
    mpb.c is NULL. *)
Definition add_constraint (l : list (emat C -> outcome (emat C))) (c : emat C -> outcome (emat C)) : list (emat C -> outcome (emat C)) := c :: l.
Fixpoint chain_func (l : list (emat C -> outcome (emat C))) (X : emat C) : outcome (emat C) :=
  match l with
  | [] => Val X
  | c :: r => let! X := c X in chain_func r X
  end.

(** mpb.c 556-580 on one process: Y the fields solved so far, BY the same with the permeability, of
    which the first p bands count; S2 is the array for the dot products. *)
Definition deflate (p : Z) (Y BY : emat C) (S2 : list C) (X : emat C) : outcome (emat C) :=
  let! l := deflation_constraint p [(X, Y, BY)] S2 in
  match l with [X'] => Val X' | _ => UB end.

Section Kpoint.
(** The parity constraint; maxwell_muinv_operator, from the first to the second matrix; the
    eigensolver with a constraint: fields and eigenvalues, [None] if the model of the solver does
    not get to the end (its bounds are too small, or it starts again with random fields). *)
Variable parity_c : emat C -> outcome (emat C).
Variable muinv : emat C -> emat C -> outcome (emat C).
Variable solver : (emat C -> outcome (emat C)) -> emat C -> option (outcome (emat C * list R)).

(** The fields H, the block Hblock, muinvH if that is an array of its own, and eigvals. *)
Record kst := { k_H : emat C; k_blk : emat C; k_BY : option (emat C); k_ev : list R }.

(** mpb.c 680-688: the constraints that apply to all bands. *)
Definition base_chain (zero_k : bool) : list (emat C -> outcome (emat C)) :=
  let l := add_constraint [] parity_c in
  if zero_k then add_constraint l (fun X => zero_k_constraint C0 X 0) else l.

(** mpb.c 697-706: the permeability is applied to the bands solved so far, and the constraint that
    keeps the block orthogonal to them is added. *)
Definition add_deflation (p : Z) (S2 : list C) (l : list (emat C -> outcome (emat C))) (H : emat C) (BY : option (emat C)) :
    outcome (list (emat C -> outcome (emat C)) * option (emat C)) :=
  if 0 <? p then
    match BY with
    | Some b =>
        let! b := evectmatrix_resize b p false in
        let! b := muinv H b in
        Val (add_constraint l (deflate p H b S2), Some b)
    | None => Val (add_constraint l (deflate p H H S2), None)
    end
  else Val (l, BY).

(** The solver puts the eigenvalues at eigvals + ib. *)
Definition put_values (ib q : Z) (e ev : list R) : outcome (list R) :=
  forZ 0 q (fun j ev => let! v := rd e j in wr ev (ib + j) v) ev.

(** mpb.c 664-782, one block of q bands from band ib.  [same]: Hblock is H (491-495); the results are
    then in H already, which is the same as saving them there.  What the solver leaves in a separate
    Hblock is never used again; the model keeps what was loaded.  The scratch arrays W are left out. *)
Definition solve_block (same zero_k : bool) (ib0 : Z) (S2 : list C) (s : kst) (b : Z * Z) : option (outcome kst) :=
  let (ib, q) := b in
  let before :=
    if same then Val (k_H s, k_blk s, base_chain zero_k, k_BY s)
    else
      let! Hb := evectmatrix_resize (k_blk s) q false in
      let! Hb := block_load Hb (k_H s) (ib - ib0) in
      let! (l, BY) := add_deflation (ib - ib0) S2 (base_chain zero_k) (k_H s) (k_BY s) in
      Val (Hb, Hb, l, BY) in
  match before with
  | Val (X, Hb, l, BY) =>
      match solver (chain_func l) X with
      | None => None
      | Some r => Some (
          let! (Y, e) := r in
          let! H := block_save Y (k_H s) (ib - ib0) in
          let! ev := put_values ib q e (k_ev s) in
          Val {| k_H := H; k_blk := Hb; k_BY := BY; k_ev := ev |})
      end
  | Abort => Some Abort | UB => Some UB | NonFin => Some NonFin
  end.

(** mpb.c 664-782: the blocks one after the other. *)
Fixpoint solve_loop (same zero_k : bool) (ib0 : Z) (S2 : list C) (blocks : list (Z * Z)) (s : kst) : option (outcome kst) :=
  match blocks with
  | [] => Some (Val s)
  | b :: rest =>
      match solve_block same zero_k ib0 S2 s b with
      | Some (Val s') => solve_loop same zero_k ib0 S2 rest s'
      | o => o
      end
  end.

(** mpb.c 642-838 with mtdata null: H, the frequencies, and the arrays left for the next call.
    [S2] stands for the array allocated at 660-661, with whatever it contains, and [ev] for eigvals (636);
    printing, the iteration count and the list for Guile are left out.  sqrt of a negative number is
    not a number. *)
Definition solve_kpoint (fuel : nat) (zero_k same negative_ok : bool) (parity num_bands : Z) (S2 : list C) (ev : list R)
    (H Hblock : emat C) (BY : option (emat C)) : option (outcome (emat C * list R)) :=
  let ib0 := if zero_k then num_const_bands (ep H) parity else 0 in
  match (if zero_k then zero_k_begin H ib0 else Val H), solver_blocks fuel ib0 (ealloc Hblock) num_bands (ealloc Hblock) with
  | Val H1, Some blocks =>
      match solve_loop same zero_k ib0 S2 blocks {| k_H := H1; k_blk := Hblock; k_BY := BY; k_ev := ev |} with
      | None => None
      | Some r => Some (
          let! s := r in
          let! (H2, ev) := (if zero_k then
              let! H2 := zero_k_end (k_H s) ib0 in
              let! H3 := set_const_bands C0 C1 H2 parity 0 in
              let! ev := forZ 0 ib0 (fun i ev => wr ev i 0%R) (k_ev s) in
              Val (H3, ev)
            else Val (k_H s, k_ev s)) in
          let! freqs := forZ 0 num_bands (fun i f =>
              let! v := rd ev i in
              let! w := (if negative_ok then Val v else fsqrt v) in
              wr f i w) (map (fun _ => 0%R) ev) in
          Val (H2, freqs))
      end
  | _, None => None
  | Abort, _ => Some Abort | UB, _ => Some UB | NonFin, _ => Some NonFin
  end.
End Kpoint.

(** The two eigensolvers as mpb.c calls them (740-766): fields and eigenvalues; the history of the
    traces is dropped. *)
Definition cg_solver potr heev opA opB opK cg pr project reorth reset tol force only quick (k fuel : nat)
    (c : emat C -> outcome (emat C)) (Y : emat C) : option (outcome (emat C * list R)) :=
  match full_solver potr heev opA opB opK (Some c) cg pr project reorth reset tol force only quick k fuel Y with
  | Some (Val (Some (Es, Y', e))) => Some (Val (Y', e))
  | Some (Val None) => None
  | Some Abort => Some Abort | Some UB => Some UB | Some NonFin => Some NonFin
  | None => None
  end.
(** The work arrays W, with as many bands as the block, are a function of their number. *)
Definition davidson_solver potr heev opA opK tol (k : nat) (e : list R) (W : Z -> list (emat C))
    (c : emat C -> outcome (emat C)) (Y : emat C) : option (outcome (emat C * list R)) :=
  Some (let! (rs, Y', e') := davidson potr heev opA opK (Some c) tol 0 k Y e (W (ep Y)) in Val (Y', e')).

(** mpb.c 442-503 and medium.c 179-183: what is allocated.  Grid, bands of H, bands of Hblock, number
    of work arrays, whether muinvH is an array of its own; [a_mu]: mdata->mu_inv is not NULL. *)
Record alloc := { a_grid : Z * Z * Z; a_bands : Z; a_block : Z; a_nwork : Z; a_muinvH : bool; a_mu : bool }.
Definition MAX_NWORK := 10.                                                       (* mpb.h 49 *)

(** [old]: what is there if init_params was called before; [mu]: whether the new structure has a
    permeability, which init_epsilon (481) finds out.  W has MAX_NWORK elements. *)
Definition init_alloc (old : option alloc) (grid : Z * Z * Z) (num_bands block nwork : Z) (mu : bool) : outcome alloc :=
  let have_old := match old with
    | Some a =>
        let '(nx, ny, nz) := grid in let '(mx, my, mz) := a_grid a in
        (nx =? mx) && (ny =? my) && (nz =? mz) && (block =? a_block a) && (num_bands =? a_bands a) &&
        (nwork + Z.b2z (a_mu a) =? a_nwork a)                                      (* 443-446 *)
    | None => false
    end in
  let nwork := if nwork >? MAX_NWORK then MAX_NWORK else nwork in
  match have_old, old with
  | true, Some a => Val {| a_grid := a_grid a; a_bands := a_bands a; a_block := a_block a; a_nwork := a_nwork a; a_muinvH := a_muinvH a; a_mu := mu |}
  | _, _ =>
      let n := nwork + Z.b2z mu in
      if n <=? MAX_NWORK then
        Val {| a_grid := grid; a_bands := num_bands; a_block := block; a_nwork := n; a_muinvH := mu && (block <? num_bands); a_mu := mu |}
      else UB
  end.
