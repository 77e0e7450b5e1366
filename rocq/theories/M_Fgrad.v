(** Model of material_grids_addgradient (mpb/material_grid.c): the gradient of a band's frequency
    with respect to the parameters of material grids.  Complex fields, one process. *)
From Coq Require Import List ZArith Reals Bool.
From Verif Require Import Base RC M_Tensor M_Evect M_Grid M_Op M_Interp M_Matgrid M_Fld M_Half M_Match.
Import ListNotations.
Local Open Scope Z_scope.

(** material_grid.c 386-455 for band >= 1 (band = 0, which takes the current field instead of
    the E field of a band, is not modelled).  397: the check, num_bands being the number of
    columns of H; 399-400: get_efield; 402: compute_field_squared (fields.c 354-365), which is
    the energy computation with a type of field that no tensor is applied to; 404: H.N is the
    number of grid points; 406-454: the loop, see [addgradient].  Only sizes, lattice, grids and
    tree of [q] are used; [gs] are the grids with their present values. *)
Definition grids_addgradient (q : mproblem) (gs : list mgrid) (d : mdata) (Vol : R) (freqs : list R) (H W0 : emat C) (band : Z) (fft : list C) (scalegrad : R) (v : list R) : outcome (list R) :=
  let! _ := check (band <=? ep H) in
  let! w := rd freqs (band - 1) in
  let scalegrad := (scalegrad * (- w / 2))%R in
  let! e := get_efield d Vol freqs H W0 band fft in
  let! s := energy_internal FOther d once (flat e) in
  let '(Esqr, _, _) := s in
  let! r := fdiv Vol (mN d) in
  let scalegrad := (scalegrad * r)%R in
  addgradient (loop_complex (d_nx d) (d_ny d) (d_nz d)) once4 (d_nx d) (d_ny d) (d_nz d) (q_sx q) (q_sy q) (q_sz q)
    (fun p s v => let f := q_tree q p in addgradient_point (f_kind f) (f_lo f) (f_hi f) gs (f_over f) (f_dflt f) s v) Esqr scalegrad v.
