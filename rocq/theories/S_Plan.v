(** Vocabulary for the plan cache. *)
From Coq Require Import List ZArith Bool.
From Verif Require Import Base M_Plan.
Import ListNotations.
Local Open Scope Z_scope.

(** The plan does what the caller asked, up to where the output goes: direction (dir < 0 is the
    backward transform), grid, number and layout of the transforms. *)
Definition fits (grid : Z * Z * Z) (r : request) (p : plan) : Prop :=
  p_fwd p = negb (r_dir r <? 0) /\ p_grid p = grid /\ p_howmany p = r_howmany r /\ p_stride p = r_stride r /\ p_dist p = r_dist r.
(** And FFTW allows it to be executed on these arrays only if they coincide just when the
    arrays it was made for did. *)
Definition placed (r : request) (p : plan) : Prop := p_inplace p = true <-> r_in r = r_out r.

Definition same_layout (r r' : request) : Prop := r_howmany r = r_howmany r' /\ r_stride r = r_stride r' /\ r_dist r = r_dist r'.

(** A library without plans. *)
Definition no_plans (w : fftw) : Prop := f_live w = [].
Definition all_ok (rs : list (bool * bool * request)) : Prop := Forall (fun x => fst x = (true, true)) rs.
