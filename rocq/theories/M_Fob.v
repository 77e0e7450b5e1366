(** Model of field objects (mpb/field-smob.c 125-391), of the commands of mpb/fields.c that load
    the current field they work with, and of get-poynting and get-tot-pwr (mpb/mpb.scm.in
    753-784).  Complex fields, one process.  The user's functions are Scheme procedures without
    side effects; a Scheme error ends the run ([Abort]).  Garbage collection is left out: an
    object stays. *)
From Coq Require Import String Ascii List ZArith Reals Bool.
From Verif Require Import Base RC M_Tensor M_Evect M_Grid M_Op M_Fld M_Half M_Cur.
Import ListNotations.
Local Open Scope Z_scope.

(** field-smob.h 28-30. *)
Inductive kind := KR | KC | KV.
Definition kind_eqb (a b : kind) : bool := match a, b with KR, KR | KC, KC | KV, KV => true | _, _ => false end.

(** The sizes in field_smob (field-smob.h 40-42). *)
Record shape := { sh_nx : Z; sh_ny : Z; sh_nz : Z; sh_N : Z; sh_local_ny : Z; sh_local_y_start : Z; sh_last_dim : Z; sh_last_dim_size : Z; sh_other_dims : Z }.
(** field-smob.c 266-273. *)
Definition conform (a b : shape) : bool :=
  (sh_nx a =? sh_nx b) && (sh_ny a =? sh_ny b) && (sh_nz a =? sh_nz b) && (sh_N a =? sh_N b) && (sh_local_ny a =? sh_local_ny b) &&
  (sh_local_y_start a =? sh_local_y_start b) && (sh_last_dim a =? sh_last_dim b) && (sh_last_dim_size a =? sh_last_dim_size b) && (sh_other_dims a =? sh_other_dims b).

(** A field object of the user: field_smob (field-smob.h 32-43) with the array it owns, whose
    numbers are those of the union's three views: complex number j is at 2 j and 2 j + 1. *)
Record fobj := { fo_kind : kind; fo_ch : ascii; fo_sh : shape; fo_data : list R }.

(** The globals of mpb.c the fields of a band are made from: mdata, Vol, H.N, freqs, H and W[0]
    (as in M_Fld), kpoint_index; v_eigs are the eigenvalues LAPACK gives (maxwell_sym_matrix_eigs). *)
Record fenv := { v_d : mdata; v_Vol : R; v_HN : R; v_freqs : list R; v_H : emat C; v_W0 : emat C; v_k : Z; v_eigs : sym -> R * R * R }.
(** The sizes update_curfield_smob copies from mdata (field-smob.c 132-140), one process. *)
Definition env_shape (e : fenv) : shape :=
  let d := v_d e in {| sh_nx := d_nx d; sh_ny := d_ny d; sh_nz := d_nz d; sh_N := d_out d; sh_local_ny := d_ny d; sh_local_y_start := 0;
    sh_last_dim := d_last d; sh_last_dim_size := d_last_size d; sh_other_dims := d_other d |}.

(** State: st_env is None before init-params; st_mem is mdata->fft_data as real numbers; st_has
    says that curfield is not NULL (it then points to fft_data: fields.c 70, 127, 173,
    field-smob.c 158, 168); st_ch is curfield_type; st_band is curfield_band; st_objs are the
    user's objects. *)
Record fstate := { st_env : option fenv; st_mem : list R; st_has : bool; st_ch : ascii; st_band : Z; st_objs : list fobj }.
Definition set_field (s : fstate) (mem : list R) (has : bool) (ch : ascii) (b : Z) : fstate :=
  {| st_env := st_env s; st_mem := mem; st_has := has; st_ch := ch; st_band := b; st_objs := st_objs s |}.
Definition set_objs (s : fstate) (l : list fobj) : fstate :=
  {| st_env := st_env s; st_mem := st_mem s; st_has := st_has s; st_ch := st_ch s; st_band := st_band s; st_objs := l |}.

(** fft_data as complex numbers. *)
Fixpoint unflat (m : list R) : list C := match m with a :: b :: m => (a, b) :: unflat m | _ => [] end.

(* ------------------------------------------------------------------ *)
(** * Commands that load the current field *)

(** fields.c 54-68, 111-125, 157-171: refused requests leave everything as it is; [get] is what
    follows (M_Fld).  W[0] is a scratch matrix: its contents are not kept. *)
Definition load_field (get : fenv -> list C -> outcome (list C)) (ch : ascii) (b : Z) (s : fstate) : outcome fstate :=
  match st_env s with
  | None => Val s
  | Some e =>
      if v_k e =? 0 then Val s
      else if (b <? 1) || (ep (v_H e) <? b) then Val s
      else let! f := get e (unflat (st_mem s)) in Val (set_field s (flat f) true ch b)
  end.
(** fields.c 52-107, 109-153, 155-192. *)
Definition do_dfield (b : Z) : fstate -> outcome fstate := load_field (fun e => get_dfield (v_d e) (v_Vol e) (v_freqs e) (v_H e) (v_W0 e) b) "d" b.
Definition do_hfield (b : Z) : fstate -> outcome fstate := load_field (fun e => get_hfield (v_d e) (v_Vol e) (v_H e) (v_W0 e) b) "h" b.
Definition do_bfield (b : Z) : fstate -> outcome fstate := load_field (fun e => get_bfield (v_d e) (v_Vol e) (v_H e) b) "b" b.
(** fields.c 194-204. *)
Definition do_e_from_d (s : fstate) : outcome fstate :=
  if negb (st_has s) || negb (Ascii.eqb (st_ch s) "d") then Val s
  else match st_env s with
  | None => Abort
  | Some e => let! f := e_from_d (v_d e) 1 (d_eps_inv (v_d e)) (unflat (st_mem s)) in Val (set_field s (flat f) true "e" (st_band s))
  end.
(** fields.c 206-210. *)
Definition do_efield (b : Z) (s : fstate) : outcome fstate := let! s := do_dfield b s in do_e_from_d s.
(** fields.c 311-350; the printed and returned numbers are the subject of M_Fld. *)
Definition do_energy (s : fstate) : outcome fstate :=
  if negb (st_has s) || negb (in_str (st_ch s) "dhb") then Val s
  else match st_env s with
  | None => UB
  | Some e =>
      let d := v_d e in
      if Ascii.eqb (st_ch s) "h" && (match d_mu_inv d with Some _ => true | None => false end) then Val s
      else
        let t := if Ascii.eqb (st_ch s) "d" then FD else if Ascii.eqb (st_ch s) "b" then FB else FOther in
        let! (mem, _) := compute_field_energy t d once (v_Vol e) (v_HN e) (st_mem s) in
        Val (set_field s mem true (upper (st_ch s)) (st_band s))
  end.
(** epsilon.c 413-446 ([mu] false) and the same in mu.c, made from it by renaming ([mu] true);
    the letters are medium.c 72-73.  The statistics (447-496) only print. *)
Definition do_medium (mu : bool) (s : fstate) : outcome fstate :=
  match st_env s with
  | None => Val s
  | Some e =>
      let d := v_d e in
      let! mem := forZ 0 (d_out d) (fun i mem =>
        let! x := (match (if mu then d_mu_inv d else Some (d_eps_inv d)) with
          | None => Val 1%R
          | Some l => let! m := rd l i in mean_medium (v_eigs e) m
          end) in
        wr mem i x) (st_mem s) in
      Val (set_field s mem true (if mu then "m" else "n") 0)
  end.

(* ------------------------------------------------------------------ *)
(** * Field objects *)

(** What a command is given: the symbol cur-field or an object. *)
Inductive fref := Cur | Obj (n : nat).
(** Where the array of a field is. *)
Inductive fptr := PNull | PFft | PObj (n : nat).
(** A field_smob in use; [w_cur]: it is curfield_smob. *)
Record fview := { w_kind : kind; w_ch : ascii; w_sh : shape; w_ptr : fptr; w_cur : bool }.

Definition cur_ptr (s : fstate) : fptr := if st_has s then PFft else PNull.
(** field-smob.c 129-162: curfield_smob, and whether the result is a pointer (0 otherwise). *)
Definition update_curfield_smob (s : fstate) : outcome (fview * bool) :=
  match st_env s with
  | None => Abort
  | Some e =>
      let mk k p := {| w_kind := k; w_ch := st_ch s; w_sh := env_shape e; w_ptr := p; w_cur := true |} in
      if in_str (st_ch s) "dhbecv" then Val (mk KV (cur_ptr s), true)
      else if in_str (st_ch s) "DHBnR" then Val (mk KR (cur_ptr s), true)
      else if in_str (st_ch s) "C" then Val (mk KC (cur_ptr s), true)
      else Val (mk KR PFft, false)
  end.
(** field-smob.c 185-190 with SAFE_FIELD of field-smob.h 47. *)
Definition assert_field (r : fref) (s : fstate) : outcome fview :=
  match r with
  | Cur => let! (v, ok) := update_curfield_smob s in let! _ := check ok in Val v
  | Obj n =>
      match nth_error (st_objs s) n with
      | Some o => Val {| w_kind := fo_kind o; w_ch := fo_ch o; w_sh := fo_sh o; w_ptr := PObj n; w_cur := false |}
      | None => Abort
      end
  end.

(** The array behind a pointer, and storing it back. *)
Definition peek (s : fstate) (p : fptr) : outcome (list R) :=
  match p with
  | PNull => UB
  | PFft => Val (st_mem s)
  | PObj n => match nth_error (st_objs s) n with Some o => Val (fo_data o) | None => UB end
  end.
Definition put_obj (s : fstate) (n : nat) (o : fobj) : fstate := set_objs s (upd_nat (st_objs s) n o).
Definition poke (s : fstate) (p : fptr) (m : list R) : outcome fstate :=
  match p with
  | PNull => UB
  | PFft => Val (set_field s m (st_has s) (st_ch s) (st_band s))
  | PObj n => match nth_error (st_objs s) n with
      | Some o => Val (put_obj s n {| fo_kind := fo_kind o; fo_ch := fo_ch o; fo_sh := fo_sh o; fo_data := m |}) | None => UB end
  end.
(** pf->type_char = ch followed by update_curfield(pf), field-smob.c 164-170. *)
Definition set_ch (s : fstate) (v : fview) (ch : ascii) : outcome fstate :=
  if w_cur v then Val (set_field s (st_mem s) (match w_ptr v with PNull => false | _ => true end) ch (st_band s))
  else match w_ptr v with
  | PObj n => match nth_error (st_objs s) n with
      | Some o => Val (put_obj s n {| fo_kind := fo_kind o; fo_ch := ch; fo_sh := fo_sh o; fo_data := fo_data o |}) | None => UB end
  | _ => UB
  end.

(** Real numbers per point, and the letter of a new object: field-smob.c 201-205, 217-221,
    234-238. *)
Definition width (k : kind) : Z := match k with KR => 1 | KC => 2 | KV => 6 end.
Definition plain (k : kind) : ascii := match k with KR => "R" | KC => "C" | KV => "c" end.
(** field-smob.c 194-241: allocation and the loop that clears the array in one step.  (The Scheme
    interface does not export cscalar-field-make, mpb.scm.in 265-278; field-make uses it.) *)
Definition make (k : kind) (r : fref) (s : fstate) : outcome (fstate * fref) :=
  let! v := assert_field r s in
  let! _ := check (match k, st_env s with KV, None => false | _, _ => true end) in
  Val (set_objs s (st_objs s ++ [{| fo_kind := k; fo_ch := plain k; fo_sh := w_sh v; fo_data := repeat 0%R (Z.to_nat (width k * sh_N (w_sh v))) |}]), Obj (length (st_objs s))).
(** field-smob.c 251-264. *)
Definition field_make (r : fref) (s : fstate) : outcome (fstate * fref) := let! v := assert_field r s in make (w_kind v) r s.
(** field-smob.c 243-249. *)
Definition nonbloch (r : fref) (s : fstate) : outcome fstate := let! v := assert_field r s in set_ch s v "v".

(** Complex number j of an array. *)
Definition cput (m : list R) (j : Z) (z : C) : outcome (list R) := let! m := wr m (2 * j) (re z) in wr m (2 * j + 1) (im z).

(** One assignment d[i] = s[i] of the loops 293-304, for real or complex numbers. *)
Definition copy1 (k : kind) (pd ps : fptr) (i : Z) (s : fstate) : outcome fstate :=
  let! ms := peek s ps in
  match k with
  | KR => let! x := rd ms i in let! md := peek s pd in let! md := wr md i x in poke s pd md
  | _ => let! z := cget ms i in let! md := peek s pd in let! md := cput md i z in poke s pd md
  end.
(** field-smob.c 284-309. *)
Definition field_set (vd vs : fview) (s : fstate) : outcome fstate :=
  let! _ := check (kind_eqb (w_kind vd) (w_kind vs) && conform (w_sh vd) (w_sh vs)) in
  let! _ := check (negb (Ascii.eqb (w_ch vs) "-")) in
  let n := sh_N (w_sh vs) in
  let! s := forZ 0 (match w_kind vs with KV => n * 3 | _ => n end) (copy1 (w_kind vs) (w_ptr vd) (w_ptr vs)) s in
  set_ch s vd (w_ch vs).
(** field-smob.c 311-317. *)
Definition field_setB (dst src : fref) (s : fstate) : outcome fstate :=
  let! vd := assert_field dst s in let! vs := assert_field src s in field_set vd vs s.
(** field-smob.c 319-329. *)
Definition field_load (src : fref) (s : fstate) : outcome fstate :=
  let! vs := assert_field src s in
  let! (vc, _) := update_curfield_smob s in
  let! _ := check (conform (w_sh vs) (w_sh vc)) in
  field_set {| w_kind := w_kind vs; w_ch := w_ch vc; w_sh := w_sh vc; w_ptr := w_ptr vc; w_cur := true |} vs s.
(** mpb.scm.in 274. *)
Definition field_copy (r : fref) (s : fstate) : outcome (fstate * fref) :=
  let! (s, r') := field_make r s in let! s := field_setB r' r s in Val (s, r').

(** The value at grid point i, field-smob.c 347-358. *)
Definition value_at (k : kind) (m : list R) (i : Z) : outcome item :=
  match k with
  | KR => let! x := rd m i in Val (IR x)
  | KC => let! z := cget m i in Val (IC z)
  | KV => let! a := cget m (3 * i) in let! b := cget m (3 * i + 1) in let! c := cget m (3 * i + 2) in Val (IV a b c)
  end.
(** Storing a result, field-smob.c 362-372.  A result of the wrong type is a Scheme error; a real
    number is a complex one too (libctl's conversions are external). *)
Definition write_at (k : kind) (m : list R) (i : Z) (x : item) : outcome (list R) :=
  match k, x with
  | KR, IR x => wr m i x
  | KC, IR x => cput m i (x, 0%R)
  | KC, IC z => cput m i z
  | KV, IV a b c => let! m := cput m (3 * i) a in let! m := cput m (3 * i + 1) b in cput m (3 * i + 2) c
  | _, _ => Abort
  end.
(** One round of the loop 342-373; [f] is the user's function, None a Scheme error. *)
Definition map1 (f : list item -> option item) (vd : fview) (vs : list fview) (i : Z) (s : fstate) : outcome fstate :=
  let! args := mapM (fun v => let! m := peek s (w_ptr v) in value_at (w_kind v) m i) vs in
  match f args with
  | None => Abort
  | Some x => let! m := peek s (w_ptr vd) in let! m := write_at (w_kind vd) m i x in poke s (w_ptr vd) m
  end.
(** field-smob.c 331-391; the rule for the letter is 374-387. *)
Definition field_map (dst : fref) (f : list item -> option item) (src : list fref) (s : fstate) : outcome fstate :=
  let! vd := assert_field dst s in
  let! vs := mapM (fun r => let! v := assert_field r s in let! _ := check (conform (w_sh vd) (w_sh v)) in Val v) src in
  let! s := forZ 0 (sh_N (w_sh vd)) (map1 f vd vs) s in
  set_ch s vd (match vs with
    | [v] => if kind_eqb (w_kind v) (w_kind vd) then w_ch v else w_ch vd
    | [] => w_ch vd
    | _ => plain (w_kind vd)
    end).

(* ------------------------------------------------------------------ *)
(** * Poynting vector and energy density *)

(** (vector3-cross (vector3-conj e) h), mpb.scm.in 758; libctl's functions are external. *)
Definition conj_cross (args : list item) : option item :=
  match args with
  | [IV e1 e2 e3; IV h1 h2 h3] =>
      Some (IV (Cconj e2 * h3 - Cconj e3 * h2)%C (Cconj e3 * h1 - Cconj e1 * h3)%C (Cconj e1 * h2 - Cconj e2 * h1)%C)
  | _ => None
  end.
(** (+ epwr hpwr), mpb.scm.in 782. *)
Definition add_items (args : list item) : option item := match args with [IR x; IR y] => Some (IR (x + y)%R) | _ => None end.

(** mpb.scm.in 753-760. *)
Definition poynting (b : Z) (s : fstate) : outcome fstate :=
  let! s := do_efield b s in
  let! (s, e) := field_copy Cur s in
  let! s := do_hfield b s in
  let! s := field_map Cur conj_cross [e; Cur] s in
  nonbloch Cur s.
(** mpb.scm.in 774-784. *)
Definition tot_pwr (b : Z) (s : fstate) : outcome fstate :=
  let! s := do_dfield b s in
  let! s := do_energy s in
  let! (s, epwr) := field_copy Cur s in
  let! (s, tot) := make KR Cur s in
  let! s := do_bfield b s in
  let! s := do_energy s in
  let! s := field_map tot add_items [epwr; Cur] s in
  field_load tot s.

(* ------------------------------------------------------------------ *)
(** * Runs *)

(** [Phys e mem]: init-params and solve-kpoint as far as they matter here: other globals,
    arbitrary contents of the scratch array, and curfield_reset (mpb.c 250). *)
Inductive fcmd :=
| Phys (e : fenv) (mem : list R) | GetD (b : Z) | GetE (b : Z) | GetH (b : Z) | GetB (b : Z) | EnergyF | MediumF (mu : bool)
| Make (k : kind) (r : fref) | MakeSame (r : fref) | Copy (r : fref) | Nonbloch (r : fref) | SetF (dst src : fref) | LoadF (src : fref)
| MapF (dst : fref) (f : list item -> option item) (src : list fref) | Poynting (b : Z) | TotPwr (b : Z).
Definition fdo (c : fcmd) (s : fstate) : outcome fstate :=
  match c with
  | Phys e mem => Val {| st_env := Some e; st_mem := mem; st_has := false; st_ch := "-"; st_band := st_band s; st_objs := st_objs s |}
  | GetD b => do_dfield b s | GetE b => do_efield b s | GetH b => do_hfield b s | GetB b => do_bfield b s | EnergyF => do_energy s | MediumF mu => do_medium mu s
  | Make k r => let! (s, _) := make k r s in Val s | MakeSame r => let! (s, _) := field_make r s in Val s
  | Copy r => let! (s, _) := field_copy r s in Val s
  | Nonbloch r => nonbloch r s | SetF dst src => field_setB dst src s | LoadF src => field_load src s
  | MapF dst f src => field_map dst f src s | Poynting b => poynting b s | TotPwr b => tot_pwr b s
  end.
Fixpoint fruns (cs : list fcmd) (s : fstate) : outcome fstate := match cs with [] => Val s | c :: cs => let! s := fdo c s in fruns cs s end.
