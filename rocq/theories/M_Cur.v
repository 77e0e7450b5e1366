(** Model of the "current field": the globals curfield, curfield_band, curfield_type
    (mpb/mpb.c 246-250) and the commands that set, use and report them. *)
From Coq Require Import String List ZArith Bool Ascii.
From Verif Require Import Base.
Import ListNotations.
Local Open Scope Z_scope.

(** What the scratch array mdata->fft_data holds, to which curfield always points.  This is not
    in the program: it is what its contents mean. *)
Inductive content :=
| Junk                              (* scratch data of some other computation, or misread *)
| Band (f : ascii) (b : Z)          (* the vector field f in "dhbe" of band b *)
| Energy (c : content)              (* energy density of it *)
| Square (c : content)              (* its squared modulus *)
| Div (c : content)                 (* its divergence *)
| Medium (m : ascii)                (* epsilon 'n' or mu 'm' *)
| User (t : ascii).                 (* data of a field object of the user, type t *)

(** Globals.  c_p: H.p; c_nfreq: freqs.num_items; c_has: curfield is not NULL; c_k: kpoint_index. *)
Record cur := { c_mdata : bool; c_mu : bool; c_p : Z; c_k : Z; c_nfreq : Z; c_has : bool; c_type : ascii; c_band : Z; c_buf : content }.
(** Initial values: mpb.c 246-258. *)
Definition cur0 : cur := {| c_mdata := false; c_mu := false; c_p := 0; c_k := 0; c_nfreq := 0; c_has := false; c_type := "-"; c_band := 0; c_buf := Junk |}.

(** Reports: what is printed, returned or written, with the labels given to it.
    Energy_of: compute_field_energy; File: output_field_to_file; Phase: the eigenvector (of band
    rep_band) that fix_field_phase multiplies. *)
Inductive rkind := Energy_of | File | Phase.
Record report := { rep_kind : rkind; rep_type : ascii; rep_band : Z; rep_is : content }.

(** strchr(s, c) != NULL for c other than the terminating zero. *)
Fixpoint in_str (c : ascii) (s : string) : bool :=
  match s with EmptyString => false | String a s' => Ascii.eqb a c || in_str c s' end.

Definition set_cur (s : cur) (has : bool) (t : ascii) (b : Z) (c : content) : cur :=
  {| c_mdata := c_mdata s; c_mu := c_mu s; c_p := c_p s; c_k := c_k s; c_nfreq := c_nfreq s; c_has := has; c_type := t; c_band := b; c_buf := c |}.
(** curfield_reset, mpb.c 250. *)
Definition reset (s : cur) (c : content) : cur := set_cur s false "-" (c_band s) c.

(** get_dfield (mpb/fields.c 52-107), get_hfield (109-153), get_bfield (155-192): f is 'd', 'h', 'b'. *)
Definition get_field (f : ascii) (b : Z) (s : cur) : outcome cur :=
  if negb (c_mdata s) then Val s
  else if c_k s =? 0 then Val s
  else if (b <? 1) || (c_p s <? b) then Val s
  else if (c_nfreq s <? b) && Ascii.eqb f "d" then UB  (* freqs.items[which_band - 1], fields.c 94-95 *)
  else Val (set_cur s true f b (Band f b)).
(** get_efield_from_dfield, fields.c 194-204. *)
Definition efield_from_dfield (s : cur) : outcome cur :=
  if negb (c_has s) || negb (Ascii.eqb (c_type s) "d") then Val s
  else let! _ := check (c_mdata s) in
  Val (set_cur s true "e" (c_band s) (match c_buf s with Band "d" b => Band "e" b | _ => Junk end)).
(** get_efield, fields.c 206-210. *)
Definition get_efield (b : Z) (s : cur) : outcome cur := let! s := get_field "d" b s in efield_from_dfield s.

(** toupper of the types that occur. *)
Definition upper (c : ascii) : ascii :=
  (if Ascii.eqb c "d" then "D" else if Ascii.eqb c "h" then "H" else if Ascii.eqb c "b" then "B" else if Ascii.eqb c "e" then "E" else if Ascii.eqb c "c" then "C" else if Ascii.eqb c "v" then "V" else c)%char.
(** compute_field_energy_internal, fields.c 227-305; what it computes is a parameter.  It writes
    through curfield. *)
Definition energy_internal (c : content) (s : cur) : outcome cur :=
  if negb (c_has s) || negb (c_mdata s) then UB else Val (set_cur s true (upper (c_type s)) (c_band s) c).
(** Is the array a vector field. *)
Definition is_vector (c : content) : bool := match c with Band _ _ => true | User t => in_str t "dhbecv" | _ => false end.
(** compute_field_energy, fields.c 311-350. *)
Definition field_energy (s : cur) : outcome (cur * list report) :=
  if negb (c_has s) || negb (in_str (c_type s) "dhb") then Val (s, [])
  else if Ascii.eqb (c_type s) "h" && c_mu s then Val (s, [])
  else
    let! s := energy_internal (if is_vector (c_buf s) then Energy (c_buf s) else Junk) s in
    Val (s, [{| rep_kind := Energy_of; rep_type := c_type s; rep_band := c_band s; rep_is := c_buf s |}]).
(** compute_field_squared, fields.c 354-365: after the message it goes on. *)
Definition field_squared (s : cur) : outcome cur :=
  let s := set_cur s (c_has s) "c" (c_band s) (c_buf s) in
  let! s := energy_internal (if is_vector (c_buf s) then Square (c_buf s) else Junk) s in
  Val (set_cur s (c_has s) "R" (c_band s) (c_buf s)).
(** compute_field_divergence, fields.c 372-419. *)
Definition field_divergence (s : cur) : outcome cur :=
  if negb (c_has s) || negb (in_str (c_type s) "dhbec") then Val s
  else Val (set_cur s true "C" (c_band s) (if is_vector (c_buf s) then Div (c_buf s) else Junk)).
(** fix_field_phase, fields.c 441-545: multiplies the field and, in 541-544, column
    curfield_band - 1 of H. *)
Definition fix_phase (s : cur) : outcome (cur * list report) :=
  if negb (c_has s) || negb (in_str (c_type s) "dhbecv") then Val (s, [])
  else if (c_band s <? 1) || (c_p s <? c_band s) then UB
  else Val (s, [{| rep_kind := Phase; rep_type := c_type s; rep_band := c_band s; rep_is := c_buf s |}]).
(** get_epsilon and get_mu, mpb/epsilon.c 413-497 (mu.c is made from epsilon.c). *)
Definition get_medium (m : ascii) (s : cur) : outcome cur :=
  if negb (c_mdata s) then Val s else Val (set_cur s true m 0 (Medium m)).
(** output_field_to_file, fields.c 999-1285: file names and descriptions, with
    freqs.items[curfield_band - 1] (1111-1113, 1164-1166, 1223-1226).  Epsilon and mu have no band. *)
Definition output_field (s : cur) : outcome (cur * list report) :=
  if negb (c_has s) then Val (s, [])
  else
    let named := in_str (c_type s) "dhbecvCDHBR" in
    if named && ((c_band s <? 1) || (c_nfreq s <? c_band s)) then UB
    else Val (reset s Junk,
      if named || in_str (c_type s) "nm" then [{| rep_kind := File; rep_type := c_type s; rep_band := c_band s; rep_is := c_buf s |}] else []).

(** update_curfield_smob and assert_field_smob for the symbol cur-field, mpb/field-smob.c 129-162
    and 185-190. *)
Definition as_object (s : cur) : outcome ascii :=
  let! _ := check (c_mdata s) in
  let! _ := check (in_str (c_type s) "dhbecv" || in_str (c_type s) "DHBnR" || in_str (c_type s) "C") in
  Val (c_type s).
(** field_load, field-smob.c 319-329, with field_set 284-309 and update_curfield 164-170, of a
    conforming field object of type t (not the current field). *)
Definition field_load (t : ascii) (s : cur) : outcome cur :=
  let! _ := check (c_mdata s) in
  let! _ := check (negb (Ascii.eqb t "-")) in
  Val (set_cur s true t (c_band s) (User t)).

(** solve_kpoint, mpb.c 586-842, with num_bands = H.p. *)
Definition solve (s : cur) : outcome cur :=
  let s := reset s (c_buf s) in
  if (c_p s =? 0) || negb (c_mdata s) then Val s
  else Val {| c_mdata := true; c_mu := c_mu s; c_p := c_p s; c_k := c_k s + 1; c_nfreq := c_p s; c_has := false; c_type := "-"; c_band := c_band s; c_buf := Junk |}.
(** init_params, mpb.c 385-532, for p bands: the old data are destroyed with the field; kpoint_index
    becomes 0 (set_parity, 368). *)
Definition init (p : Z) (mu : bool) (s : cur) : outcome cur :=
  Val {| c_mdata := true; c_mu := mu; c_p := p; c_k := 0; c_nfreq := c_nfreq s; c_has := false; c_type := "-"; c_band := c_band s; c_buf := Junk |}.
(** compute_group_velocity_component and its single-band version, mpb.c 870-992; set_eigenvectors,
    scale_eigenvector, load_eigenvectors, mpb/matrix-smob.c 276-284, 335-349, 377-383: all reset. *)
Definition resetting (s : cur) : outcome cur := Val (reset s Junk).
(** dot_eigenvectors, matrix-smob.c 286-333: with mu the scratch array is overwritten (316-318). *)
Definition dot (s : cur) : outcome cur :=
  let! _ := check (c_mdata s) in
  Val (set_cur s (c_has s) (c_type s) (c_band s) (if c_mu s then Junk else c_buf s)).

Inductive cmd :=
| Init (p : Z) (mu : bool) | Solve | Get (f : ascii) (b : Z) | GetE (b : Z) | EfromD | EnergyC | SquareC | DivC | FixC | GetMedium (m : ascii) | Output | Load (t : ascii) | Resetting | Dot.

Definition quiet (o : outcome cur) : outcome (cur * list report) := let! s := o in Val (s, []).
Definition do (c : cmd) (s : cur) : outcome (cur * list report) :=
  match c with
  | Init p mu => quiet (init p mu s) | Solve => quiet (solve s) | Get f b => quiet (get_field f b s) | GetE b => quiet (get_efield b s) | EfromD => quiet (efield_from_dfield s)
  | EnergyC => field_energy s | SquareC => quiet (field_squared s) | DivC => quiet (field_divergence s) | FixC => fix_phase s | GetMedium m => quiet (get_medium m s)
  | Output => output_field s | Load t => quiet (field_load t s) | Resetting => quiet (resetting s) | Dot => quiet (dot s)
  end.
Fixpoint run (cs : list cmd) (s : cur) : outcome (cur * list report) :=
  match cs with
  | [] => Val (s, [])
  | c :: cs => let! (s, r) := do c s in let! (s, r') := run cs s in Val (s, r ++ r')
  end.
