(** Specification vocabulary for materials: a list of objects where later ones cover earlier ones, a background,
    and the tensor a material stands for. *)
From Coq Require Import List ZArith Reals Bool.
From Verif Require Import Base RC M_Tensor S_Tensor M_Med.
Import ListNotations.
Local Open Scope R_scope.

(** Object [i] of [n] is the last one of the list that contains the point. *)
Definition topmost (n : nat) (contains : nat -> vec -> Prop) (p : vec) (i : nat) : Prop :=
  (i < n)%nat /\ contains i p /\ forall j, (i < j < n)%nat -> ~ contains j p.
(** No object contains the point. *)
Definition outside (n : nat) (contains : nat -> vec -> Prop) (p : vec) : Prop := forall j, (j < n)%nat -> ~ contains j p.

(** What is assumed of libctl's search: it finds the last object in the list that contains the point, with a
    positive precedence that grows along the list. *)
Definition searches (e : env) (objs : list material) (contains : nat -> vec -> Prop) : Prop :=
  exists prec : nat -> Z, (forall i j, (i < j)%nat -> (prec i < prec j)%Z) /\ (forall i, (0 < prec i)%Z) /\
  forall p, match q_find e p with
            | Some o => exists i, topmost (length objs) contains p i /\ nth_error objs i = Some (f_mat o) /\ f_id o = prec i
            | None => outside (length objs) contains p
            end.

(** The background: no object, or an object made of nothing. *)
Definition background (objs : list material) (contains : nat -> vec -> Prop) (p : vec) : Prop :=
  outside (length objs) contains p \/ exists i, topmost (length objs) contains p i /\ nth_error objs i = Some Nothing.
(** The material a user expects at a point of the unit cell. *)
Inductive material_at (e : env) (objs : list material) (contains : nat -> vec -> Prop) (p : vec) : material -> Prop :=
| at_object : forall i m, topmost (length objs) contains p i -> nth_error objs i = Some m -> m <> Nothing -> material_at e objs contains p m
| at_background : background objs contains p -> material_at e objs contains p (q_default e).

(** [m] becomes [m'] after [k] calls of material functions at the point. *)
Inductive leads (e : env) (p : vec) : nat -> material -> material -> Prop :=
| leads_done : forall m, (forall f, m <> Function f) -> leads e p 0 m m
| leads_call : forall k f m, leads e p k (q_call e f p) m -> leads e p (S k) (Function f) m.

(** The permittivity ([false]) or permeability ([true]) a plain material stands for. *)
Inductive tensor_is : bool -> material -> sym -> Prop :=
| is_eps : forall eps mu, tensor_is false (Medium eps mu) (iso eps)
| is_mu : forall eps mu, tensor_is true (Medium eps mu) (iso mu)
| is_aeps : forall a x y z u v w iu iv iw, a_ediag a = (x, y, z) -> a_eoff a = (u, v, w) -> a_eim a = (iu, iv, iw) ->
    tensor_is false (Aniso a) (mkSym x y z (u + (0, iu))%C (v + (0, iv))%C (w + (0, iw))%C)
| is_amu : forall a x y z u v w iu iv iw, a_mdiag a = (x, y, z) -> a_moff a = (u, v, w) -> a_mim a = (iu, iv, iw) ->
    tensor_is true (Aniso a) (mkSym x y z (u + (0, iu))%C (v + (0, iv))%C (w + (0, iw))%C).
(** No imaginary entries. *)
Definition real_tensor (T : sym) : Prop := im (m01 T) = 0 /\ im (m02 T) = 0 /\ im (m12 T) = 0.

(** Moving by [n] lattice vectors does not change the place in the unit cell. *)
Definition wraps (e : env) : Prop := forall (p : vec) (a b c : Z),
  q_shift e (vadd p (let '(sx, sy, sz) := q_size e in let '(nx, ny, nz) := q_none e in
    (if nx then 0 else IZR a * sx, if ny then 0 else IZR b * sy, if nz then 0 else IZR c * sz))) = q_shift e p.

(** Materials that vary in space. *)
Definition constant (m : material) : Prop := (forall g, m <> Grid g) /\ (forall f, m <> Function f).

(** The tensor a user expects at a point of the unit cell: that of the last object there, or that of the default
    material if there is none and no input file. *)
Inductive value_at (e : env) (objs : list material) (contains : nat -> vec -> Prop) (mu : bool) (p : vec) (T : sym) : Prop :=
| value_object : forall i m, topmost (length objs) contains p i -> nth_error objs i = Some m -> m <> Nothing ->
    tensor_is mu m T -> value_at e objs contains mu p T
| value_background : background objs contains p -> q_file e mu = None -> tensor_is mu (q_default e) T ->
    value_at e objs contains mu p T.

(** A normal in the basis of the lattice unit vectors, per lattice vector; and the same in Cartesian components,
    with the rows of the lattice matrix. *)
Definition reduced (e : env) (v : vec) : vec :=
  let '(x, y, z) := v in let '(sx, sy, sz) := q_size e in let '(nx, ny, nz) := q_none e in
  (if nx then 0 else x / sx, if ny then 0 else y / sy, if nz then 0 else z / sz).
Definition cartesian (e : env) (n : vec) (i : nat) : R :=
  let '(a, b, c) := n in q_R e 0%nat i * a + q_R e 1%nat i * b + q_R e 2%nat i * c.

(** [T] is the average over the pixel around [r] of the tensor [TU] of the object found at [qu], which is on top of
    whatever is at [ql], and [TL]: the weight is the part of the pixel inside that object, and the direction is
    its normal.  [mean_eps_two] is described by C04 and C05. *)
Definition averaged (e : env) (objs : list material) (contains : nat -> vec -> Prop) (d r : vec) (TU TL : sym) (qu ql : vec) (T : sym) (n : vec) : Prop :=
  exists o i, q_find e (q_shift e qu) = Some o /\ topmost (length objs) contains (q_shift e qu) i /\
    (forall j, topmost (length objs) contains (q_shift e ql) j -> (j < i)%nat) /\
    let by_ := vadd (f_by o) (vsub qu (q_shift e qu)) in
    let p := unit_pos e r in let dd := half_pixel e d in
    n = reduced e (q_normal e (vsub p by_) (f_obj o)) /\
    mean_eps_two TU TL (q_overlap e (vsub (vsub p dd) by_) (vsub (vadd p dd) by_) (f_obj o))
      (cartesian e n 0) (cartesian e n 1) (cartesian e n 2) = Val (Some T).

(** The two points lie in one object, in the same one of its images under the lattice translations (or in images the
    comparison of displacements takes for the same). *)
Definition same_image (e : env) (q q' : vec) : Prop :=
  exists o o', q_find e (q_shift e q) = Some o /\ q_find e (q_shift e q') = Some o' /\ f_id o = f_id o' /\
    let by_ := vadd (f_by o) (vsub q (q_shift e q)) in let by' := vadd (f_by o') (vsub q' (q_shift e q')) in
    by_ = by' \/ q_veq e by_ by' = true.
