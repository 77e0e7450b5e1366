(** Model of the material at a point: mpb/epsilon.c 22-407 and 501-562 (mu.c is made from it by renaming, Makefile.am 74-75)
    and mpb/medium.c 44-113.  The geometry itself (tree, boxes, normals, unit cell) is libctl's and enters
    as functions. *)
From Coq Require Import List ZArith Reals Bool.
From Verif Require Import Base RC M_Tensor.
Import ListNotations.
Local Open Scope R_scope.

(** medium-anisotropic (mpb.scm.in, ctl-io.h): diagonal, off-diagonal, and the extra imaginary off-diagonal of
    epsilon and of mu. *)
Record aniso := { a_ediag : vec; a_eoff : C * C * C; a_eim : vec; a_mdiag : vec; a_moff : C * C * C; a_mim : vec }.
(** material-grid: the ranges; [g_id] stands for the rest. *)
Record mat_grid := { g_id : Z; g_emin : R; g_emax : R; g_mmin : R; g_mmax : R }.
(** material_type: which_subclass with its data.  A material function is known by a number. *)
Inductive material :=
| Medium (eps mu : R) | Aniso (a : aniso) | Grid (g : mat_grid) | Function (f : Z) | Nothing.

(** What geom_tree_search finds: the object's number, material, shift and precedence (libctl geom_box_object). *)
Record found := { f_obj : Z; f_mat : material; f_by : vec; f_id : Z }.

(** The globals read and the libctl functions called: geometry_lattice.size; no_size_x, _y, _z;
    shift_to_unit_cell; geom_tree_search in geometry_tree; vector3_equal; material_type_equal;
    default_material; epsilon_file_func ([false]) and mu_file_func ([true]), None if NULL; the Scheme
    functions; matgrid_val (modelled in M_Matgrid); normal_to_fixed_object; box_overlap_with_object (at
    fixed tolerance); R; dimensions. *)
Record env := { q_size : vec; q_none : bool * bool * bool; q_shift : vec -> vec; q_find : vec -> option found;
  q_veq : vec -> vec -> bool; q_eqm : material -> material -> bool; q_default : material;
  q_file : bool -> option (vec -> outcome (sym * sym)); q_call : Z -> vec -> material;
  q_grid : vec -> option found -> mat_grid -> R; q_normal : vec -> Z -> vec; q_overlap : vec -> vec -> Z -> R;
  q_R : mat3; q_dim : nat }.

Definition vadd (a b : vec) : vec := let '(x, y, z) := a in let '(u, v, w) := b in (x + u, y + v, z + w).
Definition vsub (a b : vec) : vec := let '(x, y, z) := a in let '(u, v, w) := b in (x - u, y - v, z - w).

(** The diagonal and off-diagonal entries of an anisotropic medium, epsilon.c 44-64; [mu]: the same in mu.c. *)
Definition aniso_tensor (mu : bool) (a : aniso) : sym :=
  let '(x, y, z) := if mu then a_mdiag a else a_ediag a in
  let '(u, v, w) := if mu then a_moff a else a_eoff a in
  let '(iu, iv, iw) := if mu then a_mim a else a_eim a in
  mkSym x y z (re u, im u + iu) (re v, im v + iv) (re w, im w + iw).
(** 65-68, the build without WITH_HERMITIAN_EPSILON: the norm of the imaginary parts is 0. *)
Definition aniso_real (T : sym) : bool := Reqb (sqrt (im (m01 T) * im (m01 T) + im (m02 T) * im (m02 T) + im (m12 T) * im (m12 T))) 0.
(** 22-83 material_epsilon; [herm] is WITH_HERMITIAN_EPSILON. *)
Definition material_tensor (herm mu : bool) (m : material) : outcome (sym * sym) :=
  match m with
  | Medium eps mv =>
      let v := if mu then mv else eps in
      let! i := fdiv 1 v in Val (mkSym v v v C0 C0 C0, mkSym i i i C0 C0 C0)
  | Aniso a =>
      let T := aniso_tensor mu a in
      let! _ := check (herm || aniso_real T) in
      let! Ti := invert T in Val (T, Ti)
  | Grid _ | Function _ | Nothing => Abort
  end.

(** 103-108: the point in the basis of lattice unit vectors, origin at the centre. *)
Definition unit_pos (e : env) (r : vec) : vec :=
  let '(x, y, z) := r in let '(sx, sy, sz) := q_size e in let '(nx, ny, nz) := q_none e in
  (if nx then 0 else (x - 1/2) * sx, if ny then 0 else (y - 1/2) * sy, if nz then 0 else (z - 1/2) * sz).

(** 146-159: material functions are called until the material is something else; None if the number of
    calls exceeds the fuel (the loop has no bound). *)
Fixpoint follow (e : env) (fuel : nat) (p : vec) (m : material) : option material :=
  match m with
  | Function f => match fuel with O => None | S k => follow e k p (q_call e f p) end
  | _ => Some m
  end.

(** medium.c 44-62 make_epsilon, make_mu. *)
Definition make_value (mu : bool) (v : R) : material := if mu then Medium 1 v else Medium v 1.

(** 93-184 epsilon_func and mu_func; the debug check 123-131 is not modelled, nor is freeing. *)
Definition medium_func (herm mu : bool) (e : env) (fuel : nat) (r : vec) : option (outcome (sym * sym)) :=
  let p := q_shift e (unit_pos e r) in
  let tp := q_find e p in                                                       (* 113 *)
  let m := match tp with Some o => f_mat o | None => q_default e end in          (* 114-121 *)
  let '(tp, m) := match m with Nothing => (None, q_default e) | _ => (tp, m) end in   (* 133-136 *)
  match tp, q_file e mu with
  | None, Some f => Some (f r)                                                   (* 140-142 *)
  | _, _ =>
      match follow e fuel p m with
      | None => None
      | Some m =>
          let m := match m with                                                  (* 161-178 *)
                   | Grid g => let '(lo, hi) := if mu then (g_mmin g, g_mmax g) else (g_emin g, g_emax g) in
                               make_value mu (q_grid e p tp g * (hi - lo) + lo)
                   | _ => m
                   end in
          Some (material_tensor herm mu m)
      end
  end.

(** 201-211: the offsets of the points looked at, by dimension. *)
Definition neighbors (dim : nat) : list vec :=
  match dim with
  | 3%nat => [(0,0,0); (1,1,1); (1,1,-1); (1,-1,1); (1,-1,-1); (-1,1,1); (-1,1,-1); (-1,-1,1); (-1,-1,-1)]
  | 2%nat => [(0,0,0); (-1,-1,0); (1,1,0); (-1,1,0); (1,-1,0)]
  | _ => [(0,0,0); (-1,0,0); (1,0,0)]
  end.

(** One point looked at: object (None: NULL), total shift, precedence, material; 237-239, 243-244.  Without an object
    object_of_point_in_tree gives a zero shift and precedence 0 (libctl). *)
Record seen := { s_obj : option found; s_by : vec; s_id : Z; s_mat : material }.
Definition look (e : env) (q : vec) : seen :=
  let z := q_shift e q in
  match q_find e z with
  | Some o => {| s_obj := Some o; s_by := vadd (f_by o) (vsub q z); s_id := f_id o;
                 s_mat := match f_mat o with Nothing => q_default e | m => m end |}
  | None => {| s_obj := None; s_by := vadd (0, 0, 0) (vsub q z); s_id := 0%Z; s_mat := q_default e |}
  end.

(** id1 or id2: -1 before the first assignment (199). *)
Definition id_of (o : option seen) : Z := match o with Some s => s_id s | None => (-1)%Z end.
(** id == id1 && vector3_equal(shiftby, shiftby1), 240-241; shiftby1 is not initialized before id1 is set. *)
Definition same_seen (e : env) (s : seen) (o : option seen) : outcome bool :=
  if (s_id s =? id_of o)%Z then match o with Some t => Val (q_veq e (s_by s) (s_by t)) | None => UB end else Val false.
(** One iteration, 229-264; None is "return 0". *)
Definition look_step (e : env) (st : option seen * option seen) (s : seen) : outcome (option (option seen * option seen)) :=
  let '(o1, o2) := st in
  let! b1 := same_seen e s o1 in
  let! b2 := if b1 then Val true else same_seen e s o2 in
  if b2 then Val (Some st)                                                        (* 242 continue *)
  else if (id_of o1 =? -1)%Z then Val (Some (Some s, o2))                         (* 245-250 *)
  else if (id_of o2 =? -1)%Z then Val (Some (o1, Some s))                         (* 251, first alternative *)
  else match o1, o2 with
  | Some a, Some b =>
      let id := s_id s in
      if (s_id a <=? id)%Z && (s_id b <=? id)%Z && ((s_id a =? s_id b)%Z || q_eqm e (s_mat a) (s_mat b))
      then Val (Some (o1, Some s))                                                (* 251-258 *)
      else if negb ((s_id a <? s_id b)%Z && ((s_id a =? id)%Z || q_eqm e (s_mat a) (s_mat s))) &&
              negb ((s_id b <? s_id a)%Z && ((s_id b =? id)%Z || q_eqm e (s_mat b) (s_mat s)))
      then Val None                                                               (* 259-263 *)
      else Val (Some st)
  | _, _ => UB
  end.
Fixpoint look_all (e : env) (st : option seen * option seen) (l : list seen) : outcome (option (option seen * option seen)) :=
  match l with
  | [] => Val (Some st)
  | s :: l => let! r := look_step e st s in match r with None => Val None | Some st => look_all e st l end
  end.

(** medium.c 64-68. *)
Definition variable_material (m : material) : bool := match m with Grid _ | Function _ => true | _ => false end.
Definition var_obj (o : option found) : bool := match o with Some f => variable_material (f_mat f) | None => false end.
(** !o || o->material is MATERIAL_TYPE_SELF. *)
Definition hole (o : option found) : bool := match o with Some f => match f_mat f with Nothing => true | _ => false end | None => true end.

(** 219-221: half the pixel. *)
Definition half_pixel (e : env) (d : vec) : vec :=
  let '(d1, d2, d3) := d in let '(sx, sy, sz) := q_size e in let '(nx, ny, nz) := q_none e in
  (d1 * (if nx then 0 else sx * (1/2)), d2 * (if ny then 0 else sy * (1/2)), d3 * (if nz then 0 else sz * (1/2))).
(** The points looked at, 216-218 and 234-236. *)
Definition look_points (e : env) (d r : vec) : list vec :=
  let '(x, y, z) := unit_pos e r in let '(d1, d2, d3) := half_pixel e d in
  map (fun n => let '(a, b, c) := n in (x + a * d1, y + b * d2, z + c * d3)) (neighbors (q_dim e)).

(** 291-405: two materials, [a] and [b] with the tensor [e1] of the first; the normal and the overlap are those of
    the object on top. *)
Definition interface (herm mu : bool) (e : env) (d r : vec) (a b : seen) (e1 : sym) : outcome (option (sym * vec)) :=
  let p := unit_pos e r in
  let dd := half_pixel e d in
  let first := (s_id b <? s_id a)%Z in
  let top := if first then a else b in
  match s_obj top with
  | None => UB                                                         (* *o1 or *o2, 291-294 *)
  | Some o =>
      let '(vx, vy, vz) := q_normal e (vsub p (s_by top)) (f_obj o) in
      let '(sx, sy, sz) := q_size e in let '(nx, ny, nz) := q_none e in
      let! n0 := if nx then Val 0 else fdiv vx sx in                   (* 296-298 *)
      let! n1 := if ny then Val 0 else fdiv vy sy in
      let! n2 := if nz then Val 0 else fdiv vz sz in
      let ov := q_overlap e (vsub (vsub p dd) (s_by top)) (vsub (vadd p dd) (s_by top)) (f_obj o) in   (* 300-317 *)
      let fill := if first then ov else 1 - ov in
      let! t2 := material_tensor herm mu (s_mat b) in                  (* 323 *)
      let Rl := q_R e in
      let! m := mean_eps_two e1 (fst t2) fill                          (* 327-396 *)
        (Rl 0%nat 0%nat * n0 + Rl 1%nat 0%nat * n1 + Rl 2%nat 0%nat * n2)
        (Rl 0%nat 1%nat * n0 + Rl 1%nat 1%nat * n1 + Rl 2%nat 1%nat * n2)
        (Rl 0%nat 2%nat * n0 + Rl 1%nat 2%nat * n1 + Rl 2%nat 2%nat * n2) in
      Val (match m with None => None | Some T => Some (T, (n0, n1, n2)) end)
  end.

(** 186-407 mean_epsilon_func and mean_mu_func: None is the return value 0, otherwise the mean tensor and
    the normal n.  meps_inv is not modelled (the callers use the mean only). *)
Definition mean_func (herm mu : bool) (e : env) (d r : vec) : outcome (option (sym * vec)) :=
  let! st := look_all e (None, None) (map (look e) (look_points e d r)) in
  match st with
  | None => Val None
  | Some (o1, o2) =>
      let! _ := check (-1 <? id_of o1)%Z in                                        (* 266 *)
      let o2 := if (id_of o2 =? -1)%Z then o1 else o2 in                           (* 267-272 *)
      match o1, o2 with
      | Some a, Some b =>
          if var_obj (s_obj a) || var_obj (s_obj b) ||
             ((variable_material (q_default e) || match q_file e mu with Some _ => true | None => false end) &&
              (hole (s_obj a) || hole (s_obj b)))
          then Val None                                                            (* 274-281 *)
          else
            let! t1 := material_tensor herm mu (s_mat a) in                        (* 283 *)
            if (s_id a =? s_id b)%Z || q_eqm e (s_mat a) (s_mat b) then Val (Some (fst t1, (0, 0, 0)))  (* 286-289 *)
            else interface herm mu e d r a b (fst t1)
      | _, _ => UB
      end
  end.

(** medium.c 80-100 material_has_mu. *)
Definition material_has_mu (m : material) : bool :=
  match m with
  | Medium _ mu => negb (Reqb mu 1)
  | Aniso a =>
      let '(x, y, z) := a_mdiag a in let '(u, v, w) := a_moff a in let '(iu, iv, iw) := a_mim a in
      negb (Reqb x 1) || negb (Reqb y 1) || negb (Reqb z 1) || negb (Reqb (re u) 0) || negb (Reqb (re v) 0) || negb (Reqb (re w) 0) ||
      negb (Reqb (im u + iu) 0) || negb (Reqb (im v + iv) 0) || negb (Reqb (im w + iw) 0)
  | Grid g => negb (Reqb (g_mmin g) 1) || negb (Reqb (g_mmax g) 1)
  | Function _ | Nothing => false
  end.
(** 102-113 has_mu: [force] is force-mu?, [objs] the materials of the geometry list. *)
Definition has_mu (e : env) (force : bool) (objs : list material) : bool :=
  match q_file e true with Some _ => true | None => false end || force || material_has_mu (q_default e) || existsb material_has_mu objs.

(** epsilon.c 501-562 get_epsilon_tensor for one grid point: component c1 c2, imaginary part, inverse tensor or
    not; 511-547 and 550-560, in the build with WITH_HERMITIAN_EPSILON. *)
Definition tensor_component (c1 c2 : Z) (imag inv : bool) (Ti : sym) : outcome R :=
  let! T := if inv then Val Ti else invert Ti in
  let part (z : C) := if imag then im z else re z in
  match (c1 * 3 + c2)%Z with
  | 0%Z => Val (m00 T) | 1%Z => Val (part (m01 T)) | 2%Z => Val (part (m02 T))
  | 3%Z => Val (if imag then - part (m01 T) else part (m01 T))
  | 4%Z => Val (m11 T) | 5%Z => Val (part (m12 T))
  | 6%Z => Val (if imag then - part (m02 T) else part (m02 T))
  | 7%Z => Val (if imag then - part (m12 T) else part (m12 T))
  | 8%Z => Val (m22 T)
  | _ => Val (m00 T)                                                               (* offset = 0, 505 *)
  end.
