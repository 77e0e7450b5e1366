(** Vocabulary for the properties of the data post-processor. *)
From Coq Require Import String List ZArith Reals Bool.
From Verif Require Import Base RC M_Tensor M_Data.
Import ListNotations.
Local Open Scope Z_scope.

(** Sizes of an array, its entries in row-major order, and the position of an entry. *)
Definition sizes_ok (n : Z * Z * Z) : Prop := let '(n0, n1, n2) := n in 1 <= n0 /\ 1 <= n1 /\ 1 <= n2.
Definition volume (n : Z * Z * Z) : Z := let '(n0, n1, n2) := n in n0 * n1 * n2.
Definition inside (n c : Z * Z * Z) : Prop :=
  let '(n0, n1, n2) := n in let '(i, j, k) := c in 0 <= i < n0 /\ 0 <= j < n1 /\ 0 <= k < n2.
Definition place (n c : Z * Z * Z) : Z := let '(n0, n1, n2) := n in let '(i, j, k) := c in (i * n1 + j) * n2 + k.
Definition get (n : Z * Z * Z) (d : list R) (c : Z * Z * Z) : R := nth (Z.to_nat (place n c)) d 0%R.
Definition array (n : Z * Z * Z) (d : list R) : Prop := Z.of_nat (length d) = volume n.
(** Exchange of the first two. *)
Definition flip {A} (t : bool) (c : A * A * A) : A * A * A := if t then let '(i, j, k) := c in (j, i, k) else c.

(** The periodic continuation of an array: the point of the cell, and which cell. *)
Definition home (n c : Z * Z * Z) : Z * Z * Z := let '(n0, n1, n2) := n in let '(i, j, k) := c in (i mod n0, j mod n1, k mod n2).
Definition cell (n c : Z * Z * Z) : Z * Z * Z := let '(n0, n1, n2) := n in let '(i, j, k) := c in (i / n0, j / n1, k / n2).
(** exp(2 pi i k.c); no wave vector counts as zero. *)
Definition bloch (k : option vec) (c : Z * Z * Z) : C :=
  let '(k0, k1, k2) := match k with Some k => k | None => (0, 0, 0)%R end in let '(i, j, l) := c in
  let phi := (2 * PI * (k0 * IZR i + k1 * IZR j + k2 * IZR l))%R in (cos phi, sin phi).
(** Continuation of complex data, with the Bloch phase of the cell, and of real data. *)
Definition cont (n : Z * Z * Z) (k : option vec) (d_re d_im : list R) (c : Z * Z * Z) : C :=
  (bloch k (cell n c) * (get n d_re (home n c), get n d_im (home n c)))%C.
Definition rcont (n : Z * Z * Z) (d : list R) (c : Z * Z * Z) : R := get n d (home n c).

(** The neighbours of a real position with their weights: linear interpolation, or the nearest
    one (the lower in the middle). *)
Definition neighbours (near : bool) (X : R) : list (Z * R) :=
  let F := Int_part X in let d := (X - IZR F)%R in
  let w := if near then (if Rle_dec d (1 / 2) then 0 else 1)%R else d in [(F, (1 - w)%R); (F + 1, w)].
Definition rsum_l (l : list R) : R := fold_right Rplus 0%R l.
Definition blend (near : bool) (f : Z * Z * Z -> R) (p : vec) : R :=
  let '(X, Y, Z) := p in
  rsum_l (map (fun a => rsum_l (map (fun b => rsum_l (map (fun c => (snd a * snd b * snd c * f (fst a, fst b, fst c))%R)
    (neighbours near Z))) (neighbours near Y))) (neighbours near X)).
Definition cblend (near : bool) (f : Z * Z * Z -> C) (p : vec) : C := (blend near (fun c => re (f c)) p, blend near (fun c => im (f c)) p).

(** Linear combination of three vectors. *)
Definition combo (L : m33) (v : vec) : vec :=
  let '((a0, a1, a2), (b0, b1, b2), (c0, c1, c2)) := L in let '(x, y, z) := v in
  (a0 * x + b0 * y + c0 * z, a1 * x + b1 * y + c1 * z, a2 * x + b2 * y + c2 * z)%R.
(** Points of a grid of [n] in the coordinates of the cell, from the middle of the cell; and the
    other way round. *)
Definition frac (n c : Z * Z * Z) : vec :=
  let '(n0, n1, n2) := n in let '(i, j, k) := c in (IZR i / IZR n0 - 1 / 2, IZR j / IZR n1 - 1 / 2, IZR k / IZR n2 - 1 / 2)%R.
Definition gridpos (n : Z * Z * Z) (r : vec) : vec :=
  let '(n0, n1, n2) := n in let '(x, y, z) := r in ((x + 1 / 2) * IZR n0, (y + 1 / 2) * IZR n1, (z + 1 / 2) * IZR n2)%R.
(** Point [c] of the output grid is where [r] is in the input cell: the same place in space. *)
Definition same_place (Rin Rout : m33) (n_out c : Z * Z * Z) (r : vec) : Prop := combo Rin r = combo Rout (frac n_out c).

(** The value remembered by add_cmplx_times_phase fits its phase. *)
Definition memo_ok (m : memo) : Prop := let '(phase, p_re, p_im) := m in p_re = cos phase /\ p_im = sin phase.

(** Inner product, product and triple product. *)
Definition dot3 (a b : vec) : R := let '(x, y, z) := a in let '(u, v, w) := b in (x * u + y * v + z * w)%R.
Definition triple (L : m33) : R :=
  let '((a0, a1, a2), (b0, b1, b2), (c0, c1, c2)) := L in
  (a0 * (b1 * c2 - b2 * c1) + a1 * (b2 * c0 - b0 * c2) + a2 * (b0 * c1 - b1 * c0))%R.
Definition sc3 (s : R) (v : vec) : vec := let '(x, y, z) := v in (s * x, s * y, s * z)%R.

(** Attributes of a file, and the cell and wave vector they describe: lattice vectors times the
    number of copies. *)
Definition vec_attr (v : option vec) : attr := match v with None => None | Some (x, y, z) => Some ([3], [x; y; z]) end.
Definition lattice_attr (L : m33) : attr :=
  let '((a0, a1, a2), (b0, b1, b2), (c0, c1, c2)) := L in Some ([3; 3], [a0; a1; a2; b0; b1; b2; c0; c1; c2]).
Definition times (m : vec) (L : m33) : m33 := let '(a, b, c) := m in let '(c0, c1, c2) := L in (sc3 a c0, sc3 b c1, sc3 c c2).
Definition or_one (v : option vec) : vec := match v with Some v => v | None => (1, 1, 1)%R end.
Definition kcell (cp : option vec) (k : option vec) : option vec :=
  match k with None => None | Some (k0, k1, k2) => let '(a, b, c) := or_one cp in Some (k0 * a, k1 * b, k2 * c)%R end.

(** Datasets of one to three dimensions; missing dimensions count as one point. *)
Definition pad (dims : list Z) : Z * Z * Z := (nth 0 dims 1, nth 1 dims 1, nth 2 dims 1).
Definition dims_ok (dims : list Z) : Prop := (1 <= length dims <= 3)%nat /\ Forall (fun n => 1 <= n) dims.
Definition dset_ok (d : dset) : Prop := dims_ok (fst d) /\ array (pad (fst d)) (snd d).
Definition flip_dims (t : bool) (l : list Z) : list Z := if t then match l with a :: b :: r => b :: a :: r | _ => l end else l.

(** The sizes of the output: [res] points per unit length, or [mult] times as many as before;
    at least one. *)
Definition out_count (res mult len : R) (n : Z) : Z := Z.max 1 (Int_part (if Rlt_dec 0 res then len * res + 1 / 2 else IZR n * mult)).
Definition out_dims (res : R) (mult : vec) (Rout : m33) (dims : list Z) : list Z :=
  let '(m0, m1, m2) := mult in let '(c0, c1, c2) := Rout in
  map (fun q => let '(n, (m, c)) := q in out_count res m (sqrt (dot3 c c)) n) (combine dims [(m0, c0); (m1, c1); (m2, c2)]).
(** The name written to. *)
Definition written_name (same : bool) (name : string) : string := if same then append name "-new" else name.

(** An entry of an output in the order written, by its coordinates. *)
Definition value_at (t : bool) (o : Z * Z * Z) (a b : list R) (c : Z * Z * Z) : C := (get (flip t o) a (flip t c), get (flip t o) b (flip t c)).
(** Numbers of copies, one in missing directions. *)
Definition copies_ok (m : Z * Z * Z) (dims : list Z) : Prop :=
  let '(m0, m1, m2) := m in 1 <= m0 /\ 1 <= m1 /\ 1 <= m2 /\ ((length dims < 2)%nat -> m1 = 1) /\ ((length dims < 3)%nat -> m2 = 1).
Definition shifted (s c : Z * Z * Z) : Z * Z * Z := let '(a, b, d) := s in let '(i, j, k) := c in (i + a, j + b, k + d).
Definition zmul (s n : Z * Z * Z) : Z * Z * Z := let '(a, b, d) := s in let '(i, j, k) := n in (a * i, b * j, d * k).
(** Names of the parts of a vector field. *)
Definition six_names : list string := ["x.r"; "x.i"; "y.r"; "y.i"; "z.r"; "z.i"]%string.
(** Real and imaginary part have the same sizes, if both are there. *)
Definition matched (f : datasets) (base : string) : Prop := forall d d', f (append base ".r") = Some d -> f (append base ".i") = Some d' -> fst d = fst d'.

(** Difference; and the volume spanned by a direction and the plane through the ends of the
    lattice vectors. *)
Definition sub3 (a b : vec) : vec := let '(x, y, z) := a in let '(u, v, w) := b in (x - u, y - v, z - w)%R.
Definition slant (L : m33) (v : vec) : R := let '(c0, c1, c2) := L in triple (sub3 c1 c0, sub3 c2 c0, v).
Definition direction (L : m33) (ve : option vec) : vec := match ve with Some v => v | None => let '(c0, _, _) := L in c0 end.
(** The names looked for. *)
Definition chosen (dn : option string) : list string := match dn with Some EmptyString | None => datanames | Some d => [d] end.
(** Options: only numbers of copies; the same with transposition. *)
Definition with_mult (m : vec) : options :=
  {| o_rect := false; o_ve := None; o_res := 0; o_scale := phase_scale 0; o_mult := m; o_near := false; o_trans := false; o_same := false |}.
Definition turned (o : options) : options :=
  {| o_rect := o_rect o; o_ve := o_ve o; o_res := o_res o; o_scale := o_scale o; o_mult := o_mult o; o_near := o_near o; o_trans := true; o_same := o_same o |}.
Definition id3 : m33 := ((1, 0, 0), (0, 1, 0), (0, 0, 1))%R.
