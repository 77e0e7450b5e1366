(** Properties C45 and C46: mpb-data. *)
From Coq Require Import String List ZArith Reals Bool Lia Lra.
From Verif Require Import Base RC M_Tensor M_Data S_Data L_Data5 L_Data9 L_Data10 L_Data11 L_Data12.
Import ListNotations.
Local Open Scope Z_scope.

(** ** C45 *)
(** Complex data, any options: the number at a point of the output is the scale times the
    interpolation, at the same place in space, of the data continued with the Bloch phase. *)
Theorem C45_complex : forall o L k cp st junk f nr ni dims d_re d_im m,
  prepare o (lattice_attr L) (vec_attr k) (vec_attr cp) = Val st -> f nr = Some (dims, d_re) -> f ni = Some (dims, d_im) -> dset_ok (dims, d_re) -> dset_ok (dims, d_im) ->
  memo_ok m -> (o_trans o = true -> (2 <= length dims)%nat) ->
  let Rin := times (or_one cp) L in
  exists R cart, (if o_rect o then rectify Rin (o_ve o) = Val (R, cart) else R = Rin) /\
  let Rout := times (o_mult o) R in let od := out_dims (o_res o) (o_mult o) Rout dims in
  exists a b m', handle_dataset st junk f nr (Some ni) m =
      Val ([(written_name (o_same o) nr, (flip_dims (o_trans o) od, a)); (written_name (o_same o) ni, (flip_dims (o_trans o) od, b))], m') /\
    memo_ok m' /\ array (pad od) a /\ array (pad od) b /\
    forall c, inside (pad od) c -> (exists r, same_place Rin Rout (pad od) c r) /\ forall r, same_place Rin Rout (pad od) c r ->
      value_at (o_trans o) (pad od) a b c = (o_scale o * cblend (o_near o) (cont (pad dims) (kcell cp k) d_re d_im) (gridpos (pad dims) r))%C.
Proof. exact data_complex. Qed.
Print Assumptions C45_complex.

(** Real data: likewise, without phases and scale. *)
Theorem C45_real : forall o L k cp st junk f nr dims d_re m,
  prepare o (lattice_attr L) (vec_attr k) (vec_attr cp) = Val st -> f nr = Some (dims, d_re) -> dset_ok (dims, d_re) -> (o_trans o = true -> (2 <= length dims)%nat) ->
  let Rin := times (or_one cp) L in
  exists R cart, (if o_rect o then rectify Rin (o_ve o) = Val (R, cart) else R = Rin) /\
  let Rout := times (o_mult o) R in let od := out_dims (o_res o) (o_mult o) Rout dims in
  exists a, handle_dataset st junk f nr None m = Val ([(written_name (o_same o) nr, (flip_dims (o_trans o) od, a))], m) /\ array (pad od) a /\
    forall c, inside (pad od) c -> (exists r, same_place Rin Rout (pad od) c r) /\ forall r, same_place Rin Rout (pad od) c r ->
      get (flip (o_trans o) (pad od)) a (flip (o_trans o) c) = blend (o_near o) (rcont (pad dims) d_re) (gridpos (pad dims) r).
Proof. exact data_real. Qed.
Print Assumptions C45_real.

(** Vector fields: their components along the new axes, and then as above. *)
Theorem C45_vector : forall o L k cp st junk f dims xr xi yr yi zr zi m,
  prepare o (lattice_attr L) (vec_attr k) (vec_attr cp) = Val st ->
  Forall2 (fun nam d => f nam = Some (dims, d) /\ dset_ok (dims, d)) six_names [xr; xi; yr; yi; zr; zi] -> memo_ok m -> (o_trans o = true -> (2 <= length dims)%nat) ->
  let Rin := times (or_one cp) L in
  exists Rc cart, (if o_rect o then rectify Rin (o_ve o) = Val (Rc, cart) else Rc = Rin /\ cart = ((1, 0, 0), (0, 1, 0), (0, 0, 1))%R) /\
  let Rout := times (o_mult o) Rc in let od := out_dims (o_res o) (o_mult o) Rout dims in
  exists l m', handle_cvector_dataset st junk f m = Val (map (fun p => (written_name (o_same o) (fst p), (flip_dims (o_trans o) od, snd p))) (combine six_names l), m') /\ memo_ok m' /\
    exists ox oxi oy oyi oz ozi xr' xi' yr' yi' zr' zi', l = [ox; oxi; oy; oyi; oz; ozi] /\
      (forall c, inside (pad dims) c -> (get (pad dims) xr' c, get (pad dims) yr' c, get (pad dims) zr' c) = flip (o_trans o) (combo cart (get (pad dims) xr c, get (pad dims) yr c, get (pad dims) zr c))) /\
      (forall c, inside (pad dims) c -> (get (pad dims) xi' c, get (pad dims) yi' c, get (pad dims) zi' c) = flip (o_trans o) (combo cart (get (pad dims) xi c, get (pad dims) yi c, get (pad dims) zi c))) /\
      Forall2 (fun q p => array (pad od) (fst q) /\ array (pad od) (snd q) /\ forall c r, inside (pad od) c -> same_place Rin Rout (pad od) c r ->
        value_at (o_trans o) (pad od) (fst q) (snd q) c = (o_scale o * cblend (o_near o) (cont (pad dims) (kcell cp k) (fst p) (snd p)) (gridpos (pad dims) r))%C)
        [(ox, oxi); (oy, oyi); (oz, ozi)] [(xr', xi'); (yr', yi'); (zr', zi')].
Proof. exact data_vector. Qed.
Print Assumptions C45_vector.

(** Without options every dataset written is the one read, and all that are looked for are
    written. *)
Theorem C45_identity : forall L k cp junk f dn m, triple (times (or_one cp) L) <> 0%R -> (forall nam d, f nam = Some d -> dset_ok d) ->
  (forall d, In d (chosen dn ++ ["x"; "y"; "z"]%string) -> matched f d) -> memo_ok m ->
  exists w m', handle_file default_options junk (lattice_attr L) (vec_attr k) (vec_attr cp) f dn m = Val (w, m') /\ memo_ok m' /\
    (forall nam d, In (nam, d) w -> f nam = Some d) /\
    (forall b d, In b (chosen dn) -> f b = Some d -> In (b, d) w) /\
    (forall b d d', In b (chosen dn ++ ["x"; "y"; "z"]%string) -> f (append b ".r") = Some d -> f (append b ".i") = Some d' -> In (append b ".r"%string, d) w /\ In (append b ".i"%string, d') w).
Proof. exact data_file_same. Qed.
Print Assumptions C45_identity.

(** A file with the six parts of a vector field on 2 x 2 points and a real array. *)
Example C45_file : let f nam := if existsb (String.eqb nam) six_names then Some ([2; 2], [1; 2; 3; 4]%R) else if String.eqb nam "data" then Some ([3], [5; 6; 7]%R) else None in
  triple (times (or_one (Some (1, 2, 3)%R)) id3) <> 0%R /\ (forall nam d, f nam = Some d -> dset_ok d) /\ (forall d, matched f d) /\ memo_ok memo0 /\
  f "data"%string = Some ([3], [5; 6; 7]%R) /\ Forall2 (fun nam d => f nam = Some ([2; 2], d) /\ dset_ok ([2; 2], d)) six_names (repeat [1; 2; 3; 4]%R 6).
Proof.
  cbv zeta. split; [unfold triple, times, or_one, id3, sc3; lra|].
  assert (D1 : dset_ok ([2; 2], [1; 2; 3; 4]%R)) by (split; [split; [cbn; lia|repeat constructor; lia]|reflexivity]).
  assert (D2 : dset_ok ([3], [5; 6; 7]%R)) by (split; [split; [cbn; lia|repeat constructor; lia]|reflexivity]).
  split; [intros nam d; destruct (existsb _ _); [intros [= <-]; exact D1|destruct (String.eqb _ _); [intros [= <-]; exact D2|discriminate]]|].
  split.
  - intros b d d'. assert (N : forall t, (t = ".r" \/ t = ".i")%string -> String.eqb (append b t) "data" = false).
    { intros t Ht. apply String.eqb_neq. intros E. destruct Ht as [-> | ->]; destruct b as [|? [|? [|? [|? [|? b]]]]]; cbn [append] in E; discriminate E. }
    rewrite !N by auto. destruct (existsb _ _); [|discriminate]. destruct (existsb _ _); [|discriminate]. intros [= <-] [= <-]. reflexivity.
  - split; [unfold memo_ok, memo0; rewrite cos_0, sin_0; auto|]. split; [reflexivity|]. cbn [repeat six_names]. repeat first [apply Forall2_nil | apply Forall2_cons; [split; [reflexivity|exact D1]|]].
Qed.

(** With whole numbers of copies the sizes are multiplied, a cell further on the numbers are
    those of the cell before times the Bloch phase, and if the shift to the middle is a whole
    number of points they are the data itself.  Missing for the full statement: the last for
    even numbers of copies of odd sizes, which is false, and dimensions the data does not have. *)
Theorem C45_copies_partial : forall o L k cp st junk f nr ni dims d_re d_im m m0 m1 m2,
  prepare o (lattice_attr L) (vec_attr k) (vec_attr cp) = Val st -> f nr = Some (dims, d_re) -> f ni = Some (dims, d_im) -> dset_ok (dims, d_re) -> dset_ok (dims, d_im) ->
  memo_ok m -> (o_trans o = true -> (2 <= length dims)%nat) ->
  o_rect o = false -> ~ (0 < o_res o)%R -> o_mult o = (IZR m0, IZR m1, IZR m2) -> copies_ok (m0, m1, m2) dims ->
  let od := zmul (pad dims) (m0, m1, m2) in
  exists ld a b m', handle_dataset st junk f nr (Some ni) m = Val ([(written_name (o_same o) nr, (ld, a)); (written_name (o_same o) ni, (ld, b))], m') /\
    length ld = length dims /\ pad ld = flip (o_trans o) od /\ array od a /\ array od b /\
    (forall s c, inside od c -> inside od (shifted (zmul s (pad dims)) c) ->
      value_at (o_trans o) od a b (shifted (zmul s (pad dims)) c) = (bloch (kcell cp k) s * value_at (o_trans o) od a b c)%C) /\
    (forall off c, zmul (2, 2, 2) off = zmul (pad dims) (1 - m0, 1 - m1, 1 - m2) -> inside od c ->
      value_at (o_trans o) od a b c = (o_scale o * cont (pad dims) (kcell cp k) d_re d_im (shifted off c))%C).
Proof. exact data_copies. Qed.
Print Assumptions C45_copies_partial.

Theorem C45_real_copies_partial : forall o L k cp st junk f nr dims d_re m m0 m1 m2,
  prepare o (lattice_attr L) (vec_attr k) (vec_attr cp) = Val st -> f nr = Some (dims, d_re) -> dset_ok (dims, d_re) -> (o_trans o = true -> (2 <= length dims)%nat) ->
  o_rect o = false -> ~ (0 < o_res o)%R -> o_mult o = (IZR m0, IZR m1, IZR m2) -> copies_ok (m0, m1, m2) dims ->
  let od := zmul (pad dims) (m0, m1, m2) in let val a c := get (flip (o_trans o) od) a (flip (o_trans o) c) in
  exists ld a, handle_dataset st junk f nr None m = Val ([(written_name (o_same o) nr, (ld, a))], m) /\
    length ld = length dims /\ pad ld = flip (o_trans o) od /\ array od a /\
    (forall s c, inside od c -> inside od (shifted (zmul s (pad dims)) c) -> val a (shifted (zmul s (pad dims)) c) = val a c) /\
    (forall off c, zmul (2, 2, 2) off = zmul (pad dims) (1 - m0, 1 - m1, 1 - m2) -> inside od c -> val a c = rcont (pad dims) d_re (shifted off c)).
Proof. exact data_real_copies. Qed.
Print Assumptions C45_real_copies_partial.

(** Three copies of four points along the first direction of an array of 4 x 3 points: the
    middle copy is the data, from the fourth point on. *)
Example C45_example : exists st, prepare (with_mult (3, 1, 1)%R) (lattice_attr id3) (vec_attr (Some (1 / 4, 0, 0)%R)) (vec_attr None) = Val st /\
  copies_ok (3, 1, 1) [4; 3] /\ dset_ok ([4; 3], repeat 1%R 12) /\ zmul (2, 2, 2) (-4, 0, 0) = zmul (pad [4; 3]) (1 - 3, 1 - 1, 1 - 1) /\
  inside (zmul (pad [4; 3]) (3, 1, 1)) (5, 2, 0) /\ inside (zmul (pad [4; 3]) (3, 1, 1)) (shifted (zmul (1, 0, 0) (pad [4; 3])) (5, 2, 0)) /\
  bloch (kcell None (Some (1 / 4, 0, 0)%R)) (1, 0, 0) = (0, 1)%R.
Proof.
  destruct (prepare_total (with_mult (3, 1, 1)%R) id3 (Some (1 / 4, 0, 0)%R) None (id_triple None eq_refl)) as (st & E); [discriminate|].
  exists st. split; [exact E|]. split; [cbn; lia|]. split; [split; [split; [cbn; lia|repeat constructor; lia]|reflexivity]|]. split; [reflexivity|]. split; [cbn; lia|]. split; [cbn; lia|].
  cbn [kcell or_one bloch]. replace (2 * PI * (1 / 4 * 1 * 1 + 0 * 1 * 0 + 0 * 1 * 0))%R with (PI / 2)%R by lra. rewrite cos_PI2, sin_PI2. reflexivity.
Qed.

(** Transposition permutes the numbers. *)
Theorem C45_transpose_partial : forall o L k cp st st' junk f nr dims d_re m,
  prepare o (lattice_attr L) (vec_attr k) (vec_attr cp) = Val st -> prepare (turned o) (lattice_attr L) (vec_attr k) (vec_attr cp) = Val st' ->
  o_trans o = false -> f nr = Some (dims, d_re) -> dset_ok (dims, d_re) -> (2 <= length dims)%nat ->
  exists nam ld a a', handle_dataset st junk f nr None m = Val ([(nam, (ld, a))], m) /\ handle_dataset st' junk f nr None m = Val ([(nam, (flip_dims true ld, a'))], m) /\
    array (pad ld) a /\ array (pad ld) a' /\ forall i j l, inside (pad ld) (i, j, l) -> get (pad (flip_dims true ld)) a' (j, i, l) = get (pad ld) a (i, j, l).
Proof. exact data_transpose. Qed.
Print Assumptions C45_transpose_partial.

(** All accesses are in range: a value or a deliberate stop for any sizes, lattice and options,
    once there is a setting. *)
Theorem C45_safe : forall o L k cp st junk f dn m, prepare o (lattice_attr L) (vec_attr k) (vec_attr cp) = Val st -> (forall nam d, f nam = Some d -> dset_ok d) -> memo_ok m ->
  (exists w m', handle_file o junk (lattice_attr L) (vec_attr k) (vec_attr cp) f dn m = Val (w, m') /\ memo_ok m') \/ handle_file o junk (lattice_attr L) (vec_attr k) (vec_attr cp) f dn m = Abort.
Proof. exact data_file_safe. Qed.
Print Assumptions C45_safe.

(** There is one for every lattice of nonzero volume, and every direction that is not parallel to
    the plane through the ends of the lattice vectors. *)
Theorem C45_setting : forall o L k cp, let Rin := times (or_one cp) L in triple Rin <> 0%R -> (o_rect o = true -> slant Rin (direction Rin (o_ve o)) <> 0%R) ->
  exists st, prepare o (lattice_attr L) (vec_attr k) (vec_attr cp) = Val st.
Proof.
  intros o L k cp Rin T H. apply prepare_total; [exact T|]. intros E. specialize (H E). fold Rin. rewrite slant_is.
  replace (match o_ve o with Some v => v | None => fst (fst Rin) end) with (direction Rin (o_ve o)); [exact H|].
  unfold direction. destruct (o_ve o); [reflexivity|]. destruct Rin as [[? ?] ?]. reflexivity.
Qed.
Print Assumptions C45_setting.

(** Two copies of one point with the phase -1 between cells: the output is zero, whatever the
    data; no shift of the continued data. *)
Theorem C45_copies_refuted : exists st, prepare (with_mult (2, 1, 1)%R) (lattice_attr id3) (vec_attr (Some (1 / 2, 0, 0)%R)) (vec_attr None) = Val st /\
  forall junk f d e m, f "data.r"%string = Some ([1], [d]) -> f "data.i"%string = Some ([1], [e]) -> memo_ok m ->
  exists a b m', handle_dataset st junk f "data.r" (Some "data.i"%string) m = Val ([("data.r"%string, ([2], a)); ("data.i"%string, ([2], b))], m') /\
    forall c, inside (2, 1, 1) c -> value_at false (2, 1, 1) a b c = (0, 0)%R.
Proof. exact odd_copies. Qed.
Print Assumptions C45_copies_refuted.

(** Two-dimensional data with the wave vector (0, 0, 1/2) and -m 2: the third direction, which the
    data does not have, makes the output zero. *)
Theorem C45_flat_copies_refuted : exists st, prepare (with_mult (2, 2, 2)%R) (lattice_attr id3) (vec_attr (Some (0, 0, 1 / 2)%R)) (vec_attr None) = Val st /\
  forall junk f d e m, f "data.r"%string = Some ([2; 2], d) -> f "data.i"%string = Some ([2; 2], e) -> length d = 4%nat -> length e = 4%nat -> memo_ok m ->
  exists a b m', handle_dataset st junk f "data.r" (Some "data.i"%string) m = Val ([("data.r"%string, ([4; 4], a)); ("data.i"%string, ([4; 4], b))], m') /\
    forall c, inside (4, 4, 1) c -> value_at false (4, 4, 1) a b c = (0, 0)%R.
Proof. exact flat_copies. Qed.
Print Assumptions C45_flat_copies_refuted.

(** Transposed one-dimensional data of any size is cut to one number. *)
Theorem C45_transpose_refuted : exists st, prepare (turned default_options) (lattice_attr id3) (vec_attr None) (vec_attr None) = Val st /\
  forall junk f nam n d m, f nam = Some ([n], d) -> dset_ok ([n], d) -> memo_ok m -> exists x, handle_dataset st junk f nam None m = Val ([(nam, ([1], [x]))], m).
Proof.
  destruct (prepare_total (turned default_options) id3 None None (id_triple None eq_refl)) as (st & E); [discriminate|].
  exists st. split; [exact E|]. intros junk f nam n d m E1 D Hm. exact (flat_transpose _ _ _ _ st junk f nam n d m E eq_refl E1 D Hm).
Qed.
Print Assumptions C45_transpose_refuted.

(** A file without attributes: a variable without a value is read. *)
Theorem C45_attributes_refuted : exists o lattice bloch copies, prepare o lattice bloch copies = UB.
Proof. exists default_options, None, None, None. exact (no_attributes default_options). Qed.
Print Assumptions C45_attributes_refuted.

(** ** C46 *)
(** The axes are orthogonal, the first is parallel to the direction, the volume with its sign is
    kept, and the matrix for vectors gives their components along the new axes.  Missing for the
    full statement: directions parallel to the plane through the ends of the lattice vectors, and
    the sign of the first axis, which is that of the slant. *)
Theorem C46_rectangular_partial : forall Rin ve, let v := direction Rin ve in
  triple Rin <> 0%R -> slant Rin v <> 0%R ->
  exists r0 r1 r2 u0 u1 u2 cart, rectify Rin ve = Val ((r0, r1, r2), cart) /\
    dot3 r0 r1 = 0%R /\ dot3 r0 r2 = 0%R /\ dot3 r1 r2 = 0%R /\ r0 = sc3 (triple Rin / slant Rin v) v /\ triple (r0, r1, r2) = triple Rin /\
    (exists l0 l1 l2, (0 < l0)%R /\ (0 < l1)%R /\ (0 < l2)%R /\ r0 = sc3 l0 u0 /\ r1 = sc3 l1 u1 /\ r2 = sc3 l2 u2) /\
    dot3 u0 u0 = 1%R /\ dot3 u1 u1 = 1%R /\ dot3 u2 u2 = 1%R /\
    (forall w, combo cart w = (dot3 u0 w, dot3 u1 w, dot3 u2 w)) /\ forall w w', dot3 (combo cart w) (combo cart w') = dot3 w w'.
Proof. exact rect_spec. Qed.
Print Assumptions C46_rectangular_partial.

(** Without a direction, for every lattice: the first lattice vector stays. *)
Theorem C46_default : forall Rin, triple Rin <> 0%R -> exists r1 r2 cart, let '(c0, _, _) := Rin in rectify Rin None = Val ((c0, r1, r2), cart) /\
  dot3 c0 r1 = 0%R /\ dot3 c0 r2 = 0%R /\ dot3 r1 r2 = 0%R /\ triple (c0, r1, r2) = triple Rin.
Proof. exact rect_plain. Qed.
Print Assumptions C46_default.

(** The triangular lattice, direction (2, 1, 0). *)
Example C46_example : let L := ((1, 0, 0), (1 / 2, 1, 0), (0, 0, 1))%R in triple L = 1%R /\ slant L (2, 1, 0)%R = (5 / 2)%R.
Proof. cbn. unfold triple. split; lra. Qed.

(** The cubic lattice, direction (1, -1, 0): division by zero. *)
Theorem C46_refuted : exists Rin v, triple Rin <> 0%R /\ dot3 v v <> 0%R /\ rectify Rin (Some v) = NonFin.
Proof. exists id3, (1, -1, 0)%R. split; [unfold triple, id3; lra|]. split; [unfold dot3; lra|exact parallel_plane]. Qed.
Print Assumptions C46_refuted.

(** The cubic lattice, direction (-1, 0, 0): the first axis is (1, 0, 0). *)
Theorem C46_direction_refuted : exists Rin v r0 r1 r2 cart, triple Rin <> 0%R /\ rectify Rin (Some v) = Val ((r0, r1, r2), cart) /\ (dot3 r0 v < 0)%R.
Proof. destruct reversed as (r1 & r2 & cart & E). exists id3, (-1, 0, 0)%R, (1, 0, 0)%R, r1, r2, cart. split; [unfold triple, id3; lra|]. split; [exact E|unfold dot3; lra]. Qed.
Print Assumptions C46_direction_refuted.
