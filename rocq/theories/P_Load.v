(** Property C98: saved and loaded material grids. *)
From Coq Require Import List ZArith Reals Lra Lia Bool.
From Verif Require Import Base RC M_Tensor M_Interp S_Interp P_Interp M_Evect M_Grid M_Matgrid M_Load S_Load L_Load.
Import ListNotations.
Local Open Scope R_scope.

(** Loading gives every process the same grid.  Its value at each cell is the file's interpolation
    at the centre of the cell, the file being repeated as often as asked for in each direction
    (once if the number given is not positive), brought into [0,1]. *)
Theorem C98_load : forall g t f n0 n1 n2 F cx cy cz, whole_grid g -> Forall (fun h => whole_grid h /\ same_sizes h g) t -> file_holds f n0 n1 n2 F ->
  exists g' sx sy sz, load_material_grid (g :: t) (Some f) (cx, cy, cz) = Val (repeat g' (S (length t))) /\ whole_grid g' /\ same_sizes g' g /\ periods cx sx /\ periods cy sy /\ periods cz sz /\
  forall i j k, inside g i j k -> exists rx ry rz,
    frac_of ((IZR i + / 2) * sx / IZR (gx g)) rx /\ frac_of ((IZR j + / 2) * sy / IZR (gy g)) ry /\ frac_of ((IZR k + / 2) * sz / IZR (gz g)) rz /\
    value g' i j k = clip (tents n0 n1 n2 (rx, ry, rz) F).
Proof.
  intros g t f n0 n1 n2 F cx cy cz Wg Wt FH. pose proof Wg as (Hx & Hy & Hz & L).
  destruct (load_ok g f n0 n1 n2 F cx cy cz ltac:(lia) Hx Hy Hz FH) as (sx & sy & sz & g' & Px & Py & Pz & Sx & Sy & Sz & E & (Z1 & Z2 & Z3) & L' & V & _).
  exists g', sx, sy, sz. assert (W' : whole_grid g') by (unfold whole_grid; rewrite Z1, Z2, Z3, L'; auto). split.
  - unfold load_material_grid. rewrite E. cbn [bind]. apply sync_ok; [exact W'|]. eapply Forall_impl; [|exact Wt]. intros h (Wh & S1 & S2 & S3). split; [exact Wh|]. unfold same_sizes. rewrite Z1, Z2, Z3. auto.
  - split; [exact W'|]. split; [exact (conj Z1 (conj Z2 Z3))|]. do 3 (split; [assumption|]). intros i j k Hin. pose proof Hin as (Hi & Hj & Hk).
    exists (point_of (gx g) sx i), (point_of (gy g) sy j), (point_of (gz g) sz k). split; [|split; [|split]]; try (apply point_frac; assumption). apply V. exact Hin.
Qed.
Print Assumptions C98_load.

(** The loaded values lie in [0,1], whatever the file has. *)
Theorem C98_range : forall g t f n0 n1 n2 F c, whole_grid g -> Forall (fun h => whole_grid h /\ same_sizes h g) t -> file_holds f n0 n1 n2 F ->
  exists l, load_material_grid (g :: t) (Some f) c = Val l /\ length l = S (length t) /\ forall h i j k, In h l -> inside g i j k -> 0 <= value h i j k <= 1.
Proof.
  intros g t f n0 n1 n2 F [[cx cy] cz] Wg Wt FH. destruct (C98_load g t f n0 n1 n2 F cx cy cz Wg Wt FH) as (g' & sx & sy & sz & E & _ & _ & _ & _ & _ & V).
  exists (repeat g' (S (length t))). split; [exact E|]. split; [apply repeat_length|]. intros h i j k Hh Hin. apply repeat_spec in Hh. subst h. destruct (V i j k Hin) as (rx & ry & rz & _ & _ & _ & ->). apply clip_range.
Qed.
Print Assumptions C98_range.

(** A grid with values in [0,1] that is saved and loaded into grids of the same size comes back
    exactly, for every number of dimensions; no supercell, or a supercell of one. *)
Theorem C98_round_trip : forall g h t, whole_grid g -> (forall i j k, inside g i j k -> 0 <= value g i j k <= 1) -> whole_grid h -> same_sizes h g -> Forall (fun x => whole_grid x /\ same_sizes x h) t ->
  exists f, save_grid g = Val f /\ forall cx cy cz, (cx <= 0 \/ cx = 1) -> (cy <= 0 \/ cy = 1) -> (cz <= 0 \/ cz = 1) ->
  exists g', load_material_grid (h :: t) (Some f) (cx, cy, cz) = Val (repeat g' (S (length t))) /\ same_sizes g' g /\ forall i j k, inside g i j k -> value g' i j k = value g i j k.
Proof.
  intros g h t Wg Hv Wh (S1 & S2 & S3) Wt. destruct (save_ok g Wg) as (f & Es & FH & _). exists f. split; [exact Es|]. intros cx cy cz Ox Oy Oz.
  destruct (C98_load h t f _ _ _ _ cx cy cz Wh Wt FH) as (g' & sx & sy & sz & E & _ & (Z1 & Z2 & Z3) & Px & Py & Pz & V).
  exists g'. split; [exact E|]. split; [unfold same_sizes; rewrite Z1, Z2, Z3; auto|]. intros i j k Hin. pose proof Hin as (Hi & Hj & Hk).
  assert (One : forall c s, periods c s -> (c <= 0 \/ c = 1) -> s = 1) by (unfold periods; intros; lra). rewrite (One _ _ Px Ox), (One _ _ Py Oy), (One _ _ Pz Oz) in V.
  destruct (V i j k) as (rx & ry & rz & Fx & Fy & Fz & ->); [unfold inside; rewrite S1, S2, S3; exact Hin|]. rewrite S1, S2, S3 in *.
  assert (Ce : forall n x r, (0 <= x < n)%Z -> frac_of ((IZR x + / 2) * 1 / IZR n) r -> r = (IZR x + / 2) / IZR n).
  { intros n x r Hx Fr. assert (Hn : (0 < n)%Z) by lia. pose proof (point_tile n 1 n x Hn ltac:(lia) ltac:(lia) Hx) as Q. rewrite Z.mod_small in Q by exact Hx. rewrite <- Q.
    apply (frac_unique ((IZR x + / 2) * 1 / IZR n)); [exact Fr|]. apply point_frac; [exact Hn|lra|exact Hx]. }
  rewrite (Ce _ _ _ Hi Fx), (Ce _ _ _ Hj Fy), (Ce _ _ _ Hk Fz). rewrite (tents_centre _ _ _ f (value g) i j k FH Hi Hj Hk). apply clip_id. apply Hv. exact Hin.
Qed.
Print Assumptions C98_round_trip.

(** Trailing dimensions of size one are left out of the file. *)
Theorem C98_saved : forall g, whole_grid g -> exists f, save_grid g = Val f /\ file_holds f (gx g) (gy g) (gz g) (value g) /\ (length (h_dims f) = 1 \/ last (h_dims f) 0%Z <> 1%Z)%nat.
Proof. exact save_ok. Qed.
Print Assumptions C98_saved.

(** With whole numbers of periods and a grid of as many cells in each as the file has, the grid is the
    file repeated. *)
Theorem C98_tiles : forall g t f n0 n1 n2 F a b c, whole_grid g -> Forall (fun h => whole_grid h /\ same_sizes h g) t -> file_holds f n0 n1 n2 F ->
  (0 < a)%Z -> (0 < b)%Z -> (0 < c)%Z -> gx g = (a * n0)%Z -> gy g = (b * n1)%Z -> gz g = (c * n2)%Z ->
  exists g', load_material_grid (g :: t) (Some f) (IZR a, IZR b, IZR c) = Val (repeat g' (S (length t))) /\
  forall i j k, inside g i j k -> value g' i j k = clip (F (i mod n0) (j mod n1) (k mod n2))%Z.
Proof.
  intros g t f n0 n1 n2 F a b c Wg Wt FH Ha Hb Hc Ex Ey Ez. destruct (C98_load g t f n0 n1 n2 F (IZR a) (IZR b) (IZR c) Wg Wt FH) as (g' & sx & sy & sz & E & _ & _ & Px & Py & Pz & V).
  exists g'. split; [exact E|]. intros i j k Hin. pose proof Hin as (Hi & Hj & Hk). destruct (V i j k Hin) as (rx & ry & rz & Fx & Fy & Fz & ->).
  destruct FH as (D & (N0 & N1 & N2 & GD) & HF).
  assert (Ce : forall n s s' m x r, (0 < m)%Z -> (0 < s)%Z -> n = (s * m)%Z -> (0 <= x < n)%Z -> periods (IZR s) s' -> frac_of ((IZR x + / 2) * s' / IZR n) r -> r = (IZR (x mod m) + / 2) / IZR m).
  { intros n s s' m x r Hm Hs En Hx Pe Fr. assert (Ps : 0 < IZR s) by (apply (IZR_lt 0); exact Hs). assert (s' = IZR s) by (unfold periods in Pe; lra). subst s'. rewrite <- (point_tile n s m x Hm Hs En Hx).
    apply (frac_unique ((IZR x + / 2) * IZR s / IZR n)); [exact Fr|]. apply point_frac; [lia|exact Ps|exact Hx]. }
  rewrite (Ce _ _ _ _ _ _ N0 Ha Ex Hi Px Fx), (Ce _ _ _ _ _ _ N1 Hb Ey Hj Py Fy), (Ce _ _ _ _ _ _ N2 Hc Ez Hk Pz Fz).
  rewrite (tents_centre n0 n1 n2 f F); [reflexivity|exact (conj D (conj (conj N0 (conj N1 (conj N2 GD))) HF))| | |]; apply Z.mod_pos_bound; assumption.
Qed.
Print Assumptions C98_tiles.

(** A file without the dataset, or with one of more than three dimensions, is refused. *)
Theorem C98_refused : forall g t c, load_material_grid (g :: t) None c = Abort /\ forall f, (3 < length (h_dims f))%nat -> load_material_grid (g :: t) (Some f) c = Abort.
Proof.
  intros g t c. split; [reflexivity|]. intros f H. unfold load_material_grid, load_grid, read_dataset, check. destruct (Z.leb_spec (Z.of_nat (length (h_dims f))) 3); [lia|reflexivity].
Qed.
Print Assumptions C98_refused.

(** Cases meeting the hypotheses: a grid of 2 x 3 cells on two processes; a file of two numbers
    repeated twice along a grid of four cells. *)
Definition lx_g : mgrid := {| gx := 2; gy := 3; gz := 1; gdata := [0; / 2; 1; / 3; / 4; / 5] |}.
Definition lx_h : mgrid := {| gx := 2; gy := 3; gz := 1; gdata := repeat 0 6 |}.
Definition lx_f : h5 := {| h_dims := [2%Z]; h_data := [/ 4; 3] |}.
Definition lx_4 : mgrid := {| gx := 4; gy := 1; gz := 1; gdata := repeat 0 4 |}.
Example C98_ex : whole_grid lx_g /\ (forall i j k, inside lx_g i j k -> 0 <= value lx_g i j k <= 1) /\ whole_grid lx_h /\ same_sizes lx_h lx_g /\ Forall (fun x => whole_grid x /\ same_sizes x lx_h) [lx_h] /\
  whole_grid lx_4 /\ file_holds lx_f 2 1 1 (fun i _ _ => if (i =? 0)%Z then / 4 else 3) /\ gx lx_4 = (2 * 2)%Z /\ clip 3 = 1.
Proof.
  unfold whole_grid, same_sizes. cbn [lx_g lx_h lx_4 gx gy gz gdata length repeat]. split; [lia|]. split.
  - intros i j k (Hi & Hj & Hk). cbn in Hi, Hj, Hk. assert (k = 0)%Z as -> by lia.
    assert (i = 0 \/ i = 1)%Z as [-> | ->] by lia; assert (j = 0 \/ j = 1 \/ j = 2)%Z as [-> | [-> | ->]] by lia;
    [change (0 <= 0 <= 1)|change (0 <= / 2 <= 1)|change (0 <= 1 <= 1)|change (0 <= / 3 <= 1)|change (0 <= / 4 <= 1)|change (0 <= / 5 <= 1)]; lra.
  - split; [lia|]. split; [lia|]. split; [repeat constructor|]. split; [lia|]. split; [|split; [reflexivity|unfold clip; rewrite Rmax_right, Rmin_left by lra; reflexivity]].
    split; [exists 2%nat; reflexivity|]. split; [unfold grid_data; cbn; lia|]. intros i j k Hi Hj Hk. assert (j = 0)%Z as -> by lia. assert (k = 0)%Z as -> by lia. assert (i = 0 \/ i = 1)%Z as [-> | ->] by lia; reflexivity.
Qed.
