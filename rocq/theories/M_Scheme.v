(** Model of the Scheme front end's list functions, mpb/mpb.scm.in.
    Scheme numbers holding frequencies are real numbers [R]; counts and indices are [Z]. *)
From Coq Require Import Reals List Bool ZArith.
From Verif Require Import Base RC.
Import ListNotations.
Local Open Scope R_scope.

(** infinity, libctl base/utils.scm (used at mpb.scm.in 492): the number 1.0e20. *)
Definition infinity : R := 100000000000000000000.

Section Ranges.
Context {K : Type}.

(** One entry ((min . k) . (max . k)); the initial k is -1, here [None]. *)
Definition brange : Type := ((R * option K) * (R * option K))%type.

(** The entry created for a new band, mpb.scm.in 492. *)
Definition br_new : brange := ((infinity, None), (- infinity, None)).

(** update-band-range-data, mpb.scm.in 486-500.  The accumulator br-start holds the
    finished entries in reverse, as in the source. *)
Fixpoint ubrd (k : K) (brd : list brange) (freqs : list R) (br_start : list brange) : list brange :=
  match freqs with
  | [] => rev br_start ++ brd
  | f :: fs =>
      let br := match brd with [] => br_new | b :: _ => b end in
      let br_rest := match brd with [] => [] | _ :: r => r end in
      let newmin := if Rltb f (fst (fst br)) then (f, Some k) else fst br in
      let newmax := if Rltb (fst (snd br)) f then (f, Some k) else snd br in
      ubrd k br_rest fs ((newmin, newmax) :: br_start)
  end.
Definition update_band_range_data (brd : list brange) (freqs : list R) (k : K) : list brange :=
  ubrd k brd freqs [].

(** output-gaps, mpb.scm.in 514-533, without the printing.  A gap is
    (percent, freq-min, freq-max); [NonFin] if the sum of the edges is zero. *)
Fixpoint ogaps (cur : brange) (rest : list brange) (gaps : list (R * R * R)) : outcome (list (R * R * R)) :=
  match rest with
  | [] => Val (rev gaps)
  | nxt :: rest' =>
      let hi := fst (fst nxt) in       (* (caaar br-rest) *)
      let lo := fst (snd cur) in       (* (cadr br-cur) *)
      if Rleb hi lo then ogaps nxt rest' gaps
      else
        let! s := fdiv (200 * (hi - lo)) (hi + lo) in
        ogaps nxt rest' ((s, lo, hi) :: gaps)
  end.
Definition output_gaps (brd : list brange) : outcome (list (R * R * R)) :=
  match brd with [] => Val [] | b :: r => ogaps b r [] end.

(** (list-ref l i) with an exact integer index; an index out of range is an error. *)
Definition list_ref {A} (l : list A) (i : Z) : outcome A :=
  if (i <? 0)%Z then Abort
  else match nth_error l (Z.to_nat i) with Some a => Val a | None => Abort end.

(** retrieve-gap, mpb.scm.in 541-546, on the current band-range-data. *)
Definition retrieve_gap (brd : list brange) (lower_band : Z) : outcome R :=
  if (Z.of_nat (length brd) <? lower_band + 1)%Z then Abort
  else
    let! b1 := list_ref brd (lower_band - 1) in
    let! b2 := list_ref brd lower_band in
    let f1 := fst (snd b1) in
    let f2 := fst (fst b2) in
    fdiv (f2 - f1) (5/1000 * (f1 + f2)).

End Ranges.

(** list-split, mpb.scm.in 587-599. *)
Fixpoint list_sub {A} (L : list A) (start len index : Z) (rest : list A) : list A :=
  match L with
  | [] => rev rest
  | a :: L' =>
      if (start <=? index)%Z && (index <? start + len)%Z
      then list_sub L' start len (index + 1) (a :: rest)
      else list_sub L' start len (index + 1) rest
  end.
Definition list_split {A} (L : list A) (num index : Z) : Z * list A :=
  let n := Z.of_nat (length L) in
  if (num <=? index)%Z || (index <? 0)%Z then (n, [])
  else
    let bs := Z.quot (n + num + -1) num in
    let start := (index * bs)%Z in
    let len := Z.min bs (n - index * bs) in
    (start, list_sub L start len 0 []).

(** The variables a run updates: band-range-data, gap-list (mpb.scm.in 537-538) and
    all-freqs (604). *)
Record run_state (K : Type) := mkRun { st_brd : list (@brange K); st_gaps : list (R * R * R); st_freqs : list (list R) }.
Arguments mkRun {K}. Arguments st_brd {K}. Arguments st_gaps {K}. Arguments st_freqs {K}.

(** run-parity, mpb.scm.in 611-653, restricted to these variables: [solve k] is the
    list freqs left by solve-kpoint at k.  Band functions are assumed not to
    assign these variables. *)
Definition run_parity {K} (solve : K -> list R) (k_points : list K) (k_split_num k_split_index num_bands : Z)
    (st : run_state K) : outcome (run_state K) :=
  let ks := snd (list_split k_points k_split_num k_split_index) in
  if (0 <? num_bands)%Z then
    let '(brd, af) :=
      fold_left (fun acc k =>
          let '(brd, af) := acc in
          (update_band_range_data brd (solve k) k, solve k :: af)) ks ([], []) in
    if (1 <? Z.of_nat (length ks))%Z
    then let! g := output_gaps brd in Val (mkRun brd g (rev af))
    else Val (mkRun brd [] (rev af))
  else Val (mkRun [] (st_gaps st) []).

(** next-factor2357, mpb.scm.in 935-942: fuel counts procedure calls; [None] is
    "still running". *)
Fixpoint divby (fuel : nat) (N p : Z) : option Z :=
  match fuel with
  | O => None
  | S f => if (Z.rem N p =? 0)%Z then divby f (Z.quot N p) p else Some N
  end.
Definition factor2357 (fuel : nat) (N : Z) : option bool :=
  match divby fuel N 2 with None => None | Some a =>
  match divby fuel a 3 with None => None | Some b =>
  match divby fuel b 5 with None => None | Some c =>
  match divby fuel c 7 with None => None | Some d => Some (1 =? d)%Z end end end end.
Fixpoint next_factor2357 (fuel : nat) (N : Z) : option Z :=
  match fuel with
  | O => None
  | S f =>
      match factor2357 fuel N with
      | None => None
      | Some true => Some N
      | Some false => next_factor2357 f (N + 1)
      end
  end.

(** first-brillouin-zone, mpb.scm.in 408-427. *)
Definition v3 : Type := (R * R * R)%type.
Definition v3add (a b : v3) : v3 :=
  let '(a0, a1, a2) := a in let '(b0, b1, b2) := b in (a0 + b0, a1 + b1, a2 + b2).
Definition v3sub (a b : v3) : v3 :=
  let '(a0, a1, a2) := a in let '(b0, b1, b2) := b in (a0 - b0, a1 - b1, a2 - b2).
Definition v3neg (a : v3) : v3 := v3sub (0, 0, 0) a.                  (* (vector3- (vector3 0) v) *)
(** Reciprocal lattice vectors b1, b2, b3 in Cartesian coordinates. *)
Definition basis : Type := (v3 * v3 * v3)%type.
(** reciprocal->cartesian (libctl): the linear combination of the basis. *)
Definition recip2cart (B : basis) (k : v3) : v3 :=
  let '((x1, y1, z1), (x2, y2, z2), (x3, y3, z3)) := B in
  let '(k1, k2, k3) := k in
  (k1*x1 + k2*x2 + k3*x3, k1*y1 + k2*y2 + k3*y3, k1*z1 + k2*z2 + k3*z3).
Definition vnorm (v : v3) : R := let '(x, y, z) := v in sqrt (x*x + y*y + z*z).
(** (define (n k) ...) 409. *)
Definition bz_n (B : basis) (k : v3) : R := vnorm (recip2cart B k).

(** try+ 410-411; fuel counts calls. *)
Fixpoint try_plus (B : basis) (fuel : nat) (k v : v3) : option v3 :=
  match fuel with
  | O => None
  | S f => if Rltb (bz_n B (v3add k v)) (bz_n B k) then try_plus B f (v3add k v) v else Some k
  end.
(** try 412. *)
Definition try_both (B : basis) (fuel : nat) (k v : v3) : option v3 :=
  match try_plus B fuel k v with None => None | Some k' => try_plus B fuel k' (v3neg v) end.
(** trylist 413-419. *)
Definition trylist : list v3 :=
  [(1,0,0); (0,1,0); (0,0,1); (0,1,1); (1,0,1); (1,1,0);
   (0,1,-1); (1,0,-1); (1,-1,0); (1,1,1); (-1,1,1); (1,-1,1); (1,1,-1)].
(** try-all 420-422. *)
Definition try_all (B : basis) (fuel : nat) (k : v3) : option v3 :=
  fold_left (fun o v => match o with None => None | Some k => try_both B fuel k v end) trylist (Some k).
(** try-all&repeat 423-425. *)
Fixpoint try_all_repeat (B : basis) (fuel : nat) (k : v3) : option v3 :=
  match fuel with
  | O => None
  | S f =>
      match try_all B fuel k with
      | None => None
      | Some knew => if Rltb (bz_n B knew) (bz_n B k) then try_all_repeat B f knew else Some k
      end
  end.
(** The whole function 426-427; [rnd] is Scheme's round. *)
Definition first_brillouin_zone (B : basis) (rnd : R -> Z) (fuel : nat) (k : v3) : option v3 :=
  let '(k1, k2, k3) := k in
  let k0 := v3sub k (IZR (rnd k1), IZR (rnd k2), IZR (rnd k3)) in
  if Rltb (bz_n B k0) (bz_n B k) then try_all_repeat B fuel k0 else try_all_repeat B fuel k.
