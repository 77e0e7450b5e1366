(** Model of find-k of mpb/mpb.scm.in (850-915), the search for the wave vectors at which given
    bands have a given frequency. *)
From Coq Require Import List ZArith Reals Bool.
From Verif Require Import Base RC M_Scheme.
Import ListNotations.
Local Open Scope R_scope.

(** find-root-deriv of libctl, which is not in the repository: any procedure that calls the given
    function any finite number of times, each time with a number that may depend on the answers so
    far, and then returns a number.  An answer is a value with its derivative. *)
Inductive search : Type :=
| Done (k : R)
| Ask (k : R) (next : R * R -> search).

(** Key (band . k) and value (frequency - omega . velocity) of bktab, 861-862. *)
Definition entry : Type := ((Z * R) * (R * R))%type.

(** The variables of the front end and of find-k that are assigned: num-bands, k-points, k0s (859),
    bktab (862); [f_runs] records the calls of solve-kpoint (run-parity, 633), newest first, each
    with the number of bands and k, and [f_calls] the calls of band functions, newest first: band
    number, index of the function and wave vector solved last.  The last two are no variables of the
    program. *)
Record fstate := mkF {
  f_nb : Z; f_kpts : list v3; f_k0s : list R; f_tab : list entry;
  f_runs : list (Z * v3); f_calls : list (Z * nat * v3) }.

(** assoc of (cons b k) in bktab; numbers are real, so that equal? is equality. *)
Fixpoint assoc (b : Z) (k : R) (t : list entry) : option (R * R) :=
  match t with
  | [] => None
  | ((b', k'), v) :: t' => if (b =? b')%Z && Reqb k k' then Some v else assoc b k t'
  end.

(** ncdr, 852; cdr of the empty list is an error. *)
Fixpoint ncdr {A} (n : nat) (l : list A) : outcome (list A) :=
  match n, l with
  | O, _ => Val l
  | S n', _ :: l' => ncdr n' l'
  | S _, [] => Abort
  end.

(** vector-ref and vector-set!: an index out of range is an error. *)
Definition vector_ref (l : list R) (i : Z) : outcome R :=
  if (i <? 0)%Z then Abort
  else match nth_error l (Z.to_nat i) with Some x => Val x | None => Abort end.
Definition vector_set (l : list R) (i : Z) (x : R) : outcome (list R) :=
  if (i <? 0)%Z || (Z.of_nat (length l) <=? i)%Z then Abort
  else Val (firstn (Z.to_nat i) l ++ x :: skipn (S (Z.to_nat i)) l).

(** arith-sequence of libctl: n numbers from a in steps of d. *)
Fixpoint arith_sequence (a d : Z) (n : nat) : list Z :=
  match n with O => [] | S n' => a :: arith_sequence (a + d)%Z d n' end.

Section FindK.
(** solve-kpoint followed by compute-group-velocity-component of kdir1 (873): frequencies and
    velocities of the given number of bands at a wave vector.  Only their values are modelled. *)
Variable solve : Z -> v3 -> list (R * R).
(** k-split-num and k-split-index, mpb.scm.in 581-582. *)
Variables k_split_num k_split_index : Z.
(** Parameters of find-k; [kdir1] is the one computed at 857, [frd g] is find-root-deriv with tol,
    kmag-min, kmag-max and the first guess g. *)
Variable omega : R.
Variables band_min band_max : Z.
Variables korig kdir1 : v3.
Variable frd : R -> search.

(** (vector3+ korig (vector3-scale k kdir1)), 871 and 900. *)
Definition kvec (k : R) : v3 :=
  let '(x, y, z) := kdir1 in v3add korig (k * x, k * y, k * z).

(** run-parity, 611-653, restricted to the calls of solve-kpoint: the values found for the last
    k point of this chunk of the k points (623).  When the chunk is empty, find-k goes on with what an
    earlier calculation left; this is not modelled ([Abort]). *)
Definition run_one (st : fstate) : outcome (list (R * R) * fstate) :=
  match rev (snd (list_split (f_kpts st) k_split_num k_split_index)) with
  | [] => Abort
  | k :: ks =>
      if (0 <? f_nb st)%Z
      then Val (solve (f_nb st) k,
                mkF (f_nb st) (f_kpts st) (f_k0s st) (f_tab st)
                    (map (fun k => (f_nb st, k)) (k :: ks) ++ f_runs st) (f_calls st))
      else Abort
  end.

(** The procedure mapped at 875-886 over the band numbers, frequencies and velocities. *)
Definition cache (k : R) (b : Z) (f v : R) (st : fstate) : outcome fstate :=
  let! k0 := vector_ref (f_k0s st) (b - band_min) in
  let! k0s :=
    match assoc b k0 (f_tab st) with
    | None => vector_set (f_k0s st) (b - band_min) k
    | Some tabval =>
        if Rltb (Rabs (f - omega)) (Rabs (fst tabval))
        then vector_set (f_k0s st) (b - band_min) k
        else Val (f_k0s st)
    end in
  Val (mkF (f_nb st) (f_kpts st) k0s (((b, k), (f - omega, v)) :: f_tab st) (f_runs st) (f_calls st)).
(** The map itself; lists of different lengths are an error. *)
Fixpoint cache_all (k : R) (bs : list Z) (fvs : list (R * R)) (st : fstate) : outcome fstate :=
  match bs, fvs with
  | [], [] => Val st
  | b :: bs', (f, v) :: fvs' => let! st := cache k b f v st in cache_all k bs' fvs' st
  | _, _ => Abort
  end.

(** (rootfun b), 863-890. *)
Definition rootfun (b : Z) (k : R) (st : fstate) : outcome ((R * R) * fstate) :=
  match assoc b k (f_tab st) with
  | Some v => Val (v, st)
  | None =>
      let st := mkF b [kvec k] (f_k0s st) (f_tab st) (f_runs st) (f_calls st) in
      let! (fv, st) := run_one st in
      let! tl := ncdr (Z.to_nat (band_min - 1)) fv in
      let! st := cache_all k (arith_sequence band_min 1 (Z.to_nat (b - band_min - -1))) tl st in
      match rev fv with
      | [] => Abort
      | (f, v) :: _ => Val ((f - omega, v), st)
      end
  end.

(** find-root-deriv running with (rootfun b). *)
Fixpoint run_search (b : Z) (s : search) (st : fstate) : outcome (R * fstate) :=
  match s with
  | Done k => Val (k, st)
  | Ask k next => let! (a, st) := rootfun b k st in run_search b (next a) st
  end.

(** The map of 892-896, in the order of its list (as Guile does); the results before reverse. *)
Fixpoint search_bands (bs : list Z) (st : fstate) : outcome (list R * fstate) :=
  match bs with
  | [] => Val ([], st)
  | b :: bs' =>
      let! g := vector_ref (f_k0s st) (b - band_min) in
      let! (k, st) := run_search b (frd g) st in
      let! (ks, st) := search_bands bs' st in
      Val (k :: ks, st)
  end.

(** 898-907: [nf] band functions; the loop over the bands is that of run-parity (643-644), the
    functions are applied by apply-band-func-thunk with eval-thunk? true (792-795), that is, always. *)
Definition call_all (nf : nat) (b : Z) (k : v3) (st : fstate) : fstate :=
  mkF (f_nb st) (f_kpts st) (f_k0s st) (f_tab st) (f_runs st)
      (rev (map (fun i => (b, i, k)) (seq 0 nf)) ++ f_calls st).
Fixpoint band_funcs (nf : nat) (bks : list (Z * R)) (st : fstate) : outcome fstate :=
  match bks with
  | [] => Val st
  | (b, k) :: bks' =>
      let st := mkF b [kvec k] (f_k0s st) (f_tab st) (f_runs st) (f_calls st) in
      let! (_, st) := run_one st in
      let! st := forZ 1 (f_nb st + 1) (fun b' st =>
          if (b' =? b)%Z then Val (call_all nf b (kvec k) st) else Val st) st in
      band_funcs nf bks' st
  end.

(** find-k, 855-915, from the state of num-bands and k-points before it; [guess] is k0s as made at
    859-860.  Printing is left out; randomize-fields (891) changes no variable modelled here. *)
Definition find_k (guess : list R) (nf : nat) (num_bands : Z) (k_points : list v3)
  : outcome (list R * fstate) :=
  let nb := Z.to_nat (band_max - band_min - -1) in
  let st := mkF num_bands k_points guess [] [] [] in
  let! (rks, st) := search_bands (arith_sequence band_max (-1) nb) st in
  let ks := rev rks in
  let! st := (if Nat.eqb nf 0 then Val st
              else band_funcs nf (combine (arith_sequence band_max (-1) nb) (rev ks)) st) in
  Val (ks, mkF num_bands k_points (f_k0s st) (f_tab st) (f_runs st) (f_calls st)).
End FindK.
