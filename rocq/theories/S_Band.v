(** What a run should do with its band functions, without reference to how the run is
    carried out. *)
From Coq Require Import Reals List ZArith Bool.
From Verif Require Import M_Band.
Import ListNotations.
Local Open Scope R_scope.

Section S.
Context {K O F S : Type}.

(** [due near en k b g c]: the procedure [g] asks that the call [c] be made for the band
    [b] at the k point [k].  [en objects b] is the energy of band b in the objects. *)
Inductive due (near : K -> K -> bool) (en : O -> Z -> R) (k : K) (b : Z) : bfun K O -> @call O -> Prop :=
| due_band n : due near en k b (Band n) (CBand n b)
| due_thunk n : b = 1%Z -> due near en k b (Thunk n) (CThunk n)
| due_rand : b = 1%Z -> due near en k b Randomize CRand
| due_report g e o : due near en k b (InObjects g e o) (CDpwr b o)
| due_in g e o c : e <= en o b -> due near en k b g c -> due near en k b (InObjects g e o) c
| due_comb g fs c : In g fs -> due near en k b g c -> due near en k b (Combine fs) c
| due_at q g fs c : near k q = true -> In g fs -> due near en k b g c -> due near en k b (AtKpoint q fs) c.

(** The calls that [g] asks for, as often and in the order in which it names them. *)
Fixpoint requested (near : K -> K -> bool) (en : O -> Z -> R) (k : K) (b : Z) (g : bfun K O) : list (@call O) :=
  match g with
  | Band n => [CBand n b]
  | Thunk n => if Z.eq_dec b 1 then [CThunk n] else []
  | Randomize => if Z.eq_dec b 1 then [CRand] else []
  | InObjects g e o => CDpwr b o :: (if Rle_dec e (en o b) then requested near en k b g else [])
  | Combine fs => flat_map (requested near en k b) fs
  | AtKpoint q fs => if near k q then flat_map (requested near en k b) fs else []
  end.

(** At a k point: a procedure of no arguments once, another one for each band. *)
Definition at_k (near : K -> K -> bool) (en : O -> Z -> R) (num_bands : Z) (k : K) (g : bfun K O) : list (@call O) :=
  match g with
  | Thunk n => [CThunk n]
  | Randomize => [CRand]
  | _ => flat_map (fun b => requested near en k (Z.of_nat b) g) (seq 1 (Z.to_nat num_bands))
  end.

(** The calls recorded in a part of the log, and the k points solved. *)
Definition calls_of (l : list (event K O F S)) : list (@call O) :=
  flat_map (fun e => match e with ECall _ _ _ c => [c] | _ => [] end) l.
Definition solves_of (l : list (event K O F S)) : list (Z * K) :=
  flat_map (fun e => match e with ESolve i k => [(i, k)] | _ => [] end) l.

(** Every event of [l] is a call made with the counter at [i], the current k point [k]
    and a memory of which [Q] holds. *)
Definition during (i : Z) (k : K) (Q : F -> Prop) (l : list (event K O F S)) : Prop :=
  forall e, In e l -> exists f c, e = ECall i (Some k) f c /\ Q f.

(** What precedes the k points: the initialization, the eigenvectors of a file, and for
    the first block the dielectric function and the permeability if there is one. *)
Definition preamble (p : Z) (reset : resetf S) (first mu : bool) : list (event K O F S) :=
  [EInit p (match reset with RNo => false | _ => true end)] ++
  match reset with RFile s => [ELoad s] | _ => [] end ++
  (if first then EEps :: (if mu then [EMu] else []) else []).

(** The memory when the first k point is solved. *)
Definition start_mem (x : ext K O F S) (p : Z) (reset : resetf S) (f : F) : F :=
  match reset with
  | RNo => x_init x p false f
  | RYes => x_init x p true f
  | RFile s => x_load x s (x_init x p true f)
  end.

(** [g] is built without randomize-fields. *)
Inductive no_rand : bfun K O -> Prop :=
| nr_thunk n : no_rand (Thunk n)
| nr_band n : no_rand (Band n)
| nr_in g e o : no_rand g -> no_rand (InObjects g e o)
| nr_comb fs : (forall g, In g fs -> no_rand g) -> no_rand (Combine fs)
| nr_at q fs : (forall g, In g fs -> no_rand g) -> no_rand (AtKpoint q fs).
End S.
