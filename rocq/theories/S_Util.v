(** Specification vocabulary for src/util. *)
From Coq Require Import List ZArith Bool.
From Verif Require Import Base M_Util.
Import ListNotations.

(** Ranks 0 .. n-1. *)
Definition ranks (n : Z) : list Z := map Z.of_nat (seq 0 (Z.to_nat n)).

(** Sequences of calls in which global communications are not nested and processes are
    not redivided while communicating globally, with valid numbers of groups. *)
Inductive flat (sz : Z) : list cop -> Prop :=
| flat_nil : flat sz []
| flat_divide g l : (0 < g <= sz)%Z -> flat sz l -> flat sz (Divide g :: l)
| flat_end l : flat sz l -> flat sz (EndDivide :: l)
| flat_global l : flat sz l -> flat sz (BeginGlobal :: EndGlobal :: l).

(** How many divisions a sequence contains. *)
Fixpoint divides (l : list cop) : nat :=
  match l with [] => O | Divide _ :: t => S (divides t) | _ :: t => divides t end.

(** The communicator of the group in force after [l], starting from [c] with [n]
    communicators created before: the one of the last division unless ended. *)
Fixpoint group_after (c : comm) (n : nat) (l : list cop) : comm :=
  match l with
  | [] => c
  | Divide _ :: t => group_after (Grp n) (S n) t
  | EndDivide :: t => group_after World n t
  | BeginGlobal :: t => group_after c n t
  | EndGlobal :: t => group_after c n t
  end.

(** What a history of allocator calls and stores has done, block by block: address,
    size and current contents of each allocated and not freed block ([orig i] is the
    byte put at offset [i] when a block is allocated). *)
Definition blocks := list (Z * (Z * (Z -> Z))).

Definition bstep (orig : Z -> Z) (h : blocks) (o : mop) : blocks :=
  match o with
  | OMalloc n a => (a, (n, orig)) :: h
  | OStore a i v => map (fun e => if Z.eqb (fst e) a
                                  then (fst e, (fst (snd e), fun j => if Z.eqb j i then v else snd (snd e) j))
                                  else e) h
  | OFree a => filter (fun e => negb (Z.eqb (fst e) a)) h
  | OGarbage _ _ => h
  end.

Definition history (orig : Z -> Z) (l : list mop) : blocks := fold_left (bstep orig) l [].

Definition total_size (h : blocks) : Z := fold_right Z.add 0%Z (map (fun e => fst (snd e)) h).
