(** Model of src/util: processor groups, communicator switching, critical sections and
    the debugging allocator. *)
From Coq Require Import List ZArith Bool.
From Verif Require Import Base.
Import ListNotations.
Local Open Scope Z_scope.

(* ------------------------------------------------------------------ *)
(** * Communicators and groups *)

(** A communicator: the world, or the id of one created by MPI_Comm_split. *)
Inductive comm := World | Grp (id : nat).

Definition is_world (c : comm) : bool := match c with World => true | Grp _ => false end.

(** One process's view (mpi_utils.c 36, 60-62): the two static variables, how many
    communicators it has created so far (the next id), and the ids it has freed, in
    order.  [World] in [freed] would be an attempt to free the world communicator. *)
Record cstate := { mpb_comm : comm; mpb_comm_save : comm; created : nat; freed : list comm }.

(** MPI_Comm_free(&c): external. *)
Definition comm_free (c : comm) (s : cstate) : cstate :=
  {| mpb_comm := mpb_comm s; mpb_comm_save := mpb_comm_save s; created := created s; freed := freed s ++ [c] |}.

Definition set_comms (c sv : comm) (s : cstate) : cstate :=
  {| mpb_comm := c; mpb_comm_save := sv; created := created s; freed := freed s |}.

(** mpi_utils.c 64-71 end_divide_parallel (MPI build). *)
Definition end_divide_parallel (s : cstate) : cstate :=
  let s1 := if negb (is_world (mpb_comm s)) then comm_free (mpb_comm s) s else s in
  let s2 := if negb (is_world (mpb_comm_save s)) then comm_free (mpb_comm_save s) s1 else s1 in
  set_comms World World s2.

(** mpi_utils.c 73-84 divide_parallel_processes (MPI build) on the process of rank
    [rank] out of [sz]: the group number and the new state.  MPI_Comm_split is external:
    it creates a new communicator.  [int] overflow of rank * numgroups is not modelled. *)
Definition divide_parallel_processes (sz rank numgroups : Z) (s : cstate) : outcome (Z * cstate) :=
  let s0 := end_divide_parallel s in                                     (* 77 *)
  let! _ := check (numgroups >? 0) in                                    (* 79 *)
  let! _ := check (numgroups <=? sz) in                                  (* 80 *)
  let mygroup := Z.quot (rank * numgroups) sz in                         (* 82 *)
  let s1 := {| mpb_comm := Grp (created s0); mpb_comm_save := mpb_comm_save s0;
               created := S (created s0); freed := freed s0 |} in        (* 83 *)
  Val (mygroup, s1).

(** mpi_utils.c 85-88: the build without MPI. *)
Definition divide_parallel_processes_serial (numgroups : Z) : outcome Z :=
  let! _ := check (negb (numgroups =? 1)) in Val 0.

(** mpi_utils.c 91-97 and 99-105. *)
Definition begin_global_communications (s : cstate) : cstate := set_comms World (mpb_comm s) s.
Definition end_global_communications (s : cstate) : cstate := set_comms (mpb_comm_save s) World s.

(** The calls a program can make. *)
Inductive cop := Divide (numgroups : Z) | EndDivide | BeginGlobal | EndGlobal.

Definition cstep (sz rank : Z) (o : cop) (s : cstate) : outcome cstate :=
  match o with
  | Divide g => let! gs := divide_parallel_processes sz rank g s in Val (snd gs)
  | EndDivide => Val (end_divide_parallel s)
  | BeginGlobal => Val (begin_global_communications s)
  | EndGlobal => Val (end_global_communications s)
  end.

Fixpoint crun (sz rank : Z) (l : list cop) (s : cstate) : outcome cstate :=
  match l with [] => Val s | o :: t => let! s' := cstep sz rank o s in crun sz rank t s' end.

(** mpi_utils.c 36, 61: initial values. *)
Definition cinit : cstate := {| mpb_comm := World; mpb_comm_save := World; created := 0; freed := [] |}.

(* ------------------------------------------------------------------ *)
(** * Critical sections *)

(** Each of [N] processes runs through the same [M] critical sections one after the
    other, the j-th with tag [tag j] (matrixio.c 332, 355, 432: the tag is a counter, but
    any tags are allowed here).  The program counter of a process is [3 j] before section
    [j], [3 j + 1] inside it and [3 j + 2] while its MPI_Send is under way.
    [chan p] are the messages (tag, contents) sent by process [p] to [p + 1] and not yet
    received, oldest first.  MPI point-to-point messages are external: a receive takes
    the oldest message with a matching tag; a send either completes at once into a
    buffer ([eager]) or only when the message has been received.  *)
Record mstate := { pc : nat -> nat; chan : nat -> list (Z * Z); died : bool }.

Definition upd {A} (f : nat -> A) (i : nat) (a : A) : nat -> A := fun j => if Nat.eqb j i then a else f j.

(** The oldest message with tag [t], and the rest. *)
Fixpoint recv (t : Z) (l : list (Z * Z)) : option (Z * list (Z * Z)) :=
  match l with
  | [] => None
  | (t', x) :: r =>
      if t' =? t then Some (x, r)
      else match recv t r with Some (y, r') => Some (y, (t', x) :: r') | None => None end
  end.

Section Critical.
Variable N M : nat.
Variable tag : nat -> Z.
Variable eager : bool.

(** mpi_utils.c 197-208 mpi_begin_critical_section by process [p]: [None] if it cannot
    proceed yet. *)
Definition begin_critical_section (p : nat) (s : mstate) : option mstate :=
  let j := Nat.div (pc s p) 3 in
  match p with
  | O => Some {| pc := upd (pc s) p (S (pc s p)); chan := chan s; died := died s |}
  | S p' =>
      match recv (tag j) (chan s p') with
      | None => None
      | Some (recv_tag, rest) =>
          if recv_tag =? tag j                                           (* 206 *)
          then Some {| pc := upd (pc s) p (S (pc s p)); chan := upd (chan s) p' rest; died := died s |}
          else Some {| pc := pc s; chan := upd (chan s) p' rest; died := true |}
      end
  end.

(** mpi_utils.c 210-219 mpi_end_critical_section by process [p]: the last process goes
    on, the others start sending. *)
Definition end_critical_section (p : nat) (s : mstate) : mstate :=
  let j := Nat.div (pc s p) 3 in
  if Nat.eqb p (N - 1)
  then {| pc := upd (pc s) p (S (S (pc s p))); chan := chan s; died := died s |}
  else {| pc := upd (pc s) p (S (pc s p)); chan := upd (chan s) p (chan s p ++ [(tag j, tag j)]); died := died s |}.

(** MPI_Send of line 216 returns. *)
Definition send_done (p : nat) (s : mstate) : option mstate :=
  match (if eager then [] else chan s p) with
  | [] => Some {| pc := upd (pc s) p (S (pc s p)); chan := chan s; died := died s |}
  | _ => None
  end.

(** One step by process [p]. *)
Definition mstep (p : nat) (s : mstate) : option mstate :=
  if died s then None
  else if Nat.leb (3 * M) (pc s p) then None
  else match Nat.modulo (pc s p) 3 with
       | O => begin_critical_section p s
       | S O => Some (end_critical_section p s)
       | _ => send_done p s
       end.

(** A run under a schedule: which process steps next. *)
Fixpoint mrun (sched : list nat) (s : mstate) : option mstate :=
  match sched with
  | [] => Some s
  | p :: t => if Nat.ltb p N then match mstep p s with Some s' => mrun t s' | None => None end else None
  end.

Definition minit : mstate := {| pc := fun _ => O; chan := fun _ => []; died := false |}.
End Critical.

(* ------------------------------------------------------------------ *)
(** * The debugging allocator (debug_malloc.c, DEBUG_MALLOC builds) *)

(** debug_malloc.c 67-68: MAGIC 0xABadCafe read as int is negative, so MMAGIC equals it. *)
Definition MAGIC : Z := 0xABADCAFE - 2 ^ 32.
Definition MMAGIC : Z := if MAGIC <? 0 then MAGIC else - MAGIC.
Definition NOT_MAGIC : Z := - MAGIC - 1.                                 (* ~MAGIC *)
Definition PAD_FACTOR : Z := 2.

(** [(char)(i ^ 0xDEADBEEF)] and [(char)(i ^ 0xBEEFDEAD)]; characters are 0..255 here. *)
Definition fill (i : Z) : Z := (Z.lxor i 0xDEADBEEF) mod 256.
Definition fill_freed (i : Z) : Z := (Z.lxor i 0xBEEFDEAD) mod 256.

(** A piece of memory obtained from the system allocator, at some address: the two
    integers of the header and the bytes after it. *)
Record block := { b_size : Z; b_magic : Z; b_data : list Z }.

(** All of memory: what is found at each address at which a pointer returned by
    debug_malloc can point; [live] are the addresses the system allocator has handed out
    and not yet got back.  The contents of the other addresses are whatever was left
    there. *)
Record mem := { blk : Z -> block; live : list Z; cnt : Z; total : Z }.

Definition set_blk (m : Z -> block) (a : Z) (b : block) : Z -> block := fun x => if x =? a then b else m x.

(** debug_malloc.c 80-105.  [a] is the address chosen by the system allocator (plus the
    header size); it does not overlap a live block.  Sizes are nonnegative; int overflow
    of the counters (31 bits) is not modelled. *)
Definition debug_malloc (n a : Z) (m : mem) : mem :=
  {| blk := set_blk (blk m) a {| b_size := n; b_magic := MAGIC;
              b_data := map (fun i => fill (Z.of_nat i)) (seq 0 (Z.to_nat (PAD_FACTOR * n))) |};
     live := a :: live m; cnt := cnt m + 1; total := total m + n |}.

(** First [i] in [n, 2 n) whose byte has changed (lines 134-138). *)
Definition pad_ok (n : Z) (d : list Z) : bool :=
  forallb (fun i => match nth_error d i with Some c => c =? fill (Z.of_nat i) | None => false end)
          (seq (Z.to_nat n) (Z.to_nat n)).

Fixpoint remove1 (a : Z) (l : list Z) : list Z :=
  match l with [] => [] | x :: t => if x =? a then t else x :: remove1 a t end.

(** debug_malloc.c 107-145.  [Abort]: the problem is reported.  Past the checks of a
    pointer that is not live, the system's free is called with an invalid pointer: [UB]. *)
Definition debug_free (a : Z) (m : mem) : outcome mem :=
  let! _ := check (negb (a =? 0)) in                                     (* 111 *)
  let n := b_size (blk m a) in
  let magic := b_magic (blk m a) in
  let! _ := check (negb (n =? MMAGIC)) in                                (* 120 *)
  let! _ := check (magic =? MAGIC) in                                    (* 123 *)
  let! _ := check (0 <=? n) in                                           (* 126 *)
  let! _ := check (0 <=? total m - n) in                                 (* 130 *)
  let! _ := check (pad_ok n (b_data (blk m a))) in                       (* 134-138 *)
  if existsb (Z.eqb a) (live m)
  then Val {| blk := set_blk (blk m) a {| b_size := MMAGIC; b_magic := NOT_MAGIC;       (* 121, 124 *)
                 b_data := map (fun i => fill_freed (Z.of_nat i)) (seq 0 (Z.to_nat (PAD_FACTOR * n))) |};
              live := remove1 a (live m); cnt := cnt m - 1; total := total m - n |}
  else UB.                                                               (* 143 *)

(** The program stores a byte at offset [i] of the block at [a]; only offsets inside the
    padded area are modelled, others are undefined behaviour. *)
Definition store (a i v : Z) (m : mem) : outcome mem :=
  if existsb (Z.eqb a) (live m) then
    let! d := wr (b_data (blk m a)) i v in
    Val {| blk := set_blk (blk m) a {| b_size := b_size (blk m a); b_magic := b_magic (blk m a); b_data := d |};
           live := live m; cnt := cnt m; total := total m |}
  else UB.

(** debug_malloc.c 159-169 debug_check_memory_leaks. *)
Definition debug_check_memory_leaks (m : mem) : outcome unit :=
  check (negb (negb (cnt m =? 0) || negb (total m =? 0))).

(** What happens to memory: calls and stores of the program, and the system overwriting
    memory that is not live. *)
Inductive mop :=
| OMalloc (n a : Z)
| OStore (a i v : Z)
| OFree (a : Z)
| OGarbage (a : Z) (b : block).

Definition memstep (o : mop) (m : mem) : outcome mem :=
  match o with
  | OMalloc n a =>
      (* the system allocator never returns a live or null address *)
      if existsb (Z.eqb a) (live m) || (a =? 0) || (n <? 0) then UB else Val (debug_malloc n a m)
  | OStore a i v => store a i v m
  | OFree a => debug_free a m
  | OGarbage a b =>
      if existsb (Z.eqb a) (live m) then UB
      else Val {| blk := set_blk (blk m) a b; live := live m; cnt := cnt m; total := total m |}
  end.

Fixpoint memrun (l : list mop) (m : mem) : outcome mem :=
  match l with [] => Val m | o :: t => let! m' := memstep o m in memrun t m' end.

(** Memory at the start: anything, with nothing allocated (lines 64-65). *)
Definition meminit (g : Z -> block) : mem := {| blk := g; live := []; cnt := 0; total := 0 |}.
