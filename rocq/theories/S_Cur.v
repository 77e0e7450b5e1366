(** Vocabulary for the current field. *)
From Coq Require Import String List ZArith Bool Ascii.
From Verif Require Import Base M_Cur.
Import ListNotations.
Local Open Scope Z_scope.

(** The vector field of a band that the data came from. *)
Fixpoint origin (c : content) : option (ascii * Z) :=
  match c with
  | Band f b => Some (f, b)
  | Energy c | Square c | Div c => origin c
  | Junk | Medium _ | User _ => None
  end.

(** The labels t, b are right for c: lower-case letters are fields of band b, capitals the energy
    densities of such fields, 'R' and 'C' quantities computed from a field of band b, and 'n', 'm'
    the media. *)
Definition describes (t : ascii) (b : Z) (c : content) : Prop :=
  (In t ["d"; "h"; "b"; "e"]%char /\ c = Band t b) \/
  (exists f, In (t, f) [("D", "d"); ("H", "h"); ("B", "b")]%char /\ c = Energy (Band f b)) \/
  (In t ["R"; "C"]%char /\ exists f, origin c = Some (f, b)) \/
  (In t ["n"; "m"]%char /\ c = Medium t /\ b = 0).

(** Whatever is current is labelled rightly. *)
Definition consistent (s : cur) : Prop := c_has s = true -> describes (c_type s) (c_band s) (c_buf s).
Definition truthful (r : report) : Prop := describes (rep_type r) (rep_band r) (rep_is r).

(** The commands without field objects of the user and eigenvector products; squares only of
    vector fields. *)
Definition plain (c : cmd) : Prop :=
  match c with
  | Load _ | Dot => False
  | Init p _ => 0 <= p
  | Get f _ => In f ["d"; "h"; "b"]%char
  | GetMedium m => In m ["n"; "m"]%char
  | _ => True
  end.
(** compute_field_squared is given a field. *)
Definition squares_fields (c : cmd) (s : cur) : Prop := c = SquareC -> c_has s = true /\ In (c_type s) ["d"; "h"; "b"; "e"]%char.
Fixpoint all_plain (cs : list cmd) (s : cur) : Prop :=
  match cs with
  | [] => True
  | c :: cs => plain c /\ squares_fields c s /\ forall s' r, do c s = Val (s', r) -> all_plain cs s'
  end.
