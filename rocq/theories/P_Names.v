(** Properties C30 and C47: file names. *)
From Coq Require Import String List ZArith Bool Ascii Lia.
From Verif Require Import Base M_Names L_Names.
Import ListNotations.
Local Open Scope Z_scope.

Notation S_ s := (list_ascii_of_string s).

(** The produced name always ends in .h5 and is the given name with at most one suffix. *)
Theorem C30_ends_in_h5 : forall s, exists r, add_fname_suffix s = Val r /\
  (exists p, r = p ++ S_ ".h5") /\ (r = s \/ r = s ++ S_ ".h5").
Proof.
  intros s. destruct (add_value s) as [E|E]; rewrite E; eexists; (split; [reflexivity|]); (split; [exact (add_ends _ _ E)|auto]).
Qed.
Print Assumptions C30_ends_in_h5.

(** A name that does not contain .h5 designates the same file with and without the
    ending.  Missing: names containing .h5 elsewhere, see C30_suffix_twice_refuted. *)
Theorem C30_same_file_partial : forall s, (forall u t, s <> u ++ S_ ".h5" ++ t) ->
  add_fname_suffix s = Val (s ++ S_ ".h5") /\ add_fname_suffix (s ++ S_ ".h5") = Val (s ++ S_ ".h5").
Proof. intros s H. apply add_plain. intros o (u & t & E & _). exact (H u t E). Qed.
Print Assumptions C30_same_file_partial.

(** Exactly which names are kept: those whose only occurrence of .h5 is at the end. *)
Theorem C30_kept_iff : forall s, add_fname_suffix s = Val s <->
  exists p, s = p ++ S_ ".h5" /\ forall u t, s = u ++ S_ ".h5" ++ t -> u = p.
Proof.
  exact kept_iff.
Qed.
Print Assumptions C30_kept_iff.

(** A name already ending in .h5 gets a second suffix if .h5 also occurs earlier. *)
Theorem C30_suffix_twice_refuted : exists s, (exists p, s = p ++ S_ ".h5") /\ add_fname_suffix s = Val (s ++ S_ ".h5").
Proof. exists (S_ "run.h5.old.h5"). split; [exists (S_ "run.h5.old"); reflexivity|reflexivity]. Qed.
Print Assumptions C30_suffix_twice_refuted.

Example C30_example : add_fname_suffix (S_ "eps") = Val (S_ "eps.h5") /\ add_fname_suffix (S_ "eps.h5") = Val (S_ "eps.h5") /\
  add_fname_suffix (S_ "h5") = Val (S_ "h5.h5").
Proof. repeat split. Qed.

(** Splitting at the first colon. *)
Theorem C47_split_at_first_colon : forall f d, ~ In ":"%char f -> split_fname (f ++ ":"%char :: d) = Val (f, d).
Proof. exact split_colon. Qed.
Print Assumptions C47_split_at_first_colon.

Theorem C47_no_colon : forall f, ~ In ":"%char f -> split_fname f = Val (f, []).
Proof. exact split_plain. Qed.
Print Assumptions C47_no_colon.

(** Every argument is split without an invalid memory access and can be put together again. *)
Theorem C47_rejoin : forall s, exists f d, split_fname s = Val (f, d) /\ ~ In ":"%char f /\
  (s = f ++ ":"%char :: d \/ (s = f /\ d = [] /\ ~ In ":"%char s)).
Proof. exact split_any. Qed.
Print Assumptions C47_rejoin.

Example C47_example : split_fname (S_ "out.h5:e.x:r") = Val (S_ "out.h5", S_ "e.x:r").
Proof. reflexivity. Qed.
