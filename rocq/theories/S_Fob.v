(** Vocabulary for the properties of field objects. *)
From Coq Require Import String Ascii List ZArith Reals Bool.
From Verif Require Import Base RC M_Tensor S_Tensor M_Evect S_Evect M_Grid S_Grid M_Op S_Op M_Fld S_Fld M_Half M_Fob.
Import ListNotations.
Local Open Scope Z_scope.

(** The letters of the current field and what they stand for. *)
Definition kind_of_letter (ch : ascii) : option kind :=
  match ch with
  | "d" | "h" | "b" | "e" | "c" | "v" => Some KV
  | "D" | "H" | "B" | "n" | "R" => Some KR
  | "C" => Some KC
  | _ => None
  end%char.

(** The value of a field at a grid point, from the numbers stored for it. *)
Definition num (m : list R) (j : nat) : R := nth j m 0%R.
Definition cnum (m : list R) (j : nat) : C := (num m (2 * j), num m (2 * j + 1)).
Definition value (k : kind) (m : list R) (i : nat) : item :=
  match k with KR => IR (num m i) | KC => IC (cnum m i) | KV => IV (cnum m (3 * i)) (cnum m (3 * i + 1)) (cnum m (3 * i + 2)) end.

(** In state s, r is a field of this kind, letter and shape, with these numbers. *)
Inductive is_field (s : fstate) : fref -> kind -> ascii -> shape -> list R -> Prop :=
| cur_is e k : st_env s = Some e -> st_has s = true -> kind_of_letter (st_ch s) = Some k -> is_field s Cur k (st_ch s) (env_shape e) (st_mem s)
| obj_is n o : nth_error (st_objs s) n = Some o -> is_field s (Obj n) (fo_kind o) (fo_ch o) (fo_sh o) (fo_data o).
(** Number of grid points. *)
Definition points (sh : shape) : nat := Z.to_nat (sh_N sh).
(** Two sets of numbers give the same field. *)
Definition same_values (k : kind) (sh : shape) (m m' : list R) : Prop := forall i, (i < points sh)%nat -> value k m i = value k m' i.

(** Nothing but field r differs. *)
Definition others_kept (r : fref) (s s' : fstate) : Prop :=
  st_env s' = st_env s /\ st_band s' = st_band s /\ length (st_objs s') = length (st_objs s) /\
  (forall n, r <> Obj n -> nth_error (st_objs s') n = nth_error (st_objs s) n) /\
  (r <> Cur -> st_mem s' = st_mem s /\ st_has s' = st_has s /\ st_ch s' = st_ch s).
(** The objects of s are still there, unchanged. *)
Definition objects_kept (s s' : fstate) : Prop := exists l, st_objs s' = st_objs s ++ l.

(** Globals as init-params and solve-kpoint leave them. *)
Definition good_env (e : fenv) (mem : list R) : Prop :=
  wfd (v_d e) /\ (0 < v_Vol e)%R /\ (0 < v_HN e)%R /\ fields (v_d e) (v_H e) /\ fields (v_d e) (v_W0 e) /\ ep (v_W0 e) = 1 /\
  Z.of_nat (length (v_freqs e)) = ep (v_H e) /\ Nat.even (length mem) = true /\ 6 * npts (v_d e) <= Z.of_nat (length mem) /\
  (forall m e0 e1 e2, v_eigs e m = (e0, e1, e2) -> (0 < e0 + e1)%R).
Definition good_obj (o : fobj) : Prop := 0 <= sh_N (fo_sh o) /\ Z.of_nat (length (fo_data o)) = width (fo_kind o) * sh_N (fo_sh o) /\ fo_ch o <> "-"%char.
(** States that occur: a letter other than '-' comes with a loaded field. *)
Definition good (s : fstate) : Prop :=
  (match st_env s with None => True | Some e => good_env e (st_mem s) end) /\
  (st_has s = true -> st_env s <> None) /\ (st_ch s <> "-"%char -> st_has s = true) /\ Forall good_obj (st_objs s).
(** New globals in a run are good ones. *)
Definition good_cmd (c : fcmd) : Prop := match c with Phys e mem => good_env e mem | _ => True end.
(** The start of the program. *)
Definition fstate0 : fstate := {| st_env := None; st_mem := []; st_has := false; st_ch := "-"; st_band := 0; st_objs := [] |}.

(** The command does not write to object n. *)
Definition spares (n : nat) (c : fcmd) : Prop :=
  match c with SetF dst _ | MapF dst _ _ | Nonbloch dst => dst <> Obj n | _ => True end.

(** A result of this kind, as it is stored. *)
Definition stored_as (k : kind) (x : item) : option item :=
  match k, x with KR, IR x => Some (IR x) | KC, IR x => Some (IC (x, 0%R)) | KC, IC z => Some (IC z) | KV, IV a b c => Some (IV a b c) | _, _ => None end.

(** The cross product of complex vectors, component c. *)
Definition cross (x y : nat -> C) (c : nat) : C :=
  let a := Nat.modulo (c + 1) 3 in let b := Nat.modulo (c + 2) 3 in (x a * y b - x b * y a)%C.
Definition vitem (x : nat -> C) : item := IV (x 0%nat) (x 1%nat) (x 2%nat).

(** The letter of the destination of field-map!: that of a single source of the same kind, none
    of the special ones with several sources, otherwise the old one. *)
Definition map_letter (k : kind) (ch : ascii) (srcs : list (kind * ascii * list R)) : ascii :=
  match srcs with
  | [] => ch
  | [(k', ch', _)] => match k, k' with KR, KR | KC, KC | KV, KV => ch' | _, _ => ch end
  | _ => match k with KR => "R" | KC => "C" | KV => "c" end
  end%char.

(** The real part of u . v, and its sum over the cell for a vector field (Vol times the mean). *)
Definition along (u : vec) (v : nat -> C) : C := csum 3 (fun c => (RtoC (comp c u) * v c)%C).
Definition flux (N : nat) (Vol : R) (u : vec) (m : list R) : R := (Vol / INR N * rsum N (fun i => re (along u (fun c => cnum m (3 * i + c)))))%R.
