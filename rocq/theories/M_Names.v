(** Model of the file name handling: matrixio.c add_fname_suffix and mpb-data.c
    split_fname.  A C string is the list of its characters before the terminating
    zero; a freshly allocated character buffer is its capacity. *)
From Coq Require Import String List ZArith Bool Ascii.
From Verif Require Import Base.
Import ListNotations.
Local Open Scope Z_scope.

Definition str := list ascii.
Definition len (s : str) : Z := Z.of_nat (length s).

(** C library string functions (ISO C 7.24), external code given its standard meaning. *)

(** Is [pat] a prefix of [s]. *)
Fixpoint starts (pat s : str) : bool :=
  match pat, s with
  | [], _ => true
  | _ :: _, [] => false
  | a :: p, b :: t => Ascii.eqb a b && starts p t
  end.

(** strstr(s, pat) as the offset of the first occurrence from the start of [s];
    [None] is the null pointer. *)
Fixpoint strstr (s pat : str) : option Z :=
  if starts pat s then Some 0
  else match s with [] => None | _ :: t => option_map Z.succ (strstr t pat) end.

(** strchr(s, c) as an offset. *)
Fixpoint strchr (s : str) (c : ascii) : option Z :=
  match s with
  | [] => None
  | a :: t => if Ascii.eqb a c then Some 0 else option_map Z.succ (strchr t c)
  end.

(** strcpy(dst, src) into a buffer of capacity [cap]: needs room for the characters and
    the terminating zero. *)
Definition strcpy (cap : Z) (src : str) : outcome str :=
  if len src + 1 <=? cap then Val src else UB.

(** strcat(dst, src) where dst holds [dst] in a buffer of capacity [cap]. *)
Definition strcat (cap : Z) (dst src : str) : outcome str :=
  if len dst + len src + 1 <=? cap then Val (dst ++ src) else UB.

(** strncpy(dst, src, n); dst[k] = 0 for [k < n]: what dst holds as a string when the
    first [k] characters copied contain no zero. *)
Definition strncpy_cut (cap n k : Z) (src : str) : outcome str :=
  if (n <=? cap) && (0 <=? k) && (k <? cap) then Val (firstn (Z.to_nat k) src) else UB.

(** matrixio.c 308: FNAME_SUFFIX ".h5". *)
Definition suffix : str := list_ascii_of_string ".h5".

(** matrixio.c 310-327 add_fname_suffix.  The pointer comparison of line 323 is a
    comparison of offsets from new_fname (a name shorter than the suffix makes the right
    hand side point before the buffer: it equals no result of strstr). *)
Definition add_fname_suffix (fname : str) : outcome str :=
  let oldlen := len fname in
  let suflen := len suffix in
  let cap := oldlen + suflen + 1 in                                      (* 318 *)
  let! new := strcpy cap fname in                                        (* 320 *)
  let already := match strstr new suffix with
                 | Some o => (o =? oldlen - suflen)
                 | None => false
                 end in
  if negb already then strcat cap new suffix else Val new.               (* 323-324 *)

Definition colon : ascii := Ascii.ascii_of_nat 58.

(** mpb-data.c 752-774 split_fname: the allocated file name and the dataset name (the
    tail of the argument that *data_name points to). *)
Definition split_fname (fname : str) : outcome (str * str) :=
  let fname_len := len fname in
  match strchr fname colon with
  | Some o =>
      let colon_len := fname_len - o in                                  (* 760: strlen(colon) *)
      let cap := fname_len - colon_len + 1 in
      let! filename := strncpy_cut cap (fname_len - colon_len + 1) (fname_len - colon_len) fname in
      Val (filename, skipn (Z.to_nat (o + 1)) fname)                     (* 765 *)
  | None =>
      let! filename := strcpy (fname_len + 1) fname in                   (* 768-770 *)
      Val (filename, skipn (Z.to_nat fname_len) fname)                   (* 771 *)
  end.
