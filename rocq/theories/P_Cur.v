(** Property C41: the current field and its labels. *)
From Coq Require Import String List ZArith Bool Ascii Lia.
From Verif Require Import Base M_Cur S_Cur L_Cur.
Import ListNotations.
Local Open Scope Z_scope.

(** Every sequence of commands, accepted or refused, without field objects of the user and without
    eigenvector products, squaring only vector fields: no undefined behaviour, and every energy,
    file and phase change is for the field and band it is labelled with. *)
Theorem C41_consistent_partial : forall cs, all_plain cs cur0 -> exists s r, run cs cur0 = Val (s, r) /\ consistent s /\ Forall truthful r.
Proof. intros cs H. destruct (run_plain cs cur0 inv0 H) as (s & r & E & (I & _) & F). exists s, r. auto. Qed.
Print Assumptions C41_consistent_partial.
(** After any such sequence a request for the D, H or B field of a band either loads exactly that
    field or leaves everything as it was. *)
Theorem C41_request : forall cs s r f b, all_plain cs cur0 -> run cs cur0 = Val (s, r) -> In f ["d"; "h"; "b"]%char ->
  exists s', get_field f b s = Val s' /\ (s' = s \/ (c_has s' = true /\ c_type s' = f /\ c_band s' = b /\ c_buf s' = Band f b)).
Proof.
  intros cs s r f b H E Hf. destruct (run_plain cs cur0 inv0 H) as (s1 & r1 & E1 & I & _). rewrite E in E1. injection E1 as <- <-.
  destruct (get_inv f b s I Hf) as (s' & Es & (Ic & _) & [->|(H1 & H2 & H3)]); exists s + exists s'; (split; [exact Es|]); [left; reflexivity|right].
  split; [exact H1|]. split; [exact H3|]. split; [exact H2|].
  destruct (describes_cases _ _ _ (Ic H1)) as [(_ & K)|[(K & _)|[(K & _)|(K & _)]]]; [rewrite H2, H3 in K; exact K|..]; exfalso; rewrite H3 in K; cbn in K, Hf;
    repeat (destruct Hf as [Hf|Hf]; [rewrite <- Hf in K; repeat (destruct K as [K|K]; [discriminate|]); contradiction|]); contradiction.
Qed.
Print Assumptions C41_request.

(** A refused request for an E field converts the D field of another band that happens to be
    loaded. *)
Theorem C41_efield_refuted : exists s s' b, run [Init 4 false; Solve; Get "d" 2] cur0 = Val (s, []) /\ get_efield b s = Val s' /\ get_field "d" b s = Val s /\ s' <> s /\
  c_type s' = "e"%char /\ c_band s' <> b /\ c_buf s' = Band "e" 2.
Proof. eexists _, _, 7. split; [vm_compute; reflexivity|]. split; [vm_compute; reflexivity|]. split; [vm_compute; reflexivity|]. split; [discriminate|]. cbn. repeat split; congruence. Qed.
Print Assumptions C41_efield_refuted.
(** A field object of the user is labelled with the band of an earlier request: fix-field-phase
    changes an eigenvector that has nothing to do with it. *)
Theorem C41_load_refuted : exists s r, run [Init 4 false; Solve; Get "d" 2; Load "d"; FixC] cur0 = Val (s, r) /\ ~ consistent s /\ ~ Forall truthful r.
Proof.
  eexists _, _. split; [vm_compute; reflexivity|]. split.
  - intros H. specialize (H eq_refl). destruct (describes_cases _ _ _ H) as [(_ & K)|[(_ & f & K)|[(K & _)|(_ & K & _)]]]; [discriminate..| |discriminate]. cbn in K. destruct K as [K|[K|[]]]; discriminate.
  - intros H. inversion H as [|x l H1 _]. destruct (describes_cases _ _ _ H1) as [(_ & K)|[(_ & f & K)|[(K & _)|(_ & K & _)]]]; [discriminate..| |discriminate]. cbn in K. destruct K as [K|[K|[]]]; discriminate.
Qed.
Print Assumptions C41_load_refuted.
(** Before any band was loaded, or after get-epsilon, this writes before the start of the array,
    and so do file descriptions with the frequencies. *)
Theorem C41_band0_refuted : run [Init 4 false; Solve; GetMedium "n"; Load "c"; FixC] cur0 = UB /\ run [Init 4 false; Load "R"; Output] cur0 = UB.
Proof. split; vm_compute; reflexivity. Qed.
Print Assumptions C41_band0_refuted.
(** With permeability an eigenvector product overwrites the loaded field, which stays current. *)
Theorem C41_dot_refuted : exists s r, run [Init 4 true; Solve; Get "b" 2; Dot; EnergyC] cur0 = Val (s, r) /\ ~ Forall truthful r.
Proof.
  eexists _, _. split; [vm_compute; reflexivity|]. intros H. inversion H as [|x l H1 _].
  destruct (describes_cases _ _ _ H1) as [(_ & K)|[(_ & f & K)|[(K & _)|(_ & K & _)]]]; [discriminate..| |discriminate]. cbn in K. destruct K as [K|[K|[]]]; discriminate.
Qed.
Print Assumptions C41_dot_refuted.
(** Squaring goes on after its error message: a null pointer, or an energy density read as a
    vector field. *)
Theorem C41_square_refuted : run [Init 4 false; Solve; SquareC] cur0 = UB /\
  exists s r, run [Init 4 false; Solve; Get "d" 1; EnergyC; SquareC] cur0 = Val (s, r) /\ ~ consistent s.
Proof.
  split; [vm_compute; reflexivity|]. eexists _, _. split; [vm_compute; reflexivity|]. intros H. specialize (H eq_refl).
  destruct (describes_cases _ _ _ H) as [(_ & K)|[(_ & f & K)|[(_ & f & K)|(_ & K & _)]]]; discriminate.
Qed.
Print Assumptions C41_square_refuted.
(** The permeability can be loaded and written to a file but not used as a field object. *)
Theorem C41_mu_object_refuted : exists s, run [Init 4 true; GetMedium "m"] cur0 = Val (s, []) /\ consistent s /\ c_has s = true /\ as_object s = Abort /\
  exists s', run [Init 4 true; GetMedium "n"] cur0 = Val (s', []) /\ as_object s' = Val "n"%char.
Proof.
  eexists. split; [vm_compute; reflexivity|]. split; [|split; [reflexivity|split; [vm_compute; reflexivity|eexists; split; vm_compute; reflexivity]]].
  intros _. right; right; right. cbn. auto.
Qed.
Print Assumptions C41_mu_object_refuted.

(** A session with refused commands: energies of a band, a phase fixed, a divergence, a file. *)
Example C41_example : all_plain [Get "d" 1; Init 4 false; Get "h" 1; Solve; Get "d" 9; Get "d" 2; FixC; EnergyC; EnergyC; Output; GetE 3; DivC; Output; GetMedium "n"; Output; Resetting; EnergyC] cur0 /\
  exists s r, run [Get "d" 1; Init 4 false; Get "h" 1; Solve; Get "d" 9; Get "d" 2; FixC; EnergyC; EnergyC; Output; GetE 3; DivC; Output; GetMedium "n"; Output; Resetting; EnergyC] cur0 = Val (s, r) /\
    map rep_type r = ["d"; "D"; "D"; "C"; "n"]%char /\ map rep_band r = [2; 2; 2; 3; 0].
Proof.
  split; [|eexists _, _; split; [vm_compute; reflexivity|split; reflexivity]].
  cbn [all_plain]. repeat (split; [cbn; auto; lia|]; split; [intros K; discriminate K|]; intros ? ? K; vm_compute in K; injection K as <- <-). exact I.
Qed.
(** Squaring a loaded field is allowed. *)
Example C41_square : all_plain [Init 4 false; Solve; Get "b" 2; SquareC; Output] cur0.
Proof.
  cbn [all_plain]. do 3 (split; [cbn; auto; lia|]; split; [intros K; discriminate K|]; intros ? ? K; vm_compute in K; injection K as <- <-).
  split; [exact I|]. split; [intros _; cbn; auto|]. intros ? ? K; vm_compute in K; injection K as <- <-. split; [exact I|]. split; [intros K; discriminate K|]. intros; exact I.
Qed.
