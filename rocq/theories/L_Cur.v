(** Proofs about the current field. *)
From Coq Require Import String List ZArith Bool Ascii Lia.
From Verif Require Import Base M_Cur S_Cur.
Import ListNotations.
Local Open Scope Z_scope.

(** Invariant: labels right, bands in range, frequencies known once solved. *)
Definition inv (s : cur) : Prop :=
  consistent s /\ 0 <= c_p s /\ 0 <= c_k s /\ (c_has s = true -> c_mdata s = true) /\ (0 < c_k s -> c_nfreq s = c_p s /\ c_mdata s = true) /\
  (c_has s = true -> (In (c_type s) ["n"; "m"]%char \/ (1 <= c_band s <= c_p s /\ c_p s <= c_nfreq s))).

Lemma inv0 : inv cur0.
Proof. unfold inv, consistent. cbn. repeat split; try lia; discriminate. Qed.

Ltac tcase H := cbn in H; repeat (destruct H as [H|H]; [|]); try contradiction.
Ltac fin := first [ lia | assumption | discriminate | congruence | (cbn; tauto) | (cbn; lia) ].

Lemma eqb_ascii a b : Ascii.eqb a b = true -> a = b. Proof. apply Ascii.eqb_eq. Qed.

Ltac rebuild Hf := unfold inv, consistent; cbn; split; [|split; [|split; [|split; [|split]]]];
  try lia; try discriminate; try assumption; try (intros; reflexivity); try (intros; lia); try (intros _; right; lia); try (intros; apply Hf; assumption); try (intros ?; split; [|reflexivity]; lia); try (intros ?; split; [reflexivity|assumption]); try (intros; assumption); try (intros ?; split; assumption); try (intros; auto; fail).

(** What can be current. *)
Lemma describes_cases t b c : describes t b c ->
  (In t ["d"; "h"; "b"; "e"]%char /\ c = Band t b) \/ (In t ["D"; "H"; "B"]%char /\ exists f, c = Energy (Band f b)) \/ (In t ["R"; "C"]%char /\ exists f, origin c = Some (f, b)) \/ (In t ["n"; "m"]%char /\ c = Medium t /\ b = 0).
Proof.
  intros [H|[(f & H & E)|[H|H]]]; [left; exact H| |right; right; left; exact H|right; right; right; exact H].
  right; left. split; [|exists f; exact E]. cbn in *. destruct H as [H|[H|[H|[]]]]; injection H as <- <-; auto.
Qed.

Lemma get_inv f b s : inv s -> In f ["d"; "h"; "b"]%char -> exists s', get_field f b s = Val s' /\ inv s' /\ (s' = s \/ (c_has s' = true /\ c_band s' = b /\ c_type s' = f)).
Proof.
  intros I Hin. pose proof I as (Hc & Hp & Hk & Hm & Hf & Hb). unfold get_field. destruct (negb (c_mdata s)) eqn:Em; [exists s; split; [reflexivity|split; [exact I|auto]]|].
  destruct (Z.eqb_spec (c_k s) 0) as [Ek|Ek]; [exists s; split; [reflexivity|split; [exact I|auto]]|].
  destruct (Z.ltb_spec b 1); cbn [orb]; [exists s; split; [reflexivity|split; [exact I|auto]]|].
  destruct (Z.ltb_spec (c_p s) b); cbn [orb]; [exists s; split; [reflexivity|split; [exact I|auto]]|].
  destruct Hf as (Hf & Hmd); [lia|]. destruct (Z.ltb_spec (c_nfreq s) b); [lia|]. cbn [andb]. eexists. split; [reflexivity|]. split; [|right; cbn; auto].
  rebuild Hf.
  intros _. left. split; [|reflexivity]. cbn in Hin |- *. tauto.
Qed.

Lemma efd_inv s : inv s -> exists s', efield_from_dfield s = Val s' /\ inv s'.
Proof.
  intros I. pose proof I as (Hc & Hp & Hk & Hm & Hf & Hb). unfold efield_from_dfield. destruct (c_has s) eqn:Eh; cbn [negb orb]; [|exists s; auto].
  destruct (Ascii.eqb (c_type s) "d") eqn:Et; cbn [negb]; [|exists s; auto]. apply eqb_ascii in Et. unfold check. rewrite (Hm eq_refl). cbn [bind].
  destruct (describes_cases _ _ _ (Hc Eh)) as [(_ & E)|[(H & _)|[(H & _)|(H & _)]]]; rewrite Et in *; try (cbn in H; repeat (destruct H as [H|H]; [discriminate|]); contradiction).
  rewrite E. eexists. split; [reflexivity|]. destruct (Hb eq_refl) as [H|H]; [cbn in H; destruct H as [H|[H|[]]]; discriminate|].
  rebuild Hf. intros _. left. split; [cbn; auto 6|reflexivity].
Qed.

Lemma chars_vec t : in_str t "dhbecv" = true -> In t ["d"; "h"; "b"; "e"; "c"; "v"]%char.
Proof. cbn [in_str]. rewrite !orb_true_iff. intros H. cbn [In]. repeat (destruct H as [H|H]; [apply eqb_ascii in H; subst; tauto|]). discriminate. Qed.

Lemma plain_step c s : inv s -> plain c -> squares_fields c s -> exists s' r, do c s = Val (s', r) /\ inv s' /\ Forall truthful r.
Proof.
  intros I Pl Sq. pose proof I as (Hc & Hp & Hk & Hm & Hf & Hb). destruct c; cbn [do quiet].
  - eexists _, _. split; [reflexivity|]. split; [|constructor]. cbn in Pl. rebuild Hf.
  - unfold solve. cbn [reset set_cur c_p c_mdata]. destruct (Z.eqb_spec (c_p s) 0); cbn [orb].
    + eexists _, _. split; [reflexivity|]. split; [|constructor]. rebuild Hf.
    + destruct (c_mdata s) eqn:Em; cbn [negb]; eexists _, _; (split; [reflexivity|]; split; [|constructor]); rebuild Hf.
  - destruct (get_inv f b s I Pl) as (s' & E & I' & _). rewrite E. eexists _, _. split; [reflexivity|]. split; [exact I'|constructor].
  - unfold get_efield. destruct (get_inv "d" b s I) as (s1 & E & I1 & _); [cbn; auto|]. rewrite E. cbn [bind]. destruct (efd_inv s1 I1) as (s' & E' & I'). rewrite E'. eexists _, _. split; [reflexivity|]. split; [exact I'|constructor].
  - destruct (efd_inv s I) as (s' & E' & I'). rewrite E'. eexists _, _. split; [reflexivity|]. split; [exact I'|constructor].
  - unfold field_energy. destruct (c_has s) eqn:Eh; cbn [negb orb]; [|eexists _, _; split; [reflexivity|split; [exact I|constructor]]].
    destruct (in_str (c_type s) "dhb") eqn:Et; cbn [negb]; [|eexists _, _; split; [reflexivity|split; [exact I|constructor]]].
    destruct (Ascii.eqb (c_type s) "h" && c_mu s); [eexists _, _; split; [reflexivity|split; [exact I|constructor]]|].
    unfold energy_internal. rewrite Eh, (Hm eq_refl). cbn [negb orb bind].
    assert (Et' : In (c_type s) ["d"; "h"; "b"]%char). { revert Et. cbn [in_str]. rewrite !orb_true_iff. intros H. cbn [In]. repeat (destruct H as [H|H]; [apply eqb_ascii in H; rewrite <- H; tauto|]). discriminate. }
    destruct (describes_cases _ _ _ (Hc Eh)) as [(_ & E)|[(H & _)|[(H & _)|(H & _)]]].
    2-4: exfalso; cbn in H, Et'; repeat (destruct Et' as [Et'|Et']; [rewrite <- Et' in H; repeat (destruct H as [H|H]; [discriminate|]); contradiction|]); contradiction.
    rewrite E. cbn [is_vector]. eexists _, _. split; [reflexivity|]. destruct (Hb eq_refl) as [H|H].
    { exfalso. cbn in H, Et'. repeat (destruct Et' as [Et'|Et']; [rewrite <- Et' in H; repeat (destruct H as [H|H]; [discriminate|]); contradiction|]); contradiction. }
    assert (D : describes (upper (c_type s)) (c_band s) (Energy (Band (c_type s) (c_band s)))).
    { right; left. exists (c_type s). split; [|reflexivity]. cbn in Et'. destruct Et' as [K|[K|[K|[]]]]; rewrite <- K; cbn; auto. }
    split; [|constructor; [exact D|constructor]]. rebuild Hf.
  - unfold field_squared. destruct (Sq eq_refl) as (Eh & Et). unfold energy_internal. cbn [set_cur c_has c_mdata c_type c_band c_buf]. rewrite Eh, (Hm Eh). cbn [negb orb bind].
    destruct (describes_cases _ _ _ (Hc Eh)) as [(_ & E)|[(H & _)|[(H & _)|(H & _)]]].
    2-4: exfalso; cbn in H, Et; repeat (destruct Et as [Et|Et]; [rewrite <- Et in H; repeat (destruct H as [H|H]; [discriminate|]); contradiction|]); contradiction.
    rewrite E. cbn [is_vector]. eexists _, _. split; [reflexivity|]. split; [|constructor]. destruct (Hb Eh) as [H|H].
    { exfalso. cbn in H, Et. repeat (destruct Et as [Et|Et]; [rewrite <- Et in H; repeat (destruct H as [H|H]; [discriminate|]); contradiction|]); contradiction. }
    rebuild Hf. intros _. right; right; left. split; [cbn; auto|]. exists (c_type s). reflexivity.
  - unfold field_divergence. destruct (c_has s) eqn:Eh; cbn [negb orb]; [|eexists _, _; split; [reflexivity|split; [exact I|constructor]]].
    destruct (in_str (c_type s) "dhbec") eqn:Et; cbn [negb]; [|eexists _, _; split; [reflexivity|split; [exact I|constructor]]].
    assert (Et' : In (c_type s) ["d"; "h"; "b"; "e"; "c"]%char). { revert Et. cbn [in_str]. rewrite !orb_true_iff. intros H. cbn [In]. repeat (destruct H as [H|H]; [apply eqb_ascii in H; rewrite <- H; tauto|]). discriminate. }
    destruct (describes_cases _ _ _ (Hc Eh)) as [(_ & E)|[(H & _)|[(H & _)|(H & _)]]].
    2-4: exfalso; cbn in H, Et'; repeat (destruct Et' as [Et'|Et']; [rewrite <- Et' in H; repeat (destruct H as [H|H]; [discriminate|]); contradiction|]); contradiction.
    rewrite E. cbn [is_vector]. eexists _, _. split; [reflexivity|]. split; [|constructor]. destruct (Hb eq_refl) as [H|H].
    { exfalso. cbn in H, Et'. repeat (destruct Et' as [Et'|Et']; [rewrite <- Et' in H; repeat (destruct H as [H|H]; [discriminate|]); contradiction|]); contradiction. }
    rebuild Hf. intros _. right; right; left. split; [cbn; auto|]. exists (c_type s). reflexivity.
  - unfold fix_phase. destruct (c_has s) eqn:Eh; cbn [negb orb]; [|eexists _, _; split; [reflexivity|split; [exact I|constructor]]].
    destruct (in_str (c_type s) "dhbecv") eqn:Et; cbn [negb]; [|eexists _, _; split; [reflexivity|split; [exact I|constructor]]].
    pose proof (chars_vec _ Et) as Et'. destruct (Hb eq_refl) as [H|H].
    { exfalso. cbn in H, Et'. repeat (destruct Et' as [Et'|Et']; [rewrite <- Et' in H; repeat (destruct H as [H|H]; [discriminate|]); contradiction|]); contradiction. }
    destruct (Z.ltb_spec (c_band s) 1); [lia|]. destruct (Z.ltb_spec (c_p s) (c_band s)); [lia|]. cbn [orb]. eexists _, _. split; [reflexivity|]. split; [exact I|]. constructor; [exact (Hc Eh)|constructor].
  - unfold get_medium. destruct (c_mdata s) eqn:Em; cbn [negb]; eexists _, _; (split; [reflexivity|]; split; [|constructor]); [|exact I].
    rebuild Hf; [intros _; unfold describes; right; right; right; split; [exact Pl|split; reflexivity]|intros Q; destruct (Hf Q); auto].
  - unfold output_field. destruct (c_has s) eqn:Eh; cbn [negb]; [|eexists _, _; split; [reflexivity|split; [exact I|constructor]]].
    set (named := in_str (c_type s) "dhbecvCDHBR"). destruct named eqn:En; cbn [andb orb].
    + destruct (Hb eq_refl) as [H|H].
      { exfalso. unfold named in En. cbn in H. destruct H as [H|[H|[]]]; rewrite <- H in En; discriminate. }
      destruct (Z.ltb_spec (c_band s) 1); [lia|]. destruct (Z.ltb_spec (c_nfreq s) (c_band s)); [lia|]. cbn [orb].
      eexists _, _. split; [reflexivity|]. split; [|constructor; [exact (Hc Eh)|constructor]]. rebuild Hf.
    + eexists _, _. split; [reflexivity|]. split; [rebuild Hf|].
      destruct (in_str (c_type s) "nm"); [constructor; [exact (Hc Eh)|constructor]|constructor].
  - contradiction.
  - eexists _, _. split; [reflexivity|]. split; [|constructor]. rebuild Hf.
  - contradiction.
Qed.

Lemma run_plain : forall cs s, inv s -> all_plain cs s -> exists s' r, run cs s = Val (s', r) /\ inv s' /\ Forall truthful r.
Proof.
  induction cs as [|c cs IH]; intros s I H.
  - exists s, []. split; [reflexivity|]. split; [exact I|constructor].
  - cbn in H. destruct H as (H1 & H2 & H3). destruct (plain_step c s I H1 H2) as (s1 & r1 & E1 & I1 & F1). cbn [run]. rewrite E1. cbn [bind].
    destruct (IH s1 I1 (H3 _ _ E1)) as (s2 & r2 & E2 & I2 & F2). rewrite E2. cbn [bind]. exists s2, (r1 ++ r2). split; [reflexivity|]. split; [exact I2|]. apply Forall_app. auto.
Qed.
