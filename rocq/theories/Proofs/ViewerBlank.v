(** The viewer before its first text. *)
From Coq Require Import List Ascii String ZArith QArith Bool Arith Lia.
From Verif.Base Require Import Result Num.
From Verif.Model Require Import Token Glue Box Dimen DimenParser ListBuilders LineBreaks Unicode Viewer.
From Verif.Spec Require Import ViewerSpec.
From Verif.Proofs Require Import TypesetTypes ViewerMore.
Import ListNotations.

Section V.
  Context {N : Num}.
  Variable in_range : Q -> bool.
  Variables debug char_signed : bool.
  Variable pw : pows N.
  Variable us : unitsystem N.
  Variable fm : bool -> hmetrics N.
  Variable sorted : list (bp N) -> list (bp N).
  Variable to_float : name -> option N.
  Notation step := (step in_range debug char_signed pw us fm sorted to_float).
  Notation process := (process debug char_signed pw fm sorted).
  Notation parameter_changed := (parameter_changed in_range debug char_signed pw us fm sorted).
  Notation session := (session in_range debug char_signed pw us fm sorted to_float).

  Definition bare (z : Z) (v : viewer N) : Prop :=
    v_text v = [] /\ v_list v = [] /\ v_bps v = [] /\ v_box v = None /\ v_label v = None /\ v_max v = 99%Z /\ v_value v = z.
  Lemma bare_process v z : bare z v -> holds (process v) (bare z).
  Proof. intros B. unfold Viewer.process. rewrite (proj1 B). apply holds_ok. exact B. Qed.
  Lemma bare_write_glue f v z : bare z v -> holds (write_glue in_range us f v) (bare z).
  Proof. intros B. unfold write_glue. apply holds_any. intros [g|]; apply holds_ok; exact B. Qed.
  Lemma bare_write_dimen f v z : bare z v -> holds (write_dimen in_range us f v) (bare z).
  Proof. intros B. unfold write_dimen. apply holds_any. intros [g|]; apply holds_ok; exact B. Qed.
  Lemma bare_parameter v z : bare z v -> holds (parameter_changed v) (bare z).
  Proof.
    intros B. unfold Viewer.parameter_changed.
    do 4 (eapply holds_bind; [apply bare_write_glue; exact B|]; clear v B; intros v B).
    do 2 (eapply holds_bind; [apply bare_write_dimen; exact B|]; clear v B; intros v B).
    apply bare_process. exact B.
  Qed.
  Lemma bare_spin v z s x : bare z v -> holds (set_spin in_range debug char_signed pw us fm sorted v s x) (bare z).
  Proof. intros B. unfold set_spin. cbv zeta. destruct (_ =? _)%Z; [apply holds_ok; exact B|apply bare_parameter; exact B]. Qed.
  Lemma bare_ptext v z t : bare z v -> holds (set_ptext in_range debug char_signed pw us fm sorted to_float v t) (bare z).
  Proof. intros B. unfold set_ptext. destruct (name_eqb _ _); [apply holds_ok; exact B|apply bare_parameter; exact B]. Qed.
  Lemma bare_gtext v z f t : bare z v -> holds (set_gtext in_range debug char_signed pw us fm sorted v f t) (bare z).
  Proof. intros B. unfold set_gtext. destruct (name_eqb _ _); [apply holds_ok; exact B|apply bare_parameter; exact B]. Qed.
  Lemma bare_dtext v z f t : bare z v -> holds (set_dtext in_range debug char_signed pw us fm sorted v f t) (bare z).
  Proof. intros B. unfold set_dtext. destruct (name_eqb _ _); [apply holds_ok; exact B|apply bare_parameter; exact B]. Qed.
  Lemma bare_french v z b : bare z v -> holds (set_french in_range debug char_signed pw us fm sorted v b) (bare z).
  Proof. intros B. unfold set_french. destruct (Bool.eqb _ _); [apply holds_ok; exact B|apply bare_parameter; exact B]. Qed.
  Lemma bare_reset v z : bare z v -> holds (reset in_range debug char_signed pw us fm sorted to_float v) (bare z).
  Proof.
    intros B. unfold reset.
    do 3 (eapply holds_bind; [apply bare_spin; exact B|]; clear v B; intros v B).
    eapply holds_bind; [apply bare_ptext; exact B|]; clear v B; intros v B.
    do 4 (eapply holds_bind; [apply bare_gtext; exact B|]; clear v B; intros v B).
    do 2 (eapply holds_bind; [apply bare_dtext; exact B|]; clear v B; intros v B).
    apply bare_spin. exact B.
  Qed.
  Lemma blank_session : forall es v, (forall t, In (EText t) es -> t = []) -> session es = Ok v -> bare (choice_of (rev es)) v.
  Proof.
    induction es as [|e es IH] using rev_ind; intros v T H.
    - cbn [rev choice_of]. unfold Viewer.session in H. apply bind_Ok in H as (w & W & H). cbn in H. injection H as <-.
      revert W. apply bare_parameter. repeat split.
    - rewrite session_snoc in H. apply bind_Ok in H as (w & W & H). rewrite rev_app_distr. cbn [rev app].
      assert (B : bare (choice_of (rev es)) w) by (apply IH; [intros t X; apply T, in_or_app; left; exact X|exact W]).
      destruct e as [t|f t|f t|t|s x|b|x|]; cbn [Viewer.step choice_of] in *.
      + rewrite (T t) in H by (apply in_or_app; right; left; reflexivity). revert H. apply bare_process. destruct B as (_ & B). split; [reflexivity|exact B].
      + revert H. apply bare_gtext. exact B.
      + revert H. apply bare_dtext. exact B.
      + revert H. apply bare_ptext. exact B.
      + revert H. apply bare_spin. exact B.
      + revert H. apply bare_french. exact B.
      + destruct B as (B1 & B2 & B3 & B4 & B5 & B6 & B7). unfold set_value in H. rewrite B6 in H. unfold clamp in H. cbn [fst snd] in H.
        destruct (_ =? _)%Z eqn:E.
        * injection H as <-. apply Z.eqb_eq in E. repeat split; auto; lia.
        * unfold selected in H. cbn [v_bps with_value] in H. rewrite B3 in H. injection H as <-. repeat split; cbn; auto; lia.
      + revert H. apply bare_reset. exact B.
  Qed.
End V.
