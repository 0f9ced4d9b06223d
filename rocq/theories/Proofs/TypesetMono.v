(** More fuel never changes the outcome of the typesetter. *)
From Coq Require Import List ZArith Bool Arith Lia.
From Verif.Base Require Import Result Num.
From Verif.Model Require Import Glue Box MathList MathTypeset.
Import ListNotations.

Definition ext {A} (r r' : result A) : Prop := r = Fuel \/ r = r'.
Lemma ext_refl {A} (r : result A) : ext r r.
Proof. right; reflexivity. Qed.
Lemma ext_bind {A B} (r r' : result A) (f f' : A -> result B) :
  ext r r' -> (forall a, ext (f a) (f' a)) -> ext (bind r f) (bind r' f').
Proof. intros [-> | ->] H; [left; reflexivity|]. destruct r'; cbn; auto using ext_refl. Qed.

Section Mono.
  Context {N : Num}.
  Variable E : engine N.
  Variables rec rec' : style -> list (mnode N) -> result (list (node N) * list (mnode N)).
  Hypothesis Hrec : forall s l, ext (rec s l) (rec' s l).

  Ltac ext_tac :=
    repeat first
      [ apply ext_refl
      | solve [auto]
      | apply ext_bind; [|intros ?]
      | match goal with
        | |- ext (if ?c then _ else _) _ => destruct c
        | |- ext (match ?x with _ => _ end) _ => destruct x
        | |- ext (let (_, _) := ?x in _) _ => destruct x
        end
      | progress cbv zeta ].

  Lemma boxit_ext s f : ext (boxit E rec s f) (boxit E rec' s f).
  Proof. destruct f as [[y|n|l|]|]; cbn [boxit]; ext_tac. Qed.
  Hint Resolve boxit_ext : core.
  Lemma boxit_list_ext s l : ext (boxit_list rec s l) (boxit_list rec' s l).
  Proof. unfold boxit_list. ext_tac. Qed.
  Hint Resolve boxit_list_ext : core.
  Lemma attach_ext s n a : ext (attachSubSup E rec s n a) (attachSubSup E rec' s n a).
  Proof. unfold attachSubSup. ext_tac. Qed.
  Hint Resolve attach_ext : core.
  Lemma rule17_ext s a : ext (rule17 E rec s a) (rule17 E rec' s a).
  Proof. unfold rule17. ext_tac. Qed.
  Hint Resolve rule17_ext : core.
  Lemma rule16_ext s a : ext (rule16 E rec s a) (rule16 E rec' s a).
  Proof. unfold rule16. ext_tac. Qed.
  Hint Resolve rule16_ext : core.
  Lemma rule8_ext s a : ext (rule8 E rec s a) (rule8 E rec' s a).
  Proof. unfold rule8. ext_tac. Qed.
  Lemma rule9_ext s a : ext (rule9 E rec s a) (rule9 E rec' s a).
  Proof. unfold rule9. ext_tac. Qed.
  Lemma rule10_ext s a : ext (rule10 E rec s a) (rule10 E rec' s a).
  Proof. unfold rule10. ext_tac. Qed.
  Lemma rule11_ext s a : ext (rule11 E rec s a) (rule11 E rec' s a).
  Proof. unfold rule11. ext_tac. Qed.
  Lemma rule12_ext s a : ext (rule12 E rec s a) (rule12 E rec' s a).
  Proof. unfold rule12. ext_tac. Qed.
  Lemma rule13_ext s a : ext (rule13 E rec s a) (rule13 E rec' s a).
  Proof. unfold rule13. ext_tac. Qed.
  Hint Resolve rule8_ext rule9_ext rule10_ext rule11_ext rule12_ext rule13_ext : core.
  Lemma process_atom_ext s fi re a : ext (process_atom E rec s fi re a) (process_atom E rec' s fi re a).
  Proof. unfold process_atom, rule5. ext_tac. Qed.
  Lemma rule15_ext s a b : ext (rule15 E rec s a b) (rule15 E rec' s a b).
  Proof. unfold rule15. ext_tac. Qed.
  Lemma root_ext s a b : ext (processRoot E rec s a b) (processRoot E rec' s a b).
  Proof. unfold processRoot. ext_tac. Qed.
  Lemma boxit_lists_ext s c : ext (boxit_lists rec s c) (boxit_lists rec' s c).
  Proof. induction c; cbn [boxit_lists]; ext_tac. Qed.
  Hint Resolve process_atom_ext rule15_ext root_ext boxit_lists_ext : core.
  Lemma matrix_ext s c k : ext (processMatrix E rec s c k) (processMatrix E rec' s c k).
  Proof. unfold processMatrix. ext_tac. Qed.
  Hint Resolve matrix_ext : core.
  Lemma step_ext st : ext (step E rec st) (step E rec' st).
  Proof. unfold step. ext_tac. Qed.
  Lemma loop_ext : forall n m st, n <= m -> ext (loop E rec n st) (loop E rec' m st).
  Proof.
    induction n as [|n IH]; intros m st H.
    - destruct m; cbn [loop]; destruct (p_rest st); try apply ext_refl; left; reflexivity.
    - destruct m as [|m]; [lia|]. cbn [loop]. destruct (p_rest st); [apply ext_refl|].
      apply ext_bind; [apply step_ext|]. intros st'. apply IH. lia.
  Qed.
End Mono.

Theorem typeset_ext {N : Num} (E : engine N) : forall n m p s l, n <= m ->
  ext (mlist2hlist E n p s l) (mlist2hlist E m p s l).
Proof.
  induction n as [|n IH]; intros m p s l H.
  - destruct l; [destruct m; apply ext_refl|left; reflexivity].
  - destruct m as [|m]; [lia|]. destruct l as [|e l]; [apply ext_refl|]. cbn [mlist2hlist].
    apply ext_bind.
    + apply loop_ext; [|lia]. intros. apply IH. lia.
    + intros st. apply ext_refl.
Qed.
Theorem typeset_mono {N : Num} (E : engine N) : forall n m p s l r, n <= m ->
  r <> Fuel -> mlist2hlist E n p s l = r -> mlist2hlist E m p s l = r.
Proof. intros n m p s l r H Hr <-. destruct (typeset_ext E n m p s l H); congruence. Qed.
