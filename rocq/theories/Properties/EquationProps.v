(** C90: the equation editor shows the formula that is written. *)
From Coq Require Import List Ascii String ZArith Bool Arith Lia.
From Verif.Base Require Import Result Num.
From Verif.Model Require Import Token Lexer Box MathList MathParser MathTypeset MathFrontend.
From Verif.Spec Require Import LexerSpec MathSpec TypesetSpec EquationSpec.
From Verif.Proofs Require Import LexerProofs EquationProofs.
Import ListNotations.

(** A text whose tokens mean the formula [ts] gives the box of the formula's
    list in display style. Missing: what the grammar [group] lacks (C46), the
    symbols with a wrong character (C85), the characters outside of plain TeX's
    table. *)
Theorem C90_formula_partial : forall (N : Num) cs (E : engine N) text toks fin es ts,
  lexes DefaultCatCodes true NewLine text toks fin -> fin <> BadCharacter -> fin <> BadParam ->
  Forall2 means toks es -> group (List.concat es) ts ->
  exists k, forall fuel, k <= fuel ->
    equation cs E fuel text = rmap (fun r => hbox (fst r)) (mlist2hlist E fuel default_penalties D (map value ts)) /\
    equation cs E fuel text <> Fuel.
Proof. exact @equation_shown. Qed.
Theorem C90_rejected : forall (N : Num) cs (E : engine N) text toks fin fuel,
  lexes DefaultCatCodes true NewLine text toks fin -> fin = BadCharacter \/ fin = BadParam ->
  equation cs E fuel text = Throw.
Proof. exact @equation_rejected. Qed.
(** a word that is no command and no symbol of plain TeX: nothing is shown *)
Theorem C90_unknown : forall (N : Num) cs (E : engine N) text toks fin fuel n,
  lexes DefaultCatCodes true NewLine text toks fin -> In (TCs n) toks -> unknown n ->
  forall b, equation cs E fuel text <> Ok b.
Proof. intros. eapply equation_unknown; eauto. apply unknown_word. assumption. Qed.
(** nor with one of the missing symbols of plain TeX *)
Theorem C90_missing_refuted : forall (N : Num) cs (E : engine N) text toks fin fuel w,
  lexes DefaultCatCodes true NewLine text toks fin -> In (TCs (list_ascii_of_string w)) toks -> In w missing_symbols ->
  forall b, equation cs E fuel text <> Ok b.
Proof. intros. eapply equation_unknown; eauto. apply missing_word. assumption. Qed.
(** a last control word is not shown *)
Theorem C90_last_refuted : forall (N : Num) cs (E : engine N) text toks st fuel w,
  lexes DefaultCatCodes true NewLine text toks (EndText st) -> Forall (fun a => DefaultCatCodes a = Letter) w ->
  equation cs E fuel (text ++ "\"%char :: w) = equation cs E fuel text.
Proof. exact @equation_last. Qed.
(** a byte that is not ASCII is a symbol of its own, with a negative character
    where [char] is signed *)
Theorem C90_bytes_refuted : forall cs c m, (128 <= z_of c)%Z ->
  eq_token cs m (TChar c (DefaultCatCodes c)) = calls [CSym (mkSym (if cs then z_of c - 256 else z_of c)%Z 0 0)] m.
Proof. exact byte_token. Qed.
(** [writeSymbol] of the front end: ASCII only *)
Theorem C90_symbol : forall cs m,
  (forall c, (z_of c < 128)%Z -> MathFrontend.writeSymbol cs (z_of c) m = writeChar cs c m) /\
  (forall z, (128 <= z)%Z -> MathFrontend.writeSymbol cs z m = Throw) /\
  (forall c s, char_means c s -> writeChar cs c m = calls [CSym s] m).
Proof. exact front_symbol. Qed.

(* \sqrt{x_1^2}+\alpha  *)
Definition eq_text : list ascii := list_ascii_of_string "\sqrt{x_1^2}+\alpha ".
Definition sx : sym := mkSym 120 0 1.
Definition s1 : sym := mkSym 49 0 0.
Definition s2 : sym := mkSym 50 0 0.
Definition splus : sym := mkSym 43 2 0.
Definition salpha : sym := mkSym 945 0 1.
Definition eq_calls : list (list call) :=
  [[CSqrt]; [CBegin]; [CSym sx]; [CSub]; [CSym s1]; [CSup]; [CSym s2]; [CEnd]; [CSym splus]; [CSym salpha]].
Definition eq_tree : list tree :=
  [TAtom Rad (Formula [TAtom Ord (Sym sx) (Sym s2) (Sym s1)]) Nothing Nothing;
   TAtom Bin (Sym splus) Nothing Nothing; TAtom Ord (Sym salpha) Nothing Nothing].
Example C90_case : exists toks,
  lexes DefaultCatCodes true NewLine eq_text toks (EndText SkipBlanks) /\
  Forall2 means toks eq_calls /\ group (List.concat eq_calls) eq_tree.
Proof.
  destruct (feed DefaultCatCodes lexer_init eq_text) as [l e] eqn:F.
  destruct (lexer_tokenizes_lemma DefaultCatCodes NewLine eq_text lexer_init l e eq_refl F) as (ts & Ho & Hr).
  vm_compute in F. injection F as <- <-. exists ts. split; [apply Hr; split; reflexivity|]. cbn in Ho. subst ts. split.
  - repeat (first [ apply Forall2_nil | apply Forall2_cons ]); try constructor.
    + apply (t_command "sqrt"). cbn; tauto.
    + apply cm_letter. right. split; vm_compute; discriminate.
    + apply cm_digit. split; vm_compute; discriminate.
    + apply cm_digit. split; vm_compute; discriminate.
    + apply (cm_plain "+"%char 2 0 43). cbn. tauto.
    + apply (t_symbol "alpha"). exists 267%Z. cbn. repeat split; intuition discriminate.
  - apply group_body, body_items.
    change (List.concat eq_calls) with
      ((CSqrt :: CBegin :: ((CSym sx :: (CSub :: CSym s1 :: CSup :: [CSym s2])) ++ []) ++ CEnd :: []) ++ ([CSym splus] ++ ([CSym salpha] ++ []))).
    constructor; [apply item_sqrt; [|constructor]|].
    + apply group_body, body_items. constructor; [|constructor]. apply (item_sym false sx); [discriminate|].
      apply scripts_sub_sup. constructor.
    + constructor; [apply (item_sym false splus); [discriminate|constructor]|].
      constructor; [apply (item_sym false salpha); [discriminate|constructor]|constructor].
Qed.
Example C90_unknown_case : unknown (list_ascii_of_string "par") /\ unknown (list_ascii_of_string "displaystyle") /\
  ~ unknown (list_ascii_of_string "cr").
Proof.
  unfold unknown. repeat split.
  1-4: intros H; apply (in_dec_true (list_eq_dec ascii_dec)) in H; vm_compute in H; discriminate.
  intros [H _]. apply H. cbn. tauto.
Qed.

Print Assumptions C90_formula_partial.
Print Assumptions C90_rejected.
Print Assumptions C90_unknown.
Print Assumptions C90_missing_refuted.
Print Assumptions C90_last_refuted.
Print Assumptions C90_bytes_refuted.
Print Assumptions C90_symbol.
