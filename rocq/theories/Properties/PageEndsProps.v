(** C105: whether the page editor comes to an end. *)
From Coq Require Import List Ascii String ZArith QArith Bool Arith.
From Verif.Base Require Import Result Num.
From Verif.Model Require Import Token Lexer Macro Dimen DimenParser Glue Box ListBuilders LineBreaks MathList MathTypeset PageEditor PageWindow
  Preprocessor.
From Verif.Spec Require Import PageEditorSpec PageWindowSpec PageEndsSpec.
From Verif.Proofs Require Import PageStream PageRun PageText PageWindow PageEnds.
From Verif.Properties Require Import PageEditorProps.
Import ListNotations.
Local Open Scope string_scope.
Local Open Scope nat_scope.
Local Open Scope list_scope.

(** * Texts at which the editor hangs, whatever follows them *)
(** [\end] of the format makes itself and [\endcsname] of [\endcsname] *)
Theorem C105_hangs_refuted : forall (N : Num) (K : host N) n h w rest,
  text_changed K n h w (list_ascii_of_string "\end\endcsname " ++ rest) = Fuel.
Proof. intros N K. exact (end_window K). Qed.
(** there is no limit for macros that call themselves *)
Theorem C105_recursion_refuted : forall (N : Num) (K : host N) n h w rest,
  text_changed K n h w (list_ascii_of_string "\def\a{\a}\a " ++ rest) = Fuel.
Proof. intros N K. exact (loop_window K). Qed.

(** * Macros are the only reason *)
(** a run without end expands macros again and again *)
Theorem C105_endless : forall (N : Num) (K : host N) r, reached K (r 0) -> endless K r ->
  forall i, exists j, i <= j /\ expands K (r j).
Proof. intros N K. exact (endless_expands K). Qed.
Example endless_ex : exists r, reached toy (r 0) /\ endless toy r.
Proof. exact (endless_exists toy (fl 100)). Qed.
(** as long as no macro is expanded, the number of steps is bounded *)
Theorem C105_bound : forall (N : Num) (K : host N) f h s text tr u, machine_new K f h = Ok s ->
  run K (start s text) tr u -> steady_text K (start s text) tr ->
  45 * List.length text * List.length text + 1 <= List.length tr -> ms_state u = Idle.
Proof. intros N K. exact (new_ends K). Qed.
(** a definition, not used, and a branch *)
Definition outcome_steady (n : nat) (text : string) : bool :=
  match machine_new toy 0 (fl 100) with Ok s => steady_for toy n (start s (txt text)) | _ => false end.
Example bound_ex : outcome_steady 200 "\def\a{b}\ifbr c\else d\fi\expandafter\relax\par" = true /\
  outcome_steady 200 "\def\a{b}c\a\par" = false.
Proof. split; vm_compute; reflexivity. Qed.

(** * Texts with neither the commands of the format nor those that make new ones *)
Theorem C105_plain : forall (N : Num) (K : host N) f h s text tr u, machine_new K f h = Ok s -> plain_text text ->
  run K (start s text) tr u -> 45 * List.length text * List.length text + 1 <= List.length tr -> ms_state u = Idle.
Proof. intros N K. exact (plain_ends K). Qed.
(** enough steps, unless it is a formula that asks for more *)
Theorem C105_settled : forall (N : Num) (K : host N) f h s text m, machine_new K f h = Ok s -> plain_text text ->
  45 * List.length text * List.length text + 1 <= m ->
  typeset K m s text = typeset K (45 * List.length text * List.length text + 1) s text.
Proof. intros N K. exact (plain_settled K). Qed.
Theorem C105_window : forall (N : Num) (K : host N) n h w text, plain_text text ->
  45 * List.length text * List.length text + 1 <= n -> text_changed K n h w text = Fuel ->
  exists s tr u, machine_new K 0 h = Ok s /\ run K (start s text) tr u /\ m_advance K u = Fuel.
Proof. intros N K. exact (plain_window K). Qed.
Lemma plain_by text : forallb (fun t => match t with
    | TCs n => negb (existsb (name_eqb n) [str "begin"; str "end"; str "csname"; str "def"]) | _ => true end)
  (l_out (fst (feed DefaultCatCodes lexer_init text))) = true -> plain_text text.
Proof.
  intros H. apply Forall_forall. intros t T n -> I. rewrite forallb_forall in H. specialize (H _ T). cbv beta iota in H.
  apply Bool.negb_true_iff in H. assert (X : existsb (name_eqb n) [str "begin"; str "end"; str "csname"; str "def"] = true).
  { apply existsb_exists. exists n. split; [exact I|]. now destruct (LexerProofs.name_eqb_spec n n). }
  congruence.
Qed.
Example plain_ex : plain_text (txt "A $x^2$ \hbox{\kern 2pt\ifbr\a\else\b\fi} \expandafter\c\d\par e") /\
  ~ plain_text (txt "\end\endcsname ") /\ ~ plain_text (txt "\def\a{\a}\a ").
Proof.
  split; [apply plain_by; vm_compute; reflexivity|]. unfold plain_text. split; intros H; vm_compute in H; inversion H as [|? ? P _]; subst.
  - apply (P _ eq_refl). cbv. tauto.
  - apply (P _ eq_refl). cbv. tauto.
Qed.
Example settled_ex : outcome (text_changed toy 1000 (fl 100) window_new (txt "A $x^2$ b\par e")) = 0 /\
  outcome (text_changed toy 5 (fl 100) window_new (txt "A $x^2$ b\par e")) <> 0.
Proof. split; vm_compute; [reflexivity|discriminate]. Qed.

Print Assumptions C105_hangs_refuted.
Print Assumptions C105_recursion_refuted.
Print Assumptions C105_endless.
Print Assumptions C105_bound.
Print Assumptions C105_plain.
Print Assumptions C105_settled.
Print Assumptions C105_window.
