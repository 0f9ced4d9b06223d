(** Formats as texts: the lexing rules of formats, then their definitions. *)
From Coq Require Import List Ascii String ZArith Bool Arith Lia Sorted.
From Verif.Base Require Import Result.
From Verif.Model Require Import Token Lexer Macro Preprocessor.
From Verif.Spec Require Import MacroSpec LexerSpec FormatSpec.
From Verif.Proofs Require Import MacroMore LexerProofs.
Import ListNotations.

Lemma lexes_ext ct ct' q st s ts e : (forall c, ct c = ct' c) -> lexes ct q st s ts e -> lexes ct' q st s ts e.
Proof.
  intros X H. assert (L : forall w, Forall (fun a => ct a = Letter) w -> Forall (fun a => ct' a = Letter) w).
  { intros w F. eapply Forall_impl; [|exact F]. intros a Ha. rewrite <- X. exact Ha. }
  assert (L' : forall w, Forall (fun a => ct a <> EndOfLine) w -> Forall (fun a => ct' a <> EndOfLine) w).
  { intros w F. eapply Forall_impl; [|exact F]. intros a Ha. rewrite <- X. exact Ha. }
  induction H; try solve [econstructor; rewrite <- ?X; eauto].
  rewrite X. econstructor; rewrite <- ?X; eauto.
Qed.

Lemma format_cat_eq c : format_cat c = format_catcodes c.
Proof.
  unfold format_cat, format_catcodes. destruct (Ascii.eqb_spec c "@"%char) as [->|N]; [reflexivity|].
  destruct (ascii_dec c "@"%char); congruence.
Qed.

Lemma format_text src items e :
  lexes format_cat true NewLine src (flat_map fmt_tokens items) e -> e <> BadCharacter -> e <> BadParam ->
  Forall fmt_ok items ->
  exists ms, format_parse src = Ok ms /\
    (forall m, In m ms <-> last_def items m) /\ StronglySorted name_lt (map m_cs ms).
Proof.
  intros H N1 N2 F. apply (lexes_ext _ _ _ _ _ _ _ format_cat_eq) in H.
  destruct (feed format_catcodes lexer_init src) as [l x] eqn:E.
  destruct (lexer_tokenizes_lemma format_catcodes NewLine src lexer_init l x eq_refl E) as (ts & O & U).
  apply U in H. destruct H as [<- ->]. destruct x as [[]|]; cbn in N1, N2; try congruence.
  eapply format_lemma; eauto.
Qed.

Lemma format_bad src ts e :
  lexes format_cat true NewLine src ts e -> e = BadCharacter \/ e = BadParam -> format_parse src = Throw.
Proof.
  intros H N. apply (lexes_ext _ _ _ _ _ _ _ format_cat_eq) in H.
  destruct (feed format_catcodes lexer_init src) as [l x] eqn:E.
  destruct (lexer_tokenizes_lemma format_catcodes NewLine src lexer_init l x eq_refl E) as (ts' & O & U).
  apply U in H. destruct H as [<- ->]. unfold format_parse. rewrite E.
  destruct x; [reflexivity|]. cbn in N. destruct (l_state l), N; discriminate.
Qed.
