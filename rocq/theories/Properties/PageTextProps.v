(** C83, C84: from the text to the page. *)
From Coq Require Import List Ascii String ZArith QArith Bool Arith.
From Verif.Base Require Import Result Num.
From Verif.Model Require Import Token Lexer Macro Glue Box ListBuilders LineBreaks MathList MathTypeset PageEditor
  Preprocessor.
From Verif.Spec Require Import LexerSpec UnicodeSpec PageEditorSpec PageTextSpec.
From Verif.Proofs Require Import LexerProofs PageFindings PageRun PageDeliver PageQuiet PageText.
From Verif.Properties Require Import PageEditorProps.
Import ListNotations.
Local Open Scope nat_scope.

(** * C83: every token of the text is digested, in order *)
(** At most the last token is left out; it stays in the lexer. *)
Theorem C83_delivered_partial : forall (N : Num) (K : host N) s text n s', reached K s -> ms_state s = Idle ->
  resume K n (start s text) = Ok s' ->
  exists ts l u, feed DefaultCatCodes (ms_lex s) text = (l, None) /\ l_out l = ts ++ l_out (ms_lex s') /\
    List.length (l_out (ms_lex s')) <= 1 /\ processed K (bare s) ts u /\
    finish_modes K (List.length (ms_modes u) - 1) u = Ok (bare s').
Proof. exact @delivered. Qed.
(** None is left out when no macro is being expanded between two tokens; also
    when there is an exception or undefined behaviour. *)
Theorem C83_quiet_partial : forall (N : Num) (K : host N) s text l ts,
  l_out (ms_lex s) = [] -> feed DefaultCatCodes (ms_lex s) text = (l, None) -> l_out l = ts ->
  (forall a b u, ts = a ++ b -> foldM (tok_step K) a s = Ok u -> p_input (ms_pre u) = []) ->
  exists k, forall n, k <= n -> typeset K n s text = page_of_tokens K ts s.
Proof. exact @typeset_tokens. Qed.
(** In general one may be left out: for every host, the [!] of this text. *)
Theorem C83_refuted : forall (N : Num) (K : host N) f h s, machine_new K f h = Ok s ->
  exists n s', resume K n (start s (txt "\def\a{\def\b{x}}\a!")) = Ok s' /\ ms_state s' = Idle /\
    l_out (ms_lex s') = [TChar "!"%char Other] /\ ms_modes s' = ms_modes s.
Proof. exact @left_behind. Qed.
(** how many nodes are on the page of the second text *)
Definition page_length (first second : string) : nat :=
  match (do s <- machine_new toy 0 (fl 100); do s <- resume toy 1000 (start s (txt first)); 
         do s <- resume toy 1000 (start s (txt second)); Ok s) with
  | Ok s => match ms_modes s with MV _ b :: _ => List.length (vb_result b) | _ => 1000 end
  | _ => 1001
  end.
Example delivered_ex :
  page_length "\def\a{\def\b{x}}\a!" "" = 0 /\ page_length "\def\a{\def\b{x}}!" "" = 1 /\
  page_length "\def\a{\def\b{x}}\a!" " " = 1 /\ page_length "a" "b" = 3.
Proof. vm_compute. repeat split. Qed.

(** * C84: the page of a text without macros and formulas *)
Theorem C84_document : forall (N : Num) (K : host N) f h s text ts e ps,
  nonzero (n0 : N) = false -> machine_new K f h = Ok s ->
  lexes DefaultCatCodes true NewLine text ts e -> e <> BadCharacter -> e <> BadParam ->
  document ps ts ->
  Forall (glyphs_all (fun c => k_debug K = false \/ k_signed K = false \/ (c < 65536)%Z)) ps ->
  Forall (fun l => (nesting_all l < 2 ^ 64)%Z) ps ->
  exists k, forall n, k <= n ->
    typeset K n s text = do b <- page K (new_memory K f h) ps (new_page K); Ok (vbox (vb_result b)).
Proof. exact @typeset_document. Qed.
Theorem C84_lines : forall (N : Num) (K : host N) m ps b b', page K m ps b = Ok b' ->
  exists lines, vb_result b' = vb_result b ++ List.concat lines /\
    Forall2 (fun l ls => exists d, LineBreaks.create (k_pows K) (paragraph m d)
                                     (prepare (paragraph m d) (nodes_all (k_font K (me_font m)) l)) = Ok ls) ps lines.
Proof. exact @page_lines. Qed.
(** there is always a new machine *)
Theorem C84_machine : forall (N : Num) (K : host N) f h, exists s, machine_new K f h = Ok s.
Proof. exact @new_exists. Qed.

(** two paragraphs, with a two-byte character, braces and a box *)
Definition doc_text : list ascii :=
  txt "A" ++ [ascii_of_nat 195; ascii_of_nat 169] ++ txt " {b\hbox{c {d}}}\par e".
Definition doc_pars : list (list hitem) :=
  [[Glyph 65; Glyph 233; Blank; Braces [Glyph 98; Boxed [Glyph 99; Blank; Braces [Glyph 100]]]]; [Glyph 101]]%Z.
Definition doc_tokens : list token := l_out (fst (feed DefaultCatCodes lexer_init doc_text)).
Example doc_lexes : lexes DefaultCatCodes true NewLine doc_text doc_tokens (EndText MidLine).
Proof.
  destruct (feed DefaultCatCodes lexer_init doc_text) as [l e] eqn:F.
  destruct (lexer_tokenizes_lemma DefaultCatCodes NewLine doc_text lexer_init l e eq_refl F) as (ts & O & H).
  apply H. unfold doc_tokens. rewrite F. cbn [fst]. rewrite O. split; [reflexivity|].
  vm_compute in F. injection F as <- <-. reflexivity.
Qed.
Lemma one_byte c k : (Z.of_N (N_of_ascii c) < 128)%Z -> k = Letter \/ k = Other ->
  spells (Glyph (Z.of_N (N_of_ascii c))) [TChar c k].
Proof.
  intros H KK. apply (sp_glyph _ [Z.of_N (N_of_ascii c)]); [constructor; split; [apply N2Z.is_nonneg|exact H]|].
  constructor; [exists c, k; auto|constructor].
Qed.
Example doc_document : document doc_pars doc_tokens.
Proof.
  change doc_tokens with
    (([TChar "A" Letter] ++ [TChar (ascii_of_nat 195) Other; TChar (ascii_of_nat 169) Other] ++ [TChar " " Space] ++
      (TChar "{" GroupBegin :: ([TChar "b" Letter] ++
         (TCs (txt "hbox") :: TChar "{" GroupBegin :: ([TChar "c" Letter] ++ [TChar " " Space] ++
            (TChar "{" GroupBegin :: ([TChar "d" Letter] ++ []) ++ [TChar "}" GroupEnd]) ++ []) ++ [TChar "}" GroupEnd])
         ++ []) ++ [TChar "}" GroupEnd]) ++ []) ++ par :: ([TChar "e" Letter] ++ []))%char.
  apply doc_cons; [|apply doc_last]; (split; [|exact I]);
  repeat first [apply sa_cons | apply sa_nil | apply sp_blank | apply sp_braces | apply sp_boxed
               | apply (one_byte "A"%char) | apply (one_byte "b"%char) | apply (one_byte "c"%char)
               | apply (one_byte "d"%char) | apply (one_byte "e"%char) | reflexivity | (left; reflexivity)].
  apply (sp_glyph _ [195; 169]%Z); [apply (utf8_2 3 41); split; discriminate || reflexivity|].
  repeat constructor; eexists _, Other; auto.
Qed.
Example doc_page : exists k, forall n, k <= n -> forall s, machine_new toy 0 (fl 100) = Ok s ->
  typeset toy n s doc_text = do b <- page toy (new_memory toy 0 (fl 100)) doc_pars (new_page toy); Ok (vbox (vb_result b)).
Proof.
  destruct (C84_machine F32 toy 0 (fl 100)) as [s E].
  destruct (C84_document F32 toy 0 (fl 100) s doc_text doc_tokens (EndText MidLine) doc_pars) as [k H].
  - vm_compute. reflexivity.
  - exact E.
  - exact doc_lexes.
  - discriminate.
  - discriminate.
  - exact doc_document.
  - unfold doc_pars. repeat (constructor; [cbn; repeat split; now left|]). constructor.
  - unfold doc_pars. repeat (constructor; [reflexivity|]). constructor.
  - exists k. intros n L s' E'. rewrite E in E'. injection E' as <-. now apply H.
Qed.
Example doc_length :
  match page toy (new_memory toy 0 (fl 100)) doc_pars (new_page toy) with
  | Ok b => List.length (vb_result b) | _ => 0 end = 3.
Proof. vm_compute. reflexivity. Qed.

Print Assumptions C83_delivered_partial.
Print Assumptions C83_quiet_partial.
Print Assumptions C83_refuted.
Print Assumptions C84_document.
Print Assumptions C84_lines.
Print Assumptions C84_machine.
