(** C103: texts of the page editor with macros. *)
From Coq Require Import List Ascii String ZArith QArith Qcanon Bool Arith Lia.
From Verif.Base Require Import Result Num.
From Verif.Model Require Import Token Lexer Macro Dimen DimenParser Glue Box ListBuilders LineBreaks MathList MathParser
  MathTypeset PageEditor Preprocessor.
From Verif.Spec Require Import LexerSpec UnicodeSpec DimenSpec MathSpec EquationSpec PageTextSpec RichTextSpec
  MacroSpec PageEditorSpec PageMacroSpec.
From Verif.Proofs Require Import LexerProofs PageRich PageMacroDoc PageMacroAny.
From Verif.Properties Require Import PageEditorProps PageTextProps RichTextProps.
Import ListNotations.
Local Open Scope nat_scope.

(** * One token after the other *)
(** Definitions anywhere, calls replaced by what they stand for when they come:
    the page is that of the tokens digested. *)
Theorem C103_calls : forall (N : Num) (K : host N) f h s text ts u,
  machine_new K f h = Ok s -> settled_text DefaultCatCodes text ts -> digests K s ts u ->
  exists k, forall n, k <= n -> typeset K n s text = page_of_tokens K [] u.
Proof. exact @typeset_settled. Qed.

(** * Documents *)
(** Definitions, then a text: it has the page of the tokens it stands for, if
    they are digested and leave a group open. *)
Theorem C103_document : forall (N : Num) (K : host N) f h s ms p ts us u text,
  machine_new K f h = Ok s ->
  Forall well_formed ms -> foldM define ms (ms_pre s) = Ok p -> stands_for p ts us ->
  settled_text DefaultCatCodes text (flat_map def_text ms ++ ts) ->
  foldM (tok_step K) us s = Ok u -> ms_mem u <> [] ->
  exists k, forall n, k <= n -> typeset K n s text = page_of_tokens K us s.
Proof. exact @typeset_document. Qed.
(** the texts of C91 *)
Theorem C103_rich : forall (N : Num) (K : host N) f h s ms p ts us b text,
  nonzero (n0 : N) = false -> machine_new K f h = Ok s ->
  Forall well_formed ms -> foldM define ms (ms_pre s) = Ok p -> stands_for p ts us ->
  settled_text DefaultCatCodes text (flat_map def_text ms ++ ts) ->
  rich K (new_env K f h) us (new_page K) b -> (Z.of_nat (List.length us) < 2 ^ 64)%Z ->
  exists k, forall n, k <= n -> typeset K n s text = Ok (vbox (vb_result b)).
Proof. exact @typeset_document_rich. Qed.
(** Two documents that stand for the same tokens, each with macros of its own,
    have the same page. *)
Theorem C103_same : forall (N : Num) (K : host N) f h s ms p ts text ms' p' ts' text' us u,
  machine_new K f h = Ok s -> foldM (tok_step K) us s = Ok u -> ms_mem u <> [] ->
  Forall well_formed ms -> foldM define ms (ms_pre s) = Ok p -> stands_for p ts us ->
  settled_text DefaultCatCodes text (flat_map def_text ms ++ ts) ->
  Forall well_formed ms' -> foldM define ms' (ms_pre s) = Ok p' -> stands_for p' ts' us ->
  settled_text DefaultCatCodes text' (flat_map def_text ms' ++ ts') ->
  exists k, forall n, k <= n -> typeset K n s text = typeset K n s text'.
Proof.
  intros N K f h s ms p ts text ms' p' ts' text' us u NW FO NE W D SF SE W' D' SF' SE'.
  destruct (C103_document N K f h s ms p ts us u text NW W D SF SE FO NE) as (k & H).
  destruct (C103_document N K f h s ms' p' ts' us u text' NW W' D' SF' SE' FO NE) as (k' & H').
  exists (k + k'). intros n L. rewrite H, H' by lia. reflexivity.
Qed.

(** * Definitions anywhere *)
(** A text that is digested leaves some tokens. *)
Theorem C103_left : forall (N : Num) (K : host N) s ts u,
  digests K s ts u <-> exists us, reads K s ts us u.
Proof. intros N K s ts u. split; [apply digests_reads|intros (us & R); now apply reads_digests in R]. Qed.
(** It has the page of these tokens, whatever it defines, before, between or
    inside groups, if none of them is a macro of the page editor itself. *)
Theorem C103_anywhere : forall (N : Num) (K : host N) f h s text ts us u,
  machine_new K f h = Ok s -> settled_text DefaultCatCodes text ts -> reads K s ts us u ->
  Forall (unexpandable (ms_pre s)) us ->
  exists k, forall n, k <= n -> typeset K n s text = page_of_tokens K us s.
Proof. exact @typeset_reads. Qed.
(** the texts of C91 *)
Theorem C103_anywhere_rich : forall (N : Num) (K : host N) f h s text ts us u b,
  nonzero (n0 : N) = false -> machine_new K f h = Ok s ->
  settled_text DefaultCatCodes text ts -> reads K s ts us u -> Forall (unexpandable (ms_pre s)) us ->
  rich K (new_env K f h) us (new_page K) b -> (Z.of_nat (List.length us) < 2 ^ 64)%Z ->
  exists k, forall n, k <= n -> typeset K n s text = Ok (vbox (vb_result b)).
Proof. exact @typeset_reads_rich. Qed.
(** Two texts that leave the same tokens have the same page. *)
Theorem C103_anywhere_same : forall (N : Num) (K : host N) f h s text ts u text' ts' u' us,
  machine_new K f h = Ok s -> Forall (unexpandable (ms_pre s)) us ->
  settled_text DefaultCatCodes text ts -> reads K s ts us u ->
  settled_text DefaultCatCodes text' ts' -> reads K s ts' us u' ->
  exists k, forall n, k <= n -> typeset K n s text = typeset K n s text'.
Proof.
  intros N K f h s text ts u text' ts' u' us NW F SE R SE' R'.
  destruct (C103_anywhere N K f h s text ts us u NW SE R F) as (k & H).
  destruct (C103_anywhere N K f h s text' ts' us u' NW SE' R' F) as (k' & H').
  exists (k + k'). intros n L. rewrite H, H' by lia. reflexivity.
Qed.

(** * An example *)
(** a macro that makes a formula of its argument; the text ends with a comment *)
Definition doc_text : string := "\def\sq#1{$#1^2$}a\sq x%.".
Definition sq : macro :=
  mkMacro (str "sq") [TParam 1] [TChar "$" MathShift; TParam 1; TChar "^" Superscript; TChar "2" Other; TChar "$" MathShift]%char.
Definition doc_tokens : list token := [TChar "a" Letter; TCs (str "sq"); TChar "x" Letter]%char.
Definition doc_list : list (node F32) :=
  [NChar 97 (hm_char (the_font toy rich_env) 97)] ++ set_x2 ++ [].
Definition doc_lines : result (list (node F32)) :=
  let P := page_para (e_mem rich_env) (vb_prevdepth (new_page toy)) in LineBreaks.create (k_pows toy) P (prepare P doc_list).
Definition doc_page : vbuilder F32 := put (new_page toy) (got [] doc_lines).
Lemma doc_settled : settled_text DefaultCatCodes (txt doc_text) (flat_map def_text [sq] ++ doc_tokens).
Proof.
  destruct (feed DefaultCatCodes lexer_init (txt doc_text)) as [l o] eqn:F.
  destruct (feed DefaultCatCodes lexer_init (txt "\def\sq#1{$#1^2$}a\sq x%")) as [l' o'] eqn:F'.
  assert (X : l_out l = flat_map def_text [sq] ++ doc_tokens /\ o = None /\ lexer_ending l None <> BadCharacter /\ lexer_ending l None <> BadParam).
  { replace l with (fst (feed DefaultCatCodes lexer_init (txt doc_text))) by now rewrite F.
    replace o with (snd (feed DefaultCatCodes lexer_init (txt doc_text))) by now rewrite F.
    split; [vm_compute; reflexivity|]. split; [vm_compute; reflexivity|]. split; vm_compute; discriminate. }
  assert (X' : l_out l' = flat_map def_text [sq] ++ doc_tokens /\ o' = None).
  { replace l' with (fst (feed DefaultCatCodes lexer_init (txt "\def\sq#1{$#1^2$}a\sq x%"))) by now rewrite F'.
    replace o' with (snd (feed DefaultCatCodes lexer_init (txt "\def\sq#1{$#1^2$}a\sq x%"))) by now rewrite F'.
    split; vm_compute; reflexivity. }
  destruct X as (<- & -> & E1 & E2), X' as (E' & ->).
  exists (txt "\def\sq#1{$#1^2$}a\sq x%"), "."%char, (lexer_ending l None), (lexer_ending l' None).
  split; [reflexivity|]. split; [|split; [now apply text_lexes|now split]].
  replace (l_out l) with (l_out l'); [now apply text_lexes|]. rewrite E'. symmetry.
  replace l with (fst (feed DefaultCatCodes lexer_init (txt doc_text))) by now rewrite F. vm_compute. reflexivity.
Qed.
Ltac not_param := intros (n & X); discriminate X.
Example doc_case : exists k, forall n, k <= n -> forall s, machine_new toy 0 (fl 100) = Ok s ->
  typeset toy n s (txt doc_text) = Ok (vbox (vb_result doc_page)).
Proof.
  destruct (C84_machine F32 toy 0 (fl 100)) as [s E].
  pose proof (new_pre toy 0 (fl 100) s E) as PR. unfold PageText.Kdefs in PR. injection PR as PR.
  destruct (foldM define [sq] (ms_pre s)) as [p| | | |] eqn:DF; try (rewrite <- PR in DF; vm_compute in DF; discriminate DF).
  assert (F1 : find p (str "sq") = Some sq).
  { rewrite <- PR in DF. vm_compute in DF. injection DF as <-. vm_compute. reflexivity. }
  destruct (C103_rich F32 toy 0 (fl 100) s [sq] p doc_tokens
    ([TChar "a" Letter] ++ (TChar "$" MathShift :: [TChar "x" Letter; TChar "^" Superscript; TChar "2" Other] ++ [TChar "$" MathShift]) ++ [])%char
    doc_page (txt doc_text) ltac:(vm_compute; reflexivity) E) as [k H].
  - constructor; [|constructor]. split.
    + now split.
    + cbn [m_repl sq]. repeat (apply bal_tok; [intros (k & X); discriminate X|intros (k & X); discriminate X|]). constructor.
  - exact DF.
  - apply sf_token; [exact Logic.I|].
    apply (sf_call p [TCs (str "sq"); TChar "x" Letter]%char [TChar "$" MathShift; TChar "x" Letter; TChar "^" Superscript; TChar "2" Other; TChar "$" MathShift]%char []).
    + apply (exp_macro p (str "sq") sq [TChar "x" Letter]%char [[TChar "x" Letter]]%char).
      * outside.
      * exact F1.
      * apply (call_undelimited 1 [] [TChar "x" Letter]%char [TChar "x" Letter]%char [] []); [exact Logic.I| |constructor].
        apply ud_token; intros (c & X); discriminate X.
      * cbn. lia.
      * cbn [m_repl sq]. apply in_tok; [not_param|]. apply (in_param [[TChar "x"%char Letter]] 0); [lia|].
        repeat (apply in_tok; [not_param|]). constructor.
    + cbn [app]. repeat (apply sf_token; [exact Logic.I|]). constructor.
  - exact doc_settled.
  - unfold doc_page. apply (d_last toy (new_env toy 0 (fl 100)) _ doc_list rich_env).
    + discriminate.
    + unfold doc_list.
      apply (s_cons toy rich_env _ _ rich_env); [apply (one_glyph toy rich_env "a"%char); [reflexivity|now left]|].
      apply (s_cons toy rich_env _ _ rich_env); [|apply s_nil].
      apply s_formula; [discriminate|].
      apply math_formula with (es := [[CSym (mkSym 120 0 1)]; [CSup]; [CSym (mkSym 50 0 0)]]).
      * constructor; [apply (ask_letter rich_env "x"%char); cbn; lia|].
        constructor; [apply ask_means; [split; discriminate|constructor]|].
        constructor; [apply ask_means; [split; discriminate|apply t_other, (cm_digit "2"%char); vm_compute; split; discriminate]|constructor].
      * cbn [List.concat app]. apply group_body, body_items.
        apply (items_cons false [CSym (mkSym 120 0 1); CSup; CSym (mkSym 50 0 0)] _ [] []); [|constructor].
        apply (item_sym false (mkSym 120 0 1)); [discriminate|]. apply scripts_sup, script_sym.
      * cbn. lia.
      * vm_compute. reflexivity.
    + apply (got_fine (A := list (node F32)) [] doc_lines). vm_compute. reflexivity.
  - reflexivity.
  - exists k. intros n L s' E'. rewrite E in E'. injection E' as <-. now apply H.
Qed.
Example doc_length : List.length (vb_result doc_page) = 1 /\ List.length doc_list = 2.
Proof. vm_compute. split; reflexivity. Qed.

(** a macro of a group, and another one of the same name after it *)
Definition any_text : string := "a{\def\b{x}\b}\def\b{y}\b%.".
Definition same_text : string := "a{x}y%.".
Definition in_group : macro := mkMacro (str "b") [] [TChar "x" Letter]%char.
Definition after_group : macro := mkMacro (str "b") [] [TChar "y" Letter]%char.
Definition any_before : list token := [TChar "a" Letter; TChar "{" GroupBegin]%char.
Definition any_between : list token := [TChar "x" Letter; TChar "}" GroupEnd]%char.
Definition any_last : list token := [TChar "y" Letter]%char.
Definition any_tokens : list token :=
  any_before ++ def_text in_group ++ [TCs (str "b")] ++ [TChar "}" GroupEnd]%char ++ def_text after_group ++ [TCs (str "b")] ++ [].
Definition any_left : list token := any_before ++ any_between ++ any_last.
Lemma settled_by a c ts :
  l_out (fst (feed DefaultCatCodes lexer_init a)) = ts /\ snd (feed DefaultCatCodes lexer_init a) = None ->
  l_out (fst (feed DefaultCatCodes lexer_init (a ++ [c]))) = ts /\ snd (feed DefaultCatCodes lexer_init (a ++ [c])) = None ->
  lexer_ending (fst (feed DefaultCatCodes lexer_init (a ++ [c]))) None <> BadCharacter /\
  lexer_ending (fst (feed DefaultCatCodes lexer_init (a ++ [c]))) None <> BadParam ->
  settled_text DefaultCatCodes (a ++ [c]) ts.
Proof.
  destruct (feed DefaultCatCodes lexer_init a) as [l' o'] eqn:F'.
  destruct (feed DefaultCatCodes lexer_init (a ++ [c])) as [l o] eqn:F. cbn [fst snd].
  intros (E' & ->) (E & ->) X. exists a, c, (lexer_ending l None), (lexer_ending l' None).
  split; [reflexivity|]. split; [rewrite <- E'; now apply text_lexes|]. split; [rewrite <- E; now apply text_lexes|exact X].
Qed.
Lemma any_settled : settled_text DefaultCatCodes (txt any_text) any_tokens.
Proof.
  apply (settled_by (txt "a{\def\b{x}\b}\def\b{y}\b%") "."%char); vm_compute; split; try reflexivity; discriminate.
Qed.
Lemma same_settled : settled_text DefaultCatCodes (txt same_text) any_left.
Proof. apply (settled_by (txt "a{x}y%") "."%char); vm_compute; split; try reflexivity; discriminate. Qed.
(** the first definition is gone after its group *)
Lemma any_run :
  (do s <- machine_new toy 0 (fl 100); do s1 <- foldM (tok_step toy) any_before s;
   do p1 <- define (ms_pre s1) in_group; do s2 <- foldM (tok_step toy) any_between (set_pre s1 p1);
   do p2 <- define (ms_pre s2) after_group; do s3 <- foldM (tok_step toy) any_last (set_pre s2 p2);
   Ok (find p1 (str "b"), find (ms_pre s2) (str "b"), find p2 (str "b"))) = Ok (Some in_group, None, Some after_group).
Proof. vm_compute. reflexivity. Qed.
Lemma plain_run : outcome (do s <- machine_new toy 0 (fl 100); foldM (tok_step toy) any_left s) = 0.
Proof. vm_compute. reflexivity. Qed.
Lemma call_b p m t : find p (str "b") = Some m -> m = mkMacro (str "b") [] [t] -> ~ (exists n, t = TParam n) ->
  expands p [TCs (str "b")] [t].
Proof.
  intros F -> NP. apply (exp_macro p (str "b") _ [] [] _ ltac:(outside) F).
  - constructor.
  - cbn. lia.
  - cbn [m_repl]. apply in_tok; [exact NP|constructor].
Qed.
Lemma wf_b t : ~ open_ch t -> ~ close_ch t -> well_formed (mkMacro (str "b") [] [t]).
Proof. intros A B. split; [now split|]. cbn [m_repl]. apply bal_tok; [exact A|exact B|constructor]. Qed.
Lemma any_reads s s1 p1 s2 p2 s3 : foldM (tok_step toy) any_before s = Ok s1 -> define (ms_pre s1) in_group = Ok p1 ->
  foldM (tok_step toy) any_between (set_pre s1 p1) = Ok s2 -> define (ms_pre s2) after_group = Ok p2 ->
  foldM (tok_step toy) any_last (set_pre s2 p2) = Ok s3 -> find p1 (str "b") = Some in_group -> find p2 (str "b") = Some after_group ->
  reads toy s any_tokens any_left s3.
Proof.
  intros E1 D1 E2 D2 E3 F1 F2.
  unfold any_tokens, any_left. apply (reads_chars toy any_before _ _ s3 ltac:(repeat constructor; eauto) s s1 E1).
  eapply rd_def; [apply wf_b; intros (c & X); discriminate X|exact D1|].
  eapply rd_call; [apply (call_b _ in_group (TChar "x"%char Letter) F1); [reflexivity|not_param]|].
  apply (reads_chars toy any_between _ _ s3 ltac:(repeat constructor; eauto) (set_pre s1 p1) s2 E2).
  eapply rd_def; [apply wf_b; intros (c & X); discriminate X|exact D2|].
  eapply rd_call; [apply (call_b _ after_group (TChar "y"%char Letter) F2); [reflexivity|not_param]|].
  apply (reads_chars toy any_last [] [] s3 ltac:(repeat constructor; eauto) (set_pre s2 p2) s3 E3). constructor.
Qed.
Lemma any_plain s v : foldM (tok_step toy) any_left s = Ok v -> reads toy s any_left any_left v.
Proof.
  intros EP. rewrite <- (app_nil_r any_left) at 1 2. apply (reads_chars toy any_left [] [] v ltac:(repeat constructor; eauto) s v EP). constructor.
Qed.
Example any_case : exists k, forall n, k <= n -> forall s, machine_new toy 0 (fl 100) = Ok s ->
  typeset toy n s (txt any_text) = typeset toy n s (txt same_text).
Proof.
  pose proof any_run as R.
  apply bind_Ok in R as (s & E & R). apply bind_Ok in R as (s1 & E1 & R). apply bind_Ok in R as (p1 & D1 & R).
  apply bind_Ok in R as (s2 & E2 & R). apply bind_Ok in R as (p2 & D2 & R). apply bind_Ok in R as (s3 & E3 & R).
  assert (F1 : find p1 (str "b") = Some in_group) by congruence.
  assert (F2 : find p2 (str "b") = Some after_group) by congruence. clear R.
  pose proof plain_run as P. rewrite E in P. cbn [bind] in P.
  destruct (foldM (tok_step toy) any_left s) as [v| | | |] eqn:EP; try discriminate P. clear P.
  pose proof (any_reads s s1 p1 s2 p2 s3 E1 D1 E2 D2 E3 F1 F2) as RD. pose proof (any_plain s v EP) as RP.
  destruct (C103_anywhere_same F32 toy 0 (fl 100) s (txt any_text) any_tokens s3 (txt same_text) any_left v any_left E
    ltac:(repeat constructor) any_settled RD same_settled RP) as (k & H).
  exists k. intros n L s' E'. rewrite E in E'. injection E' as <-. now apply H.
Qed.

Print Assumptions C103_calls.
Print Assumptions C103_document.
Print Assumptions C103_rich.
Print Assumptions C103_same.
Print Assumptions C103_left.
Print Assumptions C103_anywhere.
Print Assumptions C103_anywhere_rich.
Print Assumptions C103_anywhere_same.
