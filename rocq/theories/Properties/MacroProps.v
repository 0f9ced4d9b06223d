(** The macro processor: C15 - C23, C61, C62. *)
From Coq Require Import List Ascii String ZArith Bool Arith Lia Sorted.
From Verif.Base Require Import Result.
From Verif.Model Require Import Token Lexer Macro Preprocessor.
From Verif.Spec Require Import MacroSpec LexerSpec FormatSpec.
From Verif.Proofs Require Import MacroProofs MacroExpand MacroMore MacroSafe MatchProofs MacroOnly FormatProofs.
Import ListNotations.

(** [effect s ts s'] covers both ways tokens arrive: written one by one, or
    read from the front of the input. *)

(** Short forms for the examples *)
Definition ch (c : ascii) : token := TChar c Letter.
Definition word (s : string) : list token := map ch (str s).
Definition mac (n : string) (p b : list token) : macro := mkMacro (str n) p b.
Definition braced (l : list token) : list token := lbrace :: l ++ [rbrace].
Definition space : token := TChar " " Space.
(* \def\pair#1,#2.{#2#1} and \def\q{ab} *)
Definition pair_m := mac "pair" [TParam 1; ch ","; TParam 2; ch "."] [TParam 2; ch "/"; TParam 1].
Definition two_m := mac "two" [TParam 1; TParam 2] [TParam 2; TParam 1; TParam 2].
Definition q_m := mac "q" [] (word "ab").
Definition s0 : pstate :=
  match apply_all [OpDefine pair_m; OpDefine two_m; OpDefine q_m] pinit with Ok s => s | _ => pinit end.
Lemma s0_reachable : reachable s0.
Proof. exists [OpDefine pair_m; OpDefine two_m; OpDefine q_m]. reflexivity. Qed.
Lemma s0_idle : idle s0.
Proof. exists []. reflexivity. Qed.

(** C15: characters pass through; only the output changes. *)
Theorem C15_characters :
  forall s l, idle s -> p_input s = [] ->
    Forall (fun t => isCharacterToken t = true) l ->
    effect s l (set_output s (p_output s ++ l)).
Proof. intros s l I E F. exact (quiet_effect _ _ _ (chars_quiet l s I E F)). Qed.

Example C15_case :
  effect s0 (word "hi" ++ [lbrace; space]) (set_output s0 (word "hi" ++ [lbrace; space])).
Proof. apply (C15_characters s0 (word "hi" ++ [lbrace; space]) s0_idle eq_refl). repeat constructor. Qed.

(** C16: a definition is recorded as written, nothing else changes. *)
Theorem C16_def :
  forall s m, idle s -> p_defs s <> [] -> well_formed m -> exists s',
    effect s (def_text m) s' /\ find s' (m_cs m) = Some m /\
    (forall n, n <> m_cs m -> find s' n = find s n) /\
    p_input s' = p_input s /\ p_output s' = p_output s /\ p_br s' = p_br s /\ p_frames s' = p_frames s.
Proof. exact def_lemma. Qed.

(** C16: parameters must be numbered in order. *)
Theorem C16_order :
  forall s c ps n rest,
    idle s -> p_input s = [] -> params_from 1 ps ->
    n <> (1 + Z.of_nat (List.length (filter isParameterToken ps)))%Z ->
    pwrites s (cs "def" :: TCs c :: ps ++ TParam n :: rest) = Throw.
Proof. exact def_order_lemma. Qed.

Example C16_case : well_formed (mac "a" [TParam 1; ch ","; TParam 2] (ch "x" :: braced [TParam 2; ch "y"])).
Proof.
  split.
  - cbn. repeat split. intros [k [=]].
  - apply bal_tok; [intros [k [=]]|intros [k [=]]|].
    change (braced [TParam 2; ch "y"]) with (lbrace :: [TParam 2; ch "y"] ++ rbrace :: []).
    apply bal_group; [exists GroupBegin; reflexivity|exists GroupEnd; reflexivity| |constructor].
    repeat (apply bal_tok; [intros [k [=]]|intros [k [=]]|]). constructor.
Qed.
Example C16_order_case : pwrites s0 [cs "def"; cs "a"; TParam 2; lbrace; rbrace] = Throw.
Proof. reflexivity. Qed.

(** C17: a stack of environments describes every history of groups and definitions. *)
Theorem C17_scopes :
  forall ops e r, scope_run ops = Some (e :: r) ->
    exists s, apply_all ops pinit = Ok s /\ forall n, find s n = e n.
Proof. exact scope_lemma. Qed.

(** C17: whatever is written or defined in a group, every meaning is back after it. *)
Theorem C17_restored :
  forall ops s s', grouped ops -> apply_all (OpBegin :: ops ++ [OpEnd]) s = Ok s' ->
    forall n, find s' n = find s n.
Proof.
  intros ops s s' G H n. unfold find. now rewrite (group_restores ops s s' G H).
Qed.

Example C17_case :
  exists e, scope_run [OpDefine q_m; OpBegin; OpDefine (mac "q" [] (word "c")); OpBegin; OpEnd; OpEnd] = Some [e]
    /\ e (str "q") = Some q_m.
Proof. eexists. split; reflexivity. Qed.
Example C17_inner :
  exists e r, scope_run [OpDefine q_m; OpBegin; OpDefine (mac "q" [] (word "c")); OpBegin] = Some (e :: r)
    /\ e (str "q") = Some (mac "q" [] (word "c")).
Proof. do 2 eexists. split; reflexivity. Qed.
(* the group ends while one of its macros waits for an argument *)
Theorem C17_dangling_refuted :
  exists ops, apply_all ops pinit = UB.
Proof.
  exists [OpBegin; OpDefine two_m; OpWrite (cs "two"); OpEnd; OpWrite (ch "x")]. reflexivity.
Qed.

(** C18: the selected branch, and nothing of the other one. *)
Theorem C18_if_else :
  forall s a b, reachable s -> idle s -> nested a -> nested b ->
    effect s (cs "ifbr" :: a ++ cs "else" :: b ++ [cs "fi"]) (set_input s (if p_br s then a else b)).
Proof. intros s a b R I A B. apply expands_effect; eauto using expands. Qed.
Theorem C18_if :
  forall s a, reachable s -> idle s -> nested a ->
    effect s (cs "ifbr" :: a ++ [cs "fi"]) (set_input s (if p_br s then a else [])).
Proof. intros s a R I A. apply expands_effect; eauto using expands. Qed.

Example C18_case : nested (ch "x" :: cs "ifbr" :: [ch "y"] ++ cs "else" :: [] ++ cs "fi" :: [ch "z"]).
Proof.
  assert (T : forall c, ~ opens_if (ch c) /\ ch c <> cs "else" /\ ch c <> cs "fi").
  { intros c. repeat split; [intros [n [=]]|discriminate|discriminate]. }
  apply ne_tok; try apply T. apply ne_else; [exists (str "br"); reflexivity| | |].
  - apply ne_tok; try apply T. constructor.
  - constructor.
  - apply ne_tok; try apply T. constructor.
Qed.
(* \iff opens a conditional: the \fi that follows closes it *)
Example C18_iff_opens :
  exists s, pwrites s0 (cs "ifbr" :: cs "iff" :: ch "x" :: [cs "fi"]) = Ok s /\ ~ idle s.
Proof. eexists. split; [reflexivity|]. intros [b [=]]. Qed.

(** C19: a call is replaced by its instance. *)
Theorem C19_call :
  forall s n m ts args r,
    reachable s -> idle s -> ~ primitive n -> find s n = Some m ->
    call (m_param m) ts args -> (List.length args <= 9)%nat -> instance args (m_repl m) r ->
    effect s (TCs n :: ts) (set_input s r).
Proof. intros s n m ts args r R I N F C L X. apply expands_effect; eauto using expands. Qed.

(** C19: only a text that matches the parameter text completes a call. *)
Theorem C19_only_calls :
  forall s n m ts s',
    reachable s -> idle s -> p_input s = [] -> ~ primitive n -> find s n = Some m ->
    (List.length (filter isParameterToken (m_param m)) <= 9)%nat ->
    pwrites s (TCs n :: ts) = Ok s' -> idle s' ->
    (forall p q s1, ts = p ++ q -> q <> [] -> pwrites s (TCs n :: p) = Ok s1 -> ~ idle s1) ->
    exists args r, call (m_param m) ts args /\ (List.length args <= 9)%nat /\
      instance args (m_repl m) r /\ s' = set_input s r.
Proof. exact only_lemma. Qed.

Example C19_case :
  call (m_param pair_m) (word "ab" ++ ch "," :: [lbrace; ch "."; rbrace] ++ [ch "."])
       [word "ab"; [lbrace; ch "."; rbrace]]
  /\ instance [word "ab"; [lbrace; ch "."; rbrace]] (m_repl pair_m)
       ([lbrace; ch "."; rbrace] ++ ch "/" :: word "ab" ++ []).
Proof.
  assert (P : forall c, ~ is_param (ch c)) by (intros c [n [=]]).
  split.
  - apply call_delimited; [apply P| |].
    + repeat (apply dl_tok; [discriminate|intros [k [=]]|intros [k [=]]|]). constructor.
    + apply (call_delimited 2 (ch ".") [] [lbrace; ch "."; rbrace] [] []); [apply P| |constructor].
      apply (dl_group _ lbrace rbrace [ch "."] []); [discriminate|exists GroupBegin; reflexivity|exists GroupEnd; reflexivity| |constructor].
      apply bal_tok; [intros [k [=]]|intros [k [=]]|constructor].
  - set (args := [word "ab"; [lbrace; ch "."; rbrace]]).
    exact (in_param args 1 _ _ ltac:(lia) (in_tok args _ _ _ (P "/"%char)
      (in_param args 0 _ _ ltac:(lia) (in_nil args)))).
Qed.
Example C19_undelimited_case :
  exists s, pwrites s0 (cs "two" :: space :: ch "x" :: braced (word "yz")) = Ok s
    /\ p_input s = word "yz" ++ [ch "x"] ++ word "yz".
Proof. eexists. split; reflexivity. Qed.
(* TeX would take "xa" as the argument of \def\a#1ab{} in \a xaab *)
Example C19_two_token_delimiter :
  pwrites s0 (def_text (mac "a" [TParam 1; ch "a"; ch "b"] []) ++ cs "a" :: word "xaab") = Throw.
Proof. reflexivity. Qed.

(** C20: what a complete match says. *)
Theorem C20_sound :
  forall m text sz args,
    macro_match m text = Ok (mkMR CompleteMatch sz args) ->
    exists b, m_call (m_param m) (firstn sz text) b /\ (sz <= List.length text)%nat /\
      List.length args = 9%nat /\ Forall (fun e => (1 <= fst e <= 9)%Z) b /\
      forall n, (1 <= n <= 9)%Z -> nth (Z.to_nat (n - 1)) args [] = recorded b n [].
Proof. exact match_sound_lemma. Qed.
Theorem C20_complete :
  forall m ts r b,
    m_call (m_param m) ts b -> Forall (fun e => (1 <= fst e <= 9)%Z) b ->
    exists args, macro_match m (ts ++ r) = Ok (mkMR CompleteMatch (List.length ts) args).
Proof. exact match_complete_lemma. Qed.
(** C20: more text changes a partial match only. *)
Theorem C20_more :
  forall m text ext,
    match macro_match m text with
    | Ok (mkMR PartialMatch sz a) => sz = List.length text
    | Ok r => macro_match m (text ++ ext) = Ok r
    | _ => True
    end.
Proof. exact match_more_lemma. Qed.

Example C20_case :
  macro_match two_m (space :: ch "x" :: braced (word "yz") ++ word "w")
  = Ok (mkMR CompleteMatch 6 [[ch "x"]; word "yz"; []; []; []; []; []; []; []]).
Proof. reflexivity. Qed.
Example C20_partial_case :
  exists a, macro_match two_m (ch "x" :: lbrace :: word "yz") = Ok (mkMR PartialMatch 4 a).
Proof. eexists. reflexivity. Qed.

(** C21: \csname c1...cn\endcsname stands for the control sequence. *)
Theorem C21_csname :
  forall s l, reachable s -> idle s ->
    effect s (cs "csname" :: map char_tok l ++ [cs "endcsname"]) (set_input s [TCs (map fst l)]).
Proof. intros s l R I. apply expands_effect; eauto using expands. Qed.

Example C21_case :
  exists s, pwrites s0 (cs "csname" :: word "q" ++ [cs "endcsname"]) = Ok s /\ p_input s = [cs "q"]
    /\ exists s', advance s = Ok s' /\ p_input s' = word "ab".
Proof. eexists. split; [reflexivity|]. split; [reflexivity|]. eexists. split; reflexivity. Qed.

(** C22: the tokens after \a are expanded once, then \a is in front; any
    number of \expandafter may be chained. *)
Theorem C22_expandafter :
  forall s a ts r, reachable s -> idle s -> expands s ts r ->
    effect s (cs "expandafter" :: TCs a :: ts) (set_input s (TCs a :: r)).
Proof. intros s a ts r R I E. apply expands_effect; eauto using expands. Qed.
(** C22, as stated: a macro without parameters. *)
Theorem C22_parameterless :
  forall s a n m, reachable s -> idle s -> ~ primitive n -> find s n = Some m ->
    m_param m = [] -> Forall (fun t => ~ is_param t) (m_repl m) ->
    effect s [cs "expandafter"; TCs a; TCs n] (set_input s (TCs a :: m_repl m)).
Proof.
  intros s a n m R I N F P B. apply C22_expandafter; auto.
  apply exp_macro with (m := m) (args := []); auto; [rewrite P; constructor|cbn; lia|].
  clear P F. induction B; constructor; auto.
Qed.

Example C22_case :
  exists s, pwrites s0 [cs "expandafter"; cs "z"; cs "q"] = Ok s /\ p_input s = cs "z" :: word "ab".
Proof. eexists. split; reflexivity. Qed.
Example C22_chain :
  expands s0 [cs "expandafter"; cs "y"; cs "expandafter"; cs "z"; cs "q"] (cs "y" :: cs "z" :: word "ab").
Proof.
  apply exp_after, exp_after. apply exp_macro with (m := q_m) (args := []); [|reflexivity|constructor|cbn; lia|].
  - unfold primitive; cbn. intuition discriminate.
  - repeat (apply in_tok; [intros [n [=]]|]). constructor.
Qed.
(* an undefined \m is delivered before \a *)
Theorem C22_undefined_refuted :
  exists s, pwrites s0 [cs "expandafter"; cs "a"; cs "m"] = Ok s
    /\ p_output s = [cs "m"] /\ p_input s = [cs "a"].
Proof. eexists. repeat split; reflexivity. Qed.

(** C23: definitions and characters: the last definition of each name, once,
    in the order of the names. *)
Theorem C23_format :
  forall src l items,
    feed format_catcodes lexer_init src = (l, None) -> l_out l = flat_map fmt_tokens items ->
    Forall fmt_ok items ->
    exists ms, format_parse src = Ok ms /\
      (forall m, In m ms <-> last_def items m) /\ StronglySorted name_lt (map m_cs ms).
Proof. exact format_lemma. Qed.
(** C23, on the text of the format: '@' is a letter, and a text the lexer
    refuses is refused. *)
Theorem C23_text :
  forall src items e,
    lexes format_cat true NewLine src (flat_map fmt_tokens items) e -> e <> BadCharacter -> e <> BadParam ->
    Forall fmt_ok items ->
    exists ms, format_parse src = Ok ms /\
      (forall m, In m ms <-> last_def items m) /\ StronglySorted name_lt (map m_cs ms).
Proof. exact format_text. Qed.
Theorem C23_bad_text :
  forall src ts e,
    lexes format_cat true NewLine src ts e -> e = BadCharacter \/ e = BadParam -> format_parse src = Throw.
Proof. exact format_bad. Qed.
Theorem C23_each_once : forall l, StronglySorted name_lt l -> NoDup l.
Proof. exact sorted_nodup. Qed.

Definition names_of (r : result (list macro)) : result (list name) := rmap (map m_cs) r.
Example C23_case :
  names_of (format_parse (str "\def\b{1}\def\a#1{#1}\def\b{2}")) = Ok [str "a"; str "b"]
  /\ rmap (map (fun m => List.length (m_param m))) (format_parse (str "\def\b{1}\def\a#1{#1}\def\b{2}")) = Ok [1%nat; 0%nat].
Proof. split; vm_compute; reflexivity. Qed.
Example C23_text_case :
  lexes format_cat true NewLine (str "\def\a@{1}") (flat_map fmt_tokens [FmtDef (mac "a@" [] [TChar "1" Other])]) (EndText MidLine)
  /\ names_of (format_parse (str "\def\a@{1}")) = Ok [str "a@"]
  /\ lexes format_cat true NewLine (str "#x") [] BadParam.
Proof.
  split; [|split].
  - change (str "\def\a@{1}") with ("\"%char :: str "def" ++ "\"%char :: str "a@{1}").
    change (flat_map fmt_tokens _) with [TCs (str "def"); TCs (str "a@"); TChar "{" GroupBegin; TChar "1" Other; TChar "}" GroupEnd].
    apply lx_word; [reflexivity|discriminate|repeat constructor|discriminate|discriminate|].
    change (str "a@{1}") with (str "a@" ++ "{"%char :: str "1}").
    apply lx_word; [reflexivity|discriminate|repeat constructor|discriminate|discriminate|].
    apply (lx_char format_cat true SkipBlanks "{" (str "1}")); [left; reflexivity|].
    apply (lx_char format_cat true MidLine "1" (str "}")); [unfold plain; intuition|].
    apply (lx_char format_cat true MidLine "}" []); [unfold plain; intuition|]. constructor.
  - vm_compute. reflexivity.
  - change (str "#x") with ["#"; "x"]%char. apply lx_param_bad; [reflexivity|discriminate|].
    intros n D. apply LexerProofs.digit19_char in D. destruct D as [R E].
    change (char_code "x") with 120%Z in E. lia.
Qed.
(* after a call of a macro the remaining definitions are lost *)
Theorem C23_after_call_refuted :
  names_of (format_parse (str "\def\a{x}\a\def\b{y}")) = Ok [str "a"].
Proof. vm_compute. reflexivity. Qed.

(** C61: it does not matter when the input is consumed. *)
Theorem C61_interleaving :
  forall ops ops' s a b,
    Forall write_or_advance ops -> Forall write_or_advance ops' -> written ops = written ops' ->
    apply_all ops s = Ok a -> apply_all ops' s = Ok b -> p_input a = [] -> p_input b = [] -> a = b.
Proof. exact interleaving_lemma. Qed.

Example C61_case :
  exists a, apply_all [OpWrite (cs "q"); OpAdvance; OpWrite (ch "x"); OpAdvance; OpAdvance] s0 = Ok a
    /\ apply_all [OpWrite (cs "q"); OpWrite (ch "x"); OpAdvance; OpAdvance; OpAdvance] s0 = Ok a
    /\ p_input a = [] /\ p_output a = word "abx".
Proof. eexists. repeat split; reflexivity. Qed.

(** C62: a token stream never breaks the preprocessor, except by a parameter
    where \csname expects a letter. *)
Theorem C62_streams :
  forall ops, Forall stream_op ops ->
    match apply_all ops pinit with
    | Ok _ | Throw => True
    | UB => exists pre o post s1 t, ops = pre ++ o :: post /\ apply_all pre pinit = Ok s1 /\
        (o = OpWrite t \/ o = OpAdvance /\ exists r, p_input s1 = t :: r) /\
        isParameterToken t = true /\ in_csname s1
    | _ => False
    end.
Proof.
  intros ops F. pose proof (safe_ops ops pinit inv_init F) as H.
  destruct (apply_all ops pinit); auto.
Qed.
Theorem C62_csname_refuted :
  exists ops, Forall stream_op ops /\ apply_all ops pinit = UB.
Proof.
  exists [OpWrite (cs "csname"); OpWrite (TParam 1)]. split; [|reflexivity].
  repeat constructor. cbn. lia.
Qed.

Example C62_case : Forall stream_op (map OpWrite (def_text two_m) ++ [OpWrite (cs "two"); OpWrite (ch "x"); OpAdvance]).
Proof. repeat constructor; cbn; lia. Qed.

Print Assumptions C15_characters.
Print Assumptions C16_def.
Print Assumptions C16_order.
Print Assumptions C17_scopes.
Print Assumptions C17_restored.
Print Assumptions C17_dangling_refuted.
Print Assumptions C18_if_else.
Print Assumptions C18_if.
Print Assumptions C19_call.
Print Assumptions C19_only_calls.
Print Assumptions C20_sound.
Print Assumptions C20_complete.
Print Assumptions C20_more.
Print Assumptions C21_csname.
Print Assumptions C22_expandafter.
Print Assumptions C22_parameterless.
Print Assumptions C22_undefined_refuted.
Print Assumptions C23_format.
Print Assumptions C23_each_once.
Print Assumptions C23_after_call_refuted.
Print Assumptions C61_interleaving.
Print Assumptions C62_streams.
Print Assumptions C62_csname_refuted.
Print Assumptions C23_text.
Print Assumptions C23_bad_text.
