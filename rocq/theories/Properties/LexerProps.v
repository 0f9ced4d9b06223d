(** Lexer properties: C01 - C05. *)
From Coq Require Import List Ascii String ZArith.
From Verif.Model Require Import Token Lexer.
From Verif.Spec Require Import LexerSpec.
From Verif.Proofs Require Import LexerProofs.
Import ListNotations.

Definition nl : ascii := ascii_of_nat 10.

(** C01. Writing any text to a lexer that is between two tokens appends exactly
    the token list given by the whole-text rules, and ends the same way; the
    rules determine that list uniquely. [lexes ct true] is TeX's rules except
    for a line end directly after a control sequence. *)
Theorem C01_lexer_tokenizes :
  forall ct st s l l' e,
    between_tokens l st -> feed ct l s = (l', e) ->
    exists ts, l_out l' = l_out l ++ ts /\
      forall ts' e', lexes ct true st s ts' e' <-> ts' = ts /\ e' = lexer_ending l' e.
Proof. exact lexer_tokenizes_lemma. Qed.

(** C01, TeX's own rules, for texts in which no line ends with a control
    sequence. What is missing is false: see [C01_lexer_tex_refuted]. *)
Theorem C01_lexer_tex_partial :
  forall ct st s l l' e,
    between_tokens l st -> no_control_at_line_end ct s -> feed ct l s = (l', e) ->
    exists ts, l_out l' = l_out l ++ ts /\
      forall ts' e', lexes ct false st s ts' e' <-> ts' = ts /\ e' = lexer_ending l' e.
Proof. exact lexer_tex_lemma. Qed.

Example C01_case :
  exists l, feed DefaultCatCodes lexer_init (str "a  \foo  b%x" ++ nl :: nl :: str "#1") = (l, None) /\
  l_out l = [TChar "a" Letter; TChar " " Space; TCs (str "foo"); TChar "b" Letter; TCs (str "par"); TParam 1].
Proof. eexists. split; vm_compute; reflexivity. Qed.

Example C01_tex_case : no_control_at_line_end DefaultCatCodes (str "\a b").
Proof.
  intros pre c w x post E Hc Hw Hx.
  assert (In x (str "\a b")) as Hin.
  { rewrite E. apply in_or_app; right; right. apply in_or_app; right; left; reflexivity. }
  simpl in Hin. repeat (destruct Hin as [<-|Hin]; [discriminate|]). exact Hin.
Qed.

(** C01 is false for TeX's rules: after [\foo] a line end does not start a new
    line, so the blank line that follows is lost. *)
Theorem C01_lexer_tex_refuted :
  exists s l ts,
    feed DefaultCatCodes lexer_init s = (l, None) /\
    lexes DefaultCatCodes false NewLine s ts (EndText NewLine) /\
    In (TCs (str "par")) ts /\ ~ In (TCs (str "par")) (l_out l).
Proof.
  exists (str "\foo" ++ [nl; nl]). eexists. exists [TCs (str "foo"); TCs (str "par")].
  split; [vm_compute; reflexivity|]. split.
  - change (str "\foo" ++ [nl; nl]) with ("\"%char :: str "foo" ++ nl :: [nl]).
    apply lx_word_eol; [reflexivity|discriminate|repeat constructor|reflexivity|].
    apply lx_blank_line; [reflexivity|]. apply lx_end.
  - split; [right; left; reflexivity|]. simpl. intros [H|[]]; discriminate.
Qed.

(** C02. *)
Theorem C02_spaces :
  forall ct s l e, feed ct lexer_init s = (l, e) -> spaces_ok (l_out l).
Proof. exact spaces_ok_lemma. Qed.

Example C02_case :
  l_out (fst (feed DefaultCatCodes lexer_init (str "  a   " ++ nl :: str "  b c")))
  = [TChar "a" Letter; TChar " " Space; TChar "b" Letter; TChar " " Space; TChar "c" Letter].
Proof. vm_compute. reflexivity. Qed.

(** C03. The lexer may be in any state in which the comment character starts a
    comment: not right after [#], and not right after the escape character. *)
Theorem C03_comment_inert :
  forall ct l pct b1 b2 eol post,
    ct pct = Comment -> ct eol = EndOfLine ->
    l_state l <> StP -> ~ (l_state l = StCS /\ l_buf l = []) ->
    Forall (fun a => ct a <> EndOfLine) b1 -> Forall (fun a => ct a <> EndOfLine) b2 ->
    feed ct l (pct :: b1 ++ eol :: post) = feed ct l (pct :: b2 ++ eol :: post).
Proof. exact comment_inert_lemma. Qed.

Example C03_case :
  let l := fst (feed DefaultCatCodes lexer_init (str "x\a")) in
  l_state l <> StP /\ ~ (l_state l = StCS /\ l_buf l = []) /\
  Forall (fun a => DefaultCatCodes a <> EndOfLine) (zero :: str "#z") /\
  l_out (fst (feed DefaultCatCodes l ("%"%char :: (zero :: str "#z") ++ nl :: str "b")))
  = [TChar "x" Letter; TCs (str "a"); TChar "b" Letter].
Proof.
  vm_compute. repeat split; try discriminate.
  - intros [_ H]; discriminate.
  - repeat constructor; discriminate.
Qed.

(** C04. A client that interleaves [write] with taking tokens from [output()]
    gets, in total, the tokens of the same writes with nobody reading. *)
Theorem C04_streaming :
  forall ct l ops l' taken,
    client ct l [] ops = Some (l', taken) ->
    exists l2, client ct l [] (writes ops) = Some (l2, []) /\
      taken ++ l_out l' = l_out l2 /\ l_state l' = l_state l2 /\ l_buf l' = l_buf l2.
Proof. exact client_streaming_lemma. Qed.

Theorem C04_chunks :
  forall ct a b l,
    feed ct l (a ++ b) =
    match feed ct l a with (l', None) => feed ct l' b | (l', Some e) => (l', Some e) end.
Proof. exact feed_app. Qed.

Theorem C04_no_retraction :
  forall ct l a b,
    exists more, l_out (fst (feed ct l (a ++ b))) = l_out (fst (feed ct l a)) ++ more.
Proof. exact feed_prefix_lemma. Qed.

Example C04_case :
  client DefaultCatCodes lexer_init []
    [OWrite "a"%char; ORead; OWrite "\"%char; OWrite "x"%char; ODrain; OWrite "{"%char; ORead; ORead]
  = Some (mkLexer StM (str "x") [], [TChar "a" Letter; TCs (str "x"); TChar "{" GroupBegin]).
Proof. vm_compute. reflexivity. Qed.

(** C05 is false: a text that ends with a control word does not deliver it. *)
Theorem C05_delivered_refuted :
  forall ct st l c w,
    between_tokens l st -> ct c = Escape -> Forall (fun a => ct a = Letter) w ->
    feed ct l (c :: w) = (mkLexer StCS w (l_out l), None).
Proof. exact word_pending_lemma. Qed.

(** C05, what holds: the first character that is not a letter delivers it. *)
Theorem C05_delivered_partial :
  forall ct st l c w x,
    between_tokens l st -> ct c = Escape -> w <> [] ->
    Forall (fun a => ct a = Letter) w -> ct x <> Letter ->
    exists more, l_out (fst (feed ct l (c :: w ++ [x]))) = l_out l ++ TCs w :: more.
Proof. exact word_delivered_lemma. Qed.

Example C05_case :
  l_out (fst (feed DefaultCatCodes lexer_init (str "a\foo"))) = [TChar "a" Letter] /\
  l_out (fst (feed DefaultCatCodes lexer_init (str "a\foo "))) = [TChar "a" Letter; TCs (str "foo")].
Proof. split; vm_compute; reflexivity. Qed.

Print Assumptions C01_lexer_tokenizes.
Print Assumptions C01_lexer_tex_partial.
Print Assumptions C01_lexer_tex_refuted.
Print Assumptions C02_spaces.
Print Assumptions C03_comment_inert.
Print Assumptions C04_streaming.
Print Assumptions C04_chunks.
Print Assumptions C04_no_retraction.
Print Assumptions C05_delivered_refuted.
Print Assumptions C05_delivered_partial.
