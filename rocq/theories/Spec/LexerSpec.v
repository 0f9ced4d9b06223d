(** Whole-text tokenisation rules (TeXbook, chapter 8), written as a relation
    on the text, without any incremental state. *)
From Coq Require Import List Ascii String ZArith.
From Verif.Model Require Import Token.
Import ListNotations.

(** The state a line can be in: new line, middle of line, skipping blanks. *)
Inductive line_state : Set := NewLine | MidLine | SkipBlanks.

(** How the text ends. *)
Inductive ending : Set :=
| EndText (st : line_state)       (* between two tokens *)
| OpenControl (w : name)          (* inside a control sequence *)
| OpenParam                       (* right after a parameter character *)
| OpenComment                     (* inside a comment *)
| BadCharacter                    (* an invalid character: rejected *)
| BadParam.                       (* # not followed by 1..9 or #: rejected *)

Definition plain (k : cat) : Prop :=
  k = GroupBegin \/ k = GroupEnd \/ k = MathShift \/ k = AlignmentTab \/
  k = Superscript \/ k = Subscript \/ k = Letter \/ k = Other \/ k = Active.

Definition digit19 (c : ascii) (n : Z) : Prop :=
  (1 <= n <= 9)%Z /\ c = ascii_of_nat (48 + Z.to_nat n).

Section Rules.
  Variable ct : ascii -> cat.

  (** [quirk = false] is TeX: a line end always starts a new line.
      [quirk = true] differs only for a line end that directly follows a
      control sequence: the following line is then not treated as a new line. *)
  Variable quirk : bool.

  Definition after_word_eol := if quirk then SkipBlanks else NewLine.
  Definition after_escape_eol := if quirk then MidLine else NewLine.

  Inductive lexes : line_state -> list ascii -> list token -> ending -> Prop :=
  | lx_end st : lexes st [] [] (EndText st)
  (* control word: the longest run of letters after the escape character *)
  | lx_word st c w x r ts e :
      ct c = Escape -> w <> [] -> Forall (fun a => ct a = Letter) w ->
      ct x <> Letter -> ct x <> EndOfLine ->
      lexes SkipBlanks (x :: r) ts e ->
      lexes st (c :: w ++ x :: r) (TCs w :: ts) e
  | lx_word_eol st c w x r ts e :
      ct c = Escape -> w <> [] -> Forall (fun a => ct a = Letter) w ->
      ct x = EndOfLine ->
      lexes after_word_eol r ts e ->
      lexes st (c :: w ++ x :: r) (TCs w :: ts) e
  | lx_word_open st c w :
      ct c = Escape -> Forall (fun a => ct a = Letter) w ->
      lexes st (c :: w) [] (OpenControl w)
  (* control symbol: the escape character and one non-letter *)
  | lx_symbol st c x r ts e :
      ct c = Escape -> ct x <> Letter -> ct x <> EndOfLine ->
      lexes (match ct x with Space => SkipBlanks | _ => MidLine end) r ts e ->
      lexes st (c :: x :: r) (TCs [x] :: ts) e
  | lx_symbol_eol st c x r ts e :
      ct c = Escape -> ct x = EndOfLine ->
      lexes after_escape_eol r ts e ->
      lexes st (c :: x :: r) (TCs [] :: ts) e
  (* parameters *)
  | lx_param st c x n r ts e :
      ct c = ParamChar -> ct x <> ParamChar -> digit19 x n ->
      lexes MidLine r ts e ->
      lexes st (c :: x :: r) (TParam n :: ts) e
  | lx_hash st c x r ts e :
      ct c = ParamChar -> ct x = ParamChar ->
      lexes MidLine r ts e ->
      lexes st (c :: x :: r) (TChar x ParamChar :: ts) e
  | lx_param_bad st c x r :
      ct c = ParamChar -> ct x <> ParamChar -> (forall n, ~ digit19 x n) ->
      lexes st (c :: x :: r) [] BadParam
  | lx_param_open st c :
      ct c = ParamChar -> lexes st [c] [] OpenParam
  (* ordinary characters *)
  | lx_char st c r ts e :
      plain (ct c) -> lexes MidLine r ts e ->
      lexes st (c :: r) (TChar c (ct c) :: ts) e
  (* line ends *)
  | lx_blank_line c r ts e :
      ct c = EndOfLine -> lexes NewLine r ts e ->
      lexes NewLine (c :: r) (TCs (str "par") :: ts) e
  | lx_line_end c r ts e :
      ct c = EndOfLine -> lexes NewLine r ts e ->
      lexes MidLine (c :: r) (TChar " " Space :: ts) e
  | lx_line_end_skip c r ts e :
      ct c = EndOfLine -> lexes NewLine r ts e ->
      lexes SkipBlanks (c :: r) ts e
  (* blanks *)
  | lx_space c r ts e :
      ct c = Space -> lexes SkipBlanks r ts e ->
      lexes MidLine (c :: r) (TChar " " Space :: ts) e
  | lx_space_skip st c r ts e :
      ct c = Space -> st <> MidLine -> lexes st r ts e ->
      lexes st (c :: r) ts e
  | lx_ignored st c r ts e :
      ct c = Ignored -> lexes st r ts e -> lexes st (c :: r) ts e
  (* comments *)
  | lx_comment st c body x r ts e :
      ct c = Comment -> Forall (fun a => ct a <> EndOfLine) body ->
      ct x = EndOfLine -> lexes NewLine r ts e ->
      lexes st (c :: body ++ x :: r) ts e
  | lx_comment_open st c body :
      ct c = Comment -> Forall (fun a => ct a <> EndOfLine) body ->
      lexes st (c :: body) [] OpenComment
  (* rejected characters *)
  | lx_invalid st c r :
      ct c = Invalid -> lexes st (c :: r) [] BadCharacter.
End Rules.

(** No line ends with a control sequence. *)
Definition no_control_at_line_end (ct : ascii -> cat) (s : list ascii) : Prop :=
  forall pre c w x post,
    s = pre ++ c :: w ++ x :: post ->
    ct c = Escape -> Forall (fun a => ct a = Letter) w -> ct x <> EndOfLine.

(** Space tokens: none at the start, no two in a row. *)
Definition is_space (t : token) : Prop := exists c, t = TChar c Space.
Definition spaces_ok (ts : list token) : Prop :=
  (forall t r, ts = t :: r -> ~ is_space t) /\
  (forall a t1 t2 b, ts = a ++ t1 :: t2 :: b -> ~ (is_space t1 /\ is_space t2)).

(** Observable end of a run of the incremental lexer: the exception it threw,
    or the state in which it waits for more input. *)
From Verif.Model Require Import Lexer.

Definition lexer_ending (l : lexer) (e : option lexn) : ending :=
  match e with
  | Some InvalidCharacter => BadCharacter
  | Some InvalidParam => BadParam
  | None =>
      match l_state l with
      | StN => EndText NewLine
      | StM => EndText MidLine
      | StS => EndText SkipBlanks
      | StCS => OpenControl (l_buf l)
      | StP => OpenParam
      | StCOM => OpenComment
      end
  end.

(** A lexer that is between two tokens, in the given line state. *)
Definition between_tokens (l : lexer) (st : line_state) : Prop :=
  match st with
  | NewLine => l_state l = StN
  | MidLine => l_state l = StM
  | SkipBlanks => l_state l = StS
  end.

(** What a client sees who interleaves writes with reads of [output()]:
    [None] when it reads the front of an empty vector (undefined). Exceptions
    are caught and the run goes on with the state left behind. *)
Fixpoint client (ct : catcodes) (l : lexer) (taken : list token) (ops : list lop)
  : option (lexer * list token) :=
  match ops with
  | [] => Some (l, taken)
  | OWrite c :: r => client ct (fst (write ct l c)) taken r
  | ORead :: r =>
      match l_out l with
      | [] => None
      | t :: o => client ct (mkLexer (l_state l) (l_buf l) o) (taken ++ [t]) r
      end
  | ODrain :: r => client ct (mkLexer (l_state l) (l_buf l) []) (taken ++ l_out l) r
  end.

Definition writes (ops : list lop) : list lop :=
  filter (fun o => match o with OWrite _ => true | _ => false end) ops.
