(** Model of include/tex/lexer.h and src/lexer.cpp. *)
From Coq Require Import List Ascii String ZArith Bool.
From Verif.Model Require Import Token.
Import ListNotations.

(** include/tex/lexer.h:18-25 [enum class LexerState] *)
Inductive lstate : Set := StN | StM | StS | StCS | StP | StCOM.

(** include/tex/lexer.h:37 [CatCodeTable]: 256 entries indexed by
    [unsigned char]; a total function on bytes. *)
Definition catcodes := ascii -> cat.

(** include/tex/lexer.h:27-45 [class Lexer]: state, control sequence buffer,
    output vector (m_tokens). The table is a separate argument: [write] never
    changes it. *)
Record lexer := mkLexer { l_state : lstate; l_buf : name; l_out : list token }.

(** include/tex/lexer.h:34, 55-58: a fresh lexer *)
Definition lexer_init : lexer := mkLexer StN [] [].

Definition set_state (l : lexer) (s : lstate) : lexer := mkLexer s (l_buf l) (l_out l).
Definition set_buf (l : lexer) (b : name) : lexer := mkLexer (l_state l) b (l_out l).

(** include/tex/lexer.h:227-230 [Lexer::produce] *)
Definition produce (l : lexer) (c : ascii) (k : cat) : lexer :=
  mkLexer (l_state l) (l_buf l) (l_out l ++ [TChar c k]).

(** include/tex/lexer.h:232-235 [Lexer::produceCSToken] *)
Definition produceCSToken (l : lexer) : lexer :=
  mkLexer (l_state l) (l_buf l) (l_out l ++ [TCs (l_buf l)]).

(** The two exceptions: lexer.h:175 and lexer.h:245. *)
Inductive lexn : Set := InvalidCharacter | InvalidParam.

Definition char_code (c : ascii) : Z := Z.of_N (N_of_ascii c).

(** include/tex/lexer.h:237-247 [Lexer::produceParamToken]
    ([char] comparisons with '1'..'9'; bytes >= 128 are negative [char]s, which
    are rejected as well) *)
Definition produceParamToken (l : lexer) (c : ascii) : lexer * option lexn :=
  if ((49 <=? char_code c) && (char_code c <=? 57))%Z then
    (mkLexer (l_state l) (l_buf l) (l_out l ++ [TParam (char_code c - 48)]), None)
  else (l, Some InvalidParam).

(** include/tex/lexer.h:219-225 [Lexer::parseCOM] *)
Definition parseCOM (l : lexer) (k : cat) : lexer :=
  if cat_eqb k EndOfLine then set_state l StN else l.

(** include/tex/lexer.h:96-109: the [StateP] branch of [Lexer::write]. The
    state is only reset when [produceParamToken] does not throw. *)
Definition parseP (l : lexer) (c : ascii) (k : cat) : lexer * option lexn :=
  if cat_eqb k ParamChar then (set_state (produce l c k) StM, None)
  else
    match produceParamToken l c with
    | (l', None) => (set_state l' StM, None)
    | (l', Some e) => (l', Some e)
    end.

(** include/tex/lexer.h:111-180: the [switch] of [Lexer::write] (states N, M, S) *)
Definition write_switch (l : lexer) (c : ascii) (k : cat) : lexer * option lexn :=
  match k with
  | Escape => (set_state (set_buf l []) StCS, None)
  | ParamChar => (set_state l StP, None)
  | GroupBegin | GroupEnd | MathShift | AlignmentTab | Superscript | Subscript
  | Letter | Other | Active => (set_state (produce l c k) StM, None)
  | EndOfLine =>
      (set_state
         (match l_state l with
          | StN => produceCSToken (set_buf l (str "par"))
          | StM => produce l " "%char Space
          | _ => l
          end) StN, None)
  | Ignored => (l, None)
  | Space =>
      match l_state l with
      | StM => (set_state (produce l " "%char Space) StS, None)
      | _ => (l, None)
      end
  | Comment => (set_state l StCOM, None)
  | Invalid => (l, Some InvalidCharacter)
  end.

(** include/tex/lexer.h:183-217 [Lexer::parseCS]. The recursive [write(c)] of
    line 210 happens in state S, where [write] is [write_switch]. *)
Definition parseCS (l : lexer) (c : ascii) (k : cat) : lexer * option lexn :=
  if cat_eqb k EndOfLine then
    match l_buf l with
    | [] => (set_state (produceCSToken l) StM, None)
    | _ => (set_state (produceCSToken l) StS, None)
    end
  else if negb (cat_eqb k Letter) then
    match l_buf l with
    | [] =>
        (set_state (produceCSToken (set_buf l [c]))
                   (if cat_eqb k Space then StS else StM), None)
    | _ => write_switch (set_state (produceCSToken l) StS) c k
    end
  else (set_buf l (l_buf l ++ [c]), None).

(** include/tex/lexer.h:82-181 [Lexer::write]; the exception, if any, is
    returned together with the state it leaves behind. *)
Definition write (ct : catcodes) (l : lexer) (c : ascii) : lexer * option lexn :=
  let k := ct c in
  match l_state l with
  | StCS => parseCS l c k
  | StCOM => (parseCOM l k, None)
  | StP => parseP l c k
  | _ => write_switch l c k
  end.

(** A client loop [for (char c : s) lex.write(c);] as in
    src/parsing/format.cpp and the tests; it stops at the first exception. *)
Fixpoint feed (ct : catcodes) (l : lexer) (s : list ascii) : lexer * option lexn :=
  match s with
  | [] => (l, None)
  | c :: r =>
      match write ct l c with
      | (l', None) => feed ct l' r
      | (l', Some e) => (l', Some e)
      end
  end.

(** src/lexer.cpp:13-270 [Lexer::DefaultCatCodes], entry by entry; the run of
    [Other] for bytes 128..255 is written with [repeat]. *)
Definition DefaultCatCodes_list : list cat :=
  [ Invalid; Invalid; Invalid; Invalid; Invalid; Invalid; Invalid; Invalid; (* 0-7 *)
    Invalid; Space; EndOfLine; Ignored; Active; EndOfLine; Ignored; Ignored; (* 8-15 *)
    Ignored; Ignored; Ignored; Ignored; Ignored; Ignored; Ignored; Ignored; (* 16-23 *)
    Ignored; Ignored; Ignored; Ignored; Ignored; Ignored; Ignored; Ignored; (* 24-31 *)
    Space; Other; Other; ParamChar; MathShift; Comment; AlignmentTab; Other; (* 32-39 *)
    Other; Other; Other; Other; Other; Other; Other; Other; (* 40-47 *)
    Other; Other; Other; Other; Other; Other; Other; Other; (* 48-55: 0-7 *)
    Other; Other; Other; Other; Other; Other; Other; Other; (* 56-63 *)
    Other; Letter; Letter; Letter; Letter; Letter; Letter; Letter; (* 64-71: @A-G *)
    Letter; Letter; Letter; Letter; Letter; Letter; Letter; Letter; (* 72-79: H-O *)
    Letter; Letter; Letter; Letter; Letter; Letter; Letter; Letter; (* 80-87: P-W *)
    Letter; Letter; Letter; Other; Escape; Other; Superscript; Subscript; (* 88-95 *)
    Other; Letter; Letter; Letter; Letter; Letter; Letter; Letter; (* 96-103: `a-g *)
    Letter; Letter; Letter; Letter; Letter; Letter; Letter; Letter; (* 104-111: h-o *)
    Letter; Letter; Letter; Letter; Letter; Letter; Letter; Letter; (* 112-119: p-w *)
    Letter; Letter; Letter; GroupBegin; Other; GroupEnd; Active; Ignored (* 120-127 *)
  ] ++ repeat Other 128.

(** include/tex/lexer.h:70 [Lexer::category] on the default table *)
Definition DefaultCatCodes : catcodes :=
  fun c => nth (nat_of_ascii c) DefaultCatCodes_list Other.

(** include/tex/tokstream.h:18-23 [read], 30-33 [discard]: client operations on
    [output()]. [Drain] models [output().clear()] after copying the tokens. *)
Inductive lop : Set :=
| OWrite (c : ascii)
| ORead      (* take the first token; undefined on an empty vector *)
| ODrain.    (* take all tokens *)
