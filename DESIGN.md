# Formal model of strandfield/typeset in Rocq (Coq 8.16.1)

The subject is the C++ code in /repo (read as text, never built or run).
Everything below is a statement about a Gallina model of that code. The only
tie between the two is the reading recorded in the comments of the model
(`file:lines` on every definition).

## Trusted base

1. **Coq's kernel** (8.16.1), including `vm_compute`, and the standard library.
2. **No axioms.** Every theorem of `Properties/` is followed, at the end of its file, by
   `Print Assumptions`. Each of them answers *Closed under the global context*: no theorem of this
   development, properties C01 to C108 and their refutations, depends on any axiom.
   The only axioms in any loaded file are seven parameters of the module type
   `Coq.ssr.ssrunder.Under_rel` (`Under_rel`, `Under_rel_from_rel`, `Under_relE`, `Over_rel`, `over_rel`,
   `over_rel_done`, `under_rel_done`). They belong to the standard library's ssreflect plugin files, which are loaded
   indirectly, and no theorem here uses them.
3. **The reading of the C++ code** into the files of `Model/`, with the simplifications listed below.
4. **The reading of the English properties** (`properties.jsonl`) into the definitions of `Spec/` and the
   statements of `Properties/`.
5. Outside the model and assumed to behave as documented: the C++ standard library, and Qt wherever an application asks
   it for metrics (these are parameters of the theorems, quantified universally).

There is no axiom, no `Admitted`, no functor or module type, no plugin and no disabled kernel check in the
development.

## Layout

* `rocq/theories/Base/` : results (`Ok` / `Throw` / `UB` / `Abort` / `Fuel`), the `Num` record of numeric
  operations and its instances.
* `rocq/theories/Model/` : the model, one file per C++ module, no proofs.
* `rocq/theories/Spec/`  : small specifications that do not mention the functions of the model
  (they do use its data types: tokens, nodes, glue, boxes, styles).
* `rocq/theories/Proofs/`: lemmas.
* `rocq/theories/Properties/`: the theorems, the non-vacuity `Example`s beside them, and `Print Assumptions`.
* `rocq/theories/Properties/RepoTests.v`: the assertions of the project's own unit tests (`/repo/tests`: lexer,
  preprocessor, format, parsers, math parser) run on the model. They hold. They prove nothing general; they check
  that the model does what the authors expect of the code. `test-atom` and `test-typeset` check constructors and
  mock objects only and are left out.
* `seeded/LOG.jsonl`: the wrong programs tried (see "Wrong programs").

A theorem is named after its property. `_partial` marks a weaker statement than the English one (the manifest's note
says what is missing), `_refuted` a proof that the English statement is false of the code,
with a concrete witness.

## Conventions

* **Undefined behaviour is an outcome.** Dereferencing `end()`, `front()`/`back()` of an empty
  container, signed overflow, float-to-int casts out of range, casts to the wrong class, reading the wrong
  union member give `UB`. Exceptions give `Throw`. A failed `assert` gives `Abort`. Loops without a structural
  argument use fuel and return `Fuel` when it runs out (never a normal-looking value); theorems either
  prove that some fuel suffices, or hold for every fuel with which the result is not `Fuel`.
* **Numbers.** `float` code is written once, over a record `Num` of operations
  (`+ - * /`, comparisons, literals, conversions). Results that need no arithmetic law are proved
  for *every* `Num`, hence for IEEE binary32, for which an instance `F32` built on the standard library's
  `SpecFloat` is given. Results that need arithmetic laws are proved for exact
  rationals (`QcNum`) and say so ("exact arithmetic").
* `int`, `size_t` are `Z`/`nat`. Overflow is modelled where a property depends on it (parshape counts, demerits,
  group depth).
* `std::shared_ptr` to nodes that the code does not change are values. Where identity matters it is
  modelled explicitly: the math parser's lists live in a store (`Model/MathParser.v`), and the math typesetter returns
  the changed list beside its result (`Model/MathTypeset.v`).
* `std::list` iterators are positions (`nat`).
* A theorem about machine states quantifies either over every state or over states reachable from the
  constructor by public operations. Hypotheses are met by the examples next to the theorems.

## What is modelled

| C++ source | model | left out |
|---|---|---|
| include/tex/token.h | Token.v (values), TokenUnion.v (the union, lifetimes, failing allocation) | |
| lexer.h, lexer.cpp, tokstream.h | Lexer.v | |
| unicode.h | Unicode.v | |
| parsing/preprocessor.h/.cpp, format.h/.cpp | Macro.v (matching, expansion), Preprocessor.v (machine, groups, branches, `Format`) | messages of exceptions |
| units.h, dimen.h, glue.h, glue.cpp | Dimen.v, Glue.v | |
| parsing/dimenparser, kernparser, glueparser, parshapeparser, optionsparser, parsing-utils.h | DimenParser.v | `std::stof` is decimal reading with a range parameter |
| box.h, hbox, vbox, listbox, kern, rule, penalty, node, charbox | Box.v | reference counting |
| layoutreader.h | Layout.v | |
| hlist.h/.cpp, vbox.h (`VListBuilder`) | ListBuilders.v | |
| linebreaks.h/.cpp, parshape.h | LineBreaks.v | `powf` is a parameter (`pows`) |
| math/style, mathcode, mathchars.h | MathList.v, MathFrontend.v | |
| parsing/mathparser.h/.cpp | MathParser.v | |
| parsing/mathparserfrontend.h/.cpp | MathFrontend.v | |
| math/math-typeset.h/.cpp, atom, fraction, root, matrix, boundary, stylechange | MathTypeset.v | MathOn/MathOff nodes (counted as other nodes); boxes shared between two atoms |
| showlists.h/.cpp | ShowLists.v | null pointers in lists; `std::to_string(float)` is any function |
| tfm/src/tfm.cpp, fontdimen.h, fontmetrics.h/.cpp | Tfm.v | |
| apps/common/qt-typeset-engine.cpp | Tfm.v (`stretched`, `reset`, `sfcode`, `mathfont`), FontLoad.v (`loadFont`) | everything that only calls Qt; `QString::toFloat`, the conversion to int and the heights of fonts are parameters |
| apps/common/charbuffer.h | PageEditor.v | |
| apps/page-editor: inputstream, fontparser, mode, verticalmode, horizontalmode, mathmode, assignment-processor, typesetting-machine, pageeditor-format | PageEditor.v | messages and types of exceptions and the state they leave; members that are never read |
| apps/equation-editor/mainwindow.cpp:221-294 | MathFrontend.v (`equation`) | the report of times |
| apps/equation-editor/mainwindow.cpp:50-109, 166-188, suggestionbar | EquationWindow.v | titles of buttons; the settings (Render.v, FontUsage.v) |
| apps/common/qt-typeset-engine.cpp:76-104, 144-170, 266-289: the fonts of the page editor | PageEngine.v, FontLoad.v | the metrics of a letter in a given QFont; the engine's own fonts are parameters |
| apps/page-editor/mainwindow.cpp:41-118, and which exceptions are caught (typesetting-machine.cpp:229-233) | PageWindow.v (the window; a session with the engine that outlives the machines) | times in the report, words of the messages, the window's size; exceptions of a font that cannot be loaded count as `std::runtime_error` |
| apps/linebreaks-viewer/linebreaks-viewer.h/.cpp | Viewer.v | colours, tool tips, the widgets themselves (each is its value and signals a change of it); `std::sort` and `QString::toFloat` are parameters |
| apps/common/renderwidget, apps/equation-editor/renderwidget, linebreaks-viewer-render-widget | Render.v (what is drawn, as a list of commands with positions) | pens, fonts, the background, pixels |
| apps/common/pagewidget | Render.v (`page`) | the width of the scroll bar, which may cover the right edge of the sheet |
| apps/equation-editor/typeset-engine, fonttreewidget | FontUsage.v | the tree widget's looks |
| src/math/math-typeset.cpp: the calls of `FontMetrics` for parameters | TypesetAsks.v | calls of `metrics` and `italicCorrection`; line 823 repeats a call and is left out; the order of calls in arguments of one call |

Not modelled: `main`, menus and the other Qt widgets, font files, reference counting, threads
(the code has none), performance, allocation failure except in C60.

## Simplifications to keep in mind

* Nodes are trees: two lists that share a box are two copies. Where the code changes a shared box the model returns the
  change to the list's owner (math typesetter, C71); other sharing is not modelled.
* The math parser's `shared_ptr` cycles cannot arise and are not represented; `list_val` reads the store with a depth bound.
* The preprocessor's pointer to the running macro is the identity of a scope and a name; it dangles when the scope is
  gone (C17_dangling_refuted).
* The typesetting machine's output routines (closures) are three constructors, one for each closure the code creates.
* `std::string` after a move has an unspecified value, except in the options parser (C13), which relies on the
  empty string being left empty.

## How each property is proved

| id | how |
|----|-----|
| C01-C05 | simulation of a whole-text tokenizer by induction over the text; invariant on (state, last token); fold over schedules of writes and reads |
| C06-C08 | arithmetic of shifts and masks, finite sweeps lifted by `forallb_forall`; induction over code points |
| C09-C14 | induction over digits, signs, units, lines, options; `_only` theorems characterise every accepted text; C14 in binary32 by computation |
| C15-C23, C61, C62 | induction over tokens and operations of the preprocessor machine; soundness and completeness of matching against an inductive relation |
| C24-C33, C64 | induction over node lists; exact arithmetic where sums are compared |
| C34-C43 | invariants of the active list; dynamic-programming optimality against an inductive definition of breakings; exact characterisation of undefined behaviour |
| C44, C45, C63, C80, C85, C92 | finite sweeps over the tables, compared with tables typed in from The TeXbook / plain TeX |
| C46-C49 | induction over a formula grammar; invariant over call sequences |
| C50-C54, C66-C75, C86-C89 | layout theorem for `mlist2hlist` (what is emitted, for all lists), then geometry of each rule; C71 by running two passes in step |
| C55 | the text is compared with an outline defined on the tree |
| C56, C76-C79 | field arithmetic, tables |
| C57-C59, C81-C84 | step invariants of the machine; big-step lemma for tokens, characters, groups, paragraphs, document |
| C90 | meaning of each token, then C46 and the layout theorem |
| C91 | one lemma per construct about the stack of modes, then induction over the relation that reads the text; dimensions linked to C09 and C12 |
| C93-C96 | invariant over histories of events: the texts a field has had, the list and the alternatives kept; glue and dimension fields characterised as equivalences; C93 from C34-C39 |
| C97, C98 | the drawing is a relation over the layout, by induction over the tree; bounds of glue set by a ratio, then C84 |
| C99, C100 | invariants over histories of events; integer arithmetic; sweep over the 48 parameters; the typesetter and the list of its calls side by side (equal results for engines that agree on the calls) |
| C101 | what the typesetter needs of a list is one boolean (`fine`), proved sufficient and necessary by two inductions over the typesetter; a rank invariant of the parser's store gives the formula for every call sequence; an invariant over its stacks says when boundaries pair |
| C102 | invariant over histories of events; verdicts on fixed texts by a decision procedure proved sound |
| C103 | simulation of the reader, preprocessor and typesetter taking turns by one token at a time; the typesetter does not depend on the definitions (naturality in the preprocessor), so the runs with and without definitions anywhere agree once all tables are emptied |
| C104 | the machine does not depend on the text it has not read (naturality in the stream), by induction over its steps; invariant over histories; for the exceptions an invariant of the dimensions being read |
| C105 | a measure of the text that remains (unread characters, waiting tokens, weights of the preprocessor's frames) that every step makes smaller unless it expands a macro; invariant: no names of macros in what remains; for the hangs a cycle of steps |
| C106 | invariant of the reachable states (the formulas on the stack of modes come from the calls of the front end, as many settings as levels of definitions, no parameter tokens behind the preprocessor); when no group is left, no definition either, and no macro is being expanded; each step classified as fine, exception, or crash with its cause; the converse by running into the cause |
| C107 | induction over the options from the right, against `last_of` and an inductive definition of the parts; a run of the page editor for an arbitrary host |
| C108 | simulation of the whole machine: two runs whose states differ in the numbers of the fonts only (`fit`), down to `m_advance`; then induction over the session |
| C60 | invariant over operation sequences on the union |
| C65 | pen positions |

## Findings

Statements of the code that the proofs show to be defects or surprises. Where a theorem states it, it is named.

**Lexer.** A line end right after a control word enters state S, so `\foo` + two line ends gives no `\par`
(C01_lexer_tex_refuted). `\` at a line end gives a control sequence with an empty name. A control sequence at the end of
the text is never emitted (C05_delivered_refuted).

**Window of the page editor.** The editor ends at texts such as `\kern\par x` and `a}{`: `advance` and the window catch
`std::runtime_error` only, but `std::stof` throws `std::invalid_argument` and `m_memory.at` throws `std::out_of_range`
(C104_reported_refuted). C104_fatal says exactly when. When the text is deleted the old page remains (C104_cleared_refuted).
The editor hangs at `\end\endcsname ` (the format's `\end` makes `\end\endcsname` of it again) and at macros that call
themselves (C105_hangs_refuted, C105_recursion_refuted); macros are the only reason (C105_endless).
It crashes, among others, at `}`, `\csname#1`, `a$\textstyle $`, `a$\frac\textstyle x$`, `x\lower 1fil ` and `\parshape 99999999999`;
C106_causes lists every reason and C106_sharp says that none is listed in vain. Two of them (of_paragraph, of_box in
`Spec/CrashSpec.v`) have no example here: pages have no \penalty, so the sum of the demerits would have to overflow;
in exact arithmetic a paragraph of at most 3220 items of no negative width never does it (C106_short).
`\font\x=}` crashes it as well (C107_empty_refuted); `\font\x={Times,bold}` loads a font of the family `{Times`, and the blank in
`{Times, bold}` makes the option void (C107_brace_refuted, C107_blank_refuted).
The fonts of a text are loaded again with every letter typed after them and never unloaded (C108_bounded_refuted).

**Unicode.** Overlong forms, surrogates and numbers above U+10FFFF are accepted, the empty string is undefined
(C07_validator_refuted). Decoding four-byte characters fails an assert in debug builds with signed `char`
(C06_decode_refuted). A stray continuation byte makes no progress in release builds (C08_progress_refuted).

**Preprocessor.** `\iff` counts as a conditional (C18). Delimiters of several tokens are matched differently from TeX and braces of
delimited arguments are kept (C19). `\expandafter\a\m` with undefined `\m` outputs `\m` before `\a`
(C22_undefined_refuted). A parameter token inside `\csname` is undefined behaviour (C62_csname_refuted). `endGroup` during
argument matching leaves a dangling pointer (C17_dangling_refuted). `Format::parse` loses the definitions after a
macro call (C23_after_call_refuted). More than nine parameters through `define` is undefined behaviour.

**Token.** An assignment whose allocation fails leaves a token with no live member (C60_assign_throw_refuted).

**Units and parsers.** `1-2pt` is read as 12pt (C09). `D plus E` and `D minus F` are always refused
(C11_plus_refuted, C11_minus_refuted). A shrink without unit becomes filll. A parshape with an infinite unit fails an assert
(C12_infinite_aborts). A trailing empty option is dropped (C13).

**Boxes.** `order()` tests fill twice and never filll (C30_order_refuted). Reboxing to the natural width keeps the old glue
ratio (C31_rebox_refuted). Negative stretch leaves the box unfilled (C28_negative_stretch_refuted). `vtop` of an empty list is
undefined behaviour (C27_vtop_empty_refuted). `lineskiplimit` is ignored (C32_lineskiplimit_refuted). The space factor
clamp at 1000 is overwritten (C33_spacefactor_refuted). `VBoxEditor::changeHeight` is lost without `done()`
(C64_changeHeight_refuted). Editing a list after a rebox leaves stale metrics (C64_stale_refuted).

**Line breaking.** The ratio used to choose breaks subtracts leftskip and rightskip (C42_ratio_refuted). A line that cannot
shrink gets +10000. `filll` is invisible. The first line counts as following a tight one. Demerits overflow `int`
(C37_overflow_refuted). A break followed by discardable items up to and beyond the next break reads past the list
(C43_past_end_refuted, C43_past_end_default_refuted). With a parshape the line lacks its indentation
(C40_parshape_refuted). An unprepared list may lose its last line (C39_unprepared_refuted).

**Math parser.** A braced subscript becomes the superscript (C48_refuted). `\frac{a\over b}{c}`,
`\left( a\over b\right)`, `\matrix{^2}` are misread or throw (C46_..._refuted). `\frac\textstyle x` is undefined behaviour
(C47_refuted). `a\over b\over c` throws when finished. `Style::fromId` is unchecked (C44).

**Symbols.** 18 wrong characters (sum, prod, most big operators, cdot, circ, bullet, triangleleft, amalg,
sqsupseteq, ni), 20 unknown symbols, three pairs of names with the same symbol (C85_refuted, C85_unknown).

**Math typesetter.** Spaces follow the initial style (C50_refuted). Rule 5 never fires and rule 6 misses fractions
and delimiters (C51_refuted, C51_fraction_refuted). The penalty for Bin is put after Op (C52_refuted). A box in
a formula loops for ever (C53_refuted, C53_stuck_refuted). With two scripts the superscript is set twice and the subscript never
(C54_refuted). The list given is changed (C71_refuted), glue is dropped (C72_refuted), heights are added for
delimiters (C73_refuted), columns are misaligned (C74_refuted). A list of style changes only, an Op without nucleus, a
matrix without columns, an accent without symbol and a family outside 0..15 are undefined behaviour.
The lower of two scripts is too low by its height and the depth of the upper one (C54_low). A radicand is never centred
under a deep sign, since the sign's depth is compared with its own height (C86_refuted). Scripts on an accented symbol move the
accent (C87_refuted). Math glue is converted again on each run (C89_again_refuted). A style change between `\left` and
`\right` moves the delimiters to the axis of that style (C68_style_refuted).

**Equation editor.** A last control word is not shown (C90_last_refuted); a character outside ASCII becomes one symbol per byte
(C90_bytes_refuted), and an exception through `writeSymbol` (C90_symbol). A list that only changes the style crashes the editor
(`{\textstyle}`, or `\textstyle ` while `\textstyle x` is being typed), and so does `\left(a\over b}\right)` (C101_crashes,
C102_typing_refuted).

**Linebreaks viewer.** Emptying a glue or dimension field, or writing a sign in it, ends the program: `std::stof` throws from
`finish()` outside of the handler (C94_clear_refuted, C94_crash_refuted). An empty text, or one that cannot be broken, leaves the old
paragraph and its demerits on the screen (C93_empty_refuted, C93_stale_refuted). Two blanks after a full line, with
a right skip that stretches, are undefined behaviour (C93_double_space_refuted). A word that is no number is a zero of the
shape (C95_no_number_refuted). Reset forgets french spacing (C96).

**Widgets.** `vbox` ignores the shift of its boxes, so a shifted one sticks out (C98_shift_refuted). A page window narrower
than 780 hides columns of text and cannot be scrolled sideways (C99_narrow_refuted); a page higher than 2^24 is cut
(C99_high_refuted); if a page is at most 20 rows too high, up to 10 rows of its margins are cut at each end. After a text
with an error the equation editor shows the old formula but its table of used parameters is empty (C100_error_refuted). A font
whose id is 12 or more is undefined behaviour in the recorder (C100_fonts). A large operator asks for the axis height, but the shifted box is
dropped, so the parameter is shown as used although it does not matter (C100_needed_refuted).

**showlists.** Op, Over, Under, Acc and Vcent print no name and a first empty line is swallowed (C55_refuted). A newline
character breaks a line (C55_newline_refuted). A matrix without columns divides by zero (C55_no_columns_refuted).

**Fonts.** cmsy5 has design size 7 (C56_design_refuted). The slant is scaled like a length (C78_refuted). Conversion is
not exact in single precision (C56_float_refuted). Families 4 to 15 have no font, `reset` appends
(C77_family_refuted, C77_reset_refuted). `sfcode` lacks 999 for capitals and 0 for closing characters (C79_refuted).

**Page editor.** One closing brace too many is undefined behaviour (C58_refuted). `\font\a={spec}` keeps the brace
(C59_refuted). A paragraph that begins with `$x$` always throws (C82_refuted). The last token may stay in the
lexer and come out in the next text (C83_refuted). `&` is dropped in formulas (C91_tab_refuted). The character that ends a
dimension is lost (C91_stop_refuted). A parshape persists (C91_shape_stays_refuted). Also, without a theorem of their own:
`^ _ & # ~` are ignored in text; one invalid UTF-8 lead byte swallows later characters; `\font` names are global;
`\hbox{a\par}` closes the box early; `$$` inside nested boxes closes all of them; CR LF is read as a line end and a
`\par` (`removeCRLF` is never called); `\font\a=}` takes the front of an empty list; `\kern3pt{` swallows the brace.

## Wrong programs

The theorems were tested against programs with a seeded error: one definition of a model file was edited in a scratch
copy and everything that depends on it rebuilt. `seeded/LOG.jsonl` has one line per attempt: the definition, the
edit, the claim it breaks, the theorems whose proofs fail, and the theorems that were tightened because none failed at first.
An empty `failed` list comes with a note: either the edit does not change what the code does, or it does not break any of the properties.
