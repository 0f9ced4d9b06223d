{"id": "C01", "title": "The incremental lexer produces the tokens a whole-text tokenizer would", "statement": "Feeding a text to Lexer one character at a time yields exactly the token list (or the exception) obtained by reading the whole text with TeX's rules: a control word is the escape character plus the longest run of letters, a control symbol is the escape character plus one non-letter, a comment runs to the end of line, # plus a digit 1..9 is a parameter, a blank line is \\par, other line ends and runs of spaces are one space.", "quantifier": "every text, every assignment of the 16 categories to the 256 bytes, every starting line state", "why_tests_cant": "The input space is infinite; a test fixes one string and one category table.", "anchors": ["include/tex/lexer.h: Lexer::write, parseCS, parseCOM, produceCharacterToken, produceControlSequence", "src/lexer.cpp: DefaultCatCodes"]}
{"id": "C02", "title": "Lexed text never starts with, or repeats, a space token", "statement": "In the token list produced by a fresh Lexer no two space tokens are adjacent and the first token is not a space token.", "quantifier": "every text and every category table on which the lexer does not throw", "why_tests_cant": "The input space is infinite; a test fixes one string and one category table.", "anchors": ["include/tex/lexer.h: Lexer::write (CharCategory::Space, CharCategory::EndOfLine)"]}
{"id": "C03", "title": "Comments are inert", "statement": "Replacing the characters of a comment (between the comment character and the end of line) by any other characters, including invalid ones, changes neither the tokens produced before or after nor whether an exception is thrown.", "quantifier": "every text before and after, every pair of comment bodies without end-of-line characters, every category table", "why_tests_cant": "The input space is infinite; a test fixes one string and one category table.", "anchors": ["include/tex/lexer.h: Lexer::parseCOM, Lexer::write"]}
{"id": "C04", "title": "Lexing is streaming: tokens are never retracted and draining is harmless", "statement": "Splitting the input in chunks, and taking tokens out of output() between chunks, yields the same overall token sequence as lexing the concatenation with nobody draining.", "quantifier": "every text, every split into chunks, every draining schedule, every category table", "why_tests_cant": "Schedules of interleaved writes and reads are unbounded.", "anchors": ["include/tex/lexer.h: Lexer::write, Lexer::output", "include/tex/token.h: read"]}
{"id": "C05", "title": "A control word is delivered by the time the text ends", "statement": "After the whole text has been written every control sequence occurring in it has been put in the output (a text ending with a control word loses nothing).", "quantifier": "every text", "why_tests_cant": "One missing token at one position of one text is invisible to tests that always terminate control words.", "anchors": ["include/tex/lexer.h: Lexer::parseCS", "src/parsing/format.cpp: Format::parse"]}
{"id": "C06", "title": "UTF-8 encoding round-trips for every code point", "statement": "For every code point up to U+1FFFFF, Utf8Char(c) holds the standard UTF-8 bytes of c followed by a NUL, size() is their number, and decoding those bytes gives c back and consumes exactly those bytes.", "quantifier": "every code point 0..0x1FFFFF", "why_tests_cant": "There are two million code points and four encodings; tests sample a handful.", "anchors": ["include/tex/unicode.h: Utf8Char, read_utf8_char"]}
{"id": "C07", "title": "The UTF-8 validator accepts exactly one well-formed character", "statement": "is_utf8_char(s) is true exactly when s is the UTF-8 encoding of one Unicode scalar value (no overlong forms, no surrogates, at most U+10FFFF).", "quantifier": "every byte string", "why_tests_cant": "All byte strings of length up to 4 (2^32) plus all longer ones.", "anchors": ["include/tex/unicode.h: is_utf8_char, read_utf8_char"]}
{"id": "C08", "title": "Decoding a UTF-8 text gives back its characters", "statement": "Reading characters one after another from the concatenation of the encodings of a list of code points returns that list and consumes the whole text; reading advances by at least one byte.", "quantifier": "every list of code points", "why_tests_cant": "The input space is infinite; a test fixes one string and one category table.", "anchors": ["include/tex/unicode.h: read_utf8_char, Utf8Char"]}
{"id": "C09", "title": "Dimension texts denote sign * factor in their unit", "statement": "For a text made of signs, a decimal factor and a unit keyword, the parsed Dimen has that unit and the value of the factor negated once per minus sign.", "quantifier": "every sign string, every decimal factor (with '.' or ','), each of the units, with or without a terminating character", "why_tests_cant": "The input space is infinite; a test fixes one string and one category table.", "anchors": ["src/parsing/dimenparser.cpp: DimenParser::write, DimenParser::finish", "include/tex/dimen.h", "include/tex/units.h"]}
{"id": "C10", "title": "Kern texts give the kern width in points, infinite units are refused", "statement": "A kern text with a finite unit yields a kern whose width is the dimension converted to points in the unit system; fil, fill and filll are rejected with an exception.", "quantifier": "every dimension text and every unit system", "why_tests_cant": "The input space is infinite; a test fixes one string and one category table.", "anchors": ["src/parsing/kernparser.cpp: KernParser::write, KernParser::finish", "include/tex/dimen.h"]}
{"id": "C11", "title": "Glue texts denote natural space, stretch and shrink", "statement": "A text 'D', 'D plus E', 'D minus F' or 'D plus E minus F' yields a glue with space D, stretch E (with its order) and shrink F (with its order), absent parts being zero.", "quantifier": "every three dimensions, every unit system", "why_tests_cant": "The input space is infinite; a test fixes one string and one category table.", "anchors": ["src/parsing/glueparser.cpp: GlueParser::write, GlueParser::finish"]}
{"id": "C12", "title": "A \\parshape text of n lines yields n (indent, length) pairs in order", "statement": "Parsing '=n i1 l1 ... in ln' yields the n pairs in order, converted to points.", "quantifier": "every n, every sequence of 2n dimensions, every unit system", "why_tests_cant": "The input space is infinite; a test fixes one string and one category table.", "anchors": ["src/parsing/parshapeparser.cpp: ParshapeParser::write, ParshapeParser::finish"]}
{"id": "C13", "title": "Option lists round-trip", "statement": "Writing '[k1=v1,k2=v2,k3]' for a list of options and parsing it returns the same keys and values in the same order, a key without '=' having the empty value; nothing written after ']' changes the result.", "quantifier": "every list of keys and values free of the structural characters", "why_tests_cant": "The input space is infinite; a test fixes one string and one category table.", "anchors": ["src/parsing/optionsparser.cpp: OptionsParser::write, OptionsParser::result"]}
{"id": "C14", "title": "Unit keywords and conversions are consistent", "statement": "Every unit keyword is recognised as its unit and no other text is; conversion to points is linear and uses the standard factors (1in=72.27pt, 72bp=1in, 2.54cm=1in, 10mm=1cm, 1157dd=1238pt, 1cc=12dd, 1pc=12pt).", "quantifier": "every keyword text, every value, every unit system", "why_tests_cant": "The input space is infinite; a test fixes one string and one category table.", "anchors": ["include/tex/units.h", "include/tex/dimen.h: Dimen"]}
{"id": "C15", "title": "Text that contains no control sequence passes through the preprocessor unchanged", "statement": "When the preprocessor is idle, writing character tokens appends exactly those tokens, in order, to its output and changes no macro definition.", "quantifier": "every list of character tokens, every set of definitions", "why_tests_cant": "The input space is infinite; a test fixes one string and one category table.", "anchors": ["src/parsing/preprocessor.cpp: Preprocessor::write, process"]}
{"id": "C16", "title": "\\def records exactly the written parameter text and replacement text", "statement": "After \\def\\name<parameter text>{<body>} with balanced body, find(name) is a macro with exactly that parameter text and body, other names are unaffected and nothing is output.", "quantifier": "every name, every well-formed parameter text, every balanced body, every prior state", "why_tests_cant": "The input space is infinite; a test fixes one string and one category table.", "anchors": ["src/parsing/preprocessor.cpp: Preprocessor::readMacro, define, find"]}
{"id": "C17", "title": "Groups scope macro definitions", "statement": "A definition made inside a group is visible until the group ends; ending the group restores exactly the meanings that held at its beginning, for every name.", "quantifier": "every sequence of definitions and balanced groups, of any nesting depth", "why_tests_cant": "Histories of nested groups and redefinitions are unbounded.", "anchors": ["src/parsing/preprocessor.cpp: Preprocessor::beginGroup, endGroup, define, find"]}
{"id": "C18", "title": "A conditional delivers exactly its selected branch", "statement": "\\ifbr A \\else B \\fi re-inserts exactly A when br holds and exactly B otherwise (nothing for a missing \\else), where A and B may contain properly nested conditionals (any control sequence whose name begins with 'if' opens one); no token of the other branch is delivered or executed.", "quantifier": "all token lists A, B with properly nested conditionals, both values of br", "why_tests_cant": "The input space is infinite; a test fixes one string and one category table.", "anchors": ["src/parsing/preprocessor.cpp: Preprocessor::branch, processControlSeq"]}
{"id": "C19", "title": "A macro call is replaced by its body with the arguments substituted", "statement": "Calling a macro consumes exactly its arguments (braced group without its braces, single token, or text up to the delimiter) and puts in front of the remaining input the replacement text in which each #i is the i-th argument; argument tokens are not re-scanned for parameters.", "quantifier": "every macro, every argument list matching its parameter text, every remaining input", "why_tests_cant": "The input space is infinite; a test fixes one string and one category table.", "anchors": ["src/parsing/preprocessor.cpp: Preprocessor::expandMacro, Macro::expand"]}
{"id": "C20", "title": "Macro::match is sound", "statement": "When Macro::match reports a complete match, the tokens given are the parameter text with each parameter replaced by the returned argument (possibly in braces), and the number of arguments is the number of parameters.", "quantifier": "every parameter text and every token list", "why_tests_cant": "The input space is infinite; a test fixes one string and one category table.", "anchors": ["src/parsing/preprocessor.cpp: Macro::match, Matcher"]}
{"id": "C21", "title": "\\csname ... \\endcsname behaves as the control sequence it spells", "statement": "Writing \\csname c1...cn\\endcsname has the same effect as writing the control sequence named c1...cn.", "quantifier": "every list of character tokens, every state", "why_tests_cant": "The input space is infinite; a test fixes one string and one category table.", "anchors": ["src/parsing/preprocessor.cpp: Preprocessor::formCs"]}
{"id": "C22", "title": "\\expandafter expands the second token before the first", "statement": "\\expandafter\\a\\m with \\m a parameterless macro leaves \\a followed by the body of \\m in the input.", "quantifier": "every name a, every parameterless macro m, every remaining input", "why_tests_cant": "The input space is infinite; a test fixes one string and one category table.", "anchors": ["src/parsing/preprocessor.cpp: Preprocessor::expandafter, leave"]}
{"id": "C23", "title": "Format::parse returns each macro defined by the text, once", "statement": "Parsing a format text made of definitions returns the last definition of each name, each name once.", "quantifier": "every sequence of definitions", "why_tests_cant": "The input space is infinite; a test fixes one string and one category table.", "anchors": ["src/parsing/format.cpp: Format::parse"]}
{"id": "C24", "title": "Natural dimensions of an hbox", "statement": "An hbox with no requested width has the sum of its items' widths as width, and as height (depth) the largest height above (depth below) the baseline of its boxes, shifted boxes included, and never less than 0.", "quantifier": "every horizontal list, every shift, in any arithmetic", "why_tests_cant": "Lists are unbounded.", "anchors": ["src/hbox.cpp: HBox::getBoxingInfo, HBox::rebox"]}
{"id": "C25", "title": "Glue setting: an hbox to a given width gets that width unless glue cannot reach it", "statement": "With a requested width the result is a normal box of exactly that width whenever the highest-order available glue can reach it; finite shrink is never exceeded; otherwise the box is reported overfull or underfull and its width says so. The glue order chosen is the highest order present.", "quantifier": "every horizontal list and every requested width", "why_tests_cant": "Ratios depend on all glue of the list; tests fix one list.", "anchors": ["src/listbox.cpp: ListBox::setGlue", "src/hbox.cpp: HBox::rebox(float)"]}
{"id": "C26", "title": "Natural dimensions of a vbox", "statement": "A vbox's height plus depth is the sum of total heights, kerns and glue of its list; its depth is the depth of its last item when that is a box and 0 otherwise; its width is the largest box width (at least 0).", "quantifier": "every vertical list", "why_tests_cant": "Lists are unbounded.", "anchors": ["src/vbox.cpp: VBox::getBoxingInfo, VBox::rebox_vbox"]}
{"id": "C27", "title": "vtop and changeHeight move the reference point only", "statement": "Turning a vbox into a vtop, or changing its height through the editor, keeps height + depth; a vtop's height is the height of its first item if that is a box, else 0.", "quantifier": "every nonempty vertical list, every height", "why_tests_cant": "Lists are unbounded.", "anchors": ["src/vbox.cpp: VBox::make_vtop, VBoxEditor::changeHeight, rebox_vtop"]}
{"id": "C28", "title": "Set glue fills the box: layout ends at the box edge", "statement": "Reading the layout of an hbox built to a requested width, the horizontal position after its last item is the origin plus the box width (exact arithmetic); for a vbox the vertical position after the last item is the bottom edge.", "quantifier": "every horizontal or vertical list, every requested size", "why_tests_cant": "Needs exact accounting over unbounded lists; float tests hide it.", "anchors": ["src/listbox.cpp: ListBox::setGlue", "include/tex/layoutreader.h: read_hbox_full, read_vbox_full"]}
{"id": "C29", "title": "Full and partial layout reading visit the same boxes at the same positions", "statement": "A partial reader that never stops sees the same (box, position) sequence as a full reader, and one that stops sees a prefix of it ending with the first box on which it answered Done; every box of the layout is visited exactly once.", "quantifier": "every box tree, every reader", "why_tests_cant": "Trees are unbounded.", "anchors": ["include/tex/layoutreader.h: read_hbox_full, read_vbox_full, read_hbox_partial, read_vbox_partial, read"]}
{"id": "C30", "title": "GlueShrinkStretch::order reports the highest infinite order present", "statement": "order() is Filll if the filll component is nonzero, else Fill if fill is nonzero, else Fil if fil is nonzero, else Normal.", "quantifier": "every four components", "why_tests_cant": "Needs all 16 zero/nonzero patterns and every value.", "anchors": ["src/glue.cpp: GlueShrinkStretch::order"]}
{"id": "C31", "title": "Reboxing depends only on the list and the requested size", "statement": "Setting an existing hbox again to a width gives the same box as building it afresh from its list with that width.", "quantifier": "every history of rebox operations on a box", "why_tests_cant": "Depends on the history of earlier settings.", "anchors": ["src/hbox.cpp: HBox::rebox", "src/listbox.cpp: ListBox::setGlue"]}
{"id": "C32", "title": "Baselines in a vertical list are baselineskip apart", "statement": "Pushing boxes to a VListBuilder separates consecutive baselines by exactly the baselineskip space whenever that leaves nonnegative glue, and otherwise inserts lineskip; no glue before the first box; exactly one glue between consecutive boxes; the glue keeps baselineskip's stretch and shrink. (TeX compares with lineskiplimit.)", "quantifier": "every sequence of boxes, every baselineskip, lineskip, lineskiplimit", "why_tests_cant": "Sequences are unbounded.", "anchors": ["src/vbox.cpp: VListBuilder::push_back"]}
{"id": "C33", "title": "Interword glue follows TeX's space factor rules", "statement": "After a character with space factor code g the space factor is unchanged if g=0, 1000 if it was below 1000 and g>1000, and g otherwise; after a box it is 1000; interword glue has stretch scaled by f/1000, shrink by 1000/f, and extra space added when f>=2000; glue and kerns do not change it.", "quantifier": "every sequence of characters, boxes, glue", "why_tests_cant": "Histories are unbounded.", "anchors": ["src/hlist.cpp: HListBuilder::push_back, push_back_interword_glue"]}
{"id": "C34", "title": "Chosen line breaks are legal and ordered", "statement": "computeBreakpoints returns the start followed by strictly increasing positions, each a penalty below 10000 or a glue right after a box, on consecutive line numbers starting at 0.", "quantifier": "every horizontal list, every paragraph setting", "why_tests_cant": "Lists and settings are unbounded.", "anchors": ["src/linebreaks.cpp: Paragraph::computeBreakpoints, computeFeasibleBreakpoints, tryBreak"]}
{"id": "C35", "title": "Forced breaks are always taken", "statement": "Every penalty <= -10000 of the list is one of the chosen breakpoints; in a prepared list the last chosen breakpoint is the final forced one.", "quantifier": "every horizontal list, every setting", "why_tests_cant": "Lists are unbounded.", "anchors": ["src/linebreaks.cpp: Paragraph::tryBreak, isForcedLinebreak, prepare"]}
{"id": "C36", "title": "Every chosen line is within tolerance", "statement": "Each line between consecutive chosen breakpoints has glue set ratio between -1 and the tolerance bound, and the recorded demerits are the sum of the lines' demerits (badness, penalty, and adjacency demerits).", "quantifier": "every horizontal list, every setting", "why_tests_cant": "Lists are unbounded.", "anchors": ["src/linebreaks.cpp: Paragraph::tryBreak, computeDemerits, computeGlueRatio"]}
{"id": "C37", "title": "The chosen breaks have minimal total demerits", "statement": "No other admissible sequence of legal breaks of the same list has smaller total demerits.", "quantifier": "every horizontal list, every setting, every competing break sequence", "why_tests_cant": "There are exponentially many competing break sequences.", "anchors": ["src/linebreaks.cpp: Paragraph::tryBreak, computeBreakpoints"]}
{"id": "C38", "title": "Line breaking fails only when no admissible breaking exists", "statement": "computeBreakpoints throws exactly when the list has no admissible sequence of breaks through all its forced breaks.", "quantifier": "every horizontal list, every setting", "why_tests_cant": "Requires considering all break sequences.", "anchors": ["src/linebreaks.cpp: Paragraph::computeBreakpoints, tryBreak"]}
{"id": "C39", "title": "Paragraph building loses no material", "statement": "The lines returned contain, in order, every box of the input exactly once; only discardable items following a break are dropped.", "quantifier": "every horizontal list, every setting", "why_tests_cant": "Lists are unbounded.", "anchors": ["src/linebreaks.cpp: Paragraph::create, createLine, consumeDiscardable"]}
{"id": "C40", "title": "Each line is set to the length required for its line number", "statement": "Line n of the paragraph is an hbox set to linelength(n) plus its indentation, between leftskip and rightskip, preceded (followed) by the indentation.", "quantifier": "every horizontal list, every parshape and hanging indentation", "why_tests_cant": "Shapes are unbounded.", "anchors": ["src/linebreaks.cpp: Paragraph::createLine, linelength"]}
{"id": "C41", "title": "Line lengths follow parshape, then hanging indentation, then hsize", "statement": "linelength(n) is the n-th parshape length (the last one repeated), else hsize - |hangindent| for the lines selected by hangafter (the first |hangafter| lines if negative, the lines from hangafter on otherwise), else hsize.", "quantifier": "every line number, every setting", "why_tests_cant": "Line numbers and shapes are unbounded.", "anchors": ["src/linebreaks.cpp: Paragraph::linelength, hangindentAppliesToLine"]}
{"id": "C42", "title": "The ratio used to choose breaks is the ratio the line is set with", "statement": "The glue ratio the line breaker computes for a line equals the glue ratio of the hbox later built for that line.", "quantifier": "every line, every leftskip/rightskip", "why_tests_cant": "Depends on all glue in the line.", "anchors": ["src/linebreaks.cpp: Paragraph::computeGlueRatio, createLine", "src/glue.cpp: GlueShrinkStretch::order"]}
{"id": "C43", "title": "Paragraph building never reads past the list", "statement": "prepare followed by create never advances an iterator past the end of the list and its internal assertion never fails.", "quantifier": "every horizontal list, every setting", "why_tests_cant": "Undefined behaviour may not show in a test.", "anchors": ["src/linebreaks.cpp: Paragraph::consumeDiscardable, create, tryBreak"]}
{"id": "C44", "title": "Math style algebra", "statement": "Superscript and numerator styles keep crampedness, subscript and denominator styles are cramped, sizes go D,T -> S -> SS and never grow, cramping is idempotent and keeps the size, comparison orders styles by size.", "quantifier": "all eight styles and all pairs", "why_tests_cant": "Cheap to test pointwise, but clients rely on the laws along arbitrary nesting.", "anchors": ["src/math/style.cpp", "include/tex/math/style.h"]}
{"id": "C45", "title": "Math codes decompose and recompose", "statement": "A math code value is class*4096 + family*256 + position with family<16 and position<256, and the decomposition is unique.", "quantifier": "every nonnegative code value", "why_tests_cant": "The domain is large.", "anchors": ["include/tex/mathcode.h: MathCode", "src/mathcode.cpp"]}
{"id": "C46", "title": "The math parser rebuilds the formula that was written", "statement": "Sending to MathParser the events of a formula (symbols, scripts, braces, \\over, \\frac, \\sqrt, \\left..\\right, \\matrix) yields exactly that formula as math list.", "quantifier": "every formula of any depth", "why_tests_cant": "Formulas nest arbitrarily.", "anchors": ["src/parsing/mathparser.cpp: MathParser"]}
{"id": "C47", "title": "The math parser never pops an empty stack", "statement": "Whatever the order of calls, MathParser either throws or continues; it never accesses an empty internal stack.", "quantifier": "every sequence of public calls", "why_tests_cant": "Call sequences are unbounded.", "anchors": ["src/parsing/mathparser.cpp: MathParser"]}
{"id": "C48", "title": "A braced subscript becomes the subscript", "statement": "x_{f} yields an atom whose subscript is f and whose superscript is absent.", "quantifier": "every formula f", "why_tests_cant": "The input space is infinite; a test fixes one string and one category table.", "anchors": ["src/parsing/mathparser.cpp: MathParser::endMathList"]}
{"id": "C49", "title": "Matrices are rectangular", "statement": "A parsed \\matrix has rows*cols cells, cols is the length of its longest row, written cells are at their position and missing cells are empty.", "quantifier": "every sequence of cells, tabs and \\cr", "why_tests_cant": "Shapes are unbounded.", "anchors": ["include/tex/math/matrix.h", "src/math/matrix.cpp", "src/parsing/mathparser.cpp: MatrixBuilder"]}
{"id": "C50", "title": "Inter-atom spacing follows TeX's table", "statement": "The space inserted between two consecutive atoms is the one of the TeXbook table (chapter 18) for their classes, and the parenthesised entries are dropped in script styles.", "quantifier": "all pairs of classes, all styles, all formulas", "why_tests_cant": "Applies to every adjacent pair of every formula.", "anchors": ["src/math/math-typeset.cpp: insertSpace, tables"]}
{"id": "C51", "title": "Binary operators in non-binary context become ordinary", "statement": "After preprocessing, no Bin atom is first, last, follows a Bin, Op, Rel, Open or Punct atom, or precedes a Rel, Close or Punct atom.", "quantifier": "every math list", "why_tests_cant": "Lists are unbounded.", "anchors": ["src/math/math-typeset.cpp: rule5, rule6, preprocess"]}
{"id": "C52", "title": "Line-break penalties are offered after relations and binary operators", "statement": "mlist2hlist inserts relpenalty after Rel and binoppenalty after Bin atoms that are not last, and no penalty elsewhere.", "quantifier": "every math list", "why_tests_cant": "Lists are unbounded.", "anchors": ["src/math/math-typeset.cpp: MathTypesetter::mlist2hlist"]}
{"id": "C53", "title": "Preprocessing of a math list terminates", "statement": "MathTypesetter processes every node of the list and terminates.", "quantifier": "every math list", "why_tests_cant": "Non-termination only shows on particular node kinds.", "anchors": ["src/math/math-typeset.cpp: MathTypesetter::preprocess"]}
{"id": "C54", "title": "An atom with two scripts shows both", "statement": "When an atom has a superscript and a subscript, the box attached to it contains the typeset superscript above the typeset subscript.", "quantifier": "every nucleus and scripts", "why_tests_cant": "Depends on the content of both scripts.", "anchors": ["src/math/math-typeset.cpp: attachSubSup"]}
{"id": "C55", "title": "showlists prints one indented line per node", "statement": "showlists prints the nodes in order, each line prefixed by one character per nesting level of the node it describes, and nesting prefixes are balanced.", "quantifier": "every list, of any depth", "why_tests_cant": "Depth is unbounded.", "anchors": ["src/showlists.cpp: ShowLists"]}
{"id": "C56", "title": "Font dimensions convert between absolute and relative and back", "statement": "to_relative(to_absolute(f)) = f for every font with nonzero design size (exact arithmetic), and each built-in font records the design size in its name.", "quantifier": "every TFM record", "why_tests_cant": "Real-valued fields.", "anchors": ["tfm/src/tfm.cpp: to_absolute, to_relative, cmsy5"]}
{"id": "C57", "title": "Input positions and CRLF removal", "statement": "removeCRLF removes exactly the carriage returns and keeps everything else in order; position() is the number of newlines read and the number of characters since the last one.", "quantifier": "every text, every reading position", "why_tests_cant": "The input space is infinite; a test fixes one string and one category table.", "anchors": ["apps/page-editor/inputstream.cpp: InputStream::removeCRLF, position"]}
{"id": "C58", "title": "Groups are balanced in the typesetting machine", "statement": "Parameters and macros changed within braces are restored at the closing brace, and an unbalanced closing brace is rejected rather than corrupting the machine.", "quantifier": "every sequence of opening and closing braces", "why_tests_cant": "Histories are unbounded.", "anchors": ["apps/page-editor/typesetting-machine.cpp: beginGroup, endGroup", "apps/page-editor/mode.cpp: Mode::endGroup"]}
{"id": "C59", "title": "\\font assignments are parsed exactly", "statement": "\\font\\name={spec} yields font name and spec text exactly.", "quantifier": "every name and every spec text without closing brace", "why_tests_cant": "The input space is infinite; a test fixes one string and one category table.", "anchors": ["apps/page-editor/fontparser.cpp: FontParser"]}
{"id": "C60", "title": "Token has value semantics", "statement": "As long as no allocation fails, a Token copied, moved or assigned any number of times compares equal to the value last put in it and holds exactly one live alternative; in any case every string it creates is destroyed exactly once.", "quantifier": "every sequence of constructions, assignments and destructions", "why_tests_cant": "Lifetime errors need not show in tests.", "anchors": ["include/tex/token.h: Token"]}
{"id": "C61", "title": "The preprocessor's result does not depend on when its input is consumed", "statement": "Any two runs that write the same tokens in the same order, with advance() called at any points in between, and that end with an empty input, end in the same state.", "quantifier": "every two interleavings of writes and advances, from every state", "why_tests_cant": "The number of interleavings is unbounded.", "anchors": ["src/parsing/preprocessor.cpp: Preprocessor::write, advance"]}
{"id": "C62", "title": "No token stream breaks the preprocessor", "statement": "Writing and advancing any stream of tokens the lexer can produce either succeeds or throws: no out-of-range access, dangling pointer or failed assertion (except for a parameter token inside \\csname).", "quantifier": "every stream of tokens and advances from the initial state", "why_tests_cant": "The input space is infinite; a test fixes one string and one category table.", "anchors": ["src/parsing/preprocessor.cpp: Preprocessor::write, advance, process"]}
{"id": "C63", "title": "Default category codes", "statement": "The default category codes are plain TeX's: the special characters have their documented categories, exactly the ASCII letters are letters, every other printable character is Other.", "quantifier": "every byte", "why_tests_cant": "A test covers a few characters; the claim is about all 256, including those nobody types.", "anchors": ["src/lexer.cpp: Lexer::DefaultCatCodes"]}
{"id": "C64", "title": "A box editor leaves the box with the dimensions that were asked for", "statement": "After an editor session, the box has the dimensions of the last rebox requested (natural, to a size, or top-aligned) for the list at that time, or its natural dimensions if none was requested; a height changed by hand followed by done() stays and keeps the total height.", "quantifier": "every box and every sequence of list edits and requests", "why_tests_cant": "The sequences of edits are unbounded, and the last step happens in a destructor.", "anchors": ["src/hbox.cpp: HBoxEditor", "src/vbox.cpp: VBoxEditor"]}
{"id": "C65", "title": "Raising a box moves it up by the amount", "statement": "In a horizontal list a box raised by a counts with height + a and depth - a, is drawn a higher, and takes the same width; lowering by a is raising by -a.", "quantifier": "every box, every amount, every surrounding list", "why_tests_cant": "Real-valued.", "anchors": ["src/hbox.cpp: raise, lower, HBoxEditor::rebox"]}
{"id": "C66", "title": "A fraction is set around the axis", "statement": "In a typeset fraction the bar is centred on the math axis, as wide as the wider of numerator and denominator, which are centred; the numerator's baseline is at least num1/num2 above, the denominator's at least denom1/denom2 below, each at least the prescribed clearance from the bar, and no farther than one of these two bounds requires.", "quantifier": "every numerator, denominator, style and font parameters", "why_tests_cant": "Real-valued dimensions of nested formulas.", "anchors": ["src/math/math-typeset.cpp: rule15_processfraction"]}
{"id": "C67", "title": "Overlined and underlined atoms", "statement": "The bar over or under an atom is as wide as the atom, of the rule thickness, three thicknesses away from it, with one more thickness beyond, and the atom keeps its baseline.", "quantifier": "every nucleus, style and font parameters", "why_tests_cant": "Real-valued.", "anchors": ["src/math/math-typeset.cpp: rule9_processover, rule10_processunder"]}
{"id": "C68", "title": "Centred boxes and delimiters stand on the axis", "statement": "A vcent atom and the delimiters of \\left and \\right extend equally above and below the math axis.", "quantifier": "every box and delimiter, every style and font parameters", "why_tests_cant": "Real-valued.", "anchors": ["src/math/math-typeset.cpp: rule8_processvcent, processBoundary"]}
{"id": "C69", "title": "The bar of a radical continues its sign", "statement": "The bar over the radicand has the thickness of the top of the radical sign and the same height, is as wide as the radicand, and the radicand keeps its baseline.", "quantifier": "every radicand, style and font parameters", "why_tests_cant": "Real-valued.", "anchors": ["src/math/math-typeset.cpp: rule11_processradical"]}
{"id": "C70", "title": "Limits of operators", "statement": "When the scripts of an operator become limits, operator and limits are centred in the width of the widest, the limits are shifted by half the slant in opposite directions and separated by the prescribed distances, and the operator keeps its baseline.", "quantifier": "every operator with any limits, style and font parameters", "why_tests_cant": "Real-valued.", "anchors": ["src/math/math-typeset.cpp: rule13_processop"]}
{"id": "C71", "title": "Typesetting does not change the formula", "statement": "Typesetting the same math list a second time gives the same result.", "quantifier": "every math list", "why_tests_cant": "A test would have to typeset twice.", "anchors": ["src/math/math-typeset.cpp: MathTypesetter::preprocess, boxit"]}
{"id": "C72", "title": "Glue in a formula is kept", "statement": "Glue in a math list appears in the resulting horizontal list.", "quantifier": "every glue in every list", "why_tests_cant": "Lists are unbounded.", "anchors": ["src/math/math-typeset.cpp: MathTypesetter::mlist2hlist"]}
{"id": "C73", "title": "Delimiters fit the tallest part", "statement": "The size asked for delimiters depends on the largest height and depth between them, not on the number of parts.", "quantifier": "every formula between delimiters", "why_tests_cant": "Lists are unbounded.", "anchors": ["src/math/math-typeset.cpp: processBoundary"]}
{"id": "C74", "title": "Columns of a matrix are aligned", "statement": "All cells in a column of a matrix get boxes of the same width; its rows stand 1.2 times the size of a parenthesis apart, or a tenth of it when they are too high.", "quantifier": "every matrix", "why_tests_cant": "Number of cells is unbounded.", "anchors": ["src/math/math-typeset.cpp: processMatrix"]}
{"id": "C75", "title": "The box of a node does not depend on its neighbours", "statement": "In a typeset formula each atom, fraction, root or matrix gives the same box as when it is typeset alone in the style at its place; delimiters at both ends are asked for the same size.", "quantifier": "every math list", "why_tests_cant": "Lists and nesting are unbounded.", "anchors": ["src/math/math-typeset.cpp: MathTypesetter::mlist2hlist, preprocess"]}
{"id": "C76", "title": "Stretched signs have the size asked for", "statement": "A delimiter or radical sign is at least as high as asked, exactly so if it had to be stretched, and keeps its width and the proportion of height and depth.", "quantifier": "every sign of positive size and every request", "why_tests_cant": "Real-valued inputs.", "anchors": ["apps/common/qt-typeset-engine.cpp: TypesetEngine::typesetDelimiter, typesetRadicalSign"]}
{"id": "C77", "title": "Every math family has fonts of the current magnification", "statement": "After the constructor or reset(mag), each of the sixteen families of mathfonts() has its three fonts, of sizes 10, 7 and 5 times mag.", "quantifier": "every family, every history of resets", "why_tests_cant": "Histories are unbounded.", "anchors": ["apps/common/qt-typeset-engine.cpp: TypesetEngine::reset, initFont, mathfonts"]}
{"id": "C78", "title": "Only lengths are scaled to a font size", "statement": "to_absolute leaves the slant, which is a ratio, unchanged.", "quantifier": "every TFM record", "why_tests_cant": "Real-valued fields.", "anchors": ["tfm/src/tfm.cpp: to_absolute"]}
{"id": "C79", "title": "Space factor codes as in plain TeX", "statement": "sfcode gives the code of plain TeX to every ASCII character, with and without french spacing.", "quantifier": "every character", "why_tests_cant": "A test checks the punctuation it thinks of.", "anchors": ["apps/common/qt-typeset-engine.cpp: QtFontMetricsProdiver::sfcode"]}
{"id": "C80", "title": "Font parameters are numbered as in the TeXbook", "statement": "sigma<i> and xi<i> are the i-th font dimension of the symbols and extension fonts.", "quantifier": "every index that compiles", "why_tests_cant": "The numbering must agree everywhere.", "anchors": ["include/tex/fontmetrics.h: FontMetrics::sigma, xi", "src/fontmetrics.cpp"]}
{"id": "C81", "title": "The typesetting machine stays coherent between two steps", "statement": "In every state reached by a machine, the stack of parameters is as high as the stack of macro scopes, at most one token is in flight, the loop that digests tokens ends, and when the machine is idle its only mode is the vertical one, so that the cast at the end of typeset succeeds.", "quantifier": "every host, every sequence of texts, every state reached", "why_tests_cant": "Histories are unbounded.", "anchors": ["apps/page-editor/typesetting-machine.cpp: TypesettingMachine::advance, digestToken, typeset"]}
{"id": "C82", "title": "A paragraph may begin with a formula", "statement": "A text that begins with $ and a letter is typeset like any other paragraph.", "quantifier": "every text that begins with a dollar sign and a letter", "why_tests_cant": "A test tries a few texts.", "anchors": ["apps/page-editor/verticalmode.cpp: VerticalMode::write_mathshift", "apps/page-editor/horizontalmode.cpp: HorizontalMode::HorizontalMode"]}
{"id": "C83", "title": "Every token of a text is digested, in order", "statement": "When a text has been typeset, all the tokens the lexer makes of it have gone through the preprocessor, the assignments and the modes, one after the other in the order of the text, and none is left for the next text.", "quantifier": "every host, every state reached, every text", "why_tests_cant": "Texts and macros are unbounded; the witness needs a macro that ends with a definition.", "anchors": ["apps/page-editor/typesetting-machine.cpp: TypesettingMachine::advance, sendToken, digestToken"]}
{"id": "C84", "title": "A text of paragraphs gives the page of these paragraphs", "statement": "A text of UTF-8 characters, blanks, balanced braces and hboxes, divided in paragraphs by \\par, gives the vertical list of the lines of each paragraph, whose horizontal list has one node for each character, one glue for each blank and one box for each hbox.", "quantifier": "every host, every such text, with an exception only where breaking the lines raises one", "why_tests_cant": "Texts and nesting are unbounded.", "anchors": ["apps/page-editor/typesetting-machine.cpp: TypesettingMachine::typeset", "apps/page-editor/verticalmode.cpp: VerticalMode::write_main", "apps/page-editor/horizontalmode.cpp: HorizontalMode::write_main, writeOutput, writeToVerticalMode"]}
{"id": "C85", "title": "Symbols are those of plain TeX", "statement": "Each symbol that plain TeX defines by mathchardef is known to the math front end with its class and family, with its Unicode character, and different symbols stay different.", "quantifier": "every symbol of plain TeX", "why_tests_cant": "Long constant tables; a test tries a few entries.", "anchors": ["src/parsing/mathparserfrontend.cpp: MathParserFrontend::symbolsmap, writeControlSequence, writeMathChar", "include/tex/mathchars.h"]}
{"id": "C86", "title": "What is under a radical is centred in its sign", "statement": "When the radical sign is deeper than the radicand, the clearance and the bar need, the clearance becomes half of what it, the depth of the sign and the height of the radicand leave (TeXbook, appendix G, rule 11).", "quantifier": "every radical, every engine, every style", "why_tests_cant": "Depends on the fonts.", "anchors": ["src/math-typeset.cpp: MathTypesetter::rule11_rad, processRoot"]}
{"id": "C87", "title": "An accent stands over its nucleus", "statement": "An accent is centred over its nucleus, its box begins below the top of the nucleus by the smaller of the height and the x-height, and the nucleus keeps its baseline, with or without scripts (rule 12).", "quantifier": "every accented atom, every engine, every style", "why_tests_cant": "Real-valued dimensions.", "anchors": ["src/math-typeset.cpp: MathTypesetter::rule12_acc"]}
{"id": "C88", "title": "The degree of a root", "statement": "The degree is set in scriptscript style, raised by six tenths of the height minus the depth of the radical, overlapping the sign by its width.", "quantifier": "every root, every engine, every style", "why_tests_cant": "Real-valued dimensions.", "anchors": ["src/math-typeset.cpp: MathTypesetter::processRoot"]}
{"id": "C89", "title": "Math glue is measured in the current font, once", "statement": "Math glue is converted with 18 mu to the quad of the symbol font in the style at its place; infinite components and other glue are left alone; converting twice changes nothing.", "quantifier": "every math list, every engine", "why_tests_cant": "Styles change inside lists.", "anchors": ["src/math-typeset.cpp: MathTypesetter::rule2_translateglue"]}
{"id": "C90", "title": "The equation editor shows the formula that is written", "statement": "The text of the editor, read as tokens with their plain TeX meaning, gives the display-style box of the formula it denotes; a text with an unknown word gives nothing.", "quantifier": "every text, every engine, both signs of char", "why_tests_cant": "Texts and nesting are unbounded.", "anchors": ["apps/equation-editor/mainwindow.cpp: MainWindow::processText", "src/parsing/mathparserfrontend.cpp: MathParserFrontend::writeControlSequence, writeChar, writeSymbol"]}
{"id": "C91", "title": "The page editor shows the text that is written", "statement": "The page of a text with fonts, parshapes, kerns, boxes, lowered boxes, groups, formulas and displays has, in order, the lines of its paragraphs with the parameters in force at their end, its kerns and its centred displays, each in the font and with the dimensions in force at its place.", "quantifier": "every host, every text of the grammar, any nesting", "why_tests_cant": "Texts, fonts and nesting are unbounded.", "anchors": ["apps/page-editor/horizontalmode.cpp: HorizontalMode::write", "apps/page-editor/verticalmode.cpp: VerticalMode::write", "apps/page-editor/mathmode.cpp: MathMode::write, DisplayMathMode", "apps/page-editor/assignment-processor.cpp: AssignmentProcessor::write"]}
{"id": "C92", "title": "The built-in fonts are Computer Modern", "statement": "Each parameter of each built-in font is that of the Computer Modern font of its name, and zero if that font has no such parameter.", "quantifier": "every font, every parameter", "why_tests_cant": "Long constant tables; a test tries a few entries.", "anchors": ["tfm/src/tfm.cpp: cmr10, cmr7, cmr5, cmmi10, cmmi7, cmmi5, cmsy10, cmsy7, cmsy5, cmex10, zerofontdimen"]}
{"id": "C93", "title": "The linebreaks viewer shows the chosen breaking of the text", "statement": "After any sequence of user actions the viewer's alternatives are the complete breakings of the text in the text field with the parameters of the window, in order of demerits; the one chosen in the spin box is shown, with its demerits, as a paragraph that loses nothing of the text; after a change of the text it is the best one. No text ends the program.", "quantifier": "every sequence of edits, selections and resets; every text", "why_tests_cant": "Event histories are unbounded; stale state shows only after particular sequences.", "anchors": ["apps/linebreaks-viewer/linebreaks-viewer.cpp: onTextChanged, onSelectedBreakpointChanged, setup, processText"]}
{"id": "C94", "title": "A field of the linebreaks viewer holds its last good text", "statement": "A glue or dimension parameter of the viewer is the meaning of the last text of its field that is a glue (a dimension); a text that is none changes nothing and is marked. The other parameters are the last value of their widget.", "quantifier": "every history of texts", "why_tests_cant": "The set of texts is infinite and partial texts occur at each key press.", "anchors": ["apps/linebreaks-viewer/linebreaks-viewer.cpp: onParameterChanged, write(Glue), write(float)", "src/parsing/glueparser.cpp", "src/parsing/dimenparser.cpp"]}
{"id": "C95", "title": "The parshape field of the linebreaks viewer", "statement": "Numbers separated by blanks are taken in pairs, indentation and length, a length being at least ten; an odd number of them gives no shape; a word that is no number is refused.", "quantifier": "every text", "why_tests_cant": "Unbounded texts.", "anchors": ["apps/linebreaks-viewer/linebreaks-viewer.cpp: parseParshape, onParshapeChanged"]}
{"id": "C96", "title": "Reset restores the defaults", "statement": "The reset button sets each parameter of the viewer except french spacing to its default value, whatever happened before, and keeps the text.", "quantifier": "every history", "why_tests_cant": "Unbounded histories; the fields keep their last good value on errors.", "anchors": ["apps/linebreaks-viewer/linebreaks-viewer.cpp: resetParameters", "apps/linebreaks-viewer/linebreaks-viewer.h"]}
{"id": "C97", "title": "Widgets draw each box where the layout puts it", "statement": "Each render widget draws every character and rule of its box, and nothing else that could be taken for one, at the position that the layout gives it, the box being at the margins or, if centred, in the middle between them; a stretched sign is scaled to exactly its box; the equation editor's switches hide only what they name, and the viewer writes the ratio of each glue.", "quantifier": "every box, position, widget and setting of the switches, any arithmetic (exact for centring and scaling)", "why_tests_cant": "Trees of unbounded depth; drawing has no tests.", "anchors": ["apps/common/renderwidget.cpp", "apps/equation-editor/renderwidget.cpp", "apps/linebreaks-viewer/linebreaks-viewer-render-widget.cpp", "include/tex/layoutreader.h"]}
{"id": "C98", "title": "Nothing is drawn outside of its box", "statement": "The area of each box inside a box lies within the area of the outer one; the page of a text of the page editor is not wider than asked for, so that its characters lie between the margins.", "quantifier": "every box built by the list builders without shifts, every text of C84", "why_tests_cant": "Unbounded nesting and texts; glue ratios are real numbers.", "anchors": ["src/hbox.cpp", "src/vbox.cpp", "include/tex/layoutreader.h", "src/linebreaks.cpp: create", "apps/common/renderwidget.cpp: paintEvent", "apps/page-editor/typesetting-machine.cpp"]}
{"id": "C99", "title": "All of a page can be seen", "statement": "After any history of resizing, scrolling and new pages, a page that fits its window is in the middle; another can be scrolled from 10 rows above to 10 rows below it; every row and column of the page inside the margins can be brought into view, and the sheet has room for the whole page.", "quantifier": "every history of events and every size", "why_tests_cant": "Unbounded histories; sizes of windows vary.", "anchors": ["apps/common/pagewidget.cpp: layout, onVerticalScroll, resizeEvent, setBox", "apps/common/pagewidget.h"]}
{"id": "C100", "title": "The table of font parameters shows the parameters used", "statement": "The equation editor's engine returns for each method the parameter it is named after, recorded or not; after each formula the table has each parameter of each family and size with its value, and with 'only used' exactly those that were asked for while typesetting the formula shown are visible. The formula depends on no other parameter, each parameter asked for has a row, and is asked for only if something in the formula needs it.", "quantifier": "every history of texts and switches, every sequence of requests, every formula", "why_tests_cant": "Unbounded histories.", "anchors": ["apps/equation-editor/typeset-engine.cpp", "apps/equation-editor/fonttreewidget.cpp", "src/fontmetrics.cpp", "apps/equation-editor/mainwindow.cpp", "src/math/math-typeset.cpp:64-1109"]}
{"id": "C101", "title": "Which formulas the equation editor can show", "statement": "Each text is shown, refused with an exception, or crashes the editor, and the editor comes to an end on every text. A text that the parser takes is shown if and only if no list in its formula that is typeset consists of changes of style only or, the changes of style aside, starts with a delimiter and does not end with one; otherwise it crashes. Texts of the grammar of C46 crash only for the first reason; texts without style commands and without \\over directly between \\left and \\right never crash.", "quantifier": "every text, every engine whose characters are boxes, any arithmetic in which a number equals itself (crashes: any arithmetic)", "why_tests_cant": "Infinitely many texts; a crash depends on the shape of the whole formula and comes from undefined behaviour that a test need not notice.", "anchors": ["apps/equation-editor/mainwindow.cpp: processText", "src/parsing/mathparser.cpp", "src/math/math-typeset.cpp: mlist2hlist, processBoundary, rule15_fraction"]}
{"id": "C102", "title": "The window of the equation editor follows the text", "statement": "After any history of typing and of clicks on the suggestion buttons the bar has the offers for the present text (three formulas if it is empty, two operators if not), and the formula shown is that of the last text which was not refused. Each formula offered is shown when it is clicked, and can be typed character by character. The editor ends only at a text that crashes it (C101). Every formula that can be shown can be typed.", "quantifier": "every history of events", "why_tests_cant": "Unbounded histories; intermediate texts are usually incomplete.", "anchors": ["apps/equation-editor/mainwindow.cpp: fillSuggestionBar, onSuggestionSelected, onTextChanged, processText", "apps/equation-editor/suggestionbar.cpp"]}
{"id": "C103", "title": "A macro call may be replaced by what it stands for", "statement": "A text of the page editor, with definitions at its beginning or anywhere in it, has the page of the tokens it stands for: those got by replacing each call, \\csname, \\ifbr and \\expandafter by what it stands for until there is none. Two texts that stand for the same tokens have the same page, whatever macros each of them defines. Definitions inside the text count from where they are to the end of their group.", "quantifier": "every document whose last character makes no token, every set of macros, any arithmetic", "why_tests_cant": "Infinitely many definitions and calls; the reader, the preprocessor and the typesetter take turns, one character or token at a time.", "anchors": ["apps/page-editor/typesetting-machine.cpp: typeset, advance", "src/parsing/preprocessor.cpp: advance, write, processControlSeq, expand, define", "src/lexer.cpp"]}
{"id": "C104", "title": "Errors in the page editor's window", "statement": "After each change of the text the window shows the text's page, or keeps the old page and reports an error, or the editor ends. A page is shown exactly if typesetting succeeds. A reported error has the line and column of the end of a part of the text, and every text beginning with that part has the same error, unless the part is all of the text. The same holds for texts that end the editor. After any history the page is that of the last text that could be typeset and the status that of the last nonempty text. Every exception of the typesetter is reported; an empty text has an empty page.", "quantifier": "every text, every history of texts, any arithmetic", "why_tests_cant": "Infinitely many texts and histories; that nothing after the place of an error matters is a statement about all continuations.", "anchors": ["apps/page-editor/mainwindow.cpp: onTextChanged, processText", "apps/page-editor/typesetting-machine.cpp: typeset, advance", "apps/page-editor/inputstream.cpp: position"]}
{"id": "C105", "title": "The page editor comes to an end", "statement": "For every text the typesetting of the page editor comes to an end. A run that does not end expands macros again and again; a text of n characters is done after 45 n n + 1 steps of the machine as long as no macro is expanded, and so is every text in which neither \\begin, \\end, \\csname nor \\def occurs.", "quantifier": "every text, every machine, every run, any arithmetic", "why_tests_cant": "Infinitely many texts, and a test cannot tell a long run from one without end.", "anchors": ["apps/page-editor/typesetting-machine.cpp: resume, advance, typeset", "src/parsing/preprocessor.cpp: advance, process", "apps/page-editor/mainwindow.cpp: processText"]}
{"id": "C106", "title": "Why the page editor crashes", "statement": "A step of the page editor crashes, with undefined behaviour or a failed assertion, exactly for one of the following reasons: more groups were ended than begun and something asks for the settings or the table of definitions of a group; a parameter token while a name is made by \\csname; a dimension of \\lower or \\parshape without a finite unit; the count of \\parshape beyond the largest int; a character of four bytes in a debug build where char is signed; an argument of a formula when the last node does not await it; a formula that cannot be shown; a paragraph whose lines cannot be computed; a font whose loading crashes.", "quantifier": "every text, every machine, every reachable state, any arithmetic, every host", "why_tests_cant": "Infinitely many texts, and undefined behaviour need not show in a test.", "anchors": ["apps/page-editor/typesetting-machine.cpp: advance, finish, beginGroup, endGroup", "apps/page-editor/horizontalmode.cpp: write, finish", "apps/page-editor/mathmode.cpp: write, finish", "src/parsing/dimenparser.cpp: finish, readUnit", "src/parsing/preprocessor.cpp: process"]}
{"id": "C107", "title": "The font that a specification names", "statement": "A font specification is a list separated by commas; its first part that is not empty is the family, and of the other parts bold makes the font bold, italic or slanted (the last one) gives the style, and the last number that gives a positive number of pixels gives the size, everything else is ignored. Every specification gives such a font, which is added to the fonts that are there, with the parameters of cmr10 for its height. The \\font command of the page editor loads the font whose specification is written in the braces.", "quantifier": "every specification and table of fonts, any arithmetic, any conversion from text to numbers and from numbers to int", "why_tests_cant": "Infinitely many specifications; undefined behaviour of front() on an empty list need not show in a test.", "anchors": ["apps/common/qt-typeset-engine.cpp: loadFont, initFont", "apps/page-editor/assignment-processor.cpp: write_font", "apps/page-editor/fontparser.cpp: write"]}
{"id": "C108", "title": "The fonts of the page editor over a session", "statement": "What the page editor shows for a text does not depend on the fonts of the texts before: the page and the status are those of an editor that has loaded the fonts of this text only, although a font gets another number. No font is unloaded, and the fonts of the engine are those the texts loaded, one text after the other. The number of fonts is that of the different fonts named.", "quantifier": "every two engines with the same fonts under other numbers, every sequence of texts, every arithmetic, world of fonts and number of steps", "why_tests_cant": "The number of a font depends on the whole history of the editor; tests use one text and the fonts of the engine.", "anchors": ["apps/page-editor/mainwindow.cpp: processText", "apps/page-editor/assignment-processor.cpp: write_font, changeFont", "apps/common/qt-typeset-engine.cpp: loadFont, initFont"]}
