(** Model of class MathParserFrontend (include/tex/parsing/mathparserfrontend.h,
    src/parsing/mathparserfrontend.cpp) and of the pipeline of the equation
    editor (apps/equation-editor/mainwindow.cpp:225-294). *)
From Coq Require Import List Ascii String ZArith Bool.
From Verif.Base Require Import Result Num.
From Verif.Model Require Import Token Lexer Box MathList MathParser MathTypeset.
Import ListNotations.
Local Open Scope Z_scope.

(** [std::map::find] on a constant table *)
Fixpoint assoc {A} (n : name) (l : list (string * A)) : option A :=
  match l with
  | [] => None
  | (k, v) :: r => if name_eqb n (str k) then Some v else assoc n r
  end.

(** src/parsing/mathparserfrontend.cpp:35-51 [csmap], 214-241 the calls *)
Definition csmap : list (string * call) := [
  ("left", CLeft); ("right", CRight); ("over", COver); ("frac", CFrac); ("sqrt", CSqrt);
  ("matrix", CMatrix); ("cr", CCr); ("textstyle", CTextstyle); ("scriptstyle", CScriptstyle);
  ("scriptscriptstyle", CScriptscriptstyle) ]%string.

(** src/parsing/mathparserfrontend.cpp:53-202 [symbolsmap], with the values of
    include/tex/mathchars.h: the character and the math code *)
Definition symbolsmap : list (string * (Z * Z)) := [
  ("alpha", (945, 267)); ("beta", (946, 268)); ("gamma", (947, 269)); ("delta", (948, 270));
  ("epsilon", (1013, 271)); ("varepsilon", (949, 290)); ("zeta", (950, 272)); ("eta", (951, 273));
  ("theta", (952, 274)); ("vartheta", (977, 291)); ("iota", (953, 275)); ("kappa", (954, 276));
  ("lambda", (955, 277)); ("mu", (956, 278)); ("nu", (957, 279)); ("xi", (958, 280));
  ("pi", (960, 281)); ("varpi", (982, 292)); ("rho", (961, 282)); ("varrho", (1009, 293));
  ("sigma", (963, 283)); ("varsigma", (962, 294)); ("tau", (964, 284)); ("upsilon", (965, 285));
  ("phi", (981, 286)); ("varphi", (966, 295)); ("chi", (967, 287)); ("psi", (968, 288));
  ("omega", (969, 289)); ("Gamma", (915, 28672)); ("Delta", (916, 28673)); ("Theta", (920, 28674));
  ("Lambda", (923, 28675)); ("Xi", (926, 28676)); ("Pi", (928, 28677)); ("Sigma", (931, 28678));
  ("Upsilon", (933, 28679)); ("Phi", (934, 28680)); ("Psi", (936, 28681)); ("Omega", (937, 28682));
  ("aleph", (8501, 576)); ("imath", (305, 379)); ("jmath", (567, 380)); ("ell", (8467, 352));
  ("wp", (8472, 381)); ("Re", (8476, 572)); ("Im", (8465, 573)); ("partial", (8706, 320));
  ("infty", (8734, 561)); ("prime", (8242, 560)); ("emptyset", (8709, 571));
  ("nabla", (8711, 626)); ("top", (8868, 574)); ("bot", (8869, 575)); ("triangle", (9651, 564));
  ("forall", (8704, 568)); ("exists", (8707, 569)); ("neg", (172, 570)); ("flat", (9837, 347));
  ("natural", (9838, 348)); ("sharp", (9839, 349)); ("clubsuit", (9827, 636));
  ("diamondsuit", (9826, 637)); ("spadesuit", (9824, 639)); ("sum", (931, 4944));
  ("prod", (928, 4945)); ("coprod", (8720, 4960)); ("bigcap", (8745, 4948));
  ("bigcup", (8746, 4947)); ("bigsqcup", (8852, 4934)); ("bigvee", (8744, 4951));
  ("bigwedge", (8743, 4950)); ("bigodot", (8857, 4938)); ("bigotimes", (8855, 4942));
  ("bigoplus", (8854, 4940)); ("biguplus", (8846, 4949)); ("pm", (177, 8710));
  ("mp", (8723, 8711)); ("setminus", (8726, 8814)); ("cdot", (8857, 8705)); ("times", (215, 8706));
  ("ast", (8727, 8707)); ("star", (8902, 8511)); ("diamond", (8900, 8709)); ("circ", (9711, 8718));
  ("bullet", (11044, 8719)); ("div", (247, 8708)); ("cap", (8745, 8796)); ("cup", (8746, 8795));
  ("uplus", (8846, 8797)); ("sqcap", (8851, 8821)); ("sqcup", (8852, 8820));
  ("triangleleft", (8882, 8495)); ("triangleright", (9655, 8494)); ("wr", (8768, 8815));
  ("bigcirc", (9711, 8717)); ("bigtriangleup", (9651, 8756)); ("bigtriangledown", (9661, 8757));
  ("vee", (8744, 8799)); ("wedge", (8743, 8798)); ("oplus", (8853, 8712));
  ("ominus", (8854, 8713)); ("otimes", (8855, 8714)); ("oslash", (8856, 8715));
  ("odot", (8857, 8716)); ("dagger", (8224, 8825)); ("ddagger", (8225, 8826));
  ("amalg", (8720, 8817)); ("leq", (8804, 12820)); ("prec", (8826, 12830));
  ("preceq", (8828, 12822)); ("ll", (8810, 12828)); ("subset", (8834, 12826));
  ("subseteq", (8838, 12818)); ("sqsubseteq", (8849, 12918)); ("in", (8712, 12850));
  ("vdash", (8866, 12896)); ("smile", (8995, 12638)); ("frown", (8994, 12639));
  ("geq", (8805, 12821)); ("succ", (8827, 12831)); ("succeq", (8829, 12823));
  ("gg", (8811, 12829)); ("supset", (8835, 12827)); ("supseteq", (8839, 12819));
  ("sqsupseteq", (8849, 12919)); ("ni", (8713, 12851)); ("dashv", (8867, 12897));
  ("mid", (8739, 12906)); ("parallel", (8741, 12907)); ("equiv", (8801, 12817));
  ("sim", (8764, 12824)); ("simeq", (8771, 12839)); ("asymp", (8781, 12816));
  ("approx", (8776, 12825)); ("propto", (8733, 12847)); ("perp", (10178, 12863)) ]%string.

(** mathparserfrontend.h:76: [m_fam] is never changed *)
Definition fam : Z := -1.

(** src/parsing/mathparserfrontend.cpp:243-260 [writeControlSequence] *)
Definition cs_call (n : name) : result call :=
  match assoc n csmap with
  | Some c => Ok c
  | None =>
      match assoc n symbolsmap with
      | Some (c, code) => Ok (CSym (writeMathChar fam c code))
      | None => Throw
      end
  end.
Definition writeControlSequence (n : name) (m : mp) : result mp :=
  do c <- cs_call n; do_call m c.

(** src/parsing/mathparserfrontend.cpp:262-266 [writeChar]; [char_signed] says
    whether plain [char] is signed; [Character] is an [int] *)
Definition char_int (char_signed : bool) (c : ascii) : Z :=
  let b := Z.of_N (N_of_ascii c) in if char_signed && (128 <=? b) then b - 256 else b.
Definition char_sym (char_signed : bool) (c : ascii) : sym :=
  writeMathChar fam (char_int char_signed c) (mathcode c).
Definition writeChar (char_signed : bool) (c : ascii) (m : mp) : result mp :=
  do_call m (CSym (char_sym char_signed c)).
(** src/parsing/mathparserfrontend.cpp:268-278 [writeSymbol(Character)] *)
Definition writeSymbol (char_signed : bool) (c : Z) (m : mp) : result mp :=
  if c <? 128 then writeChar char_signed (ascii_of_N (Z.to_N c)) m else Throw.

(** * From the parser's lists to the typesetter's *)
(** The lists of the store as values. [depth]: how deep lists may nest; a
    boundary always has a symbol, and no atom has an accent (mathparser.cpp). *)
Section Values.
  Context {N : Num}.
  Variable h : nat -> list MathParser.hnode.

  Definition field_of (sub : nat -> result (list (mnode N))) (r : option ref) : result (option (mfield N)) :=
    match r with
    | None => Ok None
    | Some (RSym s) => Ok (Some (FSym s))
    | Some (RList i) => do l <- sub i; Ok (Some (FList l))
    end.
  Definition node_val (sub : nat -> result (list (mnode N))) (n : MathParser.hnode) : result (mnode N) :=
    match n with
    | HAtom ty nuc sp sb =>
        do a <- field_of sub nuc;
        do b <- field_of sub sp;
        do c <- field_of sub sb;
        Ok (MAtom (mkAtom ty a c b None NoLimits))
    | HBoundary s => Ok (MBoundary (Some s))
    | HFrac n d => do a <- sub n; do b <- sub d; Ok (MFrac a b)
    | HRoot n d => do a <- sub n; do b <- sub d; Ok (MRoot a b)
    | HMatrix cells cols =>
        do l <- foldM (fun l i => do x <- sub i; Ok (l ++ [x])) cells [];
        Ok (MMatrix l cols)
    | HStyle s => Ok (MStyle s)
    end.
  Definition nodes_val (sub : nat -> result (list (mnode N))) (l : list MathParser.hnode)
      : result (list (mnode N)) :=
    foldM (fun l n => do x <- node_val sub n; Ok (l ++ [x])) l [].
  Fixpoint list_val (depth : nat) (i : nat) : result (list (mnode N)) :=
    match depth with
    | O => Fuel
    | Datatypes.S d => nodes_val (list_val d) (h i)
    end.
End Values.

(** mathparserfrontend.cpp: [output()], the parser's [m_mlist] *)
Definition output {N : Num} (fuel : nat) (m : mp) : result (list (mnode N)) := list_val (mp_heap m) fuel 0.

(** * The equation editor *)
Section Equation.
  Context {N : Num}.
  Variable char_signed : bool.
  Variable E : engine N.

  (** apps/equation-editor/mainwindow.cpp:236-275: the loop over the tokens *)
  Definition eq_token (m : mp) (t : token) : result mp :=
    match t with
    | TChar c GroupBegin => do_call m CBegin
    | TChar c GroupEnd => do_call m CEnd
    | TChar c Superscript => do_call m CSup
    | TChar c Subscript => do_call m CSub
    | TChar c AlignmentTab => do_call m CTab
    | TChar c Letter | TChar c Other => writeChar char_signed c m
    | TChar c _ => Ok m
    | TCs n => writeControlSequence n m
    | TParam _ => Ok m
    end.

  (** apps/equation-editor/mainwindow.cpp:227-290: from the text to the box.
      [mlist2hlist] is called with its default style, display style
      (include/tex/math/math-typeset.h:62) *)
  Definition equation (fuel : nat) (text : list ascii) : result (lbox N) :=
    match feed DefaultCatCodes lexer_init text with
    | (_, Some _) => Throw
    | (l, None) =>
        do m <- foldM eq_token (l_out l) mp_init;
        do m <- do_call m CFinish;
        do ml <- output fuel m;
        do r <- mlist2hlist E fuel default_penalties D ml;
        Ok (hbox (fst r))
    end.
End Equation.
