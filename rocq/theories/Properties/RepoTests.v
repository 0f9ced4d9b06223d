(** The project's own unit tests (/repo/tests), run on the model. They are no
    proofs of anything general: they check that the model does what the authors
    of the code expect of it. *)
From Coq Require Import List Ascii String ZArith QArith Qcanon Bool Arith.
From Verif.Base Require Import Result Num.
From Verif.Model Require Import Token Dimen Glue DimenParser Lexer Macro MathList MathTypeset MathParser MathFrontend Preprocessor.
Import ListNotations.
Local Open Scope string_scope.

Definition t := list_ascii_of_string.
Definition newline : string := String (ascii_of_nat 10) EmptyString.
(** the tokens in [output()] after [write] of each character *)
Definition tokenize (s : string) : list token := l_out (fst (feed DefaultCatCodes lexer_init (t s))).
Definition value (x : token) : option ascii := match x with TChar c _ => Some c | _ => None end.

(** * test-lexer.cpp:9-58 *)
(** [toks.clear()] *)
Definition cleared (l : lexer) : lexer := mkLexer (l_state l) (l_buf l) [].
Definition writes (l : lexer) (s : string) : lexer := fst (feed DefaultCatCodes (cleared l) (t s)).
Definition lex1 : lexer := writes lexer_init ("a\cmd b" ++ newline ++ newline ++ "#1##").
Definition lex2 : lexer := writes lex1 "Hello   World!".
Definition lex3 : lexer := writes lex2 ("K % This is a comment " ++ newline).
Definition lex4 : lexer := writes lex3 "L".
Example test_lexer_tokens :
  l_out lex1 = [TChar "a" Letter; TCs (t "cmd"); TChar "b" Letter; TChar " " Space; TCs (t "par"); TParam 1; TChar "#" ParamChar].
Proof. reflexivity. Qed.
Example test_lexer_spaces :
  List.length (l_out lex2) = 12%nat /\
  map value (firstn 3 (skipn 4 (l_out lex2))) = [Some "o"; Some " "; Some "W"]%char.
Proof. split; reflexivity. Qed.
Example test_lexer_comment :
  map value (l_out lex3) = [Some "K"; Some " "]%char /\ map value (l_out lex4) = [Some "L"]%char.
Proof. split; reflexivity. Qed.
(** :60-88 *)
Definition ifnextchar : list token :=
  tokenize ("\def\ifnextchar#1#2#3{%" ++ newline ++ "  \testnextchar #1\ifbr #2\else #3\fi" ++ newline ++ " }").
Example test_lexer_ignores :
  List.length ifnextchar = 14%nat /\
  forallb (fun x => negb (token_is x Space) && negb (token_eqb x (TCs (t "par")))) ifnextchar = true.
Proof. split; reflexivity. Qed.

(** * test-preprocessor.cpp:24-56 *)
Definition foo : macro := mkMacro (t "foo") (tokenize "#1") (tokenize "Hello #1!").
Definition proclaim : macro := mkMacro (t "proclaim") (tokenize "#1. #2\par ") (tokenize "Statement: #2").
Definition matched (m : macro) (s : string) : result (match_code * list token * list token * list token) :=
  do r <- macro_match m (tokenize s);
  do a <- args_at (mr_args r) 0;
  do b <- args_at (mr_args r) 1;
  do e <- macro_expand m (mr_args r);
  Ok (mr_code r, a, b, e).
Example test_macro_foo :
  matched foo "{there}" = Ok (CompleteMatch, tokenize "there", [], tokenize "Hello there!").
Proof. reflexivity. Qed.
Example test_macro_proclaim :
  matched proclaim "Theorem 1. Macros are great\par " =
  Ok (CompleteMatch, tokenize "Theorem 1", tokenize "Macros are great", tokenize "Statement: Macros are great").
Proof. reflexivity. Qed.

(** :58-69: all tokens are written, then [advance] while there is input; it does
    nothing when there is none *)
Definition wr (s : pstate) (x : string) : result pstate := do s <- pwrites s (tokenize x); advances 100 s.
Definition run (s : pstate) (l : list string) : result pstate :=
  foldM (fun s x => wr (set_output s []) x) l s.
(** what is left to read, and the output *)
Definition out (s : pstate) (l : list string) : result (list token * list token) :=
  do s <- run s l; Ok (p_input s, p_output s).
Definition gives (s : pstate) (l : list string) (x : string) : Prop := out s l = Ok ([], tokenize x).

(** :71-106 *)
Example test_replacement :
  gives pinit ["\def\foo{Expanded!}\foo "] "Expanded!" /\
  gives pinit ["\def\foo{Expanded!}\foo "; "\def\proclaim #1. #2\par{Statement: #2}\proclaim Theorem 1. Macros are great\par "]
    "Statement: Macros are great".
Proof. split; reflexivity. Qed.
(** :108-130 *)
Example test_if :
  gives (set_br pinit true) ["\ifbr T\else F\fi "] "T" /\
  gives (set_br pinit false) ["\ifbr T\else F\fi "] "F" /\
  gives (set_br pinit false) ["\ifbr T\else F\fi "; "\ifbr \ifbr A \fi \else F\fi "] "F".
Proof. repeat split; reflexivity. Qed.
(** :132-146 *)
Example test_csname : gives pinit ["\def\foo{K}"; "\csname foo\endcsname "] "K".
Proof. reflexivity. Qed.
(** :148-174 *)
Definition has (s : pstate) (l : list string) (n : string) : result bool :=
  do s <- run s l; Ok (match find s (t n) with Some _ => true | None => false end).
Definition ea1 : list string := ["\expandafter\def\csname 123\endcsname{H}"].
Definition ea2 : list string := (ea1 ++ ["\csname 123\endcsname "])%list.
Definition ea3 : list string := (ea2 ++ ["\def\a[#1]{#1}"; "\def\args{[FOO]}"])%list.
Definition ea4 : list string := (ea3 ++ ["\expandafter\a\args "])%list.
Definition ea5 : list string := (ea4 ++ ["\def\foo{F}\def\bar{B}\def\qux{Q}"])%list.
Definition ea6 : list string := (ea5 ++ ["\expandafter\foo\expandafter\bar\qux "])%list.
Example test_expandafter :
  has pinit ea1 "123" = Ok true /\ gives pinit ea2 "H" /\
  has pinit ea3 "a" = Ok true /\ has pinit ea3 "args" = Ok true /\ gives pinit ea4 "FOO" /\
  has pinit ea5 "foo" = Ok true /\ has pinit ea5 "bar" = Ok true /\ has pinit ea5 "qux" = Ok true /\ gives pinit ea6 "FBQ".
Proof. repeat split; reflexivity. Qed.

(** * test-format.cpp *)
Definition fmt : string :=
  "\def\begin#1{%" ++ newline ++ "  \csname #1\endcsname" ++ newline ++ "}" ++ newline ++ newline ++
  "\def\end#1{%" ++ newline ++ "  \csname end#1\endcsname" ++ newline ++ "}" ++ newline.
Example test_format :
  rmap (map (fun m => (m_cs m, List.length (m_param m), List.length (m_repl m)))) (format_parse (t fmt)) =
  Ok [(t "begin", 1, 3); (t "end", 1, 6)]%nat.
Proof. reflexivity. Qed.

(** * test-parsers.cpp, in single precision *)
Definition any : Q -> bool := fun _ => true.
Definition f (x : Q) : F32 := @nlit F32 x.
Definition us : unitsystem F32 := mkUS (N := F32) (f 1) (f 2) (f (1 # 2)).
Definition same (a b : F32) : bool := negb (@nltb F32 a b) && negb (@nltb F32 b a).
Definition dimen_is (s : string) (u : unit_t) (x : Q) : bool :=
  match (do p <- dp_writes dp_init (t s); dp_finish (N := F32) any p) with
  | Ok d => match u, d_unit d with
            | UPt, UPt | UEm, UEm | UEx, UEx | UFil, UFil | UFill, UFill | UFilll, UFilll => same (d_value d) (f x)
            | _, _ => false
            end
  | _ => false
  end.
(** :22-64 *)
Example test_dimen : dimen_is "+20pt" UPt 20 = true /\ dimen_is "-20em" UEm (-20) = true /\ dimen_is "-0.5fill" UFill (-1 # 2) = true.
Proof. repeat split; vm_compute; reflexivity. Qed.
(** :66-142 *)
Definition glue_is (s : string) (x y z : Q) (oy oz : gorder) : bool :=
  match (do p <- gp_writes (N := F32) any us gp_init (t s); gp_finish any us p) with
  | Ok g => same (g_space g) (f x) && same (g_stretch g) (f y) && same (g_shrink g) (f z) &&
            gorder_eqb (g_stretchOrder g) oy && gorder_eqb (g_shrinkOrder g) oz
  | _ => false
  end.
Example test_glue :
  glue_is "1em" 2 0 0 Normal Normal = true /\
  glue_is "1ex plus 2pt minus 3em" (1 # 2) 2 6 Normal Normal = true /\
  glue_is "1pc plus 1fil minus 2fill" 12 1 2 Fil Fill = true /\
  glue_is "1pc " 12 0 0 Normal Normal = true.
Proof. repeat split; vm_compute; reflexivity. Qed.
(** :144-176 *)
Definition kern_is (s : string) (x : Q) : bool :=
  match (do p <- kp_writes kp_init (t s); kp_finish (N := F32) any us p) with Ok w => same w (f x) | _ => false end.
Example test_kern : kern_is "1pc " 12 = true /\ kern_is "-.125pt " (-125 # 1000) = true.
Proof. split; vm_compute; reflexivity. Qed.
(** :178-212 *)
Definition shape_is (s : string) (l : list (Q * Q)) : bool :=
  match (do p <- pp_writes (N := F32) any us pp_init (t s); pp_finish any us p) with
  | Ok ps => Nat.eqb (List.length ps) (List.length l) &&
             forallb (fun x : (F32 * F32) * (Q * Q) => same (fst (fst x)) (f (fst (snd x))) && same (snd (fst x)) (f (snd (snd x)))) (combine ps l)
  | _ => false
  end.
Example test_parshape : shape_is "=1 1pt 10em" [(1, 20)]%Q = true /\ shape_is "=0" [] = true.
Proof. split; vm_compute; reflexivity. Qed.
(** :214-245; a moved-from string is empty *)
Definition options (s : string) : result (list (name * name)) := do p <- op_writes (fun _ => []) op_init (t s); op_finish p.
Example test_options :
  options "[]" = Ok [] /\ options "[key=value]" = Ok [(t "key", t "value")] /\
  options "[standalone key, a=b]" = Ok [(t "standalone key", []); (t "a", t "b")].
Proof. repeat split; reflexivity. Qed.

(** * test-math-parser.cpp *)
Inductive step : Set := Ch (c : ascii) | Cs (s : string) | Call (c : call).
Definition do_step (signed : bool) (m : mp) (x : step) : result mp :=
  match x with
  | Ch c => writeChar signed c m
  | Cs s => writeControlSequence (t s) m
  | Call c => do_call m c
  end.
Definition parse (signed : bool) (l : list step) : result (list (mnode QcNum)) :=
  do m <- foldM (do_step signed) (l ++ [Call CFinish]) mp_init; output 10 m.
(** what kind of node it is, for an atom its type and whether it has a
    superscript, for others the lengths of its lists *)
Inductive kind : Set := KAtom (ty : Z) (sup : bool) | KFrac (n d : nat) | KRoot (n d : nat) | KMatrix (n k : nat) | KOther.
Definition kind_of (n : mnode QcNum) : kind :=
  match n with
  | MAtom a => KAtom (a_ty a) (match a_sup a with Some _ => true | None => false end)
  | MFrac a b => KFrac (List.length a) (List.length b)
  | MRoot a b => KRoot (List.length a) (List.length b)
  | MMatrix l k => KMatrix (List.length l) k
  | _ => KOther
  end.
Definition kinds (signed : bool) (l : list step) : result (list kind) := rmap (map kind_of) (parse signed l).
(** :16-26 *)
Example test_atom : forall b, kinds b [Ch "a"] = Ok [KAtom Ord false].
Proof. intros []; vm_compute; reflexivity. Qed.
(** :28-44 *)
Example test_over : forall b, kinds b [Ch "1"; Ch "+"; Ch "2"; Cs "over"; Ch "5"] = Ok [KFrac 3 1].
Proof. intros []; vm_compute; reflexivity. Qed.
(** :46-65 *)
Example test_left : forall b,
  kinds b [Cs "left"; Ch "("; Ch "a"; Ch "+"; Ch "b"; Cs "right"; Ch ")"] = Ok [KAtom Inner false].
Proof. intros []; vm_compute; reflexivity. Qed.
(** :67-90 *)
Example test_superscript : forall b,
  kinds b [Ch "x"; Call CSup; Ch "2"; Ch "+"; Ch "2"; Ch "x"; Ch "+"; Ch "1"] =
  Ok [KAtom Ord true; KAtom Bin false; KAtom Ord false; KAtom Ord false; KAtom Bin false; KAtom Ord false].
Proof. intros []; vm_compute; reflexivity. Qed.
(** :92-133 *)
Example test_sqrt : forall b,
  kinds b [Cs "sqrt"; Call CBegin; Ch "1"; Ch "+"; Cs "sqrt"; Ch "2"; Call CEnd] = Ok [KAtom Rad false] /\
  kinds b [Cs "sqrt"; Ch "["; Ch "3"; Ch "]"; Call CBegin; Ch "n"; Call CEnd] = Ok [KRoot 1 1].
Proof. intros []; vm_compute; split; reflexivity. Qed.
(** :135-156 *)
Example test_frac : forall b,
  kinds b [Cs "frac"; Call CBegin; Ch "a"; Call CEnd; Call CBegin; Ch "b"; Call CEnd] = Ok [KFrac 1 1].
Proof. intros []; vm_compute; reflexivity. Qed.
(** :158-184 *)
Example test_matrix : forall b,
  kinds b [Cs "matrix"; Call CBegin; Ch "a"; Call CTab; Ch "b"; Cs "cr"; Ch "c"; Call CTab; Ch "d"; Call CEnd] =
  Ok [KMatrix 4 2].
Proof. intros []; vm_compute; reflexivity. Qed.
