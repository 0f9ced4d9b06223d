(** What the equation editor should show: the formula its text says. *)
From Coq Require Import List Ascii String ZArith Bool.
From Verif.Base Require Import Num.
From Verif.Model Require Import Token MathList MathParser MathTypeset.
From Verif.Spec Require MathSpec SymbolSpec.
From Verif.Spec Require Import MathSpec.
Import ListNotations.
Local Open Scope Z_scope.

(** * What tokens ask for *)
Definition commands : list (string * call) := [
  ("over", COver); ("frac", CFrac); ("sqrt", CSqrt);
  ("left", CLeft); ("right", CRight);
  ("matrix", CMatrix); ("cr", CCr);
  ("textstyle", CTextstyle); ("scriptstyle", CScriptstyle); ("scriptscriptstyle", CScriptscriptstyle) ]%string.

(** Symbols of plain TeX with a Unicode character, other than those whose
    character is another symbol's (C85) *)
Definition odd_symbols : list string := [
  "sum"; "prod"; "bigcap"; "bigcup"; "bigsqcup"; "bigvee"; "bigwedge"; "bigodot"; "bigotimes"; "bigoplus"; "biguplus";
  "cdot"; "circ"; "bullet"; "triangleleft"; "amalg"; "sqsupseteq"; "ni" ]%string.
Definition missing_symbols : list string := [
  "heartsuit"; "intop"; "ointop"; "smallint"; "nearrow"; "searrow"; "nwarrow"; "swarrow"; "Leftrightarrow";
  "Leftarrow"; "Rightarrow"; "not"; "leftrightarrow"; "leftarrow"; "rightarrow"; "mapstochar";
  "leftharpoonup"; "leftharpoondown"; "rightharpoonup"; "rightharpoondown" ]%string.

(** Class 7 is "variable": an ordinary symbol of the given family. *)
Definition class_of (k : Z) : Z := if k =? 7 then 0 else k.
(** a symbol of plain TeX, by its name; the first of its characters *)
Definition named (w : string) (s : sym) : Prop :=
  exists code, In (w, code) SymbolSpec.plain_codes /\ ~ In w odd_symbols /\ ~ In w missing_symbols /\
    s_class s = class_of (code / 4096) /\ s_fam s = code / 256 mod 16 /\
    find (fun p => String.eqb (fst p) w) SymbolSpec.unicode_symbols = Some (w, s_char s).

(** a character of the keyboard; letters are italic (family 1) *)
Definition z_of (c : ascii) : Z := Z.of_nat (nat_of_ascii c).
Inductive char_means : ascii -> sym -> Prop :=
| cm_letter : forall c, 65 <= z_of c <= 90 \/ 97 <= z_of c <= 122 -> char_means c (mkSym (z_of c) 0 1)
| cm_digit : forall c, 48 <= z_of c <= 57 -> char_means c (mkSym (z_of c) 0 0)
| cm_plain : forall c k f a, In (c, (k, f, a)) MathSpec.plain_codes -> char_means c (mkSym (z_of c) k f).

(** the calls a token stands for; spaces and such mean nothing *)
Inductive means : token -> list call -> Prop :=
| t_begin : forall c, means (TChar c GroupBegin) [CBegin]
| t_end : forall c, means (TChar c GroupEnd) [CEnd]
| t_sup : forall c, means (TChar c Superscript) [CSup]
| t_sub : forall c, means (TChar c Subscript) [CSub]
| t_tab : forall c, means (TChar c AlignmentTab) [CTab]
| t_letter : forall c s, char_means c s -> means (TChar c Letter) [CSym s]
| t_other : forall c s, char_means c s -> means (TChar c Other) [CSym s]
| t_space : forall c, means (TChar c Space) []
| t_shift : forall c, means (TChar c MathShift) []
| t_active : forall c, means (TChar c Active) []
| t_hash : forall c, means (TChar c ParamChar) []
| t_param : forall n, means (TParam n) []
| t_command : forall w c, In (w, c) commands -> means (TCs (list_ascii_of_string w)) [c]
| t_symbol : forall w s, named w s -> means (TCs (list_ascii_of_string w)) [CSym s].

(** a word that is neither a command nor a symbol of plain TeX *)
Definition unknown (n : name) : Prop :=
  ~ In n (map (fun p => list_ascii_of_string (fst p)) commands) /\
  ~ In n (map (fun p => list_ascii_of_string (fst p)) SymbolSpec.plain_codes).

(** * The math list of a formula *)
Section Value.
  Context {N : Num}.
  Fixpoint value (t : tree) : mnode N :=
    match t with
    | TAtom ty nuc sp sb => MAtom (mkAtom ty (part nuc) (part sb) (part sp) None NoLimits)
    | TBoundary s => MBoundary (Some s)
    | TFrac n d => MFrac (map value n) (map value d)
    | TRoot deg rad => MRoot (map value deg) (map value rad)
    | TMatrix cells cols => MMatrix (map (map value) cells) cols
    | TStyle s => MStyle s
    end
  with part (c : content) : option (mfield N) :=
    match c with
    | Nothing => None
    | Sym s => Some (FSym s)
    | Formula l => Some (FList (map value l))
    end.
End Value.
