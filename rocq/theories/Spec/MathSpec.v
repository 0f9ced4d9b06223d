(** What math styles, math codes and the math parser are expected to do. *)
From Coq Require Import List Ascii ZArith Bool Arith.
From Verif.Model Require Import MathList MathParser.
Import ListNotations.

(** * Styles: a size and whether exponents are kept low (TeXbook, chapter 17) *)
Inductive size : Set := Display | Text | Script | ScriptScript.
Definition describe (s : style) : size * bool :=
  match s with
  | D => (Display, false) | Dc => (Display, true)
  | T => (Text, false)    | Tc => (Text, true)
  | S => (Script, false)  | Sc => (Script, true)
  | SS => (ScriptScript, false) | SSc => (ScriptScript, true)
  end.
Definition size_of (s : style) : size := fst (describe s).
Definition cramped (s : style) : bool := snd (describe s).
Definition script_size (z : size) : size :=
  match z with Display | Text => Script | Script | ScriptScript => ScriptScript end.
Definition frac_size (z : size) : size :=
  match z with Display => Text | Text => Script | Script | ScriptScript => ScriptScript end.
Definition size_nat (z : size) : nat :=
  match z with Display => 3 | Text => 2 | Script => 1 | ScriptScript => 0 end.
(** size first; at equal sizes the cramped style is the smaller one *)
Definition below (a b : style) : Prop :=
  size_nat (size_of a) < size_nat (size_of b) \/
  (size_of a = size_of b /\ cramped a = true /\ cramped b = false).

(** going down into a formula *)
Inductive field : Set := FSup | FSub | FNum | FDen.
Definition enter_field (s : style) (f : field) : style :=
  match f with FSup => sup s | FSub => sub s | FNum => fracNum s | FDen => fracDen s end.
Definition goes_low (f : field) : bool := match f with FSub | FDen => true | _ => false end.

(** * Default math codes of plain TeX (TeXbook, page 344): class, family and
    position of the characters that are neither letters nor digits *)
Definition plain_codes : list (ascii * (Z * Z * Z)) := [
  ("!", (5, 0, 33)); ("(", (4, 0, 40)); (")", (5, 0, 41)); ("*", (2, 2, 3)); ("+", (2, 0, 43));
  (",", (6, 1, 59)); ("-", (2, 2, 0)); (".", (0, 1, 58)); ("/", (0, 1, 61)); (":", (3, 0, 58));
  (";", (6, 0, 59)); ("<", (3, 1, 60)); ("=", (3, 0, 61)); (">", (3, 1, 62)); ("?", (5, 0, 63));
  ("[", (4, 0, 91)); ("\", (0, 2, 110)); ("]", (5, 0, 93)); ("|", (0, 2, 106));
  ("'", (8, 0, 0)); ("_", (8, 0, 0)) ]%char%Z.

(** * Formulas *)
(** What a math list says: the contents of the store without its numbers. *)
Inductive tree : Set :=
| TAtom (ty : Z) (nuc sp sb : content)
| TBoundary (s : sym)
| TFrac (n d : list tree)
| TRoot (deg rad : list tree)
| TMatrix (cells : list (list tree)) (cols : nat)
| TStyle (s : style)
with content : Set := Nothing | Sym (s : sym) | Formula (l : list tree).

Section Reads.
Variable h : nat -> list hnode.
Inductive r_node : hnode -> tree -> Prop :=
| r_atom : forall ty a b c x y z, r_ref a x -> r_ref b y -> r_ref c z ->
    r_node (HAtom ty a b c) (TAtom ty x y z)
| r_boundary : forall s, r_node (HBoundary s) (TBoundary s)
| r_frac : forall n d x y, r_list (h n) x -> r_list (h d) y -> r_node (HFrac n d) (TFrac x y)
| r_root : forall n d x y, r_list (h n) x -> r_list (h d) y -> r_node (HRoot n d) (TRoot x y)
| r_matrix : forall is cols xs, r_lists is xs -> r_node (HMatrix is cols) (TMatrix xs cols)
| r_style : forall s, r_node (HStyle s) (TStyle s)
with r_ref : option ref -> content -> Prop :=
| r_none : r_ref None Nothing
| r_sym : forall s, r_ref (Some (RSym s)) (Sym s)
| r_group : forall i x, r_list (h i) x -> r_ref (Some (RList i)) (Formula x)
with r_list : list hnode -> list tree -> Prop :=
| r_nil : r_list [] []
| r_cons : forall n t l x, r_node n t -> r_list l x -> r_list (n :: l) (t :: x)
with r_lists : list nat -> list (list tree) -> Prop :=
| r_none_left : r_lists [] []
| r_more : forall i x is xs, r_list (h i) x -> r_lists is xs -> r_lists (i :: is) (x :: xs).
End Reads.
(** the parser's output is the math list [t] *)
Definition output_is (m : mp) (t : list tree) : Prop := r_list (mp_heap m) (mp_heap m 0) t.

(** How formulas are written, and what they mean. [deg]: in the degree of a
    root, where a bracket ends the degree. *)
Definition pad (cols : nat) (r : list (list tree)) : list (list tree) :=
  r ++ repeat [] (cols - length r).
Definition widest (rows : list (list (list tree))) : nat := list_max (map (@length _) rows).

Inductive items : bool -> list call -> list tree -> Prop :=
| items_nil : forall deg, items deg [] []
| items_cons : forall deg e t es ts, item deg e t -> items deg es ts -> items deg (e ++ es) (t :: ts)
with item : bool -> list call -> tree -> Prop :=
| item_sym : forall (deg : bool) s e sp sb, (deg = true -> s_char s <> rbracket) -> scripts e sp sb ->
    item deg (CSym s :: e) (TAtom (s_class s) (Sym s) sp sb)
| item_group : forall deg g ts e sp sb, group g ts -> scripts e sp sb ->
    item deg (CBegin :: g ++ CEnd :: e) (TAtom Ord (Formula ts) sp sb)
| item_sqrt_sym : forall deg s e sp sb, s_char s <> lbracket -> scripts e sp sb ->
    item deg (CSqrt :: CSym s :: e) (TAtom Rad (Sym s) sp sb)
| item_sqrt : forall deg g ts e sp sb, group g ts -> scripts e sp sb ->
    item deg (CSqrt :: CBegin :: g ++ CEnd :: e) (TAtom Rad (Formula ts) sp sb)
| item_root : forall deg l r g ts e xs, s_char l = lbracket -> s_char r = rbracket ->
    body true g ts -> argument e xs ->
    item deg (CSqrt :: CSym l :: g ++ CSym r :: e) (TRoot ts xs)
| item_left_right : forall deg l r g ts e sp sb, body false g ts -> scripts e sp sb ->
    item deg (CLeft :: CSym l :: g ++ CRight :: CSym r :: e)
      (TAtom Inner (Formula (TBoundary l :: ts ++ [TBoundary r])) sp sb)
| item_frac : forall deg e xs e' ys, argument e xs -> argument e' ys ->
    item deg (CFrac :: e ++ e') (TFrac xs ys)
| item_matrix : forall deg e rows, table e rows ->
    item deg (CMatrix :: CBegin :: e ++ [CEnd])
      (TMatrix (concat (map (pad (widest rows)) rows)) (widest rows))
| item_text : forall deg, item deg [CTextstyle] (TStyle T)
| item_script : forall deg, item deg [CScriptstyle] (TStyle S)
| item_scriptscript : forall deg, item deg [CScriptscriptstyle] (TStyle SS)
(** superscripts: a symbol or a group; subscripts: a symbol *)
with scripts : list call -> content -> content -> Prop :=
| scripts_none : scripts [] Nothing Nothing
| scripts_sup : forall e c, script e c -> scripts (CSup :: e) c Nothing
| scripts_sub : forall s, scripts [CSub; CSym s] Nothing (Sym s)
| scripts_sup_sub : forall e c s, script e c -> scripts (CSup :: e ++ [CSub; CSym s]) c (Sym s)
| scripts_sub_sup : forall e c s, script e c -> scripts (CSub :: CSym s :: CSup :: e) c (Sym s)
with script : list call -> content -> Prop :=
| script_sym : forall s, script [CSym s] (Sym s)
| script_group : forall g ts, group g ts -> script (CBegin :: g ++ [CEnd]) (Formula ts)
(** a list may begin with scripts of nothing *)
with body : bool -> list call -> list tree -> Prop :=
| body_items : forall deg e ts, items deg e ts -> body deg e ts
| body_scripts : forall deg e sp sb es ts, e <> [] -> scripts e sp sb -> items deg es ts ->
    body deg (e ++ es) (TAtom Ord Nothing sp sb :: ts)
with group : list call -> list tree -> Prop :=
| group_body : forall e ts, body false e ts -> group e ts
| group_over : forall e ts e' ts', body false e ts -> body false e' ts' ->
    group (e ++ COver :: e') [TFrac ts ts']
(** of \frac and of a root with a degree *)
with argument : list call -> list tree -> Prop :=
| argument_sym : forall s, argument [CSym s] [TAtom Ord (Sym s) Nothing Nothing]
| argument_group : forall g ts, body false g ts -> argument (CBegin :: g ++ [CEnd]) ts
with table : list call -> list (list (list tree)) -> Prop :=
| table_row : forall e r, row e r -> table e [r]
| table_rows : forall e r es rs, row e r -> table es rs -> table (e ++ CCr :: es) (r :: rs)
with row : list call -> list (list tree) -> Prop :=
| row_cell : forall e ts, items false e ts -> row e [ts]
| row_cells : forall e ts es r, items false e ts -> row es r -> row (e ++ CTab :: es) (ts :: r).

(** * The matrix as a table *)
Definition cell (rows : list (list (list tree))) (r c : nat) : list tree := nth c (nth r rows []) [].

(** * Calls that make no sense where an argument is expected *)
Definition awaits_argument (s : mstate) : bool :=
  match s with PFracNumer | PFracDenom | PSqrtRadicand => true | _ => false end.
Definition is_command (c : call) : bool :=
  match c with
  | CLeft | COver | CFrac | CSqrt | CMatrix | CTextstyle | CScriptstyle | CScriptscriptstyle => true
  | _ => false
  end.
(** what is awaited once the pending atoms are complete *)
Fixpoint pending_away (l : list mstate) : list mstate :=
  match l with PAtom :: r => pending_away r | _ => l end.
Definition waiting (m : mp) : bool :=
  match pending_away (mp_states m) with s :: _ => awaits_argument s | [] => false end.
(** no command where an argument is awaited *)
Fixpoint careful (l : list call) (m : mp) : Prop :=
  match l with
  | [] => True
  | k :: r => (waiting m = true -> is_command k = false) /\
              match do_call m k with Result.Ok m' => careful r m' | _ => True end
  end.
