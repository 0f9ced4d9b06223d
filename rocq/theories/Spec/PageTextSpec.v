(** Texts of characters, blanks, braces, boxes and paragraphs, and the page they make. *)
From Coq Require Import List Ascii String ZArith QArith.
From Verif.Base Require Import Result Num.
From Verif.Model Require Import Token Glue Box ListBuilders PageEditor.
From Verif.Spec Require Import UnicodeSpec.
Import ListNotations.
Local Open Scope nat_scope.

(** ** The contents of a paragraph *)
Inductive hitem : Type :=
| Glyph (c : Z) | Blank | Braces (l : list hitem) | Boxed (l : list hitem).

(** How it is written: characters in UTF-8, one token for each byte *)
Definition byte_token (b : Z) (t : token) : Prop :=
  exists a k, t = TChar a k /\ (k = Letter \/ k = Other) /\ Z.of_N (N_of_ascii a) = b.
Inductive spells : hitem -> list token -> Prop :=
| sp_glyph c s ts : utf8 c s -> Forall2 byte_token s ts -> spells (Glyph c) ts
| sp_blank a : spells Blank [TChar a Space]
| sp_braces a l ts b : spells_all l ts -> spells (Braces l) (TChar a GroupBegin :: ts ++ [TChar b GroupEnd])
| sp_boxed a l ts b : spells_all l ts ->
    spells (Boxed l) (TCs (list_ascii_of_string "hbox") :: TChar a GroupBegin :: ts ++ [TChar b GroupEnd])
with spells_all : list hitem -> list token -> Prop :=
| sa_nil : spells_all [] []
| sa_cons i l ts ts' : spells i ts -> spells_all l ts' -> spells_all (i :: l) (ts ++ ts').

(** How deep the braces are *)
Fixpoint nesting (i : hitem) : Z :=
  match i with
  | Glyph _ | Blank => 0
  | Braces l | Boxed l => 1 + fold_right Z.max 0 (map nesting l)
  end%Z.
Definition nesting_all (l : list hitem) : Z := fold_right Z.max 0%Z (map nesting l).

(** The characters satisfy [P] *)
Fixpoint glyphs (P : Z -> Prop) (i : hitem) : Prop :=
  match i with
  | Glyph c => P c
  | Blank => True
  | Braces l | Boxed l => fold_right and True (map (glyphs P) l)
  end.
Definition glyphs_all (P : Z -> Prop) (l : list hitem) : Prop := fold_right and True (map (glyphs P) l).

(** What it is typeset to *)
Fixpoint nodes {N : Num} (f : hmetrics N) (i : hitem) : list (node N) :=
  match i with
  | Glyph c => [NChar c (hm_char f c)]
  | Blank => [NGlue (glue_make (hm_space f) (hm_shrink f) Normal (hm_stretch f) Normal)]
  | Braces l => List.concat (map (nodes f) l)
  | Boxed l => [node_of Horizontal (hbox (List.concat (map (nodes f) l)))]
  end.
Definition nodes_all {N : Num} (f : hmetrics N) (l : list hitem) : list (node N) := List.concat (map (nodes f) l).

(** ** A document: paragraphs, separated by any number of [\par]; a paragraph
    does not begin with a box *)
Definition par : token := TCs (list_ascii_of_string "par").
Definition paragraph_of (l : list hitem) (ts : list token) : Prop :=
  spells_all l ts /\ match l with [] => False | Boxed _ :: _ => False | _ => True end.
Inductive document : list (list hitem) -> list token -> Prop :=
| doc_nil : document [] []
| doc_par ps ts : document ps ts -> document ps (par :: ts)
| doc_last l ts : paragraph_of l ts -> document [l] ts
| doc_cons l ts ps ts' : paragraph_of l ts -> document ps ts' -> document (l :: ps) (ts ++ par :: ts').

(** The page: the paragraphs one below the other *)
Definition page {N : Num} (K : host N) (m : memory N) (ps : list (list hitem)) (b : vbuilder N) : result (vbuilder N) :=
  foldM (fun b l => add_paragraph K m b (nodes_all (k_font K (me_font m)) l)) ps b.

(** A new machine's memory and page: the distance between the baselines is 1.2
    times the height and depth of a parenthesis *)
Definition line_height {N : Num} (K : host N) : N := nadd (m_height (k_paren K 0)) (m_depth (k_paren K 0)).
Definition new_memory {N : Num} (K : host N) (font : Z) (hsize : N) : memory N :=
  mkMem font (glue_space (nmul (nlit (12 # 10)) (line_height K))) (glue_space (nmul (nlit (1 # 10)) (line_height K)))
        n0 hsize [].
Definition new_page {N : Num} (K : host N) : vbuilder N :=
  vbuilder_new (glue_space (nmul (nlit (12 # 10)) (line_height K))) (glue_space (nmul (nlit (1 # 10)) (line_height K))).
