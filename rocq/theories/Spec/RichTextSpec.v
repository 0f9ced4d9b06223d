(** Texts of the page editor without macros: paragraphs with fonts, kerns,
    lowered boxes and formulas, displays, and the page they make. *)
From Coq Require Import List Ascii String ZArith QArith.
From Verif.Base Require Import Result Num.
From Verif.Model Require Import Token Dimen DimenParser Glue Box ListBuilders LineBreaks MathList MathParser
  MathTypeset PageEditor.
From Verif.Spec Require Import UnicodeSpec DimenSpec MathSpec EquationSpec PageTextSpec.
Import ListNotations.
Local Open Scope nat_scope.

(** How deep a formula is *)
Fixpoint height (t : tree) : nat :=
  match t with
  | TAtom _ a b c => Nat.max (height_of a) (Nat.max (height_of b) (height_of c))
  | TBoundary _ | TStyle _ => 0
  | TFrac a b | TRoot a b => 1 + Nat.max (fold_right Nat.max 0 (map height a)) (fold_right Nat.max 0 (map height b))
  | TMatrix cells _ => 1 + fold_right Nat.max 0 (map (fun l => fold_right Nat.max 0 (map height l)) cells)
  end
with height_of (c : content) : nat :=
  match c with
  | Nothing | Sym _ => 0
  | Formula l => 1 + fold_right Nat.max 0 (map height l)
  end.
Definition heights (l : list tree) : nat := fold_right Nat.max 0 (map height l).

Section Rich.
  Context {N : Num}.
  Variable K : host N.

  (** ** What a text depends on: parameters, fonts by their names, fonts loaded *)
  Record env := mkEnv { e_mem : memory N; e_font : name -> option Z; e_loads : list (name * name) }.
  Definition the_font (e : env) : hmetrics N := k_font K (me_font (e_mem e)).
  (** one point is a tenth of the height and depth of a parenthesis *)
  Definition units (e : env) : unitsystem N :=
    let f := me_font (e_mem e) in
    mkUS (ndiv (nadd (m_depth (k_paren K f)) (m_height (k_paren K f))) (nz 10)) (k_quad K f) (k_xheight K f).

  (** Words that are not expanded, words that are not assignments *)
  Definition unexpanded (n : name) : Prop := ~ In n (map str ["def"; "ifbr"; "csname"; "expandafter"; "begin"; "end"])%string.
  Definition ordinary (e : env) (n : name) : Prop :=
    unexpanded n /\ ~ In n (map str ["parshape"; "font"]%string) /\ e_font e n = None.
  Definition word (w : string) : token := TCs (str w).
  Definition spelt (s : name) (ts : list token) : Prop := Forall2 (fun c t => exists k, t = TChar c k) s ts.

  (** ** Dimensions *)
  Definition measures (e : env) (d : name) (x : N) : Prop :=
    exists p q, dp_writes dp_init d = Ok p /\ dp_hasResult p = true /\ dp_isFinished p = false /\
      dp_finish (N := N) (k_range K) p = Ok q /\ d_isFinite q = true /\ d_eval q (units e) = Ok x.
  Definition shapes (e : env) (d : name) (ps : list (N * N)) : Prop :=
    exists d' c p p', d = d' ++ [c] /\ pp_writes (k_range K) (units e) pp_init d' = Ok p /\ pp_st p <> PFinished /\
      pp_write (k_range K) (units e) p c = Ok p' /\ pp_st p' = PFinished /\ pp_specs p' = ps.

  (** ** Assignments *)
  Inductive assigns (e : env) : list token -> env -> Prop :=
  | as_select : forall n f, unexpanded n -> ~ In n (map str ["parshape"; "font"]%string) -> e_font e n = Some f ->
      assigns e [TCs n] (mkEnv (set_font (e_mem e) f) (e_font e) (e_loads e))
  | as_load : forall n s ts k k' f, unexpanded n -> ~ In "}"%char s -> spelt s ts -> k_load K (e_loads e) n s = Ok f ->
      assigns e (word "font" :: TCs n :: TChar "=" k :: ts ++ [TChar "}" k'])
        (mkEnv (e_mem e) (fun m => if list_eq_dec ascii_dec m n then Some f else e_font e m) (e_loads e ++ [(n, s)]))
  | as_shape : forall d ps ts, shapes e d ps -> spelt d ts ->
      assigns e (word "parshape" :: ts) (mkEnv (set_parshape (e_mem e) ps) (e_font e) (e_loads e)).

  (** ** Formulas: [&] is lost *)
  Definition in_math (e : env) (t : token) : Prop :=
    match t with TChar _ k => k <> MathShift /\ k <> AlignmentTab | TCs n => ordinary e n | TParam _ => False end.
  Inductive asks (e : env) : token -> list call -> Prop :=
  | ask_means : forall t l, in_math e t -> means t l -> asks e t l
  | ask_tab : forall c, asks e (TChar c AlignmentTab) [].
  Definition formula (e : env) (sty : style) (ts : list token) (l : list (node N)) : Prop :=
    exists es trees r, Forall2 (asks e) ts es /\ group (List.concat es) trees /\ heights trees < k_fuel K /\
      mlist2hlist (k_math K) (k_fuel K) default_penalties sty (map value trees) = Ok r /\ l = fst r.

  (** ** Horizontal lists *)
  Definition readable (c : Z) : Prop := k_debug K = false \/ k_signed K = false \/ (c < 65536)%Z.
  Definition lowered (v : N) (b : lbox N) : lbox N :=
    if nonzero v then setShiftAmount b (nadd (b_shift b) v) else b.
  Definition back (e e' : env) : env := mkEnv (e_mem e) (e_font e') (e_loads e').
  (** the end of a dimension: a character, which is lost *)
  Definition stop (l : list token) : Prop := exists c k, l = [TChar c k] /\ ~ lower c.

  Inductive sets1 : env -> list token -> list (node N) -> env -> Prop :=
  | s_glyph e c s ts : utf8 c s -> Forall2 byte_token s ts -> readable c ->
      sets1 e ts [NChar c (hm_char (the_font e) c)] e
  | s_blank e a : sets1 e [TChar a Space]
      [NGlue (glue_make (hm_space (the_font e)) (hm_shrink (the_font e)) Normal (hm_stretch (the_font e)) Normal)] e
  (** [^ _ & ~ #] are ignored *)
  | s_ignored e a k : In k [AlignmentTab; ParamChar; Superscript; Subscript; Active] -> sets1 e [TChar a k] [] e
  | s_braces e a ts b l e' : sets e ts l e' ->
      sets1 e (TChar a GroupBegin :: ts ++ [TChar b GroupEnd]) l (back e e')
  | s_box e a ts b l e' : ordinary e (str "hbox") -> sets e ts l e' ->
      sets1 e (word "hbox" :: TChar a GroupBegin :: ts ++ [TChar b GroupEnd]) [node_of Horizontal (hbox l)] (back e e')
  | s_kern e d ts w x : ordinary e (str "kern") -> spelt d ts -> measures e d x -> stop w ->
      sets1 e (word "kern" :: ts ++ w) [NKern x] e
  (** the box itself ends the dimension, or a character *)
  | s_lower e d ts w x a ts' b l e' : ordinary e (str "lower") -> ordinary e (str "hbox") ->
      spelt d ts -> measures e d x -> w = [] \/ stop w -> sets e ts' l e' ->
      sets1 e (word "lower" :: ts ++ w ++ word "hbox" :: TChar a GroupBegin :: ts' ++ [TChar b GroupEnd])
        [node_of Horizontal (lowered x (hbox l))] (back e e')
  | s_assign e ts e' : assigns e ts e' -> sets1 e ts [] e'
  | s_formula e a ts b l : ts <> [] -> formula e T ts l ->
      sets1 e (TChar a MathShift :: ts ++ [TChar b MathShift]) l e
  with sets : env -> list token -> list (node N) -> env -> Prop :=
  | s_nil e : sets e [] [] e
  | s_cons e ts l e1 ts' l' e2 : sets1 e ts l e1 -> sets e1 ts' l' e2 -> sets e (ts ++ ts') (l ++ l') e2
  (** a word ends a dimension, and is not lost *)
  | s_kern_word e d ts x n ts' l e' : ordinary e (str "kern") -> spelt d ts -> measures e d x ->
      In n (map str ["kern"; "hbox"; "lower"]%string) -> ordinary e n ->
      sets e (TCs n :: ts') l e' -> sets e (word "kern" :: ts ++ TCs n :: ts') (NKern x :: l) e'.

  (** ** The page *)
  (** the parameters of a paragraph: those of the page, otherwise constants *)
  Definition page_para (m : memory N) (prevdepth : N) : para N :=
    mkPara 800 10000 10 (me_hsize m) n0 1 (me_parshape m)
      (mkGlue n0 n0 n0 Normal Normal) (mkGlue n0 n0 n0 Normal Normal) (mkGlue n0 n0 n1 Normal Fil)
      (me_baselineskip m) (me_lineskip m) (me_lineskiplimit m) prevdepth.
  (** the depth of the last box *)
  Definition last_depth (d : N) (l : list (node N)) : N :=
    fold_left (fun d n => match box_metrics n with Some m => m_depth m | None => d end) l d.
  Definition put (b : vbuilder N) (l : list (node N)) : vbuilder N :=
    mkVB (vb_result b ++ l) (vb_baselineskip b) (vb_lineskip b) (vb_lineskiplimit b) (last_depth (vb_prevdepth b) l).
  (** the lines of a paragraph *)
  Definition lines (m : memory N) (b : vbuilder N) (l ls : list (node N)) : Prop :=
    let P := page_para m (vb_prevdepth b) in LineBreaks.create (k_pows K) P (prepare P l) = Ok ls.
  (** a display: centred, with the distance of C32 *)
  Definition centred (m : memory N) (l : list (node N)) : lbox N :=
    let fil := NGlue (mkGlue n0 n0 n1 Normal Fil) in hbox_to ([fil] ++ l ++ [fil]) (me_hsize m).
  Definition display (m : memory N) (b : vbuilder N) (l : list (node N)) : vbuilder N :=
    vb_push_box b (node_of Horizontal (centred m l)) (b_metrics (centred m l)).
  Definition dollars (a b : ascii) : list token := [TChar a MathShift; TChar b MathShift].

  (** A paragraph begins with a character *)
  Definition begins (ts : list token) : Prop :=
    match ts with TChar _ k :: _ => k <> MathShift | _ => False end.

  Inductive rich : env -> list token -> vbuilder N -> vbuilder N -> Prop :=
  | d_end e b : rich e [] b b
  | d_par e ts b b' : ordinary e (str "par") -> rich e ts b b' -> rich e (par :: ts) b b'
  | d_assign e ts e' ts' b b' : assigns e ts e' -> rich e' ts' b b' -> rich e (ts ++ ts') b b'
  | d_kern e d ts w x ts' b b' : ordinary e (str "kern") -> spelt d ts -> measures e d x -> stop w ->
      rich e ts' (put b [NKern x]) b' -> rich e (word "kern" :: ts ++ w ++ ts') b b'
  | d_kern_word e d ts x n ts' b b' : ordinary e (str "kern") -> spelt d ts -> measures e d x ->
      In n (map str ["kern"; "par"]%string) -> ordinary e n ->
      rich e (TCs n :: ts') (put b [NKern x]) b' -> rich e (word "kern" :: ts ++ TCs n :: ts') b b'
  | d_display e a1 a2 ts l a3 a4 ts' b b' : formula e D ts l -> rich e ts' (display (e_mem e) b l) b' ->
      rich e (dollars a1 a2 ++ ts ++ dollars a3 a4 ++ ts') b b'
  | d_last e ts l e' b ls : begins ts -> sets e ts l e' -> lines (e_mem e') b l ls -> rich e ts b (put b ls)
  | d_para e ts l e' b ls ts' b' : begins ts -> sets e ts l e' -> lines (e_mem e') b l ls -> ordinary e' (str "par") ->
      rich e' ts' (put b ls) b' -> rich e (ts ++ par :: ts') b b'
  (** a display ends a paragraph *)
  | d_para_display e ts l e' b ls a1 a2 ts1 l1 a3 a4 ts' b' : begins ts -> sets e ts l e' -> lines (e_mem e') b l ls ->
      formula e' D ts1 l1 -> rich e' ts' (display (e_mem e') (put b ls) l1) b' ->
      rich e (ts ++ dollars a1 a2 ++ ts1 ++ dollars a3 a4 ++ ts') b b'.

  Definition new_env (font : Z) (hsize : N) : env := mkEnv (new_memory K font hsize) (fun _ => None) [].
End Rich.
Arguments env N : clear implicits.
