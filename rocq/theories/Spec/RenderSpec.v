(** What a widget should show of a box. *)
From Coq Require Import List QArith Qcanon ZArith Bool.
From Verif.Base Require Import Num.
From Verif.Model Require Import Glue Box ListBuilders LineBreaks PageEditor Render.
From Verif.Spec Require Import BoxSpec LineBreakSpec.
Import ListNotations.

(** * The calls of the painter *)
Section Marks.
  Context {N : Num}.
  Notation place := (N * N)%type.

  (** A character, or a character scaled in both directions *)
  Definition glyph (ori : option (metrics N)) (c : Z) (m : metrics N) (p : place) : draw N :=
    match ori with
    | None => DText c p
    | Some o => DGlyph c p (ndiv (m_width m) (m_width o))
                  (ndiv (nadd (m_height m) (m_depth m)) (nadd (m_height o) (m_depth o)))
    end.

  (** What is drawn for each visit of a box at a place *)
  Inductive drawn (W : widget) (ori : nat -> option (metrics N)) : nat -> list (node N * place) -> list (draw N) -> Prop :=
  | dr_nil k : drawn W ori k [] []
  | dr_char k c m x y vs ds : drawn W ori (Datatypes.S k) vs ds ->
      drawn W ori k ((NChar c m, (x, y)) :: vs)
        (match W with
         | Equation w =>
             (if w_boxes w then [DFrame Blue x (nsub y (m_height m)) (m_width m) (nadd (m_height m) (m_depth m))] else []) ++
             (if w_baselines w then [DLine (x, y) (nadd x (m_width m), nadd y n0)] else []) ++
             (if w_chars w then [glyph (ori k) c m (x, y)] else [])
         | _ => [glyph (ori k) c m (x, y)]
         end ++ ds)
  | dr_rule k m x y vs ds : drawn W ori k vs ds ->
      drawn W ori k ((NRule m, (x, y)) :: vs)
        (DRect x (nsub y (m_height m)) (m_width m) (nadd (m_height m) (m_depth m)) :: ds)
  | dr_box k m p vs ds : drawn W ori k vs ds -> drawn W ori k ((NBox m, p) :: vs) ds
  | dr_vbox k m s r o l x y vs ds : drawn W ori k vs ds ->
      drawn W ori k ((NList Vertical m s r o l, (x, y)) :: vs)
        (match W with
         | Equation w => if w_lists w then [DFrame Green x (nsub y (m_height m)) (m_width m) (nadd (m_height m) (m_depth m))] else []
         | _ => []
         end ++ ds)
  | dr_hbox k m s r o l x y vs ds : drawn W ori k vs ds ->
      drawn W ori k ((NList Horizontal m s r o l, (x, y)) :: vs)
        (match W with
         | Equation w => if w_lists w then [DFrame Red x (nsub y (m_height m)) (m_width m) (nadd (m_height m) (m_depth m))] else []
         | Breaks true =>
             let pen := match o, fitness_of r with Normal, (Tight | VeryLoose) => Red | Normal, Loose => Blue | _, _ => Black end in
             [DNumber pen (nadd (nadd x (m_width m)) (nz 10), nadd (nsub y (m_height m)) (nz 10)) r]
         | _ => []
         end ++ ds).

  (** The characters, the rules and the ratios of a drawing *)
  Definition letters (d : draw N) : list (Z * place) :=
    match d with DText c p | DGlyph c p _ _ => [(c, p)] | _ => [] end.
  Definition bars (d : draw N) : list (place * place) :=
    match d with DRect x y w h => [((x, y), (w, h))] | _ => [] end.
  Definition numbers (d : draw N) : list N :=
    match d with DNumber _ _ r => [r] | _ => [] end.
  (** ... and of a list of visits *)
  Definition characters (v : node N * place) : list (Z * place) :=
    match v with (NChar c _, p) => [(c, p)] | _ => [] end.
  Definition rules (v : node N * place) : list (place * place) :=
    match v with
    | (NRule m, (x, y)) => [((x, nsub y (m_height m)), (m_width m, nadd (m_height m) (m_depth m)))]
    | _ => []
    end.
  Definition ratios (v : node N * place) : list N :=
    match v with (NList Horizontal _ _ r _ _, _) => [r] | _ => [] end.

  Definition hides_letters (W : widget) : bool :=
    match W with Equation w => negb (w_chars w) | _ => false end.
End Marks.

(** * Areas, the second coordinate growing downwards *)
Local Open Scope Qc_scope.
Record area := mkArea { a_left : Qc; a_top : Qc; a_right : Qc; a_bottom : Qc }.
Definition area_of (m : metrics QcNum) (p : Qc * Qc) : area :=
  mkArea (fst p) (snd p - m_height m) (fst p + m_width m) (snd p + m_depth m).
Definition within (a b : area) : Prop :=
  a_left b <= a_left a /\ a_top b <= a_top a /\ a_right a <= a_right b /\ a_bottom a <= a_bottom b.
(** [a] scaled about [p] *)
Definition scaled (sx sy : Qc) (p : Qc * Qc) (a : area) : area :=
  mkArea (fst p + sx * (a_left a - fst p)) (snd p + sy * (a_top a - snd p))
         (fst p + sx * (a_right a - fst p)) (snd p + sy * (a_bottom a - snd p)).
Definition of_int (z : Z) : Qc := Q2Qc (inject_Z z).

(** * Boxes of which nothing sticks out *)
(** glue that does not shrink to less than nothing *)
Definition tame (g : glue QcNum) : Prop :=
  0 <= g_stretch g /\ 0 <= g_shrink g /\ g_shrink g <= g_space g /\ (g_shrink g <> 0 -> g_shrinkOrder g = Normal).
Definition unshifted (n : node QcNum) : Prop := match n with NList _ _ s _ _ _ => s = 0 | _ => True end.

(** A character, box or rule of some size; space that is not negative; a
    horizontal list packed by [hbox]; a vertical list packed by [vbox], whose
    boxes are not shifted, with its baseline anywhere. *)
Definition sound (n : node QcNum) : Prop :=
  match n with
  | NChar _ m | NBox m | NRule m => 0 <= m_width m /\ 0 <= m_height m + m_depth m
  | NKern x => (0 : Qc) <= x
  | NGlue g => tame g
  | NPenalty _ | NOther => True
  | NList Horizontal m _ r o l =>
      exists b : lbox QcNum, (b = hbox l \/ exists w, b = hbox_to l w) /\ m = b_metrics b /\ r = b_ratio b /\ o = b_order b
  | NList Vertical m _ r o l =>
      Forall unshifted l /\
      exists b : lbox QcNum, (b = vbox l \/ exists h, b = vbox_to l h) /\ r = b_ratio b /\ o = b_order b /\
        m_width m = m_width (b_metrics b) /\
        m_height m + m_depth m = m_height (b_metrics b) + m_depth (b_metrics b)
  end.
(** everywhere in a box *)
Fixpoint packed (n : node QcNum) : Prop :=
  sound n /\
  match n with
  | NList _ _ _ _ _ l => (fix all (l : list (node QcNum)) := match l with [] => True | c :: r => packed c /\ all r end) l
  | _ => True
  end.

(** A font without negative sizes *)
Definition kind_font (f : hmetrics QcNum) : Prop :=
  (forall c, 0 <= m_width (hm_char f c) /\ 0 <= m_height (hm_char f c) + m_depth (hm_char f c)) /\
  0 <= hm_stretch f /\ 0 <= hm_shrink f /\ hm_shrink f <= hm_space f.

(** * What is seen of a sheet in a window *)
Local Open Scope Z_scope.
(** row [r] and column [c] of the sheet, counted from its top and left *)
Definition row_seen (s : pagewidget) (r : Z) : Prop := 0 <= r + snd (p_at s) < p_height s.
Definition column_seen (s : pagewidget) (c : Z) : Prop := 0 <= c + fst (p_at s) < p_width s.
(** the part of a window left free on each side of the sheet, negative if the sheet is cut there *)
Definition free_left (s : pagewidget) : Z := fst (p_at s).
Definition free_right (s : pagewidget) : Z := p_width s - p_pagewidth s - fst (p_at s).
Definition free_top (s : pagewidget) : Z := snd (p_at s).
Definition free_bottom (s : pagewidget) : Z := p_height s - p_sheet s - snd (p_at s).

(** A new window to which some things were done, of which at least one was to
    give it a page or a size *)
Inductive used_page (ti : num QcNum -> Z) : pagewidget -> Prop :=
| up_event w h sheet (es : list (page_event QcNum)) (e : page_event QcNum) : match e with PScroll _ => False | _ => True end ->
    used_page ti (page_step (N := QcNum) ti (page_session ti w h sheet es) e)
| up_more s e : used_page ti s -> used_page ti (page_step (N := QcNum) ti s e).
