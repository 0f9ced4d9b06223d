(** Model of the widgets that show a box: apps/common/{renderwidget,pagewidget}.cpp,
    apps/equation-editor/renderwidget.cpp and
    apps/linebreaks-viewer/linebreaks-viewer-render-widget.cpp.

    What is drawn is a list of calls of [QPainter]. Fonts and pens (except for
    colours), the background and the pixels of a glyph are not modelled. Qt
    computes with [double], here all numbers are of one kind. *)
From Coq Require Import List ZArith QArith Qcanon Bool.
From Verif.Base Require Import Result Num.
From Verif.Model Require Import Glue Box Layout LineBreaks.
Import ListNotations.

Inductive colour : Set := Black | Red | Green | Blue | Magenta.

Section Render.
  Context {N : Num}.

  Inductive draw : Type :=
  | DText (c : Z) (p : pos N)                        (* drawText of a character *)
  | DGlyph (c : Z) (p : pos N) (sx sy : N)           (* translate, scale, drawGlyphRun at the origin *)
  | DRect (x y w h : N)                              (* drawRect, filled, no pen *)
  | DFrame (k : colour) (x y w h : N)                (* drawRect, not filled *)
  | DLine (a b : pos N)                              (* drawLine, dark magenta *)
  | DNumber (k : colour) (p : pos N) (r : N).        (* drawText of a number *)

  (** [QMargins] *)
  Record margins := mkMargins { g_left : Z; g_top : Z; g_right : Z; g_bottom : Z }.
  (** apps/common/renderwidget.cpp:42 *)
  Definition default_margins : margins := mkMargins 10 10 10 10.

  (** renderwidget.cpp:109-114 [getRect]: left, top, width, height *)
  Definition getRect (p : pos N) (m : metrics N) : N * N * N * N :=
    (fst p, nsub (snd p) (m_height m), m_width m, totalHeight m).
  Definition frame (k : colour) (p : pos N) (m : metrics N) : draw :=
    let '(x, y, w, h) := getRect p m in DFrame k x y w h.

  (** renderwidget.cpp:116-148 [RenderWidget::paint] of a box; [ori] is the field
      [oribox] of a [CharBox] that was deformed (qt-typeset-engine.h:61-74,
      qt-typeset-engine.cpp:88-106) *)
  Definition paint_box (ori : option (metrics N)) (n : node N) (p : pos N) : list draw :=
    match n with
    | NChar c m =>
        match ori with
        | None => [DText c p]
        | Some o => [DGlyph c p (ndiv (m_width m) (m_width o))
                       (ndiv (nadd (m_height m) (m_depth m)) (nadd (m_height o) (m_depth o)))]
        end
    | _ => []
    end.

  (** renderwidget.cpp:150-157 [RenderWidget::paint] of a rule *)
  Definition paint_rule (m : metrics N) (p : pos N) : list draw :=
    let '(x, y, w, h) := getRect p m in [DRect x y w h].

  (** The switches of apps/equation-editor/renderwidget.h *)
  Record switches := mkSwitches { w_chars : bool; w_boxes : bool; w_lists : bool; w_baselines : bool }.
  (** equation-editor/renderwidget.cpp:56-107 *)
  Definition paint_equation (w : switches) (ori : option (metrics N)) (n : node N) (p : pos N) : list draw :=
    match n with
    | NChar _ m =>
        (if w_boxes w then [frame Blue p m] else []) ++
        (if w_baselines w then
           let '(_, _, wd, _) := getRect p m in [DLine p (nadd (fst p) wd, nadd (snd p) n0)] else []) ++
        (if w_chars w then paint_box ori n p else [])
    | NList k m _ _ _ _ =>
        if w_lists w then [frame match k with Horizontal => Red | Vertical => Green end p m] else []
    | _ => []
    end.

  (** linebreaks-viewer-render-widget.cpp:13-51 *)
  Definition paint_viewer (show_ratios : bool) (ori : option (metrics N)) (n : node N) (p : pos N) : list draw :=
    paint_box ori n p ++
    if negb show_ratios then [] else
    match n with
    | NList Horizontal m _ ratio ord _ =>
        let pen := if gorder_eqb ord Normal then
            match getFitnessClass ratio with
            | Tight => Red | Loose => Blue | VeryLoose => Red | Decent => Black
            end else Black in
        let '(x, y, w, h) := getRect p m in
        [DNumber pen (nadd (nadd x w) (nz 10), nadd y (nz 10)) ratio]
    | _ => []
    end.

  Inductive widget : Set := Plain | Equation (w : switches) | Breaks (show_ratios : bool).
  Definition paint (W : widget) : option (metrics N) -> node N -> pos N -> list draw :=
    match W with
    | Plain => paint_box
    | Equation w => paint_equation w
    | Breaks r => paint_viewer r
    end.

  (** renderwidget.cpp:16-37 [LayoutVisitor]. The characters of a box are
      numbered in the order of the visit; [ori k] says how the [k]-th is
      deformed. *)
  Definition visitor (W : widget) (ori : nat -> option (metrics N)) (s : nat * list draw) (n : node N) (p : pos N)
      : nat * list draw :=
    match n with
    | NRule m => (fst s, snd s ++ paint_rule m p)
    | NChar _ _ => (Datatypes.S (fst s), snd s ++ paint W (ori (fst s)) n p)
    | _ => (fst s, snd s ++ paint W None n p)
    end.

  (** renderwidget.cpp:88-107 [visit]: where the box is put in a widget of the
      given size *)
  Definition origin (centered : bool) (g : margins) (width height : Z) (m : metrics N) : pos N :=
    let x := nz (g_left g) in
    let y := nz (g_top g) in
    if centered then
      (nadd x (nmul (nsub (nz (width - g_left g - g_right g)) (m_width m)) (nlit (1 # 2))),
       nadd y (nadd (nmul (nsub (nz (height - g_top g - g_bottom g)) (totalHeight m)) (nlit (1 # 2))) (m_height m)))
    else (x, nadd y (m_height m)).

  Definition draw_box (W : widget) (ori : nat -> option (metrics N)) (n : node N) (p : pos N) : list draw :=
    snd (read_full (visitor W ori) (0%nat, []) n p).
  (** renderwidget.cpp:73-107 [paintEvent], [visit] *)
  Definition paintEvent (W : widget) (ori : nat -> option (metrics N)) (centered : bool) (g : margins)
      (width height : Z) (box : option (node N)) : list draw :=
    match box with
    | None => []
    | Some n =>
        match box_metrics n with
        | Some m => draw_box W ori n (origin centered g width height m)
        | None => []                 (* not a box *)
        end
    end.

  (** * apps/common/pagewidget.cpp *)
  Local Open Scope Z_scope.
  (** [int] of a [float] *)
  Variable to_int : N -> Z.

  (** The widget, its sheet (the [RenderWidget]) and its scroll bar *)
  Record pagewidget := mkPage {
    p_pagewidth : Z; p_margins : margins; p_width : Z; p_height : Z;
    p_sheet : Z;                        (* height of the sheet *)
    p_at : Z * Z;                       (* where the sheet is *)
    p_bar : bool; p_min : Z; p_max : Z; p_value : Z }.

  (** :35-38 *)
  Definition hsize (s : pagewidget) : Z := p_pagewidth s - g_left (p_margins s) - g_right (p_margins s).

  (** [QAbstractSlider::setRange], [setValue] *)
  Definition bounded (lo hi v : Z) : Z := Z.max lo (Z.min hi v).

  (** [QPoint * 0.5] rounds to the nearest integer, and up between two *)
  Definition half_up (z : Z) : Z := (z + 1) / 2.

  (** :81-104 [updateLayout] *)
  Definition updateLayout (s : pagewidget) : pagewidget :=
    if p_height s + 20 <? p_sheet s then
      let lo := -10 in
      let hi := Z.max lo (p_sheet s + 10 - p_height s) in
      let v := bounded lo hi (p_value s) in
      mkPage (p_pagewidth s) (p_margins s) (p_width s) (p_height s) (p_sheet s)
             (Z.quot (p_width s - p_pagewidth s) 2, - v) true lo hi v
    else
      mkPage (p_pagewidth s) (p_margins s) (p_width s) (p_height s) (p_sheet s)
             (half_up (p_width s - p_pagewidth s), half_up (p_height s - p_sheet s))
             false (p_min s) (p_max s) (p_value s).

  (** :50-59 [setBox]; [setFixedHeight] of Qt takes no more than 2^24 - 1 *)
  Definition setBox (s : pagewidget) (m : metrics N) : pagewidget :=
    let h := to_int (nadd (nadd (totalHeight m) (nz (g_top (p_margins s)))) (nz (g_bottom (p_margins s)))) in
    let h := if 600 <? h then h else 600 in
    updateLayout (mkPage (p_pagewidth s) (p_margins s) (p_width s) (p_height s) (Z.min h 16777215)
                         (p_at s) (p_bar s) (p_min s) (p_max s) (p_value s)).

  (** :71-79 [resizeEvent] *)
  Definition resize (s : pagewidget) (w h : Z) : pagewidget :=
    updateLayout (mkPage (p_pagewidth s) (p_margins s) w h (p_sheet s) (p_at s) (p_bar s) (p_min s) (p_max s) (p_value s)).

  (** the user moves the scroll bar *)
  Definition scroll (s : pagewidget) (v : Z) : pagewidget :=
    updateLayout (mkPage (p_pagewidth s) (p_margins s) (p_width s) (p_height s) (p_sheet s) (p_at s) (p_bar s)
                         (p_min s) (p_max s) (bounded (p_min s) (p_max s) v)).

  Inductive page_event : Type := PBox (m : metrics N) | PResize (w h : Z) | PScroll (v : Z).
  Definition page_step (s : pagewidget) (e : page_event) : pagewidget :=
    match e with
    | PBox m => setBox s m
    | PResize w h => resize s w h
    | PScroll v => if p_bar s then scroll s v else s      (* a hidden bar does not move *)
    end.

  (** :12-22 and pagewidget.h:46: a new widget; its size and the height of its
      sheet are those Qt gives *)
  Definition new_page_widget (w h sheet : Z) : pagewidget :=
    mkPage 800 default_margins w h sheet (0, 0) false 0 99 0.
  Definition page_session (w h sheet : Z) (es : list page_event) : pagewidget :=
    fold_left page_step es (new_page_widget w h sheet).
End Render.
(** truncation *)
Definition Qc_trunc (x : Qc) : Z := Z.quot (Qnum x) (Zpos (Qden x)).
Arguments draw N : clear implicits.
Arguments page_event N : clear implicits.
