(** C97-C100: what the widgets show. *)
From Coq Require Import List Ascii String QArith Qcanon ZArith Bool Arith Lia.
From Verif.Base Require Import Result Num.
From Verif.Model Require Import Token Glue Box Layout ListBuilders Lexer LineBreaks Tfm MathList MathTypeset PageEditor FontUsage Render.
From Verif.Spec Require Import LexerSpec BoxSpec LineBreakSpec PageTextSpec TfmSpec FontUsageSpec RenderSpec.
From Verif.Proofs Require Import BoxProofs PageText FontUsageProofs RenderProofs RenderInside RenderPage RenderWindow.
Import ListNotations.

(** * C97: each box is drawn where the layout puts it *)
Theorem C97_drawn : forall (N : Num) W ori (n : node N) p, drawn W ori 0 (layout n p) (draw_box W ori n p).
Proof. exact @draw_box_drawn. Qed.
Theorem C97_letters : forall (N : Num) W ori (n : node N) p,
  flat_map letters (draw_box W ori n p) = if hides_letters W then [] else flat_map characters (layout n p).
Proof. exact (fun N W ori n p => drawn_letters W ori 0 _ _ (draw_box_drawn W ori n p)). Qed.
Theorem C97_bars : forall (N : Num) W ori (n : node N) p,
  flat_map bars (draw_box W ori n p) = flat_map rules (layout n p).
Proof. exact (fun N W ori n p => drawn_bars W ori 0 _ _ (draw_box_drawn W ori n p)). Qed.
Theorem C97_ratios : forall (N : Num) ori (n : node N) p,
  flat_map numbers (draw_box (Breaks true) ori n p) = flat_map ratios (layout n p).
Proof. exact (fun N ori n p => drawn_numbers ori 0 _ _ (draw_box_drawn (Breaks true) ori n p)). Qed.
(** a widget shows the box at its margins or, if centred, in the middle between them *)
Theorem C97_event : forall (N : Num) W ori centered g w h (n : node N) m, box_metrics n = Some m ->
  paintEvent W ori centered g w h (Some n) = draw_box W ori n (origin centered g w h m).
Proof. intros N W ori centered g w h n m E. unfold paintEvent. rewrite E. reflexivity. Qed.
Theorem C97_corner : forall g w h (m : metrics QcNum), let a := area_of m (origin false g w h m) in
  a_left a = of_int (g_left g) /\ a_top a = of_int (g_top g).
Proof. exact corner_lemma. Qed.
Theorem C97_centred : forall g w h (m : metrics QcNum), let a := area_of m (origin true g w h m) in
  (a_left a - of_int (g_left g) = (of_int w - of_int (g_right g)) - a_right a)%Qc /\
  (a_top a - of_int (g_top g) = (of_int h - of_int (g_bottom g)) - a_bottom a)%Qc.
Proof. exact centred_lemma. Qed.
(** a stretched sign is scaled to exactly its box *)
Theorem C97_stretched : forall (o : metrics QcNum) (h : Qc) p,
  (0 < m_height o + m_depth o)%Qc -> m_width o <> 0%Qc -> let m := stretched o h in
  scaled (m_width m / m_width o) ((m_height m + m_depth m) / (m_height o + m_depth o)) p (area_of o p) = area_of m p.
Proof. exact stretched_glyph. Qed.

Definition txt := list_ascii_of_string.
Definition q (z : Z) : Qc := Q2Qc (inject_Z z).
Definition qm (h d w : Z) : metrics QcNum := mkMetrics (N := QcNum) (q h) (q d) (q w).
(** a letter, a stretched sign and a fraction bar *)
Definition shown : node QcNum :=
  node_of Horizontal (hbox [NChar 97 (qm 7 0 5); NChar 40 (qm 12 4 4); NRule (qm 3 (-2) 10)]).
Definition sign (k : nat) : option (metrics QcNum) := if (k =? 1)%nat then Some (qm 6 2 4) else None.
Definition this_draw (d : draw QcNum) : list Q :=
  match d with
  | DText c (x, y) => [0; inject_Z c; this x; this y]
  | DGlyph c (x, y) a b => [1; inject_Z c; this x; this y; this a; this b]
  | DRect x y w h => [2; this x; this y; this w; this h]
  | DFrame k x y w h => [3; this x; this y; this w; this h]
  | DLine (x, y) (a, b) => [4; this x; this y; this a; this b]
  | DNumber k (x, y) r => [5; this x; this y; this r]
  end%Q.
Example C97_plain :
  map this_draw (paintEvent Plain sign false default_margins 300 200 (Some shown)) =
  [[0; 97; 10; 22]; [1; 40; 15; 22; 1; 2]; [2; 19; 19; 10; 1]]%Q.
Proof. vm_compute. reflexivity. Qed.
Example C97_no_letters :
  map this_draw (paintEvent (Equation (mkSwitches false true false true)) sign true default_margins 300 200 (Some shown)) =
  [[3; 281 # 2; 97; 5; 7]; [4; 281 # 2; 104; 291 # 2; 104];
   [3; 291 # 2; 92; 4; 16]; [4; 291 # 2; 104; 299 # 2; 104]; [2; 299 # 2; 101; 10; 1]]%Q.
Proof. vm_compute. reflexivity. Qed.

(** * C98: nothing is drawn outside of its box *)
Theorem C98_inside : forall n p v, packed n -> In v (layout (N := QcNum) n p) ->
  exists m0 m, box_metrics n = Some m0 /\ box_metrics (fst v) = Some m /\ within (area_of m (snd v)) (area_of m0 p).
Proof. exact nothing_sticks_out. Qed.
(** a character drawn by a widget is between its margins if the box is not too wide *)
Theorem C98_margins : forall W ori g w h n (m : metrics QcNum) c p,
  packed n -> box_metrics n = Some m -> (m_width m <= of_int (w - g_left g - g_right g))%Qc ->
  In (c, p) (flat_map letters (paintEvent W ori false g w h (Some n))) ->
  exists mc, In (NChar c mc, p) (layout n (origin false g w h m)) /\
    within (area_of mc p) (mkArea (of_int (g_left g)) (of_int (g_top g)) (of_int (w - g_right g))
                             (of_int (g_top g) + (m_height m + m_depth m))%Qc).
Proof. exact between_margins. Qed.
(** The page of a text of the page editor is such a box and is at most as wide as asked for *)
Theorem C98_page : forall (K : host QcNum) f (h : Qc) s text ts e ps,
  k_pows K = QcPows -> kind_font (k_font K f) -> (0 <= line_height K)%Qc -> (0 <= h)%Qc ->
  machine_new K f h = Ok s ->
  lexes DefaultCatCodes true NewLine text ts e -> e <> BadCharacter -> e <> BadParam -> document ps ts ->
  Forall (glyphs_all (fun c => k_debug K = false \/ k_signed K = false \/ (c < 65536)%Z)) ps ->
  Forall (fun l => (nesting_all l < 2 ^ 64)%Z) ps ->
  exists k, forall n box, (k <= n)%nat -> typeset K n s text = Ok box ->
    packed (node_of Vertical box) /\ (m_width (b_metrics box) <= h)%Qc.
Proof. exact typeset_packed. Qed.
Theorem C98_lines : forall (P : para QcNum) xs out, xs <> [] -> ~ In NOther xs -> p_parshape P = [] -> p_hangindent P = 0%Qc ->
  g_space (p_leftskip P) = 0%Qc -> g_space (p_rightskip P) = 0%Qc -> tame (p_leftskip P) -> tame (p_rightskip P) ->
  (p_tolerance P <= int_max)%Z -> (forall g, In (NGlue g) (prepare P xs) -> tame g) ->
  LineBreaks.create QcPows P (prepare P xs) = Ok out ->
  forall n (m : metrics QcNum), In n out -> box_metrics n = Some m -> (m_width m <= p_hsize P)%Qc.
Proof. exact lines_narrow. Qed.
(** [vbox] does not take the shift of its boxes into account: a box shifted to
    the right sticks out *)
Theorem C98_shift_refuted : exists n v m0 m,
  n = node_of Vertical (vbox [node_of Horizontal (setShiftAmount (hbox [NChar 97 (qm 7 0 10)]) (q 5))]) /\
  In v (layout (N := QcNum) n (q 0, q 0)) /\ box_metrics n = Some m0 /\ box_metrics (fst v) = Some m /\
  ~ within (area_of m (snd v)) (area_of m0 (q 0, q 0)).
Proof.
  do 4 eexists. split; [reflexivity|]. split; [right; left; reflexivity|]. split; [reflexivity|]. split; [reflexivity|].
  intros (_ & _ & H & _). vm_compute in H. apply H. reflexivity.
Qed.

Definition qfont : hmetrics QcNum := mkHM (N := QcNum) (fun _ => qm 7 2 5) (fun _ => 1000%Z) (q 4) (q 2) (q 1) (q 0).
Definition qparams : fparams QcNum :=
  let u := q 1 in mkFP (N := QcNum) u u u u u u u u u u u u u u u u u u u u.
Definition qengine : engine QcNum :=
  mkEngine (N := QcNum) (fun _ _ => qparams) (fun _ _ _ => qm 7 2 5) (fun _ _ _ => q 0)
    (fun y _ _ => NChar (s_char y) (qm 7 2 5)) (fun _ _ => NBox (qm 7 2 5)) (fun _ => NBox (qm 7 2 5)) (fun _ => NBox (qm 7 2 5)).
Definition qhost : host QcNum :=
  mkHost (N := QcNum) (fun _ => qfont) (fun _ => qm 8 2 4) (fun _ => q 10) (fun _ => q 4) qengine
    (fun l _ _ => Ok (Z.of_nat (List.length l) + 1)%Z) QcPows (fun _ => true) false true 20.
Example C98_font : kind_font (k_font qhost 0) /\ (0 <= line_height qhost)%Qc.
Proof. repeat split; discriminate. Qed.
(** two paragraphs, of two lines and of one, on a page 42 wide *)
Definition seen_text : list ascii := txt "ab cd efg \hbox{x y} h\par i".
Definition seen_box : option (lbox QcNum) :=
  match (do s <- machine_new qhost 0 (q 42); typeset qhost 1000 s seen_text) with Ok b => Some b | _ => None end.
Example C98_seen :
  match seen_box with
  | Some b =>
      (this (m_width (b_metrics b)),
       map (fun v : node QcNum * (Qc * Qc) => match fst v with NList _ m _ _ _ _ => [this (m_width m); this (fst (snd v)); this (snd (snd v))] | _ => [] end)
           (filter (fun v => match fst v with NList _ _ _ _ _ _ => true | _ => false end)
              (layout (node_of Vertical b) (q 10, q 17))))
  | None => (0%Q, [])
  end = (42, [[42; 10; 17]; [42; 10; -7]; [42; 10; 5]; [14; 10; 5]; [42; 10; 17]])%Q.
Proof. vm_compute. reflexivity. Qed.

(** * C99: the window of a page *)
Local Open Scope Z_scope.
(** the page is set to the width between the margins of the sheet *)
Theorem C99_sheet : forall ti s, used_page ti s ->
  p_pagewidth s = 800 /\ p_margins s = mkMargins 10 10 10 10 /\ hsize s = 780.
Proof. exact window_sheet. Qed.
(** so the letters of a text are between them *)
Theorem C99_letters : forall (K : host QcNum) f s text ts e ps ti v W ori hh,
  used_page ti v ->
  k_pows K = QcPows -> kind_font (k_font K f) -> (0 <= line_height K)%Qc ->
  machine_new K f (of_int (hsize v)) = Ok s ->
  lexes DefaultCatCodes true NewLine text ts e -> e <> BadCharacter -> e <> BadParam -> document ps ts ->
  Forall (glyphs_all (fun c => k_debug K = false \/ k_signed K = false \/ (c < 65536)%Z)) ps ->
  Forall (fun l => (nesting_all l < 2 ^ 64)%Z) ps ->
  exists k, forall n box, (k <= n)%nat -> typeset K n s text = Ok box -> forall c p,
    In (c, p) (flat_map letters (paintEvent W ori false (p_margins v) (p_pagewidth v) hh (Some (node_of Vertical box)))) ->
    exists mc, In (NChar c mc, p) (layout (node_of Vertical box) (origin false (p_margins v) (p_pagewidth v) hh (b_metrics box))) /\
      (of_int 10 <= a_left (area_of mc p))%Qc /\ (a_right (area_of mc p) <= of_int 790)%Qc /\ (of_int 10 <= a_top (area_of mc p))%Qc.
Proof.
  intros K f s text ts e ps ti v W ori hh U PW KF LH NW LX E1 E2 D G NS.
  destruct (window_sheet ti v U) as (A & B & C).
  destruct (typeset_packed K f (of_int (hsize v)) s text ts e ps PW KF LH) as (k & H); try assumption;
    [rewrite C; discriminate|].
  exists k. intros n box L T c p I. destruct (H n box L T) as (P & Q).
  destruct (between_margins W ori (p_margins v) (p_pagewidth v) hh (node_of Vertical box) (b_metrics box) c p P eq_refl) as (mc & M & X).
  - rewrite A, B. unfold hsize in Q. rewrite A, B in Q. exact Q.
  - exact I.
  - exists mc. split; [exact M|]. destruct X as (X1 & X2 & X3 & _). rewrite A, B in *. auto.
Qed.
(** until it is scrolled, a high page is shown from its top *)
Theorem C99_top : forall ti w h sheet (es : list (page_event QcNum)),
  Forall (fun e => match e with PScroll _ => False | _ => True end) es -> es <> [] ->
  let s := page_session ti w h sheet es in p_height s + 20 < p_sheet s -> free_top s = 0.
Proof. exact window_top. Qed.
(** a page that fits, or nearly, is in the middle; at most 10 rows are cut at each end *)
Theorem C99_fits : forall ti s, used_page ti s -> p_sheet s <= p_height s + 20 ->
  p_bar s = false /\ -10 <= free_top s /\ -10 <= free_bottom s /\ 0 <= free_top s - free_bottom s <= 1.
Proof. exact window_fits. Qed.
(** another can be scrolled from 10 rows above it to 10 rows below it *)
Theorem C99_scroll : forall ti s v, used_page ti s -> p_height s + 20 < p_sheet s ->
  let s' := page_step (N := QcNum) ti s (PScroll v) in
  p_bar s = true /\ p_min s = -10 /\ p_max s = p_sheet s + 10 - p_height s /\
  (p_min s <= v <= p_max s -> free_top s' = - v /\ free_bottom s' = v - p_max s + 10) /\
  free_top s' <= 10 /\ free_bottom s' <= 10.
Proof. exact window_tall. Qed.
(** so all rows but the first and last 10, which are in the margins, can be seen *)
Theorem C99_rows : forall ti s r, used_page ti s -> 0 < p_height s -> 10 <= r < p_sheet s - 10 ->
  exists v, row_seen (page_step (N := QcNum) ti s (PScroll v)) r.
Proof. exact window_row. Qed.
Theorem C99_sides : forall ti s, used_page ti s -> Z.abs (free_left s - free_right s) <= 1.
Proof. exact window_sides. Qed.
(** in a window that is wide enough the text can be seen *)
Theorem C99_columns : forall ti s c, used_page ti s -> 780 <= p_width s -> 10 <= c < 790 -> column_seen s c.
Proof. exact window_columns. Qed.
(** in a narrower one not all of it, and there is no way to scroll *)
Theorem C99_narrow_refuted : forall ti w h, w < 780 -> exists c, 10 <= c < 790 /\
  forall s, used_page ti s -> p_width s = w -> p_height s = h -> ~ column_seen s c.
Proof. exact window_narrow. Qed.
(** the sheet has room for the page and its margins, up to less than a row *)
Theorem C99_room : forall s (m : metrics QcNum), (0 <= m_height m + m_depth m)%Qc ->
  0 <= g_top (p_margins s) -> 0 <= g_bottom (p_margins s) ->
  let need := (of_int (g_top (p_margins s)) + (m_height m + m_depth m) + of_int (g_bottom (p_margins s)))%Qc in
  let sheet := p_sheet (page_step (N := QcNum) Qc_trunc s (PBox m)) in
  (need < of_int 16777215)%Qc -> (need < of_int (sheet + 1))%Qc /\ 600 <= sheet.
Proof. exact sheet_room. Qed.
(** unless it is too high for Qt: its end cannot be seen *)
Theorem C99_high_refuted : forall s (m : metrics QcNum), (of_int 16777216 <= m_height m + m_depth m)%Qc ->
  0 <= g_top (p_margins s) -> 0 <= g_bottom (p_margins s) ->
  (of_int (p_sheet (page_step (N := QcNum) Qc_trunc s (PBox m))) < of_int (g_top (p_margins s)) + (m_height m + m_depth m))%Qc.
Proof. exact sheet_high. Qed.

(** a window 900 x 500, a page 1200 high, then one 100 high in a window 610 high *)
Definition page_high (z : Z) : metrics QcNum := qm z 0 780.
Definition win (es : list (page_event QcNum)) : bool * (Z * Z) * (Z * Z * Z) * Z :=
  let s := page_session (N := QcNum) Qc_trunc 640 480 480 es in (p_bar s, p_at s, (p_min s, p_value s, p_max s), p_sheet s).
Example C99_case :
  win [PResize 900 500; PBox (page_high 1200)] = (true, (50, 0), (-10, 0, 730), 1220) /\
  win [PResize 900 500; PBox (page_high 1200); PScroll 2000] = (true, (50, -730), (-10, 730, 730), 1220) /\
  win [PResize 900 500; PBox (page_high 1200); PScroll 2000; PBox (page_high 700)] = (true, (50, -230), (-10, 230, 230), 720) /\
  win [PResize 901 585; PBox (page_high 100)] = (false, (51, -7), (0, 0, 99), 600).
Proof. vm_compute. repeat split. Qed.

(** * C100: the parameters used *)
(** the methods return the parameters they are named after, with and without recording *)
Theorem C100_names : forall g, camel (name_of (base_field g)) = method_name g.
Proof. exact method_names. Qed.
Theorem C100_all : forall k, exists g, base_field g = k.
Proof. exact all_fields. Qed.
Theorem C100_same : forall (N : Num) (fonts : list (efont N)) u g i u' x,
  ask fonts u g i = Ok (u', x) -> ask_base fonts g i = Ok x.
Proof. exact @ask_value. Qed.
(** undefined for a font that is not one of the first 12 *)
Theorem C100_fonts : forall (N : Num) (fonts : list (efont N)) u g i,
  ((exists r, ask fonts u g i = Ok r) <-> (i < List.length u)%nat /\ (i < List.length fonts)%nat) /\
  ((forall r, ask fonts u g i <> Ok r) -> ask fonts u g i = UB).
Proof. exact (fun N fonts u g i => conj (ask_iff fonts u g i) (ask_ub fonts u g i)). Qed.
(** what is recorded after a reset is what is asked for *)
Theorem C100_recorded : forall (N : Num) (fonts : list (efont N)) u l u', run_asks fonts (clear_usage u) l = Ok u' ->
  List.length u' = List.length u /\
  forall i d, nth_error u' i = Some d -> forall k, d k = asked (map (fun p => (base_field (fst p), snd p)) l) i k.
Proof. exact @recorded. Qed.
(** the table of a formula, when it has just been typeset *)
Theorem C100_table : forall (N : Num) (fonts : list (efont N)) es asks ons s, List.length fonts = 12%nat ->
  tree_session fonts (es ++ TEdit asks false :: map TOnly ons) = Ok s ->
  t_rows s = table fonts (fun i k => t_only s && negb (asked (map (fun p => (base_field (fst p), snd p)) asks) i k)).
Proof. exact (fun N fonts es asks ons s H => session_table fonts H es asks ons s). Qed.
Theorem C100_only : forall (N : Num) (fonts : list (efont N)) es s, tree_session fonts es = Ok s ->
  t_only s = last (flat_map (fun e => match e with TOnly on => [on] | _ => [] end) es) false.
Proof. exact @session_only. Qed.
Theorem C100_no_crash : forall (N : Num) (fonts : list (efont N)) es, List.length fonts = 12%nat ->
  Forall (fun e => match e with TEdit asks _ => Forall (fun p => (snd p < 12)%nat) asks | _ => True end) es ->
  exists s, tree_session fonts es = Ok s.
Proof. exact (fun N fonts es H => session_ok fonts H es). Qed.
(** After a text with an error the table is no longer that of the formula shown:
    all rows are hidden *)
Theorem C100_error_refuted : forall (N : Num) (fonts : list (efont N)) es asks, List.length fonts = 12%nat ->
  Forall (fun p => (snd p < 12)%nat) asks ->
  forall s0, tree_session fonts es = Ok s0 -> t_only s0 = false ->
  exists s, tree_session fonts (es ++ [TEdit asks false; TEdit [] true; TOnly true]) = Ok s /\
    t_rows s = table fonts (fun _ _ => true).
Proof. exact (fun N fonts es asks H => session_error fonts H es asks). Qed.

(** a square root asks for the rule thickness and the x-height, of the text fonts *)
Definition two_fonts : list (efont QcNum) := map (fun i => mkEFont (N := QcNum) (q 10) (fun _ => q (Z.of_nat i))) (seq 0 12).
Definition root_asks : list (getter * nat) := [(defaultRuleThickness, 9); (xHeight, 6)]%nat.
Definition visible_rows (es : list tree_event) : list (string * Q) :=
  match tree_session two_fonts es with
  | Ok s => map (fun r : row QcNum => (r_label r, this (r_value r))) (filter (fun r => negb (r_hidden r)) (List.concat (t_rows s)))
  | _ => []
  end.
Example C100_case :
  visible_rows [TEdit root_asks false; TOnly true] = [("x_height"%string, 6%Q); ("default_rule_thickness"%string, 9%Q)] /\
  visible_rows [TEdit root_asks false; TEdit [] true; TOnly true] = [] /\
  List.length (visible_rows [TEdit root_asks false]) = 144%nat.
Proof. vm_compute. repeat split. Qed.

Print Assumptions C97_drawn.
Print Assumptions C97_letters.
Print Assumptions C97_bars.
Print Assumptions C97_ratios.
Print Assumptions C97_event.
Print Assumptions C97_corner.
Print Assumptions C97_centred.
Print Assumptions C97_stretched.
Print Assumptions C98_inside.
Print Assumptions C98_margins.
Print Assumptions C98_page.
Print Assumptions C98_lines.
Print Assumptions C98_shift_refuted.
Print Assumptions C99_sheet.
Print Assumptions C99_letters.
Print Assumptions C99_top.
Print Assumptions C99_fits.
Print Assumptions C99_scroll.
Print Assumptions C99_rows.
Print Assumptions C99_sides.
Print Assumptions C99_columns.
Print Assumptions C99_narrow_refuted.
Print Assumptions C99_room.
Print Assumptions C99_high_refuted.
Print Assumptions C100_names.
Print Assumptions C100_all.
Print Assumptions C100_same.
Print Assumptions C100_fonts.
Print Assumptions C100_recorded.
Print Assumptions C100_table.
Print Assumptions C100_only.
Print Assumptions C100_no_crash.
Print Assumptions C100_error_refuted.
