(** Where the parts of a typeset formula stand, in exact arithmetic. *)
From Coq Require Import List QArith Qcanon ZArith Bool.
From Verif.Base Require Import Result Num.
From Verif.Model Require Import Glue Box MathList MathTypeset.
From Verif.Spec Require Import BoxSpec MathSpec.
Import ListNotations.
Local Open Scope Qc_scope.

Definition hgt (n : node QcNum) : Qc := match box_metrics n with Some m => m_height m | None => 0 end.
Definition dep (n : node QcNum) : Qc := match box_metrics n with Some m => m_depth m | None => 0 end.
Definition wid (n : node QcNum) : Qc := match box_metrics n with Some m => m_width m | None => 0 end.
(** how far a box is moved down in a horizontal list *)
Definition moved (n : node QcNum) : Qc := match n with NList _ _ s _ _ _ => s | _ => 0 end.

(** The height of the baseline of [n] above the baseline of the vertical box [b],
    in which the nodes [before] stand above [n]: the list is set from the top of
    the box, its glue in natural size. *)
Definition baseline (b : lbox QcNum) (before : list (node QcNum)) (n : node QcNum) : Qc :=
  m_height (b_metrics b) - qsum (flat_map item_extent before) - hgt n.

Definition bar (w thickness : Qc) : node QcNum := NRule (mkMetrics (N := QcNum) thickness 0 w).
Definition half : Qc := Q2Qc (1 # 2).
Definition int (z : Z) : Qc := Q2Qc (inject_Z z).
Definition absolute (x : Qc) : Qc := if Qclt_le_dec x 0 then - x else x.

(** [x] is the node [n] itself, or [n] between two equal springs *)
Definition spring : node QcNum := NGlue (mkGlue (N := QcNum) 0 0 1 Normal Fil).
Definition centred (n x : node QcNum) : Prop :=
  x = n \/ exists m s r o, x = NList Horizontal m s r o [spring; n; spring].

(** the largest of some numbers *)
Definition greatest (l : list Qc) (x : Qc) : Prop := In x l /\ forall y, In y l -> y <= x.

(** A fraction (TeXbook, appendix G, rule 15): the bar is centred on the axis,
    and the numerator and the denominator are far enough from it. *)
Record fraction (axis thickness up down clearance : Qc) (num den : node QcNum) (b : lbox QcNum) : Prop := {
  fr_parts : exists x k1 w k2 z,
    b_list b = [x; NKern (N := QcNum) k1; bar w thickness; NKern (N := QcNum) k2; z] /\
    centred num x /\ centred den z /\
    greatest [wid num; wid den] w /\ wid x = w /\ wid z = w /\
    let above := [x; NKern (N := QcNum) k1] in
    let bottom := baseline b above (bar w thickness) in
    bottom + half * thickness = axis /\
    up <= baseline b [] x /\
    clearance <= (baseline b [] x - dep x) - (bottom + thickness) /\
    (baseline b [] x = up \/ (baseline b [] x - dep x) - (bottom + thickness) = clearance) /\
    let base := baseline b (above ++ [bar w thickness; NKern (N := QcNum) k2]) z in
    base <= - down /\
    clearance <= bottom - (base + hgt z) /\
    (base = - down \/ bottom - (base + hgt z) = clearance) /\
    m_height (b_metrics b) = baseline b [] x + hgt x /\
    m_depth (b_metrics b) = dep z - base /\
    largest [w] (m_width (b_metrics b))
}.

Definition kern (x : Qc) : node QcNum := NKern (N := QcNum) x.

(** Rules 9 and 10: a bar three times its thickness away from [x], and its
    thickness again beyond it *)
Definition overlined (thickness : Qc) (x : node QcNum) (b : lbox QcNum) : Prop :=
  exists k1 k2 w,
    b_list b = [kern k1; bar w thickness; kern k2; x] /\ w = wid x /\
    baseline b [kern k1; bar w thickness; kern k2] x = 0 /\
    baseline b [kern k1] (bar w thickness) - hgt x = int 3 * thickness /\
    m_height (b_metrics b) = hgt x + int 5 * thickness /\ m_depth (b_metrics b) = dep x /\
    largest [wid x] (m_width (b_metrics b)).
Definition underlined (thickness : Qc) (x : node QcNum) (b : lbox QcNum) : Prop :=
  exists k w,
    b_list b = [x; kern k; bar w thickness] /\ w = wid x /\
    baseline b [] x = 0 /\
    - dep x - (baseline b [x; kern k] (bar w thickness) + thickness) = int 3 * thickness /\
    m_height (b_metrics b) = hgt x /\ m_depth (b_metrics b) = dep x + int 5 * thickness /\
    largest [wid x] (m_width (b_metrics b)).

(** A box whose middle is on the axis when its baseline is [moved] down *)
Definition on_axis (axis : Qc) (m : metrics QcNum) (moved : Qc) : Prop :=
  (m_height m - moved) - axis = (m_depth m + moved) + axis.

(** Rule 11: the bar over [x] continues the top of the radical sign *)
Definition under_radical (sign : lbox QcNum) (x : node QcNum) (b : lbox QcNum) : Prop :=
  exists k1 k2 w thickness,
    b_list b = [kern k1; bar w thickness; kern k2; x] /\ w = wid x /\
    baseline b [kern k1; bar w thickness; kern k2] x = 0 /\
    thickness = m_height (b_metrics sign) /\
    baseline b [kern k1] (bar w thickness) = - b_shift sign.

(** [x] is [n] moved down by [d] more *)
Definition shifted (n : node QcNum) (d : Qc) (x : node QcNum) : Prop :=
  exists k m s r o l, n = NList k m s r o l /\ x = NList k m (s + d) r o l.

(** Rule 13: the limits above and below [y], which keeps its baseline; the three
    parts are centred in the same width, the limits moved by half of the slant *)
Definition limits_box (space_up clear_up space_down clear_down beyond slant : Qc)
    (top : option (node QcNum)) (y : node QcNum) (bottom : option (node QcNum)) (b : lbox QcNum) : Prop :=
  exists above y' below w,
    b_list b = above ++ y' :: below /\ centred y y' /\ wid y' = w /\ baseline b above y' = 0 /\
    greatest [match top with Some x => wid x | None => 0 end; wid y;
              match bottom with Some z => wid z | None => 0 end] w /\
    match top with
    | None => above = []
    | Some x => exists x1 x' k, above = [kern beyond; x'; kern k] /\
        centred x x1 /\ wid x' = w /\ shifted x1 (half * slant) x' /\
        greatest [space_up; clear_up - dep x'] k
    end /\
    match bottom with
    | None => below = []
    | Some z => exists z1 z' k, below = [kern k; z'; kern beyond] /\
        centred z z1 /\ wid z' = w /\ shifted z1 (- half * slant) z' /\
        greatest [space_down; clear_down - hgt z'] k
    end /\
    largest [w] (m_width (b_metrics b)).

(** Rule 18: a script with some space after it *)
Definition spaced (n : node QcNum) (space : Qc) (x : node QcNum) : Prop :=
  wid x = wid n + space /\
  ((moved x = 0 /\ exists m r o, x = NList (N := QcNum) Horizontal m 0 r o [n; kern space]) \/
   (exists k m s r o l, n = NList k m s r o l /\
      x = NList k (mkMetrics (N := QcNum) (m_height m) (m_depth m) (m_width m + space)) s r o l)).

(** * The parts of a formula *)
Definition style_with (z : size) (low : bool) : style :=
  match z, low with
  | Display, false => D | Display, true => Dc | Text, false => T | Text, true => Tc
  | Script, false => MathList.S | Script, true => Sc | ScriptScript, false => SS | ScriptScript, true => SSc
  end.
Definition low_style (s : style) : style := style_with (size_of s) true.
Definition sup_style (s : style) : style := style_with (script_size (size_of s)) (cramped s).
Definition sub_style (s : style) : style := style_with (script_size (size_of s)) true.
Definition num_style (s : style) : style := style_with (frac_size (size_of s)) (cramped s).
Definition den_style (s : style) : style := style_with (frac_size (size_of s)) true.
Definition in_display (s : style) : bool := match size_of s with Display => true | _ => false end.
(** the symbol font and the extension font in the size of the style *)
Definition font_of (s : style) : fsize :=
  match size_of s with Display | Text => TextFont | Script => ScriptFont | ScriptScript => SSFont end.
Definition symbols (E : engine QcNum) (s : style) : fparams QcNum := e_params E 2 (font_of s).
Definition extension (E : engine QcNum) (s : style) : fparams QcNum := e_params E 3 (font_of s).

Definition is_box (n : node QcNum) : Prop := exists m, box_metrics n = Some m.
(** the box of a list and of a field of an atom *)
Definition formula_box (E : engine QcNum) (s : style) (l : list (mnode QcNum)) (x : node QcNum) : Prop :=
  exists n out l', mlist2hlist E n default_penalties s l = Ok (out, l') /\ x = hnode (hbox out).
Definition field_box (E : engine QcNum) (s : style) (f : mfield QcNum) (x : node QcNum) : Prop :=
  match f with
  | FSym y => x = e_typeset E y (s_fam y) (font_of s)
  | FBox b => x = b
  | FList l => formula_box E s l x
  | FOther => False
  end.
(** an atom with this nucleus only; without any part *)
Definition plain (t : Z) (f : mfield QcNum) : mnode QcNum := MAtom (mkAtom t (Some f) None None None NoLimits).
(** the classes of atoms without a rule of their own *)
Definition simple_class (t : Z) : bool := match t with 0 | 2 | 3 | 4 | 5 | 6 | 7 => true | _ => false end%Z.
(** whether the scripts become limits *)
Definition limits_in (l : limits) (s : style) : bool :=
  match l with Limits => true | NoLimits => false | DisplayLimits => in_display s end.
Definition script_box (E : engine QcNum) (s : style) (f : option (mfield QcNum)) (x : option (node QcNum)) : Prop :=
  match f, x with
  | None, None => True
  | Some f, Some x => field_box E s f x
  | _, _ => False
  end.
(** a large operator in display style, with its slant *)
Definition operator_box (E : engine QcNum) (s : style) (f : mfield QcNum) (y : node QcNum) (slant : Qc) : Prop :=
  match f with
  | FSym q =>
      if in_display s
      then y = hnode (hbox [e_largeop E q]) /\ slant = e_italic E q (s_fam q) (font_of s)
      else field_box E s f y /\ slant = 0
  | _ => field_box E s f y /\ slant = 0
  end.

(** * Signs, accents, roots and matrices *)
(** Rule 11: how far the bar of a radical is from what is under it, at least *)
Definition clearance (E : engine QcNum) (s : style) : Qc :=
  let theta := f_rule (extension E s) in
  theta + Q2Qc (1 # 4) * absolute (if in_display s then f_xHeight (symbols E s) else theta).
(** The sign is asked to be high enough for [x], the clearance and the bar; the bar
    is [gap] above [x] and has its thickness again above it *)
Definition radical_sign (E : engine QcNum) (s : style) (gap : Qc) (sign : lbox QcNum) (x : node QcNum) (b : lbox QcNum) : Prop :=
  let theta := f_rule (extension E s) in
  b_list sign = [e_radical E (clearance E s + theta + (hgt x + dep x))] /\
  m_height (b_metrics sign) = theta /\
  b_shift sign = - (gap + hgt x) /\
  m_height (b_metrics b) = hgt x + gap + theta + theta /\ m_depth (b_metrics b) = dep x.

(** Rule 12: the accent over [x]: its middle is the middle of the width [w], the
    bottom of its box is [drop] below the top of [x], which keeps its baseline *)
Definition accented (drop w : Qc) (accent x : node QcNum) (b : lbox QcNum) : Prop :=
  exists before m r o,
    let a := NList (N := QcNum) Horizontal m (half * (w - m_width m)) r o [accent] in
    b_list b = before ++ [a; kern (- drop); x] /\
    (is_box accent -> m_width m = wid accent) /\
    baseline b (before ++ [a; kern (- drop)]) x = 0 /\
    baseline b before a - m_depth m = hgt x - drop /\
    m_depth (b_metrics b) = dep x /\ hgt x <= m_height (b_metrics b) /\
    (before = [] \/ exists k, before = [kern k] /\ m_height (b_metrics b) = hgt x).

(** A cell in column [j], set to the width [w] with the contents of [u]: the contents
    between springs, with a quad before it in the columns after the first *)
Definition set_cell (quad w : Qc) (j : nat) (u x : node QcNum) : Prop :=
  exists mu su ru ou l m s r o v,
    let set := spring :: (match j with O => [] | _ => [kern quad] end) ++ l ++ [spring] in
    u = NList Horizontal mu su ru ou l /\ x = NList Horizontal m s r o set /\
    glue_set (match j with O => 0 | _ => quad end + wid u) w
      (stretch_total (N := QcNum) set) (shrink_total (N := QcNum) set) r o (m_width m) v.
(** the rows of a box: the horizontal lists in it *)
Definition rows_of (l : list (node QcNum)) : list (list (node QcNum)) :=
  flat_map (fun n => match n with NList Horizontal _ _ _ _ l => [l] | _ => [] end) l.
(** the boxes of the column [j] out of [cols] *)
Fixpoint column (cols j k : nat) (us : list (node QcNum)) : list (node QcNum) :=
  match us with
  | [] => []
  | u :: r => (if Nat.eqb (k mod cols) j then [u] else []) ++ column cols j (Datatypes.S k) r
  end.
Definition smaller (a b : Qc) : Qc := if Qclt_le_dec b a then b else a.

(** Rule 18e: the distances of two scripts from the baseline: at least four times the
    thickness of a rule between them; the upper one is not too low *)
Definition separated (theta xheight : Qc) (x y : node QcNum) (up0 down0 up down : Qc) : Prop :=
  let gap u d := (u - dep x) - (hgt y - d) in
  (int 4 * theta <= gap up0 down0 /\ up = up0 /\ down = down0) \/
  (gap up0 down0 < int 4 * theta /\ gap up down = int 4 * theta /\
   ((int 4 / int 5 * xheight <= up0 - dep x /\ up = up0) \/
    (up0 - dep x < int 4 / int 5 * xheight /\ up - dep x = int 4 / int 5 * xheight))).
(** a field typeset in one style, and what that leaves of it in another *)
Definition twice (E : engine QcNum) (s1 s2 : style) (f : mfield QcNum) (x y : node QcNum) : Prop :=
  match f with
  | FList l => exists n out l', mlist2hlist E n default_penalties s1 l = Ok (out, l') /\
                 x = hnode (hbox out) /\ formula_box E s2 l' y
  | _ => field_box E s1 f x /\ field_box E s2 f y
  end.
Definition text_quad (E : engine QcNum) : Qc := f_quad (e_params E 0 TextFont).
(** A matrix: the cell in row [i] and column [j] is set to the largest width in column [j] *)
Definition matrix_rows (E : engine QcNum) (cols : nat) (us : list (node QcNum)) (rows : list (list (node QcNum))) : Prop :=
  length rows = (length us / cols)%nat /\
  forall i row, nth_error rows i = Some row -> length row = cols /\
    forall j, (j < cols)%nat -> exists u c w,
      nth_error us (i * cols + j) = Some u /\ nth_error row j = Some c /\
      largest (map wid (column cols j 0 us)) w /\ set_cell (text_quad E) w j u c.
(** The rows are between two struts as high and deep as a parenthesis; the distance
    of two baselines is 1.2 times that, or the rows are a tenth of it apart; the
    distances of the struts are taken back. *)
Definition strut (E : engine QcNum) : node QcNum :=
  let m := e_metrics E (mkSym 40 Open 3) 3 TextFont in
  NList Vertical (mkMetrics (N := QcNum) (m_height m) (m_depth m) 0) 0 0 Normal [].
Definition rigid (x : Qc) : glue QcNum := mkGlue (N := QcNum) x 0 0 Normal Normal.
Definition matrix_lines (E : engine QcNum) (rows l : list (node QcNum)) : Prop :=
  let size := hgt (strut E) + dep (strut E) in
  let skip := Q2Qc (12 # 10) * size in
  exists mid, l = strut E :: kern (- skip) :: mid ++ [kern (- skip)] /\
    BoxSpec.spaced (rigid skip) (rigid (Q2Qc (1 # 10) * size)) (Some (dep (strut E))) (rows ++ [strut E]) mid.
(** what a list box contains has no infinite glue; no shrinking glue *)
Definition contents (n : node QcNum) : list (node QcNum) := match n with NList _ _ _ _ _ l => l | _ => [] end.
Definition no_fil (n : node QcNum) : Prop :=
  forall g, In (NGlue g) (contents n) -> g_stretchOrder g = Normal.
Definition no_shrink (n : node QcNum) : Prop :=
  forall g, In (NGlue g) (contents n) -> g_shrink g = 0.
(** Rule 11 again: when the sign is deeper than needed, what is under it is centred *)
Definition centred_gap (clearance depth total : Qc) : Qc :=
  if Qclt_le_dec (total + clearance) depth then half * (clearance + depth - total) else clearance.
