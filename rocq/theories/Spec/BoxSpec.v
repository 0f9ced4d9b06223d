(** What boxes and glue should do, written on lists of items and sums. *)
From Coq Require Import List QArith Qcanon ZArith Bool.
From Verif.Base Require Import Num.
From Verif.Model Require Import Glue Box.
Import ListNotations.

(** Widths of the items of a horizontal list, in order. *)
Definition item_width {N : Num} (n : node N) : list N :=
  match n with
  | NChar _ m | NBox m | NRule m | NList _ m _ _ _ _ => [m_width m]
  | NKern x => [x]
  | NGlue g => [g_space g]
  | NPenalty _ | NOther => []
  end.

(** Height above and depth below the baseline of the boxes of a horizontal list;
    a positive shift moves a list box down. *)
Definition item_height {N : Num} (n : node N) : list N :=
  match n with
  | NChar _ m | NBox m | NRule m => [m_height m]
  | NList _ m s _ _ _ => [nsub (m_height m) s]
  | _ => []
  end.
Definition item_depth {N : Num} (n : node N) : list N :=
  match n with
  | NChar _ m | NBox m | NRule m => [m_depth m]
  | NList _ m s _ _ _ => [nadd (m_depth m) s]
  | _ => []
  end.

(** Vertical extent of the items of a vertical list. *)
Definition item_extent {N : Num} (n : node N) : list N :=
  match n with
  | NChar _ m | NBox m | NRule m | NList _ m _ _ _ _ => [nadd (m_height m) (m_depth m)]
  | NKern x => [x]
  | NGlue g => [g_space g]
  | NPenalty _ | NOther => []
  end.

Definition box_width {N : Num} (n : node N) : list N :=
  match n with
  | NChar _ m | NBox m | NRule m | NList _ m _ _ _ _ => [m_width m]
  | _ => []
  end.

(** Sum of a list, left to right. *)
Definition sum {N : Num} (l : list N) : N := fold_left nadd l n0.

(** [x] is the largest of 0 and the elements of [l]. *)
Definition largest (l : list Qc) (x : Qc) : Prop :=
  (0 <= x)%Qc /\ (forall y, In y l -> (y <= x)%Qc) /\ (x = 0%Qc \/ In x l).

(** Stretch and shrink of a given order in a list. *)
Definition stretch_of {N : Num} (o : gorder) (n : node N) : list N :=
  match n with
  | NGlue g => if gorder_eqb (g_stretchOrder g) o then [g_stretch g] else []
  | _ => []
  end.
Definition shrink_of {N : Num} (o : gorder) (n : node N) : list N :=
  match n with
  | NGlue g => if gorder_eqb (g_shrinkOrder g) o then [g_shrink g] else []
  | _ => []
  end.
Definition stretch_total {N : Num} (l : list (node N)) (o : gorder) : N := sum (flat_map (stretch_of o) l).
Definition shrink_total {N : Num} (l : list (node N)) (o : gorder) : N := sum (flat_map (shrink_of o) l).

Definition order_rank (o : gorder) : nat :=
  match o with Normal => 0 | Fil => 1 | Fill => 2 | Filll => 3 end.

(** [o] is the highest order with a nonzero total. *)
Definition top_order {N : Num} (f : gorder -> N) (o : gorder) : Prop :=
  nonzero (f o) = true /\ forall o', (order_rank o < order_rank o')%nat -> nonzero (f o') = false.
Definition no_glue {N : Num} (f : gorder -> N) : Prop := forall o, nonzero (f o) = false.

(** TeX's glue setting, exact arithmetic: natural size [x], wanted size [w],
    totals [st] and [sh]; result: ratio, order, size, verdict. *)
Inductive glue_set (x w : Qc) (st sh : gorder -> Qc) : Qc -> gorder -> Qc -> boxing_result -> Prop :=
| gs_natural : x = w -> glue_set x w st sh 0%Qc Normal w NormalBox
| gs_stretch o : (x < w)%Qc -> top_order (N := QcNum) st o ->
    glue_set x w st sh ((w - x) / st o)%Qc o w NormalBox
| gs_underfull : (x < w)%Qc -> no_glue (N := QcNum) st ->
    glue_set x w st sh 0%Qc Normal x UnderfullBox
| gs_shrink o : (w < x)%Qc -> top_order (N := QcNum) sh o ->
    (o = Normal -> ~ ((w - x) / sh o < Q2Qc (inject_Z (-1)))%Qc) ->
    glue_set x w st sh ((w - x) / sh o)%Qc o w NormalBox
| gs_overfull : (w < x)%Qc -> top_order (N := QcNum) sh Normal ->
    ((w - x) / sh Normal < Q2Qc (inject_Z (-1)))%Qc ->
    glue_set x w st sh (Q2Qc (inject_Z (-1))) Normal (x - sh Normal)%Qc
      (boxing_status (N := QcNum) (x - sh Normal)%Qc w)
| gs_rigid : (w < x)%Qc -> no_glue (N := QcNum) sh ->
    glue_set x w st sh 0%Qc Normal x OverfullBox.

(** All glue has nonnegative stretch and shrink. *)
Definition glue_nonneg (l : list (node QcNum)) : Prop :=
  forall g, In (NGlue g) l -> (0 <= g_stretch g)%Qc /\ (0 <= g_shrink g)%Qc.

(** The size an item gets once the glue is set with the given ratio and order. *)
Definition set_glue_size (ratio : Qc) (ord : gorder) (g : glue QcNum) : Qc :=
  if Qclt_le_dec ratio 0 then
    (if gorder_eqb ord (g_shrinkOrder g) then g_space g + ratio * g_shrink g else g_space g)%Qc
  else
    (if gorder_eqb ord (g_stretchOrder g) then g_space g + ratio * g_stretch g else g_space g)%Qc.

Definition set_width (ratio : Qc) (ord : gorder) (n : node QcNum) : list Qc :=
  match n with
  | NGlue g => [set_glue_size ratio ord g]
  | _ => item_width n
  end.
Definition set_extent (ratio : Qc) (ord : gorder) (n : node QcNum) : list Qc :=
  match n with
  | NGlue g => [set_glue_size ratio ord g]
  | _ => item_extent n
  end.
Definition qsum (l : list Qc) : Qc := fold_right Qcplus 0%Qc l.

(** All boxes of a tree, parents before children, left to right. *)
Fixpoint boxes {N : Num} (n : node N) : list (node N) :=
  match n with
  | NList _ _ _ _ _ l => n :: flat_map boxes l
  | NChar _ _ | NBox _ | NRule _ => [n]
  | _ => []
  end.

Fixpoint run_until {S V : Type} (r : S -> V -> S * bool) (s : S) (vs : list V) : S * bool :=
  match vs with
  | [] => (s, false)
  | v :: vs => match r s v with (s, true) => (s, true) | (s, false) => run_until r s vs end
  end.

(** Reference point of a child of a horizontal (vertical) list when the items
    before it end at [x] ([y]): a shifted box moves down (right); in a vertical
    list the reference point is the height of the box below its top. *)
Definition hchild {N : Num} (y : N) (x : N) (c : node N) : N * N :=
  match c with NList _ _ s _ _ _ => (x, nadd y s) | _ => (x, y) end.
Definition vchild {N : Num} (x : N) (y : N) (c : node N) : N * N :=
  match c with
  | NList _ m s _ _ _ => (nadd x s, nadd y (m_height m))
  | NChar _ m | NBox m | NRule m => (x, nadd y (m_height m))
  | _ => (x, y)
  end.

(** A partial reader that records what it sees and stops where [stop] says. *)
Definition stopper {N : Num} (stop : node N -> N * N -> bool)
    (s : list (node N * (N * N))) (n : node N) (p : N * N) :=
  (s ++ [(n, p)], stop n p).

(** ** Vertical list building *)
(** Items of a vertical list and the list built from them: [prev] is the depth
    of the last box, if there is one. *)
Inductive spaced (bs ls : glue QcNum) : option (num QcNum) -> list (node QcNum) -> list (node QcNum) -> Prop :=
| sp_nil prev : spaced bs ls prev [] []
| sp_first n (m : metrics QcNum) r out :
    box_metrics n = Some m -> spaced bs ls (Some (m_depth m)) r out ->
    spaced bs ls None (n :: r) (n :: out)
| sp_baseline d n (m : metrics QcNum) r out (g : glue QcNum) :
    box_metrics n = Some m ->
    (d + g_space g + m_height m = g_space bs)%Qc -> (0 <= g_space g)%Qc ->
    g_stretch g = g_stretch bs -> g_stretchOrder g = g_stretchOrder bs ->
    g_shrink g = g_shrink bs -> g_shrinkOrder g = g_shrinkOrder bs ->
    spaced bs ls (Some (m_depth m)) r out ->
    spaced bs ls (Some d) (n :: r) (NGlue g :: n :: out)
| sp_lineskip d n (m : metrics QcNum) r out :
    box_metrics n = Some m -> (g_space bs < d + m_height m)%Qc ->
    spaced bs ls (Some (m_depth m)) r out ->
    spaced bs ls (Some d) (n :: r) (NGlue ls :: n :: out)
| sp_other prev n r out :
    box_metrics n = None -> spaced bs ls prev r out ->
    spaced bs ls prev (n :: r) (n :: out).

(** ** Space factor (TeXbook, chapter 12) *)
Definition sf_after (sf g : Z) : Z :=
  if (g =? 0)%Z then sf
  else if ((sf <? 1000) && (1000 <? g))%Z%bool then 1000%Z
  else g.

(** The highest order present in the totals. *)
Definition order_of {N : Num} (t : totals N) : gorder :=
  if nonzero (t_filll t) then Filll
  else if nonzero (t_fill t) then Fill
  else if nonzero (t_fil t) then Fil
  else Normal.
