(** Model of include/tex/{box,listbox,hbox,vbox}.h and src/{box,listbox,hbox,vbox}.cpp. *)
From Coq Require Import List ZArith Bool.
From Verif.Base Require Import Result Num.
From Verif.Model Require Import Glue.
Import ListNotations.

Inductive direction : Set := Horizontal | Vertical.

Section Box.
  Context {N : Num}.

  (** include/tex/boxmetrics.h:13-18 *)
  Record metrics := mkMetrics { m_height : N; m_depth : N; m_width : N }.

  (** The nodes that can occur in a list: a character box (charbox.h), a box
      with no list and no special treatment ([Box] itself), a rule (rule.h), a
      kern, glue, a penalty, any other node (none of [isBox], [isKern],
      [isGlue], [isPenalty]), and an [HBox] or [VBox] (listbox.h:26-60) with its
      shift, glue settings and list. Nodes are values here: sharing of one node
      between lists through [shared_ptr] is not modelled. *)
  Inductive node : Type :=
  | NChar (c : Z) (m : metrics)
  | NBox (m : metrics)
  | NRule (m : metrics)
  | NKern (x : N)
  | NGlue (g : glue N)
  | NPenalty (p : Z)
  | NOther
  | NList (k : direction) (m : metrics) (shift ratio : N) (ord : gorder) (l : list node).

  (** include/tex/listbox.h:26-60 [class ListBox]: a list box on its own *)
  Record lbox := mkLBox {
    b_metrics : metrics; b_shift : N; b_ratio : N; b_order : gorder; b_list : list node }.

  Definition node_of (k : direction) (b : lbox) : node :=
    NList k (b_metrics b) (b_shift b) (b_ratio b) (b_order b) (b_list b).

  (** [Node::isBox] with [Box::metrics()] (box.h:19-45, box.cpp:35-38) *)
  Definition box_metrics (n : node) : option metrics :=
    match n with
    | NChar _ m | NBox m | NRule m | NList _ m _ _ _ _ => Some m
    | _ => None
    end.

  (** include/tex/box.h:36-39 *)
  Definition totalHeight (m : metrics) : N := nadd (m_height m) (m_depth m).

  (** src/listbox.cpp:12-18 [ListBox::ListBox(List&&)]; [Box::Box()] zeroes the
      dimensions (box.cpp:10-16) *)
  Definition listbox_new (l : list node) : lbox :=
    mkLBox (mkMetrics n0 n0 n0) n0 n0 Normal l.

  Definition set_metrics (b : lbox) (m : metrics) : lbox :=
    mkLBox m (b_shift b) (b_ratio b) (b_order b) (b_list b).
  Definition set_glue (b : lbox) (r : N) (o : gorder) : lbox :=
    mkLBox (b_metrics b) (b_shift b) r o (b_list b).
  Definition set_list (b : lbox) (l : list node) : lbox :=
    mkLBox (b_metrics b) (b_shift b) (b_ratio b) (b_order b) l.
  (** include/tex/listbox.h:32 *)
  Definition setShiftAmount (b : lbox) (s : N) : lbox :=
    mkLBox (b_metrics b) s (b_ratio b) (b_order b) (b_list b).

  (** src/listbox.cpp:34-97 [ListBox::setGlue]: the box with its new glue
      settings and the size returned *)
  Definition setGlue (b : lbox) (x desired : N) (shrink stretch : totals N) : lbox * N :=
    if nltb x desired then
      if nonzero (t_filll stretch) then
        (set_glue b (ndiv (nsub desired x) (t_filll stretch)) Filll, desired)
      else if nonzero (t_fill stretch) then
        (set_glue b (ndiv (nsub desired x) (t_fill stretch)) Fill, desired)
      else if nonzero (t_fil stretch) then
        (set_glue b (ndiv (nsub desired x) (t_fil stretch)) Fil, desired)
      else if nonzero (t_normal stretch) then
        (set_glue b (ndiv (nsub desired x) (t_normal stretch)) Normal, desired)
      else (set_glue b n0 Normal, x)
    else if nltb desired x then
      if nonzero (t_filll shrink) then
        (set_glue b (ndiv (nsub desired x) (t_filll shrink)) Filll, desired)
      else if nonzero (t_fill shrink) then
        (set_glue b (ndiv (nsub desired x) (t_fill shrink)) Fill, desired)
      else if nonzero (t_fil shrink) then
        (set_glue b (ndiv (nsub desired x) (t_fil shrink)) Fil, desired)
      else if nonzero (t_normal shrink) then
        let r := ndiv (nsub desired x) (t_normal shrink) in
        let r := if nltb r (nz (-1)) then nz (-1) else r in
        (set_glue b r Normal, nadd x (nmul r (t_normal shrink)))
      else (set_glue b n0 Normal, x)
    else (b, x).

  (** What [getBoxingInfo] returns through its pointers *)
  Record boxing := mkBoxing {
    i_width : N; i_height : N; i_depth : N; i_shrink : totals N; i_stretch : totals N }.

  (** src/hbox.cpp:34-64: one iteration of the loop of [HBox::getBoxingInfo] *)
  Definition hbox_step (a : boxing) (n : node) : boxing :=
    match n with
    | NList _ m shift _ _ _ =>
        mkBoxing (nadd (i_width a) (m_width m))
                 (nmax (i_height a) (nsub (m_height m) shift))
                 (nmax (i_depth a) (nadd (m_depth m) shift))
                 (i_shrink a) (i_stretch a)
    | NChar _ m | NBox m | NRule m =>
        mkBoxing (nadd (i_width a) (m_width m)) (nmax (i_height a) (m_height m))
                 (nmax (i_depth a) (m_depth m)) (i_shrink a) (i_stretch a)
    | NKern x =>
        mkBoxing (nadd (i_width a) x) (i_height a) (i_depth a) (i_shrink a) (i_stretch a)
    | NGlue g =>
        let (sh, st) := accumulate g (i_shrink a) (i_stretch a) in
        mkBoxing (nadd (i_width a) (g_space g)) (i_height a) (i_depth a) sh st
    | NPenalty _ | NOther => a
    end.

  Definition boxing0 : boxing := mkBoxing n0 n0 n0 no_totals no_totals.

  (** src/hbox.cpp:28-72 [HBox::getBoxingInfo] *)
  Definition hbox_info (l : list node) : boxing := fold_left hbox_step l boxing0.

  (** include/tex/listbox.h:20-24 [enum BoxingResult] *)
  Inductive boxing_result : Set := NormalBox | OverfullBox | UnderfullBox.

  Definition boxing_status (final desired : N) : boxing_result :=
    if nltb final desired then UnderfullBox
    else if nltb desired final then OverfullBox
    else NormalBox.

  (** src/hbox.cpp:79-90 [HBox::rebox()] *)
  Definition hbox_rebox (b : lbox) : lbox :=
    let i := hbox_info (b_list b) in
    set_metrics b (mkMetrics (i_height i) (i_depth i) (i_width i)).

  (** src/hbox.cpp:92-111 [HBox::rebox(float)] *)
  Definition hbox_rebox_to (b : lbox) (w : N) : lbox * boxing_result :=
    let i := hbox_info (b_list b) in
    let (b', final) := setGlue b (i_width i) w (i_shrink i) (i_stretch i) in
    (set_metrics b' (mkMetrics (i_height i) (i_depth i) final), boxing_status final w).

  (** src/hbox.cpp:15-19, 21-25 and 113-126: the [hbox] functions *)
  Definition hbox (l : list node) : lbox := hbox_rebox (listbox_new l).
  Definition hbox_to (l : list node) (w : N) : lbox := fst (hbox_rebox_to (listbox_new l) w).

  (** src/hbox.cpp:128-136 [raise], [lower] *)
  Definition raise (b : lbox) (a : N) : lbox := setShiftAmount b (nopp a).
  Definition lower (b : lbox) (a : N) : lbox := setShiftAmount b a.

  (** src/vbox.cpp:79-98: one iteration of the loop of [VBox::getBoxingInfo] *)
  Definition vbox_step (a : boxing) (n : node) : boxing :=
    match n with
    | NList _ m _ _ _ _ | NChar _ m | NBox m | NRule m =>
        mkBoxing (nmax (m_width m) (i_width a)) (nadd (i_height a) (totalHeight m))
                 (i_depth a) (i_shrink a) (i_stretch a)
    | NKern x =>
        mkBoxing (i_width a) (nadd (i_height a) x) (i_depth a) (i_shrink a) (i_stretch a)
    | NGlue g =>
        let (sh, st) := accumulate g (i_shrink a) (i_stretch a) in
        mkBoxing (i_width a) (nadd (i_height a) (g_space g)) (i_depth a) sh st
    | NPenalty _ | NOther => a
    end.

  (** src/vbox.cpp:78, 83 and 100-116: [last_box_it] is the last node of the
      list exactly when that node is a box *)
  Definition last_box (l : list node) : option metrics :=
    match rev l with
    | [] => None
    | n :: _ => box_metrics n
    end.

  (** src/vbox.cpp:73-124 [VBox::getBoxingInfo] *)
  Definition vbox_info (l : list node) : boxing :=
    let a := fold_left vbox_step l boxing0 in
    match last_box l with
    | None => mkBoxing (i_width a) (i_height a) n0 (i_shrink a) (i_stretch a)
    | Some m =>
        mkBoxing (i_width a) (nsub (i_height a) (m_depth m)) (m_depth m)
                 (i_shrink a) (i_stretch a)
    end.

  (** src/vbox.cpp:131-142 [VBox::rebox_vbox()] *)
  Definition vbox_rebox (b : lbox) : lbox :=
    let i := vbox_info (b_list b) in
    set_metrics b (mkMetrics (i_height i) (i_depth i) (i_width i)).

  (** src/vbox.cpp:144-163 [VBox::rebox_vbox(float)] *)
  Definition vbox_rebox_to (b : lbox) (h : N) : lbox * boxing_result :=
    let i := vbox_info (b_list b) in
    let (b', final) := setGlue b (i_height i) h (i_shrink i) (i_stretch i) in
    (set_metrics b' (mkMetrics final (i_depth i) (i_width i)), boxing_status final h).

  (** src/vbox.cpp:178-186 [VBox::make_vtop]: dereferences [list().begin()] *)
  Definition make_vtop (b : lbox) : result lbox :=
    match b_list b with
    | [] => UB
    | n :: _ =>
        let h := m_height (b_metrics b) in
        let d := m_depth (b_metrics b) in
        let x := match box_metrics n with Some m => m_height m | None => n0 end in
        Ok (set_metrics b (mkMetrics x (nsub (nadd h d) x) (m_width (b_metrics b))))
    end.

  (** src/vbox.cpp:55-65 and 189-211: [vbox], [vtop] *)
  Definition vbox (l : list node) : lbox := vbox_rebox (listbox_new l).
  Definition vbox_to (l : list node) (h : N) : lbox := fst (vbox_rebox_to (listbox_new l) h).
  Definition vtop (l : list node) : result lbox := make_vtop (vbox l).
  Definition vtop_to (l : list node) (h : N) : result lbox := make_vtop (vbox_to l h).

  (** src/vbox.cpp:254-259 [VBoxEditor::changeHeight] *)
  Definition changeHeight (b : lbox) (h : N) : lbox :=
    let tth := totalHeight (b_metrics b) in
    set_metrics b (mkMetrics h (nsub tth h) (m_width (b_metrics b))).

  (** The editors (hbox.cpp:138-166, vbox.cpp:213-265): operations on a box.
      [EList] stands for any change made through [list()]. The destructor
      reboxes unless a rebox (or [done]) was called. *)
  Inductive edit : Type :=
  | EList (l : list node)
  | ERebox
  | EReboxTo (w : N).

  Definition hedit (p : lbox * bool) (e : edit) : lbox * bool :=
    let (b, done) := p in
    match e with
    | EList l => (set_list b l, done)
    | ERebox => (hbox_rebox b, true)
    | EReboxTo w => (fst (hbox_rebox_to b w), true)
    end.

  (** One [HBoxEditor] session, destructor included *)
  Definition hbox_session (b : lbox) (es : list edit) : lbox :=
    let (b', done) := fold_left hedit es (b, false) in
    if done then b' else hbox_rebox b'.

  (** src/vbox.cpp:165-176 [VBox::rebox_vtop] *)
  Definition vbox_rebox_vtop (b : lbox) : result lbox := make_vtop (vbox_rebox b).
  Definition vbox_rebox_vtop_to (b : lbox) (h : N) : result lbox := make_vtop (fst (vbox_rebox_to b h)).

  (** src/vbox.cpp:213-265 [VBoxEditor] *)
  Inductive vedit_op : Type :=
  | VEList (l : list node)
  | VERebox
  | VEReboxTo (h : N)
  | VEVtop
  | VEVtopTo (h : N)
  | VEHeight (h : N)
  | VEDone.

  Definition vedit (p : lbox * bool) (e : vedit_op) : result (lbox * bool) :=
    let (b, done) := p in
    match e with
    | VEList l => Ok (set_list b l, done)
    | VERebox => Ok (vbox_rebox b, true)
    | VEReboxTo h => Ok (fst (vbox_rebox_to b h), true)
    | VEVtop => rmap (fun b => (b, true)) (vbox_rebox_vtop b)
    | VEVtopTo h => rmap (fun b => (b, true)) (vbox_rebox_vtop_to b h)
    | VEHeight h => Ok (changeHeight b h, done)
    | VEDone => Ok (b, true)
    end.

  (** One [VBoxEditor] session, destructor included *)
  Definition vbox_session (b : lbox) (es : list vedit_op) : result lbox :=
    do p <- foldM vedit es (b, false);
    Ok (if snd p then fst p else vbox_rebox (fst p)).
End Box.
Arguments metrics N : clear implicits.
Arguments node N : clear implicits.
Arguments lbox N : clear implicits.
Arguments boxing N : clear implicits.
Arguments edit N : clear implicits.
Arguments vedit_op N : clear implicits.
