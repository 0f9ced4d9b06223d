(** Model of apps/linebreaks-viewer/linebreaks-viewer.cpp: the window, as a
    machine whose inputs are what the user does.  Not modelled: drawing, the
    colours of the fields, the status bar, the time shown. *)
From Coq Require Import List ZArith Bool QArith Ascii String.
From Verif.Base Require Import Result Num.
From Verif.Model Require Import Token Glue Box Dimen DimenParser ListBuilders LineBreaks Unicode.
Import ListNotations.

(** The line edits with a glue (linebreaks-viewer.cpp:150-160) and with a
    dimension (:162-166) *)
Inductive gfield : Set := LeftSkip | RightSkip | BaselineSkip | LineSkip.
Inductive dfield : Set := LineSkipLimit | HangIndent.
Definition gfield_eqb (a b : gfield) : bool :=
  match a, b with
  | LeftSkip, LeftSkip | RightSkip, RightSkip | BaselineSkip, BaselineSkip | LineSkip, LineSkip => true
  | _, _ => false
  end.
Definition dfield_eqb (a b : dfield) : bool :=
  match a, b with LineSkipLimit, LineSkipLimit | HangIndent, HangIndent => true | _, _ => false end.
(** The spin boxes of the parameters (:135-148, :168-171), with their ranges *)
Inductive spin : Set := Tolerance | AdjDemerits | LinePenalty | HangAfter.
Definition spin_eqb (a b : spin) : bool :=
  match a, b with
  | Tolerance, Tolerance | AdjDemerits, AdjDemerits | LinePenalty, LinePenalty | HangAfter, HangAfter => true
  | _, _ => false
  end.
Definition spin_range (s : spin) : Z * Z :=
  match s with
  | Tolerance => (200, 20000) | AdjDemerits => (1000, 100000)
  | LinePenalty => (0, 1000) | HangAfter => (-100, 100)
  end%Z.
Definition spin_default (s : spin) : Z :=
  match s with Tolerance => 800 | AdjDemerits => 10000 | LinePenalty => 10 | HangAfter => 1 end%Z.
Definition gtext_default (f : gfield) : name :=
  match f with
  | LeftSkip => str "0pt" | RightSkip => str "0pt" | BaselineSkip => str "12pt" | LineSkip => str "1pt"
  end.
Definition dtext_default (f : dfield) : name := str "0pt".

Definition update {A B} (eqb : A -> A -> bool) (m : A -> B) (a : A) (b : B) : A -> B :=
  fun x => if eqb x a then b else m x.

(** [QAbstractSpinBox]: a value is brought into the range *)
Definition clamp (r : Z * Z) (z : Z) : Z := Z.max (fst r) (Z.min z (snd r)).

(** [QString::split(' ', QString::SkipEmptyParts)] *)
Fixpoint split_spaces (cur : name) (t : name) : list name :=
  let out := match cur with [] => [] | _ => [rev cur] end in
  match t with
  | [] => out
  | c :: r => if ceq c " "%char then out ++ split_spaces [] r else split_spaces (c :: cur) r
  end.

Section Viewer.
  Context {N : Num}.
  (** [std::stof] refuses what is not in range *)
  Variable in_range : Q -> bool.
  (** asserts are compiled in; [char] is signed *)
  Variables debug char_signed : bool.
  Variable pw : pows N.
  (** :65-67; from the font, so from Qt *)
  Variable us : unitsystem N.
  (** the metrics of font 0, by [frenchspacing] (:423) *)
  Variable fm : bool -> hmetrics N.
  (** [std::sort] by demerits (:456-458) *)
  Variable sorted : list (bp N) -> list (bp N).
  (** [QString::toFloat]; [None] if the text is no number *)
  Variable to_float : name -> option N.

  (** The window: the texts of its widgets, the data members of
      linebreaks-viewer.h:59-68, the spin box with the alternatives, the box
      shown and the demerits in the label. A glue is [None] as long as the
      pointer is null. *)
  Record viewer := mkViewer {
    v_text : list Z;
    v_gtext : gfield -> name; v_dtext : dfield -> name; v_ptext : name;
    v_spin : spin -> Z; v_french : bool;
    v_glue : gfield -> option (glue N); v_dimen : dfield -> N; v_parshape : list (N * N);
    v_list : list (node N); v_bps : list (bp N);
    v_value : Z; v_max : Z;
    v_box : option (lbox N); v_label : option Z }.

  Definition with_text v t := mkViewer t (v_gtext v) (v_dtext v) (v_ptext v) (v_spin v) (v_french v)
    (v_glue v) (v_dimen v) (v_parshape v) (v_list v) (v_bps v) (v_value v) (v_max v) (v_box v) (v_label v).
  Definition with_gtext v f t := mkViewer (v_text v) (update gfield_eqb (v_gtext v) f t) (v_dtext v) (v_ptext v) (v_spin v) (v_french v)
    (v_glue v) (v_dimen v) (v_parshape v) (v_list v) (v_bps v) (v_value v) (v_max v) (v_box v) (v_label v).
  Definition with_dtext v f t := mkViewer (v_text v) (v_gtext v) (update dfield_eqb (v_dtext v) f t) (v_ptext v) (v_spin v) (v_french v)
    (v_glue v) (v_dimen v) (v_parshape v) (v_list v) (v_bps v) (v_value v) (v_max v) (v_box v) (v_label v).
  Definition with_ptext v t p := mkViewer (v_text v) (v_gtext v) (v_dtext v) t (v_spin v) (v_french v)
    (v_glue v) (v_dimen v) p (v_list v) (v_bps v) (v_value v) (v_max v) (v_box v) (v_label v).
  Definition with_spin v s z := mkViewer (v_text v) (v_gtext v) (v_dtext v) (v_ptext v) (update spin_eqb (v_spin v) s z) (v_french v)
    (v_glue v) (v_dimen v) (v_parshape v) (v_list v) (v_bps v) (v_value v) (v_max v) (v_box v) (v_label v).
  Definition with_french v b := mkViewer (v_text v) (v_gtext v) (v_dtext v) (v_ptext v) (v_spin v) b
    (v_glue v) (v_dimen v) (v_parshape v) (v_list v) (v_bps v) (v_value v) (v_max v) (v_box v) (v_label v).
  Definition with_glue v f g := mkViewer (v_text v) (v_gtext v) (v_dtext v) (v_ptext v) (v_spin v) (v_french v)
    (update gfield_eqb (v_glue v) f g) (v_dimen v) (v_parshape v) (v_list v) (v_bps v) (v_value v) (v_max v) (v_box v) (v_label v).
  Definition with_dimen v f d := mkViewer (v_text v) (v_gtext v) (v_dtext v) (v_ptext v) (v_spin v) (v_french v)
    (v_glue v) (update dfield_eqb (v_dimen v) f d) (v_parshape v) (v_list v) (v_bps v) (v_value v) (v_max v) (v_box v) (v_label v).
  Definition with_list v l bps := mkViewer (v_text v) (v_gtext v) (v_dtext v) (v_ptext v) (v_spin v) (v_french v)
    (v_glue v) (v_dimen v) (v_parshape v) l bps (v_value v) (v_max v) (v_box v) (v_label v).
  Definition with_value v z m := mkViewer (v_text v) (v_gtext v) (v_dtext v) (v_ptext v) (v_spin v) (v_french v)
    (v_glue v) (v_dimen v) (v_parshape v) (v_list v) (v_bps v) z m (v_box v) (v_label v).
  Definition with_box v b z := mkViewer (v_text v) (v_gtext v) (v_dtext v) (v_ptext v) (v_spin v) (v_french v)
    (v_glue v) (v_dimen v) (v_parshape v) (v_list v) (v_bps v) (v_value v) (v_max v) (Some b) (Some z).

  (** * Fields *)

  (** [std::stof] throws; its exceptions are no [std::runtime_error] *)
  Definition stof_fails (s : name) : bool :=
    match stof (N := N) in_range s with Ok _ => false | _ => true end.

  (** What becomes of the exceptions of a field: those of [std::stof] leave the
      slot and end the program ([Abort]), the others are caught and the member
      keeps its value ([Ok None]). [escapes] tells which it was. *)
  Definition caught {A} (escapes : bool) (r : result A) : result (option A) :=
    match r with
    | Ok a => Ok (Some a)
    | Throw => if escapes then Abort else Ok None
    | UB => UB | Abort => Abort | Fuel => Fuel
    end.

  (** whether [gp_write] calls [std::stof] in vain *)
  Definition write_escapes (p : gparser N) (c : ascii) : bool :=
    match gp_st p with
    | GParsingSpace | GParsingPlusDimen | GParsingMinusDimen =>
        match dp_write (gp_dimen p) c with
        | Ok d => dp_isFinished d && stof_fails (dp_factor d)
        | _ => false
        end
    | _ => false
    end.
  (** whether [gp_finish] calls [std::stof] in vain *)
  Definition finish_escapes (p : gparser N) : bool :=
    match gp_st p with
    | GParsingSpace | GParsingMinusDimen => stof_fails (dp_factor (gp_dimen p))
    | _ => false
    end.

  (** :342-348: the loop over the text, and [finish] *)
  Fixpoint glue_loop (p : gparser N) (t : name) : result (option (glue N)) :=
    match t with
    | [] => caught (finish_escapes p) (gp_finish in_range us p)
    | c :: r =>
        do q <- caught (write_escapes p c) (gp_write in_range us p c);
        match q with Some p' => glue_loop p' r | None => Ok None end
    end.
  (** linebreaks-viewer.cpp:334-362 [write(std::shared_ptr<Glue>&, QLineEdit* )] *)
  Definition read_glue (t : name) : result (option (glue N)) := glue_loop gp_init t.

  (** linebreaks-viewer.cpp:364-394 [write(float&, QLineEdit* )] *)
  Definition read_dimen (t : name) : result (option N) :=
    do p <- caught false (dp_writes dp_init t);
    match p with
    | None => Ok None
    | Some p =>
        do d <- caught (stof_fails (dp_factor p)) (dp_finish in_range p);
        match d with
        | None => Ok None
        | Some d => if d_isFinite d then do x <- d_eval d us; Ok (Some x) else Ok None
        end
    end.

  Definition write_glue (f : gfield) (v : viewer) : result viewer :=
    do g <- read_glue (v_gtext v f);
    match g with Some g => Ok (with_glue v f (Some g)) | None => Ok v end.
  Definition write_dimen (f : dfield) (v : viewer) : result viewer :=
    do d <- read_dimen (v_dtext v f);
    match d with Some d => Ok (with_dimen v f d) | None => Ok v end.

  (** linebreaks-viewer.cpp:396-413 [parseParshape] *)
  Definition float_of (t : name) : N := match to_float t with Some x => x | None => n0 end.
  Fixpoint shape_of (ws : list name) : list (N * N) :=
    match ws with
    | i :: w :: r =>
        (float_of i, if nltb (nz 10) (float_of w) then float_of w else nz 10) :: shape_of r
    | _ => []
    end.
  Definition parseParshape (t : name) : list (N * N) :=
    let ws := split_spaces [] t in
    if Nat.even (List.length ws) then shape_of ws else [].

  (** * Line breaking *)

  (** linebreaks-viewer.cpp:318-332 [setup], on a new [Paragraph] *)
  Definition setup (v : viewer) : result (para N) :=
    match v_glue v LeftSkip, v_glue v RightSkip, v_glue v BaselineSkip, v_glue v LineSkip with
    | Some l, Some r, Some b, Some s =>
        let d := para_default in
        Ok (mkPara (v_spin v Tolerance) (v_spin v AdjDemerits) (v_spin v LinePenalty)
              (p_hsize d) (v_dimen v HangIndent) (v_spin v HangAfter) (v_parshape v)
              l r (p_parfillskip d) b s (v_dimen v LineSkipLimit) (p_prevdepth d))
    | _, _, _, _ => UB
    end.

  (** linebreaks-viewer.cpp:427-441: the horizontal list of the text *)
  Definition push_text (m : hmetrics N) (b : hbuilder N) (c : Z) : hbuilder N :=
    if ((c =? 32) || (c =? 10))%Z then hb_push_space m b else hb_push_char m b c.
  Definition text_list (m : hmetrics N) (cs : list Z) : list (node N) :=
    hb_result (fold_left (push_text m) cs hbuilder_new).

  (** linebreaks-viewer.cpp:292-311 [onSelectedBreakpointChanged]; [at] throws
      [std::out_of_range], which nobody catches *)
  Definition selected (v : viewer) : result viewer :=
    match v_bps v with
    | [] => Ok v
    | _ =>
        match nth_error (v_bps v) (Z.to_nat (v_value v)) with
        | None => Abort
        | Some b =>
            do P <- setup v;
            do l <- create_at P (v_list v) (bp_chain b);
            Ok (with_box v (vbox l) (bp_dem b))
        end
    end.

  (** [QSpinBox::setRange(0, m)] and [setValue(z)]: the slot is called if the
      value changes *)
  Definition set_value (v : viewer) (z : Z) : result viewer :=
    let z' := clamp (0%Z, v_max v) z in
    if (z' =? v_value v)%Z then Ok v else selected (with_value v z' (v_max v)).
  Definition set_range (v : viewer) (m : Z) : result viewer :=
    let v' := with_value v (v_value v) (Z.max 0 m) in
    set_value v' (v_value v).

  (** linebreaks-viewer.cpp:415-470 [processText] with the handler of
      [onTextChanged] (:227-237) *)
  Definition process (v : viewer) : result viewer :=
    match v_text v with
    | [] => Ok v
    | _ =>
        match decode_all debug char_signed (List.length (v_text v)) (v_text v) with
        | Throw => Ok (with_list v [] (v_bps v))
        | UB => UB | Abort => Abort | Fuel => Fuel
        | Ok cs =>
            do P <- setup v;
            let l := prepare P (text_list (fm (v_french v)) cs) in
            match computeFeasibleBreakpoints pw P l with
            | Throw => Ok (with_list v l (v_bps v))
            | UB => UB | Abort => Abort | Fuel => Fuel
            | Ok act =>
                do v <- set_range (with_list v l (sorted act)) (Z.of_nat (List.length act) - 1);
                do v <- set_value v 0;
                selected v
            end
        end
    end.

  (** linebreaks-viewer.cpp:263-274 [onParameterChanged] *)
  Definition parameter_changed (v : viewer) : result viewer :=
    do v <- write_glue LeftSkip v;
    do v <- write_glue RightSkip v;
    do v <- write_glue BaselineSkip v;
    do v <- write_glue LineSkip v;
    do v <- write_dimen LineSkipLimit v;
    do v <- write_dimen HangIndent v;
    process v.

  (** * What the user does; a widget signals a change only if there is one *)
  Inductive event : Type :=
  | EText (t : list Z) | EGlue (f : gfield) (t : name) | EDimen (f : dfield) (t : name)
  | EParshape (t : name) | ESpin (s : spin) (z : Z) | EFrench (b : bool) | ESelect (z : Z) | EReset.

  Definition name_eqb (a b : name) : bool :=
    if list_eq_dec ascii_dec a b then true else false.

  Definition set_gtext (v : viewer) (f : gfield) (t : name) : result viewer :=
    if name_eqb t (v_gtext v f) then Ok v else parameter_changed (with_gtext v f t).
  Definition set_dtext (v : viewer) (f : dfield) (t : name) : result viewer :=
    if name_eqb t (v_dtext v f) then Ok v else parameter_changed (with_dtext v f t).
  (** linebreaks-viewer.cpp:245-261 [onParshapeChanged] *)
  Definition set_ptext (v : viewer) (t : name) : result viewer :=
    if name_eqb t (v_ptext v) then Ok v else parameter_changed (with_ptext v t (parseParshape t)).
  Definition set_spin (v : viewer) (s : spin) (z : Z) : result viewer :=
    let z' := clamp (spin_range s) z in
    if (z' =? v_spin v s)%Z then Ok v else parameter_changed (with_spin v s z').
  Definition set_french (v : viewer) (b : bool) : result viewer :=
    if Bool.eqb b (v_french v) then Ok v else parameter_changed (with_french v b).

  (** linebreaks-viewer.cpp:276-290 [resetParameters] *)
  Definition reset (v : viewer) : result viewer :=
    do v <- set_spin v Tolerance 800;
    do v <- set_spin v AdjDemerits 10000;
    do v <- set_spin v LinePenalty 10;
    do v <- set_ptext v [];
    do v <- set_gtext v LeftSkip (str "0pt");
    do v <- set_gtext v RightSkip (str "0pt");
    do v <- set_gtext v BaselineSkip (str "12pt");
    do v <- set_gtext v LineSkip (str "1pt");
    do v <- set_dtext v LineSkipLimit (str "0pt");
    do v <- set_dtext v HangIndent (str "0pt");
    set_spin v HangAfter 1.

  Definition step (v : viewer) (e : event) : result viewer :=
    match e with
    | EText t => process (with_text v t)
    | EGlue f t => set_gtext v f t
    | EDimen f t => set_dtext v f t
    | EParshape t => set_ptext v t
    | ESpin s z => set_spin v s z
    | EFrench b => set_french v b
    | ESelect z => set_value v z
    | EReset => reset v
    end.

  (** linebreaks-viewer.cpp:60-106: the constructor; linebreaks-viewer.h:59-68.
      A new [QSpinBox] has the range 0 .. 99. *)
  Definition window0 : viewer :=
    mkViewer [] gtext_default dtext_default [] spin_default false (fun _ => None) (fun _ => n0) []
      [] [] 0 99 None None.
  Definition window : result viewer := parameter_changed window0.

  Definition session (es : list event) : result viewer :=
    do v <- window; foldM step es v.
End Viewer.
Arguments viewer N : clear implicits.
