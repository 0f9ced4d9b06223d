(** Model of the accessors of the font parameters, of the recorder of the
    equation editor and of its table of parameters: src/fontmetrics.cpp,
    apps/equation-editor/typeset-engine.{h,cpp} and fonttreewidget.{h,cpp}. *)
From Coq Require Import List Ascii String ZArith Bool Arith.
From Verif.Base Require Import Result Num.
From Verif.Model Require Import Box Tfm.
Import ListNotations.
Local Open Scope string_scope.

(** The methods of [FontMetricsProvider] (include/tex/fontmetrics.h) *)
Inductive getter : Set :=
  | slantPerPt | interwordSpace | interwordStretch | interwordShrink | extraSpace | xHeight | get_quad
  | get_num1 | get_num2 | get_num3 | get_denom1 | get_denom2 | get_sup1 | get_sup2 | get_sup3 | get_sub1 | get_sub2
  | supDrop | subDrop | get_delim1 | get_delim2 | axisHeight | defaultRuleThickness
  | bigOpSpacing1 | bigOpSpacing2 | bigOpSpacing3 | bigOpSpacing4 | bigOpSpacing5.

(** src/fontmetrics.cpp:15-154: the field returned *)
Definition base_field (g : getter) : fd :=
  match g with
  | slantPerPt => slant_per_pt | interwordSpace => interword_space | interwordStretch => interword_stretch
  | interwordShrink => interword_shrink | extraSpace => extra_space | xHeight => x_height | get_quad => quad
  | get_num1 => num1 | get_num2 => num2 | get_num3 => num3 | get_denom1 => denom1 | get_denom2 => denom2
  | get_sup1 => sup1 | get_sup2 => sup2 | get_sup3 => sup3 | get_sub1 => sub1 | get_sub2 => sub2
  | supDrop => sup_drop | subDrop => sub_drop | get_delim1 => delim1 | get_delim2 => delim2
  | axisHeight => axis_height | defaultRuleThickness => default_rule_thickness
  | bigOpSpacing1 => big_op_spacing1 | bigOpSpacing2 => big_op_spacing2 | bigOpSpacing3 => big_op_spacing3
  | bigOpSpacing4 => big_op_spacing4 | bigOpSpacing5 => big_op_spacing5
  end.

(** typeset-engine.cpp:19-187: the flag set and the field returned *)
Definition record_flag (g : getter) : fd :=
  match g with
  | slantPerPt => slant_per_pt | interwordSpace => interword_space | interwordStretch => interword_stretch
  | interwordShrink => interword_shrink | extraSpace => extra_space | xHeight => x_height | get_quad => quad
  | get_num1 => num1 | get_num2 => num2 | get_num3 => num3 | get_denom1 => denom1 | get_denom2 => denom2
  | get_sup1 => sup1 | get_sup2 => sup2 | get_sup3 => sup3 | get_sub1 => sub1 | get_sub2 => sub2
  | supDrop => sup_drop | subDrop => sub_drop | get_delim1 => delim1 | get_delim2 => delim2
  | axisHeight => axis_height | defaultRuleThickness => default_rule_thickness
  | bigOpSpacing1 => big_op_spacing1 | bigOpSpacing2 => big_op_spacing2 | bigOpSpacing3 => big_op_spacing3
  | bigOpSpacing4 => big_op_spacing4 | bigOpSpacing5 => big_op_spacing5
  end.
Definition record_field (g : getter) : fd :=
  match g with
  | slantPerPt => slant_per_pt | interwordSpace => interword_space | interwordStretch => interword_stretch
  | interwordShrink => interword_shrink | extraSpace => extra_space | xHeight => x_height | get_quad => quad
  | get_num1 => num1 | get_num2 => num2 | get_num3 => num3 | get_denom1 => denom1 | get_denom2 => denom2
  | get_sup1 => sup1 | get_sup2 => sup2 | get_sup3 => sup3 | get_sub1 => sub1 | get_sub2 => sub2
  | supDrop => sup_drop | subDrop => sub_drop | get_delim1 => delim1 | get_delim2 => delim2
  | axisHeight => axis_height | defaultRuleThickness => default_rule_thickness
  | bigOpSpacing1 => big_op_spacing1 | bigOpSpacing2 => big_op_spacing2 | bigOpSpacing3 => big_op_spacing3
  | bigOpSpacing4 => big_op_spacing4 | bigOpSpacing5 => big_op_spacing5
  end.

(** fonttreewidget.h:28-58 [FontDimenName] *)
Inductive dimen_name : Set :=
  | SlantPerPt | InterwordSpace | InterwordStretch | InterwordShrink | XHeight | Quad | ExtraSpace
  | Num1 | Num2 | Num3 | Denom1 | Denom2 | Sup1 | Sup2 | Sup3 | Sub1 | Sub2 | SupDrop | SubDrop
  | Delim1 | Delim2 | AxisHeight | DefaultRuleThickness
  | BigOpSpacing1 | BigOpSpacing2 | BigOpSpacing3 | BigOpSpacing4 | BigOpSpacing5.
(** fonttreewidget.cpp:9-75 [get_field] *)
Definition get_field {A} (n : dimen_name) (d : fd -> A) : A :=
  match n with
  | SlantPerPt => d slant_per_pt | InterwordSpace => d interword_space | InterwordStretch => d interword_stretch
  | InterwordShrink => d interword_shrink | XHeight => d x_height | Quad => d quad | ExtraSpace => d extra_space
  | Num1 => d num1 | Num2 => d num2 | Num3 => d num3 | Denom1 => d denom1 | Denom2 => d denom2
  | Sup1 => d sup1 | Sup2 => d sup2 | Sup3 => d sup3 | Sub1 => d sub1 | Sub2 => d sub2
  | SupDrop => d sup_drop | SubDrop => d sub_drop | Delim1 => d delim1 | Delim2 => d delim2
  | AxisHeight => d axis_height | DefaultRuleThickness => d default_rule_thickness
  | BigOpSpacing1 => d big_op_spacing1 | BigOpSpacing2 => d big_op_spacing2 | BigOpSpacing3 => d big_op_spacing3
  | BigOpSpacing4 => d big_op_spacing4 | BigOpSpacing5 => d big_op_spacing5
  end.

(** fonttreewidget.cpp:100-165 [createItem]: the rows of a family *)
Definition rows (fam : nat) : list (string * dimen_name) :=
  match fam with
  | 0 | 1 =>
      [("slant_per_pt", SlantPerPt); ("interword_space", InterwordSpace); ("interword_stretch", InterwordStretch);
       ("interword_shrink", InterwordShrink); ("x_height", XHeight); ("quad", Quad)]
      ++ (if Nat.eqb fam 0 then [("extra_space", ExtraSpace)] else [])
  | 2 =>
      [("slant_per_pt", SlantPerPt); ("interword_space", InterwordSpace); ("interword_stretch", InterwordStretch);
       ("interword_shrink", InterwordShrink); ("x_height", XHeight); ("quad", Quad); ("extra_space", ExtraSpace);
       ("num1", Num1); ("num2", Num2); ("num3", Num3); ("denom1", Denom1); ("denom2", Denom2);
       ("sup1", Sup1); ("sup2", Sup2); ("sup3", Sup3); ("sub1", Sub1); ("sub2", Sub2);
       ("sup_drop", SupDrop); ("sub_drop", SubDrop); ("delim1", Delim1); ("delim2", Delim2);
       ("axis_height", AxisHeight)]
  | 3 =>
      [("slant_per_pt", SlantPerPt); ("interword_space", InterwordSpace); ("interword_stretch", InterwordStretch);
       ("interword_shrink", InterwordShrink); ("x_height", XHeight); ("quad", Quad); ("extra_space", ExtraSpace);
       ("default_rule_thickness", DefaultRuleThickness); ("big_op_spacing1", BigOpSpacing1);
       ("big_op_spacing2", BigOpSpacing2); ("big_op_spacing3", BigOpSpacing3); ("big_op_spacing4", BigOpSpacing4);
       ("big_op_spacing5", BigOpSpacing5)]
  | _ => []
  end%nat%list.

Section Usage.
  Context {N : Num}.

  (** typeset-engine.h:10-40, :80: an array of 12 [FontDimenUsage], all flags
      unset at first *)
  Definition usage : Type := list (fd -> bool).
  Definition unused : fd -> bool := fun _ => false.
  Definition new_usage : usage := repeat unused 12.

  Definition mark (d : fd -> bool) (k : fd) : fd -> bool :=
    fun k' => if fd_eq_dec k k' then true else d k'.
  Fixpoint at_index {A} (f : A -> A) (l : list A) (i : nat) : option (list A) :=
    match l, i with
    | [], _ => None
    | x :: r, O => Some (f x :: r)
    | x :: r, Datatypes.S i => option_map (cons x) (at_index f r i)
    end.

  (** typeset-engine.cpp:19-187: a method called for font [i]; [operator[]] of
      [std::array] and of [std::vector] is undefined past the end *)
  Definition ask (fonts : list (efont N)) (u : usage) (g : getter) (i : nat) : result (usage * N) :=
    match at_index (fun d => mark d (record_flag g)) u i, nth_error fonts i with
    | Some u', Some f => Ok (u', e_dimen f (record_field g))
    | _, _ => UB
    end.
  (** fontmetrics.cpp:15-154, qt-typeset-engine.cpp:82-85: the same without recording *)
  Definition ask_base (fonts : list (efont N)) (g : getter) (i : nat) : result N :=
    match nth_error fonts i with Some f => Ok (e_dimen f (base_field g)) | None => UB end.

  (** typeset-engine.cpp:200-208 [reset] *)
  Definition clear_usage (u : usage) : usage := map (fun _ => unused) u.

  (** A row of the table: hidden or not, its label and value. fonttreewidget.cpp:185-204 [sync];
      [at] throws past the end *)
  Record row := mkRow { r_hidden : bool; r_label : string; r_value : N }.
  Definition sync_font (only_used : bool) (fonts : list (efont N)) (u : usage) (i : nat) : result (list row) :=
    match nth_error fonts i, nth_error u i with
    | Some f, Some d =>
        Ok (map (fun p : string * dimen_name =>
                   let used := get_field (snd p) d in
                   mkRow (only_used && negb used) (fst p) (get_field (snd p) (e_dimen f))) (rows (i / 3)))
    | _, _ => Throw
    end.
  Fixpoint sync_all (only_used : bool) (fonts : list (efont N)) (u : usage) (l : list nat) : result (list (list row)) :=
    match l with
    | [] => Ok []
    | i :: r => do x <- sync_font only_used fonts u i; do y <- sync_all only_used fonts u r; Ok (x :: y)
    end.
  (** :92-97 [createItems] of the families 0 to 3: fonts 0 to 11 *)
  Definition tree_fonts : list nat := flat_map (fun fam => [fam * 3; fam * 3 + 1; fam * 3 + 2])%nat [0; 1; 2; 3]%nat.
  Definition sync (only_used : bool) (fonts : list (efont N)) (u : usage) : result (list (list row)) :=
    sync_all only_used fonts u tree_fonts.

  (** The window (mainwindow.cpp:176-192, 219-297): the text changes, the
      formula is typeset after some calls or an exception leaves [processText];
      the box "only used" is switched *)
  Inductive tree_event : Set := TEdit (asks : list (getter * nat)) (fails : bool) | TOnly (on : bool).
  Record tree := mkTree { t_usage : usage; t_only : bool; t_rows : list (list row) }.
  Definition run_asks (fonts : list (efont N)) (u : usage) (l : list (getter * nat)) : result usage :=
    foldM (fun u p => do r <- ask fonts u (fst p) (snd p); Ok (fst r)) l u.
  Definition tree_step (fonts : list (efont N)) (s : tree) (e : tree_event) : result tree :=
    match e with
    | TEdit asks fails =>
        do u <- run_asks fonts (clear_usage (t_usage s)) asks;
        if fails then Ok (mkTree u (t_only s) (t_rows s))
        else do r <- sync (t_only s) fonts u; Ok (mkTree u (t_only s) r)
    | TOnly on =>
        if Bool.eqb on (t_only s) then Ok s
        else do r <- sync on fonts (t_usage s); Ok (mkTree (t_usage s) on r)
    end.
  (** a new window, fonttreewidget.cpp:77-90 *)
  Definition new_tree (fonts : list (efont N)) : result tree :=
    do r <- sync false fonts new_usage; Ok (mkTree new_usage false r).
  Definition tree_session (fonts : list (efont N)) (es : list tree_event) : result tree :=
    do s <- new_tree fonts; foldM (tree_step fonts) es s.
End Usage.
Arguments row N : clear implicits.
Arguments tree N : clear implicits.
