(** Which parameters were asked for, and what a table of them should show. *)
From Coq Require Import List Ascii String ZArith Bool Arith.
From Verif.Base Require Import Result Num.
From Verif.Model Require Import Tfm FontUsage.
Import ListNotations.
Local Open Scope string_scope.

(** The name of a parameter, as in include/tex/fontdimen.h *)
Definition name_of (k : fd) : string :=
  match k with
  | slant_per_pt => "slant_per_pt" | interword_space => "interword_space" | interword_stretch => "interword_stretch"
  | interword_shrink => "interword_shrink" | x_height => "x_height" | quad => "quad" | extra_space => "extra_space"
  | num1 => "num1" | num2 => "num2" | num3 => "num3" | denom1 => "denom1" | denom2 => "denom2"
  | sup1 => "sup1" | sup2 => "sup2" | sup3 => "sup3" | sub1 => "sub1" | sub2 => "sub2"
  | sup_drop => "sup_drop" | sub_drop => "sub_drop" | delim1 => "delim1" | delim2 => "delim2"
  | axis_height => "axis_height" | default_rule_thickness => "default_rule_thickness"
  | big_op_spacing1 => "big_op_spacing1" | big_op_spacing2 => "big_op_spacing2" | big_op_spacing3 => "big_op_spacing3"
  | big_op_spacing4 => "big_op_spacing4" | big_op_spacing5 => "big_op_spacing5"
  end.

(** The name of a method, as in include/tex/fontmetrics.h *)
Definition method_name (g : getter) : string :=
  match g with
  | slantPerPt => "slantPerPt" | interwordSpace => "interwordSpace" | interwordStretch => "interwordStretch"
  | interwordShrink => "interwordShrink" | extraSpace => "extraSpace" | xHeight => "xHeight" | get_quad => "quad"
  | get_num1 => "num1" | get_num2 => "num2" | get_num3 => "num3" | get_denom1 => "denom1" | get_denom2 => "denom2"
  | get_sup1 => "sup1" | get_sup2 => "sup2" | get_sup3 => "sup3" | get_sub1 => "sub1" | get_sub2 => "sub2"
  | supDrop => "supDrop" | subDrop => "subDrop" | get_delim1 => "delim1" | get_delim2 => "delim2"
  | axisHeight => "axisHeight" | defaultRuleThickness => "defaultRuleThickness"
  | bigOpSpacing1 => "bigOpSpacing1" | bigOpSpacing2 => "bigOpSpacing2" | bigOpSpacing3 => "bigOpSpacing3"
  | bigOpSpacing4 => "bigOpSpacing4" | bigOpSpacing5 => "bigOpSpacing5"
  end.
(** a name with underscores written with capitals instead *)
Definition upper (a : ascii) : ascii :=
  let n := nat_of_ascii a in if (97 <=? n)%nat && (n <=? 122)%nat then ascii_of_nat (n - 32) else a.
Fixpoint camel (s : string) : string :=
  match s with
  | EmptyString => EmptyString
  | String a r =>
      if Ascii.eqb a "_"
      then match r with String b r => String (upper b) (camel r) | EmptyString => EmptyString end
      else String a (camel r)
  end.

(** The parameters of the fonts of a family: the ordinary ones, those of symbol
    fonts and those of extension fonts (The TeXbook, p. 433 and appendix G) *)
Definition ordinary_parameters : list fd :=
  [slant_per_pt; interword_space; interword_stretch; interword_shrink; x_height; quad].
Definition family_parameters (fam : nat) : list fd :=
  match fam with
  | 0 => ordinary_parameters ++ [extra_space]
  | 1 => ordinary_parameters
  | 2 => ordinary_parameters ++ [extra_space; num1; num2; num3; denom1; denom2; sup1; sup2; sup3; sub1; sub2;
                                 sup_drop; sub_drop; delim1; delim2; axis_height]
  | 3 => ordinary_parameters ++ [extra_space; default_rule_thickness; big_op_spacing1; big_op_spacing2;
                                 big_op_spacing3; big_op_spacing4; big_op_spacing5]
  | _ => []
  end%nat%list.

(** The table for fonts [fonts] when parameter [k] of font [i] is hidden if [hide i k] *)
Definition table {N : Num} (fonts : list (efont N)) (hide : nat -> fd -> bool) : list (list (row N)) :=
  map (fun p : nat * efont N =>
         map (fun k => mkRow (hide (fst p) k) (name_of k) (e_dimen (snd p) k)) (family_parameters (fst p / 3)))
      (combine (seq 0 12) fonts).

(** asked for in a list of calls *)
Definition asked (l : list (fd * nat)) (i : nat) (k : fd) : bool :=
  existsb (fun p => (if fd_eq_dec (fst p) k then true else false) && (snd p =? i)%nat) l.
