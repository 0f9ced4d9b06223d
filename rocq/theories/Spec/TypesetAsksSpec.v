(** When a layout does not depend on a parameter, and the parameters of the
    fonts of the equation editor. *)
From Coq Require Import List String ZArith Bool Arith.
From Verif.Base Require Import Result Num.
From Verif.Model Require Import Tfm FontUsage MathList MathTypeset.
From Verif.Spec Require Import FontUsageSpec.
Import ListNotations.

Section S.
  Context {N : Num}.
  (** the same engine with other parameters *)
  Definition with_params (E : engine N) (P : Z -> fsize -> fparams N) : engine N :=
    mkEngine P (e_metrics E) (e_italic E) (e_typeset E) (e_delimiter E) (e_radical E) (e_largeop E).
  (** the parameter a method is about; [None]: not one the typesetter knows of *)
  Definition parameter (p : fparams N) (g : getter) : option N :=
    match g with
    | xHeight => Some (f_xHeight p) | get_quad => Some (f_quad p)
    | get_num1 => Some (f_num1 p) | get_num2 => Some (f_num2 p)
    | get_denom1 => Some (f_denom1 p) | get_denom2 => Some (f_denom2 p)
    | get_sup1 => Some (f_sup1 p) | get_sup2 => Some (f_sup2 p) | get_sup3 => Some (f_sup3 p)
    | get_sub1 => Some (f_sub1 p) | get_sub2 => Some (f_sub2 p)
    | supDrop => Some (f_supDrop p) | subDrop => Some (f_subDrop p)
    | axisHeight => Some (f_axis p) | defaultRuleThickness => Some (f_rule p)
    | bigOpSpacing1 => Some (f_big1 p) | bigOpSpacing2 => Some (f_big2 p) | bigOpSpacing3 => Some (f_big3 p)
    | bigOpSpacing4 => Some (f_big4 p) | bigOpSpacing5 => Some (f_big5 p)
    | _ => None
    end.
  Definition parameter_of (P : Z -> fsize -> fparams N) (r : getter * (Z * fsize)) : option N :=
    parameter (P (fst (snd r)) (snd (snd r))) (fst r).

  (** the parameters of a font *)
  Definition params_of (d : fd -> N) : fparams N :=
    mkFP (d x_height) (d Tfm.quad) (d num1) (d num2) (d denom1) (d denom2) (d sup1) (d sup2) (d sup3) (d sub1) (d sub2)
         (d sup_drop) (d sub_drop) (d axis_height) (d default_rule_thickness) (d big_op_spacing1) (d big_op_spacing2)
         (d big_op_spacing3) (d big_op_spacing4) (d big_op_spacing5).
  (** the number of a font: three for each family *)
  Definition number (fam : nat) (z : fsize) : nat :=
    match z with TextFont => fam * 3 | ScriptFont => fam * 3 + 1 | SSFont => fam * 3 + 2 end.
  (** the engine when the fonts have these parameters *)
  Definition engine_for (E : engine N) (fonts : nat -> fd -> N) : engine N :=
    with_params E (fun fam z => params_of (fonts (number (Z.to_nat fam) z))).
  Definition dimens (fonts : list (efont N)) (any : fd -> N) (i : nat) : fd -> N :=
    match nth_error fonts i with Some f => e_dimen f | None => any end.
  (** the table has a row for parameter [k] of font [i] and shows it *)
  Definition visible (rows : list (list (row N))) (i : nat) (k : fd) : Prop :=
    exists l r, nth_error rows i = Some l /\ In r l /\ r_label r = name_of k /\ r_hidden r = false.
End S.

(** a call about a parameter in the table *)
Definition in_table (r : getter * (Z * fsize)) : Prop :=
  (0 <= fst (snd r) <= 3)%Z /\ In (base_field (fst r)) (family_parameters (Z.to_nat (fst (snd r)))).

(** What in a formula needs a parameter. *)
Section Why.
  Context {N : Num}.
  Definition given (f : option (mfield N)) : bool := match f with Some _ => true | None => false end.
  (** appendix G: rules 18 (scripts), 8, 9, 10, 11, 12, 13 and 13a *)
  Definition atom_uses (g : getter) (fam : Z) (a : atom (mfield N)) : bool :=
    let script := given (a_sub a) || given (a_sup a) in
    match g, fam with
    | (supDrop | subDrop), 2%Z => script
    | (get_sup1 | get_sup2 | get_sup3), 2%Z => given (a_sup a)
    | get_sub1, 2%Z => given (a_sub a) && negb (given (a_sup a))
    | get_sub2, 2%Z => given (a_sub a) && given (a_sup a)
    | xHeight, 2%Z => script || (a_ty a =? Acc)%Z || (a_ty a =? Rad)%Z
    | axisHeight, 2%Z => (a_ty a =? Vcent)%Z || (a_ty a =? Op)%Z
    | defaultRuleThickness, 3%Z => script || (a_ty a =? Over)%Z || (a_ty a =? Under)%Z || (a_ty a =? Rad)%Z
    | (bigOpSpacing1 | bigOpSpacing3), 3%Z => (a_ty a =? Op)%Z && match a_lim a with NoLimits => false | _ => true end && given (a_sup a)
    | (bigOpSpacing2 | bigOpSpacing4), 3%Z => (a_ty a =? Op)%Z && match a_lim a with NoLimits => false | _ => true end && given (a_sub a)
    | bigOpSpacing5, 3%Z => (a_ty a =? Op)%Z && match a_lim a with NoLimits => false | _ => true end && script
    | _, _ => false
    end.
  (** rules 15, 11, 2 and 19, matrices (The TeXbook, p. 361), and the spaces between atoms (rule 20) *)
  Definition node_uses (g : getter) (fam : Z) (n : mnode N) : bool :=
    match n with
    | MAtom a => atom_uses g fam a
    | MFrac _ _ =>
        match g, fam with
        | (get_num1 | get_num2 | get_denom1 | get_denom2 | axisHeight), 2%Z | defaultRuleThickness, 3%Z => true
        | _, _ => false
        end
    | MRoot _ _ => match g, fam with xHeight, 2%Z | defaultRuleThickness, 3%Z => true | _, _ => false end
    | MMatrix _ _ => match g, fam with get_quad, 0%Z | axisHeight, 2%Z => true | _, _ => false end
    | MBoundary _ => match g, fam with axisHeight, 2%Z => true | _, _ => false end
    | _ => false
    end || match g, fam with get_quad, 2%Z => true | _, _ => false end.
  (** a node with [Q], at any depth of a list *)
  Inductive occurs (Q : mnode N -> Prop) : list (mnode N) -> Prop :=
  | oc_here l n : In n l -> Q n -> occurs Q l
  | oc_nucleus l a l' : In (MAtom a) l -> a_nuc a = Some (FList l') -> occurs Q l' -> occurs Q l
  | oc_subscript l a l' : In (MAtom a) l -> a_sub a = Some (FList l') -> occurs Q l' -> occurs Q l
  | oc_superscript l a l' : In (MAtom a) l -> a_sup a = Some (FList l') -> occurs Q l' -> occurs Q l
  | oc_numerator l n d : In (MFrac n d) l -> occurs Q n -> occurs Q l
  | oc_denominator l n d : In (MFrac n d) l -> occurs Q d -> occurs Q l
  | oc_degree l d r : In (MRoot d r) l -> occurs Q d -> occurs Q l
  | oc_radicand l d r : In (MRoot d r) l -> occurs Q r -> occurs Q l
  | oc_cell l c k m : In (MMatrix c k) l -> In m c -> occurs Q m -> occurs Q l.
  Definition used_by (l : list (mnode N)) (r : getter * (Z * fsize)) : Prop :=
    occurs (fun n => node_uses (fst r) (fst (snd r)) n = true) l.
End Why.
