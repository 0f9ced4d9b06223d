(** The formulas that the equation editor can show. *)
From Coq Require Import List ZArith Bool Arith.
From Verif.Base Require Import Result.
From Verif.Model Require Import Token MathList MathParser MathFrontend.
From Verif.Spec Require Import MathSpec.
Import ListNotations.

(** * Of the formula *)
Definition style_tree (t : tree) : bool := match t with TStyle _ => true | _ => false end.
Definition boundary_tree (t : tree) : bool := match t with TBoundary _ => true | _ => false end.
(** some changes of style and nothing else *)
Definition only_styles (l : list tree) : bool :=
  match l with [] => false | _ :: _ => forallb style_tree l end.
(** the changes of style aside, the list ends with a boundary if it starts with one *)
Definition closed (l : list tree) : bool :=
  match filter (fun t => negb (style_tree t)) l with
  | [] => true
  | x :: r => implb (boundary_tree x) (boundary_tree (last (x :: r) x))
  end.

(** [P] holds of the list and of the lists in it that are typeset. Of two scripts
    only the superscript is (C54). *)
Section Everywhere.
  Variable P : list tree -> bool.
  Fixpoint inside (t : tree) : bool :=
    match t with
    | TAtom _ nuc sp sb =>
        field_in nuc && match sp with Nothing => field_in sb | _ => field_in sp end
    | TBoundary _ | TStyle _ => true
    | TFrac n d | TRoot n d => forallb inside n && P n && (forallb inside d && P d)
    | TMatrix cells _ => forallb (fun l => forallb inside l && P l) cells
    end
  with field_in (c : content) : bool :=
    match c with
    | Nothing | Sym _ => true
    | Formula l => forallb inside l && P l
    end.
  Definition everywhere (l : list tree) : bool := forallb inside l && P l.
End Everywhere.
Definition showable (l : list tree) : bool :=
  everywhere (fun l => negb (only_styles l)) l && everywhere closed l.

(** * Of the calls *)
(** the list being written is that of \left and \right *)
Fixpoint delimited (l : list mstate) : bool :=
  match l with
  | [] => false
  | s :: r =>
      match s with
      | PBoundary => true
      | PNucleus | PSup | PSub | PSqrtDegree | PSqrtRadicandM | POver | PFracNumerM | PFracDenomM
      | PMatrixCell => false
      | _ => delimited r
      end
  end.
(** no \over directly between \left and \right *)
Fixpoint overs_outside (l : list call) (m : mp) : Prop :=
  match l with
  | [] => True
  | k :: r => (k = COver -> delimited (mp_states m) = false) /\
              match do_call m k with Result.Ok m' => overs_outside r m' | _ => True end
  end.
(** symbols of the sixteen families and the classes of math codes *)
Definition code_sym (s : sym) : Prop := (0 <= s_class s <= 8 /\ 0 <= s_fam s <= 15)%Z.
Definition code_call (c : call) : Prop := match c with CSym s => code_sym s | _ => True end.
(** the commands that change the style *)
Definition style_call (c : call) : bool :=
  match c with CTextstyle | CScriptstyle | CScriptscriptstyle => true | _ => false end.
(** the calls a token of the equation editor makes *)
Definition makes (char_signed : bool) (t : token) (e : list call) : Prop :=
  forall m, eq_token char_signed m t = calls e m.
