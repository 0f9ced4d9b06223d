(** Model of include/tex/units.h and include/tex/dimen.h. *)
From Coq Require Import List Ascii String QArith ZArith Bool.
From Verif.Base Require Import Result Num.
From Verif.Model Require Import Token Glue.
Import ListNotations.

(** include/tex/units.h:15-25 [enum class PhysicalUnit] *)
Inductive phyunit : Set :=
| Point | Pica | Inch | BigPoint | Centimeter | Millimeter | DidotPoint | Cicero.

(** include/tex/units.h:27-35 [enum class Unit] *)
Inductive unit_t : Set := UPt | UEm | UEx | UFil | UFill | UFilll.

Definition NUL : ascii := ascii_of_nat 0.

(** [str[i]] for a C string; the terminator is at the end of the list.  No
    function below reads past the first terminator. *)
Definition cat_at (s : name) (i : nat) : ascii := nth i s NUL.
Definition ceq (a b : ascii) : bool := Ascii.eqb a b.

(** include/tex/units.h:45-68 [str2phyunit] ([None] is [false]).  The null
    pointer test is not modelled: callers pass [std::string::data()]. *)
Definition str2phyunit (s : name) : option phyunit :=
  if ceq (cat_at s 0) NUL || ceq (cat_at s 1) NUL || negb (ceq (cat_at s 2) NUL) then None
  else
    let is a b := ceq (cat_at s 0) a && ceq (cat_at s 1) b in
    if is "p"%char "t"%char then Some Point
    else if is "p"%char "c"%char then Some Pica
    else if is "i"%char "n"%char then Some Inch
    else if is "b"%char "p"%char then Some BigPoint
    else if is "c"%char "m"%char then Some Centimeter
    else if is "m"%char "m"%char then Some Millimeter
    else if is "d"%char "d"%char then Some DidotPoint
    else if is "c"%char "c"%char then Some Cicero
    else None.

(** include/tex/units.h:90-96 [comp] *)
Fixpoint comp (a b : name) : bool :=
  let ha := match a with [] => NUL | x :: _ => x end in
  let hb := match b with [] => NUL | x :: _ => x end in
  match a, b with
  | x :: a', y :: b' =>
      if ceq x y && negb (ceq x NUL) && negb (ceq y NUL) then comp a' b' else ceq x y
  | _, _ => ceq ha hb
  end.

(** include/tex/units.h:72-88: the two tables *)
Definition unit_table : list (name * unit_t) :=
  [(str "pt", UPt); (str "em", UEm); (str "ex", UEx);
   (str "fil", UFil); (str "fill", UFill); (str "filll", UFilll)].

(** include/tex/units.h:98-104 the loop of [str2unit] *)
Fixpoint unit_lookup (s : name) (t : list (name * unit_t)) : option unit_t :=
  match t with
  | [] => None
  | (r, u) :: t' => if comp s r then Some u else unit_lookup s t'
  end.
(** include/tex/units.h:70-105 [str2unit] *)
Definition str2unit (s : name) : option unit_t := unit_lookup s unit_table.

Section Dimen.
  Context {N : Num}.

  (** include/tex/units.h:37-43 [UnitSystem] *)
  Record unitsystem := mkUS { us_pt : N; us_em : N; us_ex : N }.

  (** include/tex/dimen.h:36-40 [Dimen] *)
  Record dimen := mkDimen { d_value : N; d_unit : unit_t }.

  (** include/tex/dimen.h:16-34 *)
  Definition PointPerPica : N := nlit (12 # 1).
  Definition PointPerInch : N := nlit (7227 # 100).
  Definition CentimeterPerInch : N := nlit (254 # 100).

  (** include/tex/dimen.h:67-92: the factor of [m_value *= ...] ([Point] has
      no multiplication) *)
  Definition phy_factor (u : phyunit) : option N :=
    match u with
    | Point => None
    | Pica => Some PointPerPica
    | Inch => Some PointPerInch
    | BigPoint => Some (ndiv PointPerInch (nlit (72 # 1)))
    | Centimeter => Some (ndiv PointPerInch CentimeterPerInch)
    | Millimeter => Some (ndiv (nmul (nlit (1 # 10)) PointPerInch) CentimeterPerInch)
    | DidotPoint => Some (ndiv (nlit (1238 # 1)) (nlit (1157 # 1)))
    | Cicero => Some (nmul (nlit (12 # 1)) (ndiv (nlit (1238 # 1)) (nlit (1157 # 1))))
    end.

  (** include/tex/dimen.h:63-93 [Dimen::Dimen(float, PhysicalUnit)] *)
  Definition dimen_phy (v : N) (u : phyunit) : dimen :=
    mkDimen (match phy_factor u with None => v | Some f => nmul v f end) UPt.

  (** include/tex/dimen.h:105-108 [Dimen::isFinite] *)
  Definition d_isFinite (d : dimen) : bool :=
    match d_unit d with UFil | UFill | UFilll => false | _ => true end.

  (** include/tex/dimen.h:110-124 [Dimen::operator()]; the default case
      asserts (and returns FLT_MAX when asserts are off) *)
  Definition d_eval (d : dimen) (us : unitsystem) : result N :=
    match d_unit d with
    | UPt => Ok (nmul (us_pt us) (d_value d))
    | UEm => Ok (nmul (us_em us) (d_value d))
    | UEx => Ok (nmul (us_ex us) (d_value d))
    | _ => Abort
    end.

  (** include/tex/dimen.h:126-134 [operator*] *)
  Definition d_mul_r (d : dimen) (x : N) : dimen := mkDimen (nmul (d_value d) x) (d_unit d).
  Definition d_mul_l (x : N) (d : dimen) : dimen := mkDimen (nmul x (d_value d)) (d_unit d).
End Dimen.
Arguments dimen N : clear implicits.
Arguments unitsystem N : clear implicits.
