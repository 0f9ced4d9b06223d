(** What a specification of a font says (C107). *)
From Coq Require Import List ZArith Bool QArith Ascii String.
From Verif.Base Require Import Result Num.
From Verif.Model Require Import Token Box Tfm FontLoad.
Import ListNotations.

(** the parts between the commas, those that are not empty *)
Definition no_comma (p : name) : Prop := ~ In ","%char p.
Inductive parts : name -> list name -> Prop :=
| parts_nil : parts [] []
| parts_comma t l : parts t l -> parts (","%char :: t) l
| parts_last p : p <> [] -> no_comma p -> parts p [p]
| parts_more p t l : p <> [] -> no_comma p -> parts t l -> parts (p ++ ","%char :: t) (p :: l).

(** [o] is the last one in [l] that satisfies [P] *)
Definition last_of (P : name -> Prop) (l : list name) (o : name) : Prop :=
  exists l1 l2, l = l1 ++ o :: l2 /\ P o /\ forall x, In x l2 -> ~ P x.
Definition styles (o : name) : Prop := o = str "italic" \/ o = str "slanted".
Definition words (o : name) : Prop := o = str "bold" \/ styles o.

Section Spec.
  Context {N : Num}.
  Variable to_float : name -> option N.
  Variable to_int : N -> option Z.
  Variable mag : N.
  (** a number of pixels *)
  Definition gives (o : name) (z : Z) : Prop :=
    ~ words o /\ exists x, to_float o = Some x /\ to_int (nmul x mag) = Some z /\ (0 < z)%Z.
  Definition too_large (o : name) : Prop :=
    ~ words o /\ exists x, to_float o = Some x /\ to_int (nmul x mag) = None.

  Record says (l : list name) (f : qfont) : Prop := {
    say_bold : q_bold f = true <-> In (str "bold") l;
    say_italic : q_style f = StyleItalic <-> last_of styles l (str "italic");
    say_slanted : q_style f = StyleOblique <-> last_of styles l (str "slanted");
    say_size : forall z, q_size f = Pixels z <-> exists o, last_of (fun o => exists z, gives o z) l o /\ gives o z }.
End Spec.
