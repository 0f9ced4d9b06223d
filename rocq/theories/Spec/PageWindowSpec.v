(** What the window of the page editor is to show, in terms of [typeset] alone
    (C104). *)
From Coq Require Import List Ascii Bool Arith ZArith.
From Verif.Base Require Import Result Num.
From Verif.Model Require Import Token Box MathList PageEditor PageWindow.
Import ListNotations.

Section Shows.
  Context {N : Num}.
  Variable K : host N.
  (** the result of a new machine for the text, within [n] steps *)
  Definition typesets_as (n : nat) (hsize : N) (text : list ascii) (r : result (lbox N)) : Prop :=
    exists s, machine_new K 0 hsize = Ok s /\ typeset K n s text = r.
  (** a text that changes the page *)
  Definition makes_page (n : nat) (hsize : N) (text : list ascii) (b : lbox N) : Prop :=
    text <> [] /\ typesets_as n hsize text (Ok b).

  (** [x] is the last one of the list that has [P], which may depend on those
      before it, and it has [P] as [y] *)
  Definition last_with {A B} (P : list A -> A -> B -> Prop) (l : list A) (o : option B) : Prop :=
    match o with
    | Some y => exists l1 x l2, l = l1 ++ x :: l2 /\ P l1 x y /\
        (forall l3 x' l4, l2 = l3 ++ x' :: l4 -> forall y', ~ P (l1 ++ x :: l3) x' y')
    | None => forall l1 x l2, l = l1 ++ x :: l2 -> forall y, ~ P l1 x y
    end.
End Shows.

Section After.
  Context {N : Num}.
  Variable K : host N.
  (** the fonts of the engine after the events [es] *)
  Definition engine_after (n : nat) (hsize : N) (es : list window_event) (l : list (name * name)) : Prop :=
    exists x, window_session K n hsize es = Ok x /\ se_loads x = l.
  (** [typesets_as] for the text of an event after [es] *)
  Definition typesets_after (n : nat) (hsize : N) (es : list window_event) (e : window_event) (r : result (lbox N)) : Prop :=
    new_text e <> [] /\ exists l, engine_after n hsize es l /\ typesets_as (with_loads K l) n hsize (new_text e) r.
  Definition makes_page_after (n : nat) (hsize : N) (es : list window_event) (e : window_event) (b : lbox N) : Prop :=
    typesets_after n hsize es e (Ok b).
End After.

(** ** C108 *)
Section Fonts.
  Context {N : Num}.
  (** two engines with other numbers for the fonts *)
  Variables K K' : host N.
  Definition alike : Prop :=
    k_math K = k_math K' /\ k_pows K = k_pows K' /\ k_range K = k_range K' /\ k_debug K = k_debug K' /\
    k_signed K = k_signed K' /\ k_fuel K = k_fuel K'.
  (** [x] is for the one what [y] is for the other *)
  Definition same_font (x y : Z) : Prop :=
    k_font K x = k_font K' y /\ k_paren K x = k_paren K' y /\ k_quad K x = k_quad K' y /\ k_xheight K x = k_xheight K' y.
  (** The first font and the fonts [L] are the same in both; a font the one
      cannot load the other cannot load either *)
  Definition fonts_agree (L : list (name * name)) : Prop :=
    same_font 0 0 /\
    (forall l n sp r x, L = l ++ (n, sp) :: r -> k_load K l n sp = Ok x ->
       exists y, k_load K' l n sp = Ok y /\ same_font x y) /\
    (forall l n sp, (forall x, k_load K l n sp <> Ok x) -> k_load K' l n sp = k_load K l n sp).
End Fonts.
