(** Tokens as values: what a program that makes, copies, moves, assigns and
    destroys tokens should see. *)
From Coq Require Import List Ascii String ZArith Bool Arith.
From Verif.Model Require Import Token TokenUnion.
Import ListNotations.

Definition vals := nat -> option token.
Definition no_vals : vals := fun _ => None.
Definition vset (v : vals) (x : nat) (t : option token) : vals :=
  fun z => if Nat.eqb z x then t else v z.

Section Spec.
  Variable moved : name -> name.
  (** a token that was moved from: of the same kind, a control sequence with an
      unspecified name *)
  Definition moved_from (t : token) : token := match t with TCs s => TCs (moved s) | _ => t end.

  (** makes a token, uses only tokens that exist *)
  Definition valid (v : vals) (o : tok_op) : Prop :=
    match o with
    | ODefault x | OChar x _ _ | OCs x _ | OParam x _ => v x = None
    | OCopy x y | OMove x y => v x = None /\ v y <> None
    | OAssign x y | OMoveAssign x y => v x <> None /\ v y <> None
    | ODestroy x => v x <> None
    end.
  Definition after (v : vals) (o : tok_op) : vals :=
    match o with
    | ODefault x => vset v x (Some (TChar (ascii_of_nat 0) Invalid))
    | OChar x c k => vset v x (Some (TChar c k))
    | OCs x s => vset v x (Some (TCs s))
    | OParam x n => vset v x (Some (TParam n))
    | OCopy x y | OAssign x y => vset v x (v y)
    | OMove x y | OMoveAssign x y => vset (vset v x (v y)) y (option_map moved_from (v y))
    | ODestroy x => vset v x None
    end.
  Fixpoint valid_all (v : vals) (l : list tok_op) : Prop :=
    match l with
    | [] => True
    | o :: r => valid v o /\ valid_all (after v o) r
    end.
  Definition after_all (v : vals) (l : list tok_op) : vals := fold_left after l v.
End Spec.

(** the value an object holds: the live member, which the type names *)
Definition holds (o : obj) : option token :=
  match o with
  | mkO TyChar (MChar c k) => Some (TChar c k)
  | mkO TyCs (MStr _ s) => Some (TCs s)
  | mkO TyParam (MInt n) => Some (TParam n)
  | _ => None
  end.
Definition value_of (w : world) (x : nat) : option token :=
  match w_obj w x with Some o => holds o | None => None end.

Definition owns (w : world) (x id : nat) : Prop :=
  exists o s, w_obj w x = Some o /\ o_mem o = MStr id s.

(** Every string made is alive in exactly one token, or was destroyed exactly
    once. *)
Definition strings_ok (w : world) : Prop :=
  (forall id, (id < w_next w)%nat <-> In id (w_live w) \/ In id (w_dead w)) /\
  NoDup (w_live w ++ w_dead w) /\
  (forall id, In id (w_live w) <-> exists x, owns w x id) /\
  (forall x y id, owns w x id -> owns w y id -> x = y).
