(** Outcomes of modelled C++ code. *)
From Coq Require Import List.
Import ListNotations.

(** [Ok]: normal return.  [Throw]: a C++ exception leaves the function.
    [UB]: the C++ standard leaves the behaviour undefined.
    [Abort]: an [assert] fails (debug builds only).
    [Fuel]: the model ran out of fuel; never a statement about the code. *)
Inductive result (A : Type) : Type :=
| Ok (a : A)
| Throw
| UB
| Abort
| Fuel.
Arguments Ok {A} a.
Arguments Throw {A}.
Arguments UB {A}.
Arguments Abort {A}.
Arguments Fuel {A}.

Definition bind {A B} (r : result A) (f : A -> result B) : result B :=
  match r with
  | Ok a => f a
  | Throw => Throw
  | UB => UB
  | Abort => Abort
  | Fuel => Fuel
  end.

Notation "'do' x <- e ; f" := (bind e (fun x => f))
  (at level 200, x pattern, e at level 100, f at level 200, right associativity).

Definition rmap {A B} (f : A -> B) (r : result A) : result B :=
  bind r (fun a => Ok (f a)).

(** Sequential loop over a list that stops at the first non-[Ok] outcome. *)
Fixpoint foldM {A S} (f : S -> A -> result S) (l : list A) (s : S) : result S :=
  match l with
  | [] => Ok s
  | a :: r => bind (f s a) (foldM f r)
  end.

Lemma bind_Ok {A B} (r : result A) (f : A -> result B) b :
  bind r f = Ok b <-> exists a, r = Ok a /\ f a = Ok b.
Proof.
  split.
  - destruct r; simpl; intros H; try discriminate. eauto.
  - intros (a & -> & H). exact H.
Qed.

Lemma foldM_app {A S} (f : S -> A -> result S) l1 l2 s :
  foldM f (l1 ++ l2) s = bind (foldM f l1 s) (foldM f l2).
Proof.
  revert s; induction l1 as [|a l1 IH]; intros s; simpl; [reflexivity|].
  destruct (f s a); simpl; try reflexivity. apply IH.
Qed.

Lemma foldM_cons_Ok {A S} (f : S -> A -> result S) a l s s' :
  f s a = Ok s' -> foldM f (a :: l) s = foldM f l s'.
Proof. intros H; simpl; rewrite H; reflexivity. Qed.

Lemma foldM_app_Ok {A S} (f : S -> A -> result S) l1 l2 s s' :
  foldM f l1 s = Ok s' -> foldM f (l1 ++ l2) s = foldM f l2 s'.
Proof. intros H. rewrite foldM_app, H. reflexivity. Qed.
