(** The formulas that can be typeset: what the typesetter needs of a math list
    and does not check. *)
From Coq Require Import List ZArith Bool Arith.
From Verif.Base Require Import Result Num.
From Verif.Model Require Import Glue Box MathList MathTypeset.
From Verif.Spec Require Import TypesetSpec.
Import ListNotations.
Local Open Scope nat_scope.

Section Fine.
  Context {N : Num}.

  Definition is_style (n : mnode N) : bool := match n with MStyle _ => true | _ => false end.
  Definition is_boundary (n : mnode N) : bool := match n with MBoundary _ => true | _ => false end.
  (** The style changes taken out, the list is not empty (unless nothing had to
      be taken out), and it ends with a boundary if it starts with one. *)
  Definition framed (l : list (mnode N)) : bool :=
    match l, filter (fun n => negb (is_style n)) l with
    | [], _ => true
    | _ :: _, [] => false
    | _ :: _, x :: r => implb (is_boundary x) (is_boundary (last (x :: r) x))
    end.
  (** one of the sixteen font families *)
  Definition has_fonts (y : sym) : bool := ((0 <=? s_fam y) && (s_fam y <=? 15))%Z.

  (** A box that can serve as a script: a horizontal list, or no list at all *)
  Definition script_box (n : node N) : bool :=
    match n with
    | NList Horizontal _ _ _ _ _ => true
    | NList Vertical _ _ _ _ _ => false
    | _ => match box_metrics n with Some _ => true | None => false end
    end.
  Definition list_box (n : node N) : bool :=
    match n with NList Horizontal _ _ _ _ _ => true | _ => false end.
  (** scripts put over and under the nucleus have to be list boxes *)
  Definition movable (f : mfield N) : bool :=
    match f with FSym _ => false | FBox n => list_box n | FList _ => true | FOther => false end.
  Definition attachable (f : mfield N) : bool :=
    match f with FBox n => script_box n | _ => true end.

  Fixpoint fine_node (n : mnode N) : bool :=
    match n with
    | MAtom a => match a with mkAtom t nu sb sp ac li =>
        ((Ord <=? t) && (t <=? Vcent))%Z
        && opt_bool fine_field nu
        && match sp with
           | Some f => fine_field f && attachable f
           | None => opt_bool (fun f => fine_field f && attachable f) sb
           end
        && (if (t =? Op)%Z then match nu with Some _ => true | None => false end else true)
        && (if (t =? Acc)%Z then match ac with Some y => has_fonts y | None => false end else true)
        && (match li with
            | NoLimits => true
            | _ => if (t =? Op)%Z then
                     opt_bool fine_field sb && opt_bool movable sb && opt_bool movable sp
                   else true
            end)
      end
    | MFrac a b | MRoot a b => forallb fine_node a && framed a && (forallb fine_node b && framed b)
    | MMatrix c k => negb (k =? 0) && forallb (fun l => forallb fine_node l && framed l) c
    | _ => true
    end
  with fine_field (f : mfield N) : bool :=
    match f with
    | FSym y => has_fonts y
    | FBox _ => true
    | FList l => forallb fine_node l && framed l
    | FOther => false
    end.
  Definition fine (l : list (mnode N)) : bool := forallb fine_node l && framed l.

  (** A formula as it is read from a text: no boxes inside, no limits. *)
  Fixpoint unboxed (n : mnode N) : bool :=
    match n with
    | MAtom a => match a with mkAtom _ nu sb sp _ li =>
        opt_bool unboxed_field nu && opt_bool unboxed_field sb && opt_bool unboxed_field sp
        && match li with NoLimits => true | _ => false end
      end
    | MFrac a b | MRoot a b => forallb unboxed a && forallb unboxed b
    | MMatrix c _ => forallb (forallb unboxed) c
    | MNode _ => false
    | _ => true
    end
  with unboxed_field (f : mfield N) : bool :=
    match f with
    | FSym _ => true
    | FList l => forallb unboxed l
    | FBox _ | FOther => false
    end.
  Definition unboxed_list (l : list (mnode N)) : bool := forallb unboxed l.

  (** A math list whose fields are symbols, boxes and math lists. *)
  Fixpoint known (n : mnode N) : bool :=
    match n with
    | MAtom a => match a with mkAtom _ nu sb sp _ _ =>
        opt_bool known_field nu && opt_bool known_field sb && opt_bool known_field sp end
    | MFrac a b | MRoot a b => forallb known a && forallb known b
    | MMatrix c _ => forallb (forallb known) c
    | MNode (NPenalty _) | MNode (NRule _) | MNode (NKern _) | MNode (NGlue _) => true
    | MNode _ => false
    | MBoundary _ | MStyle _ | MGlue _ _ => true
    end
  with known_field (f : mfield N) : bool :=
    match f with
    | FList l => forallb known l
    | FSym _ | FBox _ => true
    | FOther => false
    end.
  Definition known_list (l : list (mnode N)) : bool := forallb known l.

  (** the engine makes boxes of symbols that are no vertical lists *)
  Definition char_engine (E : engine N) : Prop :=
    forall y f z, script_box (e_typeset E y f z) = true.
  (** a number is equal to itself: not so for a NaN *)
  Definition self_equal : Prop := forall x : N, neqb x x = true.
End Fine.
Arguments self_equal N : clear implicits.
