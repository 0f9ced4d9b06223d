(** Model of the union in class Token: include/tex/token.h:61-335. Objects are
    numbered; a token has a type and the member of its union that is alive. *)
From Coq Require Import List Ascii String ZArith Bool Arith.
From Verif.Base Require Import Result.
From Verif.Model Require Import Token.
Import ListNotations.

(** include/tex/token.h:39-43 [enum class TokenType] *)
Inductive ttype : Set := TyChar | TyCs | TyParam.

(** include/tex/token.h:66-74 [union Data]: the live member. Every
    [std::string] object has its own number. *)
Inductive member : Set :=
| MNone | MChar (c : ascii) (k : cat) | MStr (id : nat) (s : name) | MInt (n : Z).
Record obj := mkO { o_ty : ttype; o_mem : member }.

(** The tokens that exist; the strings made so far ([w_next] of them), alive
    and destroyed *)
Record world := mkW {
  w_obj : nat -> option obj; w_next : nat; w_live : list nat; w_dead : list nat }.
Definition w_init : world := mkW (fun _ => None) 0 [] [].

Definition upd (f : nat -> option obj) (x : nat) (v : option obj) : nat -> option obj :=
  fun z => if Nat.eqb z x then v else f z.
Definition set_obj (w : world) (x : nat) (v : option obj) : world :=
  mkW (upd (w_obj w) x v) (w_next w) (w_live w) (w_dead w).

(** A computation: undefined, or a value ([None]: an exception was thrown) and
    the new world *)
Definition M (A : Type) := world -> result (option A * world).
Definition ret {A} (a : A) : M A := fun w => Ok (Some a, w).
Definition bnd {A B} (m : M A) (f : A -> M B) : M B := fun w =>
  do r <- m w;
  match r with
  | (Some a, w') => f a w'
  | (None, w') => Ok (None, w')
  end.
Notation "'let!' x <- e ; f" := (bnd e (fun x => f))
  (at level 200, x pattern, e at level 100, f at level 200, right associativity).
Notation "e ;; f" := (bnd e (fun _ => f)) (at level 100, f at level 200, right associativity).

Section Union.
  (** whether making (or copying into) a string, with the given number of
      strings made before, finds memory *)
  Variable alloc : nat -> bool.
  (** what [std::move] leaves in a [std::string]: unspecified *)
  Variable moved : name -> name.

  Definition get (x : nat) : M obj := fun w =>
    match w_obj w x with Some o => Ok (Some o, w) | None => UB end.
  Definition put (x : nat) (o : obj) : M unit := fun w => Ok (Some tt, set_obj w x (Some o)).
  Definition type_of (x : nat) : M ttype := let! o <- get x; ret (o_ty o).
  Definition set_type (x : nat) (t : ttype) : M unit :=
    let! o <- get x; put x (mkO t (o_mem o)).
  Definition set_mem (x : nat) (m : member) : M unit :=
    let! o <- get x; put x (mkO (o_ty o) m).

  (** Reading a member that is not alive is undefined. token.h:179-192. *)
  Definition characterToken (x : nat) : M (ascii * cat) := let! o <- get x;
    match o_mem o with MChar c k => ret (c, k) | _ => fun _ => UB end.
  Definition controlSequence (x : nat) : M name := let! o <- get x;
    match o_mem o with MStr _ s => ret s | _ => fun _ => UB end.
  Definition parameterNumber (x : nat) : M Z := let! o <- get x;
    match o_mem o with MInt n => ret n | _ => fun _ => UB end.

  (** Destructors, of members that must be alive *)
  Definition destroy_char (x : nat) : M unit :=
    characterToken x ;; set_mem x MNone.
  Definition kill (id : nat) : M unit := fun w =>
    if existsb (Nat.eqb id) (w_live w) then
      Ok (Some tt, mkW (w_obj w) (w_next w) (remove Nat.eq_dec id (w_live w)) (id :: w_dead w))
    else UB.
  Definition destroy_str (x : nat) : M unit := let! o <- get x;
    match o_mem o with
    | MStr id _ => kill id ;; set_mem x MNone
    | _ => fun _ => UB
    end.

  (** Placement new: whatever was alive there is no more (a string is not
      destroyed by it). If the allocation fails nothing is alive. *)
  Definition new_char (x : nat) (c : ascii * cat) : M unit := set_mem x (MChar (fst c) (snd c)).
  Definition fresh : M nat := fun w =>
    Ok (Some (w_next w), mkW (w_obj w) (S (w_next w)) (w_next w :: w_live w) (w_dead w)).
  Definition throw {A} : M A := fun w => Ok (None, w).
  Definition may_throw : M unit := fun w => if alloc (w_next w) then Ok (Some tt, w) else Ok (None, w).
  Definition new_str (x : nat) (s : name) : M unit :=
    set_mem x MNone ;; may_throw ;; let! id <- fresh; set_mem x (MStr id s).
  (** [std::string(std::move(other.control_sequence))] does not allocate *)
  Definition take_str (y : nat) : M name := let! o <- get y;
    match o_mem o with
    | MStr id s => set_mem y (MStr id (moved s)) ;; ret s
    | _ => fun _ => UB
    end.
  Definition new_str_moved (x y : nat) : M unit :=
    let! s <- take_str y; let! id <- fresh; set_mem x (MStr id s).

  (** Assignments to members. That of an [int] starts its lifetime; those of
      the class types need a live member. *)
  Definition assign_int (x : nat) (n : Z) : M unit := set_mem x (MInt n).
  Definition assign_char (x : nat) (c : ascii * cat) : M unit :=
    characterToken x ;; set_mem x (MChar (fst c) (snd c)).
  Definition store_str (x : nat) (s : name) : M unit := let! o <- get x;
    match o_mem o with MStr id _ => set_mem x (MStr id s) | _ => fun _ => UB end.
  Definition assign_str (x : nat) (s : name) : M unit := may_throw ;; store_str x s.
  (** a string moved into itself has an unspecified value too *)
  Definition assign_str_moved (x y : nat) : M unit :=
    let! s <- take_str y; if Nat.eqb x y then ret tt else store_str x s.

  (** A constructor: [Data()] makes the character token (token.h:72); if the
      body throws there is no object. *)
  Definition construct (x : nat) (t : ttype) (body : M unit) : M unit := fun w =>
    match w_obj w x with
    | Some _ => UB
    | None =>
        do r <- body (set_obj w x (Some (mkO t (MChar (ascii_of_nat 0) Invalid))));
        match r with
        | (Some _, w') => Ok (Some tt, w')
        | (None, w') => Ok (None, set_obj w' x None)
        end
    end.

  (** token.h:83 *)
  Definition ctor_default (x : nat) : M unit := construct x TyChar (ret tt).
  (** token.h:161-164 *)
  Definition ctor_char (x : nat) (c : ascii * cat) : M unit := construct x TyChar (assign_char x c).
  (** token.h:166-171 *)
  Definition ctor_cs (x : nat) (s : name) : M unit :=
    construct x TyCs (destroy_char x ;; new_str x s).
  (** token.h:173-177 *)
  Definition ctor_param (x : nat) (n : Z) : M unit := construct x TyParam (assign_int x n).

  (** token.h:123-140 and 142-159; [mv]: from an rvalue *)
  Definition ctor_from (mv : bool) (x y : nat) : M unit := construct x TyChar (
    let! t <- type_of y;
    match t with
    | TyCs =>
        set_type x TyCs ;; destroy_char x ;;
        if mv then new_str_moved x y else let! s <- controlSequence y; new_str x s
    | TyParam => set_type x TyParam ;; let! n <- parameterNumber y; assign_int x n
    | TyChar => let! c <- characterToken y; assign_char x c
    end).

  (** token.h:110-121 *)
  Definition dtor (x : nat) : M unit :=
    let! t <- type_of x;
    (match t with
     | TyCs => destroy_str x
     | TyChar => destroy_char x
     | TyParam => ret tt
     end) ;; fun w => Ok (Some tt, set_obj w x None).

  (** token.h:195-264 and 266-335 *)
  Definition assign (mv : bool) (x y : nat) : M unit :=
    let! t <- type_of x;
    let! u <- type_of y;
    let make_cs := (if mv then new_str_moved x y else let! s <- controlSequence y; new_str x s) ;;
                   set_type x TyCs in
    let make_param := (let! n <- parameterNumber y; assign_int x n) ;; set_type x TyParam in
    let make_char := (let! c <- characterToken y; new_char x c) ;; set_type x TyChar in
    match t with
    | TyCs =>
        match u with
        | TyCs => if mv then assign_str_moved x y else let! s <- controlSequence y; assign_str x s
        | TyParam => destroy_str x ;; make_param
        | TyChar => destroy_str x ;; make_char
        end
    | TyParam =>
        match u with
        | TyParam => let! n <- parameterNumber y; assign_int x n
        | TyCs => make_cs
        | TyChar => make_char
        end
    | TyChar =>
        match u with
        | TyChar => let! c <- characterToken y; assign_char x c
        | TyCs => destroy_char x ;; make_cs
        | TyParam => destroy_char x ;; make_param
        end
    end.

  Definition ty_eqb (a b : ttype) : bool :=
    match a, b with TyChar, TyChar | TyCs, TyCs | TyParam, TyParam => true | _, _ => false end.

  (** token.h:347-353 [operator==] *)
  Definition equal (x y : nat) : M bool :=
    let! t <- type_of x;
    let! u <- type_of y;
    if negb (ty_eqb t u) then ret false
    else match t with
         | TyChar => let! c <- characterToken x; let! d <- characterToken y;
                     ret (Ascii.eqb (fst c) (fst d) && cat_eqb (snd c) (snd d))
         | TyCs => let! s <- controlSequence x; let! r <- controlSequence y; ret (name_eqb s r)
         | TyParam => let! n <- parameterNumber x; let! m <- parameterNumber y; ret (Z.eqb n m)
         end.

  (** token.h:337-340 *)
  Definition has_category (x : nat) (k : cat) : M bool :=
    let! t <- type_of x;
    match t with
    | TyChar => let! c <- characterToken x; ret (cat_eqb (snd c) k)
    | _ => ret false
    end.

  (** What a program does with tokens *)
  Inductive tok_op : Set :=
  | ODefault (x : nat) | OChar (x : nat) (c : ascii) (k : cat) | OCs (x : nat) (s : name)
  | OParam (x : nat) (n : Z)
  | OCopy (x y : nat) | OMove (x y : nat) | OAssign (x y : nat) | OMoveAssign (x y : nat)
  | ODestroy (x : nat).

  Definition exec (o : tok_op) : M unit :=
    match o with
    | ODefault x => ctor_default x
    | OChar x c k => ctor_char x (c, k)
    | OCs x s => ctor_cs x s
    | OParam x n => ctor_param x n
    | OCopy x y => ctor_from false x y
    | OMove x y => ctor_from true x y
    | OAssign x y => assign false x y
    | OMoveAssign x y => assign true x y
    | ODestroy x => dtor x
    end.
  (** exceptions are caught and the program goes on *)
  Fixpoint run (l : list tok_op) (w : world) : result world :=
    match l with
    | [] => Ok w
    | o :: r => do x <- exec o w; run r (snd x)
    end.
End Union.
