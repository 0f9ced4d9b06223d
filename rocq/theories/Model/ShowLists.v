(** Model of src/showlists.cpp: a text that describes a list of nodes. *)
From Coq Require Import List Ascii String ZArith Bool DecimalString.
From Verif.Base Require Import Result Num.
From Verif.Model Require Import Glue Box Unicode.
Import ListNotations.
Local Open Scope Z_scope.
Local Open Scope list_scope.

(** texts are lists of bytes *)
Fixpoint bytes_of (s : string) : list Z :=
  match s with
  | EmptyString => []
  | String a r => Z.of_nat (nat_of_ascii a) :: bytes_of r
  end.

(** [std::to_string(int)] *)
Definition int_text (z : Z) : list Z := bytes_of (NilZero.string_of_int (Z.to_int z)).

(** [static_cast<int>] of a [size_t], two's complement *)
Definition to_int32 (z : Z) : Z := (z + 2147483648) mod 4294967296 - 2147483648.

(** the character strings of [Utf8Char::data()] up to the first NUL
    (showlists.cpp:66-69 with a [const char*]) *)
Definition char_text (c : Z) : list Z := cstring (utf8_chars c).

Section ShowLists.
  Context {N : Num}.
  (** [std::to_string(float)]: any function *)
  Variable fmt : N -> list Z.

  (** The nodes as showlists.cpp:307-366 tells them apart: in this order a math
      symbol, a [MathListNode], an [HBox], a [VBox], a character box, glue, a kern,
      an atom (type as in atom.h:22-37, nucleus, superscript, subscript; null
      pointers are [None]), a fraction, a root, a matrix (elements row by row and
      number of columns), another box, any other node. Null pointers in lists are
      not modelled. *)
  Inductive snode : Type :=
  | SSym (fam c : Z)
  | SList (l : list snode)
  | SHBox (m : metrics N) (ratio : N) (l : list snode)
  | SVBox (m : metrics N) (ratio : N) (l : list snode)
  | SChar (c : Z)
  | SGlue (g : glue N)
  | SKern (x : N)
  | SAtom (ty : Z) (nuc sup sub : option snode)
  | SFrac (numer denom : list snode)
  | SRoot (degree radicand : list snode)
  | SMatrix (cells : list (list snode)) (cols : nat)
  | SBox (m : metrics N)
  | SAlien.

  (** showlists.cpp:41-43: the prefix and the result *)
  Record sstate := mkS { s_prefix : list Z; s_result : list Z }.

  (** showlists.cpp:61-84 *)
  Definition put (t : list Z) (s : sstate) : sstate := mkS (s_prefix s) (s_result s ++ t).

  (** showlists.cpp:51-56 *)
  Definition beginLine (s : sstate) : sstate :=
    let s := match s_result s with [] => s | _ => put [10] s end in
    put (s_prefix s) s.

  (** showlists.cpp:22-36 [RAIIPrefixGuard]: the constructor and the destructor *)
  Definition push (c : Z) (s : sstate) : sstate := mkS (s_prefix s ++ [c]) (s_result s).
  Definition pop (s : sstate) : result sstate :=
    match s_prefix s with
    | [] => UB
    | p => Ok (mkS (removelast p) (s_result s))
    end.
  Definition guarded (c : Z) (body : sstate -> result sstate) (s : sstate) : result sstate :=
    do s <- body (push c s) ; pop s.

  (** showlists.cpp:90-116 *)
  Definition atom_name (ty : Z) : list Z :=
    match ty with
    | 0 => bytes_of "\mathord"
    | 2 => bytes_of "\mathbin"
    | 3 => bytes_of "\mathrel"
    | 4 => bytes_of "\mathopen"
    | 5 => bytes_of "\mathclose"
    | 6 => bytes_of "\mathpunct"
    | 7 => bytes_of "\mathinner"
    | 11 => bytes_of "\radical"
    | _ => []
    end.

  (** showlists.cpp:217-226 *)
  Definition writeBoxMetrics (m : metrics N) (s : sstate) : sstate :=
    put (fmt (m_width m)) (put (bytes_of "x") (put (bytes_of ")") (put (fmt (m_depth m))
      (put (bytes_of "+") (put (fmt (m_height m)) (put (bytes_of "(") s)))))).

  (** showlists.cpp:261-279 *)
  Definition order_text (o : gorder) : list Z :=
    match o with
    | Normal => []
    | Fil => bytes_of "fil"
    | Fill => bytes_of "fill"
    | Filll => bytes_of "filll"
    end.

  (** showlists.cpp:228-244, 246-260: the line of a box with a list *)
  Definition writeListBox (name : list Z) (m : metrics N) (ratio : N) (s : sstate) : sstate :=
    let s := writeBoxMetrics m (put name (beginLine s)) in
    if nonzero ratio then put (fmt ratio) (put (bytes_of ", glue set ") s) else s.

  (** showlists.cpp:281-297 *)
  Definition writeGlue (g : glue N) (s : sstate) : sstate :=
    let s := put (fmt (g_space g)) (put (bytes_of "\glue ") (beginLine s)) in
    if nonzero (g_stretch g) || nonzero (g_shrink g) then
      put (order_text (g_shrinkOrder g)) (put (fmt (g_shrink g)) (put (bytes_of " ")
        (put (order_text (g_stretchOrder g)) (put (fmt (g_stretch g)) (put (bytes_of " ") s)))))
    else s.

  (** showlists.cpp:176-193: one row of a matrix from the actions that write its
      cells; [matrix.h:51-54] [at] throws out of range *)
  Fixpoint writeRow (cells : list (sstate -> result sstate)) (cols i : nat) (j : nat) (left : nat)
      (s : sstate) : result sstate :=
    match left with
    | O => Ok s
    | S left' =>
        do s <- guarded 46 (fun s =>
          match nth_error cells (j + i * cols) with
          | None => Throw
          | Some w =>
              do s <- w s ;
              Ok (if Nat.eqb j (cols - 1) then s else put (bytes_of "&") (beginLine s))
          end) s ;
        writeRow cells cols i (S j) left' s
    end.
  Fixpoint writeRows (cells : list (sstate -> result sstate)) (cols i left : nat) (s : sstate)
      : result sstate :=
    match left with
    | O => Ok s
    | S left' =>
        do s <- writeRow cells cols i 0 cols s ;
        writeRows cells cols (S i) left' (put (bytes_of ".cr") (beginLine s))
    end.

  (** showlists.cpp:169-193; [matrix.h:41-44] [rows()] divides by the number of
      columns *)
  Definition writeMatrix (cells : list (sstate -> result sstate)) (cols : nat) (s : sstate)
      : result sstate :=
    let s := put (bytes_of "cols") (put (int_text (to_int32 (Z.of_nat cols)))
               (put (bytes_of "\matrix ") (beginLine s))) in
    match cols with
    | O => UB
    | _ => writeRows cells cols 0 (Nat.div (List.length cells) cols) s
    end.

  (** showlists.cpp:307-366 [write(const std::shared_ptr<Node>&)] with the
      overloads of lines 86-215, 228-260, 299-305 *)
  Fixpoint write (n : snode) (s : sstate) {struct n} : result sstate :=
    let writes := fix writes (l : list snode) (s : sstate) : result sstate :=
      match l with
      | [] => Ok s
      | n :: r => do s <- write n s ; writes r s
      end in
    let field (c : Z) (o : option snode) (s : sstate) : result sstate :=
      match o with
      | None => Ok s
      | Some n => guarded c (write n) s
      end in
    match n with
    | SSym fam c =>
        Ok (put (char_text c) (put (bytes_of " ") (put (int_text fam) (put (bytes_of "\fam") (beginLine s)))))
    | SList l => writes l s
    | SHBox m ratio l => guarded 46 (writes l) (writeListBox (bytes_of "\hbox") m ratio s)
    | SVBox m ratio l => guarded 46 (writes l) (writeListBox (bytes_of "\vbox") m ratio s)
    | SChar c => Ok (put (char_text c) (beginLine s))
    | SGlue g => Ok (writeGlue g s)
    | SKern x => Ok (put (fmt x) (put (bytes_of "\kern ") (beginLine s)))
    | SAtom ty nuc sup sub =>
        do s <- field 46 nuc (put (atom_name ty) (beginLine s)) ;
        do s <- field 94 sup s ;
        field 95 sub s
    | SFrac numer denom =>
        do s <- guarded 92 (writes numer) (put (bytes_of "\fraction, thickness = default") (beginLine s)) ;
        guarded 47 (writes denom) s
    | SRoot degree radicand =>
        do s <- guarded 92 (writes degree) (put (bytes_of "\sqrt") (beginLine s)) ;
        guarded 47 (writes radicand) s
    | SMatrix cells cols => writeMatrix (List.map writes cells) cols s
    | SBox m => Ok (writeBoxMetrics m (beginLine s))
    | SAlien => Ok (put (bytes_of "\alien") (beginLine s))
    end.

  Fixpoint writes (l : list snode) (s : sstate) : result sstate :=
    match l with
    | [] => Ok s
    | n :: r => do s <- write n s ; writes r s
    end.

  (** showlists.cpp:368-376, 383-387; the prefix at the end is kept here *)
  Definition showlists_state (l : list snode) : result sstate := writes l (mkS [] []).
  Definition showlists (l : list snode) : result (list Z) :=
    rmap s_result (showlists_state l).
End ShowLists.

Arguments snode N : clear implicits.

Arguments SSym {N} fam c.
Arguments SList {N} l.
Arguments SHBox {N} m ratio l.
Arguments SVBox {N} m ratio l.
Arguments SChar {N} c.
Arguments SGlue {N} g.
Arguments SKern {N} x.
Arguments SAtom {N} ty nuc sup sub.
Arguments SFrac {N} numer denom.
Arguments SRoot {N} degree radicand.
Arguments SMatrix {N} cells cols.
Arguments SBox {N} m.
Arguments SAlien {N}.
