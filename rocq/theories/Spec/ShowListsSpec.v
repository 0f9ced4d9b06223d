(** What showlists should print: an outline of the tree of nodes. *)
From Coq Require Import List String ZArith Bool.
From Coq Require Import DecimalString.
From Verif.Base Require Import Result Num.
From Verif.Model Require Import Glue Box ShowLists.
From Verif.Spec Require Import UnicodeSpec.
Import ListNotations.
Local Open Scope Z_scope.
Local Open Scope list_scope.

(** A line: one character for each level between the root and the node, and
    the description of the node. *)
Definition line : Type := list Z * list Z.
Definition rendered (x : line) : list Z := fst x ++ snd x.

(** lines separated by newlines *)
Fixpoint joined (l : list (list Z)) : list Z :=
  match l with
  | [] => []
  | [x] => x
  | x :: r => x ++ 10 :: joined r
  end.

(** the lines of a text *)
Fixpoint text_lines (t : list Z) : list (list Z) :=
  match t with
  | [] => [[]]
  | c :: r =>
      if c =? 10 then [] :: text_lines r
      else match text_lines r with
           | [] => [[c]]
           | x :: y => (c :: x) :: y
           end
  end.

(** a text that is still empty gets no newline: empty lines at the beginning
    are not seen *)
Fixpoint without_empty_start (l : list (list Z)) : list (list Z) :=
  match l with
  | [] :: r => without_empty_start r
  | _ => l
  end.

(** the bytes of a character, without NUL *)
Definition spells (c : Z) (t : list Z) : Prop := (c = 0 /\ t = []) \/ (c <> 0 /\ utf8 c t).

Section Spec.
  Context {N : Num}.
  Variable fmt : N -> list Z.

  Definition metrics_text (m : metrics N) : list Z :=
    bytes_of "(" ++ fmt (m_height m) ++ bytes_of "+" ++ fmt (m_depth m) ++ bytes_of ")x" ++ fmt (m_width m).
  Definition set_text (ratio : N) : list Z :=
    if neqb ratio n0 then [] else bytes_of ", glue set " ++ fmt ratio.
  Definition unit_text (o : gorder) : list Z :=
    match o with Normal => [] | Fil => bytes_of "fil" | Fill => bytes_of "fill" | Filll => bytes_of "filll" end.
  Definition glue_text (g : glue N) : list Z :=
    bytes_of "\glue " ++ fmt (g_space g) ++
    (if neqb (g_stretch g) n0 && neqb (g_shrink g) n0 then []
     else bytes_of " " ++ fmt (g_stretch g) ++ unit_text (g_stretchOrder g) ++
          bytes_of " " ++ fmt (g_shrink g) ++ unit_text (g_shrinkOrder g)).

  (** the classes that have a name; the others are printed as nothing *)
  Inductive class_text : Z -> list Z -> Prop :=
  | ct_ord : class_text 0 (bytes_of "\mathord")
  | ct_bin : class_text 2 (bytes_of "\mathbin")
  | ct_rel : class_text 3 (bytes_of "\mathrel")
  | ct_open : class_text 4 (bytes_of "\mathopen")
  | ct_close : class_text 5 (bytes_of "\mathclose")
  | ct_punct : class_text 6 (bytes_of "\mathpunct")
  | ct_inner : class_text 7 (bytes_of "\mathinner")
  | ct_rad : class_text 11 (bytes_of "\radical")
  | ct_none t : In t [1; 8; 9; 10; 12] -> class_text t [].

  (** [outline p n ls]: the node [n], reached by the path [p], is printed as
      the lines [ls]. Below an atom the path has a dot for the nucleus, [^] for the
      superscript and [_] for the subscript; below a fraction or a root a
      backslash and a slash; below a box and in a matrix a dot. *)
  Inductive outline : list Z -> snode N -> list line -> Prop :=
  | o_sym p fam c t : spells c t ->
      outline p (SSym fam c)
        [(p, bytes_of "\fam" ++ bytes_of (NilZero.string_of_int (Z.to_int fam)) ++ bytes_of " " ++ t)]
  | o_list p l ls : outlines p l ls -> outline p (SList l) ls
  | o_hbox p m r l ls : outlines (p ++ bytes_of ".") l ls ->
      outline p (SHBox m r l) ((p, bytes_of "\hbox" ++ metrics_text m ++ set_text r) :: ls)
  | o_vbox p m r l ls : outlines (p ++ bytes_of ".") l ls ->
      outline p (SVBox m r l) ((p, bytes_of "\vbox" ++ metrics_text m ++ set_text r) :: ls)
  | o_char p c t : spells c t -> outline p (SChar c) [(p, t)]
  | o_glue p g : outline p (SGlue g) [(p, glue_text g)]
  | o_kern p x : outline p (SKern x) [(p, bytes_of "\kern " ++ fmt x)]
  | o_atom p ty nuc sup sub t l1 l2 l3 : class_text ty t ->
      outline_field (p ++ bytes_of ".") nuc l1 ->
      outline_field (p ++ bytes_of "^") sup l2 ->
      outline_field (p ++ bytes_of "_") sub l3 ->
      outline p (SAtom ty nuc sup sub) ((p, t) :: l1 ++ l2 ++ l3)
  | o_frac p a b l1 l2 :
      outlines (p ++ bytes_of "\") a l1 -> outlines (p ++ bytes_of "/") b l2 ->
      outline p (SFrac a b) ((p, bytes_of "\fraction, thickness = default") :: l1 ++ l2)
  | o_root p a b l1 l2 :
      outlines (p ++ bytes_of "\") a l1 -> outlines (p ++ bytes_of "/") b l2 ->
      outline p (SRoot a b) ((p, bytes_of "\sqrt") :: l1 ++ l2)
  | o_matrix p rows rest cols ls :
      (0 < cols)%nat -> (List.length rest < cols)%nat -> Z.of_nat cols < 2147483648 ->
      Forall (fun r => List.length r = cols) rows ->
      outline_rows p rows ls ->
      outline p (SMatrix (List.concat rows ++ rest) cols)
        ((p, bytes_of "\matrix " ++ bytes_of (NilZero.string_of_int (Z.to_int (Z.of_nat cols))) ++ bytes_of "cols") :: ls)
  | o_box p m : outline p (SBox m) [(p, metrics_text m)]
  | o_alien p : outline p SAlien [(p, bytes_of "\alien")]
  with outlines : list Z -> list (snode N) -> list line -> Prop :=
  | os_nil p : outlines p [] []
  | os_cons p n r l1 l2 : outline p n l1 -> outlines p r l2 -> outlines p (n :: r) (l1 ++ l2)
  with outline_field : list Z -> option (snode N) -> list line -> Prop :=
  | of_none p : outline_field p None []
  | of_some p n l : outline p n l -> outline_field p (Some n) l
  with outline_rows : list Z -> list (list (list (snode N))) -> list line -> Prop :=
  | or_nil p : outline_rows p [] []
  | or_cons p r rows l1 l2 : outline_cells p r l1 -> outline_rows p rows l2 ->
      outline_rows p (r :: rows) (l1 ++ (p, bytes_of ".cr") :: l2)
  with outline_cells : list Z -> list (list (snode N)) -> list line -> Prop :=
  | oc_one p c l : outlines (p ++ bytes_of ".") c l -> outline_cells p [c] l
  | oc_cons p c d r l1 l2 : outlines (p ++ bytes_of ".") c l1 -> outline_cells p (d :: r) l2 ->
      outline_cells p (c :: d :: r) (l1 ++ (p ++ bytes_of ".", bytes_of "&") :: l2).

  (** every atom has one of the thirteen types, every character is a code point,
      every matrix has a column *)
  Fixpoint sound (n : snode N) : Prop :=
    let sounds := fix sounds (l : list (snode N)) : Prop :=
      match l with [] => True | n :: r => sound n /\ sounds r end in
    let field (o : option (snode N)) : Prop := match o with None => True | Some n => sound n end in
    match n with
    | SSym _ c | SChar c => 0 <= c < 2097152
    | SList l | SHBox _ _ l | SVBox _ _ l => sounds l
    | SAtom ty nuc sup sub => 0 <= ty <= 12 /\ field nuc /\ field sup /\ field sub
    | SFrac a b | SRoot a b => sounds a /\ sounds b
    | SMatrix cells cols =>
        (0 < cols)%nat /\ Z.of_nat cols < 2147483648 /\
        (fix all (l : list (list (snode N))) : Prop :=
           match l with [] => True | c :: r => sounds c /\ all r end) cells
    | _ => True
    end.
  Fixpoint sounds (l : list (snode N)) : Prop :=
    match l with [] => True | n :: r => sound n /\ sounds r end.

  (** no newline among the characters *)
  Fixpoint plain (n : snode N) : Prop :=
    let plains := fix plains (l : list (snode N)) : Prop :=
      match l with [] => True | n :: r => plain n /\ plains r end in
    let field (o : option (snode N)) : Prop := match o with None => True | Some n => plain n end in
    match n with
    | SSym _ c | SChar c => c <> 10
    | SList l | SHBox _ _ l | SVBox _ _ l => plains l
    | SAtom ty nuc sup sub => field nuc /\ field sup /\ field sub
    | SFrac a b | SRoot a b => plains a /\ plains b
    | SMatrix cells cols =>
        (fix all (l : list (list (snode N))) : Prop :=
           match l with [] => True | c :: r => plains c /\ all r end) cells
    | _ => True
    end.
  Fixpoint plains (l : list (snode N)) : Prop :=
    match l with [] => True | n :: r => plain n /\ plains r end.
End Spec.
