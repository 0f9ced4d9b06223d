(** Model of class MathParser: include/tex/parsing/mathparser.h and
    src/parsing/mathparser.cpp. What an exception leaves behind is not modelled. *)
From Coq Require Import List Ascii ZArith Bool Arith.
From Verif.Base Require Import Result.
From Verif.Model Require Import MathList.
Import ListNotations.

(** Math lists live in a store and are known by their numbers. The contents of
    a field of an atom: a symbol or a [MathListNode]. *)
Inductive ref : Set := RSym (s : sym) | RList (i : nat).
Inductive hnode : Set :=
| HAtom (ty : Z) (nuc sp sb : option ref)   (* include/tex/math/atom.h *)
| HBoundary (s : sym)
| HFrac (n d : nat)
| HRoot (deg rad : nat)
| HMatrix (cells : list nat) (cols : nat)
| HStyle (s : style).

(** mathparser.h:71-100 *)
Inductive mstate : Set :=
| PMList | PAtom | PNucleus | AwaitSup | PSup | AwaitSub | PSub
| PBoundary | PLeft | PRight
| PSqrt | PSqrtDegree | PSqrtRadicand | PSqrtRadicandM
| POver | PFrac | PFracNumer | PFracNumerM | PFracDenom | PFracDenomM
| PMatrix | PMatrixCell.

(** mathparser.h:25-47 [AtomBuilder]; [limits] is never used *)
Record builder := mkB { b_type : Z; b_nuc : option ref; b_sup : option ref; b_sub : option ref }.
Definition b_empty (ty : Z) : builder := mkB ty None None None.

(** mathparser.h:166-170. The heads of the lists are the backs of the vectors.
    [m_mlist] is list 0. A matrix under construction: its rows, of cells. *)
Record mp := mkMP {
  mp_states : list mstate; mp_lists : list nat; mp_heap : nat -> list hnode; mp_next : nat;
  mp_builders : list builder; mp_matrices : list (list (list nat)) }.

(** mathparser.cpp:102-105 *)
Definition mp_init : mp := mkMP [PMList] [] (fun _ => []) 1 [] [].

Definition with_states (m : mp) s := mkMP s (mp_lists m) (mp_heap m) (mp_next m) (mp_builders m) (mp_matrices m).
Definition with_lists (m : mp) l := mkMP (mp_states m) l (mp_heap m) (mp_next m) (mp_builders m) (mp_matrices m).
Definition with_heap (m : mp) h := mkMP (mp_states m) (mp_lists m) h (mp_next m) (mp_builders m) (mp_matrices m).
Definition with_builders (m : mp) b := mkMP (mp_states m) (mp_lists m) (mp_heap m) (mp_next m) b (mp_matrices m).
Definition with_matrices (m : mp) x := mkMP (mp_states m) (mp_lists m) (mp_heap m) (mp_next m) (mp_builders m) x.

Definition hset (h : nat -> list hnode) (i : nat) (l : list hnode) : nat -> list hnode :=
  fun j => if Nat.eqb j i then l else h j.

(** mathparser.h:182-185 [state]: [m_states.back()] *)
Definition state (m : mp) : result mstate :=
  match mp_states m with s :: _ => Ok s | [] => UB end.
(** mathparser.cpp:369-372 *)
Definition enter (s : mstate) (m : mp) : mp := with_states m (s :: mp_states m).
(** mathparser.cpp:380-383 *)
Definition leaveState (m : mp) : result mp :=
  match mp_states m with _ :: r => Ok (with_states m r) | [] => UB end.
Definition mstate_eq_dec : forall a b : mstate, {a = b} + {a <> b}.
Proof. decide equality. Defined.
Definition st_eqb (a b : mstate) : bool := if mstate_eq_dec a b then true else false.
(** mathparser.cpp:374-378 [leave], with its assertion *)
Definition leave (s : mstate) (m : mp) : result mp :=
  do t <- state m; if st_eqb t s then leaveState m else Abort.

(** mathparser.cpp:107-110 [mlist] *)
Definition cur (m : mp) : nat := match mp_lists m with i :: _ => i | [] => 0 end.
Definition mlist (m : mp) : list hnode := mp_heap m (cur m).
Definition push_node (n : hnode) (m : mp) : mp :=
  with_heap m (hset (mp_heap m) (cur m) (mlist m ++ [n])).
(** [mlist().back()] *)
Definition back_node (m : mp) : result hnode :=
  match rev (mlist m) with n :: _ => Ok n | [] => UB end.

(** a new list *)
Definition alloc (l : list hnode) (m : mp) : nat * mp :=
  (mp_next m, mkMP (mp_states m) (mp_lists m) (hset (mp_heap m) (mp_next m) l)
                   (Datatypes.S (mp_next m)) (mp_builders m) (mp_matrices m)).

(** mathparser.cpp:385-393 *)
Definition pushList (i : nat) (m : mp) : mp := with_lists m (i :: mp_lists m).
Definition popList (m : mp) : result mp :=
  match mp_lists m with _ :: r => Ok (with_lists m r) | [] => UB end.
(** mathparser.cpp:395-400 *)
Definition pushMathList (m : mp) : nat * mp :=
  let (i, m') := alloc [] m in (i, pushList i m').

(** [m_builders.back()] *)
Definition change_builder (f : builder -> builder) (m : mp) : result mp :=
  match mp_builders m with b :: r => Ok (with_builders m (f b :: r)) | [] => UB end.
Definition push_builder (b : builder) (m : mp) : mp := with_builders m (b :: mp_builders m).
(** mathparser.cpp:38-54 *)
Definition setNucleus (x : ref) (b : builder) := mkB (b_type b) (Some x) (b_sup b) (b_sub b).
Definition setSuperscript (x : ref) (b : builder) := mkB (b_type b) (b_nuc b) (Some x) (b_sub b).
Definition setSubscript (x : ref) (b : builder) := mkB (b_type b) (b_nuc b) (b_sup b) (Some x).
(** mathparser.cpp:56-59 *)
Definition build (b : builder) : hnode := HAtom (b_type b) (b_nuc b) (b_sup b) (b_sub b).

(** mathparser.cpp:358-367 *)
Definition commitCurrentAtom (m : mp) : result mp :=
  do s <- state m;
  match s with
  | PAtom =>
      match mp_builders m with
      | [] => UB
      | b :: r =>
          do m <- leave PAtom (with_builders m r);
          Ok (push_node (build b) m)
      end
  | _ => Ok m
  end.
(** [if (state() == State::ParsingAtom) commitCurrentAtom();] is the same *)

(** mathparser.cpp:402-420 *)
Definition isParsingMList (s : mstate) : bool :=
  match s with
  | PMList | PNucleus | PSub | PSup | PSqrtDegree | PBoundary | PSqrtRadicandM | POver
  | PFracDenomM | PFracNumerM => true
  | _ => false
  end.

(** mathparser.cpp:422-428 *)
Definition parse_mlist (s : sym) (m : mp) : result mp :=
  Ok (push_builder (setNucleus (RSym s) (b_empty (s_class s))) (enter PAtom m)).

(** mathparser.cpp:436-448 *)
Definition parse_sub (s : sym) (m : mp) : result mp :=
  do m <- change_builder (setSubscript (RSym s)) m; leaveState m.
Definition parse_sup (s : sym) (m : mp) : result mp :=
  do m <- change_builder (setSuperscript (RSym s)) m; leaveState m.

Definition expect (s : mstate) (m : mp) : result mp :=
  do t <- state m; if st_eqb t s then Ok m else Abort.
(** mathparser.cpp:450-455 *)
Definition parse_left (s : sym) (m : mp) : result mp :=
  do m <- leave PLeft (push_node (HBoundary s) m); expect PBoundary m.
(** mathparser.cpp:457-465 *)
Definition parse_right (s : sym) (m : mp) : result mp :=
  do m <- leave PRight (push_node (HBoundary s) m);
  do m <- leave PBoundary m;
  do m <- leave PNucleus m;
  do m <- popList m;
  expect PAtom m.

Definition lbracket : Z := 91.
Definition rbracket : Z := 93.
(** mathparser.cpp:467-483 *)
Definition parse_sqrt (s : sym) (m : mp) : result mp :=
  if Z.eqb (s_char s) lbracket then
    let m := enter PSqrtDegree m in
    let (d, m) := alloc [] m in
    let (r, m) := alloc [] m in
    Ok (pushList d (push_node (HRoot d r) m))
  else
    do m <- leave PSqrt m;
    Ok (enter PAtom (push_builder (setNucleus (RSym s) (b_empty Rad)) m)).
(** mathparser.cpp:485-497 *)
Definition parse_sqrt_degree (s : sym) (m : mp) : result mp :=
  if Z.eqb (s_char s) rbracket then
    do m <- leave PSqrtDegree m;
    do m <- popList m;
    Ok (enter PSqrtRadicand m)
  else parse_mlist s m.

(** an atom of the symbol appended to list [i] *)
Definition append (i : nat) (s : sym) (m : mp) : mp :=
  with_heap m (hset (mp_heap m) i
    (mp_heap m i ++ [build (setNucleus (RSym s) (b_empty Ord))])).
(** [std::dynamic_pointer_cast] of the last node; a null pointer is dereferenced *)
Definition back_root (m : mp) : result (nat * nat) :=
  do n <- back_node m; match n with HRoot d r => Ok (d, r) | _ => UB end.
Definition back_frac (m : mp) : result (nat * nat) :=
  do n <- back_node m; match n with HFrac n d => Ok (n, d) | _ => UB end.
(** mathparser.cpp:499-509 *)
Definition parse_sqrt_radicand (s : sym) (m : mp) : result mp :=
  do x <- back_root m;
  do m <- leave PSqrtRadicand (append (snd x) s m);
  leave PSqrt m.
(** mathparser.cpp:511-521 *)
Definition parse_frac_numer (s : sym) (m : mp) : result mp :=
  do x <- back_frac m;
  do m <- leave PFracNumer (append (fst x) s m);
  Ok (enter PFracDenom m).
(** mathparser.cpp:523-533 *)
Definition parse_frac_denom (s : sym) (m : mp) : result mp :=
  do x <- back_frac m;
  do m <- leave PFracDenom (append (snd x) s m);
  leave PFrac m.

(** mathparser.cpp:122-168 [writeSymbol] and 430-434 [parse_atom], which calls
    it again after removing a state: at most one call for each state *)
Fixpoint write_symbol (fuel : nat) (s : sym) (m : mp) : result mp :=
  do t <- state m;
  match t with
  | PMList | PNucleus | PSub | PSup | PBoundary | PSqrtRadicandM | POver
  | PFracDenomM | PFracNumerM | PMatrixCell => parse_mlist s m
  | PAtom =>
      match fuel with
      | O => Fuel
      | Datatypes.S n => do m <- commitCurrentAtom m; write_symbol n s m
      end
  | AwaitSub => parse_sub s m
  | AwaitSup => parse_sup s m
  | PLeft => parse_left s m
  | PRight => parse_right s m
  | PSqrt => parse_sqrt s m
  | PSqrtDegree => parse_sqrt_degree s m
  | PSqrtRadicand => parse_sqrt_radicand s m
  | PFracDenom => parse_frac_denom s m
  | PFracNumer => parse_frac_numer s m
  | PMatrix | PFrac => Throw
  end.
Definition writeSymbol (s : sym) (m : mp) : result mp := write_symbol (length (mp_states m)) s m.

(** mathparser.cpp:175-191 and 193-209; [st]: the state to enter *)
Definition begin_script (st : mstate) (m : mp) : result mp :=
  do s <- state m;
  let m := if isParsingMList s then enter PAtom (push_builder (b_empty Ord) m) else m in
  do s <- state m;
  match s with
  | PAtom => Ok (enter st m)
  | _ => Throw
  end.

(** lines 217-220, 269-272: a new atom whose nucleus is the list that follows *)
Definition begin_nucleus (ty : Z) (m : mp) : result mp :=
  let m := enter PNucleus (push_builder (b_empty ty) (enter PAtom m)) in
  let (i, m) := pushMathList m in
  change_builder (setNucleus (RList i)) m.
(** lines 253-264. Line 257 sets the superscript of a subscript group too. *)
Definition begin_field (st : mstate) (m : mp) : result mp :=
  do m <- leaveState m;
  let (i, m) := pushMathList (enter st m) in
  change_builder (setSuperscript (RList i)) m.

(** a new cell in the last row: lines 61-66, 74-77 *)
Definition new_cell (m : mp) : result mp :=
  match mp_matrices m with
  | [] => UB
  | rows :: ms =>
      match rev rows with
      | [] => UB
      | r :: before =>
          let (i, m) := alloc [] m in
          Ok (with_matrices (pushList i m) ((rev before ++ [r ++ [i]]) :: ms))
      end
  end.
(** lines 68-72: a new row with a new cell *)
Definition new_row (m : mp) : result mp :=
  match mp_matrices m with
  | [] => UB
  | rows :: ms =>
      let (i, m) := alloc [] m in
      Ok (with_matrices (pushList i m) ((rows ++ [[i]]) :: ms))
  end.

(** mathparser.cpp:211-274 *)
Definition beginMathList (m : mp) : result mp :=
  do s <- state m;
  match s with
  | PSqrt => do m <- leaveState m; begin_nucleus Rad m
  | PSqrtRadicand => do x <- back_root m; Ok (pushList (snd x) (enter PSqrtRadicandM m))
  | PFracNumer => do x <- back_frac m; Ok (pushList (fst x) (enter PFracNumerM m))
  | PFracDenom => do x <- back_frac m; Ok (pushList (snd x) (enter PFracDenomM m))
  | PMatrix =>
      let m := enter PMatrixCell m in
      let (i, m) := alloc [] m in
      let m := pushList i m in
      Ok (with_matrices m ([[i]] :: mp_matrices m))
  | AwaitSub => begin_field PSub m
  | AwaitSup => begin_field PSup m
  | _ => do m <- commitCurrentAtom m; begin_nucleus Ord m
  end.

(** new lists with the given contents *)
Fixpoint allocs (ls : list (list hnode)) (m : mp) : list nat * mp :=
  match ls with
  | [] => ([], m)
  | l :: r => let (i, m) := alloc l m in let (is, m) := allocs r m in (i :: is, m)
  end.
(** mathparser.cpp:79-100 [MatrixBuilder::build] *)
Definition nb_cols (rows : list (list nat)) : nat := fold_left (fun n r => Nat.max (length r) n) rows 0.
Definition elements (h : nat -> list hnode) (rows : list (list nat)) : list (list hnode) :=
  flat_map (fun r => map h r ++ repeat [] (nb_cols rows - length r)) rows.
Definition build_matrix (rows : list (list nat)) (m : mp) : hnode * mp :=
  let (is, m) := allocs (elements (mp_heap m) rows) m in (HMatrix is (nb_cols rows), m).

(** lines 282-287 *)
Definition end_group (m : mp) : result mp := do m <- popList m; leaveState m.
(** mathparser.cpp:276-337. The call of line 295 finds one of the states of
    lines 282-284. *)
Definition endMathList (m : mp) : result mp :=
  do m <- commitCurrentAtom m;
  do s <- state m;
  match s with
  | PNucleus | PSub | PSup => end_group m
  | POver =>
      do m <- popList m;
      do m <- leaveState m;
      do s <- state m;
      match s with
      | PNucleus | PSub | PSup => end_group m
      | _ => Ok m
      end
  | PFracNumerM =>
      do m <- popList m;
      do m <- leave PFracNumerM m;
      do m <- leave PFracNumer m;
      Ok (enter PFracDenom m)
  | PFracDenomM =>
      do m <- popList m;
      do m <- leave PFracDenomM m;
      do m <- leave PFracDenom m;
      leave PFrac m
  | PSqrtRadicandM =>
      do m <- popList m;
      do m <- leave PSqrtRadicandM m;
      do m <- leave PSqrtRadicand m;
      leave PSqrt m
  | PMatrixCell =>
      do m <- leaveState m;
      do m <- leave PMatrix m;
      do m <- popList m;
      match mp_matrices m with
      | [] => UB
      | rows :: ms =>
          let (n, m) := build_matrix rows m in
          Ok (push_node n (with_matrices m ms))
      end
  | _ => Throw
  end.

(** mathparser.cpp:339-351 *)
Definition finish (m : mp) : result mp :=
  do m <- commitCurrentAtom m;
  do s <- state m;
  do m <- (match s with POver => do m <- popList m; leaveState m | _ => Ok m end);
  do s <- state m;
  match s with PMList => Ok m | _ => Throw end.

(** mathparser.cpp:535-545 *)
Definition left (m : mp) : result mp :=
  do m <- commitCurrentAtom m;
  let (i, m) := pushMathList m in
  let m := push_builder (setNucleus (RList i) (b_empty Inner)) m in
  Ok (enter PLeft (enter PBoundary (enter PNucleus (enter PAtom m)))).
(** mathparser.cpp:547-558 *)
Definition right (m : mp) : result mp :=
  do m <- commitCurrentAtom m;
  do s <- state m;
  match s with PBoundary => Ok (enter PRight m) | _ => Throw end.
(** mathparser.cpp:560-571 *)
Definition over (m : mp) : result mp :=
  do m <- commitCurrentAtom m;
  let (n, m) := alloc (mlist m) m in
  let (d, m) := alloc [] m in
  let m := with_heap m (hset (mp_heap m) (cur m) [HFrac n d]) in
  Ok (pushList d (enter POver m)).
(** mathparser.cpp:573-582 *)
Definition frac (m : mp) : result mp :=
  do m <- commitCurrentAtom m;
  let (n, m) := alloc [] m in
  let (d, m) := alloc [] m in
  Ok (enter PFracNumer (enter PFrac (push_node (HFrac n d) m))).
(** mathparser.cpp:584-590 *)
Definition sqrt (m : mp) : result mp :=
  do m <- commitCurrentAtom m; Ok (enter PSqrt m).
(** mathparser.cpp:592-598 *)
Definition matrix (m : mp) : result mp :=
  do m <- commitCurrentAtom m; Ok (enter PMatrix m).
(** mathparser.cpp:600-609 and 611-620 *)
Definition in_cell (f : mp -> result mp) (m : mp) : result mp :=
  do m <- commitCurrentAtom m;
  do s <- state m;
  match s with
  | PMatrixCell => do m <- popList m; f m
  | _ => Throw
  end.
Definition alignmentTab : mp -> result mp := in_cell new_cell.
Definition cr : mp -> result mp := in_cell new_row.
(** mathparser.cpp:622-644 *)
Definition style_change (s : style) (m : mp) : result mp :=
  do m <- commitCurrentAtom m; Ok (push_node (HStyle s) m).

(** The calls of the public functions (mathparser.h:102-128); [writeBox] always
    throws *)
Inductive call : Set :=
| CSym (s : sym) | CBox | CSup | CSub | CBegin | CEnd | CLeft | CRight | COver | CFrac | CSqrt
| CMatrix | CTab | CCr | CTextstyle | CScriptstyle | CScriptscriptstyle | CFinish.

Definition do_call (m : mp) (c : call) : result mp :=
  match c with
  | CSym s => writeSymbol s m
  | CBox => Throw
  | CSup => begin_script AwaitSup m
  | CSub => begin_script AwaitSub m
  | CBegin => beginMathList m
  | CEnd => endMathList m
  | CLeft => left m
  | CRight => right m
  | COver => over m
  | CFrac => frac m
  | CSqrt => sqrt m
  | CMatrix => matrix m
  | CTab => alignmentTab m
  | CCr => cr m
  | CTextstyle => style_change T m
  | CScriptstyle => style_change S m
  | CScriptscriptstyle => style_change SS m
  | CFinish => finish m
  end.
Definition calls (l : list call) (m : mp) : result mp := foldM do_call l m.

(** include/tex/math/matrix.h:36-54 [Matrix::rows], [Matrix::at] *)
Definition mat_rows {A} (elems : list A) (cols : nat) : nat := length elems / cols.
Definition mat_at {A} (elems : list A) (cols r c : nat) : result A :=
  match nth_error elems (c + r * cols) with Some x => Ok x | None => Throw end.

(** src/parsing/mathparserfrontend.cpp:286-299: [fam] is -1 or a family *)
Definition writeMathChar (fam c code : Z) : sym :=
  if Z.eqb (mc_class code) 7 then mkSym c 0 (if Z.eqb fam (-1) then mc_family code else fam)
  else mkSym c (mc_class code) (mc_family code).
