(** Model of include/tex/layoutreader.h. A reader is a function on its own state;
    the full reader returns nothing, the partial reader says whether to stop. *)
From Coq Require Import List ZArith Bool.
From Verif.Base Require Import Num.
From Verif.Model Require Import Glue Box.
Import ListNotations.

Section Layout.
  Context {N : Num}.

  (** include/tex/layoutreader.h:20-24 [Pos] *)
  Definition pos : Type := (N * N)%type.

  (** layoutreader.h:82-95, 146-159 (and 211-224, 282-295): the advance over glue *)
  Definition glue_advance (ratio : N) (ord : gorder) (x : N) (g : glue N) : N :=
    let x := nadd x (g_space g) in
    if nltb ratio n0 then
      if gorder_eqb ord (g_shrinkOrder g) then nadd x (nmul ratio (g_shrink g)) else x
    else
      if gorder_eqb ord (g_stretchOrder g) then nadd x (nmul ratio (g_stretch g)) else x.

  Section Full.
    Context {S : Type}.
    Variable reader : S -> node N -> pos -> S.

    (** include/tex/layoutreader.h:40-98 [read_hbox_full] and 100-162
        [read_vbox_full], for a list box; a box without a list is passed to the
        reader (lines 51-54, 69-72, 115-118, 133-136, and 310-333) *)
    Fixpoint read_full (s : S) (n : node N) (p : pos) {struct n} : S :=
      match n with
      | NList Horizontal m shift ratio ord l =>
          (fix loop (l : list (node N)) (s : S) (x : N) {struct l} : S :=
             match l with
             | [] => s
             | c :: r =>
                 match c with
                 | NList _ cm cshift _ _ _ =>
                     loop r (read_full s c (x, nadd (snd p) cshift)) (nadd x (m_width cm))
                 | NChar _ cm | NBox cm | NRule cm =>
                     loop r (read_full s c (x, snd p)) (nadd x (m_width cm))
                 | NKern k => loop r s (nadd x k)
                 | NGlue g => loop r s (glue_advance ratio ord x g)
                 | NPenalty _ | NOther => loop r s x
                 end
             end) l (reader s n p) (fst p)
      | NList Vertical m shift ratio ord l =>
          (fix loop (l : list (node N)) (s : S) (y : N) {struct l} : S :=
             match l with
             | [] => s
             | c :: r =>
                 match c with
                 | NList _ cm cshift _ _ _ =>
                     let y := nadd y (m_height cm) in
                     loop r (read_full s c (nadd (fst p) cshift, y)) (nadd y (m_depth cm))
                 | NChar _ cm | NBox cm | NRule cm =>
                     let y := nadd y (m_height cm) in
                     loop r (read_full s c (fst p, y)) (nadd y (m_depth cm))
                 | NKern k => loop r s (nadd y k)
                 | NGlue g => loop r s (glue_advance ratio ord y g)
                 | NPenalty _ | NOther => loop r s y
                 end
             end) l (reader s n p) (nsub (snd p) (m_height m))
      | NChar _ _ | NBox _ | NRule _ => reader s n p
      | _ => s
      end.
  End Full.

  Section Partial.
    Context {S : Type}.
    Variable reader : S -> node N -> pos -> S * bool.

    (** include/tex/layoutreader.h:164-229 [read_hbox_partial] and 231-300
        [read_vbox_partial]; [true] is [Done] *)
    Fixpoint read_partial (s : S) (n : node N) (p : pos) {struct n} : S * bool :=
      match n with
      | NList Horizontal m shift ratio ord l =>
          match reader s n p with
          | (s, true) => (s, true)
          | (s, false) =>
              (fix loop (l : list (node N)) (s : S) (x : N) {struct l} : S * bool :=
                 match l with
                 | [] => (s, false)
                 | c :: r =>
                     match c with
                     | NList _ cm cshift _ _ _ =>
                         match read_partial s c (x, nadd (snd p) cshift) with
                         | (s, true) => (s, true)
                         | (s, false) => loop r s (nadd x (m_width cm))
                         end
                     | NChar _ cm | NBox cm | NRule cm =>
                         match read_partial s c (x, snd p) with
                         | (s, true) => (s, true)
                         | (s, false) => loop r s (nadd x (m_width cm))
                         end
                     | NKern k => loop r s (nadd x k)
                     | NGlue g => loop r s (glue_advance ratio ord x g)
                     | NPenalty _ | NOther => loop r s x
                     end
                 end) l s (fst p)
          end
      | NList Vertical m shift ratio ord l =>
          match reader s n p with
          | (s, true) => (s, true)
          | (s, false) =>
              (fix loop (l : list (node N)) (s : S) (y : N) {struct l} : S * bool :=
                 match l with
                 | [] => (s, false)
                 | c :: r =>
                     match c with
                     | NList _ cm cshift _ _ _ =>
                         let y := nadd y (m_height cm) in
                         match read_partial s c (nadd (fst p) cshift, y) with
                         | (s, true) => (s, true)
                         | (s, false) => loop r s (nadd y (m_depth cm))
                         end
                     | NChar _ cm | NBox cm | NRule cm =>
                         let y := nadd y (m_height cm) in
                         match read_partial s c (fst p, y) with
                         | (s, true) => (s, true)
                         | (s, false) => loop r s (nadd y (m_depth cm))
                         end
                     | NKern k => loop r s (nadd y k)
                     | NGlue g => loop r s (glue_advance ratio ord y g)
                     | NPenalty _ | NOther => loop r s y
                     end
                 end) l s (nsub (snd p) (m_height m))
          end
      | NChar _ _ | NBox _ | NRule _ => reader s n p
      | _ => (s, false)
      end.
  End Partial.

  (** A full reader that records what it is given. *)
  Definition recorder (s : list (node N * pos)) (n : node N) (p : pos) := s ++ [(n, p)].
  Definition layout (n : node N) (p : pos) : list (node N * pos) := read_full recorder [] n p.
End Layout.
Arguments pos N : clear implicits.
