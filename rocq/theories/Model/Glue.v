(** Model of include/tex/glue.h and src/glue.cpp. *)
From Coq Require Import ZArith Bool.
From Verif.Base Require Import Num.

(** include/tex/glue.h:15-21 [enum class GlueOrder] *)
Inductive gorder : Set := Normal | Fil | Fill | Filll.

Definition gorder_eqb (a b : gorder) : bool :=
  match a, b with
  | Normal, Normal | Fil, Fil | Fill, Fill | Filll, Filll => true
  | _, _ => false
  end.

Section Glue.
  Context {N : Num}.

  (** include/tex/glue.h:30-37 [GlueSpec]; [Glue] (94-124) is a spec and an
      origin, which only the math typesetter reads *)
  Record glue := mkGlue {
    g_space : N; g_shrink : N; g_stretch : N;
    g_shrinkOrder : gorder; g_stretchOrder : gorder }.

  (** include/tex/glue.h:39-49 [GlueShrinkStretch] *)
  Record totals := mkTotals { t_normal : N; t_fil : N; t_fill : N; t_filll : N }.

  (** glue.h:41 default arguments *)
  Definition no_totals : totals := mkTotals n0 n0 n0 n0.

  (** C++ [x != 0.f] *)
  Definition nonzero (x : N) : bool := negb (neqb x n0).

  (** src/glue.cpp:19-28 [GlueShrinkStretch::order] *)
  Definition totals_order (t : totals) : gorder :=
    if nonzero (t_fill t) then Filll
    else if nonzero (t_fill t) then Fill
    else if nonzero (t_fil t) then Fil
    else Normal.

  (** src/glue.cpp:30-38 [operator+] *)
  Definition totals_add (a b : totals) : totals :=
    mkTotals (nadd (t_normal a) (t_normal b)) (nadd (t_fil a) (t_fil b))
             (nadd (t_fill a) (t_fill b)) (nadd (t_filll a) (t_filll b)).

  (** src/glue.cpp:40-48 [operator-] *)
  Definition totals_sub (a b : totals) : totals :=
    mkTotals (nsub (t_normal a) (t_normal b)) (nsub (t_fil a) (t_fil b))
             (nsub (t_fill a) (t_fill b)) (nsub (t_filll a) (t_filll b)).

  (** The [switch] of [Glue::accumulate], once per direction *)
  Definition add_order (o : gorder) (x : N) (t : totals) : totals :=
    match o with
    | Normal => mkTotals (nadd (t_normal t) x) (t_fil t) (t_fill t) (t_filll t)
    | Fil => mkTotals (t_normal t) (nadd (t_fil t) x) (t_fill t) (t_filll t)
    | Fill => mkTotals (t_normal t) (t_fil t) (nadd (t_fill t) x) (t_filll t)
    | Filll => mkTotals (t_normal t) (t_fil t) (t_fill t) (nadd (t_filll t) x)
    end.

  (** src/glue.cpp:69-98 [Glue::accumulate] *)
  Definition accumulate (g : glue) (shrink stretch : totals) : totals * totals :=
    (add_order (g_shrinkOrder g) (g_shrink g) shrink,
     add_order (g_stretchOrder g) (g_stretch g) stretch).

  (** src/glue.cpp:100-128: the [glue] factory functions *)
  Definition glue_space (s : N) : glue := mkGlue s n0 n0 Normal Normal.
  Definition glue_shrink (s sh : N) (o : gorder) : glue := mkGlue s sh n0 o Normal.
  Definition glue_stretch (s st : N) (o : gorder) : glue := mkGlue s n0 st Normal o.
  Definition glue_make (s sh : N) (osh : gorder) (st : N) (ost : gorder) : glue :=
    mkGlue s sh st osh ost.
End Glue.
Arguments glue N : clear implicits.
Arguments totals N : clear implicits.
