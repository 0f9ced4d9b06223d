(** Model of the font dimensions (tfm/src/tfm.cpp, include/tex/fontdimen.h) and
    of the parts of apps/common/qt-typeset-engine.cpp that compute with them. *)
From Coq Require Import List QArith ZArith Bool.
From Verif.Base Require Import Result Num.
From Verif.Model Require Import Box.
Import ListNotations.
Local Open Scope Q_scope.

(** fontdimen.h:13-43 *)
Inductive fd : Set :=
  | slant_per_pt | interword_space | interword_stretch | interword_shrink | x_height | quad
  | extra_space | num1 | num2 | num3 | denom1 | denom2 | sup1 | sup2 | sup3 | sub1 | sub2
  | sup_drop | sub_drop | delim1 | delim2 | axis_height | default_rule_thickness | big_op_spacing1
  | big_op_spacing2 | big_op_spacing3 | big_op_spacing4 | big_op_spacing5.

Definition fd_eq_dec (a b : fd) : {a = b} + {a <> b}.
Proof. decide equality. Defined.

(** names of the functions of tfm.h:21-45 *)
Inductive fontname : Set := cmr10 | cmr7 | cmr5 | cmmi10 | cmmi7 | cmmi5 | cmsy10 | cmsy7 | cmsy5 | cmex10.

Section Tfm.
  Context {N : Num}.

  (** tfm.h:13-17; a [FontDimen] maps its fields to their values *)
  Definition fontdimen : Type := fd -> N.
  Record tfm := mkTfm { design_size : N; t_dimen : fontdimen }.

  Definition set (d : fontdimen) (k : fd) (x : N) : fontdimen :=
    fun k' => if fd_eq_dec k k' then x else d k'.
  Definition assigned (d : fontdimen) (l : list (fd * Q)) : fontdimen :=
    fold_left (fun d p => set d (fst p) (nlit (snd p))) l d.

  (** tfm.cpp:13-45; the fields of [any] are those of an uninitialised object *)
  Definition zerofontdimen (any : fontdimen) : fontdimen := assigned any
    [(slant_per_pt, 0); (interword_space, 0); (interword_stretch, 0); (interword_shrink, 0);
     (x_height, 0); (quad, 0); (extra_space, 0); (num1, 0); (num2, 0); (num3, 0); (denom1, 0);
     (denom2, 0); (sup1, 0); (sup2, 0); (sup3, 0); (sub1, 0); (sub2, 0); (sup_drop, 0);
     (sub_drop, 0); (delim1, 0); (delim2, 0); (axis_height, 0); (default_rule_thickness, 0);
     (big_op_spacing1, 0); (big_op_spacing2, 0); (big_op_spacing3, 0); (big_op_spacing4, 0);
     (big_op_spacing5, 0)].

  (** tfm.cpp:47-66 *)
  Definition cmr10_tfm (any : fontdimen) : tfm := mkTfm (nlit 10) (assigned (zerofontdimen any)
    [(slant_per_pt, 0); (interword_space, 333334 # 1000000); (interword_stretch, 166667 # 1000000);
     (interword_shrink, 111112 # 1000000); (x_height, 430555 # 1000000); (quad, 1000003 # 1000000);
     (extra_space, 111112 # 1000000)]).

  (** tfm.cpp:68-87 *)
  Definition cmr7_tfm (any : fontdimen) : tfm := mkTfm (nlit 7) (assigned (zerofontdimen any)
    [(slant_per_pt, 0); (interword_space, 384923 # 1000000); (interword_stretch, 184525 # 1000000);
     (interword_shrink, 123016 # 1000000); (x_height, 430555 # 1000000); (quad, 1138894 # 1000000);
     (extra_space, 123016 # 1000000)]).

  (** tfm.cpp:89-108 *)
  Definition cmr5_tfm (any : fontdimen) : tfm := mkTfm (nlit 5) (assigned (zerofontdimen any)
    [(slant_per_pt, 0); (interword_space, 472229 # 1000000); (interword_stretch, 208338 # 1000000);
     (interword_shrink, 138891 # 1000000); (x_height, 430554 # 1000000); (quad, 1361133 # 1000000);
     (extra_space, 138891 # 1000000)]).

  (** tfm.cpp:110-128 *)
  Definition cmmi10_tfm (any : fontdimen) : tfm := mkTfm (nlit 10) (assigned (zerofontdimen any)
    [(slant_per_pt, 25 # 100); (interword_space, 0); (interword_stretch, 0); (interword_shrink, 0);
     (x_height, 430555 # 1000000); (quad, 1000003 # 1000000)]).

  (** tfm.cpp:130-148 *)
  Definition cmmi7_tfm (any : fontdimen) : tfm := mkTfm (nlit 7) (assigned (zerofontdimen any)
    [(slant_per_pt, 25 # 100); (interword_space, 0); (interword_stretch, 0); (interword_shrink, 0);
     (x_height, 430555 # 1000000); (quad, 1170641 # 1000000)]).

  (** tfm.cpp:150-168 *)
  Definition cmmi5_tfm (any : fontdimen) : tfm := mkTfm (nlit 5) (assigned (zerofontdimen any)
    [(slant_per_pt, 25 # 100); (interword_space, 0); (interword_stretch, 0); (interword_shrink, 0);
     (x_height, 430554 # 1000000); (quad, 1472241 # 1000000)]).

  (** tfm.cpp:170-204 *)
  Definition cmsy10_tfm (any : fontdimen) : tfm := mkTfm (nlit 10) (assigned (zerofontdimen any)
    [(slant_per_pt, 25 # 100); (interword_space, 0); (interword_stretch, 0); (interword_shrink, 0);
     (x_height, 430555 # 1000000); (quad, 1000003 # 1000000); (extra_space, 0);
     (num1, 676508 # 1000000); (num2, 393732 # 1000000); (num3, 443731 # 1000000);
     (denom1, 685951 # 1000000); (denom2, 344841 # 1000000); (sup1, 412892 # 1000000);
     (sup2, 362892 # 1000000); (sup3, 288889 # 1000000); (sub1, 15 # 100);
     (sub2, 247217 # 1000000); (sup_drop, 386108 # 1000000); (sub_drop, 5 # 100);
     (delim1, 2389999 # 1000000); (delim2, 101 # 100); (axis_height, 25 # 100)]).

  (** tfm.cpp:206-240 *)
  Definition cmsy7_tfm (any : fontdimen) : tfm := mkTfm (nlit 7) (assigned (zerofontdimen any)
    [(slant_per_pt, 25 # 100); (interword_space, 0); (interword_stretch, 0); (interword_shrink, 0);
     (x_height, 430555 # 1000000); (quad, 1170641 # 1000000); (extra_space, 0);
     (num1, 732313 # 1000000); (num2, 383903 # 1000000); (num3, 471205 # 1000000);
     (denom1, 75215 # 100000); (denom2, 344214 # 1000000); (sup1, 502543 # 1000000);
     (sup2, 431115 # 1000000); (sup3, 285714 # 1000000); (sub1, 142858 # 1000000);
     (sub2, 285714 # 1000000); (sup_drop, 353171 # 1000000); (sub_drop, 71428 # 1000000);
     (delim1, 1699999 # 1000000); (delim2, 1157144 # 1000000); (axis_height, 25 # 100)]).

  (** tfm.cpp:242-276 *)
  Definition cmsy5_tfm (any : fontdimen) : tfm := mkTfm (nlit 7) (assigned (zerofontdimen any)
    [(slant_per_pt, 25 # 100); (interword_space, 0); (interword_stretch, 0); (interword_shrink, 0);
     (x_height, 430554 # 1000000); (quad, 1472241 # 1000000); (extra_space, 0);
     (num1, 925241 # 1000000); (num2, 387464 # 1000000); (num3, 504132 # 1000000);
     (denom1, 1025241 # 1000000); (denom2, 531909 # 1000000); (sup1, 503555 # 1000000);
     (sup2, 403555 # 1000000); (sup3, 294446 # 1000000); (sub1, 2 # 10); (sub2, 4 # 10);
     (sup_drop, 494446 # 1000000); (sub_drop, 1 # 10); (delim1, 1979999 # 1000000);
     (delim2, 1420001 # 1000000); (axis_height, 25 # 100)]).

  (** tfm.cpp:278-304 *)
  Definition cmex10_tfm (any : fontdimen) : tfm := mkTfm (nlit 10) (assigned (zerofontdimen any)
    [(slant_per_pt, 0); (interword_space, 0); (interword_stretch, 0); (interword_shrink, 0);
     (x_height, 430555 # 1000000); (quad, 1000003 # 1000000); (extra_space, 0);
     (default_rule_thickness, 39999 # 1000000); (big_op_spacing1, 111112 # 1000000);
     (big_op_spacing2, 166667 # 1000000); (big_op_spacing3, 2 # 10); (big_op_spacing4, 6 # 10);
     (big_op_spacing5, 1 # 10)]).

  Definition font_tfm (n : fontname) : fontdimen -> tfm :=
    match n with
    | cmr10 => cmr10_tfm | cmr7 => cmr7_tfm | cmr5 => cmr5_tfm | cmmi10 => cmmi10_tfm
    | cmmi7 => cmmi7_tfm | cmmi5 => cmmi5_tfm | cmsy10 => cmsy10_tfm | cmsy7 => cmsy7_tfm
    | cmsy5 => cmsy5_tfm | cmex10 => cmex10_tfm
    end.

  (** tfm.cpp:306-341: the fields, in the order of the statements *)
  Definition to_absolute (t : tfm) : tfm :=
    let s := design_size t in
    mkTfm s (fold_left (fun d k => set d k (nmul (d k) s))
      [slant_per_pt; interword_space; interword_stretch; interword_shrink; x_height; quad;
       extra_space; num1; num2; num3; denom1; denom2; sup1; sup2; sup3; sub1; sub2; sup_drop;
       sub_drop; delim1; delim2; axis_height; default_rule_thickness; big_op_spacing1;
       big_op_spacing2; big_op_spacing3; big_op_spacing4; big_op_spacing5] (t_dimen t)).

  (** tfm.cpp:343-378 *)
  Definition to_relative (t : tfm) : tfm :=
    let s := design_size t in
    mkTfm s (fold_left (fun d k => set d k (ndiv (d k) s))
      [slant_per_pt; interword_space; interword_stretch; interword_shrink; x_height; quad;
       extra_space; num1; num2; num3; denom1; denom2; sup1; sup2; sup3; sub1; sub2; sup_drop;
       sub_drop; delim1; delim2; axis_height; default_rule_thickness; big_op_spacing1;
       big_op_spacing2; big_op_spacing3; big_op_spacing4; big_op_spacing5] (t_dimen t)).

  (** * The engine of the applications *)

  (** qt-typeset-engine.cpp:218-234 [typesetRadicalSign] and :236-252
      [typesetDelimiter] (the same code): the metrics of the sign, stretched if
      too small. The metrics of the character come from Qt and are arbitrary. *)
  Definition stretched (m : metrics N) (minTotalHeight : N) : metrics N :=
    let ratio := ndiv minTotalHeight (nadd (m_height m) (m_depth m)) in
    if nltb n1 ratio then mkMetrics (nmul (m_height m) ratio) (nmul (m_depth m) ratio) (m_width m)
    else m.

  (** qt-typeset-engine.cpp:266-289: the fonts, here their sizes in points (before
      [setPointSize] makes them integers) and dimensions; [line_height] is
      [QFontMetricsF::height] of a font of this size, from Qt *)
  Record efont := mkEFont { e_size : N; e_dimen : fontdimen }.
  Definition initFont (line_height : N -> N) (mag : N) (fonts : list efont) (size : Z) (t : tfm) : list efont :=
    let points := nmul (nz size) mag in
    fonts ++ [mkEFont points (t_dimen (to_absolute (mkTfm (line_height points) (t_dimen t))))].

  (** qt-typeset-engine.cpp:117-143 [reset]; [any] as for [zerofontdimen] *)
  Definition reset_fonts : list (Z * fontname) :=
    [(10%Z, cmr10); (7%Z, cmr7); (5%Z, cmr5); (10%Z, cmmi10); (7%Z, cmmi7); (5%Z, cmmi5);
     (10%Z, cmsy10); (7%Z, cmsy7); (5%Z, cmsy5); (10%Z, cmex10); (7%Z, cmex10); (5%Z, cmex10)].
  Definition reset (line_height : N -> N) (any : fontdimen) (fonts : list efont) (mag : N) : list efont :=
    fold_left (fun fs p => initFont line_height mag fs (fst p) (font_tfm (snd p) any)) reset_fonts fonts.

  (** qt-typeset-engine.cpp:177-189 [mathfonts]: ids of the text, script and
      scriptscript font of a family *)
  Definition mathfont (fam : nat) : nat * nat * nat := (3 * fam, 3 * fam + 1, 3 * fam + 2)%nat.
End Tfm.

Arguments tfm N : clear implicits.
Arguments fontdimen N : clear implicits.
Arguments efont N : clear implicits.

(** qt-typeset-engine.cpp:65-81 [sfcode] *)
Definition sfcode (frenchspacing : bool) (c : Z) : Z :=
  if frenchspacing then 1000
  else if ((c =? 46) || (c =? 63) || (c =? 33))%Z then 3000
  else if (c =? 58)%Z then 2000
  else if (c =? 59)%Z then 1500
  else if (c =? 44)%Z then 1250
  else 1000.

(** include/tex/fontmetrics.h:125-149 [sigma], [xi] with the accessors of
    src/fontmetrics.cpp:15-322; no other index compiles *)
Definition sigma (i : nat) : option fd :=
  match i with
  | 5%nat => Some x_height | 6%nat => Some quad | 8%nat => Some num1 | 9%nat => Some num2 | 10%nat => Some num3
  | 11%nat => Some denom1 | 12%nat => Some denom2 | 13%nat => Some sup1 | 14%nat => Some sup2 | 15%nat => Some sup3
  | 16%nat => Some sub1 | 17%nat => Some sub2 | 18%nat => Some sup_drop | 19%nat => Some sub_drop
  | 20%nat => Some delim1 | 21%nat => Some delim2 | 22%nat => Some axis_height
  | _ => None
  end.
Definition xi (i : nat) : option fd :=
  match i with
  | 8%nat => Some default_rule_thickness | 9%nat => Some big_op_spacing1 | 10%nat => Some big_op_spacing2
  | 11%nat => Some big_op_spacing3 | 12%nat => Some big_op_spacing4 | 13%nat => Some big_op_spacing5
  | _ => None
  end.
