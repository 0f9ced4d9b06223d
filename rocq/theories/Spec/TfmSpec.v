(** Fonts as in TeX. *)
From Coq Require Import List QArith ZArith.
From Verif.Base Require Import Num.
From Verif.Model Require Import Box Tfm.
Import ListNotations.

(** the number at the end of the name of a font *)
Definition named_size (n : fontname) : Q :=
  match n with
  | cmr10 | cmmi10 | cmsy10 | cmex10 => 10
  | cmr7 | cmmi7 | cmsy7 => 7
  | cmr5 | cmmi5 | cmsy5 => 5
  end.

(** The TeXbook, appendix F: fontdimen 1, 2, ... of a symbols font (family 2)
    and of an extension font (family 3). *)
Definition symbol_params : list fd :=
  [slant_per_pt; interword_space; interword_stretch; interword_shrink; x_height; quad; extra_space;
   num1; num2; num3; denom1; denom2; sup1; sup2; sup3; sub1; sub2; sup_drop; sub_drop; delim1; delim2; axis_height].
Definition extension_params : list fd :=
  [slant_per_pt; interword_space; interword_stretch; interword_shrink; x_height; quad; extra_space;
   default_rule_thickness; big_op_spacing1; big_op_spacing2; big_op_spacing3; big_op_spacing4; big_op_spacing5].

(** all parameters are lengths, save the first *)
Definition is_length (k : fd) : Prop := k <> slant_per_pt.

(** Space factor codes: IniTeX gives 999 to the capital letters and 1000 to the
    others; plain TeX with \nonfrenchspacing changes eight of them and with
    \frenchspacing three. *)
Definition plain_sfcode (french : bool) (c : Z) : Z :=
  if existsb (Z.eqb c) [41; 39; 93]%Z then 0                                 (* ) ' ] *)
  else if (65 <=? c)%Z && (c <=? 90)%Z then 999
  else if french then 1000
  else match c with
       | 46 | 63 | 33 => 3000                                               (* . ? ! *)
       | 58 => 2000 | 59 => 1500 | 44 => 1250                               (* : ; , *)
       | _ => 1000
       end%Z.

(** The parameters of the Computer Modern fonts in millionths of the design
    size, as tftopl prints them: those that the three sizes of a design have in
    common with others, then those of the symbols and of the extension font.
    All others are zero. *)
Inductive design : Set := roman | italic | symbols | extension.
Inductive at_size : Set := at10 | at7 | at5.
Definition design_of (n : fontname) : design * at_size :=
  match n with
  | cmr10 => (roman, at10) | cmr7 => (roman, at7) | cmr5 => (roman, at5)
  | cmmi10 => (italic, at10) | cmmi7 => (italic, at7) | cmmi5 => (italic, at5)
  | cmsy10 => (symbols, at10) | cmsy7 => (symbols, at7) | cmsy5 => (symbols, at5)
  | cmex10 => (extension, at10)
  end.
Definition column (s : at_size) (a b c : Z) : Z := match s with at10 => a | at7 => b | at5 => c end.
Definition computer_modern (n : fontname) (k : fd) : Z :=
  let (d, s) := design_of n in
  match k, d with
  | slant_per_pt, italic | slant_per_pt, symbols => 250000
  | x_height, _ => column s 430555 430555 430554
  | quad, roman => column s 1000003 1138894 1361133
  | quad, _ => column s 1000003 1170641 1472241
  | interword_space, roman => column s 333334 384923 472229
  | interword_stretch, roman => column s 166667 184525 208338
  | interword_shrink, roman | extra_space, roman => column s 111112 123016 138891
  | num1, symbols => column s 676508 732313 925241
  | num2, symbols => column s 393732 383903 387464
  | num3, symbols => column s 443731 471205 504132
  | denom1, symbols => column s 685951 752150 1025241
  | denom2, symbols => column s 344841 344214 531909
  | sup1, symbols => column s 412892 502543 503555
  | sup2, symbols => column s 362892 431115 403555
  | sup3, symbols => column s 288889 285714 294446
  | sub1, symbols => column s 150000 142858 200000
  | sub2, symbols => column s 247217 285714 400000
  | sup_drop, symbols => column s 386108 353171 494446
  | sub_drop, symbols => column s 50000 71428 100000
  | delim1, symbols => column s 2389999 1699999 1979999
  | delim2, symbols => column s 1010000 1157144 1420001
  | axis_height, symbols => 250000
  | default_rule_thickness, extension => 39999
  | big_op_spacing1, extension => 111112
  | big_op_spacing2, extension => 166667
  | big_op_spacing3, extension => 200000
  | big_op_spacing4, extension => 600000
  | big_op_spacing5, extension => 100000
  | _, _ => 0
  end%Z.

(** Plain TeX: the fonts of the first four families; the extension font has one size *)
Definition family_font (fam : nat) (s : at_size) : option fontname :=
  match fam with
  | 0 => Some (match s with at10 => cmr10 | at7 => cmr7 | at5 => cmr5 end)
  | 1 => Some (match s with at10 => cmmi10 | at7 => cmmi7 | at5 => cmmi5 end)
  | 2 => Some (match s with at10 => cmsy10 | at7 => cmsy7 | at5 => cmsy5 end)
  | 3 => Some cmex10
  | _ => None
  end%nat.
Definition font_of {A} (s : at_size) (t : A * A * A) : A :=
  match s with at10 => fst (fst t) | at7 => snd (fst t) | at5 => snd t end.
Definition points (s : at_size) : Z := match s with at10 => 10 | at7 => 7 | at5 => 5 end.
