(** Model of math styles (src/math/style.cpp), math codes (include/tex/mathcode.h,
    src/mathcode.cpp) and math nodes (include/tex/math/). *)
From Coq Require Import List Ascii ZArith Bool.
From Verif.Base Require Import Result.
Import ListNotations.
Local Open Scope Z_scope.

(** * Styles *)
(** include/tex/math/style.h:16-55; the private constructor is used for the
    eight constants only (style.cpp:21-28), so a style is one of them *)
Inductive style : Set := D | Dc | T | Tc | S | Sc | SS | SSc.

(** style.cpp:49-58 [style_table]; the position is the id *)
Definition style_table : list style := [D; Dc; T; Tc; S; Sc; SS; SSc].
Definition style_id (s : style) : nat :=
  match s with D => 0 | Dc => 1 | T => 2 | Tc => 3 | S => 4 | Sc => 5 | SS => 6 | SSc => 7 end.
Definition isCramped (s : style) : bool :=
  match s with Dc | Tc | Sc | SSc => true | _ => false end.

(** style.cpp:42-47 *)
Definition sup_table : list style := [S; Sc; S; Sc; SS; SSc; SS; SSc].
Definition sub_table : list style := [Sc; Sc; Sc; Sc; SSc; SSc; SSc; SSc].
Definition fracNum_table : list style := [T; Tc; S; Sc; SS; SSc; SS; SSc].
Definition fracDen_table : list style := [Tc; Tc; Sc; Sc; SSc; SSc; SSc; SSc].
Definition cramp_table : list style := [Dc; Dc; Tc; Tc; Sc; Sc; SSc; SSc].
Definition text_table : list style := [D; Dc; T; Tc; T; Tc; T; Tc].

(** style.cpp:70-99 *)
Definition look (t : list style) (s : style) : style := nth (style_id s) t D.
Definition sup (s : style) : style := look sup_table s.
Definition sub (s : style) : style := look sub_table s.
Definition fracNum (s : style) : style := look fracNum_table s.
Definition fracDen (s : style) : style := look fracDen_table s.
Definition cramp (s : style) : style := look cramp_table s.
Definition text (s : style) : style := look text_table s.
(** style.cpp:101-104 [fromId]: undefined outside the table *)
Definition fromId (z : Z) : result style :=
  if z <? 0 then UB else match nth_error style_table (Z.to_nat z) with Some s => Ok s | None => UB end.

(** style.h:57-63 *)
Definition style_eqb (a b : style) : bool := Nat.eqb (style_id a) (style_id b).
Definition style_leb (a b : style) : bool := Nat.leb (style_id b) (style_id a).
Definition style_ltb (a b : style) : bool := Nat.ltb (style_id b) (style_id a).
Definition style_gtb (a b : style) : bool := style_ltb b a.
Definition style_geb (a b : style) : bool := style_leb b a.

(** * Math codes *)
(** include/tex/mathcode.h:37-56; [int] division truncates *)
Definition mc_class (m : Z) : Z := Z.quot m 4096.
Definition mc_family (m : Z) : Z := Z.quot (Z.rem m 4096) 256.
Definition mc_position (m : Z) : Z := Z.rem m 256.

(** src/mathcode.cpp:10-267 [DefaultTable]: the entries 33-127; the others are 0 *)
Definition mc_33 : list Z :=
  [0x5021; 34; 35; 36; 37; 38; 0x8000; 0x4028; 0x5029; 0x2203; 0x202B; 0x613B; 0x2200; 0x013A;
   0x013D; 0x7030; 0x7031; 0x7032; 0x7033; 0x7034; 0x7035; 0x7036; 0x7037; 0x7038; 0x7039; 0x303A; 0x603B; 0x313C;
   0x303D; 0x313E; 0x503F; 64; 0x7141; 0x7142; 0x7143; 0x7144; 0x7145; 0x7146; 0x7147; 0x7148; 0x7149; 0x714A;
   0x714B; 0x714C; 0x714D; 0x714E; 0x714F; 0x7150; 0x7151; 0x7152; 0x7153; 0x7154; 0x7155; 0x7156; 0x7157; 0x7158;
   0x7159; 0x715A; 0x405B; 0x026E; 0x505D; 94; 0x8000; 96; 0x7161; 0x7162; 0x7163; 0x7164; 0x7165; 0x7166;
   0x7167; 0x7168; 0x7169; 0x716A; 0x716B; 0x716C; 0x716D; 0x716E; 0x716F; 0x7170; 0x7171; 0x7172; 0x7173; 0x7174;
   0x7175; 0x7176; 0x7177; 0x7178; 0x7179; 0x717A; 123; 0x026A; 125; 126; 127].
Definition mathcode (c : ascii) : Z :=
  let n := nat_of_ascii c in
  if Nat.ltb n 33 then 0 else nth (n - 33) mc_33 0.

(** * Nodes *)
(** include/tex/symbol.h:32-47 [MathSymbol] *)
Record sym := mkSym { s_char : Z; s_class : Z; s_fam : Z }.

(** include/tex/math/atom.h:22-37 [Atom::Type] as a number: a class number is
    cast to it *)
Definition Ord := 0. Definition Op := 1. Definition Bin := 2. Definition Rel := 3.
Definition Open := 4. Definition Close := 5. Definition Punct := 6. Definition Inner := 7.
Definition Over := 8. Definition Under := 9. Definition Acc := 10. Definition Rad := 11.
Definition Vcent := 12.
