(** What dimension, kern, glue, parshape and option texts mean. *)
From Coq Require Import List Ascii String QArith Qcanon ZArith Bool Arith SpecFloat.
From Verif.Base Require Import Num.
From Verif.Model Require Import Token Glue Dimen.
Import ListNotations.
Local Open Scope char_scope.

Definition code (c : ascii) : nat := nat_of_ascii c.
Definition digit (c : ascii) : Prop := (48 <= code c <= 57)%nat.
Definition lower (c : ascii) : Prop := (97 <= code c <= 122)%nat.
Definition sep (c : ascii) : Prop := c = "." \/ c = ",".
Definition sign (c : ascii) : Prop := c = "+" \/ c = "-".

(** Odd number of minus signs *)
Fixpoint negative (s : name) : bool :=
  match s with
  | [] => false
  | c :: r => if ascii_dec c "-" then negb (negative r) else negative r
  end.

(** The digits occurring in a text, as numbers *)
Fixpoint digits_in (s : name) : list Z :=
  match s with
  | [] => []
  | c :: r =>
      if ((48 <=? code c) && (code c <=? 57))%nat
      then (Z.of_nat (code c) - 48)%Z :: digits_in r else digits_in r
  end.

(** The integer written [d1 d2 ... dn], and the fraction [.d1 d2 ... dn] *)
Fixpoint whole (l : list Z) : Z :=
  match l with
  | [] => 0%Z
  | d :: r => (d * 10 ^ Z.of_nat (List.length r) + whole r)%Z
  end.
Fixpoint fraction (l : list Z) : Q :=
  match l with
  | [] => 0%Q
  | d :: r => ((inject_Z d + fraction r) * (1 # 10))%Q
  end.

(** A factor: digits [a], or digits [a], a separator, digits [b].  The parser
    also skips other characters (not lower case letters) after the first. *)
Record factor := mkFactor { f_whole : name; f_frac : option (ascii * name) }.
Definition factor_text (f : factor) : name :=
  f_whole f ++ match f_frac f with None => [] | Some (c, b) => c :: b end.
Definition factor_value (f : factor) : Q :=
  (inject_Z (whole (digits_in (f_whole f)))
   + match f_frac f with None => 0%Q | Some (_, b) => fraction (digits_in b) end)%Q.
Definition plain (s : name) : Prop := Forall (fun c => ~ lower c /\ ~ sep c) s.
Definition starts_ok (s : name) : Prop :=
  match s with [] => False | c :: _ => digit c \/ sep c end.
Definition factor_ok (f : factor) : Prop :=
  plain (f_whole f)
  /\ match f_frac f with None => True | Some (c, b) => sep c /\ plain b end
  /\ starts_ok (factor_text f).
(** no skipped characters *)
Definition factor_strict (f : factor) : Prop :=
  Forall digit (f_whole f)
  /\ match f_frac f with
     | None => f_whole f <> []
     | Some (c, b) => sep c /\ Forall digit b
     end.

(** Unit keywords: the unit of the result and the number of points (or of
    ems, ...) that one unit is *)
Inductive keyword : name -> unit_t -> Q -> Prop :=
| kw_pt : keyword (str "pt") UPt 1%Q
| kw_pc : keyword (str "pc") UPt 12%Q
| kw_in : keyword (str "in") UPt (7227 # 100)%Q
| kw_bp : keyword (str "bp") UPt (7227 # 7200)%Q
| kw_cm : keyword (str "cm") UPt (7227 # 254)%Q
| kw_mm : keyword (str "mm") UPt (7227 # 2540)%Q
| kw_dd : keyword (str "dd") UPt (1238 # 1157)%Q
| kw_cc : keyword (str "cc") UPt (14856 # 1157)%Q
| kw_em : keyword (str "em") UEm 1%Q
| kw_ex : keyword (str "ex") UEx 1%Q
| kw_fil : keyword (str "fil") UFil 1%Q
| kw_fill : keyword (str "fill") UFill 1%Q
| kw_filll : keyword (str "filll") UFilll 1%Q.

(** [t] is a dimension text for [q] (in points, ems, ...) of unit [u]; [v] is
    the factor without its sign *)
Inductive dim_text : name -> Q -> unit_t -> Q -> Prop :=
| dim_text_intro s f kw u k :
    Forall sign s -> factor_ok f -> keyword kw u k ->
    dim_text (s ++ factor_text f ++ kw)
             ((if negative s then -1 else 1) * factor_value f * k)%Q u (factor_value f).

(** The text after the dimension: a character that ends it, then anything *)
Definition ends (w : name) : Prop :=
  match w with [] => True | c :: _ => ~ lower c end.

Definition finite (u : unit_t) : Prop := u = UPt \/ u = UEm \/ u = UEx.
Definition order_of (u : unit_t) : gorder :=
  match u with UFil => Fil | UFill => Fill | UFilll => Filll | _ => Normal end.

(** The length of [q] units [u] in a unit system *)
Definition length_in (us : unitsystem QcNum) (u : unit_t) (q : Q) : Qc :=
  match u with
  | UPt => (us_pt us * Q2Qc q)%Qc
  | UEm => (us_em us * Q2Qc q)%Qc
  | UEx => (us_ex us * Q2Qc q)%Qc
  | _ => Q2Qc q
  end.

Definition blanks (s : name) : Prop := Forall (fun c => c = " ") s.

(** the end of a text after a dimension: nothing, or one character that is
    not a lower case letter, then blanks *)
Definition tail_ok (w : name) : Prop :=
  match w with [] => True | c :: b => ~ lower c /\ blanks b end.

(** Option lists: the body is cut at commas, each piece at its first '=' *)
Fixpoint cut (x : ascii) (s : name) : name * option name :=
  match s with
  | [] => ([], None)
  | c :: r => if ascii_dec c x then ([], Some r)
              else let (a, b) := cut x r in (c :: a, b)
  end.
Fixpoint trim (s : name) : name :=
  match s with c :: r => if ascii_dec c " " then trim r else s | [] => [] end.
Fixpoint pieces (s : name) : list name :=
  match s with
  | [] => [[]]
  | c :: r => if ascii_dec c "," then [] :: pieces r
              else match pieces r with [] => [[c]] | p :: ps => (c :: p) :: ps end
  end.
Definition option_of (p : name) : name * name :=
  let (k, v) := cut "=" p in (trim k, match v with Some v => v | None => [] end).
(** the last piece counts only when it has a key or an '=' *)
Definition is_blank_piece (p : name) : bool :=
  match cut "=" p with (k, None) => match trim k with [] => true | _ => false end | _ => false end.
Fixpoint drop_blank_last (l : list name) : list name :=
  match l with
  | [] => []
  | [p] => if is_blank_piece p then [] else [p]
  | p :: r => p :: drop_blank_last r
  end.
Definition options_of (body : name) : list (name * name) :=
  map option_of (drop_blank_last (pieces body)).

(** Writing an option list *)
Definition opt_text (o : name * option name) : name :=
  fst o ++ match snd o with None => [] | Some v => "=" :: v end.
Fixpoint opts_text (l : list (name * option name)) : name :=
  match l with
  | [] => []
  | [o] => opt_text o
  | o :: r => opt_text o ++ "," :: opts_text r
  end.
Definition opt_value (o : name * option name) : name * name :=
  (fst o, match snd o with None => [] | Some v => v end).
Definition opt_ok (o : name * option name) : Prop :=
  Forall (fun c => c <> "," /\ c <> "=" /\ c <> "]") (fst o)
  /\ (match fst o with c :: _ => c <> " " | [] => True end)
  /\ match snd o with None => True | Some v => Forall (fun c => c <> "," /\ c <> "]") v end.

(** The lines of a parshape: each dimension is followed by one character *)
Inductive shape_text (in_range : Q -> bool) (us : unitsystem QcNum) : list (Qc * Qc) -> name -> Prop :=
| shape_nil : shape_text in_range us [] []
| shape_cons i q u v c l q2 u2 v2 x ps t :
    dim_text i q u v -> finite u -> in_range (Qred v) = true -> ~ lower c ->
    dim_text l q2 u2 v2 -> finite u2 -> in_range (Qred v2) = true -> ~ lower x ->
    shape_text in_range us ps t ->
    shape_text in_range us ((length_in us u q, length_in us u2 q2) :: ps)
               ((i ++ [c]) ++ (l ++ [x]) ++ t).

(** The text of a finite dimension and its length, and the text of a stretch or
    shrink with its order *)
Inductive length_text (in_range : Q -> bool) (us : unitsystem QcNum) : name -> Qc -> Prop :=
| length_text_intro d q u v :
    dim_text d q u v -> finite u -> in_range (Qred v) = true ->
    length_text in_range us d (length_in us u q).
Inductive comp_text (in_range : Q -> bool) (us : unitsystem QcNum) : name -> Qc -> gorder -> Prop :=
| comp_text_intro d q u v :
    dim_text d q u v -> in_range (Qred v) = true ->
    comp_text in_range us d (length_in us u q) (order_of u).

(** The number of lines of a parshape: an optional '=', then digits; after '='
    there may be none *)
Definition count_text (t : name) (n : Z) : Prop :=
  exists (eq : bool) ds, t = (if eq then ["="] else []) ++ ds /\ Forall digit ds /\
    (ds <> [] \/ eq = true) /\ whole (digits_in ds) = n.

(** Unit keywords as tables *)
Definition physical_units : list (name * phyunit) :=
  [(str "pt", Point); (str "pc", Pica); (str "in", Inch); (str "bp", BigPoint);
   (str "cm", Centimeter); (str "mm", Millimeter); (str "dd", DidotPoint); (str "cc", Cicero)].
Definition other_units : list (name * unit_t) :=
  [(str "pt", UPt); (str "em", UEm); (str "ex", UEx);
   (str "fil", UFil); (str "fill", UFill); (str "filll", UFilll)].
(** points per unit *)
Definition points (u : phyunit) : Q :=
  match u with
  | Point => 1 | Pica => 12 | Inch => 7227 # 100 | BigPoint => 7227 # 7200
  | Centimeter => 7227 # 254 | Millimeter => 7227 # 2540
  | DidotPoint => 1238 # 1157 | Cicero => 14856 # 1157
  end%Q.

(** The value of a finite float *)
Definition f32_value (f : spec_float) : option Q :=
  match f with
  | S754_zero _ => Some 0%Q
  | S754_finite s m e =>
      Some (inject_Z (if s then Zneg m else Zpos m)
            * match e with Zneg p => / inject_Z (2 ^ Zpos p) | _ => inject_Z (2 ^ e) end)%Q
  | _ => None
  end.
(** relative error at most 2^-23 *)
Definition close (f : spec_float) (q : Q) : bool :=
  match f32_value f with
  | None => false
  | Some x => Qle_bool (x - q) (q * (1 # 8388608)) && Qle_bool (q - x) (q * (1 # 8388608))
  end.
