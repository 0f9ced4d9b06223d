(** What the linebreaks viewer should show. *)
From Coq Require Import List Ascii String ZArith QArith Qcanon Bool Sorted.
From Verif.Base Require Import Result Num.
From Verif.Model Require Import Token Glue Box Dimen ListBuilders LineBreaks Viewer.
From Verif.Spec Require Import DimenSpec BoxSpec LineBreakSpec.
Import ListNotations.
Local Open Scope char_scope.

(** * The horizontal list of a text: a character for each character, interword
    glue for blanks and newlines, with TeX's space factor *)
Section List_of_text.
  Context {N : Num}.
  Variable m : hmetrics N.
  Definition interword (sf : Z) : node N :=
    NGlue (mkGlue (if (2000 <=? sf)%Z then nadd (hm_space m) (hm_extra m) else hm_space m)
                  (nmul (hm_shrink m) (ndiv (nz 1000) (nz sf)))
                  (nmul (hm_stretch m) (ndiv (nz sf) (nz 1000))) Normal Normal).
  Fixpoint items_of (sf : Z) (cs : list Z) : list (node N) :=
    match cs with
    | [] => []
    | c :: r =>
        if ((c =? 32) || (c =? 10))%Z then interword sf :: items_of sf r
        else NChar c (hm_char m c) :: items_of (sf_after sf (hm_sfcode m c)) r
    end.
End List_of_text.

(** * The texts of the fields *)

(** A number, its unit possibly missing, incomplete or unknown *)
Inductive number_text : name -> bool -> Q -> name -> Prop :=
| number_text_intro s f kw :
    Forall sign s -> factor_ok f -> Forall lower kw ->
    number_text (s ++ factor_text f ++ kw) (negative s) (factor_value f) kw.

Section Fields.
  Variable in_range : Q -> bool.
  Variable us : unitsystem QcNum.

  (** a dimension: whatever follows it does not count *)
  Inductive dimen_text : name -> Qc -> Prop :=
  | dimen_text_intro d w x : length_text in_range us d x -> ends w -> dimen_text (d ++ w) x.

  (** a space, alone or up to the end of the stretch *)
  Inductive upto_plus : name -> Qc -> Qc -> gorder -> Prop :=
  | upto_plus_intro d c b1 b2 e x s a oa :
      length_text in_range us d s -> ~ lower c -> blanks b1 -> blanks b2 ->
      comp_text in_range us e a oa -> ~ lower x ->
      upto_plus (d ++ [c] ++ b1 ++ str "plus" ++ b2 ++ e ++ [x]) s a oa.

  (** A glue: a space, or a space with stretch and shrink.  Reading stops after
      the shrink; a shrink without a complete unit is taken to be infinite. *)
  Inductive glue_text : name -> glue QcNum -> Prop :=
  | glue_text_space d w s :
      length_text in_range us d s -> tail_ok w ->
      glue_text (d ++ w) (mkGlue (N := QcNum) s n0 n0 Normal Normal)
  | glue_text_full t s a oa b3 b4 f w z oz :
      upto_plus t s a oa -> blanks b3 -> blanks b4 -> comp_text in_range us f z oz -> ends w ->
      glue_text (t ++ b3 ++ str "minus" ++ b4 ++ f ++ w) (mkGlue (N := QcNum) s z a oz oa)
  | glue_text_odd t s a oa b3 b4 f neg v kw :
      upto_plus t s a oa -> blanks b3 -> blanks b4 -> number_text f neg v kw ->
      (~ exists u k, keyword kw u k) -> in_range (Qred v) = true ->
      glue_text (t ++ b3 ++ str "minus" ++ b4 ++ f)
        (mkGlue (N := QcNum) s (Q2Qc ((if neg then -1 else 1) * v)) a Filll oa).

  (** Texts that [std::stof] refuses: signs without a number, or a number out of
      range *)
  Definition no_number (e : name) : Prop :=
    Forall sign e \/ exists neg v kw, number_text e neg v kw /\ in_range (Qred v) = false.
  Definition out_of_range (e : name) : Prop :=
    exists q u v, dim_text e q u v /\ in_range (Qred v) = false.

  (** Glue texts that have such a text where a number is read *)
  Inductive glue_breaks : name -> Prop :=
  | gb_space t : no_number t -> glue_breaks t
  | gb_space_ended d c w : out_of_range d -> ~ lower c -> glue_breaks (d ++ c :: w)
  | gb_plus d c b1 b2 e x w s :
      length_text in_range us d s -> ~ lower c -> blanks b1 -> blanks b2 -> out_of_range e -> ~ lower x ->
      glue_breaks (d ++ [c] ++ b1 ++ str "plus" ++ b2 ++ e ++ x :: w)
  | gb_minus t s a oa b3 b4 f :
      upto_plus t s a oa -> blanks b3 -> blanks b4 -> f <> [] -> no_number f ->
      glue_breaks (t ++ b3 ++ str "minus" ++ b4 ++ f)
  | gb_minus_ended t s a oa b3 b4 f x w :
      upto_plus t s a oa -> blanks b3 -> blanks b4 -> out_of_range f -> ~ lower x ->
      glue_breaks (t ++ b3 ++ str "minus" ++ b4 ++ f ++ x :: w).
  (** the same for dimensions *)
  Inductive dimen_breaks : name -> Prop :=
  | db_number t : no_number t -> dimen_breaks t
  | db_ended d c w : out_of_range d -> ~ lower c -> dimen_breaks (d ++ c :: w).
End Fields.

(** The last of the texts (the latest first) that is good *)
Inductive last_good {A : Type} (good : name -> A -> Prop) : list name -> A -> Prop :=
| last_good_here t r a : good t a -> last_good good (t :: r) a
| last_good_before t r a : (forall b, ~ good t b) -> last_good good r a -> last_good good (t :: r) a.

(** The values at the start, and the ranges *)
Definition spin_start (s : spin) : Z :=
  match s with Tolerance => 800 | AdjDemerits => 10000 | LinePenalty => 10 | HangAfter => 1 end%Z.
Definition spin_least (s : spin) : Z :=
  match s with Tolerance => 200 | AdjDemerits => 1000 | LinePenalty => 0 | HangAfter => -100 end%Z.
Definition spin_most (s : spin) : Z :=
  match s with Tolerance => 20000 | AdjDemerits => 100000 | LinePenalty => 1000 | HangAfter => 100 end%Z.
Definition gtext_start (f : gfield) : name :=
  match f with
  | LeftSkip => str "0pt" | RightSkip => str "0pt" | BaselineSkip => str "12pt" | LineSkip => str "1pt"
  end.
Definition dtext_start (f : dfield) : name := str "0pt".

(** The texts a field has had, the latest first *)
Fixpoint gtexts (f : gfield) (es : list event) : list name :=
  match es with
  | [] => []
  | EGlue g t :: r => (if gfield_eqb f g then [t] else []) ++ gtexts f r
  | EReset :: r => gtext_start f :: gtexts f r
  | _ :: r => gtexts f r
  end.
Fixpoint dtexts (f : dfield) (es : list event) : list name :=
  match es with
  | [] => []
  | EDimen g t :: r => (if dfield_eqb f g then [t] else []) ++ dtexts f r
  | EReset :: r => dtext_start f :: dtexts f r
  | _ :: r => dtexts f r
  end.
(** The last value given to a spin box, brought into its range, and the last
    state of the check box; the latest event first *)
Fixpoint spin_of (s : spin) (es : list event) : Z :=
  match es with
  | [] => spin_start s
  | ESpin p z :: r =>
      if spin_eqb s p then Z.max (spin_least s) (Z.min z (spin_most s)) else spin_of s r
  | EReset :: r => spin_start s
  | _ :: r => spin_of s r
  end.
Fixpoint french_of (es : list event) : bool :=
  match es with [] => false | EFrench b :: _ => b | _ :: r => french_of r end.
Fixpoint ptext_of (es : list event) : name :=
  match es with [] => [] | EParshape t :: _ => t | EReset :: _ => [] | _ :: r => ptext_of r end.
Fixpoint text_of (es : list event) : list Z :=
  match es with [] => [] | EText t :: _ => t | _ :: r => text_of r end.

(** the alternative chosen while there is none *)
Fixpoint choice_of (es : list event) : Z :=
  match es with [] => 0 | ESelect z :: _ => Z.max 0 (Z.min z 99) | _ :: r => choice_of r end%Z.

(** * The parshape field: words separated by blanks, taken in pairs *)
Inductive spaced_words : name -> list name -> Prop :=
| sw_end b : blanks b -> spaced_words b []
| sw_word b w t ws :
    blanks b -> w <> [] -> ~ In " " w -> (t = [] \/ exists r, t = " " :: r) -> spaced_words t ws ->
    spaced_words (b ++ w ++ t) (w :: ws).
(** the indents and lengths; a length is at least ten *)
Inductive pairs_of (value : name -> option Qc) : list name -> list (Qc * Qc) -> Prop :=
| po_none : pairs_of value [] []
| po_pair i w x y ws ps : value i = Some x -> value w = Some y -> pairs_of value ws ps ->
    pairs_of value (i :: w :: ws) ((x, if Qclt_le_dec (Q2Qc 10) y then y else Q2Qc 10) :: ps).

(** * The parameters of the paragraph: those of the window; the others have their
    default values *)
Definition settings {N : Num} (v : viewer N) (P : para N) : Prop :=
  p_tolerance P = v_spin v Tolerance /\ p_adjdemerits P = v_spin v AdjDemerits /\
  p_linepenalty P = v_spin v LinePenalty /\ p_hangafter P = v_spin v HangAfter /\
  p_hsize P = nz 800 /\ p_hangindent P = v_dimen v HangIndent /\ p_parshape P = v_parshape v /\
  v_glue v LeftSkip = Some (p_leftskip P) /\ v_glue v RightSkip = Some (p_rightskip P) /\
  v_glue v BaselineSkip = Some (p_baselineskip P) /\ v_glue v LineSkip = Some (p_lineskip P) /\
  p_lineskiplimit P = v_dimen v LineSkipLimit /\
  p_parfillskip P = mkGlue n0 n0 n1 Normal Fil /\ p_prevdepth P = nz (-10000).

(** * What is shown *)
Section Shown.
  Context {N : Num}.
  Variable pw : pows N.
  Variable P : para N.

  (** the alternative [b] stands for the breaks [bs] *)
  Definition alternative (l : list (node N)) (b : bp N) (bs : list nat) : Prop :=
    map bp_pos (bp_chain b) = 0%nat :: rev bs /\
    breaking l P pw bs (bp_fit b) (bp_dem b) /\ complete l P bs.

  (** all alternatives, by increasing demerits *)
  Definition alternatives (l : list (node N)) (bps : list (bp N)) : Prop :=
    (forall b, In b bps -> exists bs, alternative l b bs) /\
    (forall bs f d, breaking l P pw bs f d -> complete l P bs -> exists b, In b bps /\ (bp_dem b <= d)%Z) /\
    StronglySorted (fun a b => (bp_dem a <= bp_dem b)%Z) bps.

  (** [out] is the vertical list of the paragraph broken at [bs]: its boxes are
      the lines, and nothing of [xs] is lost *)
  Definition paragraph (xs l : list (node N)) (bs : list nat) (out : list (node N)) : Prop :=
    exists lines, LineBreakSpec.cut l 0 (rev bs) lines /\
      filter keeps (List.concat lines) = filter keeps xs /\
      List.length (filter keeps out) = List.length lines /\
      forall i its, nth_error lines i = Some its ->
        nth_error (filter keeps out) i = Some (node_of Horizontal (createLine P i its)).
End Shown.

(** The window shows one of the alternatives of the text [cs], the one chosen in
    the spin box, with its demerits *)
Definition shows {N : Num} (pw : pows N) (fm : bool -> hmetrics N) (v : viewer N) (french : bool) (cs : list Z) : Prop :=
  exists P, settings v P /\ let xs := items_of (fm french) 1000 cs in
    alternatives pw P (prepare P xs) (v_bps v) /\
    (v_bps v = [] \/ exists (b : bp N) bs out,
       nth_error (v_bps v) (Z.to_nat (v_value v)) = Some b /\ alternative pw P (prepare P xs) b bs /\
       paragraph P xs (prepare P xs) bs out /\ v_box v = Some (vbox out) /\ v_label v = Some (bp_dem b)).
