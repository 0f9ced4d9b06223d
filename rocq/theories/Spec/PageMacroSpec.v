(** Texts of the page editor with macros: what they stand for. *)
From Coq Require Import List Ascii String ZArith.
From Verif.Base Require Import Result Num.
From Verif.Model Require Import Token Macro PageEditor Preprocessor.
From Verif.Spec Require Import LexerSpec MacroSpec PageEditorSpec.
Import ListNotations.

(** Tokens that are not expanded *)
Definition unexpandable (p : pstate) (t : token) : Prop :=
  match t with
  | TChar _ _ => True
  | TCs n => ~ primitive n /\ find p n = None
  | TParam _ => False
  end.

(** [ts] stands for [us] with the macros of [p]: its macro calls,
    [\csname], [\ifbr] and [\expandafter] are replaced by what they stand for,
    until there are none *)
Inductive stands_for (p : pstate) : list token -> list token -> Prop :=
| sf_nil : stands_for p [] []
| sf_token t ts us : unexpandable p t -> stands_for p ts us -> stands_for p (t :: ts) (t :: us)
| sf_call c r ts us : expands p c r -> stands_for p (r ++ ts) us -> stands_for p (c ++ ts) us.

(** The same one token after the other, with the definitions in force when it
    comes *)
Inductive digests {N : Num} (K : host N) : machine N -> list token -> machine N -> Prop :=
| dg_nil s : digests K s [] s
| dg_token s t s1 ts s2 : unexpandable (ms_pre s) t -> tok_step K s t = Ok s1 -> digests K s1 ts s2 ->
    digests K s (t :: ts) s2
| dg_call s c r ts s2 : expands (ms_pre s) c r -> digests K s (r ++ ts) s2 -> digests K s (c ++ ts) s2
| dg_def s m p ts s2 : well_formed m -> define (ms_pre s) m = Ok p -> digests K (set_pre s p) ts s2 ->
    digests K s (def_text m ++ ts) s2.

(** The same with the tokens that are left: those the typesetter gets *)
Inductive reads {N : Num} (K : host N) : machine N -> list token -> list token -> machine N -> Prop :=
| rd_nil s : reads K s [] [] s
| rd_token s t s1 ts us s2 : unexpandable (ms_pre s) t -> tok_step K s t = Ok s1 -> reads K s1 ts us s2 ->
    reads K s (t :: ts) (t :: us) s2
| rd_call s c r ts us s2 : expands (ms_pre s) c r -> reads K s (r ++ ts) us s2 -> reads K s (c ++ ts) us s2
| rd_def s m p ts us s2 : well_formed m -> define (ms_pre s) m = Ok p -> reads K (set_pre s p) ts us s2 ->
    reads K s (def_text m ++ ts) us s2.

(** The tokens of a text whose last character makes none: a second blank, or a
    character of a comment *)
Definition settled_text (ct : ascii -> cat) (text : list ascii) (ts : list token) : Prop :=
  exists a c e e', text = a ++ [c] /\ lexes ct true NewLine a ts e' /\ lexes ct true NewLine text ts e /\
    e <> BadCharacter /\ e <> BadParam.
