(** When the typesetting machine comes to an end: vocabulary. *)
From Coq Require Import List Ascii String ZArith Bool Arith.
From Verif.Base Require Import Result Num.
From Verif.Model Require Import Unicode Token Lexer Macro PageEditor Preprocessor.
From Verif.Spec Require Import PageEditorSpec.
Import ListNotations.
Local Open Scope nat_scope.

Section Ends.
  Context {N : Num}.
  Variable K : host N.
  Notation machine := (machine N).

  (** The token the next step hands to the preprocessor *)
  Definition next_token (s : machine) : option token :=
    match ms_state s with
    | Preprocess => hd_error (p_input (ms_pre s))
    | ReadToken => hd_error (l_out (ms_lex s))
    | _ => None
    end.

  (** The next step puts the replacement text of a macro in front of the text
      that remains: the token is the name of a macro without parameters, or the
      last one the call of a macro was waiting for. *)
  Definition expands (s : machine) : Prop :=
    exists t, next_token s = Some t /\
    match p_frames (ms_pre s) with
    | (FIdle | FAfterExpanding _) :: _ =>
        exists n m, t = TCs n /\ find (ms_pre s) n = Some m /\ m_param m = []
    | FExpanding _ _ :: _ =>
        exists s', m_advance K s = Ok s' /\
          List.length (p_frames (ms_pre s')) < List.length (p_frames (ms_pre s))
    | _ => False
    end.

  Definition steady_text (s : machine) (tr : list machine) : Prop :=
    Forall (fun v => ~ expands v) (s :: tr).

  (** A run without end *)
  Definition endless (r : nat -> machine) : Prop :=
    forall i, ms_state (r i) <> Idle /\ m_advance K (r i) = Ok (r (Datatypes.S i)).

  (** The commands of the format and those that make new ones *)
  Definition plain_token (t : token) : Prop :=
    forall n, t = TCs n -> ~ In n [str "begin"; str "end"; str "csname"; str "def"].
  Definition plain_text (text : list ascii) : Prop :=
    Forall plain_token (l_out (fst (feed DefaultCatCodes lexer_init text))).
End Ends.
