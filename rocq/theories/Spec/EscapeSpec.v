(** Which exceptions end the page editor (C104): a number is missing or too
    large, or a group is begun when all groups have been ended. *)
From Coq Require Import List Ascii Bool Arith ZArith QArith.
From Verif.Base Require Import Result Num.
From Verif.Model Require Import Token Dimen DimenParser Box ListBuilders PageEditor Preprocessor.
Import ListNotations.

Section Escapes.
  Context {N : Num}.
  Variable K : host N.
  Notation machine := (machine N).

  (** * dimensions *)
  (** nothing but signs so far *)
  Definition no_digit (d : dparser) : Prop := dp_st d = ParseOptionalSign.
  Definition too_large (d : dparser) : Prop := exists q, stof_q (dp_factor d) = Some q /\ k_range K (Qred q) = false.
  (** the token ends the dimension [d], which is [d'] then *)
  Inductive completes (d : dparser) : token -> dparser -> Prop :=
  | by_word n : completes d (TCs n) d
  | by_char c k d' : dp_write d c = Ok d' -> dp_isFinished d' = true -> completes d (TChar c k) d'.
  Definition bad_number (d : dparser) (t : token) : Prop := exists d', completes d t d' /\ (no_digit d' \/ too_large d').

  (** * the modes *)
  (** the dimension that a mode is reading *)
  Definition reading (m : mode N) : option dparser :=
    match m with
    | MV (VKern _ k) _ => Some (kp_dimen k)
    | MH h => match h_state h with HKern _ k => Some (kp_dimen k) | HLower d => Some d | _ => None end
    | _ => None
    end.
  (** modes where a brace is a group *)
  Definition takes_groups (m : mode N) : bool :=
    match m with
    | MH h => match h_state h with HMain => true | _ => false end
    | MM MMain _ _ => true
    | _ => false
    end.
  Definition digest_reason (s : machine) (t : token) : Prop :=
    exists m r, ms_modes s = m :: r /\
      ((exists d, reading m = Some d /\ bad_number d t) \/
       (takes_groups m = true /\ ms_mem s = [] /\ exists c, t = TChar c GroupBegin)).
  (** from [s] to [s'] by digesting tokens *)
  Inductive digests : machine -> machine -> Prop :=
  | digests_refl s : digests s s
  | digests_step s s1 s' : digestToken K s = Ok (s1, true) -> digests s1 s' -> digests s s'.

  (** * shapes *)
  Definition shape_reason (s : machine) : Prop :=
    exists us p t r, ms_as s = AParshape us p /\ p_output (ms_pre s) = t :: r /\ bad_number (pp_dimen p) t /\
      match t with
      | TCs _ => pp_st p = PLength /\ pp_num p = pp_size p
      | _ => pp_st p = PIndent \/ pp_st p = PLength
      end.

  Definition reason (s : machine) : Prop :=
    match ms_state s with
    | SendToken => shape_reason s
    | DigestToken => exists s1 t r, digests s s1 /\ ms_tokens s1 = t :: r /\ digestToken K s1 = Throw /\ digest_reason s1 t
    | _ => False
    end.

  (** from [s] to [s'] by steps of the machine *)
  Inductive reached : machine -> machine -> Prop :=
  | reached_refl s : reached s s
  | reached_step s s1 s' : ms_state s <> Idle -> m_advance K s = Ok s1 -> reached s1 s' -> reached s s'.
  (** the first exception of the machine for [text] has a [reason] *)
  Definition fatal (hsize : N) (text : list ascii) : Prop :=
    exists s u, machine_new K 0 hsize = Ok s /\ reached (start s text) u /\ ms_state u <> Idle /\ m_advance K u = Throw /\ reason u.
End Escapes.
