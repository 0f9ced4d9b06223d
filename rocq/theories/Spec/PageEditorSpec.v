(** What the page editor is expected to do. *)
From Coq Require Import List Ascii String ZArith.
From Verif.Base Require Import Result Num.
From Verif.Model Require Import Token Lexer PageEditor Preprocessor.
Import ListNotations.

(** ** Positions in a text *)
Definition newline : ascii := "010"%char.
Definition carriage_return : ascii := "013"%char.

(** [b] is the last, unfinished line of the text read so far *)
Definition position_of (text : list ascii) (line col : nat) : Prop :=
  exists a b, text = a ++ b /\ (a = [] \/ exists a', a = a' ++ [newline]) /\ ~ In newline b /\
    line = count_occ ascii_dec text newline /\ col = List.length b.

(** [n] characters read *)
Fixpoint reads (n : nat) (s : stream) : result (list ascii * stream) :=
  match n with
  | O => Ok ([], s)
  | S n => do x <- read s; do y <- reads n (snd x); Ok (fst x :: fst y, snd y)
  end.

(** ** Runs of the machine *)
Section Runs.
  Context {N : Num}.
  Variable K : host N.

  (** The states that follow [s], the last one being the second argument *)
  Inductive run : machine N -> list (machine N) -> machine N -> Prop :=
  | run_nil s : run s [] s
  | run_step s s1 tr s2 : m_advance K s = Ok s1 -> run s1 tr s2 -> run s (s1 :: tr) s2.

  (** The states of a machine that is made and then typesets texts *)
  Inductive reached : machine N -> Prop :=
  | rc_new f h s : machine_new K f h = Ok s -> reached s
  | rc_start s text : reached s -> ms_state s = Idle -> reached (start s text)
  | rc_step s s' : reached s -> m_advance K s = Ok s' -> reached s'.

  (** The loop [while (digestToken())], cut after [n] rounds with the outcome
      [x]: when [x] does not matter, the loop ends by itself within [n] rounds *)
  Fixpoint loop_or (x : result (machine N)) (n : nat) (s : machine N) : result (machine N) :=
    match n with
    | O => x
    | S n => do y <- digestToken K s; if snd y then loop_or x n (fst y) else Ok (fst y)
    end.

  (** The depth of groups *)
  Definition depth (s : machine N) : nat := List.length (ms_mem s).

  (** A group: it is opened by the first step, closed by the last one, and
      open in between *)
  Definition group (s : machine N) (inside : list (machine N)) (s' : machine N) : Prop :=
    run s (inside ++ [s']) s' /\ inside <> [] /\
    Forall (fun x => depth s < depth x) inside /\ depth s' = depth s.

  (** The parameters and the macros in force *)
  Definition same_settings (s s' : machine N) : Prop :=
    ms_mem s' = ms_mem s /\ p_defs (ms_pre s') = p_defs (ms_pre s).

  (** ** Tokens, without the input, the lexer and the state of the loop *)
  Definition bare (s : machine N) : machine N := set_mstate (set_lex (set_in s (mkStream [] 0)) lexer_init) Idle.

  (** what the preprocessor has to say is assigned and digested until it has
      nothing left *)
  Inductive pumps : machine N -> machine N -> Prop :=
  | pm_done s s1 s2 : sendToken K s = Ok s1 -> digest K (digest_fuel s1) s1 = Ok s2 ->
      p_input (ms_pre s2) = [] -> pumps s s2
  | pm_more s s1 s2 p s3 : sendToken K s = Ok s1 -> digest K (digest_fuel s1) s1 = Ok s2 ->
      p_input (ms_pre s2) <> [] -> advance (ms_pre s2) = Ok p -> pumps (set_pre s2 p) s3 -> pumps s s3.
  (** one token after the other *)
  Inductive processed : machine N -> list token -> machine N -> Prop :=
  | pr_nil s : processed s [] s
  | pr_cons s t ts p s1 s2 : pwrite (ms_pre s) t = Ok p -> pumps (set_pre s p) s1 -> processed s1 ts s2 ->
      processed s (t :: ts) s2.

  (** One token when there is no macro to expand, and a page *)
  Definition tok_step (s : machine N) (t : token) : result (machine N) :=
    do p <- pwrite (ms_pre s) t; do s <- sendToken K (set_pre s p); digest K (digest_fuel s) s.
  Definition page_of_tokens (ts : list token) (s : machine N) : result (Box.lbox N) :=
    do u <- foldM tok_step ts s; do v <- finish_modes K (List.length (ms_modes u) - 1) u;
    match ms_modes v with
    | MV _ b :: _ => Ok (Box.vbox (ListBuilders.vb_result b))
    | [] => UB
    | _ => Throw
    end.
End Runs.
