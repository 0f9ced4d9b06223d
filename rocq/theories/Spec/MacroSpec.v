(** What the macro processor should do, said without its frames: how a list
    of tokens acts on the preprocessor, what a balanced text is, which token
    lists a parameter text matches, what scoping means. *)
From Coq Require Import List Ascii String ZArith Bool.
From Verif.Base Require Import Result.
From Verif.Model Require Import Token Macro Preprocessor.
Import ListNotations.

(** The operations a user has *)
Inductive pop :=
| OpWrite (t : token) | OpAdvance | OpBegin | OpEnd | OpDefine (m : macro).
Definition apply (s : pstate) (o : pop) : result pstate :=
  match o with
  | OpWrite t => pwrite s t
  | OpAdvance => advance s
  | OpBegin => Ok (beginGroup s)
  | OpEnd => endGroup s
  | OpDefine m => define s m
  end.
Definition apply_all (ops : list pop) (s : pstate) : result pstate := foldM apply ops s.

(** Runs that only write and advance, and the tokens they write *)
Definition write_or_advance (o : pop) : Prop :=
  match o with OpWrite _ | OpAdvance => True | _ => False end.
Fixpoint written (ops : list pop) : list token :=
  match ops with
  | OpWrite t :: r => t :: written r
  | _ :: r => written r
  | [] => []
  end.

(** [push s ts]: [s] with [ts] waiting behind its input *)
Definition push (s : pstate) (ts : list token) : pstate := set_input s (p_input s ++ ts).

(** [ts] takes [s] to [s']: whether its tokens are written one by one, or
    wait in the input in front of any others and are consumed one by one *)
Definition effect (s : pstate) (ts : list token) (s' : pstate) : Prop :=
  p_input s = [] ->
  pwrites s ts = Ok s' /\
  forall rest, advances (List.length ts) (set_input s (ts ++ rest)) = Ok (push s' rest).

(** The preprocessor is between constructs *)
Definition idle (s : pstate) : Prop := exists below, p_frames s = FIdle :: below.

(** Nothing but the input differs *)
Definition same_but_input (s s' : pstate) : Prop :=
  p_br s' = p_br s /\ p_output s' = p_output s /\ p_defs s' = p_defs s /\ p_frames s' = p_frames s.

(** Braces by their character (as in definitions and delimited arguments) or
    by their category (as in undelimited arguments) *)
Definition open_ch (t : token) : Prop := exists k, t = TChar "{" k.
Definition close_ch (t : token) : Prop := exists k, t = TChar "}" k.
Definition open_cat (t : token) : Prop := exists c, t = TChar c GroupBegin.
Definition close_cat (t : token) : Prop := exists c, t = TChar c GroupEnd.

Inductive balanced (op cl : token -> Prop) : list token -> Prop :=
| bal_nil : balanced op cl []
| bal_tok t l : ~ op t -> ~ cl t -> balanced op cl l -> balanced op cl (t :: l)
| bal_group o c b l : op o -> cl c -> balanced op cl b -> balanced op cl l ->
    balanced op cl (o :: b ++ c :: l).

(** A parameter text: no opening brace, parameters numbered [n], [n+1], ... *)
Fixpoint params_from (n : Z) (l : list token) : Prop :=
  match l with
  | [] => True
  | TParam k :: r => k = n /\ params_from (n + 1) r
  | t :: r => ~ open_ch t /\ params_from n r
  end.

(** The written form of a definition *)
Definition cs (n : String.string) : token := TCs (str n).
Definition lbrace : token := TChar "{" GroupBegin.
Definition rbrace : token := TChar "}" GroupEnd.
Definition def_text (m : macro) : list token :=
  cs "def" :: TCs (m_cs m) :: m_param m ++ lbrace :: m_repl m ++ [rbrace].
Definition well_formed (m : macro) : Prop :=
  params_from 1 (m_param m) /\ balanced open_ch close_ch (m_repl m).

(** Scoping: a stack of environments; the head is the current one *)
Definition env := name -> option macro.
Definition update (e : env) (m : macro) : env :=
  fun n => if name_eqb n (m_cs m) then Some m else e n.
Definition scope_step (st : option (list env)) (o : pop) : option (list env) :=
  match st with
  | None => None
  | Some st =>
    match o, st with
    | OpBegin, e :: r => Some (e :: e :: r)
    | OpEnd, _ :: e :: r => Some (e :: r)
    | OpDefine m, e :: r => Some (update e m :: r)
    | _, _ => None
    end
  end.
Definition scope_run (ops : list pop) : option (list env) :=
  fold_left scope_step ops (Some [fun _ => None]).

(** Sequences of operations in which groups are balanced *)
Inductive grouped : list pop -> Prop :=
| gr_nil : grouped []
| gr_op o l : o <> OpBegin -> o <> OpEnd -> grouped l -> grouped (o :: l)
| gr_group a l : grouped a -> grouped l -> grouped (OpBegin :: a ++ OpEnd :: l).

(** Conditionals: a control sequence whose name begins with "if" opens one *)
Definition opens_if (t : token) : Prop := exists n, t = TCs ("i" :: "f" :: n)%char.
Inductive nested : list token -> Prop :=
| ne_nil : nested []
| ne_tok t l : ~ opens_if t -> t <> cs "else" -> t <> cs "fi" -> nested l -> nested (t :: l)
| ne_if t a l : opens_if t -> nested a -> nested l -> nested (t :: a ++ cs "fi" :: l)
| ne_else t a b l : opens_if t -> nested a -> nested b -> nested l ->
    nested (t :: a ++ cs "else" :: b ++ cs "fi" :: l).

(** Arguments.  An undelimited argument is a single token that is neither a
    space nor an opening brace, or a balanced group without its braces; spaces
    in front are skipped. *)
Definition space_tok (t : token) : Prop := exists c, t = TChar c Space.
Inductive undelimited : list token -> list token -> Prop :=
| ud_space t ts a : space_tok t -> undelimited ts a -> undelimited (t :: ts) a
| ud_token t : ~ space_tok t -> ~ open_cat t -> undelimited [t] [t]
| ud_group o c b : open_cat o -> close_cat c -> balanced open_cat close_cat b ->
    undelimited (o :: b ++ [c]) b.

(** An argument delimited by [d]: balanced, [d] only inside braces *)
Inductive delimited (d : token) : list token -> Prop :=
| dl_nil : delimited d []
| dl_tok t l : t <> d -> ~ open_ch t -> ~ close_ch t -> delimited d l -> delimited d (t :: l)
| dl_group o c b l : o <> d -> open_ch o -> close_ch c -> balanced open_ch close_ch b ->
    delimited d l -> delimited d (o :: b ++ c :: l).

Definition is_param (t : token) : Prop := exists n, t = TParam n.
Definition param_next (pat : list token) : Prop :=
  match pat with [] => True | t :: _ => is_param t end.

(** [call pat ts args]: the tokens [ts] after the macro name match the
    parameter text [pat], with arguments [args] *)
Inductive call : list token -> list token -> list (list token) -> Prop :=
| call_nil : call [] [] []
| call_lit t pat ts args : ~ is_param t -> call pat ts args -> call (t :: pat) (t :: ts) args
| call_undelimited n pat ts1 a ts args : param_next pat -> undelimited ts1 a ->
    call pat ts args -> call (TParam n :: pat) (ts1 ++ ts) (a :: args)
| call_delimited n d pat a ts args : ~ is_param d -> delimited d a ->
    call pat ts args -> call (TParam n :: d :: pat) (a ++ d :: ts) (a :: args).

(** [instance args body ts]: [ts] is [body] with the argument of its number in
    place of each parameter (nothing for an argument that was not given) *)
Inductive instance (args : list (list token)) : list token -> list token -> Prop :=
| in_nil : instance args [] []
| in_tok t l r : ~ is_param t -> instance args l r -> instance args (t :: l) (t :: r)
| in_param i l r : (i < 9)%nat -> instance args l r ->
    instance args (TParam (Z.of_nat i + 1) :: l) (nth i args [] ++ r).

(** What [Macro::match] reports: the tokens consumed, and the arguments with
    their numbers, in the order of the parameter text *)
Definition depth (l : list token) : Z :=
  fold_right (fun t z => (match t with
                          | TChar _ GroupBegin => 1 | TChar _ GroupEnd => -1 | _ => 0
                          end + z)%Z) 0%Z l.
(** [b] closes at its very end a group opened before it *)
Definition closes (b : list token) : Prop :=
  depth b = (-1)%Z /\
  forall p q, b = p ++ q -> q <> [] -> depth p <> (-1)%Z.
Inductive m_word : list token -> list token -> Prop :=
| mw_token t : ~ open_cat t -> ~ is_param t -> m_word [t] [t]
| mw_group o b c : open_cat o -> closes (b ++ [c]) -> m_word (o :: b ++ [c]) b.
(** one space in front is skipped; a second one is an argument *)
Inductive m_undelimited : list token -> list token -> Prop :=
| mu_word t ts a : ~ space_tok t -> m_word (t :: ts) a -> m_undelimited (t :: ts) a
| mu_space t ts a : space_tok t -> m_word ts a -> m_undelimited (t :: ts) a.
Definition m_delimited (d : token) (a : list token) : Prop :=
  depth a = 0%Z /\ (forall p q, a = p ++ d :: q -> depth p <> 0%Z) /\ ~ In (cs "par") a.
Inductive m_call : list token -> list token -> list (Z * list token) -> Prop :=
| mc_nil : m_call [] [] []
| mc_lit t pat ts b : ~ is_param t -> m_call pat ts b -> m_call (t :: pat) (t :: ts) b
| mc_undelimited n pat ts1 a ts b : param_next pat -> m_undelimited ts1 a ->
    m_call pat ts b -> m_call (TParam n :: pat) (ts1 ++ ts) ((n, a) :: b)
| mc_delimited n d pat a ts b : ~ is_param d -> m_delimited d a ->
    m_call (d :: pat) ts b -> m_call (TParam n :: d :: pat) (a ++ ts) ((n, a) :: b).

(** The argument recorded under number [n]: the last one with that number *)
Fixpoint recorded (b : list (Z * list token)) (n : Z) (default : list token) : list token :=
  match b with
  | [] => default
  | (k, a) :: r => recorded r n (if Z.eqb k n then a else default)
  end.

(** A format text: definitions and characters *)
Inductive fmt_item := FmtDef (m : macro) | FmtChar (c : ascii) (k : cat).
Definition fmt_tokens (i : fmt_item) : list token :=
  match i with FmtDef m => def_text m | FmtChar c k => [TChar c k] end.
Definition fmt_ok (i : fmt_item) : Prop :=
  match i with FmtDef m => well_formed m | FmtChar _ _ => True end.
(** [last_def items m]: [m] is defined by [items], and its name is not
    defined again later *)
Definition last_def (items : list fmt_item) (m : macro) : Prop :=
  exists a b, items = a ++ FmtDef m :: b /\
    forall m', In (FmtDef m') b -> m_cs m' <> m_cs m.

(** States a user can reach *)
Definition reachable (s : pstate) : Prop := exists ops, apply_all ops pinit = Ok s.

(** One step of expansion: [ts] stands for [r] *)
Definition primitive (n : name) : Prop :=
  In n [str "def"; str "ifbr"; str "csname"; str "expandafter"].
Definition char_tok (c : ascii * cat) : token := TChar (fst c) (snd c).
Inductive expands (s : pstate) : list token -> list token -> Prop :=
| exp_macro n m ts args r : ~ primitive n -> find s n = Some m ->
    call (m_param m) ts args -> (List.length args <= 9)%nat -> instance args (m_repl m) r ->
    expands s (TCs n :: ts) r
| exp_csname l : expands s (cs "csname" :: map char_tok l ++ [cs "endcsname"]) [TCs (map fst l)]
| exp_if a : nested a -> expands s (cs "ifbr" :: a ++ [cs "fi"]) (if p_br s then a else [])
| exp_if_else a b : nested a -> nested b ->
    expands s (cs "ifbr" :: a ++ cs "else" :: b ++ [cs "fi"]) (if p_br s then a else b)
| exp_after a ts r : expands s ts r -> expands s (cs "expandafter" :: TCs a :: ts) (TCs a :: r).

(** Byte order of names *)
Inductive name_lt : name -> name -> Prop :=
| nl_nil y b : name_lt [] (y :: b)
| nl_head x y a b : (nat_of_ascii x < nat_of_ascii y)%nat -> name_lt (x :: a) (y :: b)
| nl_tail x a b : name_lt a b -> name_lt (x :: a) (x :: b).

(** A parameter token, if there, has a number the lexer can produce *)
Definition tok_ok (t : token) : Prop := match t with TParam n => (n <= 9)%Z | _ => True end.
Definition stream_op (o : pop) : Prop :=
  match o with OpWrite t => tok_ok t | OpAdvance => True | _ => False end.
(** a parameter token where the letters of a name are expected *)
Definition in_csname (s : pstate) : Prop := exists n below, p_frames s = FForming n :: below.
