(** Model of class Preprocessor: include/tex/parsing/preprocessor.h:74-301,
    src/parsing/preprocessor.cpp:220-766, and src/parsing/format.cpp.
    What an exception leaves behind is not modelled. *)
From Coq Require Import List Ascii String ZArith Bool Arith.
From Verif.Base Require Import Result.
From Verif.Model Require Import Token Lexer Macro.
Import ListNotations.

(** [std::map<std::string, Macro>]: sorted by name (bytes compare unsigned) *)
Definition table := list (name * macro).
Fixpoint name_ltb (a b : name) : bool :=
  match a, b with
  | [], [] => false
  | [], _ :: _ => true
  | _ :: _, [] => false
  | x :: a', y :: b' =>
      if Nat.ltb (nat_of_ascii x) (nat_of_ascii y) then true
      else if Nat.ltb (nat_of_ascii y) (nat_of_ascii x) then false
      else name_ltb a' b'
  end.
Fixpoint table_find (n : name) (t : table) : option macro :=
  match t with
  | [] => None
  | (k, m) :: r => if name_eqb n k then Some m else table_find n r
  end.
Fixpoint table_set (n : name) (m : macro) (t : table) : table :=
  match t with
  | [] => [(n, m)]
  | (k, x) :: r =>
      if name_eqb n k then (k, m) :: r
      else if name_ltb n k then (n, m) :: t
      else (k, x) :: table_set n m r
  end.

(** preprocessor.h:128-131 [Definitions], one per scope.  The number
    identifies the scope: a pointer to a macro is a scope and a name, and
    dangles when the scope is gone. *)
Record scope := mkScope { sc_id : nat; sc_macros : table }.

(** preprocessor.h:158-174, 77-111: the frames *)
Inductive rm_sub : Set := RMName | RMParam | RMRepl.
Inductive ex_sub : Set := ExMatching | ExDelimited | ExUndelimited | ExBraced.

Record rm_data := mkRM {
  rm_cs : name; rm_index : Z; rm_params : list token; rm_nesting : Z; rm_body : list token }.
Record ex_data := mkEx {
  ex_def : nat * name; ex_pat : nat; ex_arg : nat; ex_nesting : Z; ex_args : arguments }.
Record br_data := mkBr {
  br_success : bool; br_inside_if : bool; br_nesting : nat; br_branch : list token }.

Inductive frame :=
| FIdle
| FReading (s : rm_sub) (d : rm_data)
| FExpanding (s : ex_sub) (d : ex_data)
| FBranching (d : br_data)
| FForming (n : name)
| FAfterReading                 (* EXPAFTER_ReadingCs *)
| FAfterExpanding (cs : token)  (* EXPAFTER_ExpandingCs *)
| FAfterInserting (cs : token). (* EXPAFTER_InsertingCs *)

(** preprocessor.h:118-120, 231-232.  The head of [p_frames] is
    [m_state.frames.back()]; [p_next] is the next scope number. *)
Record pstate := mkP {
  p_br : bool; p_input : list token; p_output : list token;
  p_defs : list scope; p_frames : list frame; p_next : nat }.

(** preprocessor.cpp:304-308 *)
Definition pinit : pstate := mkP false [] [] [mkScope 0 []] [FIdle] 1.

Definition set_input (s : pstate) i := mkP (p_br s) i (p_output s) (p_defs s) (p_frames s) (p_next s).
Definition set_output (s : pstate) o := mkP (p_br s) (p_input s) o (p_defs s) (p_frames s) (p_next s).
Definition set_defs (s : pstate) d := mkP (p_br s) (p_input s) (p_output s) d (p_frames s) (p_next s).
Definition set_frames (s : pstate) f := mkP (p_br s) (p_input s) (p_output s) (p_defs s) f (p_next s).
Definition set_br (s : pstate) b := mkP b (p_input s) (p_output s) (p_defs s) (p_frames s) (p_next s).

(** preprocessor.h:275-283 [beginGroup], [endGroup] *)
Definition beginGroup (s : pstate) : pstate :=
  mkP (p_br s) (p_input s) (p_output s) (mkScope (p_next s) [] :: p_defs s) (p_frames s) (S (p_next s)).
Definition endGroup (s : pstate) : result pstate :=
  match p_defs s with
  | [] => UB
  | _ :: d => Ok (set_defs s d)
  end.

(** preprocessor.cpp:342-355 [find]: the innermost scope first *)
Fixpoint find_ptr (n : name) (d : list scope) : option (nat * macro) :=
  match d with
  | [] => None
  | s :: r => match table_find n (sc_macros s) with
              | Some m => Some (sc_id s, m)
              | None => find_ptr n r
              end
  end.
Definition find (s : pstate) (n : name) : option macro := option_map snd (find_ptr n (p_defs s)).

(** dereferencing [macro_expansion.def] *)
Fixpoint deref (p : nat * name) (d : list scope) : result macro :=
  match d with
  | [] => UB
  | s :: r => if Nat.eqb (sc_id s) (fst p)
              then match table_find (snd p) (sc_macros s) with Some m => Ok m | None => UB end
              else deref p r
  end.

(** preprocessor.cpp:357-360 [define]; also line 487 *)
Definition define (s : pstate) (m : macro) : result pstate :=
  match p_defs s with
  | [] => UB
  | sc :: r => Ok (set_defs s (mkScope (sc_id sc) (table_set (m_cs m) m (sc_macros sc)) :: r))
  end.

(** preprocessor.cpp:319-322 [enter] *)
Definition enter (s : pstate) (f : frame) : pstate := set_frames s (f :: p_frames s).
Definition set_top (s : pstate) (f : frame) : pstate := set_frames s (f :: tl (p_frames s)).

(** preprocessor.cpp:324-335 [leave]: the frames and input after it *)
Fixpoint leave_frames (below : list frame) (input : list token) : result (list frame * list token) :=
  match below with
  | [] => UB                                          (* frames.back() *)
  | FAfterInserting cs :: r => leave_frames r (cs :: input)
  | _ => Ok (below, input)
  end.
Definition leave (s : pstate) : result pstate :=
  match p_frames s with
  | [] => UB
  | _ :: below =>
      do x <- leave_frames below (p_input s);
      Ok (set_frames (set_input s (snd x)) (fst x))
  end.

(** preprocessor.cpp:513-540 [updateExpandMacroState] *)
Definition update_expand (pat : list token) (sub : ex_sub) (d : ex_data) : result (ex_sub * ex_data) :=
  if Nat.eqb (ex_pat d) (List.length pat) then Ok (sub, d)
  else
    match nth_error pat (ex_pat d) with
    | None => Throw
    | Some p =>
        if isParameterToken p then
          let d' := mkEx (ex_def d) (ex_pat d) (ex_arg d) 0 (ex_args d) in
          if Nat.eqb (ex_pat d) (List.length pat - 1) then Ok (ExUndelimited, d')
          else
            match nth_error pat (S (ex_pat d)) with
            | None => Throw
            | Some q => Ok (if isParameterToken q then ExUndelimited else ExDelimited, d')
            end
        else Ok (ExMatching, d)
    end.

Definition DEF := str "def".
Definition IFBR := str "ifbr".
Definition CSNAME := str "csname".
Definition EXPANDAFTER := str "expandafter".

(** preprocessor.cpp:395-436 [processControlSeq] *)
Definition processControlSeq (s : pstate) (cs : name) : result pstate :=
  if name_eqb cs DEF then Ok (enter s (FReading RMName (mkRM [] 1 [] 0 [])))
  else if name_eqb cs IFBR then Ok (enter s (FBranching (mkBr (p_br s) true 0 [])))
  else if name_eqb cs CSNAME then Ok (enter s (FForming []))
  else if name_eqb cs EXPANDAFTER then Ok (enter s FAfterReading)
  else
    match find_ptr cs (p_defs s) with
    | None => Ok (set_output s (p_output s ++ [TCs cs]))
    | Some (id, m) =>
        match m_param m with
        | [] =>
            do e <- macro_expand m no_args;
            Ok (set_input s (e ++ p_input s))
        | _ =>
            do x <- update_expand (m_param m) ExMatching (mkEx (id, cs) 0 0 0 no_args);
            Ok (enter s (FExpanding (fst x) (snd x)))
        end
    end.

Definition is_value (t : token) (c : ascii) : bool :=
  match t with TChar x _ => Ascii.eqb x c | _ => false end.

(** preprocessor.cpp:438-511 [readMacro] *)
Definition readMacro (s : pstate) (sub : rm_sub) (d : rm_data) (t : token) : result pstate :=
  match sub with
  | RMName =>
      match t with
      | TCs n => Ok (set_top s (FReading RMParam (mkRM n (rm_index d) (rm_params d) (rm_nesting d) (rm_body d))))
      | _ => Throw
      end
  | RMParam =>
      if is_value t "{"%char then Ok (set_top s (FReading RMRepl d))
      else
        match t with
        | TParam n =>
            if negb (Z.eqb n (rm_index d)) then Throw
            else Ok (set_top s (FReading RMParam
                   (mkRM (rm_cs d) (rm_index d + 1) (rm_params d ++ [t]) (rm_nesting d) (rm_body d))))
        | _ => Ok (set_top s (FReading RMParam
                   (mkRM (rm_cs d) (rm_index d) (rm_params d ++ [t]) (rm_nesting d) (rm_body d))))
        end
  | RMRepl =>
      let push n := Ok (set_top s (FReading RMRepl
                      (mkRM (rm_cs d) (rm_index d) (rm_params d) n (rm_body d ++ [t])))) in
      if is_value t "{"%char then push (rm_nesting d + 1)%Z
      else if is_value t "}"%char then
        if Z.eqb (rm_nesting d) 0 then
          do s' <- define s (mkMacro (rm_cs d) (rm_params d) (rm_body d));
          leave s'
        else push (rm_nesting d - 1)%Z
      else push (rm_nesting d)
  end.

(** [arguments[i].push_back(t)] *)
Definition push_arg (a : arguments) (i : nat) (t : token) : result arguments :=
  match nth_error a i with
  | Some l => Ok (set_nth i (l ++ [t]) a)
  | None => UB
  end.

Definition with_pat (d : ex_data) i := mkEx (ex_def d) i (ex_arg d) (ex_nesting d) (ex_args d).
Definition with_nesting (d : ex_data) n := mkEx (ex_def d) (ex_pat d) (ex_arg d) n (ex_args d).
Definition with_args (d : ex_data) a := mkEx (ex_def d) (ex_pat d) (ex_arg d) (ex_nesting d) a.
Definition next_arg (d : ex_data) := mkEx (ex_def d) (ex_pat d) (S (ex_arg d)) (ex_nesting d) (ex_args d).

(** preprocessor.cpp:547-651: the [switch] of [expandMacro] *)
Definition expand_step (pat : list token) (sub : ex_sub) (d : ex_data) (t : token)
  : result (ex_sub * ex_data) :=
  let advance_pattern sub d := update_expand pat sub (with_pat d (S (ex_pat d))) in
  match sub with
  | ExMatching =>
      match nth_error pat (ex_pat d) with
      | None => Throw
      | Some p => if negb (token_eqb t p) then Throw else advance_pattern ExMatching d
      end
  | ExDelimited =>
      match nth_error pat (S (ex_pat d)) with
      | None => Throw
      | Some p =>
          if token_eqb t p && Z.eqb (ex_nesting d) 0 then
            advance_pattern ExMatching (next_arg (with_pat d (S (ex_pat d))))
          else
            do a <- push_arg (ex_args d) (ex_arg d) t;
            let d' := with_args d a in
            if is_value t "{"%char then Ok (ExDelimited, with_nesting d' (ex_nesting d + 1))
            else if is_value t "}"%char then
              if Z.eqb (ex_nesting d) 0 then Throw
              else Ok (ExDelimited, with_nesting d' (ex_nesting d - 1))
            else Ok (ExDelimited, d')
      end
  | ExUndelimited =>
      match nth_error (ex_args d) (ex_arg d) with
      | None => UB
      | Some (_ :: _) => Abort                         (* assert, line 602 *)
      | Some [] =>
          if isControlSequence t || (negb (is_begin t) && negb (is_spacetok t)) then
            do a <- push_arg (ex_args d) (ex_arg d) t;
            advance_pattern ExUndelimited (next_arg (with_args d a))
          else if is_begin t then
            if Z.eqb (ex_nesting d) 0 then Ok (ExBraced, d) else Abort (* assert, line 615 *)
          else Ok (ExUndelimited, d)
      end
  | ExBraced =>
      if is_begin t then
        do a <- push_arg (ex_args d) (ex_arg d) t;
        Ok (ExBraced, with_nesting (with_args d a) (ex_nesting d + 1))
      else if is_end t then
        if Z.eqb (ex_nesting d) 0 then
          (* line 622: the reference to the argument *)
          match nth_error (ex_args d) (ex_arg d) with
          | None => UB
          | Some _ => advance_pattern ExBraced (next_arg d)
          end
        else
          do a <- push_arg (ex_args d) (ex_arg d) t;
          Ok (ExBraced, with_nesting (with_args d a) (ex_nesting d - 1))
      else
        do a <- push_arg (ex_args d) (ex_arg d) t;
        Ok (ExBraced, with_args d a)
  end.

(** preprocessor.cpp:542-659 [expandMacro] *)
Definition expandMacro (s : pstate) (sub : ex_sub) (d : ex_data) (t : token) : result pstate :=
  do m <- deref (ex_def d) (p_defs s);
  do x <- expand_step (m_param m) sub d t;
  let (sub', d') := (x : ex_sub * ex_data) in
  if Nat.eqb (ex_pat d') (List.length (m_param m)) then
    do e <- macro_expand m (ex_args d');
    leave (set_input s (e ++ p_input s))
  else Ok (set_top s (FExpanding sub' d')).

(** preprocessor.cpp:661-675 *)
Definition is_if (t : token) : bool :=
  match t with TCs (a :: b :: _) => Ascii.eqb a "i"%char && Ascii.eqb b "f"%char | _ => false end.
Definition is_else (t : token) : bool :=
  match t with TCs n => name_eqb n (str "else") | _ => false end.
Definition is_fi (t : token) : bool :=
  match t with TCs n => name_eqb n (str "fi") | _ => false end.

(** preprocessor.cpp:677-712 [branch] *)
Definition branch (s : pstate) (d : br_data) (t : token) : result pstate :=
  let keep n :=
    Ok (set_top s (FBranching (mkBr (br_success d) (br_inside_if d) n
         (if Bool.eqb (br_success d) (br_inside_if d) then br_branch d ++ [t] else br_branch d)))) in
  if is_if t then keep (S (br_nesting d))
  else if is_else t then
    if Nat.eqb (br_nesting d) 0
    then Ok (set_top s (FBranching (mkBr (br_success d) false (br_nesting d) (br_branch d))))
    else keep (br_nesting d)
  else if is_fi t then
    if Nat.eqb (br_nesting d) 0 then leave (set_input s (br_branch d ++ p_input s))
    else keep (br_nesting d - 1)
  else keep (br_nesting d).

(** preprocessor.cpp:714-731 [formCs]; a parameter token reads the inactive
    member of the token's union *)
Definition formCs (s : pstate) (n : name) (t : token) : result pstate :=
  match t with
  | TCs c => if name_eqb c (str "endcsname") then leave (set_input s (TCs n :: p_input s)) else Throw
  | TChar c _ => Ok (set_top s (FForming (n ++ [c])))
  | TParam _ => UB
  end.

(** preprocessor.cpp:738-765 [expandafter] *)
Definition expandafter_reading (s : pstate) (t : token) : result pstate :=
  match t with TCs _ => Ok (set_top s (FAfterExpanding t)) | _ => Throw end.
Definition expandafter_expanding (s : pstate) (cs t : token) : result pstate :=
  match t with
  | TCs n =>
      let framecount := List.length (p_frames s) in
      do s' <- processControlSeq (set_top s (FAfterInserting cs)) n;
      if Nat.eqb (List.length (p_frames s')) framecount then leave (enter s' FIdle) else Ok s'
  | _ => Throw
  end.

(** preprocessor.cpp:362-393 [process] *)
Definition process (s : pstate) (t : token) : result pstate :=
  match p_frames s with
  | [] => UB
  | FReading sub d :: _ => readMacro s sub d t
  | FExpanding sub d :: _ => expandMacro s sub d t
  | FBranching d :: _ => branch s d t
  | FForming n :: _ => formCs s n t
  | FAfterReading :: _ => expandafter_reading s t
  | FAfterExpanding cs :: _ => expandafter_expanding s cs t
  | FAfterInserting _ :: _ => Ok s
  | FIdle :: _ =>
      match t with
      | TChar _ _ => Ok (set_output s (p_output s ++ [t]))
      | TCs n => processControlSeq s n
      | TParam _ => Throw
      end
  end.

(** preprocessor.cpp:310-317 [advance] *)
Definition advance (s : pstate) : result pstate :=
  match p_input s with
  | [] => Ok s
  | t :: r => process (set_input s r) t
  end.

(** preprocessor.h:285-291 [write] *)
Definition pwrite (s : pstate) (t : token) : result pstate :=
  match p_input s with
  | [] => process s t
  | _ => Ok (set_input s (p_input s ++ [t]))
  end.
Definition pwrites (s : pstate) (ts : list token) : result pstate := foldM pwrite ts s.

(** [n] calls of [advance] *)
Fixpoint advances (n : nat) (s : pstate) : result pstate :=
  match n with
  | O => Ok s
  | S n' => do s' <- advance s; advances n' s'
  end.

(** src/parsing/format.cpp:21: the category table *)
Definition format_catcodes : catcodes :=
  fun c => if Ascii.eqb c "@"%char then Letter else DefaultCatCodes c.

(** src/parsing/format.cpp:18-46 [Format::parse] *)
Definition all_macros (d : list scope) : list macro := flat_map (fun s => map snd (sc_macros s)) d.
Definition format_parse (src : list ascii) : result (list macro) :=
  match feed format_catcodes lexer_init src with
  | (_, Some _) => Throw
  | (l, None) =>
      do s <- pwrites pinit (l_out l);
      Ok (all_macros (p_defs s))
  end.
