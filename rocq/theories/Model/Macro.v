(** Model of class Macro: include/tex/parsing/preprocessor.h:20-62 and
    src/parsing/preprocessor.cpp:16-218. *)
From Coq Require Import List Ascii String ZArith Bool.
From Verif.Base Require Import Result.
From Verif.Model Require Import Token.
Import ListNotations.

(** include/tex/parsing/preprocessor.h:58-61 *)
Record macro := mkMacro { m_cs : name; m_param : list token; m_repl : list token }.

(** [std::array<std::vector<Token>, 9>], value-initialised *)
Definition arguments := list (list token).
Definition no_args : arguments := repeat [] 9.

(** [arguments.at(z)] with [z] converted to [size_t] *)
Definition args_at (a : arguments) (z : Z) : result (list token) :=
  if (z <? 0)%Z then Throw
  else match nth_error a (Z.to_nat z) with Some x => Ok x | None => Throw end.

Fixpoint set_nth {A} (i : nat) (x : A) (l : list A) : list A :=
  match l, i with
  | [], _ => []
  | _ :: r, O => x :: r
  | y :: r, S j => y :: set_nth j x r
  end.
(** [arguments[z] = x]: undefined outside the array *)
Definition args_set (a : arguments) (z : Z) (x : list token) : result arguments :=
  if (z <? 0)%Z then UB
  else if Nat.ltb (Z.to_nat z) (List.length a) then Ok (set_nth (Z.to_nat z) x a) else UB.

(** include/tex/parsing/preprocessor.h:34-48 [MatchResult] *)
Inductive match_code : Set := PartialMatch | CompleteMatch | NoMatch.
Record match_result := mkMR { mr_code : match_code; mr_size : nat; mr_args : arguments }.

Definition is_begin (t : token) : bool := token_is t GroupBegin.
Definition is_end (t : token) : bool := token_is t GroupEnd.
Definition is_spacetok (t : token) : bool := token_is t Space.

(** src/parsing/preprocessor.cpp:54-69: the loop over a braced argument.
    [acc] holds the tokens read; the result is the argument with its closing
    brace and the rest, or [None] when the input ends inside. *)
Fixpoint read_braced (depth : Z) (acc rest : list token) : option (list token * list token) :=
  if Z.eqb depth 0 then Some (acc, rest)
  else
    match rest with
    | [] => None
    | t :: r =>
        read_braced (if is_begin t then (depth + 1)%Z else if is_end t then (depth - 1)%Z else depth)
                    (acc ++ [t]) r
    end.

(** An argument reader: the argument and the remaining input, or the result
    code with which the match ends (and what is left of the input) *)
Inductive arg_read :=
| Arg (a rest : list token)
| Stop (c : match_code) (rest : list token).

(** src/parsing/preprocessor.cpp:24-85 [read_undelimited_arg]; [rest] is the
    input from index [result.size] on *)
Definition read_undelimited (rest : list token) : result arg_read :=
  match rest with
  | [] => Throw                                    (* input.at() *)
  | t0 :: r0 =>
      let rest1 := if is_spacetok t0 then r0 else rest in
      match rest1 with
      | [] => Ok (Stop PartialMatch [])
      | t :: r =>
          if isControlSequence t then Ok (Arg [t] r)
          else if negb (isCharacterToken t) then Abort (* assert, line 45 *)
          else if is_begin t then
            match read_braced 1 [] r with
            | Some (a, r') => Ok (Arg (removelast a) r')
            | None => Ok (Stop PartialMatch [])
            end
          else Ok (Arg [t] r)
      end
  end.

(** src/parsing/preprocessor.cpp:87-128 [read_delimited_arg] *)
Fixpoint read_delimited (d : token) (depth : Z) (acc rest : list token) : arg_read :=
  match rest with
  | [] => Stop PartialMatch []
  | t :: r =>
      if negb (token_eqb t d) || negb (Z.eqb depth 0) then
        match t with
        | TChar _ k =>
            read_delimited d
              (if cat_eqb k GroupBegin then (depth + 1)%Z
               else if cat_eqb k GroupEnd then (depth - 1)%Z else depth) (acc ++ [t]) r
        | TCs n => if name_eqb n (str "par") then Stop NoMatch rest
                   else read_delimited d depth (acc ++ [t]) r
        | TParam _ => read_delimited d depth (acc ++ [t]) r
        end
      else Arg acc rest
  end.

(** src/parsing/preprocessor.cpp:130-140 [read_arg]; [pat] is the pattern after
    the parameter *)
Definition read_arg (pat rest : list token) : result arg_read :=
  match pat with
  | [] => read_undelimited rest
  | d :: _ => if isParameterToken d then read_undelimited rest
              else Ok (read_delimited d 0 [] rest)
  end.

(** src/parsing/preprocessor.cpp:142-176 [Matcher::match]; the size is the
    length of the input consumed *)
Fixpoint match_loop (total : nat) (pat : list token) (args : arguments) (rest : list token)
  : result match_result :=
  let stop c rest := Ok (mkMR c (total - List.length rest) args) in
  match pat with
  | [] => Ok (mkMR CompleteMatch (total - List.length rest) args)
  | p :: pat' =>
      match rest with
      | [] => stop PartialMatch rest
      | t :: r =>
          match p with
          | TParam n =>
              do x <- read_arg pat' rest;
              match x with
              | Arg a rest' =>
                  do args' <- args_set args (n - 1) a;
                  match_loop total pat' args' rest'
              | Stop c rest' => stop c rest'
              end
          | _ => if token_eqb t p then match_loop total pat' args r else stop NoMatch rest
          end
      end
  end.

(** src/parsing/preprocessor.cpp:179-183 [Macro::match] *)
Definition macro_match (m : macro) (text : list token) : result match_result :=
  match_loop (List.length text) (m_param m) no_args text.

(** src/parsing/preprocessor.cpp:197-218 [Macro::expand]: the loop over the
    replacement text *)
Fixpoint expand_list (args : arguments) (l : list token) : result (list token) :=
  match l with
  | [] => Ok []
  | TParam n :: r =>
      do a <- args_at args (n - 1);
      do e <- expand_list args r;
      Ok (a ++ e)
  | t :: r => do e <- expand_list args r; Ok (t :: e)
  end.
Definition macro_expand (m : macro) (args : arguments) : result (list token) :=
  expand_list args (m_repl m).
