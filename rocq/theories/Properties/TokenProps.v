(** Tokens are values: C60. *)
From Coq Require Import List Ascii String ZArith Bool Arith.
From Verif.Base Require Import Result.
From Verif.Model Require Import Token TokenUnion.
From Verif.Spec Require Import TokenSpec.
From Verif.Proofs Require Import TokenProofs.
Import ListNotations.

(** C60: unless memory runs out, a program is never undefined, every token holds
    the value last put in it, and every string is in one token or destroyed. *)
Theorem C60_values :
  forall alloc moved l, (forall n, alloc n = true) -> valid_all moved no_vals l ->
    exists w, run alloc moved l w_init = Ok w /\
      (forall x, value_of w x = after_all moved no_vals l x) /\
      (forall x, w_obj w x = None <-> after_all moved no_vals l x = None) /\ strings_ok w.
Proof. exact token_values. Qed.
(** C60: also when memory runs out, no string is lost or destroyed twice *)
Theorem C60_strings :
  forall alloc moved l w, run alloc moved l w_init = Ok w -> strings_ok w.
Proof. exact token_strings. Qed.
Theorem C60_no_leak :
  forall alloc moved l w, run alloc moved l w_init = Ok w -> (forall x, w_obj w x = None) ->
    w_live w = [] /\ NoDup (w_dead w) /\ forall id, (id < w_next w)%nat <-> In id (w_dead w).
Proof. exact token_no_leak. Qed.
(** C60: comparing compares the values *)
Theorem C60_equal :
  forall x y w t u, value_of w x = Some t -> value_of w y = Some u ->
    equal x y w = Ok (Some (token_eqb t u), w).
Proof. exact equal_values. Qed.
Theorem C60_category :
  forall x k w t, value_of w x = Some t -> has_category x k w = Ok (Some (token_is t k), w).
Proof. exact category_value. Qed.
(** C60: a constructor that fails changes nothing *)
Theorem C60_ctor_throw :
  forall alloc moved o w w', (exists x s, o = OCs x s) \/ (exists x y, o = OCopy x y) ->
    exec alloc moved o w = Ok (None, w') ->
    (forall z, w_obj w' z = w_obj w z) /\ w_next w' = w_next w /\ w_live w' = w_live w /\ w_dead w' = w_dead w.
Proof. exact ctor_throw. Qed.
(* an assignment that fails leaves a token without a live member: the next use is undefined *)
Theorem C60_assign_throw_refuted :
  exists alloc moved l x, valid_all moved no_vals (l ++ [ODestroy x]) /\
    (exists w, run alloc moved l w_init = Ok w) /\ run alloc moved (l ++ [ODestroy x]) w_init = UB.
Proof.
  exists (fun n => Nat.eqb n 0), (fun s => s), [OCs 1 (str "a"); ODefault 0; OAssign 0 1], 0.
  split; [cbn; repeat split; discriminate|]. split; [eexists; reflexivity|reflexivity].
Qed.

Example C60_case :
  let l := [OCs 0 (str "def"); OParam 1 3; OMove 2 0; OAssign 1 2; OMoveAssign 2 2; ODestroy 0] in
  valid_all (fun _ => []) no_vals l /\
  exists w, run (fun _ => true) (fun _ => []) l w_init = Ok w /\
    value_of w 1 = Some (TCs (str "def")) /\ value_of w 2 = Some (TCs []) /\ w_live w = [2; 1] /\ w_dead w = [0].
Proof. split; [cbn; repeat split; discriminate|]. eexists. repeat split. Qed.

Print Assumptions C60_values.
Print Assumptions C60_strings.
Print Assumptions C60_no_leak.
Print Assumptions C60_equal.
Print Assumptions C60_category.
Print Assumptions C60_ctor_throw.
Print Assumptions C60_assign_throw_refuted.
