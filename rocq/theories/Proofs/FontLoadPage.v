(** Fonts loaded by the page editor. *)
From Coq Require Import List Ascii String ZArith QArith Bool Arith Lia.
From Verif.Base Require Import Result Num.
From Verif.Model Require Import Token Lexer Macro Dimen DimenParser Glue Box Tfm FontLoad ListBuilders LineBreaks MathList MathTypeset PageEditor
  Preprocessor.
From Verif.Spec Require Import PageEditorSpec FontLoadSpec.
From Verif.Proofs Require Import FontLoadProofs PageEnds.
Import ListNotations.
Local Open Scope nat_scope.

Section Page.
  Context {N : Num}.
  Variable K : host N.
  Variable to_float : name -> option N.
  Variable to_int : N -> option Z.
  Variable mag : N.
  Variable base : list (name * name) -> Z.
  Hypothesis loads : forall l n spec, k_load K l n spec = do f <- font_of to_float to_int mag spec; Ok (base l).

  Definition empty_font : list ascii := list_ascii_of_string "\font\x=}".
  Lemma empty_font_crashes f h s rest n : machine_new K f h = Ok s -> typeset K (22 + n) s (empty_font ++ rest) = UB.
  Proof.
    intros H. apply (shape_new K) in H as (me & b & ->). unfold typeset.
    assert (E : exists u, steps K 21 (start (mkMachine [me] (mkStream [] 0) lexer_init (mkP false [] [] format_defs [FIdle] 1) AMain [] [] []
        [MV VMain b] false Idle) (empty_font ++ rest)) = Ok u /\ ms_state u = SendToken /\ m_advance K u = UB).
    { eexists. split; [vm_compute; reflexivity|]. split; [reflexivity|]. vm_compute.
      assert (X : k_load K [] ["x"%char] [] = UB) by (rewrite loads; reflexivity).
      vm_compute in X. rewrite X. reflexivity. }
    destruct E as (u & E & S & C). change (22 + n) with (21 + Datatypes.S n). rewrite steps_resume, E. cbn [bind resume].
    rewrite S, C. reflexivity.
  Qed.
End Page.
