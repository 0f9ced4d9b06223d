(** C57-C59, C81, C82: the page editor. *)
From Coq Require Import List Ascii String ZArith QArith Bool Arith.
From Verif.Base Require Import Result Num.
From Verif.Model Require Import Token Lexer Macro Glue Box ListBuilders LineBreaks MathList MathTypeset PageEditor
  Preprocessor.
From Verif.Spec Require Import PageEditorSpec.
From Verif.Proofs Require Import PageStream PageFindings PageRun.
Import ListNotations.
Local Open Scope nat_scope.

Definition txt := list_ascii_of_string.

(** * C57: carriage returns and positions *)
Theorem C57_carriage_returns : forall s,
  removeCRLF s = filter (fun c => negb (Ascii.eqb c carriage_return)) s.
Proof. exact removeCRLF_filter. Qed.
Theorem C57_position : forall text pos line col, pos <= List.length text ->
  position (mkStream text pos) = Ok (line, col) <-> position_of (firstn pos text) line col.
Proof. exact position_iff. Qed.
Theorem C57_position_total : forall text pos,
  (pos <= List.length text -> exists line col, position (mkStream text pos) = Ok (line, col)) /\
  (List.length text < pos -> position (mkStream text pos) = Throw).
Proof.
  intros text pos. split; intros H.
  - destruct (position_ok text pos H) as (line & col & E & _). eauto.
  - now apply position_past.
Qed.
Theorem C57_read : forall text n pos, pos + n <= List.length text ->
  reads n (mkStream text pos) = Ok (firstn n (skipn pos text), mkStream text (pos + n)).
Proof. exact reads_spec. Qed.
Example stream_ex :
  removeCRLF (txt "ab" ++ [carriage_return; newline] ++ txt "cd") = txt "ab" ++ [newline] ++ txt "cd" /\
  position (mkStream (txt "ab" ++ [newline] ++ txt "cde") 5) = Ok (1, 2) /\
  reads 2 (mkStream (txt "hello") 1) = Ok (txt "el", mkStream (txt "hello") 3).
Proof. repeat split. Qed.

(** * A host for the examples *)
Definition fl (z : Z) : F32 := nz z.
Definition toy_metrics : metrics F32 := mkMetrics (fl 7) (fl 3) (fl 5).
Definition toy_params : fparams F32 :=
  let u := fl 1 in mkFP u u u u u u u u u u u u u u u u u u u u.
Definition toy_engine : engine F32 :=
  mkEngine (fun _ _ => toy_params) (fun _ _ _ => toy_metrics) (fun _ _ _ => fl 0)
    (fun y _ _ => NChar (s_char y) toy_metrics) (fun _ _ => NBox toy_metrics) (fun _ => NBox toy_metrics)
    (fun _ => NBox toy_metrics).
Definition toy_font (f : Z) : hmetrics F32 :=
  mkHM (fun _ => toy_metrics) (fun _ => 1000%Z) (fl 3) (fl 2) (fl 1) (fl 0).
Definition toy : host F32 :=
  mkHost toy_font (fun _ => toy_metrics) (fun _ => fl 10) (fun _ => fl 4) toy_engine
    (fun l _ _ => Ok (Z.of_nat (List.length l) + 1)%Z)
    (mkPows (fun _ => 0%Z) (fun _ _ => true)) (fun _ => true) false true 20.
Definition outcome {A} (r : result A) : nat :=
  match r with Ok _ => 0 | Throw => 1 | UB => 2 | Abort => 3 | Fuel => 4 end.
Definition typesets (text : string) : nat :=
  outcome (do s <- machine_new toy 0 (fl 100); typeset toy 1000 s (txt text)).
(** the depth of groups and the number of macros in force, step by step *)
Fixpoint trace (n : nat) (s : machine F32) : list (nat * nat) :=
  (depth s, List.length (all_macros (p_defs (ms_pre s)))) ::
  match n with
  | O => []
  | Datatypes.S n => match m_advance toy s with Ok s => trace n s | _ => [] end
  end.
Definition pair_dec (x y : nat * nat) : {x = y} + {x <> y}.
Proof. decide equality; apply Nat.eq_dec. Defined.
Definition trace_of (n : nat) (text : string) : list (nat * nat) :=
  match machine_new toy 0 (fl 100) with Ok s => trace n (start s (txt text)) | _ => [] end.

(** * C58: groups *)
Theorem C58_restored : forall (N : Num) (K : host N) s inside s',
  reached K s -> group K s inside s' -> same_settings s s'.
Proof. intros N K. exact (group_restores K). Qed.
(** A closing brace too many is undefined behaviour, not an error. *)
Theorem C58_refuted : forall (N : Num) (K : host N) f h s n,
  machine_new K f h = Ok s -> typeset K (8 + n) s (txt "}") = UB.
Proof. intros N K. exact (closing_brace K). Qed.
Example groups_ex :
  typesets "{\def\a{x}\a}" = 0 /\ typesets "{\def\a{x}\a}\a " = 1 /\ typesets "\def\a{x}\a " = 0 /\ typesets "}" = 2 /\
  nodup pair_dec (trace_of 100 "{\def\a{x}\a}") =
    [(2, 2); (2, 3); (1, 2)].
Proof. vm_compute. repeat split. Qed.

(** * C59: fonts *)
Theorem C59_name_exact_partial : forall n spec, ~ In "}"%char spec ->
  (do p <- fp_write_cs fp_init n; foldM fp_write ("="%char :: "{"%char :: spec ++ ["}"%char]) p)
  = Ok (mkFPr FFinished n ("{"%char :: spec)).
Proof. exact font_braced. Qed.
Theorem C59_unbraced_exact_partial : forall n spec, ~ In "}"%char spec ->
  (do p <- fp_write_cs fp_init n; foldM fp_write ("="%char :: spec ++ ["}"%char]) p) = Ok (mkFPr FFinished n spec).
Proof. exact font_plain. Qed.
Theorem C59_refuted : forall n spec p, ~ In "}"%char spec ->
  (do p <- fp_write_cs fp_init n; foldM fp_write ("="%char :: "{"%char :: spec ++ ["}"%char]) p) = Ok p ->
  fp_spec p <> spec.
Proof.
  intros n spec p F H. rewrite (font_braced n spec F) in H. injection H as <-. cbn [fp_spec].
  intros X. apply (f_equal (@List.length ascii)) in X. cbn in X. exact (Nat.neq_succ_diag_l _ X).
Qed.
Theorem C59_rejected : (forall c, fp_write fp_init c = Throw) /\
  (forall n c, c <> "="%char -> (do p <- fp_write_cs fp_init n; fp_write p c) = Throw) /\
  (forall n spec p, ~ In "}"%char spec ->
     (do p <- fp_write_cs fp_init n; foldM fp_write ("="%char :: spec) p) = Ok p -> fp_isFinished p = false).
Proof. exact (conj font_name_first (conj font_equals font_unfinished)). Qed.
Example font_ex :
  (do p <- fp_write_cs fp_init (txt "big"); rmap fp_spec (foldM fp_write (txt "={cmr10 at 20pt}") p)) = Ok (txt "{cmr10 at 20pt") /\
  (do p <- fp_write_cs fp_init (txt "big"); rmap fp_spec (foldM fp_write (txt "=cmr10 at 20pt}") p)) = Ok (txt "cmr10 at 20pt") /\
  typesets "\font\big={cmr10}\big a" = 0 /\ typesets "\big a" = 1.
Proof. vm_compute. repeat split. Qed.

(** * C81: the machine between two steps *)
Theorem C81_stacks : forall (N : Num) (K : host N) s, reached K s ->
  List.length (ms_mem s) = List.length (p_defs (ms_pre s)).
Proof. intros N K. exact (stacks_together K). Qed.
Theorem C81_one_token : forall (N : Num) (K : host N) s, reached K s ->
  List.length (ms_tokens s) + List.length (p_output (ms_pre s)) <= 1.
Proof. intros N K. exact (one_token K). Qed.
Theorem C81_loop_ends : forall (N : Num) (K : host N) s n x, reached K s -> ms_state s = DigestToken ->
  3 * List.length (ms_modes s) + 6 <= n -> loop_or K x n s = digest K (digest_fuel s) s.
Proof. intros N K. exact (digest_ends K). Qed.
Theorem C81_cast : forall (N : Num) (K : host N) s text n s', reached K s -> ms_state s = Idle ->
  resume K n (start s text) = Ok s' ->
  exists st b, ms_modes s' = [MV st b] /\ typeset K n s text = Ok (vbox (vb_result b)).
Proof. intros N K. exact (typeset_cast K). Qed.
Example machine_ex :
  typesets "Hello \hbox{boxed {world}}, $x$ and $$y$$ end" = 0 /\
  outcome (do s <- machine_new toy 0 (fl 100); do s <- resume toy 1000 (start s (txt "one")); typeset toy 1000 s (txt "two"))
    = 0.
Proof. vm_compute. split; reflexivity. Qed.

(** * C82: a paragraph that begins with a formula *)
Theorem C82_refuted : forall (N : Num) (K : host N) f h s c rest n r,
  machine_new K f h = Ok s -> DefaultCatCodes c = Letter -> typeset K n s ("$"%char :: c :: rest) <> Ok r.
Proof. intros N K. exact (formula_text K). Qed.
Theorem C82_never_idle : forall (N : Num) (K : host N) s t b tr s',
  reached K s -> ms_state s = DigestToken -> ms_modes s = [MV VMathShift b] -> ms_tokens s = [t] ->
  mathshift t = false -> run K s tr s' -> tr <> [] -> ms_state s' <> Idle.
Proof. intros N K s t b tr s'. exact (formula_first K s t tr s' b). Qed.
Example formula_first_ex : typesets "$x$ is" = 1 /\ typesets "$x$\par" = 1 /\ typesets " $x$ is" = 1 /\
  typesets "a $x$ is" = 0 /\ typesets "$$x$$ is" = 0.
Proof. vm_compute. repeat split. Qed.

Print Assumptions C57_carriage_returns.
Print Assumptions C57_position.
Print Assumptions C57_position_total.
Print Assumptions C57_read.
Print Assumptions C58_restored.
Print Assumptions C58_refuted.
Print Assumptions C59_name_exact_partial.
Print Assumptions C59_unbraced_exact_partial.
Print Assumptions C59_refuted.
Print Assumptions C59_rejected.
Print Assumptions C81_stacks.
Print Assumptions C81_one_token.
Print Assumptions C81_loop_ends.
Print Assumptions C81_cast.
Print Assumptions C82_refuted.
Print Assumptions C82_never_idle.
