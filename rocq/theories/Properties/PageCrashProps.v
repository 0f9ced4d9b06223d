(** C106: why the page editor crashes. *)
From Coq Require Import List Ascii String ZArith QArith Qcanon Bool Arith Lia.
From Verif.Base Require Import Result Num.
From Verif.Model Require Import Token Lexer Macro Dimen DimenParser Glue Box ListBuilders LineBreaks MathList MathParser MathTypeset
  MathFrontend PageEditor Preprocessor.
From Verif.Spec Require Import MathSpec EquationOkSpec EscapeSpec CrashSpec PageEditorSpec.
From Verif.Spec Require TypesetOkSpec.
From Verif.Spec Require Import LineBreakSpec.
From Verif.Proofs Require Import PageCrashRun.
From Verif.Properties Require Import PageEditorProps.
Import ListNotations.
Local Open Scope string_scope.
Local Open Scope nat_scope.
Local Open Scope list_scope.

(** * A step crashes only for one of the causes *)
Theorem C106_causes : forall (N : Num) (K : host N) u, PageEditorSpec.reached K u -> crashes (m_advance K u) -> cause K u \/ groups_gone K u.
Proof. intros N K. exact (crash_causes K). Qed.
(** and for each of them it does *)
Theorem C106_sharp : forall (N : Num) (K : host N) u, PageEditorSpec.reached K u -> cause K u \/ groups_gone K u -> crashes (m_advance K u).
Proof. intros N K u R [C|C]; [exact (cause_crashes K u R C)|exact (gone_crashes K u R C)]. Qed.
(** a text: the crash is that of one step *)
Theorem C106_text : forall (N : Num) (K : host N) f h s text n, machine_new K f h = Ok s -> crashes (typeset K n s text) ->
  exists tr u, run K (start s text) tr u /\ crashes (m_advance K u) /\ (cause K u \/ groups_gone K u).
Proof. intros N K. exact (text_crashes K). Qed.
Theorem C106_text_sharp : forall (N : Num) (K : host N) f h s text tr u, machine_new K f h = Ok s -> run K (start s text) tr u -> cause K u \/ groups_gone K u ->
  exists n, forall m, n <= m -> crashes (typeset K m s text).
Proof. intros N K. exact (cause_text K). Qed.

(** * Formulas: it is an unfinished construction that cannot be shown *)
Theorem C106_formula : forall (N : Num) (K : host N) u s st buf p y,
  TypesetOkSpec.char_engine (k_math K) -> TypesetOkSpec.self_equal N ->
  PageEditorSpec.reached K u -> digests K u s \/ finishes K u s -> In (MM st buf p) (ms_modes s) -> cannot_show K y p ->
  exists p' ts, do_call p CFinish = Ok p' /\ output_is p' ts /\ showable ts = false.
Proof. intros N K. exact (cannot_show_why K). Qed.
Theorem C106_formula_converse : forall (N : Num) (K : host N) u s st buf p y p' ts,
  PageEditorSpec.reached K u -> digests K u s \/ finishes K u s -> In (MM st buf p) (ms_modes s) ->
  do_call p CFinish = Ok p' -> output_is p' ts -> showable ts = false ->
  exists k, forall K' : host N, k <= k_fuel K' -> cannot_show K' y p.
Proof. intros N K. exact (shows_not K). Qed.

(** * Paragraphs: exact arithmetic, nothing of negative width, and not too long *)
Theorem C106_lines : forall (K : host QcNum) (me : memory QcNum) (b : vbuilder QcNum) l pm, k_pows K = QcPows -> Forall ordinary l ->
  (forall n, (0 < linelength (paragraph me (vb_prevdepth b)) n)%Qc) -> penalties_within l pm -> (0 <= pm)%Z ->
  (Z.of_nat (List.length l + 3) * (666100 + pm * pm) < int_max)%Z -> ~ bad_lines K me b l.
Proof. exact lines_fine. Qed.
(** without penalties: up to 3220 items *)
Theorem C106_short : forall (K : host QcNum) (me : memory QcNum) (b : vbuilder QcNum) l, k_pows K = QcPows -> Forall ordinary l ->
  (forall n, (0 < linelength (paragraph me (vb_prevdepth b)) n)%Qc) -> (forall p, In (NPenalty p) l -> p = 0%Z \/ (Z.abs p >= 10000)%Z) ->
  List.length l <= 3220 -> ~ bad_lines K me b l.
Proof.
  intros K me b l E O L P B. apply (lines_fine K me b l 0 E O L); [|lia|unfold int_max; lia].
  intros p H R. destruct (P p H); lia.
Qed.

(** * Examples: 2 is undefined behaviour, 3 a failed assertion *)
(** [\csname] and a parameter, outside of a definition *)
Example csname_ex : map typesets ["\csname#1"; "\csname a#1"; "x\csname par\endcsname "] = [2; 2; 0].
Proof. vm_compute. reflexivity. Qed.
(** dimensions *)
Example unit_ex : map typesets ["x\lower 1fil "; "x\lower 1fi\par "; "\parshape 1 1fil "; "\parshape 1 1pt 1fi\par "; "\kern 1fil "] = [3; 3; 3; 3; 1] /\
  map typesets ["\parshape 99999999999"; "\parshape 1 1pt 90pt x\par "] = [2; 0].
Proof. split; vm_compute; reflexivity. Qed.
(** arguments, and formulas that cannot be shown *)
Example formula_ex : map typesets ["a$\frac\textstyle x$"; "a$\textstyle $"; "$$\textstyle $$"; "a$\textstyle "; "$$\textstyle "] = [2; 2; 2; 2; 2] /\
  map typesets ["a$\frac x y$"; "a$\left(x$"] = [0; 1].
Proof. split; vm_compute; reflexivity. Qed.
(** more groups were ended than begun *)
Example groups_ex : map typesets ["}"; "x}"; "{\hbox{a}}}"; "{x}"; "x}\par "; "x}\def\a{b}"; "x}\parshape "; "x} "] = [2; 2; 2; 0; 2; 2; 2; 2] /\
  map typesets ["x}\undefined "; "x}{"; "x}\def "; "x}$y"] = [1; 1; 2; 2].
Proof. split; vm_compute; reflexivity. Qed.
(** a character of four bytes in a debug build, and a font that crashes *)
Definition crash_host (d : bool) : host F32 :=
  mkHost toy_font (fun _ => toy_metrics) (fun _ => fl 10) (fun _ => fl 4) toy_engine (fun _ _ _ => UB)
    (mkPows (fun _ => 0%Z) (fun _ _ => true)) (fun _ => true) d true 20.
Definition tries (d : bool) (text : list ascii) : nat :=
  outcome (do s <- machine_new (crash_host d) 0 (fl 100); typeset (crash_host d) 1000 s text).
Definition letter : list ascii := map ascii_of_nat [240; 144; 128; 128].
Example character_ex : map (tries true) [letter; txt "a$" ++ letter] = [3; 3] /\ tries false letter = 0.
Proof. split; vm_compute; reflexivity. Qed.
Example font_ex : map (tries false) [txt "\font\x={cmr}"; txt "\font\x x"] = [2; 1].
Proof. vm_compute; reflexivity. Qed.
(** there are such states *)
Lemma state_by (K : host F32) f h n text : outcome (machine_new K f h) = 0 -> outcome (do s <- machine_new K f h; typeset K n s text) = 2 ->
  exists u, PageEditorSpec.reached K u /\ crashes (m_advance K u) /\ (cause K u \/ groups_gone K u).
Proof.
  intros T0 T. destruct (machine_new K f h) as [s| | | |] eqn:E; try discriminate T0; cbn [bind] in T.
  - destruct (C106_text F32 K f h s text n E) as (tr & u & R & C & X).
    + left. destruct (typeset K n s text); try discriminate T; reflexivity.
    + exists u. split; [|split; assumption]. exact (run_reached K f h s _ tr u E R).
Qed.
Example cause_ex : exists u, PageEditorSpec.reached toy u /\ crashes (m_advance toy u) /\ (cause toy u \/ groups_gone toy u).
Proof. apply (state_by toy 0 (fl 100) 1000 (txt "\csname#1")); vm_compute; reflexivity. Qed.

(** a paragraph in two words *)
Definition word (w : Q) : node QcNum := NBox (mkMetrics (N := QcNum) (Q2Qc 5) (Q2Qc 0) (Q2Qc w)).
Definition two_words : list (node QcNum) := [word 30; NGlue (mkGlue (N := QcNum) (Q2Qc 3) (Q2Qc 0) (Q2Qc 1) Normal Normal); word 20].
Example lines_ex : Forall ordinary two_words /\ List.length two_words <= 3220 /\
  (forall p, In (NPenalty p) two_words -> p = 0%Z \/ (Z.abs p >= 10000)%Z).
Proof.
  split; [repeat constructor; vm_compute; congruence|]. split; [vm_compute; lia|].
  intros p H. cbn in H. repeat (destruct H as [H|H]; [discriminate H|]). destruct H.
Qed.

Print Assumptions C106_causes.
Print Assumptions C106_sharp.
Print Assumptions C106_text.
Print Assumptions C106_text_sharp.
Print Assumptions C106_formula.
Print Assumptions C106_formula_converse.
Print Assumptions C106_lines.
Print Assumptions C106_short.
