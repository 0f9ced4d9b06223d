(** C104: the window of the page editor. *)
From Coq Require Import List Ascii String ZArith QArith Bool Arith.
From Verif.Base Require Import Result Num.
From Verif.Model Require Import Token Lexer Macro Dimen DimenParser Glue Box ListBuilders LineBreaks MathList MathTypeset PageEditor PageWindow
  Preprocessor.
From Verif.Spec Require Import PageEditorSpec PageWindowSpec EscapeSpec.
From Verif.Proofs Require Import PageStream PageRun PageText PageWindow PageEscapes.
From Verif.Properties Require Import PageEditorProps.
Import ListNotations.
Local Open Scope string_scope.
Local Open Scope nat_scope.
Local Open Scope list_scope.

(** * What is shown after a text *)
Theorem C104_shown : forall (N : Num) (K : host N) n h w text b, text <> [] ->
  (text_changed K n h w text = Ok (mkPWin text (Some b) StReport) <-> typesets_as K n h text (Ok b)).
Proof. intros N K. exact (shows_iff K). Qed.
Theorem C104_failed : forall (N : Num) (K : host N) n h w text r,
  text <> [] -> typesets_as K n h text r -> (forall b, r <> Ok b) ->
  (r = Throw /\ ((exists line col, text_changed K n h w text = Ok (mkPWin text (pw_page w) (StError line col))) \/
                 text_changed K n h w text = Abort)) \/
  (r = UB /\ text_changed K n h w text = UB) \/ (r = Abort /\ text_changed K n h w text = Abort) \/
  (r = Fuel /\ text_changed K n h w text = Fuel).
Proof. intros N K. exact (fails_iff K). Qed.
(** the number of steps allowed does not matter, if they are enough *)
Theorem C104_enough : forall (N : Num) (K : host N) n m h w text,
  text_changed K n h w text <> Fuel -> text_changed K (n + m) h w text = text_changed K n h w text.
Proof. intros N K. exact (changed_more K). Qed.

(** * Where the error is *)
Theorem C104_position : forall (N : Num) (K : host N) n h w text line col,
  text <> [] -> text_changed K n h w text = Ok (mkPWin text (pw_page w) (StError line col)) ->
  exists a b, text = a ++ b /\ position_of a line col /\
    (b = [] \/ forall w' b', text_changed K n h w' (a ++ b') = Ok (mkPWin (a ++ b') (pw_page w') (StError line col))).
Proof. intros N K. exact (error_where K). Qed.
Theorem C104_crash : forall (N : Num) (K : host N) n h w text r,
  r = UB \/ r = Abort -> text_changed K n h w text = r ->
  exists a b, text = a ++ b /\ (b = [] \/ forall w' b', text_changed K n h w' (a ++ b') = r).
Proof. intros N K. exact (crash_where K). Qed.

(** * A session *)
Theorem C104_session : forall (N : Num) (K : host N) n h es x, window_session K n h es = Ok x ->
  let w := se_window x in
  pw_text w = last (map new_text es) [] /\
  last_with (makes_page_after K n h) es (pw_page w) /\
  match pw_status w with
  | StNone => forall e, In e es -> new_text e = []
  | StReport => exists b, last_with (typesets_after K n h) es (Some (Ok b)) /\ pw_page w = Some b
  | StError _ _ => last_with (typesets_after K n h) es (Some Throw)
  | StWhat => False
  end.
Proof. intros N K. exact (session_shows K). Qed.

(** * What one would expect and is not so *)
Definition status_of (r : result (pwindow F32)) : option status :=
  match r with Ok w => Some (pw_status w) | _ => None end.
Definition blank (w : pwindow F32) : bool := match pw_page w with None => true | Some _ => false end.
Definition after (text : string) : result (pwindow F32) := text_changed toy 1000 (fl 100) window_new (txt text).
(** a page that is deleted remains in view *)
Theorem C104_cleared_refuted : forall (N : Num) (K : host N) n h w,
  text_changed K n h w [] = Ok (mkPWin [] (pw_page w) (pw_status w)).
Proof. reflexivity. Qed.
Lemma outcome_throw {A} (r : result A) : outcome r = 1 -> r = Throw.
Proof. now destruct r. Qed.
Lemma outcome_abort {A} (r : result A) : outcome r = 3 -> r = Abort.
Proof. now destruct r. Qed.
Lemma kern_throws : typesets_as toy 1000 (fl 100) (txt "\kern\par x") Throw.
Proof. apply typesets_by, outcome_throw. vm_compute. reflexivity. Qed.
Lemma kern_aborts w : text_changed toy 1000 (fl 100) w (txt "\kern\par x") = Abort.
Proof. apply outcome_abort. vm_compute. reflexivity. Qed.
(** a text the typesetter refuses with an exception need not be reported: the
    editor ends *)
Theorem C104_reported_refuted : exists (N : Num) (K : host N) n h text,
  typesets_as K n h text Throw /\ forall w, text_changed K n h w text = Abort.
Proof.
  exists F32, toy, 1000, (fl 100), (txt "\kern\par x"). exact (conj kern_throws kern_aborts).
Qed.
(** Exactly when it ends: a number is missing or too large, or a group is begun
    after the last one has been ended *)
Theorem C104_fatal : forall (N : Num) (K : host N) n h w text, text <> [] -> typesets_as K n h text Throw ->
  (text_changed K n h w text = Abort <-> fatal K h text).
Proof. intros N K. exact (ends_iff K). Qed.
(** a number is missing when there are only signs *)
Theorem C104_signs : forall w d, dp_writes dp_init w = Ok d ->
  (no_digit d <-> Forall (fun c => c = "+"%char \/ c = "-"%char) w).
Proof. exact no_digit_signs. Qed.
Lemma foo_throws : typesets_as toy 1000 (fl 100) (txt "c\foo d") Throw.
Proof. apply typesets_by, outcome_throw. vm_compute. reflexivity. Qed.
Example fatal_ex : fatal toy (fl 100) (txt "\kern\par x") /\ ~ fatal toy (fl 100) (txt "c\foo d").
Proof.
  split.
  - apply (C104_fatal F32 toy 1000 (fl 100) window_new); [discriminate|exact kern_throws|exact (kern_aborts _)].
  - intros H. apply (C104_fatal F32 toy 1000 (fl 100) window_new) in H; [|discriminate|exact foo_throws].
    assert (E : outcome (text_changed toy 1000 (fl 100) window_new (txt "c\foo d")) = 0) by (vm_compute; reflexivity).
    rewrite H in E. discriminate E.
Qed.
Example escapes_ex : map (fun t => outcome (after t)) ["\kern\par x"; "a}{"; "\kern-pt x"; "\kern1pt x"; "}"] = [3; 3; 0; 0; 2] /\
  map typesets ["\kern\par x"; "a}{"; "\kern-pt x"; "\kern1pt x"; "}"] = [1; 1; 1; 0; 2].
Proof. vm_compute. auto. Qed.
(** where a number is missing: a shape ended by a word too early, or at its last
    length; a dimension with a sign, or a point *)
Example escapes_shape :
  let texts := ["\parshape 2 1pt \par x"; "\parshape 2 1pt 2pt \par x"; "\parshape 1 1pt \par x"; "\parshape=1 1pt 2pt\par x";
                "\parshape 1 -pt 2pt x"; "\parshape 1 1pt -\par x"; "\parshape=1 1pt 2\par x"; "\parshape x"] in
  map (fun t => outcome (after t)) texts = [0; 0; 3; 0; 0; 3; 3; 0] /\ map typesets texts = [1; 1; 1; 0; 1; 1; 3; 1].
Proof. vm_compute. auto. Qed.
Example escapes_lower :
  let texts := ["a\lower\par x"; "a\lower-\par x"; "a\lower-pt x"; "a\lower1pp x"; "a\kern\par x"; "a\kern.pt x"; "{a}"] in
  map (fun t => outcome (after t)) texts = [3; 3; 0; 0; 3; 0; 0] /\ map typesets texts = [1; 1; 1; 1; 1; 0; 0].
Proof. vm_compute. auto. Qed.
Example status_ex :
  map (fun t => status_of (after t)) ["ab"; "a#b"; ""; "c\foo d"] =
    [Some StReport; Some (StError 0 3); Some StNone; Some (StError 0 6)] /\
  status_of (text_changed toy 1000 (fl 100) window_new (txt "ab" ++ newline :: txt "c\foo d")) = Some (StError 1 6) /\
  status_of (text_changed toy 1000 (fl 100) window_new (txt "ab" ++ newline :: txt "c\foo d\bar e")) = Some (StError 1 6) /\
  status_of (text_changed toy 1000 (fl 100) window_new sample) = Some StReport.
Proof. vm_compute. auto. Qed.
(** a text, a mistake, nothing: the page of the first text is still there *)
Example session_ex :
  let r := rmap se_window (window_session toy 1000 (fl 100) [ETyped (txt "ab"); ETyped (txt "ab\foo x"); ETyped []]) in
  status_of r = Some (StError 0 7) /\ rmap blank r = Ok false.
Proof. vm_compute. auto. Qed.

Print Assumptions C104_shown.
Print Assumptions C104_failed.
Print Assumptions C104_enough.
Print Assumptions C104_position.
Print Assumptions C104_crash.
Print Assumptions C104_session.
Print Assumptions C104_cleared_refuted.
Print Assumptions C104_reported_refuted.
Print Assumptions C104_fatal.
Print Assumptions C104_signs.
