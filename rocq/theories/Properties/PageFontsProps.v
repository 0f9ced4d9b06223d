(** C108: the fonts of the page editor over a session. *)
From Coq Require Import List Ascii String ZArith Bool Arith Lia.
From Verif.Base Require Import Result Num.
From Verif.Model Require Import Token Lexer Macro Dimen DimenParser Glue Box ListBuilders LineBreaks MathList MathTypeset Tfm FontLoad PageEditor
  PageEngine PageWindow Preprocessor.
From Verif.Spec Require Import PageEditorSpec PageWindowSpec.
From Verif.Proofs Require Import PageWindow PageFonts.
From Verif.Properties Require Import PageEditorProps.
Import ListNotations.
Local Open Scope string_scope.
Local Open Scope nat_scope.
Local Open Scope list_scope.

(** * The numbers of the fonts do not matter *)
Theorem C108_same : forall (N : Num) (K K' : host N) n h w text,
  alike K K' -> fonts_agree K K' (loads_by K n h text) -> text_changed K n h w text <> Fuel ->
  text_changed K' n h w text = text_changed K n h w text /\ loads_by K' n h text = loads_by K n h text.
Proof. exact @changed_same. Qed.

(** * A session: every text as in an engine with its own fonts only *)
(** [engine_host … L] is the engine that loads the fonts [L] and no others *)
Theorem C108_alone : forall (N : Num) to_float to_int line_height (mag : N) any Q first own W n h tbl es x rest,
  let editor L := engine_host to_float to_int line_height mag any Q first own W L in
  window_session (editor tbl) n h es = Ok x -> tbl = se_loads x ++ rest ->
  exists Ls, se_loads x = List.concat Ls /\
    Forall2 (fun e L => loads_by (editor L) n h (new_text e) = L) es Ls /\
    foldM (fun w p => text_changed (editor (snd p)) n h w (new_text (fst p))) (combine es Ls) window_new = Ok (se_window x).
Proof. intros N to_float to_int line_height mag any Q first own W. exact (session_alone to_float to_int line_height mag any Q first own W). Qed.
Theorem C108_session : forall (N : Num) to_float to_int line_height (mag : N) any Q first own W n h tbl es Ls w rest,
  let editor L := engine_host to_float to_int line_height mag any Q first own W L in
  tbl = List.concat Ls ++ rest ->
  Forall2 (fun e L => loads_by (editor L) n h (new_text e) = L) es Ls ->
  foldM (fun w p => text_changed (editor (snd p)) n h w (new_text (fst p))) (combine es Ls) window_new = Ok w ->
  window_session (editor tbl) n h es = Ok (mkSession w (List.concat Ls)).
Proof. intros N to_float to_int line_height mag any Q first own W. exact (alone_session to_float to_int line_height mag any Q first own W). Qed.
(** The entry of a font loaded after the fonts [l], whatever is loaded later *)
Theorem C108_entry : forall (N : Num) to_float to_int line_height (mag : N) any first own l n sp r t x,
  loadFont to_float to_int line_height mag any (engine_table to_float to_int line_height mag any first own l) n sp = Ok (t, x) ->
  exists g, font_of to_float to_int mag sp = Ok g /\
    x = Z.of_nat (List.length (engine_table to_float to_int line_height mag any first own l)) /\
    font_at to_float to_int line_height mag any first own (l ++ (n, sp) :: r) x =
      mkEntry n g (t_dimen (to_absolute (mkTfm (line_height g) (t_dimen (cmr10_tfm any))))).
Proof. intros N to_float to_int line_height mag any first own. exact (font_here to_float to_int line_height mag any first own). Qed.
(** no font is ever unloaded *)
Theorem C108_kept : forall (N : Num) (K : host N) n h es es' x y,
  window_session K n h es = Ok x -> window_session K n h (es ++ es') = Ok y -> exists r, se_loads y = se_loads x ++ r.
Proof. intros N K n h es es' x y. exact (session_kept K n h es es' x y). Qed.

(** * What one would expect and is not so *)
(** a world with a wide font *)
Definition fonts_ex : looks F32 :=
  mkLooks (fun e => if name_eqb (q_family (f_font e)) (txt "{Wide")
                    then mkHM (fun _ => mkMetrics (fl 7) (fl 3) (fl 50)) (fun _ => 1000%Z) (fl 3) (fl 2) (fl 1) (fl 0)
                    else toy_font 0)
    (fun _ => toy_metrics) (fun _ => fl 10) (fun _ => fl 4).
Definition entry_ex : entry F32 := mkEntry (txt "textfont0") (mkQFont (txt "Times New Roman") false StyleNormal (Pixels 12)) (fun _ => fl 0).
Definition editor (tbl : list (name * name)) : host F32 :=
  engine_host (fun _ => None) (fun _ => None) (fun _ => fl 10) (fl 1) (fun _ => fl 0) fonts_ex entry_ex (repeat entry_ex 11) toy tbl.
Definition a_font : name * name := (txt "a", txt "{Wide").
Definition a_text : list ascii := txt "\font\a={Wide}\a xy".
Lemma a_loads : loads_by (editor [a_font]) 1000 (fl 100) a_text = [a_font].
Proof. vm_compute. reflexivity. Qed.
Lemma a_shown : exists b, forall w, text_changed (editor [a_font]) 1000 (fl 100) w a_text = Ok (mkPWin a_text (Some b) StReport).
Proof.
  assert (E : outcome (do s <- machine_new (editor [a_font]) 0 (fl 100); typeset (editor [a_font]) 1000 s a_text) = 0) by (vm_compute; reflexivity).
  destruct (do s <- machine_new (editor [a_font]) 0 (fl 100); typeset (editor [a_font]) 1000 s a_text) as [b| | | |] eqn:T; try discriminate E.
  exists b. intros w. apply shows_iff; [discriminate|]. exact (typesets_by _ _ _ _ _ T).
Qed.
(** A font is loaded again at every change of the text: the table has [k] fonts
    after [k] changes, although the text names one *)
Theorem C108_bounded_refuted : exists (N : Num) to_float to_int line_height (mag : N) any Q first own W n h e p,
  let editor L := engine_host to_float to_int line_height mag any Q first own W L in
  loads_by (editor [p]) n h (new_text e) = [p] /\
  forall k, exists x, window_session (editor (repeat p k)) n h (repeat e k) = Ok x /\ se_loads x = repeat p k.
Proof.
  exists F32, (fun _ => None), (fun _ => None), (fun _ => fl 10), (fl 1), (fun _ => fl 0), fonts_ex, entry_ex, (repeat entry_ex 11), toy,
    1000, (fl 100), (ETyped a_text), a_font.
  split; [exact a_loads|]. intros k. destruct a_shown as (b & SH).
  set (end_ := match k with O => window_new | _ => mkPWin a_text (Some b) StReport end).
  assert (CC : forall k, List.concat (repeat [a_font] k) = repeat a_font k) by (induction k0; cbn [repeat List.concat app]; congruence).
  exists (mkSession end_ (repeat a_font k)). split; [|reflexivity].
  rewrite <- (CC k) at 2. apply (C108_session F32) with (rest := []).
  - now rewrite app_nil_r, CC.
  - clear. induction k as [|k IH]; cbn [repeat]; constructor; [exact a_loads|exact IH].
  - subst end_.
    assert (G : forall k w, foldM (fun w p => text_changed (editor (snd p)) 1000 (fl 100) w (new_text (fst p)))
       (combine (repeat (ETyped a_text) k) (repeat [a_font] k)) w = Ok (match k with O => w | _ => mkPWin a_text (Some b) StReport end)).
    { clear k. induction k as [|k IH]; intros w; [reflexivity|]. cbn [repeat combine foldM fst snd new_text].
      rewrite SH. cbn [bind]. rewrite IH. now destruct k. }
    exact (G k window_new).
Qed.
(** Typing the text letter by letter, the font is loaded with every letter after
    its name *)
Fixpoint typed (before rest : list ascii) : list window_event :=
  match rest with [] => [] | c :: r => ETyped (before ++ [c]) :: typed (before ++ [c]) r end.
Example typed_ex :
  outcome (window_session (editor (repeat a_font 6)) 1000 (fl 100) (typed [] a_text)) = 0 /\
  rmap se_loads (window_session (editor (repeat a_font 6)) 1000 (fl 100) (typed [] a_text)) = Ok (repeat a_font 6).
Proof. vm_compute. auto. Qed.
(** the fonts matter, of course: with another one the page is another *)
Definition wide_letters (tbl : list (name * name)) (t : string) : option nat :=
  match (do s <- machine_new (editor tbl) 0 (fl 100); typeset (editor tbl) 1000 s (txt t)) with
  | Ok b =>
      match b_list b with
      | [NList _ _ _ _ _ l] =>
          Some (List.length (filter (fun x => match x with NChar _ m => nleb (fl 50) (m_width m) | _ => false end) l))
      | _ => None
      end
  | _ => None
  end.
Example wide_ex : wide_letters [(txt "a", txt "{Wide")] "\font\a={Wide}\a xy" = Some 2 /\
  wide_letters [(txt "a", txt "{Thin")] "\font\a={Thin}\a xy" = Some 0.
Proof. vm_compute. auto. Qed.

Print Assumptions C108_same.
Print Assumptions C108_alone.
Print Assumptions C108_session.
Print Assumptions C108_entry.
Print Assumptions C108_kept.
Print Assumptions C108_bounded_refuted.
