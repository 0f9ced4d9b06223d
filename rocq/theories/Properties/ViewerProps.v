(** C93-C96: the linebreaks viewer. *)
From Coq Require Import List Ascii String ZArith QArith Qcanon Bool Sorted Permutation Arith Lia.
From Verif.Base Require Import Result Num.
From Verif.Model Require Import Token Glue Box Dimen ListBuilders LineBreaks Unicode Viewer.
From Verif.Spec Require Import UnicodeSpec DimenSpec BoxSpec LineBreakSpec ViewerSpec.
From Verif.Proofs Require Import ViewerFields ViewerProofs ViewerMore ViewerBlank.
Import ListNotations.

(** * C93: what is shown *)

(** Whatever the user does, as long as the program lives: the alternatives are
    the breakings of the text with the parameters of the window, and the one
    chosen is shown. *)
Theorem C93_shown : forall (N : Num) in_range debug char_signed pw us fm sorted to_float es (v : viewer N) cs ss,
  (forall l, Permutation (sorted l) l) ->
  (forall l, StronglySorted (fun a b : bp N => (bp_dem a <= bp_dem b)%Z) (sorted l)) ->
  (forall b c, hm_sfcode (fm b) c = 0 \/ 1000 <= hm_sfcode (fm b) c)%Z ->
  session in_range debug char_signed pw us fm sorted to_float es = Ok v ->
  Forall2 utf8 cs ss -> cs <> [] -> text_of (rev es) = List.concat ss ->
  shows pw fm v (french_of (rev es)) cs.
Proof. intros. eapply viewer_shows; eauto. Qed.
(** After a change of the text it is the best one. *)
Theorem C93_best : forall (N : Num) in_range debug char_signed pw us fm sorted to_float es t (v : viewer N) cs ss,
  (forall l, Permutation (sorted l) l) ->
  (forall l, StronglySorted (fun a b : bp N => (bp_dem a <= bp_dem b)%Z) (sorted l)) ->
  (forall b c, hm_sfcode (fm b) c = 0 \/ 1000 <= hm_sfcode (fm b) c)%Z ->
  session in_range debug char_signed pw us fm sorted to_float (es ++ [EText t]) = Ok v ->
  Forall2 utf8 cs ss -> cs <> [] -> t = List.concat ss ->
  v_value v = 0%Z /\
  exists P, settings v P /\ let l := prepare P (items_of (fm (french_of (rev es))) 1000 cs) in
    forall b r, v_bps v = b :: r -> v_label v = Some (bp_dem b) /\
      forall bs f d, breaking l P pw bs f d -> complete l P bs -> (bp_dem b <= d)%Z.
Proof. intros. eapply viewer_best; eauto. Qed.
(** With ordinary fonts and parameters a text does not end the program. Missing:
    floats; skips that stretch; texts with very many characters. *)
Theorem C93_safe_partial : forall in_range debug char_signed us (fm : bool -> hmetrics QcNum) sorted to_float es v cs ss (P : para QcNum),
  (forall l, Permutation (sorted l) l) ->
  (forall b c, hm_sfcode (fm b) c = 0 \/ 1000 <= hm_sfcode (fm b) c)%Z ->
  (forall b, 0 <= hm_space (fm b) /\ 0 <= hm_extra (fm b) /\ 0 <= hm_stretch (fm b) /\
     forall c, 0 <= m_width (hm_char (fm b) c))%Qc ->
  session (N := QcNum) in_range debug char_signed QcPows us fm sorted to_float es = Ok v ->
  Forall2 utf8 cs ss -> cs <> [] ->
  (debug = false \/ char_signed = false \/ Forall (fun c => c < 65536)%Z cs) ->
  settings v P ->
  (0 <= g_space (p_leftskip P))%Qc -> (0 <= g_space (p_rightskip P))%Qc ->
  g_stretch (p_leftskip P) = 0%Qc -> g_stretch (p_rightskip P) = 0%Qc ->
  (p_parshape P = [] -> - Q2Qc 800 < p_hangindent P < Q2Qc 800)%Qc ->
  (Z.of_nat (List.length cs + 3) * line_bound P (Z.max 100 (p_tolerance P)) 0 < int_max)%Z ->
  exists v', session (N := QcNum) in_range debug char_signed QcPows us fm sorted to_float (es ++ [EText (List.concat ss)]) = Ok v'.
Proof. intros. eapply viewer_safe; eauto. Qed.
(** The empty text leaves the old paragraph on the screen, *)
Theorem C93_empty_refuted : forall (N : Num) in_range debug char_signed pw us fm sorted to_float es (v : viewer N),
  session in_range debug char_signed pw us fm sorted to_float es = Ok v ->
  exists v', session in_range debug char_signed pw us fm sorted to_float (es ++ [EText []]) = Ok v' /\
    v_text v' = [] /\ v_box v' = v_box v /\ v_label v' = v_label v.
Proof. intros. eapply viewer_empty; eauto. Qed.
(** Until there is a text nothing is shown; the number of the alternative can
    be changed already. *)
Theorem C93_blank : forall (N : Num) in_range debug char_signed pw us fm sorted to_float es (v : viewer N),
  (forall t, In (EText t) es -> t = []) ->
  session in_range debug char_signed pw us fm sorted to_float es = Ok v ->
  v_text v = [] /\ v_list v = [] /\ v_bps v = [] /\ v_box v = None /\ v_label v = None /\
  v_max v = 99%Z /\ v_value v = choice_of (rev es).
Proof. intros N. exact blank_session. Qed.
(** and so does a text that cannot be broken. *)
Theorem C93_stale_refuted : forall (N : Num) in_range debug char_signed pw us fm sorted to_float es t (v v' : viewer N),
  session in_range debug char_signed pw us fm sorted to_float es = Ok v ->
  session in_range debug char_signed pw us fm sorted to_float (es ++ [EText t]) = Ok v' -> v_bps v' = [] ->
  v_box v' = v_box v /\ v_label v' = v_label v.
Proof. intros. eapply viewer_stale; eauto. Qed.

(** Examples: characters as wide as an eighth of a line *)
Definition ex_us : unitsystem QcNum := mkUS (N := QcNum) (Q2Qc 1) (Q2Qc 10) (Q2Qc 5).
Definition ex_fm (french : bool) : hmetrics QcNum :=
  mkHM (N := QcNum) (fun _ => mkMetrics (N := QcNum) (Q2Qc 60) (Q2Qc 0) (Q2Qc 40))
    (fun c => if (c =? 46)%Z then (if french then 1000 else 3000)%Z else 1000%Z)
    (Q2Qc 20) (Q2Qc 30) (Q2Qc 15) (Q2Qc 5).
Definition ex_float (w : name) : option Qc :=
  if list_eq_dec ascii_dec w (str "300") then Some (Q2Qc 300) else if list_eq_dec ascii_dec w (str "0") then Some (Q2Qc 0) else None.
Notation run := (session (N := QcNum) (fun _ => true) true true QcPows ex_us ex_fm sort_bps ex_float).
Definition chars (s : string) : list Z := map (fun a => Z.of_nat (nat_of_ascii a)) (list_ascii_of_string s).
(** the number of alternatives, the demerits shown and the number of lines *)
Definition report (r : result (viewer QcNum)) : option (nat * option Z * option nat) :=
  match r with
  | Ok v => Some (List.length (v_bps v), v_label v, option_map (fun b => List.length (filter keeps (b_list b))) (v_box v))
  | _ => None
  end.
Definition typed : list event := [EText (chars "abc. de fgh ijk lm nop qrst uv wxyz abc.")].

Lemma ex_codes b c : (hm_sfcode (ex_fm b) c = 0 \/ 1000 <= hm_sfcode (ex_fm b) c)%Z.
Proof. right. cbn. destruct (c =? 46)%Z, b; lia. Qed.
Lemma ex_fonts b : (0 <= hm_space (ex_fm b) /\ 0 <= hm_extra (ex_fm b) /\ 0 <= hm_stretch (ex_fm b) /\
  forall c, 0 <= m_width (hm_char (ex_fm b) c))%Qc.
Proof. repeat split; discriminate. Qed.
Lemma ascii_chars s : forallb (fun a => (nat_of_ascii a <? 128)%nat) (list_ascii_of_string s) = true ->
  Forall2 utf8 (chars s) (map (fun c => [c]) (chars s)) /\ Forall (fun c => c < 65536)%Z (chars s) /\
  List.concat (map (fun c => [c]) (chars s)) = chars s.
Proof.
  intros H. unfold chars. rewrite forallb_forall in H.
  assert (K : forall l, (forall a, In a l -> (nat_of_ascii a <? 128)%nat = true) ->
    let zs := map (fun a => Z.of_nat (nat_of_ascii a)) l in
    Forall2 utf8 zs (map (fun c => [c]) zs) /\ Forall (fun c => c < 65536)%Z zs /\ List.concat (map (fun c => [c]) zs) = zs).
  { induction l as [|a l IH]; intros Hl; [repeat split; constructor|]. destruct (IH (fun x Hx => Hl x (or_intror Hx))) as (I1 & I2 & I3).
    pose proof (proj1 (Nat.ltb_lt _ _) (Hl a (or_introl eq_refl))) as L. cbv zeta in *. cbn [map List.concat app]. rewrite I3.
    split; [|split; [|reflexivity]]; constructor; auto; [constructor|]; lia. }
  exact (K _ H).
Qed.

Lemma run_ok es (p : viewer QcNum -> bool) : match run es with Ok v => p v | _ => false end = true ->
  exists v, run es = Ok v /\ p v = true.
Proof. destruct (run es); try discriminate. eauto. Qed.

Example C93_typed : report (run typed) = Some (3%nat, Some 200%Z, Some 2%nat).
Proof. vm_compute. reflexivity. Qed.
Example C93_selected : report (run (typed ++ [ESelect 1])) = Some (3%nat, Some 273201%Z, Some 3%nat).
Proof. vm_compute. reflexivity. Qed.
Lemma selected_ok : exists v, run (typed ++ [ESelect 1]) = Ok v /\ (v_value v =? 1)%Z = true.
Proof. apply (run_ok (typed ++ [ESelect 1]) (fun v => v_value v =? 1)%Z). vm_compute. reflexivity. Qed.
Lemma typed_text : text_of (rev (typed ++ [ESelect 1])) = List.concat (map (fun c => [c]) (chars "abc. de fgh ijk lm nop qrst uv wxyz abc.")).
Proof. vm_compute. reflexivity. Qed.
Example C93_shown_example : exists v, run (typed ++ [ESelect 1]) = Ok v /\ v_value v = 1%Z /\
  shows QcPows ex_fm v false (chars "abc. de fgh ijk lm nop qrst uv wxyz abc.").
Proof.
  destruct selected_ok as (v & E & V). exists v. split; [exact E|]. split; [apply Z.eqb_eq; exact V|].
  destruct (ascii_chars "abc. de fgh ijk lm nop qrst uv wxyz abc." eq_refl) as (U & _ & _).
  refine (C93_shown QcNum _ _ _ _ _ _ sort_bps _ (typed ++ [ESelect 1]) v _ _ sort_perm sort_sorted ex_codes E U _ typed_text). discriminate.
Qed.
Example C93_safe_example : exists v v' P, run [ESpin Tolerance 1000] = Ok v /\ settings v P /\ p_tolerance P = 1000%Z /\
  run ([ESpin Tolerance 1000] ++ typed) = Ok v'.
Proof.
  destruct (run_ok [ESpin Tolerance 1000] (fun v => match setup v with
    | Ok P => ((p_tolerance P =? 1000) && (line_bound P 1000 0 =? 1030100))%Z && (Qc_eq_bool (g_space (p_leftskip P)) 0 && Qc_eq_bool (g_space (p_rightskip P)) 0 &&
        Qc_eq_bool (g_stretch (p_leftskip P)) 0 && Qc_eq_bool (g_stretch (p_rightskip P)) 0 && Qc_eq_bool (p_hangindent P) 0)
    | _ => false end%bool)) as (v & E & Y); [vm_compute; reflexivity|].
  assert (X : exists P, setup v = Ok P /\ p_tolerance P = 1000%Z /\ g_space (p_leftskip P) = 0%Qc /\ g_space (p_rightskip P) = 0%Qc /\
    g_stretch (p_leftskip P) = 0%Qc /\ g_stretch (p_rightskip P) = 0%Qc /\ p_hangindent P = 0%Qc /\ line_bound P 1000 0 = 1030100%Z).
  { destruct (setup v) as [P| | | |]; try discriminate. exists P. rewrite !andb_true_iff, !Z.eqb_eq in Y.
    destruct Y as ((Y1 & Y2) & ((((Y3 & Y4) & Y5) & Y6) & Y7)). apply Qc_eq_bool_correct in Y3, Y4, Y5, Y6, Y7. auto 10. }
  destruct X as (P & X1 & X2 & X3 & X4 & X5 & X6 & X7 & X8). pose proof (proj1 (setup_settings v P) X1) as X1'.
  destruct (ascii_chars "abc. de fgh ijk lm nop qrst uv wxyz abc." eq_refl) as (U & L & C).
  assert (S : exists v', run ([ESpin Tolerance 1000] ++ [EText (List.concat (map (fun c => [c]) (chars "abc. de fgh ijk lm nop qrst uv wxyz abc.")))]) = Ok v').
  { refine (C93_safe_partial _ _ _ _ _ _ _ _ v _ _ P sort_perm ex_codes ex_fonts E U _ (or_intror (or_intror L)) X1' _ _ X5 X6 _ _).
    - discriminate.
    - rewrite X3. discriminate.
    - rewrite X4. discriminate.
    - intros _. rewrite X7. split; reflexivity.
    - rewrite X2. change (Z.max 100 1000) with 1000%Z. rewrite X8. reflexivity. }
  destruct S as (v' & E'). rewrite C in E'. exists v, v', P. split; [exact E|]. split; [exact X1'|]. split; [exact X2|exact E'].
Qed.
Example C93_empty : report (run (typed ++ [EText []])) = Some (3%nat, Some 200%Z, Some 2%nat).
Proof. vm_compute. reflexivity. Qed.
Example C93_stale : report (run (typed ++ [EText (chars "abcdefghijklmnopqrstuvw")])) = Some (0%nat, Some 200%Z, Some 2%nat).
Proof. vm_compute. reflexivity. Qed.
(** two blanks at the end of a full line that may stretch: a line without
    anything follows *)
Theorem C93_double_space_refuted :
  match run [EGlue RightSkip (str "0pt plus 1fil minus 0pt"); EText (chars "abcdefghijklmnopqrst  ")] with UB => true | _ => false end = true.
Proof. vm_compute. reflexivity. Qed.
Example C93_one_space : report (run [EGlue RightSkip (str "0pt plus 1fil minus 0pt"); EText (chars "abcdefghijklmnopqrst ")]) =
  Some (1%nat, Some 100%Z, Some 1%nat).
Proof. vm_compute. reflexivity. Qed.

(** * C94: the fields for glues and dimensions *)

(** A text is accepted if and only if it is a glue (a dimension). *)
Theorem C94_glue : forall in_range us t g, read_glue (N := QcNum) in_range us t = Ok (Some g) <-> glue_text in_range us t g.
Proof. exact read_glue_some. Qed.
Theorem C94_dimen : forall in_range us t x, read_dimen (N := QcNum) in_range us t = Ok (Some x) <-> dimen_text in_range us t x.
Proof. exact read_dimen_some. Qed.
(** A parameter is what the last good text of its field means; the others are
    the last value of their widget. *)
Theorem C94_history : forall in_range debug char_signed pw us fm sorted to_float es (v : viewer QcNum),
  session (N := QcNum) in_range debug char_signed pw us fm sorted to_float es = Ok v ->
  (forall f, exists g, v_glue v f = Some g /\
     last_good (glue_text in_range us) (gtexts f (rev es) ++ [gtext_start f]) g) /\
  (forall f, last_good (dimen_text in_range us) (dtexts f (rev es) ++ [dtext_start f]) (v_dimen v f)) /\
  (forall s, v_spin v s = spin_of s (rev es)) /\ v_french v = french_of (rev es) /\ v_text v = text_of (rev es).
Proof.
  intros until v. intros H. pose proof (session_inv _ _ _ _ _ _ _ _ _ v H) as [(I1 & I2 & I3 & I4 & I5 & I6 & I7) _].
  split; [intros f; eapply field_glue; eauto|]. split; [intros f; eapply field_dimen; eauto|]. auto.
Qed.
(** Some texts end the program. *)
Theorem C94_crash_refuted : forall in_range debug char_signed pw us fm sorted to_float es (v : viewer QcNum),
  session (N := QcNum) in_range debug char_signed pw us fm sorted to_float es = Ok v ->
  (forall f t, glue_breaks in_range us t ->
     session in_range debug char_signed pw us fm sorted to_float (es ++ [EGlue f t]) = Abort) /\
  (forall f t, dimen_breaks in_range t ->
     session in_range debug char_signed pw us fm sorted to_float (es ++ [EDimen f t]) = Abort).
Proof.
  intros until v. intros H. split; intros f t B.
  - eapply crash_glue; eauto. apply read_glue_abort. exact B.
  - eapply crash_dimen; eauto. apply read_dimen_abort. exact B.
Qed.
(** only these *)
Theorem C94_no_other_crash : forall in_range (us : unitsystem QcNum) t,
  (read_glue in_range us t = Abort <-> glue_breaks in_range us t) /\
  (read_dimen in_range us t = Abort <-> dimen_breaks in_range t) /\
  ((exists o, read_glue in_range us t = Ok o) \/ read_glue in_range us t = Abort) /\
  ((exists o, read_dimen in_range us t = Ok o) \/ read_dimen in_range us t = Abort).
Proof.
  intros. split; [apply read_glue_abort|]. split; [apply read_dimen_abort|].
  split; [apply read_glue_outcome|apply read_dimen_outcome].
Qed.
(** Emptying a field, to write something else, is one of them; so is a sign. *)
Theorem C94_clear_refuted : forall (N : Num) in_range debug char_signed pw us fm sorted to_float es (v : viewer N),
  session in_range debug char_signed pw us fm sorted to_float es = Ok v ->
  forall t, t = [] \/ t = ["-"%char] ->
  (forall f, session in_range debug char_signed pw us fm sorted to_float (es ++ [EGlue f t]) = Abort) /\
  (forall f, session in_range debug char_signed pw us fm sorted to_float (es ++ [EDimen f t]) = Abort).
Proof.
  intros until v. intros H t Ht. split; intros f.
  - eapply crash_glue; eauto. destruct Ht as [->| ->]; reflexivity.
  - eapply crash_dimen; eauto. destruct Ht as [->| ->]; reflexivity.
Qed.

Definition field (es : list event) : option (list Qc) :=
  match run es with
  | Ok v => match v_glue v LeftSkip with
            | Some g => Some [g_space g; g_stretch g; g_shrink g; v_dimen v HangIndent]
            | None => None
            end
  | _ => None
  end.
Definition shown_field (es : list event) (qs : list Q) : bool :=
  match field es with
  | Some l => (Nat.eqb (List.length l) (List.length qs)) && forallb (fun p => Qc_eq_bool (fst p) (Q2Qc (snd p))) (combine l qs)
  | None => false
  end%bool.
(** A glue without its unit counts as no glue, and the one before stays. *)
Example C94_last_good : shown_field [EGlue LeftSkip (str "3pt plus 2pt minus 1pt"); EDimen HangIndent (str "2em"); EGlue LeftSkip (str "3p")]
  [3; 2; 1; 20]%Q = true.
Proof. vm_compute. reflexivity. Qed.
Example C94_abort : match run [EDimen HangIndent (str "2em"); EDimen HangIndent []] with Abort => true | _ => false end = true.
Proof. vm_compute. reflexivity. Qed.
(** what follows a dimension or a shrink is not looked at *)
Example C94_tail : shown_field [EDimen HangIndent (str "2em and more"); EGlue LeftSkip (str "3pt plus 2pt minus 1pt and more")] [3; 2; 1; 20]%Q = true.
Proof. vm_compute. reflexivity. Qed.
(** a shrink without unit is an infinite one *)
Example C94_odd : glue_text (fun _ => true) ex_us (str "3pt plus 2pt minus 1") (mkGlue (N := QcNum) (Q2Qc 3) (Q2Qc 1) (Q2Qc 2) Filll Normal).
Proof.
  apply C94_glue. assert (X : match read_glue (N := QcNum) (fun _ => true) ex_us (str "3pt plus 2pt minus 1") with
    | Ok (Some g) => Qc_eq_bool (g_space g) (Q2Qc 3) && Qc_eq_bool (g_shrink g) (Q2Qc 1) && Qc_eq_bool (g_stretch g) (Q2Qc 2) &&
        gorder_eqb (g_shrinkOrder g) Filll && gorder_eqb (g_stretchOrder g) Normal
    | _ => false end%bool = true) by (vm_compute; reflexivity).
  destruct (read_glue _ _ _) as [[[a b c oa ob]|]| | | |]; try discriminate. cbn in X. rewrite !andb_true_iff in X.
  destruct X as ((((X1 & X2) & X3) & X4) & X5). apply Qc_eq_bool_correct in X1, X2, X3. subst. destruct oa, ob; try discriminate. reflexivity.
Qed.

(** * C95: the field for the shape of the paragraph *)
Theorem C95_pairs : forall in_range debug char_signed pw us fm sorted to_float es (v : viewer QcNum) ws ps,
  session (N := QcNum) in_range debug char_signed pw us fm sorted to_float es = Ok v ->
  spaced_words (ptext_of (rev es)) ws -> pairs_of to_float ws ps -> v_parshape v = ps.
Proof. intros. eapply parshape_pairs; eauto. Qed.
Theorem C95_odd : forall in_range debug char_signed pw us fm sorted to_float es (v : viewer QcNum) ws,
  session (N := QcNum) in_range debug char_signed pw us fm sorted to_float es = Ok v ->
  spaced_words (ptext_of (rev es)) ws -> Nat.odd (List.length ws) = true -> v_parshape v = [].
Proof. intros. eapply parshape_odd; eauto. Qed.
(** Words that are no numbers are taken for zero, though the text is shown in
    black. *)
Theorem C95_no_number_refuted : forall in_range debug char_signed pw us fm sorted to_float es (v : viewer QcNum) i w y,
  session (N := QcNum) in_range debug char_signed pw us fm sorted to_float es = Ok v ->
  spaced_words (ptext_of (rev es)) [i; w] -> to_float i = None -> to_float w = Some y ->
  v_parshape v = [(0%Qc, if Qclt_le_dec (Q2Qc 10) y then y else Q2Qc 10)].
Proof. intros. eapply parshape_bad; eauto. Qed.
Example C95_example : exists v, run [EParshape (str " 0 300  0 0 ")] = Ok v /\ v_parshape v = [(Q2Qc 0, Q2Qc 300); (Q2Qc 0, Q2Qc 10)].
Proof.
  destruct (run_ok [EParshape (str " 0 300  0 0 ")] (fun _ => true)) as (v & E & _); [vm_compute; reflexivity|].
  exists v. split; [exact E|]. refine (C95_pairs _ _ _ _ _ _ _ _ _ v [str "0"; str "300"; str "0"; str "0"] _ E _ _).
  - change (spaced_words (str " " ++ str "0" ++ str " 300  0 0 ") [str "0"; str "300"; str "0"; str "0"]).
    constructor; [repeat constructor|discriminate|cbn; intuition discriminate|right; eexists; reflexivity|].
    change (spaced_words (str " " ++ str "300" ++ str "  0 0 ") [str "300"; str "0"; str "0"]).
    constructor; [repeat constructor|discriminate|cbn; intuition discriminate|right; eexists; reflexivity|].
    change (spaced_words (str "  " ++ str "0" ++ str " 0 ") [str "0"; str "0"]).
    constructor; [repeat constructor|discriminate|cbn; intuition discriminate|right; eexists; reflexivity|].
    change (spaced_words (str " " ++ str "0" ++ str " ") [str "0"]).
    constructor; [repeat constructor|discriminate|cbn; intuition discriminate|right; eexists; reflexivity|].
    constructor. repeat constructor.
  - apply (po_pair ex_float (str "0") (str "300") (Q2Qc 0) (Q2Qc 300)); [reflexivity|reflexivity|].
    apply (po_pair ex_float (str "0") (str "0") (Q2Qc 0) (Q2Qc 0)); [reflexivity|reflexivity|constructor].
Qed.
Example C95_bad : report (run [EText (chars "ab cd ef gh ij"); EParshape (str "x 300")]) = Some (1%nat, Some 269%Z, Some 2%nat).
Proof. vm_compute. reflexivity. Qed.

(** * C96: the button that restores the defaults *)
Theorem C96_reset : forall in_range debug char_signed pw us fm sorted to_float es (v : viewer QcNum),
  session (N := QcNum) in_range debug char_signed pw us fm sorted to_float (es ++ [EReset]) = Ok v ->
  v_spin v Tolerance = 800%Z /\ v_spin v AdjDemerits = 10000%Z /\ v_spin v LinePenalty = 10%Z /\ v_spin v HangAfter = 1%Z /\
  v_ptext v = [] /\ v_parshape v = [] /\
  (forall f, v_glue v f = Some (mkGlue (N := QcNum)
     (us_pt us * Q2Qc (inject_Z match f with LeftSkip | RightSkip => 0 | BaselineSkip => 12 | LineSkip => 1 end))%Qc n0 n0 Normal Normal)) /\
  (forall f, v_dimen v f = (us_pt us * Q2Qc (inject_Z 0))%Qc) /\
  v_french v = french_of (rev es) /\ v_text v = text_of (rev es).
Proof.
  intros until v. intros H. pose proof (reset_defaults _ _ _ _ _ _ _ _ _ _ H) as (R1 & R2 & R3 & _ & _ & R4 & R5 & R6 & R7).
  rewrite !R1. auto 12.
Qed.
Definition changes : list event := [EParshape (str "0 300"); ESpin Tolerance 20000; EGlue LeftSkip (str "30pt")].
Example C96_example : report (run (typed ++ changes)) = Some (2%nat, Some 1704909%Z, Some 5%nat) /\
  report (run (typed ++ changes ++ [EReset])) = report (run typed).
Proof. split; vm_compute; reflexivity. Qed.
(** the spacing is not restored *)
Example C96_french : report (run (typed ++ changes ++ [EFrench true; EReset])) <> report (run typed).
Proof. vm_compute. discriminate. Qed.

Print Assumptions C93_shown.
Print Assumptions C93_best.
Print Assumptions C93_blank.
Print Assumptions C93_safe_partial.
Print Assumptions C93_empty_refuted.
Print Assumptions C93_stale_refuted.
Print Assumptions C93_double_space_refuted.
Print Assumptions C94_glue.
Print Assumptions C94_dimen.
Print Assumptions C94_history.
Print Assumptions C94_crash_refuted.
Print Assumptions C94_no_other_crash.
Print Assumptions C94_clear_refuted.
Print Assumptions C95_pairs.
Print Assumptions C95_odd.
Print Assumptions C95_no_number_refuted.
Print Assumptions C96_reset.
