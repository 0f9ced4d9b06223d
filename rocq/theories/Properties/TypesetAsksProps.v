(** C100, continued: which parameters a formula asks for. *)
From Coq Require Import List Ascii String QArith Qcanon ZArith Bool Arith Lia.
From Verif.Base Require Import Result Num.
From Verif.Model Require Import Token Lexer Glue Box ListBuilders Tfm FontUsage MathList MathParser MathTypeset MathFrontend TypesetAsks.
From Verif.Spec Require Import FontUsageSpec TypesetAsksSpec.
From Verif.Proofs Require Import FontUsageProofs TypesetAsksProofs TypesetAsksWindow TypesetAsksWhy.
Import ListNotations.
Local Open Scope nat_scope.

(** parameters that are not asked for make no difference *)
Theorem C100_unasked : forall (N : Num) (E : engine N) P fuel p s l,
  (forall r, In r (typeset_asks E fuel s l) -> parameter_of P r = parameter_of (e_params E) r) ->
  mlist2hlist (with_params E P) fuel p s l = mlist2hlist E fuel p s l /\
  typeset_asks (with_params E P) fuel s l = typeset_asks E fuel s l.
Proof.
  intros N E P fuel p s l H. destruct (typeset_agree E P fuel p s l) as [A B]; [|split; [symmetry; exact A|symmetry; exact B]].
  apply Forall_forall. intros r Hr. symmetry. exact (H r Hr).
Qed.
(** all that are asked for have a row in the table *)
Theorem C100_asked : forall (N : Num) (E : engine N) fuel s l, Forall in_table (typeset_asks E fuel s l).
Proof. exact (fun N => typeset_calls). Qed.
(** so whatever the texts, the table can be made *)
Theorem C100_texts : forall (N : Num) (fonts : list (efont N)) (E : engine N) cs fuel es, List.length fonts = 12 ->
  Forall (fun e => match e with TEdit _ _ => exists text, e = text_event E cs fuel text | _ => True end) es ->
  exists s, tree_session fonts es = Ok s.
Proof.
  intros N fonts E cs fuel es H F. apply (session_ok fonts H). eapply Forall_impl; [|exact F].
  intros [asks b|on] He; [|exact He]. destruct He as (text & He). pose proof (text_events_ok E cs fuel text) as K. rewrite <- He in K. exact K.
Qed.
(** the formula depends on no parameter that the table does not show *)
Theorem C100_window : forall (N : Num) (E : engine N) fonts fonts' any cs fuel es text ons s b,
  List.length fonts = 12 ->
  equation cs (engine_for E (dimens fonts any)) fuel text = Ok b ->
  tree_session fonts (es ++ text_event (engine_for E (dimens fonts any)) cs fuel text :: map TOnly ons) = Ok s ->
  (forall i k, visible (t_rows s) i k -> dimens fonts' any i k = dimens fonts any i k) ->
  equation cs (engine_for E (dimens fonts' any)) fuel text = Ok b.
Proof. exact (fun N => window_table). Qed.
(** for each there is a reason in the formula *)
Theorem C100_why : forall (N : Num) (E : engine N) fuel s l r, In r (typeset_asks E fuel s l) -> used_by l r.
Proof. exact (fun N => typeset_used). Qed.
(** a text with an error leaves the table as it is *)
Theorem C100_failed : forall (N : Num) (fonts : list (efont N)) (E : engine N) cs fuel es text s s',
  (forall b, equation cs E fuel text <> Ok b) -> tree_session fonts es = Ok s ->
  tree_session fonts (es ++ [text_event E cs fuel text]) = Ok s' -> t_rows s' = t_rows s /\ t_only s' = t_only s.
Proof.
  intros N fonts E cs fuel es text s s' F H H'. unfold tree_session in *. destruct (new_tree fonts) as [s0| | | |]; try discriminate H.
  cbn [bind] in *. rewrite foldM_app, H in H'. cbn [bind foldM] in H'. unfold tree_step, text_event in H'.
  destruct (equation cs E fuel text) as [b| | | |]; [destruct (F b eq_refl)|..];
    (destruct (run_asks _ _ _) as [u| | | |]; try discriminate H'; cbn [bind] in H'; injection H' as <-; split; reflexivity).
Qed.
(** A large operator asks for the height of the axis, although its box is the
    same whatever the parameters: the shifted box is dropped. *)
Theorem C100_needed_refuted : forall (N : Num) (E : engine N) fuel p s y a,
  style_gtb s T = true -> a_ty a = Op -> a_nuc a = Some (FSym y) -> a_sub a = None -> a_sup a = None ->
  In (axisHeight, (2%Z, fsize_of s)) (typeset_asks E (Datatypes.S (Datatypes.S fuel)) s [MAtom a]) /\
  forall P, mlist2hlist (with_params E P) (Datatypes.S (Datatypes.S fuel)) p s [MAtom a]
            = mlist2hlist E (Datatypes.S (Datatypes.S fuel)) p s [MAtom a].
Proof.
  intros N E fuel p s y a Hs Ht Hn Hb Hp. split; [exact (large_op_asks E fuel s y a Hs Ht Hn)|].
  intros P. exact (large_op_same E P fuel p s y a Ht Hn Hb Hp).
Qed.

(** * examples *)
Definition some_fonts : list (efont QcNum) := map (fun i => mkEFont (N := QcNum) (Q2Qc 10) (fun _ => Q2Qc (inject_Z (Z.of_nat i)))) (seq 0 12).
Definition metr (h d w : Z) : metrics QcNum := mkMetrics (N := QcNum) (Q2Qc (inject_Z h)) (Q2Qc (inject_Z d)) (Q2Qc (inject_Z w)).
Definition bare : engine QcNum :=
  mkEngine (N := QcNum) (fun _ _ => params_of (N := QcNum) (fun _ => Q2Qc 0)) (fun _ _ _ => metr 7 2 5) (fun _ _ _ => Q2Qc 0)
    (fun y _ _ => NChar (s_char y) (metr 7 2 5)) (fun _ _ => NBox (metr 7 2 5)) (fun _ => NBox (metr 7 2 5)) (fun _ => NBox (metr 7 2 5)).
Definition some_engine : engine QcNum := engine_for bare (dimens some_fonts (fun _ => Q2Qc 0)).
Definition asks_of (t : string) : list request := equation_asks some_engine true 100 (list_ascii_of_string t).
Definition shown_rows (es : list tree_event) : list (nat * string) :=
  match tree_session some_fonts es with
  | Ok s => flat_map (fun p => map (fun r : row QcNum => (fst p, r_label r)) (filter (fun r => negb (r_hidden r)) (snd p)))
              (combine (seq 0 12) (t_rows s))
  | _ => []
  end.
Definition typed (t : string) : tree_event := text_event some_engine true 100 (list_ascii_of_string t).
Example C100_calls :
  asks_of "x" = [] /\
  asks_of "a+b" = [(get_quad, (2%Z, TextFont)); (get_quad, (2%Z, TextFont))] /\
  asks_of "x^2" = [(defaultRuleThickness, (3%Z, TextFont)); (get_sup1, (2%Z, TextFont)); (xHeight, (2%Z, TextFont))] /\
  asks_of "{x}_y" = [(supDrop, (2%Z, ScriptFont)); (subDrop, (2%Z, ScriptFont)); (defaultRuleThickness, (3%Z, TextFont));
                     (get_sub1, (2%Z, TextFont)); (xHeight, (2%Z, TextFont))] /\
  asks_of "\sqrt{x}" = [(defaultRuleThickness, (3%Z, TextFont)); (xHeight, (2%Z, TextFont)); (defaultRuleThickness, (3%Z, TextFont))] /\
  asks_of "\frac{a}{b}" = [(defaultRuleThickness, (3%Z, TextFont)); (get_num1, (2%Z, TextFont)); (get_denom1, (2%Z, TextFont)); (axisHeight, (2%Z, TextFont))].
Proof. vm_compute. repeat split. Qed.
Example C100_rows :
  shown_rows [typed "\sqrt{x}"; TOnly true] = [(6, "x_height"); (9, "default_rule_thickness")]%string /\
  shown_rows [TOnly true; typed "a+b"; typed "\frac{a}{b}"] =
    [(6, "num1"); (6, "denom1"); (6, "axis_height"); (9, "default_rule_thickness")]%string.
Proof. vm_compute. repeat split. Qed.
(** nothing is shown of the text with an error *)
Example C100_kept : (forall b, equation true some_engine 100 (list_ascii_of_string "\frac{a}{b}}") <> Ok b) /\
  shown_rows [TOnly true; typed "a+b"; typed "\frac{a}{b}}"] = shown_rows [TOnly true; typed "a+b"].
Proof.
  split; [|vm_compute; reflexivity]. intros b H.
  assert (T : match equation true some_engine 100 (list_ascii_of_string "\frac{a}{b}}") with Ok _ => true | _ => false end = false) by (vm_compute; reflexivity).
  rewrite H in T. discriminate T.
Qed.
(** a change of a visible parameter that does make a difference: num1 of the formula above *)
Definition other_fonts : list (efont QcNum) :=
  map (fun i => mkEFont (N := QcNum) (Q2Qc 10) (fun k => Q2Qc (inject_Z (match k with num1 => 60 | _ => Z.of_nat i end)))) (seq 0 12).
Definition height_with (f : list (efont QcNum)) : Q :=
  match equation true (engine_for bare (dimens f (fun _ => Q2Qc 0))) 100 (list_ascii_of_string "\frac{a}{b}") with
  | Ok b => this (m_height (b_metrics b)) | _ => 0 end.
Example C100_matters : (height_with some_fonts, height_with other_fonts) = (93 # 2, 67)%Q.
Proof. vm_compute. reflexivity. Qed.
(** and the sum *)
Example C100_sum : shown_rows [typed "\sum "; TOnly true] = [(6, "axis_height")]%string.
Proof. vm_compute. reflexivity. Qed.

Print Assumptions C100_unasked.
Print Assumptions C100_asked.
Print Assumptions C100_texts.
Print Assumptions C100_window.
Print Assumptions C100_why.
Print Assumptions C100_failed.
Print Assumptions C100_needed_refuted.
