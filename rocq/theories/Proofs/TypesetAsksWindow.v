(** The calls of the typesetter and the table of the equation editor. *)
From Coq Require Import List Ascii String ZArith Bool Arith Lia.
From Verif.Base Require Import Result Num.
From Verif.Model Require Import Token Lexer Glue Box ListBuilders Tfm FontUsage MathList MathParser MathTypeset MathFrontend TypesetAsks.
From Verif.Spec Require Import FontUsageSpec TypesetAsksSpec.
From Verif.Proofs Require Import FontUsageProofs TypesetAsksProofs.
Import ListNotations.

Definition table_calls (l : list request) : Prop := Forall in_table l.
Lemma calls_app l1 l2 : table_calls l1 -> table_calls l2 -> table_calls (l1 ++ l2).
Proof. intros. apply Forall_app. auto. Qed.
Lemma calls_cons r l : in_table r -> table_calls l -> table_calls (r :: l).
Proof. constructor; auto. Qed.
Lemma calls_after {A} (r : result A) f : (forall x, table_calls (f x)) -> table_calls (after r f).
Proof. intros H. destruct r; [apply H|constructor|constructor|constructor|constructor]. Qed.
Lemma sigma_ok s g : In (base_field g) (family_parameters 2) -> in_table (of_sigma s g).
Proof. intros H. split; [cbn; lia|exact H]. Qed.
Lemma xi_ok s g : In (base_field g) (family_parameters 3) -> in_table (of_xi s g).
Proof. intros H. split; [cbn; lia|exact H]. Qed.

Ltac calls :=
  repeat match goal with
  | |- table_calls [] => constructor
  | |- table_calls (_ ++ _) => apply calls_app
  | |- table_calls (_ :: _) => apply calls_cons
  | |- table_calls (after _ _) => apply calls_after; intros ?
  | |- in_table (of_sigma _ _) => apply sigma_ok; cbn; tauto
  | |- in_table (of_xi _ _) => apply xi_ok; cbn; tauto
  end; auto.

Section Calls.
  Context {N : Num}.
  Variable E : engine N.
  Section R.
    Variable rec : style -> list (mnode N) -> result (list (node N) * list (mnode N)).
    Variable qrec : style -> list (mnode N) -> list request.
    Hypothesis Hrec : forall s l, table_calls (qrec s l).

    Lemma boxit_calls s f : table_calls (boxit_asks qrec s f).
    Proof. destruct f as [[]|]; cbn [boxit_asks]; calls. Qed.
    Hint Resolve boxit_calls : core.
    Lemma attach_calls s c sb sp : table_calls (attach_asks E rec qrec s c sb sp).
    Proof.
      unfold attach_asks. destruct sb as [fb|], sp as [fp|]; cbv zeta; try (constructor; fail); destruct c;
        repeat (calls; match goal with |- _ (of_sigma _ (if ?b then _ else _)) => destruct b
                       | |- table_calls (if ?b then _ else _) => destruct b end); calls.
    Qed.
    Hint Resolve attach_calls : core.
    Lemma rule17_calls s a : table_calls (rule17_asks E rec qrec s a).
    Proof. unfold rule17_asks. calls. Qed.
    Hint Resolve rule17_calls : core.
    Lemma radical_calls s : table_calls (radical_asks s).
    Proof. unfold radical_asks. calls. destruct (style_gtb s T); calls. Qed.
    Hint Resolve radical_calls : core.
    Lemma rule13_calls s a : table_calls (rule13_asks E rec qrec s a).
    Proof.
      unfold rule13_asks. cbv zeta. apply calls_app.
      - destruct (match a_nuc a with Some (FSym _) => _ | _ => _ end); calls.
      - destruct (a_nuc a) as [f|]; [|constructor].
        destruct (negb _); [calls|]. calls; [destruct (a_sup a); calls|destruct (a_sub a); calls].
    Qed.
    Lemma atom_calls s a : table_calls (atom_asks E rec qrec s a).
    Proof.
      unfold atom_asks. cbv zeta.
      destruct (a_ty a =? Vcent)%Z; [unfold rule8_asks; calls|].
      destruct (_ || _)%Z; [unfold bar_asks; calls|].
      destruct (a_ty a =? Rad)%Z; [unfold rule11_asks; calls; destruct (radical _ _ _); calls|].
      destruct (a_ty a =? Acc)%Z.
      { unfold rule12_asks. calls. destruct (a_nuc a) as [[]|]; auto; (destruct (a_acc a); calls). }
      destruct (a_ty a =? Op)%Z; [apply rule13_calls|]. destruct (_ || _)%Z; calls.
    Qed.
    Lemma lists_calls s c : table_calls (lists_asks rec qrec s c).
    Proof. induction c; cbn [lists_asks]; calls. Qed.
    Lemma step_calls st : table_calls (step_asks E rec qrec st).
    Proof.
      unfold step_asks. destruct (p_rest st) as [|[a|b|n d|n d|c k|s|o g|n] r]; try (constructor; fail).
      - apply atom_calls.
      - unfold rule15_asks. calls. destruct (style_gtb _ _); calls.
      - unfold root_asks. calls.
      - unfold matrix_asks. calls; [split; [cbn; lia|cbn; tauto]|apply lists_calls|]. destruct (Nat.eqb k 0); calls.
      - destruct o; calls.
    Qed.
    Lemma loop_calls : forall n st, table_calls (loop_asks E rec qrec n st).
    Proof.
      induction n as [|n IH]; intros st; cbn [loop_asks]; destruct (p_rest st); try (constructor; fail). calls. apply step_calls.
    Qed.
  End R.
  Lemma emit_calls s : forall l recent, table_calls (emit_asks E s recent l).
  Proof.
    induction l as [|[a|b|n d|n d|c k|z|o g|n] l IH]; intros recent; cbn [emit_asks]; try apply IH; [constructor|].
    destruct recent as [t|]; [|apply IH]. calls. unfold space_asks.
    destruct (insertSpace E s t (a_ty a)) as [[|]| | | |]; calls.
  Qed.
  Lemma typeset_calls : forall fuel s l, table_calls (typeset_asks E fuel s l).
  Proof.
    induction fuel as [|fuel IH]; intros s l; destruct l as [|e l]; try (constructor; fail).
    cbn [typeset_asks]. calls.
    - apply loop_calls, IH.
    - unfold boundary_asks. destruct (currents _) as [|[ | | | | | | | ] r]; try (constructor; fail).
      destruct (last _ _); calls.
    - apply emit_calls.
  Qed.
  Lemma equation_calls cs fuel text : table_calls (equation_asks E cs fuel text).
  Proof.
    unfold equation_asks. destruct (feed _ _ _) as [l [e|]]; [constructor|]. calls. apply typeset_calls.
  Qed.
End Calls.

Lemma size_index z : match z with TextFont => 0 | ScriptFont => 1 | SSFont => 2 end < 3.
Proof. destruct z; lia. Qed.
Lemma index_number fam z : font_index (fam, z) = number (Z.to_nat fam) z.
Proof. unfold font_index, number. cbn [fst snd]. destruct z; lia. Qed.
Lemma in_table_index r : in_table r -> font_index (snd r) < 12 /\ font_index (snd r) / 3 = Z.to_nat (fst (snd r)).
Proof.
  intros [H _]. unfold font_index. pose proof (size_index (snd (snd r))) as Hz. split; [lia|].
  rewrite Nat.mul_comm, Nat.div_add_l by lia. rewrite Nat.div_small by exact Hz. lia.
Qed.

Section Window.
  Context {N : Num}.

  Lemma equation_agree (E : engine N) P cs fuel text :
    agree E P (equation_asks E cs fuel text) -> equation cs (with_params E P) fuel text = equation cs E fuel text.
  Proof.
    unfold equation_asks, equation. destruct (feed _ _ _) as [l [e|]]; [reflexivity|].
    destruct (foldM (eq_token cs) (l_out l) mp_init) as [m| | | |]; try reflexivity. cbn [bind].
    destruct (do_call m CFinish) as [m'| | | |]; try reflexivity. cbn [bind].
    destruct (output fuel m') as [ml| | | |]; try reflexivity. cbn [bind after]. intros A.
    destruct (typeset_agree E P fuel default_penalties D ml A) as [-> _]. reflexivity.
  Qed.

  Lemma text_events_ok (E : engine N) cs fuel text :
    match text_event E cs fuel text with TEdit asks _ => Forall (fun p => (snd p < 12)%nat) asks | _ => True end.
  Proof.
    unfold text_event. apply Forall_map. eapply Forall_impl; [|apply equation_calls].
    intros r H. exact (proj1 (in_table_index r H)).
  Qed.

  Lemma table_nth (fonts : list (efont N)) hide i f : List.length fonts = 12 -> nth_error fonts i = Some f ->
    nth_error (table fonts hide) i
    = Some (map (fun k => mkRow (hide i k) (name_of k) (e_dimen f k)) (family_parameters (i / 3))).
  Proof.
    intros L H. unfold table. rewrite nth_error_map.
    assert (Hi : i < 12) by (rewrite <- L; apply nth_error_Some; congruence).
    assert (HC : nth_error (combine (seq 0 12) fonts) i = Some (i, f)).
    { destruct (twelve fonts L) as (a&b&c&d&e&f0&g&h&i0&j&k&m&->).
      do 12 (destruct i as [|i]; [cbn in H |- *; congruence|]). lia. }
    rewrite HC. reflexivity.
  Qed.

  Lemma asked_in l i k : In (k, i) l -> asked l i k = true.
  Proof.
    intros H. unfold asked. apply existsb_exists. exists (k, i). split; [exact H|]. cbn [fst snd].
    destruct (fd_eq_dec k k); [|congruence]. apply Nat.eqb_refl.
  Qed.

  Theorem window_table (E : engine N) fonts fonts' any cs fuel es text ons s b :
    List.length fonts = 12 ->
    equation cs (engine_for E (dimens fonts any)) fuel text = Ok b ->
    tree_session fonts (es ++ text_event (engine_for E (dimens fonts any)) cs fuel text :: map TOnly ons) = Ok s ->
    (forall i k, visible (t_rows s) i k -> dimens fonts' any i k = dimens fonts any i k) ->
    equation cs (engine_for E (dimens fonts' any)) fuel text = Ok b.
  Proof.
    intros L HE HS HV.
    rewrite <- HE. change (engine_for E (dimens fonts' any))
      with (with_params (engine_for E (dimens fonts any)) (fun fam z => params_of (dimens fonts' any (number (Z.to_nat fam) z)))).
    apply equation_agree. unfold text_event in HS. rewrite HE in HS.
    pose proof (equation_calls (engine_for E (dimens fonts any)) cs fuel text) as HT.
    set (asks := equation_asks (engine_for E (dimens fonts any)) cs fuel text) in *.
    apply session_table in HS; [|exact L].
    unfold agree. apply Forall_forall. intros r Hr.
    assert (HI : in_table r) by (eapply Forall_forall in HT; eassumption).
    destruct (in_table_index r HI) as [Hl Hd].
    assert (V : dimens fonts' any (font_index (snd r)) (base_field (fst r)) = dimens fonts any (font_index (snd r)) (base_field (fst r))).
    { apply HV. destruct (nth_error fonts (font_index (snd r))) as [f|] eqn:Hf; [|apply nth_error_None in Hf; lia].
      set (hide := fun i k => t_only s && negb (asked (calls (map (fun r : request => (fst r, font_index (snd r))) asks)) i k)) in HS.
      exists (map (fun k => mkRow (hide (font_index (snd r)) k) (name_of k) (e_dimen f k)) (family_parameters (font_index (snd r) / 3))).
      exists (mkRow (hide (font_index (snd r)) (base_field (fst r))) (name_of (base_field (fst r))) (e_dimen f (base_field (fst r)))).
      split; [rewrite HS; apply table_nth; assumption|]. split; [|split; [reflexivity|]].
      - apply (in_map (fun k => mkRow (hide (font_index (snd r)) k) (name_of k) (e_dimen f k))). rewrite Hd. exact (proj2 HI).
      - cbn [r_hidden]. unfold hide. rewrite (asked_in _ (font_index (snd r)) (base_field (fst r))); [apply andb_false_r|].
        unfold calls. rewrite map_map. cbn [fst snd].
        exact (in_map (fun r : request => (base_field (fst r), font_index (snd r))) asks r Hr). }
    destruct r as (g, (fam, z)). cbn [fst snd] in V. rewrite index_number in V.
    unfold parameter_of. cbn [fst snd engine_for with_params e_params].
    destruct g; cbn [parameter params_of f_xHeight f_quad f_num1 f_num2 f_denom1 f_denom2 f_sup1 f_sup2 f_sup3 f_sub1 f_sub2
      f_supDrop f_subDrop f_axis f_rule f_big1 f_big2 f_big3 f_big4 f_big5 base_field] in *; try reflexivity; rewrite V; reflexivity.
  Qed.
End Window.
