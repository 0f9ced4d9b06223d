(** Which exceptions end the page editor. *)
From Coq Require Import List Ascii String ZArith QArith Bool Arith Lia.
From Verif.Base Require Import Result Num.
From Verif.Model Require Import Unicode Token Lexer Macro Dimen DimenParser Glue Box
  ListBuilders LineBreaks MathList MathParser MathTypeset MathFrontend PageEditor PageWindow Preprocessor.
From Verif.Spec Require Import PageEditorSpec PageWindowSpec EscapeSpec.
From Verif.Proofs Require Import TypesetTypes PageStream PageMachine PageRun PageFrame PageFindings PageDeliver PageText PageWindow.
Import ListNotations.
Local Open Scope nat_scope.

(** * dimensions *)
Definition good_dim (d : dparser) : Prop :=
  (dp_st d = ParseOptionalSign /\ dp_factor d = []) \/ (dp_st d <> ParseOptionalSign /\ has_digit (dp_factor d) = true).
Lemma good_dim_init : good_dim dp_init. Proof. left. auto. Qed.
Lemma has_digit_app a b : has_digit (a ++ b) = has_digit a || has_digit b.
Proof. apply existsb_app. Qed.
Lemma good_dim_write d c d' : good_dim d -> dp_write d c = Ok d' -> good_dim d'.
Proof.
  intros G H. unfold dp_write in H.
  assert (F : forall d', (has_digit (dp_factor d) = true \/ is_digit c = true) -> dp_write_factor d c = Ok d' -> good_dim d').
  { clear H. intros d1 HD H. right. unfold dp_write_factor in H.
    destruct (is_digit c) eqn:Hc; [injection H as <-; cbn [dp_st dp_factor]; rewrite has_digit_app; unfold has_digit at 2; cbn [existsb]; rewrite Hc, orb_true_r; split; [discriminate|reflexivity]|].
    destruct HD as [HD|HD]; [|discriminate HD].
    destruct (is_sep c); [destruct (dp_decimal d); [discriminate H|]|destruct (is_lowercase_letter c)]; injection H as <-; cbn [dp_st dp_factor];
      (split; [discriminate|]); rewrite ?has_digit_app, HD; reflexivity. }
  destruct (dp_st d) eqn:St.
  - destruct G as [[_ G]|[G _]]; [|congruence].
    destruct (ceq c "+"); [injection H as <-; left; auto|]. destruct (ceq c "-"); [injection H as <-; left; auto|].
    destruct (is_digit c) eqn:Hc; [exact (F _ (or_intror eq_refl) H)|]. destruct (is_sep c); [|discriminate H].
    injection H as <-. right. cbn. rewrite G. split; [discriminate|reflexivity].
  - destruct G as [[G _]|[_ G]]; [congruence|]. exact (F _ (or_introl G) H).
  - destruct G as [[G _]|[_ G]]; [congruence|].
    destruct (is_lowercase_letter c); [injection H as <-; right; cbn [dp_st dp_factor]; split; [discriminate|exact G]|].
    destruct (dp_hasResult d); [|discriminate H]. injection H as <-. right. cbn [dp_st dp_factor]. split; [discriminate|exact G].
  - injection H as <-. exact G.
Qed.
Definition sign (c : ascii) : Prop := c = "+"%char \/ c = "-"%char.
Lemma ceq_true a b : ceq a b = true -> a = b.
Proof. unfold ceq. apply Ascii.eqb_eq. Qed.
(** nothing but signs *)
Lemma no_digit_signs : forall w d, dp_writes dp_init w = Ok d -> (no_digit d <-> Forall sign w).
Proof.
  assert (S1 : forall d c d', dp_write d c = Ok d' -> (no_digit d' <-> no_digit d /\ sign c)).
  { intros d c d' H. unfold no_digit, sign. unfold dp_write, dp_write_factor in H.
    destruct (dp_st d) eqn:St.
    - destruct (ceq c "+") eqn:E1; [apply ceq_true in E1; injection H as <-; tauto|].
      destruct (ceq c "-") eqn:E2; [apply ceq_true in E2; injection H as <-; cbn; tauto|].
      assert (NE : ~ (c = "+"%char \/ c = "-"%char)) by (intros [-> | ->]; discriminate).
      destruct (is_digit c); [injection H as <-; cbn; split; [discriminate|tauto]|].
      destruct (is_sep c); [|discriminate H]. injection H as <-; cbn; split; [discriminate|tauto].
    - destruct (is_digit c); [injection H as <-; cbn; split; [discriminate|intros [? _]; discriminate]|].
      destruct (is_sep c); [destruct (dp_decimal d); [discriminate H|]|destruct (is_lowercase_letter c)]; injection H as <-; cbn; (split; [discriminate|intros [? _]; discriminate]).
    - destruct (is_lowercase_letter c); [|destruct (dp_hasResult d); [|discriminate H]]; injection H as <-; cbn; (split; [discriminate|intros [? _]; discriminate]).
    - injection H as <-. rewrite St. split; [discriminate|intros [? _]; discriminate]. }
  assert (S2 : forall w d0 d, dp_writes d0 w = Ok d -> (no_digit d <-> no_digit d0 /\ Forall sign w)).
  { induction w as [|c w IH]; intros d0 d H; cbn in H.
    - injection H as <-. split; [auto|tauto].
    - apply bind_Ok in H as (d1 & H1 & H). rewrite (IH d1 d H), (S1 _ _ _ H1), Forall_cons_iff. tauto. }
  intros w d H. rewrite (S2 w dp_init d H). unfold no_digit. cbn. tauto.
Qed.

Section Escapes.
  Context {N : Num}.
  Variable K : host N.
  Notation machine := (machine N).

  Lemma stof_fails d : good_dim d -> (stof_escapes K (dp_factor d) = true <-> no_digit d \/ too_large K d).
  Proof.
    intros G. unfold stof_escapes, stof, stof_q, no_digit, too_large, stof_q.
    destruct G as [[G1 G2]|[G1 G2]].
    - rewrite G2. cbn. split; auto.
    - rewrite G2. destruct (stof_int 0 (dp_factor d)) as [i r].
      match goal with |- context [match ?v with Some _ => _ | None => _ end] => assert (E : exists q, v = Some q) end.
      { destruct r as [|c r]; [eauto|]. destruct (ceq c "."); eauto. }
      destruct E as (q & ->). destruct (k_range K (Qred q)) eqn:R.
      + split; [discriminate|]. intros [H|(q' & H & H')]; [congruence|]. injection H as <-. congruence.
      + split; [|reflexivity]. intros _. right. eauto.
  Qed.
  Lemma completes_good d t d' : good_dim d -> completes d t d' -> good_dim d'.
  Proof. intros G [n|c k d1 H _]; [exact G|]. eapply good_dim_write; eassumption. Qed.
  Lemma bad_number_iff d t : good_dim d ->
    (bad_number K d t <-> match t with
      | TCs _ => stof_escapes K (dp_factor d) = true
      | TChar c _ => match dp_write d c with Ok d' => dp_isFinished d' && stof_escapes K (dp_factor d') = true | _ => False end
      | TParam _ => False end).
  Proof.
    intros G. unfold bad_number. destruct t as [c k|n|n].
    - split.
      + intros (d' & C & B). inversion C as [|c0 k0 d0 W Fi]; subst. rewrite W, Fi. cbn. apply stof_fails; [eapply good_dim_write; eassumption|exact B].
      + destruct (dp_write d c) as [d'| | | |] eqn:W; [|intros []..]. intros H. apply andb_true_iff in H as [Fi H].
        exists d'. split; [constructor; assumption|]. apply stof_fails; [eapply good_dim_write; eassumption|exact H].
    - split.
      + intros (d' & C & B). inversion C; subst. apply stof_fails; assumption.
      + intros H. exists d. split; [constructor|]. apply stof_fails; assumption.
    - split; [|intros []]. intros (d' & C & _). inversion C.
  Qed.

  (** * the machine *)
  Definition undone (m : mode N) : Prop :=
    match m with
    | MV (VKern _ k) _ => kp_done k = false
    | MH h => match h_state h with HKern _ k => kp_done k = false | _ => True end
    | _ => True
    end.
  Definition good_mode (m : mode N) : Prop := undone m /\ match reading m with Some d => good_dim d | None => True end.
  Definition good_as (a : astate N) : Prop := match a with AParshape _ p => good_dim (pp_dimen p) | _ => True end.
  Definition good (s : machine) : Prop := Forall good_mode (ms_modes s) /\ good_as (ms_as s).

  Lemma good_tl s : good s -> Forall good_mode (tl (ms_modes s)).
  Proof. intros [G _]. destruct G; [constructor|assumption]. Qed.
  Lemma good_cur s m : good s -> good_mode m -> good (set_cur s m).
  Proof. intros G M. split; [|exact (proj2 G)]. constructor; [exact M|exact (good_tl s G)]. Qed.
  Lemma good_enter s m : good s -> good_mode m -> good (m_enter s m).
  Proof. intros [G A] M. split; [|exact A]. constructor; assumption. Qed.
  Lemma main_v b : good_mode (MV VMain b). Proof. split; exact Logic.I. Qed.
  Lemma main_h m : h_state m = HMain -> good_mode (MH m).
  Proof. intros E. split; cbn [undone reading]; rewrite E; exact Logic.I. Qed.
  Lemma math_m st buf p : good_mode (MM st buf p). Proof. split; exact Logic.I. Qed.
  Lemma other_h m m' : h_state m' = h_state m -> good_mode (MH m) -> good_mode (MH m').
  Proof. intros E. unfold good_mode. cbn [undone reading]. rewrite E. auto. Qed.

  Ltac fails := (let H := fresh in intros ? H; discriminate H).
  Lemma enter_h_good s r : good s -> holds (enter_h s r) good.
  Proof.
    intros G. unfold enter_h. apply holds_any. intros _. destruct (ms_modes s); [fails|].
    apply holds_ok, good_enter; [exact G|]. apply main_h. reflexivity.
  Qed.
  Lemma kern_init us b : good_mode (MV (VKern us kp_init) b).
  Proof. split; [reflexivity|exact good_dim_init]. Qed.
  Lemma v_main_good s b t : good s -> holds (v_main K s b t) good.
  Proof.
    intros G. unfold v_main. destruct t as [c k|n|n].
    1,3: (destruct (mathshift _); [apply holds_ok, good_cur; [exact G|split; exact Logic.I]|];
      eapply holds_bind; [apply enter_h_good, good_cur; [exact G|apply main_v]|]; intros s1 G1; apply holds_ok; exact G1).
    destruct (cs_is n "par"); [apply holds_ok, good_cur; [exact G|apply main_v]|].
    destruct (cs_is n "kern"); [|fails]. apply holds_any. intros us. apply holds_ok, good_cur; [exact G|apply kern_init].
  Qed.
  Lemma v_write_good s st b t : good s -> good_mode (MV st b) -> holds (v_write K s st b t) good.
  Proof.
    intros G M. destruct st as [| |us k]; cbn [v_write].
    - exact (v_main_good s b t G).
    - unfold v_mathshift. destruct (mathshift t).
      + apply holds_ok, good_enter; [apply good_cur; [exact G|apply main_v]|apply math_m].
      + eapply holds_bind; [apply enter_h_good, good_cur; [exact G|apply main_v]|]. intros s1 G1.
        eapply holds_bind; [apply enter_h_good, G1|]. intros s2 G2. apply holds_ok. exact G2.
    - unfold v_kern. destruct t as [c q|n|n]; [| |fails].
      + destruct (kp_write k c) as [k'| | | |] eqn:W; try fails. cbn [bind].
        unfold kp_write in W. destruct M as [U D]. cbn [undone reading] in U, D. rewrite U in W.
        apply bind_Ok in W as (d & W & Hk). injection Hk as <-. cbn [kp_done].
        destruct (dp_isFinished d) eqn:Fi; [apply holds_any; intros x; apply holds_ok, good_cur; [exact G|apply main_v]|].
        apply holds_ok, good_cur; [exact G|]. split; [reflexivity|]. cbn [reading kp_dimen]. eapply good_dim_write; eassumption.
      + apply holds_any. intros x. apply v_main_good. exact G.
  Qed.

  Lemma bottom_good f : forall l l', change_bottom f l = Ok l' -> Forall good_mode l -> Forall good_mode l'.
  Proof.
    induction l as [|m l IH]; intros l' H F; cbn [change_bottom] in H; [discriminate H|].
    apply Forall_cons_iff in F as [Fm F]. destruct l as [|m' l].
    - destruct m as [st b|h|st buf p]; try discriminate H. apply bind_Ok in H as (b' & _ & H). injection H as <-.
      constructor; [exact Fm|constructor].
    - assert (H' : exists r, change_bottom f (m' :: l) = Ok r /\ m :: r = l').
      { destruct m; apply bind_Ok in H as (r & Hr & H); exists r; (split; [exact Hr|]); injection H as <-; reflexivity. }
      destruct H' as (r & Hr & <-). constructor; [exact Fm|exact (IH r Hr F)].
  Qed.
  Lemma h_output_good s m : good s -> good_mode (MH m) -> holds (h_output K s m) good.
  Proof.
    intros G M. unfold h_output. destruct (h_routine m); [fails| |].
    - apply holds_any. intros me. destruct (change_bottom _ _) as [l| | | |] eqn:C; try fails. cbn [bind].
      apply holds_ok. split; [|exact (proj2 G)]. constructor; [exact M|]. exact (bottom_good _ _ _ C (good_tl s G)).
    - pose proof (good_tl s G) as T. destruct (tl (ms_modes s)) as [|[st b|p|st buf p] r]; try fails.
      apply Forall_cons_iff in T as [Tp T]. apply holds_ok. split; [|exact (proj2 G)]. constructor; [exact M|]. constructor; [|exact T].
      revert Tp. apply other_h. unfold h_write_box. destruct (nonzero (h_lower p)); reflexivity.
  Qed.
  Lemma begin_good s : good s -> holds (m_beginGroup s) good.
  Proof. intros G. unfold m_beginGroup. cbn [set_pre ms_mem]. destruct (ms_mem s); [fails|]. apply holds_ok. exact G. Qed.
  Lemma end_good s : good s -> holds (m_endGroup s) good.
  Proof. intros G. unfold m_endGroup. destruct (ms_mem s); [fails|]. apply holds_any. intros p. apply holds_ok. exact G. Qed.
  Lemma h_main_good s m t : good s -> h_state m = HMain -> holds (h_main K s m t) good.
  Proof.
    intros G M. pose proof (main_h m M) as GM. unfold h_main. destruct t as [c k|n|n]; [| |fails].
    - destruct k; try (apply holds_ok, good_cur; [exact G|exact GM]).
      + unfold h_beginGroup. apply begin_good, good_cur; [exact G|]. apply main_h. exact M.
      + unfold h_endGroup. eapply holds_bind; [apply end_good, good_cur; [exact G|apply main_h; exact M]|]. intros s1 G1.
        match goal with |- holds (if ?b then _ else _) _ => destruct b end; [|apply holds_ok; exact G1].
        apply h_output_good; [exact G1|apply main_h; exact M].
      + apply holds_ok, good_cur; [exact G|]. split; exact Logic.I.
      + apply holds_any. intros me. apply holds_ok, good_cur; [exact G|apply main_h; exact M].
      + apply holds_any. intros r. destruct r; [|apply holds_ok, good_cur; [exact G|apply main_h; exact M]].
        apply holds_any. intros x. apply holds_any. intros me. apply holds_ok, good_cur; [exact G|apply main_h; exact M].
      + apply holds_any. intros r. destruct r; [|apply holds_ok, good_cur; [exact G|apply main_h; exact M]].
        apply holds_any. intros x. apply holds_any. intros me. apply holds_ok, good_cur; [exact G|apply main_h; exact M].
    - destruct (cs_is n "par"); [exact (h_output_good s m G GM)|].
      destruct (cs_is n "kern"); [apply holds_any; intros us; apply holds_ok, good_cur; [exact G|]; split; [reflexivity|exact good_dim_init]|].
      destruct (cs_is n "hbox"); [apply enter_h_good, good_cur; assumption|].
      destruct (cs_is n "lower"); [|fails]. apply holds_ok, good_cur; [exact G|]. split; [exact Logic.I|exact good_dim_init].
  Qed.
  Lemma h_write_good s m t : good s -> good_mode (MH m) -> holds (h_write K s m t) good.
  Proof.
    intros G M. unfold h_write. destruct (h_state m) as [| |us k|d] eqn:St.
    - exact (h_main_good s m t G St).
    - unfold h_mathshift. cbv zeta.
      assert (G1 : good (set_cur s (MH (with_hstate m HMain)))) by (apply good_cur; [exact G|apply main_h; reflexivity]).
      destruct (mathshift t).
      + eapply holds_bind; [apply h_output_good; [exact G1|apply main_h; reflexivity]|]. intros s1 G2. apply holds_ok. exact G2.
      + apply holds_ok. exact (good_enter _ _ G1 (math_m _ _ _)).
    - unfold h_kern. destruct M as [U D]. cbn [undone reading] in U, D. rewrite St in U, D. destruct t as [c q|n|n]; [| |fails].
      + destruct (kp_write k c) as [k'| | | |] eqn:W; try fails. cbn [bind].
        unfold kp_write in W. rewrite U in W. apply bind_Ok in W as (d & W & Hk). injection Hk as <-. cbn [kp_done].
        destruct (dp_isFinished d) eqn:Fi; [apply holds_any; intros x; apply holds_ok, good_cur; [exact G|apply main_h; reflexivity]|].
        apply holds_ok, good_cur; [exact G|]. split; [reflexivity|]. cbn [reading h_state with_hstate kp_dimen]. eapply good_dim_write; eassumption.
      + apply holds_any. intros x. cbv zeta. apply h_main_good; [apply good_cur; [exact G|apply main_h; reflexivity]|reflexivity].
    - unfold h_lowering. destruct M as [U D]. cbn [undone reading] in U, D. rewrite St in U, D.
      eapply holds_bind with (P := good_dim).
      { destruct t as [c q|n|n]; [|apply holds_ok; exact D|apply holds_ok; exact D]. intros d' W. eapply good_dim_write; eassumption. }
      intros d' D'. destruct (isControlSequence t || dp_isFinished d').
      + apply holds_any. intros x. apply holds_any. intros us. apply holds_any. intros v. cbv zeta.
        assert (G1 : good (set_cur s (MH (with_hstate (with_lower m v) HMain)))) by (apply good_cur; [exact G|apply main_h; reflexivity]).
        destruct (isControlSequence t); [apply h_main_good; [exact G1|reflexivity]|apply holds_ok; exact G1].
      + apply holds_ok, good_cur; [exact G|]. split; [exact Logic.I|exact D'].
  Qed.

  Lemma m_output_good s st buf p : good s -> holds (m_output K s st buf p) good.
  Proof.
    intros G. pose proof (good_tl s G) as T. unfold m_output. destruct (tl (ms_modes s)) as [|[vs b|h|st' buf' p'] r]; try fails;
      apply Forall_cons_iff in T as [Tp T]; apply holds_any; intros ml; apply holds_any; intros x.
    - apply holds_any. intros me. apply holds_ok. split; [|exact (proj2 G)]. constructor; [apply math_m|]. constructor; [exact Tp|exact T].
    - apply holds_ok. split; [|exact (proj2 G)]. constructor; [apply math_m|]. constructor; [exact Tp|exact T].
  Qed.
  Lemma m_finish_good s st buf p : good s -> holds (m_finish K s st buf p) good.
  Proof. intros G. unfold m_finish. apply holds_any. intros p'. apply m_output_good, G. Qed.
  Lemma m_call_good s buf p c : good s -> holds (m_call s buf p c) good.
  Proof. intros G. unfold m_call. apply holds_any. intros p'. apply holds_ok, good_cur; [exact G|apply math_m]. Qed.
  Lemma m_write_good s st buf p t : good s -> holds (m_write K s st buf p t) good.
  Proof.
    intros G. destruct st; cbn [m_write]; [|destruct (mathshift t); [apply m_finish_good, G|fails]].
    unfold m_main. destruct t as [c k|n|n]; [| |fails].
    - destruct k; try (apply holds_ok, good_cur; [exact G|apply math_m]); try (apply m_call_good, G).
      + eapply holds_bind; [apply begin_good, G|]. intros s1 G1. apply m_call_good, G1.
      + eapply holds_bind; [apply m_call_good, G|]. intros s1 G1. apply end_good, G1.
      + destruct (tl (ms_modes s)); [fails|]. destruct (mode_kind m); try (apply m_finish_good, G); apply holds_ok, good_cur; [exact G|apply math_m|exact G|apply math_m].
      + apply holds_any. intros r. destruct r; [|apply holds_ok, good_cur; [exact G|apply math_m]].
        apply holds_any. intros x. apply holds_any. intros p'. apply holds_ok, good_cur; [exact G|apply math_m].
      + apply holds_any. intros r. destruct r; [|apply holds_ok, good_cur; [exact G|apply math_m]].
        apply holds_any. intros x. apply holds_any. intros p'. apply holds_ok, good_cur; [exact G|apply math_m].
    - apply holds_any. intros p'. apply holds_ok, good_cur; [exact G|apply math_m].
  Qed.
  Lemma mode_write_good s t : good s -> holds (mode_write K s t) good.
  Proof.
    intros G. pose proof (proj1 G) as F. unfold mode_write. destruct (ms_modes s) as [|[st b|m|st buf p] r]; [fails| | |];
      apply Forall_cons_iff in F as [M F].
    - exact (v_write_good s st b t G M).
    - exact (h_write_good s m t G M).
    - exact (m_write_good s st buf p t G).
  Qed.
  Lemma mode_finish_good s : good s -> holds (mode_finish K s) good.
  Proof.
    intros G. pose proof (proj1 G) as F. unfold mode_finish. destruct (ms_modes s) as [|[st b|m|st buf p] r]; [fails| | |];
      apply Forall_cons_iff in F as [M F].
    - apply holds_ok, G.
    - exact (h_output_good s m G M).
    - exact (m_finish_good s st buf p G).
  Qed.
  Lemma digestToken_good s : good s -> holds (digestToken K s) (fun x => good (fst x)).
  Proof.
    intros G. unfold digestToken. destruct (ms_tokens s) as [|t r]; [apply holds_ok; exact G|].
    eapply holds_bind; [apply mode_write_good; exact G|]. intros s1 G1. apply holds_ok. cbn [fst].
    destruct (ms_leave s1); [|exact G1]. split; [exact (good_tl s1 G1)|exact (proj2 G1)].
  Qed.
  Lemma digest_good : forall n s, good s -> holds (digest K n s) good.
  Proof.
    induction n as [|n IH]; intros s G; cbn [digest]; [fails|].
    eapply holds_bind; [apply digestToken_good, G|]. intros [s1 b] G1. cbn [fst snd] in *. destruct b; [exact (IH s1 G1)|apply holds_ok; exact G1].
  Qed.
  Lemma finish_modes_good : forall n s, good s -> holds (finish_modes K n s) good.
  Proof.
    induction n as [|n IH]; intros s G; cbn [finish_modes]; [exact (mode_finish_good s G)|].
    eapply holds_bind; [apply mode_finish_good, G|]. intros s1 G1. apply IH. split; [exact (good_tl s1 G1)|exact (proj2 G1)].
  Qed.

  Lemma as_main_good s t : good s -> holds (as_main K s t) (fun x => good (fst x)).
  Proof.
    intros G. unfold as_main. destruct t as [c k|n|n]; try (apply holds_ok; exact G).
    destruct (cs_is n "parshape"); [apply holds_any; intros us; apply holds_ok; split; [exact (proj1 G)|exact good_dim_init]|].
    destruct (cs_is n "font"); [apply holds_ok; split; [exact (proj1 G)|exact Logic.I]|].
    destruct (find_font n (ms_fonts s)); [|apply holds_ok; exact G].
    unfold change_mem. destruct (ms_mem s); [fails|]. apply holds_ok. exact G.
  Qed.
  Lemma pp_write_good us (p p' : pparser N) c : good_dim (pp_dimen p) -> pp_write (k_range K) us p c = Ok p' -> good_dim (pp_dimen p').
  Proof.
    intros G H. unfold pp_write in H. destruct (pp_st p).
    - destruct (ceq c "="); [injection H as <-; exact G|]. destruct (is_digit c); [|discriminate H]. injection H as <-. exact G.
    - destruct (is_digit c); [destruct (INT_MAX <? _)%Z; [discriminate H|]; injection H as <-; exact G|].
      destruct (ceq c " "); [|discriminate H]. injection H as <-. exact G.
    - apply bind_Ok in H as (d & W & H). destruct (dp_isFinished d).
      + apply bind_Ok in H as (x & _ & H). apply bind_Ok in H as (v & _ & H). injection H as <-. exact good_dim_init.
      + injection H as <-. eapply good_dim_write; eassumption.
    - apply bind_Ok in H as (d & W & H). pose proof (good_dim_write _ _ _ G W) as GD. destruct (dp_isFinished d).
      + apply bind_Ok in H as (x & _ & H). apply bind_Ok in H as (v & _ & H). apply bind_Ok in H as (sp & _ & H).
        destruct (Z.eqb _ _); injection H as <-; [exact GD|exact good_dim_init].
      + injection H as <-. exact GD.
    - destruct (ceq c " "); [|discriminate H]. injection H as <-. exact G.
  Qed.
  Lemma as_write_good s t : good s -> holds (as_write K s t) (fun x => good (fst x)).
  Proof.
    intros G. unfold as_write. destruct (ms_as s) as [|us p|f] eqn:A.
    - exact (as_main_good s t G).
    - unfold as_parshape. eapply holds_bind with (P := fun p' => good_dim (pp_dimen p')).
      { pose proof (proj2 G) as GA. rewrite A in GA. cbn [good_as] in GA. destruct t as [c k|n|n]; try (apply holds_ok; exact GA).
        intros p' W. eapply pp_write_good; eassumption. }
      intros p' G'. match goal with |- holds (if ?b then _ else _) _ => destruct b end.
      + apply holds_any. intros ps. unfold change_mem. destruct (ms_mem s); [fails|]. cbn [bind]. cbv zeta.
        match goal with |- holds (if _ then as_main K ?s1 _ else _) _ => assert (G1 : good s1) by (split; [exact (proj1 G)|exact Logic.I]) end.
        destruct (isControlSequence t); [exact (as_main_good _ t G1)|apply holds_ok; exact G1].
      + apply holds_ok. split; [exact (proj1 G)|exact G'].
    - unfold as_font. apply holds_any. intros f'. destruct (fp_isFinished f').
      + apply holds_any. intros x. apply holds_ok. split; [exact (proj1 G)|exact Logic.I].
      + apply holds_ok. split; [exact (proj1 G)|exact Logic.I].
  Qed.
  Lemma advance_good s s' : good s -> m_advance K s = Ok s' -> good s'.
  Proof.
    intros G. revert s'. change (holds (m_advance K s) good). unfold m_advance. destruct (ms_state s).
    - apply holds_ok, G.
    - destruct (atEnd (ms_in s)).
      + eapply holds_bind; [apply finish_modes_good, G|]. intros s1 G1. apply holds_ok. exact G1.
      + apply holds_any. intros x. cbv zeta. destruct (write _ _ _) as [l [e|]]; [fails|]. apply holds_ok. exact G.
    - destruct (l_out (ms_lex s)) as [|t r]; [apply holds_ok; exact G|]. cbv zeta. apply holds_any. intros p. apply holds_ok. exact G.
    - apply holds_any. intros p. apply holds_ok. exact G.
    - eapply holds_bind with (P := good); [|intros s1 G1; apply holds_ok; exact G1].
      unfold sendToken. destruct (p_output (ms_pre s)) as [|t r]; [apply holds_ok; exact G|].
      eapply holds_bind; [apply as_write_good; exact G|]. intros x Gx. apply holds_ok. exact Gx.
    - eapply holds_bind; [apply digest_good, G|]. intros s1 G1. apply holds_ok. exact G1.
  Qed.
  Lemma new_good h s : machine_new K 0 h = Ok s -> good s.
  Proof.
    intros NW. unfold machine_new in NW. cbv zeta in NW. apply bind_Ok in NW as (ms & _ & H). apply bind_Ok in H as (p & _ & H).
    injection H as <-. split; [|exact Logic.I]. constructor; [apply main_v|constructor].
  Qed.

  (** * the reasons *)
  Lemma token_escapes_iff s t : good s -> (token_escapes K s t = true <-> digest_reason K s t).
  Proof.
    intros [F _]. unfold token_escapes, digest_reason. 
    assert (GE : forall m r, ms_modes s = m :: r -> takes_groups m = true -> reading m = None ->
      (group_escapes s t = true <-> exists m r, ms_modes s = m :: r /\
        ((exists d, reading m = Some d /\ bad_number K d t) \/ (takes_groups m = true /\ ms_mem s = [] /\ exists c, t = TChar c GroupBegin)))).
    { intros m r E TG RD. unfold group_escapes. split.
      - intros H. exists m, r. split; [exact E|]. right. split; [exact TG|].
        destruct t as [c [] | |]; try discriminate H. destruct (ms_mem s); [eauto|discriminate H].
      - intros (m1 & r1 & E1 & H). rewrite E in E1. injection E1 as <- <-. rewrite RD in H.
        destruct H as [(d & H & _)|(_ & H & c & ->)]; [discriminate H|]. rewrite H. reflexivity. }
    assert (NO : forall m r, ms_modes s = m :: r -> takes_groups m = false -> reading m = None ->
      (false = true <-> exists m r, ms_modes s = m :: r /\
        ((exists d, reading m = Some d /\ bad_number K d t) \/ (takes_groups m = true /\ ms_mem s = [] /\ exists c, t = TChar c GroupBegin)))).
    { intros m r E TG RD. split; [discriminate|]. intros (m1 & r1 & E1 & H). rewrite E in E1. injection E1 as <- <-. rewrite RD, TG in H.
      destruct H as [(d & H & _)|(H & _)]; discriminate H. }
    assert (DI : forall m r d, ms_modes s = m :: r -> takes_groups m = false -> reading m = Some d -> good_dim d ->
      forall b : bool, (b = true <-> bad_number K d t) ->
      (b = true <-> exists m r, ms_modes s = m :: r /\
        ((exists d, reading m = Some d /\ bad_number K d t) \/ (takes_groups m = true /\ ms_mem s = [] /\ exists c, t = TChar c GroupBegin)))).
    { intros m r d E TG RD GD b B. rewrite B. split; [intros H; exists m, r; eauto|]. intros (m1 & r1 & E1 & H). rewrite E in E1. injection E1 as <- <-.
      rewrite RD, TG in H. destruct H as [(d1 & H & H1)|(H & _)]; [injection H as <-; exact H1|discriminate H]. }
    assert (KE : forall k, kp_done k = false -> good_dim (kp_dimen k) -> (kern_escapes K k t = true <-> bad_number K (kp_dimen k) t)).
    { intros k U D. rewrite (bad_number_iff _ t D). unfold kern_escapes. destruct t as [c q|n|n]; [|tauto|split; [discriminate|intros []]].
      unfold kp_write. rewrite U. destruct (dp_write (kp_dimen k) c); cbn [bind kp_done kp_dimen]; [tauto|split; [discriminate|intros []]..]. }
    assert (LE : forall d, good_dim d -> (lower_escapes K d t = true <-> bad_number K d t)).
    { intros d D. rewrite (bad_number_iff _ t D). unfold lower_escapes. destruct t as [c q|n|n]; [|tauto|split; [discriminate|intros []]].
      destruct (dp_write d c); [tauto|split; [discriminate|intros []]..]. }
    destruct (ms_modes s) as [|m r] eqn:E.
    { split; [discriminate|]. intros (m & r & H & _). discriminate H. }
    apply Forall_cons_iff in F as [[U D] _]. destruct m as [[| |us k] b|m|[|] buf p].
    - exact (NO _ r eq_refl eq_refl eq_refl).
    - exact (NO _ r eq_refl eq_refl eq_refl).
    - exact (DI _ r _ eq_refl eq_refl eq_refl D _ (KE k U D)).
    - pose proof (GE (MH m) r eq_refl) as GE'. pose proof (NO (MH m) r eq_refl) as NO'. pose proof (DI (MH m) r) as DI'. cbn [takes_groups reading undone] in GE', NO', DI', U, D.
      destruct (h_state m) as [| |us k|d].
      + exact (GE' eq_refl eq_refl).
      + exact (NO' eq_refl eq_refl).
      + exact (DI' _ eq_refl eq_refl eq_refl D _ (KE k U D)).
      + exact (DI' _ eq_refl eq_refl eq_refl D _ (LE d D)).
    - exact (GE _ r eq_refl eq_refl eq_refl).
    - exact (NO _ r eq_refl eq_refl eq_refl).
  Qed.
  Lemma digest_escapes_iff : forall n s, good s -> digest K n s = Throw ->
    (digest_escapes K n s = true <-> exists s1 t r, digests K s s1 /\ ms_tokens s1 = t :: r /\ digestToken K s1 = Throw /\ digest_reason K s1 t).
  Proof.
    induction n as [|n IH]; intros s G H; cbn [digest] in H; [discriminate H|]. cbn [digest_escapes].
    pose proof (digestToken_good s G) as GD. destruct (digestToken K s) as [[s1 b]| | | |] eqn:DT; cbn [bind fst snd] in H; try discriminate H.
    - destruct b; [|discriminate H]. specialize (GD _ eq_refl). cbn [fst] in GD. rewrite (IH s1 GD H). split.
      + intros (s2 & t & r & D & R). exists s2, t, r. split; [econstructor; eassumption|exact R].
      + intros (s2 & t & r & D & E & T & R). inversion D as [|a b' c D1 D2]; subst; [congruence|].
        rewrite DT in D1. injection D1 as <-. exists s2, t, r. auto.
    - split.
      + destruct (ms_tokens s) as [|t r] eqn:E; [discriminate|]. intros X. apply (token_escapes_iff s t G) in X. exists s, t, r. split; [constructor|]. auto.
      + intros (s2 & t & r & D & E & T & R). inversion D as [|a b' c D1 D2]; subst; [|congruence]. rewrite E. apply token_escapes_iff; assumption.
  Qed.
  Lemma send_escapes_iff s : good s -> (send_escapes K s = true <-> shape_reason K s).
  Proof.
    intros [_ G]. unfold send_escapes, shape_reason. split.
    - destruct (p_output (ms_pre s)) as [|t r]; [discriminate|]. destruct (ms_as s) as [|us p|f]; [discriminate| |discriminate].
      cbn [good_as] in G. intros H. exists us, p, t, r. split; [reflexivity|]. split; [reflexivity|]. rewrite (bad_number_iff _ t G).
      unfold shape_escapes in H. destruct t as [c k|n|n]; [| |discriminate H].
      + destruct (pp_st p); try discriminate H; (destruct (dp_write (pp_dimen p) c); [|discriminate H..]); split; auto.
      + destruct (pp_st p); try discriminate H. apply andb_true_iff in H as [Hn H]. apply Z.eqb_eq in Hn. auto.
    - intros (us & p & t & r & A & O & B & C). rewrite O, A. rewrite A in G. apply (bad_number_iff _ t G) in B.
      unfold shape_escapes. destruct t as [c k|n|n]; [| |destruct B].
      + destruct (dp_write (pp_dimen p) c); [|destruct B..]. destruct C as [-> | ->]; exact B.
      + destruct C as [-> ->]. rewrite Z.eqb_refl. exact B.
  Qed.
  Lemma escapes_iff s : good s -> m_advance K s = Throw -> (escapes K s = true <-> reason K s).
  Proof.
    intros G H. unfold escapes, reason. destruct (ms_state s) eqn:E; try (split; [discriminate|intros []]).
    - apply send_escapes_iff, G.
    - apply digest_escapes_iff; [exact G|]. unfold m_advance in H. rewrite E in H.
      destruct (digest K (digest_fuel s) s) as [x| | | |]; cbn [bind] in H; [discriminate H|reflexivity|discriminate H..].
  Qed.
  Lemma run_to_good : forall n s u, good s -> run_to K n s = StopThrow u -> good u /\ m_advance K u = Throw.
  Proof.
    induction n as [|n IH]; intros s u G H; cbn [run_to] in H; [destruct (ms_state s); discriminate H|].
    assert (H' : match m_advance K s with Ok s' => run_to K n s' | Throw => StopThrow s | Fuel => StopFuel | r => StopCrash s r end = StopThrow u)
      by (destruct (ms_state s); [discriminate H|exact H..]).
    destruct (m_advance K s) as [s1| | | |] eqn:A; try discriminate H'.
    - apply (IH s1 u); [exact (advance_good s s1 G A)|exact H'].
    - injection H' as <-. auto.
  Qed.
  Lemma escapes_reason h s0 text n u : machine_new K 0 h = Ok s0 -> run_to K n (start s0 text) = StopThrow u ->
    (escapes K u = true <-> reason K u).
  Proof.
    intros NW H. destruct (run_to_good n (start s0 text) u (new_good h s0 NW) H) as [G A]. exact (escapes_iff u G A).
  Qed.
  Lemma run_reached : forall n s u, run_to K n s = StopThrow u -> reached K s u /\ ms_state u <> Idle /\ m_advance K u = Throw.
  Proof.
    induction n as [|n IH]; intros s u H; cbn [run_to] in H; [destruct (ms_state s); discriminate H|].
    assert (NI : ms_state s <> Idle) by (intros E; rewrite E in H; discriminate H).
    assert (H' : match m_advance K s with Ok s' => run_to K n s' | Throw => StopThrow s | Fuel => StopFuel | r => StopCrash s r end = StopThrow u)
      by (destruct (ms_state s); [discriminate H|exact H..]).
    destruct (m_advance K s) as [s1| | | |] eqn:A; try discriminate H'.
    - destruct (IH s1 u H') as (R & X). split; [|exact X]. econstructor; eassumption.
    - injection H' as <-. split; [constructor|]. auto.
  Qed.
  Lemma reached_unique s u : reached K s u -> m_advance K u = Throw -> forall v, reached K s v -> m_advance K v = Throw -> u = v.
  Proof.
    induction 1 as [s|s s1 u NI A R IH]; intros U v RV V.
    - destruct RV as [s|s s1 v NI A R]; [reflexivity|]. rewrite U in A. discriminate A.
    - destruct RV as [s|s s1' v NI' A' R']; [rewrite V in A; discriminate A|]. rewrite A in A'. injection A' as <-. exact (IH U v R' V).
  Qed.
  Lemma ends_iff n h w text : text <> [] -> typesets_as K n h text Throw ->
    (text_changed K n h w text = Abort <-> fatal K h text).
  Proof.
    intros NE (s & NW & T). pose proof (changed_cases K n h w text s NE NW) as C. rewrite T in C.
    destruct (run_to K n (start s text)) as [u|u|u x|] eqn:R.
    - destruct C as (b & C & _). discriminate C.
    - destruct C as (_ & C). pose proof (escapes_reason h s text n u NW R) as E. destruct (run_reached _ _ _ R) as (RU & NI & A). split.
      + intros X. destruct (escapes K u); [|destruct C as (l & c & _ & C); congruence]. exists s, u. split; [exact NW|]. split; [exact RU|]. split; [exact NI|].
        split; [exact A|]. apply E. reflexivity.
      + intros (s' & v & NW' & RV & _ & AV & Q). rewrite NW in NW'. injection NW' as <-.
        rewrite <- (reached_unique _ _ RU A v RV AV) in Q. apply E in Q. rewrite Q in C. exact C.
    - destruct C as [(_ & C & _)|(_ & C & _)]; discriminate C.
    - destruct C as (C & _). discriminate C.
  Qed.
End Escapes.
