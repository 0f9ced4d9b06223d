From Coq Require Import List Ascii String ZArith Bool Arith Lia.
From Verif.Base Require Import Result Num.
From Verif.Model Require Import Tfm FontUsage.
From Verif.Spec Require Import FontUsageSpec.
Import ListNotations.

Lemma method_names g : camel (name_of (base_field g)) = method_name g.
Proof. destruct g; reflexivity. Qed.
Lemma record_flag_base g : record_flag g = base_field g.
Proof. destruct g; reflexivity. Qed.
Lemma record_field_base g : record_field g = base_field g.
Proof. destruct g; reflexivity. Qed.
Lemma all_fields k : exists g, base_field g = k.
Proof.
  destruct k; [exists slantPerPt|exists interwordSpace|exists interwordStretch|exists interwordShrink|exists xHeight|exists get_quad
    |exists extraSpace|exists get_num1|exists get_num2|exists get_num3|exists get_denom1|exists get_denom2|exists get_sup1|exists get_sup2
    |exists get_sup3|exists get_sub1|exists get_sub2|exists supDrop|exists subDrop|exists get_delim1|exists get_delim2|exists axisHeight
    |exists defaultRuleThickness|exists bigOpSpacing1|exists bigOpSpacing2|exists bigOpSpacing3|exists bigOpSpacing4|exists bigOpSpacing5]; reflexivity.
Qed.

Lemma at_index_spec {A} (f : A -> A) : forall l i,
  match at_index f l i with
  | Some l' => i < List.length l /\ List.length l' = List.length l /\
      forall j, nth_error l' j = if Nat.eqb j i then option_map f (nth_error l j) else nth_error l j
  | None => List.length l <= i
  end.
Proof.
  induction l as [|x l IH]; intros i; [destruct i; cbn; lia|]. destruct i as [|i]; cbn [at_index].
  - split; [cbn; lia|]. split; [reflexivity|]. intros [|j]; reflexivity.
  - specialize (IH i). destruct (at_index f l i) as [l'|]; cbn [option_map].
    + destruct IH as (A1 & B & C). split; [cbn; lia|]. split; [cbn; lia|]. intros [|j]; [reflexivity|]. cbn [nth_error Nat.eqb]. apply C.
    + cbn. lia.
Qed.

Section Any.
  Context {N : Num}.
  Variable fonts : list (efont N).

  Lemma ask_iff u g i : (exists r, ask fonts u g i = Ok r) <-> i < List.length u /\ i < List.length fonts.
  Proof.
    unfold ask. pose proof (at_index_spec (fun d => mark d (record_flag g)) u i) as H.
    destruct (at_index _ u i) as [u'|].
    - destruct H as (A & _). destruct (nth_error fonts i) eqn:E.
      + split; [intros _|intros _; eexists; reflexivity]. split; [exact A|]. apply nth_error_Some. congruence.
      + split; [intros (r & X); discriminate|]. intros (_ & L). apply nth_error_Some in L. congruence.
    - split; [intros (r & X); discriminate|]. intros (L & _). lia.
  Qed.
  Lemma ask_value u g i u' x : ask fonts u g i = Ok (u', x) -> ask_base fonts g i = Ok x.
  Proof.
    unfold ask, ask_base. destruct (at_index _ u i); [|discriminate]. destruct (nth_error fonts i); [|discriminate].
    rewrite record_field_base. intros H. injection H as _ <-. reflexivity.
  Qed.
  Lemma ask_ub u g i : (forall r, ask fonts u g i <> Ok r) -> ask fonts u g i = UB.
  Proof. unfold ask. destruct (at_index _ u i); [|reflexivity]. destruct (nth_error fonts i); [|reflexivity]. intros H. exfalso. eapply H. reflexivity. Qed.

  Definition flag (u : usage) (i : nat) (k : fd) : bool := match nth_error u i with Some d => d k | None => false end.

  Lemma ask_flag u g i u' x : ask fonts u g i = Ok (u', x) -> List.length u' = List.length u /\
    forall j k, flag u' j k = flag u j k || ((if fd_eq_dec (base_field g) k then true else false) && (i =? j)).
  Proof.
    unfold ask. pose proof (at_index_spec (fun d => mark d (record_flag g)) u i) as H.
    destruct (at_index _ u i) as [v|]; [|discriminate]. destruct (nth_error fonts i); [|discriminate].
    intros E. injection E as <- _. destruct H as (A & B & C). split; [exact B|]. intros j k. unfold flag. rewrite C.
    rewrite (Nat.eqb_sym i j). destruct (Nat.eqb_spec j i) as [->|Ne].
    - destruct (nth_error u i) as [d|] eqn:En; [|apply nth_error_None in En; lia]. cbn [option_map]. unfold mark.
      rewrite record_flag_base. destruct (fd_eq_dec (base_field g) k); [now rewrite orb_true_r|]. rewrite andb_false_l. now rewrite orb_false_r.
    - rewrite andb_false_r, orb_false_r. reflexivity.
  Qed.

  Definition calls (l : list (getter * nat)) : list (fd * nat) := map (fun p => (base_field (fst p), snd p)) l.

  Lemma run_flags l : forall u u', run_asks fonts u l = Ok u' -> List.length u' = List.length u /\
    forall j k, flag u' j k = flag u j k || asked (calls l) j k.
  Proof.
    unfold run_asks. induction l as [|(g, i) l IH]; intros u u' H.
    - cbn in H. injection H as <-. split; [reflexivity|]. intros j k. cbn. now rewrite orb_false_r.
    - cbn [foldM fst snd] in H. apply bind_Ok in H as (u1 & E & H). apply bind_Ok in E as ((v, x) & E & E'). injection E' as <-.
      destruct (ask_flag _ _ _ _ _ E) as (L1 & F1). destruct (IH _ _ H) as (L2 & F2). cbn [fst] in *.
      split; [congruence|]. intros j k. rewrite F2, F1. cbn [calls map asked existsb fst snd]. fold (calls l). now rewrite orb_assoc.
  Qed.

  Lemma clear_flag u j k : flag (clear_usage u) j k = false.
  Proof. unfold flag, clear_usage. rewrite nth_error_map. destruct (nth_error u j); reflexivity. Qed.

  Lemma run_iff l : forall u, (exists u', run_asks fonts u l = Ok u') <-> Forall (fun p => snd p < List.length u /\ snd p < List.length fonts) l.
  Proof.
    unfold run_asks. induction l as [|(g, i) l IH]; intros u.
    - split; [constructor|intros _; eexists; reflexivity].
    - cbn [foldM fst snd]. split.
      + intros (u' & H). apply bind_Ok in H as (u1 & E & H). apply bind_Ok in E as ((v, x) & E & E'). injection E' as <-.
        destruct (ask_flag _ _ _ _ _ E) as (L1 & _). constructor.
        * cbn [snd]. apply (ask_iff u g i). eauto.
        * rewrite <- L1. apply IH. eauto.
      + intros F. inversion F as [|a b A B]; subst. cbn [snd] in A. apply (ask_iff u g i) in A as ((v, x) & E). rewrite E. cbn [bind fst].
        apply IH. destruct (ask_flag _ _ _ _ _ E) as (L1 & _). rewrite L1. exact B.
  Qed.

  Lemma sync_font_row on u i f d : nth_error fonts i = Some f -> nth_error u i = Some d -> i / 3 < 4 ->
    sync_font on fonts u i = Ok (map (fun k => mkRow (on && negb (d k)) (name_of k) (e_dimen f k)) (family_parameters (i / 3))).
  Proof.
    intros E1 E2 L. unfold sync_font. rewrite E1, E2. f_equal.
    destruct (i / 3) as [|[|[|[|n]]]]; [reflexivity|reflexivity|reflexivity|reflexivity|lia].
  Qed.

  Lemma sync_all_rows on u : forall l t, sync_all on fonts u l = Ok t ->
    Forall2 (fun i r => sync_font on fonts u i = Ok r) l t.
  Proof.
    induction l as [|i l IH]; intros t H; cbn [sync_all] in H; [injection H as <-; constructor|].
    apply bind_Ok in H as (x & E & H). apply bind_Ok in H as (y & E' & H). injection H as <-. constructor; auto.
  Qed.

End Any.

Lemma twelve {A} (l : list A) : List.length l = 12 ->
  exists a b c d e f g h i j k m, l = [a; b; c; d; e; f; g; h; i; j; k; m].
Proof.
  intros H. do 12 (destruct l as [|? l]; [discriminate|]). destruct l; [|discriminate]. repeat eexists.
Qed.
Lemma sync_table {N : Num} (fonts : list (efont N)) on u : List.length fonts = 12 -> List.length u = 12 ->
  sync on fonts u = Ok (table fonts (fun i k => on && negb (flag u i k))).
Proof.
  intros A B. apply twelve in A as (? & ? & ? & ? & ? & ? & ? & ? & ? & ? & ? & ? & ->).
  apply twelve in B as (? & ? & ? & ? & ? & ? & ? & ? & ? & ? & ? & ? & ->). reflexivity.
Qed.

Lemma clear_length u : List.length (clear_usage u) = List.length u.
Proof. apply map_length. Qed.

Section Session.
  Context {N : Num}.
  Variable fonts : list (efont N).
  Hypothesis F12 : List.length fonts = 12.

  Lemma step_length s e s' : List.length (t_usage s) = 12 -> tree_step fonts s e = Ok s' -> List.length (t_usage s') = 12.
  Proof.
    intros L H. destruct e as [asks fails|on]; cbn [tree_step] in H.
    - apply bind_Ok in H as (u & E & H). apply run_flags in E as (E & _). rewrite clear_length in E.
      destruct fails; [injection H as <-; cbn; congruence|]. apply bind_Ok in H as (r & _ & H). injection H as <-. cbn; congruence.
    - destruct (Bool.eqb on (t_only s)); [injection H as <-; exact L|]. apply bind_Ok in H as (r & _ & H). injection H as <-. exact L.
  Qed.
  Lemma steps_length es : forall s s', List.length (t_usage s) = 12 -> foldM (tree_step fonts) es s = Ok s' -> List.length (t_usage s') = 12.
  Proof.
    induction es as [|e es IH]; intros s s' L H; [injection H as <-; exact L|]. cbn [foldM] in H. apply bind_Ok in H as (s1 & E & H).
    apply (IH s1 s'); [eapply step_length; eassumption|exact H].
  Qed.

  (** what is shown when the window is in step with its last formula *)
  Definition shows (s : tree N) (asks : list (getter * nat)) : Prop :=
    List.length (t_usage s) = 12 /\ (forall i k, flag (t_usage s) i k = asked (calls asks) i k) /\
    t_rows s = table fonts (fun i k => t_only s && negb (asked (calls asks) i k)).

  Lemma table_ext (h h' : nat -> fd -> bool) : (forall i k, h i k = h' i k) -> table fonts h = table fonts h'.
  Proof. intros H. unfold table. apply map_ext. intros p. apply map_ext. intros k. now rewrite H. Qed.

  Lemma new_shows s : new_tree fonts = Ok s -> shows s [].
  Proof.
    unfold new_tree. rewrite (sync_table fonts false new_usage F12 eq_refl). cbn [bind]. intros H. injection H as <-.
    split; [reflexivity|]. split; [|apply table_ext; reflexivity]. intros i k. cbn [t_usage calls map asked existsb].
    unfold flag. assert (X : forall n i, match nth_error (repeat unused n) i with Some d => d k | None => false end = false).
    { induction n as [|n IH]; intros [|j]; cbn [repeat nth_error]; auto. }
    apply X.
  Qed.

  Lemma edit_shows s asks s' : List.length (t_usage s) = 12 -> tree_step fonts s (TEdit asks false) = Ok s' -> shows s' asks /\ t_only s' = t_only s.
  Proof.
    intros L H. cbn [tree_step] in H. apply bind_Ok in H as (u & E & H). apply run_flags in E as (E & Fl). rewrite clear_length in E.
    assert (G : forall i k, flag u i k = asked (calls asks) i k) by (intros i k; rewrite Fl, clear_flag; reflexivity).
    rewrite (sync_table fonts (t_only s) u F12 (eq_trans E L)) in H. cbn [bind] in H. injection H as <-.
    split; [|reflexivity]. split; [cbn; congruence|]. split; [exact G|]. cbn [t_rows t_only]. apply table_ext. intros i k. now rewrite G.
  Qed.
  Lemma only_shows s asks on s' : shows s asks -> tree_step fonts s (TOnly on) = Ok s' -> shows s' asks /\ t_only s' = on.
  Proof.
    intros (L & G & R) H. cbn [tree_step] in H. destruct (Bool.eqb on (t_only s)) eqn:E.
    - injection H as <-. apply eqb_prop in E. split; [split; [exact L|split; assumption]|congruence].
    - rewrite (sync_table fonts on (t_usage s) F12 L) in H. cbn [bind] in H. injection H as <-.
      split; [|reflexivity]. split; [exact L|]. split; [exact G|]. cbn [t_rows t_only]. apply table_ext. intros i k. now rewrite G.
  Qed.
  Lemma onlys_shows asks ons : forall s s', shows s asks -> foldM (tree_step fonts) (map TOnly ons) s = Ok s' ->
    shows s' asks /\ t_only s' = last ons (t_only s).
  Proof.
    induction ons as [|on ons IH]; intros s s' Sh H; [injection H as <-; split; [exact Sh|reflexivity]|].
    cbn [map foldM] in H. apply bind_Ok in H as (s1 & E & H). destruct (only_shows _ _ _ _ Sh E) as (Sh1 & O).
    destruct (IH s1 s' Sh1 H) as (A & B). split; [exact A|]. rewrite B, O. destruct ons; [reflexivity|].
    cbn [last]. clear. revert b. induction ons as [|x ons IH]; intros b; [reflexivity|]. cbn [last]. apply IH.
  Qed.

  Lemma session_table es asks ons s : tree_session fonts (es ++ TEdit asks false :: map TOnly ons) = Ok s ->
    t_rows s = table fonts (fun i k => t_only s && negb (asked (calls asks) i k)).
  Proof.
    intros H. unfold tree_session in H. apply bind_Ok in H as (s0 & E0 & H).
    apply new_shows in E0 as (L0 & _). rewrite foldM_app in H. apply bind_Ok in H as (s1 & E1 & H). cbn [foldM] in H. apply bind_Ok in H as (s2 & E2 & H).
    destruct (edit_shows s1 asks s2) as (Sh & _); [eapply steps_length; eassumption|exact E2|].
    destruct (onlys_shows asks ons s2 s Sh H) as ((_ & _ & R) & _). exact R.
  Qed.

  Lemma step_ok s e : List.length (t_usage s) = 12 ->
    match e with TEdit asks _ => Forall (fun p => snd p < 12) asks | _ => True end -> exists s', tree_step fonts s e = Ok s'.
  Proof.
    intros L H. destruct e as [asks fails|on]; cbn [tree_step].
    - assert (R : Forall (fun p : getter * nat => snd p < List.length (clear_usage (t_usage s)) /\ snd p < List.length fonts) asks).
      { rewrite clear_length, L, F12. eapply Forall_impl; [|exact H]. cbn. auto. }
      apply run_iff in R as (u & E). rewrite E. cbn [bind]. destruct fails; [eexists; reflexivity|].
      apply run_flags in E as (E & _). rewrite clear_length in E.
      rewrite (sync_table fonts (t_only s) u F12 (eq_trans E L)). eexists; reflexivity.
    - destruct (Bool.eqb on (t_only s)); [eexists; reflexivity|]. rewrite (sync_table fonts on (t_usage s) F12 L). eexists; reflexivity.
  Qed.
  Lemma session_ok es : Forall (fun e => match e with TEdit asks _ => Forall (fun p => snd p < 12) asks | _ => True end) es ->
    exists s, tree_session fonts es = Ok s.
  Proof.
    intros F. unfold tree_session, new_tree. rewrite (sync_table fonts false new_usage F12 eq_refl). cbn [bind].
    set (s0 := mkTree _ _ _). assert (L : List.length (t_usage s0) = 12) by reflexivity. clearbody s0. revert s0 L.
    induction F as [|e es He F IH]; intros s0 L; [eexists; reflexivity|]. cbn [foldM].
    destruct (step_ok s0 e L He) as (s1 & E). rewrite E. cbn [bind]. apply IH. eapply step_length; eassumption.
  Qed.
End Session.

Lemma recorded {N : Num} (fonts : list (efont N)) u l u' : run_asks fonts (clear_usage u) l = Ok u' ->
  List.length u' = List.length u /\
  forall i d, nth_error u' i = Some d -> forall k, d k = asked (map (fun p => (base_field (fst p), snd p)) l) i k.
Proof.
  intros H. apply run_flags in H as (L & F). rewrite clear_length in L. split; [exact L|].
  intros i d E k. specialize (F i k). rewrite clear_flag in F. unfold flag in F. rewrite E in F. exact F.
Qed.

Definition switched (e : tree_event) : list bool := match e with TOnly on => [on] | _ => [] end.
Lemma last_app_bool (a b : list bool) d : last (a ++ b) d = last b (last a d).
Proof.
  revert d. induction a as [|x a IH]; intros d; [reflexivity|]. change ((x :: a) ++ b) with (x :: (a ++ b)).
  assert (C : forall (l : list bool) y d', last (y :: l) d' = last l y).
  { clear. induction l as [|z l IH]; intros y d'; [reflexivity|]. change (last (y :: z :: l) d') with (last (z :: l) d').
    rewrite (IH z d'). rewrite (IH z y). reflexivity. }
  rewrite !C. apply IH.
Qed.
Lemma session_only {N : Num} (fonts : list (efont N)) es s : tree_session fonts es = Ok s ->
  t_only s = last (flat_map (fun e => match e with TOnly on => [on] | _ => [] end) es) false.
Proof.
  intros H. unfold tree_session in H. apply bind_Ok in H as (s0 & E0 & H).
  assert (O0 : t_only s0 = false).
  { unfold new_tree in E0. apply bind_Ok in E0 as (r & _ & E0). injection E0 as <-. reflexivity. }
  rewrite <- O0. clear E0 O0. revert s0 H. change (fun e => _) with switched.
  induction es as [|e es IH]; intros s0 H; [injection H as <-; reflexivity|]. cbn [foldM] in H. apply bind_Ok in H as (s1 & E & H).
  rewrite (IH s1 H). cbn [flat_map]. rewrite last_app_bool. f_equal.
  destruct e as [asks fails|on]; cbn [tree_step switched last] in *.
  - apply bind_Ok in E as (u & _ & E). destruct fails; [injection E as <-; reflexivity|]. apply bind_Ok in E as (r & _ & E). injection E as <-. reflexivity.
  - destruct (Bool.eqb on (t_only s0)) eqn:Eo; [injection E as <-; apply eqb_prop in Eo; congruence|].
    apply bind_Ok in E as (r & _ & E). injection E as <-. reflexivity.
Qed.

Lemma session_error {N : Num} (fonts : list (efont N)) (F12 : List.length fonts = 12) es asks :
  Forall (fun p => snd p < 12) asks ->
  forall s0, tree_session fonts es = Ok s0 -> t_only s0 = false ->
  exists s, tree_session fonts (es ++ [TEdit asks false; TEdit [] true; TOnly true]) = Ok s /\
    t_rows s = table fonts (fun _ _ => true).
Proof.
  intros A s0 H O. assert (L0 : List.length (t_usage s0) = 12).
  { unfold tree_session in H. apply bind_Ok in H as (s1 & E1 & H). apply (new_shows fonts F12) in E1 as (L1 & _).
    eapply (steps_length fonts); eassumption. }
  assert (G : tree_session fonts (es ++ [TEdit asks false; TEdit [] true; TOnly true]) =
              foldM (tree_step fonts) [TEdit asks false; TEdit [] true; TOnly true] s0).
  { unfold tree_session in *. destruct (new_tree fonts) as [s1| | | |]; try discriminate. cbn [bind] in *. rewrite foldM_app, H. reflexivity. }
  rewrite G. clear G. cbn [foldM].
  destruct (step_ok fonts F12 s0 (TEdit asks false) L0 A) as (s1 & E1). rewrite E1. cbn [bind].
  destruct (edit_shows fonts F12 s0 asks s1 L0 E1) as ((L1 & _) & O1).
  set (s2 := mkTree (clear_usage (t_usage s1)) (t_only s1) (t_rows s1)).
  assert (E2 : tree_step fonts s1 (TEdit [] true) = Ok s2) by reflexivity. rewrite E2. cbn [bind].
  assert (L2 : List.length (t_usage s2) = 12) by (unfold s2; cbn [t_usage]; rewrite clear_length; exact L1).
  assert (O2 : t_only s2 = false) by (unfold s2; cbn [t_only]; congruence).
  cbn [tree_step]. rewrite O2. cbn [Bool.eqb]. rewrite (sync_table fonts true (t_usage s2) F12 L2). cbn [bind].
  eexists. split; [reflexivity|]. cbn [t_rows]. apply table_ext. intros i k. unfold s2. cbn [t_usage]. rewrite clear_flag. reflexivity.
Qed.
