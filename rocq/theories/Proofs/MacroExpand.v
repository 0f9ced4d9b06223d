(** Expansion: macro calls, conditionals, [\csname], [\expandafter]. *)
From Coq Require Import List Ascii String ZArith Bool Arith Lia.
From Verif.Base Require Import Result.
From Verif.Model Require Import Token Macro Preprocessor.
From Verif.Spec Require Import MacroSpec.
From Verif.Proofs Require Import LexerProofs MacroProofs.
Import ListNotations.

(** [c] followed by [tl] stands for [r], whatever the frames *)
Definition expandable (s : pstate) (c : name) (tl : list token) (D : list scope) (r : list token) : Prop :=
  forall fs,
    (tl = [] /\ processControlSeq (set_frames s fs) c = Ok (set_frames (set_input s r) fs) /\ D = p_defs s) \/
    (exists f, processControlSeq (set_frames s fs) c = Ok (set_frames s (f :: fs)) /\
       forall s', settle (set_frames (set_input (set_defs s D) r) fs) = Ok s' ->
                  quiet (set_frames s (f :: fs)) tl s').

Lemma set_frames_id s : set_frames s (p_frames s) = s.
Proof. destruct s; reflexivity. Qed.
Lemma set_defs_id s : set_defs s (p_defs s) = s.
Proof. destruct s; reflexivity. Qed.

Lemma expandable_quiet s c tl D r : p_input s = [] -> idle s -> expandable s c tl D r ->
  quiet s (TCs c :: tl) (set_input (set_defs s D) r).
Proof.
  intros Ei [b I] X. specialize (X (p_frames s)). rewrite set_frames_id in X.
  assert (P : process s (TCs c) = processControlSeq s c) by (unfold process; now rewrite I).
  destruct X as [(-> & E & ->)|(f & E & Q)].
  - apply q_one. rewrite P, E, set_defs_id. reflexivity.
  - eapply q_cons; [rewrite P; exact E|exact Ei|].
    apply Q. change (set_frames (set_input (set_defs s D) r) (p_frames s))
      with (set_input (set_defs s D) r).
    apply settle_idle. exists b. exact I.
Qed.

Lemma expandable_after s c tl D r a : p_input s = [] -> expandable s c tl D r ->
  expandable s EXPANDAFTER (TCs a :: TCs c :: tl) D (TCs a :: r).
Proof.
  intros Ei X fs. right. exists FAfterReading. split; [reflexivity|].
  intros s' ST.
  eapply q_cons with (s1 := set_frames s (FAfterExpanding (TCs a) :: fs)); [reflexivity|exact Ei|].
  specialize (X (FAfterInserting (TCs a) :: fs)).
  assert (P : process (set_frames s (FAfterExpanding (TCs a) :: fs)) (TCs c) =
    bind (processControlSeq (set_frames s (FAfterInserting (TCs a) :: fs)) c) (fun s' =>
      if Nat.eqb (List.length (p_frames s')) (S (List.length fs)) then leave (enter s' FIdle) else Ok s'))
    by reflexivity.
  destruct X as [(-> & E & ->)|(f & E & Q)].
  - apply q_one. rewrite P, E. cbn [bind]. change (p_frames (set_frames ?x ?y)) with y.
    cbn [List.length]. rewrite Nat.eqb_refl.
    erewrite leave_settle by reflexivity. rewrite <- ST. rewrite set_defs_id. reflexivity.
  - eapply q_cons with (s1 := set_frames s (f :: FAfterInserting (TCs a) :: fs)); [rewrite P, E; cbn [bind]|exact Ei|].
    + change (p_frames (set_frames ?x ?y)) with y. cbn [List.length].
      destruct (Nat.eqb_spec (S (S (List.length fs))) (S (List.length fs))); [lia|reflexivity].
    + apply Q. rewrite <- ST. reflexivity.
Qed.

(** ** [\csname] *)

Lemma csname_expandable s l : p_input s = [] ->
  expandable s CSNAME (map char_tok l ++ [cs "endcsname"]) (p_defs s) [TCs (map fst l)].
Proof.
  intros Ei fs. right. exists (FForming []). split; [reflexivity|]. intros s' ST.
  assert (Q : forall l n, quiet (set_frames s (FForming n :: fs)) (map char_tok l)
                 (set_frames s (FForming (n ++ map fst l) :: fs))).
  { clear l ST. induction l as [|[c k] l IH]; intros n; cbn [map].
    - rewrite app_nil_r. apply q_nil.
    - specialize (IH (n ++ [c])). rewrite <- app_assoc in IH.
      eapply q_cons; cycle 2; [exact IH|reflexivity|exact Ei]. }
  eapply quiet_snoc; [apply Q|exact Ei|]. rewrite set_defs_id in ST. rewrite <- ST.
  transitivity (leave (set_input (set_frames s (FForming (map fst l) :: fs))
                        (TCs (map fst l) :: p_input s))).
  { reflexivity. }
  erewrite leave_settle by reflexivity. rewrite Ei. reflexivity.
Qed.

(** ** Conditionals *)

Definition branching s fs su ins nest acc := set_frames s (FBranching (mkBr su ins nest acc) :: fs).
Definition kept (su ins : bool) (l : list token) := if Bool.eqb su ins then l else [].
Lemma kept_app su ins a b : kept su ins (a ++ b) = kept su ins a ++ kept su ins b.
Proof. unfold kept; now destruct (Bool.eqb su ins). Qed.
Lemma keep_kept su ins acc (t : token) :
  (if Bool.eqb su ins then acc ++ [t] else acc) = acc ++ kept su ins [t].
Proof. unfold kept. destruct (Bool.eqb su ins); [reflexivity|now rewrite app_nil_r]. Qed.

Lemma opens_if_spec t : opens_if t <-> is_if t = true.
Proof.
  split.
  - intros [n ->]. reflexivity.
  - destruct t as [c k|[|x [|y n]]|n]; cbn [is_if]; intros H; try discriminate H.
    apply andb_prop in H as [Hx Hy]. apply Ascii.eqb_eq in Hx, Hy. subst. now exists n.
Qed.
Lemma is_else_spec t : t = cs "else" <-> is_else t = true.
Proof.
  split; [intros ->; reflexivity|]. destruct t as [c k|n|n]; cbn [is_else is_fi]; try (intros H; discriminate H).
  destruct (name_eqb_spec n (str "else")); [now subst|discriminate].
Qed.
Lemma is_fi_spec t : t = cs "fi" <-> is_fi t = true.
Proof.
  split; [intros ->; reflexivity|]. destruct t as [c k|n|n]; cbn [is_else is_fi]; try (intros H; discriminate H).
  destruct (name_eqb_spec n (str "fi")); [now subst|discriminate].
Qed.

Lemma process_branching s fs su ins nest acc t :
  process (branching s fs su ins nest acc) t =
  branch (branching s fs su ins nest acc) (mkBr su ins nest acc) t.
Proof. reflexivity. Qed.

Lemma nested_quiet l : nested l -> forall s fs su ins nest acc, p_input s = [] ->
  quiet (branching s fs su ins nest acc) l (branching s fs su ins nest (acc ++ kept su ins l)).
Proof.
  induction 1 as [|t l Ni Ne Nf N IH|t a l O N1 IH1 N2 IH2|t a b l O N1 IH1 N2 IH2 N3 IH3];
    intros s fs su ins nest acc Ei.
  - replace (kept su ins []) with (@nil token) by (unfold kept; now destruct (Bool.eqb su ins)).
    rewrite app_nil_r. apply q_nil.
  - specialize (IH s fs su ins nest (acc ++ kept su ins [t]) Ei).
    rewrite <- app_assoc, <- kept_app in IH. eapply q_cons; cycle 2; [exact IH| |exact Ei].
    rewrite process_branching. unfold branch.
    destruct (is_if t) eqn:E1; [now apply opens_if_spec in E1|].
    destruct (is_else t) eqn:E2; [now apply is_else_spec in E2|].
    destruct (is_fi t) eqn:E3; [now apply is_fi_spec in E3|].
    cbn. now rewrite keep_kept.
  - apply opens_if_spec in O.
    eapply q_cons with (s1 := branching s fs su ins (S nest) (acc ++ kept su ins [t])); [|exact Ei|].
    { rewrite process_branching. unfold branch. rewrite O. cbn. now rewrite keep_kept. }
    eapply quiet_app; [apply IH1; exact Ei|exact Ei|].
    specialize (IH2 s fs su ins nest (((acc ++ kept su ins [t]) ++ kept su ins a) ++ kept su ins [cs "fi"]) Ei).
    match goal with |- quiet _ _ ?g => match type of IH2 with quiet ?x _ ?y =>
      replace g with y by (f_equal; rewrite <- !app_assoc, <- !kept_app; reflexivity);
      eapply q_cons with (s1 := x); [|exact Ei|exact IH2] end end.
    rewrite process_branching. unfold branch. cbn. now rewrite keep_kept, Nat.sub_0_r.
  - apply opens_if_spec in O.
    eapply q_cons with (s1 := branching s fs su ins (S nest) (acc ++ kept su ins [t])); [|exact Ei|].
    { rewrite process_branching. unfold branch. rewrite O. cbn. now rewrite keep_kept. }
    eapply quiet_app; [apply IH1; exact Ei|exact Ei|].
    eapply q_cons with (s1 := branching s fs su ins (S nest)
        (((acc ++ kept su ins [t]) ++ kept su ins a) ++ kept su ins [cs "else"])); [|exact Ei|].
    { rewrite process_branching. unfold branch. cbn. now rewrite keep_kept. }
    eapply quiet_app; [apply IH2; exact Ei|exact Ei|].
    specialize (IH3 s fs su ins nest (((((acc ++ kept su ins [t]) ++ kept su ins a) ++ kept su ins [cs "else"])
        ++ kept su ins b) ++ kept su ins [cs "fi"]) Ei).
    match goal with |- quiet _ _ ?g => match type of IH3 with quiet ?x _ ?y =>
      replace g with y by (f_equal; rewrite <- !app_assoc, <- !kept_app; reflexivity);
      eapply q_cons with (s1 := x); [|exact Ei|exact IH3] end end.
    rewrite process_branching. unfold branch. cbn. now rewrite keep_kept, Nat.sub_0_r.
Qed.

Lemma fi_process s fs su ins acc s' : p_input s = [] ->
  settle (set_frames (set_input (set_defs s (p_defs s)) acc) fs) = Ok s' ->
  process (branching s fs su ins 0 acc) (cs "fi") = Ok s'.
Proof.
  intros Ei ST. transitivity (leave (set_input (branching s fs su ins 0 acc) (acc ++ p_input s))).
  { reflexivity. }
  erewrite leave_settle by reflexivity. rewrite <- ST, Ei, app_nil_r, set_defs_id. reflexivity.
Qed.

Lemma ifbr_expandable s a : p_input s = [] -> nested a ->
  expandable s IFBR (a ++ [cs "fi"]) (p_defs s) (if p_br s then a else []).
Proof.
  intros Ei N fs. right. exists (FBranching (mkBr (p_br s) true 0 [])). split; [reflexivity|].
  intros s' ST. eapply quiet_snoc; [apply (nested_quiet a N s fs (p_br s) true 0 []); exact Ei|exact Ei|].
  cbn [app]. apply fi_process; [exact Ei|].
  replace (kept (p_br s) true a) with (if p_br s then a else []) by now destruct (p_br s). exact ST.
Qed.
Lemma ifbr_else_expandable s a b : p_input s = [] -> nested a -> nested b ->
  expandable s IFBR (a ++ cs "else" :: b ++ [cs "fi"]) (p_defs s) (if p_br s then a else b).
Proof.
  intros Ei N N' fs. right. exists (FBranching (mkBr (p_br s) true 0 [])). split; [reflexivity|].
  intros s' ST. eapply quiet_app; [apply (nested_quiet a N s fs (p_br s) true 0 []); exact Ei|exact Ei|].
  eapply q_cons with (s1 := branching s fs (p_br s) false 0 ([] ++ kept (p_br s) true a)); [reflexivity|exact Ei|].
  eapply quiet_snoc; [apply nested_quiet; [exact N'|exact Ei]|exact Ei|].
  apply fi_process; [exact Ei|].
  replace (([] ++ kept (p_br s) true a) ++ kept (p_br s) false b) with (if p_br s then a else b).
  2:{ destruct (p_br s); unfold kept; cbn; [now rewrite app_nil_r|reflexivity]. }
  exact ST.
Qed.

(** ** Macro calls *)

Definition expanding s fs sub d := set_frames s (FExpanding sub d :: fs).
Definition slots (done : list (list token)) (cur : list token) : arguments :=
  done ++ cur :: repeat [] (8 - List.length done).
Definition fill (done : list (list token)) : arguments :=
  done ++ repeat [] (9 - List.length done).

Lemma fill_slots done : List.length done <= 8 -> fill done = slots done [].
Proof. intros L. unfold fill, slots. replace (9 - List.length done) with (S (8 - List.length done)) by lia. reflexivity. Qed.
Lemma slots_fill done cur : slots done cur = fill (done ++ [cur]).
Proof.
  unfold fill, slots. rewrite app_length, <- app_assoc. cbn [List.length app].
  now replace (9 - (List.length done + 1)) with (8 - List.length done) by lia.
Qed.
Lemma set_nth_app {A} (l : list A) x y r : set_nth (List.length l) x (l ++ y :: r) = l ++ x :: r.
Proof. induction l; cbn; [reflexivity|now rewrite IHl]. Qed.
Lemma nth_slots done cur : nth_error (slots done cur) (List.length done) = Some cur.
Proof. unfold slots. rewrite nth_error_app2, Nat.sub_diag by lia. reflexivity. Qed.
Lemma push_slots done cur t :
  push_arg (slots done cur) (List.length done) t = Ok (slots done (cur ++ [t])).
Proof. unfold push_arg. rewrite nth_slots. unfold slots. now rewrite set_nth_app. Qed.

(** The state at the [i]-th token of the parameter text *)
Record at_pat (ptr : nat * name) (pat : list token) (i k : nat) (args : arguments)
  (sub : ex_sub) (d : ex_data) : Prop := mkAt {
  at_d : d = mkEx ptr i k (ex_nesting d) args;
  at_sub : forall t, nth_error pat i = Some t ->
    (~ is_param t -> sub = ExMatching) /\
    (is_param t -> ex_nesting d = 0%Z /\
       match nth_error pat (S i) with
       | None => sub = ExUndelimited
       | Some u => (is_param u -> sub = ExUndelimited) /\ (~ is_param u -> sub = ExDelimited)
       end) }.

Lemma is_param_spec t : is_param t <-> isParameterToken t = true.
Proof.
  unfold is_param. destruct t; cbn; split; try (intros [? ?]; discriminate); try discriminate; eauto.
Qed.
Lemma not_param_spec t : ~ is_param t <-> isParameterToken t = false.
Proof. rewrite is_param_spec. apply not_true_iff_false. Qed.

Lemma update_expand_at ptr pat sub0 i k n args : i <= List.length pat ->
  exists sub d, update_expand pat sub0 (mkEx ptr i k n args) = Ok (sub, d) /\
    at_pat ptr pat i k args sub d.
Proof.
  intros L. unfold update_expand; cbn [ex_pat ex_def ex_arg ex_args ex_nesting].
  destruct (Nat.eqb_spec i (List.length pat)) as [E|E].
  - do 2 eexists; split; [reflexivity|]. constructor; [reflexivity|].
    intros t H. assert (i < List.length pat) by (apply nth_error_Some; congruence). lia.
  - destruct (nth_error pat i) as [p|] eqn:Ep.
    2:{ apply nth_error_None in Ep; lia. }
    destruct (isParameterToken p) eqn:Q.
    + destruct (Nat.eqb_spec i (List.length pat - 1)) as [E'|E'].
      * do 2 eexists; split; [reflexivity|]. constructor; [reflexivity|].
        intros t H. rewrite Ep in H. injection H as <-. split; [rewrite not_param_spec; congruence|].
        intros _. split; [reflexivity|].
        replace (nth_error pat (S i)) with (@None token); [reflexivity|].
        symmetry; apply nth_error_None; lia.
      * destruct (nth_error pat (S i)) as [q|] eqn:Eq.
        2:{ apply nth_error_None in Eq; lia. }
        do 2 eexists; split; [reflexivity|]. constructor; [reflexivity|].
        intros t H. rewrite Ep in H. injection H as <-. split; [rewrite not_param_spec; congruence|].
        intros _. split; [reflexivity|]. rewrite Eq.
        rewrite is_param_spec. destruct (isParameterToken q); split; congruence.
    + do 2 eexists; split; [reflexivity|]. constructor; [reflexivity|].
      intros t H. rewrite Ep in H. injection H as <-. split; [reflexivity|].
      rewrite is_param_spec; congruence.
Qed.

Section Call.
  Variables (s : pstate) (fs : list frame) (ptr : nat * name) (m : macro).
  Hypothesis Ei : p_input s = [].
  Hypothesis DR : deref ptr (p_defs s) = Ok m.

  Lemma process_expanding sub d t : ex_def d = ptr ->
    process (expanding s fs sub d) t =
    bind (expand_step (m_param m) sub d t) (fun x =>
      if Nat.eqb (ex_pat (snd x)) (List.length (m_param m)) then
        bind (macro_expand m (ex_args (snd x))) (fun e => leave (set_input (expanding s fs sub d) (e ++ p_input s)))
      else Ok (expanding s fs (fst x) (snd x))).
  Proof.
    intros E. transitivity (expandMacro (expanding s fs sub d) sub d t); [reflexivity|].
    unfold expandMacro. change (p_defs (expanding s fs sub d)) with (p_defs s).
    rewrite E, DR. cbn [bind]. apply bind_ext. intros [a b]. reflexivity.
  Qed.

  Lemma step_in sub d t sub' d' : ex_def d = ptr ->
    expand_step (m_param m) sub d t = Ok (sub', d') -> ex_pat d' < List.length (m_param m) ->
    process (expanding s fs sub d) t = Ok (expanding s fs sub' d').
  Proof.
    intros E H L. rewrite process_expanding, H by exact E. cbn [bind snd fst].
    destruct (Nat.eqb_spec (ex_pat d') (List.length (m_param m))); [lia|reflexivity].
  Qed.

  Lemma step_then sub d t sub0 pat1 pat2 k n args ts e s' :
    ex_def d = ptr -> m_param m = pat1 ++ pat2 ->
    expand_step (m_param m) sub d t = update_expand (m_param m) sub0 (mkEx ptr (List.length pat1) k n args) ->
    (pat2 = [] -> ts = [] /\ macro_expand m args = Ok e /\
       settle (set_frames (set_input s e) fs) = Ok s') ->
    (pat2 <> [] -> forall sub' d', at_pat ptr (m_param m) (List.length pat1) k args sub' d' ->
       quiet (expanding s fs sub' d') ts s') ->
    quiet (expanding s fs sub d) (t :: ts) s'.
  Proof.
    intros E Hm H F C.
    destruct (update_expand_at ptr (m_param m) sub0 (List.length pat1) k n args) as (sub' & d' & U & A).
    { rewrite Hm, app_length; lia. }
    rewrite U in H. pose proof (at_d _ _ _ _ _ _ _ A) as Ed.
    assert (Ep : ex_pat d' = List.length pat1) by (rewrite Ed; reflexivity).
    assert (Ea : ex_args d' = args) by (rewrite Ed; reflexivity).
    destruct pat2 as [|p pat2].
    - destruct (F eq_refl) as (-> & X & ST). apply q_one.
      rewrite process_expanding, H by exact E. cbn [bind snd fst].
      rewrite Ep, Hm, app_nil_r, Nat.eqb_refl, Ea, X. cbn [bind].
      erewrite leave_settle by reflexivity. rewrite <- ST, Ei, app_nil_r. reflexivity.
    - eapply q_cons; cycle 2; [apply C; [discriminate|exact A]| |exact Ei].
      apply step_in; [exact E|exact H|]. rewrite Ep, Hm, app_length. cbn. lia.
  Qed.

  Lemma quiet_q_cons sub d t sub' d' ts s' : ex_def d = ptr ->
    expand_step (m_param m) sub d t = Ok (sub', d') -> ex_pat d' < List.length (m_param m) ->
    quiet (expanding s fs sub' d') ts s' -> quiet (expanding s fs sub d) (t :: ts) s'.
  Proof. intros E H L Q. eapply q_cons; cycle 2; [exact Q|eapply step_in; eassumption|exact Ei]. Qed.

  Lemma open_cat_spec t : open_cat t <-> is_begin t = true.
  Proof.
    unfold open_cat, is_begin, token_is. split.
    - intros [c ->]. reflexivity.
    - destruct t as [c k| |]; try discriminate. intros H.
      destruct (cat_eqb_spec k GroupBegin); [subst; eauto|discriminate].
  Qed.
  Lemma close_cat_spec t : close_cat t <-> is_end t = true.
  Proof.
    unfold close_cat, is_end, token_is. split.
    - intros [c ->]. reflexivity.
    - destruct t as [c k| |]; try discriminate. intros H.
      destruct (cat_eqb_spec k GroupEnd); [subst; eauto|discriminate].
  Qed.
  Lemma space_tok_spec t : space_tok t <-> is_spacetok t = true.
  Proof.
    unfold space_tok, is_spacetok, token_is. split.
    - intros [c ->]. reflexivity.
    - destruct t as [c k| |]; try discriminate. intros H.
      destruct (cat_eqb_spec k Space); [subst; eauto|discriminate].
  Qed.
  Lemma close_not_begin t : close_cat t -> is_begin t = false.
  Proof. intros [c ->]. reflexivity. Qed.

  (** a braced argument *)
  Lemma braced_quiet b : balanced open_cat close_cat b -> forall i done n cur,
    i < List.length (m_param m) -> (0 <= n)%Z ->
    quiet (expanding s fs ExBraced (mkEx ptr i (List.length done) n (slots done cur))) b
          (expanding s fs ExBraced (mkEx ptr i (List.length done) n (slots done (cur ++ b)))).
  Proof.
    induction 1 as [|t l No Nc B IH|o c b l Ho Hc B1 IH1 B2 IH2]; intros i done n cur Li N.
    - rewrite app_nil_r. apply q_nil.
    - specialize (IH i done n (cur ++ [t]) Li N). rewrite <- app_assoc in IH.
      eapply quiet_q_cons; [reflexivity| | |exact IH]; [|exact Li].
      unfold expand_step.
      destruct (is_begin t) eqn:E1; [now apply open_cat_spec in E1|].
      destruct (is_end t) eqn:E2; [now apply close_cat_spec in E2|].
      cbn [ex_args ex_arg]. rewrite push_slots. reflexivity.
    - eapply quiet_q_cons with (sub' := ExBraced)
        (d' := mkEx ptr i (List.length done) (n + 1) (slots done (cur ++ [o]))); [reflexivity| |exact Li|].
      { unfold expand_step. apply open_cat_spec in Ho. rewrite Ho.
        cbn [ex_args ex_arg]. rewrite push_slots. reflexivity. }
      eapply quiet_app; [apply IH1; [exact Li|lia]|exact Ei|].
      specialize (IH2 i done n (((cur ++ [o]) ++ b) ++ [c]) Li N).
      replace (cur ++ o :: b ++ c :: l) with ((((cur ++ [o]) ++ b) ++ [c]) ++ l).
      2:{ now rewrite <- !app_assoc. }
      eapply quiet_q_cons; [reflexivity| | |exact IH2]; [|exact Li].
      unfold expand_step. rewrite (close_not_begin _ Hc). apply close_cat_spec in Hc. rewrite Hc.
      cbn [ex_args ex_arg ex_nesting]. destruct (Z.eqb_spec (n + 1) 0); [lia|].
      rewrite push_slots. cbn [bind]. unfold with_nesting, with_args; cbn.
      now replace (n + 1 - 1)%Z with n by lia.
  Qed.

  (** a delimited argument, inside its braces *)
  Lemma delim_braced_quiet del b : balanced open_ch close_ch b -> forall i done n cur,
    nth_error (m_param m) (S i) = Some del -> (0 < n)%Z ->
    quiet (expanding s fs ExDelimited (mkEx ptr i (List.length done) n (slots done cur))) b
          (expanding s fs ExDelimited (mkEx ptr i (List.length done) n (slots done (cur ++ b)))).
  Proof.
    intros B.
    assert (G : forall i done n cur t, nth_error (m_param m) (S i) = Some del -> (0 < n)%Z ->
      expand_step (m_param m) ExDelimited (mkEx ptr i (List.length done) n (slots done cur)) t =
      let d' := mkEx ptr i (List.length done) n (slots done (cur ++ [t])) in
      if is_value t "{"%char then Ok (ExDelimited, with_nesting d' (n + 1))
      else if is_value t "}"%char then Ok (ExDelimited, with_nesting d' (n - 1))
      else Ok (ExDelimited, d')).
    { intros i done n cur t Hd N. unfold expand_step. cbn [ex_pat ex_nesting ex_args ex_arg]. rewrite Hd.
      destruct (Z.eqb_spec n 0); [lia|]. rewrite andb_false_r, push_slots. reflexivity. }
    induction B as [|t l No Nc B IH|o c b l Ho Hc B1 IH1 B2 IH2]; intros i done n cur Hd N;
      assert (Li : i < List.length (m_param m)) by (apply Nat.lt_succ_l, nth_error_Some; congruence).
    - rewrite app_nil_r. apply q_nil.
    - specialize (IH i done n (cur ++ [t]) Hd N). rewrite <- app_assoc in IH.
      eapply quiet_q_cons; [reflexivity| | |exact IH]; [|exact Li].
      rewrite G by assumption. now rewrite (not_open_ch _ No), (not_close_ch _ Nc).
    - eapply quiet_q_cons with (sub' := ExDelimited)
        (d' := mkEx ptr i (List.length done) (n + 1) (slots done (cur ++ [o]))); [reflexivity| |exact Li|].
      { rewrite G by assumption. apply open_ch_spec in Ho. now rewrite Ho. }
      eapply quiet_app; [apply IH1; [exact Hd|lia]|exact Ei|].
      specialize (IH2 i done n (((cur ++ [o]) ++ b) ++ [c]) Hd N).
      replace (cur ++ o :: b ++ c :: l) with ((((cur ++ [o]) ++ b) ++ [c]) ++ l).
      2:{ now rewrite <- !app_assoc. }
      eapply quiet_q_cons; [reflexivity| | |exact IH2]; [|exact Li].
      rewrite G by (assumption || lia). rewrite (close_not_open _ Hc). apply close_ch_spec in Hc. rewrite Hc.
      unfold with_nesting; cbn. now replace (n + 1 - 1)%Z with n by lia.
  Qed.

  Lemma delim_quiet del a : delimited del a -> forall i done cur,
    nth_error (m_param m) (S i) = Some del ->
    quiet (expanding s fs ExDelimited (mkEx ptr i (List.length done) 0 (slots done cur))) a
          (expanding s fs ExDelimited (mkEx ptr i (List.length done) 0 (slots done (cur ++ a)))).
  Proof.
    intros B.
    induction B as [|t l Nd No Nc B IH|o c b l Nd Ho Hc B1 B2 IH2]; intros i done cur Hd;
      assert (Li : i < List.length (m_param m)) by (apply Nat.lt_succ_l, nth_error_Some; congruence).
    - rewrite app_nil_r. apply q_nil.
    - specialize (IH i done (cur ++ [t]) Hd). rewrite <- app_assoc in IH.
      eapply quiet_q_cons; [reflexivity| | |exact IH]; [|exact Li].
      unfold expand_step. cbn [ex_pat ex_nesting ex_args ex_arg]. rewrite Hd.
      destruct (token_eqb_spec t del); [contradiction|]. cbn [andb].
      rewrite push_slots. cbn [bind].
      now rewrite (not_open_ch _ No), (not_close_ch _ Nc).
    - eapply quiet_q_cons with (sub' := ExDelimited)
        (d' := mkEx ptr i (List.length done) 1 (slots done (cur ++ [o]))); [reflexivity| |exact Li|].
      { unfold expand_step. cbn [ex_pat ex_nesting ex_args ex_arg]. rewrite Hd.
        destruct (token_eqb_spec o del); [contradiction|]. cbn [andb].
        rewrite push_slots. cbn [bind]. apply open_ch_spec in Ho. now rewrite Ho. }
      eapply quiet_app; [apply (delim_braced_quiet del); [exact B1|exact Hd|lia]|exact Ei|].
      specialize (IH2 i done (((cur ++ [o]) ++ b) ++ [c]) Hd).
      replace (cur ++ o :: b ++ c :: l) with ((((cur ++ [o]) ++ b) ++ [c]) ++ l).
      2:{ now rewrite <- !app_assoc. }
      eapply quiet_q_cons; [reflexivity| | |exact IH2]; [|exact Li].
      unfold expand_step. cbn [ex_pat ex_nesting ex_args ex_arg]. rewrite Hd.
      change (1 =? 0)%Z with false. rewrite andb_false_r, push_slots. cbn [bind].
      rewrite (close_not_open _ Hc). apply close_ch_spec in Hc. rewrite Hc. reflexivity.
  Qed.

  (** from the start of the parameter text's remainder [pat2] *)
  Lemma call_quiet pat2 ts args : call pat2 ts args ->
    forall pat1 done sub d e s',
    m_param m = pat1 ++ pat2 -> pat2 <> [] ->
    at_pat ptr (m_param m) (List.length pat1) (List.length done) (fill done) sub d ->
    List.length done + List.length args <= 9 ->
    macro_expand m (fill (done ++ args)) = Ok e ->
    settle (set_frames (set_input s e) fs) = Ok s' ->
    quiet (expanding s fs sub d) ts s'.
  Proof.
    induction 1 as [|t pat ts args Np C IH|n pat ts1 a ts args PN U C IH|n del pat a ts args Np D C IH];
      intros pat1 done sub d e s' Hm NE A LA X ST; [congruence| | |].
    - (* literal *)
      destruct A as [Ed As]. destruct (As t) as [A1 _].
      { rewrite Hm, nth_error_app2, Nat.sub_diag by lia. reflexivity. }
      rewrite (A1 Np) in *. rewrite Ed.
      assert (Hm' : m_param m = (pat1 ++ [t]) ++ pat) by (rewrite <- app_assoc; exact Hm).
      eapply step_then with (pat1 := pat1 ++ [t]) (pat2 := pat) (sub0 := ExMatching)
        (k := List.length done) (args := fill done) (e := e); [reflexivity|exact Hm'| | |].
      + unfold expand_step; cbn [ex_pat]. rewrite Hm, nth_error_app2, Nat.sub_diag by lia. cbn [nth_error].
        destruct (token_eqb_spec t t); [|congruence]. cbn [negb].
        rewrite app_length. cbn [List.length]. rewrite Nat.add_1_r. reflexivity.
      + intros ->. inversion C; subst. rewrite app_nil_r in X. auto.
      + intros NE' sub' d' A'. eapply IH; eauto.
    - (* undelimited *)
      destruct A as [Ed As]. destruct (As (TParam n)) as [_ A2].
      { rewrite Hm, nth_error_app2, Nat.sub_diag by lia. reflexivity. }
      destruct A2 as [N0 A2]; [eexists; reflexivity|]. rewrite N0 in Ed.
      assert (SU : sub = ExUndelimited).
      { rewrite Hm, nth_error_app2 in A2 by lia. replace (S (List.length pat1) - List.length pat1) with 1 in A2 by lia.
        cbn in A2. destruct pat as [|p pat]; [exact A2|]. now apply A2. }
      clear A2 As N0. subst sub d.
      assert (Hm' : m_param m = (pat1 ++ [TParam n]) ++ pat) by (rewrite <- app_assoc; exact Hm).
      assert (Li : List.length pat1 < List.length (m_param m)) by (rewrite Hm, app_length; cbn; lia).
      assert (L8 : List.length done <= 8) by (cbn in LA; lia).
      (* what follows the argument *)
      assert (G : forall sub d t cur n0 sub0, ex_def d = ptr -> cur = a ->
        expand_step (m_param m) sub d t =
          update_expand (m_param m) sub0
            (mkEx ptr (S (List.length pat1)) (S (List.length done)) n0 (slots done cur)) ->
        quiet (expanding s fs sub d) (t :: ts) s').
      { intros sub d t cur n0 sub0 Ed -> H.
        eapply step_then with (pat1 := pat1 ++ [TParam n]) (pat2 := pat) (sub0 := sub0)
          (k := S (List.length done)) (n := n0) (args := slots done a) (e := e); [exact Ed|exact Hm'| | |].
        - rewrite H, app_length. cbn [List.length]. rewrite Nat.add_1_r. reflexivity.
        - intros ->. inversion C; subst. rewrite slots_fill. auto.
        - intros NE' sub' d' A'. rewrite slots_fill in A'.
          eapply IH with (pat1 := pat1 ++ [TParam n]) (done := done ++ [a]); eauto.
          + rewrite (app_length done). cbn [List.length]. rewrite Nat.add_1_r. exact A'.
          + rewrite app_length. cbn in *. lia.
          + rewrite <- app_assoc. exact X. }
      rewrite (fill_slots _ L8) in *.
      clear IH X ST LA NE. induction U as [t ts1 a Sp U IHU|t Ns No|o c b Ho Hc B].
      + cbn [app]. eapply quiet_q_cons with (sub' := ExUndelimited)
          (d' := mkEx ptr (List.length pat1) (List.length done) 0 (slots done []));
          [reflexivity| |exact Li|apply IHU; exact G].
        unfold expand_step. cbn [ex_args ex_arg]. rewrite nth_slots.
        destruct Sp as [x ->]. reflexivity.
      + cbn [app]. eapply G with (cur := [t]); [reflexivity|reflexivity|].
        unfold expand_step. cbn [ex_args ex_arg]. rewrite nth_slots.
        destruct (is_begin t) eqn:E1; [now apply open_cat_spec in E1|].
        destruct (is_spacetok t) eqn:E2; [now apply space_tok_spec in E2|].
        cbn [negb andb]. rewrite orb_true_r, push_slots. reflexivity.
      + cbn [app]. rewrite <- app_assoc. cbn [app].
        eapply quiet_q_cons with (sub' := ExBraced)
          (d' := mkEx ptr (List.length pat1) (List.length done) 0 (slots done [])); [reflexivity| |exact Li|].
        { unfold expand_step. cbn [ex_args ex_arg]. rewrite nth_slots.
          destruct Ho as [x ->]. reflexivity. }
        eapply quiet_app; [apply braced_quiet; [exact B|exact Li|lia]|exact Ei|].
        eapply G with (cur := b); [reflexivity|reflexivity|].
        unfold expand_step. rewrite (close_not_begin _ Hc). apply close_cat_spec in Hc. rewrite Hc.
        cbn [ex_nesting ex_args ex_arg app]. rewrite nth_slots. reflexivity.
    - (* delimited *)
      destruct A as [Ed As]. destruct (As (TParam n)) as [_ A2].
      { rewrite Hm, nth_error_app2, Nat.sub_diag by lia. reflexivity. }
      destruct A2 as [N0 A2]; [eexists; reflexivity|]. rewrite N0 in Ed.
      assert (Hd : nth_error (m_param m) (S (List.length pat1)) = Some del).
      { rewrite Hm, nth_error_app2 by lia. replace (S (List.length pat1) - List.length pat1) with 1 by lia. reflexivity. }
      rewrite Hd in A2. destruct A2 as [_ A2]. specialize (A2 Np). subst sub d.
      assert (Hm' : m_param m = (pat1 ++ [TParam n; del]) ++ pat) by (rewrite <- app_assoc; exact Hm).
      assert (L8 : List.length done <= 8) by (cbn in LA; lia).
      rewrite (fill_slots _ L8).
      eapply quiet_app; [apply (delim_quiet del); [exact D|exact Hd]|exact Ei|]. cbn [app].
      eapply step_then with (pat1 := pat1 ++ [TParam n; del]) (pat2 := pat) (sub0 := ExMatching)
        (k := S (List.length done)) (n := 0%Z) (args := slots done a) (e := e); [reflexivity|exact Hm'| | |].
      + unfold expand_step. cbn [ex_pat ex_nesting ex_args ex_arg]. rewrite Hd.
        destruct (token_eqb_spec del del); [|congruence]. cbn [andb Z.eqb].
        rewrite app_length. cbn [List.length].
        replace (List.length pat1 + 2) with (S (S (List.length pat1))) by lia. reflexivity.
      + intros ->. inversion C; subst. rewrite slots_fill. auto.
      + intros NE' sub' d' A'. rewrite slots_fill in A'.
        eapply IH with (pat1 := pat1 ++ [TParam n; del]) (done := done ++ [a]); eauto.
        * rewrite (app_length done). cbn [List.length]. rewrite Nat.add_1_r. exact A'.
        * rewrite app_length. cbn in *. lia.
        * rewrite <- app_assoc. exact X.
  Qed.
End Call.

(** ** Substitution *)

Lemma nth_fill args i : List.length args <= 9 -> i < 9 -> nth_error (fill args) i = Some (nth i args []).
Proof.
  intros L I. unfold fill. destruct (Nat.lt_ge_cases i (List.length args)) as [H|H].
  - rewrite nth_error_app1 by exact H. apply nth_error_nth'. exact H.
  - rewrite nth_error_app2 by exact H. rewrite (nth_overflow args) by exact H.
    rewrite nth_error_repeat by lia. reflexivity.
Qed.
Lemma instance_expand args body r : List.length args <= 9 -> instance args body r ->
  expand_list (fill args) body = Ok r.
Proof.
  intros L. induction 1 as [|t l r Np I IH|i l r Hi I IH].
  - reflexivity.
  - destruct t as [c k|n|n]; cbn [expand_list]; rewrite ?IH; try reflexivity.
    exfalso; apply Np; eexists; reflexivity.
  - cbn [expand_list]. unfold args_at.
    destruct (Z.ltb_spec (Z.of_nat i + 1 - 1) 0); [lia|].
    replace (Z.to_nat (Z.of_nat i + 1 - 1)) with i by lia.
    rewrite nth_fill by assumption. cbn [bind]. now rewrite IH.
Qed.

(** ** Scopes have distinct identities *)

Definition ids_ok (s : pstate) : Prop :=
  NoDup (map sc_id (p_defs s)) /\ Forall (fun i => i < p_next s) (map sc_id (p_defs s)).

Lemma leave_defs s s' : leave s = Ok s' -> p_defs s' = p_defs s /\ p_next s' = p_next s.
Proof.
  unfold leave. destruct (p_frames s) as [|f fs]; [discriminate|]. intros H.
  apply bind_Ok in H as (x & _ & H). injection H as <-. auto.
Qed.

(** one step changes at most the innermost table *)
Definition defs_step (s s' : pstate) : Prop :=
  p_next s' = p_next s /\
  (p_defs s' = p_defs s \/
   exists m sc r, p_defs s = sc :: r /\
     p_defs s' = mkScope (sc_id sc) (table_set (m_cs m) m (sc_macros sc)) :: r).
Lemma defs_step_same s s' : p_defs s' = p_defs s -> p_next s' = p_next s -> defs_step s s'.
Proof. intros; split; auto. Qed.

Lemma define_step s m s' : define s m = Ok s' -> defs_step s s'.
Proof.
  unfold define. destruct (p_defs s) as [|sc r] eqn:E; [discriminate|]. intros [= <-].
  split; [reflexivity|]. right. exists m, sc, r. split; [exact E|reflexivity].
Qed.
Lemma leave_step s0 s s' : p_defs s = p_defs s0 -> p_next s = p_next s0 -> leave s = Ok s' -> defs_step s0 s'.
Proof. intros A B H. apply leave_defs in H as [C D]. apply defs_step_same; congruence. Qed.

Lemma processControlSeq_defs s c s' : processControlSeq s c = Ok s' ->
  p_defs s' = p_defs s /\ p_next s' = p_next s.
Proof.
  unfold processControlSeq. intros H.
  repeat match type of H with
  | (if ?b then _ else _) = _ => destruct b; [injection H as <-; auto|]
  end.
  destruct (find_ptr c (p_defs s)) as [[id m]|]; [|injection H as <-; auto].
  destruct (m_param m); apply bind_Ok in H as (x & _ & H); injection H as <-; auto.
Qed.

Lemma process_defs s t s' : process s t = Ok s' -> defs_step s s'.
Proof.
  unfold process. destruct (p_frames s) as [|f fs]; [discriminate|]. intros H. destruct f.
  - destruct t; try discriminate.
    + injection H as <-. now apply defs_step_same.
    + apply processControlSeq_defs in H as [A B]. now apply defs_step_same.
  - unfold readMacro in H. destruct s0.
    + destruct t; try discriminate. injection H as <-. now apply defs_step_same.
    + destruct (is_value t "{"%char); [injection H as <-; now apply defs_step_same|].
      destruct t; try (injection H as <-; now apply defs_step_same).
      destruct (negb _); [discriminate|]. injection H as <-. now apply defs_step_same.
    + destruct (is_value t "{"%char); [injection H as <-; now apply defs_step_same|].
      destruct (is_value t "}"%char); [|injection H as <-; now apply defs_step_same].
      destruct (rm_nesting d =? 0)%Z; [|injection H as <-; now apply defs_step_same].
      apply bind_Ok in H as (s1 & D & H). apply define_step in D as [N D].
      apply leave_defs in H as [A B]. unfold defs_step. rewrite A, B. auto.
  - unfold expandMacro in H. apply bind_Ok in H as (m & _ & H). apply bind_Ok in H as ([sub' d'] & _ & H).
    destruct (_ =? _); [|injection H as <-; now apply defs_step_same].
    apply bind_Ok in H as (e & _ & H). eapply leave_step; [| |exact H]; reflexivity.
  - unfold branch in H.
    destruct (is_if t); [injection H as <-; now apply defs_step_same|].
    destruct (is_else t).
    { destruct (_ =? _); injection H as <-; now apply defs_step_same. }
    destruct (is_fi t); [|injection H as <-; now apply defs_step_same].
    destruct (_ =? _); [|injection H as <-; now apply defs_step_same].
    eapply leave_step; [| |exact H]; reflexivity.
  - unfold formCs in H. destruct t; try discriminate; [injection H as <-; now apply defs_step_same|].
    destruct (name_eqb _ _); [|discriminate]. eapply leave_step; [| |exact H]; reflexivity.
  - destruct t; try discriminate. injection H as <-. now apply defs_step_same.
  - destruct t; try discriminate. unfold expandafter_expanding in H.
    apply bind_Ok in H as (s1 & P & H). apply processControlSeq_defs in P as [A B].
    destruct (_ =? _); [eapply leave_step; [| |exact H]; [exact A|exact B]|].
    injection H as <-. now apply defs_step_same.
  - injection H as <-. now apply defs_step_same.
Qed.
Lemma advance_defs s s' : advance s = Ok s' -> defs_step s s'.
Proof.
  unfold advance. destruct (p_input s); [intros [= <-]; now apply defs_step_same|].
  intros H. apply process_defs in H. exact H.
Qed.
Lemma pwrite_defs s t s' : pwrite s t = Ok s' -> defs_step s s'.
Proof.
  unfold pwrite. destruct (p_input s); [apply process_defs|intros [= <-]; now apply defs_step_same].
Qed.

Lemma defs_step_ids s s' : defs_step s s' ->
  p_next s' = p_next s /\ map sc_id (p_defs s') = map sc_id (p_defs s) /\ tl (p_defs s') = tl (p_defs s).
Proof.
  intros [N [E|(m & sc & r & E & E')]]; (split; [exact N|]); [now rewrite E|]. rewrite E, E'. auto.
Qed.

Lemma apply_ids s o s' : apply s o = Ok s' -> ids_ok s -> ids_ok s'.
Proof.
  assert (G : defs_step s s' -> ids_ok s -> ids_ok s').
  { intros D. apply defs_step_ids in D as (N & M & _). unfold ids_ok. now rewrite N, M. }
  destruct o; cbn; intros H I.
  - apply G; [eapply pwrite_defs; eauto|exact I].
  - apply G; [eapply advance_defs; eauto|exact I].
  - injection H as <-. destruct I as [A B]. split; cbn.
    + constructor; [|exact A]. intros X. rewrite Forall_forall in B. specialize (B _ X). lia.
    + constructor; [lia|]. eapply Forall_impl; [|exact B]. cbn; lia.
  - unfold endGroup in H. destruct (p_defs s) as [|sc r] eqn:E; [discriminate|]. injection H as <-.
    destruct I as [A B]. rewrite E in A, B. cbn in A, B. split; cbn.
    + now inversion A.
    + now inversion B.
  - apply G; [eapply define_step; eauto|exact I].
Qed.
Lemma apply_all_ids ops : forall s s', ids_ok s -> apply_all ops s = Ok s' -> ids_ok s'.
Proof.
  induction ops as [|o ops IH]; cbn; intros s s' I H; [now injection H as <-|].
  apply bind_Ok in H as (s1 & A & H). eapply IH; [|exact H]. eapply apply_ids; eauto.
Qed.
Lemma reachable_ids s : reachable s -> ids_ok s.
Proof.
  intros [ops H]. eapply apply_all_ids; [|exact H]. split; cbn; repeat constructor; cbn; easy.
Qed.
