(** No token stream makes the preprocessor misbehave, except a parameter
    token inside [\csname]. *)
From Coq Require Import List Ascii String ZArith Bool Arith Lia.
From Verif.Base Require Import Result.
From Verif.Model Require Import Token Macro Preprocessor.
From Verif.Spec Require Import MacroSpec.
From Verif.Proofs Require Import LexerProofs MacroProofs MacroExpand MacroMore.
Import ListNotations.

Notation toks_ok := (Forall tok_ok).
Definition nparams (l : list token) : nat := List.length (filter isParameterToken l).
Definition macro_ok (m : macro) : Prop :=
  toks_ok (m_param m) /\ toks_ok (m_repl m) /\ nparams (m_param m) <= 9.
Definition table_ok (t : table) : Prop := Forall (fun e => macro_ok (snd e)) t.
Definition defs_ok (d : list scope) : Prop :=
  d <> [] /\ NoDup (map sc_id d) /\ Forall (fun s => table_ok (sc_macros s)) d.
Definition args_ok (a : arguments) (k : nat) : Prop :=
  List.length a = 9 /\ Forall toks_ok a /\ forall i, k < i -> nth i a [] = [].

Definition ex_ok (m : macro) (sub : ex_sub) (d : ex_data) : Prop :=
  ex_pat d < List.length (m_param m) /\
  ex_arg d = nparams (firstn (ex_pat d) (m_param m)) /\ args_ok (ex_args d) (ex_arg d) /\
  match nth_error (m_param m) (ex_pat d) with
  | None => False
  | Some p =>
      match sub with
      | ExMatching => isParameterToken p = false /\ nth (ex_arg d) (ex_args d) [] = []
      | ExUndelimited => isParameterToken p = true /\ nth (ex_arg d) (ex_args d) [] = [] /\ ex_nesting d = 0%Z
      | ExBraced => isParameterToken p = true
      | ExDelimited => isParameterToken p = true /\
          exists q, nth_error (m_param m) (S (ex_pat d)) = Some q /\ isParameterToken q = false
      end
  end.

Definition frame_ok (d : list scope) (f : frame) : Prop :=
  match f with
  | FReading _ r => toks_ok (rm_params r) /\ toks_ok (rm_body r) /\
      rm_index r = (1 + Z.of_nat (nparams (rm_params r)))%Z /\ nparams (rm_params r) <= 9
  | FExpanding sub x => exists m, deref (ex_def x) d = Ok m /\ macro_ok m /\ ex_ok m sub x
  | FBranching b => toks_ok (br_branch b)
  | FForming _ | FAfterReading => True
  | FAfterExpanding c => tok_ok c
  | FIdle | FAfterInserting _ => False
  end.
Definition below_ok (fs : list frame) : Prop :=
  exists cs, toks_ok cs /\ fs = map FAfterInserting cs ++ [FIdle].
Definition frames_ok (d : list scope) (fs : list frame) : Prop :=
  fs = [FIdle] \/ exists f r, fs = f :: r /\ frame_ok d f /\ below_ok r.
Definition inv (s : pstate) : Prop :=
  toks_ok (p_input s) /\ defs_ok (p_defs s) /\ frames_ok (p_defs s) (p_frames s).

(** [r] is a good outcome: a good state, or an exception *)
Definition good (r : result pstate) : Prop :=
  match r with Ok s => inv s | Throw => True | _ => False end.

Lemma leave_frames_ok cs : forall i,
  leave_frames (map FAfterInserting cs ++ [FIdle]) i = Ok ([FIdle], rev cs ++ i).
Proof.
  induction cs as [|c cs IH]; intros i; cbn; [reflexivity|]. rewrite IH, <- app_assoc. reflexivity.
Qed.
Lemma leave_good s f r : p_frames s = f :: r -> below_ok r -> toks_ok (p_input s) -> defs_ok (p_defs s) ->
  good (leave s).
Proof.
  intros E (cs & C & ->) I D. unfold leave. rewrite E, leave_frames_ok. cbn [bind fst snd good].
  split; [|split; [exact D|now left]]. cbn. apply Forall_app. split; [now apply Forall_rev|exact I].
Qed.

Lemma table_find_ok n t m : table_ok t -> table_find n t = Some m -> macro_ok m.
Proof.
  intros T. induction T as [|[k x] t H T IH]; cbn; [discriminate|].
  destruct (name_eqb n k); [intros [= <-]; exact H|auto].
Qed.
Lemma find_ptr_ok n d id m : defs_ok d -> find_ptr n d = Some (id, m) -> macro_ok m /\ deref (id, n) d = Ok m.
Proof.
  intros (_ & ND & T) F. split; [|now apply find_deref].
  clear ND. induction T as [|sc d H T IH]; cbn in F; [discriminate|].
  destruct (table_find n (sc_macros sc)) eqn:E; [injection F as <- <-; eapply table_find_ok; eauto|auto].
Qed.
Lemma table_set_ok n m t : macro_ok m -> table_ok t -> table_ok (table_set n m t).
Proof.
  intros M T. induction T as [|[k x] t H T IH]; cbn; [constructor; [exact M|constructor]|].
  destruct (name_eqb n k); [constructor; auto|]. destruct (name_ltb n k).
  - constructor; [exact M|constructor; auto].
  - constructor; auto.
Qed.
Lemma define_ok s m : macro_ok m -> defs_ok (p_defs s) -> exists s', define s m = Ok s' /\
  p_input s' = p_input s /\ p_frames s' = p_frames s /\ defs_ok (p_defs s').
Proof.
  intros M (NE & ND & T). unfold define. destruct (p_defs s) as [|sc r]; [congruence|].
  eexists; split; [reflexivity|]. repeat split; cbn.
  - discriminate.
  - exact ND.
  - inversion T; subst. constructor; [now apply table_set_ok|assumption].
Qed.

Lemma args_at_ok a k z l : args_ok a k -> args_at a z = Ok l -> toks_ok l.
Proof.
  intros (L & F & _). unfold args_at. destruct (z <? 0)%Z; [discriminate|].
  destruct (nth_error a (Z.to_nat z)) eqn:E; [|discriminate]. intros [= <-].
  rewrite Forall_forall in F. apply F. eapply nth_error_In; eauto.
Qed.
Lemma expand_list_ok a k l : args_ok a k -> toks_ok l ->
  expand_list a l = Throw \/ exists e, expand_list a l = Ok e /\ toks_ok e.
Proof.
  intros A. induction 1 as [|t l T F IH]; cbn [expand_list]; [right; exists []; auto|].
  destruct t as [c k'|n|n].
  - destruct IH as [->|(e & -> & E)]; [now left|]. right; eexists; split; [reflexivity|]. now constructor.
  - destruct IH as [->|(e & -> & E)]; [now left|]. right; eexists; split; [reflexivity|]. now constructor.
  - destruct (args_at a (n - 1)) eqn:X.
    + cbn [bind]. destruct IH as [->|(e & -> & E)]; [now left|]. right; eexists; split; [reflexivity|].
      apply Forall_app. split; [eapply args_at_ok; eauto|exact E].
    + now left.
    + unfold args_at in X. destruct (_ <? _)%Z; [discriminate|]. destruct (nth_error _ _); discriminate.
    + unfold args_at in X. destruct (_ <? _)%Z; [discriminate|]. destruct (nth_error _ _); discriminate.
    + unfold args_at in X. destruct (_ <? _)%Z; [discriminate|]. destruct (nth_error _ _); discriminate.
Qed.

Lemma no_args_ok : args_ok no_args 0.
Proof.
  split; [reflexivity|]. split; [repeat constructor|].
  intros i _. do 9 (destruct i; [reflexivity|]). now destruct i.
Qed.

Lemma firstn_S_nth {A} (l : list A) i x : nth_error l i = Some x -> firstn (S i) l = firstn i l ++ [x].
Proof.
  revert i; induction l as [|y l IH]; intros [|i] H; cbn in H; try discriminate.
  - now injection H as ->.
  - change (y :: firstn (S i) l = y :: (firstn i l ++ [x])). now rewrite (IH i H).
Qed.
Lemma nparams_app a b : nparams (a ++ b) = nparams a + nparams b.
Proof. unfold nparams. now rewrite filter_app, app_length. Qed.
Lemma nparams_firstn l i : nparams (firstn i l) <= nparams l.
Proof. rewrite <- (firstn_skipn i l) at 2. rewrite nparams_app. lia. Qed.

(** the state after [update_expand] *)
Lemma update_ok m sub0 ptr i k n a :
  i <= List.length (m_param m) -> k = nparams (firstn i (m_param m)) ->
  args_ok a k -> nth k a [] = [] ->
  exists sub d, update_expand (m_param m) sub0 (mkEx ptr i k n a) = Ok (sub, d) /\
    ex_def d = ptr /\ ex_args d = a /\ ex_pat d = i /\
    (i < List.length (m_param m) -> ex_ok m sub d).
Proof.
  intros L K A E. unfold update_expand; cbn [ex_pat ex_def ex_arg ex_args ex_nesting].
  destruct (Nat.eqb_spec i (List.length (m_param m))) as [Ei|Ei].
  - do 2 eexists; split; [reflexivity|]. repeat split; cbn; auto; lia.
  - destruct (nth_error (m_param m) i) as [p|] eqn:Ep; [|apply nth_error_None in Ep; lia].
    destruct (isParameterToken p) eqn:Q.
    + destruct (Nat.eqb_spec i (List.length (m_param m) - 1)) as [E'|E'].
      * do 2 eexists; split; [reflexivity|]. do 3 (split; [reflexivity|]). intros Li.
        unfold ex_ok; cbn [ex_pat ex_def ex_arg ex_args ex_nesting]. rewrite Ep. auto 10.
      * destruct (nth_error (m_param m) (S i)) as [q|] eqn:Eq; [|apply nth_error_None in Eq; lia].
        do 2 eexists; split; [reflexivity|]. do 3 (split; [reflexivity|]). intros Li.
        unfold ex_ok; cbn [ex_pat ex_def ex_arg ex_args ex_nesting]. rewrite Ep.
        destruct (isParameterToken q) eqn:Q2; auto 10. repeat (split; auto). exists q. auto.
    + do 2 eexists; split; [reflexivity|]. do 3 (split; [reflexivity|]). intros Li.
      unfold ex_ok; cbn [ex_pat ex_def ex_arg ex_args ex_nesting]. rewrite Ep. auto 10.
Qed.

Lemma nth_set_nth {A} (l : list A) i j x dflt : i < List.length l ->
  nth j (set_nth i x l) dflt = if Nat.eqb j i then x else nth j l dflt.
Proof.
  revert i j; induction l as [|y l IH]; intros [|i] [|j] L; cbn in *; try lia; auto.
  apply IH. lia.
Qed.
Lemma set_nth_length {A} (l : list A) i x : List.length (set_nth i x l) = List.length l.
Proof. revert i; induction l as [|y l IH]; intros [|i]; cbn; auto. Qed.
Lemma set_nth_forall {A} (P : A -> Prop) l i x : P x -> Forall P l -> Forall P (set_nth i x l).
Proof. intros Hx F; revert i; induction F; intros [|i]; cbn; auto. Qed.

Lemma push_ok a k t : k < 9 -> args_ok a k -> tok_ok t ->
  exists a', push_arg a k t = Ok a' /\ args_ok a' k.
Proof.
  intros K (L & F & Z) T. unfold push_arg.
  destruct (nth_error a k) as [l|] eqn:E; [|apply nth_error_None in E; lia].
  eexists; split; [reflexivity|]. split; [now rewrite set_nth_length|]. split.
  - apply set_nth_forall; [|exact F]. apply Forall_app. split; [|auto].
    rewrite Forall_forall in F. apply F. eapply nth_error_In; eauto.
  - intros i Hi. rewrite nth_set_nth by lia. destruct (Nat.eqb_spec i k); [lia|auto].
Qed.
Lemma args_ok_S a k : args_ok a k -> args_ok a (S k) /\ nth (S k) a [] = [].
Proof. intros (L & F & Z). split; [|apply Z; lia]. split; [exact L|]. split; [exact F|]. intros; apply Z; lia. Qed.

Lemma param_arg_lt m i p : macro_ok m -> nth_error (m_param m) i = Some p -> isParameterToken p = true ->
  nparams (firstn i (m_param m)) < 9.
Proof.
  intros (_ & _ & L) E P. pose proof (nparams_firstn (m_param m) (S i)) as H.
  rewrite (firstn_S_nth _ _ _ E), nparams_app in H. unfold nparams at 2 in H. cbn in H. rewrite P in H. cbn in H. lia.
Qed.

(** outcome of one step of argument reading *)
Definition step_ok (m : macro) (ptr : nat * name) (r : result (ex_sub * ex_data)) : Prop :=
  match r with
  | Throw => True
  | Ok (sub, d) => ex_def d = ptr /\ (exists k, args_ok (ex_args d) k) /\ ex_pat d <= List.length (m_param m) /\
      (ex_pat d < List.length (m_param m) -> ex_ok m sub d)
  | _ => False
  end.
Lemma update_step_ok m sub0 ptr i k n a :
  i <= List.length (m_param m) -> k = nparams (firstn i (m_param m)) ->
  args_ok a k -> nth k a [] = [] ->
  step_ok m ptr (update_expand (m_param m) sub0 (mkEx ptr i k n a)).
Proof.
  intros L K A E. destruct (update_ok m sub0 ptr i k n a L K A E) as (sub & d & -> & D & Ea & Ep & X).
  cbn. rewrite Ea, Ep. eauto.
Qed.

Ltac step_done := split; [reflexivity|]; split; [eauto|]; split; [cbn; lia|]; intros _.

Lemma expand_step_ok m sub d t : macro_ok m -> ex_ok m sub d -> tok_ok t ->
  step_ok m (ex_def d) (expand_step (m_param m) sub d t).
Proof.
  intros M (Lp & K & A & X) T. destruct d as [ptr i k n a]. cbn [ex_pat ex_def ex_arg ex_args ex_nesting] in *.
  destruct (nth_error (m_param m) i) as [p|] eqn:Ep; [|contradiction].
  assert (L1 : S i <= List.length (m_param m)) by lia.
  assert (NP : forall x, nparams (firstn (S i) (m_param m)) = x ->
               x = k + if isParameterToken p then 1 else 0).
  { intros x <-. rewrite (firstn_S_nth _ _ _ Ep), nparams_app, <- K. f_equal. unfold nparams. cbn. now destruct (isParameterToken p). }
  specialize (NP _ eq_refl).
  destruct sub; unfold expand_step; cbn [ex_pat ex_def ex_arg ex_args ex_nesting].
  - (* matching *)
    destruct X as [P E]. rewrite Ep. destruct (negb (token_eqb t p)); [exact I|].
    unfold with_pat; cbn. rewrite P in NP.
    apply update_step_ok; auto. lia.
  - (* delimited *)
    destruct X as (P & q & Eq & Pq). rewrite Eq. rewrite P in NP.
    assert (K9 : k < 9) by (rewrite K; eapply param_arg_lt; eauto).
    destruct (token_eqb t q && (n =? 0)%Z).
    + unfold with_pat, next_arg; cbn.
      apply args_ok_S in A as [A1 A2]. apply update_step_ok; auto.
      * apply nth_error_Some. congruence.
      * rewrite (firstn_S_nth _ _ _ Eq), nparams_app, NP. unfold nparams. cbn. rewrite Pq. cbn. lia.
    + destruct (push_ok a k t K9 A T) as (a' & -> & A'). cbn [bind].
      assert (G : forall n', ex_ok m ExDelimited (mkEx ptr i k n' a')).
      { intros n'. unfold ex_ok; cbn [ex_pat ex_def ex_arg ex_args ex_nesting]. rewrite Ep. repeat (split; auto). eauto. }
      destruct (is_value t "{"%char); [step_done; apply G|].
      destruct (is_value t "}"%char); [|step_done; apply G].
      destruct (n =? 0)%Z; [exact I|]. step_done; apply G.
  - (* undelimited *)
    destruct X as (P & E & N). rewrite P in NP.
    assert (K9 : k < 9) by (rewrite K; eapply param_arg_lt; eauto).
    rewrite (nth_error_nth' a []) by (destruct A as (-> & _); exact K9). rewrite E.
    destruct (isControlSequence t || negb (is_begin t) && negb (is_spacetok t)).
    + destruct (push_ok a k t K9 A T) as (a' & -> & A'). cbn [bind]. unfold with_pat, next_arg, with_args; cbn.
      apply args_ok_S in A' as [A1 A2]. apply update_step_ok; auto. lia.
    + destruct (is_begin t).
      * rewrite N. cbn [Z.eqb]. step_done.
        unfold ex_ok; cbn [ex_pat ex_def ex_arg ex_args ex_nesting]. rewrite Ep. auto.
      * step_done.
        unfold ex_ok; cbn [ex_pat ex_def ex_arg ex_args ex_nesting]. rewrite Ep. auto 10.
  - (* braced *)
    rewrite X in NP.
    assert (K9 : k < 9) by (rewrite K; eapply param_arg_lt; eauto).
    assert (G : forall a' n', args_ok a' k -> ex_ok m ExBraced (mkEx ptr i k n' a')).
    { intros a' n' A'. unfold ex_ok; cbn [ex_pat ex_def ex_arg ex_args ex_nesting]. rewrite Ep. auto. }
    destruct (is_begin t); [|destruct (is_end t); [destruct (n =? 0)%Z|]].
    + destruct (push_ok a k t K9 A T) as (a' & -> & A'). cbn [bind]. step_done; now apply G.
    + rewrite (nth_error_nth' a []) by (destruct A as (-> & _); exact K9).
      unfold with_pat, next_arg; cbn. apply args_ok_S in A as [A1 A2]. apply update_step_ok; auto. lia.
    + destruct (push_ok a k t K9 A T) as (a' & -> & A'). cbn [bind]. step_done; now apply G.
    + destruct (push_ok a k t K9 A T) as (a' & -> & A'). cbn [bind]. step_done; now apply G.
Qed.

(** [processControlSeq] over frames that [leave] can handle *)
Lemma processControlSeq_good s c :
  toks_ok (p_input s) -> defs_ok (p_defs s) -> below_ok (p_frames s) ->
  match processControlSeq s c with
  | Ok s' => toks_ok (p_input s') /\ p_defs s' = p_defs s /\
      (p_frames s' = p_frames s \/
       exists f, p_frames s' = f :: p_frames s /\ frame_ok (p_defs s) f)
  | Throw => True
  | _ => False
  end.
Proof.
  intros I D B. unfold processControlSeq.
  destruct (name_eqb c DEF).
  { repeat split; auto. right. eexists; split; [reflexivity|]. cbn. repeat split; auto; cbn; lia. }
  destruct (name_eqb c IFBR).
  { repeat split; auto. right. eexists; split; [reflexivity|]. cbn. auto. }
  destruct (name_eqb c CSNAME).
  { repeat split; auto. right. eexists; split; [reflexivity|]. cbn. auto. }
  destruct (name_eqb c EXPANDAFTER).
  { repeat split; auto. right. eexists; split; [reflexivity|]. cbn. auto. }
  destruct (find_ptr c (p_defs s)) as [[id m]|] eqn:F; [|repeat split; auto].
  destruct (find_ptr_ok _ _ _ _ D F) as [M DR].
  destruct (m_param m) as [|p pat] eqn:Hp.
  - destruct (expand_list_ok no_args 0 (m_repl m) no_args_ok) as [E|(e & E & T)].
    { apply M. }
    + unfold macro_expand. rewrite E. exact Logic.I.
    + unfold macro_expand. rewrite E. cbn. repeat split; auto. apply Forall_app; auto.
  - destruct (update_ok m ExMatching (id, c) 0 0 0 no_args) as (sub & d & U & Ed & Ea & Ep & X);
      [lia|reflexivity|apply no_args_ok|reflexivity|].
    rewrite <- Hp, U. cbn. repeat split; auto. right. eexists; split; [reflexivity|].
    exists m. rewrite Ed. repeat split; auto. all: try apply M. all: apply X; rewrite Hp; cbn; lia.
Qed.

Lemma below_idle : below_ok [FIdle].
Proof. exists []. split; [constructor|reflexivity]. Qed.

Lemma process_good s t : inv s -> tok_ok t ->
  good (process s t) \/
  (process s t = UB /\ isParameterToken t = true /\ in_csname s).
Proof.
  intros (I & D & [F|(f & r & F & Ff & B)]) T.
  - (* idle *)
    left. unfold process. rewrite F. destruct t as [c k|n|n].
    + cbn. split; [exact I|]. split; [exact D|]. now left.
    + pose proof (processControlSeq_good s n I D) as P. rewrite F in P. specialize (P below_idle).
      destruct (processControlSeq s n) as [s'| | | |]; try exact P.
      destruct P as (I' & D' & Fr). split; [exact I'|]. rewrite D'. split; [exact D|].
      destruct Fr as [->|(f & -> & Ff)]; [now left|]. right. exists f, [FIdle].
      split; [reflexivity|]. split; [exact Ff|apply below_idle].
    + exact Logic.I.
  - unfold process. rewrite F. destruct f; try contradiction.
    + (* reading *)
      left. destruct Ff as (Fp & Fb & Ix & L9). unfold readMacro. destruct s0.
      * destruct t as [c k|n|n]; try exact Logic.I. cbn. split; [exact I|]. split; [exact D|].
        right. eexists _, r. unfold set_top; cbn. rewrite F. split; [reflexivity|]. split; [|exact B]. cbn. auto.
      * destruct (is_value t "{"%char).
        { split; [exact I|]. split; [exact D|]. right. eexists _, r. unfold set_top; cbn. rewrite F. split; [reflexivity|].
          split; [|exact B]. cbn. auto. }
        assert (G : forall idx, idx = (1 + Z.of_nat (nparams (rm_params d ++ [t])))%Z -> nparams (rm_params d ++ [t]) <= 9 ->
          good (Ok (set_top s (FReading RMParam (mkRM (rm_cs d) idx (rm_params d ++ [t]) (rm_nesting d) (rm_body d)))))).
        { intros idx Hi Hn. split; [exact I|]. split; [exact D|]. right. eexists _, r. unfold set_top; cbn. rewrite F.
          split; [reflexivity|]. split; [|exact B]. cbn. repeat split; auto. apply Forall_app; auto. }
        rewrite nparams_app in G. destruct t as [c k|n|n].
        -- change (nparams [TChar c k]) with 0 in G. apply G; lia.
        -- change (nparams [TCs n]) with 0 in G. apply G; lia.
        -- destruct (Z.eqb_spec n (rm_index d)) as [->|]; [|exact Logic.I]. cbn [negb].
           change (nparams [TParam (rm_index d)]) with 1 in G. unfold tok_ok in T. apply G; lia.
      * assert (G : forall nst, good (Ok (set_top s (FReading RMRepl (mkRM (rm_cs d) (rm_index d) (rm_params d) nst (rm_body d ++ [t])))))).
        { intros nst. split; [exact I|]. split; [exact D|]. right. eexists _, r. unfold set_top; cbn. rewrite F.
          split; [reflexivity|]. split; [|exact B]. cbn. repeat split; auto. apply Forall_app; auto. }
        destruct (is_value t "{"%char); [apply G|]. destruct (is_value t "}"%char); [|apply G].
        destruct (rm_nesting d =? 0)%Z; [|apply G].
        destruct (define_ok s (mkMacro (rm_cs d) (rm_params d) (rm_body d))) as (s' & -> & I' & F' & D'); auto.
        { repeat split; auto. }
        cbn [bind]. eapply leave_good; [rewrite F'; exact F|exact B|rewrite I'; exact I|exact D'].
    + (* expanding *)
      left. destruct Ff as (m & DR & M & X). unfold expandMacro. rewrite DR. cbn [bind].
      pose proof (expand_step_ok m s0 d t M X T) as P.
      destruct (expand_step (m_param m) s0 d t) as [[sub' d']| | | |]; cbn [bind]; try exact P.
      destruct P as (Ed & (k & A) & Lp & X').
      destruct (Nat.eqb_spec (ex_pat d') (List.length (m_param m))) as [Eq|Eq].
      * destruct (expand_list_ok _ _ (m_repl m) A) as [E|(e & E & Te)]; [apply M| |]; unfold macro_expand; rewrite E; [exact Logic.I|].
        cbn [bind]. eapply leave_good; [exact F|exact B|cbn; apply Forall_app; auto|exact D].
      * split; [exact I|]. split; [exact D|]. right. eexists _, r. unfold set_top; cbn. rewrite F.
        split; [reflexivity|]. split; [|exact B]. exists m. rewrite Ed. split; [exact DR|]. split; [exact M|]. apply X'. lia.
    + (* branching *)
      left. cbn in Ff. unfold branch.
      assert (G : forall n, good (Ok (set_top s (FBranching (mkBr (br_success d) (br_inside_if d) n
         (if Bool.eqb (br_success d) (br_inside_if d) then br_branch d ++ [t] else br_branch d)))))).
      { intros n. split; [exact I|]. split; [exact D|]. right. eexists _, r. unfold set_top; cbn. rewrite F.
        split; [reflexivity|]. split; [|exact B]. cbn. destruct (Bool.eqb _ _); [apply Forall_app; auto|auto]. }
      destruct (is_if t); [apply G|].
      destruct (is_else t).
      { destruct (br_nesting d =? 0); [|apply G]. split; [exact I|]. split; [exact D|]. right. eexists _, r. unfold set_top; cbn.
        rewrite F. split; [reflexivity|]. split; [|exact B]. exact Ff. }
      destruct (is_fi t); [|apply G]. destruct (br_nesting d =? 0); [|apply G].
      eapply leave_good; [exact F|exact B|cbn; apply Forall_app; auto|exact D].
    + (* csname *)
      unfold formCs. destruct t as [c k|x|x].
      * left. split; [exact I|]. split; [exact D|]. right. eexists _, r. unfold set_top; cbn. rewrite F.
        split; [reflexivity|]. split; [|exact B]. exact Logic.I.
      * left. destruct (name_eqb x (str "endcsname")); [|exact Logic.I].
        eapply leave_good; [exact F|exact B|constructor; [exact Logic.I|exact I]|exact D].
      * right. split; [reflexivity|]. split; [reflexivity|]. exists n, r. exact F.
    + left. destruct t as [c k|x|x]; try exact Logic.I. split; [exact I|]. split; [exact D|].
      right. eexists _, r. unfold set_top; cbn. rewrite F. split; [reflexivity|]. split; [|exact B]. exact Logic.I.
    + left. cbn in Ff. destruct t as [c k|x|x]; try exact Logic.I. unfold expandafter_expanding.
      rewrite F. cbn [List.length].
      assert (B' : below_ok (FAfterInserting cs :: r)).
      { destruct B as (cs' & C & ->). exists (cs :: cs'). split; [now constructor|reflexivity]. }
      assert (FT : p_frames (set_top s (FAfterInserting cs)) = FAfterInserting cs :: r).
      { unfold set_top; cbn. now rewrite F. }
      pose proof (processControlSeq_good (set_top s (FAfterInserting cs)) x I D) as P.
      rewrite FT in P. specialize (P B').
      destruct (processControlSeq (set_top s (FAfterInserting cs)) x) as [s'| | | |]; cbn [bind]; try exact P.
      destruct P as (I' & D' & Fr). change (p_defs (set_top s (FAfterInserting cs))) with (p_defs s) in *.
      destruct Fr as [Fr|(f & Fr & Ff')]; rewrite Fr; cbn [List.length].
      * rewrite Nat.eqb_refl. eapply leave_good; [unfold enter; cbn; rewrite Fr; reflexivity|exact B'|exact I'|cbn; now rewrite D'].
      * destruct (Nat.eqb_spec (S (S (List.length r))) (S (List.length r))); [lia|].
        split; [exact I'|]. rewrite D'. split; [exact D|]. right. exists f, (FAfterInserting cs :: r). auto.
Qed.

Lemma inv_init : inv pinit.
Proof.
  split; [constructor|]. split; [|now left]. split; [discriminate|].
  split; cbn; repeat constructor; intros [].
Qed.

Lemma safe_ops ops : forall s, inv s -> Forall stream_op ops ->
  match apply_all ops s with
  | Ok s' => inv s'
  | Throw => True
  | UB => exists pre o post s1 t, ops = pre ++ o :: post /\ apply_all pre s = Ok s1 /\
      (o = OpWrite t \/ o = OpAdvance /\ exists r, p_input s1 = t :: r) /\
      isParameterToken t = true /\ in_csname s1
  | _ => False
  end.
Proof.
  induction ops as [|o ops IH]; intros s V F; [exact V|].
  apply Forall_cons_iff in F as [Fo F].
  unfold apply_all; cbn [foldM].
  assert (X : match apply s o with
    | Ok s' => inv s' | Throw => True
    | UB => exists t, (o = OpWrite t \/ o = OpAdvance /\ exists r, p_input s = t :: r) /\
        isParameterToken t = true /\ in_csname s
    | _ => False end).
  { destruct o; try contradiction; cbn [apply].
    - unfold pwrite. destruct (p_input s) as [|u i] eqn:Ei.
      + destruct (process_good s t V Fo) as [G|(-> & P & C)]; [|eauto].
        destruct (process s t); try exact G; contradiction.
      + destruct V as (I & D & Fr). split; [|split; [exact D|exact Fr]]. rewrite Ei in I. apply (Forall_app tok_ok (u :: i) [t]); auto.
    - unfold advance. destruct (p_input s) as [|u i] eqn:Ei; [exact V|].
      assert (V' : inv (set_input s i)).
      { destruct V as (I & D & Fr). rewrite Ei in I. inversion I; subst. split; auto. }
      assert (Tu : tok_ok u). { destruct V as (I & _). rewrite Ei in I. now inversion I. }
      destruct (process_good (set_input s i) u V' Tu) as [G|(-> & P & C)].
      + destruct (process (set_input s i) u); try exact G; contradiction.
      + exists u. split; [right; eauto|auto]. }
  destruct (apply s o) as [s1| | | |] eqn:A; cbn [bind].
  - specialize (IH s1 X F). unfold apply_all in IH. destruct (foldM apply ops s1) eqn:R; try exact IH.
    destruct IH as (pre & o' & post & s2 & t & -> & A2 & H). exists (o :: pre), o', post, s2, t.
    split; [reflexivity|]. split; [|exact H]. unfold apply_all; cbn [foldM]. rewrite A. exact A2.
  - exact Logic.I.
  - destruct X as (t & H). exists [], o, ops, s, t. split; [reflexivity|]. split; [reflexivity|]. exact H.
  - exact X.
  - exact X.
Qed.
