(** A macro call is completed only by a text that matches the parameter text. *)
From Coq Require Import List Ascii String ZArith Bool Arith Lia.
From Verif.Base Require Import Result.
From Verif.Model Require Import Token Macro Preprocessor.
From Verif.Spec Require Import MacroSpec.
From Verif.Proofs Require Import LexerProofs MacroProofs MacroExpand MacroMore MacroSafe.
Import ListNotations.

(** Nesting after [l], starting from [n]; [None] at a closing brace too many,
    or at a [stop] outside braces *)
Section Walk.
  Variables (op cl stop : token -> bool).
  Fixpoint walk (n : nat) (l : list token) : option nat :=
    match l with
    | [] => Some n
    | t :: r =>
        if stop t && Nat.eqb n 0 then None
        else if op t then walk (S n) r
        else if cl t then match n with O => None | S n' => walk n' r end
        else walk n r
    end.
  Lemma walk_app a : forall n b, walk n (a ++ b) = match walk n a with Some k => walk k b | None => None end.
  Proof.
    induction a as [|t a IH]; intros n b; cbn [app walk]; [reflexivity|].
    destruct (stop t && (n =? 0)); [reflexivity|].
    destruct (op t); [apply IH|]. destruct (cl t); [|apply IH]. destruct n; [reflexivity|apply IH].
  Qed.

  Variables (Op Cl : token -> Prop).
  Hypothesis Hop : forall t, op t = true <-> Op t.
  Hypothesis Hcl : forall t, cl t = true <-> Cl t.

  Lemma walk_close k : forall l n, List.length l <= k -> walk (S n) l = Some 0 ->
    exists b c l', l = b ++ c :: l' /\ balanced Op Cl b /\ Cl c /\ walk n l' = Some 0 /\ List.length l' < List.length l.
  Proof.
    induction k as [|k IH]; intros l n L W.
    - destruct l; [discriminate|cbn in L; lia].
    - destruct l as [|t l]; [discriminate|]. cbn [walk] in W. cbn in L. rewrite andb_false_r in W.
      destruct (op t) eqn:O.
      + apply IH in W as (b1 & c1 & l2 & -> & B1 & C1 & W2 & L2); [|lia].
        apply IH in W2 as (b2 & c2 & l3 & -> & B2 & C2 & W3 & L3); [|lia].
        exists (t :: b1 ++ c1 :: b2), c2, l3. split; [cbn; now rewrite <- app_assoc|].
        split; [apply bal_group; auto; now apply Hop|]. split; [exact C2|]. split; [exact W3|].
        cbn. rewrite !app_length in *. cbn in *. rewrite ?app_length in *. cbn in *. lia.
      + destruct (cl t) eqn:C.
        * exists [], t, l. repeat split; auto; [constructor|now apply Hcl].
        * apply IH in W as (b & c & l' & -> & B & C' & W' & L'); [|lia].
          exists (t :: b), c, l'. split; [reflexivity|]. split.
          { apply bal_tok; auto; [rewrite <- Hop|rewrite <- Hcl]; congruence. }
          repeat split; auto. cbn in *. lia.
  Qed.
End Walk.

Definition never (_ : token) : bool := false.
Lemma walk_balanced op cl Op Cl : (forall t, op t = true <-> Op t) -> (forall t, cl t = true <-> Cl t) ->
  forall l, walk op cl never 0 l = Some 0 -> balanced Op Cl l.
Proof.
  intros Hop Hcl l. remember (List.length l) as k eqn:E. assert (L : List.length l <= k) by lia. clear E.
  revert l L. induction k as [|k IH]; intros l L W; (destruct l as [|t l]; [constructor|]); [cbn in L; lia|].
  cbn in L, W. destruct (op t) eqn:O.
  - eapply walk_close in W as (b & c & l' & -> & B & C & W & L'); [|exact Hop|exact Hcl|apply le_n].
    apply bal_group; auto; [now apply Hop|]. apply IH; [lia|exact W].
  - destruct (cl t) eqn:C; [discriminate|].
    apply bal_tok; [rewrite <- Hop; congruence|rewrite <- Hcl; congruence|]. apply IH; [lia|exact W].
Qed.
Definition opench t := is_value t "{"%char.
Definition closech t := is_value t "}"%char.
Lemma walk_delimited d l : walk opench closech (fun t => token_eqb t d) 0 l = Some 0 -> delimited d l.
Proof.
  remember (List.length l) as k eqn:E. assert (L : List.length l <= k) by lia. clear E.
  assert (Hop : forall t, opench t = true <-> open_ch t) by (intros; symmetry; apply open_ch_spec).
  assert (Hcl : forall t, closech t = true <-> close_ch t) by (intros; symmetry; apply close_ch_spec).
  revert l L. induction k as [|k IH]; intros l L W; (destruct l as [|t l]; [constructor|]); [cbn in L; lia|].
  cbn in L. cbn [walk Nat.eqb] in W. rewrite andb_true_r in W.
  destruct (token_eqb_spec t d) as [|Nd]; [discriminate|].
  destruct (opench t) eqn:O.
  - eapply walk_close in W as (b & c & l' & -> & B & C & W & L'); [|exact Hop|exact Hcl|apply le_n].
    apply dl_group; auto; [now apply Hop|]. apply IH; [lia|exact W].
  - destruct (closech t) eqn:C; [discriminate|].
    apply dl_tok; [exact Nd|rewrite <- Hop; congruence|rewrite <- Hcl; congruence|]. apply IH; [lia|exact W].
Qed.

Lemma undelimited_spaces sp ts a : Forall space_tok sp -> undelimited ts a -> undelimited (sp ++ ts) a.
Proof. induction 1; cbn; auto using undelimited. Qed.

Lemma update_expand_pos pat sub0 d0 r1 r2 : update_expand pat sub0 d0 = Ok (r1, r2) -> ex_pat r2 = ex_pat d0.
Proof.
  unfold update_expand. destruct (_ =? _); [intros [= <- <-]; reflexivity|].
  destruct (nth_error pat (ex_pat d0)) as [x|]; [|discriminate].
  destruct (isParameterToken x); [|intros [= <- <-]; reflexivity].
  destruct (_ =? _); [intros [= <- <-]; reflexivity|].
  destruct (nth_error pat _) as [y|]; [|discriminate].
  intros [= <- <-]. reflexivity.
Qed.
Lemma expand_step_pos pat sub d t sub' d' : expand_step pat sub d t = Ok (sub', d') ->
  ex_pat d < List.length pat -> ex_pat d' <= List.length pat.
Proof.
  intros ES Li. pose proof (update_expand_pos pat) as UE.
  unfold expand_step in ES. destruct sub.
  - destruct (nth_error _ _); [|discriminate]. destruct (negb _); [discriminate|]. apply UE in ES. cbn in ES. lia.
  - destruct (nth_error pat (S (ex_pat d))) eqn:Q; [|discriminate].
    assert (S (ex_pat d) < List.length pat) by (apply nth_error_Some; congruence).
    destruct (_ && _); [apply UE in ES; cbn in ES; lia|].
    apply bind_Ok in ES as (a & _ & ES).
    repeat match type of ES with (if ?b then _ else _) = _ => destruct b end; try discriminate; injection ES as <- <-; cbn; lia.
  - destruct (nth_error _ _) as [[|]|]; try discriminate.
    + destruct (_ || _); [apply bind_Ok in ES as (a & _ & ES); apply UE in ES; cbn in ES; lia|].
      repeat match type of ES with (if ?b then _ else _) = _ => destruct b end; try discriminate; injection ES as <- <-; cbn; lia.
  - destruct (is_begin t); [apply bind_Ok in ES as (a & _ & ES); injection ES as <- <-; cbn; lia|].
    destruct (is_end t).
    + destruct (_ =? _)%Z.
      * destruct (nth_error _ _); [|discriminate]. apply UE in ES. cbn in ES. lia.
      * apply bind_Ok in ES as (a & _ & ES); injection ES as <- <-; cbn; lia.
    + apply bind_Ok in ES as (a & _ & ES); injection ES as <- <-; cbn; lia.
Qed.

Section Only.
  Variables (s : pstate) (fs : list frame) (ptr : nat * name) (m : macro).
  Hypothesis Ei : p_input s = [].
  Hypothesis DR : deref ptr (p_defs s) = Ok m.
  Hypothesis N9 : nparams (m_param m) <= 9.
  Variable below : list frame.
  Hypothesis FS : fs = FIdle :: below.
  Let pat := m_param m.

  (** [ts] has supplied the first [i] tokens of the parameter text *)
  Definition supplied (ts : list token) (i : nat) (done : list (list token)) : Prop :=
    List.length done = nparams (firstn i pat) /\
    forall ts' args', call (skipn i pat) ts' args' -> call pat (ts ++ ts') (done ++ args').

  Definition mid (ts : list token) (sub : ex_sub) (d : ex_data) : Prop :=
    exists ts1 done i p, supplied ts1 i done /\ nth_error pat i = Some p /\
      ex_def d = ptr /\ ex_pat d = i /\ ex_arg d = List.length done /\
      match sub with
      | ExMatching => ts = ts1 /\ ~ is_param p /\ ex_args d = fill done
      | ExUndelimited => is_param p /\ param_next (skipn (S i) pat) /\
          (exists sp, ts = ts1 ++ sp /\ Forall space_tok sp) /\ ex_args d = fill done /\ ex_nesting d = 0%Z
      | ExBraced => is_param p /\ param_next (skipn (S i) pat) /\
          exists sp o b n, ts = ts1 ++ sp ++ o :: b /\ Forall space_tok sp /\ open_cat o /\
            walk is_begin is_end never 0 b = Some n /\ ex_nesting d = Z.of_nat n /\ ex_args d = slots done b
      | ExDelimited => is_param p /\
          exists del a n, nth_error pat (S i) = Some del /\ ~ is_param del /\ ts = ts1 ++ a /\
            walk opench closech (fun t => token_eqb t del) 0 a = Some n /\
            ex_nesting d = Z.of_nat n /\ ex_args d = slots done a
      end.

  Lemma skipn_nth {A} (l : list A) i x : nth_error l i = Some x -> skipn i l = x :: skipn (S i) l.
  Proof.
    revert i; induction l as [|y l IH]; intros [|i] H; cbn in H; try discriminate.
    - injection H as ->. reflexivity.
    - cbn [skipn]. exact (IH i H).
  Qed.
  Lemma skipn_all_nil {A} (l : list A) : skipn (List.length l) l = [].
  Proof. apply skipn_all. Qed.

  (** after an element of the parameter text *)
  Definition arrived (ts : list token) (r : result (ex_sub * ex_data)) : Prop :=
    match r with
    | Ok (sub, d) => ex_def d = ptr /\
        (ex_pat d < List.length pat -> mid ts sub d) /\
        (ex_pat d = List.length pat -> exists args, call pat ts args /\ List.length args <= 9 /\ ex_args d = fill args)
    | Throw => True
    | _ => False
    end.
  Lemma arrive ts sub0 i n done : i <= List.length pat -> supplied ts i done ->
    arrived ts (update_expand pat sub0 (mkEx ptr i (List.length done) n (fill done))).
  Proof.
    intros L S.
    destruct (update_expand_at ptr pat sub0 i (List.length done) n (fill done) L) as (sub & d & -> & A).
    destruct A as [Ed As]. cbn.
    split; [rewrite Ed; reflexivity|].
    replace (ex_pat d) with i by (rewrite Ed; reflexivity).
    split.
    - intros Li. destruct (nth_error pat i) as [p|] eqn:Ep; [|apply nth_error_None in Ep; lia].
      destruct (As p eq_refl) as [A1 A2].
      exists ts, done, i, p. split; [exact S|]. split; [exact Ep|].
      split; [rewrite Ed; reflexivity|]. split; [rewrite Ed; reflexivity|]. split; [rewrite Ed; reflexivity|].
      assert (Ea : ex_args d = fill done) by (rewrite Ed; reflexivity).
      destruct (isParameterToken p) eqn:P.
      + apply is_param_spec in P. destruct (A2 P) as [Z A3].
        assert (D8 : List.length done <= 8).
        { destruct S as [-> _]. apply is_param_spec in P.
          pose proof (nparams_firstn pat (Datatypes.S i)) as H.
          rewrite (firstn_S_nth _ _ _ Ep), nparams_app in H. unfold nparams at 2 in H. cbn in H. rewrite P in H. cbn in H.
          unfold pat in *. lia. }
        destruct (nth_error pat (Datatypes.S i)) as [q|] eqn:Eq.
        * destruct (isParameterToken q) eqn:Q.
          -- apply is_param_spec in Q. destruct A3 as [A3 _]. rewrite (A3 Q). split; [exact P|].
             split; [now rewrite (skipn_nth _ _ _ Eq)|].
             split; [exists []; rewrite app_nil_r; auto|auto].
          -- apply not_param_spec in Q. destruct A3 as [_ A3]. rewrite (A3 Q). split; [exact P|].
             exists q, [], 0. rewrite app_nil_r. repeat split; auto. rewrite Ea. now apply fill_slots.
        * rewrite A3. split; [exact P|]. apply nth_error_None in Eq.
          replace (Datatypes.S i) with (List.length pat) by lia. rewrite skipn_all. split; [exact I|].
          split; [exists []; rewrite app_nil_r; auto|auto].
      + apply not_param_spec in P. rewrite (A1 P). auto.
    - intros ->. destruct S as [S1 S2]. rewrite firstn_all in S1. rewrite skipn_all in S2.
      exists done. specialize (S2 [] [] call_nil). rewrite !app_nil_r in S2. split; [exact S2|].
      split; [unfold pat in *; lia|rewrite Ed; reflexivity].
  Qed.

  Lemma step_only ts sub d t : mid ts sub d -> match expand_step pat sub d t with
    | Ok (sub', d') => arrived (ts ++ [t]) (Ok (sub', d'))
    | Throw => True
    | _ => False
    end.
  Proof.
    intros (ts1 & done & i & p & S & Ep & Ed & Epat & Earg & X).
    destruct d as [ptr' i' k n a]. cbn [ex_pat ex_def ex_arg ex_args ex_nesting] in *. subst ptr' i' k.
    assert (Li : i < List.length pat) by (apply nth_error_Some; congruence).
    assert (NS : nparams (firstn (Datatypes.S i) pat) = List.length done + if isParameterToken p then 1 else 0).
    { rewrite (firstn_S_nth _ _ _ Ep), nparams_app. destruct S as [-> _]. f_equal. unfold nparams. cbn. now destruct (isParameterToken p). }
    assert (D8 : is_param p -> List.length done <= 8).
    { intros P. apply is_param_spec in P. rewrite P in NS. pose proof (nparams_firstn pat (Datatypes.S i)). unfold pat in *. lia. }
    assert (conv : forall r, arrived (ts ++ [t]) r ->
      match r with Ok (sub', d') => arrived (ts ++ [t]) (Ok (sub', d')) | Throw => True | _ => False end).
    { intros [[? ?]| | | |]; auto. }
    (* staying inside the element *)
    assert (stay : forall sub' n' a', mid (ts ++ [t]) sub' (mkEx ptr i (List.length done) n' a') ->
      arrived (ts ++ [t]) (Ok (sub', mkEx ptr i (List.length done) n' a'))).
    { intros sub' n' a' H. split; [reflexivity|]. cbn [ex_pat]. split; [auto|lia]. }
    (* an undelimited argument is complete *)
    assert (undel : forall sp w arg sub0 n', is_param p -> param_next (skipn (Datatypes.S i) pat) ->
      ts ++ [t] = ts1 ++ sp ++ w -> Forall space_tok sp -> undelimited w arg ->
      arrived (ts ++ [t]) (update_expand pat sub0 (mkEx ptr (Datatypes.S i) (Datatypes.S (List.length done)) n' (slots done arg)))).
    { intros sp w arg sub0 n' P PN E F U.
      replace (Datatypes.S (List.length done)) with (List.length (done ++ [arg])) by (rewrite app_length; cbn; lia).
      rewrite slots_fill. apply arrive; [lia|]. split.
      - rewrite app_length, NS. apply is_param_spec in P. now rewrite P.
      - intros ts' args' C. rewrite E, <- !app_assoc. apply S. rewrite (skipn_nth _ _ _ Ep).
        destruct P as [z ->]. rewrite (app_assoc sp w). apply call_undelimited; [exact PN| |exact C].
        now apply undelimited_spaces. }
    destruct sub; unfold expand_step; cbn [ex_pat ex_def ex_arg ex_args ex_nesting].
    - (* matching *)
      destruct X as (-> & NP & ->). rewrite Ep. destruct (token_eqb_spec t p) as [->|]; [|exact I].
      cbn [negb]. apply conv. unfold with_pat; cbn [ex_pat ex_def ex_arg ex_args ex_nesting].
      apply arrive; [lia|]. split.
      + apply not_param_spec in NP. rewrite NP in NS. unfold pat in *. lia.
      + intros ts' args' C. rewrite <- app_assoc. apply S. rewrite (skipn_nth _ _ _ Ep). now apply call_lit.
    - (* delimited *)
      destruct X as (P & del & w & n0 & Ed & Nd & -> & W & -> & ->). rewrite Ed.
      destruct (token_eqb t del && (Z.of_nat n0 =? 0)%Z) eqn:Q.
      + apply andb_prop in Q as [Q1 Q2]. destruct (token_eqb_spec t del) as [->|]; [|discriminate].
        assert (n0 = 0) by lia. subst n0. clear Q1 Q2. apply conv. unfold with_pat, next_arg; cbn [ex_pat ex_def ex_arg ex_args ex_nesting].
        replace (Datatypes.S (List.length done)) with (List.length (done ++ [w])) by (rewrite app_length; cbn; lia).
        rewrite slots_fill. apply arrive; [apply nth_error_Some; congruence|]. split.
        * rewrite (firstn_S_nth _ _ _ Ed), nparams_app, NS, app_length. unfold nparams. cbn.
          apply is_param_spec in P. apply not_param_spec in Nd. rewrite P, Nd. cbn. lia.
        * intros ts' args' C. rewrite <- !app_assoc. apply S. rewrite (skipn_nth _ _ _ Ep), (skipn_nth _ _ _ Ed).
          destruct P as [z ->]. apply call_delimited; [exact Nd|now apply walk_delimited|exact C].
      + rewrite push_slots. cbn [bind].
        assert (W1 : token_eqb t del && (n0 =? 0) = false).
        { rewrite <- Q. f_equal. destruct (Nat.eqb_spec n0 0), (Z.eqb_spec (Z.of_nat n0) 0); lia || reflexivity. }
        assert (G : forall n', walk opench closech (fun t => token_eqb t del) 0 (w ++ [t]) = Some n' ->
          arrived ((ts1 ++ w) ++ [t]) (Ok (ExDelimited, mkEx ptr i (List.length done) (Z.of_nat n') (slots done (w ++ [t]))))).
        { intros n' W'. apply stay. exists ts1, done, i, p. do 5 (split; [auto|]). split; [exact P|].
          exists del, (w ++ [t]), n'. rewrite app_assoc. auto 10. }
        assert (WA : walk opench closech (fun t => token_eqb t del) 0 (w ++ [t]) =
          if opench t then Some (Datatypes.S n0) else if closech t then match n0 with O => None | Datatypes.S k => Some k end else Some n0).
        { rewrite walk_app, W. cbn [walk]. rewrite W1. destruct (opench t); [reflexivity|]. destruct (closech t); [|reflexivity]. now destruct n0. }
        unfold opench, closech in WA.
        destruct (is_value t "{"%char).
        { cbv iota beta. unfold with_nesting, with_args; cbn [ex_pat ex_def ex_arg ex_args ex_nesting].
          replace (Z.of_nat n0 + 1)%Z with (Z.of_nat (Datatypes.S n0)) by lia. now apply G. }
        destruct (is_value t "}"%char); [|cbv iota beta; unfold with_nesting, with_args; cbn [ex_pat ex_def ex_arg ex_args ex_nesting]; now apply G].
        destruct n0 as [|n0]; [exact I|].
        destruct (Z.eqb_spec (Z.of_nat (Datatypes.S n0)) 0); [lia|].
        cbv iota beta. unfold with_nesting, with_args; cbn [ex_pat ex_def ex_arg ex_args ex_nesting].
        replace (Z.of_nat (Datatypes.S n0) - 1)%Z with (Z.of_nat n0) by lia. now apply G.
    - (* undelimited *)
      destruct X as (P & PN & (sp & -> & F) & -> & ->).
      rewrite (fill_slots _ (D8 P)), nth_slots.
      destruct (isControlSequence t || negb (is_begin t) && negb (is_spacetok t)) eqn:Q.
      + rewrite push_slots. cbn [bind]. apply conv.
        apply (undel sp [t] [t]); auto; [now rewrite <- app_assoc|].
        apply ud_token.
        * intros [c ->]. discriminate.
        * intros [c ->]. discriminate.
      + apply orb_false_elim in Q as [_ Q].
        destruct (is_begin t) eqn:B.
        * cbv iota beta; unfold with_nesting, with_args; cbn [ex_pat ex_def ex_arg ex_args ex_nesting]; apply stay. apply open_cat_spec in B. exists ts1, done, i, p. do 5 (split; [auto|]).
          split; [exact P|]. split; [exact PN|].
          exists sp, t, [], 0. repeat split; auto. now rewrite <- app_assoc.
        * cbv iota beta; unfold with_nesting, with_args; cbn [ex_pat ex_def ex_arg ex_args ex_nesting]; apply stay. cbn in Q. apply negb_false_iff, space_tok_spec in Q. exists ts1, done, i, p. do 5 (split; [auto|]).
          split; [exact P|]. split; [exact PN|]. split; [|rewrite (fill_slots _ (D8 P)); auto].
          exists (sp ++ [t]). split; [now rewrite app_assoc|]. apply Forall_app; auto.
    - (* braced *)
      destruct X as (P & PN & sp & o & b & n0 & -> & F & O & W & -> & ->).
      assert (G : forall n', walk is_begin is_end never 0 (b ++ [t]) = Some n' ->
        arrived ((ts1 ++ sp ++ o :: b) ++ [t]) (Ok (ExBraced, mkEx ptr i (List.length done) (Z.of_nat n') (slots done (b ++ [t]))))).
      { intros n' W'. apply stay. exists ts1, done, i, p. do 5 (split; [auto|]). split; [exact P|]. split; [exact PN|].
        exists sp, o, (b ++ [t]), n'. repeat split; auto. now rewrite <- !app_assoc. }
      assert (WA : walk is_begin is_end never 0 (b ++ [t]) =
        if is_begin t then Some (Datatypes.S n0) else if is_end t then match n0 with O => None | Datatypes.S k => Some k end else Some n0).
      { rewrite walk_app, W. cbn [walk never andb]. destruct (is_begin t); [reflexivity|]. destruct (is_end t); [|reflexivity]. now destruct n0. }
      destruct (is_begin t).
      { rewrite push_slots. cbn [bind]. cbv iota beta. unfold with_nesting, with_args; cbn [ex_pat ex_def ex_arg ex_args ex_nesting].
        replace (Z.of_nat n0 + 1)%Z with (Z.of_nat (Datatypes.S n0)) by lia. now apply G. }
      destruct (is_end t) eqn:En.
      + destruct n0 as [|n0].
        * cbn [Z.of_nat Z.eqb]. rewrite nth_slots. apply conv.
          apply (undel sp (o :: b ++ [t]) b); auto; [now rewrite <- !app_assoc|].
          apply ud_group; [exact O|now apply close_cat_spec|].
          eapply walk_balanced; [| |exact W]; intros; [symmetry; apply open_cat_spec|symmetry; apply close_cat_spec].
        * destruct (Z.eqb_spec (Z.of_nat (Datatypes.S n0)) 0); [lia|]. rewrite push_slots. cbn [bind].
          cbv iota beta. unfold with_nesting, with_args; cbn [ex_pat ex_def ex_arg ex_args ex_nesting].
          replace (Z.of_nat (Datatypes.S n0) - 1)%Z with (Z.of_nat n0) by lia. now apply G.
      + rewrite push_slots. cbn [bind]. cbv iota beta; unfold with_nesting, with_args; cbn [ex_pat ex_def ex_arg ex_args ex_nesting]. now apply G.
  Qed.

  (** until the call is complete *)
  Lemma run_only ts : forall ts0 sub d s', mid ts0 sub d ->
    pwrites (expanding s fs sub d) ts = Ok s' ->
    (forall p q s1, ts = p ++ q -> q <> [] -> pwrites (expanding s fs sub d) p = Ok s1 -> ~ idle s1) ->
    (exists sub1 d1, s' = expanding s fs sub1 d1 /\ mid (ts0 ++ ts) sub1 d1) \/
    exists args e, call pat (ts0 ++ ts) args /\ List.length args <= 9 /\ macro_expand m (fill args) = Ok e /\
      s' = set_frames (set_input s e) fs.
  Proof.
    assert (SI : forall e, settle (set_frames (set_input s e) fs) = Ok (set_frames (set_input s e) fs)).
    { intros e. unfold settle. rewrite FS. reflexivity. }
    induction ts as [|t ts IH]; intros ts0 sub d s' M W H.
    - left. injection W as <-. rewrite app_nil_r. eauto.
    - unfold pwrites in W. cbn [foldM] in W. apply bind_Ok in W as (s1 & W1 & W).
      assert (PW : pwrite (expanding s fs sub d) t = process (expanding s fs sub d) t).
      { unfold pwrite. change (p_input (expanding s fs sub d)) with (p_input s). now rewrite Ei. }
      rewrite PW in W1. assert (Ed : ex_def d = ptr) by (destruct M as (? & ? & ? & ? & M); tauto).
      rewrite (process_expanding s fs ptr m DR sub d t Ed) in W1.
      pose proof (step_only ts0 sub d t M) as X. unfold pat in X.
      destruct (expand_step (m_param m) sub d t) as [[sub' d']| | | |] eqn:ES; try discriminate.
      cbn [bind snd fst] in W1. destruct X as (Ed' & X1 & X2).
      destruct (Nat.eqb_spec (ex_pat d') (List.length (m_param m))) as [E|E].
      + destruct (X2 E) as (args & C & L & Ea).
        apply bind_Ok in W1 as (e & Ex & W1). rewrite Ea in Ex.
        destruct ts as [|t2 ts].
        * injection W as <-. right. exists args, e. split; [exact C|]. split; [exact L|]. split; [exact Ex|].
          erewrite leave_settle in W1 by reflexivity. rewrite Ei, app_nil_r in W1.
          change (settle (set_frames (set_input s e) fs) = Ok s1) in W1. rewrite SI in W1. now injection W1 as <-.
        * exfalso. apply (H [t] (t2 :: ts) s1 eq_refl ltac:(discriminate)).
          { unfold pwrites. cbn [foldM]. rewrite PW, (process_expanding s fs ptr m DR sub d t Ed), ES. cbn [bind snd fst].
            destruct (Nat.eqb_spec (ex_pat d') (List.length (m_param m))); [|contradiction].
            rewrite Ea, Ex. cbn [bind]. now rewrite W1. }
          erewrite leave_settle in W1 by reflexivity. rewrite Ei, app_nil_r in W1.
          change (settle (set_frames (set_input s e) fs) = Ok s1) in W1. rewrite SI in W1. injection W1 as <-.
          exists below. exact FS.
      + injection W1 as <-.
        assert (L' : ex_pat d' < List.length (m_param m)).
        { destruct M as (ts1 & done & i & p & _ & Ep & _ & Epat & _). apply expand_step_pos in ES; [lia|].
          rewrite Epat. apply nth_error_Some. unfold pat in *. congruence. }
        destruct (IH (ts0 ++ [t]) sub' d' s' (X1 L') W) as [R|R].
        * intros p q s1 -> Hq Hp. apply (H (t :: p) q s1 eq_refl Hq).
          unfold pwrites. cbn [foldM]. rewrite PW, (process_expanding s fs ptr m DR sub d t Ed), ES. cbn [bind snd fst].
          destruct (Nat.eqb_spec (ex_pat d') (List.length (m_param m))); [contradiction|exact Hp].
        * left. destruct R as (sub1 & d1 & R1 & R2). exists sub1, d1. split; [exact R1|].
          rewrite <- app_assoc in R2. exact R2.
        * right. destruct R as (args & e & R1 & R2). exists args, e. rewrite <- app_assoc in R1. auto.
  Qed.
End Only.

Lemma args_at_fill args k a : List.length args <= 9 -> args_at (fill args) k = Ok a ->
  exists i, (i < 9)%nat /\ k = Z.of_nat i /\ a = nth i args [].
Proof.
  intros L H. unfold args_at in H. destruct (Z.ltb_spec k 0); [discriminate|].
  destruct (nth_error (fill args) (Z.to_nat k)) as [b|] eqn:E; [|discriminate]. injection H as <-.
  assert (Z.to_nat k < 9).
  { assert (Z.to_nat k < List.length (fill args)) by (apply nth_error_Some; congruence).
    unfold fill in H. rewrite app_length, repeat_length in H. lia. }
  rewrite nth_fill in E by assumption. injection E as <-.
  exists (Z.to_nat k). repeat split; [assumption|lia].
Qed.
Lemma expand_instance args body : forall r, List.length args <= 9 ->
  expand_list (fill args) body = Ok r -> instance args body r.
Proof.
  induction body as [|t l IH]; intros r L H; cbn [expand_list] in H.
  - injection H as <-. constructor.
  - destruct t as [c k|n|n].
    + apply bind_Ok in H as (r' & H1 & H2). injection H2 as <-. apply in_tok; [intros [z [=]]|auto].
    + apply bind_Ok in H as (r' & H1 & H2). injection H2 as <-. apply in_tok; [intros [z [=]]|auto].
    + apply bind_Ok in H as (a & H1 & H). apply bind_Ok in H as (r' & H2 & H3). injection H3 as <-.
      apply args_at_fill in H1 as (i & Hi & E & ->); [|exact L].
      replace n with (Z.of_nat i + 1)%Z by lia. apply in_param; auto.
Qed.

Lemma only_lemma s n m ts s' : reachable s -> idle s -> p_input s = [] -> ~ primitive n ->
  find s n = Some m -> nparams (m_param m) <= 9 ->
  pwrites s (TCs n :: ts) = Ok s' -> idle s' ->
  (forall p q s1, ts = p ++ q -> q <> [] -> pwrites s (TCs n :: p) = Ok s1 -> ~ idle s1) ->
  exists args r, call (m_param m) ts args /\ List.length args <= 9 /\ instance args (m_repl m) r /\
    s' = set_input s r.
Proof.
  intros R [below Ef] Ei NP F N9 W [below' Ef'] H.
  apply not_primitive in NP as (N1 & N2 & N3 & N4).
  unfold find in F. destruct (find_ptr n (p_defs s)) as [[id m']|] eqn:FP; [|discriminate].
  cbn in F. injection F as ->.
  destruct (reachable_ids s R) as [ND _].
  pose proof (find_deref _ _ _ _ ND FP) as DR.
  assert (P : pwrite s (TCs n) = match m_param m with
    | [] => do e <- macro_expand m no_args; Ok (set_input s (e ++ p_input s))
    | _ => do x <- update_expand (m_param m) ExMatching (mkEx (id, n) 0 0 0 no_args);
           Ok (enter s (FExpanding (fst x) (snd x)))
    end).
  { unfold pwrite. rewrite Ei. unfold process. rewrite Ef. unfold processControlSeq. rewrite N1, N2, N3, N4, FP, Ei. reflexivity. }
  unfold pwrites in W. cbn [foldM] in W. apply bind_Ok in W as (s1 & W1 & W). rewrite P in W1.
  destruct (m_param m) as [|p0 pat0] eqn:Hp.
  - apply bind_Ok in W1 as (e & Ex & W1). injection W1 as <-.
    destruct ts as [|t ts].
    + injection W as <-. exists [], e. rewrite Ei, app_nil_r. repeat split; [constructor|cbn; lia|].
      apply expand_instance; [cbn; lia|exact Ex].
    + exfalso. apply (H [] (t :: ts) (set_input s (e ++ p_input s)) eq_refl); [discriminate| |exists below; exact Ef].
      unfold pwrites. cbn [foldM]. rewrite P, Ex. reflexivity.
  - rewrite <- Hp in *.
    destruct (update_expand_at (id, n) (m_param m) ExMatching 0 0 0 no_args) as (sub & d & U & A); [lia|].
    rewrite U in W1. cbn [bind fst snd] in W1. injection W1 as <-.
    change (enter s (FExpanding sub d)) with (expanding s (p_frames s) sub d) in W.
    assert (M0 : mid (id, n) m [] sub d).
    { pose proof (arrive (id, n) m N9 [] ExMatching 0 0 []) as AR. cbn [List.length] in AR.
      change (fill []) with no_args in AR. rewrite U in AR.
      destruct AR as (_ & AR & _); [lia|split; [reflexivity|intros; assumption]|].
      apply AR. rewrite (at_d _ _ _ _ _ _ _ A). cbn [ex_pat]. rewrite Hp. cbn; lia. }
    destruct (run_only s (p_frames s) (id, n) m Ei DR N9 below Ef ts [] sub d s' M0 W) as [X|X].
    + intros p q s1 E Hq Hp'. apply (H p q s1 E Hq). unfold pwrites. cbn [foldM]. rewrite P.
      rewrite Hp in *. rewrite U. cbn [bind fst snd]. exact Hp'.
    + destruct X as (sub1 & d1 & -> & _). discriminate.
    + destruct X as (args & e & C & L & Ex & ->). exists args, e.
      split; [exact C|]. split; [exact L|]. split; [now apply expand_instance|].
      now rewrite <- (set_frames_id (set_input s e)) at 1.
Qed.
