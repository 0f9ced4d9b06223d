(** The typesetting machine comes to an end unless macros are expanded
    again and again. *)
From Coq Require Import List Ascii String ZArith Bool Arith Lia.
From Verif.Base Require Import Result Num.
From Verif.Model Require Import Unicode Token Lexer Macro Dimen DimenParser Glue Box
  ListBuilders LineBreaks MathList MathParser MathTypeset MathFrontend PageEditor PageWindow Preprocessor.
From Verif.Spec Require Import PageEditorSpec PageEndsSpec.
From Verif.Proofs Require Import LexerProofs MacroExpand PageMachine PageRun PageDeliver PageWindow.
Import ListNotations.
Local Open Scope nat_scope.

Lemma ok_inj {A} (x y : A) : Ok x = Ok y -> x = y.
Proof. now intros [=]. Qed.

Lemma name_eqb_eq a b : name_eqb a b = true -> a = b.
Proof. destruct (name_eqb_spec a b); [auto|discriminate]. Qed.

(** ** What a token makes of the text that remains *)
Definition weight (f : frame) : nat :=
  match f with
  | FIdle | FReading _ _ | FExpanding _ _ => 0
  | FBranching d => 1 + List.length (br_branch d)
  | FForming _ | FAfterReading | FAfterInserting _ => 1
  | FAfterExpanding _ => 2
  end.
Fixpoint weights (l : list frame) : nat := match l with [] => 0 | f :: r => weight f + weights r end.
Definition load (p : pstate) : nat := weights (p_frames p) + List.length (p_input p).

Lemma leave_frames_load b : forall i x, leave_frames b i = Ok x ->
  weights (fst x) + List.length (snd x) = weights b + List.length i.
Proof.
  induction b as [|f b IH]; intros i x H; [discriminate|].
  destruct f; cbn [leave_frames] in H; try (apply ok_inj in H; subst x; reflexivity).
  apply IH in H. cbn in *. lia.
Qed.
Lemma leave_load p p' : leave p = Ok p' ->
  load p' = weights (tl (p_frames p)) + List.length (p_input p).
Proof.
  unfold leave. destruct (p_frames p) as [|f b]; [discriminate|]. intros H. inv_bind H. apply ok_inj in H. subst p'.
  apply leave_frames_load in E. exact E.
Qed.

(** the macro called, if the token calls one *)
Definition empties (p : pstate) (t : token) (p' : pstate) : Prop :=
  match p_frames p with
  | (FIdle | FAfterExpanding _) :: _ => exists n m, t = TCs n /\ find p n = Some m /\ m_param m = []
  | FExpanding _ _ :: _ => List.length (p_frames p') < List.length (p_frames p)
  | _ => False
  end.

Definition lighter (p p' : pstate) (c : nat) : Prop :=
  load p' <= load p + c /\ (load p' < load p + c \/ List.length (p_input p') <= List.length (p_input p)).

Lemma controlSeq_load p n p' : processControlSeq p n = Ok p' ->
  ~ (exists m, find p n = Some m /\ m_param m = []) -> 
  load p' <= load p + 1 /\ p_input p' = p_input p.
Proof.
  intros H NE. unfold processControlSeq in H.
  repeat match type of H with
  | (if ?b then _ else _) = _ => destruct b; [apply ok_inj in H; subst p'; unfold load; cbn; split; [lia|reflexivity]|]
  end.
  unfold find in NE. destruct (find_ptr n (p_defs p)) as [[id m]|]; cbn in NE.
  - destruct (m_param m) eqn:EP; [contradict NE; eauto|]. inv_bind H. apply ok_inj in H. subst p'. unfold load. cbn. split; [lia|reflexivity].
  - apply ok_inj in H. subst p'. unfold load; cbn; split; [lia|reflexivity].
Qed.

Lemma process_load p t p' : process p t = Ok p' -> ~ empties p t p' -> lighter p p' 1.
Proof.
  unfold process, empties, lighter. destruct (p_frames p) as [|f fs] eqn:EF; [discriminate|]. intros H NE.
  assert (LD : load p = weight f + weights fs + List.length (p_input p)) by (unfold load; rewrite EF; reflexivity).
  assert (TOP : forall f', load (set_top p f') = weight f' + weights fs + List.length (p_input p)).
  { intros f'. unfold load, set_top. cbn. rewrite EF. reflexivity. }
  assert (LV : forall q, p_frames q = f :: fs -> forall q', leave q = Ok q' -> load q' = weights fs + List.length (p_input q)).
  { intros q Q q' L. apply leave_load in L. now rewrite Q in L. }
  destruct f.
  - destruct t; try discriminate.
    + apply ok_inj in H. subst p'. unfold load in *; cbn in *. lia.
    + apply controlSeq_load in H as [A B].
      * rewrite B. lia.
      * intros (m & X). apply NE. eauto.
  - (* FReading *)
    cbn [weight] in LD. unfold readMacro in H. destruct s.
    + destruct t; try discriminate. apply ok_inj in H. subst p'. rewrite TOP. cbn in *. lia.
    + destruct (is_value t "{"%char); [apply ok_inj in H; subst p'; rewrite TOP; cbn in *; lia|].
      destruct t; try (apply ok_inj in H; subst p'; rewrite TOP; cbn in *; lia).
      destruct (negb _); [discriminate|]. apply ok_inj in H; subst p'; rewrite TOP; cbn in *; lia.
    + destruct (is_value t "{"%char); [apply ok_inj in H; subst p'; rewrite TOP; cbn in *; lia|].
      destruct (is_value t "}"%char); [|apply ok_inj in H; subst p'; rewrite TOP; cbn in *; lia].
      destruct (rm_nesting d =? 0)%Z; [|apply ok_inj in H; subst p'; rewrite TOP; cbn in *; lia].
      apply bind_Ok in H as (s1 & D & H). unfold define in D. destruct (p_defs p); [discriminate|].
      apply ok_inj in D. subst s1. apply LV in H; [|exact EF]. cbn in H. lia.
  - (* FExpanding *)
    cbn [weight] in LD. unfold expandMacro in H. apply bind_Ok in H as (m & _ & H). apply bind_Ok in H as ([sub' d'] & _ & H).
    destruct (_ =? _)%nat; [|apply ok_inj in H; subst p'; rewrite TOP; cbn in *; lia].
    exfalso. apply NE. apply bind_Ok in H as (e & _ & H). unfold leave in H. cbn [p_frames set_input] in H. rewrite EF in H.
    inv_bind H. apply ok_inj in H. subst p'. cbn [p_frames set_frames].
    clear - E. set (i := p_input _) in E. clearbody i. revert i E.
    induction fs as [|f fs IH]; intros i E; [discriminate|].
    destruct f; cbn [leave_frames] in E; try (apply ok_inj in E; subst x; cbn; lia).
    apply IH in E. cbn in *. lia.
  - (* FBranching *)
    cbn [weight] in LD. unfold branch in H.
    assert (KEEP : forall n b, p' = set_top p (FBranching (mkBr (br_success d) b n
         (if Bool.eqb (br_success d) (br_inside_if d) then br_branch d ++ [t] else br_branch d))) ->
         load p' <= load p + 1 /\ (load p' < load p + 1 \/ List.length (p_input p') <= List.length (p_input p))).
    { intros n b ->. rewrite TOP. cbn [weight br_branch set_top p_input set_frames].
      destruct (Bool.eqb _ _); rewrite ?app_length; cbn [List.length]; lia. }
    destruct (is_if t); [apply ok_inj in H; symmetry in H; exact (KEEP _ _ H)|].
    destruct (is_else t).
    { destruct (_ =? _)%nat; apply ok_inj in H; symmetry in H; [|exact (KEEP _ _ H)]. subst p'. rewrite TOP. cbn. lia. }
    destruct (is_fi t); [|apply ok_inj in H; symmetry in H; exact (KEEP _ _ H)].
    destruct (_ =? _)%nat; [|apply ok_inj in H; symmetry in H; exact (KEEP _ _ H)].
    apply LV in H; [|exact EF]. cbn in H. rewrite app_length in H. lia.
  - (* FForming *)
    cbn [weight] in LD. unfold formCs in H. destruct t; try discriminate.
    + apply ok_inj in H; subst p'; rewrite TOP; cbn in *; lia.
    + destruct (name_eqb _ _); [|discriminate]. apply LV in H; [|exact EF]. cbn in H. lia.
  - destruct t; try discriminate. apply ok_inj in H; subst p'; rewrite TOP; cbn in *; lia.
  - (* FAfterExpanding *)
    cbn [weight] in LD. destruct t; try discriminate. unfold expandafter_expanding in H.
    apply bind_Ok in H as (s1 & P & H). apply controlSeq_load in P as [A B].
    2:{ intros (m & X). apply NE. exists n, m. split; [reflexivity|]. exact X. }
    rewrite TOP in A. cbn [weight set_top p_input set_frames] in A, B.
    destruct (_ =? _)%nat.
    + apply leave_load in H. cbn [enter set_frames p_frames tl p_input] in H. unfold load in A. lia.
    + apply ok_inj in H. subst p'. rewrite B. lia.
  - apply ok_inj in H; subst p'; lia.
Qed.

(** ** The steps of the machine *)
Section Ends.
  Context {N : Num}.
  Variable K : host N.
  Notation machine := (machine N).

  Definition unread (s : machine) : nat := List.length (st_text (ms_in s)) - st_pos (ms_in s).
  Definition todo (s : machine) : nat := 3 * unread s + List.length (l_out (ms_lex s)) + load (ms_pre s).
  Definition waiting (s : machine) : nat := List.length (l_out (ms_lex s)) + List.length (p_input (ms_pre s)).
  Definition rank (st : mstate) : nat :=
    match st with Idle => 0 | ReadChar => 1 | ReadToken => 2 | Preprocess => 2 | SendToken => 4 | DigestToken => 3 end.
  Definition size (s : machine) : nat := todo s * todo s + waiting s.
  Definition left_to_do (s : machine) : nat :=
    match ms_state s with Idle => 0 | st => 5 * size s + rank st end.

  Lemma waiting_todo s : waiting s <= todo s.
  Proof. unfold waiting, todo, load. lia. Qed.
  Lemma size_drop s s' : todo s' < todo s \/ (todo s' = todo s /\ waiting s' < waiting s) -> size s' < size s.
  Proof.
    unfold size. pose proof (waiting_todo s'). intros [A|[A B]]; [|rewrite A; lia]. nia.
  Qed.
  Lemma size_same s s' : todo s' = todo s -> waiting s' = waiting s -> size s' = size s.
  Proof. unfold size. intros -> ->. reflexivity. Qed.

  Lemma step_left s s' : invariant s -> ms_state s <> Idle -> m_advance K s = Ok s' -> ~ expands K s ->
    left_to_do s' < left_to_do s.
  Proof.
    intros INV NI H NE. pose proof INV as (M & F & LEN & NT & NO & ST). pose proof H as H0. unfold m_advance in H.
    unfold left_to_do. destruct (ms_state s) eqn:ES; [congruence| | | | |].
    - (* ReadChar *)
      destruct (atEnd (ms_in s)) eqn:AE.
      + inv_bind H. apply ok_inj in H. subst s'. cbn. lia.
      + inv_bind H. cbn [ms_lex set_in] in H.
        destruct (ms_lex s) as [st b o] eqn:EL.
        destruct (write_few DefaultCatCodes st b o (fst x)) as (st1 & b1 & new & e & W & LN & _).
        rewrite W in H. destruct e; [discriminate|]. apply ok_inj in H. subst s'.
        assert (D : size (set_mstate (set_lex (set_in s (snd x)) (mkLexer st1 b1 (o ++ new)))
                     (match o ++ new with [] => ReadChar | _ => ReadToken end)) < size s).
        { apply size_drop. left. unfold todo, unread. cbn. rewrite EL. cbn. rewrite app_length.
          unfold atEnd in AE. apply Nat.eqb_neq in AE. unfold read in E.
          destruct (nth_error (st_text (ms_in s)) (st_pos (ms_in s))) as [c|] eqn:EC.
          - apply ok_inj in E. subst x. cbn. assert (st_pos (ms_in s) < List.length (st_text (ms_in s))).
            { apply nth_error_Some. congruence. }
            assert (List.length new <= 2) by (destruct st; lia). lia.
          - apply Nat.eqb_neq in AE. rewrite AE in E. discriminate. }
        cbn [l_out] in *. cbn [ms_state set_mstate].
        destruct (o ++ new); cbn [rank]; lia.
    - (* ReadToken *)
      destruct ST as (T & O & I).
      destruct (l_out (ms_lex s)) as [|t r] eqn:EO.
      + apply ok_inj in H. subst s'. cbn [ms_state set_mstate rank].
        rewrite (size_same s (set_mstate s ReadChar)) by reflexivity. lia.
      + inv_bind H. apply ok_inj in H. subst s'. cbn [ms_state set_mstate rank].
        cbn [ms_pre set_lex] in E. unfold pwrite in E. rewrite I in E.
        assert (L : lighter (ms_pre s) x 1).
        { apply process_load with (t := t); [exact E|]. intros X. apply NE. exists t. unfold next_token. rewrite ES, EO.
          split; [reflexivity|]. unfold empties in X. destruct (p_frames (ms_pre s)) as [|[] ?]; auto.
          eexists. split; [exact H0|]. exact X. }
        destruct L as [L1 L2]. rewrite I in L2. cbn [List.length] in L2.
        match goal with |- 5 * size ?s' + _ < _ => assert (D : size s' < size s) end.
        { apply size_drop. unfold todo, waiting, unread. cbn. rewrite EO, I. cbn [List.length]. lia. }
        lia.
    - (* Preprocess *)
      destruct ST as (T & O). inv_bind H. apply ok_inj in H. subst s'. unfold Preprocessor.advance in E.
      destruct (p_input (ms_pre s)) as [|t r] eqn:EI.
      + apply ok_inj in E. subst x. rewrite O, EI. cbn [ms_state set_mstate rank].
        match goal with |- 5 * size ?s' + _ < _ => rewrite (size_same s s') by reflexivity end. lia.
      + assert (L : lighter (set_input (ms_pre s) r) x 1).
        { apply process_load with (t := t); [exact E|]. intros X. apply NE. exists t. unfold next_token. rewrite ES, EI.
          split; [reflexivity|]. unfold empties in X. cbn [p_frames set_input] in X. destruct (p_frames (ms_pre s)) as [|[] ?]; auto.
          eexists. split; [exact H0|]. exact X. }
        destruct L as [L1 L2]. 
        match goal with |- context [set_mstate ?a ?b] => assert (D : size (set_mstate a b) < size s) end.
        { apply size_drop. unfold todo, waiting, unread. cbn [ms_in ms_lex ms_pre set_pre set_mstate].
          assert (load (ms_pre s) = load (set_input (ms_pre s) r) + 1) as -> by (unfold load; cbn; rewrite EI; cbn; lia).
          rewrite EI. cbn [List.length]. cbn [p_input set_input] in L2. lia. }
        cbn [ms_state set_mstate] in *. destruct (p_output x); [destruct (p_input x)|]; cbn [rank]; lia.
    - (* SendToken *)
      inv_bind H. apply ok_inj in H. subst s'. unfold sendToken in E. cbn [ms_state set_mstate rank].
      assert (X : todo x = todo s /\ waiting x = waiting s).
      { destruct (p_output (ms_pre s)) as [|t r] eqn:EO.
        + apply ok_inj in E. subst x. split; reflexivity.
        + inv_bind E. apply ok_inj in E. subst x. destruct x0 as [s1 o].
          apply as_write_spec in E0 as ((U1 & U2 & U3 & U4 & U5 & U6 & U7) & B & C). cbn in *.
          unfold todo, waiting, unread. cbn. rewrite U1, U2, U3. split; reflexivity. }
      destruct X as [X1 X2]. rewrite (size_same s (set_mstate x DigestToken)); [lia|exact X1|exact X2].
    - (* DigestToken *)
      destruct ST as (T & O). inv_bind H. apply ok_inj in H. subst s'. apply digest_ok in E as (A & B & C & D & G); auto.
      destruct A as (A1 & A2 & _).
      assert (X : todo x = todo s /\ waiting x = waiting s).
      { unfold todo, waiting, unread, load. rewrite A1, A2. destruct B as [[_ B]|? ? _ _ B|? ? _ _ B].
        - rewrite B. split; reflexivity.
        - rewrite B. split; reflexivity.
        - unfold endGroup in B. destruct (p_defs (ms_pre s)); [discriminate|]. apply ok_inj in B. rewrite <- B. split; reflexivity. }
      destruct X as [X1 X2]. cbn [ms_state set_mstate].
      match goal with |- context [set_mstate ?a ?b] => rewrite (size_same s (set_mstate a b) X1 X2) end.
      destruct (p_input (ms_pre x)); cbn [rank]; lia.
  Qed.

  Lemma run_left s tr u : run K s tr u -> invariant s -> steady_text K s tr ->
    ms_state u = Idle \/ List.length tr + left_to_do u <= left_to_do s.
  Proof.
    induction 1; intros I F; [right; cbn; lia|]. inversion F as [|? ? F1 F2]; subst.
    destruct (step_invariant K _ _ I H) as [I1 _].
    destruct (IHrun I1 F2) as [D|D]; [now left|].
    assert (ms_state s = Idle \/ ms_state s <> Idle) as [E|E] by (destruct (ms_state s); auto; right; discriminate).
    - left. assert (s1 = s) by (unfold m_advance in H; rewrite E in H; now apply ok_inj in H). subst s1.
      clear - E H0. induction H0; [exact E|]. apply IHrun. unfold m_advance in H. rewrite E in H. apply ok_inj in H. now subst.
    - right. pose proof (step_left _ _ I E H F1). cbn [List.length]. lia.
  Qed.
  Lemma left_zero (s : machine) : left_to_do s = 0 -> ms_state s = Idle.
  Proof. unfold left_to_do. destruct (ms_state s); cbn; try lia. reflexivity. Qed.

  Lemma ends_in s tr u : invariant s -> run K s tr u -> steady_text K s tr ->
    left_to_do s <= List.length tr -> ms_state u = Idle.
  Proof.
    intros I R F L. destruct (run_left _ _ _ R I F) as [D|D]; [exact D|]. apply left_zero. lia.
  Qed.

  (** ** A machine just made *)
  Definition format_defs : list scope :=
    match Preprocessor.advances 0 pinit with
    | Ok p => match (do macros <- format_parse pageeditor_format; foldM define macros p) with Ok p => p_defs p | _ => [] end
    | _ => []
    end.
  Lemma new_fields f h s : machine_new K f h = Ok s ->
    ms_state s = Idle /\ ms_lex s = lexer_init /\ p_input (ms_pre s) = [] /\ p_frames (ms_pre s) = [FIdle] /\
    p_defs (ms_pre s) = format_defs.
  Proof.
    unfold machine_new. intros H.
    assert (X : exists p, (do macros <- format_parse pageeditor_format; foldM define macros pinit) = Ok p /\
       p_input p = [] /\ p_frames p = [FIdle] /\ p_defs p = format_defs).
    { vm_compute. eexists. repeat split. }
    destruct X as (p & X & A & B & C).
    destruct (format_parse pageeditor_format) as [macros| | | |]; try discriminate X. cbn [bind] in X, H. rewrite X in H.
    cbn [bind] in H. apply ok_inj in H. subst s. cbn. auto.
  Qed.

  Lemma new_left f h s text : machine_new K f h = Ok s ->
    left_to_do (start s text) = 45 * List.length text * List.length text + 1.
  Proof.
    intros H. apply new_fields in H as (_ & A & B & C & _). unfold left_to_do, size, todo, waiting, unread, load.
    cbn [start ms_state set_mstate set_in ms_in ms_lex ms_pre st_text st_pos rank]. rewrite A, B, C. cbn [l_out lexer_init List.length weights weight].
    lia.
  Qed.

  Lemma new_ends f h s text tr u : machine_new K f h = Ok s -> run K (start s text) tr u ->
    steady_text K (start s text) tr -> 45 * List.length text * List.length text + 1 <= List.length tr ->
    ms_state u = Idle.
  Proof.
    intros H R F L. pose proof (new_fields _ _ _ H) as (I & _).
    apply (ends_in (start s text) tr u); auto; [|rewrite (new_left _ _ _ _ H); exact L].
    apply start_invariant; [|exact I]. exact (new_invariant K _ _ _ H).
  Qed.

  (** ** Runs without end *)
  Lemma endless_run r : endless K r -> forall n i, exists tr, run K (r i) tr (r (i + n)) /\ List.length tr = n /\
    forall v, In v (r i :: tr) -> exists j, i <= j <= i + n /\ v = r j.
  Proof.
    intros E. induction n as [|n IH]; intros i.
    - exists []. rewrite Nat.add_0_r. split; [constructor|]. split; [reflexivity|]. intros v [<-|[]]. exists i. split; [lia|reflexivity].
    - destruct (IH (Datatypes.S i)) as (tr & A & B & C). exists (r (Datatypes.S i) :: tr). destruct (E i) as [_ S1].
      rewrite Nat.add_succ_r. split; [econstructor; [exact S1|exact A]|]. split; [cbn; now rewrite B|].
      intros v [<-|V]; [exists i; split; [lia|reflexivity]|]. destruct (C v V) as (j & J & W). exists j. split; [lia|exact W].
  Qed.
  Lemma expands_dec (s : machine) : {expands K s} + {~ expands K s}.
  Proof.
    unfold expands. destruct (next_token s) as [t|]; [|right; intros (t & X & _); discriminate].
    destruct (p_frames (ms_pre s)) as [|f fs] eqn:EF; [right; intros (t' & _ & [])|].
    assert (CS : {exists n m, t = TCs n /\ find (ms_pre s) n = Some m /\ m_param m = []} +
                 {~ exists n m, t = TCs n /\ find (ms_pre s) n = Some m /\ m_param m = []}).
    { destruct t; try (right; intros (? & ? & ? & _); discriminate).
      destruct (find (ms_pre s) n) as [m|] eqn:F; [|right; intros (n' & m & [= <-] & X & _); congruence].
      destruct (m_param m) eqn:P; [left; eauto|]. right. intros (n' & m' & [= <-] & X & Y). congruence. }
    destruct f; try (right; intros (t' & _ & []); fail).
    - destruct CS as [C|C]; [left; eauto|]. right. intros (t' & [= <-] & X). auto.
    - destruct (m_advance K s) as [s'| | | |] eqn:A.
      2-5: right; intros (t' & _ & s' & X & _); discriminate.
      destruct (lt_dec (List.length (p_frames (ms_pre s'))) (List.length (FExpanding s0 d :: fs))) as [L|L]; [left; eauto|].
      right. intros (t' & _ & s2 & X & Y). apply ok_inj in X. subst s2. contradiction.
    - destruct CS as [C|C]; [left; eauto|]. right. intros (t' & [= <-] & X). auto.
  Defined.
  Lemma endless_expands r : reached K (r 0) -> endless K r -> forall i, exists j, i <= j /\ expands K (r j).
  Proof.
    intros R E i.
    assert (RE : forall k, reached K (r k)).
    { induction k as [|k IH]; [exact R|]. eapply rc_step; [exact IH|]. apply E. }
    pose proof (reached_invariant K _ (RE i)) as I.
    set (n := left_to_do (r i)).
    assert (X : (exists j, i <= j <= i + n /\ expands K (r j)) \/ (forall j, i <= j <= i + n -> ~ expands K (r j))).
    { clearbody n. induction n as [|n IH].
      - destruct (expands_dec (r i)) as [D|D]; [left; exists i; split; [lia|exact D]|]. right. intros j J. assert (j = i) as -> by lia. exact D.
      - destruct IH as [(j & J & D)|IH]; [left; exists j; split; [lia|exact D]|].
        destruct (expands_dec (r (i + Datatypes.S n))) as [D|D]; [left; eexists; split; [|exact D]; lia|].
        right. intros j J. assert (j = i + Datatypes.S n \/ i <= j <= i + n) as [->|J'] by lia; auto. }
    destruct X as [(j & J & D)|X]; [exists j; split; [lia|exact D]|]. exfalso.
    destruct (endless_run r E n i) as (tr & A & B & C). destruct (E (i + n)) as [NI _]. apply NI.
    apply (ends_in (r i) tr (r (i + n)) I A); [|rewrite B; apply le_n].
    apply Forall_forall. intros v V. destruct (C v V) as (j & J & ->). auto.
  Qed.

  (** ** Texts without the commands of the format *)
  Lemma feed_front ct s : forall st b t o, l_out (fst (feed ct (mkLexer st b (t :: o)) s)) = t :: l_out (fst (feed ct (mkLexer st b o) s)).
  Proof.
    induction s as [|c s IH]; intros st b t o; [reflexivity|]. cbn [feed].
    destruct (write_out_indep ct st b (t :: o) o c) as (st' & b' & ts & e & W1 & W2). rewrite W1, W2.
    destruct e; [reflexivity|]. apply IH.
  Qed.
  Lemma feed_keeps ct s l t : In t (l_out l) -> In t (l_out (fst (feed ct l s))).
  Proof.
    destruct (feed_prefix_lemma ct l [] s) as (more & M). cbn in M. rewrite M. intros X. apply in_or_app. now left.
  Qed.

  Definition plain_frame (f : frame) : Prop :=
    match f with
    | FIdle | FAfterReading => True
    | FBranching d => Forall plain_token (br_branch d)
    | FAfterExpanding t | FAfterInserting t => plain_token t
    | _ => False
    end.
  Definition format_scope (sc : scope) : Prop :=
    forall n, table_find n (sc_macros sc) <> None -> In n [str "begin"; str "end"].
  Definition plain_p (p : pstate) : Prop :=
    Forall plain_token (p_input p) /\ Forall plain_frame (p_frames p) /\ Forall format_scope (p_defs p).
  Definition plain_m (s : machine) : Prop :=
    Forall plain_token (l_out (fst (feed DefaultCatCodes (ms_lex s) (skipn (st_pos (ms_in s)) (st_text (ms_in s)))))) /\
    plain_p (ms_pre s).

  Lemma plain_find n d : Forall format_scope d -> plain_token (TCs n) -> find_ptr n d = None.
  Proof.
    intros F P. induction F as [|sc d F1 F2 IH]; [reflexivity|]. cbn [find_ptr].
    destruct (table_find n (sc_macros sc)) eqn:T; [|exact IH]. exfalso. apply (P n eq_refl).
    assert (X : In n [str "begin"; str "end"]) by (apply F1; congruence). cbn in *. tauto.
  Qed.
  Lemma plain_leave p p' : plain_p p -> leave p = Ok p' -> plain_p p'.
  Proof.
    intros (A & B & C) H. unfold leave in H. destruct (p_frames p) as [|f fs]; [discriminate|].
    inv_bind H. apply ok_inj in H. subst p'. inversion B as [|? ? _ B']; subst. unfold plain_p. cbn.
    assert (X : Forall plain_token (snd x) /\ Forall plain_frame (fst x)).
    { clear B C. revert A E. generalize (p_input p) as i. induction fs as [|g fs IH]; intros i A E; [discriminate|].
      inversion B' as [|? ? G1 G2]; subst.
      destruct g; cbn [leave_frames] in E; try (apply ok_inj in E; subst x; cbn; auto).
      apply (IH G2 (cs :: i)); [constructor; assumption|exact E]. }
    tauto.
  Qed.
  Lemma plain_controlSeq p n p' : plain_p p -> plain_token (TCs n) -> processControlSeq p n = Ok p' -> plain_p p'.
  Proof.
    intros PL P H. pose proof PL as (A & B & C). unfold processControlSeq in H.
    destruct (name_eqb n DEF) eqn:E1.
    { apply name_eqb_eq in E1. subst n. exfalso. apply (P _ eq_refl). cbn. tauto. }
    destruct (name_eqb n IFBR). { apply ok_inj in H. subst p'. unfold plain_p. cbn. repeat split; auto. constructor; cbn; auto. }
    destruct (name_eqb n CSNAME) eqn:E2.
    { apply name_eqb_eq in E2. subst n. exfalso. apply (P _ eq_refl). cbn. tauto. }
    destruct (name_eqb n EXPANDAFTER). { apply ok_inj in H. subst p'. unfold plain_p. cbn. repeat split; auto. constructor; cbn; auto. }
    rewrite (plain_find n _ C P) in H. apply ok_inj in H. subst p'. exact PL.
  Qed.
  Lemma plain_top p f : plain_p p -> plain_frame f -> plain_p (set_top p f).
  Proof.
    intros (A & B & C) F. unfold plain_p. cbn. repeat split; auto. constructor; [exact F|].
    destruct (p_frames p); [constructor|]. now inversion B.
  Qed.
  Lemma plain_process p t p' : plain_p p -> plain_token t -> process p t = Ok p' -> plain_p p'.
  Proof.
    intros PL P H. pose proof PL as (A & B & C). unfold process in H.
    destruct (p_frames p) as [|f fs] eqn:EF; [discriminate|]. inversion B as [|? ? F _]; subst.
    destruct f; try (destruct F; fail).
    - destruct t; try discriminate; [apply ok_inj in H; subst p'; exact PL|]. now apply (plain_controlSeq p n).
    - cbn in F. unfold branch in H.
      assert (KEEP : forall n b, plain_p (set_top p (FBranching (mkBr (br_success d) b n
         (if Bool.eqb (br_success d) (br_inside_if d) then br_branch d ++ [t] else br_branch d))))).
      { intros n b. apply plain_top; [exact PL|]. cbn. destruct (Bool.eqb _ _); [|exact F]. apply Forall_app. auto. }
      destruct (is_if t); [apply ok_inj in H; subst p'; apply KEEP|].
      destruct (is_else t).
      { destruct (_ =? _)%nat; apply ok_inj in H; subst p'; [|apply KEEP]. apply plain_top; [exact PL|exact F]. }
      destruct (is_fi t); [|apply ok_inj in H; subst p'; apply KEEP].
      destruct (_ =? _)%nat; [|apply ok_inj in H; subst p'; apply KEEP].
      apply plain_leave in H; [exact H|]. unfold plain_p. cbn. rewrite EF. repeat split; auto. apply Forall_app. auto.
    - destruct t; try discriminate. apply ok_inj in H. subst p'. apply plain_top; [exact PL|exact P].
    - destruct t; try discriminate. unfold expandafter_expanding in H. apply bind_Ok in H as (s1 & Q & H).
      apply plain_controlSeq in Q; [|apply plain_top; [exact PL|exact F]|exact P].
      destruct (_ =? _)%nat; [|apply ok_inj in H; subst p'; exact Q].
      apply plain_leave in H; [exact H|]. destruct Q as (Q1 & Q2 & Q3). unfold plain_p. cbn. repeat split; auto. constructor; cbn; auto.
    - apply ok_inj in H. subst p'. exact PL.
  Qed.

  Lemma skipn_read text pos c : nth_error text pos = Some c -> skipn pos text = c :: skipn (Datatypes.S pos) (text : list ascii).
  Proof.
    revert pos. induction text as [|x text IH]; intros [|pos] H; try discriminate; cbn in *; [now injection H as ->|]. now apply IH.
  Qed.

  Lemma plain_step s s' : invariant s -> ms_state s <> Idle -> m_advance K s = Ok s' -> plain_m s ->
    ms_state s' = Idle \/ plain_m s'.
  Proof.
    intros INV NI H PL. pose proof INV as (M & F & LEN & NT & NO & ST). unfold m_advance in H. destruct PL as [PT PP].
    destruct (ms_state s) eqn:ES; [congruence| | | | |].
    - destruct (atEnd (ms_in s)) eqn:AE.
      + inv_bind H. apply ok_inj in H. subst s'. left. reflexivity.
      + right. inv_bind H. cbn [ms_lex set_in] in H. unfold atEnd in AE. unfold read in E. rewrite AE in E.
        destruct (nth_error (st_text (ms_in s)) (st_pos (ms_in s))) as [c|] eqn:EC; [|discriminate].
        apply ok_inj in E. subst x. cbn [fst snd] in H. rewrite (skipn_read _ _ _ EC) in PT. cbn [feed] in PT.
        destruct (write DefaultCatCodes (ms_lex s) c) as [l [e|]]; [discriminate|]. apply ok_inj in H. subst s'.
        split; [exact PT|exact PP].
    - right. destruct ST as (T & O & I).
      destruct (l_out (ms_lex s)) as [|t r] eqn:EO.
      + apply ok_inj in H. subst s'. split; assumption.
      + inv_bind H. apply ok_inj in H. subst s'. cbn [ms_pre set_lex] in E. unfold pwrite in E. rewrite I in E.
        assert (EL : ms_lex s = mkLexer (l_state (ms_lex s)) (l_buf (ms_lex s)) (t :: r)) by (rewrite <- EO; now destruct (ms_lex s)).
        rewrite EL, feed_front in PT. inversion PT as [|? ? P1 P2]; subst. split; [exact P2|].
        exact (plain_process _ _ _ PP P1 E).
    - right. destruct ST as (T & O). inv_bind H. apply ok_inj in H. subst s'. split; [exact PT|]. cbn [ms_pre set_mstate set_pre].
      unfold Preprocessor.advance in E. destruct (p_input (ms_pre s)) as [|t r] eqn:EI; [apply ok_inj in E; now subst x|].
      destruct PP as (A & B & C). rewrite EI in A. inversion A; subst.
      apply plain_process in E; [exact E| |assumption]. unfold plain_p. cbn. auto.
    - right. inv_bind H. apply ok_inj in H. subst s'. unfold sendToken in E.
      destruct (p_output (ms_pre s)) as [|t r] eqn:EO.
      + apply ok_inj in E. subst x. split; assumption.
      + inv_bind E. apply ok_inj in E. subst x. destruct x0 as [s1 o].
        apply as_write_spec in E0 as ((U1 & U2 & U3 & U4 & U5 & U6 & U7) & B & C). cbn in *.
        unfold plain_m. cbn. rewrite U1, U2, U3. split; [exact PT|exact PP].
    - right. destruct ST as (T & O). inv_bind H. apply ok_inj in H. subst s'. apply digest_ok in E as (A & B & C & D & G); auto.
      destruct A as (A1 & A2 & _). unfold plain_m. cbn [ms_in ms_lex ms_pre set_mstate]. rewrite A1, A2. split; [exact PT|].
      destruct PP as (P1 & P2 & P3). unfold plain_p. destruct B as [[_ B]|? ? _ _ B|? ? _ _ B].
      + rewrite B. auto.
      + rewrite B. cbn. repeat split; auto. constructor; [|exact P3]. intros n X. now contradict X.
      + unfold endGroup in B. destruct (p_defs (ms_pre s)); [discriminate|]. apply ok_inj in B. rewrite <- B. cbn. inversion P3; subst. auto.
  Qed.

  Lemma plain_steady s : invariant s -> plain_m s -> ~ expands K s.
  Proof.
    intros INV [PT (A & B & C)] (t & NX & EX). pose proof INV as (_ & _ & _ & _ & _ & ST).
    assert (P : plain_token t).
    { unfold next_token in NX. destruct (ms_state s); try discriminate.
      - destruct (l_out (ms_lex s)) as [|x r] eqn:EO; [discriminate|]. injection NX as ->.
        rewrite Forall_forall in PT. apply PT. apply feed_keeps. rewrite EO. now left.
      - destruct (p_input (ms_pre s)) as [|x r]; [discriminate|]. injection NX as ->. now inversion A. }
    destruct (p_frames (ms_pre s)) as [|f fs]; [destruct EX|]. inversion B as [|? ? F _]; subst.
    destruct f; try (destruct EX; fail); try (destruct F; fail).
    - destruct EX as (n & m & -> & FI & _). unfold find in FI. rewrite (plain_find _ _ C P) in FI. discriminate.
    - destruct EX as (n & m & -> & FI & _). unfold find in FI. rewrite (plain_find _ _ C P) in FI. discriminate.
  Qed.

  Lemma idle_stays s tr u : run K s tr u -> ms_state s = Idle -> ms_state u = Idle.
  Proof.
    induction 1; intros E; [exact E|]. apply IHrun. unfold m_advance in H. rewrite E in H. apply ok_inj in H. now subst.
  Qed.

  Lemma plain_run s tr u : run K s tr u -> invariant s -> plain_m s -> left_to_do s <= List.length tr -> ms_state u = Idle.
  Proof.
    intros R I P L.
    assert (G : ms_state u = Idle \/ List.length tr + left_to_do u <= left_to_do s).
    { clear L. induction R; [right; cbn; lia|]. destruct (step_invariant K _ _ I H) as [I1 _].
      assert (ms_state s = Idle \/ ms_state s <> Idle) as [E|E] by (destruct (ms_state s); auto; right; discriminate).
      - left. apply (idle_stays _ _ _ R). unfold m_advance in H. rewrite E in H. apply ok_inj in H. now subst.
      - destruct (plain_step _ _ I E H P) as [D|D]; [left; exact (idle_stays _ _ _ R D)|].
        destruct (IHR I1 D) as [D'|D']; [now left|]. right.
        pose proof (step_left _ _ I E H (plain_steady _ I P)). cbn [List.length]. lia. }
    destruct G as [D|D]; [exact D|]. apply left_zero. lia.
  Qed.

  Lemma plain_ends f h s text tr u : machine_new K f h = Ok s -> plain_text text -> run K (start s text) tr u ->
    45 * List.length text * List.length text + 1 <= List.length tr -> ms_state u = Idle.
  Proof.
    intros H P R L. pose proof (new_fields _ _ _ H) as (I & A & B & C & D).
    apply (plain_run _ _ _ R).
    - apply start_invariant; [|exact I]. exact (new_invariant K _ _ _ H).
    - split; [cbn; rewrite A; exact P|]. unfold plain_p. cbn [start ms_pre set_mstate set_in]. rewrite B, C, D.
      repeat split; [constructor|repeat constructor|]. clear.
      assert (X : exists a b, format_defs = [mkScope 0 [(str "begin", a); (str "end", b)]]).
      { vm_compute. do 2 eexists. reflexivity. }
      destruct X as (a & b & ->). constructor; [|constructor]. intros n X. cbn [sc_macros table_find] in X.
      destruct (name_eqb n (str "begin")) eqn:E1; [left; symmetry; now apply name_eqb_eq|].
      destruct (name_eqb n (str "end")) eqn:E2; [right; left; symmetry; now apply name_eqb_eq|]. now contradict X.
    - rewrite (new_left _ _ _ _ H). exact L.
  Qed.

  (** the outcome does not depend on the number of steps allowed, once there are enough *)
  Lemma resume_split n : forall s, (exists tr u, run K s tr u /\ List.length tr = n /\ resume K n s = resume K 0 u) \/
    (exists m tr u, m < n /\ run K s tr u /\ List.length tr = m /\ ms_state u <> Idle /\
       (forall k, resume K (m + Datatypes.S k) s = (do x <- m_advance K u; resume K k x)) /\ (forall x, m_advance K u <> Ok x)).
  Proof.
    induction n as [|n IH]; intros s.
    - left. exists [], s. split; [constructor|]. split; reflexivity.
    - assert (ms_state s = Idle \/ ms_state s <> Idle) as [E|E] by (destruct (ms_state s); auto; right; discriminate).
      + left. exists (repeat s (Datatypes.S n)), s. split; [|split; [apply repeat_length|]].
        * assert (A : m_advance K s = Ok s) by (unfold m_advance; rewrite E; reflexivity).
          clear IH. induction n as [|n IH]; [econstructor; [exact A|constructor]|]. cbn [repeat] in *. econstructor; [exact A|exact IH].
        * cbn [resume]. rewrite E. reflexivity.
      + assert (RS : forall k, resume K (Datatypes.S k) s = (do x <- m_advance K s; resume K k x)).
        { intros k. cbn [resume]. destruct (ms_state s); auto. congruence. }
        destruct (m_advance K s) as [s1| | | |] eqn:A.
        2-5: right; exists 0, [], s; split; [lia|]; split; [constructor|]; split; [reflexivity|]; split; [exact E|];
             split; [intros k; cbn [Nat.add]; rewrite RS, A; reflexivity|intros x; rewrite A; discriminate].
        destruct (IH s1) as [(tr & u & R & L & X)|(m & tr & u & LT & R & L & NI & X & Y)].
        * left. exists (s1 :: tr), u. split; [econstructor; eassumption|]. split; [cbn; now rewrite L|]. rewrite RS. exact X.
        * right. exists (Datatypes.S m), (s1 :: tr), u. split; [lia|]. split; [econstructor; eassumption|]. split; [cbn; now rewrite L|].
          split; [exact NI|]. split; [|exact Y]. intros k. cbn [Nat.add]. rewrite RS. exact (X k).
  Qed.
  Lemma resume_settled n s : (forall tr u, run K s tr u -> n <= List.length tr -> ms_state u = Idle) ->
    forall m, n <= m -> resume K m s = resume K n s.
  Proof.
    intros H m L. destruct (resume_split n s) as [(tr & u & R & LE & X)|(k & tr & u & LT & R & LE & NI & X & Y)].
    - assert (I : ms_state u = Idle) by (apply (H tr u R); lia). rewrite X.
      assert (Z : forall s n k, run K s tr u -> List.length tr = n -> resume K (n + k) s = resume K 0 u).
      { clear - I. induction tr as [|x tr IH]; intros s n k R <-; inversion R; subst.
        - cbn [List.length Nat.add]. destruct k; cbn [resume]; now rewrite I.
        - cbn [List.length Nat.add].
          assert (ms_state s = Idle \/ ms_state s <> Idle) as [E|E] by (destruct (ms_state s); auto; right; discriminate).
          + assert (x = s) by (unfold m_advance in H2; rewrite E in H2; apply ok_inj in H2; auto). subst x.
            rewrite <- (IH s (List.length tr) k H4 eq_refl). cbn [resume]. rewrite E.
            destruct (List.length tr + k); cbn [resume]; now rewrite E.
          + cbn [resume]. rewrite H2. cbn [bind]. rewrite (IH x (List.length tr) k H4 eq_refl).
            destruct (ms_state s); auto. congruence. }
      replace m with (n + (m - n)) by lia. apply Z; assumption.
    - replace m with (k + Datatypes.S (m - k - 1)) by lia. replace n with (k + Datatypes.S (n - k - 1)) by lia.
      rewrite !X. destruct (m_advance K u) as [x| | | |]; try reflexivity. destruct (Y x eq_refl).
  Qed.
  Lemma plain_settled f h s text m : machine_new K f h = Ok s -> plain_text text ->
    45 * List.length text * List.length text + 1 <= m ->
    typeset K m s text = typeset K (45 * List.length text * List.length text + 1) s text.
  Proof.
    intros H P L. unfold typeset. rewrite (resume_settled (45 * List.length text * List.length text + 1) (start s text)); [reflexivity| |exact L].
    intros tr u R L'. exact (plain_ends f h s text tr u H P R L').
  Qed.

  (** ** Texts that never come to an end *)
  Fixpoint steps (n : nat) (s : machine) : result machine :=
    match n with O => Ok s | Datatypes.S n => do s <- m_advance K s; steps n s end.
  Lemma steps_resume k : forall n s, resume K (k + n) s = do s' <- steps k s; resume K n s'.
  Proof.
    induction k as [|k IH]; intros n s; [reflexivity|]. cbn [Nat.add steps].
    assert (ms_state s = Idle \/ ms_state s <> Idle) as [E|E] by (destruct (ms_state s); auto; right; discriminate).
    - assert (A : m_advance K s = Ok s) by (unfold m_advance; rewrite E; reflexivity). rewrite A. cbn [bind]. rewrite <- IH.
      cbn [resume]. rewrite E. destruct (k + n); cbn [resume]; now rewrite E.
    - transitivity (do x <- m_advance K s; resume K (k + n) x).
      { cbn [resume]. destruct (ms_state s); auto. congruence. }
      destruct (m_advance K s) as [x| | | |]; cbn [bind]; auto.
  Qed.
  Lemma fuel_less j : forall m s, resume K (m + j) s = Fuel -> resume K m s = Fuel.
  Proof.
    induction m as [|m IH]; intros s H.
    - cbn [Nat.add] in H. cbn [resume]. destruct j as [|j]; [exact H|]. cbn [resume] in H. destruct (ms_state s); auto.
    - cbn [Nat.add resume] in *. destruct (ms_state s); auto; destruct (m_advance K s); cbn [bind] in *; auto.
  Qed.
  Lemma loops_forever k s0 s1 p : steps k s0 = Ok s1 -> steps p s1 = Ok s1 -> resume K p s1 = Fuel ->
    0 < p -> forall n, resume K n s0 = Fuel.
  Proof.
    intros A B C P n.
    assert (L : forall j, resume K (p * Datatypes.S j) s1 = Fuel).
    { induction j as [|j IH]; [now rewrite Nat.mul_1_r|]. rewrite Nat.mul_succ_r, Nat.add_comm, steps_resume, B. exact IH. }
    apply (fuel_less (k + p * Datatypes.S n - n)). replace (n + (k + p * Datatypes.S n - n)) with (k + p * Datatypes.S n) by nia.
    rewrite steps_resume, A. exact (L n).
  Qed.

  Definition end_text : list ascii := list_ascii_of_string "\end\endcsname ".
  Definition loop_text : list ascii := list_ascii_of_string "\def\a{\a}\a ".
  Lemma shape_new f h s : machine_new K f h = Ok s -> exists me b, 
    s = mkMachine [me] (mkStream [] 0) lexer_init (mkP false [] [] format_defs [FIdle] 1) AMain [] [] [] [MV VMain b] false Idle.
  Proof.
    unfold machine_new. intros H.
    assert (X : (do macros <- format_parse pageeditor_format; foldM define macros pinit) = Ok (mkP false [] [] format_defs [FIdle] 1)).
    { vm_compute. reflexivity. }
    destruct (format_parse pageeditor_format) as [macros| | | |]; try discriminate X. cbn [bind] in X, H. rewrite X in H.
    cbn [bind] in H. apply ok_inj in H. subst s. do 2 eexists. reflexivity.
  Qed.
  Lemma end_hangs f h s rest n : machine_new K f h = Ok s -> resume K n (start s (end_text ++ rest)) = Fuel.
  Proof.
    intros H. apply shape_new in H as (me & b & ->). revert n.
    eapply (loops_forever 30 _ _ 7).
    - vm_compute. reflexivity.
    - vm_compute. reflexivity.
    - vm_compute. reflexivity.
    - lia.
  Qed.
  Lemma loop_hangs f h s rest n : machine_new K f h = Ok s -> resume K n (start s (loop_text ++ rest)) = Fuel.
  Proof.
    intros H. apply shape_new in H as (me & b & ->). revert n.
    eapply (loops_forever 50 _ _ 1).
    - vm_compute. reflexivity.
    - vm_compute. reflexivity.
    - vm_compute. reflexivity.
    - lia.
  Qed.

  (** ** The window *)
  Lemma new_always f h : exists s, machine_new K f h = Ok s.
  Proof.
    unfold machine_new.
    assert (X : exists p, (do macros <- format_parse pageeditor_format; foldM define macros pinit) = Ok p).
    { vm_compute. eexists. reflexivity. }
    destruct X as (p & X). destruct (format_parse pageeditor_format) as [macros| | | |]; try discriminate X. cbn [bind] in X |- *.
    rewrite X. cbn [bind]. eexists. reflexivity.
  Qed.
  Lemma position_fuel st : position st <> Fuel.
  Proof.
    unfold position. assert (G : forall k l a b, position_loop k l a b <> Fuel); [|apply G].
    induction k as [|k IH]; intros l a b; cbn [position_loop]; [discriminate|].
    destruct l as [|x l]; [discriminate|]. destruct (Ascii.eqb x LF); apply IH.
  Qed.
  Lemma error_fuel {A} (u : machine) (f : nat * nat -> A) : (do p <- error_position u; Ok (f p)) <> Fuel.
  Proof.
    assert (Q : forall st, (do p <- position st; Ok (f p)) <> Fuel).
    { intros st. pose proof (position_fuel st). destruct (position st); cbn [bind]; try discriminate. congruence. }
    unfold error_position. destruct (ms_state u); try apply Q. destruct (atEnd (ms_in u)); [apply Q|].
    unfold read. destruct (nth_error _ _); [apply Q|]. destruct (_ =? _)%nat; [apply Q|discriminate].
  Qed.
  Lemma fuel_window n h w text : text <> [] ->
    text_changed K n h w text = Fuel <-> exists s, machine_new K 0 h = Ok s /\ resume K n (start s text) = Fuel.
  Proof.
    intros NE. destruct (new_always 0 h) as (s & E). unfold text_changed. destruct text as [|c text]; [congruence|]. rewrite E.
    assert (X : resume K n (start s (c :: text)) = Fuel <-> run_to K n (start s (c :: text)) = StopFuel).
    { rewrite PageWindow.resume_run. destruct (run_to K n (start s (c :: text))) as [u|u|u r|] eqn:R; split; intros X; try discriminate X; auto.
      apply PageWindow.crash_run in R as [->| ->]; discriminate X. }
    split.
    - intros H. exists s. split; [reflexivity|]. apply X. destruct (run_to K n (start s (c :: text))) as [u|u|u r|] eqn:R; auto.
      + destruct (ms_modes u) as [|[] ?]; discriminate H.
      + destruct (escapes K u); [discriminate H|]. exfalso. revert H.
        apply (error_fuel u (fun p => mkPWin (c :: text) (pw_page w) (StError (fst p) (snd p)))).
      + apply PageWindow.crash_run in R as [->| ->]; discriminate H.
    - intros (s' & E' & H). apply ok_inj in E'. subst s'. apply X in H. now rewrite H.
  Qed.
  Lemma end_window n h w rest : text_changed K n h w (end_text ++ rest) = Fuel.
  Proof.
    apply fuel_window; [discriminate|]. destruct (new_always 0 h) as (s & E). exists s. split; [exact E|].
    exact (end_hangs 0 h s rest n E).
  Qed.
  Lemma loop_window n h w rest : text_changed K n h w (loop_text ++ rest) = Fuel.
  Proof.
    apply fuel_window; [discriminate|]. destruct (new_always 0 h) as (s & E). exists s. split; [exact E|].
    exact (loop_hangs 0 h s rest n E).
  Qed.
  Lemma plain_window n h w text : plain_text text -> 45 * List.length text * List.length text + 1 <= n ->
    text_changed K n h w text = Fuel ->
    exists s tr u, machine_new K 0 h = Ok s /\ run K (start s text) tr u /\ m_advance K u = Fuel.
  Proof.
    intros P L H. assert (NE : text <> []) by (intros ->; discriminate H).
    apply fuel_window in H as (s & E & H); [|exact NE].
    destruct (resume_split n (start s text)) as [(tr & u & R & LE & X)|(k & tr & u & LT & R & LE & NI & X & Y)].
    - assert (I : ms_state u = Idle) by (apply (plain_ends 0 h s text tr u E P R); lia).
      rewrite X in H. cbn [resume] in H. rewrite I in H. discriminate H.
    - exists s, tr, u. split; [exact E|]. split; [exact R|]. specialize (X (n - k - 1)).
      replace (k + Datatypes.S (n - k - 1)) with n in X by lia. rewrite X in H.
      destruct (m_advance K u) as [x| | | |]; try discriminate H; [destruct (Y x eq_refl)|reflexivity].
  Qed.

  (** ** The examples *)
  Lemma steps_run n : forall s u, steps n s = Ok u -> exists tr, run K s tr u /\ List.length tr = n.
  Proof.
    induction n as [|n IH]; intros s u H; cbn [steps] in H; [apply ok_inj in H; subst; exists []; split; [constructor|reflexivity]|].
    inv_bind H. destruct (IH _ _ H) as (tr & A & B). exists (x :: tr). split; [econstructor; eassumption|cbn; now rewrite B].
  Qed.
  Fixpoint steady_for (n : nat) (s : machine) : bool :=
    (if expands_dec s then false else true) &&
    match n with O => true | Datatypes.S n => match m_advance K s with Ok s => steady_for n s | _ => false end end.
  Lemma steady_by n : forall s, steady_for n s = true -> exists tr u, run K s tr u /\ List.length tr = n /\ steady_text K s tr.
  Proof.
    induction n as [|n IH]; intros s H; cbn [steady_for] in H; apply andb_prop in H as [H1 H2]; destruct (expands_dec s) as [D|D]; try discriminate H1.
    - exists [], s. split; [constructor|]. split; [reflexivity|]. constructor; [exact D|constructor].
    - destruct (m_advance K s) as [s1| | | |] eqn:A; try discriminate H2. destruct (IH _ H2) as (tr & u & R & L & F).
      exists (s1 :: tr), u. split; [econstructor; eassumption|]. split; [cbn; now rewrite L|]. constructor; [exact D|exact F].
  Qed.
  Lemma steps_app a b s : steps (a + b) s = do x <- steps a s; steps b x.
  Proof.
    revert s. induction a as [|a IH]; intros s; [reflexivity|]. cbn [Nat.add steps]. destruct (m_advance K s) as [x| | | |]; cbn [bind]; auto.
  Qed.
  Lemma endless_from s0 k s1 p : steps k s0 = Ok s1 -> steps p s1 = Ok s1 -> 0 < p -> (forall n, resume K n s0 = Fuel) ->
    exists r, r 0 = s0 /\ endless K r.
  Proof.
    intros A B P F.
    assert (ALL : forall i, exists u, steps i s0 = Ok u).
    { intros i. assert (L : forall j, steps (k + p * j) s0 = Ok s1).
      { induction j as [|j IH]; [now rewrite Nat.mul_0_r, Nat.add_0_r|]. replace (k + p * Datatypes.S j) with ((k + p * j) + p) by lia.
        rewrite steps_app, IH. exact B. }
      specialize (L i). replace (k + p * i) with (i + (k + p * i - i)) in L by nia. rewrite steps_app in L. inv_bind L. eauto. }
    exists (fun i => match steps i s0 with Ok u => u | _ => s0 end). split; [reflexivity|].
    intros i. destruct (ALL i) as (u & U). destruct (ALL (Datatypes.S i)) as (v & V). rewrite U, V. split.
    - intros I. specialize (F (i + 0)). rewrite steps_resume, U in F. cbn [bind resume] in F. rewrite I in F. discriminate F.
    - rewrite <- Nat.add_1_r, steps_app, U in V. cbn [bind steps] in V. inv_bind V. apply ok_inj in V. now subst.
  Qed.
  Lemma endless_exists (h : N) : exists r, reached K (r 0) /\ endless K r.
  Proof.
    destruct (new_always 0 h) as (s & E). pose proof E as E0. apply shape_new in E as (me & b & ES).
    assert (X : exists r, r 0 = start s end_text /\ endless K r).
    { assert (Y : exists s1, steps 30 (start s end_text) = Ok s1 /\ steps 7 s1 = Ok s1).
      { rewrite ES. eexists. split; [vm_compute; reflexivity|vm_compute; reflexivity]. }
      destruct Y as (s1 & Y1 & Y2). apply (endless_from _ 30 s1 7 Y1 Y2); [lia|]. intros n. rewrite <- (app_nil_r end_text). exact (end_hangs 0 h s [] n E0). }
    destruct X as (r & R0 & R). exists r. split; [|exact R]. rewrite R0. apply rc_start; [exact (rc_new K 0%Z h s E0)|].
    now rewrite ES.
  Qed.
End Ends.
