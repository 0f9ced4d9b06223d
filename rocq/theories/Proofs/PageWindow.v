(** The main window of the page editor. *)
From Coq Require Import List Ascii String ZArith Bool Arith Lia.
From Verif.Base Require Import Result Num.
From Verif.Model Require Import Unicode Token Lexer Macro Dimen DimenParser Glue Box
  ListBuilders LineBreaks MathList MathParser MathTypeset MathFrontend PageEditor PageWindow Preprocessor.
From Verif.Spec Require Import PageEditorSpec PageWindowSpec.
From Verif.Proofs Require Import PageStream PageMachine PageRun PageFrame PageFindings PageDeliver PageText.
Import ListNotations.
Local Open Scope nat_scope.

Section Window.
  Context {N : Num}.
  Variable K : host N.
  Notation machine := (machine N).

  Lemma resume_run n : forall s, resume K n s =
    match run_to K n s with StopIdle u => Ok u | StopThrow _ => Throw | StopCrash _ r => r | StopFuel => Fuel end.
  Proof.
    induction n as [|n IH]; intros s; cbn [resume run_to]; [now destruct (ms_state s)|].
    destruct (ms_state s); try reflexivity; destruct (m_advance K s); cbn [bind]; try reflexivity; apply IH.
  Qed.
  Lemma crash_run n : forall s u r, run_to K n s = StopCrash u r -> r = UB \/ r = Abort.
  Proof.
    induction n as [|n IH]; intros s u r; cbn [run_to]; [now destruct (ms_state s)|].
    destruct (ms_state s); try discriminate; destruct (m_advance K s); try discriminate; try apply IH;
      intros H; injection H as _ <-; auto.
  Qed.
  Lemma run_inv n : forall s u, invariant s -> run_to K n s = StopIdle u -> invariant u /\ ms_state u = Idle.
  Proof.
    induction n as [|n IH]; intros s u I; cbn [run_to];
      destruct (ms_state s) eqn:E; try discriminate; try (intros H; injection H as <-; auto);
      destruct (m_advance K s) as [s'| | | |] eqn:A; try discriminate; apply IH; now destruct (step_invariant K s s' I A).
  Qed.

  (** ** What is after the place where it stops does not matter *)
  Definition halt (n : nat) (s : machine) : option (machine * result machine) :=
    match run_to K n s with StopThrow u => Some (u, Throw) | StopCrash u r => Some (u, r) | _ => None end.
  Lemma halt_step n s u r : halt (Datatypes.S n) s = Some (u, r) ->
    ms_state s <> Idle /\ ((u = s /\ r = m_advance K s /\ (r = Throw \/ r = UB \/ r = Abort)) \/ exists s', m_advance K s = Ok s' /\ halt n s' = Some (u, r)).
  Proof.
    unfold halt. cbn [run_to]. intros H. destruct (ms_state s); try discriminate; (split; [discriminate|]);
      destruct (m_advance K s); try discriminate; first [right; eauto; fail | injection H as <- <-; left; auto 10].
  Qed.
  Lemma halt_make n s u r : ms_state s <> Idle ->
    ((u = s /\ r = m_advance K s /\ (r = Throw \/ r = UB \/ r = Abort)) \/ exists s', m_advance K s = Ok s' /\ halt n s' = Some (u, r)) ->
    halt (Datatypes.S n) s = Some (u, r).
  Proof.
    unfold halt. cbn [run_to]. intros NI [(-> & -> & H)|(s' & E & H)].
    - destruct (ms_state s); try congruence; destruct H as [->|[->| ->]]; reflexivity.
    - rewrite E. destruct (ms_state s); try congruence; exact H.
  Qed.

  Definition move_to (i : stream) (s : machine) : machine := set_in s i.
  Lemma natural_in (f : machine -> result machine) : (forall i l st, natural i l st f) -> forall s i,
    f (set_in s i) = rmap (fun u => set_in u i) (f s) /\ forall u, f s = Ok u -> ms_in u = ms_in s /\ ms_lex u = ms_lex s /\ ms_state u = ms_state s.
  Proof.
    intros H s i. pose proof (H (ms_in s) (ms_lex s) (ms_state s) s) as A.
    assert (Es : chg (ms_in s) (ms_lex s) (ms_state s) s = s) by now destruct s. rewrite Es in A.
    assert (B : forall u, f s = Ok u -> ms_in u = ms_in s /\ ms_lex u = ms_lex s /\ ms_state u = ms_state s).
    { intros u E. rewrite E in A. cbn in A. injection A as A. rewrite A. auto. }
    split; [|exact B]. pose proof (H i (ms_lex s) (ms_state s) s) as C.
    assert (Ei : chg i (ms_lex s) (ms_state s) s = set_in s i) by now destruct s. rewrite Ei in C. rewrite C.
    destruct (f s) as [u| | | |]; try reflexivity. cbn. destruct (B u eq_refl) as (_ & L & S0). unfold chg. rewrite <- L, <- S0. now destruct u.
  Qed.

  (** one step, away from the end *)
  Lemma step_away s i : ms_state s <> ReadChar -> ms_state s <> Idle ->
    m_advance K (set_in s i) = rmap (fun u => set_in u i) (m_advance K s) /\ forall u, m_advance K s = Ok u -> ms_in u = ms_in s.
  Proof.
    intros NR NI. unfold m_advance. change (ms_state (set_in s i)) with (ms_state s). change (ms_lex (set_in s i)) with (ms_lex s).
    destruct (ms_state s) eqn:ST; try congruence.
    - destruct (l_out (ms_lex s)) as [|t r]; [split; [reflexivity|intros u H; injection H as <-; reflexivity]|].
      change (ms_pre (set_lex (set_in s i) _)) with (ms_pre s). change (ms_pre (set_lex s _)) with (ms_pre s).
      destruct (pwrite (ms_pre s) t); cbn; split; try reflexivity; intros u H; try discriminate; injection H as <-; reflexivity.
    - change (ms_pre (set_in s i)) with (ms_pre s).
      destruct (Preprocessor.advance (ms_pre s)); cbn; split; try reflexivity; intros u H; try discriminate; injection H as <-; reflexivity.
    - destruct (natural_in (sendToken K) (fun i l st => sendToken_chg K i l st) s i) as (-> & B).
      destruct (sendToken K s) as [v| | | |]; cbn; split; try reflexivity; intros u H; try discriminate; injection H as <-; exact (proj1 (B v eq_refl)).
    - change (digest_fuel (set_in s i)) with (digest_fuel s).
      destruct (natural_in (digest K (digest_fuel s)) (fun i l st => digest_chg K i l st _) s i) as (-> & B).
      destruct (digest K (digest_fuel s) s) as [v| | | |]; cbn; split; try reflexivity; intros u H; try discriminate; injection H as <-; exact (proj1 (B v eq_refl)).
  Qed.
  Lemma step_read s t p c : ms_state s = ReadChar -> ms_in s = mkStream t p -> nth_error t p = Some c ->
    m_advance K s =
      match write DefaultCatCodes (ms_lex s) c with
      | (_, Some _) => Throw
      | (l, None) => Ok (set_mstate (set_lex (set_in s (mkStream t (Datatypes.S p))) l) (match l_out l with [] => ReadChar | _ => ReadToken end))
      end.
  Proof.
    intros ST IN E. unfold m_advance. rewrite ST, IN. unfold atEnd, read. cbn [st_pos st_text]. rewrite E.
    assert (p < List.length t) by (apply nth_error_Some; congruence).
    destruct (Nat.eqb_spec p (List.length t)); [lia|]. reflexivity.
  Qed.
  Lemma step_end s t : ms_state s = ReadChar -> ms_in s = mkStream t (List.length t) ->
    m_advance K s = bind (finish_modes K (List.length (ms_modes s) - 1) s) (fun s => Ok (set_mstate s Idle)).
  Proof. intros ST IN. unfold m_advance. rewrite ST, IN. unfold atEnd. cbn. now rewrite Nat.eqb_refl. Qed.

  Lemma halt_pos n : forall s t p u r, halt n s = Some (u, r) -> ms_in s = mkStream t p -> p <= List.length t ->
    exists q, ms_in u = mkStream t q /\ p <= q <= List.length t /\ ms_state u <> Idle /\
      (ms_state s = ReadChar -> p < q \/ ms_state u = ReadChar).
  Proof.
    induction n as [|n IH]; intros s t p u r H IN LE; [unfold halt in H; cbn in H; destruct (ms_state s); discriminate|].
    apply halt_step in H as (NI & [(-> & _)|(s' & A & H)]); [exists p; auto 10|].
    assert (X : exists p', ms_in s' = mkStream t p' /\ p <= p' <= List.length t /\ (ms_state s = ReadChar -> p < p' \/ ms_state s' = Idle)).
    { destruct (ms_state s) eqn:ST; try congruence;
        try (destruct (step_away s (ms_in s)) as (_ & B); [congruence|congruence|]; rewrite (B _ A); exists p; split; [exact IN|split; [lia|congruence]]).
      destruct (nth_error t p) as [c|] eqn:E.
      - rewrite (step_read s t p c ST IN E) in A. destruct (write DefaultCatCodes (ms_lex s) c) as [l [e|]]; [discriminate|]. injection A as <-.
        assert (p < List.length t) by (apply nth_error_Some; congruence). exists (Datatypes.S p). cbn. split; [reflexivity|]. split; [lia|]. left; lia.
      - apply nth_error_None in E. assert (p = List.length t) as -> by lia. rewrite (step_end s t ST IN) in A.
        destruct (finish_modes K (List.length (ms_modes s) - 1) s) as [v| | | |] eqn:FM; try discriminate. injection A as <-.
        destruct (natural_in _ (fun i l st => finish_modes_chg K i l st (List.length (ms_modes s) - 1)) s (ms_in s)) as (_ & B).
        destruct (B v FM) as (B1 & _). exists (List.length t). cbn. rewrite B1. split; [exact IN|]. split; [lia|auto]. }
    destruct X as (p' & IN' & L1 & L2). destruct (IH s' t p' u r H IN' (proj2 L1)) as (q & Q1 & Q2 & Q3 & Q4).
    exists q. split; [exact Q1|]. split; [lia|]. split; [exact Q3|]. intros ST. destruct (L2 ST) as [L|I0]; [left; lia|].
    exfalso. unfold halt in H. destruct n; cbn in H; rewrite I0 in H; discriminate.
  Qed.

  Lemma halt_swap n a b b' : forall s p u r q, halt n s = Some (u, r) -> ms_in s = mkStream (a ++ b) p -> p <= List.length (a ++ b) ->
    ms_in u = mkStream (a ++ b) q -> (if match ms_state u with ReadChar => true | _ => false end then Datatypes.S q else q) = List.length a ->
    halt n (set_in s (mkStream (a ++ b') p)) = Some (set_in u (mkStream (a ++ b') q), r).
  Proof.
    induction n as [|n IH]; intros s p u r q H IN LE IU Q; [unfold halt in H; cbn in H; destruct (ms_state s); discriminate|].
    destruct (halt_pos _ _ _ _ _ _ H IN LE) as (q' & IU' & LQ & NI' & MO). rewrite IU in IU'. injection IU' as <-.
    assert (LT : ms_state s = ReadChar -> p < List.length a).
    { intros ST. destruct (MO ST) as [L|SU]; [|rewrite SU in Q; lia]. destruct (ms_state u); lia. }
    assert (NA : forall c, ms_state s = ReadChar -> nth_error (a ++ c) p = nth_error a p) by (intros c ST; apply nth_error_app1; auto).
    apply halt_step in H as (NI & H). apply halt_make; [exact NI|].
    destruct H as [(-> & -> & H)|(s' & A & H)].
    - left. rewrite IN in IU. injection IU as <-. split; [reflexivity|]. split; [|exact H].
      destruct (ms_state s) eqn:ST; try congruence;
        try (destruct (step_away s (mkStream (a ++ b') p)) as (-> & _); [congruence|congruence|]; destruct H as [->|[->| ->]]; reflexivity).
      destruct (nth_error a p) as [c|] eqn:E; [|apply nth_error_None in E; specialize (LT eq_refl); lia].
      rewrite (step_read s (a ++ b) p c ST IN) by (now apply NA).
      rewrite (step_read (set_in s (mkStream (a ++ b') p)) (a ++ b') p c ST eq_refl) by (now apply NA).
      change (ms_lex (set_in s (mkStream (a ++ b') p))) with (ms_lex s).
      rewrite (step_read s (a ++ b) p c ST IN) in H by (now apply NA).
      destruct (write DefaultCatCodes (ms_lex s) c) as [l [e|]]; [reflexivity|]. destruct H as [H|[H|H]]; discriminate.
    - right. destruct (ms_state s) eqn:ST; try congruence;
        try (destruct (step_away s (mkStream (a ++ b') p)) as (-> & B); [congruence|congruence|];
             rewrite A; eexists; split; [reflexivity|]; apply (IH s' p u r q H); try assumption; rewrite (B _ A); exact IN).
      destruct (nth_error a p) as [c|] eqn:E; [|apply nth_error_None in E; specialize (LT eq_refl); lia].
      rewrite (step_read s (a ++ b) p c ST IN) in A by (now apply NA).
      rewrite (step_read (set_in s (mkStream (a ++ b') p)) (a ++ b') p c ST eq_refl) by (now apply NA).
      change (ms_lex (set_in s (mkStream (a ++ b') p))) with (ms_lex s).
      destruct (write DefaultCatCodes (ms_lex s) c) as [l [e|]]; [discriminate|]. injection A as <-.
      eexists. split; [reflexivity|].
      refine (IH _ (Datatypes.S p) u r q H eq_refl _ IU Q). rewrite app_length. specialize (LT eq_refl). lia.
  Qed.

  (** ** The exceptions that escape depend on the text neither *)
  Lemma token_escapes_in s i t : token_escapes K (set_in s i) t = token_escapes K s t. Proof. reflexivity. Qed.
  Lemma digest_escapes_in n : forall s i, digest_escapes K n (set_in s i) = digest_escapes K n s.
  Proof.
    induction n as [|n IH]; intros s i; [reflexivity|]. cbn [digest_escapes].
    pose proof (digestToken_chg K i (ms_lex s) (ms_state s) s) as D.
    assert (Es : chg i (ms_lex s) (ms_state s) s = set_in s i) by now destruct s. rewrite Es in D.
    pose proof (digestToken_chg K (ms_in s) (ms_lex s) (ms_state s) s) as D'.
    assert (Es' : chg (ms_in s) (ms_lex s) (ms_state s) s = s) by now destruct s. rewrite Es' in D'.
    rewrite D. destruct (digestToken K s) as [[v x]| | | |]; try reflexivity.
    destruct x; [|reflexivity]. cbn in D'. injection D' as D'.
    change (digest_escapes K n (chg i (ms_lex s) (ms_state s) v) = digest_escapes K n v).
    replace (chg i (ms_lex s) (ms_state s) v) with (set_in v i); [apply IH|]. rewrite D'. reflexivity.
  Qed.
  Lemma escapes_in s i : escapes K (set_in s i) = escapes K s.
  Proof.
    unfold escapes. change (ms_state (set_in s i)) with (ms_state s). destruct (ms_state s); try reflexivity.
    apply digest_escapes_in.
  Qed.

  (** ** The position *)
  Lemma error_position_at (u : machine) t q : ms_in u = mkStream t q -> q <= List.length t ->
    exists a b, t = a ++ b /\ (forall line col, error_position u = Ok (line, col) -> position_of a line col) /\
      (exists line col, error_position u = Ok (line, col)) /\
      ((ms_state u = ReadChar /\ b = [] /\ a = t) \/
       ((if match ms_state u with ReadChar => true | _ => false end then Datatypes.S q else q) = List.length a /\
        forall b', error_position (set_in u (mkStream (a ++ b') q)) = error_position u)).
  Proof.
    intros IN LE.
    assert (EP : forall (v : machine) t q, ms_in v = mkStream t q -> q <= List.length t -> error_position v =
       position (mkStream t (if match ms_state v with ReadChar => true | _ => false end then (if q =? List.length t then q else Datatypes.S q) else q))).
    { clear. intros v t q IN LE. unfold error_position. rewrite IN. destruct (ms_state v); try reflexivity.
      unfold atEnd, read. cbn [st_pos st_text]. destruct (Nat.eqb_spec q (List.length t)); [reflexivity|].
      destruct (nth_error t q) eqn:E; [reflexivity|]. apply nth_error_None in E. lia. }
    set (rd := match ms_state u with ReadChar => true | _ => false end) in *.
    set (k := if rd then (if q =? List.length t then q else Datatypes.S q) else q).
    assert (LK : k <= List.length t) by (unfold k; destruct rd, (Nat.eqb_spec q (List.length t)); lia).
    destruct (position_ok t k LK) as (l & c & E & H).
    pose proof (EP u t q IN LE) as EU. fold rd in EU. fold k in EU. rewrite E in EU.
    exists (firstn k t), (skipn k t). split; [now rewrite firstn_skipn|].
    split; [intros line col X; rewrite EU in X; injection X as <- <-; exact H|]. split; [eauto|].
    assert (FL : List.length (firstn k t) = k) by (rewrite firstn_length; lia).
    destruct (rd && (q =? List.length t)) eqn:B.
    - left. apply andb_true_iff in B as (B1 & B2). unfold k in *. rewrite B1, B2 in *. apply Nat.eqb_eq in B2. subst q.
      rewrite skipn_all, firstn_all. unfold rd in B1. destruct (ms_state u); try discriminate. auto.
    - right. split; [rewrite FL; unfold k; destruct rd, (q =? List.length t); try discriminate; reflexivity|].
      intros b'. rewrite (EP (set_in u (mkStream (firstn k t ++ b') q)) (firstn k t ++ b') q eq_refl) by (rewrite app_length, FL; unfold k; destruct rd, (q =? List.length t); lia).
      change (match ms_state (set_in u (mkStream (firstn k t ++ b') q)) with ReadChar => true | _ => false end) with rd. rewrite EU.
      replace (if rd then if q =? List.length (firstn k t ++ b') then q else Datatypes.S q else q) with k.
      2:{ rewrite app_length, FL. unfold k in *. destruct rd; [|reflexivity]. destruct (Nat.eqb_spec q (List.length t)); [discriminate|].
          destruct (Nat.eqb_spec q (Datatypes.S q + List.length b')); [lia|reflexivity]. }
      apply position_iff; [rewrite app_length; lia|]. now rewrite firstn_app, FL, Nat.sub_diag, firstn_O, app_nil_r, firstn_firstn, Nat.min_id.
  Qed.

  (** ** The window *)
  Lemma halt_throw n s u : run_to K n s = StopThrow u <-> halt n s = Some (u, Throw).
  Proof.
    unfold halt. split; [intros ->; reflexivity|]. destruct (run_to K n s) eqn:E; try discriminate; intros H; [congruence|].
    destruct (crash_run _ _ _ _ E); congruence.
  Qed.
  Lemma halt_crash n s u r : r <> Throw -> (run_to K n s = StopCrash u r <-> halt n s = Some (u, r)).
  Proof.
    intros NT. unfold halt. split; [intros ->; reflexivity|]. destruct (run_to K n s) eqn:E; try discriminate; intros H; congruence.
  Qed.
  Lemma new_start h s text : machine_new K 0 h = Ok s -> invariant (start s text) /\ ms_in (start s text) = mkStream text 0 /\ ms_state s = Idle.
  Proof.
    intros NW. assert (ID : ms_state s = Idle).
    { clear - NW. unfold machine_new in NW. apply bind_Ok in NW as (ms & _ & H). apply bind_Ok in H as (p & _ & H). now injection H as <-. }
    split; [apply start_invariant; [eapply new_invariant; eauto|exact ID]|]. auto.
  Qed.
  Lemma swap_start (s : machine) t t' : set_in (start s t) (mkStream t' 0) = start s t'.
  Proof. now destruct s. Qed.

  Notation changed := (text_changed K).
  (** the four cases *)
  Lemma changed_cases n h w text s : text <> [] -> machine_new K 0 h = Ok s ->
    match run_to K n (start s text) with
    | StopIdle u => exists b, typeset K n s text = Ok b /\ changed n h w text = Ok (mkPWin text (Some b) StReport)
    | StopThrow u => typeset K n s text = Throw /\
        (if escapes K u then changed n h w text = Abort
         else exists line col, error_position u = Ok (line, col) /\ changed n h w text = Ok (mkPWin text (pw_page w) (StError line col)))
    | StopCrash u r => (r = UB /\ typeset K n s text = UB /\ changed n h w text = UB) \/ (r = Abort /\ typeset K n s text = Abort /\ changed n h w text = Abort)
    | StopFuel => typeset K n s text = Fuel /\ changed n h w text = Fuel
    end.
  Proof.
    intros NE NW. destruct (new_start h s text NW) as (I & IN & _).
    assert (E : changed n h w text =
      match run_to K n (start s text) with
            | StopIdle s' =>
                match ms_modes s' with
                | MV _ b :: _ => Ok (mkPWin text (Some (vbox (vb_result b))) StReport)
                | [] => UB
                | _ => Abort
                end
            | StopThrow s' =>
                if escapes K s' then Abort
                else do p <- error_position s'; Ok (mkPWin text (pw_page w) (StError (fst p) (snd p)))
            | StopCrash _ Abort => Abort
            | StopCrash _ _ => UB
            | StopFuel => Fuel
            end).
    { unfold text_changed. rewrite NW. destruct text; [congruence|]. reflexivity. }
    assert (T : typeset K n s text = do u <- resume K n (start s text);
       match ms_modes u with MV _ b :: _ => Ok (vbox (vb_result b)) | [] => UB | _ => Throw end) by reflexivity.
    rewrite E, T, resume_run. destruct (run_to K n (start s text)) as [u|u|u r|] eqn:R; cbn [bind].
    - destruct (run_inv _ _ _ I R) as (IV & ID). unfold invariant in IV.
      assert (M : exists st b, ms_modes u = [MV st b]) by (clear - IV ID; rewrite ID in IV; tauto). destruct M as (st & b & ->). eauto.
    - split; [reflexivity|]. destruct (escapes K u); [reflexivity|].
      apply halt_throw in R. destruct (halt_pos n _ _ _ _ _ R IN (Nat.le_0_l _)) as (q & Q1 & Q2 & _).
      destruct (error_position_at u text q Q1 (proj2 Q2)) as (a & b & _ & _ & (line & col & EP) & _). exists line, col. rewrite EP. auto.
    - destruct (crash_run _ _ _ _ R) as [->| ->]; [left|right]; auto.
    - auto.
  Qed.

  (** an error is reported where it happens *)
  Lemma error_where n h w text line col : text <> [] -> changed n h w text = Ok (mkPWin text (pw_page w) (StError line col)) ->
    exists a b, text = a ++ b /\ position_of a line col /\
      (b = [] \/ forall w' b', changed n h w' (a ++ b') = Ok (mkPWin (a ++ b') (pw_page w') (StError line col))).
  Proof.
    intros NE H. destruct (new_exists K 0 h) as (s & NW). destruct (new_start h s text NW) as (I & IN & _).
    pose proof (changed_cases n h w text s NE NW) as C. destruct (run_to K n (start s text)) as [u|u|u r|] eqn:R.
    - destruct C as (b & _ & C). rewrite C in H. injection H as _ H. discriminate H.
    - destruct C as (_ & C). destruct (escapes K u) eqn:ES; [congruence|]. destruct C as (l & c & EP & C). rewrite C in H. injection H as -> ->.
      apply halt_throw in R. destruct (halt_pos n _ _ _ _ _ R IN (Nat.le_0_l _)) as (q & Q1 & Q2 & _).
      destruct (error_position_at u text q Q1 (proj2 Q2)) as (a & b & -> & P & _ & X).
      exists a, b. split; [reflexivity|]. split; [now apply P|]. destruct X as [(_ & -> & _)|(X1 & X2)]; [now left|]. right. intros w' b'.
      pose proof (halt_swap n a b b' _ 0 u _ q R IN (Nat.le_0_l _) Q1 X1) as R'. rewrite swap_start in R'. apply halt_throw in R'.
      assert (NE' : a ++ b' <> []).
      { intros Z. apply app_eq_nil in Z as (-> & ->). cbn in X1. destruct n; [unfold halt in R; cbn in R; discriminate R|].
        destruct (halt_pos _ _ _ _ _ _ R IN (Nat.le_0_l _)) as (q' & E1 & _ & _ & E2). rewrite Q1 in E1. injection E1 as <-.
        destruct (E2 eq_refl) as [L|L]; [destruct (ms_state u); lia|rewrite L in X1; lia]. }
      pose proof (changed_cases n h w' (a ++ b') s NE' NW) as C'. rewrite R' in C'. destruct C' as (_ & C').
      rewrite escapes_in, ES in C'. destruct C' as (l' & c' & EP' & C'). rewrite X2, EP in EP'. injection EP' as <- <-. exact C'.
    - destruct C as [(_ & _ & C)|(_ & _ & C)]; rewrite C in H; discriminate H.
    - destruct C as (_ & C). rewrite C in H. discriminate H.
  Qed.
  Lemma crash_where n h w text r : (r = UB \/ r = Abort) -> changed n h w text = r ->
    exists a b, text = a ++ b /\ (b = [] \/ forall w' b', changed n h w' (a ++ b') = r).
  Proof.
    intros RR H. assert (NE : text <> []) by (intros ->; cbn in H; destruct RR; subst r; discriminate H).
    destruct (new_exists K 0 h) as (s & NW). destruct (new_start h s text NW) as (I & IN & _).
    assert (X : exists u x, halt n (start s text) = Some (u, x) /\
      forall w' t', t' <> [] -> (exists i, halt n (start s t') = Some (set_in u i, x)) -> changed n h w' t' = r).
    { pose proof (changed_cases n h w text s NE NW) as C. destruct (run_to K n (start s text)) as [u|u|u x|] eqn:R.
      - destruct C as (b & _ & C). rewrite C in H. destruct RR; subst r; discriminate H.
      - exists u, Throw. split; [now apply halt_throw|]. intros w' t' NE' (i & H'). apply halt_throw in H'.
        pose proof (changed_cases n h w' t' s NE' NW) as C'. rewrite H' in C'. rewrite escapes_in in C'. destruct C as (_ & C), C' as (_ & C').
        destruct (escapes K u); [congruence|]. destruct C as (l & c & _ & C). rewrite C in H. destruct RR; subst r; discriminate H.
      - exists u, x. split; [unfold halt; now rewrite R|]. intros w' t' NE' (i & H').
        assert (NT : x <> Throw) by (destruct (crash_run _ _ _ _ R); congruence). apply (halt_crash _ _ _ _ NT) in H'.
        pose proof (changed_cases n h w' t' s NE' NW) as C'. rewrite H' in C'.
        destruct C as [(-> & _ & C)|(-> & _ & C)], C' as [(Q & _ & C')|(Q & _ & C')]; congruence.
      - destruct C as (_ & C). rewrite C in H. destruct RR; subst r; discriminate H. }
    destruct X as (u & x & R & X). destruct (halt_pos n _ _ _ _ _ R IN (Nat.le_0_l _)) as (q & Q1 & Q2 & _).
    destruct (error_position_at u text q Q1 (proj2 Q2)) as (a & b & -> & _ & _ & Y). exists a, b. split; [reflexivity|].
    destruct Y as [(_ & -> & _)|(X1 & _)]; [now left|]. right. intros w' b'. apply X.
    - intros Z. apply app_eq_nil in Z as (-> & ->). cbn in X1. destruct n; [unfold halt in R; cbn in R; discriminate R|].
      destruct (halt_pos _ _ _ _ _ _ R IN (Nat.le_0_l _)) as (q' & E1 & _ & _ & E2). rewrite Q1 in E1. injection E1 as <-.
      destruct (E2 eq_refl) as [L|L]; [destruct (ms_state u); lia|rewrite L in X1; lia].
    - exists (mkStream (a ++ b') q). rewrite <- (swap_start s (a ++ b)). exact (halt_swap n a b b' _ 0 u _ q R IN (Nat.le_0_l _) Q1 X1).
  Qed.

  (** the window after one more text *)
  Lemma changed_ok n h w text w' : changed n h w text = Ok w' -> pw_text w' = text /\
    ((text = [] /\ pw_page w' = pw_page w /\ pw_status w' = pw_status w) \/
     (exists b, makes_page K n h text b /\ pw_page w' = Some b /\ pw_status w' = StReport) \/
     (text <> [] /\ typesets_as K n h text Throw /\ pw_page w' = pw_page w /\ exists line col, pw_status w' = StError line col)).
  Proof.
    intros H. destruct (list_eq_dec ascii_dec text []) as [->|NE]; [cbn in H; injection H as <-; cbn; auto|].
    destruct (new_exists K 0 h) as (s & NW). pose proof (changed_cases n h w text s NE NW) as C. destruct (run_to K n (start s text)) as [u|u|u r|].
    - destruct C as (b & T & C). rewrite C in H. injection H as <-. split; [reflexivity|]. right. left. exists b. cbn. split; [|auto]. split; [exact NE|]. exists s. auto.
    - destruct C as (T & C). destruct (escapes K u); [congruence|]. destruct C as (l & c & _ & C). rewrite C in H. injection H as <-. split; [reflexivity|].
      right. right. cbn. split; [exact NE|]. split; [exists s; auto|]. eauto.
    - destruct C as [(_ & _ & C)|(_ & _ & C)]; congruence.
    - destruct C as (_ & C). congruence.
  Qed.
  Lemma typesets_fun n h text r1 r2 : typesets_as K n h text r1 -> typesets_as K n h text r2 -> r1 = r2.
  Proof. intros (s & E & <-) (s' & E' & <-). congruence. Qed.
  Lemma shows_iff n h w text b : text <> [] ->
    (changed n h w text = Ok (mkPWin text (Some b) StReport) <-> typesets_as K n h text (Ok b)).
  Proof.
    intros NE. destruct (new_exists K 0 h) as (s & NW). pose proof (changed_cases n h w text s NE NW) as C.
    assert (TA : forall r, typesets_as K n h text r <-> typeset K n s text = r).
    { intros r. split; [intros (s' & E & H); congruence|intros H; exists s; auto]. }
    rewrite TA. destruct (run_to K n (start s text)) as [u|u|u r|].
    - destruct C as (b' & -> & ->). split; intros H; injection H as ->; reflexivity.
    - destruct C as (-> & C). split; intros H; [|discriminate H]. destruct (escapes K u); [congruence|]. destruct C as (l & c & _ & C). rewrite C in H. injection H as _ H. discriminate H.
    - destruct C as [(_ & -> & ->)|(_ & -> & ->)]; split; intros H; discriminate H.
    - destruct C as (-> & ->). split; intros H; discriminate H.
  Qed.
  Lemma fails_iff n h w text r : text <> [] -> typesets_as K n h text r -> (forall b, r <> Ok b) ->
    (r = Throw /\ ((exists line col, changed n h w text = Ok (mkPWin text (pw_page w) (StError line col))) \/ changed n h w text = Abort)) \/
    (r = UB /\ changed n h w text = UB) \/ (r = Abort /\ changed n h w text = Abort) \/ (r = Fuel /\ changed n h w text = Fuel).
  Proof.
    intros NE (s & NW & T) NB. pose proof (changed_cases n h w text s NE NW) as C. rewrite T in C. destruct (run_to K n (start s text)) as [u|u|u x|].
    - destruct C as (b & -> & _). now destruct (NB b).
    - left. destruct C as (-> & C). split; [reflexivity|]. destruct (escapes K u); [auto|]. destruct C as (l & c & _ & C). left. eauto.
    - right. destruct C as [(_ & -> & ->)|(_ & -> & ->)]; auto.
    - right. right. right. exact C.
  Qed.

  Lemma run_more n m : forall s, run_to K n s <> StopFuel -> run_to K (n + m) s = run_to K n s.
  Proof.
    induction n as [|n IH]; intros s H.
    - cbn [run_to plus] in *. destruct m; cbn [run_to]; destruct (ms_state s); congruence.
    - cbn [run_to plus] in *. destruct (ms_state s); try reflexivity; destruct (m_advance K s); try reflexivity; now apply IH.
  Qed.
  Lemma changed_more n m h w text : changed n h w text <> Fuel -> changed (n + m) h w text = changed n h w text.
  Proof.
    intros H. destruct text as [|c text]; [reflexivity|]. destruct (new_exists K 0 h) as (s & NW). unfold text_changed in *. rewrite NW in *.
    rewrite run_more; [reflexivity|]. intros E. now rewrite E in H.
  Qed.
  Lemma typesets_by n h text r : (do s <- machine_new K 0 h; typeset K n s text) = r -> typesets_as K n h text r.
  Proof. intros H. destruct (new_exists K 0 h) as (s & E). rewrite E in H. exists s. exact (conj E H). Qed.
End Window.

(** ** A session *)
Section Session.
  Context {N : Num}.
  Variable K : host N.

  Lemma snoc_inv {A} (l1 : list A) x l2 l y : l ++ [y] = l1 ++ x :: l2 ->
    (l1 = l /\ x = y /\ l2 = []) \/ exists r, l2 = r ++ [y] /\ l = l1 ++ x :: r.
  Proof.
    intros E. destruct l2 as [|z l2 _] using rev_ind.
    - apply app_inj_tail in E as [-> ->]. now left.
    - right. exists l2. rewrite app_comm_cons, app_assoc in E. apply app_inj_tail in E as [-> ->]. now split.
  Qed.
  Lemma last_with_snoc_yes {A B} (P : list A -> A -> B -> Prop) l x y : P l x y -> last_with P (l ++ [x]) (Some y).
  Proof.
    intros H. exists l, x, []. split; [reflexivity|]. split; [exact H|]. intros l3 x' l4 E. destruct l3; discriminate E.
  Qed.
  Lemma last_with_snoc_no {A B} (P : list A -> A -> B -> Prop) l x o : (forall y, ~ P l x y) -> last_with P l o ->
    last_with P (l ++ [x]) o.
  Proof.
    intros H. destruct o as [y|]; cbn [last_with].
    - intros (l1 & z & l2 & E & Z & F). exists l1, z, (l2 ++ [x]). split; [rewrite E; now rewrite <- app_assoc|].
      split; [exact Z|]. intros l3 x' l4 E' y'. apply snoc_inv in E' as [(-> & -> & ->)|(r & -> & ->)].
      + rewrite <- E. apply H.
      + exact (F _ _ _ eq_refl y').
    - intros F l1 x' l2 E y'. apply snoc_inv in E as [(-> & -> & ->)|(r & -> & E)]; [apply H|exact (F _ _ _ E y')].
  Qed.

  Lemma session_snoc n h es e x : window_session K n h (es ++ [e]) = Ok x ->
    exists v w, window_session K n h es = Ok v /\ text_changed (with_loads K (se_loads v)) n h (se_window v) (new_text e) = Ok w /\
      x = mkSession w (se_loads v ++ loads_by (with_loads K (se_loads v)) n h (new_text e)).
  Proof.
    intros H. unfold window_session in H. rewrite foldM_app in H. fold (window_session K n h es) in H.
    destruct (window_session K n h es) as [v| | | |]; try discriminate. cbn [bind foldM] in H. unfold session_event in H.
    destruct (text_changed (with_loads K (se_loads v)) n h (se_window v) (new_text e)) as [w| | | |] eqn:C; try discriminate.
    cbn [bind] in H. exists v, w. split; [reflexivity|]. split; [exact C|]. now injection H as <-.
  Qed.

  Lemma session_shows n h : forall es x, window_session K n h es = Ok x ->
    let w := se_window x in
    pw_text w = last (map new_text es) [] /\
    last_with (makes_page_after K n h) es (pw_page w) /\
    match pw_status w with
    | StNone => forall e, In e es -> new_text e = []
    | StReport => exists b, last_with (typesets_after K n h) es (Some (Ok b)) /\ pw_page w = Some b
    | StError _ _ => last_with (typesets_after K n h) es (Some Throw)
    | StWhat => False
    end.
  Proof.
    induction es as [|e es IH] using rev_ind; intros x H.
    { cbn in H. injection H as <-. cbn. split; [reflexivity|]. split; [|intros ? []]. intros l1 ? ? E. destruct l1; discriminate E. }
    apply session_snoc in H as (v & w & V & C & ->). cbn [se_window].
    destruct (IH v V) as (_ & P & Q). clear IH. destruct (changed_ok _ _ _ _ _ _ C) as (T & D).
    assert (FN : forall r r', typesets_as (with_loads K (se_loads v)) n h (new_text e) r -> typesets_after K n h es e r' -> r = r').
    { intros r r' A (_ & l & (v' & V' & <-) & B). rewrite V in V'. injection V' as <-. exact (typesets_fun _ _ _ _ _ _ A B). }
    assert (AF : forall r, new_text e <> [] -> typesets_as (with_loads K (se_loads v)) n h (new_text e) r -> typesets_after K n h es e r).
    { intros r NE A. split; [exact NE|]. exists (se_loads v). split; [|exact A]. now exists v. }
    rewrite map_app, T. cbn [map]. rewrite last_last. split; [reflexivity|].
    destruct D as [(E & -> & ->)|[(b & (NE & M) & -> & ->)|(NE & M & -> & line & col & ->)]].
    - assert (NQ : forall y, ~ typesets_after K n h es e y) by (intros y (X & _); congruence).
      assert (NP : forall y, ~ makes_page_after K n h es e y) by (intros y; apply NQ).
      split; [now apply last_with_snoc_no|]. destruct (pw_status (se_window v)).
      + intros z IN. apply in_app_or in IN as [IN|[<-|[]]]; auto.
      + destruct Q as (b & Q & Q'). exists b. split; [|exact Q']. now apply last_with_snoc_no.
      + now apply last_with_snoc_no.
      + exact Q.
    - split; [now apply last_with_snoc_yes, AF|]. exists b. split; [|reflexivity]. now apply last_with_snoc_yes, AF.
    - split.
      + apply last_with_snoc_no; [|exact P]. intros y Y. pose proof (FN _ _ M Y). discriminate.
      + now apply last_with_snoc_yes, AF.
  Qed.
End Session.
