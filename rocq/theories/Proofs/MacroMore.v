(** Definitions, scoping, safety and formats. *)
From Coq Require Import List Ascii String ZArith Bool Arith Lia Sorted.
From Verif.Base Require Import Result.
From Verif.Model Require Import Token Lexer Macro Preprocessor.
From Verif.Spec Require Import MacroSpec.
From Verif.Proofs Require Import LexerProofs MacroProofs MacroExpand.
Import ListNotations.

Lemma find_ptr_in n d id m : find_ptr n d = Some (id, m) -> In id (map sc_id d).
Proof.
  induction d as [|sc d IH]; cbn; [discriminate|].
  destruct (table_find n (sc_macros sc)); [intros [= <- <-]; auto|auto].
Qed.
Lemma find_deref n d id m : NoDup (map sc_id d) -> find_ptr n d = Some (id, m) -> deref (id, n) d = Ok m.
Proof.
  induction d as [|sc d IH]; cbn; [discriminate|]. intros ND H. inversion ND; subst.
  destruct (table_find n (sc_macros sc)) eqn:E.
  - injection H as <- <-. now rewrite Nat.eqb_refl.
  - destruct (Nat.eqb_spec (sc_id sc) id) as [<-|]; [|auto].
    apply find_ptr_in in H. contradiction.
Qed.

Lemma not_primitive n : ~ primitive n ->
  name_eqb n DEF = false /\ name_eqb n IFBR = false /\ name_eqb n CSNAME = false /\ name_eqb n EXPANDAFTER = false.
Proof.
  unfold primitive. cbn [In]. intros H.
  repeat split; match goal with |- name_eqb ?a ?b = false => destruct (name_eqb_spec a b); [subst; exfalso; apply H; unfold DEF, IFBR, CSNAME, EXPANDAFTER; tauto|reflexivity] end.
Qed.

Lemma macro_expandable s n m ts args r :
  p_input s = [] -> ids_ok s -> ~ primitive n -> find s n = Some m ->
  call (m_param m) ts args -> List.length args <= 9 -> instance args (m_repl m) r ->
  expandable s n ts (p_defs s) r.
Proof.
  intros Ei [ND _] NP F C L I fs.
  apply not_primitive in NP as (N1 & N2 & N3 & N4).
  unfold find in F. destruct (find_ptr n (p_defs s)) as [[id m']|] eqn:FP; [|discriminate].
  cbn in F. injection F as ->.
  pose proof (find_deref _ _ _ _ ND FP) as DR.
  assert (P : processControlSeq (set_frames s fs) n =
    match m_param m with
    | [] => do e <- macro_expand m no_args; Ok (set_input (set_frames s fs) (e ++ p_input s))
    | _ => do x <- update_expand (m_param m) ExMatching (mkEx (id, n) 0 0 0 no_args);
           Ok (enter (set_frames s fs) (FExpanding (fst x) (snd x)))
    end).
  { unfold processControlSeq. rewrite N1, N2, N3, N4.
    change (p_defs (set_frames s fs)) with (p_defs s). rewrite FP. reflexivity. }
  destruct (m_param m) as [|p pat] eqn:Hp.
  - left. inversion C; subst. split; [reflexivity|]. split; [|reflexivity].
    rewrite P. unfold macro_expand. rewrite (instance_expand [] _ _ L I : expand_list no_args _ = _).
    cbn [bind]. rewrite Ei, app_nil_r. reflexivity.
  - right.
    destruct (update_expand_at (id, n) (m_param m) ExMatching 0 0 0 no_args) as (sub & d & U & A); [lia|].
    exists (FExpanding sub d). split.
    + rewrite P, <- Hp, U. reflexivity.
    + intros s' ST. rewrite set_defs_id in ST.
      eapply (call_quiet s fs (id, n) m Ei DR (p :: pat) ts args C [] []); eauto.
      * discriminate.
      * exact (instance_expand args _ _ L I).
Qed.

Lemma expands_expandable s : p_input s = [] -> ids_ok s -> forall ts r, expands s ts r ->
  exists c tl, ts = TCs c :: tl /\ expandable s c tl (p_defs s) r.
Proof.
  intros Ei ID. induction 1 as [n m ts args r NP F C L I|l|a N|a b N N'|a ts r E IH].
  - exists n, ts. split; [reflexivity|]. eapply macro_expandable; eauto.
  - do 2 eexists; split; [reflexivity|]. now apply csname_expandable.
  - do 2 eexists; split; [reflexivity|]. now apply ifbr_expandable.
  - do 2 eexists; split; [reflexivity|]. now apply ifbr_else_expandable.
  - destruct IH as (c & tl & -> & X). do 2 eexists; split; [reflexivity|].
    now apply expandable_after.
Qed.

Lemma expands_effect s ts r : reachable s -> idle s -> expands s ts r -> effect s ts (set_input s r).
Proof.
  intros R I E Ei. apply quiet_effect; [|exact Ei].
  destruct (expands_expandable s Ei (reachable_ids s R) ts r E) as (c & tl & -> & X).
  pose proof (expandable_quiet _ _ _ _ _ Ei I X) as Q. now rewrite set_defs_id in Q.
Qed.

(** ** Definitions *)

Lemma def_effect s m s' : idle s -> well_formed m -> define s m = Ok s' -> effect s (def_text m) s'.
Proof.
  intros I W D Ei. apply quiet_effect; [|exact Ei].
  destruct I as [b I].
  eapply q_cons with (s1 := set_frames s (FReading RMName (mkRM [] 1 [] 0 []) :: p_frames s)).
  - unfold process. rewrite I. unfold processControlSeq, enter. cbn. now rewrite I.
  - exact Ei.
  - eapply def_quiet; [exact W|exact Ei|rewrite set_frames_id; exact D|].
    apply settle_idle. exists b. unfold define in D. destruct (p_defs s); [discriminate|].
    injection D as <-. exact I.
Qed.

Lemma define_fields s m s' : define s m = Ok s' ->
  p_input s' = p_input s /\ p_output s' = p_output s /\ p_br s' = p_br s /\ p_frames s' = p_frames s.
Proof. unfold define. destruct (p_defs s); [discriminate|]. intros [= <-]. auto. Qed.

Lemma def_lemma s m : idle s -> p_defs s <> [] -> well_formed m -> exists s',
  effect s (def_text m) s' /\ find s' (m_cs m) = Some m /\
  (forall n, n <> m_cs m -> find s' n = find s n) /\
  p_input s' = p_input s /\ p_output s' = p_output s /\ p_br s' = p_br s /\ p_frames s' = p_frames s.
Proof.
  intros I ND W. destruct (define s m) as [s'| | | |] eqn:D;
    try (unfold define in D; destruct (p_defs s); [congruence|discriminate]).
  exists s'. split; [now apply def_effect|]. split; [|split].
  - rewrite (find_define _ _ _ _ D), name_eqb_refl. reflexivity.
  - intros n Hn. rewrite (find_define _ _ _ _ D). destruct (name_eqb_spec n (m_cs m)); congruence.
  - now apply define_fields in D.
Qed.

(** a parameter out of order is refused *)
Lemma def_order_lemma s c ps n rest :
  idle s -> p_input s = [] -> params_from 1 ps ->
  n <> (1 + Z.of_nat (List.length (filter isParameterToken ps)))%Z ->
  pwrites s (cs "def" :: TCs c :: ps ++ TParam n :: rest) = Throw.
Proof.
  intros [b I] Ei P N.
  assert (G : forall ps s idx qs, p_input s = [] -> params_from idx ps ->
    n <> (idx + Z.of_nat (List.length (filter isParameterToken ps)))%Z ->
    pwrites (reading s (FIdle :: b) RMParam c idx qs 0 []) (ps ++ TParam n :: rest) = Throw).
  { clear. induction ps as [|t ps IH]; intros s idx qs Ei P N.
    - unfold pwrites. cbn [app foldM].
      replace (pwrite (reading s (FIdle :: b) RMParam c idx qs 0 []) (TParam n)) with (@Throw pstate); [reflexivity|].
      unfold pwrite. change (p_input (reading s (FIdle :: b) RMParam c idx qs 0 [])) with (p_input s). rewrite Ei.
      rewrite process_reading. unfold readMacro. cbn.
      destruct (Z.eqb_spec n idx); [subst; exfalso; apply N; cbn; lia|reflexivity].
    - unfold pwrites. cbn [app foldM].
      assert (W : forall t, pwrite (reading s (FIdle :: b) RMParam c idx qs 0 []) t =
                  readMacro (reading s (FIdle :: b) RMParam c idx qs 0 []) RMParam (mkRM c idx qs 0 []) t).
      { intros u. unfold pwrite. change (p_input (reading s (FIdle :: b) RMParam c idx qs 0 [])) with (p_input s). now rewrite Ei. }
      rewrite W. unfold readMacro. destruct t as [a k|x|x].
      + destruct P as [No P]. rewrite (not_open_ch _ No). cbn [bind].
        exact (IH s idx (qs ++ [TChar a k]) Ei P N).
      + destruct P as [No P]. cbn [is_value bind]. exact (IH s idx (qs ++ [TCs x]) Ei P N).
      + destruct P as [-> P]. cbn [is_value rm_index]. rewrite Z.eqb_refl. cbn [negb bind].
        apply (IH s (idx + 1)%Z (qs ++ [TParam idx]) Ei P). cbn [filter isParameterToken List.length] in N. lia. }
  unfold pwrites. cbn [foldM].
  replace (pwrite s (cs "def")) with (Ok (set_frames s (FReading RMName (mkRM [] 1 [] 0 []) :: FIdle :: b))).
  2:{ unfold pwrite, process. rewrite Ei, I. unfold processControlSeq, enter. cbn. now rewrite I. }
  cbn [bind foldM].
  replace (pwrite _ (TCs c)) with (Ok (reading s (FIdle :: b) RMParam c 1 [] 0 [])).
  2:{ unfold pwrite. change (p_input (set_frames s _)) with (p_input s). now rewrite Ei. }
  cbn [bind]. now apply G.
Qed.

(** ** Scoping *)

Lemma grouped_defs ops : grouped ops -> forall s s', apply_all ops s = Ok s' ->
  tl (p_defs s') = tl (p_defs s) /\ List.length (p_defs s') = List.length (p_defs s).
Proof.
  assert (ST : forall s s', defs_step s s' ->
    tl (p_defs s') = tl (p_defs s) /\ List.length (p_defs s') = List.length (p_defs s)).
  { intros s s' D. apply defs_step_ids in D as (_ & M & T). split; [exact T|].
    rewrite <- (map_length sc_id), M, map_length. reflexivity. }
  induction 1 as [|o l Nb Ne G IH|a l Ga IHa Gl IHl]; intros s s' H.
  - injection H as <-. auto.
  - unfold apply_all in H. cbn [foldM] in H. apply bind_Ok in H as (s1 & A & H).
    apply IH in H as [T L].
    assert (X : defs_step s s1).
    { destruct o; cbn in A; try congruence;
        [eapply pwrite_defs|eapply advance_defs|eapply define_step]; eauto. }
    apply ST in X as [T' L']. split; congruence.
  - unfold apply_all in H. cbn [foldM] in H. apply bind_Ok in H as (s1 & A & H).
    cbn in A. injection A as <-.
    rewrite foldM_app in H. apply bind_Ok in H as (s2 & A & H).
    cbn [foldM] in H. apply bind_Ok in H as (s3 & E & H).
    apply IHa in A as [T L]. cbn in T, L.
    cbn in E. unfold endGroup in E. destruct (p_defs s2) as [|sc r]; [discriminate|].
    injection E as <-. apply IHl in H as [T2 L2]. cbn in T, T2, L2. subst r. auto.
Qed.

Lemma group_restores ops s s' : grouped ops ->
  apply_all (OpBegin :: ops ++ [OpEnd]) s = Ok s' -> p_defs s' = p_defs s.
Proof.
  intros G H. unfold apply_all in H. cbn [foldM] in H. apply bind_Ok in H as (s1 & A & H).
  cbn in A. injection A as <-. rewrite foldM_app in H. apply bind_Ok in H as (s2 & A & H).
  cbn [foldM] in H. apply bind_Ok in H as (s3 & E & H). injection H as <-.
  apply (grouped_defs ops G) in A as [T L]. cbn in T, L, E.
  unfold endGroup in E. destruct (p_defs s2) as [|sc r]; [discriminate|].
  injection E as <-. exact T.
Qed.

Definition env_of (d : list scope) : env := fun n => option_map snd (find_ptr n d).
Fixpoint represents (d : list scope) (st : list env) : Prop :=
  match d, st with
  | [], [] => True
  | _ :: d', e :: st' => (forall n, e n = env_of d n) /\ represents d' st'
  | _, _ => False
  end.

Lemma scope_run_app a b st : fold_left scope_step (a ++ b) st = fold_left scope_step b (fold_left scope_step a st).
Proof. apply fold_left_app. Qed.
Lemma scope_none ops : fold_left scope_step ops None = None.
Proof. induction ops; cbn; auto. Qed.

Lemma scope_represents ops : forall s st st',
  represents (p_defs s) st -> fold_left scope_step ops (Some st) = Some st' ->
  exists s', apply_all ops s = Ok s' /\ represents (p_defs s') st'.
Proof.
  induction ops as [|o ops IH]; intros s st st' R H; cbn [fold_left] in H.
  - injection H as <-. exists s. split; [reflexivity|exact R].
  - destruct (scope_step (Some st) o) as [st1|] eqn:E; [|rewrite scope_none in H; discriminate].
    assert (X : exists s1, apply s o = Ok s1 /\ represents (p_defs s1) st1).
    { destruct o; cbn in E; try (destruct st; discriminate).
      - destruct st as [|e r]; [discriminate|]. injection E as <-.
        eexists; split; [reflexivity|].
        destruct (p_defs s) as [|sc d] eqn:Ed; [destruct R|]. destruct R as [Re R].
        cbn. rewrite Ed. split; [|split; [exact Re|exact R]].
        intros n. rewrite Re. reflexivity.
      - destruct st as [|e0 [|e r]]; try discriminate. injection E as <-.
        destruct (p_defs s) as [|sc d] eqn:Ed; [destruct R|]. destruct R as [Re R].
        exists (set_defs s d). split; [cbn; unfold endGroup; now rewrite Ed|exact R].
      - destruct st as [|e r]; [discriminate|]. injection E as <-.
        destruct (p_defs s) as [|sc d] eqn:Ed; [destruct R|]. destruct R as [Re R].
        destruct (define s m) as [s1| | | |] eqn:D;
          try (unfold define in D; rewrite Ed in D; discriminate).
        exists s1. split; [exact D|].
        pose proof (fun n => find_define _ _ _ n D) as F. unfold find in F.
        pose proof D as D'. unfold define in D'. rewrite Ed in D'. injection D' as <-.
        split; [|exact R]. intros n. specialize (F n). rewrite Ed in F.
        unfold env_of. cbn [p_defs set_defs] in F. rewrite F. unfold update.
        destruct (name_eqb n (m_cs m)); [reflexivity|]. apply Re. }
    destruct X as (s1 & A & R1). destruct (IH s1 st1 st' R1 H) as (s' & A' & R').
    exists s'. split; [|exact R']. unfold apply_all. cbn [foldM]. rewrite A. exact A'.
Qed.

Lemma scope_lemma ops e r : scope_run ops = Some (e :: r) ->
  exists s, apply_all ops pinit = Ok s /\ forall n, find s n = e n.
Proof.
  intros H. destruct (scope_represents ops pinit [fun _ => None] (e :: r)) as (s & A & R); [|exact H|].
  - cbn. split; [reflexivity|exact I].
  - exists s. split; [exact A|]. intros n. unfold find.
    destruct (p_defs s) as [|sc d]; [destruct R|]. destruct R as [Re _]. symmetry. apply Re.
Qed.

(** ** Formats *)

Lemma name_ltb_spec a b : name_ltb a b = true <-> name_lt a b.
Proof.
  revert b; induction a as [|x a IH]; intros [|y b]; cbn [name_ltb]; (split; intros H);
    [discriminate|inversion H|constructor|reflexivity|discriminate|inversion H| |].
  - revert H. destruct (Nat.ltb_spec (nat_of_ascii x) (nat_of_ascii y)); [now constructor|].
    destruct (Nat.ltb_spec (nat_of_ascii y) (nat_of_ascii x)); [discriminate|]. intros H1.
    assert (E : x = y).
    { rewrite <- (ascii_nat_embedding x), <- (ascii_nat_embedding y). f_equal. lia. }
    subst y. apply nl_tail. now apply IH.
  - inversion H; subst.
    + destruct (Nat.ltb_spec (nat_of_ascii x) (nat_of_ascii y)); [reflexivity|lia].
    + rewrite Nat.ltb_irrefl. now apply IH.
Qed.
Lemma name_lt_total a b : a <> b -> name_ltb a b = false -> name_lt b a.
Proof.
  revert b; induction a as [|x a IH]; intros [|y b] N H; cbn [name_ltb] in H; try discriminate; try congruence.
  - constructor.
  - revert H. destruct (Nat.ltb_spec (nat_of_ascii x) (nat_of_ascii y)); [discriminate|].
    destruct (Nat.ltb_spec (nat_of_ascii y) (nat_of_ascii x)); [now constructor|]. intros H1.
    assert (E : x = y).
    { rewrite <- (ascii_nat_embedding x), <- (ascii_nat_embedding y). f_equal. lia. }
    subst y. apply nl_tail. apply IH; congruence.
Qed.
Lemma name_lt_trans a b c : name_lt a b -> name_lt b c -> name_lt a c.
Proof.
  intros H; revert c; induction H; intros c H'; inversion H'; subst;
    solve [constructor | apply nl_head; lia | apply nl_tail; auto].
Qed.
Lemma name_lt_irrefl a : ~ name_lt a a.
Proof. induction a as [|x a IH]; intros H; inversion H; subst; [lia|auto]. Qed.

Definition sorted (t : table) : Prop := StronglySorted name_lt (map fst t).
Lemma table_set_keys n m t k : In k (map fst (table_set n m t)) -> k = n \/ In k (map fst t).
Proof.
  induction t as [|[a x] t IH]; cbn; [intuition|].
  destruct (name_eqb_spec n a) as [->|]; cbn; [intuition|].
  destruct (name_ltb n a); cbn; intuition.
Qed.
Lemma table_set_sorted n m t : sorted t -> sorted (table_set n m t).
Proof.
  unfold sorted. induction t as [|[a x] t IH]; cbn; intros S.
  - repeat constructor.
  - inversion S as [|? ? S' F]; subst.
    destruct (name_eqb_spec n a) as [->|E]; cbn; [exact S|].
    destruct (name_ltb n a) eqn:L; cbn.
    + apply name_ltb_spec in L. constructor; [exact S|]. constructor; [exact L|].
      eapply Forall_impl; [|exact F]. intros b Hb. eapply name_lt_trans; eauto.
    + constructor; [auto|]. apply name_lt_total in L; [|exact E].
      apply Forall_forall. intros k Hk. apply table_set_keys in Hk as [->|Hk]; [exact L|].
      rewrite Forall_forall in F. auto.
Qed.
Lemma table_set_entries n m t k x : sorted t ->
  In (k, x) (table_set n m t) <-> (k = n /\ x = m) \/ (k <> n /\ In (k, x) t).
Proof.
  unfold sorted. induction t as [|[a y] t IH]; cbn; intros S.
  - split; [intros [H|[]]; injection H; auto|intros [[-> ->]|[_ []]]; auto].
  - inversion S as [|? ? S' F]; subst. rewrite Forall_forall in F.
    assert (NA : forall z, In (a, z) t -> False).
    { intros z Hz. apply (name_lt_irrefl a). apply F. change a with (fst (a, z)). now apply in_map. }
    destruct (name_eqb_spec n a) as [->|E]; cbn.
    + split.
      * intros [H|H]; [injection H; auto|]. right. split; [|auto]. intros ->. eapply NA; eauto.
      * intros [[-> ->]|[Hk [H|H]]]; auto. injection H as -> ->. congruence.
    + destruct (name_ltb n a) eqn:L; cbn.
      * split.
        -- intros [H|H]; [injection H; auto|]. right. split; [|exact H]. intros ->.
           apply name_ltb_spec in L. destruct H as [H|H]; [injection H as -> ->; congruence|].
           apply (name_lt_irrefl n). eapply name_lt_trans; [exact L|]. apply F.
           change n with (fst (n, x)). now apply in_map.
        -- intros [[-> ->]|[Hk H]]; auto.
      * rewrite IH by exact S'. split.
        -- intros [H|H]; [injection H as -> ->; right; split; [congruence|auto]|]. intuition.
        -- intuition.
Qed.

Lemma last_def_app items i m : last_def (items ++ [i]) m <->
  (i = FmtDef m) \/ (last_def items m /\ forall m', i = FmtDef m' -> m_cs m' <> m_cs m).
Proof.
  split.
  - intros (a & b & E & N). destruct b as [|x b] using rev_ind.
    + apply app_inj_tail in E as [_ ->]. auto.
    + clear IHb. rewrite app_comm_cons, app_assoc in E. apply app_inj_tail in E as [-> ->]. right. split.
      * exists a, b. split; [reflexivity|]. intros m' H. apply N. apply in_or_app; auto.
      * intros m' Hx. rewrite Hx in N. apply N. apply in_or_app. right; now left.
  - intros [->|[(a & b & -> & N) H]].
    + exists items, []. split; [reflexivity|intros ? []].
    + exists a, (b ++ [i]). split; [now rewrite <- app_assoc|].
      intros m' Hm. apply in_app_or in Hm as [Hm|[Hm|[]]]; auto.
Qed.

Lemma effect_trans s a s1 b s2 : p_input s1 = [] -> effect s a s1 -> effect s1 b s2 -> effect s (a ++ b) s2.
Proof.
  intros E1 A B Ei. destruct (A Ei) as [A1 A2]. destruct (B E1) as [B1 B2]. split.
  - unfold pwrites. rewrite foldM_app. unfold pwrites in A1. rewrite A1. exact B1.
  - intros rest. rewrite app_length, advances_add, <- app_assoc, A2. cbn [bind].
    unfold push. rewrite E1. apply B2.
Qed.

Lemma format_items items : Forall fmt_ok items -> exists t o,
  effect pinit (flat_map fmt_tokens items) (mkP false [] o [mkScope 0 t] [FIdle] 1) /\
  sorted t /\ (forall k m, In (k, m) t <-> k = m_cs m /\ last_def items m).
Proof.
  induction items as [|i items IH] using rev_ind; intros F.
  - exists [], []. split; [apply quiet_effect, q_nil|]. split; [constructor|].
    intros k m; split; [intros []|]. intros [_ (a & b & E & _)]. now destruct a.
  - apply Forall_app in F as [F Fi]. apply Forall_inv in Fi.
    destruct (IH F) as (t & o & E & S & L). rewrite flat_map_app. cbn [flat_map]. rewrite app_nil_r.
    destruct i as [m|c k].
    + exists (table_set (m_cs m) m t), o. split; [|split].
      * eapply effect_trans; [|exact E|]; [reflexivity|]. cbn [fmt_tokens]. apply def_effect; [now exists []|exact Fi|reflexivity].
      * now apply table_set_sorted.
      * intros k x. rewrite table_set_entries by exact S. rewrite last_def_app, L. split.
        -- intros [[-> ->]|[Hk [-> HL]]]; [auto|]. split; [reflexivity|]. right. split; [exact HL|].
           intros m' [= <-]. congruence.
        -- intros [-> [[= ->]|[HL N]]]; [auto|]. right. split; [|auto]. intros E'. now apply (N m).
    + exists t, (o ++ [TChar c k]). split; [|split; [exact S|]].
      * eapply effect_trans; [|exact E|]; [reflexivity|]. cbn [fmt_tokens].
        apply quiet_effect, q_one. reflexivity.
      * intros k' m. rewrite last_def_app, L. split.
        -- intros [-> H]. split; [reflexivity|]. right. split; [exact H|]. discriminate.
        -- intros [-> [H|[H _]]]; [discriminate|auto].
Qed.

Lemma sorted_map_snd t : (forall k m, In (k, m) t -> k = m_cs m) -> map m_cs (map snd t) = map fst t.
Proof.
  intros H. rewrite map_map. apply map_ext_in. intros [k m] I. cbn. symmetry. eauto.
Qed.

Lemma format_lemma src l items :
  feed format_catcodes lexer_init src = (l, None) -> l_out l = flat_map fmt_tokens items ->
  Forall fmt_ok items ->
  exists ms, format_parse src = Ok ms /\
    (forall m, In m ms <-> last_def items m) /\ StronglySorted name_lt (map m_cs ms).
Proof.
  intros H O F. destruct (format_items items F) as (t & o & E & S & L).
  destruct (E eq_refl) as [W _]. exists (map snd t).
  assert (K : forall k m, In (k, m) t -> k = m_cs m) by (intros k m I; now apply L in I).
  split; [|split].
  - unfold format_parse. rewrite H, O, W. cbn. now rewrite app_nil_r.
  - intros m. rewrite in_map_iff. split.
    + intros ([k x] & <- & I). cbn. now apply L in I.
    + intros I. exists (m_cs m, m). split; [reflexivity|]. apply L. auto.
  - rewrite sorted_map_snd by exact K. exact S.
Qed.
Lemma sorted_nodup l : StronglySorted name_lt l -> NoDup l.
Proof.
  induction 1 as [|a l S IH F]; constructor; auto. intros I. rewrite Forall_forall in F.
  exact (name_lt_irrefl a (F a I)).
Qed.
