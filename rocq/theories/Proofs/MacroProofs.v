(** Proofs about the preprocessor. *)
From Coq Require Import List Ascii String ZArith Bool Arith Lia.
From Verif.Base Require Import Result.
From Verif.Model Require Import Token Macro Preprocessor.
From Verif.Spec Require Import MacroSpec.
From Verif.Proofs Require Import LexerProofs.
Import ListNotations.

Lemma set_input_id s : set_input s (p_input s) = s.
Proof. destruct s; reflexivity. Qed.
Lemma push_nil s : push s [] = s.
Proof. unfold push; rewrite app_nil_r; apply set_input_id. Qed.
Lemma push_push s a b : push (push s a) b = push s (a ++ b).
Proof. unfold push; destruct s; cbn. now rewrite app_assoc. Qed.

(** ** Processing commutes with waiting input *)

Lemma rmap_bind {A B C} (f : B -> C) (x : result A) (g : A -> result B) :
  rmap f (bind x g) = bind x (fun a => rmap f (g a)).
Proof. now destruct x. Qed.
Lemma bind_rmap {A B C} (f : A -> B) (x : result A) (g : B -> result C) :
  bind (rmap f x) g = bind x (fun a => g (f a)).
Proof. now destruct x. Qed.
Lemma bind_ext {A B} (x : result A) (f g : A -> result B) :
  (forall a, f a = g a) -> bind x f = bind x g.
Proof. destruct x; cbn; auto. Qed.

Lemma leave_frames_app fs i r :
  leave_frames fs (i ++ r) = rmap (fun x => (fst x, snd x ++ r)) (leave_frames fs i).
Proof.
  revert i; induction fs as [|f fs IH]; intros i; cbn; [reflexivity|].
  destruct f; cbn; try reflexivity. apply (IH (cs :: i)).
Qed.
Lemma leave_push s r : leave (push s r) = rmap (fun s => push s r) (leave s).
Proof.
  unfold leave, push. destruct s as [br i o d f n]; cbn. destruct f as [|f fs]; [reflexivity|].
  rewrite leave_frames_app, rmap_bind, bind_rmap.
  apply bind_ext. now intros [? ?].
Qed.
Lemma processControlSeq_push s c r :
  processControlSeq (push s r) c = rmap (fun s => push s r) (processControlSeq s c).
Proof.
  unfold processControlSeq.
  destruct (name_eqb c DEF); [reflexivity|].
  destruct (name_eqb c IFBR); [reflexivity|].
  destruct (name_eqb c CSNAME); [reflexivity|].
  destruct (name_eqb c EXPANDAFTER); [reflexivity|].
  change (p_defs (push s r)) with (p_defs s).
  destruct (find_ptr c (p_defs s)) as [[id m]|]; [|reflexivity].
  destruct (m_param m); rewrite rmap_bind; apply bind_ext; intros x; cbn.
  - unfold push; destruct s; cbn. now rewrite app_assoc.
  - reflexivity.
Qed.
Lemma define_push s m r : define (push s r) m = rmap (fun s => push s r) (define s m).
Proof. unfold define; destruct s as [br i o d f n]; cbn. now destruct d. Qed.

Ltac cases_if :=
  match goal with
  | |- context [if ?b then _ else _] => destruct b eqn:?
  | |- context [match ?x with _ => _ end] => destruct x eqn:?
  end.

Lemma process_push s t r : process (push s r) t = rmap (fun s => push s r) (process s t).
Proof.
  unfold process. change (p_frames (push s r)) with (p_frames s).
  destruct (p_frames s) as [|f fs]; [reflexivity|]. destruct f.
  - destruct t; [reflexivity|apply processControlSeq_push|reflexivity].
  - unfold readMacro. destruct s0.
    + now destruct t.
    + destruct (is_value t "{"%char); [reflexivity|]. destruct t; try reflexivity.
      now destruct (negb (n =? rm_index d)%Z).
    + destruct (is_value t "{"%char); [reflexivity|]. destruct (is_value t "}"%char); [|reflexivity].
      destruct (rm_nesting d =? 0)%Z; [|reflexivity].
      rewrite define_push, bind_rmap, rmap_bind. apply bind_ext; intros. apply leave_push.
  - unfold expandMacro. change (p_defs (push s r)) with (p_defs s).
    rewrite rmap_bind; apply bind_ext; intros m.
    rewrite rmap_bind; apply bind_ext; intros [sub' d'].
    destruct (ex_pat d' =? List.length (m_param m)); [|reflexivity].
    rewrite rmap_bind; apply bind_ext; intros e.
    rewrite <- leave_push. f_equal. unfold push; destruct s; cbn. now rewrite app_assoc.
  - unfold branch.
    destruct (is_if t); [reflexivity|].
    destruct (is_else t); [now destruct (br_nesting d =? 0)|].
    destruct (is_fi t); [|reflexivity].
    destruct (br_nesting d =? 0); [|reflexivity].
    rewrite <- leave_push. f_equal. unfold push; destruct s; cbn. now rewrite app_assoc.
  - unfold formCs. destruct t; try reflexivity.
    destruct (name_eqb n0 (str "endcsname")); [|reflexivity].
    rewrite <- leave_push. reflexivity.
  - now destruct t.
  - destruct t; try reflexivity. unfold expandafter_expanding.
    change (set_top (push s r) (FAfterInserting cs)) with (push (set_top s (FAfterInserting cs)) r).
    rewrite processControlSeq_push, bind_rmap, rmap_bind. apply bind_ext; intros s'.
    change (p_frames (push s' r)) with (p_frames s').
    change (p_frames (push s r)) with (p_frames s).
    destruct (List.length (p_frames s') =? List.length (p_frames s)); [|reflexivity].
    rewrite <- leave_push. reflexivity.
  - reflexivity.
Qed.

(** ** The order in which writing and advancing alternate does not matter *)

Lemma advances_add a b s : advances (a + b) s = bind (advances a s) (advances b).
Proof.
  revert s; induction a as [|a IH]; intros s; cbn; [reflexivity|].
  destruct (advance s); cbn; auto.
Qed.

Lemma advance_push s r : p_input s <> [] ->
  advance (push s r) = rmap (fun s => push s r) (advance s).
Proof.
  unfold advance, push. destruct s as [br i o d f n]; cbn. destruct i as [|t i]; [easy|intros _]; cbn.
  exact (process_push (mkP br i o d f n) t r).
Qed.

Lemma interleave ops : forall s f, Forall write_or_advance ops ->
  apply_all ops s = Ok f -> exists n, advances n (push s (written ops)) = Ok f.
Proof.
  induction ops as [|o ops IH]; intros s f F H.
  - exists 0. cbn in *. now rewrite push_nil.
  - apply Forall_cons_iff in F as [Fo F]. unfold apply_all in H.
    cbn [foldM] in H. apply bind_Ok in H as (s1 & E & H). destruct (IH _ _ F H) as [n Hn].
    destruct o; try easy; cbn [apply written] in *.
    + unfold pwrite in E. destruct (p_input s) as [|u i] eqn:Ei.
      * exists (1 + n). rewrite advances_add.
        assert (X : advances 1 (push s (t :: written ops)) = Ok (push s1 (written ops))).
        { cbn [advances]. change (t :: written ops) with ([t] ++ written ops). rewrite <- push_push.
          unfold push at 2. rewrite Ei. cbn [app]. rewrite advance_push by discriminate.
          unfold advance; cbn [p_input set_input].
          replace (set_input (set_input s [t]) []) with s.
          2:{ destruct s; cbn in *; now subst. }
          now rewrite E. }
        rewrite X. exact Hn.
      * injection E as <-. exists n. rewrite <- Hn. f_equal.
        unfold push; cbn. rewrite Ei, <- app_assoc. reflexivity.
    + destruct (p_input s) as [|u i] eqn:Ei.
      * unfold advance in E; rewrite Ei in E. injection E as <-. now exists n.
      * exists (1 + n). rewrite advances_add. cbn [advances].
        rewrite advance_push by (rewrite Ei; discriminate). rewrite E. cbn. exact Hn.
Qed.

Lemma advances_det n m s a b : advances n s = Ok a -> advances m s = Ok b ->
  p_input a = [] -> p_input b = [] -> a = b.
Proof.
  assert (S : forall k x, p_input x = [] -> advances k x = Ok x).
  { induction k; cbn; intros x Hx; [reflexivity|]. unfold advance; rewrite Hx; cbn; auto. }
  intros Ha Hb Ea Eb.
  destruct (Nat.le_ge_cases n m) as [L|L].
  - replace m with (n + (m - n)) in Hb by lia. rewrite advances_add, Ha in Hb. cbn in Hb.
    rewrite S in Hb by exact Ea. now injection Hb.
  - replace n with (m + (n - m)) in Ha by lia. rewrite advances_add, Hb in Ha. cbn in Ha.
    rewrite S in Ha by exact Eb. now injection Ha.
Qed.

Lemma interleaving_lemma ops ops' s a b :
  Forall write_or_advance ops -> Forall write_or_advance ops' -> written ops = written ops' ->
  apply_all ops s = Ok a -> apply_all ops' s = Ok b -> p_input a = [] -> p_input b = [] -> a = b.
Proof.
  intros F F' W A B Ea Eb.
  destruct (interleave _ _ _ F A) as [n Hn]. destruct (interleave _ _ _ F' B) as [m Hm].
  rewrite <- W in Hm. eapply advances_det; eauto.
Qed.

(** ** Quiet runs: no token but the last one puts anything into the input *)

Inductive quiet : pstate -> list token -> pstate -> Prop :=
| q_nil s : quiet s [] s
| q_one s t s' : process s t = Ok s' -> quiet s [t] s'
| q_cons s t s1 ts s' : process s t = Ok s1 -> p_input s1 = [] -> quiet s1 ts s' ->
    quiet s (t :: ts) s'.

Lemma quiet_app s a s1 b s2 : quiet s a s1 -> p_input s1 = [] -> quiet s1 b s2 -> quiet s (a ++ b) s2.
Proof.
  intros A E B. induction A; cbn; auto.
  - eapply q_cons; eauto.
  - eapply q_cons; eauto.
Qed.
Lemma quiet_snoc s a s1 t s2 : quiet s a s1 -> p_input s1 = [] -> process s1 t = Ok s2 -> quiet s (a ++ [t]) s2.
Proof. intros; eapply quiet_app; eauto using q_one. Qed.

Lemma quiet_effect s ts s' : quiet s ts s' -> effect s ts s'.
Proof.
  induction 1 as [s|s t s' P|s t s1 ts s' P E Q IH]; intros Ei.
  - split; [reflexivity|]. intros rest. unfold push; rewrite Ei. reflexivity.
  - split; [cbn; unfold pwrite; rewrite Ei, P; reflexivity|]. intros rest.
    cbn. unfold advance; cbn.
    replace (set_input (set_input s (t :: rest)) rest) with (push s rest).
    2:{ unfold push; rewrite Ei; reflexivity. }
    rewrite process_push, P. reflexivity.
  - destruct (IH E) as [W A]. split.
    + unfold pwrites. cbn [foldM]. replace (pwrite s t) with (Ok s1) by (unfold pwrite; now rewrite Ei). exact W.
    + intros rest. cbn. unfold advance; cbn.
      replace (set_input (set_input s (t :: ts ++ rest)) (ts ++ rest)) with (push s (ts ++ rest)).
      2:{ unfold push; rewrite Ei; reflexivity. }
      rewrite process_push, P. cbn. unfold push; rewrite E. apply A.
Qed.

(** ** Text *)

Lemma chars_quiet l : forall s, idle s -> p_input s = [] ->
  Forall (fun t => isCharacterToken t = true) l ->
  quiet s l (set_output s (p_output s ++ l)).
Proof.
  induction l as [|t l IH]; intros s I Ei F.
  - rewrite app_nil_r. destruct s; apply q_nil.
  - apply Forall_cons_iff in F as [Ft F].
    destruct I as [below Hb].
    eapply q_cons with (s1 := set_output s (p_output s ++ [t])).
    + unfold process. rewrite Hb. now destruct t.
    + exact Ei.
    + specialize (IH (set_output s (p_output s ++ [t]))). cbn in IH.
      replace (set_output s (p_output s ++ t :: l))
        with (set_output (set_output s (p_output s ++ [t])) ((p_output s ++ [t]) ++ l)).
      2:{ destruct s; cbn. now rewrite <- app_assoc. }
      apply IH; auto. now exists below.
Qed.

(** ** Definitions *)

Lemma name_eqb_refl n : name_eqb n n = true.
Proof. now destruct (name_eqb_spec n n). Qed.

Lemma open_ch_spec t : open_ch t <-> is_value t "{"%char = true.
Proof.
  unfold open_ch, is_value. split.
  - intros [k ->]. now rewrite Ascii.eqb_refl.
  - destruct t as [c k| |]; try discriminate. intros H%Ascii.eqb_eq. subst. now exists k.
Qed.
Lemma close_ch_spec t : close_ch t <-> is_value t "}"%char = true.
Proof.
  unfold close_ch, is_value. split.
  - intros [k ->]. now rewrite Ascii.eqb_refl.
  - destruct t as [c k| |]; try discriminate. intros H%Ascii.eqb_eq. subst. now exists k.
Qed.
Lemma not_open_ch t : ~ open_ch t -> is_value t "{"%char = false.
Proof. rewrite open_ch_spec. apply not_true_is_false. Qed.
Lemma not_close_ch t : ~ close_ch t -> is_value t "}"%char = false.
Proof. rewrite close_ch_spec. apply not_true_is_false. Qed.
Lemma close_not_open t : close_ch t -> is_value t "{"%char = false.
Proof. intros [k ->]; reflexivity. Qed.

Lemma set_frames_frames s f : p_frames (set_frames s f) = f. Proof. reflexivity. Qed.
Lemma set_frames_set s f g : set_frames (set_frames s f) g = set_frames s g. Proof. reflexivity. Qed.

Definition reading (s : pstate) (fs : list frame) sub c idx ps nest body :=
  set_frames s (FReading sub (mkRM c idx ps nest body) :: fs).

Lemma process_reading s fs sub c idx ps nest body t :
  process (reading s fs sub c idx ps nest body) t =
  readMacro (reading s fs sub c idx ps nest body) sub (mkRM c idx ps nest body) t.
Proof. reflexivity. Qed.

Lemma read_params_quiet l : forall s fs c idx ps,
  p_input s = [] -> params_from idx l ->
  exists idx', quiet (reading s fs RMParam c idx ps 0 []) l
                     (reading s fs RMParam c idx' (ps ++ l) 0 []).
Proof.
  induction l as [|t l IH]; intros s fs c idx ps Ei P.
  - exists idx. rewrite app_nil_r. apply q_nil.
  - destruct t as [a k|n|n].
    + destruct P as [No P]. destruct (IH s fs c idx (ps ++ [TChar a k]) Ei P) as [idx' Q].
      exists idx'. rewrite <- app_assoc in Q. eapply q_cons; cycle 2; [exact Q| |exact Ei].
      rewrite process_reading; unfold readMacro. now rewrite (not_open_ch _ No).
    + destruct P as [No P]. destruct (IH s fs c idx (ps ++ [TCs n]) Ei P) as [idx' Q].
      exists idx'. rewrite <- app_assoc in Q. eapply q_cons; cycle 2; [exact Q|reflexivity|exact Ei].
    + destruct P as [-> P]. destruct (IH s fs c (idx + 1)%Z (ps ++ [TParam idx]) Ei P) as [idx' Q].
      exists idx'. rewrite <- app_assoc in Q. eapply q_cons; cycle 2; [exact Q| |exact Ei].
      rewrite process_reading; unfold readMacro. cbn. rewrite Z.eqb_refl. reflexivity.
Qed.

Lemma read_body_quiet l : balanced open_ch close_ch l -> forall s fs c idx ps nest body,
  p_input s = [] -> (0 <= nest)%Z ->
  quiet (reading s fs RMRepl c idx ps nest body) l
        (reading s fs RMRepl c idx ps nest (body ++ l)).
Proof.
  induction 1 as [|t l No Nc B IH|o c b l Ho Hc B1 IH1 B2 IH2]; intros s fs c' idx ps nest body Ei N.
  - rewrite app_nil_r. apply q_nil.
  - specialize (IH s fs c' idx ps nest (body ++ [t]) Ei N). rewrite <- app_assoc in IH.
    eapply q_cons; cycle 2; [exact IH| |exact Ei].
    rewrite process_reading; unfold readMacro. now rewrite (not_open_ch _ No), (not_close_ch _ Nc).
  - eapply q_cons with (s1 := reading s fs RMRepl c' idx ps (nest + 1) (body ++ [o])); [|exact Ei|].
    { rewrite process_reading; unfold readMacro. apply open_ch_spec in Ho. now rewrite Ho. }
    eapply quiet_app; [apply IH1; [exact Ei|lia]|exact Ei|].
    specialize (IH2 s fs c' idx ps nest (((body ++ [o]) ++ b) ++ [c]) Ei N).
    eapply q_cons with (s1 := reading s fs RMRepl c' idx ps nest (((body ++ [o]) ++ b) ++ [c])); [|exact Ei|].
    { rewrite process_reading; unfold readMacro. rewrite (close_not_open _ Hc). apply close_ch_spec in Hc. rewrite Hc.
      cbn. destruct (Z.eqb_spec (nest + 1) 0); [lia|]. now replace (nest + 1 - 1)%Z with nest by lia. }
    replace (body ++ o :: b ++ c :: l) with ((((body ++ [o]) ++ b) ++ [c]) ++ l).
    2:{ now rewrite <- !app_assoc. }
    exact IH2.
Qed.

(** [settle]: what [leave] does to the frames below *)
Definition settle (s : pstate) : result pstate :=
  do x <- leave_frames (p_frames s) (p_input s);
  Ok (set_frames (set_input s (snd x)) (fst x)).
Lemma leave_settle s f fs : p_frames s = f :: fs -> leave s = settle (set_frames s fs).
Proof. intros E. unfold leave, settle. rewrite E. reflexivity. Qed.
Lemma settle_idle s : idle s -> settle s = Ok s.
Proof. intros [b E]. unfold settle. rewrite E. cbn. destruct s; cbn in *; now subst. Qed.

(** The frame [\def] opens, over any frames *)
Lemma def_quiet m s fs s1 s' : well_formed m -> p_input s = [] ->
  define (set_frames s fs) m = Ok s1 -> settle s1 = Ok s' ->
  quiet (set_frames s (FReading RMName (mkRM [] 1 [] 0 []) :: fs))
        (TCs (m_cs m) :: m_param m ++ lbrace :: m_repl m ++ [rbrace]) s'.
Proof.
  intros [P B] Ei D S.
  eapply q_cons with (s1 := reading s fs RMParam (m_cs m) 1 [] 0 []); [reflexivity|exact Ei|].
  destruct (read_params_quiet (m_param m) s fs (m_cs m) 1 [] Ei P) as [idx Q].
  eapply quiet_app; [exact Q|exact Ei|].
  eapply q_cons with (s1 := reading s fs RMRepl (m_cs m) idx (m_param m) 0 []); [reflexivity|exact Ei|].
  eapply quiet_snoc; [apply read_body_quiet; [exact B|exact Ei|lia]|exact Ei|].
  transitivity (bind (define (reading s fs RMRepl (m_cs m) idx (m_param m) 0 (m_repl m)) m) leave).
  { now destruct m. }
  unfold define in *. change (p_defs (reading _ _ _ _ _ _ _ _)) with (p_defs s).
  change (p_defs (set_frames s fs)) with (p_defs s) in D.
  destruct (p_defs s) as [|sc r]; [discriminate|]. injection D as <-. cbn [bind].
  erewrite leave_settle by reflexivity. exact S.
Qed.

Lemma table_find_set n m t k :
  table_find k (table_set n m t) = if name_eqb k n then Some m else table_find k t.
Proof.
  induction t as [|[a x] t IH]; cbn.
  - reflexivity.
  - destruct (name_eqb_spec n a) as [->|E].
    + cbn. now destruct (name_eqb k a).
    + destruct (name_ltb n a); cbn; [reflexivity|]. rewrite IH.
      destruct (name_eqb_spec k a) as [->|]; [|reflexivity].
      destruct (name_eqb_spec a n); congruence.
Qed.
Lemma find_define s m s' n : define s m = Ok s' ->
  find s' n = if name_eqb n (m_cs m) then Some m else find s n.
Proof.
  unfold define, find. destruct (p_defs s) as [|sc r]; [discriminate|]. intros [= <-]. cbn.
  rewrite table_find_set. destruct (name_eqb n (m_cs m)); [reflexivity|].
  now destruct (table_find n (sc_macros sc)).
Qed.
