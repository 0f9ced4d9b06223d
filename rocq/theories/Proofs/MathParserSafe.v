(** The stacks of the math parser. *)
From Coq Require Import List Ascii ZArith Bool Arith Lia.
From Verif.Base Require Import Result.
From Verif.Model Require Import MathList MathParser.
From Verif.Spec Require Import MathSpec.
From Verif.Proofs Require Import FormulaProofs.
Import ListNotations.

(** * What may be above what *)
Definition sits (s t : mstate) : Prop :=
  match s with
  | PMList => False
  | PNucleus | AwaitSup | AwaitSub | PSup | PSub => t = PAtom
  | PBoundary => t = PNucleus
  | PLeft | PRight => t = PBoundary
  | PSqrtDegree | PSqrtRadicand => t = PSqrt
  | PSqrtRadicandM => t = PSqrtRadicand
  | PFracNumer | PFracDenom => t = PFrac
  | PFracNumerM => t = PFracNumer
  | PFracDenomM => t = PFracDenom
  | PMatrixCell => t = PMatrix
  | PAtom | PSqrt | POver | PFrac | PMatrix => True
  end.
Fixpoint shape (l : list mstate) : Prop :=
  match l with
  | [] => False
  | s :: r => match r with [] => s = PMList | t :: _ => sits s t /\ shape r end
  end.
Definition has_list (s : mstate) : nat :=
  match s with
  | PNucleus | PSup | PSub | PSqrtDegree | PSqrtRadicandM | POver | PFracNumerM | PFracDenomM | PMatrixCell => 1
  | _ => 0
  end.
Definition has_builder (s : mstate) : nat := match s with PAtom => 1 | _ => 0 end.
Definition has_matrix (s : mstate) : nat := match s with PMatrixCell => 1 | _ => 0 end.
Fixpoint count (f : mstate -> nat) (l : list mstate) : nat :=
  match l with [] => 0 | s :: r => f s + count f r end.
Definition full (M : list (list (list nat))) : Prop := Forall (fun r => r <> []) M.

Definition wf (m : mp) : Prop :=
  shape (mp_states m) /\ length (mp_lists m) = count has_list (mp_states m) /\
  length (mp_builders m) = count has_builder (mp_states m) /\
  length (mp_matrices m) = count has_matrix (mp_states m) /\ full (mp_matrices m).

Definition after (m : mp) (k : call) (r : result mp) : Prop :=
  match r with
  | Ok m' => wf m'
  | Throw => True
  | UB => waiting m = true /\ (k = CBegin \/ exists s, k = CSym s)
  | Abort | Fuel => False
  end.

Lemma wf_init : wf mp_init.
Proof. repeat split. constructor. Qed.

Lemma wf_commit : forall m, wf m -> exists m1, commitCurrentAtom m = Ok m1 /\ wf m1 /\
  ((m1 = m /\ hd PMList (mp_states m) <> PAtom) \/ exists r, mp_states m = PAtom :: r /\ mp_states m1 = r).
Proof.
  intros [S L h n B M] [W1 [W2 [W3 [W4 W5]]]]. cbn [mp_states mp_lists mp_builders mp_matrices] in *.
  destruct S as [|s S]; [contradiction|].
  destruct s; try (eexists; split; [reflexivity|split; [repeat split; auto|left; split; [reflexivity|discriminate]]]; fail).
  destruct B as [|b B]; [discriminate W3|].
  destruct S as [|t S]; [discriminate W1|]. destruct W1 as [_ W1].
  eexists; split; [reflexivity|]. split; [|right; eexists; split; reflexivity].
  cbn in W3. repeat split; cbn; auto; lia.
Qed.

Lemma shape_cons : forall s t S, shape (s :: t :: S) <-> sits s t /\ shape (t :: S).
Proof. intros; reflexivity. Qed.
Lemma wf_mk : forall S L h n B M, wf (mk S L h n B M) <->
  shape S /\ length L = count has_list S /\ length B = count has_builder S /\
  length M = count has_matrix S /\ full M.
Proof. reflexivity. Qed.

(** open the stacks below the states that fix what is below them *)
Ltac dig1 :=
  match goal with
  | H : shape [] |- _ => contradiction H
  | H : shape (?s :: ?S) |- _ =>
      is_var S;
      match s with
      | PNucleus => idtac | AwaitSup => idtac | AwaitSub => idtac | PSup => idtac | PSub => idtac
      | PBoundary => idtac | PLeft => idtac | PRight => idtac | PSqrtDegree => idtac | PSqrtRadicand => idtac
      | PSqrtRadicandM => idtac | PFracNumer => idtac | PFracDenom => idtac | PFracNumerM => idtac
      | PFracDenomM => idtac | PMatrixCell => idtac
      | PAtom => idtac | PSqrt => idtac | POver => idtac | PFrac => idtac | PMatrix => idtac
      end;
      let t := fresh "t" in
      destruct S as [|t S]; [discriminate H|];
      let E := fresh "E" in
      pose proof (proj1 (proj1 (shape_cons _ _ _) H)) as E; cbn [sits] in E; try subst t
  | H : shape (?s :: ?t :: ?S) |- _ =>
      let E := fresh "Sh" in
      lazymatch goal with
      | _ : shape (t :: S) |- _ => fail
      | _ => pose proof (proj2 (proj1 (shape_cons _ _ _) H)) as E
      end
  | H : length ?l = Datatypes.S _ |- _ =>
      is_var l; let x := fresh "x" in destruct l as [|x l]; [discriminate H|]
  | H : length (_ :: _) = Datatypes.S _ |- _ => cbn [length] in H; apply eq_add_S in H
  | H : full (_ :: _) |- _ =>
      let A := fresh "Fu" in let A' := fresh "Fu" in
      pose proof (Forall_inv H) as A; pose proof (Forall_inv_tail H) as A'; clear H; fold (full) in A'
  end.
Ltac counts H := cbn [count has_list has_builder has_matrix plus] in H.
Ltac opens W :=
  rewrite wf_mk in W; destruct W as [W1 [W2 [W3 [W4 W5]]]];
  repeat (first [dig1 | progress counts W2 | progress counts W3 | progress counts W4]).
Ltac closes :=
  match goal with |- wf ?m => let m' := eval cbv [push_node with_heap with_states with_lists with_builders
     with_matrices enter push_builder pushList mp_states mp_lists mp_heap mp_next mp_builders mp_matrices] in m in
     change (wf m'); rewrite wf_mk end;
  split; [try assumption; try (rewrite shape_cons; split; [exact I || reflexivity|]; try assumption)
         |cbn [length count has_list has_builder has_matrix plus];
          split; [lia|split; [lia|split; [lia|try assumption]]]].

Definition is_list_state (s : mstate) : bool :=
  match s with
  | PMList | PNucleus | PSub | PSup | PBoundary | PSqrtRadicandM | POver | PFracDenomM | PFracNumerM
  | PMatrixCell => true
  | _ => false
  end.
Lemma wf_parse_mlist : forall s m, wf m -> exists m', parse_mlist s m = Ok m' /\ wf m'.
Proof.
  intros s [S L h n B M] [W1 [W2 [W3 [W4 W5]]]]. eexists; split; [reflexivity|].
  unfold wf. cbn [mp_states mp_lists mp_builders mp_matrices with_builders with_states enter push_builder] in *.
  destruct S as [|t S]; [contradiction|]. repeat split; auto. cbn [length count has_builder]. rewrite W3. reflexivity.
Qed.

Lemma cast_ok : forall m, (exists p, back_root m = Ok p) \/ back_root m = UB.
Proof.
  intros m. unfold back_root, back_node. destruct (rev (mlist m)) as [|x r]; [right; reflexivity|].
  destruct x; cbn [bind]; eauto.
Qed.
Lemma cast_ok' : forall m, (exists p, back_frac m = Ok p) \/ back_frac m = UB.
Proof.
  intros m. unfold back_frac, back_node. destruct (rev (mlist m)) as [|x r]; [right; reflexivity|].
  destruct x; cbn [bind]; eauto.
Qed.

Lemma wf_symbol : forall fuel s m, wf m -> length (mp_states m) <= fuel ->
  after m (CSym s) (write_symbol fuel s m).
Proof.
  induction fuel as [|fuel IH]; intros x m W Lf.
  { destruct W as [W _]. destruct (mp_states m); [contradiction|cbn in Lf; lia]. }
  destruct (wf_parse_mlist x m W) as [mp' [Ep Wp]].
  destruct m as [S L h n B M]. cbn [mp_states] in Lf.
  assert (W' := W). destruct S as [|s S]; [destruct W as [W _]; contradiction|].
  cbn [write_symbol state mp_states bind].
  destruct s; try (rewrite Ep; exact Wp); try exact I.
  - (* the pending atom first *)
    destruct (wf_commit _ W) as [m1 [E [Wm1 Hm]]]. rewrite E. cbn [bind].
    destruct Hm as [[_ Hm]|[r [Hr Hm]]]; [contradiction (Hm eq_refl)|]. cbn [mp_states] in Hr. injection Hr as Hr. subst r.
    specialize (IH x m1 Wm1). rewrite Hm in IH. cbn in Lf. specialize (IH ltac:(lia)).
    unfold after in *. destruct (write_symbol fuel x m1); auto.
    unfold waiting in *. cbn [mp_states pending_away]. rewrite Hm in IH. auto.
  - opens W. cbn -[shape wf]. closes.
  - opens W. cbn -[shape wf]. closes.
  - opens W. cbn -[shape wf]. closes.
  - opens W. cbn -[shape wf]. closes.
  - unfold parse_sqrt. opens W. destruct (Z.eqb (s_char x) lbracket); cbn -[shape wf]; closes.
  - unfold parse_sqrt_degree. destruct (Z.eqb (s_char x) rbracket); [|rewrite Ep; exact Wp].
    opens W. cbn -[shape wf]. closes.
  - unfold parse_sqrt_radicand. destruct (cast_ok (mk (PSqrtRadicand :: S) L h n B M)) as [[p E]|E]; rewrite E;
      cbn [bind after]; [|split; [reflexivity|eauto]]. opens W. unfold append; cbn -[shape wf hset]. closes.
  - unfold parse_frac_numer. destruct (cast_ok' (mk (PFracNumer :: S) L h n B M)) as [[p E]|E]; rewrite E;
      cbn [bind after]; [|split; [reflexivity|eauto]]. opens W. unfold append; cbn -[shape wf hset]. closes.
  - unfold parse_frac_denom. destruct (cast_ok' (mk (PFracDenom :: S) L h n B M)) as [[p E]|E]; rewrite E;
      cbn [bind after]; [|split; [reflexivity|eauto]]. opens W. unfold append; cbn -[shape wf hset]. closes.
Qed.

(** * The other calls *)
Ltac begins W m :=
  let m1 := fresh "m" in let E := fresh "E" in
  destruct (wf_commit m W) as [m1 [E [Wm _]]]; rewrite E; cbn [bind]; clear E W;
  rename Wm into W; destruct m1 as [S L h n B M];
  destruct S as [|s S]; [destruct W as [W _]; contradiction|].

Lemma shape_top : forall m, wf m -> exists s r, mp_states m = s :: r.
Proof. intros m [W _]. destruct (mp_states m) as [|s r]; [contradiction|eauto]. Qed.

Lemma wf_script : forall st k m, st = AwaitSup \/ st = AwaitSub -> wf m -> after m k (begin_script st m).
Proof.
  intros st k [S L h n B M] Hst W. destruct S as [|s S]; [destruct W as [W _]; contradiction|].
  unfold begin_script. cbn [state mp_states bind].
  destruct s; cbn [isParsingMList]; try exact I; try (cbn [state mp_states bind enter with_states push_builder with_builders]).
  all: destruct Hst; subst st; rewrite wf_mk in W; destruct W as [W1 [W2 [W3 [W4 W5]]]];
    counts W2; counts W3; counts W4;
    cbn -[shape wf]; closes; try (split; [reflexivity|]); rewrite ?shape_cons; repeat split; auto.
Qed.

Lemma wf_nucleus : forall ty k m0 m, wf m -> after m0 k (begin_nucleus ty m).
Proof.
  intros ty k m0 [S L h n B M] W. destruct S as [|s S]; [destruct W as [W _]; contradiction|].
  rewrite wf_mk in W; destruct W as [W1 [W2 [W3 [W4 W5]]]]. counts W2; counts W3; counts W4.
  cbn -[shape wf]. closes. rewrite shape_cons; split; auto. exact I.
Qed.
Lemma wf_field : forall a st k m S L h n B M, a = AwaitSup \/ a = AwaitSub -> st = PSup \/ st = PSub ->
  wf (mk (a :: S) L h n B M) -> after m k (begin_field st (mk (a :: S) L h n B M)).
Proof.
  intros a st k m S L h n B M Ha Hs W.
  destruct Ha, Hs; subst; opens W; cbn -[shape wf]; closes.
Qed.

Lemma wf_begin : forall m, wf m -> after m CBegin (beginMathList m).
Proof.
  intros m W. unfold beginMathList.
  destruct (wf_commit m W) as [m1 [E1 [W1' _]]].
  destruct m as [S L h n B M]. destruct S as [|s S]; [destruct W as [W _]; contradiction|].
  cbn [state mp_states bind].
  destruct s; try (rewrite E1; cbn [bind]; apply wf_nucleus; assumption); clear E1 W1'.
  - apply wf_field; auto.
  - apply wf_field; auto.
  - opens W. cbn -[shape wf]. closes.
  - destruct (cast_ok (mk (PSqrtRadicand :: S) L h n B M)) as [[p E]|E]; rewrite E;
      cbn [bind after]; [|split; auto]. opens W. cbn -[shape wf]. closes.
  - destruct (cast_ok' (mk (PFracNumer :: S) L h n B M)) as [[p E]|E]; rewrite E;
      cbn [bind after]; [|split; auto]. opens W. cbn -[shape wf]. closes.
  - destruct (cast_ok' (mk (PFracDenom :: S) L h n B M)) as [[p E]|E]; rewrite E;
      cbn [bind after]; [|split; auto]. opens W. cbn -[shape wf]. closes.
  - opens W. cbn -[shape wf]. closes. constructor; auto. discriminate.
Qed.

Lemma allocs_stacks : forall ls m, exists h n,
  snd (allocs ls m) = mk (mp_states m) (mp_lists m) h n (mp_builders m) (mp_matrices m).
Proof.
  intros ls [S L h n B M]. destruct (allocs_spec ls S L h n B M) as [h' [E _]]. rewrite E. cbn [snd]. eauto.
Qed.

Lemma wf_end : forall m, wf m -> after m CEnd (endMathList m).
Proof.
  intros m W. unfold endMathList. begins W m.
  cbn [state mp_states bind].
  destruct s; try exact I; try (opens W; cbn -[shape wf]; closes; fail).
  - (* POver *)
    opens W. cbn -[shape wf]. destruct t; try closes; cbn -[shape wf]; try closes.
    all: repeat (first [dig1 | progress counts W2 | progress counts W3 | progress counts W4]); cbn -[shape wf]; closes;
      try (constructor; assumption).
  - (* PMatrixCell *)
    opens W. cbn -[shape wf build_matrix]. unfold build_matrix.
    set (els := elements _ _). clearbody els.
    match goal with |- context [allocs els ?m0] => destruct (allocs_stacks els m0) as [h' [n' Ea]];
      destruct (allocs els m0) as [is m1] end.
    cbn [snd] in Ea. subst m1. cbn -[shape wf]. closes.
Qed.

Lemma wf_after : forall m k m', wf m' -> after m k (Ok m').
Proof. auto. Qed.
Ltac plain W :=
  rewrite wf_mk in W; destruct W as [W1 [W2 [W3 [W4 W5]]]]; counts W2; counts W3; counts W4;
  cbn -[shape wf]; closes; rewrite ?shape_cons; repeat split; auto.

Lemma wf_calls : forall m k, wf m -> after m k (do_call m k).
Proof.
  intros m k W. destruct k; cbn [do_call].
  - apply wf_symbol; auto.
  - exact I.
  - apply wf_script; auto.
  - apply wf_script; auto.
  - apply wf_begin; auto.
  - apply wf_end; auto.
  - unfold left. begins W m. plain W.
  - unfold right. begins W m. cbn [state mp_states bind]. destruct s; try exact I. plain W.
  - unfold over. begins W m. plain W.
  - unfold frac. begins W m. plain W.
  - unfold sqrt. begins W m. plain W.
  - unfold matrix. begins W m. plain W.
  - unfold alignmentTab, in_cell. begins W m. cbn [state mp_states bind]. destruct s; try exact I.
    opens W. cbn -[shape wf rev]. destruct (rev x0) as [|r before] eqn:Er.
    { apply (f_equal (@rev _)) in Er. rewrite rev_involutive in Er. contradiction. }
    cbn -[shape wf rev]. closes. constructor; auto. destruct (rev before); discriminate.
  - unfold cr, in_cell. begins W m. cbn [state mp_states bind]. destruct s; try exact I.
    opens W. cbn -[shape wf]. closes. constructor; auto. destruct x0; discriminate.
  - unfold style_change. begins W m. plain W.
  - unfold style_change. begins W m. plain W.
  - unfold style_change. begins W m. plain W.
  - unfold finish. begins W m. cbn [state mp_states bind]. destruct s; try exact I; try exact W.
    opens W. cbn -[shape wf]. destruct t; cbn -[shape wf]; try exact I. counts W2; counts W3; counts W4. closes.
Qed.

Lemma calls_wf : forall l m m', wf m -> calls l m = Ok m' -> wf m'.
Proof.
  induction l as [|k l IH]; intros m m' W E; [injection E as E; subst; auto|].
  rewrite calls_cons in E. pose proof (wf_calls m k W) as A. destruct (do_call m k); try discriminate E.
  exact (IH _ _ A E).
Qed.

(** * The only undefined behaviour *)
Theorem parser_stacks : forall l k m, calls l mp_init = Ok m ->
  do_call m k <> Abort /\ do_call m k <> Fuel /\
  (do_call m k = UB -> waiting m = true /\ (k = CBegin \/ exists s, k = CSym s)).
Proof.
  intros l k m E. pose proof (wf_calls m k (calls_wf _ _ _ wf_init E)) as A. unfold after in A.
  destruct (do_call m k); repeat split; try discriminate; try contradiction; intros; apply A.
Qed.
