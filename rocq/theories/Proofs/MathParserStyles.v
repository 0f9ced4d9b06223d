(** Without style commands there are no style nodes. *)
From Coq Require Import List ZArith Bool Arith Lia.
From Verif.Base Require Import Result.
From Verif.Model Require Import MathList MathParser.
From Verif.Spec Require Import MathSpec EquationOkSpec.
From Verif.Proofs Require Import FormulaProofs MathParserHeap.
Import ListNotations.

Definition ns (m : mp) : Prop := forall i, forallb nonstyle (mp_heap m i) = true.
Definition nsr (r : result mp) : Prop := match r with Ok m => ns m | _ => True end.
Lemma nsr_bind : forall {A} (r : result A) f P, match r with Ok a => P a | _ => True end ->
  (forall a, P a -> nsr (f a)) -> nsr (bind r f).
Proof. intros A [a| | | |] f P H F; cbn in *; auto. Qed.
Lemma nsr_bindm : forall r f, nsr r -> (forall a, ns a -> nsr (f a)) -> nsr (bind r f).
Proof. intros r f H F. apply (nsr_bind r f ns); auto. Qed.
Lemma nsr_bindx : forall {A} (r : result A) f, (forall a, nsr (f a)) -> nsr (bind r f).
Proof. intros A r f F. destruct r; cbn; auto. Qed.

Lemma ns_set : forall h i l, (forall j, forallb nonstyle (h j) = true) -> forallb nonstyle l = true ->
  forall j, forallb nonstyle (hset h i l j) = true.
Proof. intros h i l H F j. unfold hset. destruct (Nat.eqb j i); auto. Qed.
Lemma ns_push : forall m x, ns m -> nonstyle x = true -> ns (push_node x m).
Proof.
  intros m x H F. unfold ns, push_node, with_heap. cbn. apply ns_set; auto. unfold mlist. rewrite forallb_app, H. cbn. rewrite F. reflexivity.
Qed.
Lemma ns_append : forall m i s, ns m -> ns (append i s m).
Proof. intros m i s H. unfold ns, append, with_heap. cbn. apply ns_set; auto. rewrite forallb_app, H. reflexivity. Qed.
Lemma ns_alloc : forall m l, ns m -> forallb nonstyle l = true -> ns (snd (alloc l m)).
Proof. intros m l H F. unfold ns, alloc. cbn. apply ns_set; auto. Qed.
Lemma ns_same : forall m m', mp_heap m' = mp_heap m -> ns m -> ns m'.
Proof. intros m m' E H i. rewrite E. apply H. Qed.
Lemma ns_leaveState : forall m, ns m -> nsr (leaveState m).
Proof. intros m H. unfold leaveState. destruct (mp_states m); cbn; auto. Qed.
Lemma ns_leave : forall s m, ns m -> nsr (leave s m).
Proof. intros s m H. unfold leave. apply nsr_bindx. intros t. destruct (st_eqb t s); [apply ns_leaveState; auto|exact I]. Qed.
Lemma ns_expect : forall s m, ns m -> nsr (expect s m).
Proof. intros s m H. unfold expect. apply nsr_bindx. intros t. destruct (st_eqb t s); cbn; auto. Qed.
Lemma ns_popList : forall m, ns m -> nsr (popList m).
Proof. intros m H. unfold popList. destruct (mp_lists m); cbn; auto. Qed.
Lemma ns_change : forall f m, ns m -> nsr (change_builder f m).
Proof. intros f m H. unfold change_builder. destruct (mp_builders m); cbn; auto. Qed.
Lemma ns_commit : forall m, ns m -> nsr (commitCurrentAtom m).
Proof.
  intros m H. unfold commitCurrentAtom. apply nsr_bindx. intros s. destruct s; try exact H.
  destruct (mp_builders m); [exact I|]. apply nsr_bindm; [apply ns_leave; exact H|]. intros a Ha. apply ns_push; auto.
Qed.

Ltac go := repeat match goal with
  | |- nsr (bind (commitCurrentAtom _) _) => apply nsr_bindm; [apply ns_commit; auto|intros ? ?]
  | |- nsr (bind (leave _ _) _) => apply nsr_bindm; [apply ns_leave; auto|intros ? ?]
  | |- nsr (bind (leaveState _) _) => apply nsr_bindm; [apply ns_leaveState; auto|intros ? ?]
  | |- nsr (bind (popList _) _) => apply nsr_bindm; [apply ns_popList; auto|intros ? ?]
  | |- nsr (bind (change_builder _ _) _) => apply nsr_bindm; [apply ns_change; auto|intros ? ?]
  | |- nsr (bind (state _) _) => apply nsr_bindx; intros ?
  | |- nsr (bind (back_root _) _) => apply nsr_bindx; intros ?
  | |- nsr (bind (back_frac _) _) => apply nsr_bindx; intros ?
  | |- nsr (leaveState _) => apply ns_leaveState; auto
  | |- nsr (leave _ _) => apply ns_leave; auto
  | |- nsr (expect _ _) => apply ns_expect; auto
  | |- nsr (change_builder _ _) => apply ns_change; auto
  | |- nsr Throw => exact I
  | |- nsr UB => exact I
  | |- nsr Fuel => exact I
  | |- nsr (Ok _) => change (nsr (Ok ?m)) with (ns m)
  | |- nsr (match ?s with PMList => _ | _ => _ end) => destruct s
  end.
Lemma ns_alloc2 : forall m l, ns m -> forallb nonstyle l = true ->
  forall j, forallb nonstyle (hset (mp_heap m) (mp_next m) l j) = true.
Proof. intros m l H F. apply ns_set; auto. Qed.

Lemma ns_symbol : forall fuel s m, ns m -> nsr (write_symbol fuel s m).
Proof.
  induction fuel as [|fuel IH]; intros s m H; cbn [write_symbol]; go; try exact H.
  all: unfold parse_mlist, parse_sub, parse_sup, parse_left, parse_right, parse_sqrt, parse_sqrt_degree,
    parse_sqrt_radicand, parse_frac_numer, parse_frac_denom, parse_mlist.
  all: try destruct (Z.eqb _ _); unfold alloc, parse_mlist; cbn; go; try exact H; try (apply ns_push; auto; fail);
    try (apply ns_append; auto; fail); auto.
  all: try (unfold ns; cbn; apply ns_set; [apply ns_set; [apply ns_set|]|]; auto; cbn;
    rewrite forallb_app; cbn; unfold mlist; cbn; rewrite andb_true_r; apply ns_set; auto; apply ns_set; auto; fail).
Qed.
Lemma ns_nucleus : forall ty m, ns m -> nsr (begin_nucleus ty m).
Proof.
  intros ty m H. unfold begin_nucleus, pushMathList, alloc. apply ns_change. unfold ns. cbn. apply ns_set; auto.
Qed.
Lemma ns_field : forall st m, ns m -> nsr (begin_field st m).
Proof.
  intros st m H. unfold begin_field. apply nsr_bindm; [apply ns_leaveState; exact H|]. intros m1 H1.
  unfold pushMathList, alloc. apply ns_change. unfold ns. cbn. apply ns_set; auto.
Qed.
Lemma ns_begin : forall m, ns m -> nsr (beginMathList m).
Proof.
  intros m H. unfold beginMathList. apply nsr_bindx. intros s.
  destruct s; try (apply nsr_bindm; [apply ns_commit; exact H|intros; apply ns_nucleus; auto]); try (apply ns_field; exact H).
  - apply nsr_bindm; [apply ns_leaveState; exact H|]. intros; apply ns_nucleus; auto.
  - apply nsr_bindx. intros x. exact H.
  - apply nsr_bindx. intros x. exact H.
  - apply nsr_bindx. intros x. exact H.
  - unfold alloc. unfold nsr, ns. cbn. apply ns_set; auto.
Qed.
Lemma ns_allocs : forall ls m, ns m -> Forall (fun l => forallb nonstyle l = true) ls -> ns (snd (allocs ls m)).
Proof.
  induction ls as [|l ls IH]; intros m H F; [exact H|]. inversion F; subst. cbn [allocs].
  destruct (alloc l m) as [i m1] eqn:E. assert (H1 : ns m1).
  { change m1 with (snd (i, m1)). rewrite <- E. apply ns_alloc; auto. }
  specialize (IH m1 H1 H3). destruct (allocs ls m1). exact IH.
Qed.
Lemma ns_end : forall m, ns m -> nsr (endMathList m).
Proof.
  assert (G : forall m, ns m -> nsr (end_group m)).
  { intros m H. unfold end_group. apply nsr_bindm; [apply ns_popList; exact H|]. intros; apply ns_leaveState; auto. }
  intros m H. unfold endMathList. apply nsr_bindm; [apply ns_commit; exact H|]. clear m H. intros m H.
  apply nsr_bindx. intros s. destruct s; try exact I; try (apply G; exact H).
  - apply nsr_bindm; [apply ns_popList; exact H|]. clear m H. intros m H.
    apply nsr_bindm; [apply ns_leave; exact H|]. clear m H. intros m H.
    apply nsr_bindm; [apply ns_leave; exact H|]. clear m H. intros m H. apply ns_leave; exact H.
  - apply nsr_bindm; [apply ns_popList; exact H|]. clear m H. intros m H.
    apply nsr_bindm; [apply ns_leaveState; exact H|]. clear m H. intros m H. apply nsr_bindx. intros s.
    destruct s; try exact H; apply G; exact H.
  - apply nsr_bindm; [apply ns_popList; exact H|]. clear m H. intros m H.
    apply nsr_bindm; [apply ns_leave; exact H|]. clear m H. intros m H.
    apply nsr_bindm; [apply ns_leave; exact H|]. clear m H. intros m H. exact H.
  - apply nsr_bindm; [apply ns_popList; exact H|]. clear m H. intros m H.
    apply nsr_bindm; [apply ns_leave; exact H|]. clear m H. intros m H.
    apply nsr_bindm; [apply ns_leave; exact H|]. clear m H. intros m H. apply ns_leave; exact H.
  - apply nsr_bindm; [apply ns_leaveState; exact H|]. clear m H. intros m H.
    apply nsr_bindm; [apply ns_leave; exact H|]. clear m H. intros m H.
    apply nsr_bindm; [apply ns_popList; exact H|]. clear m H. intros m H.
    destruct (mp_matrices m) as [|rows ms]; [exact I|]. unfold build_matrix.
    pose proof (ns_allocs (elements (mp_heap m) rows) m H) as A.
    destruct (allocs _ m) as [is m1]. cbn [snd] in A. apply ns_push; [|reflexivity]. apply A.
    unfold elements. apply Forall_forall. intros l Hl. apply in_flat_map in Hl. destruct Hl as (r & _ & Hl).
    apply in_app_iff in Hl. destruct Hl as [Hl|Hl].
    + apply in_map_iff in Hl. destruct Hl as (i & <- & _). apply H.
    + apply repeat_spec in Hl. subst. reflexivity.
Qed.

Lemma ns_call : forall m k, style_call k = false -> ns m -> nsr (do_call m k).
Proof.
  intros m k K H. destruct k; cbn [do_call]; try discriminate K.
  - apply ns_symbol; auto.
  - exact I.
  - unfold begin_script. apply nsr_bindx. intros s. destruct (isParsingMList s); apply nsr_bindx; intros t; destruct t; try exact I; exact H.
  - unfold begin_script. apply nsr_bindx. intros s. destruct (isParsingMList s); apply nsr_bindx; intros t; destruct t; try exact I; exact H.
  - apply ns_begin; auto.
  - apply ns_end; auto.
  - unfold left. apply nsr_bindm; [apply ns_commit; exact H|]. clear m H. intros m H.
    unfold pushMathList, alloc, nsr, ns. cbn. apply ns_set; auto.
  - unfold right. apply nsr_bindm; [apply ns_commit; exact H|]. clear m H. intros m H. apply nsr_bindx.
    intros s. destruct s; try exact I; exact H.
  - unfold over. apply nsr_bindm; [apply ns_commit; exact H|]. clear m H. intros m H.
    unfold alloc, nsr, ns. cbn. apply ns_set; [|reflexivity]. apply ns_set; [|reflexivity]. apply ns_set; [exact H|]. apply H.
  - unfold frac. apply nsr_bindm; [apply ns_commit; exact H|]. clear m H. intros m H. unfold alloc. cbn [nsr bind].
    apply (ns_same (push_node (HFrac (mp_next m) (Datatypes.S (mp_next m))) (snd (alloc [] (snd (alloc [] m)))))); [reflexivity|].
    apply ns_push; [|reflexivity]. apply ns_alloc; [apply ns_alloc; auto|reflexivity].
  - unfold sqrt. apply nsr_bindm; [apply ns_commit; exact H|]. auto.
  - unfold matrix. apply nsr_bindm; [apply ns_commit; exact H|]. auto.
  - unfold alignmentTab, in_cell. apply nsr_bindm; [apply ns_commit; exact H|]. clear m H. intros m H. apply nsr_bindx.
    intros s. destruct s; try exact I. apply nsr_bindm; [apply ns_popList; exact H|]. clear m H. intros m H.
    unfold new_cell. destruct (mp_matrices m); [exact I|]. destruct (rev l); [exact I|].
    unfold alloc, nsr, ns. cbn. apply ns_set; auto.
  - unfold cr, in_cell. apply nsr_bindm; [apply ns_commit; exact H|]. clear m H. intros m H. apply nsr_bindx.
    intros s. destruct s; try exact I. apply nsr_bindm; [apply ns_popList; exact H|]. clear m H. intros m H.
    unfold new_row. destruct (mp_matrices m); [exact I|].
    unfold alloc, nsr, ns. cbn. apply ns_set; auto.
  - unfold finish. apply nsr_bindm; [apply ns_commit; exact H|]. clear m H. intros m H. apply nsr_bindx. intros s.
    apply nsr_bindm.
    + destruct s; try exact H. apply nsr_bindm; [apply ns_popList; exact H|]. intros; apply ns_leaveState; auto.
    + clear m H. intros m H. apply nsr_bindx. intros t. destruct t; try exact I. exact H.
Qed.
Lemma ns_calls : forall l m m', forallb (fun k => negb (style_call k)) l = true -> ns m -> calls l m = Ok m' -> ns m'.
Proof.
  induction l as [|k l IH]; intros m m' F H E; [injection E as <-; exact H|].
  cbn [forallb] in F. apply andb_true_iff in F. destruct F as [F1 F2]. apply negb_true_iff in F1.
  change (foldM do_call (k :: l) m = Ok m') in E. cbn [foldM] in E. pose proof (ns_call m k F1 H) as A.
  destruct (do_call m k); try discriminate E. exact (IH _ _ F2 A E).
Qed.
