(** Every call of the math parser keeps the store well founded. *)
From Coq Require Import List Ascii ZArith Bool Arith Lia.
From Verif.Base Require Import Result.
From Verif.Model Require Import MathList MathParser.
From Verif.Spec Require Import MathSpec EquationOkSpec.
From Verif.Proofs Require Import FormulaProofs MathParserSafe MathParserHeap.
Import ListNotations.

Definition keeps (b : bool) (r : result mp) : Prop :=
  match r with Ok m' => exists w', good b w' m' | _ => True end.

Ltac flat :=
  cbv [push_node with_heap with_states with_lists with_builders with_matrices enter push_builder pushList
       mp_states mp_lists mp_heap mp_next mp_builders mp_matrices mlist cur leaveState leave state bind
       popList change_builder expect alloc pushMathList build append back_node back_root back_frac];
  cbn [st_eqb mstate_eq_dec mstate_rec mstate_rect].

Lemma top_cur : forall L, (match L with [] => 0 | i :: _ => i end) = top L.
Proof. reflexivity. Qed.

Section Calls.
  Variable b : bool.

  Lemma sym_atom : forall w c s, sym_ok s -> atom_ok w c (setNucleus (RSym s) (b_empty (s_class s))).
  Proof.
    intros w c s [A B]. split; [|split; [exact (conj A B)|split; exact I]].
    unfold type_ok, Acc; cbn. split; [lia|split; [lia|discriminate]].
  Qed.
  Lemma type_nuc : forall ty x, (0 <= ty <= 12)%Z -> ty <> Acc -> type_ok ty (Some x).
  Proof. intros. split; [auto|split; [auto|discriminate]]. Qed.

  Lemma s_commit : forall w m m1, good b w m -> commitCurrentAtom m = Ok m1 -> good b w m1.
  Proof.
    intros w [S L h n B M] m1 G E. destruct S as [|s S]; [discriminate E|].
    destruct s; try (injection E as <-; exact G).
    destruct B as [|x B]; [discriminate E|].
    revert E. unfold commitCurrentAtom. flat. intros E. injection E as <-.
    assert (A := g_lev _ _ _ G). cbn in A. destruct A as [A1 A2].
    assert (G' : good b w (mk S L h n B M)) by (eapply g_move; [exact G|exact A2|auto]).
    rewrite ?top_cur. eapply g_push in G'; [exact G'| |cbn; discriminate].
    cbn. destruct x; exact A1.
  Qed.

  (** a new list that is not used yet, of rank just above the current one *)
  Lemma s_new : forall w S L h n B M lb, good b w (mk S L h n B M) ->
    let w' := wnew w (Datatypes.S (w_r w (top L))) lb in
    good b w' (mk S L (hset h n []) (Datatypes.S n) B M) /\ level w' L n /\ w_lab w' n = lb /\
    top L < n /\ w_n w' = Datatypes.S n /\
    (forall i, i < n -> w_r w' i = w_r w i /\ w_lab w' i = w_lab w i) /\ w_n w = n.
  Proof.
    intros w S L h n B M lb G w'. assert (E := g_next _ _ _ G). cbn in E.
    assert (T := lev_top _ _ _ _ _ _ (g_lev _ _ _ G) (g_pos _ _ _ G)). cbn in T.
    refine (conj _ (conj _ (conj _ (conj _ (conj _ (conj _ _)))))).
    - apply g_alloc; [exact G|constructor|intros; exact I|intros; exact I].
    - subst n. unfold level, below_of, w', wnew; cbn. rewrite Nat.eqb_refl.
      destruct (Nat.eqb_spec (top L) (w_n w)); lia.
    - subst n. unfold w', wnew; cbn. rewrite Nat.eqb_refl. reflexivity.
    - lia.
    - unfold w', wnew; cbn. lia.
    - intros i Hi. unfold w', wnew; cbn. destruct (Nat.eqb_spec i (w_n w)); [lia|auto].
    - auto.
  Qed.

  Ltac moves G := eapply g_move; [exact G| |cbn; auto].

  Lemma s_mlist : forall w s m, sym_ok s -> good b w m -> keeps b (parse_mlist s m).
  Proof.
    intros w s [S L h n B M] Hs G. unfold parse_mlist. cbn. exists w. moves G. cbn.
    split; [apply sym_atom; auto|exact (g_lev _ _ _ G)].
  Qed.

  Lemma back_in : forall w S L h n B M x, good b w (mk S L h n B M) -> back_node (mk S L h n B M) = Ok x ->
    node_ok w (top L) x.
  Proof.
    intros w S L h n B M x G E. unfold back_node, mlist, cur in E. cbn in E. rewrite top_cur in E.
    destruct (rev (h (top L))) as [|y r] eqn:Er; [discriminate E|]. injection E as <-.
    apply (f_equal (@rev _)) in Er. rewrite rev_involutive in Er. cbn in Er.
    assert (T := lev_top _ _ _ _ _ _ (g_lev _ _ _ G) (g_pos _ _ _ G)). cbn in T.
    destruct (g_heap _ _ _ G _ T) as [F _]. cbn in F. rewrite Er in F. apply Forall_app in F. destruct F as [_ F].
    inversion F; auto.
  Qed.
  Lemma root_in : forall w S L h n B M x, good b w (mk S L h n B M) -> back_root (mk S L h n B M) = Ok x ->
    plainly w (top L) (fst x) /\ plainly w (top L) (snd x).
  Proof.
    intros w S L h n B M x G E. unfold back_root in E. apply bind_Ok in E. destruct E as (y & E & F).
    apply (back_in w) in E; auto. destruct y; try discriminate F. injection F as <-. exact E.
  Qed.
  Lemma frac_in : forall w S L h n B M x, good b w (mk S L h n B M) -> back_frac (mk S L h n B M) = Ok x ->
    plainly w (top L) (fst x) /\ plainly w (top L) (snd x).
  Proof.
    intros w S L h n B M x G E. unfold back_frac in E. apply bind_Ok in E. destruct E as (y & E & F).
    apply (back_in w) in E; auto. destruct y; try discriminate F. injection F as <-. exact E.
  Qed.

  Ltac levs G A := pose proof (g_lev _ _ _ G) as A; cbn [mp_states mp_lists mp_builders mp_matrices] in A.

  (** two new lists *)
  Lemma s_new2 : forall w S L h n B M, good b w (mk S L h n B M) ->
    exists w', good b w' (mk S L (hset (hset h n []) (Datatypes.S n) []) (Datatypes.S (Datatypes.S n)) B M) /\
      plainly w' (top L) n /\ plainly w' (top L) (Datatypes.S n) /\ top L < n /\ n = w_n w.
  Proof.
    intros w S L h n B M G. destruct (s_new _ _ _ _ _ _ _ false G) as (G1 & L1 & P1 & T1 & N1 & K1 & E1).
    set (w1 := wnew w _ false) in *.
    destruct (s_new _ _ _ _ _ _ _ false G1) as (G2 & L2 & P2 & T2 & N2 & K2 & E2).
    set (w2 := wnew w1 _ false) in *. exists w2.
    refine (conj G2 (conj _ (conj _ (conj T1 _)))).
    - destruct (K2 n) as [Q1 Q2]; [lia|]. destruct (K2 (top L)) as [Q3 _]; [lia|].
      split; [|congruence]. split; [lia|]. rewrite Q1, Q3. apply L1.
    - split; auto.
    - auto.
  Qed.

  Lemma s_right : forall w s m, wf m -> good b w m -> keeps b (parse_right s m).
  Proof.
    intros w s [S L h n B M] W G. unfold parse_right. flat.
    destruct S as [|t S]; [exact I|]. destruct t; try exact I.
    rewrite wf_mk in W. destruct W as [W1 _]. repeat dig1.
    cbn [st_eqb mstate_eq_dec mstate_rec mstate_rect].
    levs G A. destruct L; [contradiction A|]. destruct A as [A1 [A2 A]]. exists w.
    pose proof (g_push _ _ _ _ _ _ _ _ (HBoundary s) G I (fun _ => A2)) as G'.
    eapply g_move; [exact G'|exact A|]. cbn. intros i [<-|Hi]; [|auto].
    left. rewrite hset_same. apply bounded_snoc. reflexivity.
  Qed.
  Lemma s_left : forall w s m, wf m -> good b w m -> keeps b (parse_left s m).
  Proof.
    intros w s [S L h n B M] W G. unfold parse_left. flat.
    destruct S as [|t S]; [exact I|]. destruct t; try exact I.
    rewrite wf_mk in W. destruct W as [W1 _]. repeat dig1.
    cbn [st_eqb mstate_eq_dec mstate_rec mstate_rect].
    levs G A. destruct L; [contradiction A|]. destruct A as [A1 [A2 A]]. exists w.
    pose proof (g_push _ _ _ _ _ _ _ _ (HBoundary s) G I (fun _ => A2)) as G'.
    eapply g_move; [exact G'| |auto]. exact (g_lev _ _ _ G).
  Qed.
  Lemma s_root : forall w s S L h n B M, sym_ok s -> good b w (mk (PSqrt :: S) L h n B M) ->
    keeps b (parse_sqrt s (mk (PSqrt :: S) L h n B M)).
  Proof.
    intros w s S L h n B M Hs G. unfold parse_sqrt. destruct (Z.eqb (s_char s) lbracket).
    - flat. rewrite ?top_cur. destruct (s_new2 _ _ _ _ _ _ _ G) as (w' & G' & P1 & P2 & T & _).
      pose proof (g_push _ _ _ _ _ _ _ _ (HRoot n (Datatypes.S n)) G' (conj P1 P2) ltac:(discriminate)) as G2.
      exists w'. eapply g_move; [exact G2| |cbn; auto].
      cbn. split; [apply P1|split; [apply P1|exact (g_lev _ _ _ G')]].
    - flat. exists w. eapply g_move; [exact G| |cbn; auto]. cbn.
      split; [|exact (g_lev _ _ _ G)].
      split; [apply type_nuc; cbn; unfold Rad, Acc; lia|split; [exact Hs|split; exact I]].
  Qed.
  Lemma s_script : forall w s S L h n B M f, sym_ok s ->
    f = setSubscript (RSym s) \/ f = setSuperscript (RSym s) ->
    good b w (mk (PAtom :: S) L h n B M) -> keeps b (change_builder f (mk (PAtom :: S) L h n B M)).
  Proof.
    intros w s S L h n B M f Hs Hf G. levs G A. destruct B as [|x B]; [contradiction A|]. destruct A as [A1 A2].
    flat. exists w. eapply g_move; [exact G| |auto]. split; [|exact A2].
    destruct A1 as [Q1 [Q2 [Q3 Q4]]]. destruct Hf; subst f; (split; [exact Q1|split; [exact Q2|split; auto]]).
  Qed.
  Lemma s_symbol : forall fuel s w m, sym_ok s -> wf m -> good b w m -> keeps b (write_symbol fuel s m).
  Proof.
    induction fuel as [|fuel IH]; intros s w m Hs W G.
    all: destruct m as [S L h n B M]; destruct S as [|t S]; [exact I|];
      destruct t; cbn [write_symbol state mp_states bind];
      try exact I; try (apply (s_mlist w); auto; fail); try (apply (s_right w); auto; fail);
      try (apply (s_left w); auto; fail); try (apply (s_root w); auto; fail).
    (* pending atom *)
    all: try match goal with |- keeps b (bind (commitCurrentAtom ?m) _) =>
      destruct (wf_commit m) as (m1 & E1 & W' & _); [exact W|]; rewrite E1; cbn [bind];
      apply (IH s w); [exact Hs|exact W'|exact (s_commit _ _ _ G E1)] end.
    all: try (rewrite wf_mk in W; destruct W as [W1 _]; repeat dig1).
    all: try (unfold parse_sub, parse_sup; levs G A; destruct B as [|x B]; [contradiction A|]; flat;
      exists w; eapply g_move; [exact G| |cbn; auto]; cbn;
      destruct A as [[Q1 [Q2 [Q3 Q4]]] A]; split; [|exact A];
      split; [exact Q1|split; [exact Q2|split; auto]]; fail).
    all: try (unfold parse_sqrt_degree; destruct (Z.eqb (s_char s) rbracket); [|apply (s_mlist w); auto];
      levs G A; destruct L; [contradiction A|]; destruct A as [A1 [A2 A]];
      flat; exists w; eapply g_move; [exact G|exact A|cbn; auto]; fail).
    all: try (unfold parse_sqrt_radicand;
      match goal with |- keeps b (bind (back_root ?m) _) => destruct (back_root m) as [x| | | |] eqn:Ex; try exact I end;
      destruct (root_in w _ _ _ _ _ _ _ G Ex) as [_ Px]; cbn [bind];
      pose proof (g_append _ _ _ _ _ _ _ _ _ _ s G Px Hs) as G';
      flat; exists w; eapply g_move; [exact G'|exact (g_lev _ _ _ G)|cbn; auto]; fail).
    all: try (unfold parse_frac_numer;
      match goal with |- keeps b (bind (back_frac ?m) _) => destruct (back_frac m) as [x| | | |] eqn:Ex; try exact I end;
      destruct (frac_in w _ _ _ _ _ _ _ G Ex) as [Px _]; cbn [bind];
      pose proof (g_append _ _ _ _ _ _ _ _ _ _ s G Px Hs) as G';
      flat; exists w; eapply g_move; [exact G'|exact (g_lev _ _ _ G)|cbn; auto]; fail).
    all: try (unfold parse_frac_denom;
      match goal with |- keeps b (bind (back_frac ?m) _) => destruct (back_frac m) as [x| | | |] eqn:Ex; try exact I end;
      destruct (frac_in w _ _ _ _ _ _ _ G Ex) as [_ Px]; cbn [bind];
      pose proof (g_append _ _ _ _ _ _ _ _ _ _ s G Px Hs) as G';
      flat; exists w; eapply g_move; [exact G'|exact (g_lev _ _ _ G)|cbn; auto]; fail).
  Qed.

  Lemma commit_run : forall w m f, wf m -> good b w m ->
    (forall m1, wf m1 -> good b w m1 -> (delimited (mp_states m1) = delimited (mp_states m)) -> keeps b (f m1)) ->
    keeps b (bind (commitCurrentAtom m) f).
  Proof.
    intros w m f W G F. destruct (wf_commit m W) as (m1 & E1 & W1 & K). rewrite E1. cbn [bind]. apply F; auto.
    - exact (s_commit _ _ _ G E1).
    - destruct K as [[-> _]|[r [Er ->]]]; [auto|]. rewrite Er. reflexivity.
  Qed.

  Lemma s_begin_script : forall w st m, (st = AwaitSup \/ st = AwaitSub) -> good b w m -> keeps b (begin_script st m).
  Proof.
    intros w st [S L h n B M] Hst G. destruct S as [|t S]; [exact I|]. unfold begin_script.
    destruct t; cbn [state mp_states bind isParsingMList]; try exact I.
    all: flat; exists w; destruct Hst; subst st; (eapply g_move; [exact G| |cbn; auto]); cbn;
      try exact (g_lev _ _ _ G);
      (split; [|exact (g_lev _ _ _ G)]);
      (split; [unfold type_ok; cbn; unfold Ord, Acc, Op; split; [lia|split; discriminate]|split; [exact I|split; exact I]]).
  Qed.

  Lemma s_nucleus : forall w ty m, (0 <= ty <= 12)%Z -> ty <> Acc -> good b w m -> keeps b (begin_nucleus ty m).
  Proof.
    intros w ty [S L h n B M] T1 T2 G. unfold begin_nucleus. flat.
    destruct (s_new _ _ _ _ _ _ _ false G) as (G1 & L1 & P1 & T & _). eexists.
    eapply g_move; [exact G1| |cbn; auto]. cbn.
    split; [exact L1|split; [exact P1|split; [|exact (g_lev _ _ _ G1)]]].
    split; [apply type_nuc; auto|split; [exact L1|split; exact I]].
  Qed.
  Lemma s_field : forall w st t S L h n B M, (st = PSup \/ st = PSub) -> (t = AwaitSup \/ t = AwaitSub) ->
    good b w (mk (t :: PAtom :: S) L h n B M) -> keeps b (begin_field st (mk (t :: PAtom :: S) L h n B M)).
  Proof.
    intros w st t S L h n B M Hst Ht G. unfold begin_field.
    assert (G0 : good b w (mk (PAtom :: S) L h n B M)).
    { destruct Ht; subst t; (eapply g_move; [exact G|exact (g_lev _ _ _ G)|cbn; auto]). }
    destruct (s_new _ _ _ _ _ _ _ false G0) as (G1 & L1 & P1 & T & _).
    levs G1 A. destruct B as [|x B]; [contradiction A|]. destruct A as [[Q1 [Q2 [Q3 Q4]]] A]. flat.
    eexists. eapply g_move; [exact G1| |].
    - destruct Hst; subst st; cbn; (split; [exact L1|split; [exact P1|split; [|exact A]]];
        split; [exact Q1|split; [exact Q2|split; [exact L1|exact Q4]]]).
    - destruct Hst; subst st; cbn; auto.
  Qed.
  Lemma s_begin : forall w m, wf m -> good b w m -> keeps b (beginMathList m).
  Proof.
    intros w [S L h n B M] W G. destruct S as [|t S]; [exact I|]. unfold beginMathList. cbn [state mp_states bind].
    assert (Z : keeps b (bind (commitCurrentAtom (mk (t :: S) L h n B M)) (begin_nucleus Ord))).
    { apply (commit_run w); auto. intros m1 _ G1 _. apply (s_nucleus w); auto; unfold Ord, Acc; lia. }
    destruct t; try exact Z; clear Z.
    - rewrite wf_mk in W. destruct W as [W1 _]. repeat dig1. apply (s_field w); auto.
    - rewrite wf_mk in W. destruct W as [W1 _]. repeat dig1. apply (s_field w); auto.
    - flat. apply (s_nucleus w); [unfold Rad; lia|unfold Rad, Acc; lia|].
      eapply g_move; [exact G|exact (g_lev _ _ _ G)|cbn; auto].
    - destruct (back_root _) as [x| | | |] eqn:Ex; try exact I. destruct (root_in w _ _ _ _ _ _ _ G Ex) as [_ Px].
      flat. exists w. eapply g_move; [exact G| |cbn; auto]. cbn.
      split; [apply Px|split; [apply Px|exact (g_lev _ _ _ G)]].
    - destruct (back_frac _) as [x| | | |] eqn:Ex; try exact I. destruct (frac_in w _ _ _ _ _ _ _ G Ex) as [Px _].
      flat. exists w. eapply g_move; [exact G| |cbn; auto]. cbn.
      split; [apply Px|split; [apply Px|exact (g_lev _ _ _ G)]].
    - destruct (back_frac _) as [x| | | |] eqn:Ex; try exact I. destruct (frac_in w _ _ _ _ _ _ _ G Ex) as [_ Px].
      flat. exists w. eapply g_move; [exact G| |cbn; auto]. cbn.
      split; [apply Px|split; [apply Px|exact (g_lev _ _ _ G)]].
    - flat. destruct (s_new _ _ _ _ _ _ _ false G) as (G1 & L1 & P1 & T & _). eexists.
      eapply g_move; [exact G1| |cbn; auto]. cbn.
      split; [exact L1|split; [exact P1|split; [|exact (g_lev _ _ _ G1)]]].
      split; [discriminate|]. constructor; [|constructor]. split; [discriminate|]. constructor; [|constructor].
      split; [exact L1|exact P1].
  Qed.

  (** copies of lists *)
  Definition copyable (w : world) (c : nat) (l : list hnode) : Prop :=
    l = [] \/ exists k, plainly w c k /\ Forall (node_ok w k) l /\ (b = true -> nb l).
  Lemma copyable_ext : forall w w' c l, ext w w' -> c < w_n w -> copyable w c l -> copyable w' c l.
  Proof.
    intros w w' c l X C [A|(k & P & F & Q)]; [left; auto|right]. exists k.
    split; [eapply plainly_ext; eauto|split; [|exact Q]]. eapply Forall_impl; [|exact F].
    intros x Hx. eapply node_ext; eauto. apply P.
  Qed.
  Lemma ext_trans : forall w1 w2 w3, ext w1 w2 -> ext w2 w3 -> ext w1 w3.
  Proof.
    intros w1 w2 w3 [A1 [A2 A3]] [B1 [B2 B3]]. split; [lia|split].
    - intros i Hi. rewrite B2 by lia. auto.
    - intros i j Hi Hj H. apply B3; try lia. auto.
  Qed.
  (** a node under a list may as well be under a new list of the same rank *)
  Lemma node_same : forall w k x v, node_ok w k x -> v = w_r w k -> node_ok (wnew w v false) (w_n w) x.
  Proof.
    intros w k x v A ->.
    assert (PB : forall j, below_of w k j -> below_of (wnew w (w_r w k) false) (w_n w) j).
    { intros j [B1 B2]. split; cbn; [lia|]. rewrite Nat.eqb_refl. destruct (Nat.eqb_spec j (w_n w)); lia. }
    assert (PP : forall j, plainly w k j -> plainly (wnew w (w_r w k) false) (w_n w) j).
    { intros j [B1 B2]. split; [auto|]. cbn. destruct (Nat.eqb_spec j (w_n w)); auto. }
    assert (PR : forall r, ref_ok w k r -> ref_ok (wnew w (w_r w k) false) (w_n w) r).
    { intros [[y|j]|] Hr; cbn in *; auto. }
    destruct x; cbn [node_ok] in *; auto.
    - destruct A as [A [A1 [A2 A3]]]. split; [exact A|]. split; [|split]; auto.
    - destruct A; split; auto.
    - destruct A; split; auto.
    - destruct A as [A0 A]; split; auto. eapply Forall_impl; [|exact A]. auto.
  Qed.
  Lemma s_copy : forall w S L h n B M l, good b w (mk S L h n B M) -> copyable w (top L) l ->
    exists w', good b w' (mk S L (hset h n l) (Datatypes.S n) B M) /\ ext w w' /\ plainly w' (top L) n.
  Proof.
    intros w S L h n B M l G C. assert (E := g_next _ _ _ G). cbn in E.
    assert (T := lev_top _ _ _ _ _ _ (g_lev _ _ _ G) (g_pos _ _ _ G)). cbn in T.
    destruct C as [->|(k & [[K1 K2] K3] & F & Q)].
    - destruct (s_new _ _ _ _ _ _ _ false G) as (G1 & L1 & P1 & _). eexists. split; [exact G1|].
      split; [apply wnew_ext|split; auto].
    - exists (wnew w (w_r w k) false). split; [|split; [apply wnew_ext|]].
      + apply g_alloc; [exact G| |discriminate|auto]. rewrite E. eapply Forall_impl; [|exact F].
        intros x Hx. eapply node_same; eauto.
      + subst n. split; [split|]; cbn; rewrite ?Nat.eqb_refl; auto.
        destruct (Nat.eqb_spec (top L) (w_n w)); lia.
  Qed.
  Lemma s_copies : forall ls w S L h n B M, good b w (mk S L h n B M) -> Forall (copyable w (top L)) ls ->
    exists w' is h' n', allocs ls (mk S L h n B M) = (is, mk S L h' n' B M) /\
      good b w' (mk S L h' n' B M) /\ ext w w' /\ Forall (plainly w' (top L)) is.
  Proof.
    induction ls as [|l ls IH]; intros w S L h n B M G F.
    - exists w, [], h, n. split; [reflexivity|]. split; [exact G|split; [|constructor]].
      split; [lia|split; auto].
    - inversion F as [|? ? F1 F2]; subst. destruct (s_copy _ _ _ _ _ _ _ _ G F1) as (w1 & G1 & X1 & P1).
      assert (T := lev_top _ _ _ _ _ _ (g_lev _ _ _ G) (g_pos _ _ _ G)). cbn in T.
      assert (T1 := lev_top _ _ _ _ _ _ (g_lev _ _ _ G1) (g_pos _ _ _ G1)). cbn in T1.
      destruct (IH w1 S L (hset h n l) (Datatypes.S n) B M G1) as (w2 & is & h' & n' & E & G2 & X2 & P2).
      { eapply Forall_impl; [|exact F2]. intros x Hx. eapply copyable_ext; eauto. }
      exists w2, (n :: is), h', n'. split; [|split; [exact G2|split; [eapply ext_trans; eauto|]]].
      + cbn [allocs alloc mp_states mp_lists mp_heap mp_next mp_builders mp_matrices]. rewrite E. reflexivity.
      + constructor; [eapply plainly_ext; eauto|exact P2].
  Qed.
  Lemma nb_cols_ge : forall rows a, a <= fold_left (fun n r => Nat.max (@length nat r) n) rows a.
  Proof. induction rows as [|r rows IH]; intros a; cbn; [lia|]. specialize (IH (Nat.max (length r) a)). lia. Qed.
  Lemma nb_cols_pos : forall w c rows, rows_ok w c rows -> nb_cols rows <> 0.
  Proof.
    intros w c [|r rows] [A F]; [contradiction|]. inversion F as [|? ? [Q _] _]; subst. unfold nb_cols. cbn [fold_left].
    pose proof (nb_cols_ge rows (Nat.max (length r) 0)). destruct r; [contradiction|]. cbn [length] in *. lia.
  Qed.
  Lemma elements_copyable : forall w S L h n B M rows, good b w (mk S L h n B M) -> rows_ok w (top L) rows ->
    Forall (copyable w (top L)) (elements h rows).
  Proof.
    intros w S L h n B M rows G [_ F]. unfold elements. generalize (nb_cols rows). intros k.
    induction F as [|r rows [_ R] _ IH]; cbn [flat_map]; [constructor|]. apply Forall_app; split; [|exact IH].
    apply Forall_app; split.
    - apply Forall_forall. intros l Hl. apply in_map_iff in Hl. destruct Hl as (i & <- & Hi).
      pose proof (proj1 (Forall_forall _ _) R i Hi) as P. right. exists i.
      destruct (g_heap _ _ _ G i (proj1 (proj1 P))) as [Q1 Q2]. cbn in Q1, Q2.
      split; [exact P|split; [exact Q1|]]. intros Eb. apply Q2; auto. apply P.
    - apply Forall_forall. intros l Hl. apply repeat_spec in Hl. left; auto.
  Qed.

  Lemma s_end : forall w m, wf m -> good b w m -> keeps b (endMathList m).
  Proof.
    intros w m W G. unfold endMathList. apply (commit_run w); auto. intros m1 W1' G1 _. clear m W G.
    rename W1' into W. rename G1 into G. destruct m1 as [S L h n B M].
    destruct S as [|t S]; [exact I|]. cbn [state mp_states bind].
    destruct t; try exact I.
    all: rewrite wf_mk in W; destruct W as [W1 _]; repeat dig1.
    all: levs G A; destruct L as [|i L]; [contradiction A|].
    all: try (destruct A as [A1 [A2 A]]; unfold end_group; flat; exists w; eapply g_move; [exact G|exact A|cbn; auto]; fail).
    - (* POver *)
      destruct A as [A1 [A2 A]].
      assert (G' : good b w (mk (t :: S) L h n B M)) by (eapply g_move; [exact G|exact A|cbn; auto]).
      flat. destruct t; try (exists w; exact G').
      all: pose proof (proj2 (proj1 (shape_cons _ _ _) W1)) as Sh'; repeat dig1.
      all: unfold end_group; flat; destruct L as [|i' L]; [exact I|]; destruct A as [Z1 [Z2 Z]];
        exists w; eapply g_move; [exact G'|exact Z|cbn; auto].
    - (* PMatrixCell *)
      destruct M as [|rows M]; [contradiction A|]. destruct A as [A1 [A2 [A3 A]]]. flat.
      assert (G' : good b w (mk (t :: S) L h n B M)) by (eapply g_move; [exact G|exact A|cbn; auto]).
      unfold build_matrix. cbn [mp_heap].
      pose proof (elements_copyable _ _ _ _ _ _ _ _ G' A3) as C.
      destruct (s_copies _ _ _ _ _ _ _ _ G' C) as (w' & is & h' & n' & Ea & G2 & X & P).
      assert (Ea' : allocs (elements h rows) (mk (t :: S) L h n B (rows :: M)) = (is, mk (t :: S) L h' n' B (rows :: M))).
      { revert Ea. generalize (elements h rows) as lists. intros lists. generalize n h is.
        induction lists as [|l ls IH]; intros n1 h1 is1 Ea.
        - injection Ea as <- <- <-. reflexivity.
        - cbn [allocs alloc mp_states mp_lists mp_heap mp_next mp_builders mp_matrices] in *.
          destruct (allocs ls _) as [is2 m2] eqn:E2 in Ea. injection Ea as <- ->. rewrite (IH _ _ _ E2). reflexivity. }
      cbn [bind]. rewrite Ea'. flat. rewrite ?top_cur.
      exists w'. apply (g_push _ _ _ _ _ _ _ _ (HMatrix is (nb_cols rows)) G2); [|discriminate].
      split; [eapply nb_cols_pos; eauto|exact P].
  Qed.

  Lemma s_finish : forall w m, wf m -> good b w m -> keeps b (finish m).
  Proof.
    intros w m W G. unfold finish. apply (commit_run w); auto. intros m1 W1' G1 _. clear m W G.
    destruct m1 as [S L h n B M]. destruct S as [|t S]; [exact I|]. cbn [state mp_states bind].
    destruct t; try exact I; [exists w; exact G1|].
    levs G1 A. destruct L as [|i L]; [contradiction A|]. destruct A as [A1 [A2 A]].
    assert (G' : good b w (mk S L h n B M)) by (eapply g_move; [exact G1|exact A|cbn; auto]).
    flat. destruct S as [|t S]; [exact I|]. destruct t; try exact I. exists w. exact G'.
  Qed.
  Lemma s_leftd : forall w m, wf m -> good b w m -> keeps b (left m).
  Proof.
    intros w m W G. unfold left. apply (commit_run w); auto. intros [S L h n B M] W1' G1 _.
    destruct (s_new _ _ _ _ _ _ _ true G1) as (G2 & L1 & P1 & T & _). flat. eexists.
    eapply g_move; [exact G2| |cbn; auto]. cbn.
    split; [exact L1|split; [exact P1|split; [|exact (g_lev _ _ _ G2)]]].
    split; [apply type_nuc; cbn; unfold Inner, Acc; lia|split; [exact L1|split; exact I]].
  Qed.
  Lemma s_rightd : forall w m, wf m -> good b w m -> keeps b (right m).
  Proof.
    intros w m W G. unfold right. apply (commit_run w); auto. intros [S L h n B M] W1' G1 _.
    destruct S as [|t S]; [exact I|]. cbn [state mp_states bind]. destruct t; try exact I.
    exists w. eapply g_move; [exact G1|exact (g_lev _ _ _ G1)|cbn; auto].
  Qed.
  Lemma s_frac : forall w m, wf m -> good b w m -> keeps b (frac m).
  Proof.
    intros w m W G. unfold frac. apply (commit_run w); auto. intros [S L h n B M] W1' G1 _.
    destruct (s_new2 _ _ _ _ _ _ _ G1) as (w' & G' & P1 & P2 & T & _). flat. rewrite ?top_cur.
    pose proof (g_push _ _ _ _ _ _ _ _ (HFrac n (Datatypes.S n)) G' (conj P1 P2) ltac:(discriminate)) as G2.
    exists w'. eapply g_move; [exact G2|exact (g_lev _ _ _ G2)|cbn; auto].
  Qed.
  Lemma s_state : forall w m st, (st = PSqrt \/ st = PMatrix) -> wf m -> good b w m ->
    keeps b (do m1 <- commitCurrentAtom m; Ok (enter st m1)).
  Proof.
    intros w m st Hst W G. apply (commit_run w); auto. intros [S L h n B M] W1' G1 _.
    exists w. destruct Hst; subst st; (eapply g_move; [exact G1|exact (g_lev _ _ _ G1)|cbn; auto]).
  Qed.
  Lemma s_style : forall w m st, wf m -> good b w m -> keeps b (style_change st m).
  Proof.
    intros w m st W G. unfold style_change. apply (commit_run w); auto. intros [S L h n B M] W1' G1 _.
    flat. rewrite ?top_cur. exists w.
    exact (g_push _ _ _ _ _ _ _ _ (HStyle st) G1 I ltac:(discriminate)).
  Qed.
  Lemma rows_ext : forall w w' c rows, ext w w' -> c < w_n w -> rows_ok w c rows -> rows_ok w' c rows.
  Proof.
    intros w w' c rows X C [A F]. split; [exact A|]. eapply Forall_impl; [|exact F]. intros r [Q R]. split; [exact Q|].
    eapply Forall_impl; [|exact R]. intros; eapply plainly_ext; eauto.
  Qed.
  Lemma s_cell : forall w m f, (f = new_cell \/ f = new_row) -> wf m -> good b w m -> keeps b (in_cell f m).
  Proof.
    intros w m f Hf W G. unfold in_cell. apply (commit_run w); auto. intros m1 W1' G1 _. clear m W G.
    destruct m1 as [S L h n B M]. destruct S as [|t S]; [exact I|]. cbn [state mp_states bind].
    destruct t; try exact I. levs G1 A.
    destruct L as [|i L]; [contradiction A|]. destruct M as [|rows M]; [contradiction A|].
    destruct A as [A1 [A2 [A3 A]]].
    assert (G' : good b w (mk S L h n B M)) by (eapply g_move; [exact G1|exact A|cbn; auto]).
    destruct (s_new _ _ _ _ _ _ _ false G') as (G2 & L1 & P1 & T & N1 & _ & E1).
    assert (A3' : rows_ok (wnew w (Datatypes.S (w_r w (top L))) false) (top L) rows).
    { eapply rows_ext; [apply wnew_ext|lia|exact A3]. }
    assert (PN : plainly (wnew w (Datatypes.S (w_r w (top L))) false) (top L) n) by (split; auto).
    destruct A3' as [Q F].
    destruct Hf; subst f; unfold new_cell, new_row; flat.
    - destruct (rev rows) as [|r before] eqn:Er; [exact I|].
      apply (f_equal (@rev _)) in Er. rewrite rev_involutive in Er. cbn [rev] in Er.
      eexists. eapply g_move; [exact G2| |cbn; auto]. cbn.
      split; [exact L1|split; [exact P1|split; [|exact (g_lev _ _ _ G2)]]].
      subst rows. apply Forall_app in F. destruct F as [F1 F2]. inversion F2 as [|? ? [Z1 Z2] _]; subst.
      split; [destruct (rev before); discriminate|]. apply Forall_app; split; [exact F1|].
      constructor; [|constructor]. split; [destruct r; discriminate|]. apply Forall_app; split; [exact Z2|].
      constructor; [exact PN|constructor].
    - eexists. eapply g_move; [exact G2| |cbn; auto]. cbn.
      split; [exact L1|split; [exact P1|split; [|exact (g_lev _ _ _ G2)]]].
      split; [destruct rows; discriminate|]. apply Forall_app; split; [exact F|].
      constructor; [|constructor]. split; [discriminate|]. constructor; [exact PN|constructor].
  Qed.

  (** the ranks spread, to put a list between a list and those in it *)
  Definition spread (w : world) : world := World (fun i => 2 * w_r w i) (w_lab w) (w_n w).
  Lemma spread_ext : forall w, ext w (spread w).
  Proof. intros w. unfold ext, spread; cbn. split; [lia|split; [auto|]]. intros; lia. Qed.
  Lemma node_between : forall w k x, node_ok w k x ->
    node_ok (wnew (spread w) (Datatypes.S (2 * w_r w k)) false) (w_n w) x.
  Proof.
    intros w k x A. set (w' := wnew _ _ _).
    assert (PB : forall j, below_of w k j -> below_of w' (w_n w) j).
    { intros j [B1 B2]. unfold w'. split; cbn; [lia|]. rewrite Nat.eqb_refl. destruct (Nat.eqb_spec j (w_n w)); lia. }
    assert (PP : forall j, plainly w k j -> plainly w' (w_n w) j).
    { intros j [B1 B2]. split; [auto|]. unfold w'. cbn. destruct (Nat.eqb_spec j (w_n w)); auto. }
    assert (PR : forall r, ref_ok w k r -> ref_ok w' (w_n w) r).
    { intros [[y|j]|] Hr; cbn in *; auto. }
    clearbody w'. destruct x; cbn [node_ok] in *; auto.
    - destruct A as [A [A1 [A2 A3]]]. split; [exact A|]. split; [|split]; auto.
    - destruct A; split; auto.
    - destruct A; split; auto.
    - destruct A as [A0 A]; split; auto. eapply Forall_impl; [|exact A]. auto.
  Qed.
  Lemma lev_undelimited : forall w S L B M, lev w false S L B M -> w_lab w 0 = false ->
    delimited S = false -> w_lab w (top L) = false.
  Proof.
    intros w. induction S as [|s S IH]; intros L B M A Z D; [cbn in A; subst; auto|].
    destruct s; cbn [lev delimited] in *; try (eapply IH; eauto; fail); try discriminate D;
      try (destruct L; [contradiction|]; destruct A as [_ [A _]]; exact A).
    - destruct B; [contradiction|]. destruct A as [_ A]. eapply IH; eauto.
    - destruct L; [contradiction|]. destruct M; [contradiction|]. destruct A as [_ [A _]]; exact A.
  Qed.
  Lemma s_over : forall w m, (b = true -> delimited (mp_states m) = false) -> wf m -> good b w m -> keeps b (over m).
  Proof.
    intros w m D W G. unfold over. apply (commit_run w); auto. intros m1 W1' G1 E. rewrite <- E in D. clear m W G E.
    destruct m1 as [S L h n B M]. cbn [mp_states] in D.
    assert (En := g_next _ _ _ G1). cbn in En.
    assert (T := lev_top _ _ _ _ _ _ (g_lev _ _ _ G1) (g_pos _ _ _ G1)). cbn in T.
    destruct (g_heap _ _ _ G1 _ T) as [F Q]. cbn in F, Q.
    pose proof (g_ext _ _ _ _ (spread_ext w) eq_refl G1) as G2.
    assert (G3 : good b (wnew (spread w) (Datatypes.S (2 * w_r w (top L))) false)
              (mk S L (hset h n (h (top L))) (Datatypes.S n) B M)).
    { apply g_alloc; [exact G2| |discriminate|].
      - rewrite En. eapply Forall_impl; [|exact F]. intros x Hx. apply node_between; auto.
      - intros Eb _. apply Q; auto. exact (lev_undelimited _ _ _ _ _ (g_lev _ _ _ G1) (g_zero _ _ _ G1) (D Eb)). }
    set (w1 := wnew _ _ _) in G3.
    destruct (s_new _ _ _ _ _ _ _ false G3) as (G4 & L4 & P4 & T4 & N4 & K4 & E4). set (w2 := wnew w1 _ false) in *.
    assert (P3 : plainly w2 (top L) n).
    { destruct (K4 n) as [Q1 Q2]; [lia|]. destruct (K4 (top L)) as [Q3 _]; [lia|].
      split; [split|]; [lia|rewrite Q1, Q3|rewrite Q2]; unfold w1, wnew; cbn; rewrite En, Nat.eqb_refl; auto.
      destruct (Nat.eqb_spec (top L) (w_n w)); lia. }
    flat. rewrite ?top_cur.
    assert (G5 : good b w2 (mk S L (hset (hset (hset h n (h (top L))) (Datatypes.S n) []) (top L)
                 [HFrac n (Datatypes.S n)]) (Datatypes.S (Datatypes.S n)) B M)).
    { apply g_set; [exact G4|lia| | |].
      - intros Hl. exact (lev_cur _ _ _ _ _ _ (g_lev _ _ _ G4) (g_zero _ _ _ G4) Hl).
      - constructor; [|constructor]. split; [exact P3|split; [exact L4|exact P4]].
      - intros _ _. reflexivity. }
    exists w2. eapply g_move; [exact G5| |cbn; auto].
    cbn. split; [exact L4|split; [exact P4|exact (g_lev _ _ _ G5)]].
  Qed.

  Lemma keeps_call : forall w m k, code_call k -> (b = true -> k = COver -> delimited (mp_states m) = false) ->
    wf m -> good b w m -> keeps b (do_call m k).
  Proof.
    intros w m k C D W G. destruct k; cbn [do_call code_call] in *.
    - apply (s_symbol _ _ w); auto.
    - exact I.
    - apply (s_begin_script w); auto.
    - apply (s_begin_script w); auto.
    - apply (s_begin w); auto.
    - apply (s_end w); auto.
    - apply (s_leftd w); auto.
    - apply (s_rightd w); auto.
    - apply (s_over w); auto.
    - apply (s_frac w); auto.
    - apply (s_state w); auto.
    - apply (s_state w); auto.
    - apply (s_cell w); auto.
    - apply (s_cell w); auto.
    - apply (s_style w); auto.
    - apply (s_style w); auto.
    - apply (s_style w); auto.
    - apply (s_finish w); auto.
  Qed.
End Calls.

Lemma good_init : forall b, good b (World (fun _ => 0) (fun _ => false) 1) mp_init.
Proof.
  intros b. constructor; cbn; try reflexivity; [lia| |discriminate].
  intros i _. split; [constructor|intros; exact I].
Qed.
Lemma calls_keep : forall b l m m' w, Forall code_call l -> (b = true -> overs_outside l m) ->
  wf m -> good b w m -> calls l m = Ok m' -> wf m' /\ exists w', good b w' m'.
Proof.
  intros b. induction l as [|k l IH]; intros m m' w F O W G E.
  - injection E as <-. eauto.
  - change (foldM do_call (k :: l) m = Ok m') in E. cbn [foldM] in E.
    inversion F as [|? ? F1 F2]; subst.
    assert (K := keeps_call b w m k F1 (fun Eb => proj1 (O Eb)) W G).
    assert (A := wf_calls m k W).
    destruct (do_call m k) as [m1| | | |] eqn:E1; try discriminate E. cbn [bind] in E. cbn in K, A. destruct K as [w1 G1].
    apply (IH m1 m' w1); auto. intros Eb. destruct (O Eb) as [_ O2]. rewrite E1 in O2. exact O2.
Qed.
