(** The math parser rebuilds formulas. *)
From Coq Require Import List Ascii ZArith Bool Arith Lia.
From Verif.Base Require Import Result.
From Verif.Model Require Import MathList MathParser.
From Verif.Spec Require Import MathSpec.
Import ListNotations.

Notation mk := mkMP.

(** * Reading inside a region of the store *)
Section Region.
Variable h : nat -> list hnode.
Variable P : nat -> Prop.
Inductive q_node : hnode -> tree -> Prop :=
| q_atom : forall ty a b c x y z, q_ref a x -> q_ref b y -> q_ref c z ->
    q_node (HAtom ty a b c) (TAtom ty x y z)
| q_boundary : forall s, q_node (HBoundary s) (TBoundary s)
| q_frac : forall n d x y, P n -> P d -> q_list (h n) x -> q_list (h d) y -> q_node (HFrac n d) (TFrac x y)
| q_root : forall n d x y, P n -> P d -> q_list (h n) x -> q_list (h d) y -> q_node (HRoot n d) (TRoot x y)
| q_matrix : forall is cols xs, q_lists is xs -> q_node (HMatrix is cols) (TMatrix xs cols)
| q_style : forall s, q_node (HStyle s) (TStyle s)
with q_ref : option ref -> content -> Prop :=
| q_none : q_ref None Nothing
| q_sym : forall s, q_ref (Some (RSym s)) (Sym s)
| q_group : forall i x, P i -> q_list (h i) x -> q_ref (Some (RList i)) (Formula x)
with q_list : list hnode -> list tree -> Prop :=
| q_nil : q_list [] []
| q_cons : forall n t l x, q_node n t -> q_list l x -> q_list (n :: l) (t :: x)
with q_lists : list nat -> list (list tree) -> Prop :=
| q_none_left : q_lists [] []
| q_more : forall i x is xs, P i -> q_list (h i) x -> q_lists is xs -> q_lists (i :: is) (x :: xs).
End Region.

Scheme q_node_i := Minimality for q_node Sort Prop
with q_ref_i := Minimality for q_ref Sort Prop
with q_list_i := Minimality for q_list Sort Prop
with q_lists_i := Minimality for q_lists Sort Prop.
Combined Scheme q_ind from q_node_i, q_ref_i, q_list_i, q_lists_i.

Lemma q_reads : forall h P,
  (forall n t, q_node h P n t -> r_node h n t) /\ (forall r c, q_ref h P r c -> r_ref h r c) /\
  (forall l t, q_list h P l t -> r_list h l t) /\ (forall l t, q_lists h P l t -> r_lists h l t).
Proof. intros h P; apply q_ind; intros; econstructor; eauto. Qed.

Lemma q_frame : forall h h' (P P' : nat -> Prop), (forall i, P i -> P' i /\ h' i = h i) ->
  (forall n t, q_node h P n t -> q_node h' P' n t) /\ (forall r c, q_ref h P r c -> q_ref h' P' r c) /\
  (forall l t, q_list h P l t -> q_list h' P' l t) /\ (forall l t, q_lists h P l t -> q_lists h' P' l t).
Proof.
  intros h h' P P' F.
  assert (A : forall i, P i -> P' i) by (intros i Hi; apply F; auto).
  assert (E : forall i, P i -> h' i = h i) by (intros i Hi; apply F; auto).
  apply q_ind; intros; econstructor; eauto; rewrite E; auto.
Qed.
Lemma q_frame_list : forall h h' (P P' : nat -> Prop) l t, q_list h P l t ->
  (forall i, P i -> P' i /\ h' i = h i) -> q_list h' P' l t.
Proof. intros h h' P P' l t Q F. exact (proj1 (proj2 (proj2 (q_frame h h' P P' F))) l t Q). Qed.
Lemma q_frame_lists : forall h h' (P P' : nat -> Prop) l t, q_lists h P l t ->
  (forall i, P i -> P' i /\ h' i = h i) -> q_lists h' P' l t.
Proof. intros h h' P P' l t Q F. exact (proj2 (proj2 (proj2 (q_frame h h' P P' F))) l t Q). Qed.
Lemma q_frame_ref : forall h h' (P P' : nat -> Prop) l t, q_ref h P l t ->
  (forall i, P i -> P' i /\ h' i = h i) -> q_ref h' P' l t.
Proof. intros h h' P P' l t Q F. exact (proj1 (proj2 (q_frame h h' P P' F)) l t Q). Qed.

Lemma q_app : forall h P l t l' t', q_list h P l t -> q_list h P l' t' -> q_list h P (l ++ l') (t ++ t').
Proof. intros h P l t l' t' Q; induction Q; cbn [app]; intros; auto. constructor; auto. Qed.
Lemma q_lists_app : forall h P l t l' t', q_lists h P l t -> q_lists h P l' t' -> q_lists h P (l ++ l') (t ++ t').
Proof. intros h P l t l' t' Q; induction Q; cbn [app]; intros; auto. constructor; auto. Qed.
Lemma q_lists_length : forall h P l t, q_lists h P l t -> length l = length t.
Proof. intros h P l t Q; induction Q; cbn; auto. Qed.

Definition between (a b : nat) : nat -> Prop := fun i => a <= i < b.

(** * The store *)
Lemma hset_same : forall h i l, hset h i l i = l.
Proof. intros; unfold hset; rewrite Nat.eqb_refl; auto. Qed.
Lemma hset_other : forall h i l j, j <> i -> hset h i l j = h j.
Proof. intros h i l j N; unfold hset; apply Nat.eqb_neq in N; rewrite N; auto. Qed.

(** List [c] has grown by what reads [t]; the rest is as it was. *)
Definition grown (c : nat) (h : nat -> list hnode) (n : nat) h' n' (t : list tree) : Prop :=
  n <= n' /\ (forall i, i < n -> i <> c -> h' i = h i) /\
  exists l, h' c = h c ++ l /\ q_list h' (between n n') l t.

Lemma grown_none : forall c h n, grown c h n h n [].
Proof. intros; split; [lia|split; [auto|]]. exists []; rewrite app_nil_r; split; auto; constructor. Qed.
Lemma grown_app : forall c h n h1 n1 t1 h2 n2 t2, c < n ->
  grown c h n h1 n1 t1 -> grown c h1 n1 h2 n2 t2 -> grown c h n h2 n2 (t1 ++ t2).
Proof.
  intros c h n h1 n1 t1 h2 n2 t2 C [N1 [F1 [l1 [E1 Q1]]]] [N2 [F2 [l2 [E2 Q2]]]].
  split; [lia|split].
  - intros i I1 I2. rewrite F2, F1; auto; lia.
  - exists (l1 ++ l2). rewrite E2, E1, app_assoc. split; auto. apply q_app.
    + eapply q_frame_list; [exact Q1|]. unfold between. intros i I1. split; [lia|]. apply F2; lia.
    + eapply q_frame_list; [exact Q2|]. unfold between. intros i I1. split; [lia|auto].
Qed.

(** * States in which a list is being read *)
Definition list_state (s : mstate) : bool :=
  match s with PMatrixCell => true | _ => isParsingMList s end.
Definition here (deg : bool) (s : mstate) : Prop := list_state s = true /\ (s = PSqrtDegree -> deg = true).

(** [m] is [m0], perhaps with its last atom not yet in the list. *)
Definition pend (m m0 : mp) : Prop :=
  m = m0 \/
  exists S L h n b B M, m = mk (PAtom :: S) L h n (b :: B) M /\
    m0 = push_node (build b) (mk S L h n B M).

Lemma pend_refl : forall m, pend m m.
Proof. left; auto. Qed.
Lemma commit_pend : forall m m0 s S, pend m m0 -> mp_states m0 = s :: S -> list_state s = true ->
  commitCurrentAtom m = Ok m0.
Proof.
  intros m m0 s S [E|[S' [L [h [n [b [B [M [E1 E2]]]]]]]]] Es Ls; subst; auto.
  unfold commitCurrentAtom, state. rewrite Es; destruct s; try discriminate Ls; reflexivity.
Qed.
Lemma commit_self : forall m0 s S, mp_states m0 = s :: S -> list_state s = true -> commitCurrentAtom m0 = Ok m0.
Proof. intros. eapply commit_pend; eauto using pend_refl. Qed.

Definition is_script (c : call) : bool := match c with CSup | CSub => true | _ => false end.
Lemma pend_call : forall m m0 s S k, pend m m0 -> mp_states m0 = s :: S -> list_state s = true ->
  is_script k = false -> do_call m k = do_call m0 k.
Proof.
  intros m m0 s S k Pe Es Ls K.
  pose proof (commit_pend _ _ _ _ Pe Es Ls) as C. pose proof (commit_self _ _ _ Es Ls) as C0.
  destruct Pe as [E|[S' [L [h [n [b [B [M [E1 E2]]]]]]]]]; [subst; auto|].
  assert (St : state m = Ok PAtom) by (subst; reflexivity).
  assert (St0 : state m0 = Ok s) by (unfold state; rewrite Es; auto).
  destruct k; try discriminate K; cbn [do_call]; try reflexivity;
    try (unfold endMathList, left, right, over, frac, sqrt, matrix, alignmentTab, cr, in_cell, style_change,
         finish; rewrite C, C0; reflexivity).
  - unfold writeSymbol. subst m. cbn [mp_states length write_symbol]. rewrite St. cbn [bind]. rewrite C. cbn [bind].
    f_equal. subst m0. reflexivity.
  - unfold beginMathList. rewrite St, St0. cbn [bind]. rewrite C.
    destruct s; try discriminate Ls; cbn [bind]; rewrite C0; reflexivity.
Qed.

Lemma calls_cons : forall k e m, calls (k :: e) m = bind (do_call m k) (calls e).
Proof. reflexivity. Qed.
Lemma calls_app : forall e e' m, calls (e ++ e') m = bind (calls e m) (calls e').
Proof.
  intros e e'; induction e as [|k e IH]; intros m; [reflexivity|]. cbn [app]. rewrite !calls_cons.
  destruct (do_call m k); cbn [bind]; auto.
Qed.

Lemma write_here : forall deg s S L h n B M x, here deg s -> (deg = true -> s_char x <> rbracket) ->
  writeSymbol x (mk (s :: S) L h n B M) =
  Ok (mk (PAtom :: s :: S) L h n (mkB (s_class x) (Some (RSym x)) None None :: B) M).
Proof.
  intros deg s S L h n B M x [Ls D] N. unfold writeSymbol. cbn [mp_states length write_symbol state bind].
  destruct s; try discriminate Ls; try reflexivity.
  unfold parse_sqrt_degree. destruct (Z.eqb_spec (s_char x) rbracket); [|reflexivity].
  exfalso; apply N; auto.
Qed.

(** * The statements *)
Definition Goes (e : list call) (m m' : mp) : Prop := calls e m = Ok m'.
Definition ok_items (deg : bool) (e : list call) (ts : list tree) : Prop :=
  forall s S L h n B M m, here deg s -> cur (mk (s :: S) L h n B M) < n ->
    pend m (mk (s :: S) L h n B M) ->
    exists m' h' n', calls e m = Ok m' /\ pend m' (mk (s :: S) L h' n' B M) /\
      grown (cur (mk (s :: S) L h n B M)) h n h' n' ts.
Definition ok_item (deg : bool) (e : list call) (t : tree) : Prop := ok_items deg e [t].
Definition ok_scripts (e : list call) (sp sb : content) : Prop :=
  forall S L h n ty a B M, exists h' n' b c,
    calls e (mk (PAtom :: S) L h n (mkB ty a None None :: B) M) =
      Ok (mk (PAtom :: S) L h' n' (mkB ty a b c :: B) M) /\
    n <= n' /\ (forall i, i < n -> h' i = h i) /\
    q_ref h' (between n n') b sp /\ q_ref h' (between n n') c sb.
Definition ok_script (e : list call) (sp : content) : Prop :=
  forall S L h n ty a c B M, exists h' n' b,
    calls e (mk (AwaitSup :: PAtom :: S) L h n (mkB ty a None c :: B) M) =
      Ok (mk (PAtom :: S) L h' n' (mkB ty a b c :: B) M) /\
    n <= n' /\ (forall i, i < n -> h' i = h i) /\ q_ref h' (between n n') b sp.
Definition ok_body (deg : bool) (e : list call) (ts : list tree) : Prop :=
  forall s S L h n B M, here deg s -> isParsingMList s = true -> cur (mk (s :: S) L h n B M) < n ->
    exists m' h' n', calls e (mk (s :: S) L h n B M) = Ok m' /\ pend m' (mk (s :: S) L h' n' B M) /\
      grown (cur (mk (s :: S) L h n B M)) h n h' n' ts.
Definition ok_group (e : list call) (ts : list tree) : Prop :=
  forall s S L h n B M i, s = PNucleus \/ s = PSup \/ s = PSub -> i < n -> h i = [] ->
    exists h' n', calls (e ++ [CEnd]) (mk (s :: S) (i :: L) h n B M) = Ok (mk S L h' n' B M) /\
      n <= n' /\ (forall j, j < n -> j <> i -> h' j = h j) /\ q_list h' (between n n') (h' i) ts.
(** the argument goes to list [i] *)
Definition target (s : mstate) (m : mp) : result nat :=
  match s with
  | PFracNumer => do x <- back_frac m; Ok (fst x)
  | PFracDenom => do x <- back_frac m; Ok (snd x)
  | _ => do x <- back_root m; Ok (snd x)
  end.
Inductive next_states : mstate -> list mstate -> list mstate -> Prop :=
| ns_numer : forall S, next_states PFracNumer S (PFracDenom :: S)
| ns_denom : forall S, next_states PFracDenom (PFrac :: S) S
| ns_radicand : forall S, next_states PSqrtRadicand (PSqrt :: S) S.
Definition ok_argument (e : list call) (ts : list tree) : Prop :=
  forall s S S' L h n B M i, next_states s S S' -> target s (mk (s :: S) L h n B M) = Ok i ->
    i < n -> h i = [] ->
    exists h' n', calls e (mk (s :: S) L h n B M) = Ok (mk S' L h' n' B M) /\
      n <= n' /\ (forall j, j < n -> j <> i -> h' j = h j) /\ q_list h' (between n n') (h' i) ts.
Definition or_in (i a b : nat) : nat -> Prop := fun j => j = i \/ between a b j.
Definition ok_row (e : list call) (r : list (list tree)) : Prop :=
  forall S L h n B M rs r0 i m, i < n -> h i = [] ->
    pend m (mk (PMatrixCell :: S) (i :: L) h n B ((rs ++ [r0 ++ [i]]) :: M)) ->
    exists m' h' n' i' is, calls e m = Ok m' /\
      pend m' (mk (PMatrixCell :: S) (i' :: L) h' n' B ((rs ++ [r0 ++ is]) :: M)) /\
      n <= n' /\ (forall j, j < n -> j <> i -> h' j = h j) /\ q_lists h' (or_in i n n') is r.
Definition ok_table (e : list call) (t : list (list (list tree))) : Prop :=
  forall S L h n B M rs i m, i < n -> h i = [] ->
    pend m (mk (PMatrixCell :: S) (i :: L) h n B ((rs ++ [[i]]) :: M)) ->
    exists m' h' n' i' iss, calls e m = Ok m' /\
      pend m' (mk (PMatrixCell :: S) (i' :: L) h' n' B ((rs ++ iss) :: M)) /\
      n <= n' /\ (forall j, j < n -> j <> i -> h' j = h j) /\ Forall2 (q_lists h' (or_in i n n')) iss t.

Lemma between_wide : forall h h' a b a' b', a' <= a -> b <= b' -> (forall i, a <= i < b -> h' i = h i :> list hnode) ->
  forall i, between a b i -> between a' b' i /\ h' i = h i.
Proof. unfold between; intros h h' a b a' b' A B F i I1; split; [lia|]. apply F; lia. Qed.

(** an atom is complete *)
Lemma atom_done : forall s S L h n h2 n2 ty a b c x y z B M c0,
  c0 = cur (mk (s :: S) L h n B M) -> c0 < n -> n <= n2 -> (forall i, i < n -> h2 i = h i) ->
  q_ref h2 (between n n2) a x -> q_ref h2 (between n n2) b y -> q_ref h2 (between n n2) c z ->
  exists h3, pend (mk (PAtom :: s :: S) L h2 n2 (mkB ty a b c :: B) M) (mk (s :: S) L h3 n2 B M) /\
    grown c0 h n h3 n2 [TAtom ty x y z].
Proof.
  intros s S L h n h2 n2 ty a b c x y z B M c0 C Cn N F Qa Qb Qc.
  exists (hset h2 c0 (h2 c0 ++ [HAtom ty a b c])). split.
  - right. exists (s :: S), L, h2, n2, (mkB ty a b c), B, M. split; [auto|]. subst c0. reflexivity.
  - split; [lia|split].
    + intros i I1 I2. rewrite hset_other by auto. auto.
    + exists [HAtom ty a b c]. rewrite hset_same. split; [rewrite F; auto|].
      assert (W : forall i, between n n2 i -> between n n2 i /\ hset h2 c0 (h2 c0 ++ [HAtom ty a b c]) i = h2 i).
      { unfold between; intros i I1; split; [auto|]. apply hset_other; lia. }
      constructor; [|constructor]. constructor; eapply q_frame_ref; eauto.
Qed.

(** * One lemma for each rule *)
Lemma k_items_nil : forall deg, ok_items deg [] [].
Proof. intros deg s S L h n B M m Hs C Pe. exists m, h, n. split; [reflexivity|split; [auto|apply grown_none]]. Qed.
Lemma k_items_cons : forall deg e t es ts, ok_item deg e t -> ok_items deg es ts -> ok_items deg (e ++ es) (t :: ts).
Proof.
  intros deg e t es ts H1 H2 s S L h n B M m Hs C Pe.
  destruct (H1 s S L h n B M m Hs C Pe) as [m1 [h1 [n1 [E1 [P1 G1]]]]].
  assert (C1 : cur (mk (s :: S) L h1 n1 B M) < n1).
  { destruct G1 as [N1 _]. unfold cur in *. cbn [mp_lists] in *. lia. }
  destruct (H2 s S L h1 n1 B M m1 Hs C1 P1) as [m2 [h2 [n2 [E2 [P2 G2]]]]].
  exists m2, h2, n2. split; [|split; [auto|]].
  - rewrite calls_app, E1. exact E2.
  - change (t :: ts) with ([t] ++ ts). eapply grown_app; eauto.
Qed.

(** the scripts of an atom whose nucleus has been read *)
Lemma with_scripts : forall deg e sp sb ty a x s S L h n B M h1 n1, ok_scripts e sp sb ->
  here deg s -> cur (mk (s :: S) L h n B M) < n -> n <= n1 -> (forall i, i < n -> h1 i = h i) ->
  q_ref h1 (between n n1) a x ->
  exists m' h' n', calls e (mk (PAtom :: s :: S) L h1 n1 (mkB ty a None None :: B) M) = Ok m' /\
    pend m' (mk (s :: S) L h' n' B M) /\
    grown (cur (mk (s :: S) L h n B M)) h n h' n' [TAtom ty x sp sb].
Proof.
  intros deg e sp sb ty a x s S L h n B M h1 n1 Hsc Hs C N F Q.
  destruct (Hsc (s :: S) L h1 n1 ty a B M) as [h2 [n2 [b [c [E [N2 [F2 [Qb Qc]]]]]]]].
  destruct (atom_done s S L h n h2 n2 ty a b c x sp sb B M _ eq_refl C) as [h3 [P3 G3]]; try lia.
  - intros i I1. rewrite F2 by lia. auto.
  - eapply q_frame_ref; [exact Q|]. apply between_wide; try lia. intros; apply F2; lia.
  - eapply q_frame_ref; [exact Qb|]. apply between_wide; try lia; auto.
  - eapply q_frame_ref; [exact Qc|]. apply between_wide; try lia; auto.
  - eauto 6.
Qed.

Lemma call_here : forall m s S L h n B M k e, pend m (mk (s :: S) L h n B M) -> list_state s = true ->
  is_script k = false -> calls (k :: e) m = calls (k :: e) (mk (s :: S) L h n B M).
Proof. intros. rewrite !calls_cons. erewrite pend_call; eauto; reflexivity. Qed.

Lemma k_item_sym : forall (deg : bool) s e sp sb, (deg = true -> s_char s <> rbracket) -> ok_scripts e sp sb ->
  ok_item deg (CSym s :: e) (TAtom (s_class s) (Sym s) sp sb).
Proof.
  intros deg x e sp sb N Hsc s S L h n B M m Hs C Pe.
  rewrite (call_here _ _ _ _ _ _ _ _ _ _ Pe) by (auto; apply Hs). rewrite calls_cons. cbn [do_call].
  rewrite (write_here deg) by auto. cbn [bind]. eapply with_scripts; eauto. constructor.
Qed.

(** a group as nucleus *)
Lemma nucleus_group : forall deg ty g ts e sp sb s S L h n B M, ok_group g ts -> ok_scripts e sp sb ->
  here deg s -> cur (mk (s :: S) L h n B M) < n ->
  exists m' h' n', bind (begin_nucleus ty (mk (s :: S) L h n B M)) (calls (g ++ CEnd :: e)) = Ok m' /\
    pend m' (mk (s :: S) L h' n' B M) /\
    grown (cur (mk (s :: S) L h n B M)) h n h' n' [TAtom ty (Formula ts) sp sb].
Proof.
  intros deg ty g ts e sp sb s S L h n B M Hg Hsc Hs C.
  change (begin_nucleus ty (mk (s :: S) L h n B M))
    with (Ok (mk (PNucleus :: PAtom :: s :: S) (n :: L) (hset h n []) (Datatypes.S n)
                 (mkB ty (Some (RList n)) None None :: B) M)). cbn [bind].
  destruct (Hg PNucleus (PAtom :: s :: S) L (hset h n []) (Datatypes.S n)
               (mkB ty (Some (RList n)) None None :: B) M n) as [h1 [n1 [E1 [N1 [F1 Q1]]]]];
    [auto|lia|apply hset_same|].
  replace (g ++ CEnd :: e) with ((g ++ [CEnd]) ++ e) by (rewrite <- app_assoc; reflexivity).
  rewrite calls_app, E1. cbn [bind]. eapply with_scripts; eauto; try lia.
  - intros i I1. rewrite F1 by lia. apply hset_other; lia.
  - constructor; [unfold between; lia|]. eapply q_frame_list; [exact Q1|].
    apply between_wide; try lia; auto.
Qed.

Lemma k_item_group : forall deg g ts e sp sb, ok_group g ts -> ok_scripts e sp sb ->
  ok_item deg (CBegin :: g ++ CEnd :: e) (TAtom Ord (Formula ts) sp sb).
Proof.
  intros deg g ts e sp sb Hg Hsc s S L h n B M m Hs C Pe.
  rewrite (call_here _ _ _ _ _ _ _ _ _ _ Pe) by (auto; apply Hs). rewrite calls_cons. cbn [do_call].
  replace (beginMathList (mk (s :: S) L h n B M)) with (begin_nucleus Ord (mk (s :: S) L h n B M)).
  2:{ destruct Hs as [Ls _]. unfold beginMathList. cbn [state mp_states bind].
      destruct s; try discriminate Ls; reflexivity. }
  eapply nucleus_group; eauto.
Qed.

Lemma sqrt_here : forall s S L h n B M, list_state s = true ->
  do_call (mk (s :: S) L h n B M) CSqrt = Ok (mk (PSqrt :: s :: S) L h n B M).
Proof. intros s S L h n B M Ls. destruct s; try discriminate Ls; reflexivity. Qed.

Lemma k_item_sqrt_sym : forall deg s e sp sb, s_char s <> lbracket -> ok_scripts e sp sb ->
  ok_item deg (CSqrt :: CSym s :: e) (TAtom Rad (Sym s) sp sb).
Proof.
  intros deg x e sp sb N Hsc s S L h n B M m Hs C Pe.
  rewrite (call_here _ _ _ _ _ _ _ _ _ _ Pe) by (auto; apply Hs). rewrite calls_cons, sqrt_here by apply Hs.
  cbn [bind]. rewrite calls_cons.
  replace (do_call (mk (PSqrt :: s :: S) L h n B M) (CSym x))
    with (Ok (mk (PAtom :: s :: S) L h n (mkB Rad (Some (RSym x)) None None :: B) M)).
  2:{ cbn [do_call]. unfold writeSymbol. cbn [mp_states length write_symbol state bind]. unfold parse_sqrt.
      apply Z.eqb_neq in N. rewrite N. reflexivity. }
  cbn [bind]. eapply with_scripts; eauto. constructor.
Qed.
Lemma k_item_sqrt : forall deg g ts e sp sb, ok_group g ts -> ok_scripts e sp sb ->
  ok_item deg (CSqrt :: CBegin :: g ++ CEnd :: e) (TAtom Rad (Formula ts) sp sb).
Proof.
  intros deg g ts e sp sb Hg Hsc s S L h n B M m Hs C Pe.
  rewrite (call_here _ _ _ _ _ _ _ _ _ _ Pe) by (auto; apply Hs). rewrite calls_cons, sqrt_here by apply Hs.
  cbn [bind]. rewrite calls_cons.
  change (do_call (mk (PSqrt :: s :: S) L h n B M) CBegin) with (begin_nucleus Rad (mk (s :: S) L h n B M)).
  eapply nucleus_group; eauto.
Qed.

(** nothing pending: the same for a list that is exactly there *)
Lemma body_pend : forall deg g ts s S L h n B M m, ok_body deg g ts -> here deg s ->
  isParsingMList s = true -> cur (mk (s :: S) L h n B M) < n -> m = mk (s :: S) L h n B M ->
  exists m' h' n', calls g m = Ok m' /\ pend m' (mk (s :: S) L h' n' B M) /\
      grown (cur (mk (s :: S) L h n B M)) h n h' n' ts.
Proof. intros; subst; auto. Qed.

Lemma back_last : forall S L h n B M l x, h (cur (mk S L h n B M)) = l ++ [x] ->
  back_node (mk S L h n B M) = Ok x.
Proof. intros S L h n B M l x E. unfold back_node, mlist. cbn [mp_heap]. rewrite E, rev_unit. reflexivity. Qed.

Lemma k_item_root : forall deg l r g ts e xs, s_char l = lbracket -> s_char r = rbracket ->
  ok_body true g ts -> ok_argument e xs ->
  ok_item deg (CSqrt :: CSym l :: g ++ CSym r :: e) (TRoot ts xs).
Proof.
  intros deg l r g ts e xs El Er Hg Ha s S L h n B M m Hs C Pe.
  rewrite (call_here _ _ _ _ _ _ _ _ _ _ Pe) by (auto; apply Hs). rewrite calls_cons, sqrt_here by apply Hs.
  cbn [bind]. rewrite calls_cons.
  set (c := cur (mk (s :: S) L h n B M)) in *.
  set (h1 := hset (hset (hset h n []) (Datatypes.S n) []) c (hset (hset h n []) (Datatypes.S n) [] c ++ [HRoot n (Datatypes.S n)])).
  replace (do_call (mk (PSqrt :: s :: S) L h n B M) (CSym l))
    with (Ok (mk (PSqrtDegree :: PSqrt :: s :: S) (n :: L) h1 (Datatypes.S (Datatypes.S n)) B M)).
  2:{ cbn [do_call]. unfold writeSymbol. cbn [mp_states length write_symbol state bind]. unfold parse_sqrt.
      rewrite El, Z.eqb_refl. reflexivity. }
  cbn [bind]. rewrite calls_app.
  destruct (Hg PSqrtDegree (PSqrt :: s :: S) (n :: L) h1 (Datatypes.S (Datatypes.S n)) B M)
    as [m1 [h2 [n2 [E2 [P2 [N2 [F2 [l2 [G2 Q2]]]]]]]]].
  { split; auto. } { auto. } { cbn; lia. }
  cbn [cur mp_lists] in F2, G2. rewrite E2. cbn [bind].
  rewrite (call_here _ _ _ _ _ _ _ _ _ _ P2) by auto. rewrite calls_cons.
  replace (do_call (mk (PSqrtDegree :: PSqrt :: s :: S) (n :: L) h2 n2 B M) (CSym r))
    with (Ok (mk (PSqrtRadicand :: PSqrt :: s :: S) L h2 n2 B M)).
  2:{ cbn [do_call]. unfold writeSymbol. cbn [mp_states length write_symbol state bind]. unfold parse_sqrt_degree.
      rewrite Er, Z.eqb_refl. reflexivity. }
  cbn [bind].
  assert (Hc : h2 c = h c ++ [HRoot n (Datatypes.S n)]).
  { rewrite F2 by lia. unfold h1. rewrite hset_same, !hset_other by lia. auto. }
  assert (Hn : h2 n = l2).
  { rewrite G2. unfold h1. rewrite !hset_other by lia. rewrite hset_same. reflexivity. }
  assert (HSn : h2 (Datatypes.S n) = []).
  { rewrite F2 by lia. unfold h1. rewrite hset_other by lia. apply hset_same. }
  destruct (Ha PSqrtRadicand (PSqrt :: s :: S) (s :: S) L h2 n2 B M (Datatypes.S n)) as [h3 [n3 [E3 [N3 [F3 Q3]]]]].
  { constructor. }
  { unfold target, back_root. rewrite (back_last _ _ _ _ _ _ _ _ Hc). reflexivity. }
  { lia. } { auto. }
  exists (mk (s :: S) L h3 n3 B M), h3, n3. split; [auto|split; [apply pend_refl|]].
  split; [lia|split].
  - intros i I1 I2. rewrite F3, F2 by lia. unfold h1. rewrite !hset_other by lia. auto.
  - exists [HRoot n (Datatypes.S n)]. split; [rewrite F3 by lia; auto|].
    constructor; [|constructor]. constructor; try (unfold between; lia).
    + rewrite F3 by lia. rewrite Hn. eapply q_frame_list; [exact Q2|]. apply between_wide; try lia.
      intros; apply F3; lia.
    + eapply q_frame_list; [exact Q3|]. apply between_wide; try lia; auto.
Qed.

Lemma k_item_left_right : forall deg l r g ts e sp sb, ok_body false g ts -> ok_scripts e sp sb ->
  ok_item deg (CLeft :: CSym l :: g ++ CRight :: CSym r :: e)
    (TAtom Inner (Formula (TBoundary l :: ts ++ [TBoundary r])) sp sb).
Proof.
  intros deg l r g ts e sp sb Hg Hsc s S L h n B M m Hs C Pe.
  rewrite (call_here _ _ _ _ _ _ _ _ _ _ Pe) by (auto; apply Hs). rewrite calls_cons.
  set (b := mkB Inner (Some (RList n)) None None).
  replace (do_call (mk (s :: S) L h n B M) CLeft)
    with (Ok (mk (PLeft :: PBoundary :: PNucleus :: PAtom :: s :: S) (n :: L) (hset h n []) (Datatypes.S n) (b :: B) M)).
  2:{ destruct Hs as [Ls _]. destruct s; try discriminate Ls; reflexivity. }
  cbn [bind]. rewrite calls_cons.
  change (do_call (mk (PLeft :: PBoundary :: PNucleus :: PAtom :: s :: S) (n :: L) (hset h n []) (Datatypes.S n) (b :: B) M) (CSym l))
    with (Ok (mk (PBoundary :: PNucleus :: PAtom :: s :: S) (n :: L)
       (hset (hset h n []) n (hset h n [] n ++ [HBoundary l])) (Datatypes.S n) (b :: B) M)).
  cbn [bind]. rewrite calls_app, hset_same. cbn [app].
  set (h1 := hset (hset h n []) n [HBoundary l]).
  destruct (Hg PBoundary (PNucleus :: PAtom :: s :: S) (n :: L) h1 (Datatypes.S n) (b :: B) M)
    as [m1 [h2 [n2 [E2 [P2 [N2 [F2 [l2 [G2 Q2]]]]]]]]].
  { split; [auto|discriminate]. } { auto. } { cbn; lia. }
  cbn [cur mp_lists] in F2, G2. rewrite E2. cbn [bind].
  rewrite (call_here _ _ _ _ _ _ _ _ _ _ P2) by auto. rewrite !calls_cons.
  change (do_call (mk (PBoundary :: PNucleus :: PAtom :: s :: S) (n :: L) h2 n2 (b :: B) M) CRight)
    with (Ok (mk (PRight :: PBoundary :: PNucleus :: PAtom :: s :: S) (n :: L) h2 n2 (b :: B) M)).
  cbn [bind]. rewrite calls_cons.
  set (h3 := hset h2 n (h2 n ++ [HBoundary r])).
  change (do_call (mk (PRight :: PBoundary :: PNucleus :: PAtom :: s :: S) (n :: L) h2 n2 (b :: B) M) (CSym r))
    with (Ok (mk (PAtom :: s :: S) L h3 n2 (b :: B) M)).
  cbn [bind]. eapply with_scripts; eauto; try lia.
  - intros i I1. unfold h3, h1 in *. rewrite hset_other by lia. rewrite F2 by lia. rewrite !hset_other by lia. auto.
  - constructor; [unfold between; lia|]. unfold h3 at 2. rewrite hset_same, G2. unfold h1. rewrite hset_same.
    cbn [app]. constructor; [constructor|]. apply q_app; [|repeat constructor].
    eapply q_frame_list; [exact Q2|]. apply between_wide; try lia. intros; apply hset_other; lia.
Qed.

Lemma k_item_frac : forall deg e xs e' ys, ok_argument e xs -> ok_argument e' ys ->
  ok_item deg (CFrac :: e ++ e') (TFrac xs ys).
Proof.
  intros deg e xs e' ys Hx Hy s S L h n B M m Hs C Pe.
  rewrite (call_here _ _ _ _ _ _ _ _ _ _ Pe) by (auto; apply Hs). rewrite calls_cons.
  set (c := cur (mk (s :: S) L h n B M)) in *.
  set (h1 := hset (hset (hset h n []) (Datatypes.S n) []) c (hset (hset h n []) (Datatypes.S n) [] c ++ [HFrac n (Datatypes.S n)])).
  replace (do_call (mk (s :: S) L h n B M) CFrac)
    with (Ok (mk (PFracNumer :: PFrac :: s :: S) L h1 (Datatypes.S (Datatypes.S n)) B M)).
  2:{ destruct Hs as [Ls _]. destruct s; try discriminate Ls; reflexivity. }
  cbn [bind]. rewrite calls_app.
  assert (H1c : h1 c = h c ++ [HFrac n (Datatypes.S n)]).
  { unfold h1. rewrite hset_same, !hset_other by lia. auto. }
  destruct (Hx PFracNumer (PFrac :: s :: S) (PFracDenom :: PFrac :: s :: S) L h1 (Datatypes.S (Datatypes.S n)) B M n)
    as [h2 [n2 [E2 [N2 [F2 Q2]]]]].
  { constructor. } { unfold target, back_frac. rewrite (back_last _ L _ _ B M _ _ H1c). reflexivity. }
  { lia. } { unfold h1. rewrite !hset_other by lia. apply hset_same. }
  rewrite E2. cbn [bind].
  destruct (Hy PFracDenom (PFrac :: s :: S) (s :: S) L h2 n2 B M (Datatypes.S n)) as [h3 [n3 [E3 [N3 [F3 Q3]]]]].
  { constructor. }
  { assert (H2c : h2 c = h c ++ [HFrac n (Datatypes.S n)]) by (rewrite F2 by lia; exact H1c).
    unfold target, back_frac. rewrite (back_last _ L _ _ B M _ _ H2c). reflexivity. }
  { lia. } { rewrite F2 by lia. unfold h1. rewrite hset_other by lia. apply hset_same. }
  exists (mk (s :: S) L h3 n3 B M), h3, n3. split; [auto|split; [apply pend_refl|]].
  split; [lia|split].
  - intros i I1 I2. rewrite F3, F2 by lia. unfold h1. rewrite !hset_other by lia. auto.
  - exists [HFrac n (Datatypes.S n)]. split; [rewrite F3, F2 by lia; auto|].
    constructor; [|constructor]. constructor; try (unfold between; lia).
    + rewrite F3 by lia. eapply q_frame_list; [exact Q2|]. apply between_wide; try lia.
      intros; apply F3; lia.
    + eapply q_frame_list; [exact Q3|]. apply between_wide; try lia; auto.
Qed.

Lemma k_style : forall deg k x, (forall m, do_call m k = style_change x m) -> is_script k = false ->
  ok_item deg [k] (TStyle x).
Proof.
  intros deg k x E K s S L h n B M m Hs C Pe.
  rewrite (call_here _ _ _ _ _ _ _ _ _ _ Pe) by (auto; apply Hs). rewrite calls_cons, E.
  set (c := cur (mk (s :: S) L h n B M)) in *.
  exists (mk (s :: S) L (hset h c (h c ++ [HStyle x])) n B M), (hset h c (h c ++ [HStyle x])), n.
  split; [|split; [apply pend_refl|]].
  - unfold style_change. rewrite (commit_self _ s S) by (auto; apply Hs). reflexivity.
  - split; [lia|split]; [intros; apply hset_other; auto|].
    exists [HStyle x]. rewrite hset_same. split; auto. repeat constructor.
Qed.

(** * Scripts *)
Lemma k_scripts_none : ok_scripts [] Nothing Nothing.
Proof.
  intros S L h n ty a B M. exists h, n, None, None.
  split; [reflexivity|split; [auto|split; [auto|split; constructor]]].
Qed.
Lemma k_scripts_sup : forall e c, ok_script e c -> ok_scripts (CSup :: e) c Nothing.
Proof.
  intros e c H S L h n ty a B M. destruct (H S L h n ty a None B M) as [h' [n' [b [E [N [F Q]]]]]].
  exists h', n', b, None. split; [exact E|split; [auto|split; [auto|split; [auto|constructor]]]].
Qed.
Lemma k_scripts_sub : forall s, ok_scripts [CSub; CSym s] Nothing (Sym s).
Proof.
  intros s S L h n ty a B M. exists h, n, None, (Some (RSym s)).
  split; [reflexivity|split; [auto|split; [auto|split; constructor]]].
Qed.
Lemma k_scripts_sup_sub : forall e c s, ok_script e c -> ok_scripts (CSup :: e ++ [CSub; CSym s]) c (Sym s).
Proof.
  intros e c s H S L h n ty a B M. destruct (H S L h n ty a None B M) as [h' [n' [b [E [N [F Q]]]]]].
  exists h', n', b, (Some (RSym s)). split; [|split; [auto|split; [auto|split; [auto|constructor]]]].
  rewrite calls_cons. change (do_call (mk (PAtom :: S) L h n (mkB ty a None None :: B) M) CSup)
    with (Ok (mk (AwaitSup :: PAtom :: S) L h n (mkB ty a None None :: B) M)).
  cbn [bind]. rewrite calls_app, E. reflexivity.
Qed.
Lemma k_scripts_sub_sup : forall e c s, ok_script e c -> ok_scripts (CSub :: CSym s :: CSup :: e) c (Sym s).
Proof.
  intros e c s H S L h n ty a B M.
  destruct (H S L h n ty a (Some (RSym s)) B M) as [h' [n' [b [E [N [F Q]]]]]].
  exists h', n', b, (Some (RSym s)). split; [exact E|split; [auto|split; [auto|split; [auto|constructor]]]].
Qed.
Lemma k_script_sym : forall s, ok_script [CSym s] (Sym s).
Proof.
  intros s S L h n ty a c B M. exists h, n, (Some (RSym s)).
  split; [reflexivity|split; [auto|split; [auto|constructor]]].
Qed.
Lemma k_script_group : forall g ts, ok_group g ts -> ok_script (CBegin :: g ++ [CEnd]) (Formula ts).
Proof.
  intros g ts H S L h n ty a c B M. rewrite calls_cons.
  change (do_call (mk (AwaitSup :: PAtom :: S) L h n (mkB ty a None c :: B) M) CBegin)
    with (Ok (mk (PSup :: PAtom :: S) (n :: L) (hset h n []) (Datatypes.S n) (mkB ty a (Some (RList n)) c :: B) M)).
  cbn [bind].
  destruct (H PSup (PAtom :: S) L (hset h n []) (Datatypes.S n) (mkB ty a (Some (RList n)) c :: B) M n)
    as [h' [n' [E [N [F Q]]]]]; [auto|lia|apply hset_same|].
  exists h', n', (Some (RList n)). split; [exact E|split; [lia|split]].
  - intros i I1. rewrite F by lia. apply hset_other; lia.
  - constructor; [unfold between; lia|]. eapply q_frame_list; [exact Q|]. apply between_wide; try lia; auto.
Qed.

(** * Lists *)
Lemma k_body_items : forall deg e ts, ok_items deg e ts -> ok_body deg e ts.
Proof. intros deg e ts H s S L h n B M Hs Im C. apply H; auto using pend_refl. Qed.
Lemma k_body_scripts : forall deg e sp sb es ts, e <> [] -> scripts e sp sb -> ok_scripts e sp sb ->
  ok_items deg es ts -> ok_body deg (e ++ es) (TAtom Ord Nothing sp sb :: ts).
Proof.
  intros deg e sp sb es ts Ne Hs0 Hsc Hi s S L h n B M Hs Im C.
  assert (E0 : calls e (mk (s :: S) L h n B M) =
               calls e (mk (PAtom :: s :: S) L h n (mkB Ord None None None :: B) M)).
  { destruct Hs0; [congruence| | | |];
      destruct s; try discriminate Im; reflexivity. }
  rewrite calls_app, E0.
  destruct (with_scripts deg e sp sb Ord None Nothing s S L h n B M h n Hsc Hs C) as [m1 [h1 [n1 [E1 [P1 G1]]]]];
    auto; [constructor|].
  rewrite E1. cbn [bind].
  assert (C1 : cur (mk (s :: S) L h1 n1 B M) < n1).
  { destruct G1 as [N1 _]. unfold cur in *. cbn [mp_lists] in *. lia. }
  destruct (Hi s S L h1 n1 B M m1 Hs C1 P1) as [m2 [h2 [n2 [E2 [P2 G2]]]]].
  exists m2, h2, n2. split; [auto|split; [auto|]].
  change (TAtom Ord Nothing sp sb :: ts) with ([TAtom Ord Nothing sp sb] ++ ts). eapply grown_app; eauto.
Qed.

Lemma group_states : forall s, s = PNucleus \/ s = PSup \/ s = PSub ->
  here false s /\ isParsingMList s = true /\ list_state s = true.
Proof. intros s [E|[E|E]]; subst; (split; [split; [auto|discriminate]|auto]). Qed.
Lemma end_here : forall s S i L h n B M, s = PNucleus \/ s = PSup \/ s = PSub ->
  do_call (mk (s :: S) (i :: L) h n B M) CEnd = Ok (mk S L h n B M).
Proof. intros s S i L h n B M [E|[E|E]]; subst; reflexivity. Qed.

Lemma k_group_body : forall e ts, ok_body false e ts -> ok_group e ts.
Proof.
  intros e ts H s S L h n B M i Hs I1 E0. destruct (group_states s Hs) as [Hh [Im Ls]].
  destruct (H s S (i :: L) h n B M Hh Im) as [m1 [h1 [n1 [E1 [P1 [N1 [F1 [l [G1 Q1]]]]]]]]]; [cbn; lia|].
  cbn [cur mp_lists] in F1, G1. exists h1, n1. rewrite calls_app, E1. cbn [bind].
  rewrite (call_here _ _ _ _ _ _ _ _ _ _ P1) by auto. rewrite calls_cons, end_here by auto. cbn [bind].
  split; [reflexivity|split; [auto|split; [auto|]]]. rewrite G1, E0. exact Q1.
Qed.

(** \over, from the state where the numerator is complete *)
Lemma over_here : forall s S L h n B M c, list_state s = true -> c = cur (mk (s :: S) L h n B M) -> c < n ->
  exists h1, do_call (mk (s :: S) L h n B M) COver =
      Ok (mk (POver :: s :: S) (Datatypes.S n :: L) h1 (Datatypes.S (Datatypes.S n)) B M) /\
    h1 c = [HFrac n (Datatypes.S n)] /\ h1 n = h c /\ h1 (Datatypes.S n) = [] /\
    (forall i, i < n -> i <> c -> h1 i = h i).
Proof.
  intros s S L h n B M c Ls Ec C.
  exists (hset (hset (hset h n (h c)) (Datatypes.S n) []) c [HFrac n (Datatypes.S n)]).
  split; [|split; [|split; [|split]]].
  - cbn [do_call]. unfold over. rewrite (commit_self _ s S) by auto. subst c. reflexivity.
  - apply hset_same.
  - rewrite hset_other by lia. rewrite hset_other by lia. apply hset_same.
  - rewrite hset_other by lia. apply hset_same.
  - intros i I1 I2. rewrite !hset_other by lia. auto.
Qed.

(** numerator \over denominator, in an empty list *)
Lemma over_both : forall e ts e' ts' s S L h n B M c, ok_body false e ts -> ok_body false e' ts' ->
  here false s -> isParsingMList s = true -> c = cur (mk (s :: S) L h n B M) -> c < n -> h c = [] ->
  exists m' h' n' i, calls (e ++ COver :: e') (mk (s :: S) L h n B M) = Ok m' /\
    pend m' (mk (POver :: s :: S) (i :: L) h' n' B M) /\
    n <= n' /\ (forall j, j < n -> j <> c -> h' j = h j) /\ q_list h' (between n n') (h' c) [TFrac ts ts'].
Proof.
  intros e ts e' ts' s S L h n B M c H H' Hs Im Ec C E0.
  destruct (H s S L h n B M Hs Im) as [m1 [h1 [n1 [E1 [P1 [N1 [F1 [l [G1 Q1]]]]]]]]]; [rewrite <- Ec; auto|].
  rewrite <- Ec in F1, G1. rewrite E0 in G1. cbn [app] in G1.
  rewrite calls_app, E1. cbn [bind]. rewrite (call_here _ _ _ _ _ _ _ _ _ _ P1) by (auto; apply Hs).
  destruct (over_here s S L h1 n1 B M c) as [h2 [E2 [A2 [A3 [A4 A5]]]]]; [apply Hs|auto|lia|].
  rewrite calls_cons, E2. cbn [bind].
  destruct (H' POver (s :: S) (Datatypes.S n1 :: L) h2 (Datatypes.S (Datatypes.S n1)) B M)
    as [m3 [h3 [n3 [E3 [P3 [N3 [F3 [l' [G3 Q3]]]]]]]]]; [split; [auto|discriminate]|auto|cbn; lia|].
  cbn [cur mp_lists] in F3, G3. rewrite A4 in G3. cbn [app] in G3.
  exists m3, h3, n3, (Datatypes.S n1). split; [auto|split; [auto|split; [lia|split]]].
  - intros j J1 J2. rewrite F3, A5 by lia. auto.
  - rewrite F3 by lia. rewrite A2. constructor; [|constructor].
    constructor; try (unfold between; lia).
    + rewrite F3 by lia. rewrite A3, G1. eapply q_frame_list; [exact Q1|]. apply between_wide; try lia.
      intros j J1. rewrite F3 by lia. apply A5; lia.
    + rewrite G3. eapply q_frame_list; [exact Q3|]. apply between_wide; try lia; auto.
Qed.
Lemma k_group_over : forall e ts e' ts', ok_body false e ts -> ok_body false e' ts' ->
  ok_group (e ++ COver :: e') [TFrac ts ts'].
Proof.
  intros e ts e' ts' H H' s S L h n B M i Hs I1 E0. destruct (group_states s Hs) as [Hh [Im Ls]].
  destruct (over_both e ts e' ts' s S (i :: L) h n B M i H H' Hh Im eq_refl I1 E0)
    as [m1 [h1 [n1 [j [E1 [P1 [N1 [F1 Q1]]]]]]]].
  exists h1, n1. rewrite calls_app, E1. cbn [bind].
  rewrite (call_here _ _ _ _ _ _ _ _ _ _ P1) by auto. rewrite calls_cons.
  replace (do_call (mk (POver :: s :: S) (j :: i :: L) h1 n1 B M) CEnd) with (Ok (mk S L h1 n1 B M))
    by (destruct Hs as [E|[E|E]]; subst; reflexivity).
  cbn [bind]. auto.
Qed.

(** * Arguments *)
Lemma k_argument_sym : forall s, ok_argument [CSym s] [TAtom Ord (Sym s) Nothing Nothing].
Proof.
  intros x s S S' L h n B M i Hn Ht I1 E0.
  exists (hset h i (h i ++ [HAtom Ord (Some (RSym x)) None None])), n. split; [|split; [auto|split]].
  - unfold target in Ht. rewrite calls_cons. cbn [do_call]. unfold writeSymbol.
    destruct Hn; cbn [mp_states length write_symbol state bind];
      unfold parse_frac_numer, parse_frac_denom, parse_sqrt_radicand;
      (destruct (back_frac _) as [p| | | |] eqn:Eb in Ht || destruct (back_root _) as [p| | | |] eqn:Eb in Ht);
      cbn [bind] in Ht; try discriminate Ht; injection Ht as Ht; subst i; rewrite Eb; reflexivity.
  - intros j J1 J2. apply hset_other; auto.
  - rewrite hset_same, E0. repeat constructor.
Qed.
Lemma k_argument_group : forall g ts, ok_body false g ts -> ok_argument (CBegin :: g ++ [CEnd]) ts.
Proof.
  intros g ts H s S S' L h n B M i Hn Ht I1 E0.
  set (s' := match s with PFracNumer => PFracNumerM | PFracDenom => PFracDenomM | _ => PSqrtRadicandM end).
  assert (Hb : do_call (mk (s :: S) L h n B M) CBegin = Ok (mk (s' :: s :: S) (i :: L) h n B M)).
  { unfold target in Ht. cbn [do_call]. unfold beginMathList.
    destruct Hn; cbn [mp_states state bind];
      (destruct (back_frac _) as [p| | | |] eqn:Eb in Ht || destruct (back_root _) as [p| | | |] eqn:Eb in Ht);
      cbn [bind] in Ht; try discriminate Ht; injection Ht as Ht; subst i; rewrite Eb; reflexivity. }
  rewrite calls_cons, Hb. cbn [bind]. rewrite calls_app.
  assert (Ls : here false s' /\ isParsingMList s' = true /\ list_state s' = true).
  { unfold s'. destruct Hn; (split; [split; [auto|discriminate]|auto]). }
  destruct Ls as [Hh [Im Ls]].
  destruct (H s' (s :: S) (i :: L) h n B M Hh Im) as [m1 [h1 [n1 [E1 [P1 [N1 [F1 [l [G1 Q1]]]]]]]]]; [cbn; lia|].
  cbn [cur mp_lists] in F1, G1. exists h1, n1. rewrite E1. cbn [bind].
  rewrite (call_here _ _ _ _ _ _ _ _ _ _ P1) by auto. rewrite calls_cons.
  replace (do_call (mk (s' :: s :: S) (i :: L) h1 n1 B M) CEnd) with (Ok (mk S' L h1 n1 B M))
    by (unfold s'; destruct Hn; reflexivity).
  cbn [bind]. split; [reflexivity|split; [auto|split; [auto|]]]. rewrite G1, E0. exact Q1.
Qed.

(** * Matrices *)
Lemma Forall2_mono : forall {A B} (R R' : A -> B -> Prop) l l', (forall a b, R a b -> R' a b) ->
  Forall2 R l l' -> Forall2 R' l l'.
Proof. intros A B R R' l l' H F; induction F; constructor; auto. Qed.
Lemma cell_items : forall e ts S L h n B X i m, ok_items false e ts -> i < n -> h i = [] ->
  pend m (mk (PMatrixCell :: S) (i :: L) h n B X) ->
  exists m' h' n', calls e m = Ok m' /\ pend m' (mk (PMatrixCell :: S) (i :: L) h' n' B X) /\
    n <= n' /\ (forall j, j < n -> j <> i -> h' j = h j) /\ q_list h' (between n n') (h' i) ts.
Proof.
  intros e ts S L h n B X i m H I1 E0 Pe.
  destruct (H PMatrixCell S (i :: L) h n B X m) as [m1 [h1 [n1 [E1 [P1 [N1 [F1 [l [G1 Q1]]]]]]]]];
    [split; [auto|discriminate]|cbn; lia|auto|].
  cbn [cur mp_lists] in F1, G1. rewrite E0 in G1. cbn [app] in G1.
  exists m1, h1, n1. rewrite G1. auto 6.
Qed.
Lemma k_row_cell : forall e ts, ok_items false e ts -> ok_row e [ts].
Proof.
  intros e ts H S L h n B M rs r0 i m I1 E0 Pe.
  destruct (cell_items e ts S L h n B _ i m H I1 E0 Pe) as [m1 [h1 [n1 [E1 [P1 [N1 [F1 Q1]]]]]]].
  exists m1, h1, n1, i, [i]. split; [auto|split; [auto|split; [auto|split; [auto|]]]].
  constructor; [left; auto| |constructor]. eapply q_frame_list; [exact Q1|]. unfold or_in; auto.
Qed.
Lemma k_row_cells : forall e ts es r, ok_items false e ts -> ok_row es r -> ok_row (e ++ CTab :: es) (ts :: r).
Proof.
  intros e ts es r H Hr S L h n B M rs r0 i m I1 E0 Pe.
  destruct (cell_items e ts S L h n B _ i m H I1 E0 Pe) as [m1 [h1 [n1 [E1 [P1 [N1 [F1 Q1]]]]]]].
  rewrite calls_app, E1. cbn [bind]. rewrite (call_here _ _ _ _ _ _ _ _ _ _ P1) by auto. rewrite calls_cons.
  replace (do_call (mk (PMatrixCell :: S) (i :: L) h1 n1 B ((rs ++ [r0 ++ [i]]) :: M)) CTab)
    with (Ok (mk (PMatrixCell :: S) (n1 :: L) (hset h1 n1 []) (Datatypes.S n1) B ((rs ++ [(r0 ++ [i]) ++ [n1]]) :: M))).
  2:{ cbn [do_call]. unfold alignmentTab, in_cell. rewrite (commit_self _ PMatrixCell S) by auto.
      cbn [bind state mp_states popList mp_lists]. unfold new_cell. cbn [with_lists mp_matrices].
      rewrite rev_unit, rev_involutive. reflexivity. }
  cbn [bind].
  destruct (Hr S L (hset h1 n1 []) (Datatypes.S n1) B M rs (r0 ++ [i]) n1
              (mk (PMatrixCell :: S) (n1 :: L) (hset h1 n1 []) (Datatypes.S n1) B ((rs ++ [(r0 ++ [i]) ++ [n1]]) :: M)))
    as [m2 [h2 [n2 [i2 [is [E2 [P2 [N2 [F2 Q2]]]]]]]]]; [lia|apply hset_same|apply pend_refl|].
  exists m2, h2, n2, i2, (i :: is). rewrite <- app_assoc in P2. cbn [app] in P2.
  assert (F12 : forall j, j < n1 -> h2 j = h1 j).
  { intros j J1. rewrite F2 by lia. apply hset_other; lia. }
  split; [auto|split; [auto|split; [lia|split]]].
  - intros j J1 J2. rewrite F12 by lia. auto.
  - constructor; [left; auto| |].
    + rewrite F12 by lia. eapply q_frame_list; [exact Q1|]. unfold or_in, between. intros j J1.
      split; [lia|apply F12; lia].
    + eapply q_frame_lists; [exact Q2|]. unfold or_in, between. intros j J1. split; [lia|auto].
Qed.
Lemma k_table_row : forall e r, ok_row e r -> ok_table e [r].
Proof.
  intros e r H S L h n B M rs i m I1 E0 Pe.
  destruct (H S L h n B M rs [] i m I1 E0 Pe) as [m1 [h1 [n1 [i1 [is [E1 [P1 [N1 [F1 Q1]]]]]]]]].
  exists m1, h1, n1, i1, [is]. split; [auto|split; [auto|split; [auto|split; [auto|]]]]. constructor; auto.
Qed.
Lemma k_table_rows : forall e r es rs, ok_row e r -> ok_table es rs -> ok_table (e ++ CCr :: es) (r :: rs).
Proof.
  intros e r es t H Ht S L h n B M rs i m I1 E0 Pe.
  destruct (H S L h n B M rs [] i m I1 E0 Pe) as [m1 [h1 [n1 [i1 [is [E1 [P1 [N1 [F1 Q1]]]]]]]]].
  cbn [app] in P1.
  rewrite calls_app, E1. cbn [bind]. rewrite (call_here _ _ _ _ _ _ _ _ _ _ P1) by auto. rewrite calls_cons.
  replace (do_call (mk (PMatrixCell :: S) (i1 :: L) h1 n1 B ((rs ++ [is]) :: M)) CCr)
    with (Ok (mk (PMatrixCell :: S) (n1 :: L) (hset h1 n1 []) (Datatypes.S n1) B (((rs ++ [is]) ++ [[n1]]) :: M)))
    by reflexivity.
  cbn [bind].
  destruct (Ht S L (hset h1 n1 []) (Datatypes.S n1) B M (rs ++ [is]) n1
              (mk (PMatrixCell :: S) (n1 :: L) (hset h1 n1 []) (Datatypes.S n1) B (((rs ++ [is]) ++ [[n1]]) :: M)))
    as [m2 [h2 [n2 [i2 [iss [E2 [P2 [N2 [F2 Q2]]]]]]]]]; [lia|apply hset_same|apply pend_refl|].
  exists m2, h2, n2, i2, (is :: iss). rewrite <- app_assoc in P2. cbn [app] in P2.
  assert (F12 : forall j, j < n1 -> h2 j = h1 j).
  { intros j J1. rewrite F2 by lia. apply hset_other; lia. }
  split; [auto|split; [auto|split; [lia|split]]].
  - intros j J1 J2. rewrite F12 by lia. auto.
  - constructor.
    + eapply q_frame_lists; [exact Q1|]. unfold or_in, between. intros j J1. split; [lia|apply F12; lia].
    + eapply Forall2_mono; [|exact Q2]. intros a b Q. eapply q_frame_lists; [exact Q|].
      unfold or_in, between. intros j J1. split; [lia|auto].
Qed.

Lemma allocs_spec : forall ls S L h n B M, exists h',
  allocs ls (mk S L h n B M) = (seq n (length ls), mk S L h' (n + length ls) B M) /\
  (forall i, i < n -> h' i = h i) /\ map h' (seq n (length ls)) = ls.
Proof.
  induction ls as [|l ls IH]; intros S L h n B M.
  - exists h. cbn. rewrite Nat.add_0_r. auto.
  - destruct (IH S L (hset h n l) (Datatypes.S n) B M) as [h' [E [F G]]]. exists h'.
    cbn [allocs alloc mp_states mp_lists mp_heap mp_next mp_builders mp_matrices].
    rewrite E. cbn [length seq map]. rewrite Nat.add_succ_r. split; [reflexivity|split].
    + intros i I1. rewrite F by lia. apply hset_other; lia.
    + rewrite G, F by lia. rewrite hset_same. auto.
Qed.

Lemma q_lists_of_contents : forall h (P : nat -> Prop) is xs, (forall i, In i is -> P i) ->
  Forall2 (q_list h P) (map h is) xs -> q_lists h P is xs.
Proof.
  intros h P is; induction is as [|i is IH]; intros xs HP F; cbn [map] in F; inversion F; subst; constructor; auto.
  - apply HP; left; auto.
  - apply IH; auto. intros; apply HP; right; auto.
Qed.
Lemma contents_of_q_lists : forall h P is xs, q_lists h P is xs -> Forall2 (q_list h P) (map h is) xs.
Proof. intros h P is xs Q; induction Q; cbn [map]; constructor; auto. Qed.

Lemma fold_max : forall (rows : list (list nat)) a,
  fold_left (fun n r => Nat.max (length r) n) rows a = Nat.max a (list_max (map (@length _) rows)).
Proof.
  induction rows as [|r rows IH]; intros a; cbn [fold_left map list_max fold_right]; [lia|].
  rewrite IH. unfold list_max. lia.
Qed.
Lemma nb_cols_widest : forall h P iss rows, Forall2 (q_lists h P) iss rows -> nb_cols iss = widest rows.
Proof.
  intros h P iss rows F. unfold nb_cols, widest. rewrite fold_max. cbn [Nat.max].
  f_equal. induction F as [|a b l l' Q F IH]; cbn [map]; [auto|].
  f_equal; auto. eapply q_lists_length; eauto.
Qed.
Lemma Forall2_repeat : forall {A B} (R : A -> B -> Prop) a b k, R a b -> Forall2 R (repeat a k) (repeat b k).
Proof. intros A B R a b k H; induction k; cbn; constructor; auto. Qed.
Lemma elements_read : forall h P iss rows cols, Forall2 (q_lists h P) iss rows ->
  Forall2 (q_list h P) (flat_map (fun r => map h r ++ repeat [] (cols - length r)) iss)
    (concat (map (pad cols) rows)).
Proof.
  intros h P iss rows cols F; induction F as [|a b l l' Q F IH]; cbn [flat_map map concat]; [constructor|].
  apply Forall2_app; auto. unfold pad. rewrite (q_lists_length _ _ _ _ Q).
  apply Forall2_app; [apply contents_of_q_lists; auto|]. apply Forall2_repeat. constructor.
Qed.

Lemma k_item_matrix : forall deg e rows, ok_table e rows ->
  ok_item deg (CMatrix :: CBegin :: e ++ [CEnd]) (TMatrix (concat (map (pad (widest rows)) rows)) (widest rows)).
Proof.
  intros deg e rows H s S L h n B M m Hs C Pe.
  rewrite (call_here _ _ _ _ _ _ _ _ _ _ Pe) by (auto; apply Hs). rewrite calls_cons.
  replace (do_call (mk (s :: S) L h n B M) CMatrix) with (Ok (mk (PMatrix :: s :: S) L h n B M))
    by (destruct Hs as [Ls _]; destruct s; try discriminate Ls; reflexivity).
  cbn [bind]. rewrite calls_cons.
  change (do_call (mk (PMatrix :: s :: S) L h n B M) CBegin)
    with (Ok (mk (PMatrixCell :: PMatrix :: s :: S) (n :: L) (hset h n []) (Datatypes.S n) B ([[n]] :: M))).
  cbn [bind]. rewrite calls_app. set (c := cur (mk (s :: S) L h n B M)) in *.
  destruct (H (PMatrix :: s :: S) L (hset h n []) (Datatypes.S n) B M [] n
              (mk (PMatrixCell :: PMatrix :: s :: S) (n :: L) (hset h n []) (Datatypes.S n) B ([[n]] :: M)))
    as [m1 [h1 [n1 [i1 [iss [E1 [P1 [N1 [F1 Q1]]]]]]]]]; [lia|apply hset_same|apply pend_refl|].
  cbn [app] in P1. rewrite E1. cbn [bind]. rewrite (call_here _ _ _ _ _ _ _ _ _ _ P1) by auto. rewrite calls_cons.
  destruct (allocs_spec (elements h1 iss) (s :: S) L h1 n1 B (iss :: M)) as [h2 [E2 [F2 G2]]].
  set (k := length (elements h1 iss)) in *. set (node := HMatrix (seq n1 k) (nb_cols iss)).
  replace (do_call (mk (PMatrixCell :: PMatrix :: s :: S) (i1 :: L) h1 n1 B (iss :: M)) CEnd)
    with (Ok (mk (s :: S) L (hset h2 c (h2 c ++ [node])) (n1 + k) B M)).
  2:{ cbn [do_call]. unfold endMathList. rewrite (commit_self _ PMatrixCell (PMatrix :: s :: S)) by auto.
      cbn [bind state mp_states].
      change (leaveState (mk (PMatrixCell :: PMatrix :: s :: S) (i1 :: L) h1 n1 B (iss :: M)))
        with (Ok (mk (PMatrix :: s :: S) (i1 :: L) h1 n1 B (iss :: M))).
      cbn [bind]. change (leave PMatrix (mk (PMatrix :: s :: S) (i1 :: L) h1 n1 B (iss :: M)))
        with (Ok (mk (s :: S) (i1 :: L) h1 n1 B (iss :: M))).
      cbn [bind].
      change (popList (mk (s :: S) (i1 :: L) h1 n1 B (iss :: M))) with (Ok (mk (s :: S) L h1 n1 B (iss :: M))).
      cbn [bind mp_matrices]. unfold build_matrix. cbn [mp_heap]. rewrite E2. reflexivity. }
  cbn [bind]. assert (C2 : c < n1) by lia.
  exists (mk (s :: S) L (hset h2 c (h2 c ++ [node])) (n1 + k) B M), (hset h2 c (h2 c ++ [node])), (n1 + k).
  split; [reflexivity|split; [apply pend_refl|split; [lia|split]]].
  - intros i I1 I2. rewrite hset_other by auto. rewrite F2, F1 by lia. apply hset_other; lia.
  - exists [node]. rewrite hset_same. split.
    + rewrite F2, F1 by lia. rewrite hset_other by lia. auto.
    + constructor; [|constructor]. unfold node. rewrite (nb_cols_widest _ _ _ _ Q1). constructor.
      eapply q_frame_lists with (h := h2) (P := between n (n1 + k)).
      2:{ unfold between. intros i I1. split; [lia|apply hset_other; lia]. }
      apply q_lists_of_contents.
      { intros i I1. apply in_seq in I1. unfold between. lia. }
      rewrite G2. unfold elements. rewrite (nb_cols_widest _ _ _ _ Q1).
      eapply Forall2_mono; [|apply elements_read; exact Q1].
      intros a b Q. eapply q_frame_list; [exact Q|]. unfold or_in, between. intros i I1.
      split; [lia|]. apply F2; lia.
Qed.

(** * All rules together *)
Scheme items_i := Minimality for items Sort Prop
with item_i := Minimality for item Sort Prop
with scripts_i := Minimality for scripts Sort Prop
with script_i := Minimality for script Sort Prop
with body_i := Minimality for body Sort Prop
with group_i := Minimality for group Sort Prop
with argument_i := Minimality for argument Sort Prop
with table_i := Minimality for table Sort Prop
with row_i := Minimality for row Sort Prop.
Combined Scheme formula_ind from items_i, item_i, scripts_i, script_i, body_i, group_i, argument_i, table_i, row_i.

Lemma parses :
  (forall deg e t, items deg e t -> ok_items deg e t) /\ (forall deg e t, item deg e t -> ok_item deg e t) /\
  (forall e a b, scripts e a b -> ok_scripts e a b) /\ (forall e a, script e a -> ok_script e a) /\
  (forall deg e t, body deg e t -> ok_body deg e t) /\ (forall e t, group e t -> ok_group e t) /\
  (forall e t, argument e t -> ok_argument e t) /\ (forall e t, table e t -> ok_table e t) /\
  (forall e t, row e t -> ok_row e t).
Proof.
  apply formula_ind; intros.
  - apply k_items_nil.
  - apply k_items_cons; auto.
  - apply k_item_sym; auto.
  - apply k_item_group; auto.
  - apply k_item_sqrt_sym; auto.
  - apply k_item_sqrt; auto.
  - apply k_item_root; auto.
  - apply k_item_left_right; auto.
  - apply k_item_frac; auto.
  - apply k_item_matrix; auto.
  - apply k_style; auto.
  - apply k_style; auto.
  - apply k_style; auto.
  - apply k_scripts_none.
  - apply k_scripts_sup; auto.
  - apply k_scripts_sub.
  - apply k_scripts_sup_sub; auto.
  - apply k_scripts_sub_sup; auto.
  - apply k_script_sym.
  - apply k_script_group; auto.
  - apply k_body_items; auto.
  - apply k_body_scripts; auto.
  - apply k_group_body; auto.
  - apply k_group_over; auto.
  - apply k_argument_sym.
  - apply k_argument_group; auto.
  - apply k_table_row; auto.
  - apply k_table_rows; auto.
  - apply k_row_cell; auto.
  - apply k_row_cells; auto.
Qed.

Theorem formula_parsed : forall e ts, group e ts ->
  exists m, calls (e ++ [CFinish]) mp_init = Ok m /\ output_is m ts.
Proof.
  intros e ts G. assert (Hh : here false PMList) by (split; [auto|discriminate]).
  destruct parses as [_ [_ [_ [_ [Hb _]]]]].
  unfold mp_init, output_is. destruct G as [e ts Hbd|e ts e' ts' Hb1 Hb2].
  - destruct (Hb _ _ _ Hbd PMList [] [] (fun _ => []) 1 [] []) as [m1 [h1 [n1 [E1 [P1 [N1 [F1 [l [G1 Q1]]]]]]]]];
      [auto|auto|cbn; lia|].
    cbn in G1. exists (mk [PMList] [] h1 n1 [] []). split.
    + rewrite calls_app, E1. cbn [bind]. rewrite (call_here _ _ _ _ _ _ _ _ _ _ P1) by auto. reflexivity.
    + cbn [mp_heap]. rewrite G1. apply (q_reads h1 (between 1 n1)). auto.
  - destruct (over_both e ts e' ts' PMList [] [] (fun _ => []) 1 [] [] 0 (Hb _ _ _ Hb1) (Hb _ _ _ Hb2))
      as [m1 [h1 [n1 [i [E1 [P1 [N1 [F1 Q1]]]]]]]]; auto.
    exists (mk [PMList] [] h1 n1 [] []). split.
    + rewrite calls_app, E1. cbn [bind]. rewrite (call_here _ _ _ _ _ _ _ _ _ _ P1) by auto. reflexivity.
    + cbn [mp_heap]. apply (q_reads h1 (between 1 n1)). auto.
Qed.
