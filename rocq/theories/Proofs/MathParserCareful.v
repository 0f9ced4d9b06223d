(** Without commands where an argument is awaited, the math parser is never undefined. *)
From Coq Require Import List Ascii ZArith Bool Arith Lia.
From Verif.Base Require Import Result.
From Verif.Model Require Import MathList MathParser.
From Verif.Spec Require Import MathSpec.
From Verif.Proofs Require Import FormulaProofs MathParserSafe.
Import ListNotations.

(** only the list of the argument is above a state that awaits one *)
Definition takes (s : mstate) : bool :=
  match s with PSqrtRadicandM | PFracNumerM | PFracDenomM => true | _ => false end.
Definition quiet (S : list mstate) : bool := match S with s :: _ => negb (awaits_argument s) | [] => true end.
Fixpoint calm (S : list mstate) : Prop :=
  match S with [] => True | s :: r => (quiet r = false -> takes s = true) /\ calm r end.

(** the last node of the current list is the fraction or root being read *)
Definition last_frac (h : nat -> list hnode) (n : nat) (L : list nat) : Prop :=
  exists l a b, h (hd 0 L) = l ++ [HFrac a b] /\ a < n /\ b < n /\ ~ In a (L ++ [0]) /\ ~ In b (L ++ [0]).
Definition last_root (h : nat -> list hnode) (n : nat) (L : list nat) : Prop :=
  exists l a b, h (hd 0 L) = l ++ [HRoot a b] /\ b < n /\ ~ In b (L ++ [0]).
Fixpoint backs (h : nat -> list hnode) (n : nat) (S : list mstate) (L : list nat) : Prop :=
  match S with
  | [] => True
  | s :: r =>
      match s with
      | PFracNumer | PFracDenom => last_frac h n L
      | PSqrtRadicand => last_root h n L
      | PSqrtDegree => last_root h n (tl L)
      | _ => True
      end /\ backs h n r (if Nat.eqb (has_list s) 1 then tl L else L)
  end.
Definition bk (S : list mstate) (L : list nat) (h : nat -> list hnode) (n : nat) : Prop :=
  NoDup (L ++ [0]) /\ (forall i, In i (L ++ [0]) -> i < n) /\ length L = count has_list S /\
  calm S /\ backs h n S L.

Lemma hd_in : forall L : list nat, In (hd 0 L) (L ++ [0]).
Proof. intros [|i L]; cbn; auto. Qed.
Lemma tl_in : forall (L : list nat) i, In i (tl L ++ [0]) -> In i (L ++ [0]).
Proof. intros [|j L] i; cbn; auto. Qed.

Lemma last_frac_agree : forall h h' n n' L, n <= n' -> h' (hd 0 L) = h (hd 0 L) -> last_frac h n L -> last_frac h' n' L.
Proof. intros h h' n n' L N E [l [a [b [A1 [A2 [A3 [A4 A5]]]]]]]. exists l, a, b. rewrite E. repeat split; auto; lia. Qed.
Lemma last_root_agree : forall h h' n n' L, n <= n' -> h' (hd 0 L) = h (hd 0 L) -> last_root h n L -> last_root h' n' L.
Proof. intros h h' n n' L N E [l [a [b [A1 [A2 A3]]]]]. exists l, a, b. rewrite E. repeat split; auto; lia. Qed.

Lemma backs_agree : forall h h' n n' S L, n <= n' -> (forall i, In i (L ++ [0]) -> h' i = h i) ->
  backs h n S L -> backs h' n' S L.
Proof.
  intros h h' n n' S; induction S as [|s S IH]; intros L N F B; [exact I|].
  destruct B as [B1 B2]. split.
  - destruct s; auto.
    + apply (last_root_agree h h' n n'); auto; apply F, tl_in, hd_in.
    + apply (last_root_agree h h' n n'); auto; apply F, hd_in.
    + apply (last_frac_agree h h' n n'); auto; apply F, hd_in.
    + apply (last_frac_agree h h' n n'); auto; apply F, hd_in.
  - destruct (Nat.eqb (has_list s) 1); apply IH; auto. intros; apply F, tl_in; auto.
Qed.
Lemma backs_cur : forall h h' n n' S L, n <= n' -> quiet S = true -> calm S -> length L = count has_list S ->
  NoDup (L ++ [0]) -> (forall i, In i (L ++ [0]) -> i <> hd 0 L -> h' i = h i) ->
  backs h n S L -> backs h' n' S L.
Proof.
  intros h h' n n' S; induction S as [|s S IH]; intros L N Qu C Len Nd F B; [exact I|].
  destruct B as [B1 B2]. destruct C as [C1 C2]. cbn [quiet] in Qu.
  destruct (Nat.eqb_spec (has_list s) 1) as [E|E].
  - cbn [count] in Len. rewrite E in Len. destruct L as [|c L]; [discriminate Len|]. cbn [tl hd] in *.
    cbn [app] in Nd. inversion Nd as [|c' L' Nc Nd']; subst.
    assert (F' : forall i, In i (L ++ [0]) -> h' i = h i).
    { intros i Hi. apply F; [right; auto|]. intros ->. contradiction. }
    split; [|cbn [backs]; rewrite E; cbn [Nat.eqb tl]; eapply backs_agree; eauto].
    destruct s; auto; try discriminate Qu. cbn [tl] in *. apply (last_root_agree h h' n n'); auto; apply F', hd_in.
  - assert (E0 : has_list s = 0) by (destruct s; cbn in *; congruence). cbn [count] in Len. rewrite E0 in Len.
    assert (Qs : quiet S = true).
    { destruct (quiet S) eqn:Q; auto. specialize (C1 eq_refl). destruct s; discriminate. }
    split; [destruct s; auto; try discriminate; exfalso; apply E; reflexivity|].
    rewrite E0. cbn [Nat.eqb]. apply IH; auto.
Qed.

Lemma bk_heap : forall S L h n h' n', bk S L h n -> n <= n' -> (forall i, In i (L ++ [0]) -> h' i = h i) -> bk S L h' n'.
Proof.
  intros S L h n h' n' [A [B [C [D E]]]] N F. split; [auto|split; [|split; [auto|split; [auto|]]]].
  - intros i Hi. specialize (B i Hi). lia.
  - eapply backs_agree; eauto.
Qed.
Lemma bk_cur : forall S L h n h' n', bk S L h n -> quiet S = true -> n <= n' ->
  (forall i, In i (L ++ [0]) -> i <> hd 0 L -> h' i = h i) -> bk S L h' n'.
Proof.
  intros S L h n h' n' [A [B [C [D E]]]] Q N F. split; [auto|split; [|split; [auto|split; [auto|]]]].
  - intros i Hi. specialize (B i Hi). lia.
  - eapply backs_cur; eauto.
Qed.
Definition plain_state (s : mstate) : bool := negb (awaits_argument s) && Nat.eqb (has_list s) 0.
Lemma bk_enter0 : forall s S L h n, bk S L h n -> quiet S = true -> plain_state s = true -> bk (s :: S) L h n.
Proof.
  intros s S L h n [A [B [C [D E]]]] Q P. unfold plain_state in P. apply andb_prop in P. destruct P as [P1 P2].
  apply Nat.eqb_eq in P2.
  split; [auto|split; [auto|split; [|split]]].
  - cbn [count]. rewrite P2. auto.
  - split; [intros; congruence|auto].
  - split; [destruct s; auto; discriminate|]. rewrite P2. auto.
Qed.
Lemma bk_enter1 : forall s i S L h n, bk S L h n -> quiet S = true \/ takes s = true -> has_list s = 1 ->
  s <> PSqrtDegree -> ~ In i (L ++ [0]) -> i < n -> bk (s :: S) (i :: L) h n.
Proof.
  intros s i S L h n [A [B [C [D E]]]] Q P Ns Ni Hi.
  split; [cbn; constructor; auto|split; [|split; [|split]]].
  - intros j [J|J]; [subst; auto|apply B; auto].
  - cbn [count length]. rewrite P, C. reflexivity.
  - split; [|auto]. intros Qs. destruct Q as [Q|Q]; [congruence|auto].
  - cbn [backs]. rewrite P. split; [destruct s; auto; try discriminate P; congruence|]. exact E.
Qed.
Lemma bk_leave0 : forall s S L h n, bk (s :: S) L h n -> has_list s = 0 -> bk S L h n.
Proof.
  intros s S L h n [A [B [C [[_ D] E]]]] P. cbn [count backs] in *. rewrite P in *. destruct E as [_ E].
  split; [auto|split; [auto|split; [auto|split; auto]]].
Qed.
Lemma bk_leave1 : forall s S i L h n, bk (s :: S) (i :: L) h n -> has_list s = 1 -> bk S L h n.
Proof.
  intros s S i L h n [A [B [C [[_ D] E]]]] P. cbn [count backs length app] in *. rewrite P in *. destruct E as [_ E].
  cbn [Nat.eqb tl] in E. inversion A; subst. injection C as C.
  split; [auto|split; [|split; [auto|split; auto]]]. intros j J; apply B; right; auto.
Qed.
(** what is below a state that is left is quiet, unless it took an argument *)
Lemma bk_quiet : forall s S L h n, bk (s :: S) L h n -> takes s = false -> quiet S = true.
Proof.
  intros s S L h n [_ [_ [_ [[D _] _]]]] T. destruct (quiet S); auto. specialize (D eq_refl). congruence.
Qed.
Lemma bk_fresh : forall S L h n i, bk S L h n -> n <= i -> ~ In i (L ++ [0]).
Proof. intros S L h n i [_ [B _]] N Hi. specialize (B i Hi). lia. Qed.
Lemma bk_hd : forall S L h n, bk S L h n -> hd 0 L < n.
Proof. intros S L h n [_ [B _]]. apply B, hd_in. Qed.
Lemma bk_alloc : forall S L h n l, bk S L h n -> bk S L (hset h n l) (Datatypes.S n).
Proof.
  intros S L h n l W. eapply bk_heap; eauto. intros i Hi. apply hset_other.
  destruct W as [_ [B _]]. specialize (B i Hi). lia.
Qed.
Lemma bk_push : forall S L h n l, bk S L h n -> quiet S = true -> bk S L (hset h (hd 0 L) l) n.
Proof. intros S L h n l W Q. eapply bk_cur; eauto. intros i _ Hi. apply hset_other; auto. Qed.
Lemma bk_append : forall S L h n i l, bk S L h n -> ~ In i (L ++ [0]) -> bk S L (hset h i l) n.
Proof. intros S L h n i l W Ni. eapply bk_heap; eauto. intros j Hj. apply hset_other. intros ->. contradiction. Qed.

Lemma bk_degree : forall S L h n i, bk S L h n -> quiet S = true -> last_root h n L -> ~ In i (L ++ [0]) -> i < n ->
  bk (PSqrtDegree :: S) (i :: L) h n.
Proof.
  intros S L h n i [A [B [C [D E]]]] Q R Ni Hi.
  split; [cbn; constructor; auto|split; [|split; [|split]]].
  - intros j [J|J]; [subst; auto|apply B; auto].
  - cbn [count length has_list]. rewrite C. reflexivity.
  - split; [intros; congruence|auto].
  - split; auto.
Qed.
Lemma bk_await_root : forall S L h n, bk S L h n -> quiet S = true -> last_root h n L -> bk (PSqrtRadicand :: S) L h n.
Proof.
  intros S L h n [A [B [C [D E]]]] Q R. split; [auto|split; [auto|split; [auto|split]]]; split; auto. intros; congruence.
Qed.
Lemma bk_await_frac : forall s S L h n, s = PFracNumer \/ s = PFracDenom -> bk S L h n -> quiet S = true ->
  last_frac h n L -> bk (s :: S) L h n.
Proof.
  intros s S L h n Hs [A [B [C [D E]]]] Q R.
  destruct Hs; subst s; (split; [auto|split; [auto|split; [auto|split]]]; split; auto; intros; congruence).
Qed.
Lemma back_frac_ok : forall S L h n B M, last_frac h n L -> exists a b,
  back_frac (mk S L h n B M) = Ok (a, b) /\ a < n /\ b < n /\ ~ In a (L ++ [0]) /\ ~ In b (L ++ [0]).
Proof.
  intros S L h n B M [l [a [b [A1 A2]]]]. exists a, b. split; [|exact A2].
  unfold back_frac, back_node, mlist. cbn [mp_heap].
  replace (cur (mk S L h n B M)) with (hd 0 L) by (destruct L; reflexivity).
  rewrite A1, rev_unit. reflexivity.
Qed.
Lemma back_root_ok : forall S L h n B M, last_root h n L -> exists a b,
  back_root (mk S L h n B M) = Ok (a, b) /\ b < n /\ ~ In b (L ++ [0]).
Proof.
  intros S L h n B M [l [a [b [A1 A2]]]]. exists a, b. split; [|exact A2].
  unfold back_root, back_node, mlist. cbn [mp_heap].
  replace (cur (mk S L h n B M)) with (hd 0 L) by (destruct L; reflexivity).
  rewrite A1, rev_unit. reflexivity.
Qed.
Lemma cur_hd : forall S L h n B M, cur (mk S L h n B M) = hd 0 L.
Proof. intros; destruct L; reflexivity. Qed.

Definition bkm (m : mp) : Prop := bk (mp_states m) (mp_lists m) (mp_heap m) (mp_next m).
Definition res (r : result mp) : Prop := match r with Ok m' => bkm m' | UB => False | _ => True end.

Lemma waiting_top : forall S, calm S ->
  match pending_away S with s :: _ => awaits_argument s | [] => false end = negb (quiet S).
Proof.
  induction S as [|s S IH]; intros C; [reflexivity|]. destruct C as [C1 C2].
  destruct s; try reflexivity. cbn [pending_away]. rewrite (IH C2). cbn [quiet awaits_argument negb].
  destruct (quiet S); auto. specialize (C1 eq_refl). discriminate.
Qed.
Lemma bk_commit : forall m, wf m -> bkm m -> exists m1, commitCurrentAtom m = Ok m1 /\ wf m1 /\ bkm m1 /\
  (waiting m = false -> quiet (mp_states m1) = true).
Proof.
  intros m W K. destruct (wf_commit m W) as [m1 [E [W1 Hm]]]. exists m1. split; [auto|split; [auto|]].
  destruct Hm as [[Hm Hp]|[r [Hr Hm]]].
  - subst m1. split; [auto|]. intros Wt. destruct K as [_ [_ [_ [C _]]]]. unfold waiting in Wt.
    rewrite (waiting_top _ C) in Wt. destruct (quiet (mp_states m)); auto.
  - destruct m as [S L h n B M]. cbn [mp_states] in Hr. subst S. unfold bkm in *. cbn [mp_states mp_lists mp_heap mp_next] in K.
    unfold commitCurrentAtom in E. cbn in E. destruct B as [|b B]; [discriminate E|]. cbn in E. injection E as E. subst m1.
    cbn [mp_states mp_lists mp_heap mp_next with_heap].
    assert (Q : quiet r = true) by (eapply bk_quiet; [exact K|reflexivity]).
    split; [|auto]. apply (bk_push r L h n).
    + eapply bk_leave0; [exact K|reflexivity].
    + exact Q.
Qed.

Lemma res_parse_sqrt : forall x S L h n B M, bk (PSqrt :: S) L h n -> res (parse_sqrt x (mk (PSqrt :: S) L h n B M)).
Proof.
  intros x S L h n B M K. unfold parse_sqrt. assert (Hc := bk_hd _ _ _ _ K).
  destruct (Z.eqb (s_char x) lbracket).
  - set (h2 := hset (hset h n []) (Datatypes.S n) []).
    change (bk (PSqrtDegree :: PSqrt :: S) (n :: L)
       (hset h2 (cur (mk (PSqrt :: S) L h n B M)) (h2 (cur (mk (PSqrt :: S) L h n B M)) ++ [HRoot n (Datatypes.S n)]))
       (Datatypes.S (Datatypes.S n))).
    rewrite cur_hd. apply bk_degree.
    + apply bk_push; [apply bk_alloc, bk_alloc; exact K|reflexivity].
    + reflexivity.
    + eexists _, n, (Datatypes.S n). rewrite hset_same.
      split; [reflexivity|split; [lia|eapply bk_fresh; [exact K|lia]]].
    + eapply bk_fresh; [exact K|lia].
    + lia.
  - unfold res, bkm. cbn -[bk]. apply bk_enter0; [eapply bk_leave0; [exact K|reflexivity]| |reflexivity].
    eapply bk_quiet; [exact K|reflexivity].
Qed.
Lemma res_symbol : forall fuel x m, wf m -> bkm m -> res (write_symbol fuel x m).
Proof.
  induction fuel as [|fuel IH]; intros x m W K;
    (destruct m as [S L h n B M]; destruct S as [|s S]; [destruct W as [W _]; contradiction|]);
    cbn [write_symbol state mp_states bind];
    assert (W' := W); unfold bkm in K; cbn [mp_states mp_lists mp_heap mp_next] in K.
  all: destruct s;
    try (apply bk_enter0; [exact K|reflexivity|reflexivity]); try exact I.
  all: try (destruct (bk_commit _ W' K) as [m1 [E [W1' [K1 _]]]]; rewrite E; cbn [bind]; apply IH; auto; fail).
  all: opens W.
  (* AwaitSup, AwaitSub *)
  all: try (cbn -[bk]; unfold res, bkm; cbn [mp_states mp_lists mp_heap mp_next];
            eapply bk_leave0; [exact K|reflexivity]).
  (* PLeft *)
  all: try (lazymatch goal with H : bk (PLeft :: _) _ _ _ |- _ => idtac end;
    cbn -[bk hset]; unfold res, bkm; cbn [mp_states mp_lists mp_heap mp_next];
    eapply bk_leave0; [apply (bk_push _ (x0 :: L) h n _ K); reflexivity|reflexivity]).
  (* PRight *)
  all: try (lazymatch goal with H : bk (PRight :: _) _ _ _ |- _ => idtac end;
    cbn -[bk hset]; unfold res, bkm; cbn [mp_states mp_lists mp_heap mp_next];
    eapply bk_leave1; [eapply bk_leave0; [eapply bk_leave0;
      [apply (bk_push _ (x0 :: L) h n _ K); reflexivity|reflexivity]|reflexivity]|reflexivity]).
  all: try (apply res_parse_sqrt; exact K).
  (* PSqrtDegree *)
  all: try (lazymatch goal with H : bk (PSqrtDegree :: _) _ _ _ |- _ => idtac end;
    unfold parse_sqrt_degree; destruct (Z.eqb (s_char x) rbracket);
    [ cbn -[bk hset]; unfold res, bkm; cbn [mp_states mp_lists mp_heap mp_next];
      apply bk_await_root; [eapply bk_leave1; [exact K|reflexivity]|reflexivity|];
      destruct K as [_ [_ [_ [_ [K _]]]]]; exact K
    | apply bk_enter0; [exact K|reflexivity|reflexivity] ]).
  (* arguments *)
  all: unfold parse_sqrt_radicand, parse_frac_numer, parse_frac_denom.
  all: assert (R := K); destruct R as [_ [_ [_ [_ [R _]]]]].
  all: try (destruct (back_root_ok (PSqrtRadicand :: PSqrt :: t :: S) L h n B M R) as [a [b [Eb [Hb Nb]]]]; rewrite Eb;
    cbn [bind snd]; unfold append; cbn -[bk hset]; unfold res, bkm; cbn [mp_states mp_lists mp_heap mp_next];
    eapply bk_leave0; [eapply bk_leave0; [apply bk_append; [exact K|exact Nb]|reflexivity]|reflexivity]).
  all: try (destruct (back_frac_ok (PFracNumer :: PFrac :: t :: S) L h n B M R) as [a [b [Eb [Ha [Hb [Na Nb]]]]]]; rewrite Eb;
    cbn [bind fst]; unfold append; cbn -[bk hset]; unfold res, bkm; cbn [mp_states mp_lists mp_heap mp_next];
    apply bk_await_frac; [auto|eapply bk_leave0; [apply bk_append; [exact K|exact Na]|reflexivity]|reflexivity|];
    eapply last_frac_agree; [apply le_n| |exact R]; apply hset_other; intros Hd; apply Na; rewrite <- Hd; apply hd_in).
  all: try (destruct (back_frac_ok (PFracDenom :: PFrac :: t :: S) L h n B M R) as [a [b [Eb [Ha [Hb [Na Nb]]]]]]; rewrite Eb;
    cbn [bind snd]; unfold append; cbn -[bk hset]; unfold res, bkm; cbn [mp_states mp_lists mp_heap mp_next];
    eapply bk_leave0; [eapply bk_leave0; [apply bk_append; [exact K|exact Nb]|reflexivity]|reflexivity]).
Qed.

Ltac showbk := unfold res, bkm; cbn -[bk hset]; cbn [mp_states mp_lists mp_heap mp_next].

Lemma res_script : forall st m, st = AwaitSup \/ st = AwaitSub -> wf m -> bkm m -> res (begin_script st m).
Proof.
  intros st [S L h n B M] Hst W K. destruct S as [|s S]; [destruct W as [W _]; contradiction|].
  unfold bkm in K; cbn [mp_states mp_lists mp_heap mp_next] in K.
  unfold begin_script. cbn [state mp_states bind].
  destruct s; cbn [isParsingMList]; try exact I.
  all: destruct Hst; subst st; showbk; repeat (apply bk_enter0; [|reflexivity|reflexivity]); exact K.
Qed.
Lemma res_nucleus : forall ty S L h n B M, bk S L h n -> quiet S = true -> res (begin_nucleus ty (mk S L h n B M)).
Proof.
  intros ty S L h n B M K Q. showbk. apply bk_enter1; auto; try discriminate.
  - apply bk_enter0; [apply bk_alloc; exact K|exact Q|reflexivity].
  - eapply bk_fresh; [exact K|lia].
Qed.
Lemma res_begin : forall m, wf m -> bkm m -> res (beginMathList m).
Proof.
  intros m W K. unfold beginMathList. destruct (bk_commit m W K) as [m1 [E1 [W1' [K1 Q1]]]].
  destruct m as [S L h n B M]. destruct S as [|s S]; [destruct W as [W _]; contradiction|].
  unfold bkm in K; cbn [mp_states mp_lists mp_heap mp_next] in K. cbn [state mp_states bind].
  assert (El : awaits_argument s = false -> match s with PAtom => false | _ => true end = true \/ s = PAtom -> res (do m0 <- commitCurrentAtom (mk (s :: S) L h n B M); begin_nucleus Ord m0)).
  { intros Hs _. rewrite E1. cbn [bind]. destruct m1 as [S1 L1 h1 n1 B1 M1].
    apply res_nucleus; [exact K1|]. apply Q1. unfold waiting.
    destruct K as [_ [_ [_ [C _]]]]. cbn [mp_states]. rewrite (waiting_top _ C). cbn [quiet]. rewrite Hs. reflexivity. }
  destruct s; try (apply El; [reflexivity|auto]; fail); clear El E1 W1' K1 Q1.
  - opens W. showbk. apply bk_enter1; auto; try discriminate.
    + apply bk_alloc. eapply bk_leave0; [exact K|reflexivity].
    + eapply bk_fresh; [exact K|lia].
  - opens W. showbk. apply bk_enter1; auto; try discriminate.
    + apply bk_alloc. eapply bk_leave0; [exact K|reflexivity].
    + eapply bk_fresh; [exact K|lia].
  - (* PSqrt *) cbn [leaveState mp_states bind].
    apply res_nucleus; [eapply bk_leave0; [exact K|reflexivity]|eapply bk_quiet; [exact K|reflexivity]].
  - assert (R := K); destruct R as [_ [_ [_ [_ [R _]]]]].
    destruct (back_root_ok (PSqrtRadicand :: S) L h n B M R) as [a [b [Eb [Hb Nb]]]]. rewrite Eb.
    cbn [bind snd]. showbk. apply bk_enter1; auto. discriminate.
  - assert (R := K); destruct R as [_ [_ [_ [_ [R _]]]]].
    destruct (back_frac_ok (PFracNumer :: S) L h n B M R) as [a [b [Eb [Ha [Hb [Na Nb]]]]]]. rewrite Eb.
    cbn [bind fst]. showbk. apply bk_enter1; auto. discriminate.
  - assert (R := K); destruct R as [_ [_ [_ [_ [R _]]]]].
    destruct (back_frac_ok (PFracDenom :: S) L h n B M R) as [a [b [Eb [Ha [Hb [Na Nb]]]]]]. rewrite Eb.
    cbn [bind snd]. showbk. apply bk_enter1; auto. discriminate.
  - showbk. apply bk_enter1; auto; try discriminate; [apply bk_alloc; exact K|eapply bk_fresh; [exact K|lia]].
Qed.

Lemma bk_allocs : forall ls S L h n B M is m, bk S L h n -> allocs ls (mk S L h n B M) = (is, m) ->
  exists h' n', m = mk S L h' n' B M /\ bk S L h' n'.
Proof.
  intros ls S L h n B M is m K E. destruct (allocs_spec ls S L h n B M) as [h' [E' [F _]]].
  rewrite E' in E. injection E as _ E. subst m. exists h', (n + length ls). split; [reflexivity|].
  eapply bk_heap; [exact K|lia|]. intros i Hi. apply F. destruct K as [_ [B' _]]. apply B'; auto.
Qed.

Ltac begins2 W K m :=
  let m1 := fresh "m" in let E := fresh "E" in
  destruct (bk_commit m W K) as [m1 [E [Wm [Km Qm]]]]; rewrite E; cbn [bind]; clear E W K;
  rename Wm into W; rename Km into K; destruct m1 as [S L h n B M];
  destruct S as [|s S]; [destruct W as [W _]; contradiction|];
  unfold bkm in K; cbn [mp_states mp_lists mp_heap mp_next] in K; cbn [mp_states] in Qm.

Lemma bk_frac_here : forall s S L h n, bk (PFracNumerM :: s :: S) L h n -> s = PFracNumer -> last_frac h n (tl L).
Proof. intros s S L h n [_ [_ [_ [_ [_ [R _]]]]]] E. subst s. exact R. Qed.

Lemma res_end : forall m, wf m -> bkm m -> res (endMathList m).
Proof.
  intros m W K. unfold endMathList. begins2 W K m. clear Qm.
  cbn [state mp_states bind].
  destruct s; try exact I.
  - opens W. showbk. eapply bk_leave1; [exact K|reflexivity].
  - opens W. showbk. eapply bk_leave1; [exact K|reflexivity].
  - opens W. showbk. eapply bk_leave1; [exact K|reflexivity].
  - opens W. showbk. eapply bk_leave0; [eapply bk_leave0; [eapply bk_leave1; [exact K|reflexivity]|reflexivity]|reflexivity].
  - opens W.
    assert (K1 := bk_leave1 _ _ _ _ _ _ K eq_refl).
    cbn -[bk res shape end_group]. destruct t; try exact K1.
    all: repeat (first [dig1 | progress counts W2 | progress counts W3 | progress counts W4]); showbk;
      eapply bk_leave1; [exact K1|reflexivity].
  - opens W. showbk. apply bk_await_frac; [auto| |reflexivity|].
    + eapply bk_leave0; [eapply bk_leave1; [exact K|reflexivity]|reflexivity].
    + exact (bk_frac_here _ _ _ _ _ K eq_refl).
  - opens W. showbk. eapply bk_leave0; [eapply bk_leave0; [eapply bk_leave1; [exact K|reflexivity]|reflexivity]|reflexivity].
  - assert (Q := bk_quiet _ _ _ _ _ K eq_refl). opens W.
    assert (K1 := bk_leave1 _ _ _ _ _ _ K eq_refl). assert (Q2 := bk_quiet _ _ _ _ _ K1 eq_refl).
    apply bk_leave0 in K1; [|reflexivity].
    cbn -[bk res shape build_matrix]. unfold build_matrix.
    set (els := elements _ _). clearbody els.
    destruct (allocs els _) as [is m1] eqn:Ea.
    destruct (bk_allocs _ _ _ _ _ _ _ _ _ K1 Ea) as [h' [n' [Em Kb]]]. subst m1. showbk.
    apply (bk_push (t :: S) L h' n'); assumption.
Qed.

Lemma quiet_enter : forall s S, plain_state s = true -> quiet (s :: S) = true.
Proof. intros s S P. unfold plain_state in P. apply andb_prop in P. apply P. Qed.

Lemma res_calls : forall m k, wf m -> bkm m -> (waiting m = true -> is_command k = false) -> res (do_call m k).
Proof.
  intros m k W K Hc. 
  assert (Hq : is_command k = true -> waiting m = false).
  { intros Ek. destruct (waiting m); auto. specialize (Hc eq_refl). congruence. }
  destruct k; cbn [do_call]; cbn [is_command] in Hq;
    try (specialize (Hq eq_refl)).
  - apply res_symbol; auto.
  - exact I.
  - apply res_script; auto.
  - apply res_script; auto.
  - apply res_begin; auto.
  - apply res_end; auto.
  - unfold left. begins2 W K m. specialize (Qm Hq).
    showbk. apply bk_enter0; [|reflexivity|reflexivity]. apply bk_enter0; [|reflexivity|reflexivity].
    apply bk_enter1; auto; try discriminate.
    + apply bk_enter0; [apply bk_alloc; exact K|exact Qm|reflexivity].
    + eapply bk_fresh; [exact K|lia].
  - unfold right. begins2 W K m. cbn [state mp_states bind]. destruct s; try exact I.
    showbk. apply bk_enter0; [exact K|reflexivity|reflexivity].
  - unfold over. begins2 W K m. specialize (Qm Hq). assert (Hl := bk_hd _ _ _ _ K).
    set (m0 := mk (s :: S) L h n B M).
    change (bk (POver :: s :: S) (Datatypes.S n :: L)
      (hset (hset (hset h n (mlist m0)) (Datatypes.S n) []) (cur m0) [HFrac n (Datatypes.S n)])
      (Datatypes.S (Datatypes.S n))). unfold m0. rewrite cur_hd.
    apply bk_enter1; auto; try discriminate.
    + apply bk_push; [apply bk_alloc, bk_alloc; exact K|exact Qm].
    + eapply bk_fresh; [exact K|lia].
  - unfold frac. begins2 W K m. specialize (Qm Hq). assert (Hl := bk_hd _ _ _ _ K).
    set (m0 := mk (s :: S) L h n B M). set (h2 := hset (hset h n []) (Datatypes.S n) []).
    change (bk (PFracNumer :: PFrac :: s :: S) L
      (hset h2 (cur m0) (h2 (cur m0) ++ [HFrac n (Datatypes.S n)])) (Datatypes.S (Datatypes.S n))).
    unfold m0. rewrite cur_hd. apply bk_await_frac; [auto| |reflexivity|].
    + apply bk_enter0; [|exact Qm|reflexivity]. apply bk_push; [apply bk_alloc, bk_alloc; exact K|exact Qm].
    + eexists _, n, (Datatypes.S n). rewrite hset_same. split; [reflexivity|].
      split; [lia|split; [lia|split; (eapply bk_fresh; [exact K|lia])]].
  - unfold sqrt. begins2 W K m. specialize (Qm Hq). showbk. apply bk_enter0; [exact K|exact Qm|reflexivity].
  - unfold matrix. begins2 W K m. specialize (Qm Hq). showbk. apply bk_enter0; [exact K|exact Qm|reflexivity].
  - unfold alignmentTab, in_cell. begins2 W K m. cbn [state mp_states bind]. destruct s; try exact I.
    opens W. cbn -[bk res rev]. destruct (rev x0) as [|r before] eqn:Er.
    { apply (f_equal (@rev _)) in Er. rewrite rev_involutive in Er. contradiction. }
    showbk. apply bk_enter1; auto; try discriminate.
    + apply bk_alloc. eapply bk_leave1; [exact K|reflexivity].
    + eapply bk_fresh; [eapply bk_leave1; [exact K|reflexivity]|lia].
  - unfold cr, in_cell. begins2 W K m. cbn [state mp_states bind]. destruct s; try exact I.
    opens W. showbk. apply bk_enter1; auto; try discriminate.
    + apply bk_alloc. eapply bk_leave1; [exact K|reflexivity].
    + eapply bk_fresh; [eapply bk_leave1; [exact K|reflexivity]|lia].
  - unfold style_change. begins2 W K m. specialize (Qm Hq). showbk. apply (bk_push (s :: S) L h n); assumption.
  - unfold style_change. begins2 W K m. specialize (Qm Hq). showbk. apply (bk_push (s :: S) L h n); assumption.
  - unfold style_change. begins2 W K m. specialize (Qm Hq). showbk. apply (bk_push (s :: S) L h n); assumption.
  - unfold finish. begins2 W K m. cbn [state mp_states bind]. destruct s; try exact I; try exact K.
    opens W. assert (K1 := bk_leave1 _ _ _ _ _ _ K eq_refl).
    cbn -[bk res shape]. destruct t; cbn -[bk res shape]; try exact I. exact K1.
Qed.

Theorem careful_safe : forall l m, wf m -> bkm m -> careful l m ->
  (exists m', calls l m = Ok m') \/ calls l m = Throw.
Proof.
  induction l as [|k l IH]; intros m W K C; [left; eexists; reflexivity|].
  destruct C as [C1 C2]. rewrite calls_cons.
  pose proof (wf_calls m k W) as A. pose proof (res_calls m k W K C1) as R.
  unfold after, res in *. destruct (do_call m k); cbn [bind]; auto; contradiction.
Qed.
Lemma bk_init : bkm mp_init.
Proof.
  unfold bkm. cbn. split; [|split; [|split; [|split]]]; cbn; auto.
  - constructor; [auto|constructor].
  - intros i [<-|[]]; lia.
Qed.
Theorem parser_safe : forall l, careful l mp_init -> (exists m, calls l mp_init = Ok m) \/ calls l mp_init = Throw.
Proof. intros l C. apply careful_safe; auto. apply wf_init. apply bk_init. Qed.
