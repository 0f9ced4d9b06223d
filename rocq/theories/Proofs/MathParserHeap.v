(** The store of the math parser: no list contains itself, and lists that start
    with a boundary end with one. *)
From Coq Require Import List Ascii ZArith Bool Arith Lia.
From Verif.Base Require Import Result.
From Verif.Model Require Import MathList MathParser.
From Verif.Spec Require Import MathSpec EquationOkSpec.
From Verif.Proofs Require Import FormulaProofs MathParserSafe.
Import ListNotations.

Definition nonstyle (x : hnode) : bool := match x with HStyle _ => false | _ => true end.
Definition isb (x : hnode) : bool := match x with HBoundary _ => true | _ => false end.
Definition nb (l : list hnode) : Prop :=
  match filter nonstyle l with x :: _ => isb x = false | [] => True end.
Definition bounded (l : list hnode) : Prop :=
  match filter nonstyle l with [] => True | x :: r => isb x = true -> isb (last (x :: r) x) = true end.
Lemma nb_snoc : forall l x, nb l -> isb x = false -> nb (l ++ [x]).
Proof.
  unfold nb. intros l x A B. rewrite filter_app. destruct (filter nonstyle l); [|exact A].
  cbn. destruct (nonstyle x); cbn; auto.
Qed.
Lemma bounded_snoc : forall l x, isb x = true -> bounded (l ++ [x]).
Proof.
  unfold bounded. intros l x A. rewrite filter_app. assert (B : nonstyle x = true) by (destruct x; easy).
  cbn [filter]. rewrite B. destruct (filter nonstyle l) as [|y r]; cbn [app]; [auto|].
  intros _. change (y :: r ++ [x]) with ((y :: r) ++ [x]). rewrite last_last. exact A.
Qed.
Lemma nb_bounded : forall l, nb l -> bounded l.
Proof. unfold nb, bounded. intros l A. destruct (filter nonstyle l); [auto|]. intros B. congruence. Qed.

(** A rank for each list, greater than the ranks of the lists it is in, and
    whether it was made by \left *)
Record world := World { w_r : nat -> nat; w_lab : nat -> bool; w_n : nat }.
Definition ext (w w' : world) : Prop :=
  w_n w <= w_n w' /\ (forall i, i < w_n w -> w_lab w' i = w_lab w i) /\
  (forall i j, i < w_n w -> j < w_n w -> w_r w i < w_r w j -> w_r w' i < w_r w' j).
Definition below_of (w : world) (c j : nat) : Prop := j < w_n w /\ w_r w c < w_r w j.
Definition plainly (w : world) (c j : nat) : Prop := below_of w c j /\ w_lab w j = false.
Notation sym_ok := code_sym.
Definition ref_ok (w : world) (c : nat) (x : option ref) : Prop :=
  match x with None => True | Some (RSym s) => sym_ok s | Some (RList j) => below_of w c j end.
Definition type_ok (ty : Z) (nuc : option ref) : Prop :=
  (0 <= ty <= 12)%Z /\ ty <> Acc /\ (ty = Op -> nuc <> None).
Definition atom_ok (w : world) (c : nat) (b : builder) : Prop :=
  type_ok (b_type b) (b_nuc b) /\ ref_ok w c (b_nuc b) /\ ref_ok w c (b_sup b) /\ ref_ok w c (b_sub b).
Definition node_ok (w : world) (c : nat) (x : hnode) : Prop :=
  match x with
  | HAtom ty a p q => atom_ok w c (mkB ty a p q)
  | HBoundary _ | HStyle _ => True
  | HFrac a d | HRoot a d => plainly w c a /\ plainly w c d
  | HMatrix cells k => k <> 0 /\ Forall (plainly w c) cells
  end.

Section Ext.
  Variables w w' : world.
  Hypothesis X : ext w w'.
  Lemma below_ext : forall c j, c < w_n w -> below_of w c j -> below_of w' c j.
  Proof. destruct X as [X1 [X2 X3]]. intros c j C [A B]. split; [lia|apply X3; auto]. Qed.
  Lemma plainly_ext : forall c j, c < w_n w -> plainly w c j -> plainly w' c j.
  Proof.
    intros c j C [A B]. split; [apply below_ext; auto|]. destruct X as [X1 [X2 X3]]. rewrite X2; [auto|apply A].
  Qed.
  Lemma ref_ext : forall c x, c < w_n w -> ref_ok w c x -> ref_ok w' c x.
  Proof. intros c [[s|j]|] C A; cbn in *; auto. apply below_ext; auto. Qed.
  Lemma atom_ext : forall c b, c < w_n w -> atom_ok w c b -> atom_ok w' c b.
  Proof. intros c b C [A [A1 [A2 A3]]]. split; [exact A|]. split; [|split]; apply ref_ext; auto. Qed.
  Lemma node_ext : forall c x, c < w_n w -> node_ok w c x -> node_ok w' c x.
  Proof.
    intros c x C A. destruct x; cbn [node_ok] in *; auto.
    - apply atom_ext; auto.
    - destruct A; split; apply plainly_ext; auto.
    - destruct A; split; apply plainly_ext; auto.
    - destruct A as [A B]; split; auto. eapply Forall_impl; [|exact B]. intros; apply plainly_ext; auto.
  Qed.
End Ext.

Definition heap_ok (b : bool) (w : world) (h : nat -> list hnode) : Prop :=
  forall i, i < w_n w -> Forall (node_ok w i) (h i) /\ (b = true -> w_lab w i = false -> nb (h i)).

Definition top (L : list nat) : nat := match L with i :: _ => i | [] => 0 end.
Definition level (w : world) (L : list nat) (i : nat) : Prop := below_of w (top L) i.
Definition rows_ok (w : world) (c : nat) (rows : list (list nat)) : Prop :=
  rows <> [] /\ Forall (fun r => r <> [] /\ Forall (plainly w c) r) rows.

(** the lists under construction; [ab]: the state above is that of the inside
    of \left and \right *)
Fixpoint lev (w : world) (ab : bool) (S : list mstate) (L : list nat) (B : list builder)
    (M : list (list (list nat))) : Prop :=
  match S with
  | [] => L = []
  | s :: S' =>
      match s with
      | PAtom =>
          match B with [] => False | b :: B' => atom_ok w (top L) b /\ lev w false S' L B' M end
      | PNucleus =>
          match L with [] => False | i :: L' => level w L' i /\ w_lab w i = ab /\ lev w false S' L' B M end
      | PSup | PSub | PSqrtDegree | PSqrtRadicandM | POver | PFracNumerM | PFracDenomM =>
          match L with [] => False | i :: L' => level w L' i /\ w_lab w i = false /\ lev w false S' L' B M end
      | PMatrixCell =>
          match L, M with
          | i :: L', rows :: M' =>
              level w L' i /\ w_lab w i = false /\ rows_ok w (top L') rows /\ lev w false S' L' B M'
          | _, _ => False
          end
      | PBoundary => lev w true S' L B M
      | _ => lev w false S' L B M
      end
  end.
(** the lists of \left that have no \right yet *)
Fixpoint unclosed (ab : bool) (S : list mstate) (L : list nat) : list nat :=
  match S with
  | [] => []
  | s :: S' =>
      match s with
      | PNucleus => match L with i :: L' => if ab then i :: unclosed false S' L' else unclosed false S' L' | [] => [] end
      | PSup | PSub | PSqrtDegree | PSqrtRadicandM | POver | PFracNumerM | PFracDenomM | PMatrixCell =>
          unclosed false S' (tl L)
      | PBoundary => unclosed true S' L
      | _ => unclosed false S' L
      end
  end.

Lemma lev_top : forall w S ab L B M, lev w ab S L B M -> 0 < w_n w -> top L < w_n w.
Proof.
  intros w. induction S as [|s S IH]; intros ab L B M A P; [cbn in A; subst; auto|].
  destruct s; cbn [lev] in A; try (eapply IH; eauto; fail);
    try (destruct L; [contradiction|]; destruct A as [[A _] _]; exact A).
  - destruct B; [contradiction|]. destruct A as [_ A]. eapply IH; eauto.
  - destruct L; [contradiction|]. destruct M; [contradiction|]. destruct A as [[A _] _]; exact A.
Qed.
Lemma lev_ext : forall w w', ext w w' -> 0 < w_n w ->
  forall S ab L B M, lev w ab S L B M -> lev w' ab S L B M.
Proof.
  intros w w' X P. assert (XL : forall i, i < w_n w -> w_lab w' i = w_lab w i) by apply X.
  assert (XV : forall L i, top L < w_n w -> level w L i -> level w' L i).
  { intros L i. unfold level. apply below_ext; auto. }
  induction S as [|s S IH]; intros ab L B M A; [exact A|].
  destruct s; cbn [lev] in *; try (eapply IH; eauto; fail);
    try (destruct L; [contradiction|]; destruct A as [A1 [A2 A3]];
         split; [apply XV; [apply (lev_top _ _ _ _ _ _ A3 P)|exact A1]|
         split; [rewrite XL; [exact A2|apply A1]|apply IH; exact A3]]).
  - destruct B; [contradiction|]. destruct A as [A1 A]. split; [|apply IH; exact A].
    eapply atom_ext; eauto. eapply lev_top; eauto.
  - destruct L; [contradiction|]. destruct M; [contradiction|]. destruct A as [A1 [A2 [A3 A4]]].
    assert (T := lev_top _ _ _ _ _ _ A4 P).
    split; [apply XV; auto|split; [rewrite XL; [exact A2|apply A1]|split; [|apply IH; exact A4]]].
    destruct A3 as [Q R]. split; [exact Q|]. eapply Forall_impl; [|exact R]. intros r [Z Y]. split; [exact Z|].
    eapply Forall_impl; [|exact Y]. intros; eapply plainly_ext; eauto.
Qed.
(** the list being written belongs to \left or is not labelled *)
Lemma lev_cur : forall w S ab L B M, lev w ab S L B M -> w_lab w 0 = false ->
  w_lab w (top L) = true -> In (top L) (unclosed ab S L).
Proof.
  intros w. induction S as [|s S IH]; intros ab L B M A Z T; [cbn in A; subst; cbn in T; congruence|].
  destruct s; cbn [lev unclosed] in *; try (eapply IH; eauto; fail);
    try (destruct L; [contradiction|]; destruct A as [_ [A _]]; cbn in T; congruence).
  - destruct B; [contradiction|]. destruct A as [_ A]. eapply IH; eauto.
  - destruct L; [contradiction|]. destruct A as [_ [A _]]. cbn in T. rewrite T in A. subst ab. left; reflexivity.
  - destruct L; [contradiction|]. destruct M; [contradiction|]. destruct A as [_ [A _]]; cbn in T; congruence.
Qed.
Lemma unclosed_lt : forall w S ab L B M, lev w ab S L B M -> forall i, In i (unclosed ab S L) -> i < w_n w.
Proof.
  intros w. induction S as [|s S IH]; intros ab L B M A i I1; [contradiction|].
  destruct s; cbn [lev unclosed] in *; try (eapply IH; eauto; fail);
    try (destruct L; [contradiction|]; destruct A as [_ [_ A]]; eapply IH; eauto; fail).
  - destruct B; [contradiction|]. destruct A as [_ A]. eapply IH; eauto.
  - destruct L; [contradiction|]. destruct A as [[A _] [_ A']]. destruct ab; [destruct I1 as [<-|I1]; [exact A|]|]; eapply IH; eauto.
  - destruct L; [contradiction|]. destruct M; [contradiction|]. destruct A as [_ [_ [_ A]]]; eapply IH; eauto.
Qed.

Record good (b : bool) (w : world) (m : mp) : Prop := Good {
  g_pos : 0 < w_n w;
  g_next : mp_next m = w_n w;
  g_zero : w_lab w 0 = false;
  g_heap : heap_ok b w (mp_heap m);
  g_lev : lev w false (mp_states m) (mp_lists m) (mp_builders m) (mp_matrices m);
  g_closed : forall i, i < w_n w -> w_lab w i = true ->
    bounded (mp_heap m i) \/ In i (unclosed false (mp_states m) (mp_lists m)) }.

Section Moves.
  Variables (b : bool) (w : world).
  Lemma g_move : forall S L h n B M S' L' B' M', good b w (mk S L h n B M) ->
    lev w false S' L' B' M' ->
    (forall i, In i (unclosed false S L) -> bounded (h i) \/ In i (unclosed false S' L')) ->
    good b w (mk S' L' h n B' M').
  Proof.
    intros S L h n B M S' L' B' M' [G1 G2 G3 G4 G5 G6] A C. constructor; auto; cbn in *.
    intros i I1 I2. destruct (G6 i I1 I2) as [Q|Q]; auto.
  Qed.
  Lemma g_ext : forall w' m, ext w w' -> w_n w' = w_n w -> good b w m -> good b w' m.
  Proof.
    intros w' [S L h n B M] X E [G1 G2 G3 G4 G5 G6]. constructor; cbn in *; rewrite ?E; auto.
    - destruct X as [_ [X _]]. rewrite X; auto.
    - intros i I1. rewrite E in I1. destruct (G4 i I1) as [Q R]. split.
      + eapply Forall_impl; [|exact Q]. intros x Hx. eapply node_ext; eauto.
      + destruct X as [_ [X _]]. rewrite X; auto.
    - eapply lev_ext; eauto.
    - intros i I1 I2. apply G6; auto. destruct X as [_ [X _]]. rewrite X in I2; auto.
  Qed.
  (** a change of a list that is being written *)
  Lemma g_set : forall S L h n B M i l, good b w (mk S L h n B M) -> i < w_n w ->
    (w_lab w i = true -> In i (unclosed false S L)) ->
    Forall (node_ok w i) l -> (b = true -> w_lab w i = false -> nb l) ->
    good b w (mk S L (hset h i l) n B M).
  Proof.
    intros S L h n B M i l [G1 G2 G3 G4 G5 G6] I1 I2 F Q. constructor; cbn in *; auto.
    - intros j J. unfold hset. destruct (Nat.eqb_spec j i); [subst; auto|apply G4; auto].
    - intros j J1 J2. unfold hset. destruct (Nat.eqb_spec j i); [subst; auto|apply G6; auto].
  Qed.
  Lemma g_push : forall S L h n B M x, good b w (mk S L h n B M) -> node_ok w (top L) x ->
    (isb x = true -> w_lab w (top L) = true) ->
    good b w (mk S L (hset h (top L) (h (top L) ++ [x])) n B M).
  Proof.
    intros S L h n B M x G Hx Hb. pose proof (lev_top _ _ _ _ _ _ (g_lev _ _ _ G) (g_pos _ _ _ G)) as T. cbn in T.
    apply g_set; auto.
    - intros Ht. exact (lev_cur _ _ _ _ _ _ (g_lev _ _ _ G) (g_zero _ _ _ G) Ht).
    - apply Forall_app; split; [apply (g_heap _ _ _ G); exact T|constructor; auto].
    - intros Eb El. apply nb_snoc; [apply (g_heap _ _ _ G); auto|]. destruct (isb x); auto. rewrite Hb in El; auto.
  Qed.
  Lemma g_append : forall S L h n B M c i s, good b w (mk S L h n B M) -> plainly w c i -> sym_ok s ->
    good b w (mk S L (hset h i (h i ++ [build (setNucleus (RSym s) (b_empty Ord))])) n B M).
  Proof.
    intros S L h n B M c i s G [[P1 P2] P3] Hs. apply g_set; auto.
    - congruence.
    - apply Forall_app; split; [apply (g_heap _ _ _ G); exact P1|constructor; auto].
      cbn. split; [|split; [exact Hs|split; exact I]]. unfold type_ok. cbn. split; [unfold Ord; lia|split; discriminate].
    - intros Eb El. apply nb_snoc; [apply (g_heap _ _ _ G); auto|reflexivity].
  Qed.
  Definition wnew (v : nat) (lb : bool) : world :=
    World (fun i => if Nat.eqb i (w_n w) then v else w_r w i)
          (fun i => if Nat.eqb i (w_n w) then lb else w_lab w i) (Datatypes.S (w_n w)).
  Lemma wnew_ext : forall v lb, ext w (wnew v lb).
  Proof.
    intros v lb. unfold ext, wnew; cbn. split; [lia|split].
    - intros i Hi. destruct (Nat.eqb_spec i (w_n w)); [lia|auto].
    - intros i j Hi Hj. destruct (Nat.eqb_spec i (w_n w)); [lia|]. destruct (Nat.eqb_spec j (w_n w)); [lia|auto].
  Qed.
  Lemma g_alloc : forall S L h n B M v lb l, good b w (mk S L h n B M) ->
    Forall (node_ok (wnew v lb) n) l -> (lb = true -> bounded l) -> (b = true -> lb = false -> nb l) ->
    good b (wnew v lb) (mk S L (hset h n l) (Datatypes.S n) B M).
  Proof.
    intros S L h n B M v lb l [G1 G2 G3 G4 G5 G6] F Q1 Q2. cbn in *. subst n.
    constructor; cbn [w_n w_r w_lab wnew mp_next mp_heap mp_states mp_lists mp_builders mp_matrices].
    - lia.
    - reflexivity.
    - destruct (Nat.eqb_spec 0 (w_n w)); [lia|auto].
    - intros i Hi. cbn in Hi. unfold hset. cbn. destruct (Nat.eqb_spec i (w_n w)) as [->|D]; [split; auto|].
      assert (Hi' : i < w_n w) by lia. destruct (G4 i Hi') as [R1 R2]. split; [|exact R2].
      eapply Forall_impl; [|exact R1]. intros x Hx. eapply node_ext; [apply wnew_ext|auto|exact Hx].
    - eapply lev_ext; [apply wnew_ext|auto|auto].
    - intros i Hi. unfold hset. destruct (Nat.eqb_spec i (w_n w)) as [->|D]; [auto|].
      apply G6; lia.
  Qed.
End Moves.
