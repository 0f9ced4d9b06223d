(** Deciding whether the equation editor shows a given text. *)
From Coq Require Import List Ascii String ZArith Bool Arith Lia.
From Verif.Base Require Import Result Num.
From Verif.Model Require Import Token Lexer Box MathList MathParser MathTypeset MathFrontend.
From Verif.Spec Require Import LexerSpec MathSpec TypesetSpec EquationSpec TypesetOkSpec EquationOkSpec.
From Verif.Proofs Require Import MathProofs EquationProofs EquationOk.
Import ListNotations.
Local Open Scope nat_scope.

(** * The store as a formula *)
Section Read.
  Variable h : nat -> list MathParser.hnode.
  Definition opt {A B} (f : A -> option B) (x : option A) : option B := match x with Some a => f a | None => None end.
  Fixpoint each {A B} (f : A -> option B) (l : list A) : option (list B) :=
    match l with
    | [] => Some []
    | x :: r => opt (fun y => opt (fun ys => Some (y :: ys)) (each f r)) (f x)
    end.
  Definition read_ref (sub : nat -> option (list tree)) (r : option ref) : option content :=
    match r with
    | None => Some Nothing
    | Some (RSym s) => Some (Sym s)
    | Some (RList i) => opt (fun l => Some (Formula l)) (sub i)
    end.
  Definition read_node (sub : nat -> option (list tree)) (n : MathParser.hnode) : option tree :=
    match n with
    | HAtom ty a b c =>
        opt (fun x => opt (fun y => opt (fun z => Some (TAtom ty x y z)) (read_ref sub c)) (read_ref sub b)) (read_ref sub a)
    | HBoundary s => Some (TBoundary s)
    | HFrac n d => opt (fun x => opt (fun y => Some (TFrac x y)) (sub d)) (sub n)
    | HRoot n d => opt (fun x => opt (fun y => Some (TRoot x y)) (sub d)) (sub n)
    | HMatrix is cols => opt (fun xs => Some (TMatrix xs cols)) (each sub is)
    | HStyle s => Some (TStyle s)
    end.
  Fixpoint read (d i : nat) : option (list tree) :=
    match d with
    | 0 => None
    | Datatypes.S d => each (read_node (read d)) (h i)
    end.

  Section Sub.
    Variable sub : nat -> option (list tree).
    Hypothesis IH : forall i ts, sub i = Some ts -> r_list h (h i) ts.
    Lemma read_ref_ok r c : read_ref sub r = Some c -> r_ref h r c.
    Proof.
      destruct r as [[s|i]|]; cbn; [intros [= <-]; constructor| |intros [= <-]; constructor].
      destruct (sub i) eqn:E; [|discriminate]. intros [= <-]. constructor. apply IH. exact E.
    Qed.
    Lemma read_node_ok n t : read_node sub n = Some t -> r_node h n t.
    Proof.
      destruct n as [ty a b c|s|n d|n d|is cols|s]; cbn [read_node].
      - destruct (read_ref sub a) eqn:Ea; [|discriminate]. destruct (read_ref sub b) eqn:Eb; [|discriminate].
        destruct (read_ref sub c) eqn:Ec; [|discriminate]. intros [= <-]. constructor; apply read_ref_ok; assumption.
      - intros [= <-]. constructor.
      - destruct (sub n) eqn:En; [|discriminate]. destruct (sub d) eqn:Ed; [|discriminate].
        intros [= <-]. constructor; apply IH; assumption.
      - destruct (sub n) eqn:En; [|discriminate]. destruct (sub d) eqn:Ed; [|discriminate].
        intros [= <-]. constructor; apply IH; assumption.
      - destruct (each sub is) as [xs|] eqn:Ei; [|discriminate]. intros [= <-]. constructor.
        revert xs Ei. induction is as [|i is Hi]; intros xs Ei; cbn [each] in Ei; [injection Ei as <-; constructor|].
        destruct (sub i) eqn:Es; [|discriminate]. destruct (each sub is) as [ys|]; [|discriminate].
        injection Ei as <-. constructor; [apply IH; exact Es|apply Hi; reflexivity].
      - intros [= <-]. constructor.
    Qed.
    Lemma read_nodes_ok l : forall ts, each (read_node sub) l = Some ts -> r_list h l ts.
    Proof.
      induction l as [|n l Hl]; intros ts H; cbn [each] in H; [injection H as <-; constructor|].
      destruct (read_node sub n) eqn:En; [|discriminate]. destruct (each (read_node sub) l) as [ys|]; [|discriminate].
      injection H as <-. constructor; [apply read_node_ok; exact En|apply Hl; reflexivity].
    Qed.
  End Sub.
  Lemma read_ok d : forall i ts, read d i = Some ts -> r_list h (h i) ts.
  Proof.
    induction d as [|d IH]; intros i ts H; [discriminate|]. exact (read_nodes_ok (read d) IH (h i) ts H).
  Qed.
End Read.

(** * The verdict *)
Inductive verdict := Shown | Refused | Crashes | Unknown.
Definition parsed (cs : bool) (text : list ascii) : result mp :=
  match feed DefaultCatCodes lexer_init text with
  | (_, Some _) => Throw
  | (l, None) => do m <- foldM (eq_token cs) (l_out l) mp_init; do_call m CFinish
  end.
Definition judge (cs : bool) (d : nat) (text : list ascii) : verdict :=
  match parsed cs text with
  | Ok m => match read (mp_heap m) d 0 with
            | Some ts => if showable ts then Shown else Crashes
            | None => Unknown
            end
  | Throw => Refused
  | UB | Abort => Crashes
  | Fuel => Unknown
  end.

Section Judge.
  Context {N : Num}.
  Variables (cs : bool) (E : engine N).
  Hypothesis HE : char_engine E.
  Hypothesis HN : self_equal N.
  Lemma equation_parsed fuel text : equation cs E fuel text =
    do m <- parsed cs text; do ml <- output fuel m;
    do r <- mlist2hlist E fuel default_penalties D ml; Ok (hbox (fst r)).
  Proof.
    unfold equation, parsed. destruct (feed _ _ _) as [l [e|]]; [reflexivity|].
    destruct (foldM _ _ _); cbn [bind]; reflexivity.
  Qed.
  Lemma lexed_feed text l : feed DefaultCatCodes lexer_init text = (l, None) ->
    exists fin, lexes DefaultCatCodes true NewLine text (l_out l) fin /\ fin <> BadCharacter /\ fin <> BadParam.
  Proof.
    intros Ef. destruct (LexerProofs.lexer_tokenizes_lemma DefaultCatCodes NewLine text lexer_init l None eq_refl Ef) as (ts & Ho & Hr).
    exists (lexer_ending l None). cbn [l_out lexer_init app] in Ho. rewrite Ho. split; [apply Hr; auto|].
    unfold lexer_ending. destruct (l_state l); split; discriminate.
  Qed.
  Theorem judged d text :
    match judge cs d text with
    | Shown => exists k, forall fuel, k <= fuel -> exists x, equation cs E fuel text = Ok x
    | Refused => forall fuel, equation cs E fuel text = Throw
    | Crashes => exists k, forall fuel, k <= fuel -> equation cs E fuel text = UB \/ equation cs E fuel text = Abort
    | Unknown => True
    end.
  Proof.
    unfold judge. destruct (parsed cs text) as [m| | | |] eqn:P;
      [|intros fuel; rewrite equation_parsed, P; reflexivity
       |exists 0; intros fuel _; left; rewrite equation_parsed, P; reflexivity
       |exists 0; intros fuel _; right; rewrite equation_parsed, P; reflexivity|exact Logic.I].
    destruct (read (mp_heap m) d 0) as [ts|] eqn:R; [|exact Logic.I]. apply read_ok in R.
    unfold parsed in P. destruct (feed DefaultCatCodes lexer_init text) as [l [e|]] eqn:Ef; [discriminate|].
    destruct (foldM (eq_token cs) (l_out l) mp_init) as [m0| | | |] eqn:E0; try discriminate. cbn [bind] in P.
    destruct (lexed_feed text l Ef) as (fin & Hl & Hb & Hp).
    destruct (equation_decided cs E HE HN text (l_out l) fin m0 m Hl Hb Hp E0 P) as (ts' & k & R' & Dc).
    assert (ts' = ts) as -> by exact (proj1 (proj2 (proj2 (reads_once (mp_heap m)))) _ _ R' _ R).
    destruct (showable ts) eqn:Sh; exists k; intros fuel Hf; destruct (Dc fuel Hf) as [D1 D2]; auto.
  Qed.
End Judge.

(** A text that is said to crash does so with any arithmetic and any engine. *)
Theorem judged_crash {N : Num} (cs : bool) (E : engine N) d text : judge cs d text = Crashes ->
  exists k, forall fuel, k <= fuel -> equation cs E fuel text = UB \/ equation cs E fuel text = Abort.
Proof.
  unfold judge. destruct (parsed cs text) as [m| | | |] eqn:P; try discriminate;
    [|intros _; exists 0; intros fuel _; left; rewrite equation_parsed, P; reflexivity
     |intros _; exists 0; intros fuel _; right; rewrite equation_parsed, P; reflexivity].
  destruct (read (mp_heap m) d 0) as [ts|] eqn:R; [|discriminate]. apply read_ok in R.
  destruct (showable ts) eqn:Sh; [discriminate|]. intros _.
  assert (P' := P). unfold parsed in P'. destruct (feed DefaultCatCodes lexer_init text) as [l [e|]]; [discriminate|].
  destruct (foldM (eq_token cs) (l_out l) mp_init) as [m0| | | |] eqn:E0; try discriminate. cbn [bind] in P'.
  rewrite tokens_make in E0.
  assert (EC : calls (flat_map (token_calls cs) (l_out l) ++ [CFinish]) mp_init = Ok m) by (apply calls_snoc; eauto).
  assert (F : Forall code_call (flat_map (token_calls cs) (l_out l) ++ [CFinish]))
    by (apply Forall_app; split; [apply tokens_code|constructor; [exact Logic.I|constructor]]).
  destruct (output_value (N := N) m ts R) as [k Hk]. destruct (output_fine (N := N) _ _ _ F EC R) as [U Fi].
  exists (k + Datatypes.S (list_size (map (value (N := N)) ts))). intros fuel Hf.
  rewrite equation_parsed, P. cbn [bind]. rewrite Hk by lia. cbn [bind].
  destruct (TypesetNoThrow.typeset_no_exception E fuel default_penalties D (map value ts) ltac:(lia) (unboxed_known _ U)) as [Q1 Q2].
  assert (Q3 := TypesetFails.typesets_fine E fuel default_penalties D (map value ts)).
  destruct (mlist2hlist E fuel default_penalties D (map value ts)) as [r| | | |]; cbn [bind]; try congruence; auto.
  specialize (Q3 r U eq_refl). congruence.
Qed.
