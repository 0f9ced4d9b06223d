(** [Macro::match] finds exactly the texts its parameter text describes. *)
From Coq Require Import List Ascii String ZArith Bool Arith Lia.
From Verif.Base Require Import Result.
From Verif.Model Require Import Token Macro Preprocessor.
From Verif.Spec Require Import MacroSpec.
From Verif.Proofs Require Import LexerProofs MacroProofs MacroExpand MacroMore MacroSafe.
Import ListNotations.

Lemma depth_cons t l : depth (t :: l) =
  ((if is_begin t then 1 else if is_end t then -1 else 0) + depth l)%Z.
Proof. destruct t as [c k|n|n]; try reflexivity. destruct k; reflexivity. Qed.
Lemma depth_app a b : depth (a ++ b) = (depth a + depth b)%Z.
Proof. induction a as [|t a IH]; cbn [app]; [reflexivity|]. rewrite !depth_cons, IH. lia. Qed.

Lemma read_braced_sound rest : forall z acc a r, z <> 0%Z -> read_braced z acc rest = Some (a, r) ->
  exists w, a = acc ++ w /\ rest = w ++ r /\ w <> [] /\ depth w = (- z)%Z /\
    forall p q, w = p ++ q -> q <> [] -> depth p <> (- z)%Z.
Proof.
  induction rest as [|t rest IH]; intros z acc a r Z H; cbn [read_braced] in H;
    destruct (Z.eqb_spec z 0); try congruence.
  set (z' := if is_begin t then (z + 1)%Z else if is_end t then (z - 1)%Z else z) in *.
  assert (Dz : z' = (z + (if is_begin t then 1 else if is_end t then -1 else 0))%Z).
  { unfold z'. destruct (is_begin t); [reflexivity|]. destruct (is_end t); lia. }
  destruct (Z.eqb_spec z' 0) as [E|E].
  - assert (X : a = acc ++ [t] /\ r = rest).
    { destruct rest; cbn [read_braced] in H; rewrite E in H; cbn in H; injection H as <- <-; auto. }
    destruct X as [-> ->]. exists [t]. split; [reflexivity|]. split; [reflexivity|]. split; [discriminate|].
    split; [rewrite depth_cons; cbn; lia|].
    intros p q Hp Hq. destruct p as [|u p].
    + cbn; lia.
    + cbn in Hp. injection Hp as -> Hp. symmetry in Hp. apply app_eq_nil in Hp as [_ Hp]. congruence.
  - destruct (IH _ _ _ _ E H) as (w & -> & -> & NE & D & P). exists (t :: w).
    rewrite <- app_assoc. split; [reflexivity|]. split; [reflexivity|]. split; [discriminate|].
    split; [rewrite depth_cons; lia|]. intros p q Hp Hq. destruct p as [|u p]; [cbn; lia|].
    cbn in Hp. injection Hp as <- Hp. specialize (P p q Hp Hq). rewrite depth_cons. lia.
Qed.
Lemma read_braced_complete w : forall z acc r, w <> [] -> depth w = (- z)%Z ->
  (forall p q, w = p ++ q -> q <> [] -> depth p <> (- z)%Z) ->
  read_braced z acc (w ++ r) = Some (acc ++ w, r).
Proof.
  induction w as [|t w IH]; intros z acc r NE D P; [congruence|].
  assert (Z : z <> 0%Z). { intros ->. apply (P [] (t :: w)); [reflexivity|discriminate|reflexivity]. }
  cbn [app read_braced]. destruct (Z.eqb_spec z 0); [congruence|].
  set (z' := if is_begin t then (z + 1)%Z else if is_end t then (z - 1)%Z else z).
  assert (Dz : z' = (z + (if is_begin t then 1 else if is_end t then -1 else 0))%Z).
  { unfold z'. destruct (is_begin t); [reflexivity|]. destruct (is_end t); lia. }
  rewrite depth_cons in D.
  destruct w as [|u w].
  - cbn [app]. assert (E : z' = 0%Z) by (cbn in D; lia). rewrite E. now destruct r.
  - replace (acc ++ t :: u :: w) with ((acc ++ [t]) ++ u :: w) by now rewrite <- app_assoc.
    apply IH; [discriminate|lia|]. intros p q Hp Hq.
    specialize (P (t :: p) q). cbn [app] in P. rewrite Hp in P. specialize (P eq_refl Hq).
    intros X. apply P. rewrite depth_cons. lia.
Qed.

Lemma token_eqb_refl t : token_eqb t t = true.
Proof. now destruct (token_eqb_spec t t). Qed.

Lemma read_delimited_sound d rest : forall z acc a r, read_delimited d z acc rest = Arg a r ->
  exists w r', a = acc ++ w /\ rest = w ++ r /\ r = d :: r' /\ (z + depth w)%Z = 0%Z /\
    (forall p q, w = p ++ d :: q -> (z + depth p)%Z <> 0%Z) /\ ~ In (cs "par") w.
Proof.
  induction rest as [|t rest IH]; intros z acc a r H; cbn [read_delimited] in H; [discriminate|].
  destruct (negb (token_eqb t d) || negb (z =? 0)%Z) eqn:E.
  - assert (H' : exists z', read_delimited d z' (acc ++ [t]) rest = Arg a r /\ t <> cs "par" /\
        z' = (z + (if is_begin t then 1 else if is_end t then -1 else 0))%Z).
    { destruct t as [c k|n|n].
      - eexists; split; [exact H|]. split; [discriminate|]. destruct k; cbn; lia.
      - destruct (name_eqb_spec n (str "par")); [discriminate|]. eexists; split; [exact H|].
        split; [unfold cs; congruence|cbn; lia].
      - eexists; split; [exact H|]. split; [discriminate|cbn; lia]. }
    destruct H' as (z' & H' & NP & Dz). apply IH in H' as (w & r' & -> & -> & -> & D & P & I).
    exists (t :: w), r'. rewrite <- app_assoc. repeat split; try reflexivity.
    + rewrite depth_cons. lia.
    + intros p q Hp. destruct p as [|u p].
      * cbn in Hp. injection Hp as -> _. rewrite token_eqb_refl in E. cbn in *.
        destruct (Z.eqb_spec z 0); [discriminate|lia].
      * cbn in Hp. injection Hp as <- Hp. rewrite depth_cons. specialize (P p q Hp). lia.
    + intros [X|X]; [now apply NP|now apply I].
  - injection H as <- <-. apply orb_false_elim in E as [E1 E2].
    apply negb_false_iff in E1, E2. apply Z.eqb_eq in E2.
    destruct (token_eqb_spec t d); [subst|discriminate].
    exists [], rest. rewrite app_nil_r. repeat split; try reflexivity.
    + intros p q Hp. now destruct p.
    + intros [].
Qed.
Lemma read_delimited_complete d w : forall z acc r, (z + depth w)%Z = 0%Z ->
  (forall p q, w = p ++ d :: q -> (z + depth p)%Z <> 0%Z) -> ~ In (cs "par") w ->
  read_delimited d z acc (w ++ d :: r) = Arg (acc ++ w) (d :: r).
Proof.
  induction w as [|t w IH]; intros z acc r D P I; cbn [app read_delimited].
  - cbn in D. replace z with 0%Z by lia. rewrite token_eqb_refl. cbn. now rewrite app_nil_r.
  - assert (E : negb (token_eqb t d) || negb (z =? 0)%Z = true).
    { destruct (token_eqb_spec t d) as [->|]; [|reflexivity]. cbn.
      specialize (P [] w eq_refl). cbn in P. destruct (Z.eqb_spec z 0); [lia|reflexivity]. }
    rewrite E.
    assert (G : forall z', z' = (z + (if is_begin t then 1 else if is_end t then -1 else 0))%Z ->
      read_delimited d z' (acc ++ [t]) (w ++ d :: r) = Arg (acc ++ t :: w) (d :: r)).
    { intros z' Dz. replace (acc ++ t :: w) with ((acc ++ [t]) ++ w) by now rewrite <- app_assoc.
      apply IH.
      - rewrite depth_cons in D. lia.
      - intros p q Hp. specialize (P (t :: p) q). rewrite depth_cons in P. cbn [app] in P. rewrite Hp in P.
        specialize (P eq_refl). lia.
      - intros X. apply I. now right. }
    destruct t as [c k|n|n].
    + apply G. destruct k; cbn; lia.
    + destruct (name_eqb_spec n (str "par")) as [->|]; [exfalso; apply I; now left|]. apply G. cbn; lia.
    + apply G. cbn; lia.
Qed.

Lemma is_param_cases t : isControlSequence t = false -> negb (isCharacterToken t) = false -> ~ is_param t.
Proof. destruct t; cbn; try discriminate. intros _ _ [n E]. discriminate. Qed.

Lemma read_word rest a r :
  match rest with
  | [] => False
  | t :: r0 =>
    (if isControlSequence t then Ok (Arg [t] r0)
     else if negb (isCharacterToken t) then Abort
     else if is_begin t then
       match read_braced 1 [] r0 with
       | Some (a, r') => Ok (Arg (removelast a) r')
       | None => Ok (Stop PartialMatch [])
       end
     else Ok (Arg [t] r0)) = Ok (Arg a r)
  end -> exists ts, m_word ts a /\ rest = ts ++ r.
Proof.
  destruct rest as [|t r0]; [easy|]. destruct (isControlSequence t) eqn:C.
  - intros [= <- <-]. exists [t]. split; [|reflexivity].
    destruct t; try discriminate. constructor; intros [x E]; discriminate.
  - destruct (negb (isCharacterToken t)) eqn:N; [discriminate|].
    destruct (is_begin t) eqn:B.
    + destruct (read_braced 1 [] r0) as [[w r']|] eqn:R; [|discriminate]. intros [= <- <-].
      apply read_braced_sound in R as (w' & -> & -> & NE & D & P); [|lia].
      destruct (exists_last NE) as (b & c & ->). cbn [app]. rewrite removelast_last.
      exists (t :: b ++ [c]). split; [|reflexivity]. apply open_cat_spec in B. constructor; [exact B|]. split; assumption.
    + intros [= <- <-]. exists [t]. split; [|reflexivity]. constructor.
      * intros X. apply open_cat_spec in X. congruence.
      * now apply is_param_cases.
Qed.
Lemma read_undelimited_sound rest a r : read_undelimited rest = Ok (Arg a r) ->
  exists ts, m_undelimited ts a /\ rest = ts ++ r.
Proof.
  unfold read_undelimited. destruct rest as [|t0 r0]; [discriminate|].
  destruct (is_spacetok t0) eqn:S.
  - intros H. apply space_tok_spec in S. destruct r0 as [|t r1]; [discriminate|].
    destruct (read_word (t :: r1) a r H) as (ts & W & E). exists (t0 :: ts). split; [now constructor|].
    now rewrite E.
  - intros H. destruct (read_word (t0 :: r0) a r H) as (ts & W & E). exists ts. split; [|exact E].
    assert (S' : ~ space_tok t0) by (intros X; apply space_tok_spec in X; congruence).
    inversion W; subst; cbn in E; injection E as <- _; constructor; assumption.
Qed.
Lemma read_word_complete ts a r : m_word ts a ->
  match ts ++ r with
  | [] => False
  | t :: r0 =>
    (if isControlSequence t then Ok (Arg [t] r0)
     else if negb (isCharacterToken t) then Abort
     else if is_begin t then
       match read_braced 1 [] r0 with
       | Some (a, r') => Ok (Arg (removelast a) r')
       | None => Ok (Stop PartialMatch [])
       end
     else Ok (Arg [t] r0)) = Ok (Arg a r)
  end.
Proof.
  intros [t No Np|o b c [x ->] [D P]]; cbn [app].
  - destruct t as [x k|n|n]; cbn [isControlSequence isCharacterToken negb]; try reflexivity.
    + destruct (is_begin (TChar x k)) eqn:B; [|reflexivity]. apply open_cat_spec in B. contradiction.
    + exfalso; apply Np; eexists; reflexivity.
  - change (is_begin (TChar x GroupBegin)) with true. cbn [isControlSequence isCharacterToken negb].
    rewrite read_braced_complete; [|now destruct b|exact D|exact P]. cbn [app]. now rewrite removelast_last.
Qed.
Lemma read_undelimited_complete ts a r : m_undelimited ts a -> read_undelimited (ts ++ r) = Ok (Arg a r).
Proof.
  intros [t ts' a' S W|t ts' a' S W]; cbn [app]; unfold read_undelimited.
  - destruct (is_spacetok t) eqn:E; [apply space_tok_spec in E; contradiction|].
    exact (read_word_complete (t :: ts') a' r W).
  - apply space_tok_spec in S. rewrite S. pose proof (read_word_complete ts' a' r W) as H.
    destruct (ts' ++ r); [contradiction|exact H].
Qed.

Lemma args_set_spec a z x a' : List.length a = 9 -> args_set a z x = Ok a' ->
  (0 <= z <= 8)%Z /\ List.length a' = 9 /\
  forall i, nth i a' [] = if Nat.eqb i (Z.to_nat z) then x else nth i a [].
Proof.
  intros L. unfold args_set. destruct (Z.ltb_spec z 0); [discriminate|].
  destruct (Nat.ltb_spec (Z.to_nat z) (List.length a)); [|discriminate].
  intros [= <-]. split; [lia|]. split; [now rewrite set_nth_length|].
  intros i. apply nth_set_nth. lia.
Qed.

Definition slots_of (args args' : arguments) (b : list (Z * list token)) : Prop :=
  List.length args' = 9 /\ Forall (fun e => (1 <= fst e <= 9)%Z) b /\
  forall n, (1 <= n <= 9)%Z -> nth (Z.to_nat (n - 1)) args' [] = recorded b n (nth (Z.to_nat (n - 1)) args []).

Lemma slots_of_cons args args1 args' k a b :
  List.length args = 9 -> args_set args (k - 1) a = Ok args1 -> slots_of args1 args' b ->
  slots_of args args' ((k, a) :: b).
Proof.
  intros L S (L' & F & R). destruct (args_set_spec _ _ _ _ L S) as (B & L1 & N).
  split; [exact L'|]. split; [constructor; [cbn; lia|exact F]|].
  intros n Hn. rewrite R by exact Hn. cbn [recorded]. f_equal. rewrite N.
  destruct (Nat.eqb_spec (Z.to_nat (n - 1)) (Z.to_nat (k - 1))); destruct (Z.eqb_spec k n); try reflexivity; lia.
Qed.

(** A refusal is final: more text does not help *)
Lemma read_delimited_more d rest : forall z acc ext,
  match read_delimited d z acc rest with
  | Arg a r => read_delimited d z acc (rest ++ ext) = Arg a (r ++ ext)
  | Stop NoMatch r => read_delimited d z acc (rest ++ ext) = Stop NoMatch (r ++ ext)
  | Stop c r => c = PartialMatch /\ r = []
  end.
Proof.
  induction rest as [|t rest IH]; intros z acc ext; cbn [app read_delimited]; [auto|].
  destruct (negb (token_eqb t d) || negb (z =? 0)%Z); [|reflexivity].
  destruct t as [c k|n|n]; try apply IH. destruct (name_eqb n (str "par")); [reflexivity|apply IH].
Qed.
Lemma read_braced_more rest : forall z acc ext a r,
  read_braced z acc rest = Some (a, r) -> read_braced z acc (rest ++ ext) = Some (a, r ++ ext).
Proof.
  induction rest as [|t rest IH]; intros z acc ext a r H; cbn [app read_braced] in *.
  - destruct (z =? 0)%Z eqn:E; [|discriminate]. injection H as <- <-. destruct ext; cbn; now rewrite E.
  - destruct (z =? 0)%Z; [injection H as <- <-; reflexivity|]. now apply IH.
Qed.
Lemma read_undelimited_more rest ext : rest <> [] ->
  match read_undelimited rest with
  | Ok (Arg a r) => read_undelimited (rest ++ ext) = Ok (Arg a (r ++ ext))
  | Ok (Stop c r) => c = PartialMatch /\ r = []
  | _ => True
  end.
Proof.
  intros NE. destruct rest as [|t0 r0]; [congruence|]. unfold read_undelimited. cbn [app].
  assert (G : forall t r, match (if isControlSequence t then Ok (Arg [t] r)
     else if negb (isCharacterToken t) then Abort
     else if is_begin t then
       match read_braced 1 [] r with
       | Some (a, r') => Ok (Arg (removelast a) r')
       | None => Ok (Stop PartialMatch [])
       end
     else Ok (Arg [t] r)) with
    | Ok (Arg a r1) => (if isControlSequence t then Ok (Arg [t] (r ++ ext))
     else if negb (isCharacterToken t) then Abort
     else if is_begin t then
       match read_braced 1 [] (r ++ ext) with
       | Some (a, r') => Ok (Arg (removelast a) r')
       | None => Ok (Stop PartialMatch [])
       end
     else Ok (Arg [t] (r ++ ext))) = Ok (Arg a (r1 ++ ext))
    | Ok (Stop c r1) => c = PartialMatch /\ r1 = []
    | _ => True end).
  { intros t r. destruct (isControlSequence t); [reflexivity|]. destruct (negb (isCharacterToken t)); [exact I|].
    destruct (is_begin t); [|reflexivity].
    destruct (read_braced 1 [] r) as [[w r']|] eqn:R; [|auto].
    now rewrite (read_braced_more _ _ _ ext _ _ R). }
  destruct (is_spacetok t0); [|apply G].
  destruct r0 as [|t r]; cbn [app]; [auto|apply G].
Qed.

Lemma read_arg_stop pat rest c r : rest <> [] -> read_arg pat rest = Ok (Stop c r) -> c <> CompleteMatch.
Proof.
  intros NE. pose proof (read_undelimited_more rest [] NE) as U. unfold read_arg.
  assert (X : read_undelimited rest = Ok (Stop c r) -> c <> CompleteMatch).
  { intros E. rewrite E in U. destruct U as [-> _]. discriminate. }
  destruct pat as [|d pat]; [exact X|]. destruct (isParameterToken d); [exact X|].
  intros E'. assert (E : read_delimited d 0 [] rest = Stop c r) by congruence.
  pose proof (read_delimited_more d rest 0 [] []) as D. rewrite E in D.
  destruct c; [discriminate|destruct D; discriminate|discriminate].
Qed.

Lemma match_sound total pat : forall args rest sz args',
  List.length args = 9 -> List.length rest <= total ->
  match_loop total pat args rest = Ok (mkMR CompleteMatch sz args') ->
  exists ts r b, rest = ts ++ r /\ m_call pat ts b /\ sz = total - List.length r /\ slots_of args args' b.
Proof.
  induction pat as [|p pat IH]; intros args rest sz args' L Lr H; cbn [match_loop] in H.
  - injection H as <- <-. exists [], rest, []. repeat split; auto. constructor.
  - destruct rest as [|t rest]; [discriminate|].
    assert (Lit : ~ is_param p -> (if token_eqb t p then match_loop total pat args rest
              else Ok (mkMR NoMatch (total - List.length (t :: rest)) args)) = Ok (mkMR CompleteMatch sz args') ->
      exists ts r b, t :: rest = ts ++ r /\ m_call (p :: pat) ts b /\ sz = total - List.length r /\ slots_of args args' b).
    { intros NP H'. destruct (token_eqb_spec t p) as [->|]; [|discriminate].
      destruct (IH args rest sz args' L) as (ts & r & b & -> & C & E & S); [cbn in Lr; lia|exact H'|].
      exists (p :: ts), r, b. split; [reflexivity|]. split; [now constructor|auto]. }
    destruct p as [c k|n|n].
    + apply Lit; [intros [x E]; discriminate|exact H].
    + apply Lit; [intros [x E]; discriminate|exact H].
    + clear Lit. apply bind_Ok in H as (x & R & H). destruct x as [a rest'|c rest'].
      2:{ injection H as -> _ _. now apply read_arg_stop in R. }
      apply bind_Ok in H as (args1 & A & H).
      assert (L1 : List.length args1 = 9) by now apply args_set_spec in A.
      unfold read_arg in R.
      assert (U : param_next pat -> read_undelimited (t :: rest) = Ok (Arg a rest') ->
        exists ts r b, t :: rest = ts ++ r /\ m_call (TParam n :: pat) ts b /\ sz = total - List.length r /\ slots_of args args' b).
      { intros PN R'. apply read_undelimited_sound in R' as (ts1 & W & E).
        destruct (IH args1 rest' sz args' L1) as (ts & r & b & -> & C & Es & S); [|exact H|].
        { rewrite E, app_length in Lr. lia. }
        exists (ts1 ++ ts), r, ((n, a) :: b). split; [now rewrite <- app_assoc|].
        split; [now constructor|]. split; [exact Es|]. eapply slots_of_cons; eauto. }
      destruct pat as [|d pat]; [apply U; [exact I|exact R]|].
      destruct (isParameterToken d) eqn:Pd; [apply U; [now apply is_param_spec|exact R]|].
      assert (R' : read_delimited d 0 [] (t :: rest) = Arg a rest') by congruence.
      apply read_delimited_sound in R' as (w & r' & -> & E & -> & D & P & I).
      destruct (IH args1 (d :: r') sz args' L1) as (ts & r & b & E2 & C & Es & S); [|exact H|].
      { rewrite E, app_length in Lr. lia. }
      exists (w ++ ts), r, ((n, w) :: b). split; [rewrite E, E2; now rewrite <- app_assoc|].
      split; [|split; [exact Es|eapply slots_of_cons; eauto]].
      constructor; [now apply not_param_spec| |exact C]. split; [exact D|]. split; [|exact I].
      intros p q Hp. exact (P p q Hp).
Qed.

Lemma match_complete total pat ts b : m_call pat ts b -> forall args r,
  List.length args = 9 -> Forall (fun e => (1 <= fst e <= 9)%Z) b ->
  exists args', match_loop total pat args (ts ++ r) = Ok (mkMR CompleteMatch (total - List.length r) args').
Proof.
  induction 1 as [|t pat ts b NP C IH|n pat ts1 a ts b PN U C IH|n d pat a ts b Nd D C IH];
    intros args r L F.
  - eexists; reflexivity.
  - cbn [app match_loop]. destruct t as [c k|x|x]; try (exfalso; apply NP; eexists; reflexivity);
      rewrite token_eqb_refl; auto.
  - rewrite <- app_assoc. inversion F as [|? ? Hn F']; subst. cbn in Hn.
    assert (A : exists args1, args_set args (n - 1) a = Ok args1).
    { unfold args_set. destruct (Z.ltb_spec (n - 1) 0); [lia|].
      destruct (Nat.ltb_spec (Z.to_nat (n - 1)) (List.length args)); [eauto|lia]. }
    destruct A as [args1 A]. assert (L1 : List.length args1 = 9) by now apply args_set_spec in A.
    destruct (IH args1 r L1 F') as [args' M]. exists args'.
    assert (RA : read_arg pat (ts1 ++ ts ++ r) = Ok (Arg a (ts ++ r))).
    { unfold read_arg. destruct pat as [|d pat]; [now apply read_undelimited_complete|].
      cbn in PN. apply is_param_spec in PN. rewrite PN. now apply read_undelimited_complete. }
    assert (NE : exists u v, ts1 ++ ts ++ r = u :: v) by (inversion U; subst; cbn; eauto).
    destruct NE as (u & v & E). cbn [match_loop]. rewrite E at 1. rewrite RA. cbn [bind]. rewrite A. exact M.
  - inversion F as [|? ? Hn F']; subst. cbn in Hn.
    assert (A : exists args1, args_set args (n - 1) a = Ok args1).
    { unfold args_set. destruct (Z.ltb_spec (n - 1) 0); [lia|].
      destruct (Nat.ltb_spec (Z.to_nat (n - 1)) (List.length args)); [eauto|lia]. }
    destruct A as [args1 A]. assert (L1 : List.length args1 = 9) by now apply args_set_spec in A.
    destruct (IH args1 r L1 F') as [args' M]. exists args'.
    assert (ED : exists ts', ts = d :: ts').
    { inversion C; subst; eauto; exfalso; apply Nd; eexists; reflexivity. }
    destruct ED as [ts' ->]. rewrite <- app_assoc. cbn [app].
    assert (RA : read_arg (d :: pat) (a ++ d :: ts' ++ r) = Ok (Arg a (d :: ts' ++ r))).
    { unfold read_arg. apply not_param_spec in Nd. rewrite Nd. destruct D as (D & P & I). f_equal.
      exact (read_delimited_complete d a 0 [] (ts' ++ r) D P I). }
    assert (NE : exists u v, a ++ d :: ts' ++ r = u :: v) by (destruct a; cbn; eauto).
    destruct NE as (u & v & E).
    change (match_loop total (TParam n :: d :: pat) args (a ++ d :: ts' ++ r)) with
      (match a ++ d :: ts' ++ r with
       | [] => Ok (mkMR PartialMatch (total - List.length (a ++ d :: ts' ++ r)) args)
       | _ :: _ => do x <- read_arg (d :: pat) (a ++ d :: ts' ++ r);
              match x with
              | Arg a rest' => do args' <- args_set args (n - 1) a; match_loop total (d :: pat) args' rest'
              | Stop c rest' => Ok (mkMR c (total - List.length rest') args)
              end
       end).
    rewrite E at 1. rewrite RA. cbn [bind]. rewrite A. exact M.
Qed.

Lemma firstn_app_exact {A} (a b : list A) : firstn (List.length a) (a ++ b) = a.
Proof. now rewrite firstn_app, Nat.sub_diag, firstn_all, app_nil_r. Qed.

Lemma match_sound_lemma m text sz args :
  macro_match m text = Ok (mkMR CompleteMatch sz args) ->
  exists b, m_call (m_param m) (firstn sz text) b /\ sz <= List.length text /\
    List.length args = 9 /\ Forall (fun e => (1 <= fst e <= 9)%Z) b /\
    forall n, (1 <= n <= 9)%Z -> nth (Z.to_nat (n - 1)) args [] = recorded b n [].
Proof.
  intros H. apply match_sound in H as (ts & r & b & E & C & Es & L & F & R); [|reflexivity|lia].
  exists b. subst text. rewrite app_length in Es. replace sz with (List.length ts) by lia.
  rewrite firstn_app_exact, app_length. repeat split; auto; try lia.
  intros n Hn. rewrite R by exact Hn. f_equal. unfold no_args.
  rewrite nth_repeat. reflexivity.
Qed.
Lemma match_complete_lemma m ts r b :
  m_call (m_param m) ts b -> Forall (fun e => (1 <= fst e <= 9)%Z) b ->
  exists args, macro_match m (ts ++ r) = Ok (mkMR CompleteMatch (List.length ts) args).
Proof.
  intros C F. destruct (match_complete (List.length (ts ++ r)) _ _ _ C no_args r eq_refl F) as [args' M].
  exists args'. unfold macro_match. rewrite M. do 2 f_equal. rewrite app_length. lia.
Qed.

Lemma match_more total total' ext pat : forall args rest,
  total' = total + List.length ext -> List.length rest <= total ->
  match match_loop total pat args rest with
  | Ok (mkMR CompleteMatch sz a) => match_loop total' pat args (rest ++ ext) = Ok (mkMR CompleteMatch sz a)
  | Ok (mkMR NoMatch sz a) => match_loop total' pat args (rest ++ ext) = Ok (mkMR NoMatch sz a)
  | Ok (mkMR PartialMatch sz a) => sz = total
  | _ => True
  end.
Proof.
  induction pat as [|p pat IH]; intros args rest Et L; cbn [match_loop].
  - do 2 f_equal. rewrite app_length. lia.
  - destruct rest as [|t rest]; [cbn; lia|]. cbn [app].
    assert (Lit : match (if token_eqb t p then match_loop total pat args rest
              else Ok (mkMR NoMatch (total - List.length (t :: rest)) args)) with
      | Ok (mkMR CompleteMatch sz a) => (if token_eqb t p then match_loop total' pat args (rest ++ ext)
              else Ok (mkMR NoMatch (total' - List.length (t :: rest ++ ext)) args)) = Ok (mkMR CompleteMatch sz a)
      | Ok (mkMR NoMatch sz a) => (if token_eqb t p then match_loop total' pat args (rest ++ ext)
              else Ok (mkMR NoMatch (total' - List.length (t :: rest ++ ext)) args)) = Ok (mkMR NoMatch sz a)
      | Ok (mkMR PartialMatch sz a) => sz = total
      | _ => True end).
    { destruct (token_eqb t p).
      - apply IH; [exact Et|cbn in L; lia].
      - do 2 f_equal. cbn [List.length]. rewrite app_length. cbn in L. lia. }
    destruct p as [c k|n|n]; [exact Lit|exact Lit|]. clear Lit.
    assert (RA : match read_arg pat (t :: rest) with
      | Ok (Arg a r) => read_arg pat (t :: rest ++ ext) = Ok (Arg a (r ++ ext)) /\ List.length r <= total
      | Ok (Stop NoMatch r) => read_arg pat (t :: rest ++ ext) = Ok (Stop NoMatch (r ++ ext)) /\ List.length r <= total
      | Ok (Stop c r) => c = PartialMatch /\ r = []
      | _ => True end).
    { assert (LU : forall a r, read_undelimited (t :: rest) = Ok (Arg a r) -> List.length r <= total).
      { intros a r R. apply read_undelimited_sound in R as (ts & _ & E). rewrite E, app_length in L. lia. }
      pose proof (read_undelimited_more (t :: rest) ext ltac:(discriminate)) as U.
      assert (UU : match read_undelimited (t :: rest) with
        | Ok (Arg a r) => read_undelimited (t :: rest ++ ext) = Ok (Arg a (r ++ ext)) /\ List.length r <= total
        | Ok (Stop NoMatch r) => read_undelimited (t :: rest ++ ext) = Ok (Stop NoMatch (r ++ ext)) /\ List.length r <= total
        | Ok (Stop c r) => c = PartialMatch /\ r = []
        | _ => True end).
      { destruct (read_undelimited (t :: rest)) as [[a r|c r]| | | |]; try exact I; eauto.
        destruct U as [-> ->]. auto. }
      unfold read_arg. destruct pat as [|d pat]; [exact UU|].
      destruct (isParameterToken d); [exact UU|].
      pose proof (read_delimited_more d (t :: rest) 0 [] ext) as D. cbn [app] in D.
      destruct (read_delimited d 0 [] (t :: rest)) as [a r|c r] eqn:R.
      - rewrite D. split; [reflexivity|]. apply read_delimited_sound in R as (w & r' & _ & E & _). rewrite E, app_length in L. lia.
      - destruct c; [exact D|exact D|]. rewrite D. split; [reflexivity|].
        assert (G : forall rest z acc, read_delimited d z acc rest = Stop NoMatch r -> List.length r <= List.length rest).
        { clear. induction rest as [|u rest IH]; intros z acc H; cbn [read_delimited] in H; [discriminate|].
          destruct (negb (token_eqb u d) || negb (z =? 0)%Z); [|discriminate].
          destruct u as [c k|n|n]; try (apply IH in H; cbn; lia).
          destruct (name_eqb n (str "par")); [injection H as <-; cbn; lia|apply IH in H; cbn; lia]. }
        apply G in R. lia. }
    destruct (read_arg pat (t :: rest)) as [[a r|c r]| | | |]; cbn [bind]; try exact I.
    + destruct RA as [-> Lr]. cbn [bind]. destruct (args_set args (n - 1) a); cbn [bind]; try exact I. now apply IH.
    + destruct c; [destruct RA as [_ ->]; cbn; lia|destruct RA; discriminate|].
      destruct RA as [-> Lr]. cbn [bind]. do 2 f_equal. rewrite app_length. lia.
Qed.

Lemma match_more_lemma m text ext :
  match macro_match m text with
  | Ok (mkMR PartialMatch sz a) => sz = List.length text
  | Ok r => macro_match m (text ++ ext) = Ok r
  | _ => True
  end.
Proof.
  pose proof (match_more (List.length text) (List.length (text ++ ext)) ext (m_param m) no_args text) as H.
  rewrite app_length in H. specialize (H eq_refl (le_n _)). unfold macro_match. rewrite app_length.
  destruct (match_loop (List.length text) (m_param m) no_args text) as [[[] sz a]| | | |]; exact H || exact I.
Qed.
