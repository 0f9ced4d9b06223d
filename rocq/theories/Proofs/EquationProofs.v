(** The equation editor, from the text to the box. *)
From Coq Require Import List Ascii String ZArith Bool Arith Lia.
From Verif.Base Require Import Result Num.
From Verif.Model Require Import Token Lexer Box MathList MathParser MathTypeset MathFrontend.
From Verif.Spec Require SymbolSpec.
From Verif.Spec Require Import LexerSpec MathSpec TypesetSpec EquationSpec.
From Verif.Proofs Require SymbolProofs.
From Verif.Proofs Require Import LexerProofs FormulaProofs MathProofs TypesetTotal.
Import ListNotations.

(** * The values of lists *)
Section Values.
  Context {N : Num}.
  Variable h : nat -> list MathParser.hnode.

  Definition lv (d i : nat) : result (list (mnode N)) := list_val h d i.

  Lemma nodes_val_gen (sub : nat -> result (list (mnode N))) l x acc : Forall2 (fun n t => node_val sub n = Ok (value t)) l x ->
    foldM (fun l n => do y <- node_val sub n; Ok (l ++ [y])) l acc = Ok (acc ++ map value x).
  Proof.
    intros H. revert acc. induction H as [|n t l x E _ IH]; intros acc; cbn [foldM].
    - rewrite app_nil_r. reflexivity.
    - rewrite E. cbn [bind]. rewrite IH. rewrite <- app_assoc. reflexivity.
  Qed.
  Lemma nodes_val_all (sub : nat -> result (list (mnode N))) l x : Forall2 (fun n t => node_val sub n = Ok (value t)) l x ->
    nodes_val sub l = Ok (map value x).
  Proof. intros H. unfold nodes_val. rewrite (nodes_val_gen _ _ _ _ H). reflexivity. Qed.
  Lemma cells_val_gen (sub : nat -> result (list (mnode N))) is xs acc : Forall2 (fun i x => sub i = Ok (map value x)) is xs ->
    foldM (fun l i => do y <- sub i; Ok (l ++ [y])) is acc = Ok (acc ++ map (map value) xs).
  Proof.
    intros H. revert acc. induction H as [|n t l x E _ IH]; intros acc; cbn [foldM].
    - rewrite app_nil_r. reflexivity.
    - rewrite E. cbn [bind]. rewrite IH. rewrite <- app_assoc. reflexivity.
  Qed.

  Lemma reads_value :
    (forall n t, r_node h n t -> exists k, forall d, k <= d -> node_val (lv d) n = Ok (value t)) /\
    (forall r c, r_ref h r c -> exists k, forall d, k <= d -> field_of (lv d) r = Ok (part c)) /\
    (forall l x, r_list h l x -> exists k, forall d, k <= d -> Forall2 (fun n t => node_val (lv d) n = Ok (value t)) l x) /\
    (forall is xs, r_lists h is xs -> exists k, forall d, k <= d -> Forall2 (fun i x => lv d i = Ok (map value x)) is xs).
  Proof.
    assert (Hl : forall i x k, (forall d, k <= d -> Forall2 (fun n t => node_val (lv d) n = Ok (value t)) (h i) x) ->
      forall d, Datatypes.S k <= d -> lv d i = Ok (map value x)).
    { intros i x k H [|d] Hd; [lia|]. unfold lv. cbn [list_val]. apply nodes_val_all, H. lia. }
    apply r_ind.
    - intros ty a b c x y z _ [k1 H1] _ [k2 H2] _ [k3 H3]. exists (k1 + k2 + k3). intros d Hd. cbn [node_val].
      rewrite H1, H2, H3 by lia. reflexivity.
    - intros s. exists 0. reflexivity.
    - intros n d x y _ [k1 H1] _ [k2 H2]. exists (Datatypes.S (k1 + k2)). intros e He. cbn [node_val].
      rewrite (Hl n x k1 H1), (Hl d y k2 H2) by lia. reflexivity.
    - intros n d x y _ [k1 H1] _ [k2 H2]. exists (Datatypes.S (k1 + k2)). intros e He. cbn [node_val].
      rewrite (Hl n x k1 H1), (Hl d y k2 H2) by lia. reflexivity.
    - intros is cols xs _ [k H]. exists k. intros d Hd. cbn [node_val].
      rewrite (cells_val_gen _ _ _ _ (H d Hd)). reflexivity.
    - intros s. exists 0. reflexivity.
    - exists 0. reflexivity.
    - intros s. exists 0. reflexivity.
    - intros i x _ [k H]. exists (Datatypes.S k). intros d Hd. cbn [field_of]. rewrite (Hl i x k H) by lia. reflexivity.
    - exists 0. constructor.
    - intros n t l x _ [k1 H1] _ [k2 H2]. exists (k1 + k2). intros d Hd. constructor; [apply H1; lia|apply H2; lia].
    - exists 0. constructor.
    - intros i x is xs _ [k1 H1] _ [k2 H2]. exists (Datatypes.S (k1 + k2)). intros d Hd.
      constructor; [apply (Hl i x k1 H1); lia|apply H2; lia].
  Qed.
End Values.

Lemma output_value {N : Num} m ts : output_is m ts ->
  exists k, forall fuel, k <= fuel -> output (N := N) fuel m = Ok (map value ts).
Proof.
  intros H. destruct (proj1 (proj2 (proj2 (reads_value (N := N) (mp_heap m)))) _ _ H) as [k Hk].
  exists (Datatypes.S k). intros [|d] Hd; [lia|]. unfold output. cbn [list_val]. apply nodes_val_all, Hk. lia.
Qed.

(** * The tokens *)
Lemma z_of_N c : Z.of_N (N_of_ascii c) = z_of c.
Proof. unfold z_of, nat_of_ascii. rewrite N_nat_Z. reflexivity. Qed.
Lemma char_of_nat c : ascii_of_nat (nat_of_ascii c) = c.
Proof. apply ascii_nat_embedding. Qed.

(** a sweep over the first half of the characters *)
Lemma low_chars (P : ascii -> bool) :
  forallb (fun n => P (ascii_of_nat n)) (seq 0 128) = true -> forall c, (z_of c < 128)%Z -> P c = true.
Proof.
  intros H c Hc. rewrite forallb_forall in H. rewrite <- (char_of_nat c). apply H. apply in_seq. unfold z_of in Hc. lia.
Qed.
Definition sym_eqb (a b : sym) : bool :=
  (Z.eqb (s_char a) (s_char b) && Z.eqb (s_class a) (s_class b) && Z.eqb (s_fam a) (s_fam b))%bool.
Lemma sym_eqb_eq a b : sym_eqb a b = true -> a = b.
Proof.
  destruct a, b. unfold sym_eqb; cbn. rewrite !andb_true_iff, !Z.eqb_eq. intros [[-> ->] ->]. reflexivity.
Qed.
Lemma char_meaning cs c s : char_means c s -> char_sym cs c = s.
Proof.
  intros H. destruct H as [c H|c H|c k f a H].
  - assert (Hz : (z_of c < 128)%Z) by lia.
    enough (E : implb ((65 <=? z_of c) && (z_of c <=? 90) || (97 <=? z_of c) && (z_of c <=? 122))%Z
                  (sym_eqb (char_sym cs c) (mkSym (z_of c) 0 1)) = true).
    { apply sym_eqb_eq. destruct (sym_eqb _ _); [reflexivity|]. exfalso.
      assert (B : ((65 <=? z_of c) && (z_of c <=? 90) || (97 <=? z_of c) && (z_of c <=? 122))%Z = true).
      { rewrite orb_true_iff, !andb_true_iff, !Z.leb_le. exact H. }
      rewrite B in E. discriminate. }
    revert c Hz H. destruct cs; intros c Hz _; revert c Hz; apply low_chars; vm_compute; reflexivity.
  - assert (Hz : (z_of c < 128)%Z) by lia.
    enough (E : implb ((48 <=? z_of c) && (z_of c <=? 57))%Z
                  (sym_eqb (char_sym cs c) (mkSym (z_of c) 0 0)) = true).
    { apply sym_eqb_eq. destruct (sym_eqb _ _); [reflexivity|]. exfalso.
      assert (B : ((48 <=? z_of c) && (z_of c <=? 57))%Z = true).
      { rewrite !andb_true_iff, !Z.leb_le. exact H. }
      rewrite B in E. discriminate. }
    revert c Hz H. destruct cs; intros c Hz _; revert c Hz; apply low_chars; vm_compute; reflexivity.
  - assert (E : forallb (fun p => sym_eqb (char_sym cs (fst p)) (mkSym (z_of (fst p)) (fst (fst (snd p))) (snd (fst (snd p)))))
                  MathSpec.plain_codes = true).
    { destruct cs; vm_compute; reflexivity. }
    rewrite forallb_forall in E. apply sym_eqb_eq. exact (E _ H).
Qed.
(** the other half *)
Lemma byte_meaning cs c : (128 <= z_of c)%Z ->
  char_sym cs c = mkSym (if cs then z_of c - 256 else z_of c)%Z 0 0.
Proof.
  intros H. unfold char_sym, char_int. rewrite z_of_N.
  assert (E : mathcode c = 0%Z).
  { unfold mathcode. destruct (Nat.ltb_spec (nat_of_ascii c) 33); [reflexivity|].
    apply nth_overflow. unfold z_of in H. change (List.length mc_33) with 95. lia. }
  rewrite E. assert (B : (128 <=? z_of c)%Z = true) by (apply Z.leb_le; exact H). rewrite B.
  destruct cs; reflexivity.
Qed.

Lemma command_meaning w c : In (w, c) commands -> cs_call (list_ascii_of_string w) = Ok c.
Proof.
  intros H. cbn in H. repeat (destruct H as [H|H]; [injection H as <- <-; reflexivity|]). destruct H.
Qed.

Lemma symbols_first : forallb (fun p => implb (negb (SymbolProofs.inS (fst p) odd_symbols || SymbolProofs.inS (fst p) missing_symbols))
   match cs_call (list_ascii_of_string (fst p)), find (fun q => String.eqb (fst q) (fst p)) SymbolSpec.unicode_symbols with
   | Ok (CSym x), Some (_, z) => sym_eqb x (mkSym z (class_of (snd p / 4096)) (snd p / 256 mod 16))
   | _, _ => false
   end) SymbolSpec.plain_codes = true.
Proof. vm_compute. reflexivity. Qed.
Lemma symbol_meaning w s : named w s -> cs_call (list_ascii_of_string w) = Ok (CSym s).
Proof.
  intros (code & Hc & Ho & Hm & E1 & E2 & E3).
  pose proof (proj1 (forallb_forall _ _) symbols_first _ Hc) as T. cbn [fst snd] in T.
  assert (B : (SymbolProofs.inS w odd_symbols || SymbolProofs.inS w missing_symbols)%bool = false).
  { destruct (SymbolProofs.inS w odd_symbols) eqn:A; [apply SymbolProofs.inS_In in A; contradiction|].
    destruct (SymbolProofs.inS w missing_symbols) eqn:A'; [apply SymbolProofs.inS_In in A'; contradiction|]. reflexivity. }
  rewrite B in T. cbn [negb implb] in T.
  rewrite E3 in T. destruct (cs_call (list_ascii_of_string w)) as [[]| | | |]; try discriminate T.
  apply sym_eqb_eq in T. subst. do 2 f_equal. destruct s. cbn in *. subst. reflexivity.
Qed.

Lemma calls_one c m : calls [c] m = do_call m c.
Proof. unfold calls. cbn [foldM]. destruct (do_call m c); reflexivity. Qed.
Lemma token_meaning cs t e m : means t e -> eq_token cs m t = calls e m.
Proof.
  intros H. destruct H; rewrite ?calls_one; try reflexivity.
  - unfold eq_token, writeChar. rewrite (char_meaning cs c s) by assumption. reflexivity.
  - unfold eq_token, writeChar. rewrite (char_meaning cs c s) by assumption. reflexivity.
  - unfold eq_token, writeControlSequence. rewrite (command_meaning _ _ H). reflexivity.
  - unfold eq_token, writeControlSequence. rewrite (symbol_meaning _ _ H). reflexivity.
Qed.
Lemma tokens_meaning cs ts es : Forall2 means ts es -> forall m, foldM (eq_token cs) ts m = calls (List.concat es) m.
Proof.
  induction 1 as [|t e ts es H _ IH]; intros m; [reflexivity|]. cbn [foldM List.concat].
  rewrite (token_meaning cs t e m H). unfold calls. rewrite foldM_app.
  destruct (foldM do_call e m); cbn [bind]; [apply IH|reflexivity..].
Qed.

Lemma values_math {N : Num} h :
  (forall n t, r_node h n t -> math_only (value (N := N) t) = true) /\
  (forall r c, r_ref h r c -> opt_bool math_field (part (N := N) c) = true) /\
  (forall l x, r_list h l x -> forallb math_only (map (value (N := N)) x) = true) /\
  (forall is xs, r_lists h is xs -> forallb (forallb math_only) (map (map (value (N := N))) xs) = true).
Proof.
  apply r_ind.
  - intros ty a b c x y z _ H1 _ H2 _ H3.
    change (opt_bool math_field (part (N := N) x) && opt_bool math_field (part (N := N) z) && opt_bool math_field (part (N := N) y) = true)%bool.
    rewrite H1, H2, H3. reflexivity.
  - reflexivity.
  - intros n d x y _ H1 _ H2.
    change (forallb math_only (map (value (N := N)) x) && forallb math_only (map (value (N := N)) y) = true)%bool.
    rewrite H1, H2. reflexivity.
  - intros n d x y _ H1 _ H2.
    change (forallb math_only (map (value (N := N)) x) && forallb math_only (map (value (N := N)) y) = true)%bool.
    rewrite H1, H2. reflexivity.
  - intros is cols xs _ H. exact H.
  - reflexivity.
  - reflexivity.
  - reflexivity.
  - intros i x _ H. exact H.
  - reflexivity.
  - intros n t l x _ H1 _ H2. cbn [map forallb]. rewrite H1, H2. reflexivity.
  - reflexivity.
  - intros i x is xs _ H1 _ H2. cbn [map forallb]. rewrite H1, H2. reflexivity.
Qed.

(** * The text *)
Lemma feed_text text toks fin : lexes DefaultCatCodes true NewLine text toks fin ->
  exists l e, feed DefaultCatCodes lexer_init text = (l, e) /\ l_out l = toks /\ lexer_ending l e = fin.
Proof.
  intros H. destruct (feed DefaultCatCodes lexer_init text) as [l e] eqn:E. exists l, e. split; [reflexivity|].
  destruct (lexer_tokenizes_lemma DefaultCatCodes NewLine text lexer_init l e eq_refl E) as (ts & Ho & Hr).
  destruct (proj1 (Hr _ _) H) as [E1 E2]. rewrite E1, E2. split; [exact Ho|reflexivity].
Qed.

Lemma equation_shown {N : Num} cs (E : engine N) text toks fin es ts :
  lexes DefaultCatCodes true NewLine text toks fin -> fin <> BadCharacter -> fin <> BadParam ->
  Forall2 means toks es -> group (List.concat es) ts ->
  exists k, forall fuel, k <= fuel ->
    equation cs E fuel text = rmap (fun r => hbox (fst r)) (mlist2hlist E fuel default_penalties D (map value ts)) /\
    equation cs E fuel text <> Fuel.
Proof.
  intros Hl Hb Hp Hm Hg. destruct (feed_text _ _ _ Hl) as (l & e & Ef & Eo & Ee).
  assert (e = None) as -> by (destruct e as [[]|]; cbn in Ee; congruence).
  destruct (formula_parsed _ _ Hg) as (m & Em & Hout).
  destruct (output_value (N := N) m ts Hout) as [k Hk].
  exists (k + Datatypes.S (list_size (map (value (N := N)) ts))). intros fuel Hf.
  assert (X : equation cs E fuel text =
     rmap (fun r => hbox (fst r)) (mlist2hlist E fuel default_penalties D (map value ts))).
  { unfold equation. rewrite Ef, Eo, (tokens_meaning cs toks es Hm).
    unfold calls in Em |- *. rewrite foldM_app in Em.
    destruct (foldM do_call (List.concat es) mp_init) as [m0| | | |] eqn:E0; cbn [bind] in Em |- *; try discriminate Em.
    cbn [foldM] in Em. destruct (do_call m0 CFinish) as [m1| | | |]; cbn [bind] in Em |- *; try discriminate Em.
    injection Em as ->. rewrite Hk by lia. cbn [bind].
    destruct (mlist2hlist E fuel default_penalties D (map value ts)); reflexivity. }
  split; [exact X|]. rewrite X.
  pose proof (typeset_terminates E fuel default_penalties D (map value ts)) as T.
  destruct (mlist2hlist E fuel default_penalties D (map value ts)); try discriminate.
  exfalso. apply T; [lia| |reflexivity].
  exact (proj1 (proj2 (proj2 (values_math (N := N) (mp_heap m)))) _ _ Hout).
Qed.

Lemma equation_rejected {N : Num} cs (E : engine N) text toks fin fuel :
  lexes DefaultCatCodes true NewLine text toks fin -> fin = BadCharacter \/ fin = BadParam ->
  equation cs E fuel text = Throw.
Proof.
  intros Hl Hb. destruct (feed_text _ _ _ Hl) as (l & e & Ef & Eo & Ee). unfold equation. rewrite Ef.
  destruct e; [reflexivity|]. exfalso. cbn in Ee. destruct (l_state l); destruct Hb; congruence.
Qed.

Lemma unknown_word n : unknown n -> cs_call n = Throw.
Proof.
  intros [H1 H2]. apply SymbolProofs.unknown_throws. intros k Hk ->. apply in_app_or in Hk as [Hk|Hk].
  - apply H2. revert Hk.
    assert (T : forallb (fun k => existsb (String.eqb k) (map fst SymbolSpec.plain_codes)) (map fst symbolsmap) = true)
      by (vm_compute; reflexivity).
    intros Hk. pose proof (proj1 (forallb_forall _ _) T _ Hk) as B. apply existsb_exists in B as (x & Hx & B).
    apply String.eqb_eq in B. subst x. apply in_map_iff in Hx as (q & <- & Hq). apply in_map_iff. exists q. auto.
  - apply H1. cbn in Hk |- *. intuition (subst; auto 20).
Qed.
Lemma foldM_stuck {A B} (f : B -> A -> result B) l x : In x l -> (forall b b', f b x <> Ok b') ->
  forall b b', foldM f l b <> Ok b'.
Proof.
  intros Hx Hn. induction l as [|a l IH]; [destruct Hx|]. intros b b'. cbn [foldM]. destruct Hx as [->|Hx].
  - destruct (f b x) eqn:Ex; cbn [bind]; try discriminate. exfalso. exact (Hn _ _ Ex).
  - destruct (f b a); cbn [bind]; try discriminate. apply IH, Hx.
Qed.
Lemma equation_unknown {N : Num} cs (E : engine N) text toks fin fuel n :
  lexes DefaultCatCodes true NewLine text toks fin -> In (TCs n) toks -> cs_call n = Throw ->
  forall b, equation cs E fuel text <> Ok b.
Proof.
  intros Hl Hin Hn b. destruct (feed_text _ _ _ Hl) as (l & e & Ef & Eo & Ee). unfold equation. rewrite Ef.
  destruct e; [discriminate|]. rewrite Eo.
  assert (X : forall m m', foldM (eq_token cs) toks m <> Ok m').
  { apply (foldM_stuck _ _ (TCs n) Hin). intros m m'. cbn. unfold writeControlSequence. rewrite Hn. discriminate. }
  destruct (foldM (eq_token cs) toks mp_init) as [m| | | |] eqn:F; try discriminate. exfalso. exact (X _ _ F).
Qed.
Lemma missing_word w : In w missing_symbols -> cs_call (list_ascii_of_string w) = Throw.
Proof.
  intros H. cbn in H. repeat (destruct H as [<-|H]; [reflexivity|]). destruct H.
Qed.
Lemma writeSymbol_low cs c m : (z_of c < 128)%Z -> MathFrontend.writeSymbol cs (z_of c) m = writeChar cs c m.
Proof.
  intros H. unfold MathFrontend.writeSymbol. replace (z_of c <? 128)%Z with true by (symmetry; apply Z.ltb_lt; exact H).
  f_equal. rewrite <- z_of_N, N2Z.id. apply ascii_N_embedding.
Qed.
Lemma writeSymbol_high cs z m : (128 <= z)%Z -> MathFrontend.writeSymbol cs z m = Throw.
Proof.
  intros H. unfold MathFrontend.writeSymbol. replace (z <? 128)%Z with false by (symmetry; apply Z.ltb_ge; exact H). reflexivity.
Qed.
Lemma equation_last {N : Num} cs (E : engine N) text toks st fuel w :
  lexes DefaultCatCodes true NewLine text toks (EndText st) -> Forall (fun a => DefaultCatCodes a = Letter) w ->
  equation cs E fuel (text ++ "\"%char :: w) = equation cs E fuel text.
Proof.
  intros Hl Hw. destruct (feed_text _ _ _ Hl) as (l & e & Ef & Eo & Ee). unfold equation.
  rewrite feed_app, Ef.
  destruct e as [[]|]; [discriminate Ee..|].
  rewrite (word_pending_lemma DefaultCatCodes st l "\"%char w); [reflexivity| |reflexivity|exact Hw].
  cbn in Ee. destruct (l_state l) eqn:Es; try discriminate Ee; injection Ee as <-; exact Es.
Qed.
Lemma byte_token cs c m : (128 <= z_of c)%Z ->
  eq_token cs m (TChar c (DefaultCatCodes c)) = calls [CSym (mkSym (if cs then z_of c - 256 else z_of c)%Z 0 0)] m.
Proof.
  intros H. assert (E : DefaultCatCodes c = Other).
  { unfold DefaultCatCodes, DefaultCatCodes_list. rewrite app_nth2; [|cbn; unfold z_of in H; lia].
    apply (repeat_spec 128 Other).
    destruct (nth_in_or_default (nat_of_ascii c - 128) (repeat Other 128) Other) as [I|I]; [exact I|].
    cbn [List.length]. rewrite I. left. reflexivity. }
  rewrite E, calls_one. cbn [eq_token]. unfold writeChar. rewrite (byte_meaning cs c H). reflexivity.
Qed.
Lemma front_symbol cs m :
  (forall c, (z_of c < 128)%Z -> MathFrontend.writeSymbol cs (z_of c) m = writeChar cs c m) /\
  (forall z, (128 <= z)%Z -> MathFrontend.writeSymbol cs z m = Throw) /\
  (forall c s, char_means c s -> writeChar cs c m = calls [CSym s] m).
Proof.
  split; [intros; apply writeSymbol_low; assumption|]. split; [intros; apply writeSymbol_high; assumption|].
  intros c s H. rewrite calls_one. unfold writeChar. rewrite (char_meaning cs c s H). reflexivity.
Qed.
Lemma in_dec_true {A} (D : forall a b : A, {a = b} + {a <> b}) x l : In x l -> (if in_dec D x l then true else false) = true.
Proof. intros H. destruct (in_dec D x l); [reflexivity|contradiction]. Qed.
