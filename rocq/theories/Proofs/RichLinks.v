(** The dimensions and shapes of a text, in exact arithmetic. *)
From Coq Require Import List Ascii String QArith Qcanon ZArith Bool Arith Lia.
From Verif.Base Require Import Result Num.
From Verif.Model Require Import Token Glue Dimen DimenParser PageEditor.
From Verif.Spec Require Import DimenSpec RichTextSpec.
From Verif.Proofs Require Import DimenProofs ParserProofs ShapeProofs GlueOnly ShapeOnly.
Import ListNotations.
Local Open Scope nat_scope.

Lemma measures_iff (K : host QcNum) e d x : measures K e d x <-> length_text (k_range K) (units K e) d x.
Proof.
  split.
  - intros (p & q & W & HR & NF & FI & FN & EV).
    destruct (dim_sound (k_range K) d p W HR) as (d' & w & q0 & u & v & -> & DT & EN & FW & EF).
    rewrite NF in FW. destruct w; [|discriminate]. rewrite app_nil_r in *. rewrite FI in EF. unfold read_as in EF.
    destruct (k_range K (Qred v)) eqn:R; [|discriminate]. injection EF as ->.
    unfold d_isFinite in FN. unfold d_eval in EV. cbn [d_unit d_value] in FN, EV.
    assert (F : finite u) by (unfold finite; destruct u; try discriminate; tauto).
    assert (E : x = length_in (units K e) u q0) by (destruct u; try discriminate; injection EV as <-; reflexivity).
    rewrite E. econstructor; eauto.
  - intros [d' q u v DT F R]. destruct (dim_complete (k_range K) d' [] q u v DT Logic.I) as (p & W & HR & NF & FI).
    rewrite app_nil_r in W. unfold read_as in FI. rewrite R in FI. exists p, (mkDimen (N := QcNum) (Q2Qc q) u).
    split; [exact W|]. split; [exact HR|]. split; [exact NF|]. split; [exact FI|].
    split; [destruct F as [->|[->| ->]]; reflexivity|now apply eval_finite].
Qed.

Lemma keyword_last kw u k : keyword kw u k -> exists a c, kw = a ++ [c] /\ lower c.
Proof.
  intros H.
  assert (X : exists a c, kw = a ++ [c] /\ is_lowercase_letter c = true).
  { destruct H;
    match goal with |- exists a c, ?k = _ /\ _ => exists (removelast k), (last k "a"%char) end; split; reflexivity. }
  destruct X as (a & c & E & L). exists a, c. split; [exact E|]. now apply is_lower_iff.
Qed.
Lemma dim_last d q u v : dim_text d q u v -> exists a c, d = a ++ [c] /\ lower c.
Proof.
  intros [s f kw u0 k _ _ KW]. destruct (keyword_last _ _ _ KW) as (a & c & -> & L).
  exists (s ++ factor_text f ++ a), c. split; [now rewrite <- !app_assoc|exact L].
Qed.
Lemma shape_last rg us ps t : shape_text rg us ps t -> ps <> [] -> exists a y x, t = (a ++ [y]) ++ [x] /\ lower y.
Proof.
  induction 1 as [|i q u v c l q2 u2 v2 x ps t Hi Hu Hr Hc Hl Hu2 Hr2 Hx Hs IH]; [congruence|]. intros _.
  destruct ps as [|y ps].
  - inversion Hs; subst. destruct (dim_last _ _ _ _ Hl) as (a & y & -> & L).
    exists ((i ++ [c]) ++ a), y, x. split; [rewrite app_nil_r, <- !app_assoc; reflexivity|exact L].
  - destruct IH as (a & z & x' & -> & L); [discriminate|].
    exists ((i ++ [c]) ++ (l ++ [x]) ++ a), z, x'. split; [now rewrite <- !app_assoc|exact L].
Qed.
Section Shapes.
  Context (rg : Q -> bool) (us : unitsystem QcNum).
  Notation pw := (pp_writes (N := QcNum) rg us).
  Lemma lower_open t y p p' : pw pp_init t = Ok p -> pp_write rg us p y = Ok p' -> lower y -> pp_st p' <> PFinished.
  Proof.
    intros W S L F. pose proof (pinv_all rg us t p W) as I. unfold pinv in I.
    assert (SP : ceq y " "%char = false).
    { destruct (ceq y " "%char) eqn:E; [|reflexivity]. apply ceq_iff in E. subst. unfold lower, code in L. cbn in L. lia. }
    unfold pp_write in S. rewrite SP in S. destruct (pp_st p).
    - destruct (ceq y "="%char); [injection S as <-; discriminate|]. destruct (is_digit y); [injection S as <-; discriminate|discriminate].
    - destruct (is_digit y); [|discriminate]. destruct (INT_MAX <? _)%Z; [discriminate|]. injection S as <-. discriminate.
    - apply bind_Ok in S as (d & D & S). destruct (dp_isFinished d).
      + apply bind_Ok in S as (dim & _ & S). apply bind_Ok in S as (v & _ & S). injection S as <-. discriminate.
      + injection S as <-. discriminate.
    - apply bind_Ok in S as (d & D & S). destruct (dp_isFinished d) eqn:FD; [|injection S as <-; discriminate].
      destruct I as (h & t' & i & c & s & e & _ & _ & _ & _ & _ & _ & O & _).
      destruct (open_close rg e _ _ _ O D FD) as (q & u & v & _ & NL & _). contradiction.
    - discriminate.
  Qed.
  Lemma no_space t : ~ In " "%char t -> forall p p', pp_st p = PAssign \/ pp_st p = PNum -> pw p t = Ok p' -> pp_st p' <> PFinished.
  Proof.
    unfold pp_writes. induction t as [|c t IH]; intros NI p p' ST W; cbn [foldM] in W.
    - injection W as <-. destruct ST as [->| ->]; discriminate.
    - apply bind_Ok in W as (p1 & S & W). apply (IH (fun H => NI (or_intror H)) p1 p'); [|exact W].
      assert (SP : ceq c " "%char = false).
      { destruct (ceq c " "%char) eqn:E; [|reflexivity]. apply ceq_iff in E. subst. exfalso. apply NI. now left. }
      unfold pp_write in S. rewrite SP in S. right. destruct ST as [E|E]; rewrite E in S.
      + destruct (ceq c "="%char); [now injection S as <-|]. destruct (is_digit c); [now injection S as <-|discriminate].
      + destruct (is_digit c); [|discriminate]. destruct (INT_MAX <? _)%Z; [discriminate|]. now injection S as <-.
  Qed.
End Shapes.
Lemma shapes_text (K : host QcNum) e (eq : bool) ds ps t :
  Forall digit ds -> ds <> [] -> (whole (digits_in ds) <= 2147483647)%Z ->
  whole (digits_in ds) = Z.of_nat (List.length ps) -> shape_text (k_range K) (units K e) ps t ->
  shapes K e (((if eq then ["="%char] else []) ++ ds ++ [" "%char]) ++ t) ps.
Proof.
  intros H1 H2 H3 H4 H5.
  destruct (parshape_complete (k_range K) (units K e) eq ds ps t [] H1 H2 H3 H4 H5) as (p & W & F & E); [constructor|].
  rewrite app_nil_r in W. unfold pp_finish in E. rewrite F in E. injection E as E.
  assert (X : forall d' c, ((if eq then ["="%char] else []) ++ ds ++ [" "%char]) ++ t = d' ++ [c] ->
    (forall q, pp_writes (k_range K) (units K e) pp_init d' = Ok q -> pp_st q <> PFinished) ->
    shapes K e (((if eq then ["="%char] else []) ++ ds ++ [" "%char]) ++ t) ps).
  { intros d' c Ed NF. rewrite Ed in W |- *. unfold pp_writes in W. rewrite foldM_app in W. apply bind_Ok in W as (q & W1 & W2).
    cbn [foldM] in W2. apply bind_Ok in W2 as (q' & W2 & W3). injection W3 as ->.
    exists d', c, q, p. split; [reflexivity|]. split; [exact W1|]. split; [now apply NF|]. split; [exact W2|]. split; [exact F|exact E]. }
  destruct ps as [|y ps].
  - inversion H5; subst. apply (X ((if eq then ["="%char] else []) ++ ds) " "%char); [now rewrite app_nil_r, <- app_assoc|].
    intros q Wq. apply (no_space (k_range K) (units K e) _) with (3 := Wq); [|now left].
    intros I. apply in_app_iff in I as [I|I]; [destruct eq; [destruct I as [I|[]]; discriminate|destruct I]|].
    rewrite Forall_forall in H1. specialize (H1 _ I). unfold digit, code in H1. cbn in H1. lia.
  - destruct (shape_last _ _ _ _ H5) as (a & z & x & -> & L); [discriminate|].
    apply (X (((if eq then ["="%char] else []) ++ ds ++ [" "%char]) ++ a ++ [z]) x); [now rewrite <- !app_assoc|].
    intros q Wq. rewrite app_assoc in Wq. unfold pp_writes in Wq. rewrite foldM_app in Wq. apply bind_Ok in Wq as (q0 & W0 & Wq).
    cbn [foldM] in Wq. apply bind_Ok in Wq as (q1 & W1 & Wq). injection Wq as <-.
    exact (lower_open _ _ _ _ _ _ W0 W1 L).
Qed.
