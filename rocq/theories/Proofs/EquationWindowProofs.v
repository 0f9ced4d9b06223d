(** The main window of the equation editor. *)
From Coq Require Import List Ascii String ZArith Bool Arith Lia.
From Verif.Base Require Import Result Num.
From Verif.Model Require Import Token Lexer Box MathList MathParser MathTypeset MathFrontend EquationWindow.
From Verif.Spec Require Import TypesetOkSpec EquationOkSpec EquationWindowSpec.
From Verif.Proofs Require Import EquationOk EquationJudge.
Import ListNotations.
Local Open Scope nat_scope.

Definition alive (l : list button) : list (list ascii) := map b_content (filter (fun b => negb (b_dying b)) l).
Lemma alive_app a b : alive (a ++ b) = alive a ++ alive b.
Proof. unfold alive. rewrite filter_app, map_app. reflexivity. Qed.
Lemma alive_clear l : alive (clear_bar l) = [].
Proof. induction l as [|b l IH]; [reflexivity|exact IH]. Qed.
Lemma alive_settle l : map b_content (settle l) = alive l.
Proof. reflexivity. Qed.
Lemma settle_settled l : forallb (fun b => negb (b_dying b)) (settle l) = true.
Proof. apply forallb_forall. intros x Hx. apply filter_In in Hx. apply Hx. Qed.
Lemma settled_alive l : forallb (fun b => negb (b_dying b)) l = true -> map b_content l = alive l.
Proof.
  unfold alive. induction l as [|b l IH]; intros H; [reflexivity|]. cbn [forallb] in H. apply andb_true_iff in H.
  destruct H as [A B]. cbn [filter map]. rewrite A. cbn [map]. rewrite <- (IH B). reflexivity.
Qed.

Section Windows.
  Context {N : Num}.
  Variables (cs : bool) (E : engine N) (fuel : nat).
  Notation eq := (equation cs E fuel).

  (** the property and the buttons that stay agree with the text *)
  Definition agrees (w : window N) : Prop :=
    w_empty w = is_nil (w_text w) /\ alive (w_bar w) = offers (w_text w).
  Lemma filled w : (w_empty w = false -> w_empty w = is_nil (w_text w) -> alive (w_bar w) = offers (w_text w)) ->
    (w_empty w = true -> w_empty w = is_nil (w_text w) -> alive (w_bar w) = offers (w_text w)) ->
    agrees (fillSuggestionBar w) /\ w_text (fillSuggestionBar w) = w_text w /\ w_shown (fillSuggestionBar w) = w_shown w.
  Proof.
    intros A B. unfold fillSuggestionBar. destruct (Bool.eqb (is_nil (w_text w)) (w_empty w)) eqn:Q.
    - apply eqb_prop in Q. split; [|split; reflexivity]. split; [congruence|]. destruct (w_empty w); auto.
    - split; [|split; reflexivity]. split; [reflexivity|]. cbn [w_bar w_text].
      destruct (w_text w) as [|c t]; cbn [is_nil]; unfold addSuggestion; rewrite !alive_app, alive_clear; reflexivity.
  Qed.
  Lemma changed w text : agrees w ->
    let w' := fillSuggestionBar (mkWindow text (w_bar w) (w_empty w) (w_shown w)) in
    agrees w' /\ w_text w' = text /\ w_shown w' = w_shown w.
  Proof.
    intros [A B]. cbn zeta.
    assert (Q : w_empty w = is_nil text -> alive (w_bar w) = offers text).
    { intros H. rewrite B. rewrite A in H. unfold offers. destruct (w_text w), text; try discriminate H; reflexivity. }
    destruct (filled (mkWindow text (w_bar w) (w_empty w) (w_shown w))) as (F & G & H); cbn [w_bar w_text w_empty w_shown]; auto.
  Qed.
  Lemma on_text w text : agrees w ->
    match onTextChanged cs E fuel w text with
    | Ok w' => agrees w' /\ w_text w' = text /\ handled eq [text] /\ w_shown w' = latest eq [text] (w_shown w)
    | _ => ~ handled eq [text]
    end.
  Proof.
    intros A. destruct (changed w text A) as ([A1 A2] & B & C). unfold onTextChanged. unfold handled, latest.
    destruct (eq text) as [b| | | |] eqn:Eq.
    - split; [split; assumption|]. split; [exact B|]. split; [constructor; [rewrite Eq; exact Logic.I|constructor]|reflexivity].
    - split; [split; assumption|]. split; [exact B|]. split; [constructor; [rewrite Eq; exact Logic.I|constructor]|exact C].
    - intros H. inversion H as [|? ? H1]; subst. rewrite Eq in H1. exact H1.
    - intros H. inversion H as [|? ? H1]; subst. rewrite Eq in H1. exact H1.
    - intros H. inversion H as [|? ? H1]; subst. rewrite Eq in H1. exact H1.
  Qed.
  Lemma on_texts texts : forall w, agrees w ->
    match foldM (onTextChanged cs E fuel) texts w with
    | Ok w' => agrees w' /\ w_text w' = last texts (w_text w) /\ handled eq texts /\ w_shown w' = latest eq texts (w_shown w)
    | _ => ~ handled eq texts
    end.
  Proof.
    induction texts as [|t texts IH]; intros w A; [split; [exact A|split; [reflexivity|split; [constructor|reflexivity]]]|].
    cbn [foldM]. assert (O := on_text w t A). destruct (onTextChanged cs E fuel w t) as [w1| | | |]; cbn [bind];
      try (intros H; apply O; inversion H; subst; constructor; [assumption|constructor]).
    destruct O as (A1 & T1 & H1 & S1). specialize (IH w1 A1).
    destruct (foldM (onTextChanged cs E fuel) texts w1) as [w2| | | |];
      try (intros H; apply IH; inversion H; subst; assumption).
    destruct IH as (A2 & T2 & H2 & S2). split; [exact A2|]. split; [|split].
    - rewrite T2, T1. destruct texts as [|u texts]; [reflexivity|].
      change (last (u :: texts) t = last (u :: texts) (w_text w)). apply last_default.
    - inversion H1; subst. constructor; assumption.
    - rewrite S2, S1. reflexivity.
  Qed.
  (** * Sessions *)
  Definition texts_of (w : window N) (e : event) : list (list ascii) :=
    match e with
    | Edit texts => texts
    | Click i a b =>
        match nth_error (offers (w_text w)) i with
        | None => []
        | Some s => [firstn a (w_text w) ++ s ++ skipn b (w_text w)]
        end
    end.
  Definition ready (w : window N) : Prop :=
    agrees w /\ forallb (fun b => negb (b_dying b)) (w_bar w) = true.
  Lemma ready_offers w : ready w -> map b_content (w_bar w) = offers (w_text w).
  Proof. intros [[_ A] B]. rewrite (settled_alive _ B). exact A. Qed.
  Lemma ready_init : ready window_init /\ w_text (N := N) window_init = [] /\ w_shown (N := N) window_init = None.
  Proof. repeat split. Qed.
  Lemma settled w : agrees w -> ready (mkWindow (w_text w) (settle (w_bar w)) (w_empty w) (w_shown w)).
  Proof.
    intros [A B]. split; [split; [exact A|]|apply settle_settled]. cbn [w_bar w_text].
    rewrite <- settled_alive by apply settle_settled. rewrite alive_settle. exact B.
  Qed.
  Lemma handled_event w e : ready w ->
    match handle cs E fuel w e with
    | Ok w' => ready w' /\ w_text w' = last (texts_of w e) (w_text w) /\ handled eq (texts_of w e) /\
               w_shown w' = latest eq (texts_of w e) (w_shown w)
    | _ => ~ handled eq (texts_of w e)
    end.
  Proof.
    intros R. assert (O := on_texts (texts_of w e) w (proj1 R)).
    assert (H : handle cs E fuel w e = after (foldM (onTextChanged cs E fuel) (texts_of w e) w) \/
                (handle cs E fuel w e = Ok w /\ texts_of w e = [])).
    { destruct e as [texts|i a b]; [left; reflexivity|]. cbn [handle texts_of]. rewrite <- (ready_offers w R).
      rewrite nth_error_map. destruct (nth_error (w_bar w) i) as [s|]; [left|right; split; reflexivity].
      cbn [option_map foldM]. destruct (onTextChanged cs E fuel w _); reflexivity. }
    destruct H as [H|[H Hn]].
    - rewrite H. destruct (foldM _ _ w) as [w'| | | |]; cbn [after bind]; try exact O.
      destruct O as (A & B & C & Dd). split; [apply settled; exact A|]. cbn [w_text w_shown]. auto.
    - rewrite H, Hn. split; [exact R|]. split; [reflexivity|split; [constructor|reflexivity]].
  Qed.
  Lemma latest_app a : forall b d, latest eq (a ++ b) d = latest eq b (latest eq a d).
  Proof. induction a as [|t a IH]; intros b d; [reflexivity|apply IH]. Qed.
  Lemma last_app (a b : list (list ascii)) d : last (a ++ b) d = last b (last a d).
  Proof.
    revert d. induction a as [|t a IH]; intros d; [reflexivity|].
    destruct a as [|u a].
    - destruct b as [|v b]; [reflexivity|]. change (last (v :: b) d = last (v :: b) t). apply last_default.
    - change (last ((u :: a) ++ b) d = last b (last (u :: a) d)). apply IH.
  Qed.
  Theorem session_shows es : forall w, ready w ->
    match foldM (handle cs E fuel) es w with
    | Ok w' => let ts := session (w_text w) es in
        ready w' /\ w_text w' = last ts (w_text w) /\ handled eq ts /\ w_shown w' = latest eq ts (w_shown w)
    | _ => ~ handled eq (session (w_text w) es)
    end.
  Proof.
    induction es as [|e es IH]; intros w R; [split; [exact R|split; [reflexivity|split; [constructor|reflexivity]]]|].
    assert (O := handled_event w e R). cbn [foldM session].
    match goal with |- context [last ?t (w_text w)] => change t with (texts_of w e) end.
    destruct (handle cs E fuel w e) as [w1| | | |]; cbn [bind];
      try (intros H; apply O; apply Forall_app in H; apply H).
    destruct O as (R1 & T1 & H1 & S1). specialize (IH w1 R1). rewrite T1 in IH.
    destruct (foldM (handle cs E fuel) es w1) as [w2| | | |];
      try (intros H; apply IH; apply Forall_app in H; apply H).
    cbn zeta in IH |- *. destruct IH as (R2 & T2 & H2 & S2). split; [exact R2|]. split; [|split].
    - rewrite T2, last_app. reflexivity.
    - apply Forall_app. split; assumption.
    - rewrite S2, S1, latest_app. reflexivity.
  Qed.
  (** how it ends *)
  Lemma dies_in {A B} (r : result A) (r' : result B) l a b :
    match r with Ok _ => True | Throw => False | UB => r' = UB | Abort => r' = Abort | Fuel => r' = Fuel end ->
    handled eq l -> dies eq r a -> dies eq r' (l ++ a ++ b).
  Proof.
    intros H Hl (x & t & y & -> & Hx & Hd). exists (l ++ x), t, (y ++ b). rewrite <- !app_assoc. split; [reflexivity|].
    split; [apply Forall_app; split; assumption|]. destruct r; try destruct Hd; rewrite H; first [exact Hd|reflexivity].
  Qed.
  Lemma texts_die texts : forall w,
    match foldM (onTextChanged cs E fuel) texts w with Ok _ => True | r => dies eq r texts end.
  Proof.
    induction texts as [|t texts IH]; intros w; [exact Logic.I|]. cbn [foldM]. unfold onTextChanged at 1.
    destruct (eq t) as [b| | | |] eqn:Q; cbn [bind];
      try (exists [], t, texts; split; [reflexivity|split; [constructor|exact Q]]).
    - match goal with |- match foldM _ _ ?v with _ => _ end => specialize (IH v); destruct (foldM _ _ v) as [w2| | | |]; [exact Logic.I| | | |] end;
        (rewrite <- (app_nil_r texts); change (t :: texts ++ []) with ([t] ++ texts ++ []);
         eapply dies_in; [|constructor; [rewrite Q; exact Logic.I|constructor]|exact IH]; try reflexivity).
      destruct IH as (? & ? & ? & _ & _ & []).
    - match goal with |- match foldM _ _ ?v with _ => _ end => specialize (IH v); destruct (foldM _ _ v) as [w2| | | |]; [exact Logic.I| | | |] end;
        (rewrite <- (app_nil_r texts); change (t :: texts ++ []) with ([t] ++ texts ++ []);
         eapply dies_in; [|constructor; [rewrite Q; exact Logic.I|constructor]|exact IH]; try reflexivity).
      destruct IH as (? & ? & ? & _ & _ & []).
  Qed.
  Lemma event_dies w e : ready w ->
    match handle cs E fuel w e with Ok _ => True | r => dies eq r (texts_of w e) end.
  Proof.
    intros R. assert (O := texts_die (texts_of w e) w).
    assert (H : handle cs E fuel w e = after (foldM (onTextChanged cs E fuel) (texts_of w e) w) \/ handle cs E fuel w e = Ok w).
    { destruct e as [texts|i a b]; [left; reflexivity|]. cbn [handle texts_of]. rewrite <- (ready_offers w R).
      rewrite nth_error_map. destruct (nth_error (w_bar w) i) as [s|]; [left|right; reflexivity].
      cbn [option_map foldM]. destruct (onTextChanged cs E fuel w _); reflexivity. }
    destruct H as [H|H]; rewrite H; [|exact Logic.I].
    destruct (foldM _ _ w) as [w'| | | |]; cbn [after bind]; exact O.
  Qed.
  Theorem session_dies es : forall w, ready w ->
    match foldM (handle cs E fuel) es w with Ok _ => True | r => dies eq r (session (w_text w) es) end.
  Proof.
    induction es as [|e es IH]; intros w R; [exact Logic.I|].
    assert (O := handled_event w e R). assert (P := event_dies w e R). cbn [foldM session].
    match goal with |- context [last ?t (w_text w)] => change t with (texts_of w e) end.
    destruct (handle cs E fuel w e) as [w1| | | |]; cbn [bind];
      try (change (texts_of w e) with ([] ++ texts_of w e) at 1; rewrite <- app_assoc; eapply dies_in; [|constructor|exact P]; reflexivity).
    - destruct O as (R1 & T1 & H1 & S1). specialize (IH w1 R1). rewrite T1 in IH.
      destruct (foldM (handle cs E fuel) es w1) as [w2| | | |]; [exact Logic.I| | | |];
        (rewrite <- (app_nil_r (session _ es)); eapply dies_in; [|exact H1|exact IH]; try reflexivity).
      destruct IH as (? & ? & ? & _ & _ & []).
    - destruct P as (? & ? & ? & _ & _ & []).
  Qed.
End Windows.
