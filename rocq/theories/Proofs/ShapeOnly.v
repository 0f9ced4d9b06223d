(** Which texts are parshape specifications. *)
From Coq Require Import List Ascii String QArith Qcanon ZArith Bool Arith Lia Lqa.
From Verif.Base Require Import Result Num.
From Verif.Model Require Import Token Glue Dimen DimenParser.
From Verif.Spec Require Import DimenSpec.
From Verif.Proofs Require Import DimenProofs ParserProofs ShapeProofs GlueOnly.
Import ListNotations.
Local Open Scope char_scope.

Section P.
  Context (in_range : Q -> bool) (us : unitsystem QcNum).
  Notation pw := (pp_writes (N := QcNum) in_range us).
  Notation len := (length_text in_range us).
  Notation shape := (shape_text in_range us).

  Lemma shape_snoc ps t i c s l x z : shape ps t -> len i s -> ~ lower c -> len l z -> ~ lower x ->
    shape (ps ++ [(s, z)]) (t ++ (i ++ [c]) ++ (l ++ [x])).
  Proof.
    intros H Hi Hc Hl Hx. induction H as [|i' q u v c' l' q2 u2 v2 x' ps t Hi' Hu Hr Hc' Hl' Hu2 Hr2 Hx' Hs IH].
    - inversion Hi; subst. inversion Hl; subst. cbn [app].
      replace ((i ++ [c]) ++ l ++ [x]) with ((i ++ [c]) ++ (l ++ [x]) ++ []) by (rewrite app_nil_r; reflexivity).
      econstructor; eauto. constructor.
    - cbn [app]. rewrite <- !(app_assoc (i' ++ [c'])), <- (app_assoc (l' ++ [x'])). econstructor; eauto.
  Qed.

  Definition pinv (t : name) (p : pparser QcNum) : Prop :=
    match pp_st p with
    | PAssign => t = [] /\ p = pp_init
    | PNum => count_text t (pp_num p) /\ (0 <= pp_num p <= INT_MAX)%Z /\
        pp_specs p = [] /\ pp_pending p = None /\ pp_dimen p = dp_init
    | PIndent => exists h t' e, t = h ++ [" "] ++ t' ++ e /\ count_text h (pp_num p) /\ (0 <= pp_num p <= INT_MAX)%Z /\
        shape (pp_specs p) t' /\ open_dim e (pp_dimen p) /\ pp_pending p = None /\
        pp_num p <> Z.of_nat (List.length (pp_specs p))
    | PLength => exists h t' i c s e, t = h ++ [" "] ++ t' ++ (i ++ [c]) ++ e /\ count_text h (pp_num p) /\ (0 <= pp_num p <= INT_MAX)%Z /\
        shape (pp_specs p) t' /\ len i s /\ ~ lower c /\ open_dim e (pp_dimen p) /\ pp_pending p = Some s /\
        pp_num p <> Z.of_nat (List.length (pp_specs p))
    | PFinished => exists h t' b, t = h ++ [" "] ++ t' ++ b /\ count_text h (pp_num p) /\ (0 <= pp_num p <= INT_MAX)%Z /\
        shape (pp_specs p) t' /\ blanks b /\ pp_num p = Z.of_nat (List.length (pp_specs p))
    end.

  Lemma whole_snoc l d : whole (l ++ [d]) = (whole l * 10 + d)%Z.
  Proof.
    induction l as [|x l IH]; [cbn; lia|]. cbn [app whole]. rewrite IH, app_length. cbn [List.length].
    rewrite Nat2Z.inj_add. change (Z.of_nat 1) with 1%Z. rewrite Z.pow_add_r by lia. lia.
  Qed.
  Lemma digits_in_app a b : digits_in (a ++ b) = digits_in a ++ digits_in b.
  Proof. induction a as [|c a IH]; [reflexivity|]. cbn [app digits_in]. rewrite IH. destruct (_ && _); reflexivity. Qed.
  Lemma digits_in_one c : digit c -> digits_in [c] = [digit_of c].
  Proof. intros H. apply is_digit_iff in H. unfold is_digit in H. fold (code c) in H. cbn [digits_in]. rewrite H. reflexivity. Qed.
  Lemma digit_range c : digit c -> (0 <= digit_of c <= 9)%Z.
  Proof. unfold digit, digit_of, code. lia. Qed.

  Lemma count_snoc t n c : count_text t n -> digit c -> count_text (t ++ [c]) (n * 10 + digit_of c).
  Proof.
    intros (eq & ds & -> & D & N & <-) Hc. exists eq, (ds ++ [c]). rewrite <- app_assoc. split; [reflexivity|].
    split; [apply Forall_app; auto|]. split; [left; destruct ds; discriminate|].
    rewrite digits_in_app, digits_in_one, whole_snoc by exact Hc. reflexivity.
  Qed.

  Lemma eval_open e d c d' dim v : open_dim e d -> dp_write d c = Ok d' -> dp_isFinished d' = true ->
    dp_finish (N := QcNum) in_range d' = Ok dim -> d_eval dim us = Ok v -> len e v /\ ~ lower c.
  Proof.
    intros O W F Hd Hv. destruct (open_close in_range _ _ _ _ O W F) as (q & u & v' & D & L & Ef).
    destruct (eval_read in_range us q u v' v) as (Fu & Er & ->).
    { rewrite <- Ef, Hd. exact Hv. }
    split; [econstructor; eauto|exact L].
  Qed.

  Lemma pinv_step t p c p' : pinv t p -> pp_write in_range us p c = Ok p' -> pinv (t ++ [c]) p'.
  Proof.
    unfold pinv at 1, pp_write. destruct p as [st n sp pe d]. cbn [pp_st pp_num pp_specs pp_pending pp_dimen]. destruct st.
    - intros [-> Ep] H. injection Ep as -> -> -> ->. destruct (ceq c "=") eqn:E.
      + injection H as <-. apply ceq_iff in E. subst c. unfold pinv; cbn [pp_st pp_num pp_specs pp_pending pp_dimen].
        repeat split; auto; try (unfold INT_MAX; lia). exists true, []. repeat split; auto; constructor.
      + destruct (is_digit c) eqn:Dc; [|discriminate]. apply is_digit_iff in Dc. injection H as <-.
        unfold pinv; cbn [pp_st pp_num pp_specs pp_pending pp_dimen]. pose proof (digit_range c Dc).
        repeat split; auto; try (unfold INT_MAX; lia). exists false, [c]. repeat split; auto; [left; discriminate|].
        rewrite digits_in_one by exact Dc. cbn. lia.
    - intros (C & R & -> & -> & ->) H. destruct (is_digit c) eqn:Dc.
      + apply is_digit_iff in Dc. destruct (INT_MAX <? n * 10 + digit_of c)%Z eqn:E; [discriminate|]. injection H as <-.
        apply Z.ltb_ge in E. pose proof (digit_range c Dc).
        unfold pinv; cbn [pp_st pp_num pp_specs pp_pending pp_dimen]. repeat split; auto; try lia. apply count_snoc; auto.
      + destruct (ceq c " ") eqn:E; [|discriminate]. apply ceq_iff in E. subst c. injection H as <-.
        destruct (Z.eqb_spec n 0) as [->|N]; unfold pinv; cbn [pp_st pp_num pp_specs pp_pending pp_dimen]; exists t, [], [];
          (split; [reflexivity|]); repeat split; auto; try lia; try constructor.
    - intros (h & t' & e & -> & C & R & Sh & O & -> & Nn) H. apply bind_Ok in H. destruct H as (d' & Wd & H).
      destruct (dp_isFinished d') eqn:F.
      + apply bind_Ok in H. destruct H as (dim & Hd & H). apply bind_Ok in H. destruct H as (v & Hv & H). injection H as <-.
        destruct (eval_open _ _ _ _ _ _ O Wd F Hd Hv) as [L Lc].
        unfold pinv; cbn [pp_st pp_num pp_specs pp_pending pp_dimen]. exists h, t', e, c, v, [].
        rewrite app_nil_r, <- !app_assoc. split; [reflexivity|]. repeat split; auto; lia.
      + injection H as <-. unfold pinv; cbn [pp_st pp_num pp_specs pp_pending pp_dimen]. exists h, t', (e ++ [c]).
        rewrite <- !app_assoc. split; [reflexivity|]. repeat split; auto; try lia; apply (open_step _ _ _ _ O Wd F).
    - intros (h & t' & i & x & s & e & -> & C & R & Sh & L & Lx & O & -> & Nn) H. apply bind_Ok in H. destruct H as (d' & Wd & H).
      destruct (dp_isFinished d') eqn:F.
      + apply bind_Ok in H. destruct H as (dim & Hd & H). apply bind_Ok in H. destruct H as (v & Hv & H).
        cbn [pp_set_length pp_pending pp_specs bind] in H. destruct (eval_open _ _ _ _ _ _ O Wd F Hd Hv) as [Le Lc].
        pose proof (shape_snoc _ _ _ _ _ _ _ _ Sh L Lx Le Lc) as Sh'.
        match type of H with context [(?a =? ?b)%Z] => destruct (Z.eqb_spec a b) as [E|E] end; injection H as <-;
          unfold pinv; cbn [pp_st pp_num pp_specs pp_pending pp_dimen]; exists h, (t' ++ (i ++ [x]) ++ (e ++ [c])), [];
          rewrite app_nil_r, <- !app_assoc in *; (split; [reflexivity|]); repeat split; auto; try lia; constructor.
      + injection H as <-. unfold pinv; cbn [pp_st pp_num pp_specs pp_pending pp_dimen]. exists h, t', i, x, s, (e ++ [c]).
        rewrite <- !app_assoc. split; [reflexivity|]. repeat split; auto; try lia; apply (open_step _ _ _ _ O Wd F).
    - intros (h & t' & b & -> & C & R & Sh & B & E) H. destruct (ceq c " ") eqn:Ec; [|discriminate].
      apply ceq_iff in Ec. subst c. injection H as <-. unfold pinv; cbn [pp_st pp_num pp_specs pp_pending pp_dimen].
      exists h, t', (b ++ [" "]). rewrite <- !app_assoc. split; [reflexivity|]. repeat split; auto using blanks_snoc; lia.
  Qed.

  Lemma pinv_all t p : pw pp_init t = Ok p -> pinv t p.
  Proof.
    revert p. induction t as [|c t IH] using rev_ind; intros p H.
    - injection H as <-. split; reflexivity.
    - unfold pp_writes in H. rewrite foldM_app in H. apply bind_Ok in H. destruct H as (q & Hq & Hc).
      cbn [foldM] in Hc. apply bind_Ok in Hc. destruct Hc as (q' & Hw & E). injection E as <-.
      eapply pinv_step; eauto.
  Qed.

  Theorem parshape_only t p ps : pw pp_init t = Ok p -> pp_finish in_range us p = Ok ps ->
    exists h n, count_text h n /\ (n <= INT_MAX)%Z /\ n = Z.of_nat (List.length ps) /\
      ((exists t' b, t = h ++ [" "] ++ t' ++ b /\ shape ps t' /\ blanks b)
       \/ (exists ps0 t' i c l s z, t = h ++ [" "] ++ t' ++ (i ++ [c]) ++ l /\ shape ps0 t' /\
             len i s /\ ~ lower c /\ len l z /\ ps = ps0 ++ [(s, z)])
       \/ (ps = [] /\ t = h)).
  Proof.
    intros H F. apply pinv_all in H. unfold pinv in H. unfold pp_finish in F. destruct p as [st n sp pe d].
    cbn [pp_st pp_num pp_specs pp_pending pp_dimen] in *. destruct st; try discriminate.
    - destruct H as (C & R & -> & -> & ->). destruct (Z.eqb_spec n 0) as [->|]; [|discriminate]. injection F as <-.
      exists t, 0%Z. split; [exact C|]. split; [unfold INT_MAX; lia|]. split; [reflexivity|]. auto.
    - destruct H as (h & t' & i & c & s & e & -> & C & R & Sh & L & Lc & O & -> & Nn).
      unfold pp_size in F. cbn [pp_specs pp_pending] in F. destruct (Z.eqb_spec n (Z.of_nat (List.length sp) + 1)) as [E|]; [|discriminate].
      apply bind_Ok in F. destruct F as (dim & Hd & F). apply bind_Ok in F. destruct F as (v & Hv & F).
      cbn [pp_set_length pp_pending pp_specs] in F. injection F as <-. exists h, n.
      split; [exact C|]. split; [lia|]. split; [etransitivity; [exact E|]; rewrite app_length, Nat2Z.inj_add; reflexivity|]. right. left. exists sp, t', i, c, e, s, v. repeat split; auto.
      destruct (open_finish in_range _ _ _ O Hd) as [(q & u & v' & D & Er & ->)|[N U]].
      + destruct (eval_read in_range us q u v' v) as (Fu & _ & ->); [|econstructor; eauto].
        unfold read_as. rewrite Er. exact Hv.
      + rewrite eval_infinite in Hv; [discriminate|]. rewrite U. intros [Q|[Q|Q]]; discriminate.
    - destruct H as (h & t' & b & -> & C & R & Sh & B & E). injection F as <-. exists h, n.
      split; [exact C|]. split; [lia|]. split; [exact E|]. left. exists t', b. auto.
  Qed.

  (** the only undefined behaviour is the overflow of the number of lines *)
  Lemma pw_overflow ds a sp pe d rest : Forall digit ds -> (0 <= a <= INT_MAX)%Z ->
    (INT_MAX < a * 10 ^ Z.of_nat (List.length ds) + whole (digits_in ds))%Z ->
    pw (mkPP PNum a sp pe d) (ds ++ rest) = UB.
  Proof.
    unfold pp_writes. revert a; induction ds as [|c ds IH]; intros a H Ha Hm.
    - cbn [digits_in whole List.length] in Hm. rewrite Z.mul_1_r in Hm. lia.
    - pose proof (Forall_inv H) as Hc. apply Forall_inv_tail in H. cbn [app foldM]. unfold pp_write at 1. cbn [pp_st].
      pose proof (digit_range c Hc) as Hr. pose proof Hc as Hc'. apply is_digit_iff in Hc. rewrite Hc. cbn [pp_num].
      destruct (INT_MAX <? a * 10 + digit_of c)%Z eqn:E; [reflexivity|]. apply Z.ltb_ge in E. cbn [bind pp_specs pp_pending pp_dimen].
      apply IH; [exact H|lia|]. change (c :: ds) with ([c] ++ ds) in Hm. rewrite digits_in_app, digits_in_one in Hm by exact Hc'.
      cbn [app whole List.length] in Hm. rewrite digits_len in Hm by exact H.
      rewrite Nat2Z.inj_succ, Z.pow_succ_r in Hm by lia. lia.
  Qed.
  Lemma pp_write_UB p c t : pinv t p -> pp_write in_range us p c = UB ->
    pp_st p = PNum /\ digit c /\ (INT_MAX < pp_num p * 10 + digit_of c)%Z.
  Proof.
    unfold pinv, pp_write. destruct p as [st n sp pe d]. cbn [pp_st pp_num pp_specs pp_pending pp_dimen].
    assert (DW : forall x, dp_write d c = x -> x <> UB).
    { intros x <-. destruct (dp_write_outcome d c) as [[q ->]| ->]; discriminate. }
    assert (EV : forall x, d_eval (N := QcNum) x us <> UB).
    { intros x. unfold d_eval. destruct (d_unit x); discriminate. }
    destruct st; intros K H.
    - destruct (ceq c "="); [discriminate|]. destruct (is_digit c); discriminate.
    - destruct (is_digit c) eqn:Dc.
      + destruct (INT_MAX <? n * 10 + digit_of c)%Z eqn:E; [|discriminate]. apply Z.ltb_lt in E. apply is_digit_iff in Dc. auto.
      + destruct (ceq c " "); discriminate.
    - destruct (dp_write d c) as [d'| | | |] eqn:W; try discriminate; cbn [bind] in H; [|exfalso; eapply DW; eauto].
      destruct (dp_isFinished d'); [|discriminate].
      destruct (dp_finish_outcome in_range d') as [[x Ex]|Ex]; rewrite Ex in H; cbn [bind] in H; [|discriminate].
      pose proof (EV x) as Ev. destruct (d_eval x us); cbn [bind] in H; try discriminate; exfalso; auto.
    - destruct K as (h & t' & i & x & s & e & -> & C & R & Sh & L & Lx & O & -> & Nn).
      destruct (dp_write d c) as [d'| | | |] eqn:W; try discriminate; cbn [bind] in H; [|exfalso; eapply DW; eauto].
      destruct (dp_isFinished d'); [|discriminate].
      destruct (dp_finish_outcome in_range d') as [[y Ey]|Ey]; rewrite Ey in H; cbn [bind] in H; [|discriminate].
      pose proof (EV y) as Ev. destruct (d_eval y us); cbn [bind] in H; try discriminate; [|exfalso; auto].
      cbn [pp_set_length pp_pending pp_specs bind] in H. destruct (_ =? _)%Z; discriminate.
    - destruct (ceq c " "); discriminate.
  Qed.

  Theorem parshape_overflow t : pw pp_init t = UB <->
    exists h rest n, t = h ++ rest /\ count_text h n /\ (INT_MAX < n)%Z.
  Proof.
    split.
    - induction t as [|c t IH] using rev_ind; [discriminate|]. intros H.
      unfold pp_writes in H. rewrite foldM_app in H. fold (pw pp_init t) in H.
      destruct (pw pp_init t) as [p| | | |] eqn:E; cbn [bind] in H; try discriminate.
      + cbn [foldM] in H. destruct (pp_write in_range us p c) as [p'| | | |] eqn:W; cbn [bind] in H; try discriminate.
        pose proof (pinv_all _ _ E) as K. destruct (pp_write_UB p c t K W) as (St & D & L).
        unfold pinv in K. rewrite St in K. destruct K as (C & _). exists (t ++ [c]), [], (pp_num p * 10 + digit_of c)%Z.
        rewrite app_nil_r. repeat split; auto. apply count_snoc; auto.
      + destruct (IH eq_refl) as (h & rest & n & -> & C & L). exists h, (rest ++ [c]), n. rewrite app_assoc. auto.
    - intros (h & rest & n & -> & (eq & ds & -> & D & N & <-) & L). rewrite <- app_assoc.
      destruct eq.
      + cbn [app]. unfold pp_writes. cbn [foldM].
        change (pp_write (N := QcNum) in_range us pp_init "=") with (Ok (mkPP (N := QcNum) PNum 0 [] None dp_init)). cbn [bind].
        apply pw_overflow; [exact D|unfold INT_MAX; lia|]. rewrite Z.mul_0_l. exact L.
      + cbn [app]. destruct ds as [|c ds]; [destruct N; congruence|]. pose proof (Forall_inv D) as Hc. apply Forall_inv_tail in D.
        unfold pp_writes. cbn [app foldM]. unfold pp_write at 1. cbn [pp_init pp_st pp_specs pp_pending pp_dimen].
        pose proof Hc as Hc'. apply is_digit_iff in Hc.
        destruct (ceq c "=") eqn:E; [apply ceq_iff in E; subst; discriminate|]. rewrite Hc. cbn [bind].
        pose proof (digit_range c Hc'). apply pw_overflow; [exact D|unfold INT_MAX; lia|].
        change (c :: ds) with ([c] ++ ds) in L. rewrite digits_in_app, digits_in_one in L by exact Hc'.
        cbn [app whole] in L. rewrite digits_len in L by exact D. exact L.
  Qed.

  Theorem parshape_finish_defined t p : pw pp_init t = Ok p -> pp_finish in_range us p <> UB /\ pp_finish in_range us p <> Fuel.
  Proof.
    intros H. apply pinv_all in H. unfold pinv in H. unfold pp_finish. destruct p as [st n sp pe d].
    cbn [pp_st pp_num pp_specs pp_pending pp_dimen] in *. destruct st; try (split; discriminate).
    - destruct (n =? 0)%Z; split; discriminate.
    - destruct H as (h & t' & i & x & s & e & -> & C & R & Sh & L & Lx & O & -> & Nn).
      destruct (n =? _)%Z; [|split; discriminate]. destruct (dp_finish_outcome in_range d) as [[y ->]| ->]; cbn [bind]; [|split; discriminate].
      unfold d_eval. destruct (d_unit y); cbn [bind]; split; discriminate.
  Qed.
End P.
