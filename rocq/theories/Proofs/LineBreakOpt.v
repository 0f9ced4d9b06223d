(** The invariant of the line breaking loop: the active breakpoints are the best
    breakings of the part of the list seen so far. *)
From Coq Require Import List ZArith Bool QArith Qcanon Arith Lia Sorted.
From Verif.Base Require Import Result Num.
From Verif.Model Require Import Glue Box ListBuilders LineBreaks.
From Verif.Spec Require Import BoxSpec LineBreakSpec.
From Verif.Proofs Require Import BoxProofs LineBreakProofs.
Import ListNotations.

Section AnyNum.
  Context {N : Num}.
  Variable pw : pows N.
  Variable P : para N.
  Variable l : list (node N).

  Notation lratio := (line_ratio l P).
  Notation brk := (breaking l P pw).

  Definition lastlt (bs : list nat) (k : nat) : Prop :=
    match bs with [] => True | b :: _ => (b < k)%nat end.

  Definition alive (bs : list nat) (e k : nat) : Prop :=
    forall c, after (last_break bs) c -> (c < k)%nat -> ~ barrier l P (length bs) e c.

  (** The chain of a breakpoint follows a list of breaks. *)
  Inductive tracks : bp N -> list nat -> Prop :=
  | tr_start : tracks start_bp []
  | tr_line b d f t prev bs :
      tracks prev bs -> brk (b :: bs) f d ->
      tracks (mkBp b d (S (length bs)) f t (Some prev)) (b :: bs).

  Definition good (k : nat) (a : bp N) : Prop :=
    exists bs e, tracks a bs /\ brk bs (bp_fit a) (bp_dem a) /\
      line_begin l (last_break bs) e /\ bp_tot a = upto (firstn e l) /\
      bp_line a = length bs /\ lastlt bs k /\ alive bs e k.

  Definition Inv (k : nat) (act : list (bp N)) : Prop :=
    sortedL act /\
    (forall a, In a act -> good k a) /\
    (forall bs f d e, brk bs f d -> line_begin l (last_break bs) e -> lastlt bs k -> alive bs e k ->
       exists a, In a act /\ bp_tot a = upto (firstn e l) /\ bp_line a = length bs /\
         bp_fit a = f /\ (bp_dem a <= d)%Z).

  Lemma brk_begin bs f d b : brk (b :: bs) f d -> legal l b /\ after (last_break bs) b.
  Proof. intros H; inversion H; subst. unfold line_ok in *. tauto. Qed.

  Lemma lastlt_after bs k : lastlt bs k <-> after (last_break bs) k.
  Proof. destruct bs; simpl; tauto. Qed.

  Lemma Inv_skip k act : ~ legal l k -> Inv k act -> Inv (S k) act.
  Proof.
    intros Hk (Hs & Hg & Hc). split; [exact Hs|]. split.
    - intros a Ha. destruct (Hg a Ha) as (bs & e & H1 & H2 & H3 & H4 & H5 & H6 & H7).
      exists bs, e. repeat (split; [assumption|]). split.
      + destruct bs; simpl in *; [tauto|lia].
      + intros c Hc1 Hc2. destruct (Nat.eq_dec c k) as [->|Hne]; [unfold barrier; tauto|].
        apply H7; [exact Hc1|lia].
    - intros bs f d e Hb He Hl Ha. apply (Hc bs f d e Hb He).
      + destruct bs as [|b bs]; simpl in *; [tauto|].
        destruct (brk_begin _ _ _ _ Hb) as (Hlg & _).
        destruct (Nat.eq_dec b k) as [->|]; [tauto|lia].
      + intros c Hc1 Hc2. apply Ha; [exact Hc1|lia].
  Qed.

  Lemma feasible_ok r : feasible pw P r = true <-> ratio_ok P pw r.
  Proof. unfold feasible, ratio_ok. apply andb_true_iff. Qed.

  Lemma Inv_try k act n suf out :
    l = firstn k l ++ n :: suf -> length (firstn k l) = k -> legal l k -> Inv k act ->
    tryBreak pw P act k (n :: suf) n (upto (firstn k l)) = Ok out ->
    Inv (S k) out.
  Proof.
    intros Hl Hlen Hk (Hs & Hg & Hc) H.
    assert (Hn : nth_error l k = Some n).
    { rewrite Hl. rewrite nth_error_app2, Hlen, Nat.sub_diag by lia. reflexivity. }
    destruct (squeeze_begin (firstn k l) (n :: suf)) as (ek & Esq & Hek).
    rewrite <- Hl, Hlen in Hek. rewrite <- Hl in Esq.
    set (sum := upto (firstn k l)) in *. set (tot := upto (firstn ek l)) in *.
    (* the facts about the loop *)
    assert (T : exists line, (forall a, In a act -> (line <= bp_line a)%nat) /\
              try_loop pw P n sum tot k line no_cands act = Ok out).
    { unfold tryBreak in H. destruct act as [|a act].
      - exists 0%nat. split; [intros a []|]. simpl. inversion H. reflexivity.
      - exists (bp_line a). split; [|rewrite <- Esq; exact H].
        inversion Hs as [|? ? Hs' Ha]; subst. rewrite Forall_forall in Ha.
        intros b [<-|Hb]; [lia|apply Ha; exact Hb]. }
    destruct T as (line & Hline & T).
    destruct (try_loop_spec pw P n sum tot k act line no_cands out Hs Hline (of_line_none _) T)
      as (S1 & _ & S3 & S4 & _ & S6).
    assert (HR : forall a e (bs : list nat), bp_tot a = upto (firstn e l) -> bp_line a = length bs ->
               R P sum a = lratio (length bs) e k).
    { intros a e bs Ht Hb. unfold R, sum. rewrite Ht, Hb. apply ratio_spec. }
    assert (HK : forall a e (bs : list nat), bp_tot a = upto (firstn e l) -> bp_line a = length bs ->
               (K P n sum a = true <-> ~ barrier l P (length bs) e k)).
    { intros a e bs Ht Hb. unfold K, barrier. rewrite (HR a e bs Ht Hb).
      rewrite negb_true_iff, orb_false_iff.
      assert (Hf : isForcedLinebreak n = false <-> ~ forced_at l k).
      { rewrite is_forced_at. split.
        - intros Hf (n' & E & Hf'). congruence.
        - intros Hf. destruct (isForcedLinebreak n) eqn:E; [|reflexivity]. exfalso. apply Hf. eauto. }
      rewrite Hf. destruct (nltb _ _); intuition congruence. }
    split; [exact S1|]. split.
    - intros x Hx. destruct (S3 x Hx) as [(Hi & Hkx)|(f & a & d & -> & Hd & [Hno|(Hi & Hf & -> & Hnd)])]; [| discriminate Hno |].
      + destruct (Hg x Hi) as (bs & e & H1 & H2 & H3 & H4 & H5 & H6 & H7).
        exists bs, e. repeat (split; [assumption|]). split.
        * destruct bs; simpl in *; [tauto|lia].
        * intros c Hc1 Hc2. destruct (Nat.eq_dec c k) as [->|Hne]; [apply (HK x e bs H4 H5); exact Hkx|].
          apply H7; [exact Hc1|lia].
      + destruct (Hg a Hi) as (bs & e & H1 & H2 & H3 & H4 & H5 & H6 & H7).
        rewrite (HR a e bs H4 H5) in *.
        exists (k :: bs), ek.
        pose proof (newDemerits_spec pw P l n k _ a d Hn Hnd) as Ed.
        assert (Hbrk : brk (k :: bs) (getFitnessClass (lratio (length bs) e k)) d).
        { change (getFitnessClass ?r) with (fitness_of r).
          rewrite Ed. apply (br_line l P pw bs (bp_fit a) (bp_dem a) e k H2).
          - split; [exact H3|]. split; [apply lastlt_after; exact H6|]. split; [exact Hk|].
            split; [apply feasible_ok; exact Hf|exact H7].
          - rewrite <- Ed. exact Hd. }
        split; [rewrite H5; constructor; assumption|]. split; [exact Hbrk|].
        split; [exact Hek|]. split; [reflexivity|]. split; [cbn [bp_line length]; rewrite H5; reflexivity|].
        split; [simpl; lia|]. intros c Hc1 Hc2. simpl in Hc1. lia.
    - intros bs f d e Hb He Hlt Ha.
      destruct bs as [|b bs]; [|destruct (Nat.eq_dec b k) as [->|Hne]].
      + destruct (Hc [] f d e Hb He I) as (a & Hi & H1 & H2 & H3 & H4).
        { intros c Hc1 Hc2. apply Ha; [exact Hc1|lia]. }
        exists a. split; [|auto]. apply S4; [exact Hi|]. apply (HK a e [] H1 H2). apply Ha; [exact I|lia].
      + inversion Hb as [|bs0 f0 d0 e0 b0 Hb0 Hok r0 d' Hd' Eb Ef Ed]; subst.
        destruct Hok as (K1 & K2 & K3 & K4 & K5).
        destruct (Hc bs f0 d0 e0 Hb0 K1) as (a & Hi & H1 & H2 & H3 & H4).
        { apply lastlt_after. exact K2. }
        { intros c Hc1 Hc2. apply K5; assumption. }
        destruct (S6 a Hi) as (dn & Hdn & Hgo).
        { apply feasible_ok. rewrite (HR a e0 bs H1 H2). exact K4. }
        rewrite (HR a e0 bs H1 H2) in *.
        pose proof (newDemerits_spec pw P l n k _ a dn Hn Hdn) as Ed. rewrite H3 in Ed.
        subst r0 d'. rewrite <- H3 in Ed, Hd' |- *.
        destruct Hgo as (a' & d'' & Hin & Hle); [lia|].
        eexists. split; [exact Hin|]. cbn [bp_tot bp_line bp_fit bp_dem length].
        rewrite H2. unfold tot.
        rewrite (line_begin_unique l (Some k) e ek He Hek). split; [reflexivity|]. split; [reflexivity|].
        split; [reflexivity|lia].
      + destruct (Hc (b :: bs) f d e Hb He) as (a & Hi & H1 & H2 & H3 & H4).
        { simpl in *. lia. }
        { intros c Hc1 Hc2. apply Ha; [exact Hc1|lia]. }
        exists a. split; [|auto]. apply S4; [exact Hi|]. apply (HK a e (b :: bs) H1 H2). apply Ha; [simpl in *; lia|lia].
  Qed.

  Definition prevbox_ok (k : nat) (pb : bool) : Prop := pb = true <-> exists j, k = S j /\ box_at l j.

  Lemma loop_inv suf : forall pre pb act out,
    l = pre ++ suf -> prevbox_ok (length pre) pb -> Inv (length pre) act ->
    feasible_loop pw P (length pre) pb act (upto pre) suf = Ok out ->
    Inv (length l) out.
  Proof.
    induction suf as [|n suf IH]; intros pre pb act out Hl Hpb HI H.
    - simpl in H. inversion H; subst act. rewrite app_nil_r in Hl. rewrite Hl. exact HI.
    - assert (Hk : firstn (length pre) l = pre).
      { rewrite Hl, firstn_app, firstn_all, Nat.sub_diag. apply app_nil_r. }
      assert (Hn : nth_error l (length pre) = Some n).
      { rewrite Hl, nth_error_app2, Nat.sub_diag by lia. reflexivity. }
      assert (Hu : upto (pre ++ [n]) = add_item (upto pre) n).
      { unfold upto. rewrite fold_left_app. reflexivity. }
      assert (next : forall pb' act' s, s = add_item (upto pre) n -> (pb' = true <-> is_box n = true) ->
                Inv (S (length pre)) act' ->
                feasible_loop pw P (S (length pre)) pb' act' s suf = Ok out -> Inv (length l) out).
      { intros pb' act' s -> Hpb' HI' H'.
        apply (IH (pre ++ [n]) pb' act' out).
        - rewrite <- app_assoc. exact Hl.
        - rewrite app_length. cbn [length]. rewrite Nat.add_1_r. unfold prevbox_ok. rewrite Hpb'. split.
          + intros E. exists (length pre). split; [reflexivity|]. apply is_box_at. eauto.
          + intros (j & E & Hj). inversion E; subst j. apply is_box_at in Hj.
            destruct Hj as (n' & E' & Hb). congruence.
        - rewrite app_length. cbn [length]. rewrite Nat.add_1_r. exact HI'.
        - rewrite app_length. cbn [length]. rewrite Nat.add_1_r, Hu. exact H'. }
      assert (try : forall act', legal l (length pre) ->
                tryBreak pw P act (length pre) (n :: suf) n (upto pre) = Ok act' -> Inv (S (length pre)) act').
      { intros act' Hlg Ht. apply (Inv_try (length pre) act n suf act'); try assumption.
        - rewrite Hk. exact Hl.
        - rewrite Hk. reflexivity.
        - rewrite Hk. exact Ht. }
      assert (skip : ~ legal l (length pre) -> Inv (S (length pre)) act).
      { intros Hlg. apply Inv_skip; assumption. }
      destruct n; cbn [feasible_loop box_metrics] in H;
        try (refine (next true act _ _ _ (skip _) H); [reflexivity|split; reflexivity|unfold legal; rewrite Hn; tauto]);
        try (refine (next false act _ _ _ (skip _) H); [reflexivity|split; discriminate|unfold legal; rewrite Hn; tauto]).
      + apply bind_Ok in H. destruct H as (act' & H1 & H2).
        refine (next false act' _ _ _ _ H2); [reflexivity|split; discriminate|].
        destruct pb.
        * apply try; [|exact H1]. unfold legal. rewrite Hn. apply Hpb. reflexivity.
        * inversion H1; subst act'. apply skip. unfold legal. rewrite Hn. intros Hj. apply Hpb in Hj. discriminate.
      + apply bind_Ok in H. destruct H as (act' & H1 & H2).
        refine (next false act' _ _ _ _ H2); [reflexivity|split; discriminate|].
        cbn [isForbiddenLinebreak] in H1. destruct (Z.leb_spec 10000 p) as [Hp|Hp].
        * inversion H1; subst act'. apply skip. unfold legal. rewrite Hn. lia.
        * apply try; [|exact H1]. unfold legal. rewrite Hn. exact Hp.
  Qed.

  Lemma Inv_start : Inv 0 [start_bp].
  Proof.
    split; [repeat constructor|]. split.
    - intros a [<-|[]]. exists [], 0%nat. repeat (split; [first [constructor|reflexivity]|]).
      intros c _ Hc. lia.
    - intros bs f d e Hb He Hl _. destruct bs as [|b bs]; [|simpl in Hl; lia].
      inversion Hb; subst. simpl in He. subst e. exists start_bp. simpl. repeat split; auto. lia.
  Qed.

  Lemma feasible_inv out : computeFeasibleBreakpoints pw P l = Ok out -> Inv (length l) out.
  Proof.
    intros H. apply (loop_inv l [] false [start_bp] out); auto.
    - split; [discriminate|]. intros (j & E & _). discriminate.
    - apply Inv_start.
  Qed.

  (** * The choice *)
  Lemma best_in (acts : list (bp N)) : forall a, In (best_bp a acts) (a :: acts).
  Proof.
    induction acts as [|b acts IH]; intros a; [left; reflexivity|].
    cbn [best_bp fold_left]. fold (best_bp (if (bp_dem b <? bp_dem a)%Z then b else a) acts).
    destruct (IH (if (bp_dem b <? bp_dem a)%Z then b else a)) as [E|E].
    - rewrite <- E. destruct (_ <? _)%Z; simpl; tauto.
    - right. right. exact E.
  Qed.
  Lemma best_le (acts : list (bp N)) : forall a x, In x (a :: acts) -> (bp_dem (best_bp a acts) <= bp_dem x)%Z.
  Proof.
    induction acts as [|b acts IH]; intros a x Hx.
    - destruct Hx as [<-|[]]. simpl. lia.
    - cbn [best_bp fold_left]. fold (best_bp (if (bp_dem b <? bp_dem a)%Z then b else a) acts).
      set (m := if (bp_dem b <? bp_dem a)%Z then b else a).
      assert (Hm : (bp_dem m <= bp_dem a /\ bp_dem m <= bp_dem b)%Z).
      { unfold m. destruct (Z.ltb_spec (bp_dem b) (bp_dem a)); lia. }
      pose proof (IH m m (or_introl eq_refl)).
      destruct Hx as [<-|[<-|Hx]]; [lia|lia|]. apply IH. right. exact Hx.
  Qed.

  Lemma chain_tracks a bs : tracks a bs ->
    map bp_pos (bp_chain a) = 0%nat :: rev bs /\
    map bp_line (bp_chain a) = seq 0 (S (length bs)) /\ last (bp_chain a) start_bp = a /\
    (forall i b, nth_error (bp_chain a) i = Some b -> brk (skipn (length bs - i) bs) (bp_fit b) (bp_dem b)).
  Proof.
    induction 1 as [|b d f t prev bs H (IH1 & IH2 & IH3 & IH4) Hbrk].
    { repeat (split; [reflexivity|]). intros [|[|i]] b E; inversion E; subst. constructor. }
    cbn [bp_chain]. rewrite !map_app, IH1, IH2. cbn [map bp_pos bp_line rev length].
    split; [rewrite app_comm_cons; reflexivity|]. split.
    - rewrite (seq_S (S (length bs)) 0). reflexivity.
    - rewrite last_last. split; [reflexivity|].
      assert (Hlen : length (bp_chain prev) = S (length bs)).
      { rewrite <- (map_length bp_pos), IH1. simpl. rewrite rev_length. reflexivity. }
      intros i x E. destruct (Nat.lt_ge_cases i (S (length bs))) as [L|L].
      + rewrite nth_error_app1 in E by lia. rewrite Nat.sub_succ_l by lia. cbn [skipn]. apply IH4. exact E.
      + rewrite nth_error_app2 in E by lia. rewrite Hlen in E.
        destruct (i - S (length bs))%nat as [|j] eqn:Ei; [|destruct j; discriminate].
        inversion E; subst x. replace (S (length bs) - i)%nat with 0%nat by lia. exact Hbrk.
  Qed.

  Lemma alive_complete bs e : line_begin l (last_break bs) e -> alive bs e (length l) -> complete l P bs.
  Proof.
    intros He Ha e' c He' Hc Hb.
    rewrite <- (line_begin_unique l _ _ _ He He') in Hb. apply (Ha c Hc); [|exact Hb].
    destruct Hb as (Hb & _). unfold legal in Hb. apply nth_error_Some. destruct (nth_error l c); [discriminate|tauto].
  Qed.

  Lemma line_begin_exists a : (forall b, a = Some b -> (b <= length l)%nat) -> exists e, line_begin l a e.
  Proof.
    destruct a as [b|]; intros H; [|exists 0%nat; reflexivity].
    specialize (H b eq_refl).
    destruct (squeeze_begin (firstn b l) (skipn b l)) as (e & _ & He).
    rewrite firstn_skipn, firstn_length_le in He by lia. eauto.
  Qed.

  Lemma legal_lt c : legal l c -> (c < length l)%nat.
  Proof. unfold legal. intros H. apply nth_error_Some. destruct (nth_error l c); [discriminate|tauto]. Qed.

  Lemma brk_lastlt bs f d : brk bs f d -> lastlt bs (length l).
  Proof. intros H. destruct bs as [|b bs]; simpl; [exact I|]. apply legal_lt. apply (brk_begin _ _ _ _ H). Qed.

  Lemma complete_active bs f d act :
    Inv (length l) act -> brk bs f d -> complete l P bs -> exists a, In a act /\ (bp_dem a <= d)%Z.
  Proof.
    intros (_ & _ & Hc) Hb Hcp.
    destruct (line_begin_exists (last_break bs)) as (e & He).
    { intros b E. pose proof (brk_lastlt _ _ _ Hb). destruct bs; simpl in *; [discriminate|]. inversion E; subst. lia. }
    destruct (Hc bs f d e Hb He (brk_lastlt _ _ _ Hb)) as (a & Hi & _ & _ & _ & Hd).
    { intros c Hc1 _. apply Hcp; assumption. }
    eauto.
  Qed.

  Lemma computeBreakpoints_ok bps :
    computeBreakpoints pw P l = Ok bps ->
    exists bs f d,
      map bp_pos bps = 0%nat :: rev bs /\ map bp_line bps = seq 0 (S (length bs)) /\
      bp_dem (last bps start_bp) = d /\ bp_fit (last bps start_bp) = f /\
      (forall i b, nth_error bps i = Some b -> brk (skipn (length bs - i) bs) (bp_fit b) (bp_dem b)) /\
      brk bs f d /\ complete l P bs /\
      forall bs' f' d', brk bs' f' d' -> complete l P bs' -> (d <= d')%Z.
  Proof.
    unfold computeBreakpoints. rewrite bind_Ok. intros (act & Ha & H).
    pose proof (feasible_inv act Ha) as HI.
    destruct act as [|a act]; [discriminate|]. inversion H; subst bps; clear H.
    set (best := best_bp a (a :: act)).
    assert (Hin : In best (a :: act)).
    { unfold best. destruct (best_in (a :: act) a) as [E|E]; [rewrite <- E; left; reflexivity|exact E]. }
    destruct HI as (Hs & Hg & Hc). destruct (Hg best Hin) as (bs & e & H1 & H2 & H3 & H4 & H5 & H6 & H7).
    destruct (chain_tracks best bs H1) as (T1 & T2 & T3 & T4).
    exists bs, (bp_fit best), (bp_dem best).
    split; [exact T1|]. split; [exact T2|]. split; [exact (f_equal bp_dem T3)|]. split; [exact (f_equal bp_fit T3)|].
    split; [exact T4|]. split; [exact H2|]. split; [exact (alive_complete bs e H3 H7)|].
    intros bs' f' d' Hb' Hc'.
    destruct (complete_active bs' f' d' (a :: act) (conj Hs (conj Hg Hc)) Hb' Hc') as (x & Hx & Hd).
    pose proof (best_le (a :: act) a x (or_intror Hx)). fold best in H. lia.
  Qed.

  (** The outcome is never an exception of the loop, nor a failed assert. *)
  Lemma tryBreak_cases act pos suf n sum :
    sortedL act ->
    (exists out, tryBreak pw P act pos suf n sum = Ok out) \/ tryBreak pw P act pos suf n sum = UB.
  Proof.
    intros Hs. unfold tryBreak. destruct act as [|a act]; [eauto|].
    apply try_loop_cases; [exact Hs|].
    inversion Hs as [|? ? Hs' Ha]; subst. rewrite Forall_forall in Ha.
    intros b [<-|Hb]; [lia|apply Ha; exact Hb].
  Qed.

  Lemma tryBreak_sorted act pos suf n sum out :
    sortedL act -> tryBreak pw P act pos suf n sum = Ok out -> sortedL out.
  Proof.
    intros Hs. unfold tryBreak. destruct act as [|a act]; [intros H; inversion H; constructor|].
    intros H.
    apply (try_loop_spec pw P n sum (squeezeDiscardables sum true suf) pos (a :: act) (bp_line a) no_cands out Hs); [|apply of_line_none|exact H].
    inversion Hs as [|? ? Hs' Ha]; subst. rewrite Forall_forall in Ha.
    intros b [<-|Hb]; [lia|apply Ha; exact Hb].
  Qed.

  Lemma loop_cases suf : forall pos pb act s,
    sortedL act ->
    (exists out, feasible_loop pw P pos pb act s suf = Ok out) \/ feasible_loop pw P pos pb act s suf = UB.
  Proof.
    induction suf as [|n suf IH]; intros pos pb act s Hs; cbn [feasible_loop]; [eauto|].
    destruct n; cbn [box_metrics]; try (apply IH; exact Hs).
    - destruct pb; cbn [bind]; [|apply IH; exact Hs].
      destruct (tryBreak_cases act pos (NGlue g :: suf) (NGlue g) s Hs) as [(out & E)| E]; rewrite E; cbn [bind]; [|auto].
      apply IH. exact (tryBreak_sorted _ _ _ _ _ _ Hs E).
    - destruct (isForbiddenLinebreak _); cbn [bind]; [apply IH; exact Hs|].
      destruct (tryBreak_cases act pos (NPenalty p :: suf) (NPenalty p) s Hs) as [(out & E)| E]; rewrite E; cbn [bind]; [|auto].
      apply IH. exact (tryBreak_sorted _ _ _ _ _ _ Hs E).
  Qed.

  Lemma feasible_cases :
    (exists out, computeFeasibleBreakpoints pw P l = Ok out) \/ computeFeasibleBreakpoints pw P l = UB.
  Proof. apply loop_cases. repeat constructor. Qed.

  Lemma computeBreakpoints_throw :
    computeBreakpoints pw P l = Throw ->
    forall bs f d, brk bs f d -> complete l P bs -> False.
  Proof.
    unfold computeBreakpoints. intros H bs f d Hb Hc.
    destruct feasible_cases as [(act & E)|E]; rewrite E in H; cbn [bind] in H; [|discriminate].
    destruct act; [|discriminate]. pose proof (feasible_inv [] E) as HI.
    destruct (complete_active bs f d [] HI Hb Hc) as (a & [] & _).
  Qed.

  Lemma computeBreakpoints_cases :
    (exists bps, computeBreakpoints pw P l = Ok bps) \/ computeBreakpoints pw P l = Throw \/ computeBreakpoints pw P l = UB.
  Proof.
    unfold computeBreakpoints.
    destruct feasible_cases as [(act & E)|E]; rewrite E; cbn [bind]; [|auto].
    destruct act; eauto.
  Qed.
End AnyNum.
