From Coq Require Import List String ZArith Bool Arith Lia DecimalString.
From Verif.Base Require Import Result Num.
From Verif.Model Require Import Glue Box Unicode ShowLists.
From Verif.Spec Require Import UnicodeSpec ShowListsSpec.
From Verif.Proofs Require Import UnicodeProofs.
Import ListNotations.
Local Open Scope Z_scope.
Local Open Scope list_scope.

Lemma spell_text c t : spells c t -> char_text c = t.
Proof.
  intros [[-> ->]|[Hc H]]; [reflexivity|].
  pose proof (utf8_range c t H) as R.
  destruct (encode_lemma c ltac:(lia)) as (s & Hs & _ & _ & _ & E).
  rewrite (utf8_det c t s H Hs). apply E; lia.
Qed.

Lemma spells_ex c : 0 <= c < 2097152 -> exists t, spells c t.
Proof.
  intros R. destruct (Z.eq_dec c 0) as [->|Hc]; [exists []; left; auto|].
  destruct (encode_lemma c ltac:(lia)) as (s & Hs & _). exists s. right; auto.
Qed.

Section Proofs.
  Context {N : Num}.
  Variable fmt : N -> list Z.
  Notation write := (write fmt).
  Notation writes := (writes fmt).

  (** what a line adds to the text *)
  Definition newline (r : list Z) : list Z := match r with [] => [] | _ => r ++ [10] end.
  Definition emit1 (r : list Z) (x : line) : list Z := newline r ++ rendered x.
  Definition emit (r : list Z) (ls : list line) : list Z := fold_left emit1 ls r.

  Lemma emit_app r a b : emit r (a ++ b) = emit (emit r a) b.
  Proof. apply fold_left_app. Qed.
  Lemma emit_cons r x b : emit r (x :: b) = emit (emit1 r x) b.
  Proof. reflexivity. Qed.

  Lemma begin_put p r t : put t (beginLine (mkS p r)) = mkS p (emit1 r (p, t)).
  Proof.
    unfold beginLine, put, emit1, newline, rendered. destruct r; simpl; [reflexivity|].
    rewrite <- ?app_assoc. reflexivity.
  Qed.
  Lemma put_put a b s : put b (put a s) = put (a ++ b) s.
  Proof. unfold put; simpl. rewrite app_assoc. reflexivity. Qed.
  Lemma put_nil s : put [] s = s.
  Proof. destruct s; unfold put; simpl. rewrite app_nil_r. reflexivity. Qed.

  Lemma metrics_written m s : writeBoxMetrics fmt m s = put (metrics_text fmt m) s.
  Proof.
    unfold writeBoxMetrics. rewrite !put_put. unfold metrics_text.
    change (bytes_of ")x") with (bytes_of ")" ++ bytes_of "x"). rewrite <- ?app_assoc. reflexivity.
  Qed.

  Lemma listbox_written nm m r p res :
    writeListBox fmt nm m r (mkS p res) = mkS p (emit1 res (p, nm ++ metrics_text fmt m ++ set_text fmt r)).
  Proof.
    unfold writeListBox, set_text, nonzero. rewrite metrics_written.
    destruct (neqb r n0); simpl negb; cbv iota; rewrite ?put_put, begin_put;
      rewrite ?app_nil_r, <- ?app_assoc; reflexivity.
  Qed.

  Lemma glue_written g p res : writeGlue fmt g (mkS p res) = mkS p (emit1 res (p, glue_text fmt g)).
  Proof.
    unfold writeGlue, glue_text, nonzero.
    rewrite <- negb_andb. destruct (neqb (g_stretch g) n0 && neqb (g_shrink g) n0); simpl negb; cbv iota;
      rewrite ?put_put, begin_put; rewrite ?app_nil_r, <- ?app_assoc; reflexivity.
  Qed.

  Lemma pop_push p c r : pop (mkS (p ++ [c]) r) = Ok (mkS p r).
  Proof.
    destruct p as [|z p]; [reflexivity|].
    change (Ok (mkS (removelast ((z :: p) ++ [c])) r) = Ok (mkS (z :: p) r)).
    rewrite removelast_last. reflexivity.
  Qed.

  Lemma guarded_ok c body p res ls :
    (forall res, body (mkS (p ++ [c]) res) = Ok (mkS (p ++ [c]) (emit res ls))) ->
    guarded c body (mkS p res) = Ok (mkS p (emit res ls)).
  Proof.
    intros H. unfold guarded, push. cbn [s_prefix s_result]. rewrite H. cbn [bind]. apply pop_push.
  Qed.

  Lemma class_name t x : class_text t x -> atom_name t = x.
  Proof.
    intros []; try reflexivity. match goal with H : In _ _ |- _ => simpl in H end.
    repeat match goal with H : _ \/ _ |- _ => destruct H end; subst; try reflexivity. contradiction.
  Qed.

  Scheme o_ind := Induction for outline Sort Prop
    with os_ind := Induction for outlines Sort Prop
    with of_ind := Induction for outline_field Sort Prop
    with or_ind := Induction for outline_rows Sort Prop
    with oc_ind := Induction for outline_cells Sort Prop.
  Combined Scheme outline_mut from o_ind, os_ind, of_ind, or_ind, oc_ind.

  Definition field (c : Z) (o : option (snode N)) (s : sstate) : result sstate :=
    match o with None => Ok s | Some n => guarded c (write n) s end.

  Definition does (f : sstate -> result sstate) (p : list Z) (ls : list line) : Prop :=
    forall res, f (mkS p res) = Ok (mkS p (emit res ls)).

  Lemma write_list l s : write (SList l) s = writes l s.
  Proof. reflexivity. Qed.
  Lemma write_hbox m r l s : write (SHBox m r l) s = guarded 46 (writes l) (writeListBox fmt (bytes_of "\hbox") m r s).
  Proof. reflexivity. Qed.
  Lemma write_vbox m r l s : write (SVBox m r l) s = guarded 46 (writes l) (writeListBox fmt (bytes_of "\vbox") m r s).
  Proof. reflexivity. Qed.
  Lemma write_atom ty a b c s : write (SAtom ty a b c) s =
    do s <- field 46 a (put (atom_name ty) (beginLine s)) ; do s <- field 94 b s ; field 95 c s.
  Proof. reflexivity. Qed.
  Lemma write_frac a b s : write (SFrac a b) s =
    do s <- guarded 92 (writes a) (put (bytes_of "\fraction, thickness = default") (beginLine s)) ; guarded 47 (writes b) s.
  Proof. reflexivity. Qed.
  Lemma write_root a b s : write (SRoot a b) s =
    do s <- guarded 92 (writes a) (put (bytes_of "\sqrt") (beginLine s)) ; guarded 47 (writes b) s.
  Proof. reflexivity. Qed.
  Lemma write_matrix cells cols s : write (SMatrix cells cols) s = writeMatrix (List.map writes cells) cols s.
  Proof. reflexivity. Qed.

  Lemma to_int32_small z : 0 <= z < 2147483648 -> to_int32 z = z.
  Proof. intros H. unfold to_int32. rewrite Z.mod_small; lia. Qed.

  Theorem outline_written :
    (forall p n ls, outline fmt p n ls -> does (write n) p ls) /\
    (forall p l ls, outlines fmt p l ls -> does (writes l) p ls) /\
    (forall p o ls, outline_field fmt p o ls -> forall q c, p = q ++ [c] -> does (field c o) q ls) /\
    (forall p rows ls, outline_rows fmt p rows ls -> forall acts cols i,
        Forall (fun r => List.length r = cols) rows ->
        (forall k w, nth_error (List.map writes (List.concat rows)) k = Some w ->
                     nth_error acts (k + i * cols)%nat = Some w) ->
        does (writeRows acts cols i (List.length rows)) p ls) /\
    (forall p r ls, outline_cells fmt p r ls -> forall acts cols i j,
        (j + List.length r = cols)%nat ->
        (forall k w, nth_error (List.map writes r) k = Some w ->
                     nth_error acts (j + k + i * cols)%nat = Some w) ->
        does (writeRow acts cols i j (List.length r)) p ls).
  Proof.
    apply outline_mut; unfold does.
    - intros p fam c t H res. cbn [ShowLists.write]. rewrite !put_put, begin_put, (spell_text c t H).
      unfold int_text. rewrite <- ?app_assoc. reflexivity.
    - intros p l ls _ IH res. rewrite write_list. apply IH.
    - intros p m r l ls _ IH res. rewrite write_hbox, listbox_written, emit_cons. apply guarded_ok, IH.
    - intros p m r l ls _ IH res. rewrite write_vbox, listbox_written, emit_cons. apply guarded_ok, IH.
    - intros p c t H res. cbn [ShowLists.write]. rewrite begin_put, (spell_text c t H). reflexivity.
    - intros p g res. cbn [ShowLists.write]. rewrite glue_written. reflexivity.
    - intros p x res. cbn [ShowLists.write]. rewrite put_put, begin_put. reflexivity.
    - intros p ty nuc sup sub t l1 l2 l3 Ht _ I1 _ I2 _ I3 res.
      rewrite write_atom, begin_put, (class_name _ _ Ht), (I1 p 46 eq_refl). cbn [bind].
      rewrite (I2 p 94 eq_refl). cbn [bind]. rewrite (I3 p 95 eq_refl).
      rewrite emit_cons, !emit_app. reflexivity.
    - intros p a b l1 l2 _ I1 _ I2 res. rewrite write_frac, begin_put, (guarded_ok 92 _ p _ l1 I1).
      cbn [bind]. rewrite (guarded_ok 47 _ p _ l2 I2), emit_cons, emit_app. reflexivity.
    - intros p a b l1 l2 _ I1 _ I2 res. rewrite write_root, begin_put, (guarded_ok 92 _ p _ l1 I1).
      cbn [bind]. rewrite (guarded_ok 47 _ p _ l2 I2), emit_cons, emit_app. reflexivity.
    - intros p rows rest cols ls Hc Hr Hz Hrows _ IH res.
      rewrite write_matrix. unfold writeMatrix. rewrite !put_put, begin_put.
      rewrite to_int32_small by lia. unfold int_text.
      destruct cols as [|c0]; [lia|]. set (cols := Datatypes.S c0) in *.
      replace (Nat.div _ cols) with (List.length rows).
      2:{ apply Nat.div_unique with (r := List.length rest); [lia|].
          rewrite map_length, app_length. f_equal. clear -Hrows.
          induction Hrows as [|r rows Hr _ IH]; simpl; [lia|]. rewrite app_length, IH. lia. }
      rewrite <- ?app_assoc, emit_cons. apply IH; [exact Hrows|].
      intros k w Hk. rewrite Nat.add_0_r, map_app. rewrite nth_error_app1; [exact Hk|].
      apply nth_error_Some. congruence.
    - intros p m res. cbn [ShowLists.write]. rewrite metrics_written, begin_put. reflexivity.
    - intros p res. cbn [ShowLists.write]. rewrite begin_put. reflexivity.
    - reflexivity.
    - intros p n r l1 l2 _ I1 _ I2 res. cbn [ShowLists.writes]. rewrite I1. cbn [bind].
      rewrite I2, emit_app. reflexivity.
    - reflexivity.
    - intros p n l _ IH q c -> res. cbn [field]. apply guarded_ok, IH.
    - reflexivity.
    - intros p r rows l1 l2 _ I1 _ I2 acts cols i Hf Hn res.
      inversion Hf as [|? ? Hlen Hf']; subst. cbn [List.length writeRows].
      rewrite (I1 acts (List.length r) i 0%nat eq_refl).
      2:{ intros k w Hk. cbn [Nat.add]. apply Hn. cbn [List.concat]. rewrite map_app.
          rewrite nth_error_app1; [exact Hk|]. apply nth_error_Some. congruence. }
      cbn [bind]. rewrite begin_put, I2; [|exact Hf'|].
      + rewrite emit_app, emit_cons. reflexivity.
      + intros k w Hk. replace (k + Datatypes.S i * List.length r)%nat with (List.length r + k + i * List.length r)%nat by lia.
        apply Hn. cbn [List.concat]. rewrite map_app, nth_error_app2; rewrite map_length; [|lia].
        rewrite Nat.add_comm, Nat.add_sub. exact Hk.
    - intros p c l _ IH acts cols i j Hj Hn res. cbn [List.length writeRow]. simpl in Hj.
      rewrite (guarded_ok 46 _ p res l); [reflexivity|].
      intros r'. rewrite <- (Nat.add_0_r j), (Hn 0%nat (writes c) eq_refl), IH. cbn [bind].
      replace (Nat.eqb _ _) with true; [reflexivity|]. symmetry. apply Nat.eqb_eq. lia.
    - intros p c d r l1 l2 _ I1 _ I2 acts cols i j Hj Hn res.
      change (List.length (c :: d :: r)) with (Datatypes.S (List.length (d :: r))).
      cbn [writeRow]. simpl in Hj.
      rewrite (guarded_ok 46 _ p res (l1 ++ [(p ++ bytes_of ".", bytes_of "&")])).
      2:{ intros r'. rewrite <- (Nat.add_0_r j), (Hn 0%nat (writes c) eq_refl), I1. cbn [bind].
          replace (Nat.eqb _ _) with false by (symmetry; apply Nat.eqb_neq; lia).
          rewrite begin_put, emit_app. reflexivity. }
      cbn [bind]. rewrite I2.
      + rewrite emit_app, emit_app, emit_cons. reflexivity.
      + simpl; lia.
      + intros k w Hk. replace (Datatypes.S j + k + i * cols)%nat with (j + Datatypes.S k + i * cols)%nat by lia.
        apply Hn. exact Hk.
  Qed.

  (** * Every sound list has an outline *)
  Section Induction.
    Variable P : snode N -> Prop.
    Definition opt (o : option (snode N)) : Prop := match o with None => True | Some n => P n end.
    Hypothesis Hsym : forall f c, P (SSym f c).
    Hypothesis Hlist : forall l, Forall P l -> P (SList l).
    Hypothesis Hhbox : forall m r l, Forall P l -> P (SHBox m r l).
    Hypothesis Hvbox : forall m r l, Forall P l -> P (SVBox m r l).
    Hypothesis Hchar : forall c, P (SChar c).
    Hypothesis Hglue : forall g, P (SGlue g).
    Hypothesis Hkern : forall x, P (SKern x).
    Hypothesis Hatom : forall t a b c, opt a -> opt b -> opt c -> P (SAtom t a b c).
    Hypothesis Hfrac : forall a b, Forall P a -> Forall P b -> P (SFrac a b).
    Hypothesis Hroot : forall a b, Forall P a -> Forall P b -> P (SRoot a b).
    Hypothesis Hmatrix : forall cells cols, Forall (Forall P) cells -> P (SMatrix cells cols).
    Hypothesis Hbox : forall m, P (SBox m).
    Hypothesis Halien : P SAlien.

    Fixpoint snode_ind' (n : snode N) : P n :=
      let lst := fix lst (l : list (snode N)) : Forall P l :=
        match l with [] => Forall_nil _ | x :: r => Forall_cons x (snode_ind' x) (lst r) end in
      let fld (o : option (snode N)) : opt o :=
        match o with None => I | Some x => snode_ind' x end in
      match n with
      | SSym f c => Hsym f c
      | SList l => Hlist l (lst l)
      | SHBox m r l => Hhbox m r l (lst l)
      | SVBox m r l => Hvbox m r l (lst l)
      | SChar c => Hchar c
      | SGlue g => Hglue g
      | SKern x => Hkern x
      | SAtom t a b c => Hatom t a b c (fld a) (fld b) (fld c)
      | SFrac a b => Hfrac a b (lst a) (lst b)
      | SRoot a b => Hroot a b (lst a) (lst b)
      | SMatrix cells cols => Hmatrix cells cols
          ((fix lst2 (l : list (list (snode N))) : Forall (Forall P) l :=
              match l with [] => Forall_nil _ | x :: r => Forall_cons x (lst x) (lst2 r) end) cells)
      | SBox m => Hbox m
      | SAlien => Halien
      end.
  End Induction.

  Definition drawn (n : snode N) : Prop := sound n -> forall p, exists ls, outline fmt p n ls.

  Lemma drawn_list l : Forall drawn l -> sounds l -> forall p, exists ls, outlines fmt p l ls.
  Proof.
    induction 1 as [|n r Hn _ IH]; intros Hs p; [exists []; constructor|].
    destruct Hs as [H1 H2]. destruct (Hn H1 p) as (l1 & O1). destruct (IH H2 p) as (l2 & O2).
    exists (l1 ++ l2). constructor; assumption.
  Qed.

  Lemma drawn_field o : opt drawn o -> match o with None => True | Some n => sound n end ->
    forall p, exists ls, outline_field fmt p o ls.
  Proof.
    destruct o as [n|]; simpl; intros H Hs p; [|exists []; constructor].
    destruct (H Hs p) as (ls & O). exists ls. constructor; assumption.
  Qed.

  Lemma chunks {A} (cols : nat) : (0 < cols)%nat -> forall k (l : list A), (List.length l <= k)%nat ->
    exists rows rest, l = List.concat rows ++ rest /\ (List.length rest < cols)%nat /\
      Forall (fun r => List.length r = cols) rows.
  Proof.
    intros Hc. induction k as [|k IH]; intros l Hl.
    - destruct l; [|simpl in Hl; lia]. exists [], []. repeat split; simpl; auto.
    - destruct (Nat.lt_ge_cases (List.length l) cols) as [H|H].
      + exists [], l. repeat split; auto.
      + destruct (IH (skipn cols l)) as (rows & rest & E & Hr & Hf); [rewrite skipn_length; lia|].
        exists (firstn cols l :: rows), rest. repeat split; auto.
        * cbn [List.concat]. rewrite <- app_assoc, <- E. symmetry. apply firstn_skipn.
        * constructor; [|exact Hf]. apply firstn_length_le. exact H.
  Qed.

  Definition cells_ready (cells : list (list (snode N))) : Prop :=
    forall c, In c cells -> forall p, exists ls, outlines fmt p c ls.

  Lemma drawn_cells r : r <> [] -> cells_ready r -> forall p, exists ls, outline_cells fmt p r ls.
  Proof.
    induction r as [|c r IH]; intros Hne Hr p; [congruence|].
    destruct (Hr c (or_introl eq_refl) (p ++ bytes_of ".")) as (l1 & O1).
    destruct r as [|d r]; [exists l1; constructor; assumption|].
    destruct (IH ltac:(discriminate) (fun x H => Hr x (or_intror H)) p) as (l2 & O2).
    eexists. constructor; eassumption.
  Qed.

  Lemma drawn_rows cols rows : (0 < cols)%nat -> Forall (fun r => List.length r = cols) rows ->
    cells_ready (List.concat rows) -> forall p, exists ls, outline_rows fmt p rows ls.
  Proof.
    intros Hc. induction 1 as [|r rows Hr _ IH]; intros Hk p; [exists []; constructor|].
    destruct (drawn_cells r) with (p := p) as (l1 & O1).
    { destruct r; simpl in Hr; [lia|discriminate]. }
    { intros c H. apply Hk. cbn [List.concat]. apply in_or_app; auto. }
    destruct (IH) with (p := p) as (l2 & O2).
    { intros c H. apply Hk. cbn [List.concat]. apply in_or_app; auto. }
    eexists. constructor; eassumption.
  Qed.

  Fixpoint sounds2 (l : list (list (snode N))) : Prop :=
    match l with [] => True | c :: r => sounds c /\ sounds2 r end.

  Theorem outline_exists n : drawn n.
  Proof.
    induction n using snode_ind'; intros Hs p.
    - destruct (spells_ex c Hs) as (t & Ht). eexists. constructor; exact Ht.
    - destruct (drawn_list l H Hs p) as (ls & O). exists ls. constructor; exact O.
    - destruct (drawn_list l H Hs (p ++ bytes_of ".")) as (ls & O). eexists. constructor; exact O.
    - destruct (drawn_list l H Hs (p ++ bytes_of ".")) as (ls & O). eexists. constructor; exact O.
    - destruct (spells_ex c Hs) as (t & Ht). eexists. constructor; exact Ht.
    - eexists. constructor.
    - eexists. constructor.
    - destruct Hs as (Ht & Ha & Hb & Hc).
      destruct (drawn_field a H Ha (p ++ bytes_of ".")) as (l1 & O1).
      destruct (drawn_field b H0 Hb (p ++ bytes_of "^")) as (l2 & O2).
      destruct (drawn_field c H1 Hc (p ++ bytes_of "_")) as (l3 & O3).
      assert (exists x, class_text t x) as (x & Hx).
      { assert (t = 0 \/ t = 1 \/ t = 2 \/ t = 3 \/ t = 4 \/ t = 5 \/ t = 6 \/ t = 7 \/ t = 8 \/ t = 9 \/ t = 10 \/ t = 11 \/ t = 12) as D by lia.
        repeat (destruct D as [->|D]; [try (eexists; constructor; fail); exists []; apply ct_none; simpl; tauto|]).
        subst t. exists []; apply ct_none; simpl; tauto. }
      eexists. econstructor; eassumption.
    - destruct Hs as (Ha & Hb).
      destruct (drawn_list a H Ha (p ++ bytes_of "\")) as (l1 & O1).
      destruct (drawn_list b H0 Hb (p ++ bytes_of "/")) as (l2 & O2).
      eexists. constructor; eassumption.
    - destruct Hs as (Ha & Hb).
      destruct (drawn_list a H Ha (p ++ bytes_of "\")) as (l1 & O1).
      destruct (drawn_list b H0 Hb (p ++ bytes_of "/")) as (l2 & O2).
      eexists. constructor; eassumption.
    - destruct Hs as (Hc & Hz & Hs). change (sounds2 cells) in Hs.
      assert (cells_ready cells) as R.
      { clear -H Hs. induction H as [|c r Hc _ IH]; intros x [].
        - subst x. apply drawn_list; [exact Hc|apply Hs].
        - apply IH; [apply Hs|assumption]. }
      destruct (chunks cols Hc (List.length cells) cells (le_n _)) as (rows & rest & E & Hr & Hf).
      destruct (drawn_rows cols rows Hc Hf) with (p := p) as (ls & O).
      { intros c Hin. apply R. rewrite E. apply in_or_app; auto. }
      rewrite E. eexists. apply o_matrix; eassumption.
    - eexists. constructor.
    - eexists. constructor.
  Qed.

  Lemma outlines_exist l : sounds l -> forall p, exists ls, outlines fmt p l ls.
  Proof. apply drawn_list. apply Forall_forall. intros n _. apply outline_exists. Qed.

  (** * The text *)
  Definition tail_text (ls : list (list Z)) : list Z := List.concat (List.map (cons 10) ls).

  Lemma emit_nonempty ls : forall r, r <> [] -> emit r ls = r ++ tail_text (List.map rendered ls).
  Proof.
    induction ls as [|x ls IH]; intros r Hr; [unfold tail_text; simpl; rewrite app_nil_r; reflexivity|].
    rewrite emit_cons, IH.
    - unfold emit1, newline. destruct r; [congruence|]. unfold tail_text. cbn [List.map List.concat].
      rewrite <- !app_assoc. reflexivity.
    - unfold emit1, newline. destruct r; [congruence|]. discriminate.
  Qed.

  Lemma joined_tail x ls : joined (x :: ls) = x ++ tail_text ls.
  Proof.
    revert x; induction ls as [|y ls IH]; intros x; [simpl; unfold tail_text; simpl; rewrite app_nil_r; reflexivity|].
    change (joined (x :: y :: ls)) with (x ++ 10 :: joined (y :: ls)). rewrite IH. reflexivity.
  Qed.

  Lemma emit_text ls : emit [] ls = joined (without_empty_start (List.map rendered ls)).
  Proof.
    induction ls as [|x ls IH]; [reflexivity|]. rewrite emit_cons. unfold emit1, newline. cbn [app].
    cbn [List.map]. destruct (rendered x) as [|c t] eqn:E; [exact IH|].
    rewrite emit_nonempty by discriminate.
    change (without_empty_start ((c :: t) :: List.map rendered ls)) with ((c :: t) :: List.map rendered ls).
    rewrite joined_tail. reflexivity.
  Qed.

  Theorem showlists_text l ls : outlines fmt [] l ls ->
    showlists_state fmt l = Ok (mkS [] (joined (without_empty_start (List.map rendered ls)))).
  Proof.
    intros O. unfold showlists_state. destruct outline_written as (_ & W & _).
    rewrite (W [] l ls O), emit_text. reflexivity.
  Qed.

  (** * Lines of the text *)
  Lemma text_lines_one x t : ~ In 10 x -> text_lines (x ++ 10 :: t) = x :: text_lines t.
  Proof.
    induction x as [|c x IH]; intros H; [reflexivity|]. cbn [app text_lines].
    destruct (Z.eqb_spec c 10) as [->|Hc]; [exfalso; apply H; left; reflexivity|].
    rewrite IH; [reflexivity|]. intros H'; apply H; right; exact H'.
  Qed.
  Lemma text_lines_last x : ~ In 10 x -> text_lines x = [x].
  Proof.
    induction x as [|c x IH]; intros H; [reflexivity|]. cbn [text_lines].
    destruct (Z.eqb_spec c 10) as [->|Hc]; [exfalso; apply H; left; reflexivity|].
    rewrite IH; [reflexivity|]. intros H'; apply H; right; exact H'.
  Qed.
  Lemma text_lines_joined ls : ls <> [] -> Forall (fun x => ~ In 10 x) ls -> text_lines (joined ls) = ls.
  Proof.
    induction ls as [|x ls IH]; intros Hne H; [congruence|]. inversion H as [|? ? Hx Hr]; subst.
    destruct ls as [|y ls]; [apply text_lines_last; exact Hx|].
    change (joined (x :: y :: ls)) with (x ++ 10 :: joined (y :: ls)).
    rewrite text_lines_one by exact Hx. rewrite IH; [reflexivity|discriminate|exact Hr].
  Qed.

  (** * No newlines inside lines *)
  Definition clean (t : list Z) : Prop := ~ In 10 t.
  Lemma clean_app a b : clean a -> clean b -> clean (a ++ b).
  Proof. unfold clean. intros H1 H2 H. apply in_app_or in H. tauto. Qed.
  Lemma clean_dec t : (if in_dec Z.eq_dec 10 t then false else true) = true -> clean t.
  Proof. unfold clean. destruct (in_dec Z.eq_dec 10 t); [discriminate|auto]. Qed.

  Lemma uint_clean u : clean (bytes_of (NilEmpty.string_of_uint u)).
  Proof. unfold clean. induction u; simpl; intros H; first [contradiction | destruct H as [H|H]; [discriminate|auto]]. Qed.
  Lemma uint0_clean u : clean (bytes_of (NilZero.string_of_uint u)).
  Proof. destruct u; try apply uint_clean. apply clean_dec. reflexivity. Qed.
  Lemma int_clean z : clean (bytes_of (NilZero.string_of_int z)).
  Proof.
    destruct z as [u|u]; cbn [NilZero.string_of_int]; [apply uint0_clean|].
    intros [H|H]; [discriminate|exact (uint0_clean u H)].
  Qed.

  Lemma utf8_clean c t : utf8 c t -> c <> 10 -> clean t.
  Proof.
    intros H Hc Hin. inversion H; subst; cbn [In] in Hin;
      repeat match goal with H : _ \/ _ |- _ => destruct H end; try lia; try contradiction.
  Qed.
  Lemma spells_clean c t : spells c t -> c <> 10 -> clean t.
  Proof. intros [[_ ->]|[_ H]] Hc; [intros []|eapply utf8_clean; eassumption]. Qed.

  Hypothesis Hfmt : forall x, clean (fmt x).

  Lemma metrics_clean m : clean (metrics_text fmt m).
  Proof. unfold metrics_text. repeat apply clean_app; auto; apply clean_dec; reflexivity. Qed.
  Lemma set_clean r : clean (set_text fmt r).
  Proof. unfold set_text. destruct (neqb r n0); [intros []|]. apply clean_app; auto. apply clean_dec; reflexivity. Qed.
  Lemma unit_clean o : clean (unit_text o).
  Proof. destruct o; apply clean_dec; reflexivity. Qed.
  Lemma glue_clean g : clean (glue_text fmt g).
  Proof.
    unfold glue_text. repeat apply clean_app; auto; try (apply clean_dec; reflexivity).
    destruct (_ && _); [intros []|]. repeat apply clean_app; auto using unit_clean; apply clean_dec; reflexivity.
  Qed.
  Lemma class_clean t x : class_text t x -> clean x.
  Proof. destruct 1; apply clean_dec; reflexivity. Qed.

  Definition pure (ls : list line) : Prop := Forall (fun x => clean (rendered x)) ls.
  Fixpoint plains2 (l : list (list (snode N))) : Prop :=
    match l with [] => True | c :: r => plains c /\ plains2 r end.
  Definition plain_field (o : option (snode N)) : Prop := match o with None => True | Some n => plain n end.

  Lemma pure_app a b : pure a -> pure b -> pure (a ++ b).
  Proof. intros H1 H2. apply Forall_app; auto. Qed.
  Lemma pure_cons p t ls : clean p -> clean t -> pure ls -> pure ((p, t) :: ls).
  Proof. intros H1 H2 H. constructor; [|exact H]. apply clean_app; assumption. Qed.
  Lemma plains2_app a b : plains2 (a ++ b) -> plains2 a /\ plains2 b.
  Proof. induction a as [|x a IH]; simpl; tauto. Qed.

  Ltac cl := first [assumption | apply metrics_clean | apply set_clean | apply glue_clean | apply int_clean
    | apply Hfmt | (apply clean_dec; reflexivity) | (apply clean_app; cl) | eapply spells_clean; eassumption
    | eapply class_clean; eassumption].

  Theorem outline_clean :
    (forall p n ls, outline fmt p n ls -> clean p -> plain n -> pure ls) /\
    (forall p l ls, outlines fmt p l ls -> clean p -> plains l -> pure ls) /\
    (forall p o ls, outline_field fmt p o ls -> clean p -> plain_field o -> pure ls) /\
    (forall p rows ls, outline_rows fmt p rows ls -> clean p -> plains2 (List.concat rows) -> pure ls) /\
    (forall p r ls, outline_cells fmt p r ls -> clean p -> plains2 r -> pure ls).
  Proof.
    apply outline_mut.
    - intros p fam c t H Hp Hn. apply pure_cons; [cl| |constructor]. cbn [plain] in Hn. repeat apply clean_app; cl.
    - intros p l ls _ IH Hp Hn. apply IH; assumption.
    - intros p m r l ls _ IH Hp Hn. apply pure_cons; [cl| cl|]. apply IH; [cl|exact Hn].
    - intros p m r l ls _ IH Hp Hn. apply pure_cons; [cl| cl|]. apply IH; [cl|exact Hn].
    - intros p c t H Hp Hn. apply pure_cons; [cl| |constructor]. cbn [plain] in Hn. cl.
    - intros p g Hp _. apply pure_cons; [cl|cl|constructor].
    - intros p x Hp _. apply pure_cons; [cl|cl|constructor].
    - intros p ty nuc sup sub t l1 l2 l3 Ht _ I1 _ I2 _ I3 Hp (H1 & H2 & H3).
      apply pure_cons; [cl|cl|]. repeat apply pure_app; [apply I1|apply I2|apply I3]; try assumption; cl.
    - intros p a b l1 l2 _ I1 _ I2 Hp (H1 & H2).
      apply pure_cons; [cl|cl|]. apply pure_app; [apply I1|apply I2]; try assumption; cl.
    - intros p a b l1 l2 _ I1 _ I2 Hp (H1 & H2).
      apply pure_cons; [cl|cl|]. apply pure_app; [apply I1|apply I2]; try assumption; cl.
    - intros p rows rest cols ls _ _ _ _ _ IH Hp Hn. change (plains2 (List.concat rows ++ rest)) in Hn.
      apply plains2_app in Hn. apply pure_cons; [cl| |].
      + repeat apply clean_app; cl.
      + apply IH; [exact Hp|apply Hn].
    - intros p m Hp _. apply pure_cons; [cl|cl|constructor].
    - intros p Hp _. apply pure_cons; [cl|cl|constructor].
    - constructor.
    - intros p n r l1 l2 _ I1 _ I2 Hp (H1 & H2). apply pure_app; auto.
    - constructor.
    - intros p n l _ IH Hp Hn. apply IH; assumption.
    - constructor.
    - intros p r rows l1 l2 _ I1 _ I2 Hp Hn. cbn [List.concat] in Hn. apply plains2_app in Hn.
      apply pure_app; [apply I1; tauto|]. apply pure_cons; [cl|cl|]. apply I2; tauto.
    - intros p c l _ IH Hp (Hc & _). apply IH; [cl|exact Hc].
    - intros p c d r l1 l2 _ I1 _ I2 Hp (Hc & Hr).
      apply pure_app; [apply I1; [cl|exact Hc]|]. apply pure_cons; [cl|cl|]. apply I2; assumption.
  Qed.

  Theorem showlists_lines l ls x r : outlines fmt [] l ls -> plains l ->
    ls = x :: r -> rendered x <> [] ->
    exists t, showlists fmt l = Ok t /\ text_lines t = List.map rendered ls.
  Proof.
    intros O Hn E Hx. unfold showlists. rewrite (showlists_text l ls O). cbn [rmap s_result].
    eexists. split; [reflexivity|]. destruct outline_clean as (_ & C & _).
    assert (pure ls) as P by (apply (C [] l ls O); [intros []|exact Hn]).
    assert (without_empty_start (List.map rendered ls) = List.map rendered ls) as W.
    { subst ls. cbn [List.map]. destruct (rendered x) as [|c t]; [congruence|reflexivity]. }
    rewrite W. apply text_lines_joined; [subst ls; discriminate|].
    apply Forall_map. exact P.
  Qed.
End Proofs.
