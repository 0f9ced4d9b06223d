(** Which texts the equation editor can show. *)
From Coq Require Import List Ascii String ZArith Bool Arith Lia.
From Verif.Base Require Import Result Num.
From Verif.Model Require Import Token Lexer Box MathList MathParser MathTypeset MathFrontend.
From Verif.Spec Require Import LexerSpec MathSpec TypesetSpec EquationSpec TypesetOkSpec EquationOkSpec.
From Verif.Proofs Require Import LexerProofs FormulaProofs MathProofs TypesetTotal EquationProofs
  MathParserSafe MathParserCareful MathParserHeap MathParserStore MathParserStyles TypesetOk TypesetFails.
From Verif.Proofs Require TypesetNoThrow.
Import ListNotations.
Local Open Scope nat_scope.

Lemma last_default {A} : forall (l : list A) x d d', last (x :: l) d = last (x :: l) d'.
Proof. induction l as [|y l IH]; intros x d d'; [reflexivity|]. apply (IH y). Qed.

(** * Lists without boxes *)
Section Unboxed.
  Context {N : Num}.
  Lemma unboxed_known_size : forall k,
    (forall n : mnode N, node_size n <= k -> unboxed n = true -> known n = true) /\
    (forall l : list (mnode N), list_size l <= k -> forallb unboxed l = true -> forallb known l = true) /\
    (forall f : option (mfield N), opt_nat field_size f <= k -> opt_bool unboxed_field f = true -> opt_bool known_field f = true).
  Proof.
    induction k as [|k (IHn & IHl & IHf)].
    - refine (conj _ (conj _ _)).
      + intros n Hn. destruct n; cbn [node_size] in Hn; lia.
      + intros [|n l] Hl _; [reflexivity|]. rewrite list_size_cons in Hl. destruct n; cbn [node_size] in Hl; lia.
      + intros [[y|n|l|]|] Hf H; try reflexivity; try discriminate H. cbn [opt_nat field_size] in Hf. lia.
    - assert (An : forall n : mnode N, node_size n <= Datatypes.S k -> unboxed n = true -> known n = true).
      { intros n Hn H. destruct n as [a|s|a b|a b|c m|s|g m|n]; try reflexivity; try discriminate H.
        - destruct a as [t nu sb sp ac li].
          assert (A : (opt_bool unboxed_field nu && opt_bool unboxed_field sb && opt_bool unboxed_field sp
                      && match li with NoLimits => true | _ => false end)%bool = true) by exact H.
          apply andb_true_iff in A. destruct A as [A _]. apply andb_true_iff in A. destruct A as [A A3].
          apply andb_true_iff in A. destruct A as [A1 A2].
          change (Datatypes.S (opt_nat field_size nu + opt_nat field_size sb + opt_nat field_size sp) <= Datatypes.S k) in Hn.
          change ((opt_bool known_field nu && opt_bool known_field sb && opt_bool known_field sp)%bool = true).
          rewrite !IHf; auto; lia.
        - assert (A : (forallb unboxed a && forallb unboxed b)%bool = true) by exact H. apply andb_true_iff in A. destruct A as [A1 A2].
          change (Datatypes.S (list_size a + list_size b) <= Datatypes.S k) in Hn.
          change ((forallb known a && forallb known b)%bool = true). rewrite !IHl; auto; lia.
        - assert (A : (forallb unboxed a && forallb unboxed b)%bool = true) by exact H. apply andb_true_iff in A. destruct A as [A1 A2].
          change (Datatypes.S (list_size a + list_size b) <= Datatypes.S k) in Hn.
          change ((forallb known a && forallb known b)%bool = true). rewrite !IHl; auto; lia.
        - assert (A : forallb (forallb unboxed) c = true) by exact H.
          change (Datatypes.S (list_sum (map list_size c)) <= Datatypes.S k) in Hn.
          change (forallb (forallb known) c = true). clear H. revert A Hn. induction c as [|l c IH]; intros A Hn; [reflexivity|].
          cbn [forallb map list_sum fold_right] in *. apply andb_true_iff in A. destruct A as [A1 A2].
          fold (list_sum (map list_size c)) in Hn.
          rewrite IHl; [|lia|exact A1]. apply IH; [exact A2|lia]. }
      assert (Al : forall l : list (mnode N), list_size l <= Datatypes.S k -> forallb unboxed l = true -> forallb known l = true).
      { induction l as [|n l IH]; intros Hl H; [reflexivity|]. rewrite list_size_cons in Hl. cbn [forallb] in *.
        apply andb_true_iff in H. destruct H as [H1 H2]. rewrite An; [|lia|exact H1]. apply IH; [lia|exact H2]. }
      refine (conj An (conj Al _)).
      intros [[y|n|l|]|] Hf H; try reflexivity; try discriminate H.
      change (Datatypes.S (list_size l) <= Datatypes.S k) in Hf. change (forallb known l = true). apply IHl; [lia|exact H].
  Qed.
  Lemma unboxed_known (l : list (mnode N)) : unboxed_list l = true -> known_list l = true.
  Proof. apply (proj1 (proj2 (unboxed_known_size (list_size l)))). lia. Qed.

  Theorem typesets_iff (E : engine N) : char_engine E -> self_equal N ->
    forall l p s n, unboxed_list l = true -> list_size l < n ->
    (fine l = true -> exists r, mlist2hlist E n p s l = Ok r) /\
    (fine l = false -> mlist2hlist E n p s l = UB \/ mlist2hlist E n p s l = Abort).
  Proof.
    intros HE HN l p s n Hu Hn.
    destruct (TypesetNoThrow.typeset_no_exception E n p s l Hn (unboxed_known l Hu)) as [NF NT].
    split; intros Hf.
    - pose proof (mlist2hlist_safe E HE HN n p s l Hf) as Hs.
      destruct (mlist2hlist E n p s l) as [r| | | |]; try contradiction; try congruence; eauto.
    - destruct (mlist2hlist E n p s l) as [r| | | |] eqn:Er; try congruence; auto.
      rewrite (typesets_fine E n p s l r Hu Er) in Hf. discriminate Hf.
  Qed.
End Unboxed.

(** * From the store to the formula *)
Section Formula.
  Variables (b : bool) (w : world) (h : nat -> list MathParser.hnode).
  Hypothesis HH : heap_ok b w h.

  Lemma bound_exists : exists K, forall i, i < w_n w -> w_r w i <= K.
  Proof.
    generalize (w_n w). induction n as [|n [K IH]]; [exists 0; intros; lia|].
    exists (Nat.max K (w_r w n)). intros i Hi. destruct (Nat.eq_dec i n); [subst; lia|]. specialize (IH i). lia.
  Qed.
  Lemma read_all (K : nat) : (forall i, i < w_n w -> w_r w i <= K) ->
    forall d i, i < w_n w -> K - w_r w i < d -> exists ts, r_list h (h i) ts.
  Proof.
    intros HK. induction d as [|d IH]; intros i Hi Hd; [lia|].
    assert (SUB : forall j, below_of w i j -> exists ts, r_list h (h j) ts).
    { intros j [Hj Hr]. apply IH; [exact Hj|]. specialize (HK j Hj). lia. }
    assert (REF : forall r, ref_ok w i r -> exists c, r_ref h r c).
    { intros [[y|j]|] Hr; [exists (Sym y); constructor| |exists Nothing; constructor].
      destruct (SUB j Hr) as [ts Hts]. exists (Formula ts). constructor. exact Hts. }
    destruct (HH i Hi) as [F _]. induction F as [|x l Hx _ IHl]; [exists []; constructor|].
    destruct IHl as [ts Hts].
    enough (A : exists t, r_node h x t) by (destruct A as [t Ht]; exists (t :: ts); constructor; auto).
    destruct x as [ty a p q|s|a d'|a d'|cells cols|s]; cbn [node_ok] in Hx.
    - destruct Hx as [_ [H1 [H2 H3]]]. destruct (REF _ H1) as [c1 R1]. destruct (REF _ H2) as [c2 R2].
      destruct (REF _ H3) as [c3 R3]. eexists. constructor; eauto.
    - eexists. constructor.
    - destruct Hx as [[H1 _] [H2 _]]. destruct (SUB _ H1) as [c1 R1]. destruct (SUB _ H2) as [c2 R2].
      eexists. constructor; eauto.
    - destruct Hx as [[H1 _] [H2 _]]. destruct (SUB _ H1) as [c1 R1]. destruct (SUB _ H2) as [c2 R2].
      eexists. apply r_root; eauto.
    - destruct Hx as [_ H1]. assert (A : exists xs, r_lists h cells xs).
      { induction H1 as [|j cells [Hj _] _ [xs IHc]]; [exists []; constructor|].
        destruct (SUB j Hj) as [c R]. exists (c :: xs). constructor; auto. }
      destruct A as [xs Hxs]. eexists. constructor; eauto.
    - eexists. constructor.
  Qed.
  Lemma reads_formula : forall i, i < w_n w -> exists ts, r_list h (h i) ts.
  Proof. destruct bound_exists as [K HK]. intros i Hi. eapply read_all; eauto. Qed.

  (** flags *)
  Lemma node_flags : forall x t, r_node h x t -> style_tree t = negb (nonstyle x) /\ boundary_tree t = isb x.
  Proof. intros x t R. inversion R; subst; split; reflexivity. Qed.
  Lemma list_flags : forall l ts, r_list h l ts -> Forall2 (fun x t => style_tree t = negb (nonstyle x) /\ boundary_tree t = isb x) l ts.
  Proof.
    induction l as [|x l IH]; intros ts R; inversion R; subst; constructor; auto. apply node_flags; auto.
  Qed.
  Lemma bounded_closed : forall l ts, r_list h l ts -> bounded l -> closed ts = true.
  Proof.
    intros l ts R B. apply list_flags in R. unfold bounded in B. unfold closed.
    assert (F : Forall2 (fun x t => boundary_tree t = isb x) (filter nonstyle l) (filter (fun t => negb (style_tree t)) ts)).
    { clear B. induction R as [|x t l ts [E1 E2] _ IH]; [constructor|]. cbn [filter]. rewrite E1, negb_involutive.
      destruct (nonstyle x); [constructor; auto|exact IH]. }
    assert (L : forall r rs, Forall2 (fun x t => boundary_tree t = isb x) r rs -> forall x t, boundary_tree t = isb x ->
              boundary_tree (last (t :: rs) t) = isb (last (x :: r) x)).
    { clear. intros r rs F. induction F as [|y u r rs E F IH]; intros x t E1; [exact E1|].
      change (boundary_tree (last (u :: rs) t) = isb (last (y :: r) x)).
      rewrite (last_default rs u t u), (last_default r y x y). apply IH; auto. }
    destruct F as [|x t r rs E1 F]; [reflexivity|]. rewrite (L _ _ F _ _ E1), E1.
    destruct (isb x); [|reflexivity]. cbn [implb]. apply B. reflexivity.
  Qed.

  (** every list is bounded: so are those of the formula *)
  Lemma closed_everywhere : (forall i, i < w_n w -> bounded (h i)) ->
    (forall x t, r_node h x t -> forall i, node_ok w i x -> inside closed t = true) /\
    (forall r c, r_ref h r c -> forall i, ref_ok w i r -> field_in closed c = true) /\
    (forall l ts, r_list h l ts -> forall i, Forall (node_ok w i) l -> forallb (inside closed) ts = true) /\
    (forall is xs, r_lists h is xs -> forall i, Forall (plainly w i) is ->
       forallb (fun l => forallb (inside closed) l && closed l) xs = true).
  Proof.
    intros HB.
    assert (SUB : forall j ts, j < w_n w -> r_list h (h j) ts ->
      (forall i, Forall (node_ok w i) (h j) -> forallb (inside closed) ts = true) ->
      (forallb (inside closed) ts && closed ts)%bool = true).
    { intros j ts Hj R A. rewrite (A j); [|apply HH; exact Hj]. apply (bounded_closed (h j)); [exact R|]. apply HB; exact Hj. }
    apply r_ind.
    - intros ty a p q x y z _ H1 _ H2 _ H3 i [_ [Q1 [Q2 Q3]]].
      change ((field_in closed x && match y with Nothing => field_in closed z | _ => field_in closed y end)%bool = true).
      rewrite (H1 _ Q1). specialize (H2 _ Q2). specialize (H3 _ Q3). destruct y; auto.
    - reflexivity.
    - intros n d x y R1 H1 R2 H2 i [[Q1 _] [Q2 _]].
      change (((forallb (inside closed) x && closed x) && (forallb (inside closed) y && closed y))%bool = true).
      rewrite (SUB n), (SUB d); auto; [apply Q2|apply Q1].
    - intros n d x y R1 H1 R2 H2 i [[Q1 _] [Q2 _]].
      change (((forallb (inside closed) x && closed x) && (forallb (inside closed) y && closed y))%bool = true).
      rewrite (SUB n), (SUB d); auto; [apply Q2|apply Q1].
    - intros is cols xs _ H1 i [_ Q]. exact (H1 _ Q).
    - reflexivity.
    - reflexivity.
    - reflexivity.
    - intros i x R H j Q. exact (SUB i x (proj1 Q) R H).
    - reflexivity.
    - intros n t l x _ H1 _ H2 i Q. inversion Q; subst. cbn [forallb]. rewrite (H1 i), (H2 i); auto.
    - reflexivity.
    - intros i x is xs R H1 _ H2 j Q. inversion Q as [|? ? [Q1 _] Q2]; subst. cbn [forallb].
      rewrite (SUB i), (H2 j); auto. apply Q1.
  Qed.

  (** what the typesetter needs *)
  Definition shows (l : list tree) : bool := negb (only_styles l) && closed l.
  Context {N : Num}.
  Notation value := (value (N := N)).
  Lemma value_style t : is_style (value t) = style_tree t.
  Proof. destruct t; reflexivity. Qed.
  Lemma value_boundary t : is_boundary (value t) = boundary_tree t.
  Proof. destruct t; reflexivity. Qed.
  Lemma framed_value l : framed (map value l) = shows l.
  Proof.
    unfold framed, shows, closed.
    assert (F : filter (fun n => negb (is_style n)) (map value l) = map value (filter (fun t => negb (style_tree t)) l)).
    { induction l as [|t l IH]; [reflexivity|]. cbn [map filter]. rewrite value_style, IH. destruct (style_tree t); reflexivity. }
    assert (O : l <> [] -> only_styles l = match filter (fun t => negb (style_tree t)) l with [] => true | _ => false end).
    { clear. unfold only_styles. destruct l as [|t l]; [contradiction|]. intros _. generalize (t :: l). clear.
      induction l as [|t l IH]; [reflexivity|]. cbn [forallb filter]. rewrite IH. destruct (style_tree t); reflexivity. }
    destruct l as [|t l]; [reflexivity|]. cbn [map] in F |- *. rewrite F, O by discriminate.
    destruct (filter _ (t :: l)) as [|x r]; [reflexivity|]. cbn [map negb andb]. rewrite value_boundary.
    assert (LM : forall r x, is_boundary (last (value x :: map value r) (value x)) = boundary_tree (last (x :: r) x)).
    { clear. induction r as [|y r IH]; intros x; [apply value_boundary|].
      change (is_boundary (last (value y :: map value r) (value x)) = boundary_tree (last (y :: r) x)).
      rewrite (last_default _ _ _ (value y)), (last_default r y x y). apply IH. }
    rewrite LM. reflexivity.
  Qed.

  Lemma fonts_sym y : code_sym y -> has_fonts y = true.
  Proof. intros [_ [A B]]. unfold has_fonts. apply andb_true_iff. rewrite !Z.leb_le. auto. Qed.
  Lemma fine_value :
    (forall x t, r_node h x t -> forall i, node_ok w i x -> fine_node (value t) = inside shows t) /\
    (forall r c, r_ref h r c -> forall i, ref_ok w i r ->
       opt_bool fine_field (part (N := N) c) = field_in shows c /\ opt_bool attachable (part (N := N) c) = true /\
       (c = Nothing <-> r = None)) /\
    (forall l ts, r_list h l ts -> forall i, Forall (node_ok w i) l -> forallb fine_node (map value ts) = forallb (inside shows) ts) /\
    (forall is xs, r_lists h is xs -> forall i, Forall (plainly w i) is ->
       forallb (fun l => forallb fine_node l && framed l) (map (map value) xs)
       = forallb (fun l => forallb (inside shows) l && shows l) xs).
  Proof.
    assert (SUB : forall j ts, j < w_n w ->
      (forall i, Forall (node_ok w i) (h j) -> forallb fine_node (map value ts) = forallb (inside shows) ts) ->
      (forallb fine_node (map value ts) && framed (map value ts))%bool = (forallb (inside shows) ts && shows ts)%bool).
    { intros j ts Hj A. rewrite (A j); [|apply HH; exact Hj]. rewrite framed_value. reflexivity. }
    apply r_ind.
    - intros ty a p q x y z _ H1 _ H2 _ H3 i [[T1 [T2 T3]] [Q1 [Q2 Q3]]]. cbn [b_type b_nuc b_sup b_sub] in *.
      destruct (H1 _ Q1) as (F1 & _ & N1). destruct (H2 _ Q2) as (F2 & A2 & _). destruct (H3 _ Q3) as (F3 & A3 & _).
      change (fine_node (value (TAtom ty x y z))) with
        (((Ord <=? ty) && (ty <=? Vcent))%Z && opt_bool fine_field (part (N := N) x)
          && match part (N := N) y with
             | Some f => fine_field f && attachable f
             | None => opt_bool (fun f => fine_field f && attachable f) (part (N := N) z)
             end
          && (if (ty =? Op)%Z then match part (N := N) x with Some _ => true | None => false end else true)
          && (if (ty =? Acc)%Z then false else true) && true)%bool.
      change (inside shows (TAtom ty x y z)) with
        (field_in shows x && match y with Nothing => field_in shows z | _ => field_in shows y end)%bool.
      replace ((Ord <=? ty) && (ty <=? Vcent))%Z with true
        by (symmetry; apply andb_true_iff; rewrite !Z.leb_le; unfold Ord, Vcent; lia).
      replace (ty =? Acc)%Z with false by (symmetry; apply Z.eqb_neq; exact T2).
      assert (O : (if (ty =? Op)%Z then match part (N := N) x with Some _ => true | None => false end else true) = true).
      { destruct (Z.eqb_spec ty Op) as [->|_]; [|reflexivity]. destruct x; try reflexivity.
        exfalso. apply (T3 eq_refl). apply N1. reflexivity. }
      rewrite O, F1, !andb_true_r. cbn [andb]. f_equal.
      destruct y as [|y|y].
      + cbn [part]. destruct z as [|z|z]; cbn [part opt_bool] in *; [exact F3|rewrite F3, A3; apply andb_true_r|rewrite F3, A3; apply andb_true_r].
      + cbn [part opt_bool] in *. rewrite F2, A2. apply andb_true_r.
      + cbn [part opt_bool] in *. rewrite F2, A2. apply andb_true_r.
    - reflexivity.
    - intros n d x y R1 H1 R2 H2 i [[Q1 _] [Q2 _]].
      change (((forallb fine_node (map value x) && framed (map value x)) && (forallb fine_node (map value y) && framed (map value y)))%bool
        = ((forallb (inside shows) x && shows x) && (forallb (inside shows) y && shows y))%bool).
      rewrite (SUB n), (SUB d); auto; [apply Q2|apply Q1].
    - intros n d x y R1 H1 R2 H2 i [[Q1 _] [Q2 _]].
      change (((forallb fine_node (map value x) && framed (map value x)) && (forallb fine_node (map value y) && framed (map value y)))%bool
        = ((forallb (inside shows) x && shows x) && (forallb (inside shows) y && shows y))%bool).
      rewrite (SUB n), (SUB d); auto; [apply Q2|apply Q1].
    - intros is cols xs _ H1 i [Q0 Q].
      change ((negb (cols =? 0) && forallb (fun l => forallb fine_node l && framed l) (map (map value) xs))%bool
        = forallb (fun l => forallb (inside shows) l && shows l) xs).
      rewrite (H1 _ Q). destruct (Nat.eqb_spec cols 0); [contradiction|reflexivity].
    - reflexivity.
    - intros i _. split; [reflexivity|split; [reflexivity|tauto]].
    - intros y i Q. split; [exact (fonts_sym y Q)|split; [reflexivity|split; discriminate]].
    - intros i x R H j Q. split; [exact (SUB i x (proj1 Q) H)|split; [reflexivity|split; discriminate]].
    - reflexivity.
    - intros n t l x _ H1 _ H2 i Q. inversion Q; subst. cbn [map forallb]. rewrite (H1 i), (H2 i); auto.
    - reflexivity.
    - intros i x is xs R H1 _ H2 j Q. inversion Q as [|? ? [Q1 _] Q2]; subst. cbn [map forallb].
      rewrite (SUB i), (H2 j); auto. apply Q1.
  Qed.
  Lemma unboxed_value :
    (forall x t, r_node h x t -> unboxed (value t) = true) /\
    (forall r c, r_ref h r c -> opt_bool unboxed_field (part (N := N) c) = true) /\
    (forall l ts, r_list h l ts -> forallb unboxed (map value ts) = true) /\
    (forall is xs, r_lists h is xs -> forallb (forallb unboxed) (map (map value) xs) = true).
  Proof.
    apply r_ind; intros; try reflexivity.
    - change ((opt_bool unboxed_field (part (N := N) x) && opt_bool unboxed_field (part (N := N) z)
        && opt_bool unboxed_field (part (N := N) y) && true)%bool = true). rewrite H0, H2, H4. reflexivity.
    - change ((forallb unboxed (map value x) && forallb unboxed (map value y))%bool = true). rewrite H0, H2. reflexivity.
    - change ((forallb unboxed (map value x) && forallb unboxed (map value y))%bool = true). rewrite H0, H2. reflexivity.
    - exact H0.
    - exact H0.
    - cbn [map forallb]. rewrite H0, H2. reflexivity.
    - cbn [map forallb]. rewrite H0, H2. reflexivity.
  Qed.

  Lemma inside_both :
    (forall x t, r_node h x t -> inside shows t = inside (fun l => negb (only_styles l)) t && inside closed t) /\
    (forall r c, r_ref h r c -> field_in shows c = field_in (fun l => negb (only_styles l)) c && field_in closed c) /\
    (forall l ts, r_list h l ts -> forallb (inside shows) ts
       = forallb (inside (fun l => negb (only_styles l))) ts && forallb (inside closed) ts) /\
    (forall is xs, r_lists h is xs -> forallb (fun l => forallb (inside shows) l && shows l) xs
       = forallb (fun l => forallb (inside (fun l => negb (only_styles l))) l && negb (only_styles l)) xs
         && forallb (fun l => forallb (inside closed) l && closed l) xs).
  Proof.
    assert (AC : forall a1 a2 b1 b2, (a1 && a2) && (b1 && b2) = (a1 && b1) && (a2 && b2)) by (intros [] [] [] []; reflexivity).
    set (os := fun l => negb (only_styles l)).
    apply r_ind.
    - intros ty a b0 c x y z _ H0 _ H2 _ H4. change (field_in shows x && match y with Nothing => field_in shows z | _ => field_in shows y end
        = (field_in os x && match y with Nothing => field_in os z | _ => field_in os y end)
          && (field_in closed x && match y with Nothing => field_in closed z | _ => field_in closed y end)).
      rewrite H0. destruct y; [rewrite H4|rewrite H2|rewrite H2]; apply AC.
    - reflexivity.
    - intros n d x y _ H0 _ H2. change ((forallb (inside shows) x && shows x) && (forallb (inside shows) y && shows y)
        = ((forallb (inside os) x && os x) && (forallb (inside os) y && os y))
        && ((forallb (inside closed) x && closed x) && (forallb (inside closed) y && closed y))).
      rewrite H0, H2. unfold shows at 1 2. change (negb (only_styles x)) with (os x). change (negb (only_styles y)) with (os y).
      generalize (forallb (inside os) x) (forallb (inside closed) x) (forallb (inside os) y) (forallb (inside closed) y)
        (os x) (os y) (closed x) (closed y). intros [] [] [] [] [] [] [] []; reflexivity.
    - intros n d x y _ H0 _ H2. change ((forallb (inside shows) x && shows x) && (forallb (inside shows) y && shows y)
        = ((forallb (inside os) x && os x) && (forallb (inside os) y && os y))
        && ((forallb (inside closed) x && closed x) && (forallb (inside closed) y && closed y))).
      rewrite H0, H2. unfold shows at 1 2. change (negb (only_styles x)) with (os x). change (negb (only_styles y)) with (os y).
      generalize (forallb (inside os) x) (forallb (inside closed) x) (forallb (inside os) y) (forallb (inside closed) y)
        (os x) (os y) (closed x) (closed y). intros [] [] [] [] [] [] [] []; reflexivity.
    - intros is cols xs _ H0. exact H0.
    - reflexivity.
    - reflexivity.
    - reflexivity.
    - intros i x _ H0. change (forallb (inside shows) x && shows x = (forallb (inside os) x && os x) && (forallb (inside closed) x && closed x)).
      rewrite H0. unfold shows at 1. change (negb (only_styles x)) with (os x). apply AC.
    - reflexivity.
    - intros n t l x _ H0 _ H2. cbn [forallb]. rewrite H0, H2. apply AC.
    - reflexivity.
    - intros i x is xs _ H0 _ H2. cbn [forallb]. rewrite H0, H2. unfold shows at 1. change (negb (only_styles x)) with (os x).
      rewrite (AC (forallb (inside os) x)). apply AC.
  Qed.
End Formula.

(** * The parser's output *)
Lemma finish_states : forall m0 m, wf m0 -> do_call m0 CFinish = Ok m -> mp_states m = [PMList].
Proof.
  intros m0 m W E. assert (A := wf_calls m0 CFinish W). rewrite E in A. cbn in A. destruct A as [Sh _].
  assert (T : hd PAtom (mp_states m) = PMList).
  { cbn [do_call] in E. unfold finish in E. apply bind_Ok in E. destruct E as (m1 & _ & E).
    apply bind_Ok in E. destruct E as (s & _ & E). apply bind_Ok in E. destruct E as (m2 & _ & E).
    apply bind_Ok in E. destruct E as (t & Et & E). unfold state in Et.
    destruct t; try discriminate E. injection E as <-. destruct (mp_states m2); [discriminate Et|]. injection Et as ->. reflexivity. }
  destruct (mp_states m) as [|s [|t S]]; [contradiction|cbn in T; subst; reflexivity|].
  cbn in T. subst s. destruct Sh as [[] _].
Qed.
Lemma calls_snoc : forall l k m m', calls (l ++ [k]) m = Ok m' <-> exists m0, calls l m = Ok m0 /\ do_call m0 k = Ok m'.
Proof.
  intros l k m m'. unfold calls. rewrite foldM_app. split.
  - intros H. apply bind_Ok in H. destruct H as (m0 & E & H). exists m0. split; [exact E|]. cbn [foldM] in H.
    destruct (do_call m0 k); try discriminate H. exact H.
  - intros (m0 & E & H). rewrite E. cbn [bind foldM]. rewrite H. reflexivity.
Qed.
Lemma output_exists : forall l m, Forall code_call l -> calls l mp_init = Ok m -> exists ts, output_is m ts.
Proof.
  intros l m F E. destruct (calls_keep false l mp_init m _ F ltac:(discriminate) wf_init (good_init false) E) as (_ & w & G).
  unfold output_is. apply (reads_formula false w _ (g_heap _ _ _ G)). apply (g_pos _ _ _ G).
Qed.
Lemma output_fine {N : Num} : forall l m ts, Forall code_call l -> calls l mp_init = Ok m -> output_is m ts ->
  unboxed_list (map (value (N := N)) ts) = true /\ fine (map (value (N := N)) ts) = showable ts.
Proof.
  intros l m ts F E R. destruct (calls_keep false l mp_init m _ F ltac:(discriminate) wf_init (good_init false) E) as (_ & w & G).
  split; [exact (proj1 (proj2 (proj2 (unboxed_value (mp_heap m)))) _ _ R)|].
  unfold fine. rewrite framed_value.
  rewrite (proj1 (proj2 (proj2 (fine_value false w _ (g_heap _ _ _ G)))) _ _ R 0).
  2:{ apply (g_heap _ _ _ G). apply (g_pos _ _ _ G). }
  rewrite (proj1 (proj2 (proj2 (inside_both (mp_heap m)))) _ _ R).
  unfold shows, showable, everywhere.
  destruct (forallb (inside (fun l0 => negb (only_styles l0))) ts), (negb (only_styles ts)), (forallb (inside closed) ts), (closed ts); reflexivity.
Qed.
(** with every \over outside of \left and \right *)
Lemma output_closed : forall l m ts, Forall code_call l -> overs_outside (l ++ [CFinish]) mp_init ->
  calls (l ++ [CFinish]) mp_init = Ok m -> output_is m ts -> everywhere closed ts = true.
Proof.
  intros l m ts F O E R.
  assert (F' : Forall code_call (l ++ [CFinish])) by (apply Forall_app; split; [exact F|constructor; [exact Logic.I|constructor]]).
  destruct (calls_keep true _ mp_init m _ F' (fun _ => O) wf_init (good_init true) E) as (_ & w & G).
  apply calls_snoc in E. destruct E as (m0 & E0 & E1).
  assert (St := finish_states m0 m (calls_wf _ _ _ wf_init E0) E1).
  assert (B : forall i, i < w_n w -> bounded (mp_heap m i)).
  { intros i Hi. destruct (w_lab w i) eqn:El.
    - destruct (g_closed _ _ _ G i Hi El) as [Q|Q]; [exact Q|]. rewrite St in Q. destruct Q.
    - apply nb_bounded. apply (g_heap _ _ _ G i Hi); auto. }
  unfold everywhere.
  rewrite (proj1 (proj2 (proj2 (closed_everywhere true w _ (g_heap _ _ _ G) B))) _ _ R 0).
  2:{ apply (g_heap _ _ _ G). apply (g_pos _ _ _ G). }
  cbn [andb]. apply (bounded_closed (mp_heap m) _ _ R). apply B. apply (g_pos _ _ _ G).
Qed.
(** without changes of style *)
Lemma output_unstyled : forall l m ts, forallb (fun k => negb (style_call k)) l = true ->
  calls l mp_init = Ok m -> output_is m ts -> everywhere (fun l => negb (only_styles l)) ts = true.
Proof.
  intros l m ts F E R. pose proof (ns_calls l mp_init m F (fun _ => eq_refl) E) as H.
  set (os := fun l => negb (only_styles l)).
  assert (P : forall l ts, r_list (mp_heap m) l ts -> forallb nonstyle l = true -> os ts = true).
  { clear. intros l ts R A. inversion R as [|x t l' ts' R1 R2]; subst; [reflexivity|].
    cbn [forallb] in A. apply andb_true_iff in A. destruct A as [A _].
    destruct (node_flags _ _ _ R1) as [Q _]. unfold os, only_styles. cbn [forallb]. rewrite Q, A. reflexivity. }
  assert (I1 :
    (forall x t, r_node (mp_heap m) x t -> inside os t = true) /\
    (forall r c, r_ref (mp_heap m) r c -> field_in os c = true) /\
    (forall l ts, r_list (mp_heap m) l ts -> forallb (inside os) ts = true) /\
    (forall is xs, r_lists (mp_heap m) is xs -> forallb (fun l => forallb (inside os) l && os l) xs = true)).
  { assert (SUB : forall i x, r_list (mp_heap m) (mp_heap m i) x -> forallb (inside os) x = true -> (forallb (inside os) x && os x) = true).
    { intros i x Rx A. rewrite A. apply (P _ _ Rx (H i)). }
    apply r_ind.
    - intros ty a p q x y z _ H1 _ H2 _ H3.
      change (field_in os x && match y with Nothing => field_in os z | _ => field_in os y end = true).
      rewrite H1. destruct y; auto.
    - reflexivity.
    - intros n d x y R1 H1 R2 H2. change ((forallb (inside os) x && os x) && (forallb (inside os) y && os y) = true).
      rewrite (SUB n), (SUB d); auto.
    - intros n d x y R1 H1 R2 H2. change ((forallb (inside os) x && os x) && (forallb (inside os) y && os y) = true).
      rewrite (SUB n), (SUB d); auto.
    - intros is cols xs _ H1. exact H1.
    - reflexivity.
    - reflexivity.
    - reflexivity.
    - intros i x R1 H1. exact (SUB i x R1 H1).
    - reflexivity.
    - intros n t l' x _ H1 _ H2. cbn [forallb]. rewrite H1, H2. reflexivity.
    - reflexivity.
    - intros i x is xs R1 H1 _ H2. cbn [forallb]. rewrite (SUB i), H2; auto. }
  unfold everywhere. rewrite (proj1 (proj2 (proj2 I1)) _ _ R). exact (P _ _ R (H 0)).
Qed.

(** * Texts *)
Lemma all_chars (P : ascii -> bool) : forallb (fun n => P (ascii_of_nat n)) (seq 0 256) = true -> forall c, P c = true.
Proof.
  intros H c. rewrite forallb_forall in H. rewrite <- (char_of_nat c). apply H. apply in_seq.
  destruct c as [[] [] [] [] [] [] [] []]; vm_compute; lia.
Qed.
Definition code_symb (s : sym) : bool := ((0 <=? s_class s) && (s_class s <=? 8) && ((0 <=? s_fam s) && (s_fam s <=? 15)))%Z.
Lemma code_symb_ok s : code_symb s = true -> code_sym s.
Proof.
  unfold code_symb, code_sym. rewrite !andb_true_iff, !Z.leb_le. intros [[A1 A2] [A3 A4]]. auto.
Qed.
Lemma char_sym_code cs c : code_sym (char_sym cs c).
Proof. apply code_symb_ok. revert c. destruct cs; apply all_chars; vm_compute; reflexivity. Qed.
Lemma assoc_in {A} n (l : list (string * A)) x : assoc n l = Some x -> In x (map snd l).
Proof.
  induction l as [|[k v] l IH]; cbn [assoc]; [discriminate|]. destruct (name_eqb n (str k)).
  - intros H. injection H as <-. left. reflexivity.
  - intros H. right. apply IH. exact H.
Qed.
Lemma cs_call_code n c : cs_call n = Ok c -> code_call c.
Proof.
  unfold cs_call. destruct (assoc n csmap) as [k|] eqn:E.
  - intros H. injection H as <-. apply assoc_in in E.
    assert (A : forallb (fun k => match k with CSym _ => false | _ => true end) (map snd csmap) = true) by (vm_compute; reflexivity).
    rewrite forallb_forall in A. specialize (A k E). destruct k; try exact Logic.I. discriminate A.
  - destruct (assoc n symbolsmap) as [[z code]|] eqn:E2; [|discriminate]. intros H. injection H as <-. apply assoc_in in E2.
    assert (A : forallb (fun p => code_symb (writeMathChar fam (fst p) (snd p))) (map snd symbolsmap) = true) by (vm_compute; reflexivity).
    rewrite forallb_forall in A. exact (code_symb_ok _ (A _ E2)).
Qed.
(** the calls of a token *)
Definition token_calls (cs : bool) (t : token) : list call :=
  match t with
  | TChar c GroupBegin => [CBegin]
  | TChar c GroupEnd => [CEnd]
  | TChar c Superscript => [CSup]
  | TChar c Subscript => [CSub]
  | TChar c AlignmentTab => [CTab]
  | TChar c Letter | TChar c Other => [CSym (char_sym cs c)]
  | TChar c _ => []
  | TCs n => match cs_call n with Ok c => [c] | _ => [CBox] end
  | TParam _ => []
  end.
Lemma cs_call_cases n : (exists c, cs_call n = Ok c) \/ cs_call n = Throw.
Proof.
  unfold cs_call. destruct (assoc n csmap); [left; eauto|]. destruct (assoc n symbolsmap) as [[z code]|]; [left; eauto|right; reflexivity].
Qed.
Lemma token_makes cs t : forall m, eq_token cs m t = calls (token_calls cs t) m.
Proof.
  intros m. destruct t as [c k|n|p].
  - cbn [eq_token token_calls]. destruct k; unfold writeChar; rewrite ?calls_one; reflexivity.
  - cbn [eq_token token_calls]. unfold writeControlSequence.
    destruct (cs_call_cases n) as [[c E]|E]; rewrite E; [cbn [bind]; rewrite calls_one; reflexivity|reflexivity].
  - reflexivity.
Qed.
Lemma token_calls_code cs t : Forall code_call (token_calls cs t).
Proof.
  destruct t as [c k|n|p].
  - cbn [token_calls]. destruct k; repeat constructor; apply char_sym_code.
  - cbn [token_calls]. destruct (cs_call_cases n) as [[c E]|E]; rewrite E; repeat constructor. exact (cs_call_code n c E).
  - constructor.
Qed.
Lemma tokens_make cs toks : forall m, foldM (eq_token cs) toks m = calls (flat_map (token_calls cs) toks) m.
Proof.
  induction toks as [|t toks IH]; intros m; [reflexivity|]. cbn [foldM flat_map]. rewrite token_makes.
  unfold calls. rewrite foldM_app. destruct (foldM do_call (token_calls cs t) m); cbn [bind]; [apply IH|reflexivity..].
Qed.
Lemma tokens_code cs toks : Forall code_call (flat_map (token_calls cs) toks).
Proof. induction toks as [|t toks IH]; [constructor|]. cbn [flat_map]. apply Forall_app; split; [apply token_calls_code|exact IH]. Qed.

Section Texts.
  Context {N : Num}.
  Variables (cs : bool) (E : engine N).
  Hypothesis HE : char_engine E.
  Hypothesis HN : self_equal N.

  Lemma equation_is fuel text toks fin m0 m ts : lexes DefaultCatCodes true NewLine text toks fin ->
    fin <> BadCharacter -> fin <> BadParam -> foldM (eq_token cs) toks mp_init = Ok m0 -> do_call m0 CFinish = Ok m ->
    output fuel m = Ok ts ->
    equation cs E fuel text = rmap (fun r => hbox (fst r)) (mlist2hlist E fuel default_penalties D ts).
  Proof.
    intros Hl Hb Hp E0 E1 Eo. destruct (feed_text _ _ _ Hl) as (l & e & Ef & El & Ee).
    assert (e = None) as -> by (destruct e as [[]|]; cbn in Ee; congruence).
    unfold equation. rewrite Ef, El, E0. cbn [bind]. rewrite E1. cbn [bind]. rewrite Eo. cbn [bind].
    destruct (mlist2hlist _ _ _ _ ts); reflexivity.
  Qed.
  Theorem equation_decided text toks fin m0 m : lexes DefaultCatCodes true NewLine text toks fin ->
    fin <> BadCharacter -> fin <> BadParam -> foldM (eq_token cs) toks mp_init = Ok m0 -> do_call m0 CFinish = Ok m ->
    exists ts k, output_is m ts /\ forall fuel, k <= fuel ->
      (showable ts = true -> exists x, equation cs E fuel text = Ok x) /\
      (showable ts = false -> equation cs E fuel text = UB \/ equation cs E fuel text = Abort).
  Proof.
    intros Hl Hb Hp E0 E1. rewrite tokens_make in E0.
    assert (EC : calls (flat_map (token_calls cs) toks ++ [CFinish]) mp_init = Ok m) by (apply calls_snoc; eauto).
    assert (F : Forall code_call (flat_map (token_calls cs) toks ++ [CFinish]))
      by (apply Forall_app; split; [apply tokens_code|constructor; [exact Logic.I|constructor]]).
    destruct (output_exists _ _ F EC) as [ts R]. destruct (output_value (N := N) m ts R) as [k Hk].
    destruct (output_fine (N := N) _ _ _ F EC R) as [U Fi].
    exists ts, (k + Datatypes.S (list_size (map (value (N := N)) ts))). split; [exact R|]. intros fuel Hf.
    rewrite <- tokens_make in E0.
    rewrite (equation_is fuel text toks fin m0 m (map value ts) Hl Hb Hp E0 E1) by (apply Hk; lia).
    destruct (typesets_iff E HE HN (map value ts) default_penalties D fuel U ltac:(lia)) as [A B].
    rewrite Fi in A, B. split; intros H.
    - destruct (A H) as [r Er]. rewrite Er. eexists. reflexivity.
    - destruct (B H) as [Er|Er]; rewrite Er; [left|right]; reflexivity.
  Qed.
  Lemma tokens_not_fuel toks : forall m, wf m -> foldM (eq_token cs) toks m <> Fuel /\
    (forall m', foldM (eq_token cs) toks m = Ok m' -> wf m').
  Proof.
    intros m W. rewrite tokens_make. revert m W. induction (flat_map (token_calls cs) toks) as [|k l IH]; intros m W.
    - split; [discriminate|]. intros m' H. injection H as <-. exact W.
    - change (calls (k :: l) m) with (bind (do_call m k) (calls l)).
      assert (A := wf_calls m k W). destruct (do_call m k); cbn [bind]; try (split; discriminate); [apply IH; exact A|destruct A].
  Qed.
  Theorem equation_terminates text : exists k, forall fuel, k <= fuel -> equation cs E fuel text <> Fuel.
  Proof.
    destruct (feed DefaultCatCodes lexer_init text) as [l e] eqn:Ef.
    destruct e as [e|]; [exists 0; intros fuel _; unfold equation; rewrite Ef; discriminate|].
    destruct (tokens_not_fuel (l_out l) mp_init wf_init) as [NF W].
    destruct (foldM (eq_token cs) (l_out l) mp_init) as [m0| | | |] eqn:E0; try congruence;
      try (exists 0; intros fuel _; unfold equation; rewrite Ef, E0; discriminate).
    assert (A := wf_calls m0 CFinish (W m0 eq_refl)).
    destruct (do_call m0 CFinish) as [m| | | |] eqn:E1;
      try (exists 0; intros fuel _; unfold equation; rewrite Ef, E0; cbn [bind]; rewrite E1; discriminate); [|destruct A].
    rewrite tokens_make in E0.
    assert (EC : calls (flat_map (token_calls cs) (l_out l) ++ [CFinish]) mp_init = Ok m) by (apply calls_snoc; eauto).
    assert (F : Forall code_call (flat_map (token_calls cs) (l_out l) ++ [CFinish]))
      by (apply Forall_app; split; [apply tokens_code|constructor; [exact Logic.I|constructor]]).
    rewrite <- tokens_make in E0.
    destruct (output_exists _ _ F EC) as [ts R]. destruct (output_value (N := N) m ts R) as [k Hk].
    destruct (output_fine (N := N) _ _ _ F EC R) as [U _].
    exists (k + Datatypes.S (list_size (map (value (N := N)) ts))). intros fuel Hf.
    unfold equation. rewrite Ef, E0. cbn [bind]. rewrite E1. cbn [bind]. rewrite Hk by lia. cbn [bind].
    destruct (TypesetNoThrow.typeset_no_exception E fuel default_penalties D (map value ts) ltac:(lia) (unboxed_known _ U)) as [Q _].
    destruct (mlist2hlist _ _ _ _ (map value ts)); [discriminate..|congruence].
  Qed.
  (** texts without surprises *)
  Theorem equation_safe text toks fin es : lexes DefaultCatCodes true NewLine text toks fin ->
    Forall2 (makes cs) toks es ->
    careful (List.concat es ++ [CFinish]) mp_init -> overs_outside (List.concat es ++ [CFinish]) mp_init ->
    Forall code_call (List.concat es) -> forallb (fun k => negb (style_call k)) (List.concat es) = true ->
    exists k, (forall fuel, k <= fuel -> exists x, equation cs E fuel text = Ok x) \/
              (forall fuel, k <= fuel -> equation cs E fuel text = Throw).
  Proof.
    intros Hl HM HC HO HF HS. destruct (feed_text _ _ _ Hl) as (l & e & Ef & El & Ee).
    destruct e as [e|]; [exists 0; right; intros fuel _; unfold equation; rewrite Ef; reflexivity|].
    assert (Em : forall m, foldM (eq_token cs) toks m = calls (List.concat es) m).
    { clear - HM. induction HM as [|t e toks es H _ IH]; intros m; [reflexivity|]. cbn [foldM List.concat].
      rewrite (H m). unfold calls. rewrite foldM_app. destruct (foldM do_call e m); cbn [bind]; [apply IH|reflexivity..]. }
    assert (Hb : fin <> BadCharacter /\ fin <> BadParam) by (split; intros ->; unfold lexer_ending in Ee; try destruct (l_state l); discriminate Ee).
    destruct Hb as [Hb Hp].
    destruct (parser_safe _ HC) as [[m EC]|EC].
    - assert (EC' := EC). apply calls_snoc in EC'. destruct EC' as (m0 & E0 & E1).
      rewrite <- Em in E0.
      destruct (equation_decided text toks fin m0 m Hl Hb Hp E0 E1) as (ts & k & R & D). exists k. left.
      intros fuel Hf. apply (proj1 (D fuel Hf)). unfold showable. apply andb_true_iff. split.
      + apply (output_unstyled _ m ts) with (2 := EC); [|exact R]. rewrite forallb_app, HS. reflexivity.
      + exact (output_closed _ m ts HF HO EC R).
    - exists 0. right. intros fuel _. unfold equation. rewrite Ef, El, Em. unfold calls in EC |- *. rewrite foldM_app in EC.
      destruct (foldM do_call (List.concat es) mp_init) as [m0| | | |]; cbn [bind foldM] in EC |- *; try discriminate EC; [|reflexivity].
      destruct (do_call m0 CFinish); cbn [bind] in EC |- *; try discriminate EC. reflexivity.
  Qed.
  (** the texts of the grammar *)
  Theorem equation_grammar text toks fin es ts : lexes DefaultCatCodes true NewLine text toks fin ->
    fin <> BadCharacter -> fin <> BadParam -> Forall2 means toks es -> MathSpec.group (List.concat es) ts ->
    everywhere closed ts = true ->
    exists k, forall fuel, k <= fuel ->
      (everywhere (fun l => negb (only_styles l)) ts = true -> exists x, equation cs E fuel text = Ok x) /\
      (everywhere (fun l => negb (only_styles l)) ts = false -> equation cs E fuel text = UB \/ equation cs E fuel text = Abort).
  Proof.
    intros Hl Hb Hp HM HG HC. destruct (formula_parsed _ _ HG) as (m & EC & R).
    apply calls_snoc in EC. destruct EC as (m0 & E0 & E1). rewrite <- (tokens_meaning cs toks es HM) in E0.
    destruct (equation_decided text toks fin m0 m Hl Hb Hp E0 E1) as (ts' & k & R' & D).
    assert (ts' = ts) as -> by exact (proj1 (proj2 (proj2 (reads_once (mp_heap m)))) _ _ R' _ R).
    exists k. intros fuel Hf. destruct (D fuel Hf) as [D1 D2]. unfold showable in D1, D2. rewrite HC, andb_true_r in D1, D2. auto.
  Qed.
End Texts.

(** * Formulas of the grammar are closed *)
Definition okl (ts : list tree) : Prop :=
  forallb (inside closed) ts = true /\ forallb (fun t => negb (boundary_tree t)) ts = true.
Lemma okl_closed ts : okl ts -> forallb (inside closed) ts && closed ts = true.
Proof.
  intros [A B]. rewrite A. cbn [andb]. unfold closed.
  assert (C : forallb (fun t => negb (boundary_tree t)) (filter (fun t => negb (style_tree t)) ts) = true).
  { rewrite forallb_forall in *. intros x Hx. apply filter_In in Hx. apply B. apply Hx. }
  destruct (filter _ ts) as [|x r]; [reflexivity|]. cbn [forallb] in C. apply andb_true_iff in C. destruct C as [C _].
  destruct (boundary_tree x); [discriminate C|reflexivity].
Qed.
Lemma okl_cons t ts : inside closed t = true -> boundary_tree t = false -> okl ts -> okl (t :: ts).
Proof. intros A B [C D]. split; cbn [forallb]; [rewrite A; exact C|rewrite B; exact D]. Qed.
Lemma grammar_closed :
  (forall deg e ts, items deg e ts -> okl ts) /\
  (forall deg e t, MathSpec.item deg e t -> inside closed t = true /\ boundary_tree t = false) /\
  (forall e sp sb, scripts e sp sb -> field_in closed sp = true /\ field_in closed sb = true) /\
  (forall e c, script e c -> field_in closed c = true) /\
  (forall deg e ts, body deg e ts -> okl ts) /\
  (forall e ts, MathSpec.group e ts -> okl ts) /\
  (forall e ts, argument e ts -> okl ts) /\
  (forall e rows, table e rows -> Forall (Forall okl) rows) /\
  (forall e r, row e r -> Forall okl r).
Proof.
  assert (AT : forall ty x y z, field_in closed x = true -> field_in closed y = true -> field_in closed z = true ->
             inside closed (TAtom ty x y z) = true).
  { intros ty x y z A B C. change (field_in closed x && match y with Nothing => field_in closed z | _ => field_in closed y end = true).
    rewrite A. destruct y; auto. }
  assert (TW : forall x y, okl x -> okl y -> (forallb (inside closed) x && closed x) && (forallb (inside closed) y && closed y) = true).
  { intros x y A B. rewrite (okl_closed _ A), (okl_closed _ B). reflexivity. }
  apply formula_ind.
  - intros. split; reflexivity.
  - intros deg e t es ts _ [A B] _ C. apply okl_cons; auto.
  - intros deg s e sp sb _ _ [A B]. split; [apply AT; auto|reflexivity].
  - intros deg g ts e sp sb _ G _ [A B]. split; [apply AT; auto|reflexivity]. exact (okl_closed _ G).
  - intros deg s e sp sb _ _ [A B]. split; [apply AT; auto|reflexivity].
  - intros deg g ts e sp sb _ G _ [A B]. split; [apply AT; auto|reflexivity]. exact (okl_closed _ G).
  - intros deg l r g ts e xs _ _ _ A _ B. split; [exact (TW _ _ A B)|reflexivity].
  - intros deg l r g ts e sp sb _ [G1 G2] _ [A B]. split; [apply AT; auto|reflexivity].
    change (forallb (inside closed) (TBoundary l :: ts ++ [TBoundary r]) && closed (TBoundary l :: ts ++ [TBoundary r]) = true).
    cbn [forallb]. rewrite forallb_app, G1. cbn. unfold closed. cbn [filter style_tree negb]. rewrite filter_app.
    cbn [filter style_tree negb boundary_tree implb].
    change (TBoundary l :: filter (fun t => negb (style_tree t)) ts ++ [TBoundary r]) with
      ((TBoundary l :: filter (fun t => negb (style_tree t)) ts) ++ [TBoundary r]). rewrite last_last.
    destruct (filter _ ts); reflexivity.
  - intros deg e xs e' ys _ A _ B. split; [exact (TW _ _ A B)|reflexivity].
  - intros deg e rows _ F. split; [|reflexivity].
    change (forallb (fun l => forallb (inside closed) l && closed l) (List.concat (map (pad (widest rows)) rows)) = true).
    generalize (widest rows). intros k. induction F as [|r rows R _ IH]; [reflexivity|]. cbn [map List.concat].
    rewrite forallb_app, IH, andb_true_r. unfold pad. rewrite forallb_app. apply andb_true_iff. split.
    + rewrite forallb_forall. intros x Hx. apply okl_closed. rewrite Forall_forall in R. auto.
    + rewrite forallb_forall. intros x Hx. apply repeat_spec in Hx. subst. reflexivity.
  - intros. split; reflexivity.
  - intros. split; reflexivity.
  - intros. split; reflexivity.
  - split; reflexivity.
  - intros e c _ A. split; [exact A|reflexivity].
  - intros s. split; reflexivity.
  - intros e c s _ A. split; [exact A|reflexivity].
  - intros e c s _ A. split; [exact A|reflexivity].
  - reflexivity.
  - intros g ts _ A. exact (okl_closed _ A).
  - auto.
  - intros deg e sp sb es ts _ _ [A B] _ C. apply okl_cons; [apply AT; auto|reflexivity|exact C].
  - auto.
  - intros e ts e' ts' _ A _ B. apply okl_cons; [exact (TW _ _ A B)|reflexivity|split; reflexivity].
  - intros s. split; reflexivity.
  - auto.
  - intros e r _ A. constructor; auto.
  - intros e r es rs _ A _ B. constructor; auto.
  - intros e ts _ A. constructor; auto.
  - intros e ts es r _ A _ B. constructor; auto.
Qed.
Lemma group_closed e ts : MathSpec.group e ts -> everywhere closed ts = true.
Proof. intros G. apply okl_closed. exact (proj1 (proj2 (proj2 (proj2 (proj2 (proj2 grammar_closed))))) _ _ G). Qed.
