From Coq Require Import List Ascii String ZArith Bool Arith Lia.
From Verif.Base Require Import Result.
From Verif.Model Require Import Token TokenUnion.
From Verif.Spec Require Import TokenSpec.
Import ListNotations.

Lemma upd_same f x v : upd f x v x = v.
Proof. unfold upd. now rewrite Nat.eqb_refl. Qed.
Lemma upd_other f x v z : z <> x -> upd f x v z = f z.
Proof. intros H. unfold upd. now apply Nat.eqb_neq in H as ->. Qed.

(** ** How the strings may change *)
Lemma strings_same w w' :
  strings_ok w -> w_next w' = w_next w -> w_live w' = w_live w -> w_dead w' = w_dead w ->
  (forall z id, owns w' z id <-> owns w z id) -> strings_ok w'.
Proof.
  intros (A & B & C & D) En El Ed Eo. unfold strings_ok. rewrite En, El, Ed. repeat split; auto.
  - apply A. - apply A.
  - intros H. apply C in H as (x & H). exists x. now apply Eo.
  - intros (x & H). apply C. exists x. now apply Eo.
  - intros x y id H1 H2. apply (D x y id); now apply Eo.
Qed.

Lemma strings_new w w' x :
  strings_ok w -> w_next w' = S (w_next w) -> w_live w' = w_next w :: w_live w -> w_dead w' = w_dead w ->
  (forall z id, owns w' z id <-> owns w z id \/ (z = x /\ id = w_next w)) -> strings_ok w'.
Proof.
  intros (A & B & C & D) En El Ed Eo. unfold strings_ok. rewrite En, El, Ed.
  assert (F : forall z, ~ owns w z (w_next w)).
  { intros z H. assert (In (w_next w) (w_live w)) by (apply C; eauto).
    assert (w_next w < w_next w)%nat by (apply A; auto). lia. }
  repeat split.
  - intros H. destruct (Nat.eq_dec id (w_next w)) as [->|n]; [left; left; reflexivity|].
    assert (L : (id < w_next w)%nat) by lia. apply A in L as [L|L]; [left; right; exact L|right; exact L].
  - intros [[<-|H]|H]; [lia| |]; (assert (id < w_next w)%nat by (apply A; auto); lia).
  - cbn. constructor; [|exact B]. rewrite in_app_iff. intros H.
    assert (w_next w < w_next w)%nat by (apply A; tauto). lia.
  - intros [<-|H]; [exists x; apply Eo; auto|]. apply C in H as (z & H). exists z. apply Eo. auto.
  - intros (z & H). apply Eo in H as [H|(-> & ->)]; [right; apply C; eauto|left; reflexivity].
  - intros a b id H1 H2. apply Eo in H1, H2. destruct H1 as [H1|(-> & ->)], H2 as [H2|(E & E2)].
    + apply (D a b id); auto.
    + subst. exfalso. apply (F a H1).
    + exfalso. apply (F b H2).
    + symmetry. exact E.
Qed.

Lemma NoDup_kill (l d : list nat) id :
  NoDup (l ++ d) -> In id l -> NoDup (remove Nat.eq_dec id l ++ id :: d).
Proof.
  intros H I0. apply (NoDup_Add (Add_app id (remove Nat.eq_dec id l) d)). split.
  - induction l as [|a l IH]; cbn in *; [destruct I0|].
    inversion H; subst. destruct (Nat.eq_dec id a) as [->|n].
    + destruct (in_dec Nat.eq_dec a l) as [i|i].
      * exfalso. apply H2. apply in_app_iff. auto.
      * rewrite notin_remove by exact i. exact H3.
    + destruct I0 as [->|I0]; [congruence|]. cbn. constructor; [|apply IH; assumption].
      intros X. apply H2. apply in_app_iff in X as [X|X]; apply in_app_iff; [left; now apply in_remove in X|auto].
  - intros X. apply in_app_iff in X as [X|X]; [now apply remove_In in X|].
    apply in_split in I0 as (l1 & l2 & ->). rewrite <- app_assoc in H. cbn in H.
    apply NoDup_remove_2 in H. apply H. rewrite !in_app_iff. auto.
Qed.

Lemma strings_kill w w' x id0 :
  strings_ok w -> owns w x id0 ->
  w_next w' = w_next w -> w_live w' = remove Nat.eq_dec id0 (w_live w) -> w_dead w' = id0 :: w_dead w ->
  (forall z id, owns w' z id <-> owns w z id /\ z <> x) -> strings_ok w'.
Proof.
  intros (A & B & C & D) Ow En El Ed Eo. unfold strings_ok. rewrite En, El, Ed.
  assert (Il : In id0 (w_live w)) by (apply C; eauto).
  repeat split.
  - intros H. apply A in H as [H|H].
    + destruct (Nat.eq_dec id0 id) as [->|n]; [right; left; reflexivity|]. left. apply in_in_remove; auto.
    + right. right. exact H.
  - intros [H|[<-|H]]; apply A; auto. apply in_remove in H. tauto.
  - apply NoDup_kill; assumption.
  - intros H. apply in_remove in H as (H & n). apply C in H as (z & H). exists z. apply Eo. split; [exact H|].
    intros ->. destruct H as (o & s & H1 & H2), Ow as (o' & s' & H3 & H4). congruence.
  - intros (z & H). apply Eo in H as (H & n). apply in_in_remove; [|apply C; eauto].
    intros ->. apply n. apply (D z x id0); assumption.
  - intros a b id H1 H2. apply Eo in H1, H2. apply (D a b id); tauto.
Qed.

(** ** Objects *)
Definition typed (o : obj) : Prop :=
  match o_ty o, o_mem o with
  | TyCs, MStr _ _ => True
  | TyCs, _ => False
  | _, MStr _ _ => False
  | _, _ => True
  end.
Definition Inv (w : world) : Prop :=
  (forall x o, w_obj w x = Some o -> typed o) /\ strings_ok w.

Definition w_type (w : world) (x : nat) (o : obj) := w_obj w x = Some o.

Lemma live_of w x id s : strings_ok w -> w_obj w x = Some (mkO TyCs (MStr id s)) ->
  existsb (Nat.eqb id) (w_live w) = true.
Proof.
  intros (A & B & C & D) H. apply existsb_exists. exists id. split; [|apply Nat.eqb_refl].
  apply C. exists x. eexists. eexists. split; [exact H|reflexivity].
Qed.

Ltac unf := unfold exec, ctor_default, ctor_char, ctor_cs, ctor_param, ctor_from, dtor, assign, construct,
  assign_str_moved, new_str_moved, new_str, take_str, assign_str, store_str, new_char, assign_char, assign_int,
  destroy_str, destroy_char, type_of, set_type, set_mem, characterToken, controlSequence, parameterNumber,
  may_throw, fresh, kill, put, get, bnd, ret, throw in *.
Ltac ev := repeat (cbn [bind w_obj w_next w_live w_dead set_obj o_ty o_mem fst snd negb] in *;
  rewrite ?upd_same, ?Nat.eqb_refl in *;
  repeat match goal with
  | H : ?a <> ?b, H2 : context[upd ?f ?b ?v ?a] |- _ => rewrite (upd_other f b v a H) in H2
  | H : ?a <> ?b |- context[upd ?f ?b ?v ?a] => rewrite (upd_other f b v a H)
  | H : ?a <> ?b, H2 : context[upd ?f ?a ?v ?b] |- _ => rewrite (upd_other f a v b (not_eq_sym H)) in H2
  | H : ?a <> ?b |- context[upd ?f ?a ?v ?b] => rewrite (upd_other f a v b (not_eq_sym H))
  | H : w_obj ?w ?x = _, H2 : context[w_obj ?w ?x] |- _ => rewrite H in H2
  | H : w_obj ?w ?x = _ |- context[w_obj ?w ?x] => rewrite H
  end).

(** the owners after the update of one object, or two *)
Ltac own1 := intros z i; unfold owns; cbn [w_obj set_obj]; unfold upd;
  repeat match goal with |- context[Nat.eqb z ?x] => destruct (Nat.eqb_spec z x); subst end.

Section Strings.
  Variables (alloc : nat -> bool) (moved : name -> name).

  Ltac crush_own := split; intros Q;
    repeat match goal with
    | H : _ \/ _ |- _ => destruct H
    | H : _ /\ _ |- _ => destruct H
    | H : exists _, _ |- _ => destruct H
    | H : Some _ = Some _ |- _ => injection H as <-
    | H : MStr _ _ = MStr _ _ |- _ => injection H as <- <-
    | H : o_mem (mkO _ _) = _ |- _ => cbn [o_mem] in H
    | H : w_obj ?w ?x = Some ?o, H2 : w_obj ?w ?x = Some _ |- _ =>
        is_var o; rewrite H2 in H; injection H as <-
    end; cbn [o_mem] in *; subst; try congruence; try tauto;
    try (right; split; reflexivity);
    try (left; eexists; eexists; split; [eassumption|reflexivity]);
    try (eexists; eexists; split; [eassumption|reflexivity]);
    try (eexists; eexists; split; reflexivity);
    eauto 6.
  Ltac typed_goal T := let z := fresh "z" in let o := fresh "o" in let E := fresh "E" in
    intros z o; cbn [w_obj set_obj]; unfold upd;
    repeat match goal with |- context[Nat.eqb z ?x] => destruct (Nat.eqb_spec z x); subst end;
    intros E; first [ injection E as <-; exact I | congruence | exact (T _ _ E) ].

  Ltac same w K := apply (strings_same w); [exact K|reflexivity|reflexivity|reflexivity|own1; crush_own].
  Ltac made w K x := apply (strings_new w _ x); [exact K|reflexivity|reflexivity|reflexivity|own1; crush_own].
  Ltac killed w K x id := apply (strings_kill w _ x id);
    [exact K|eexists; eexists; split; [eassumption|reflexivity]|reflexivity|reflexivity|reflexivity|own1; crush_own].
  Lemma exec_Inv o w r w' : Inv w -> exec alloc moved o w = Ok (r, w') -> Inv w'.
  Proof.
    intros (T & K) E.
    destruct o as [x|x c k|x s|x n|x y|x y|x y|x y|x]; cbn [exec] in E; unf.
    - destruct (w_obj w x) eqn:Ex; [discriminate|]. ev. injection E as <- <-.
      split; [typed_goal T|]. same w K.
    - destruct (w_obj w x) eqn:Ex; [discriminate|]. ev. injection E as <- <-.
      split; [typed_goal T|]. same w K.
    - destruct (w_obj w x) eqn:Ex; [discriminate|]. ev.
      destruct (alloc (w_next w)); ev; injection E as <- <-; (split; [typed_goal T|]).
      + made w K x.
      + same w K.
    - destruct (w_obj w x) eqn:Ex; [discriminate|]. ev. injection E as <- <-.
      split; [typed_goal T|]. same w K.
    - destruct (w_obj w x) eqn:Ex; [discriminate|]. ev.
      destruct (Nat.eq_dec y x) as [->|n]; ev.
      { injection E as <- <-. split; [typed_goal T|]. same w K. }
      destruct (w_obj w y) as [[t m]|] eqn:Ey; [|discriminate].
      pose proof (T _ _ Ey) as To. destruct t, m; try destruct To; ev; try discriminate.
      + injection E as <- <-. split; [typed_goal T|]. same w K.
      + destruct (alloc (w_next w)); ev; injection E as <- <-; (split; [typed_goal T|]).
        * made w K x.
        * same w K.
      + injection E as <- <-. split; [typed_goal T|]. same w K.
    - destruct (w_obj w x) eqn:Ex; [discriminate|]. ev.
      destruct (Nat.eq_dec y x) as [->|n]; ev.
      { injection E as <- <-. split; [typed_goal T|]. same w K. }
      destruct (w_obj w y) as [[t m]|] eqn:Ey; [|discriminate].
      pose proof (T _ _ Ey) as To. destruct t, m; try destruct To; ev; try discriminate;
        injection E as <- <-; (split; [typed_goal T|]).
      + same w K.
      + made w K x.
      + same w K.
    - destruct (w_obj w x) as [[t m]|] eqn:Ex; [|discriminate]. ev.
      destruct (w_obj w y) as [[u m']|] eqn:Ey; [|discriminate]. ev.
      pose proof (T _ _ Ex) as Tx. pose proof (T _ _ Ey) as Ty.
      destruct (Nat.eq_dec y x) as [->|n].
      { rewrite Ex in Ey. injection Ey as <- <-. destruct t, m; try destruct Tx; ev; try discriminate.
        - injection E as <- <-. split; [typed_goal T|]. same w K.
        - destruct (alloc (w_next w)); ev; injection E as <- <-; (split; [typed_goal T|]); same w K.
        - injection E as <- <-. split; [typed_goal T|]. same w K. }
      destruct t, m; try destruct Tx; destruct u, m'; try destruct Ty; ev; try discriminate;
        try (rewrite (live_of w x _ _ K Ex) in E; ev);
        try (destruct (alloc (w_next w)) eqn:Ea; ev);
        try discriminate; injection E as <- <-; (split; [typed_goal T|]);
        try (same w K); try (made w K x);
        match type of Ex with w_obj w x = Some (mkO _ (MStr ?id _)) => killed w K x id end.
    - destruct (w_obj w x) as [[t m]|] eqn:Ex; [|discriminate]. ev.
      destruct (w_obj w y) as [[u m']|] eqn:Ey; [|discriminate]. ev.
      pose proof (T _ _ Ex) as Tx. pose proof (T _ _ Ey) as Ty.
      destruct (Nat.eq_dec y x) as [->|n].
      { rewrite Ex in Ey. injection Ey as <- <-. destruct t, m; try destruct Tx; ev; try discriminate;
        injection E as <- <-; (split; [typed_goal T|]); same w K. }
      assert (Exy : Nat.eqb x y = false) by (apply Nat.eqb_neq; congruence).
      destruct t, m; try destruct Tx; destruct u, m'; try destruct Ty; ev; try discriminate;
        try (rewrite Exy in E; ev);
        try (rewrite (live_of w x _ _ K Ex) in E; ev);
        try discriminate; injection E as <- <-; (split; [typed_goal T|]);
        try (same w K); try (made w K x);
        match type of Ex with w_obj w x = Some (mkO _ (MStr ?id _)) => killed w K x id end.
    - destruct (w_obj w x) as [[t m]|] eqn:Ex; [|discriminate]. ev.
      pose proof (T _ _ Ex) as Tx.
      destruct t, m; try destruct Tx; ev; try discriminate;
        try (rewrite (live_of w x _ _ K Ex) in E; ev);
        injection E as <- <-; (split; [typed_goal T|]).
      + same w K.
      + killed w K x id.
      + same w K. + same w K. + same w K.
  Qed.
End Strings.

(** ** Values *)
Definition agree (w : world) (v : vals) : Prop :=
  forall x, match w_obj w x with
            | Some o => v x <> None /\ holds o = v x
            | None => v x = None
            end.

Lemma name_eqb_refl_iff a b : name_eqb a b = true <-> a = b.
Proof.
  revert b. induction a as [|x a IH]; intros [|y b]; cbn; split; intros H; try discriminate; try reflexivity.
  - apply andb_true_iff in H as (H1 & H2). apply Ascii.eqb_eq in H1 as ->. apply IH in H2 as ->. reflexivity.
  - injection H as -> ->. rewrite Ascii.eqb_refl. now apply IH.
Qed.

Section Values.
  Variables (alloc : nat -> bool) (moved : name -> name).
  Hypothesis memory : forall n, alloc n = true.

  Lemma agree_obj w v x : agree w v -> v x <> None ->
    exists t m, w_obj w x = Some (mkO t m) /\ holds (mkO t m) = v x.
  Proof. intros A H. specialize (A x). destruct (w_obj w x) as [[t m]|]; [|contradiction]. exists t, m. tauto. Qed.
  Lemma agree_none w v x : agree w v -> v x = None -> w_obj w x = None.
  Proof. intros A H. specialize (A x). destruct (w_obj w x) as [o|]; [destruct A; congruence|reflexivity]. Qed.

  (** the cases of an object that holds a value *)
  Ltac cases A H :=
    let t := fresh "t" in let m := fresh "m" in let Eo := fresh "Eo" in let Eh := fresh "Eh" in
    destruct (agree_obj _ _ _ A H) as (t & m & Eo & Eh); destruct t, m; cbn [holds] in Eh; try congruence.
  Ltac done A := eexists; split; [reflexivity|];
    let z := fresh "z" in intros z; pose proof (A z);
    cbn [w_obj set_obj after moved_from]; unfold upd, vset, moved_from in *;
    repeat match goal with
      | |- context[Nat.eqb z ?x] => destruct (Nat.eqb_spec z x); subst
      end; rewrite ?Nat.eqb_refl in *;
    repeat match goal with
      | Ex : ?a <> ?b |- context[Nat.eqb ?a ?b] => rewrite (proj2 (Nat.eqb_neq a b) Ex)
      | Ex : ?a <> ?b |- context[Nat.eqb ?b ?a] => rewrite (proj2 (Nat.eqb_neq b a) (not_eq_sym Ex))
      end;
    repeat match goal with
      | Eo : w_obj ?w ?x = _ |- context[w_obj ?w ?x] => rewrite Eo
      | Eh : Some _ = ?v ?x |- context[?v ?x] => rewrite <- Eh
      end; cbn [holds option_map];
    first [assumption | congruence | split; congruence | reflexivity].

  Lemma exec_values o w v : Inv w -> agree w v -> valid v o ->
    exists w', exec alloc moved o w = Ok (Some tt, w') /\ agree w' (after moved v o).
  Proof.
    intros (T & K) A V.
    destruct o as [x|x c k|x s|x n|x y|x y|x y|x y|x]; cbn [valid] in V; cbn [exec]; unf.
    - pose proof (agree_none _ _ _ A V) as Ex. ev. done A.
    - pose proof (agree_none _ _ _ A V) as Ex. ev. done A.
    - pose proof (agree_none _ _ _ A V) as Ex. ev. rewrite memory. ev. done A.
    - pose proof (agree_none _ _ _ A V) as Ex. ev. done A.
    - destruct V as (V & V'). pose proof (agree_none _ _ _ A V) as Ex.
      assert (n : y <> x) by congruence. cases A V'; ev; try rewrite memory; ev; done A.
    - destruct V as (V & V'). pose proof (agree_none _ _ _ A V) as Ex.
      assert (n : y <> x) by congruence. cases A V'; ev; done A.
    - destruct V as (V & V'). destruct (Nat.eq_dec y x) as [->|n].
      { cases A V; ev; try rewrite memory; ev; done A. }
      cases A V; cases A V'; ev; try (rewrite (live_of w x _ _ K Eo)); ev; try rewrite memory; ev; done A.
    - destruct V as (V & V'). destruct (Nat.eq_dec y x) as [->|n].
      { cases A V; ev; done A. }
      assert (Exy : Nat.eqb x y = false) by (apply Nat.eqb_neq; congruence).
      cases A V; cases A V'; ev; try (rewrite (live_of w x _ _ K Eo)); ev; rewrite ?Exy; ev; done A.
    - cases A V; ev; try (rewrite (live_of w x _ _ K Eo)); ev; done A.
  Qed.

  Lemma run_values l w v : Inv w -> agree w v -> valid_all moved v l ->
    exists w', run alloc moved l w = Ok w' /\ Inv w' /\ agree w' (after_all moved v l).
  Proof.
    revert w v. induction l as [|o l IH]; intros w v I0 A V; cbn [run after_all fold_left].
    - exists w. auto.
    - destruct V as (V & V2). destruct (exec_values o w v I0 A V) as (w' & E & A').
      rewrite E. cbn [bind snd]. apply IH; [eapply exec_Inv; eassumption|exact A'|exact V2].
  Qed.
End Values.

Lemma Inv_init : Inv w_init.
Proof.
  split; [discriminate|]. repeat split; cbn; try lia; try tauto.
  - constructor.
  - intros (x & o & s & H & _). discriminate.
  - intros x y id (o & s & H & _). discriminate.
Qed.
Lemma agree_init : agree w_init no_vals.
Proof. intros x. reflexivity. Qed.

Lemma agree_value w v x : agree w v -> value_of w x = v x.
Proof. intros A. specialize (A x). unfold value_of. destruct (w_obj w x); [tauto|congruence]. Qed.

Lemma token_values alloc moved l : (forall n, alloc n = true) -> valid_all moved no_vals l ->
  exists w, run alloc moved l w_init = Ok w /\ (forall x, value_of w x = after_all moved no_vals l x) /\
    (forall x, w_obj w x = None <-> after_all moved no_vals l x = None) /\ strings_ok w.
Proof.
  intros Hm V. destruct (run_values alloc moved Hm l _ _ Inv_init agree_init V) as (w & R & (T & K) & A).
  exists w. split; [exact R|]. split; [intros x; now apply agree_value|]. split; [|exact K].
  intros x. specialize (A x). destruct (w_obj w x); [|tauto]. split; [discriminate|]. tauto.
Qed.

Lemma run_Inv alloc moved l w w' : Inv w -> run alloc moved l w = Ok w' -> Inv w'.
Proof.
  revert w. induction l as [|o l IH]; intros w I0 R; cbn [run] in R; [congruence|].
  apply bind_Ok in R as ((r & w1) & E & R). apply (IH w1); [eapply exec_Inv; eassumption|exact R].
Qed.
Lemma token_strings alloc moved l w : run alloc moved l w_init = Ok w -> strings_ok w.
Proof. intros R. exact (proj2 (run_Inv _ _ _ _ _ Inv_init R)). Qed.

(** all tokens gone: no string left *)
Lemma token_no_leak alloc moved l w : run alloc moved l w_init = Ok w ->
  (forall x, w_obj w x = None) -> w_live w = [] /\ NoDup (w_dead w) /\
  forall id, (id < w_next w)%nat <-> In id (w_dead w).
Proof.
  intros R N. destruct (token_strings _ _ _ _ R) as (A & B & C & D).
  assert (L : w_live w = []).
  { destruct (w_live w) as [|i r] eqn:E; [reflexivity|].
    assert (In i (w_live w)) as H by (rewrite E; now left). rewrite <- E in C. apply C in H as (x & o & s & H & _).
    rewrite N in H. discriminate. }
  rewrite L in *. cbn in B. split; [reflexivity|]. split; [exact B|]. intros id. rewrite A. cbn. tauto.
Qed.

Lemma equal_values x y w t u : value_of w x = Some t -> value_of w y = Some u ->
  equal x y w = Ok (Some (token_eqb t u), w).
Proof.
  unfold value_of. destruct (w_obj w x) as [[tx mx]|] eqn:Ex; [|discriminate].
  destruct (w_obj w y) as [[ty my]|] eqn:Ey; [|discriminate]. intros H1 H2. unfold equal. unf.
  destruct tx, mx; try discriminate H1; destruct ty, my; try discriminate H2;
    injection H1 as <-; injection H2 as <-; ev; unfold ty_eqb; ev; reflexivity.
Qed.
Lemma category_value x k w t : value_of w x = Some t -> has_category x k w = Ok (Some (token_is t k), w).
Proof.
  unfold value_of. destruct (w_obj w x) as [[tx mx]|] eqn:Ex; [|discriminate]. intros H1. unfold has_category. unf.
  destruct tx, mx; try discriminate H1; injection H1 as <-; ev; reflexivity.
Qed.

Lemma ctor_throw alloc moved o w w' : (exists x s, o = OCs x s) \/ (exists x y, o = OCopy x y) ->
  exec alloc moved o w = Ok (None, w') ->
  (forall z, w_obj w' z = w_obj w z) /\ w_next w' = w_next w /\ w_live w' = w_live w /\ w_dead w' = w_dead w.
Proof.
  intros [(x & s & ->)|(x & y & ->)] E; cbn [exec] in E; unf; (destruct (w_obj w x) eqn:Ex; [discriminate|]).
  - ev. destruct (alloc (w_next w)); ev; [discriminate|]. injection E as <-. cbn. repeat split.
    intros z. unfold upd. destruct (Nat.eqb_spec z x) as [->|n]; congruence.
  - ev. destruct (Nat.eq_dec y x) as [->|n]; ev; [discriminate|].
    destruct (w_obj w y) as [[t m]|] eqn:Ey; [|discriminate]. destruct t, m; ev; try discriminate.
    destruct (alloc (w_next w)); ev; [discriminate|]. injection E as <-. cbn. repeat split.
    intros z. unfold upd. destruct (Nat.eqb_spec z x) as [->|n']; congruence.
Qed.
