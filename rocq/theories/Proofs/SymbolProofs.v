(** The symbol table of the math front end. *)
From Coq Require Import List Ascii String ZArith Bool.
From Verif.Base Require Import Result.
From Verif.Model Require Import Token Lexer MathList MathParser MathFrontend.
From Verif.Spec Require Import SymbolSpec.
From Verif.Proofs Require Import LexerProofs.
Import ListNotations.
Local Open Scope Z_scope.

Lemma assoc_In {A} n (l : list (string * A)) v : assoc n l = Some v -> exists k, n = str k /\ In (k, v) l.
Proof.
  induction l as [|[k w] l IH]; [discriminate|]. cbn. destruct (name_eqb_spec n (str k)) as [->|].
  - intros [= ->]. eauto.
  - intros H. destruct (IH H) as (k' & -> & I). eauto.
Qed.
Lemma str_inj a b : str a = str b -> a = b.
Proof.
  intros H. rewrite <- (string_of_list_ascii_of_string a), <- (string_of_list_ascii_of_string b).
  unfold str in H. now rewrite H.
Qed.
Definition inb (k : string) (z : Z) (l : list (string * Z)) : bool :=
  existsb (fun p => String.eqb (fst p) k && Z.eqb (snd p) z) l.
Lemma inb_In k z l : inb k z l = true <-> In (k, z) l.
Proof.
  unfold inb. rewrite existsb_exists. split.
  - intros ([a b] & I & H). cbn in H. apply andb_prop in H as [H1 H2]. apply String.eqb_eq in H1. apply Z.eqb_eq in H2. now subst.
  - intros I. exists (k, z). split; [exact I|]. cbn. now rewrite String.eqb_refl, Z.eqb_refl.
Qed.
Definition inS (k : string) (l : list string) : bool := existsb (String.eqb k) l.
Lemma inS_In k l : inS k l = true <-> In k l.
Proof.
  unfold inS. rewrite existsb_exists. split.
  - intros (x & I & H). apply String.eqb_eq in H. now subst.
  - intros I. exists k. split; [exact I|apply String.eqb_refl].
Qed.

(** ** Codes *)
Lemma codes_table : forallb (fun e => inb (fst e) (snd (snd e)) plain_codes) symbolsmap = true.
Proof. vm_compute. reflexivity. Qed.
Lemma symbol_codes k c code : assoc (str k) symbolsmap = Some (c, code) -> In (k, code) plain_codes.
Proof.
  intros H. apply assoc_In in H as (k' & E & I). apply str_inj in E. subst k'.
  pose proof (proj1 (forallb_forall _ _) codes_table _ I) as T. now apply inb_In in T.
Qed.
Definition missing : list string :=
  ["heartsuit"; "intop"; "ointop"; "smallint"; "nearrow"; "searrow"; "nwarrow"; "swarrow"; "Leftrightarrow";
   "Leftarrow"; "Rightarrow"; "not"; "leftrightarrow"; "leftarrow"; "rightarrow"; "mapstochar";
   "leftharpoonup"; "leftharpoondown"; "rightharpoonup"; "rightharpoondown"]%string.
Definition isNone {A} (o : option A) : bool := match o with None => true | _ => false end.
Lemma missing_table : forallb (fun e => Bool.eqb (isNone (assoc (str (fst e)) symbolsmap)) (inS (fst e) missing)) plain_codes = true.
Proof. vm_compute. reflexivity. Qed.
Lemma symbol_missing k code : In (k, code) plain_codes -> assoc (str k) symbolsmap = None <-> In k missing.
Proof.
  intros I. pose proof (proj1 (forallb_forall _ _) missing_table _ I) as T. cbn [fst snd] in T. apply eqb_prop in T.
  rewrite <- inS_In, <- T. destruct (assoc (str k) symbolsmap); cbn; split; congruence.
Qed.

(** ** Characters *)
Definition wrong : list string :=
  ["sum"; "prod"; "bigcap"; "bigcup"; "bigsqcup"; "bigvee"; "bigwedge"; "bigodot"; "bigotimes"; "bigoplus"; "biguplus";
   "cdot"; "circ"; "bullet"; "triangleleft"; "amalg"; "sqsupseteq"; "ni"]%string.
Lemma chars_table : forallb (fun e => Bool.eqb (inb (fst e) (fst (snd e)) unicode_symbols) (negb (inS (fst e) wrong))) symbolsmap = true.
Proof. vm_compute. reflexivity. Qed.
Lemma symbol_chars k c code : assoc (str k) symbolsmap = Some (c, code) -> In (k, c) unicode_symbols <-> ~ In k wrong.
Proof.
  intros H. apply assoc_In in H as (k' & E & I). apply str_inj in E. subst k'.
  pose proof (proj1 (forallb_forall _ _) chars_table _ I) as T. cbn [fst snd] in T. apply eqb_prop in T.
  rewrite <- inb_In, T, negb_true_iff, <- inS_In. destruct (inS k wrong); split; congruence.
Qed.

(** ** What becomes of a control sequence *)
Definition sym_eqb (a b : sym) : bool := Z.eqb (s_char a) (s_char b) && Z.eqb (s_class a) (s_class b) && Z.eqb (s_fam a) (s_fam b).
Lemma sym_eqb_refl a : sym_eqb a a = true. Proof. unfold sym_eqb. now rewrite !Z.eqb_refl. Qed.
Definition symbol_of (e : string * (Z * Z)) : sym := writeMathChar fam (fst (snd e)) (snd (snd e)).
Definition twins : list (string * string) :=
  [("cdot", "odot"); ("circ", "bigcirc"); ("sqsubseteq", "sqsupseteq")]%string.
Definition twin (a b : string) : bool :=
  existsb (fun p => (String.eqb (fst p) a && String.eqb (snd p) b) || (String.eqb (fst p) b && String.eqb (snd p) a)) twins.
Lemma twins_table : forallb (fun e => forallb (fun e' => implb (sym_eqb (symbol_of e) (symbol_of e'))
    (String.eqb (fst e) (fst e') || twin (fst e) (fst e'))) symbolsmap) symbolsmap = true.
Proof. vm_compute. reflexivity. Qed.
Lemma not_call : forallb (fun e => isNone (assoc (str (fst e)) csmap)) symbolsmap = true.
Proof. vm_compute. reflexivity. Qed.
Lemma csmap_calls n c : assoc n csmap = Some c -> forall x, c <> CSym x.
Proof.
  intros H x ->. apply assoc_In in H as (k & _ & I). cbn in I. repeat (destruct I as [I|I]; [discriminate I|]). destruct I.
Qed.
Lemma cs_symbol n x : cs_call n = Ok (CSym x) <-> exists e, In e symbolsmap /\ n = str (fst e) /\ x = symbol_of e /\ assoc n symbolsmap = Some (snd e).
Proof.
  unfold cs_call. split.
  - destruct (assoc n csmap) as [c|] eqn:C; [intros [= ->]; exfalso; exact (csmap_calls n _ C x eq_refl)|].
    destruct (assoc n symbolsmap) as [[c code]|] eqn:A; [|discriminate]. intros [= <-].
    apply assoc_In in A as X. destruct X as (k & -> & I). exists (k, (c, code)). auto.
  - intros (e & I & -> & -> & A). pose proof (proj1 (forallb_forall _ _) not_call _ I) as T. cbn [fst snd] in T.
    destruct (assoc (str (fst e)) csmap); [discriminate|]. rewrite A. destruct e as [k [c code]]. reflexivity.
Qed.
Lemma symbols_distinct a b x : cs_call (str a) = Ok (CSym x) -> cs_call (str b) = Ok (CSym x) -> a = b \/ twin a b = true.
Proof.
  intros HA HB. apply cs_symbol in HA as (ea & IA & EA & XA & _). apply cs_symbol in HB as (eb & IB & EB & XB & _).
  apply str_inj in EA, EB. subst a b.
  pose proof (proj1 (forallb_forall _ _) (proj1 (forallb_forall _ _) twins_table _ IA) _ IB) as T. cbn [fst snd] in T.
  rewrite <- XA, <- XB, sym_eqb_refl in T. cbn [implb] in T. apply orb_prop in T as [T|T]; [left; now apply String.eqb_eq|now right].
Qed.
(** the class and the family of the symbol are those of the code *)
Definition plain_class (code : Z) : Z := if code / 4096 =? 7 then 0 else code / 4096.
Definition class_ok (e : string * (Z * Z)) : bool :=
  Z.eqb (s_class (symbol_of e)) (plain_class (snd (snd e))) && Z.eqb (s_fam (symbol_of e)) (snd (snd e) / 256 mod 16) &&
  Z.eqb (s_char (symbol_of e)) (fst (snd e)).
Lemma class_table : forallb class_ok symbolsmap = true.
Proof. vm_compute. reflexivity. Qed.
Lemma symbol_meaning k code : In (k, code) plain_codes -> ~ In k missing ->
  exists x, cs_call (str k) = Ok (CSym x) /\ s_class x = (if code / 4096 =? 7 then 0 else code / 4096) /\
    s_fam x = code / 256 mod 16 /\ (In (k, s_char x) unicode_symbols <-> ~ In k wrong).
Proof.
  intros I M. destruct (assoc (str k) symbolsmap) as [[c cd]|] eqn:A; [|exfalso; apply M; eapply symbol_missing; eauto].
  pose proof (symbol_codes _ _ _ A) as I'. apply assoc_In in A as X. destruct X as (k' & E & IS). apply str_inj in E. subst k'.
  assert (U : cd = code).
  { assert (T : forallb (fun e => forallb (fun e' => implb (String.eqb (fst e) (fst e')) (Z.eqb (snd e) (snd e'))) plain_codes) plain_codes = true)
      by (vm_compute; reflexivity).
    pose proof (proj1 (forallb_forall _ _) (proj1 (forallb_forall _ _) T _ I') _ I) as V. cbn [fst snd] in V.
    rewrite String.eqb_refl in V. now apply Z.eqb_eq in V. }
  subst cd. exists (symbol_of (k, (c, code))).
  pose proof (proj1 (forallb_forall _ _) class_table _ IS) as T. unfold class_ok in T.
  apply andb_prop in T as [T T3]. apply andb_prop in T as [T1 T2]. apply Z.eqb_eq in T1, T2, T3.
  split; [apply cs_symbol; exists (k, (c, code)); auto|]. split; [exact T1|]. split; [exact T2|]. rewrite T3. exact (symbol_chars _ _ _ A).
Qed.
Lemma unknown_throws n : (forall k, In k (List.map fst symbolsmap ++ List.map fst csmap) -> n <> str k) -> cs_call n = Throw.
Proof.
  intros H. unfold cs_call. destruct (assoc n csmap) as [c|] eqn:C.
  - apply assoc_In in C as (k & -> & I). exfalso. apply (H k); [|reflexivity]. apply in_or_app. right. apply (in_map fst) in I. exact I.
  - destruct (assoc n symbolsmap) as [[c code]|] eqn:A; [|reflexivity]. apply assoc_In in A as (k & -> & I). exfalso. apply (H k); [|reflexivity].
    apply in_or_app. left. apply (in_map fst) in I. exact I.
Qed.
