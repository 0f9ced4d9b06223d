(** The input stream and the font parser of the page editor. *)
From Coq Require Import List Ascii String ZArith Bool Arith Lia.
From Verif.Base Require Import Result Num.
From Verif.Model Require Import Token Preprocessor PageEditor.
From Verif.Spec Require Import PageEditorSpec.
Import ListNotations.

Lemma nth_error_skipn {A} (l : list A) r : forall c, nth_error l r = Some c -> skipn r l = c :: skipn (S r) l.
Proof. revert r; induction l; intros [|r] c H; cbn in *; try discriminate; [now injection H as ->|now apply IHl]. Qed.
Lemma replace_prefix (a : list ascii) c b x : replace_nth (List.length a) c (a ++ x :: b) = a ++ c :: b.
Proof. induction a; cbn; congruence. Qed.

(** [w] characters are kept, [junk] lies between the two indices *)
Lemma crlf_loop_spec n : forall kept junk rest, n >= List.length rest ->
  let '(w, s) := crlf_loop n (List.length (kept ++ junk)) (List.length kept) (kept ++ junk ++ rest) in
  firstn w s = kept ++ filter (fun c => negb (Ascii.eqb c CR)) rest.
Proof.
  induction n as [|n IH]; intros kept junk rest L.
  - destruct rest; [|cbn in L; lia]. cbn [crlf_loop filter].
    rewrite firstn_app, firstn_all, Nat.sub_diag. cbn. now rewrite app_nil_r.
  - cbn [crlf_loop]. destruct rest as [|c rest].
    + rewrite app_nil_r. rewrite (proj2 (nth_error_None _ _)) by lia.
      rewrite firstn_app, firstn_all, Nat.sub_diag. cbn. now rewrite app_nil_r.
    + cbn in L. rewrite app_assoc, nth_error_app2, Nat.sub_diag by lia. cbn [nth_error].
      cbn [filter]. destruct (Ascii.eqb c CR) eqn:E; cbn [negb].
      * specialize (IH kept (junk ++ [c]) rest ltac:(lia)).
        replace (kept ++ (junk ++ [c]) ++ rest) with ((kept ++ junk) ++ c :: rest) in IH
          by now rewrite <- !app_assoc.
        replace (List.length (kept ++ junk ++ [c])) with (S (List.length (kept ++ junk))) in IH
          by (rewrite !app_length; cbn; lia).
        exact IH.
      * destruct junk as [|j junk].
        -- rewrite app_nil_r. rewrite replace_prefix.
           specialize (IH (kept ++ [c]) [] rest ltac:(lia)). rewrite app_nil_r in IH.
           replace (List.length (kept ++ [c])) with (S (List.length kept)) in IH
             by (rewrite app_length; cbn; lia).
           cbn [app] in IH. rewrite <- app_assoc in IH. cbn [app] in IH.
           destruct (crlf_loop _ _ _ _). rewrite IH. now rewrite <- app_assoc.
        -- rewrite <- app_assoc. cbn [app]. rewrite replace_prefix.
           specialize (IH (kept ++ [c]) (junk ++ [c]) rest ltac:(lia)).
           replace (List.length ((kept ++ [c]) ++ junk ++ [c])) with (S (List.length (kept ++ j :: junk))) in IH
             by (rewrite ?app_length; cbn; rewrite ?app_length; cbn; lia).
           replace (List.length (kept ++ [c])) with (S (List.length kept)) in IH
             by (rewrite app_length; cbn; lia).
           rewrite <- !app_assoc in IH. cbn [app] in IH.
           destruct (crlf_loop _ _ _ _). rewrite IH. now rewrite <- ?app_assoc.
Qed.
Lemma removeCRLF_filter s : removeCRLF s = filter (fun c => negb (Ascii.eqb c carriage_return)) s.
Proof.
  unfold removeCRLF. generalize (crlf_loop_spec (List.length s) [] [] s (le_n _)). cbn [app List.length].
  destruct (crlf_loop _ _ _ _). intros H. exact H.
Qed.

Lemma position_loop_spec n : forall l a b, n <= List.length l ->
  (a = [] \/ exists a', a = a' ++ [newline]) -> ~ In newline b ->
  exists a' b', (a ++ b) ++ firstn n l = a' ++ b' /\ (a' = [] \/ exists x, a' = x ++ [newline]) /\ ~ In newline b' /\
    position_loop n l (count_occ ascii_dec (a ++ b) newline) (List.length b)
    = Ok (count_occ ascii_dec ((a ++ b) ++ firstn n l) newline, List.length b').
Proof.
  induction n as [|n IH]; intros l a b L A B.
  - exists a, b. cbn [firstn position_loop]. rewrite app_nil_r. auto.
  - destruct l as [|c l]; [cbn in L; lia|]. cbn [position_loop firstn List.length] in *.
    destruct (Ascii.eqb_spec c LF) as [->|F].
    + destruct (IH l ((a ++ b) ++ [newline]) [] ltac:(lia)) as (a' & b' & E & A' & B' & P).
      { right. eauto. } { tauto. }
      exists a', b'. rewrite app_nil_r in E, P. rewrite <- app_assoc in E. split; [exact E|].
      split; [exact A'|]. split; [exact B'|]. rewrite (count_occ_app _ (a ++ b)) in P.
      cbn [count_occ] in P. destruct (ascii_dec newline newline) as [_|X]; [|now contradict X].
      rewrite Nat.add_comm in P. cbn [Nat.add] in P. cbn [List.length] in P. rewrite P.
      now rewrite <- app_assoc.
    + destruct (IH l a (b ++ [c]) ltac:(lia) A) as (a' & b' & E & A' & B' & P).
      { intros [X|[X|[]]]%in_app_iff; [tauto|]. now apply F. }
      exists a', b'. rewrite (app_assoc a b [c]), <- (app_assoc (a ++ b)) in E. split; [exact E|].
      split; [exact A'|]. split; [exact B'|].
      rewrite (app_assoc a b [c]), <- (app_assoc (a ++ b) [c]) in P.
      rewrite (count_occ_app _ (a ++ b) [c]) in P. cbn [count_occ] in P.
      destruct (ascii_dec c newline) as [X|_]; [now exfalso; apply F|].
      rewrite Nat.add_0_r, (app_length b) in P. cbn [List.length] in P. rewrite Nat.add_comm in P. exact P.
Qed.
Lemma position_ok text pos : pos <= List.length text ->
  exists line col, position (mkStream text pos) = Ok (line, col) /\ position_of (firstn pos text) line col.
Proof.
  intros L. destruct (position_loop_spec pos text [] [] L) as (a & b & E & A & B & P); [now left|easy|].
  cbn [app] in E, P. unfold position. cbn [st_pos st_text]. cbn [count_occ List.length] in P. rewrite P.
  do 2 eexists. split; [reflexivity|]. exists a, b. auto.
Qed.
Lemma position_past n : forall l i j, List.length l < n -> position_loop n l i j = Throw.
Proof.
  induction n as [|n IH]; intros l i j L; [lia|]. destruct l as [|c l]; [reflexivity|]. cbn [List.length position_loop] in *.
  destruct (Ascii.eqb c LF); apply IH; lia.
Qed.
Lemma last_line_unique (a b a' b' : list ascii) : a ++ b = a' ++ b' ->
  (a = [] \/ exists x, a = x ++ [newline]) -> ~ In newline b ->
  (a' = [] \/ exists x, a' = x ++ [newline]) -> ~ In newline b' -> List.length b = List.length b'.
Proof.
  revert a' b'. induction a as [|x a IH]; intros a' b' E A B A' B'.
  - destruct A' as [->|[y ->]]; [cbn in E; now subst|]. exfalso. apply B. cbn in E. rewrite E.
    rewrite <- app_assoc. apply in_app_iff. right. now left.
  - destruct a' as [|x' a'].
    + exfalso. apply B'. cbn in E. rewrite <- E. destruct A as [A|[y A]]; [discriminate|].
      change (x :: a ++ b) with ((x :: a) ++ b). rewrite A, <- app_assoc. apply in_app_iff. right. now left.
    + cbn in E. injection E as <- E. apply (IH a' b' E); auto.
      * destruct a as [|z a]; [now left|]. right. destruct A as [A|[y A]]; [discriminate|].
        destruct y as [|y0 y]; [discriminate|]. exists y. cbn in A. now injection A as _ A.
      * destruct a' as [|z a']; [now left|]. right. destruct A' as [A'|[y A']]; [discriminate|].
        destruct y as [|y0 y]; [discriminate|]. exists y. cbn in A'. now injection A' as _ A'.
Qed.
Lemma position_iff text pos line col : pos <= List.length text ->
  position (mkStream text pos) = Ok (line, col) <-> position_of (firstn pos text) line col.
Proof.
  intros L. destruct (position_ok text pos L) as (l & c & P & a & b & E & A & B & Hl & Hc). split.
  - rewrite P. intros [= <- <-]. exists a, b. auto.
  - intros (a' & b' & E' & A' & B' & -> & ->). rewrite P. subst l c. do 2 f_equal.
    eapply last_line_unique; [rewrite <- E; exact E'| | | |]; auto.
Qed.
Lemma reads_spec text : forall n pos, pos + n <= List.length text ->
  reads n (mkStream text pos) = Ok (firstn n (skipn pos text), mkStream text (pos + n)).
Proof.
  induction n as [|n IH]; intros pos L; cbn [reads]; [now rewrite Nat.add_0_r|].
  unfold read. cbn [st_pos st_text].
  destruct (nth_error text pos) as [c|] eqn:E; [|apply nth_error_None in E; lia].
  cbn [bind snd fst]. rewrite IH by lia. cbn [bind fst snd].
  rewrite (nth_error_skipn _ _ _ E). cbn [firstn]. do 3 f_equal. lia.
Qed.

(** ** Font parser *)
Lemma fp_spec_chars n l : forall done, ~ In "}"%char l ->
  foldM fp_write l (mkFPr ParseFontSpec n done) = Ok (mkFPr ParseFontSpec n (done ++ l)).
Proof.
  induction l as [|c l IH]; intros done F; cbn [foldM]; [now rewrite app_nil_r|].
  unfold fp_write at 1. cbn [fp_st fp_name fp_spec].
  destruct (Ascii.eqb_spec c "}"%char) as [->|_]; [exfalso; apply F; now left|].
  cbn [bind]. rewrite IH by (intros X; apply F; now right). now rewrite <- app_assoc.
Qed.
