(** Category codes, box editors, raised boxes: C63 - C65. *)
From Coq Require Import List Ascii String ZArith Bool QArith Qcanon.
From Verif.Base Require Import Result Num.
From Verif.Model Require Import Token Lexer Glue Box Layout.
From Verif.Spec Require Import BoxSpec EditorSpec.
From Verif.Proofs Require Import BoxProofs EditorProofs.
Import ListNotations.

(** C63 *)
Theorem C63_special : Forall (fun p => DefaultCatCodes (fst p) = snd p) special.
Proof. exact catcodes_special. Qed.
Theorem C63_letters : forall c, DefaultCatCodes c = Letter <-> letter c.
Proof. exact catcodes_letter. Qed.
Theorem C63_other :
  forall c, (32 <= nat_of_ascii c)%nat -> nat_of_ascii c <> 127%nat -> ~ letter c ->
    ~ In c (map fst special) -> DefaultCatCodes c = Other.
Proof. exact catcodes_other. Qed.
Example C63_case : DefaultCatCodes "@"%char = Other /\ DefaultCatCodes "Z"%char = Letter /\ DefaultCatCodes "$"%char = MathShift.
Proof. repeat split. Qed.

(** C64: without a request the box is reboxed when the session ends. *)
Theorem C64_hbox_natural :
  forall (N : Num) (b : lbox N) es, Forall only_lists es ->
    b_metrics (hbox_session b es) = b_metrics (hbox (hlist_after (b_list b) es)) /\
    b_list (hbox_session b es) = hlist_after (b_list b) es.
Proof. exact @session_natural. Qed.
(** C64: the last request counts, for the list at that time. *)
Theorem C64_hbox_requested :
  forall (N : Num) (b : lbox N) es1 es2, Forall only_lists es2 ->
    let l1 := hlist_after (b_list b) es1 in
    (b_metrics (hbox_session b (es1 ++ ERebox :: es2)) = b_metrics (hbox l1) /\
     b_list (hbox_session b (es1 ++ ERebox :: es2)) = hlist_after l1 es2) /\
    forall w, b_metrics (hbox_session b (es1 ++ EReboxTo w :: es2)) = b_metrics (hbox_to l1 w) /\
     b_list (hbox_session b (es1 ++ EReboxTo w :: es2)) = hlist_after l1 es2.
Proof. exact @session_requested. Qed.
Theorem C64_vbox_natural :
  forall (N : Num) (b : lbox N) es, Forall no_request es ->
    exists b', vbox_session b es = Ok b' /\
      b_metrics b' = b_metrics (vbox (vlist_after (b_list b) es)) /\
      b_list b' = vlist_after (b_list b) es.
Proof. exact @vsession_natural. Qed.
Theorem C64_vbox_requested :
  forall (N : Num) (b : lbox N) es1 es2 e b' b2, Forall vonly_lists es2 ->
    requested e (vlist_after (b_list b) es1) = Ok b2 ->
    vbox_session b (es1 ++ e :: es2) = Ok b' ->
    b_metrics b' = b_metrics b2 /\ b_list b' = vlist_after (b_list b) (es1 ++ es2).
Proof. exact @vsession_requested. Qed.
(** C64: a height changed by hand stays if [done] is called; the total height is kept. *)
Theorem C64_vbox_done :
  forall (b : lbox QcNum) es, Forall no_rebox es -> In VEDone es ->
    exists b', vbox_session b es = Ok b' /\
      m_height (b_metrics b') = height_after (m_height (b_metrics b)) es /\
      (m_height (b_metrics b') + m_depth (b_metrics b') = m_height (b_metrics b) + m_depth (b_metrics b))%Qc /\
      m_width (b_metrics b') = m_width (b_metrics b) /\ b_list b' = vlist_after (b_list b) es.
Proof. exact vsession_done. Qed.

Definition zq (z : Z) : QcNum := Q2Qc (inject_Z z).
Definition zbox (h d w : Z) : node QcNum := NBox (mkMetrics (zq h) (zq d) (zq w)).
(* changeHeight alone is undone by the destructor *)
Theorem C64_changeHeight_refuted :
  exists (b : lbox QcNum) h b', vbox_session b [VEHeight h] = Ok b' /\ m_height (b_metrics b') <> h.
Proof.
  exists (vbox [zbox 5 2 1]), (zq 1). eexists. split; [reflexivity|].
  intros H. apply (f_equal this) in H. vm_compute in H. discriminate.
Qed.
(* a list changed after the rebox leaves stale dimensions *)
Theorem C64_stale_refuted :
  exists (b : lbox QcNum) es, b_metrics (hbox_session b es) <> b_metrics (hbox (b_list (hbox_session b es))).
Proof.
  exists (hbox [zbox 5 2 1]), [ERebox; EList [zbox 5 2 3]].
  intros H. apply (f_equal (fun m => this (m_width (N := QcNum) m))) in H. vm_compute in H. discriminate.
Qed.
Example C64_case :
  exists b', vbox_session (vbox [zbox 5 2 1]) [VEList [zbox 5 2 1; zbox 3 1 4]; VEVtop] = Ok b'
    /\ this (m_height (b_metrics b')) = 5%Q /\ this (m_depth (b_metrics b')) = 6%Q.
Proof. eexists. split; [reflexivity|]. split; vm_compute; reflexivity. Qed.

(** C65: a raised box counts with its height above the line, is drawn higher by
    the amount, and is as wide as before. *)
Theorem C65_raise :
  forall (b : lbox QcNum) (a : Qc) pre post (x y : Qc),
    let n := node_of Horizontal (raise b a) in
    item_height n = [m_height (b_metrics b) + a]%Qc /\ item_depth n = [m_depth (b_metrics b) - a]%Qc /\
    snd (hchild (N := QcNum) y x n) = (y - a)%Qc /\
    m_width (b_metrics (hbox (pre ++ n :: post))) = m_width (b_metrics (hbox (pre ++ node_of Horizontal b :: post))).
Proof. exact raise_lemma. Qed.
Theorem C65_lower : forall (N : Num) (b : lbox N) a, raise b a = lower b (nopp a).
Proof. exact @lower_raise. Qed.
Example C65_case :
  let b := hbox [node_of Horizontal (raise (hbox [zbox 5 2 1]) (zq 3)); zbox 1 1 1] in
  map this [m_height (b_metrics b); m_depth (b_metrics b)] = [8%Q; 1%Q].
Proof. vm_compute. reflexivity. Qed.

Print Assumptions C63_special.
Print Assumptions C63_letters.
Print Assumptions C63_other.
Print Assumptions C64_hbox_natural.
Print Assumptions C64_hbox_requested.
Print Assumptions C64_vbox_natural.
Print Assumptions C64_vbox_requested.
Print Assumptions C64_vbox_done.
Print Assumptions C64_changeHeight_refuted.
Print Assumptions C64_stale_refuted.
Print Assumptions C65_raise.
Print Assumptions C65_lower.
