From Coq Require Import List Ascii String QArith Qcanon ZArith Bool Arith Lia Lqa SpecFloat.
From Verif.Base Require Import Result Num.
From Verif.Model Require Import Token Glue Dimen DimenParser.
From Verif.Spec Require Import DimenSpec.
From Verif.Proofs Require Import DimenProofs.
Import ListNotations.
Local Open Scope char_scope.

Lemma phy_table_iff s u : In (s, u) physical_units <-> s = phy_kw u.
Proof.
  split.
  - cbn [physical_units In]. intros H. repeat (destruct H as [H|H]; [injection H as <- <-; reflexivity|]). destruct H.
  - intros ->. destruct u; cbn [phy_kw physical_units In]; tauto.
Qed.
Lemma unit_table_iff s u : In (s, u) other_units <-> s = unit_kw u.
Proof.
  split.
  - cbn [other_units In]. intros H. repeat (destruct H as [H|H]; [injection H as <- <-; reflexivity|]). destruct H.
  - intros ->. destruct u; cbn [unit_kw other_units In]; tauto.
Qed.
Lemma phy_recognised s u : Forall (fun c => c <> NUL) s -> str2phyunit s = Some u <-> In (s, u) physical_units.
Proof. intros H. rewrite phy_table_iff. apply str2phyunit_iff. exact H. Qed.
Lemma unit_recognised s u : Forall (fun c => c <> NUL) s -> str2unit s = Some u <-> In (s, u) other_units.
Proof. intros H. rewrite unit_table_iff. apply str2unit_iff. exact H. Qed.

Lemma phy_exact (v : Qc) u :
  dimen_phy (N := QcNum) v u = mkDimen (N := QcNum) (v * Q2Qc (points u))%Qc UPt.
Proof.
  unfold dimen_phy.
  assert (E : forall a b : QcNum, this a == this b -> mkDimen (N := QcNum) a UPt = mkDimen (N := QcNum) b UPt).
  { intros a b H. f_equal. apply Qc_is_canon. exact H. }
  apply E. destruct u; cbn [phy_factor points].
  - rewrite this_mult, this_lit. ring.
  - unfold PointPerPica. cbn [nmul nlit QcNum]. reflexivity.
  - reflexivity.
  - unfold PointPerInch. cbn [nmul ndiv nlit QcNum]. rewrite !this_mult. apply Qmult_comp; [reflexivity|]. vm_compute. reflexivity.
  - unfold PointPerInch, CentimeterPerInch. cbn [nmul ndiv nlit QcNum]. rewrite !this_mult. apply Qmult_comp; [reflexivity|]. vm_compute. reflexivity.
  - unfold PointPerInch, CentimeterPerInch. cbn [nmul ndiv nlit QcNum]. rewrite (this_mult v). rewrite (this_mult v). apply Qmult_comp; [reflexivity|]. vm_compute. reflexivity.
  - cbn [nmul ndiv nlit QcNum]. rewrite !this_mult. apply Qmult_comp; [reflexivity|]. vm_compute. reflexivity.
  - cbn [nmul ndiv nlit QcNum]. rewrite (this_mult v). rewrite (this_mult v). apply Qmult_comp; [reflexivity|]. vm_compute. reflexivity.
Qed.

Lemma eval_linear (a : Qc) (d : dimen QcNum) (us : unitsystem QcNum) (x : Qc) :
  d_eval d us = Ok x -> d_eval (d_mul_l (N := QcNum) a d) us = Ok (a * x)%Qc
                       /\ d_eval (d_mul_r (N := QcNum) d a) us = Ok (a * x)%Qc.
Proof.
  unfold d_eval, d_mul_l, d_mul_r. cbn [d_unit d_value]. destruct (d_unit d); intros H; try discriminate;
  injection H as <-; cbn [nmul QcNum num]; split; f_equal; cbn [num QcNum]; ring.
Qed.

Lemma factors_close u :
  match phy_factor (N := F32) u with None => u = Point | Some f => close f (points u) = true end.
Proof. destruct u; vm_compute; reflexivity. Qed.

Lemma strict_ok f : factor_strict f -> factor_ok f.
Proof.
  intros [Hw Hf]. destruct f as [w fr]; unfold factor_ok, factor_text; cbn [f_whole f_frac] in *.
  assert (P : forall s, Forall digit s -> plain s).
  { intros s. apply Forall_impl. intros c D. split; [apply digit_not_lower|apply digit_not_sep]; exact D. }
  split; [apply P; exact Hw|]. destruct fr as [[c b]|].
  - destruct Hf as [Hc Hb]. split; [split; [exact Hc|apply P; exact Hb]|].
    destruct w as [|x w]; [right; exact Hc|left; exact (Forall_inv Hw)].
  - split; [exact I|]. rewrite app_nil_r. destruct w as [|x w]; [congruence|left; exact (Forall_inv Hw)].
Qed.

Lemma finish_any (N : Num) in_range s f kw w :
  Forall sign s -> factor_ok f -> (exists u k, keyword kw u k) -> ends w ->
  in_range (Qred (factor_value f)) = true ->
  exists p, dp_writes dp_init ((s ++ factor_text f ++ kw) ++ w) = Ok p
    /\ forall value, value = nmul (nlit (Qred (factor_value f))) (nz (if negative s then -1 else 1)) ->
       (forall pu, In (kw, pu) physical_units ->
          dp_finish (N := N) in_range p = Ok (dimen_phy value pu))
       /\ (forall u, In (kw, u) other_units -> u <> UPt ->
          dp_finish (N := N) in_range p = Ok (mkDimen value u)).
Proof.
  intros Hs Hf (u0 & k0 & Hk) Hw Hr. eexists. split; [apply (writes_dim s f kw u0 k0 w); assumption|].
  intros value ->.
  assert (G : forall st n d, st = st ->
     dp_finish (N := N) in_range (mkDP st n (factor_stored f) d kw)
     = match str2phyunit kw with
       | Some pu => Ok (dimen_phy (nmul (nlit (Qred (factor_value f))) (nz (if n then -1 else 1))) pu)
       | None => Ok (mkDimen (nmul (nlit (Qred (factor_value f))) (nz (if n then -1 else 1)))
                             (match str2unit kw with Some u => u | None => UFilll end))
       end).
  { intros st n d _. unfold dp_finish. cbn [dp_factor dp_neg dp_unit]. rewrite stof_factor, Hr by exact Hf. reflexivity. }
  split.
  - intros pu Hp. apply phy_table_iff in Hp. subst kw.
    destruct w; unfold pU, pE; rewrite G by reflexivity; destruct pu; reflexivity.
  - intros u Hu Hn. apply unit_table_iff in Hu. subst kw.
    destruct w; unfold pU, pE; rewrite G by reflexivity; destruct u; try congruence; reflexivity.
Qed.

Lemma digits_b s : forallb is_digit s = true -> Forall digit s.
Proof. rewrite forallb_forall, Forall_forall. intros H c Hc. apply is_digit_iff. auto. Qed.
