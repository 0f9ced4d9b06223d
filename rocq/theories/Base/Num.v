(** Numbers of the model. The code computes with [float]; a model is
    parameterised by a record of operations. Results that hold for every [Num]
    hold for IEEE binary32 (instance [F32]); results about [QcNum] are about
    exact arithmetic. *)
From Coq Require Import QArith Qcanon ZArith Bool Lqa SpecFloat.
Local Open Scope Z_scope.

Record Num : Type := mkNum {
  num :> Type;
  nadd : num -> num -> num;
  nsub : num -> num -> num;
  nmul : num -> num -> num;
  ndiv : num -> num -> num;
  nltb : num -> num -> bool;
  nleb : num -> num -> bool;
  neqb : num -> num -> bool;
  nlit : Q -> num            (* a literal of the source *)
}.
Arguments nadd {n}. Arguments nsub {n}. Arguments nmul {n}. Arguments ndiv {n}.
Arguments nltb {n}. Arguments nleb {n}. Arguments neqb {n}. Arguments nlit {n}.

Definition n0 {N : Num} : N := nlit (inject_Z 0).
Definition n1 {N : Num} : N := nlit (inject_Z 1).
Definition nz {N : Num} (z : Z) : N := nlit (inject_Z z).
(** unary minus of C++ *)
Definition nopp {N : Num} (x : N) : N := nmul (nlit (inject_Z (-1))) x.
(** [std::max], [std::min] *)
Definition nmax {N : Num} (a b : N) : N := if nltb a b then b else a.
Definition nmin {N : Num} (a b : N) : N := if nltb b a then b else a.

(** Exact arithmetic. *)
Definition Qc_ltb (a b : Qc) : bool := negb (Qle_bool b a).
Definition Qc_leb (a b : Qc) : bool := Qle_bool a b.
Definition Qc_eqb (a b : Qc) : bool := Qeq_bool a b.
Definition QcNum : Num :=
  mkNum Qc Qcplus Qcminus Qcmult Qcdiv Qc_ltb Qc_leb Qc_eqb Q2Qc.

(** IEEE 754 binary32, round to nearest even.  A literal is the quotient of two
    integers, rounded once. *)
Definition f32_exact (z : Z) : spec_float :=
  match z with
  | Z0 => S754_zero false
  | Zpos p => S754_finite false p 0
  | Zneg p => S754_finite true p 0
  end.
Definition F32 : Num :=
  mkNum spec_float (SFadd 24 128) (SFsub 24 128) (SFmul 24 128) (SFdiv 24 128)
        SFltb SFleb SFeqb
        (fun q => SFdiv 24 128 (f32_exact (Qnum q)) (f32_exact (Zpos (Qden q)))).
(* 72.27f is 9472573 * 2^-17, and 16777217 rounds to even *)
Example f32_lit_ex :
  @nlit F32 (7227 # 100) = S754_finite false 9472573 (-17)
  /\ @nlit F32 (16777217 # 1) = @nlit F32 (16777216 # 1)
  /\ @nlit F32 (16777217 # 2) = S754_finite false 8388608 0.
Proof. vm_compute. repeat split. Qed.

(** * Reasoning about [Qc] *)
Lemma this_plus (a b : Qc) : (this (a + b)%Qc == this a + this b)%Q.
Proof. unfold Qcplus, Q2Qc; cbn [this]. apply Qred_correct. Qed.
Lemma this_mult (a b : Qc) : (this (a * b)%Qc == this a * this b)%Q.
Proof. unfold Qcmult, Q2Qc; cbn [this]. apply Qred_correct. Qed.
Lemma this_opp (a : Qc) : (this (- a)%Qc == - this a)%Q.
Proof. unfold Qcopp, Q2Qc; cbn [this]. apply Qred_correct. Qed.
Lemma this_minus (a b : Qc) : (this (a - b)%Qc == this a - this b)%Q.
Proof. unfold Qcminus. rewrite this_plus, this_opp. reflexivity. Qed.
Lemma this_lit (q : Q) : (this (Q2Qc q) == q)%Q.
Proof. unfold Q2Qc; cbn [this]. apply Qred_correct. Qed.

Lemma Qc_ltb_lt a b : Qc_ltb a b = true <-> (a < b)%Qc.
Proof.
  unfold Qc_ltb, Qclt. rewrite negb_true_iff, <- not_true_iff_false, Qle_bool_iff.
  split; intros H; [apply Qnot_le_lt|apply Qlt_not_le]; exact H.
Qed.
Lemma Qc_ltb_ge a b : Qc_ltb a b = false <-> (b <= a)%Qc.
Proof. unfold Qc_ltb, Qcle. rewrite negb_false_iff, Qle_bool_iff. tauto. Qed.
Lemma Qc_leb_le a b : Qc_leb a b = true <-> (a <= b)%Qc.
Proof. unfold Qc_leb, Qcle. apply Qle_bool_iff. Qed.
Lemma Qc_leb_gt a b : Qc_leb a b = false <-> (b < a)%Qc.
Proof.
  unfold Qc_leb, Qclt. rewrite <- not_true_iff_false, Qle_bool_iff.
  split; intros H; [apply Qnot_le_lt|apply Qlt_not_le]; exact H.
Qed.
Lemma Qc_eqb_eq a b : Qc_eqb a b = true <-> a = b.
Proof.
  unfold Qc_eqb. rewrite Qeq_bool_iff. split; [apply Qc_is_canon|intros ->; reflexivity].
Qed.
Lemma Qc_eqb_neq a b : Qc_eqb a b = false <-> a <> b.
Proof. rewrite <- not_true_iff_false, Qc_eqb_eq. tauto. Qed.

Ltac qc_bool := repeat match goal with
  | H : Qc_ltb _ _ = true |- _ => apply Qc_ltb_lt in H
  | H : Qc_ltb _ _ = false |- _ => apply Qc_ltb_ge in H
  | H : Qc_leb _ _ = true |- _ => apply Qc_leb_le in H
  | H : Qc_leb _ _ = false |- _ => apply Qc_leb_gt in H
  | H : Qc_eqb _ _ = true |- _ => apply Qc_eqb_eq in H
  | H : Qc_eqb _ _ = false |- _ => apply Qc_eqb_neq in H
  end.

Lemma Qc_neq_this (a b : Qc) : a <> b -> (this a < this b)%Q \/ (this b < this a)%Q.
Proof.
  intros H. destruct (Qlt_le_dec (this a) (this b)) as [L|L]; [left; exact L|].
  destruct (Qle_lt_or_eq _ _ L) as [L2|L2]; [right; exact L2|].
  exfalso. apply H. apply Qc_is_canon. symmetry. exact L2.
Qed.

(** Linear arithmetic over [Qc], by translation to [Q]. *)
Ltac qc_eqs := repeat match goal with
  | H : @eq Qc ?a ?b |- _ =>
      let E := fresh "E" in assert (E : (this a == this b)%Q) by (rewrite H; reflexivity); clear H
  | H : @eq (num QcNum) ?a ?b |- _ =>
      let E := fresh "E" in assert (E : (this a == this b)%Q) by (rewrite H; reflexivity); clear H
  | H : (?a <= ?b)%Qc |- _ => change (this a <= this b)%Q in H
  | H : (?a < ?b)%Qc |- _ => change (this a < this b)%Q in H
  | H : ~ (?a <= ?b)%Qc |- _ => apply Qcnot_le_lt in H
  | H : ~ (?a < ?b)%Qc |- _ => apply Qcnot_lt_le in H
  end.
Ltac qc_pose E :=
  let T := type of E in
  match goal with H : T |- _ => fail 1 | _ => pose proof E end.
Ltac qc_push1 t :=
  match t with
  | (?a + ?b)%Qc => qc_pose (this_plus a b)
  | (?a - ?b)%Qc => qc_pose (this_minus a b)
  | (?a * ?b)%Qc => qc_pose (this_mult a b)
  | (- ?a)%Qc => qc_pose (this_opp a)
  | Q2Qc ?q => qc_pose (this_lit q)
  end.
Ltac qc_push := repeat match goal with
  | H : context [this ?t] |- _ => qc_push1 t
  | |- context [this ?t] => qc_push1 t
  end.
Ltac qc_goal := match goal with
  | |- @eq Qc _ _ => apply Qc_is_canon
  | |- @eq (num QcNum) _ _ => apply Qc_is_canon
  | |- (?a <= ?b)%Qc => change (this a <= this b)%Q
  | |- (?a < ?b)%Qc => change (this a < this b)%Q
  | _ => idtac
  end.
Ltac qclra := qc_bool; qc_goal; qc_eqs; qc_push; unfold inject_Z in *;
  repeat match goal with
  | H : context [this ?t] |- _ => let q := fresh "q" in set (q := this t) in *; clearbody q
  | |- context [this ?t] => let q := fresh "q" in set (q := this t) in *; clearbody q
  end; Lqa.lra.
